(** Lemmas about grids and energy content. *)
From Coq Require Import Reals ZArith List Lra Lia Sorted.
From Verif Require Import TrapzModel TrapzSpec TrapzProofs EnergyModel.
Import ListNotations.
Local Open Scope R_scope.

Lemma npoints_ge x : (10 <= npoints x)%nat.
Proof. unfold npoints. lia. Qed.

Lemma linspace_length a b n : length (linspace a b n) = n.
Proof. unfold linspace. now rewrite map_length, seq_length. Qed.

Lemma linspace_nth a b n i d : (i < n)%nat ->
  nth i (linspace a b n) d = if Nat.eqb (S i) n then b else a + INR i * ((b - a) / INR (n - 1)).
Proof.
  intros H. unfold linspace.
  set (f := fun i0 => if Nat.eqb (S i0) n then b else a + INR i0 * ((b - a) / INR (n - 1))).
  rewrite nth_indep with (d' := f O) by (rewrite map_length, seq_length; auto).
  rewrite map_nth, seq_nth by auto. reflexivity.
Qed.

Lemma linspace_nth_uniform a b n i d : (2 <= n)%nat -> (i < n)%nat ->
  nth i (linspace a b n) d = a + INR i * ((b - a) / INR (n - 1)).
Proof.
  intros Hn H. rewrite linspace_nth by auto. destruct (Nat.eqb_spec (S i) n) as [E|E]; auto.
  replace i with (n - 1)%nat by lia. field. apply not_0_INR. lia.
Qed.

Lemma logspace_length a b n : length (logspace a b n) = n.
Proof. unfold logspace. now rewrite map_length, linspace_length. Qed.

Lemma logspace_nth a b n i d : (2 <= n)%nat -> (i < n)%nat ->
  nth i (logspace a b n) d = pow10 (a + INR i * ((b - a) / INR (n - 1))).
Proof.
  intros Hn H. unfold logspace. rewrite nth_indep with (d' := pow10 0) by (rewrite map_length, linspace_length; auto).
  rewrite map_nth, linspace_nth_uniform by auto. reflexivity.
Qed.

Lemma pow10_log10 y : 0 < y -> pow10 (log10 y) = y.
Proof.
  intros. unfold pow10, log10, Rpower. pose proof ln10_pos.
  replace (ln y / ln 10 * ln 10) with (ln y) by (field; lra). apply exp_ln; auto.
Qed.

Lemma pow10_lt a b : a < b -> pow10 a < pow10 b.
Proof. intros. apply Rpower_lt; lra. Qed.

Lemma pow10_pos a : 0 < pow10 a.
Proof. apply exp_pos. Qed.

Lemma log10_div a b : 0 < a -> 0 < b -> log10 (a / b) = log10 a - log10 b.
Proof. intros. unfold log10. rewrite ln_div by auto. pose proof ln10_pos. field. lra. Qed.

Lemma log10_lt a b : 0 < a -> a < b -> log10 a < log10 b.
Proof.
  intros. unfold log10. pose proof ln10_pos. apply Rmult_lt_compat_r; [apply Rinv_0_lt_compat; auto|].
  apply ln_increasing; auto.
Qed.

Lemma nth_ext_R (l : list R) : forall i, (i < length l)%nat -> In (nth i l 0) l.
Proof. intros. apply nth_In; auto. Qed.

Lemma sorted_of_nth (l : list R) :
  (forall i j, (i < j)%nat -> (j < length l)%nat -> nth i l 0 < nth j l 0) -> StronglySorted Rlt l.
Proof.
  induction l as [|x l IH]; intros H; constructor.
  - apply IH. intros i j Hij Hj. apply (H (S i) (S j)); simpl; lia.
  - apply Forall_forall. intros y Hy. apply (In_nth _ _ 0) in Hy. destruct Hy as (j & Hj & <-).
    apply (H O (S j)); simpl; lia.
Qed.

Lemma logspace_grid a b n : (2 <= n)%nat -> a < b -> grid (logspace a b n).
Proof.
  intros Hn Hab. split.
  - apply Forall_forall. intros x Hx. unfold logspace in Hx. apply in_map_iff in Hx. destruct Hx as (y & <- & _).
    apply pow10_pos.
  - apply sorted_of_nth. rewrite logspace_length. intros i j Hij Hj.
    rewrite !logspace_nth by lia. apply pow10_lt.
    assert (0 < (b - a) / INR (n - 1)) by (apply div_pos; [lra|]; apply lt_0_INR; lia).
    assert (INR i < INR j) by (apply lt_INR; auto). nra.
Qed.

Lemma grid_scale k l : 0 < k -> grid l -> grid (map (fun x => x * k) l).
Proof.
  intros Hk [HP HS]. split.
  - apply Forall_forall. intros x Hx. apply in_map_iff in Hx. destruct Hx as (y & <- & Hy).
    rewrite Forall_forall in HP. apply Rmult_lt_0_compat; auto.
  - clear HP. induction HS as [|x l HS IH HF]; simpl; constructor; auto.
    rewrite Forall_forall in *. intros y Hy. apply in_map_iff in Hy. destruct Hy as (z & <- & Hz).
    apply Rmult_lt_compat_r; auto.
Qed.

Lemma log10_ratio mec2 lo hi : 0 < mec2 -> 0 < lo -> lo < hi -> log10 (lo / mec2) < log10 (hi / mec2).
Proof.
  intros. apply log10_lt; [apply div_pos; lra|]. apply Rmult_lt_compat_r; auto. apply Rinv_0_lt_compat; auto.
Qed.

Lemma gam_grid mec2 n lo hi : 0 < mec2 -> 0 < lo -> lo < hi -> grid (gam mec2 n lo hi).
Proof.
  intros. unfold gam. apply logspace_grid; [|apply log10_ratio; auto].
  pose proof (npoints_ge (n * (log10 (hi / mec2) - log10 (lo / mec2)))). lia.
Qed.

Lemma Ep_same GeV n lo hi : 0 < GeV -> 0 < lo -> 0 < hi -> Ep GeV n lo hi = Ep_explicit GeV n lo hi.
Proof.
  intros. unfold Ep, Ep_explicit. do 2 f_equal. rewrite !log10_div by auto. ring.
Qed.

Lemma Ep_grid GeV n lo hi : 0 < GeV -> 0 < lo -> lo < hi -> grid (Ep GeV n lo hi).
Proof.
  intros. unfold Ep. apply logspace_grid; [|apply log10_ratio; auto].
  pose proof (npoints_ge (n * log10 (hi / lo))). lia.
Qed.

(** ** Linearity *)
Lemma mul2_map (f g : R -> R) l : mul2 (map f l) (map g l) = map (fun x => f x * g x) l.
Proof. unfold mul2. induction l; simpl; congruence. Qed.

Lemma mul2_id (g : R -> R) l : mul2 l (map g l) = map (fun x => x * g x) l.
Proof. unfold mul2. induction l; simpl; congruence. Qed.

Lemma electron_energy_map mec2 pd gs :
  electron_energy mec2 pd gs
  = trapz_loglog (map (fun g => g * (pd (g * mec2) * mec2)) gs) (map (fun g => g * mec2) gs).
Proof. unfold electron_energy, nelec. now rewrite mul2_id. Qed.

Lemma trapz_map_scale c (f : R -> R) gs xs : 0 < c ->
  trapz_loglog (map (fun g => c * f g) gs) xs = c * trapz_loglog (map f gs) xs.
Proof. intros. rewrite <- trapz_scale_y by auto. now rewrite map_map. Qed.

Lemma trapz_zeros {A} (gs : list A) xs : trapz_loglog (map (fun _ => 0) gs) xs = 0.
Proof.
  unfold trapz_loglog. revert xs. induction gs as [|g gs IH]; intros [|x xs]; simpl; auto.
  - destruct gs; reflexivity.
  - destruct gs as [|g' gs]; simpl; auto. destruct xs as [|x' xs]; simpl; auto.
    unfold interval at 1. destruct (Req_EM_T 0 0); [|lra]. rewrite Rplus_0_l. exact (IH (x' :: xs)).
Qed.

Lemma trapz_map_scale0 c (f : R -> R) gs xs : 0 <= c ->
  trapz_loglog (map (fun g => c * f g) gs) xs = c * trapz_loglog (map f gs) xs.
Proof.
  intros [H|H]; [apply trapz_map_scale; auto|]. subst c.
  rewrite (map_ext _ (fun _ => 0)) by (intros; ring). rewrite Rmult_0_l. apply trapz_zeros.
Qed.

Lemma electron_energy_scale c mec2 pd gs : 0 <= c ->
  electron_energy mec2 (fun E => c * pd E) gs = c * electron_energy mec2 pd gs.
Proof.
  intros. rewrite !electron_energy_map, <- trapz_map_scale0 by auto. f_equal. apply map_ext. intros; ring.
Qed.

Lemma electron_energy_ext mec2 f g gs : (forall E, f E = g E) -> electron_energy mec2 f gs = electron_energy mec2 g gs.
Proof. intros. rewrite !electron_energy_map. f_equal. apply map_ext. intros. now rewrite H. Qed.

Lemma compute_We_scale c mec2 n pd smin smax lo hi : 0 <= c ->
  compute_We mec2 n (fun E => c * pd E) smin smax lo hi = c * compute_We mec2 n pd smin smax lo hi.
Proof. intros. destruct lo, hi; apply electron_energy_scale; auto. Qed.

Lemma compute_We_ext mec2 n f g smin smax lo hi : (forall E, f E = g E) ->
  compute_We mec2 n f smin smax lo hi = compute_We mec2 n g smin smax lo hi.
Proof. intros. destruct lo, hi; apply electron_energy_ext; auto. Qed.

(** ** Positivity of the energy content *)
Lemma electron_energy_pos mec2 pd n lo hi : 0 < mec2 -> 0 < lo -> lo < hi ->
  (forall E, lo <= E <= hi -> 0 < pd E) -> 0 < electron_energy mec2 pd (gam mec2 n lo hi).
Proof.
  intros Hm Hlo Hhi HP.
  assert (HG := gam_grid mec2 n lo hi Hm Hlo Hhi).
  assert (HR : forall g, In g (gam mec2 n lo hi) -> 0 < g /\ lo <= g * mec2 <= hi).
  { intros g Hg. apply (In_nth _ _ 0) in Hg. destruct Hg as (i & Hi & <-). unfold gam in *.
    set (m := npoints _) in *. rewrite logspace_length in Hi.
    pose proof (npoints_ge (n * (log10 (hi / mec2) - log10 (lo / mec2)))) as H10. fold m in H10.
    rewrite logspace_nth by lia. split; [apply pow10_pos|].
    pose proof (log10_ratio mec2 lo hi Hm Hlo Hhi) as HL.
    set (a := log10 (lo / mec2)) in *. set (b := log10 (hi / mec2)) in *.
    assert (Pn : 0 < INR (m - 1)) by (apply lt_0_INR; lia).
    assert (0 <= INR i <= INR (m - 1)) by (split; [apply pos_INR|apply le_INR; lia]).
    assert (Ht : 0 <= INR i * ((b - a) / INR (m - 1)) <= b - a).
    { split.
      - apply Rmult_le_pos; [lra|]. apply Rlt_le, div_pos; lra.
      - apply Rle_trans with (INR (m - 1) * ((b - a) / INR (m - 1))).
        + apply Rmult_le_compat_r; [apply Rlt_le, div_pos; lra|lra].
        + right. field. lra. }
    set (t := INR i * ((b - a) / INR (m - 1))) in *.
    assert (M : forall u v, u <= v -> pow10 u <= pow10 v).
    { intros u v [Huv| ->]; [apply Rlt_le, pow10_lt; auto|lra]. }
    assert (El : pow10 a = lo / mec2) by (apply pow10_log10; apply div_pos; lra).
    assert (Eh : pow10 b = hi / mec2) by (apply pow10_log10; apply div_pos; lra).
    assert (lo / mec2 <= pow10 (a + t)) by (rewrite <- El; apply M; lra).
    assert (pow10 (a + t) <= hi / mec2) by (rewrite <- Eh; apply M; lra).
    split.
    - apply Rle_trans with (lo / mec2 * mec2); [right; field; lra|]. apply Rmult_le_compat_r; lra.
    - apply Rle_trans with (hi / mec2 * mec2); [|right; field; lra]. apply Rmult_le_compat_r; lra. }
  rewrite electron_energy_map.
  assert (HLen : (10 <= length (gam mec2 n lo hi))%nat) by (unfold gam; rewrite logspace_length; apply npoints_ge).
  destruct (gam mec2 n lo hi) as [|g1 [|g2 gs]]; [simpl in HLen; lia..|].
  assert (P : forall g, In g (g1 :: g2 :: gs) -> 0 < g * (pd (g * mec2) * mec2)).
  { intros g Hg. destruct (HR g Hg) as [Pg B]. repeat apply Rmult_lt_0_compat; auto. }
  simpl map. apply trapz_pos.
  - exact (grid_scale mec2 (g1 :: g2 :: gs) Hm HG).
  - apply P; simpl; auto.
  - apply P; simpl; auto.
  - apply Forall_forall. intros y Hy. apply in_map_iff in Hy. destruct Hy as (g & <- & Hg).
    apply Rlt_le, P. simpl; auto.
Qed.

(** The proton energy content is the electron formula with GeV for mec2. *)
Lemma trapz_units k ys xs : 0 < k -> Forall (fun x => x <> 0) xs ->
  trapz_loglog ys (map (fun x => x * k) xs) = trapz_loglog ys xs * k.
Proof.
  intros. rewrite Rmult_comm, <- trapz_scale_x by auto. f_equal. apply map_ext. intros; ring.
Qed.

Lemma logspace_nonzero a b n : Forall (fun x => x <> 0) (logspace a b n).
Proof.
  apply Forall_forall. intros x Hx. apply in_map_iff in Hx. destruct Hx as (y & <- & _).
  pose proof (pow10_pos y). lra.
Qed.

Lemma Wp_as_electron GeV n pd lo hi : 0 < GeV -> 0 < lo -> 0 < hi ->
  Wp GeV n pd lo hi = electron_energy GeV pd (gam GeV n lo hi).
Proof.
  intros. unfold Wp. rewrite Ep_same by auto. unfold Ep_explicit. fold (gam GeV n lo hi).
  rewrite electron_energy_map. unfold J. rewrite mul2_id. rewrite trapz_units; auto. apply logspace_nonzero.
Qed.

Lemma Wp_explicit_as_electron GeV n pd lo hi : 0 < GeV -> 0 < lo -> 0 < hi ->
  (let es := map (fun x => x * GeV) (Ep_explicit GeV n lo hi) in trapz_loglog (mul2 es (map pd es)) es)
  = electron_energy GeV pd (gam GeV n lo hi).
Proof.
  intros. cbv zeta. unfold Ep_explicit. fold (gam GeV n lo hi). rewrite electron_energy_map, mul2_id, !map_map.
  f_equal. apply map_ext. intros; ring.
Qed.

Lemma compute_Wp_as_We GeV n pd smin smax lo hi : 0 < GeV -> 0 < smin -> 0 < smax ->
  (forall x, lo = Some x -> 0 < x) -> (forall x, hi = Some x -> 0 < x) ->
  compute_Wp GeV n pd smin smax lo hi = compute_We GeV n pd smin smax lo hi.
Proof.
  intros HG H1 H2 H3 H4. unfold compute_Wp, compute_We.
  destruct lo as [lo|], hi as [hi|]; try apply Wp_explicit_as_electron; try apply Wp_as_electron; auto.
Qed.

(** ** Reversed bounds *)
Lemma interval_reversed_neg x1 x2 y1 y2 : 0 < x2 -> x2 < x1 -> 0 < y1 -> 0 < y2 -> interval x1 x2 y1 y2 < 0.
Proof.
  intros H1 H2 H3 H4. unfold interval.
  destruct (Req_EM_T y1 0); [lra|]. destruct (Req_EM_T y2 0); [lra|]. destruct (Req_EM_T x1 x2); [lra|].
  assert (HL : 0 < ln (x1 / x2)) by (apply ln_ratio_pos; auto).
  assert (EL : ln (x2 / x1) = - ln (x1 / x2)) by (rewrite !ln_div by lra; ring).
  assert (EY : ln (y2 / y1) = - ln (y1 / y2)) by (rewrite !ln_div by lra; ring).
  assert (EB : local_index x1 x2 y1 y2 = ln (y1 / y2) / ln (x1 / x2)).
  { unfold local_index, log10. pose proof ln10_pos. rewrite EL, EY. field. lra. }
  rewrite raw_interval_same by nra. cbv zeta. rewrite EB. set (b := ln (y1 / y2) / ln (x1 / x2)).
  destruct (Rlt_dec window_eps (Rabs (b + 1))) as [C|C].
  - (* minus the interval in increasing order *)
    assert (P := interval_pos x2 x1 y2 y1 H1 H2 H4 H3). rewrite interval_raw in P by auto.
    rewrite raw_interval_same in P by nra. cbv zeta in P. rewrite local_index_ln in P by auto. fold b in P.
    destruct (Rlt_dec window_eps (Rabs (b + 1))) as [_|N]; [|contradiction].
    assert (Y : y2 * Rpower (x1 / x2) b = y1) by (apply through_right; auto).
    assert (Y' : y1 * Rpower (x2 / x1) b = y2).
    { rewrite <- Y at 1. rewrite Rmult_assoc. replace (x2 / x1) with (/ (x1 / x2)) by (field; lra).
      unfold Rpower. rewrite ln_Rinv by (apply div_pos; lra). rewrite <- exp_plus.
      replace (b * ln (x1 / x2) + b * - ln (x1 / x2)) with 0 by ring. rewrite exp_0. ring. }
    replace (y1 * (x2 * Rpower (x2 / x1) b - x1)) with (x2 * (y1 * Rpower (x2 / x1) b) - x1 * y1) by ring.
    replace (y2 * (x1 * Rpower (x1 / x2) b - x2)) with (x1 * (y2 * Rpower (x1 / x2) b) - x2 * y2) in P by ring.
    rewrite Y'. rewrite Y in P.
    replace ((x2 * y2 - x1 * y1) / (b + 1)) with (- ((x1 * y1 - x2 * y2) / (b + 1))) by (unfold Rdiv; ring). lra.
  - rewrite EL. assert (0 < x1 * y1) by nra. nra.
Qed.

Lemma trapz_reversed_neg ys : forall xs, length ys = length xs -> (2 <= length xs)%nat ->
  Forall (fun x => 0 < x) xs -> StronglySorted Rgt xs -> Forall (fun y => 0 < y) ys -> trapz_loglog ys xs < 0.
Proof.
  induction ys as [|y1 ys IH]; intros xs HL H2 HX HS HY; [simpl in HL; lia|].
  destruct xs as [|x1 [|x2 xs]]; simpl in H2; try lia.
  destruct ys as [|y2 ys]; [discriminate|].
  rewrite trapz_cons2. inversion HX as [|? ? X1 X2]; subst. inversion HS as [|? ? S1 S2]; subst. inversion HY as [|? ? Y1 Y2]; subst.
  inversion X2; subst. inversion S2; subst. inversion Y2; subst.
  assert (interval x1 x2 y1 y2 < 0) by (apply interval_reversed_neg; auto).
  destruct ys as [|y3 ys].
  - unfold trapz_loglog. destruct xs as [|x3 xs]; [|discriminate]. simpl. lra.
  - assert (trapz_loglog (y2 :: y3 :: ys) (x2 :: xs) < 0); [|lra].
    apply IH; auto. simpl in HL |- *. lia.
Qed.

Lemma sorted_gt_of_nth (l : list R) :
  (forall i j, (i < j)%nat -> (j < length l)%nat -> nth j l 0 < nth i l 0) -> StronglySorted Rgt l.
Proof.
  induction l as [|x l IH]; intros H; constructor.
  - apply IH. intros i j Hij Hj. apply (H (S i) (S j)); simpl; lia.
  - apply Forall_forall. intros y Hy. apply (In_nth _ _ 0) in Hy. destruct Hy as (j & Hj & <-).
    apply (H O (S j)); simpl; lia.
Qed.

Lemma electron_energy_reversed mec2 pd n lo hi : 0 < mec2 -> 0 < lo -> lo < hi ->
  (forall E, 0 < E -> 0 < pd E) -> electron_energy mec2 pd (gam mec2 n hi lo) < 0.
Proof.
  intros Hm Hlo Hhi HP. rewrite electron_energy_map. unfold gam.
  set (m := npoints _). assert (H10 : (10 <= m)%nat) by apply npoints_ge.
  pose proof (log10_ratio mec2 lo hi Hm Hlo Hhi) as HL.
  set (a := log10 (hi / mec2)) in *. set (b := log10 (lo / mec2)) in *.
  assert (HF : Forall (fun x => 0 < x) (logspace a b m)).
  { apply Forall_forall. intros x Hx. apply in_map_iff in Hx. destruct Hx as (y & <- & _). apply pow10_pos. }
  apply trapz_reversed_neg.
  - now rewrite !map_length.
  - rewrite map_length, logspace_length. lia.
  - apply Forall_forall. intros x Hx. apply in_map_iff in Hx. destruct Hx as (y & <- & Hy).
    rewrite Forall_forall in HF. apply Rmult_lt_0_compat; auto.
  - apply sorted_gt_of_nth. rewrite map_length, logspace_length. intros i j Hij Hj.
    set (l := logspace a b m).
    assert (Q : forall k, (k < m)%nat -> nth k (map (fun g => g * mec2) l) 0 = nth k l 0 * mec2).
    { intros k Hk. rewrite nth_indep with (d' := 0 * mec2) by (rewrite map_length; unfold l; rewrite logspace_length; auto).
      apply (map_nth (fun g => g * mec2)). }
    rewrite !Q by lia. apply Rmult_lt_compat_r; auto. unfold l. rewrite !logspace_nth by lia. apply pow10_lt.
    assert (Pn : 0 < INR (m - 1)) by (apply lt_0_INR; lia).
    assert (INR i < INR j) by (apply lt_INR; auto).
    assert (0 < (a - b) / INR (m - 1)) by (apply div_pos; lra).
    replace ((b - a) / INR (m - 1)) with (- ((a - b) / INR (m - 1))) by (field; lra). nra.
  - apply Forall_forall. intros x Hx. apply in_map_iff in Hx. destruct Hx as (g & <- & Hg).
    rewrite Forall_forall in HF. specialize (HF g Hg). simpl in HF.
    assert (0 < g * mec2) by (apply Rmult_lt_0_compat; auto).
    repeat apply Rmult_lt_0_compat; auto.
Qed.
