(** Property C110: numerical integrals converge to the exact ones as the number
    of grid points per decade grows, with an explicit relative error. *)
From Coq Require Import Reals ZArith List Lra Lia Sorted.
From Coquelicot Require Import Coquelicot.
From Verif Require Import SpectralModel SpectralProofs TrapzModel TrapzSpec TrapzProofs EnergyModel EnergyProofs ElectronModel ElectronProofs RadiativeProps ConvProofs.
Import ListNotations.
Local Open Scope R_scope.

(** Vocabulary.  [f] is Riemann integrable and non-negative on [a, b]. *)
Definition density (f : R -> R) (a b : R) : Prop := ex_RInt f a b /\ forall x, a <= x <= b -> 0 <= f x.
(** Its logarithmic slope d ln f / d ln x stays between k1 and k2. *)
Definition slope_between (f : R -> R) (a b k1 k2 : R) : Prop :=
  forall x y, a <= x -> x <= y -> y <= b -> f x * Rpower (y / x) k1 <= f y <= f x * Rpower (y / x) k2.

(** Any Riemann integrable non-negative function, any way of refining the grid. *)
Theorem C110_converges : forall f a b, 0 < a -> a < b -> density f a b ->
  forall eps, 0 < eps -> exists d, 0 < d /\ forall xs,
    grid xs -> hd 0 xs = a -> last xs 0 = b ->
    (forall i, (S i < length xs)%nat -> nth (S i) xs 0 - nth i xs 0 < d) ->
    Rabs (trapz_loglog (map f xs) xs - RInt f a b) <= eps.
Proof.
  intros f a b Ha Hab [HI HP] eps He. destruct (trapz_converges f a b Ha Hab HI HP eps He) as (d & Hd & X). exists d. split; [assumption|].
  intros xs G E1 E2 F. apply X; try assumption. apply fine_nth. exact F.
Qed.
Print Assumptions C110_converges.

(** *** Grids of the code *)
Lemma npoints_large x : x - 1 < INR (npoints x).
Proof.
  unfold npoints. rewrite INR_IZR_INZ, Z2Nat.id by lia. destruct (base_Int_part x) as [_ B].
  apply Rlt_le_trans with (IZR (Int_part x)); [lra|]. apply IZR_le. lia.
Qed.

(** ratio of neighbouring points *)
Definition step (nd lo hi : R) : R :=
  Rpower (hi / lo) (/ (INR (Z.to_nat (Z.max 10 (Int_part (nd * (ln (hi / lo) / ln 10)))) - 1))).

Lemma step_tends lo hi d : 0 < lo -> lo < hi -> 0 < d -> exists N, forall nd, N <= nd -> step nd lo hi <= 1 + d.
Proof.
  intros H1 H2 Hd. pose proof (ln_ratio_pos lo hi H1 H2) as L. pose proof ln10_pos as T.
  assert (D : 0 < ln (1 + d)) by (rewrite <- ln_1; apply ln_increasing; lra).
  exists ((ln (hi / lo) / ln (1 + d) + 2) / (ln (hi / lo) / ln 10)). intros nd Hn.
  unfold step. fold (npoints (nd * (ln (hi / lo) / ln 10))). set (x := nd * (ln (hi / lo) / ln 10)).
  assert (Hx : ln (hi / lo) / ln (1 + d) + 2 <= x).
  { unfold x. assert (P : 0 < ln (hi / lo) / ln 10) by (apply div_pos; assumption).
    apply (Rmult_le_compat_r _ _ _ (Rlt_le _ _ P)) in Hn. unfold Rdiv at 1 in Hn. rewrite Rmult_assoc, Rinv_l in Hn by lra. lra. }
  pose proof (npoints_large x) as NL. pose proof (npoints_ge x) as N10.
  assert (NM : INR (npoints x - 1) = INR (npoints x) - 1) by (rewrite minus_INR by lia; reflexivity).
  rewrite NM. clear NM. set (n := INR (npoints x)) in *.
  assert (Q : ln (hi / lo) / ln (1 + d) <= n - 1) by lra.
  assert (Qp : 0 < ln (hi / lo) / ln (1 + d)) by (apply div_pos; assumption).
  unfold Rpower. rewrite <- (exp_ln (1 + d)) by lra.
  assert (C : / (n - 1) * ln (hi / lo) <= ln (1 + d)).
  { apply (Rmult_le_reg_l (n - 1)); [lra|]. rewrite <- Rmult_assoc, Rinv_r, Rmult_1_l by lra.
    apply (Rmult_le_compat_r _ _ _ (Rlt_le _ _ D)) in Q. unfold Rdiv in Q. rewrite Rmult_assoc, Rinv_l in Q by lra. lra. }
  destruct C as [C| ->]; [apply Rlt_le, exp_increasing; exact C|lra].
Qed.

Lemma hd_map_scale k l : hd 0 (map (fun x => x * k) l) = hd 0 l * k.
Proof. destruct l; simpl; ring. Qed.
Lemma last_map_scale k l : last (map (fun x => x * k) l) 0 = last l 0 * k.
Proof. induction l as [|x [|y l] IH]; [simpl; ring|reflexivity|]. exact IH. Qed.

(** Lorentz factors and energies *)
Lemma gam_facts unit nd lo hi : 0 < unit -> 0 < lo -> lo < hi ->
  let g := gam unit nd lo hi in
  grid g /\ hd 0 g = lo / unit /\ last g 0 = hi / unit /\ ratio_le (step nd lo hi) g /\
  (forall i, (S i < length g)%nat -> nth (S i) g 0 - nth i g 0 <= hi / unit * (step nd lo hi - 1)) /\
  (forall i, (i < length g)%nat -> 0 < nth i g 0 <= hi / unit).
Proof.
  intros Hu Hlo Hhi g. destruct (C32_grids unit nd lo hi Hu Hlo Hhi g (or_introl eq_refl)) as (E1 & E2 & E3 & E4 & E5 & E6 & E7).
  assert (G : grid g) by (split; assumption).
  assert (HL : last g 0 = hi / unit) by (rewrite <- E4; field; lra).
  assert (B : forall i, (i < length g)%nat -> 0 < nth i g 0 <= hi / unit).
  { intros i Hi. split; [rewrite Forall_forall in E6; apply E6, nth_In; assumption|]. rewrite <- HL.
    assert (LN : forall l : list R, last l 0 = nth (List.length l - 1) l 0).
    { induction l as [|x [|y l] IH]; auto. change (last (x :: y :: l) 0) with (last (y :: l) 0). rewrite IH. simpl. now rewrite Nat.sub_0_r. }
    rewrite LN. destruct (Nat.eq_dec i (length g - 1)) as [->|NE]; [lra|]. apply Rlt_le.
    assert (SN : forall (l : list R) i j, StronglySorted Rlt l -> (i < j)%nat -> (j < length l)%nat -> nth i l 0 < nth j l 0).
    { induction l as [|x l IH]; intros i' j S Hij Hj; [simpl in Hj; lia|]. inversion_clear S as [|? ? S1 S2]. destruct j; [lia|]. destruct i'.
      - simpl. rewrite Forall_forall in S2. apply S2, nth_In. simpl in Hj. lia.
      - simpl. apply IH; simpl in Hj; [assumption|lia|lia]. }
    apply SN; [assumption|lia|lia]. }
  assert (RT : forall i, (S i < length g)%nat -> nth (S i) g 0 / nth i g 0 = step nd lo hi).
  { intros i Hi. rewrite E1 in Hi. rewrite (E7 i Hi). reflexivity. }
  split; [exact G|]. split; [rewrite <- E3; field; lra|]. split; [exact HL|]. split; [|split; [|exact B]].
  - apply ratio_le_nth. intros i Hi. rewrite RT by assumption. lra.
  - intros i Hi. specialize (RT i Hi). assert (B1 := B i ltac:(lia)). assert (B2 := B (S i) Hi).
    assert (E : nth (S i) g 0 - nth i g 0 = nth i g 0 * (step nd lo hi - 1)) by (rewrite <- RT; field; lra).
    assert (S1 : 1 <= step nd lo hi).
    { unfold step. rewrite <- (Rpower_O (hi / lo)) by (apply div_pos; lra).
      assert (1 < hi / lo). { apply (Rmult_lt_reg_r lo); [lra|]. replace (hi / lo * lo) with hi by (field; lra). lra. }
      apply Rle_Rpower; [lra|]. apply Rlt_le, Rinv_0_lt_compat. apply lt_0_INR. lia. }
    rewrite E. apply Rmult_le_compat_r; lra.
Qed.

Lemma Es_facts unit nd lo hi : 0 < unit -> 0 < lo -> lo < hi ->
  let es := map (fun g => g * unit) (gam unit nd lo hi) in
  grid es /\ hd 0 es = lo /\ last es 0 = hi /\ ratio_le (step nd lo hi) es /\
  (forall i, (S i < length es)%nat -> nth (S i) es 0 - nth i es 0 <= hi * (step nd lo hi - 1)).
Proof.
  intros Hu Hlo Hhi es. destruct (gam_facts unit nd lo hi Hu Hlo Hhi) as (G & E1 & E2 & RL & F & B). unfold es.
  assert (N : forall i, nth i (map (fun g => g * unit) (gam unit nd lo hi)) 0 = nth i (gam unit nd lo hi) 0 * unit).
  { intros i. rewrite <- (map_nth (fun g => g * unit)). rewrite Rmult_0_l. reflexivity. }
  split; [apply grid_scale; assumption|]. split; [rewrite hd_map_scale, E1; field; lra|]. split; [rewrite last_map_scale, E2; field; lra|]. split.
  - clear - RL Hu G. revert RL G. generalize (gam unit nd lo hi). intros l. induction l as [|x1 l IH]; [intros; exact I|]. destruct l as [|x2 l]; [intros; exact I|].
    intros [R1 R2] G. destruct (grid_cons2 _ _ _ G) as (P & Q & G'). split; [|exact (IH R2 G')].
    replace (x2 * unit / (x1 * unit)) with (x2 / x1) by (field; lra). exact R1.
  - intros i Hi. rewrite map_length in Hi. rewrite !N. specialize (F i Hi).
    replace (nth (S i) (gam unit nd lo hi) 0 * unit - nth i (gam unit nd lo hi) 0 * unit) with ((nth (S i) (gam unit nd lo hi) 0 - nth i (gam unit nd lo hi) 0) * unit) by ring.
    apply (Rmult_le_compat_r _ _ _ (Rlt_le _ _ Hu)) in F. replace (hi / unit * (step nd lo hi - 1) * unit) with (hi * (step nd lo hi - 1)) in F by (field; lra). exact F.
Qed.

Lemma grid_converges (grid_of : R -> list R) f a b lo hi : 0 < lo -> lo < hi -> 0 < a -> a < b -> density f a b ->
  (forall nd, grid (grid_of nd) /\ hd 0 (grid_of nd) = a /\ last (grid_of nd) 0 = b /\
     forall i, (S i < length (grid_of nd))%nat -> nth (S i) (grid_of nd) 0 - nth i (grid_of nd) 0 <= b * (step nd lo hi - 1)) ->
  forall eps, 0 < eps -> exists N, forall nd, N <= nd ->
    Rabs (trapz_loglog (map f (grid_of nd)) (grid_of nd) - RInt f a b) <= eps.
Proof.
  intros Hlo Hhi Ha Hab HD HG eps He. destruct (C110_converges f a b Ha Hab HD eps He) as (d & Hd & X).
  destruct (step_tends lo hi (d / (2 * b)) Hlo Hhi) as (N & HN); [apply div_pos; lra|]. exists N. intros nd Hn.
  destruct (HG nd) as (G & E1 & E2 & F). apply X; try assumption. intros i Hi. apply Rle_lt_trans with (1 := F i Hi).
  apply Rle_lt_trans with (b * (d / (2 * b))); [|replace (b * (d / (2 * b))) with (d / 2) by (field; lra); lra].
  apply Rmult_le_compat_l; [lra|]. specialize (HN nd Hn). lra.
Qed.

(** Energy content of electrons (Lorentz factor grid) and protons between any
    two energies, each of which may be omitted. *)
Definition bound (given : option R) (default : R) : R := match given with Some x => x | None => default end.
Lemma energy_eq unit pd gs :
  electron_energy unit pd gs = trapz_loglog (map (fun E => E * pd E) (map (fun g => g * unit) gs)) (map (fun g => g * unit) gs).
Proof. rewrite electron_energy_map, map_map. f_equal. apply map_ext. intros. ring. Qed.
Lemma We_bound unit nd pd smin smax lo hi :
  compute_We unit nd pd smin smax lo hi = electron_energy unit pd (gam unit nd (bound lo smin) (bound hi smax)).
Proof. destruct lo, hi; reflexivity. Qed.
Lemma Wp_bound unit nd pd smin smax lo hi : 0 < unit -> 0 < bound lo smin -> 0 < bound hi smax ->
  compute_Wp unit nd pd smin smax lo hi = electron_energy unit pd (gam unit nd (bound lo smin) (bound hi smax)).
Proof.
  intros U H1 H2. unfold compute_Wp. destruct lo as [lo|], hi as [hi|]; cbn [bound] in *; try (apply Wp_explicit_as_electron; assumption). apply Wp_as_electron; assumption.
Qed.
Theorem C110_energy_content : forall unit pd smin smax Emin Emax, 0 < unit ->
  let lo := bound Emin smin in let hi := bound Emax smax in
  0 < lo -> lo < hi -> density (fun E => E * pd E) lo hi ->
  forall eps, 0 < eps -> exists N, forall nd, N <= nd ->
    Rabs (compute_We unit nd pd smin smax Emin Emax - RInt (fun E => E * pd E) lo hi) <= eps /\
    Rabs (compute_Wp unit nd pd smin smax Emin Emax - RInt (fun E => E * pd E) lo hi) <= eps.
Proof.
  intros unit pd smin smax Emin Emax Hu lo hi Hlo Hhi HD eps He.
  destruct (grid_converges (fun nd => map (fun g => g * unit) (gam unit nd lo hi)) (fun E => E * pd E) lo hi lo hi Hlo Hhi Hlo Hhi HD) with (eps := eps) as (N & HN).
  { intros nd. destruct (Es_facts unit nd lo hi Hu Hlo Hhi) as (G & E1 & E2 & _ & F). auto. }
  { exact He. }
  exists N. intros nd Hn. specialize (HN nd Hn). cbv beta in HN. rewrite <- energy_eq in HN.
  rewrite We_bound, Wp_bound by (assumption || (fold lo hi; lra)). auto.
Qed.
Print Assumptions C110_energy_content.

(** What set_We / set_Wp does: after it, the exact energy content is as close as
    wanted to the one asked for. [pd] is scaled by W / We. *)
Theorem C110_set_energy : forall unit pd smin smax Emin Emax W, 0 < unit ->
  let lo := bound Emin smin in let hi := bound Emax smax in
  0 < lo -> lo < hi -> density (fun E => E * pd E) lo hi -> 0 < RInt (fun E => E * pd E) lo hi ->
  forall eps, 0 < eps -> exists N, forall nd, N <= nd ->
    Rabs (RInt (fun E => E * (W / compute_We unit nd pd smin smax Emin Emax * pd E)) lo hi - W) <= eps.
Proof.
  intros unit pd smin smax Emin Emax W Hu lo hi Hlo Hhi HD HI eps He. set (I0 := RInt (fun E => E * pd E) lo hi) in *.
  assert (EX : ex_RInt (fun E => E * pd E) lo hi).
  { apply HD. }
  set (e2 := Rmin (I0 / 2) (eps * I0 / (2 * (Rabs W + 1)))).
  assert (HW : 0 <= Rabs W) by apply Rabs_pos.
  assert (He2 : 0 < e2) by (apply Rmin_glb_lt; [lra|apply div_pos; [apply Rmult_lt_0_compat; lra|lra]]).
  destruct (C110_energy_content unit pd smin smax Emin Emax Hu Hlo Hhi HD e2 He2) as (N & HN).
  exists N. intros nd Hn. destruct (HN nd Hn) as [A _]. fold lo hi I0 in A. set (T := compute_We unit nd pd smin smax Emin Emax) in *.
  assert (A1 : e2 <= I0 / 2) by apply Rmin_l. assert (A2 : e2 <= eps * I0 / (2 * (Rabs W + 1))) by apply Rmin_r.
  assert (T1 : I0 / 2 <= T) by (apply Rabs_le_between in A; lra).
  assert (E : RInt (fun E => E * (W / T * pd E)) lo hi = W / T * I0).
  { assert (RS : RInt (fun E => W / T * (E * pd E)) lo hi = W / T * I0) by exact (RInt_scal (fun E => E * pd E) lo hi (W / T) EX).
    rewrite <- RS. apply RInt_ext. intros x _. cbv beta. lra. }
  rewrite E. replace (W / T * I0 - W) with (W / T * (I0 - T)) by (field; lra).
  rewrite Rabs_mult, (Rabs_minus_sym I0 T). unfold Rdiv at 1. rewrite Rabs_mult, (Rabs_pos_eq (/ T)) by (apply Rlt_le, Rinv_0_lt_compat; lra).
  apply Rle_trans with (Rabs W * (2 / I0) * e2).
  - apply Rmult_le_compat; [|apply Rabs_pos| |exact A].
    + apply Rmult_le_pos; [assumption|apply Rlt_le, Rinv_0_lt_compat; lra].
    + apply Rmult_le_compat_l; [assumption|]. replace (2 / I0) with (/ (I0 / 2)) by (field; lra). apply Rinv_le_contravar; lra.
  - apply Rle_trans with (Rabs W * (2 / I0) * (eps * I0 / (2 * (Rabs W + 1)))).
    + apply Rmult_le_compat_l; [|exact A2]. apply Rmult_le_pos; [assumption|apply Rlt_le, div_pos; lra].
    + replace (Rabs W * (2 / I0) * (eps * I0 / (2 * (Rabs W + 1)))) with (eps * (Rabs W / (Rabs W + 1))) by (field; lra).
      apply Rle_trans with (eps * 1); [|lra]. apply Rmult_le_compat_l; [lra|].
      apply (Rmult_le_reg_r (Rabs W + 1)); [lra|]. unfold Rdiv. rewrite Rmult_assoc, Rinv_l by lra. lra.
Qed.
Print Assumptions C110_set_energy.

(** Explicit relative error on the grid actually used: a factor step^(k2-k1)
    (and step^1e-10 for the index -1 window). Power laws have k1 = k2. *)
Theorem C110_relative_error : forall unit nd pd smin smax Emin Emax k1 k2, 0 < unit ->
  let lo := bound Emin smin in let hi := bound Emax smax in
  0 < lo -> lo < hi ->
  (forall E, lo <= E <= hi -> continuity_pt pd E /\ 0 < pd E) ->
  slope_between (fun E => E * pd E) lo hi k1 k2 ->
  let exact := RInt (fun E => E * pd E) lo hi in
  let n := Z.to_nat (Z.max 10 (Int_part (nd * (ln (hi / lo) / ln 10)))) in
  let err := Rpower (Rpower (hi / lo) (/ INR (n - 1))) (k2 - k1 + / 10 ^ 10) in
  (exact <= err * compute_We unit nd pd smin smax Emin Emax /\ compute_We unit nd pd smin smax Emin Emax <= err * exact) /\
  (exact <= err * compute_Wp unit nd pd smin smax Emin Emax /\ compute_Wp unit nd pd smin smax Emin Emax <= err * exact).
Proof.
  intros unit nd pd smin smax Emin Emax k1 k2 Hu lo hi Hlo Hhi HC HS exact n err.
  rewrite We_bound, Wp_bound by (assumption || (fold lo hi; lra)). fold lo hi. rewrite energy_eq.
  destruct (Es_facts unit nd lo hi Hu Hlo Hhi) as (G & E1 & E2 & RL & _). cbv zeta in G, E1, E2, RL.
  destruct (trapz_relative' (fun E => E * pd E) k1 k2 (step nd lo hi) _ lo hi Hhi G RL E1 E2) as [A B].
  { intros x Hx. destruct (HC x Hx) as [C P]. split; [|apply Rmult_lt_0_compat; lra].
    apply (continuity_pt_mult (fun E => E) pd); [apply derivable_continuous_pt, derivable_pt_id|exact C]. }
  { exact HS. }
  auto.
Qed.
Print Assumptions C110_relative_error.

