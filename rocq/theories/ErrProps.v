(** C119: the error of the numerical integrals is of second order in the grid step,
    and what remains of it together with rounding. *)
From Coq Require Import Reals ZArith List Lra Lia Sorted.
From Coquelicot Require Import Coquelicot.
From Flocq Require Import Raux.
From Verif Require Import TrapzModel TrapzSpec TrapzProofs CoreModel SpectralModel SpectralProofs EnergyModel EnergyProofs ElectronModel ElectronProofs RadiativeProps
  ConvProofs ConvProps ConvProps2 ConvProps3 FloatModel FloatProofs FloatProps FloatProps2 FloatTrapzModel FloatTrapzProofs FloatTrapzProps ErrProofs.
Import ListNotations.
Local Open Scope R_scope.

(** ** Specification *)
(** The logarithmic slope of f changes at most M per unit of ln x:
    [log_smooth f a b M] (ErrProofs) says that f is positive on [a, b] and that
    ln f, as a function of t = ln x, has a second derivative between -M and M.
    Neighbouring points are at most [h] apart on the scale of ln x: *)
Definition log_step (h : R) (xs : list R) : Prop :=
  forall i, (S i < List.length xs)%nat -> ln (nth (S i) xs 0 / nth i xs 0) <= h.
(** samples of f with relative errors, on the scale of ln y, of at most [e] *)
Definition samples (f : R -> R) (e : R) (xs ys : list R) : Prop :=
  Forall2 (fun x y => 0 < y /\ Rabs (ln (y / f x)) <= e) xs ys.

Lemma log_step_cons h x0 x1 xs : log_step h (x0 :: x1 :: xs) -> ln (x1 / x0) <= h /\ log_step h (x1 :: xs).
Proof. intros H. split; [apply (H O); cbn; lia|]. intros i Hi. apply (H (S i)). cbn in *. lia. Qed.

Lemma bins_sum f M h e : 0 <= e -> forall xs ys x0 y0, grid (x0 :: xs) -> log_step h (x0 :: xs) ->
  log_smooth f x0 (last (x0 :: xs) 0) M -> samples f e (x0 :: xs) (y0 :: ys) ->
  exists Is, exact_bins (y0 :: ys) (x0 :: xs) Is /\
    (let D := M * h ^ 2 / 8 + e in
     sumR Is <= exp D * RInt f x0 (last (x0 :: xs) 0) /\ RInt f x0 (last (x0 :: xs) 0) <= exp D * sumR Is) /\
    (let w := window_eps * h in
     trapz_loglog (y0 :: ys) (x0 :: xs) <= exp w * sumR Is /\ sumR Is <= exp w * trapz_loglog (y0 :: ys) (x0 :: xs)).
Proof.
  intros He. induction xs as [|x1 xs IH]; intros ys x0 y0 GR LS HS SA.
  { exists []. cbn [last]. rewrite RInt_point. unfold zero; cbn. inversion SA as [|? ? ? ? _ N]; subst. inversion N; subst. split; [reflexivity|].
    unfold trapz_loglog; cbn. lra. }
  destruct ys as [|y1 ys]; [inversion SA as [|? ? ? ? _ N]; subst; inversion N|].
  assert (SA0 := SA). inversion SA as [|? ? ? ? (P0 & E0) SA1]; subst. inversion SA1 as [|? ? ? ? (P1 & E1) _]; subst.
  destruct (grid_cons2 _ _ _ GR) as (A & B & G'). change (last (x0 :: x1 :: xs) 0) with (last (x1 :: xs) 0) in *.
  pose proof (grid_last x1 xs G') as L. destruct (log_step_cons _ _ _ _ LS) as (L1 & L2).
  set (z := last (x1 :: xs) 0) in *.
  assert (HM: 0 <= M) by (apply (smooth_M_pos f x0 z M); try lra; assumption).
  assert (S0: log_smooth f x0 x1 M) by (apply (smooth_sub f x0 z); try lra; assumption).
  assert (S1: log_smooth f x1 z M) by (apply (smooth_sub f x0 z); try lra; assumption).
  assert (X1: ex_RInt f x0 x1) by (apply (smooth_ex_RInt f x0 z M); try lra; assumption).
  assert (X2: ex_RInt f x1 z) by (apply (smooth_ex_RInt f x0 z M); try lra; assumption).
  destruct (IH ys x1 y1 G' L2 S1 SA1) as (Is & EB & (I1 & I2) & (T1 & T2)). cbv zeta in *. fold z in I1, I2.
  pose proof (through_G x0 x1 y0 y1 A B P0 P1) as K. cbv zeta in K. set (J := x0 * y0 * G (ln (x1 / x0)) (ln (y1 / y0) / ln (x1 / x0) + 1)) in *.
  destruct (bin_through f M x0 x1 y0 y1 e (RInt f x0 x1) J A B S0 P0 P1 E0 E1 (RInt_correct _ _ _ X1) K) as (B1 & B2).
  destruct (interval_through x0 x1 y0 y1 J A B P0 P1 K) as (W1 & W2 & JP).
  pose proof (ln_ratio_pos x0 x1 A B) as LP. set (la := ln (x1 / x0)) in *.
  assert (FP: forall x, x0 <= x <= z -> 0 < f x) by (destruct HS as (FP & _); exact FP).
  assert (IP: 0 <= RInt f x0 x1). { apply RInt_ge_0; [lra|assumption|]. intros x Hx. left. apply FP. lra. }
  assert (E': exp (M * la ^ 2 / 8 + e) <= exp (M * h ^ 2 / 8 + e)).
  { apply exp_le. assert (la ^ 2 <= h ^ 2) by (apply pow_incr; lra). assert (M * la ^ 2 <= M * h ^ 2) by (apply Rmult_le_compat_l; assumption). lra. }
  assert (Ew: exp (window_eps * la) <= exp (window_eps * h)). { apply exp_le. pose proof window_pos. apply Rmult_le_compat_l; lra. }
  assert (NP: 0 < interval x0 x1 y0 y1). { pose proof (exp_pos (window_eps * la)). destruct (Rle_or_lt (interval x0 x1 y0 y1) 0); [nra|assumption]. }
  exists (J :: Is). split; [|split].
  - split; [|exact EB]. right. auto.
  - cbn [sumR]. rewrite <- (RInt_Chasles f x0 x1 z X1 X2). change (plus (RInt f x0 x1) (RInt f x1 z)) with (RInt f x0 x1 + RInt f x1 z). nra.
  - cbn [sumR]. change (trapz_loglog (y0 :: y1 :: ys) (x0 :: x1 :: xs)) with (interval x0 x1 y0 y1 + trapz_loglog (y1 :: ys) (x1 :: xs)). nra.
Qed.
Lemma samples_exact f xs : (forall x, In x xs -> 0 < f x) -> samples f 0 xs (map f xs).
Proof.
  induction xs as [|x xs IH]; intros H; cbn; constructor.
  - assert (P: 0 < f x) by (apply H; left; reflexivity). split; [assumption|]. unfold Rdiv. rewrite Rinv_r, ln_1, Rabs_R0 by lra. lra.
  - apply IH. intros. apply H. right. assumption.
Qed.
Lemma grid_range x0 xs : grid (x0 :: xs) -> forall x, In x (x0 :: xs) -> x0 <= x <= last (x0 :: xs) 0.
Proof.
  revert x0. induction xs as [|x1 xs IH]; intros x0 G x Hx.
  - destruct Hx as [<- | []]. cbn. lra.
  - destruct (grid_cons2 _ _ _ G) as (A & B & G'). change (last (x0 :: x1 :: xs) 0) with (last (x1 :: xs) 0).
    pose proof (grid_last x1 xs G'). destruct Hx as [<- | Hx]; [lra|]. specialize (IH x1 G' x Hx). lra.
Qed.

(** ** Theorems *)
(** Any grid, any step: the error is second order in the step. *)
Theorem C119_integral : forall f a b M h xs, 0 < a -> a < b -> log_smooth f a b M ->
  grid xs -> hd 0 xs = a -> last xs 0 = b -> log_step h xs ->
  let exact := RInt f a b in let err := exp (M * h ^ 2 / 8 + / 10 ^ 10 * h) in
  exact <= err * trapz_loglog (map f xs) xs /\ trapz_loglog (map f xs) xs <= err * exact.
Proof.
  intros f a b M h xs Ha Hab HS G E1 E2 LS exact err. destruct xs as [|x0 xs]; [cbn in *; lra|]. cbn [hd] in E1. subst a b.
  destruct (bins_sum f M h 0 (Rle_refl 0) xs (map f xs) x0 (f x0) G LS HS) as (Is & _ & (I1 & I2) & (T1 & T2)).
  { change (f x0 :: map f xs) with (map f (x0 :: xs)). apply samples_exact. intros x Hx. destruct HS as (FP & _). apply FP. apply grid_range; assumption. }
  cbv zeta in *. fold exact in I1, I2. rewrite Rplus_0_r in I1, I2. unfold err. rewrite exp_plus. change (/ 10 ^ 10) with window_eps.
  change (map f (x0 :: xs)) with (f x0 :: map f xs). pose proof (exp_pos (M * h ^ 2 / 8)). pose proof (exp_pos (window_eps * h)).
  split.
  - eapply Rle_trans; [exact I2|]. rewrite Rmult_assoc. apply Rmult_le_compat_l; lra.
  - eapply Rle_trans; [exact T1|]. rewrite (Rmult_comm (exp (M * h ^ 2 / 8))), Rmult_assoc. apply Rmult_le_compat_l; lra.
Qed.

Lemma smooth_ext f f' a b M : 0 < a -> (forall x, 0 < x -> f' x = f x) -> log_smooth f a b M -> log_smooth f' a b M.
Proof.
  intros Ha E (FP & g1 & g2 & H). split; [intros x Hx; rewrite E by lra; apply FP; assumption|]. exists g1, g2. intros t Ht.
  destruct (H t Ht) as (D1 & D). split; [|exact D]. apply (is_derive_ext (fun t => ln (f (exp t)))); [|exact D1].
  intros s. rewrite E by apply exp_pos. reflexivity.
Qed.
Lemma ratio_le_step r xs : grid xs -> 1 <= r -> ratio_le r xs -> log_step (ln r) xs.
Proof.
  intros G Hr. induction xs as [|x0 xs IH]; intros RL i Hi; [cbn in Hi; lia|]. destruct xs as [|x1 xs]; [cbn in Hi; lia|].
  destruct (grid_cons2 _ _ _ G) as (A & B & G'). destruct RL as (R1 & R2). destruct i as [|i].
  - cbn [nth]. apply ln_le'; [apply div_pos; lra|assumption].
  - apply (IH G' R2 i). cbn in *. lia.
Qed.

(** The energy content of electrons and protons on the code's own grid. *)
Theorem C119_energy_content : forall unit nd pd smin smax Emin Emax M, 0 < unit ->
  let lo := bound Emin smin in let hi := bound Emax smax in
  0 < lo -> lo < hi -> log_smooth (fun E => E * pd E) lo hi M ->
  let exact := RInt (fun E => E * pd E) lo hi in
  let n := Z.to_nat (Z.max 10 (Int_part (nd * (ln (hi / lo) / ln 10)))) in
  let h := ln (hi / lo) / INR (n - 1) in
  let err := exp (M * h ^ 2 / 8 + / 10 ^ 10 * h) in
  (exact <= err * compute_We unit nd pd smin smax Emin Emax /\ compute_We unit nd pd smin smax Emin Emax <= err * exact) /\
  (exact <= err * compute_Wp unit nd pd smin smax Emin Emax /\ compute_Wp unit nd pd smin smax Emin Emax <= err * exact).
Proof.
  intros unit nd pd smin smax Emin Emax M Hu lo hi Hlo Hhi HS exact n h err.
  rewrite We_bound, Wp_bound by (assumption || (fold lo hi; lra)). fold lo hi. rewrite energy_eq.
  destruct (Es_facts unit nd lo hi Hu Hlo Hhi) as (G & E1 & E2 & RL & _). cbv zeta in G, E1, E2, RL.
  pose proof (ln_ratio_pos lo hi Hlo Hhi) as LP.
  assert (LN: ln (step nd lo hi) = h). { unfold step, Rpower. rewrite ln_exp. fold n. unfold h. unfold Rdiv. ring. }
  assert (N: 0 < INR (n - 1)) by (apply lt_0_INR; unfold n; lia).
  assert (HP: 0 < h) by (apply div_pos; assumption).
  assert (S1: 1 <= step nd lo hi). { rewrite <- (exp_ln (step nd lo hi)) by apply exp_pos. rewrite LN. rewrite <- exp_0. apply exp_le. lra. }
  pose proof (C119_integral (fun E => E * pd E) lo hi M h _ Hlo Hhi HS G E1 E2) as X. cbv zeta in X. fold exact err in X.
  assert (LS: log_step h (map (fun g => g * unit) (gam unit nd lo hi))). { rewrite <- LN. apply ratio_le_step; assumption. }
  specialize (X LS). split; exact X.
Qed.

(** *** The built-in distributions *)
Local Ltac req := match goal with |- @eq _ ?l ?r => change (@eq R l r) end.
Lemma ln_pl E A e0 al : 0 < A -> 0 < e0 -> 0 < E -> ln (E * power_law E A e0 al) = (1 - al) * ln E + (ln A + al * ln e0).
Proof.
  intros. unfold power_law, Rpower. rewrite ln_mult; [|assumption|apply Rmult_lt_0_compat; [assumption|apply exp_pos]].
  rewrite ln_mult by (try assumption; apply exp_pos). rewrite ln_exp, ln_div by assumption. ring.
Qed.
Lemma smooth_power_law A e0 al a b : 0 < A -> 0 < e0 -> 0 < a -> log_smooth (fun E => E * power_law E A e0 al) a b 0.
Proof.
  intros HA H0 Ha. split; [intros x Hx; apply Rmult_lt_0_compat; [lra|apply pl_pos; assumption]|].
  exists (fun _ => 1 - al), (fun _ => 0). intros t Ht. split; [|split].
  - apply (is_derive_ext (fun t => (1 - al) * t + (ln A + al * ln e0))). { intros s. rewrite ln_pl by (assumption || apply exp_pos). rewrite ln_exp. reflexivity. }
    auto_derive; try exact I; try ring.
  - auto_derive; try exact I; try ring.
  - rewrite Rabs_R0. lra.
Qed.
Lemma smooth_log_parabola A e0 al be a b : 0 < A -> 0 < e0 -> 0 < a -> log_smooth (fun E => E * log_parabola E A e0 al be) a b (2 * Rabs be).
Proof.
  intros HA H0 Ha. split; [intros x Hx; apply Rmult_lt_0_compat; [lra|apply Rmult_lt_0_compat; [assumption|apply exp_pos]]|].
  exists (fun t => 1 - al - 2 * be * (t - ln e0)), (fun _ => - 2 * be). intros t Ht. split; [|split].
  - apply (is_derive_ext (fun t => t + ln A + (- al - be * (t - ln e0)) * (t - ln e0))).
    { intros s. unfold log_parabola, Rpower. cbv zeta. rewrite ln_mult; [|apply exp_pos|apply Rmult_lt_0_compat; [assumption|apply exp_pos]].
      rewrite ln_mult by (try assumption; apply exp_pos). rewrite ln_exp, ln_exp. rewrite ln_div by (assumption || apply exp_pos). rewrite ?ln_exp. req. ring. }
    auto_derive; try exact I; try ring.
  - auto_derive; try exact I; try ring.
  - rewrite Rabs_mult, (Rabs_left (-2)) by lra. lra.
Qed.
Lemma smooth_cutoff A e0 al ec be a b : 0 < A -> 0 < e0 -> 0 < ec -> 0 <= be -> 0 < a -> a <= b ->
  log_smooth (fun E => E * cutoff_power_law E A e0 al ec be) a b (be ^ 2 * Rpower (b / ec) be).
Proof.
  intros HA H0 Hc Hb Ha Hab. split.
  { intros x Hx. rewrite ecpl_factor. apply Rmult_lt_0_compat; [lra|]. apply Rmult_lt_0_compat; [apply pl_pos; assumption|apply exp_pos]. }
  exists (fun t => 1 - al - be * exp (be * (t - ln ec))), (fun t => - (be ^ 2 * exp (be * (t - ln ec)))). intros t Ht. split; [|split].
  - apply (is_derive_ext (fun t => (1 - al) * t + (ln A + al * ln e0) - exp (be * (t - ln ec)))).
    { intros s. rewrite ecpl_factor, <- Rmult_assoc, ln_mult.
      2:{ apply Rmult_lt_0_compat; [apply exp_pos|apply pl_pos; assumption]. } 2:{ apply exp_pos. }
      rewrite ln_pl by (assumption || apply exp_pos). rewrite ln_exp, ln_exp. unfold Rpower. rewrite ln_div by (assumption || apply exp_pos). rewrite ?ln_exp. req. ring. }
    auto_derive; [exact I|]. unfold Rminus; ring.
  - auto_derive; [exact I|]. unfold Rminus; ring.
  - rewrite Rabs_Ropp. assert (0 <= be ^ 2) by apply pow2_ge_0. rewrite Rabs_pos_eq by (apply Rmult_le_pos; [assumption|left; apply exp_pos]).
    apply Rmult_le_compat_l; [assumption|]. unfold Rpower. rewrite ln_div by lra. apply exp_le. apply Rmult_le_compat_l; [assumption|lra].
Qed.

Theorem C119_log_parabola : forall unit nd A e0 alpha beta lo hi, 0 < unit -> 0 < A -> 0 < e0 -> 0 < lo -> lo < hi ->
  let pd := fun E => log_parabola E A e0 alpha beta in
  let exact := RInt (fun E => E * pd E) lo hi in
  let n := Z.to_nat (Z.max 10 (Int_part (nd * (ln (hi / lo) / ln 10)))) in
  let h := ln (hi / lo) / INR (n - 1) in
  let err := exp (Rabs beta * h ^ 2 / 4 + / 10 ^ 10 * h) in
  (exact <= err * compute_We unit nd pd lo hi None None /\ compute_We unit nd pd lo hi None None <= err * exact) /\
  (exact <= err * compute_Wp unit nd pd lo hi None None /\ compute_Wp unit nd pd lo hi None None <= err * exact).
Proof.
  intros unit nd A e0 al be lo hi Hu HA H0 Hlo Hhi pd exact n h err.
  pose proof (C119_energy_content unit nd pd lo hi None None (2 * Rabs be) Hu) as X. cbn [bound] in X. cbv zeta in X.
  specialize (X Hlo Hhi (smooth_log_parabola A e0 al be lo hi HA H0 Hlo)). fold n in X. fold h in X. fold exact in X.
  replace (2 * Rabs be * h ^ 2 / 8) with (Rabs be * h ^ 2 / 4) in X by field. exact X.
Qed.
Theorem C119_cutoff : forall unit nd A e0 alpha ec beta lo hi, 0 < unit -> 0 < A -> 0 < e0 -> 0 < ec -> 0 <= beta -> 0 < lo -> lo < hi ->
  let pd := fun E => cutoff_power_law E A e0 alpha ec beta in
  let exact := RInt (fun E => E * pd E) lo hi in
  let n := Z.to_nat (Z.max 10 (Int_part (nd * (ln (hi / lo) / ln 10)))) in
  let h := ln (hi / lo) / INR (n - 1) in
  let err := exp (beta ^ 2 * Rpower (hi / ec) beta * h ^ 2 / 8 + / 10 ^ 10 * h) in
  (exact <= err * compute_We unit nd pd lo hi None None /\ compute_We unit nd pd lo hi None None <= err * exact) /\
  (exact <= err * compute_Wp unit nd pd lo hi None None /\ compute_Wp unit nd pd lo hi None None <= err * exact).
Proof.
  intros unit nd A e0 al ec be lo hi Hu HA H0 Hc Hb Hlo Hhi pd exact n h err.
  pose proof (C119_energy_content unit nd pd lo hi None None (be ^ 2 * Rpower (hi / ec) be) Hu) as X. cbn [bound] in X. cbv zeta in X.
  exact (X Hlo Hhi (smooth_cutoff A e0 al ec be lo hi HA H0 Hc Hb Hlo (Rlt_le _ _ Hhi))).
Qed.

(** With the default 100 points per decade over at least one decade, every distribution
    whose slope changes by at most 100 per unit of ln E is integrated to one per cent,
    and to 1e-4 if it changes by at most one. *)
Lemma ln10_le : ln 10 <= 2303 / 1000.
Proof.
  apply exp_le_inv. rewrite exp_ln by lra. apply Rle_trans with (exp (1 / 10) ^ 23 * exp (3 / 1000)).
  - assert (A: forall x, 0 <= x -> 1 + x + x ^ 2 / 2 + x ^ 3 / 6 <= exp x).
    { intros x Hx. assert (M: forall t, 0 <= t -> 1 + t + t ^ 2 / 2 <= exp t).
      { intros t Ht. destruct (MVT_gen (fun t => exp t - (1 + t + t ^ 2 / 2)) 0 t (fun t => exp t - (1 + t))) as (c & Hc & E).
        - intros s _. auto_derive; [exact I|field].
        - intros s _. apply continuity_pt_filterlim. apply (@ex_derive_continuous R_AbsRing R_NormedModule (fun t => exp t - (1 + t + t ^ 2 / 2)) s). auto_derive. exact I.
        - rewrite Rmin_left, Rmax_right in Hc by lra. rewrite exp_0 in E. pose proof (exp_ineq1_le c). assert (0 <= (exp c - (1 + c)) * (t - 0)) by (apply Rmult_le_pos; lra). lra. }
      destruct (MVT_gen (fun t => exp t - (1 + t + t ^ 2 / 2 + t ^ 3 / 6)) 0 x (fun t => exp t - (1 + t + t ^ 2 / 2))) as (c & Hc & E).
      - intros s _. auto_derive; [exact I|field].
      - intros s _. apply continuity_pt_filterlim. apply (@ex_derive_continuous R_AbsRing R_NormedModule (fun t => exp t - (1 + t + t ^ 2 / 2 + t ^ 3 / 6)) s). auto_derive. exact I.
      - rewrite Rmin_left, Rmax_right in Hc by lra. rewrite exp_0 in E. specialize (M c ltac:(lra)). assert (0 <= (exp c - (1 + c + c ^ 2 / 2)) * (x - 0)) by (apply Rmult_le_pos; lra). lra. }
    pose proof (A (1 / 10) ltac:(lra)) as A1. pose proof (exp_ineq1_le (3 / 1000)) as A2.
    apply Rle_trans with ((1 + 1 / 10 + (1 / 10) ^ 2 / 2 + (1 / 10) ^ 3 / 6) ^ 23 * (1 + 3 / 1000)); [lra|].
    apply Rmult_le_compat; try lra. apply pow_incr. lra.
  - right. replace (2303 / 1000) with (23 * (1 / 10) + 3 / 1000) by lra. rewrite exp_plus. f_equal.
    change 23 with (IZR (Z.of_nat 23)). rewrite <- INR_IZR_INZ.
    assert (P: forall n x, exp (INR n * x) = exp x ^ n).
    { intros n x. induction n as [|n IH]; [cbn; rewrite Rmult_0_l; apply exp_0|]. rewrite S_INR, Rmult_plus_distr_r, exp_plus, IH, Rmult_1_l. cbn [pow]. ring. }
    symmetry. apply P.
Qed.
Theorem C119_default_grid : forall unit nd pd smin smax Emin Emax M, 0 < unit -> 100 <= nd ->
  let lo := bound Emin smin in let hi := bound Emax smax in
  0 < lo -> 10 * lo <= hi -> log_smooth (fun E => E * pd E) lo hi M ->
  let exact := RInt (fun E => E * pd E) lo hi in
  (M <= 100 -> Rabs (compute_We unit nd pd smin smax Emin Emax - exact) <= / 100 * exact /\
               Rabs (compute_Wp unit nd pd smin smax Emin Emax - exact) <= / 100 * exact) /\
  (M <= 1 -> Rabs (compute_We unit nd pd smin smax Emin Emax - exact) <= / 10000 * exact /\
             Rabs (compute_Wp unit nd pd smin smax Emin Emax - exact) <= / 10000 * exact).
Proof.
  intros unit nd pd smin smax Emin Emax M Hu Hnd lo hi Hlo Hhi HS exact. assert (LH: lo < hi) by lra.
  pose proof (C119_energy_content unit nd pd smin smax Emin Emax M Hu Hlo LH HS) as X. cbv zeta in X. fold lo hi in X. fold exact in X.
  set (n := Z.to_nat (Z.max 10 (Int_part (nd * (ln (hi / lo) / ln 10))))) in *.
  set (h := ln (hi / lo) / INR (n - 1)) in *. pose proof (ln_ratio_pos lo hi Hlo LH) as LP. pose proof ln10_pos as T. pose proof ln10_le as T'.
  assert (HM: 0 <= M) by (apply (smooth_M_pos (fun E => E * pd E) lo hi M); try lra; assumption).
  assert (L10: ln 10 <= ln (hi / lo)). { apply ln_le'; [lra|]. apply Rmult_le_reg_r with lo; [lra|]. unfold Rdiv. rewrite Rmult_assoc, Rinv_l; lra. }
  assert (Hh: 0 < h <= 2350 / 100000).
  { pose proof (npoints_large (nd * (ln (hi / lo) / ln 10))) as NL. unfold npoints in NL. fold n in NL.
    assert (NM: INR (n - 1) = INR n - 1) by (rewrite minus_INR by (unfold n; lia); reflexivity).
    set (q := ln (hi / lo) / ln 10) in *. assert (Q: 1 <= q). { unfold q. apply Rmult_le_reg_r with (ln 10); [lra|]. unfold Rdiv. rewrite Rmult_assoc, Rinv_l; lra. }
    assert (Eq: ln (hi / lo) = q * ln 10) by (unfold q; field; lra).
    assert (100 * q <= nd * q) by (apply Rmult_le_compat_r; lra).
    assert (NN: 98 * q <= INR (n - 1)) by (rewrite NM; lra).
    unfold h. split; [apply div_pos; lra|]. apply Rmult_le_reg_r with (INR (n - 1)); [lra|]. unfold Rdiv at 1. rewrite Rmult_assoc, Rinv_l, Rmult_1_r by lra.
    rewrite Eq. apply Rle_trans with (2350 / 100000 * (98 * q)); [|apply Rmult_le_compat_l; lra]. nra. }
  assert (EP: 0 <= exact).
  { apply RInt_ge_0; [lra|apply (smooth_ex_RInt (fun E => E * pd E) lo hi M); try lra; assumption|]. intros x Hx. destruct HS as (FP & _). left. apply FP. lra. }
  assert (H2: 0 <= h ^ 2 <= 553 / 1000000). { split; [apply pow2_ge_0|]. replace (553 / 1000000) with (23515953 / 1000000000 * (23515953 / 1000000000) + (553 / 1000000 - 23515953 / 1000000000 * (23515953 / 1000000000))) by ring. cbn [pow]. rewrite Rmult_1_r. nra. }
  assert (KEY: forall m d W, M <= m -> 0 <= d <= 1 / 100 -> m * (553 / 1000000) / 8 + / 10 ^ 10 * (2350 / 100000) <= 99 / 100 * d ->
     exact <= exp (M * h ^ 2 / 8 + / 10 ^ 10 * h) * W -> W <= exp (M * h ^ 2 / 8 + / 10 ^ 10 * h) * exact -> Rabs (W - exact) <= d * exact).
  { intros m d W Hm Hd Hb W1 W2. set (y := M * h ^ 2 / 8 + / 10 ^ 10 * h) in *.
    assert (Y: 0 <= y <= 99 / 100 * d).
    { unfold y. assert (M * h ^ 2 <= m * (553 / 1000000)) by (apply Rmult_le_compat; lra). assert (0 <= M * h ^ 2) by (apply Rmult_le_pos; lra).
      assert (/ 10 ^ 10 * h <= / 10 ^ 10 * (2350 / 100000)) by (apply Rmult_le_compat_l; lra). split; lra. }
    assert (U: exp y <= 1 + d). { eapply Rle_trans; [apply exp_upper; lra|]. apply Rmult_le_reg_r with (1 - y); [lra|]. rewrite Rinv_l by lra. nra. }
    assert (V: 1 - d <= exp (- y)). { pose proof (exp_ineq1_le (- y)). lra. }
    assert (EE: exp (- y) * exp y = 1) by (rewrite <- exp_plus, Rplus_opp_l; apply exp_0).
    assert (V2: exp (- y) * exact <= W). { apply (Rmult_le_compat_l (exp (- y))) in W1; [|left; apply exp_pos]. rewrite <- Rmult_assoc, EE, Rmult_1_l in W1. exact W1. }
    apply Rabs_le. nra. }
  destruct X as ((X1 & X2) & X3 & X4). replace (10 ^ 10) with 10000000000 in KEY by ring. replace (10 ^ 10) with 10000000000 in X1, X2, X3, X4 by ring.
  split; intros HMM; split.
  - apply (KEY 100); try assumption; lra.
  - apply (KEY 100); try assumption; lra.
  - apply (KEY 1); try assumption; lra.
  - apply (KEY 1); try assumption; lra.
Qed.

(** *** With rounding: samples computed to K units in the last place, bins and sum in
    double precision *)
Lemma within_ln K x y : 0 < x -> 0 <= K <= 2 ^ 50 -> within K x y -> 0 < y /\ Rabs (ln (y / x)) <= 2 * K * / 2 ^ 52.
Proof.
  intros Hx HK W. unfold within in W. rewrite (Rabs_pos_eq x) in W by lra. set (d := K * / 2 ^ 52) in *.
  assert (Hd: 0 <= d <= / 4). { unfold d. assert (E: 2 ^ 50 * / 2 ^ 52 = / 4) by (replace (2 ^ 52) with (2 ^ 50 * 4) by ring; rewrite Rinv_mult; field; apply pow_nonzero; lra).
    assert (P: 0 < / 2 ^ 52) by (apply Rinv_0_lt_compat, pow_lt; lra). split; [apply Rmult_le_pos; lra|]. rewrite <- E. apply Rmult_le_compat_r; lra. }
  apply Rabs_le_inv in W. assert (Q: 1 - d <= y / x <= 1 + d).
  { split; apply Rmult_le_reg_r with x; try assumption; unfold Rdiv; rewrite Rmult_assoc, Rinv_l by lra; lra. }
  split; [nra|]. replace (2 * K * / 2 ^ 52) with (2 * d) by (unfold d; ring). apply Rabs_le. split.
  - apply exp_le_inv. rewrite exp_ln by lra. apply Rle_trans with (1 - d); [|lra].
    rewrite exp_Ropp. apply Rle_trans with (/ (1 + 2 * d)); [apply Rinv_le_contravar; [lra|apply exp_ineq1_le]|].
    apply Rmult_le_reg_r with (1 + 2 * d); [lra|]. rewrite Rinv_l by lra. nra.
  - apply exp_le_inv. rewrite exp_ln by lra. pose proof (exp_ineq1_le (2 * d)). lra.
Qed.
Theorem C119_computed : forall L lg f a b M h K d xs ys s,
  lib_ok L lg -> 0 < a -> a < b -> log_smooth f a b M -> 0 <= K <= 2 ^ 50 -> 0 <= d <= 1 -> INR (List.length xs) <= 10 ^ 15 ->
  grid xs -> hd 0 xs = a -> last xs 0 = b -> log_step h xs ->
  Forall2 (fun x y => within K (f x) y) xs ys -> ordinary d ys xs -> ftrapz L lg ys xs s ->
  Rabs (s - RInt f a b)
    <= (exp (M * h ^ 2 / 8 + 2 * K * / 2 ^ 52) * (1 + (d + 2 * INR (List.length xs) * / 2 ^ 52)) - 1) * RInt f a b.
Proof.
  intros L lg f a b M h K d xs ys s HL Ha Hab HS HK Hd Len G E1 E2 LS SA O FT.
  destruct xs as [|x0 xs]; [cbn in *; lra|]. destruct ys as [|y0 ys]; [inversion SA|]. cbn [hd] in E1. subst a b.
  assert (P52: 0 < / 2 ^ 52) by (apply Rinv_0_lt_compat, pow_lt; lra).
  assert (HM: 0 <= M) by (apply (smooth_M_pos f x0 (last (x0 :: xs) 0) M); try lra; assumption).
  set (e := 2 * K * / 2 ^ 52) in *. assert (He: 0 <= e) by (unfold e; apply Rmult_le_pos; lra).
  destruct (bins_sum f M h e He xs ys x0 y0 G LS HS) as (Is & EB & (I1 & I2) & _).
  { assert (HF: forall x, In x (x0 :: xs) -> 0 < f x). { intros x Hx. destruct HS as (FP & _). apply FP. apply grid_range; assumption. }
    unfold samples. clear - SA HF HK. induction SA as [|x y lx ly W F IH]; constructor; [apply within_ln; [apply HF; left; reflexivity|assumption..]|].
    apply IH. intros z Hz. apply HF. right. assumption. }
  cbv zeta in I1, I2. set (D := M * h ^ 2 / 8 + e) in *. set (X := RInt f x0 (last (x0 :: xs) 0)) in *.
  pose proof (C117_integral L lg d (y0 :: ys) (x0 :: xs) Is s HL Hd Len O EB FT) as C.
  set (dd := d + 2 * INR (List.length (x0 :: xs)) * / 2 ^ 52) in *.
  assert (Hdd: 0 <= dd). { unfold dd. pose proof (pos_INR (List.length (x0 :: xs))). assert (0 <= 2 * INR (List.length (x0 :: xs)) * / 2 ^ 52) by (apply Rmult_le_pos; lra). lra. }
  assert (D0: 0 <= D). { unfold D. pose proof (pow2_ge_0 h). assert (0 <= M * h ^ 2) by (apply Rmult_le_pos; assumption). lra. }
  assert (X0: 0 <= X).
  { unfold X. apply RInt_ge_0; [lra|apply (smooth_ex_RInt f x0 (last (x0 :: xs) 0) M); try lra; assumption|]. intros x Hx. destruct HS as (FP & _). left. apply FP. lra. }
  set (SI := sumR Is) in *. set (E := exp D) in *. assert (E1: 1 <= E) by (unfold E; rewrite <- exp_0; apply exp_le; assumption).
  assert (S0: 0 <= SI). { destruct (Rle_or_lt 0 SI) as [|N]; [assumption|]. exfalso. assert (E * SI < 0) by nra. lra. }
  apply Rabs_le_inv in C. assert (SX: / E * X <= SI). { apply Rmult_le_reg_l with E; [lra|]. rewrite <- Rmult_assoc, Rinv_r by lra. lra. }
  assert (IE: 2 - E <= / E). { apply Rmult_le_reg_r with E; [lra|]. rewrite Rinv_l by lra. pose proof (pow2_ge_0 (E - 1)). nra. }
  assert (A1: SI - X <= (E - 1) * X) by lra. assert (A2: X - SI <= (E - 1) * X) by nra.
  assert (A3: dd * SI <= dd * (E * X)) by (apply Rmult_le_compat_l; lra).
  apply Rabs_le. split; lra.
Qed.

(** ** Examples *)
(** electrons with a cutoff at 10 and a grid from 1 to 100 *)
Example C119_example : log_smooth (fun E => E * cutoff_power_law E 1 1 2 10 1) 1 100 10.
Proof.
  assert (E: 1 ^ 2 * Rpower (100 / 10) 1 = 10) by (rewrite Rpower_1 by lra; lra).
  pose proof (smooth_cutoff 1 1 2 10 1 1 100 ltac:(lra) ltac:(lra) ltac:(lra) ltac:(lra) ltac:(lra) ltac:(lra)) as S. rewrite E in S. exact S.
Qed.
Example C119_example_default : Rabs (compute_We 1 100 (fun E => cutoff_power_law E 1 1 2 10 1) 1 100 None None - RInt (fun E => E * cutoff_power_law E 1 1 2 10 1) 1 100)
  <= / 100 * RInt (fun E => E * cutoff_power_law E 1 1 2 10 1) 1 100.
Proof.
  destruct (C119_default_grid 1 100 (fun E => cutoff_power_law E 1 1 2 10 1) 1 100 None None 10) as (A & _); cbn [bound]; try lra; [apply C119_example|].
  cbn [bound] in A. apply A. lra.
Qed.
Print Assumptions C119_default_grid.
Print Assumptions C119_computed.
(** the steep power law E^-2 at 1, 2 and 4, with exact samples *)
Lemma ex_bin x : 0 < x -> ordinary_bin x (2 * x) (/ x ^ 2) (/ (2 * x) ^ 2) (ln 2) (-2).
Proof.
  intros Hx. assert (L2: / 2 <= ln 2). { assert (- ln 2 <= - / 2); [|lra]. rewrite <- ln_Rinv by lra. pose proof (ln_le_sub1 (/ 2)). lra. }
  assert (L3: ln 2 <= 1) by (pose proof (ln_le_sub1 2); lra).
  assert (P2: 0 < x ^ 2) by (apply pow_lt; assumption). assert (P4: 0 < (2 * x) ^ 2) by (apply pow_lt; lra).
  unfold ordinary_bin. split; [lra|]. split; [apply Rinv_0_lt_compat; assumption|]. split; [apply Rinv_0_lt_compat; assumption|].
  split; [f_equal; field; lra|]. split.
  - replace (/ (2 * x) ^ 2 / / x ^ 2) with (/ (2 * 2)) by (field; lra). rewrite ln_Rinv, ln_mult by lra. field. lra.
  - rewrite Rabs_left by lra. assert (/ ln 2 <= 2). { apply Rmult_le_reg_r with (ln 2); [lra|]. rewrite Rinv_l; lra. }
    replace (10 ^ 7) with 10000000 by ring. split; nra.
Qed.
Example C119_example_computed : exists L lg s, lib_ok L lg /\
  log_smooth (fun E => E * power_law E 1 1 3) 1 4 0 /\ grid [1; 2; 4] /\ log_step (ln 2) [1; 2; 4] /\
  Forall2 (fun x y => within 0 (x * power_law x 1 1 3) y) [1; 2; 4] [1; 1 / 4; 1 / 16] /\
  ordinary (1 / 1000) [1; 1 / 4; 1 / 16] [1; 2; 4] /\ ftrapz L lg [1; 1 / 4; 1 / 16] [1; 2; 4] s.
Proof.
  destruct C117_hyp as (L & lg & HL & _). exists L, lg, (fadd (finterval L lg 1 2 1 (1 / 4)) (finterval L lg 2 4 (1 / 4) (1 / 16))).
  split; [assumption|]. split; [apply smooth_power_law; lra|]. split; [split; repeat constructor; lra|]. split.
  { intros [|[|i]] Hi; cbn in *; [right; f_equal; lra|right; f_equal; lra|lia]. }
  assert (V: forall x, 0 < x -> x * power_law x 1 1 3 = / x ^ 2).
  { intros x Hx. unfold power_law. cbv zeta. replace (x / 1) with x by field. rewrite Rpower_Ropp. replace 3 with (INR 3) by (cbn; lra). rewrite Rpower_pow by assumption. field. lra. }
  split.
  { unfold within. repeat (apply Forall2_cons; [rewrite V by lra; rewrite !Rmult_0_l; right; rewrite <- Rabs_R0; f_equal; field|]). apply Forall2_nil. }
  split.
  - assert (B: forall x, 0 < x -> 43 * / 2 ^ 53 * ((1 + Rabs (-2)) * (1 + ln 2)) * (1 + / (Rabs (-2 + 1) * ln 2)) <= 1 / 1000).
    { intros _ _. assert (L2: / 2 <= ln 2). { assert (- ln 2 <= - / 2); [|lra]. rewrite <- ln_Rinv by lra. pose proof (ln_le_sub1 (/ 2)). lra. }
      assert (L3: ln 2 <= 1) by (pose proof (ln_le_sub1 2); lra). replace (-2 + 1) with (-1) by ring. rewrite !Rabs_left by lra.
      assert (/ (- -1 * ln 2) <= 2). { apply Rmult_le_reg_r with (- -1 * ln 2); [lra|]. rewrite Rinv_l; lra. }
      assert (0 < / (- -1 * ln 2)) by (apply Rinv_0_lt_compat; lra). assert (PP: / 2 ^ 53 <= / 10 ^ 9 /\ 0 < / 2 ^ 53) by (split; [apply Rinv_le_contravar; lra|apply Rinv_0_lt_compat; lra]).
      apply Rle_trans with (43 * / 10 ^ 9 * (3 * 2) * 3); [|lra].
      apply Rmult_le_compat; [apply Rmult_le_pos; [lra|nra]|lra| |lra]. apply Rmult_le_compat; [lra|nra|lra|nra]. }
    split; [|split; [|exact I]]; intros _ _; exists (ln 2), (-2); (split; [|right; split; [rewrite Rabs_left by lra; lra|apply (B 1); lra]]).
    + pose proof (ex_bin 1 ltac:(lra)) as X. replace (2 * 1) with 2 in X by ring. replace (/ 1 ^ 2) with 1 in X by field. replace (/ 2 ^ 2) with (1 / 4) in X by field. exact X.
    + pose proof (ex_bin 2 ltac:(lra)) as X. replace (2 * 2) with 4 in X by ring. replace (/ 2 ^ 2) with (1 / 4) in X by field. replace (/ 4 ^ 2) with (1 / 16) in X by field. exact X.
  - unfold ftrapz. cbn [ftrapz_intervals]. apply (fs_add [_] [_]); apply fs_one.
Qed.
