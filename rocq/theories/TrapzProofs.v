(** Lemmas about trapz_loglog. *)
From Coq Require Import Reals List Lra Lia Sorted.
From Coquelicot Require Import Coquelicot.
From Verif Require Import TrapzModel TrapzSpec.
Import ListNotations.
Local Open Scope R_scope.

Lemma ln10_pos : 0 < ln 10.
Proof. rewrite <- ln_1. apply ln_increasing; lra. Qed.

Lemma window_pos : 0 < window_eps.
Proof. unfold window_eps. apply Rinv_0_lt_compat. apply pow_lt. lra. Qed.

Lemma div_pos a b : 0 < a -> 0 < b -> 0 < a / b.
Proof. intros. apply Rdiv_lt_0_compat; auto. Qed.

Lemma ln_div a b : 0 < a -> 0 < b -> ln (a / b) = ln a - ln b.
Proof. intros. unfold Rdiv. rewrite ln_mult, ln_Rinv; auto using Rinv_0_lt_compat. Qed.

Lemma ln_ratio_pos x1 x2 : 0 < x1 -> x1 < x2 -> 0 < ln (x2 / x1).
Proof.
  intros. rewrite ln_div by lra. assert (ln x1 < ln x2) by (apply ln_increasing; lra). lra.
Qed.

Lemma local_index_ln x1 x2 y1 y2 : 0 < x1 -> x1 < x2 ->
  local_index x1 x2 y1 y2 = ln (y2 / y1) / ln (x2 / x1).
Proof.
  intros. unfold local_index, log10. pose proof ln10_pos. pose proof (ln_ratio_pos x1 x2). field. lra.
Qed.

Lemma Rpower_pos x b : 0 < Rpower x b.
Proof. apply exp_pos. Qed.

Lemma Rpower_div x y b : 0 < x -> 0 < y -> Rpower (x / y) b = Rpower x b / Rpower y b.
Proof.
  intros. unfold Rpower. rewrite ln_div by auto. unfold Rdiv. rewrite <- exp_Ropp, <- exp_plus. f_equal. ring.
Qed.

Lemma through_right x1 x2 y1 y2 : 0 < x1 -> x1 < x2 -> 0 < y1 -> 0 < y2 ->
  y1 * Rpower (x2 / x1) (ln (y2 / y1) / ln (x2 / x1)) = y2.
Proof.
  intros. unfold Rpower. pose proof (ln_ratio_pos x1 x2).
  replace (ln (y2 / y1) / ln (x2 / x1) * ln (x2 / x1)) with (ln (y2 / y1)) by (field; lra).
  rewrite exp_ln by (apply div_pos; auto). field. lra.
Qed.

Lemma through_left x1 x2 y1 y2 : 0 < x1 -> through x1 x2 y1 y2 x1 = y1.
Proof.
  intros. unfold through, Rpower. replace (x1 / x1) with 1 by (field; lra).
  rewrite ln_1, Rmult_0_r, exp_0. ring.
Qed.

(** ** Exact integrals *)
Lemma derive_power x1 b x : 0 < x1 -> 0 < x ->
  is_derive (fun x => x * Rpower (x / x1) b) x ((b + 1) * Rpower (x / x1) b).
Proof.
  intros H1 H2. unfold Rpower. auto_derive.
  - apply div_pos; auto.
  - unfold Rdiv. generalize (exp (b * ln (x * / x1))). intros. field. lra.
Qed.

Lemma continuous_power x1 b x : 0 < x1 -> 0 < x -> continuous (fun x => Rpower (x / x1) b) x.
Proof.
  intros. apply (ex_derive_continuous (fun x => Rpower (x / x1) b)).
  unfold Rpower. auto_derive. apply div_pos; auto.
Qed.

Lemma is_RInt_power x1 x2 y1 b : 0 < x1 -> x1 < x2 -> b + 1 <> 0 ->
  is_RInt (fun x => y1 * Rpower (x / x1) b) x1 x2
          (y1 * (x2 * Rpower (x2 / x1) b - x1) / (b + 1)).
Proof.
  intros H1 H2 Hb.
  assert (E : y1 * (x2 * Rpower (x2 / x1) b - x1) / (b + 1) =
     minus ((fun x => y1 / (b + 1) * (x * Rpower (x / x1) b)) x2) ((fun x => y1 / (b + 1) * (x * Rpower (x / x1) b)) x1)).
  { unfold minus, plus, opp; simpl.
    replace (Rpower (x1 / x1) b) with 1. 2:{ unfold Rpower. replace (x1/x1) with 1 by (field; lra). now rewrite ln_1, Rmult_0_r, exp_0. }
    field; auto. }
  rewrite E. apply (is_RInt_derive (fun x => y1 / (b + 1) * (x * Rpower (x / x1) b))).
  - intros x Hx. rewrite Rmin_left, Rmax_right in Hx by lra.
    replace (y1 * Rpower (x / x1) b) with (scal (y1 / (b + 1)) ((b + 1) * Rpower (x / x1) b)).
    2:{ unfold scal; simpl; unfold mult; simpl. field; auto. }
    apply (is_derive_scal (fun x => x * Rpower (x / x1) b)). apply derive_power; lra.
  - intros x Hx. rewrite Rmin_left, Rmax_right in Hx by lra.
    apply (continuous_scal_r y1 (fun x => Rpower (x / x1) b)). apply continuous_power; lra.
Qed.

Lemma is_RInt_power_m1 x1 x2 y1 : 0 < x1 -> x1 < x2 ->
  is_RInt (fun x => y1 * Rpower (x / x1) (-1)) x1 x2 (x1 * y1 * ln (x2 / x1)).
Proof.
  intros H1 H2.
  assert (E : x1 * y1 * ln (x2 / x1) =
     minus ((fun x => x1 * y1 * ln (x / x1)) x2) ((fun x => x1 * y1 * ln (x / x1)) x1)).
  { unfold minus, plus, opp; simpl. replace (x1 / x1) with 1 by (field; lra). rewrite ln_1. ring. }
  rewrite E. apply (is_RInt_derive (fun x => x1 * y1 * ln (x / x1))).
  - intros x Hx. rewrite Rmin_left, Rmax_right in Hx by lra.
    replace (Rpower (x / x1) (-1)) with (x1 / x).
    2:{ replace (-1) with (- (1)) by ring. rewrite Rpower_Ropp, Rpower_1 by (apply div_pos; lra). field; split; lra. }
    auto_derive; [apply div_pos; lra|]. field. lra.
  - intros x Hx. rewrite Rmin_left, Rmax_right in Hx by lra.
    apply (continuous_scal_r y1 (fun x => Rpower (x / x1) (-1))). apply continuous_power; lra.
Qed.


Lemma raw_interval_same x1 x2 y1 y2 : 0 <= y1 * y2 -> raw_interval x1 x2 y1 y2 =
  (let b := local_index x1 x2 y1 y2 in
   if Rlt_dec window_eps (Rabs (b + 1)) then (y1 * (x2 * Rpower (x2 / x1) b - x1)) / (b + 1) else x1 * y1 * ln (x2 / x1)).
Proof. intros H. unfold raw_interval. destruct (Rlt_dec (y1 * y2) 0); [lra|reflexivity]. Qed.
Lemma raw_interval_scale c x1 x2 y1 y2 : 0 < c -> y1 <> 0 -> raw_interval x1 x2 (c * y1) (c * y2) = c * raw_interval x1 x2 y1 y2.
Proof.
  intros Hc N. unfold raw_interval, local_index. replace (c * y2 / (c * y1)) with (y2 / y1) by (field; lra).
  replace (c * y1 * (c * y2)) with (c * c * (y1 * y2)) by ring. cbv zeta.
  destruct (Rlt_dec (c * c * (y1 * y2)) 0) as [H|H], (Rlt_dec (y1 * y2) 0) as [H'|H']; [ring|exfalso; nra|exfalso|].
  - apply H. assert (0 < c * c) by (apply Rmult_lt_0_compat; auto). nra.
  - destruct (Rlt_dec _ _); unfold Rdiv; ring.
Qed.
Lemma raw_interval_opp x1 x2 y1 y2 : y1 <> 0 -> raw_interval x1 x2 (- y1) (- y2) = - raw_interval x1 x2 y1 y2.
Proof.
  intros N. unfold raw_interval, local_index. replace (- y2 / - y1) with (y2 / y1) by (field; lra).
  replace (- y1 * - y2) with (y1 * y2) by ring. cbv zeta. destruct (Rlt_dec (y1 * y2) 0); [ring|]. destruct (Rlt_dec _ _); unfold Rdiv; ring.
Qed.

Lemma interval_raw x1 x2 y1 y2 : 0 < x1 -> x1 < x2 -> 0 < y1 -> 0 < y2 ->
  interval x1 x2 y1 y2 = raw_interval x1 x2 y1 y2.
Proof.
  intros. unfold interval.
  destruct (Req_EM_T y1 0); [lra|]. destruct (Req_EM_T y2 0); [lra|]. destruct (Req_EM_T x1 x2); [lra|]. reflexivity.
Qed.

Lemma interval_exact x1 x2 y1 y2 : 0 < x1 -> x1 < x2 -> 0 < y1 -> 0 < y2 ->
  good_index (ln (y2 / y1) / ln (x2 / x1)) ->
  is_RInt (through x1 x2 y1 y2) x1 x2 (interval x1 x2 y1 y2).
Proof.
  intros H1 H2 H3 H4 HG. rewrite interval_raw by auto.
  rewrite raw_interval_same by nra. cbv zeta. rewrite local_index_ln by auto.
  unfold through. set (b := ln (y2 / y1) / ln (x2 / x1)) in *.
  destruct HG as [HG|HG].
  - rewrite HG. destruct (Rlt_dec window_eps (Rabs (-1 + 1))) as [C|C].
    + replace (-1 + 1) with 0 in C by ring. rewrite Rabs_R0 in C. pose proof window_pos. lra.
    + apply is_RInt_power_m1; auto.
  - destruct (Rlt_dec window_eps (Rabs (b + 1))) as [C|C]; [|contradiction].
    apply is_RInt_power; auto. intros E. rewrite E, Rabs_R0 in C. pose proof window_pos. lra.
Qed.

Lemma index_of_powerlaw K b x1 x2 : 0 < K -> 0 < x1 -> x1 < x2 ->
  ln (powerlaw K b x2 / powerlaw K b x1) / ln (x2 / x1) = b.
Proof.
  intros. unfold powerlaw. pose proof (ln_ratio_pos x1 x2).
  pose proof (Rpower_pos x1 b). pose proof (Rpower_pos x2 b).
  replace (K * Rpower x2 b / (K * Rpower x1 b)) with (Rpower (x2 / x1) b).
  - unfold Rpower. rewrite ln_exp. field. lra.
  - rewrite Rpower_div by lra. field. lra.
Qed.

Lemma through_powerlaw K b x1 x2 x : 0 < K -> 0 < x1 -> x1 < x2 -> 0 < x ->
  through x1 x2 (powerlaw K b x1) (powerlaw K b x2) x = powerlaw K b x.
Proof.
  intros. unfold through. rewrite index_of_powerlaw by auto. unfold powerlaw.
  rewrite Rpower_div by lra. pose proof (Rpower_pos x1 b). field. lra.
Qed.

Lemma powerlaw_pos K b x : 0 < K -> 0 < powerlaw K b x.
Proof. intros. apply Rmult_lt_0_compat; auto using Rpower_pos. Qed.

Lemma interval_powerlaw K b x1 x2 : 0 < K -> good_index b -> 0 < x1 -> x1 < x2 ->
  is_RInt (powerlaw K b) x1 x2 (interval x1 x2 (powerlaw K b x1) (powerlaw K b x2)).
Proof.
  intros HK HG H1 H2.
  apply is_RInt_ext with (through x1 x2 (powerlaw K b x1) (powerlaw K b x2)).
  - intros x Hx. rewrite Rmin_left, Rmax_right in Hx by lra. apply through_powerlaw; auto; lra.
  - apply interval_exact; auto using powerlaw_pos. rewrite index_of_powerlaw; auto.
Qed.

Lemma grid_cons2 x y l : grid (x :: y :: l) -> 0 < x /\ x < y /\ grid (y :: l).
Proof.
  intros [HF HS]. inversion HF; subst. inversion HS; subst. inversion H4; subst. repeat split; auto.
Qed.

Lemma trapz_cons2 y1 y2 ys x1 x2 xs :
  trapz_loglog (y1 :: y2 :: ys) (x1 :: x2 :: xs) = interval x1 x2 y1 y2 + trapz_loglog (y2 :: ys) (x2 :: xs).
Proof. reflexivity. Qed.

Lemma trapz_powerlaw K b xs x0 : 0 < K -> good_index b -> grid (x0 :: xs) ->
  is_RInt (powerlaw K b) x0 (last (x0 :: xs) 0) (trapz_loglog (map (powerlaw K b) (x0 :: xs)) (x0 :: xs)).
Proof.
  intros HK HG. revert x0. induction xs as [|x1 xs IH]; intros x0 HX.
  - exact (@is_RInt_point R_NormedModule (powerlaw K b) x0).
  - destruct (grid_cons2 _ _ _ HX) as (H1 & H2 & H3).
    change (last (x0 :: x1 :: xs) 0) with (last (x1 :: xs) 0).
    simpl map. rewrite trapz_cons2.
    apply (@is_RInt_Chasles R_NormedModule (powerlaw K b) x0 x1 (last (x1 :: xs) 0)).
    + apply interval_powerlaw; auto.
    + apply IH; auto.
Qed.

(** ** The window round index -1 *)
Lemma exp_ge_1p x : 1 + x <= exp x.
Proof. destruct (Req_dec x 0) as [->|H]; [rewrite exp_0; lra|]. apply Rlt_le, exp_ineq1; auto. Qed.

Lemma expm1_over_t t : t <> 0 -> Rabs ((exp t - 1) / t - 1) <= Rabs t * exp (Rabs t).
Proof.
  intros Ht. pose proof (exp_ge_1p t) as G1. pose proof (exp_ge_1p (- t)) as G2.
  assert (E : exp t * exp (- t) = 1) by (rewrite <- exp_plus; replace (t + - t) with 0 by ring; apply exp_0).
  pose proof (exp_pos t) as P. pose proof (exp_pos (- t)) as P'.
  assert (U : exp t - 1 <= t * exp t).
  { assert (exp t * (1 + - t) <= 1) by (rewrite <- E; apply Rmult_le_compat_l; lra). lra. }
  destruct (Rtotal_order t 0) as [N|[Z|N]]; [|contradiction|].
  - rewrite (Rabs_left t) by auto.
    assert (I : / t < 0) by (apply Rinv_lt_0_compat; auto).
    assert (Q1 : (exp t - 1) / t <= 1).
    { replace 1 with (t / t) at 2 by (field; auto). apply Rmult_le_compat_neg_l with (r := / t) in G1; [|lra].
      unfold Rdiv. nra. }
    assert (Q2 : exp t <= (exp t - 1) / t).
    { replace (exp t) with (t * exp t / t) at 1 by (field; auto). unfold Rdiv. nra. }
    rewrite Rabs_left1 by lra.
    assert (1 <= exp (- t)) by lra. nra.
  - rewrite (Rabs_right t) by lra.
    assert (I : 0 < / t) by (apply Rinv_0_lt_compat; lra).
    assert (Q1 : 1 <= (exp t - 1) / t).
    { replace 1 with (t / t) at 1 by (field; auto). unfold Rdiv. nra. }
    assert (Q2 : (exp t - 1) / t <= exp t).
    { replace (exp t) with (t * exp t / t) at 2 by (field; auto). unfold Rdiv. nra. }
    rewrite Rabs_right by lra. lra.
Qed.

Lemma interval_window x1 x2 y1 y2 : 0 < x1 -> x1 < x2 -> 0 < y1 -> 0 < y2 ->
  let b := ln (y2 / y1) / ln (x2 / x1) in
  let t := (b + 1) * ln (x2 / x1) in
  Rabs (b + 1) <= window_eps ->
  exists I, is_RInt (through x1 x2 y1 y2) x1 x2 I /\
    Rabs (interval x1 x2 y1 y2 - I) <= Rabs t * exp (Rabs t) * interval x1 x2 y1 y2.
Proof.
  intros H1 H2 H3 H4 b t HW.
  pose proof (ln_ratio_pos _ _ H1 H2) as HL.
  assert (EI : interval x1 x2 y1 y2 = x1 * y1 * ln (x2 / x1)).
  { rewrite interval_raw by auto. rewrite raw_interval_same by nra. cbv zeta. rewrite local_index_ln by auto. fold b.
    destruct (Rlt_dec window_eps (Rabs (b + 1))); [lra|reflexivity]. }
  destruct (Req_dec (b + 1) 0) as [Z|NZ].
  - exists (interval x1 x2 y1 y2). split.
    + apply interval_exact; auto. left. fold b. lra.
    + rewrite Rminus_eq_0, Rabs_R0, EI. apply Rmult_le_pos.
      * apply Rmult_le_pos; [apply Rabs_pos|apply Rlt_le, exp_pos].
      * apply Rmult_le_pos; [nra|lra].
  - assert (Ht : t <> 0) by (unfold t; nra).
    exists (y1 * (x2 * Rpower (x2 / x1) b - x1) / (b + 1)). split; [apply is_RInt_power; auto|].
    assert (EX : y1 * (x2 * Rpower (x2 / x1) b - x1) / (b + 1) = x1 * y1 * ln (x2 / x1) * ((exp t - 1) / t)).
    { replace (x2 * Rpower (x2 / x1) b) with (x1 * exp t).
      - unfold t. field. split; [lra|auto].
      - unfold t, Rpower. replace ((b + 1) * ln (x2 / x1)) with (ln (x2 / x1) + b * ln (x2 / x1)) by ring.
        rewrite exp_plus, exp_ln by (apply div_pos; lra). field. lra. }
    rewrite EX, EI. set (A := x1 * y1 * ln (x2 / x1)).
    assert (HA : 0 < A) by (unfold A; apply Rmult_lt_0_compat; [nra|lra]).
    replace (A - A * ((exp t - 1) / t)) with (- (A * ((exp t - 1) / t - 1))) by ring.
    rewrite Rabs_Ropp, Rabs_mult, (Rabs_right A) by lra.
    rewrite (Rmult_comm _ A). apply Rmult_le_compat_l; [lra|]. apply expm1_over_t; auto.
Qed.

(** ** Scaling *)
Lemma interval_scale_y c x1 x2 y1 y2 : 0 < c -> interval x1 x2 (c * y1) (c * y2) = c * interval x1 x2 y1 y2.
Proof.
  intros Hc. unfold interval.
  destruct (Req_EM_T y1 0) as [->|N1].
  { rewrite Rmult_0_r. destruct (Req_EM_T 0 0); [reflexivity|lra]. }
  destruct (Req_EM_T (c * y1) 0) as [E|_]; [exfalso; apply Rmult_integral in E; lra|].
  destruct (Req_EM_T y2 0) as [->|N2].
  { rewrite Rmult_0_r. destruct (Req_EM_T 0 0); [reflexivity|lra]. }
  destruct (Req_EM_T (c * y2) 0) as [E|_]; [exfalso; apply Rmult_integral in E; lra|].
  destruct (Req_EM_T x1 x2); [ring|].
  apply raw_interval_scale; auto.
Qed.

Lemma interval_scale_x k x1 x2 y1 y2 : 0 < k -> x1 <> 0 -> interval (k * x1) (k * x2) y1 y2 = k * interval x1 x2 y1 y2.
Proof.
  intros Hk Hx. unfold interval.
  destruct (Req_EM_T y1 0); [ring|]. destruct (Req_EM_T y2 0); [ring|].
  destruct (Req_EM_T x1 x2) as [->|N].
  { destruct (Req_EM_T (k * x2) (k * x2)); [ring|lra]. }
  destruct (Req_EM_T (k * x1) (k * x2)) as [E|_]; [exfalso; apply Rmult_eq_reg_l in E; lra|].
  unfold raw_interval, local_index.
  replace (k * x2 / (k * x1)) with (x2 / x1) by (field; lra). cbv zeta.
  destruct (Rlt_dec (y1 * y2) 0); [ring|]. destruct (Rlt_dec _ _); unfold Rdiv; ring.
Qed.

Lemma trapz_scale_y c ys : forall xs, 0 < c -> trapz_loglog (map (Rmult c) ys) xs = c * trapz_loglog ys xs.
Proof.
  unfold trapz_loglog. induction ys as [|y1 ys IH]; intros xs Hc; [simpl; ring|].
  destruct ys as [|y2 ys]; [destruct xs as [|? [|]]; simpl; try ring|].
  destruct xs as [|x1 xs]; [simpl; ring|]. destruct xs as [|x2 xs]; [simpl; ring|].
  specialize (IH (x2 :: xs) Hc). simpl map in *.
  change (interval x1 x2 (c * y1) (c * y2) + fold_right Rplus 0 (trapz_intervals (c * y2 :: map (Rmult c) ys) (x2 :: xs)) =
          c * (interval x1 x2 y1 y2 + fold_right Rplus 0 (trapz_intervals (y2 :: ys) (x2 :: xs)))).
  rewrite IH, interval_scale_y by auto. ring.
Qed.

Lemma trapz_scale_x k ys : forall xs, 0 < k -> List.Forall (fun x => x <> 0) xs ->
  trapz_loglog ys (map (Rmult k) xs) = k * trapz_loglog ys xs.
Proof.
  unfold trapz_loglog. induction ys as [|y1 ys IH]; intros xs Hk HF; [simpl; ring|].
  destruct ys as [|y2 ys]; [destruct xs as [|? [|]]; simpl; try ring|].
  destruct xs as [|x1 xs]; [simpl; ring|]. destruct xs as [|x2 xs]; [simpl; ring|].
  inversion HF; subst. specialize (IH (x2 :: xs) Hk H2). simpl map in *.
  change (interval (k * x1) (k * x2) y1 y2 + fold_right Rplus 0 (trapz_intervals (y2 :: ys) (k * x2 :: map (Rmult k) xs)) =
          k * (interval x1 x2 y1 y2 + fold_right Rplus 0 (trapz_intervals (y2 :: ys) (x2 :: xs)))).
  rewrite IH, interval_scale_x by auto. ring.
Qed.

(** ** Bounds and sign *)
Lemma through_bounds x1 x2 y1 y2 x : 0 < x1 -> x1 < x2 -> 0 < y1 -> 0 < y2 -> x1 <= x <= x2 ->
  Rmin y1 y2 <= through x1 x2 y1 y2 x <= Rmax y1 y2.
Proof.
  intros H1 H2 H3 H4 Hx. unfold through.
  pose proof (ln_ratio_pos _ _ H1 H2) as HL.
  set (b := ln (y2 / y1) / ln (x2 / x1)).
  set (l := ln (x / x1)).
  assert (Hl : 0 <= l <= ln (x2 / x1)).
  { unfold l. rewrite !ln_div by lra.
    assert (ln x1 <= ln x) by (destruct (Req_dec x1 x) as [->|]; [lra|apply Rlt_le, ln_increasing; lra]).
    assert (ln x <= ln x2) by (destruct (Req_dec x2 x) as [->|]; [lra|apply Rlt_le, ln_increasing; lra]). lra. }
  unfold Rpower. fold l.
  assert (E2 : y2 = y1 * exp (b * ln (x2 / x1))).
  { symmetry. exact (through_right x1 x2 y1 y2 H1 H2 H3 H4). }
  assert (M : forall u v, u <= v -> exp u <= exp v).
  { intros u v Huv. destruct (Req_dec u v) as [->|]; [lra|apply Rlt_le, exp_increasing; lra]. }
  destruct (Rle_lt_dec 0 b) as [B|B].
  - assert (Q : exp 0 <= exp (b * l)) by (apply M; nra). rewrite exp_0 in Q.
    assert (Q' : exp (b * l) <= exp (b * ln (x2 / x1))) by (apply M; nra).
    assert (y1 <= y2) by (rewrite E2; nra).
    rewrite Rmin_left, Rmax_right by auto. split; [nra|]. rewrite E2. apply Rmult_le_compat_l; lra.
  - assert (Q : exp (b * l) <= exp 0) by (apply M; nra). rewrite exp_0 in Q.
    assert (Q' : exp (b * ln (x2 / x1)) <= exp (b * l)) by (apply M; nra).
    pose proof (exp_pos (b * ln (x2 / x1))).
    assert (y2 <= y1) by (rewrite E2; nra).
    rewrite Rmin_right, Rmax_left by auto. split; [|nra]. rewrite E2. apply Rmult_le_compat_l; lra.
Qed.

Lemma interval_bounds x1 x2 y1 y2 : 0 < x1 -> x1 < x2 -> 0 < y1 -> 0 < y2 ->
  good_index (ln (y2 / y1) / ln (x2 / x1)) ->
  Rmin y1 y2 * (x2 - x1) <= interval x1 x2 y1 y2 <= Rmax y1 y2 * (x2 - x1).
Proof.
  intros H1 H2 H3 H4 HG. pose proof (interval_exact _ _ _ _ H1 H2 H3 H4 HG) as HI.
  pose proof (is_RInt_const x1 x2 (Rmin y1 y2)) as Hlo. pose proof (is_RInt_const x1 x2 (Rmax y1 y2)) as Hhi.
  unfold scal in Hlo, Hhi; simpl in Hlo, Hhi; unfold mult in Hlo, Hhi; simpl in Hlo, Hhi.
  rewrite (Rmult_comm (Rmin _ _)), (Rmult_comm (Rmax _ _)).
  split.
  - eapply is_RInt_le; [|exact Hlo|exact HI|]; [lra|]. intros x Hx. apply through_bounds; auto; lra.
  - eapply is_RInt_le; [|exact HI|exact Hhi|]; [lra|]. intros x Hx. apply through_bounds; auto; lra.
Qed.

Lemma interval_nonneg x1 x2 y1 y2 : 0 < x1 -> x1 <= x2 -> 0 <= y1 -> 0 <= y2 -> 0 <= interval x1 x2 y1 y2.
Proof.
  intros H1 H2 H3 H4. unfold interval.
  destruct (Req_EM_T y1 0); [lra|]. destruct (Req_EM_T y2 0); [lra|]. destruct (Req_EM_T x1 x2); [lra|].
  assert (A1 : x1 < x2) by lra. assert (A2 : 0 < y1) by lra. assert (A3 : 0 < y2) by lra.
  pose proof (ln_ratio_pos _ _ H1 A1).
  rewrite <- (interval_raw x1 x2 y1 y2) by auto.
  destruct (Rlt_dec window_eps (Rabs (ln (y2 / y1) / ln (x2 / x1) + 1))) as [C|C].
  - apply Rle_trans with (Rmin y1 y2 * (x2 - x1)).
    + apply Rmult_le_pos; [|lra]. apply Rmin_glb; lra.
    + apply interval_bounds; auto. right; auto.
  - rewrite interval_raw by auto. rewrite raw_interval_same by nra. cbv zeta. rewrite local_index_ln by auto.
    destruct (Rlt_dec _ _); [contradiction|]. apply Rmult_le_pos; [nra|lra].
Qed.

(** Positive samples on a proper interval give a positive integral. *)
Lemma interval_pos x1 x2 y1 y2 : 0 < x1 -> x1 < x2 -> 0 < y1 -> 0 < y2 -> 0 < interval x1 x2 y1 y2.
Proof.
  intros H1 H2 H3 H4. pose proof (ln_ratio_pos _ _ H1 H2).
  destruct (Rlt_dec window_eps (Rabs (ln (y2 / y1) / ln (x2 / x1) + 1))) as [C|C].
  - apply Rlt_le_trans with (Rmin y1 y2 * (x2 - x1)).
    + apply Rmult_lt_0_compat; [|lra]. apply Rmin_glb_lt; lra.
    + apply interval_bounds; auto. right; auto.
  - rewrite interval_raw by auto. rewrite raw_interval_same by nra. cbv zeta. rewrite local_index_ln by auto.
    destruct (Rlt_dec _ _); [contradiction|]. apply Rmult_lt_0_compat; [nra|lra].
Qed.

Lemma trapz_nonneg ys : forall xs, grid xs -> List.Forall (fun y => 0 <= y) ys -> 0 <= trapz_loglog ys xs.
Proof.
  unfold trapz_loglog. induction ys as [|y1 ys IH]; intros xs HX HY; [simpl; lra|].
  destruct ys as [|y2 ys]; [destruct xs as [|? [|]]; simpl; lra|].
  destruct xs as [|x1 xs]; [simpl; lra|]. destruct xs as [|x2 xs]; [simpl; lra|].
  destruct (grid_cons2 _ _ _ HX) as (G1 & G2 & G3). inversion HY; subst. inversion H2; subst.
  change (0 <= interval x1 x2 y1 y2 + fold_right Rplus 0 (trapz_intervals (y2 :: ys) (x2 :: xs))).
  specialize (IH (x2 :: xs) G3 H2).
  pose proof (interval_nonneg x1 x2 y1 y2). lra.
Qed.

Lemma trapz_pos y1 y2 ys x1 x2 xs : grid (x1 :: x2 :: xs) -> 0 < y1 -> 0 < y2 -> List.Forall (fun y => 0 <= y) ys ->
  0 < trapz_loglog (y1 :: y2 :: ys) (x1 :: x2 :: xs).
Proof.
  intros HX H1 H2 HY. rewrite trapz_cons2. destruct (grid_cons2 _ _ _ HX) as (G1 & G2 & G3).
  pose proof (interval_pos x1 x2 y1 y2 G1 G2 H1 H2).
  assert (0 <= trapz_loglog (y2 :: ys) (x2 :: xs)) by (apply trapz_nonneg; auto; constructor; auto; lra). lra.
Qed.

(** ** Monotonicity in the ordinates *)
Lemma through_mono x1 x2 y1 y2 z1 z2 x : 0 < x1 -> x1 < x2 -> 0 < y1 -> 0 < y2 -> y1 <= z1 -> y2 <= z2 ->
  x1 <= x <= x2 -> through x1 x2 y1 y2 x <= through x1 x2 z1 z2 x.
Proof.
  intros H1 H2 H3 H4 L1 L2 Hx. pose proof (ln_ratio_pos _ _ H1 H2) as HL.
  assert (E : forall a b, 0 < a -> 0 < b -> through x1 x2 a b x =
     exp ((1 - ln (x / x1) / ln (x2 / x1)) * ln a + ln (x / x1) / ln (x2 / x1) * ln b)).
  { intros a b Ha Hb. unfold through, Rpower. rewrite (ln_div b a) by auto.
    rewrite <- (exp_ln a) at 1 by auto. rewrite <- exp_plus. f_equal. field. lra. }
  rewrite !E by lra.
  set (l := ln (x / x1)).
  assert (Hl : 0 <= l <= ln (x2 / x1)).
  { unfold l. rewrite !ln_div by lra.
    assert (ln x1 <= ln x) by (destruct (Req_dec x1 x) as [->|]; [lra|apply Rlt_le, ln_increasing; lra]).
    assert (ln x <= ln x2) by (destruct (Req_dec x2 x) as [->|]; [lra|apply Rlt_le, ln_increasing; lra]). lra. }
  assert (Ht : 0 <= l / ln (x2 / x1) <= 1).
  { split; [apply Rmult_le_pos; [lra|apply Rlt_le, Rinv_0_lt_compat; lra]|].
    apply Rmult_le_reg_r with (ln (x2 / x1)); [lra|]. unfold Rdiv. rewrite Rmult_assoc, Rinv_l by lra. lra. }
  assert (ln y1 <= ln z1) by (destruct (Req_dec y1 z1) as [->|]; [lra|apply Rlt_le, ln_increasing; lra]).
  assert (ln y2 <= ln z2) by (destruct (Req_dec y2 z2) as [->|]; [lra|apply Rlt_le, ln_increasing; lra]).
  set (t := l / ln (x2 / x1)) in *.
  assert (M : forall u v, u <= v -> exp u <= exp v).
  { intros u v Huv. destruct (Req_dec u v) as [->|]; [lra|apply Rlt_le, exp_increasing; lra]. }
  apply M. nra.
Qed.

Lemma interval_mono x1 x2 y1 y2 z1 z2 : 0 < x1 -> x1 < x2 -> 0 < y1 -> 0 < y2 -> y1 <= z1 -> y2 <= z2 ->
  good_index (ln (y2 / y1) / ln (x2 / x1)) -> good_index (ln (z2 / z1) / ln (x2 / x1)) ->
  interval x1 x2 y1 y2 <= interval x1 x2 z1 z2.
Proof.
  intros H1 H2 H3 H4 L1 L2 G1 G2.
  eapply is_RInt_le; [|apply interval_exact; eauto|apply interval_exact; eauto|]; try lra.
  intros x Hx. apply through_mono; auto; lra.
Qed.

(** ** Additivity *)
Lemma trapz_split ys1 : forall xs1 y x ys2 xs2, length ys1 = length xs1 ->
  trapz_loglog (ys1 ++ y :: ys2) (xs1 ++ x :: xs2)
  = trapz_loglog (ys1 ++ [y]) (xs1 ++ [x]) + trapz_loglog (y :: ys2) (x :: xs2).
Proof.
  induction ys1 as [|y1 ys1 IH]; intros xs1 y x ys2 xs2 HL.
  - destruct xs1; [|discriminate]. simpl app. change (trapz_loglog [y] [x]) with 0. ring.
  - destruct xs1 as [|x1 xs1]; [discriminate|]. simpl in HL. injection HL as HL.
    specialize (IH xs1 y x ys2 xs2 HL).
    destruct ys1 as [|y2 ys1]; destruct xs1 as [|x2 xs1]; try discriminate.
    + simpl app in *. rewrite !trapz_cons2. change (trapz_loglog [y] [x]) with 0. ring.
    + simpl app in *. rewrite !trapz_cons2, IH. ring.
Qed.

Lemma intervals_length ys : forall xs, length ys = length xs -> length (trapz_intervals ys xs) = Nat.pred (length ys).
Proof.
  induction ys as [|y1 ys IH]; intros xs H; [reflexivity|].
  destruct xs as [|x1 xs]; [discriminate|]. simpl in H. injection H as H.
  destruct ys as [|y2 ys]; destruct xs as [|x2 xs]; try discriminate; [reflexivity|].
  specialize (IH (x2 :: xs) H).
  change (length (trapz_intervals (y1 :: y2 :: ys) (x1 :: x2 :: xs))) with (S (length (trapz_intervals (y2 :: ys) (x2 :: xs)))).
  rewrite IH. reflexivity.
Qed.

Lemma intervals_nth ys : forall xs i, length ys = length xs -> (S i < length ys)%nat ->
  nth i (trapz_intervals ys xs) 0 = interval (nth i xs 0) (nth (S i) xs 0) (nth i ys 0) (nth (S i) ys 0).
Proof.
  induction ys as [|y1 ys IH]; intros xs i H HI; [simpl in HI; lia|].
  destruct xs as [|x1 xs]; [discriminate|]. simpl in H. injection H as H.
  destruct ys as [|y2 ys]; [simpl in HI; lia|]. destruct xs as [|x2 xs]; [discriminate|].
  destruct i as [|i]; [reflexivity|].
  change (trapz_intervals (y1 :: y2 :: ys) (x1 :: x2 :: xs)) with (interval x1 x2 y1 y2 :: trapz_intervals (y2 :: ys) (x2 :: xs)).
  change (nth i (trapz_intervals (y2 :: ys) (x2 :: xs)) 0 =
    interval (nth i (x2 :: xs) 0) (nth (S i) (x2 :: xs) 0) (nth i (y2 :: ys) 0) (nth (S i) (y2 :: ys) 0)).
  apply IH; auto. simpl in HI |- *. lia.
Qed.

(** ** Special values *)
Lemma xinterval_finite x1 x2 y1 y2 : 0 < x1 -> x1 <= x2 -> 0 <= y1 -> 0 <= y2 ->
  xinterval x1 x2 y1 y2 = Fin (interval x1 x2 y1 y2).
Proof.
  intros H1 H2 H3 H4. unfold xinterval, interval.
  destruct (Req_EM_T y1 0) as [|N1]; auto. destruct (Req_EM_T y2 0) as [|N2]; auto.
  destruct (Req_EM_T x1 x2) as [|N3]; auto.
  assert (A : x1 < x2) by lra. pose proof ln10_pos as P10. pose proof (ln_ratio_pos _ _ H1 A) as HL.
  assert (Py : 0 < y2 / y1) by (apply div_pos; lra). assert (Px : 0 < x2 / x1) by (apply div_pos; lra).
  assert (E1 : xlog10 (xdiv (Fin y2) (Fin y1)) = Fin (log10 (y2 / y1))).
  { simpl. destruct (Req_EM_T y1 0); [lra|]. unfold xlog10; simpl.
    destruct (Req_EM_T (y2 / y1) 0); [lra|]. destruct (Rlt_dec 0 (y2 / y1)); [|lra].
    simpl. destruct (Req_EM_T (ln 10) 0); [lra|]. reflexivity. }
  assert (E2 : xdiv (Fin x2) (Fin x1) = Fin (x2 / x1)).
  { simpl. destruct (Req_EM_T x1 0); [lra|]. reflexivity. }
  assert (E3 : xlog10 (Fin (x2 / x1)) = Fin (log10 (x2 / x1))).
  { unfold xlog10; simpl. destruct (Req_EM_T (x2 / x1) 0); [lra|]. destruct (Rlt_dec 0 (x2 / x1)); [|lra].
    simpl. destruct (Req_EM_T (ln 10) 0); [lra|]. reflexivity. }
  rewrite E1, E2, E3.
  assert (E4 : xdiv (Fin (log10 (y2 / y1))) (Fin (log10 (x2 / x1))) = Fin (local_index x1 x2 y1 y2)).
  { simpl. destruct (Req_EM_T (log10 (x2 / x1)) 0) as [E|E]; [|reflexivity].
    exfalso. unfold log10 in E. apply Rmult_integral in E. destruct E as [E|E]; [lra|].
    apply Rinv_neq_0_compat in E; auto; lra. }
  rewrite E4. rewrite raw_interval_same by nra. cbv zeta. simpl (xadd _ (Fin 1)). simpl (xabs _). unfold xgt.
  destruct (Rlt_dec window_eps (Rabs (local_index x1 x2 y1 y2 + 1))) as [C|C].
  - simpl. destruct (Rlt_dec 0 (x2 / x1)); [|lra]. simpl.
    destruct (Req_EM_T (local_index x1 x2 y1 y2 + 1) 0) as [E|E].
    + rewrite E, Rabs_R0 in C. pose proof window_pos. lra.
    + reflexivity.
  - simpl. destruct (Req_EM_T (x2 / x1) 0); [lra|]. destruct (Rlt_dec 0 (x2 / x1)); [|lra]. reflexivity.
Qed.

(** ** Bounds inside the window *)
Lemma ln_le_minus1 r : 0 < r -> ln r <= r - 1.
Proof.
  intros H. pose proof (exp_ge_1p (ln r)) as G. rewrite exp_ln in G by auto. lra.
Qed.

Lemma window_lower t L : 0 < L -> L <= 10 ^ 9 -> t <= window_eps * L ->
  exp t * (1 - exp (- L)) <= L.
Proof.
  intros HL HU Ht.
  assert (He : window_eps * 10 ^ 10 = 1) by (unfold window_eps; field).
  set (e := window_eps) in *. assert (Pe : 0 < e) by (subst e; apply window_pos).
  assert (T1 : e * L <= / 10) by nra.
  assert (M : exp t <= exp (e * L)).
  { destruct (Req_dec t (e * L)) as [->|]; [lra|apply Rlt_le, exp_increasing; lra]. }
  assert (U : exp (e * L) <= 1 + 2 * (e * L)).
  { pose proof (exp_ge_1p (- (e * L))) as G. pose proof (exp_pos (e * L)) as P.
    assert (E : exp (e * L) * exp (- (e * L)) = 1)
      by (rewrite <- exp_plus; replace (e * L + - (e * L)) with 0 by ring; apply exp_0).
    assert (PS : 0 < e * L) by nra. set (s := e * L) in *.
    apply Rmult_le_reg_r with (1 - s); [lra|].
    apply Rle_trans with 1; [|nra].
    rewrite <- E. apply Rmult_le_compat_l; lra. }
  assert (V : 0 <= 1 - exp (- L)).
  { assert (exp (- L) <= exp 0); [|rewrite exp_0 in *; lra]. apply Rlt_le, exp_increasing; lra. }
  apply Rle_trans with ((1 + 2 * (e * L)) * (1 - exp (- L))).
  { apply Rmult_le_compat_r; lra. }
  destruct (Rle_lt_dec (6/5) L) as [C|C].
  - pose proof (exp_pos (- L)). nra.
  - assert (W : 1 - L + L * L / 4 <= exp (- L)).
    { replace (- L) with (- L / 2 + - L / 2) by field. rewrite exp_plus.
      pose proof (exp_ge_1p (- L / 2)). nra. }
    assert (E8 : 2 * e <= / 4) by nra.
    assert (D : 1 - exp (- L) <= L - L * L / 4) by lra.
    apply Rle_trans with ((1 + 2 * (e * L)) * (L - L * L / 4)).
    + apply Rmult_le_compat_l; nra.
    + assert (0 <= L * L) by nra. assert (0 <= e * (L * L)) by nra. assert (0 <= e * (L * L) * L) by nra.
      nra.
Qed.

Lemma interval_bounds_all x1 x2 y1 y2 : 0 < x1 -> x1 < x2 -> 0 < y1 -> 0 < y2 -> ln (x2 / x1) <= 10 ^ 9 ->
  Rmin y1 y2 * (x2 - x1) <= interval x1 x2 y1 y2 <= Rmax y1 y2 * (x2 - x1).
Proof.
  intros H1 H2 H3 H4 HB. pose proof (ln_ratio_pos _ _ H1 H2) as HL.
  destruct (Rlt_dec window_eps (Rabs (ln (y2 / y1) / ln (x2 / x1) + 1))) as [C|C].
  { apply interval_bounds; auto. right; auto. }
  rewrite interval_raw by auto. rewrite raw_interval_same by nra. cbv zeta. rewrite local_index_ln by auto.
  destruct (Rlt_dec _ _) as [C'|_]; [contradiction|].
  set (L := ln (x2 / x1)) in *. set (b := ln (y2 / y1) / L) in *.
  assert (E2 : x2 = x1 * exp L).
  { unfold L. rewrite exp_ln by (apply div_pos; lra). field. lra. }
  assert (EL : exp L * exp (- L) = 1) by (rewrite <- exp_plus; replace (L + - L) with 0 by ring; apply exp_0).
  pose proof (exp_pos L) as PL. pose proof (exp_pos (- L)) as PL'.
  assert (EY : y2 = y1 * exp (b * L)).
  { unfold b. replace (ln (y2 / y1) / L * L) with (ln (y2 / y1)) by (field; lra).
    rewrite exp_ln by (apply div_pos; auto). field. lra. }
  assert (Hb : b + 1 <= window_eps) by (apply Rle_trans with (Rabs (b + 1)); [apply Rle_abs|lra]).
  assert (Hw : window_eps <= / 2).
  { unfold window_eps. apply Rinv_le_contravar; [lra|]. simpl. lra. }
  assert (y2 <= y1).
  { assert (exp (b * L) <= exp 0) by (apply Rlt_le, exp_increasing; nra). rewrite exp_0 in *. rewrite EY. nra. }
  rewrite Rmin_right, Rmax_left by auto. split.
  - assert (K : exp ((b + 1) * L) * (1 - exp (- L)) <= L).
    { apply window_lower; auto. apply Rmult_le_compat_r; lra. }
    rewrite EY, E2. replace ((b + 1) * L) with (b * L + L) in K by ring. rewrite exp_plus in K.
    replace (y1 * exp (b * L) * (x1 * exp L - x1)) with (x1 * y1 * (exp (b * L) * (exp L - 1))) by ring.
    apply Rmult_le_compat_l; [nra|].
    replace (exp (b * L) * exp L * (1 - exp (- L))) with (exp (b * L) * (exp L - exp L * exp (- L))) in K by ring.
    rewrite EL in K. exact K.
  - assert (L <= exp L - 1) by (pose proof (exp_ge_1p L); lra).
    rewrite E2. replace (y1 * (x1 * exp L - x1)) with (x1 * y1 * (exp L - 1)) by ring.
    apply Rmult_le_compat_l; nra.
Qed.

(** The whole integral lies between the lower and upper rectangle sums. *)
Lemma trapz_bounds ys : forall xs, grid xs -> List.Forall (fun y => 0 < y) ys ->
  (forall a b, In a xs -> In b xs -> ln (b / a) <= 10 ^ 9) ->
  rect Rmin ys xs <= trapz_loglog ys xs <= rect Rmax ys xs.
Proof.
  induction ys as [|y1 ys IH]; intros xs HX HY HB; [unfold trapz_loglog; simpl; lra|].
  destruct ys as [|y2 ys]; [destruct xs as [|? [|]]; unfold trapz_loglog; simpl; lra|].
  destruct xs as [|x1 xs]; [unfold trapz_loglog; simpl; lra|]. destruct xs as [|x2 xs]; [unfold trapz_loglog; simpl; lra|].
  destruct (grid_cons2 _ _ _ HX) as (G1 & G2 & G3). inversion HY as [|? ? Y1 Y2]; subst. inversion Y2; subst.
  rewrite trapz_cons2.
  change (rect Rmin (y1 :: y2 :: ys) (x1 :: x2 :: xs)) with (Rmin y1 y2 * (x2 - x1) + rect Rmin (y2 :: ys) (x2 :: xs)).
  change (rect Rmax (y1 :: y2 :: ys) (x1 :: x2 :: xs)) with (Rmax y1 y2 * (x2 - x1) + rect Rmax (y2 :: ys) (x2 :: xs)).
  specialize (IH (x2 :: xs) G3 Y2). 
  assert (HI := interval_bounds_all x1 x2 y1 y2 G1 G2 Y1).
  assert (ln (x2 / x1) <= 10 ^ 9) by (apply HB; simpl; auto).
  assert (rect Rmin (y2 :: ys) (x2 :: xs) <= trapz_loglog (y2 :: ys) (x2 :: xs) <= rect Rmax (y2 :: ys) (x2 :: xs)).
  { apply IH. intros a b Ha Hb. apply HB; simpl in *; tauto. }
  lra.
Qed.
