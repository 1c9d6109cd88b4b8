(** Properties C11-C16: log-log integration (utils.trapz_loglog). *)
From Coq Require Import Reals List Lra Lia Sorted.
From Coquelicot Require Import Coquelicot.
From Verif Require Import TrapzModel TrapzSpec TrapzProofs.
Import ListNotations.
Local Open Scope R_scope.

Lemma grid_124 : grid [1; 2; 4].
Proof. split; repeat constructor; lra. Qed.

(** C11: on any grid, the result on samples of K x^b is the Riemann integral of
    K x^b from the first to the last abscissa. *)
Theorem C11_trapz_exact_power_law : forall K b x0 xs,
  0 < K -> good_index b -> grid (x0 :: xs) ->
  is_RInt (fun x => K * Rpower x b) x0 (last (x0 :: xs) 0)
          (trapz_loglog (map (fun x => K * Rpower x b) (x0 :: xs)) (x0 :: xs)).
Proof. exact (fun K b x0 xs => trapz_powerlaw K b xs x0). Qed.
Print Assumptions C11_trapz_exact_power_law.

(** C11, general data: each bin is the integral of the unique power law through
    its two samples. *)
Theorem C11_bin_is_loglog_interpolant : forall x1 x2 y1 y2,
  0 < x1 -> x1 < x2 -> 0 < y1 -> 0 < y2 ->
  good_index (ln (y2 / y1) / ln (x2 / x1)) ->
  through x1 x2 y1 y2 x1 = y1 /\ through x1 x2 y1 y2 x2 = y2 /\
  is_RInt (through x1 x2 y1 y2) x1 x2 (trapz_loglog [y1; y2] [x1; x2]).
Proof.
  intros x1 x2 y1 y2 H1 H2 H3 H4 HG. repeat split.
  - apply through_left; auto.
  - apply through_right; auto.
  - unfold trapz_loglog; simpl. rewrite Rplus_0_r. apply interval_exact; auto.
Qed.
Print Assumptions C11_bin_is_loglog_interpolant.

Example C11_example : good_index (-2) /\ good_index (-1) /\ grid [1; 2; 4].
Proof.
  repeat split; try exact (proj1 grid_124); try exact (proj2 grid_124); [|left; lra].
  right. replace (-2 + 1) with (-1) by ring. rewrite Rabs_left by lra.
  apply Rlt_le_trans with (/ 1); [|lra]. apply Rinv_lt_contravar; simpl; lra.
Qed.

(** C12: inside the window the error is second order in the distance to -1. *)
Theorem C12_window_error : forall x1 x2 y1 y2,
  0 < x1 -> x1 < x2 -> 0 < y1 -> 0 < y2 ->
  let b := ln (y2 / y1) / ln (x2 / x1) in
  let t := (b + 1) * ln (x2 / x1) in
  Rabs (b + 1) <= / 10 ^ 10 ->
  exists I, is_RInt (through x1 x2 y1 y2) x1 x2 I /\
    Rabs (trapz_loglog [y1; y2] [x1; x2] - I)
      <= Rabs t * exp (Rabs t) * trapz_loglog [y1; y2] [x1; x2].
Proof.
  intros x1 x2 y1 y2 H1 H2 H3 H4 b t Hb.
  unfold trapz_loglog; simpl. rewrite Rplus_0_r. exact (interval_window x1 x2 y1 y2 H1 H2 H3 H4 Hb).
Qed.
Print Assumptions C12_window_error.

Example C12_example : Rabs (ln (1 / 2) / ln (2 / 1) + 1) <= / 10 ^ 10.
Proof.
  replace (1 / 2) with (/ 2) by field. replace (2 / 1) with 2 by field.
  rewrite ln_Rinv by lra. assert (ln 2 > 0) by (rewrite <- ln_1; apply ln_increasing; lra).
  replace (- ln 2 / ln 2 + 1) with 0 by (field; lra). rewrite Rabs_R0.
  apply Rlt_le, Rinv_0_lt_compat. apply pow_lt; lra.
Qed.

(** C13 *)
Theorem C13_scaling_and_units : forall c k ys xs,
  0 < c -> 0 < k -> List.Forall (fun x => x <> 0) xs ->
  trapz_loglog (map (Rmult c) ys) (map (Rmult k) xs) = c * k * trapz_loglog ys xs.
Proof.
  intros c k ys xs Hc Hk HX. rewrite trapz_scale_y, trapz_scale_x by auto. ring.
Qed.
Print Assumptions C13_scaling_and_units.

(** Expressing x in a unit k times smaller and y per such a unit leaves the
    physical integral unchanged. *)
Theorem C13_unit_independent : forall k ys xs,
  0 < k -> List.Forall (fun x => x <> 0) xs ->
  trapz_loglog (map (Rmult (/ k)) ys) (map (Rmult k) xs) = trapz_loglog ys xs.
Proof.
  intros k ys xs Hk HX. rewrite trapz_scale_y, trapz_scale_x by auto using Rinv_0_lt_compat. field. lra.
Qed.
Print Assumptions C13_unit_independent.

Example C13_example : List.Forall (fun x => x <> 0) [1; 2; 4].
Proof. repeat constructor; lra. Qed.

(** C14: rectangle bounds for every grid whose ratios are below exp(10^9)
    (doubles never exceed exp(1500)). *)
Theorem C14_rectangle_bounds : forall ys xs,
  grid xs -> List.Forall (fun y => 0 < y) ys ->
  (forall a b, In a xs -> In b xs -> ln (b / a) <= 10 ^ 9) ->
  rect Rmin ys xs <= trapz_loglog ys xs <= rect Rmax ys xs.
Proof. exact trapz_bounds. Qed.
Print Assumptions C14_rectangle_bounds.

Theorem C14_nonnegative : forall ys xs,
  grid xs -> List.Forall (fun y => 0 <= y) ys -> 0 <= trapz_loglog ys xs.
Proof. exact trapz_nonneg. Qed.
Print Assumptions C14_nonnegative.

Theorem C14_positive : forall y1 y2 ys x1 x2 xs,
  grid (x1 :: x2 :: xs) -> 0 < y1 -> 0 < y2 -> List.Forall (fun y => 0 <= y) ys ->
  0 < trapz_loglog (y1 :: y2 :: ys) (x1 :: x2 :: xs).
Proof. exact trapz_pos. Qed.
Print Assumptions C14_positive.

Example C14_example : grid [1; 2; 4] /\ List.Forall (fun y => 0 < y) [3; 1; 2] /\
  (forall a b, In a [1; 2; 4] -> In b [1; 2; 4] -> ln (b / a) <= 10 ^ 9).
Proof.
  split; [exact grid_124|]. split; [repeat constructor; lra|].
  intros a b Ha Hb. simpl in Ha, Hb.
  assert (A : 1 <= a <= 4) by (destruct Ha as [<-|[<-|[<-|[]]]]; lra).
  assert (B : 1 <= b <= 4) by (destruct Hb as [<-|[<-|[<-|[]]]]; lra).
  assert (P : 0 < b / a) by (apply Rdiv_lt_0_compat; lra).
  assert (U : b / a <= 4).
  { apply Rmult_le_reg_r with a; [lra|]. unfold Rdiv. rewrite Rmult_assoc, Rinv_l by lra. lra. }
  pose proof (ln_le_minus1 _ P). simpl. lra.
Qed.

(** C15 *)
Theorem C15_additive : forall ys1 xs1 y x ys2 xs2, length ys1 = length xs1 ->
  trapz_loglog (ys1 ++ y :: ys2) (xs1 ++ x :: xs2)
  = trapz_loglog (ys1 ++ [y]) (xs1 ++ [x]) + trapz_loglog (y :: ys2) (x :: xs2).
Proof. exact trapz_split. Qed.
Print Assumptions C15_additive.

Theorem C15_intervals : forall ys xs, length ys = length xs ->
  length (trapz_intervals ys xs) = Nat.pred (length ys) /\
  trapz_loglog ys xs = fold_right Rplus 0 (trapz_intervals ys xs) /\
  (forall i, (S i < length ys)%nat ->
     nth i (trapz_intervals ys xs) 0
     = trapz_loglog [nth i ys 0; nth (S i) ys 0] [nth i xs 0; nth (S i) xs 0]).
Proof.
  intros ys xs HL. split; [apply intervals_length; auto|]. split; [reflexivity|].
  intros i Hi. rewrite intervals_nth by auto. unfold trapz_loglog; simpl. ring.
Qed.
Print Assumptions C15_intervals.

(** C16: with IEEE special values made explicit, every bin of a non-decreasing
    positive grid with non-negative ordinates is a finite number (the one of the
    real-valued model), and it is 0 when an ordinate is 0 or the bin is empty. *)
Theorem C16_no_nan : forall x1 x2 y1 y2,
  0 < x1 -> x1 <= x2 -> 0 <= y1 -> 0 <= y2 ->
  xinterval x1 x2 y1 y2 = Fin (trapz_loglog [y1; y2] [x1; x2]) /\
  (y1 = 0 \/ y2 = 0 \/ x1 = x2 -> xinterval x1 x2 y1 y2 = Fin 0).
Proof.
  intros x1 x2 y1 y2 H1 H2 H3 H4. unfold trapz_loglog; simpl. rewrite Rplus_0_r. split.
  - apply xinterval_finite; auto.
  - intros H. rewrite xinterval_finite by auto. f_equal. unfold interval.
    destruct (Req_EM_T y1 0); auto. destruct (Req_EM_T y2 0); auto. destruct (Req_EM_T x1 x2); auto. tauto.
Qed.
Print Assumptions C16_no_nan.

(** The value before masking really is an infinity / NaN: the mask is needed. *)
Example C16_mask_needed :
  xdiv (xlog10 (xdiv (Fin 1) (Fin 0))) (xlog10 (xdiv (Fin 2) (Fin 1))) = PInf \/
  xdiv (xlog10 (xdiv (Fin 0) (Fin 0))) (xlog10 (xdiv (Fin 2) (Fin 1))) = NaN.
Proof.
  right. simpl. destruct (Req_EM_T 0 0); [|lra]. reflexivity.
Qed.
