(** Lemmas on the convergence of the log-log integration with the resolution of
    the grid. *)
From Coq Require Import Reals ZArith List Lra Lia Sorted.
From Coquelicot Require Import Coquelicot.
From Verif Require Import TrapzModel TrapzSpec TrapzProofs EnergyModel EnergyProofs.
Import ListNotations.
Local Open Scope R_scope.

Lemma ex_RInt_cont f a b : a <= b -> (forall x, a <= x <= b -> continuity_pt f x) -> ex_RInt f a b.
Proof.
  intros H C. apply (ex_RInt_continuous (V := R_CompleteNormedModule)). intros z Hz. rewrite Rmin_left, Rmax_right in Hz by lra.
  apply continuity_pt_filterlim. apply C. exact Hz.
Qed.

Lemma RInt_between f a b m M : a <= b -> (forall x, a <= x <= b -> continuity_pt f x) ->
  (forall x, a <= x <= b -> m <= f x <= M) -> m * (b - a) <= RInt f a b <= M * (b - a).
Proof.
  intros H C B. pose proof (ex_RInt_cont f a b H C) as X. split.
  - replace (m * (b - a)) with (RInt (fun _ => m) a b) by (rewrite RInt_const; unfold scal; simpl; unfold mult; simpl; ring).
    apply RInt_le; [assumption|apply ex_RInt_const|assumption|]. intros x Hx. apply B; lra.
  - replace (M * (b - a)) with (RInt (fun _ => M) a b) by (rewrite RInt_const; unfold scal; simpl; unfold mult; simpl; ring).
    apply RInt_le; [assumption|assumption|apply ex_RInt_const|]. intros x Hx. apply B; lra.
Qed.

(** neighbouring grid points differ by less than [d] *)
Fixpoint fine (d : R) (xs : list R) : Prop :=
  match xs with
  | x1 :: ((x2 :: _) as r) => x2 - x1 < d /\ fine d r
  | _ => True
  end.
Lemma fine_nth d xs : (forall i, (S i < length xs)%nat -> nth (S i) xs 0 - nth i xs 0 < d) -> fine d xs.
Proof.
  induction xs as [|x1 xs IH]; intros H; [exact I|]. destruct xs as [|x2 xs]; [exact I|]. split.
  - apply (H O). simpl. lia.
  - apply IH. intros i Hi. apply (H (S i)). simpl in *. lia.
Qed.
Lemma grid_last x0 xs : grid (x0 :: xs) -> x0 <= last (x0 :: xs) 0.
Proof.
  revert x0. induction xs as [|x1 xs IH]; intros x0 G; [simpl; lra|]. destruct (grid_cons2 _ _ _ G) as (A & B & C).
  change (last (x0 :: x1 :: xs) 0) with (last (x1 :: xs) 0). specialize (IH x1 C). lra.
Qed.


(** Subdivision of [x0; xs] with the point [t x y] in the bin from x to y. *)
Fixpoint subdiv (t : R -> R -> R) (x0 : R) (xs : list R) : SF_seq :=
  match xs with [] => SF_nil x0 | x1 :: r => SF_cons (x0, t x0 x1) (subdiv t x1 r) end.
Lemma subdiv_h t x0 xs : SF_h (subdiv t x0 xs) = x0.
Proof. destruct xs; reflexivity. Qed.
Lemma SF_lx_cons (h : R * R) s : SF_lx (SF_cons h s) = fst h :: SF_lx s.
Proof. reflexivity. Qed.
Lemma subdiv_last t xs : forall x0 d, seq.last d (SF_lx (subdiv t x0 xs)) = last (x0 :: xs) 0.
Proof.
  induction xs as [|x1 xs IH]; intros x0 d; [reflexivity|]. change (last (x0 :: x1 :: xs) 0) with (last (x1 :: xs) 0).
  rewrite <- (IH x1 x0). simpl subdiv. rewrite SF_lx_cons. reflexivity.
Qed.
Lemma subdiv_pointed t : (forall x y, x <= y -> x <= t x y <= y) -> forall xs x0, grid (x0 :: xs) -> pointed_subdiv (subdiv t x0 xs).
Proof.
  intros Ht. induction xs as [|x1 xs IH]; intros x0 G i Hi.
  { unfold SF_size in Hi. simpl in Hi. lia. }
  destruct (grid_cons2 _ _ _ G) as (A & B & G'). simpl subdiv in *. destruct i as [|i].
  - rewrite SF_lx_cons. cbn [seq.nth fst]. pose proof (subdiv_h t x1 xs) as E.
    assert (E2 : seq.nth 0 (SF_lx (subdiv t x1 xs)) 0 = x1) by (destruct xs; reflexivity). rewrite E2.
    change (seq.nth 0 (SF_ly (SF_cons (x0, t x0 x1) (subdiv t x1 xs))) 0) with (t x0 x1). apply Ht. lra.
  - apply (IH x1 G' i). unfold SF_size in *. simpl in Hi. lia.
Qed.
Lemma subdiv_step t d xs : 0 < d -> forall x0, grid (x0 :: xs) -> fine d (x0 :: xs) -> seq_step (SF_lx (subdiv t x0 xs)) < d.
Proof.
  intros Hd. induction xs as [|x1 xs IH]; intros x0 G F; [exact Hd|]. destruct (grid_cons2 _ _ _ G) as (A & B & G'). destruct F as [F1 F2].
  specialize (IH x1 G' F2).
  assert (E : seq_step (SF_lx (subdiv t x0 (x1 :: xs))) = Rmax (Rabs (x1 - x0)) (seq_step (SF_lx (subdiv t x1 xs)))) by (destruct xs; reflexivity).
  rewrite E. apply Rmax_lub_lt; [rewrite Rabs_pos_eq by lra; exact F1|exact IH].
Qed.
Lemma subdiv_sum (f : R -> R) g t : (forall x y, f (t x y) = g (f x) (f y)) -> forall xs x0,
  Riemann_sum f (subdiv t x0 xs) = rect g (map f (x0 :: xs)) (x0 :: xs).
Proof.
  intros Ht. induction xs as [|x1 xs IH]; intros x0; [reflexivity|]. simpl subdiv. rewrite Riemann_sum_cons, IH, subdiv_h. cbn [fst snd].
  change (rect g (map f (x0 :: x1 :: xs)) (x0 :: x1 :: xs)) with (g (f x0) (f x1) * (x1 - x0) + rect g (map f (x1 :: xs)) (x1 :: xs)).
  rewrite Ht. unfold scal; simpl; unfold mult; simpl. unfold plus at 1; simpl. rewrite Rmult_comm. reflexivity.
Qed.

(** For non-negative samples the result lies between the two rectangle rules,
    whether or not some of them vanish. *)
Lemma interval_bounds0 x1 x2 y1 y2 : 0 < x1 -> x1 < x2 -> 0 <= y1 -> 0 <= y2 -> ln (x2 / x1) <= 10 ^ 9 ->
  Rmin y1 y2 * (x2 - x1) <= interval x1 x2 y1 y2 <= Rmax y1 y2 * (x2 - x1).
Proof.
  intros H1 H2 H3 H4 HL. destruct (Req_EM_T y1 0) as [E1|E1]; [|destruct (Req_EM_T y2 0) as [E2|E2]].
  - subst y1. rewrite Rmin_left, Rmax_right by assumption. unfold interval. destruct (Req_EM_T 0 0); [nra|lra].
  - subst y2. rewrite Rmin_right, Rmax_left by assumption. unfold interval. destruct (Req_EM_T y1 0); [nra|]. destruct (Req_EM_T 0 0); [nra|lra].
  - apply interval_bounds_all; lra.
Qed.
Lemma trapz_bounds0 f d xs : forall x0, grid (x0 :: xs) -> fine d (x0 :: xs) -> d <= 10 ^ 9 * x0 ->
  (forall x, x0 <= x <= last (x0 :: xs) 0 -> 0 <= f x) ->
  rect Rmin (map f (x0 :: xs)) (x0 :: xs) <= trapz_loglog (map f (x0 :: xs)) (x0 :: xs) <= rect Rmax (map f (x0 :: xs)) (x0 :: xs).
Proof.
  induction xs as [|x1 xs IH]; intros x0 G F HD HC; [unfold trapz_loglog; simpl; lra|].
  destruct (grid_cons2 _ _ _ G) as (A & B & G'). destruct F as [F1 F2].
  change (last (x0 :: x1 :: xs) 0) with (last (x1 :: xs) 0) in *. pose proof (grid_last x1 xs G') as L.
  change (map f (x0 :: x1 :: xs)) with (f x0 :: map f (x1 :: xs)).
  assert (T : trapz_loglog (f x0 :: map f (x1 :: xs)) (x0 :: x1 :: xs) = interval x0 x1 (f x0) (f x1) + trapz_loglog (map f (x1 :: xs)) (x1 :: xs)).
  { unfold trapz_loglog. simpl. reflexivity. }
  assert (Q : forall g, rect g (f x0 :: map f (x1 :: xs)) (x0 :: x1 :: xs) = g (f x0) (f x1) * (x1 - x0) + rect g (map f (x1 :: xs)) (x1 :: xs)) by reflexivity.
  rewrite T, !Q.
  destruct (IH x1 G' F2 ltac:(lra)) as [B1 B2]. { intros x Hx. apply HC. lra. }
  assert (B3 : Rmin (f x0) (f x1) * (x1 - x0) <= interval x0 x1 (f x0) (f x1) <= Rmax (f x0) (f x1) * (x1 - x0)).
  { apply interval_bounds0; try assumption; try (apply HC; lra).
    apply Rle_trans with (x1 / x0 - 1); [apply ln_le_minus1; apply div_pos; lra|].
    replace (x1 / x0 - 1) with ((x1 - x0) / x0) by (field; lra).
    apply (Rmult_le_reg_r x0); [lra|]. unfold Rdiv. rewrite Rmult_assoc, Rinv_l by lra. lra. }
  lra.
Qed.

(** Convergence for every Riemann integrable non-negative function. *)
Lemma trapz_converges (f : R -> R) a b : 0 < a -> a < b -> ex_RInt f a b -> (forall x, a <= x <= b -> 0 <= f x) ->
  forall eps, 0 < eps -> exists d, 0 < d /\ forall xs, grid xs -> fine d xs -> hd 0 xs = a -> last xs 0 = b ->
    Rabs (trapz_loglog (map f xs) xs - RInt f a b) <= eps.
Proof.
  intros Ha Hab HI HC eps He. pose proof (RInt_correct f a b HI) as X. set (I0 := RInt f a b) in *.
  unfold is_RInt in X. specialize (X (fun y => Rabs (y - I0) < eps)).
  assert (X' : Riemann_fine a b (fun ptd => Rabs (scal (sign (b - a)) (Riemann_sum f ptd) - I0) < eps)).
  { apply X. exists (mkposreal eps He). intros y Hy. exact Hy. }
  clear X. destruct X' as (d & X). rewrite Rmin_left, Rmax_right in X by lra. rewrite sign_eq_1 in X by lra.
  exists (Rmin d (10 ^ 9 * a)).
  assert (D0 : 0 < Rmin d (10 ^ 9 * a)).
  { apply Rmin_glb_lt; [apply cond_pos|]. apply Rmult_lt_0_compat; [apply pow_lt; lra|assumption]. }
  split; [exact D0|].
  intros xs G F E1 E2. destruct xs as [|x0 xs]; [simpl in *; lra|]. simpl in E1. subst x0 b.
  assert (S : forall g t, (forall x y, x <= y -> x <= t x y <= y) -> (forall x y, f (t x y) = g (f x) (f y)) ->
     Rabs (rect g (map f (a :: xs)) (a :: xs) - I0) < eps).
  { intros g t T1 T2. specialize (X (subdiv t a xs)).
    assert (Y : Rabs (scal 1 (Riemann_sum f (subdiv t a xs)) - I0) < eps).
    { apply X.
      - apply Rlt_le_trans with (Rmin d (10 ^ 9 * a)); [|apply Rmin_l]. apply subdiv_step; assumption.
      - split; [apply subdiv_pointed; assumption|]. split; [apply subdiv_h|apply subdiv_last]. }
    rewrite (subdiv_sum f g t T2) in Y. unfold scal in Y; simpl in Y; unfold mult in Y; simpl in Y. rewrite Rmult_1_l in Y. exact Y. }
  assert (Smin := S Rmin (fun x y => if Rle_dec (f x) (f y) then x else y)).
  assert (Smax := S Rmax (fun x y => if Rle_dec (f x) (f y) then y else x)).
  assert (L1 : Rabs (rect Rmin (map f (a :: xs)) (a :: xs) - I0) < eps).
  { apply Smin; intros x y; [destruct (Rle_dec (f x) (f y)); lra|]. unfold Rmin. destruct (Rle_dec (f x) (f y)); reflexivity. }
  assert (L2 : Rabs (rect Rmax (map f (a :: xs)) (a :: xs) - I0) < eps).
  { apply Smax; intros x y; [destruct (Rle_dec (f x) (f y)); lra|]. unfold Rmax. destruct (Rle_dec (f x) (f y)); reflexivity. }
  destruct (trapz_bounds0 f (Rmin d (10 ^ 9 * a)) xs a G F (Rmin_r _ _) HC) as [B1 B2].
  apply Rabs_def2 in L1. apply Rabs_def2 in L2. apply Rabs_le. lra.
Qed.

(** ** Relative error when the logarithmic slope is bounded *)
Lemma Rpower_ge1 q c d r : 1 <= q -> q <= r -> c <= d -> 0 <= d -> Rpower q c <= Rpower r d.
Proof.
  intros. unfold Rpower.
  assert (0 <= ln q) by (rewrite <- ln_1; destruct (Req_dec q 1) as [->|]; [lra|apply Rlt_le, ln_increasing; lra]).
  assert (ln q <= ln r) by (destruct (Req_dec q r) as [->|]; [lra|apply Rlt_le, ln_increasing; lra]).
  assert (c * ln q <= d * ln r) by nra.
  destruct (Req_dec (c * ln q) (d * ln r)) as [->|]; [lra|apply Rlt_le, exp_increasing; lra].
Qed.

Lemma bin_relative f x1 x2 k1 k2 r : 0 < x1 -> x1 < x2 -> x2 / x1 <= r ->
  (forall x, x1 <= x <= x2 -> continuity_pt f x /\ 0 < f x) ->
  (forall x y, x1 <= x -> x <= y -> y <= x2 -> f x * Rpower (y / x) k1 <= f y <= f x * Rpower (y / x) k2) ->
  interval x1 x2 (f x1) (f x2) <= Rpower r (k2 - k1 + window_eps) * RInt f x1 x2 /\
  RInt f x1 x2 <= Rpower r (k2 - k1 + window_eps) * interval x1 x2 (f x1) (f x2).
Proof.
  intros H1 H2 Hr HC HS. pose proof window_pos as W.
  assert (P1 : 0 < f x1) by (apply HC; lra). assert (P2 : 0 < f x2) by (apply HC; lra).
  pose proof (ln_ratio_pos x1 x2 H1 H2) as L.
  set (b := ln (f x2 / f x1) / ln (x2 / x1)).
  assert (E2 : f x2 = f x1 * exp (b * ln (x2 / x1))).
  { unfold b. replace (ln (f x2 / f x1) / ln (x2 / x1) * ln (x2 / x1)) with (ln (f x2 / f x1)) by (field; lra).
    rewrite exp_ln by (apply div_pos; auto). field. lra. }
  assert (Bb : k1 <= b <= k2).
  { destruct (HS x1 x2) as [A B]; try lra. rewrite E2 in A, B. unfold Rpower in A, B.
    apply (Rmult_le_reg_l _ _ _ P1) in A. apply (Rmult_le_reg_l _ _ _ P1) in B.
    assert (M : forall u v, exp u <= exp v -> u <= v).
    { intros u v U. destruct (Rle_or_lt u v) as [?|C]; [assumption|]. apply exp_increasing in C. lra. }
    apply M in A. apply M in B. split; nra. }
  assert (D : 0 <= k2 - k1 + window_eps) by lra.
  (* the bin is the integral of a power law of index b' *)
  assert (X : exists b', k1 - window_eps <= b' <= k2 + window_eps /\
     is_RInt (fun x => f x1 * Rpower (x / x1) b') x1 x2 (interval x1 x2 (f x1) (f x2))).
  { rewrite interval_raw by auto. rewrite raw_interval_same by nra. cbv zeta. rewrite local_index_ln by auto. fold b.
    destruct (Rlt_dec window_eps (Rabs (b + 1))) as [C|C].
    - exists b. split; [lra|]. apply is_RInt_power; auto. intros E. rewrite E, Rabs_R0 in C. lra.
    - exists (-1). split; [|apply is_RInt_power_m1; auto]. apply Rnot_lt_le in C. apply Rabs_le_between in C. lra. }
  destruct X as (b' & Bb' & X). set (T := interval x1 x2 (f x1) (f x2)) in *. set (RD := Rpower r (k2 - k1 + window_eps)).
  assert (EX : ex_RInt f x1 x2) by (apply ex_RInt_cont; [lra|]; intros; apply HC; assumption).
  assert (EP : forall c d, Rpower c (d + b') = Rpower c d * Rpower c b') by (intros; apply Rpower_plus).
  assert (Q : forall x, x1 <= x <= x2 -> 1 <= x / x1 <= r).
  { intros x Hx. split.
    - apply (Rmult_le_reg_r x1); [lra|]. replace (x / x1 * x1) with x by (field; lra). lra.
    - apply Rle_trans with (x2 / x1); [|assumption]. apply Rmult_le_compat_r; [apply Rlt_le, Rinv_0_lt_compat; lra|lra]. }
  split.
  - rewrite <- (is_RInt_unique _ _ _ _ X).
    replace (RD * RInt f x1 x2) with (RInt (fun x => RD * f x) x1 x2).
    2:{ exact (RInt_scal f x1 x2 RD EX). }
    apply RInt_le; [lra|eexists; exact X| |].
    { apply (ex_RInt_scal f x1 x2 RD EX). }
    intros x Hx. destruct (Q x ltac:(lra)) as [Q1 Q2]. destruct (HS x1 x) as [S1 _]; try lra.
    apply Rle_trans with (RD * (f x1 * Rpower (x / x1) k1)); [|apply Rmult_le_compat_l; [apply Rlt_le, Rpower_pos|assumption]].
    replace b' with ((b' - k1) + k1) by ring. rewrite Rpower_plus.
    assert (Rpower (x / x1) (b' - k1) <= RD) by (apply Rpower_ge1; lra).
    pose proof (Rpower_pos (x / x1) k1). assert (0 < f x1 * Rpower (x / x1) k1) by (apply Rmult_lt_0_compat; assumption). nra.
  - rewrite <- (is_RInt_unique _ _ _ _ X).
    assert (EX' : ex_RInt (fun x => f x1 * Rpower (x / x1) b') x1 x2) by (eexists; exact X).
    replace (RD * RInt (fun x => f x1 * Rpower (x / x1) b') x1 x2) with (RInt (fun x => RD * (f x1 * Rpower (x / x1) b')) x1 x2).
    2:{ exact (RInt_scal (fun x => f x1 * Rpower (x / x1) b') x1 x2 RD EX'). }
    apply RInt_le; [lra|exact EX| |].
    { apply (ex_RInt_scal (fun x => f x1 * Rpower (x / x1) b') x1 x2 RD EX'). }
    intros x Hx. destruct (Q x ltac:(lra)) as [Q1 Q2]. destruct (HS x1 x) as [_ S2]; try lra.
    apply Rle_trans with (1 := S2). replace k2 with ((k2 - b') + b') at 1 by ring. rewrite Rpower_plus.
    assert (Rpower (x / x1) (k2 - b') <= RD) by (apply Rpower_ge1; lra).
    pose proof (Rpower_pos (x / x1) b'). assert (0 < f x1 * Rpower (x / x1) b') by (apply Rmult_lt_0_compat; assumption). nra.
Qed.

Fixpoint ratio_le (r : R) (xs : list R) : Prop :=
  match xs with
  | x1 :: ((x2 :: _) as l) => x2 / x1 <= r /\ ratio_le r l
  | _ => True
  end.
Lemma ratio_le_nth r xs : (forall i, (S i < length xs)%nat -> nth (S i) xs 0 / nth i xs 0 <= r) -> ratio_le r xs.
Proof.
  induction xs as [|x1 xs IH]; intros H; [exact I|]. destruct xs as [|x2 xs]; [exact I|]. split.
  - apply (H O). simpl. lia.
  - apply IH. intros i Hi. apply (H (S i)). simpl in *. lia.
Qed.

Lemma trapz_relative f k1 k2 r xs : forall x0, grid (x0 :: xs) -> ratio_le r (x0 :: xs) ->
  (forall x, x0 <= x <= last (x0 :: xs) 0 -> continuity_pt f x /\ 0 < f x) ->
  (forall x y, x0 <= x -> x <= y -> y <= last (x0 :: xs) 0 -> f x * Rpower (y / x) k1 <= f y <= f x * Rpower (y / x) k2) ->
  trapz_loglog (map f (x0 :: xs)) (x0 :: xs) <= Rpower r (k2 - k1 + window_eps) * RInt f x0 (last (x0 :: xs) 0) /\
  RInt f x0 (last (x0 :: xs) 0) <= Rpower r (k2 - k1 + window_eps) * trapz_loglog (map f (x0 :: xs)) (x0 :: xs).
Proof.
  induction xs as [|x1 xs IH]; intros x0 G F HC HE.
  { simpl. rewrite RInt_point. unfold trapz_loglog; simpl. unfold zero; simpl. lra. }
  destruct (grid_cons2 _ _ _ G) as (A & B & G'). destruct F as [F1 F2].
  change (last (x0 :: x1 :: xs) 0) with (last (x1 :: xs) 0) in *. pose proof (grid_last x1 xs G') as L. set (z := last (x1 :: xs) 0) in *.
  change (map f (x0 :: x1 :: xs)) with (f x0 :: map f (x1 :: xs)).
  assert (T : trapz_loglog (f x0 :: map f (x1 :: xs)) (x0 :: x1 :: xs) = interval x0 x1 (f x0) (f x1) + trapz_loglog (map f (x1 :: xs)) (x1 :: xs)).
  { unfold trapz_loglog. simpl. reflexivity. }
  rewrite T. clear T.
  rewrite <- (RInt_Chasles f x0 x1 z).
  2:{ apply ex_RInt_cont; [lra|]. intros; apply HC; lra. }
  2:{ apply ex_RInt_cont; [lra|]. intros; apply HC; lra. }
  destruct (bin_relative f x0 x1 k1 k2 r A B F1) as [B1 B2].
  { intros x Hx. apply HC. lra. }
  { intros x y U V Z. apply HE; lra. }
  destruct (IH x1 G' F2) as [B3 B4].
  { intros x Hx. fold z in Hx. apply HC. lra. }
  { intros x y U V Z. fold z in Z. apply HE; lra. }
  match goal with |- context [plus ?u ?v] => change (plus u v) with (u + v) end.
  fold z in B3, B4. lra.
Qed.

Lemma trapz_relative' f k1 k2 r xs a b : a < b -> grid xs -> ratio_le r xs -> hd 0 xs = a -> last xs 0 = b ->
  (forall x, a <= x <= b -> continuity_pt f x /\ 0 < f x) ->
  (forall x y, a <= x -> x <= y -> y <= b -> f x * Rpower (y / x) k1 <= f y <= f x * Rpower (y / x) k2) ->
  trapz_loglog (map f xs) xs <= Rpower r (k2 - k1 + window_eps) * RInt f a b /\
  RInt f a b <= Rpower r (k2 - k1 + window_eps) * trapz_loglog (map f xs) xs.
Proof.
  intros H G F E1 E2 HC HS. destruct xs as [|x0 xs]; [simpl in *; lra|]. simpl in E1. subst x0 b. apply trapz_relative; assumption.
Qed.
