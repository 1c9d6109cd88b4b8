(** Lemmas for C169: the sign of the integration error for curved spectra. *)
From Coq Require Import Reals ZArith List Lra Lia Sorted.
From Coquelicot Require Import Coquelicot.
From Flocq Require Import Raux.
From Verif Require Import TrapzModel TrapzSpec TrapzProofs SpectralModel SpectralProofs EnergyModel EnergyProofs ConvProofs FloatTrapzProofs ErrProofs.
Import ListNotations.
Local Open Scope R_scope.

(** ** Concave functions of one variable *)
Definition conc (g : R -> R) (s t : R) : Prop := forall u v lam, s <= u <= t -> s <= v <= t -> 0 <= lam <= 1 ->
  (1 - lam) * g u + lam * g v <= g ((1 - lam) * u + lam * v).
Lemma conc_lin k c s t : conc (fun x => k * x + c) s t.
Proof. intros u v lam _ _ _. right. ring. Qed.
Lemma conc_plus g h s t : conc g s t -> conc h s t -> conc (fun x => g x + h x) s t.
Proof. intros G H u v lam U V L. pose proof (G u v lam U V L). pose proof (H u v lam U V L). lra. Qed.
Lemma conc_ext g h s t : s <= t -> (forall u, s <= u <= t -> g u = h u) -> conc g s t -> conc h s t.
Proof.
  intros Hst E G u v lam U V L. rewrite <- !E; try assumption; [apply G; assumption|].
  assert (0 <= lam * (v - s)) by (apply Rmult_le_pos; lra). assert (0 <= lam * (t - v)) by (apply Rmult_le_pos; lra).
  assert (0 <= (1 - lam) * (u - s)) by (apply Rmult_le_pos; lra). assert (0 <= (1 - lam) * (t - u)) by (apply Rmult_le_pos; lra). lra.
Qed.
Lemma conc_min g h s t : conc g s t -> conc h s t -> conc (fun x => Rmin (g x) (h x)) s t.
Proof.
  intros G H u v lam U V L. pose proof (G u v lam U V L). pose proof (H u v lam U V L).
  pose proof (Rmin_l (g u) (h u)). pose proof (Rmin_r (g u) (h u)). pose proof (Rmin_l (g v) (h v)). pose proof (Rmin_r (g v) (h v)).
  apply Rmin_glb.
  - assert ((1 - lam) * Rmin (g u) (h u) <= (1 - lam) * g u) by (apply Rmult_le_compat_l; lra).
    assert (lam * Rmin (g v) (h v) <= lam * g v) by (apply Rmult_le_compat_l; lra). lra.
  - assert ((1 - lam) * Rmin (g u) (h u) <= (1 - lam) * h u) by (apply Rmult_le_compat_l; lra).
    assert (lam * Rmin (g v) (h v) <= lam * h v) by (apply Rmult_le_compat_l; lra). lra.
Qed.
Lemma conc_affine g k c s t s' t' : (forall u, s' <= u <= t' -> s <= k * u + c <= t) -> conc g s t -> conc (fun x => g (k * x + c)) s' t'.
Proof.
  intros M G u v lam U V L. pose proof (G _ _ lam (M u U) (M v V) L) as X.
  replace (k * ((1 - lam) * u + lam * v) + c) with ((1 - lam) * (k * u + c) + lam * (k * v + c)) by ring. exact X.
Qed.
(** twice differentiable with non-positive second derivative *)
Lemma conc_derive (g g1 g2 : R -> R) s t :
  (forall u, s <= u <= t -> is_derive g u (g1 u) /\ is_derive g1 u (g2 u) /\ g2 u <= 0) -> conc g s t.
Proof.
  intros H.
  assert (X: forall u v lam, s <= u <= t -> s <= v <= t -> u < v -> 0 <= lam <= 1 -> (1 - lam) * g u + lam * g v <= g ((1 - lam) * u + lam * v)).
  { intros u v lam U V UV L.
    assert (B: u <= (1 - lam) * u + lam * v <= v).
    { assert (0 <= lam * (v - u)) by (apply Rmult_le_pos; lra). assert (0 <= (1 - lam) * (v - u)) by (apply Rmult_le_pos; lra). lra. }
    pose proof (convex_below (fun w => chord g u v w - g w) (fun w => (g v - g u) / (v - u) - g1 w) (fun w => - g2 w) u v UV) as C.
    assert (Z: chord g u v ((1 - lam) * u + lam * v) - g ((1 - lam) * u + lam * v) <= 0).
    { apply C; try assumption.
      - intros w Hw. destruct (H w ltac:(lra)) as (A & _). unfold chord. auto_derive.
        + repeat split. exists (g1 w). exact A.
        + replace (Derive (fun x => g x) w) with (g1 w) by (symmetry; apply is_derive_unique; exact A). field. lra.
      - intros w Hw. destruct (H w ltac:(lra)) as (_ & A & _). auto_derive.
        + repeat split. exists (g2 w). exact A.
        + replace (Derive (fun x => g1 x) w) with (g2 w) by (symmetry; apply is_derive_unique; exact A). ring.
      - intros w Hw. destruct (H w ltac:(lra)) as (_ & _ & A). lra.
      - unfold chord, Rdiv. ring.
      - unfold chord. field. lra. }
    unfold chord in Z. replace (((1 - lam) * u + lam * v - u) / (v - u)) with lam in Z by (field; lra). lra. }
  intros u v lam U V L. destruct (Rtotal_order u v) as [UV|[->|UV]].
  - apply X; assumption.
  - replace ((1 - lam) * v + lam * v) with v by ring. lra.
  - pose proof (X v u (1 - lam) V U UV ltac:(lra)) as Y. replace ((1 - (1 - lam)) * v + (1 - lam) * u) with ((1 - lam) * u + lam * v) in Y by ring. lra.
Qed.

(** ** Concave on logarithmic axes *)
Definition lconc (f : R -> R) (a b : R) : Prop := conc (fun t => ln (f (exp t))) (ln a) (ln b).
Definition lconv (f : R -> R) (a b : R) : Prop := conc (fun t => - ln (f (exp t))) (ln a) (ln b).

Lemma lin_pos x z y : 0 < x -> x < z -> x <= y <= z -> let lam := ln (y / x) / ln (z / x) in 0 <= lam <= 1 /\ ln y = (1 - lam) * ln x + lam * ln z.
Proof.
  intros H1 H2 Hy lam. pose proof (ln_ratio_pos x z H1 H2) as L. unfold lam. rewrite !ln_div in * by lra.
  assert (ln x <= ln y) by (apply ln_le'; lra). assert (ln y <= ln z) by (apply ln_le'; lra). split.
  - split; [apply Rmult_le_pos; [lra|left; apply Rinv_0_lt_compat; lra]|]. apply Rmult_le_reg_r with (ln z - ln x); [lra|]. unfold Rdiv. rewrite Rmult_assoc, Rinv_l; lra.
  - field. lra.
Qed.
Lemma through_exp x1 x2 y1 y2 x : 0 < x1 -> x1 < x2 -> 0 < y1 -> 0 < y2 -> 0 < x ->
  let lam := ln (x / x1) / ln (x2 / x1) in through x1 x2 y1 y2 x = exp ((1 - lam) * ln y1 + lam * ln y2).
Proof.
  intros H1 H2 P1 P2 Hx lam. pose proof (ln_ratio_pos x1 x2 H1 H2) as L. unfold through, Rpower.
  replace ((1 - lam) * ln y1 + lam * ln y2) with (ln y1 + lam * (ln y2 - ln y1)) by ring. rewrite exp_plus, exp_ln by assumption. f_equal. f_equal.
  unfold lam. rewrite (ln_div y2 y1) by assumption. field. lra.
Qed.
Lemma through_below f a b x1 x2 x : 0 < a -> lconc f a b -> (forall x, a <= x <= b -> 0 < f x) -> a <= x1 -> x1 < x2 -> x2 <= b -> x1 <= x <= x2 ->
  through x1 x2 (f x1) (f x2) x <= f x.
Proof.
  intros Ha C P H1 H2 H3 Hx. rewrite through_exp by (try apply P; lra). destruct (lin_pos x1 x2 x) as (L & E); try lra.
  set (lam := ln (x / x1) / ln (x2 / x1)) in *. rewrite <- (exp_ln (f x)) by (apply P; lra). apply exp_le.
  assert (LL: forall y, a <= y <= b -> ln a <= ln y <= ln b) by (intros; split; apply ln_le'; lra).
  pose proof (C (ln x1) (ln x2) lam (LL x1 ltac:(lra)) (LL x2 ltac:(lra)) L) as X. cbv beta in X. rewrite <- E, !exp_ln in X by lra. exact X.
Qed.
Lemma through_above f a b x1 x2 x : 0 < a -> lconv f a b -> (forall x, a <= x <= b -> 0 < f x) -> a <= x1 -> x1 < x2 -> x2 <= b -> x1 <= x <= x2 ->
  f x <= through x1 x2 (f x1) (f x2) x.
Proof.
  intros Ha C P H1 H2 H3 Hx. rewrite through_exp by (try apply P; lra). destruct (lin_pos x1 x2 x) as (L & E); try lra.
  set (lam := ln (x / x1) / ln (x2 / x1)) in *. rewrite <- (exp_ln (f x)) at 1 by (apply P; lra). apply exp_le.
  assert (LL: forall y, a <= y <= b -> ln a <= ln y <= ln b) by (intros; split; apply ln_le'; lra).
  pose proof (C (ln x1) (ln x2) lam (LL x1 ltac:(lra)) (LL x2 ltac:(lra)) L) as X. cbv beta in X. rewrite <- E, !exp_ln in X by lra. lra.
Qed.

(** ** Integrals *)
Lemma window_le x1 x2 r : 0 < x1 -> x1 < x2 -> x2 / x1 <= r -> exp (window_eps * ln (x2 / x1)) <= Rpower r window_eps.
Proof. intros H1 H2 H3. unfold Rpower. apply exp_le. apply Rmult_le_compat_l; [pose proof window_pos; lra|]. apply ln_le'; [apply div_pos; lra|assumption]. Qed.
Lemma bin_signs f x1 x2 r : 0 < x1 -> x1 < x2 -> x2 / x1 <= r -> (forall x, x1 <= x <= x2 -> continuity_pt f x /\ 0 < f x) ->
  ((forall x, x1 <= x <= x2 -> through x1 x2 (f x1) (f x2) x <= f x) -> interval x1 x2 (f x1) (f x2) <= Rpower r window_eps * RInt f x1 x2) /\
  ((forall x, x1 <= x <= x2 -> f x <= through x1 x2 (f x1) (f x2) x) -> RInt f x1 x2 <= Rpower r window_eps * interval x1 x2 (f x1) (f x2)).
Proof.
  intros H1 H2 Hr HC. assert (P1: 0 < f x1) by (apply HC; lra). assert (P2: 0 < f x2) by (apply HC; lra).
  assert (EX: ex_RInt f x1 x2) by (apply ex_RInt_cont; [lra|intros; apply HC; assumption]).
  destruct EX as (I0 & HI). rewrite (is_RInt_unique _ _ _ _ HI).
  pose proof (through_G x1 x2 (f x1) (f x2) H1 H2 P1 P2) as K. cbv zeta in K. match type of K with is_RInt _ _ _ ?j => set (J := j) in * end.
  destruct (interval_through x1 x2 (f x1) (f x2) J H1 H2 P1 P2 K) as (A & B & C). pose proof (window_le x1 x2 r H1 H2 Hr) as W.
  set (w := exp (window_eps * ln (x2 / x1))) in *. pose proof (exp_pos (window_eps * ln (x2 / x1))) as WP. fold w in WP.
  split; intros H.
  - assert (JI: J <= I0). { replace I0 with (1 * I0) by ring. apply (is_RInt_bounds (through x1 x2 (f x1) (f x2)) f x1 x2 1 J I0); try assumption; try lra. intros x Hx. rewrite Rmult_1_l. apply H. assumption. }
    apply Rle_trans with (1 := A). apply Rle_trans with (w * I0); [apply Rmult_le_compat_l; lra|apply Rmult_le_compat_r; lra].
  - assert (IJ: I0 <= J). { replace J with (1 * J) by ring. apply (is_RInt_bounds f (through x1 x2 (f x1) (f x2)) x1 x2 1 I0 J); try assumption; try lra. intros x Hx. rewrite Rmult_1_l. apply H. assumption. }
    apply Rle_trans with (1 := IJ). apply Rle_trans with (1 := B).
    pose proof (interval_pos x1 x2 (f x1) (f x2) H1 H2 P1 P2). apply Rmult_le_compat_r; lra.
Qed.

Lemma trapz_signs f r xs : forall x0, grid (x0 :: xs) -> ratio_le r (x0 :: xs) ->
  (forall x, x0 <= x <= last (x0 :: xs) 0 -> continuity_pt f x /\ 0 < f x) ->
  (lconc f x0 (last (x0 :: xs) 0) -> trapz_loglog (map f (x0 :: xs)) (x0 :: xs) <= Rpower r window_eps * RInt f x0 (last (x0 :: xs) 0)) /\
  (lconv f x0 (last (x0 :: xs) 0) -> RInt f x0 (last (x0 :: xs) 0) <= Rpower r window_eps * trapz_loglog (map f (x0 :: xs)) (x0 :: xs)).
Proof.
  induction xs as [|x1 xs IH]; intros x0 G F HC.
  { simpl. rewrite RInt_point. unfold trapz_loglog; simpl. unfold zero; simpl. lra. }
  destruct (grid_cons2 _ _ _ G) as (A & B & G'). destruct F as [F1 F2].
  change (last (x0 :: x1 :: xs) 0) with (last (x1 :: xs) 0) in *. pose proof (grid_last x1 xs G') as L. set (z := last (x1 :: xs) 0) in *.
  change (map f (x0 :: x1 :: xs)) with (f x0 :: map f (x1 :: xs)).
  assert (T : trapz_loglog (f x0 :: map f (x1 :: xs)) (x0 :: x1 :: xs) = interval x0 x1 (f x0) (f x1) + trapz_loglog (map f (x1 :: xs)) (x1 :: xs)).
  { unfold trapz_loglog. simpl. reflexivity. }
  rewrite T. clear T.
  rewrite <- (RInt_Chasles f x0 x1 z).
  2:{ apply ex_RInt_cont; [lra|]. intros; apply HC; lra. }
  2:{ apply ex_RInt_cont; [lra|]. intros; apply HC; lra. }
  match goal with |- context [plus ?u ?v] => change (plus u v) with (u + v) end.
  destruct (bin_signs f x0 x1 r A B F1) as [B1 B2]. { intros x Hx. apply HC. lra. }
  destruct (IH x1 G' F2) as [B3 B4]. { intros x Hx. fold z in Hx. apply HC. lra. }
  fold z in B3, B4.
  assert (LX: ln x0 <= ln x1) by (apply ln_le'; lra).
  assert (SUB: forall g, conc g (ln x0) (ln z) -> conc g (ln x1) (ln z)). { intros g Hg u v lam U V. apply Hg; lra. }
  split; intros C.
  - specialize (B1 (fun x Hx => through_below f x0 z x0 x1 x A C (fun y Hy => proj2 (HC y Hy)) ltac:(lra) B L Hx)).
    specialize (B3 (SUB _ C)). lra.
  - specialize (B2 (fun x Hx => through_above f x0 z x0 x1 x A C (fun y Hy => proj2 (HC y Hy)) ltac:(lra) B L Hx)).
    specialize (B4 (SUB _ C)). lra.
Qed.
Lemma trapz_signs' f r xs a b : a < b -> grid xs -> ratio_le r xs -> hd 0 xs = a -> last xs 0 = b ->
  (forall x, a <= x <= b -> continuity_pt f x /\ 0 < f x) ->
  (lconc f a b -> trapz_loglog (map f xs) xs <= Rpower r window_eps * RInt f a b) /\
  (lconv f a b -> RInt f a b <= Rpower r window_eps * trapz_loglog (map f xs) xs).
Proof. intros H G F E1 E2 HC. destruct xs as [|x0 xs]; [simpl in *; lra|]. simpl in E1. subst x0 b. apply trapz_signs; assumption. Qed.
