(** Lemmas for C119: second-order error of the log-log integral. *)
From Coq Require Import Reals ZArith List Lra Lia Sorted.
From Coquelicot Require Import Coquelicot.
From Flocq Require Import Raux.
From Verif Require Import TrapzModel TrapzSpec TrapzProofs SpectralModel SpectralProofs EnergyModel EnergyProofs ConvProofs FloatTrapzProofs.
Import ListNotations.
Local Open Scope R_scope.

(** A function with second derivative at most M differs from its chord by at most
    M (u - s) (t - u) / 2 *)
Lemma convex_below (p p1 p2 : R -> R) s t : s < t ->
  (forall u, s <= u <= t -> is_derive p u (p1 u)) -> (forall u, s <= u <= t -> is_derive p1 u (p2 u)) ->
  (forall u, s <= u <= t -> 0 <= p2 u) -> p s = 0 -> p t = 0 -> forall u, s <= u <= t -> p u <= 0.
Proof.
  intros Hst D1 D2 H2 Zs Zt u Hu.
  assert (C: forall (q q1 : R -> R) x, is_derive q x (q1 x) -> continuity_pt q x).
  { intros q q1 x H. apply continuity_pt_filterlim. apply (@ex_derive_continuous R_AbsRing R_NormedModule q x). exists (q1 x). exact H. }
  assert (MV: forall (q q1 : R -> R) x y, s <= x -> x <= y -> y <= t -> (forall u, s <= u <= t -> is_derive q u (q1 u)) ->
     exists c, x <= c <= y /\ q y - q x = q1 c * (y - x)).
  { intros q q1 x y A B D H. destruct (MVT_gen q x y q1) as (c & Hc & E).
    - intros z Hz. rewrite Rmin_left, Rmax_right in Hz by lra. apply H. lra.
    - intros z Hz. rewrite Rmin_left, Rmax_right in Hz by lra. apply (C q q1). apply H. lra.
    - rewrite Rmin_left, Rmax_right in Hc by lra. exists c. split; assumption. }
  destruct (MV p p1 s u) as (c1 & Hc1 & E1); try lra; [assumption|].
  destruct (MV p p1 u t) as (c2 & Hc2 & E2); try lra; [assumption|].
  destruct (MV p1 p2 c1 c2) as (c3 & Hc3 & E3); try lra; [assumption|].
  assert (K: p1 c1 <= p1 c2). { assert (0 <= p2 c3) by (apply H2; lra). assert (0 <= p2 c3 * (c2 - c1)) by (apply Rmult_le_pos; lra). lra. }
  rewrite Zs in E1. rewrite Zt in E2. destruct (Rle_or_lt (p u) 0) as [|P]; [assumption|]. exfalso.
  assert (s < u). { destruct (Req_dec s u) as [E|]; [rewrite <- E in P; lra|lra]. }
  assert (u < t). { destruct (Req_dec u t) as [E|]; [rewrite E in P; lra|lra]. }
  assert (0 < p1 c1). { destruct (Rle_or_lt (p1 c1) 0); [|assumption]. assert (p1 c1 * (u - s) <= 0) by nra. lra. }
  assert (0 < p1 c2 * (t - u)) by (apply Rmult_lt_0_compat; lra). lra.
Qed.

Definition chord (g : R -> R) (s t u : R) : R := g s + (g t - g s) * ((u - s) / (t - s)).
Lemma chord_le (g g1 g2 : R -> R) M s t : s < t ->
  (forall u, s <= u <= t -> is_derive g u (g1 u) /\ is_derive g1 u (g2 u) /\ Rabs (g2 u) <= M) ->
  forall u, s <= u <= t -> Rabs (g u - chord g s t u) <= M / 2 * ((u - s) * (t - u)).
Proof.
  intros Hst H u Hu.
  assert (B: forall sg, (sg = 1 \/ sg = -1) -> sg * (g u - chord g s t u) <= M / 2 * ((u - s) * (t - u))).
  { intros sg Hs.
    cut (sg * (g u - chord g s t u) - M / 2 * ((u - s) * (t - u)) <= 0); [lra|].
    apply (convex_below (fun v => sg * (g v - chord g s t v) - M / 2 * ((v - s) * (t - v)))
             (fun v => sg * (g1 v - (g t - g s) / (t - s)) - M / 2 * (t + s - 2 * v)) (fun v => sg * g2 v + M) s t); try assumption.
    - intros v Hv. destruct (H v Hv) as (A & _). unfold chord. auto_derive.
      + repeat split. exists (g1 v). exact A.
      + replace (Derive (fun x => g x) v) with (g1 v) by (symmetry; apply is_derive_unique; exact A). field. lra.
    - intros v Hv. destruct (H v Hv) as (_ & A & _). auto_derive.
      + repeat split. exists (g2 v). exact A.
      + replace (Derive (fun x => g1 x) v) with (g2 v) by (symmetry; apply is_derive_unique; exact A). field.
    - intros v Hv. destruct (H v Hv) as (_ & _ & A). apply Rabs_le_inv in A. destruct Hs as [-> | ->]; lra.
    - unfold chord. unfold Rdiv. ring.
    - unfold chord. field. lra. }
  apply Rabs_le. pose proof (B 1 (or_introl eq_refl)). pose proof (B (-1) (or_intror eq_refl)). lra.
Qed.

(** ln f as a function of ln x is twice differentiable with second derivative at most M *)
Definition log_smooth (f : R -> R) (a b M : R) : Prop :=
  (forall x, a <= x <= b -> 0 < f x) /\
  exists g1 g2 : R -> R, forall t, ln a <= t <= ln b ->
    is_derive (fun t => ln (f (exp t))) t (g1 t) /\ is_derive g1 t (g2 t) /\ Rabs (g2 t) <= M.

Lemma exp_le_inv a b : exp a <= exp b -> a <= b.
Proof. intros H. destruct (Rle_or_lt a b); [assumption|]. apply exp_increasing in H0. lra. Qed.
Lemma ln_le' a b : 0 < a -> a <= b -> ln a <= ln b.
Proof. intros H [K | ->]; [left; apply ln_increasing; assumption|lra]. Qed.
Lemma smooth_sub f a b a' b' M : 0 < a -> a <= a' -> b' <= b -> a' <= b' -> log_smooth f a b M -> log_smooth f a' b' M.
Proof.
  intros H0 Ha Hb Hab (P & g1 & g2 & H). split; [intros x Hx; apply P; lra|]. exists g1, g2. intros t Ht. apply H.
  assert (ln a <= ln a') by (apply ln_le'; lra). assert (ln b' <= ln b) by (apply ln_le'; lra). lra.
Qed.
Lemma smooth_M_pos f a b M : 0 < a -> a <= b -> log_smooth f a b M -> 0 <= M.
Proof. intros H0 Hab (_ & g1 & g2 & H). destruct (H (ln a)) as (_ & _ & K); [pose proof (ln_le' a b H0 Hab); lra|]. pose proof (Rabs_pos (g2 (ln a))). lra. Qed.

(** the function within a bin against the power law through two (inexact) samples *)
Lemma through_close f M x1 x2 y1 y2 e : 0 < x1 -> x1 < x2 -> log_smooth f x1 x2 M -> 0 < y1 -> 0 < y2 ->
  Rabs (ln (y1 / f x1)) <= e -> Rabs (ln (y2 / f x2)) <= e -> forall x, x1 <= x <= x2 ->
  let D := M * (ln (x2 / x1)) ^ 2 / 8 + e in
  through x1 x2 y1 y2 x <= exp D * f x /\ f x <= exp D * through x1 x2 y1 y2 x.
Proof.
  intros H1 H2 HS P1 P2 E1 E2 x Hx D. pose proof (smooth_M_pos f x1 x2 M H1 (Rlt_le _ _ H2) HS) as HM. destruct HS as (FP & g1 & g2 & H).
  assert (F1: 0 < f x1) by (apply FP; lra). assert (F2: 0 < f x2) by (apply FP; lra). assert (Fx: 0 < f x) by (apply FP; lra).
  pose proof (ln_increasing x1 x2 H1 H2) as LT.
  assert (Lx: ln x1 <= ln x <= ln x2) by (split; apply ln_le'; lra).
  pose proof (chord_le (fun t => ln (f (exp t))) g1 g2 M (ln x1) (ln x2) LT H (ln x) Lx) as C. cbv beta in C. unfold chord in C.
  rewrite !exp_ln in C by lra. set (lam := (ln x - ln x1) / (ln x2 - ln x1)) in *.
  assert (LA: 0 <= lam <= 1).
  { unfold lam. split; [apply Rmult_le_pos; [lra|apply Rlt_le, Rinv_0_lt_compat; lra]|].
    apply Rmult_le_reg_r with (ln x2 - ln x1); [lra|]. unfold Rdiv. rewrite Rmult_assoc, Rinv_l; lra. }
  assert (Q: (ln x - ln x1) * (ln x2 - ln x) <= (ln (x2 / x1)) ^ 2 / 4).
  { rewrite ln_div by lra. pose proof (pow2_ge_0 ((ln x - ln x1) - (ln x2 - ln x))). nra. }
  assert (ET: through x1 x2 y1 y2 x = exp (ln y1 + (ln y2 - ln y1) * lam)).
  { unfold through, Rpower. rewrite exp_plus, exp_ln by assumption. f_equal. f_equal. rewrite !ln_div by lra. unfold lam. field. lra. }
  rewrite ln_div in E1 by assumption. rewrite ln_div in E2 by assumption.
  assert (K: Rabs (ln (f x) - (ln y1 + (ln y2 - ln y1) * lam)) <= D).
  { unfold D. apply Rabs_le_inv in C, E1, E2. set (q := (ln x - ln x1) * (ln x2 - ln x)) in *.
    assert (M / 2 * q <= M * ln (x2 / x1) ^ 2 / 8) by nra.
    apply Rabs_le. replace (ln y1 + (ln y2 - ln y1) * lam) with ((1 - lam) * ln y1 + lam * ln y2) by ring.
    replace (ln (f x1) + (ln (f x2) - ln (f x1)) * lam) with ((1 - lam) * ln (f x1) + lam * ln (f x2)) in C by ring.
    assert ((1 - lam) * (- e) <= (1 - lam) * (ln y1 - ln (f x1)) <= (1 - lam) * e) by (split; apply Rmult_le_compat_l; lra).
    assert (lam * (- e) <= lam * (ln y2 - ln (f x2)) <= lam * e) by (split; apply Rmult_le_compat_l; lra).
    lra. }
  apply Rabs_le_inv in K. rewrite ET. rewrite <- (exp_ln (f x)) by assumption. rewrite <- !exp_plus. split; apply exp_le; lra.
Qed.

Lemma is_RInt_bounds (f h : R -> R) a b c I J : a <= b -> 0 < c -> is_RInt f a b I -> is_RInt h a b J ->
  (forall x, a <= x <= b -> f x <= c * h x) -> I <= c * J.
Proof.
  intros Hab Hc HI HJ H. apply (is_RInt_le f (fun x => c * h x) a b); [assumption|exact HI| |intros x Hx; apply H; lra].
  apply (is_RInt_scal h a b c J). exact HJ.
Qed.
Lemma smooth_cont f a b M : 0 < a -> log_smooth f a b M -> forall x, a <= x <= b -> ex_RInt f a x /\ (a < x < b -> continuity_pt f x).
Proof.
  intros Ha (FP & g1 & g2 & H).
  assert (Gc: forall t, ln a <= t <= ln b -> continuity_pt (fun t => ln (f (exp t))) t).
  { intros t Ht. destruct (H t Ht) as (D & _). apply continuity_pt_filterlim. apply (@ex_derive_continuous R_AbsRing R_NormedModule (fun t => ln (f (exp t))) t). exists (g1 t). exact D. }
  (* f agrees with exp (ln f (exp (ln x))) *)
  set (h := fun x => exp (ln (f (exp (ln x))))).
  assert (hc: forall x, a <= x <= b -> continuity_pt h x).
  { intros x Hx. unfold h. assert (0 < x) by lra.
    apply (continuity_pt_comp (fun x => ln (f (exp (ln x)))) exp); [|apply derivable_continuous_pt, derivable_pt_exp].
    apply (continuity_pt_comp ln (fun t => ln (f (exp t)))); [apply continuity_pt_filterlim; apply (@ex_derive_continuous R_AbsRing R_NormedModule ln x); exists (/ x); apply is_derive_ln; assumption|].
    apply Gc. split; apply ln_le'; lra. }
  assert (hf: forall x, a <= x <= b -> h x = f x). { intros x Hx. unfold h. rewrite (exp_ln x) by lra. apply exp_ln. apply FP. assumption. }
  intros x Hx. split.
  - apply (ex_RInt_ext h). { intros y Hy. rewrite Rmin_left, Rmax_right in Hy by lra. apply hf. lra. }
    apply ex_RInt_cont; [lra|]. intros y Hy. apply hc. lra.
  - intros Hx'. apply (continuity_pt_ext_loc h); [|apply hc; lra].
    exists (mkposreal (Rmin (x - a) (b - x)) ltac:(apply Rmin_pos; lra)). intros y Hy. change (Rabs (y - x) < Rmin (x - a) (b - x)) in Hy.
    pose proof (Rmin_l (x - a) (b - x)). pose proof (Rmin_r (x - a) (b - x)). apply Rabs_def2 in Hy. apply hf. lra.
Qed.
Lemma smooth_ex_RInt f a b M x y : 0 < a -> a <= x -> x <= y -> y <= b -> log_smooth f a b M -> ex_RInt f x y.
Proof.
  intros Ha H1 H2 H3 HS. destruct (smooth_cont f x y M) with (x := y) as (A & _); try lra; [|exact A].
  apply (smooth_sub f a b); assumption.
Qed.

(** one bin: exact integral, integral of the power law through the samples *)
Lemma bin_through f M x1 x2 y1 y2 e I J : 0 < x1 -> x1 < x2 -> log_smooth f x1 x2 M -> 0 < y1 -> 0 < y2 ->
  Rabs (ln (y1 / f x1)) <= e -> Rabs (ln (y2 / f x2)) <= e -> is_RInt f x1 x2 I -> is_RInt (through x1 x2 y1 y2) x1 x2 J ->
  let D := M * (ln (x2 / x1)) ^ 2 / 8 + e in J <= exp D * I /\ I <= exp D * J.
Proof.
  intros H1 H2 HS P1 P2 E1 E2 HI HJ D. pose proof (through_close f M x1 x2 y1 y2 e H1 H2 HS P1 P2 E1 E2) as T. cbv zeta in T. fold D in T.
  split; [apply (is_RInt_bounds (through x1 x2 y1 y2) f x1 x2)|apply (is_RInt_bounds f (through x1 x2 y1 y2) x1 x2)]; try assumption; try lra; try apply exp_pos; intros x Hx; apply T; assumption.
Qed.
(** one bin of the code against the power law through the samples: equal but for the
    window round index -1 *)
Lemma interval_through x1 x2 y1 y2 J : 0 < x1 -> x1 < x2 -> 0 < y1 -> 0 < y2 -> is_RInt (through x1 x2 y1 y2) x1 x2 J ->
  let w := window_eps * ln (x2 / x1) in interval x1 x2 y1 y2 <= exp w * J /\ J <= exp w * interval x1 x2 y1 y2 /\ 0 < J.
Proof.
  intros H1 H2 P1 P2 HJ w. pose proof (through_G x1 x2 y1 y2 H1 H2 P1 P2) as K. cbv zeta in K.
  rewrite <- (is_RInt_unique _ _ _ _ HJ), (is_RInt_unique _ _ _ _ K). clear HJ J.
  rewrite interval_raw by assumption. rewrite raw_interval_same by nra. cbv zeta. rewrite local_index_ln by assumption.
  pose proof (ln_ratio_pos x1 x2 H1 H2) as L. set (la := ln (x2 / x1)) in *. set (b := ln (y2 / y1) / la) in *.
  assert (XY: 0 < x1 * y1) by (apply Rmult_lt_0_compat; assumption).
  pose proof (G_pos la (b + 1) L) as GP. assert (JP: 0 < x1 * y1 * G la (b + 1)) by (apply Rmult_lt_0_compat; assumption).
  assert (W: 1 <= exp w). { rewrite <- exp_0. apply exp_le. unfold w. apply Rmult_le_pos; [pose proof window_pos; lra|lra]. }
  destruct (Rlt_dec window_eps (Rabs (b + 1))) as [C|C].
  - assert (B0: b + 1 <> 0). { intros E. rewrite E, Rabs_R0 in C. pose proof window_pos. lra. }
    assert (E: y1 * (x2 * Rpower (x2 / x1) b - x1) / (b + 1) = x1 * y1 * G la (b + 1)).
    { pose proof (is_RInt_power x1 x2 y1 b H1 H2 B0) as X. change (fun x => y1 * Rpower (x / x1) b) with (through x1 x2 y1 y2) in X.
      rewrite <- (is_RInt_unique _ _ _ _ X). apply (is_RInt_unique _ _ _ _ K). }
    rewrite E. repeat split; [nra|nra|assumption].
  - apply Rnot_lt_le in C. destruct (G_ratio la 0 (b + 1) w L) as (G1 & G2). { rewrite Rminus_0_r. unfold w. apply Rmult_le_compat_r; lra. }
    assert (G0: G la 0 = la) by (unfold G; destruct (Req_EM_T 0 0); [reflexivity|contradiction]). rewrite G0 in G1, G2.
    assert (EE: exp (- w) * exp w = 1) by (rewrite <- exp_plus, Rplus_opp_l; apply exp_0).
    assert (A: la <= G la (b + 1) * exp w). { apply (Rmult_le_compat_r (exp w)) in G1; [|lra]. rewrite Rmult_assoc, EE in G1. lra. }
    repeat split; [| |assumption].
    + replace (exp w * (x1 * y1 * G la (b + 1))) with (x1 * y1 * (G la (b + 1) * exp w)) by ring. apply Rmult_le_compat_l; lra.
    + replace (exp w * (x1 * y1 * la)) with (x1 * y1 * (la * exp w)) by ring. apply Rmult_le_compat_l; lra.
Qed.
