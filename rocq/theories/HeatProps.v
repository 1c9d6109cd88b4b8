(** Property C178: inverse Compton emission grows with the temperature of the photons and with the scattering angle. *)
From Coq Require Import Reals ZArith List Lra Lia.
From Coquelicot Require Import Coquelicot.
From Flocq Require Import Raux.
From Verif Require Import SpectralModel SpectralProofs TrapzModel TrapzSpec TrapzProofs EnergyModel EnergyProofs ElectronModel ElectronProofs PionModel PionProofs PionProps RadiativeProps ConvProofs ConvProps ConvProps2 ConvPion ConvProps3 FloatTrapzProofs ErrProofs ErrProps ErrProps2 SuperProofs SuperProps SlopeProps.
Import ListNotations.
Local Open Scope R_scope.

(** ** The functions of Khangulyan et al. decrease *)
(** the last factor, in t = ln x *)
Definition gfac (al a be b t : R) : R := ln (1 + b * exp (be * t)) - ln (1 + b * exp (be * t) + a * exp (al * t)).
Definition gfac1 (al a be b t : R) : R := let y := b * exp (be * t) in let w := a * exp (al * t) in be * y / (1 + y) - (be * y + al * w) / (1 + y + w).
Lemma gfac_derive al a be b t : 0 < a -> 0 < b -> is_derive (gfac al a be b) t (gfac1 al a be b t).
Proof.
  intros Ha Hb. pose proof (Rmult_lt_0_compat _ _ Hb (exp_pos (be * t))) as Y. pose proof (Rmult_lt_0_compat _ _ Ha (exp_pos (al * t))) as W.
  unfold gfac, gfac1. cbv zeta. auto_derive; [repeat split; lra|]. field. split; lra.
Qed.
Lemma gfac1_le al a be b t m : 0 < a -> 0 < b -> 0 <= m -> be * (b * exp (be * t)) / (1 + b * exp (be * t)) - al <= m -> gfac1 al a be b t <= m.
Proof.
  intros Ha Hb Hm H. pose proof (Rmult_lt_0_compat _ _ Hb (exp_pos (be * t))) as Y. pose proof (Rmult_lt_0_compat _ _ Ha (exp_pos (al * t))) as W.
  unfold gfac1. cbv zeta. set (y := b * exp (be * t)) in *. set (w := a * exp (al * t)) in *.
  replace (be * y / (1 + y) - (be * y + al * w) / (1 + y + w)) with (w / (1 + y + w) * (be * y / (1 + y) - al)) by (field; split; lra).
  assert (F: 0 <= w / (1 + y + w) <= 1). { split; [apply Rlt_le, div_pos; lra|]. apply Rmult_le_reg_r with (1 + y + w); [lra|]. unfold Rdiv. rewrite Rmult_assoc, Rinv_l by lra. lra. }
  destruct (Rle_or_lt (be * y / (1 + y) - al) 0) as [N|P].
  - assert (w / (1 + y + w) * (be * y / (1 + y) - al) <= 0) by (rewrite <- (Rmult_0_r (w / (1 + y + w))); apply Rmult_le_compat_l; lra). lra.
  - apply Rle_trans with (1 * (be * y / (1 + y) - al)); [apply Rmult_le_compat_r; lra|lra].
Qed.
Lemma pi26_ge : 3 / 2 <= PI ^ 2 / 6.
Proof. pose proof PI2_3_2. assert (3 < PI) by lra. nra. Qed.
Lemma frac_le y Y : 0 < y -> y <= Y -> y / (1 + y) <= Y / (1 + Y).
Proof.
  intros H1 H2. apply Rmult_le_reg_r with ((1 + y) * (1 + Y)); [apply Rmult_lt_0_compat; lra|].
  replace (y / (1 + y) * ((1 + y) * (1 + Y))) with (y * (1 + Y)) by (field; lra). replace (Y / (1 + Y) * ((1 + y) * (1 + Y))) with (Y * (1 + y)) by (field; lra). lra.
Qed.
Lemma frac_lt1 y : 0 < y -> y / (1 + y) <= 1.
Proof. intros H. apply Rmult_le_reg_r with (1 + y); [lra|]. unfold Rdiv. rewrite Rmult_assoc, Rinv_l by lra. lra. Qed.
Lemma exp_be be t s : 0 <= be -> t <= s -> exp (be * t) <= exp (be * s).
Proof. intros H1 H2. apply exp_le. apply Rmult_le_compat_l; assumption. Qed.

Lemma ln_g al a be b t : 0 < a -> 0 < b -> ln (1 / (a * Rpower (exp t) al / (1 + b * Rpower (exp t) be) + 1)) = gfac al a be b t.
Proof.
  intros Ha Hb. unfold Rpower. rewrite ln_exp. pose proof (Rmult_lt_0_compat _ _ Hb (exp_pos (be * t))) as Y. pose proof (Rmult_lt_0_compat _ _ Ha (exp_pos (al * t))) as W.
  unfold gfac. rewrite <- ln_div by lra. f_equal. field. split; lra.
Qed.
(** the slope of the exponential and of the polynomial before it: x for G34, x - x/(pi^2/6 + x) for G12 *)
Lemma g_decreasing (pre : R -> R) (pre1 : R -> R) al a be b x1 x2 : 0 < a -> 0 < b -> 0 < x1 -> x1 <= x2 -> (forall t, 0 < pre (exp t)) ->
  (forall t, is_derive (fun t => ln (pre (exp t))) t (pre1 t)) -> (forall t, gfac1 al a be b t + pre1 t <= 0) ->
  pre x2 * (1 / (a * Rpower x2 al / (1 + b * Rpower x2 be) + 1)) <= pre x1 * (1 / (a * Rpower x1 al / (1 + b * Rpower x1 be) + 1)).
Proof.
  intros Ha Hb H1 H2 PP PD D. assert (P2: 0 < x2) by lra.
  assert (GP: forall x, 0 < 1 / (a * Rpower x al / (1 + b * Rpower x be) + 1)).
  { intros x. assert (0 < b * Rpower x be) by (apply Rmult_lt_0_compat; [assumption|apply exp_pos]). assert (0 < a * Rpower x al) by (apply Rmult_lt_0_compat; [assumption|apply exp_pos]).
    apply div_pos; [lra|]. assert (0 < a * Rpower x al / (1 + b * Rpower x be)) by (apply div_pos; lra). lra. }
  assert (EQ: forall x, 0 < x -> pre x * (1 / (a * Rpower x al / (1 + b * Rpower x be) + 1)) = exp (ln (pre (exp (ln x))) + gfac al a be b (ln x))).
  { intros x Hx. rewrite <- (ln_g al a be b) by assumption. rewrite exp_plus. rewrite (exp_ln (pre (exp (ln x)))) by apply PP. rewrite (exp_ln x Hx). rewrite exp_ln by apply GP. reflexivity. }
  rewrite !EQ by assumption. apply exp_le.
  assert (L: ln x1 <= ln x2) by (apply ln_le'; assumption).
  apply Ropp_le_cancel. apply (derive_incr (fun t => - (ln (pre (exp t)) + gfac al a be b t)) (fun t => - (pre1 t + gfac1 al a be b t))); [assumption| |].
  - intros u. apply (is_derive_opp (fun t => ln (pre (exp t)) + gfac al a be b t)). apply (is_derive_plus (fun t => ln (pre (exp t))) (gfac al a be b)); [apply PD|apply gfac_derive; assumption].
  - intros u. specialize (D u). lra.
Qed.
Lemma G34_decreasing al a be b c x1 x2 : 0 < a -> 0 < b -> 0 < c -> 0 < al -> 0 < be -> be - al <= 1 -> be * (b / (1 + b)) <= al -> 0 < x1 -> x1 <= x2 ->
  G34 x2 al a be b c <= G34 x1 al a be b c.
Proof.
  intros Ha Hb Hc Hal Hbe B1 B2 H1 H2. unfold G34. cbv zeta. pose proof pi26_ge as P. set (p := PI ^ 2 / 6) in *.
  apply (g_decreasing (fun x => p * ((1 + c * x) / (1 + p * c * x)) * exp (- x)) (fun t => c * exp t / (1 + c * exp t) - p * c * exp t / (1 + p * c * exp t) - exp t)); try assumption.
  - intros t. pose proof (exp_pos t) as E. pose proof (Rmult_lt_0_compat _ _ Hc E). assert (0 < p * c * exp t) by (rewrite Rmult_assoc; apply Rmult_lt_0_compat; lra).
    apply Rmult_lt_0_compat; [apply Rmult_lt_0_compat; [lra|apply div_pos; lra]|apply exp_pos].
  - intros t. pose proof (exp_pos t) as E. pose proof (Rmult_lt_0_compat _ _ Hc E) as E1. assert (E2: 0 < p * c * exp t) by (rewrite Rmult_assoc; apply Rmult_lt_0_compat; lra).
    apply (is_derive_ext (fun t => ln p + ln (1 + c * exp t) - ln (1 + p * c * exp t) - exp t)).
    { intros s. pose proof (exp_pos s) as F. pose proof (Rmult_lt_0_compat _ _ Hc F) as F1. assert (F2: 0 < p * c * exp s) by (rewrite Rmult_assoc; apply Rmult_lt_0_compat; lra).
      match goal with |- ?l = ?r => change (@eq R l r) end.
      assert (F3: 0 < (1 + c * exp s) / (1 + p * c * exp s)) by (apply div_pos; lra). assert (F4: 0 < p * ((1 + c * exp s) / (1 + p * c * exp s))) by (apply Rmult_lt_0_compat; lra).
      rewrite (ln_mult (p * ((1 + c * exp s) / (1 + p * c * exp s)))) by (assumption || apply exp_pos). rewrite (ln_mult p) by lra. rewrite ln_div by lra. rewrite ln_exp. ring. }
    auto_derive; [repeat split; lra|]. field. split; lra.
  - intros t. pose proof (exp_pos t) as E. pose proof (Rmult_lt_0_compat _ _ Hc E) as E1.
    assert (Q: c * exp t / (1 + c * exp t) <= p * c * exp t / (1 + p * c * exp t)) by (apply frac_le; [assumption|]; rewrite Rmult_assoc; nra).
    assert (G: gfac1 al a be b t <= exp t); [|lra].
    assert (Y: 0 < b * exp (be * t)) by (apply Rmult_lt_0_compat; [assumption|apply exp_pos]).
    destruct (Rle_or_lt t 0) as [N|N].
    + apply Rle_trans with 0; [|lra]. apply gfac1_le; try assumption; [lra|]. assert (EB: exp (be * t) <= 1) by (rewrite <- exp_0; apply exp_le; nra).
      pose proof (frac_le (b * exp (be * t)) b Y ltac:(nra)) as F. unfold Rdiv in *. rewrite Rmult_assoc. nra.
    + apply gfac1_le; try assumption; [lra|]. pose proof (frac_lt1 _ Y) as F. pose proof (exp_ineq1_le t). unfold Rdiv in *. rewrite Rmult_assoc. nra.
Qed.
Lemma G12_decreasing al a be b x1 x2 : 0 < a -> 0 < b -> 0 < al -> 0 < be <= 2 -> be - al <= 99 / 100 -> be * (b * (9 / 4) / (1 + b * (9 / 4))) <= al + / 2 -> be * (b / (1 + b)) <= al -> 0 < x1 -> x1 <= x2 ->
  G12 x2 al a be b <= G12 x1 al a be b.
Proof.
  intros Ha Hb Hal Hbe B1 B2 B3 H1 H2. unfold G12. cbv zeta. pose proof pi26_ge as P. set (p := PI ^ 2 / 6) in *.
  apply (g_decreasing (fun x => (p + x) * exp (- x)) (fun t => exp t / (p + exp t) - exp t)); try assumption.
  - intros t. pose proof (exp_pos t). apply Rmult_lt_0_compat; [lra|apply exp_pos].
  - intros t. pose proof (exp_pos t) as E. apply (is_derive_ext (fun t => ln (p + exp t) - exp t)).
    { intros s. pose proof (exp_pos s) as F. match goal with |- ?l = ?r => change (@eq R l r) end. rewrite ln_mult, ln_exp by (try apply exp_pos; lra). ring. }
    auto_derive; [repeat split; lra|]. field. lra.
  - intros t. pose proof (exp_pos t) as E. set (x := exp t) in *.
    assert (Q: x / (p + x) <= x / (3 / 2 + x)) by (apply Rmult_le_compat_l; [lra|apply Rinv_le_contravar; lra]).
    assert (G: gfac1 al a be b t <= x - x / (3 / 2 + x)); [|lra].
    assert (Y: 0 < b * exp (be * t)) by (apply Rmult_lt_0_compat; [assumption|apply exp_pos]).
    assert (RX: x - x / (3 / 2 + x) = x * (/ 2 + x) / (3 / 2 + x)) by (field; lra).
    assert (R0: 0 <= x - x / (3 / 2 + x)) by (rewrite RX; apply Rlt_le, div_pos; nra).
    apply gfac1_le; try assumption. pose proof (frac_lt1 _ Y) as F1.
    destruct (Rle_or_lt x 1) as [N|N]; [|destruct (Rle_or_lt x (3 / 2)) as [N2|N2]].
    + assert (T0: t <= 0). { apply exp_le_inv. rewrite exp_0. exact N. }
      assert (EB: exp (be * t) <= 1) by (rewrite <- exp_0; apply exp_le; nra).
      pose proof (frac_le (b * exp (be * t)) b Y ltac:(nra)) as F. unfold Rdiv in *. rewrite Rmult_assoc. nra.
    + assert (T0: 0 <= t). { apply exp_le_inv. rewrite exp_0. fold x. lra. }
      assert (EB: exp (be * t) <= 9 / 4). { apply Rle_trans with (exp (t + t)); [apply exp_le; nra|]. rewrite exp_plus. fold x. nra. }
      pose proof (frac_le (b * exp (be * t)) (b * (9 / 4)) Y ltac:(nra)) as F.
      assert (RL: / 2 <= x - x / (3 / 2 + x)). { rewrite RX. apply Rmult_le_reg_r with (3 / 2 + x); [lra|]. replace (x * (/ 2 + x) / (3 / 2 + x) * (3 / 2 + x)) with (x * (/ 2 + x)) by (field; lra). nra. }
      apply Rle_trans with (be * (b * (9 / 4) / (1 + b * (9 / 4))) - al); [|lra]. apply Rplus_le_compat_r. unfold Rdiv in *. rewrite Rmult_assoc. apply Rmult_le_compat_l; [lra|]. exact F.
    + assert (RL: 99 / 100 <= x - x / (3 / 2 + x)). { rewrite RX. apply Rmult_le_reg_r with (3 / 2 + x); [lra|]. replace (x * (/ 2 + x) / (3 / 2 + x) * (3 / 2 + x)) with (x * (/ 2 + x)) by (field; lra). nra. }
      assert (F2: be * (b * exp (be * t) / (1 + b * exp (be * t))) <= be * 1) by (apply Rmult_le_compat_l; [lra|exact F1]).
      replace (be * (b * exp (be * t)) / (1 + b * exp (be * t))) with (be * (b * exp (be * t) / (1 + b * exp (be * t)))) by (field; lra). lra.
Qed.

(** ** Kernels *)
Lemma x_scale z k T1 T2 : 0 < z < 1 -> 0 < k -> 0 < T1 -> T1 <= T2 -> 0 < z / (1 - z) / (k * T2) <= z / (1 - z) / (k * T1).
Proof.
  intros Hz Hk H1 H2. assert (Z: 0 < z / (1 - z)) by (apply div_pos; lra). split; [apply div_pos; [assumption|apply Rmult_lt_0_compat; lra]|].
  apply Rmult_le_compat_l; [lra|]. apply Rinv_le_contravar; [apply Rmult_lt_0_compat; lra|apply Rmult_le_compat_l; lra].
Qed.
Lemma range_facts g e : in_range g e = true -> g < e /\ 1 < e.
Proof. unfold in_range. destruct (Rlt_dec g e); destruct (Rlt_dec 1 e); cbn; intros; try discriminate. split; assumption. Qed.
Ltac dec34 := apply G34_decreasing; try assumption; lra.
Ltac dec12 := apply G12_decreasing; try assumption; lra.
Lemma iso_heat e T1 T2 g : 0 < e -> 0 < g -> 0 < T1 -> T1 <= T2 -> iso_ic_on_planck e T1 g <= (T1 / T2) ^ 2 * iso_ic_on_planck e T2 g.
Proof.
  intros He Hg H1 H2. unfold iso_ic_on_planck. cbv zeta. destruct (in_range g e) eqn:R; [|right; ring]. apply range_facts in R. destruct R as (R1 & R2).
  assert (KK: 0 < Ktomec2) by (unfold Ktomec2; lra). assert (PK: 0 < planck_const) by (unfold planck_const; lra).
  assert (Z: 0 < g / e < 1). { split; [apply div_pos; assumption|]. apply Rmult_lt_reg_r with e; [assumption|]. unfold Rdiv. rewrite Rmult_assoc, Rinv_l by lra. lra. }
  set (z := g / e) in *.
  assert (A1: 0 < T1 * Ktomec2) by (apply Rmult_lt_0_compat; assumption). assert (A2: T1 * Ktomec2 <= T2 * Ktomec2) by (apply Rmult_le_compat_r; lra).
  destruct (x_scale z (4 * e) (T1 * Ktomec2) (T2 * Ktomec2) Z ltac:(lra) A1 A2) as (X1 & X2).
  set (x1 := z / (1 - z) / (4 * e * (T1 * Ktomec2))) in *. set (x2 := z / (1 - z) / (4 * e * (T2 * Ktomec2))) in *.
  replace ((T1 / T2) ^ 2 * ((T2 * Ktomec2 / e) ^ 2 * planck_const *
    (z ^ 2 / (2 * (1 - z)) * G34 x2 (606 / 1000) (443 / 1000) (1481 / 1000) (54 / 100) (319 / 1000) + G34 x2 (461 / 1000) (726 / 1000) (1457 / 1000) (382 / 1000) (662 / 100))))
  with ((T1 * Ktomec2 / e) ^ 2 * planck_const *
    (z ^ 2 / (2 * (1 - z)) * G34 x2 (606 / 1000) (443 / 1000) (1481 / 1000) (54 / 100) (319 / 1000) + G34 x2 (461 / 1000) (726 / 1000) (1457 / 1000) (382 / 1000) (662 / 100)))
  by (field; split; lra).
  apply Rmult_le_compat_l; [apply Rmult_le_pos; [apply pow2_ge_0|lra]|]. apply Rplus_le_compat; [apply Rmult_le_compat_l; [apply Rlt_le, div_pos; [apply pow_lt; lra|lra]|]; dec34|dec34].
Qed.
Lemma ani_heat e T1 T2 g th1 th2 : 0 < e -> 0 < g -> 0 < T1 -> T1 <= T2 -> cos th2 <= cos th1 -> cos th1 < 1 ->
  ani_ic_on_planck e T1 g th1 <= (T1 / T2) ^ 2 * ani_ic_on_planck e T2 g th2.
Proof.
  intros He Hg H1 H2 C1 C2. unfold ani_ic_on_planck. cbv zeta. destruct (in_range g e) eqn:R; [|right; ring]. apply range_facts in R. destruct R as (R1 & R2).
  assert (KK: 0 < Ktomec2) by (unfold Ktomec2; lra). assert (PK: 0 < planck_const) by (unfold planck_const; lra).
  assert (Z: 0 < g / e < 1). { split; [apply div_pos; assumption|]. apply Rmult_lt_reg_r with e; [assumption|]. unfold Rdiv. rewrite Rmult_assoc, Rinv_l by lra. lra. }
  set (z := g / e) in *.
  assert (A1: 0 < T1 * Ktomec2 * (1 - cos th1)) by (repeat apply Rmult_lt_0_compat; lra).
  assert (A2: T1 * Ktomec2 * (1 - cos th1) <= T2 * Ktomec2 * (1 - cos th2)) by (apply Rmult_le_compat; try lra; [apply Rmult_le_pos; lra|apply Rmult_le_compat_r; lra]).
  destruct (x_scale z (2 * e) _ _ Z ltac:(lra) A1 A2) as (X1 & X2).
  replace (2 * e * (T1 * Ktomec2) * (1 - cos th1)) with (2 * e * (T1 * Ktomec2 * (1 - cos th1))) by ring. replace (2 * e * (T2 * Ktomec2) * (1 - cos th2)) with (2 * e * (T2 * Ktomec2 * (1 - cos th2))) by ring.
  set (x1 := z / (1 - z) / (2 * e * (T1 * Ktomec2 * (1 - cos th1)))) in *. set (x2 := z / (1 - z) / (2 * e * (T2 * Ktomec2 * (1 - cos th2)))) in *.
  replace ((T1 / T2) ^ 2 * ((T2 * Ktomec2 / e) ^ 2 * planck_const *
    (z ^ 2 / (2 * (1 - z)) * G12 x2 (857 / 1000) (153 / 1000) (184 / 100) (254 / 1000) + G12 x2 (691 / 1000) (133 / 100) (1668 / 1000) (534 / 1000))))
  with ((T1 * Ktomec2 / e) ^ 2 * planck_const *
    (z ^ 2 / (2 * (1 - z)) * G12 x2 (857 / 1000) (153 / 1000) (184 / 100) (254 / 1000) + G12 x2 (691 / 1000) (133 / 100) (1668 / 1000) (534 / 1000)))
  by (field; split; lra).
  apply Rmult_le_compat_l; [apply Rmult_le_pos; [apply pow2_ge_0|lra]|]. apply Rplus_le_compat; [apply Rmult_le_compat_l; [apply Rlt_le, div_pos; [apply pow_lt; lra|lra]|]; dec12|dec12].
Qed.

(** ** Spectra *)
(** [Thermal T u angle]: photons of temperature T with energy density u, isotropic ([None]) or coming from
    one direction, at the given angle to the direction of the scattered photon. *)
Definition N1 (mec2 ar nd : R) (pd : R -> R) (lo hi : R) (Es : list R) (i : nat) (s : seed) : R := nth i (ic_spectrum mec2 ar pd (gam mec2 nd lo hi) [s] Es) 0.
Lemma N1_eq mec2 ar nd pd lo hi Es i T u th : (i < length Es)%nat -> 0 < nth i Es 0 -> 0 < mec2 ->
  N1 mec2 ar nd pd lo hi Es i (Thermal T u th) = u / (ar * T ^ 4) / mec2 *
    trapz_loglog (map (fun g => pd (g * mec2) * mec2 * seed_kernel (Thermal T u th) g (nth i Es 0 / mec2)) (gam mec2 nd lo hi)) (gam mec2 nd lo hi).
Proof.
  intros Hi PE Hm. unfold N1. rewrite ic_spectrum_map. rewrite nth_map_lt by exact Hi. cbn [map fold_right]. unfold specic1. rewrite nelec_kernel. cbn [seed_factor to_mec2].
  rewrite Rplus_0_r. set (t := trapz_loglog _ _). clearbody t. unfold Rdiv. set (w := u * / (ar * T ^ 4)). clearbody w. field. split; lra.
Qed.
Lemma heat mec2 ar nd pd lo hi Es i T1 T2 u1 u2 th1 th2 : 0 < mec2 -> 0 < ar -> 0 < lo -> lo < hi -> (forall e, 0 < e -> 0 <= pd e) ->
  (i < length Es)%nat -> 0 < nth i Es 0 -> 0 < T1 -> T1 <= T2 -> 0 < u1 -> 0 < u2 ->
  (forall g, 0 < g -> 0 <= seed_kernel (Thermal T1 u1 th1) g (nth i Es 0 / mec2) <= (T1 / T2) ^ 2 * seed_kernel (Thermal T2 u2 th2) g (nth i Es 0 / mec2)) ->
  u2 / T2 ^ 2 * N1 mec2 ar nd pd lo hi Es i (Thermal T1 u1 th1) <= slack nd lo hi * (u1 / T1 ^ 2 * N1 mec2 ar nd pd lo hi Es i (Thermal T2 u2 th2)).
Proof.
  intros Hm Har Hlo Hhi PP Hi PE H1 H2 U1 U2 HK. rewrite !N1_eq by assumption.
  assert (C: 0 < (T1 / T2) ^ 2) by (apply pow_lt, div_pos; lra).
  pose proof (trapz_mono_slack mec2 nd lo hi (fun g => seed_kernel (Thermal T1 u1 th1) g (nth i Es 0 / mec2)) (fun g => seed_kernel (Thermal T2 u2 th2) g (nth i Es 0 / mec2)) pd _ Hm Hlo Hhi PP C) as X.
  cbv zeta in X. specialize (X ltac:(intros g Hg _; destruct (HK g Hg); split; assumption)).
  set (t1 := trapz_loglog _ _) in X |- * at 1. set (t2 := trapz_loglog _ _) in X |- * at 1. fold t1 t2 in X. fold t1 t2.
  set (sl := slack nd lo hi) in *.
  replace (u2 / T2 ^ 2 * (u1 / (ar * T1 ^ 4) / mec2 * t1)) with (u2 * u1 / (T2 ^ 2 * (ar * T1 ^ 4) * mec2) * t1) by (field; repeat split; lra).
  replace (sl * (u1 / T1 ^ 2 * (u2 / (ar * T2 ^ 4) / mec2 * t2))) with (u2 * u1 / (T2 ^ 2 * (ar * T1 ^ 4) * mec2) * (sl * ((T1 / T2) ^ 2 * t2))) by (field; repeat split; lra).
  apply Rmult_le_compat_l; [|exact X]. apply Rlt_le, div_pos; [apply Rmult_lt_0_compat; assumption|]. repeat apply Rmult_lt_0_compat; try apply pow_lt; lra.
Qed.

(** Two thermal fields of temperatures T1 <= T2 and any energy densities: the emission per unit of
    (energy density)/T^2 is at every photon energy at least as large for the hotter field. *)
Theorem C178_temperature : forall mec2 ar nd pd lo hi Es i T1 T2 u1 u2 angle, 0 < mec2 -> 0 < ar -> 0 < lo -> lo < hi -> (forall e, 0 < e -> 0 <= pd e) ->
  (i < length Es)%nat -> 0 < nth i Es 0 -> 0 < T1 -> T1 <= T2 -> 0 < u1 -> 0 < u2 -> match angle with Some th => cos th < 1 | None => True end ->
  let N := fun s => nth i (ic_spectrum mec2 ar pd (gam mec2 nd lo hi) [s] Es) 0 in
  u2 / T2 ^ 2 * N (Thermal T1 u1 angle) <= slack nd lo hi * (u1 / T1 ^ 2 * N (Thermal T2 u2 angle)).
Proof.
  intros mec2 ar nd pd lo hi Es i T1 T2 u1 u2 angle Hm Har Hlo Hhi PP Hi PE H1 H2 U1 U2 HA N.
  apply (heat mec2 ar nd pd lo hi Es i T1 T2 u1 u2 angle angle); try assumption. intros g Hg.
  assert (PG: 0 < nth i Es 0 / mec2) by (apply div_pos; assumption). split.
  - apply seed_kernel_nonneg; try assumption. split; [assumption|]. split; [lra|]. intros t ->. exact HA.
  - destruct angle as [th|]; cbn [seed_kernel]; [apply ani_heat|apply iso_heat]; try assumption; lra.
Qed.
Print Assumptions C178_temperature.
(** black bodies: heating from T1 to T2 multiplies the emission by at least (T2/T1)^2 *)
Theorem C178_black_body : forall mec2 ar nd pd lo hi Es i T1 T2 angle, 0 < mec2 -> 0 < ar -> 0 < lo -> lo < hi -> (forall e, 0 < e -> 0 <= pd e) ->
  (i < length Es)%nat -> 0 < nth i Es 0 -> 0 < T1 -> T1 <= T2 -> match angle with Some th => cos th < 1 | None => True end ->
  let N := fun T => nth i (ic_spectrum mec2 ar pd (gam mec2 nd lo hi) [Thermal T (ar * T ^ 4) angle] Es) 0 in
  (T2 / T1) ^ 2 * N T1 <= slack nd lo hi * N T2.
Proof.
  intros mec2 ar nd pd lo hi Es i T1 T2 angle Hm Har Hlo Hhi PP Hi PE H1 H2 HA N.
  assert (P4: forall T, 0 < T -> 0 < ar * T ^ 4) by (intros; apply Rmult_lt_0_compat; [assumption|apply pow_lt; assumption]).
  pose proof (C178_temperature mec2 ar nd pd lo hi Es i T1 T2 (ar * T1 ^ 4) (ar * T2 ^ 4) angle Hm Har Hlo Hhi PP Hi PE H1 H2 (P4 T1 H1) (P4 T2 ltac:(lra)) HA) as X. cbv zeta in X.
  fold (N T1) in X. fold (N T2) in X. apply Rmult_le_reg_l with (ar * T1 ^ 2); [apply Rmult_lt_0_compat; [assumption|apply pow_lt; assumption]|].
  replace (ar * T1 ^ 2 * ((T2 / T1) ^ 2 * N T1)) with (ar * T2 ^ 4 / T2 ^ 2 * N T1) by (field; lra).
  replace (ar * T1 ^ 2 * (slack nd lo hi * N T2)) with (slack nd lo hi * (ar * T1 ^ 4 / T1 ^ 2 * N T2)) by (field; lra). exact X.
Qed.
(** the emission grows with the angle between the photons and the line of sight, up to head-on collisions *)
Theorem C178_angle : forall mec2 ar nd pd lo hi Es i T u th1 th2, 0 < mec2 -> 0 < ar -> 0 < lo -> lo < hi -> (forall e, 0 < e -> 0 <= pd e) ->
  (i < length Es)%nat -> 0 < nth i Es 0 -> 0 < T -> 0 < u -> 0 < th1 -> th1 <= th2 -> th2 <= PI ->
  let N := fun th => nth i (ic_spectrum mec2 ar pd (gam mec2 nd lo hi) [Thermal T u (Some th)] Es) 0 in
  N th1 <= slack nd lo hi * N th2.
Proof.
  intros mec2 ar nd pd lo hi Es i T u th1 th2 Hm Har Hlo Hhi PP Hi PE H1 U A1 A2 A3 N.
  assert (C1: cos th2 <= cos th1) by (destruct A2 as [A2|<-]; [left; apply cos_decreasing_1; lra|lra]).
  assert (C2: cos th1 < 1) by (rewrite <- cos_0; apply cos_decreasing_1; lra).
  assert (X: u / T ^ 2 * N th1 <= slack nd lo hi * (u / T ^ 2 * N th2)).
  { apply (heat mec2 ar nd pd lo hi Es i T T u u (Some th1) (Some th2)); try assumption; [lra|]. intros g Hg.
    assert (PG: 0 < nth i Es 0 / mec2) by (apply div_pos; assumption). split.
    - apply seed_kernel_nonneg; try assumption. split; [assumption|]. split; [lra|]. intros t [= <-]. exact C2.
    - cbn [seed_kernel]. apply ani_heat; try assumption; lra. }
  apply Rmult_le_reg_l with (u / T ^ 2); [apply div_pos; [assumption|apply pow_lt; assumption]|]. lra.
Qed.
Print Assumptions C178_angle.

(** a case: units with m_e c^2 = 1, electrons E^-2 between 1 and 10^6, photon energy 1000, 10 points per decade; 3 K and 30 K *)
Example C178_example : let N := fun T th => nth 0 (ic_spectrum 1 1 (fun e => / e ^ 2) (gam 1 10 1 1000000) [Thermal T (1 * T ^ 4) th] [1000]) 0 in
  (30 / 3) ^ 2 * N 3 None <= slack 10 1 1000000 * N 30 None /\ N 3 (Some (PI / 2)) <= slack 10 1 1000000 * N 3 (Some PI).
Proof.
  intros N. assert (PD: forall E, 0 < E -> 0 <= / E ^ 2) by (intros E HE; apply Rlt_le, Rinv_0_lt_compat, pow_lt; assumption). pose proof PI_RGT_0 as PR.
  split.
  - apply (C178_black_body 1 1 10 (fun e => / e ^ 2) 1 1000000 [1000] 0 3 30 None); try lra; try assumption; cbn; try lia; try lra; exact I.
  - apply (C178_angle 1 1 10 (fun e => / e ^ 2) 1 1000000 [1000] 0 3 (1 * 3 ^ 4) (PI / 2) PI); try lra; try assumption; cbn; try lia; try lra.
Qed.
