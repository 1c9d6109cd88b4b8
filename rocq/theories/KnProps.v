(** Property C179: accuracy of the inverse Compton flux on black bodies. Refuted part: deep in the Klein-Nishina regime the
    code's grid misses the electrons whose energy is next to the photon energy. *)
From Coq Require Import Reals ZArith List Lra Lia.
From Coquelicot Require Import Coquelicot.
From Flocq Require Import Raux.
From Verif Require Import SpectralModel SpectralProofs TrapzModel TrapzSpec TrapzProofs EnergyModel EnergyProofs ElectronModel ElectronProofs PionModel PionProofs PionProps RadiativeProps ConvProofs ConvProps ConvProps2 ConvPion ConvProps3 FloatTrapzProofs ErrProofs ErrProps ErrProps2 SuperProofs SuperProps SlopeProps HeatProps.
Import ListNotations.
Local Open Scope R_scope.

(** the kernel at most: the one of infinitely hot photons *)
Definition Kinf (e g : R) : R := if in_range e g then (/ (2 * (1 - e / g)) + 1) * (PI ^ 2 / 6) * (planck_const / g ^ 2) else 0.
Lemma G34_pi x alpha a beta b c : 0 < x -> 0 < a -> 0 < b -> 0 < c -> 0 <= G34 x alpha a beta b c <= PI ^ 2 / 6.
Proof.
  intros Hx Ha Hb Hc. split; [apply Rlt_le, G34_pos; assumption|]. apply Rle_trans with (1 := G34_le x alpha a beta b c Hx Ha Hb Hc).
  assert (exp (- x) <= 1) by (rewrite <- exp_0; apply exp_le; lra). pose proof pi26_ge. rewrite <- (Rmult_1_r (PI ^ 2 / 6)) at 2. apply Rmult_le_compat_l; lra.
Qed.
Lemma z_facts e g : 0 < e -> e < g -> 0 < e / g < 1 /\ 0 < 1 - e / g.
Proof.
  intros H1 H2. assert (e / g < 1). { apply Rmult_lt_reg_r with g; [lra|]. unfold Rdiv. rewrite Rmult_assoc, Rinv_l by lra. lra. }
  assert (0 < e / g) by (apply div_pos; lra). lra.
Qed.
Lemma K_upper e T g : 0 < e -> 0 < T -> iso_ic_on_planck g T e <= (T * Ktomec2) ^ 2 * Kinf e g.
Proof.
  intros He HT. unfold iso_ic_on_planck, Kinf. cbv zeta. destruct (in_range e g) eqn:R; [|lra]. apply range_facts in R. destruct R as (R1 & R2).
  assert (KK: 0 < Ktomec2) by (unfold Ktomec2; lra). assert (PK: 0 < planck_const) by (unfold planck_const; lra).
  destruct (z_facts e g He R1) as (Z & Z1). set (z := e / g) in *. assert (TP: 0 < T * Ktomec2) by (apply Rmult_lt_0_compat; assumption).
  assert (X: 0 < z / (1 - z) / (4 * g * (T * Ktomec2))) by (apply div_pos; [apply div_pos; lra|apply Rmult_lt_0_compat; lra]).
  set (x := z / (1 - z) / _) in *.
  replace ((T * Ktomec2 / g) ^ 2 * planck_const) with ((T * Ktomec2) ^ 2 * (planck_const / g ^ 2)) by (field; lra).
  replace ((T * Ktomec2) ^ 2 * ((/ (2 * (1 - z)) + 1) * (PI ^ 2 / 6) * (planck_const / g ^ 2))) with ((T * Ktomec2) ^ 2 * (planck_const / g ^ 2) * ((/ (2 * (1 - z)) + 1) * (PI ^ 2 / 6))) by ring.
  apply Rmult_le_compat_l. { apply Rmult_le_pos; [apply pow2_ge_0|]. apply Rlt_le, div_pos; [assumption|apply pow_lt; lra]. }
  destruct (G34_pi x (606 / 1000) (443 / 1000) (1481 / 1000) (54 / 100) (319 / 1000) X) as (A1 & A2); try lra.
  destruct (G34_pi x (461 / 1000) (726 / 1000) (1457 / 1000) (382 / 1000) (662 / 100) X) as (B1 & B2); try lra.
  rewrite Rmult_plus_distr_r, Rmult_1_l. apply Rplus_le_compat; [|exact B2].
  apply Rmult_le_compat; try assumption; [apply Rlt_le, div_pos; [apply pow_lt; lra|lra]|].
  unfold Rdiv. rewrite <- (Rmult_1_l (/ (2 * (1 - z)))) at 2. apply Rmult_le_compat_r; [apply Rlt_le, Rinv_0_lt_compat; lra|]. nra.
Qed.
(** the kernel at least, next to the photon energy *)
Definition G1 : R := G34 1 (606 / 1000) (443 / 1000) (1481 / 1000) (54 / 100) (319 / 1000).
Lemma G1_pos : 0 < G1.
Proof. apply G34_pos; lra. Qed.
Lemma K_lower e T g : 1 < e -> 0 < T -> e < g -> e / (4 * (T * Ktomec2)) <= g - e ->
  (T * Ktomec2) ^ 2 * (planck_const * G1 * e ^ 2 / (2 * g ^ 3 * (g - e))) <= iso_ic_on_planck g T e.
Proof.
  intros He HT Hg HD. unfold iso_ic_on_planck. cbv zeta. assert (R: in_range e g = true) by (unfold in_range; destruct (Rlt_dec e g); [|lra]; destruct (Rlt_dec 1 g); [reflexivity|lra]). rewrite R.
  assert (KK: 0 < Ktomec2) by (unfold Ktomec2; lra). assert (PK: 0 < planck_const) by (unfold planck_const; lra).
  destruct (z_facts e g ltac:(lra) Hg) as (Z & Z1). assert (TP: 0 < T * Ktomec2) by (apply Rmult_lt_0_compat; assumption). set (t := T * Ktomec2) in *.
  assert (XE: e / g / (1 - e / g) / (4 * g * t) = e / (4 * t) / (g * (g - e))) by (field; lra).
  assert (X: 0 < e / (4 * t) / (g * (g - e)) <= 1).
  { assert (P: 0 < e / (4 * t)) by (apply div_pos; lra). assert (Q: 0 < g * (g - e)) by (apply Rmult_lt_0_compat; lra). split; [apply div_pos; assumption|].
    apply Rmult_le_reg_r with (g * (g - e)); [assumption|]. unfold Rdiv at 1. rewrite Rmult_assoc, Rinv_l by lra. nra. }
  rewrite XE. set (x := e / (4 * t) / _) in *.
  assert (A: G1 <= G34 x (606 / 1000) (443 / 1000) (1481 / 1000) (54 / 100) (319 / 1000)) by (unfold G1; apply G34_decreasing; lra).
  assert (B: 0 < G34 x (461 / 1000) (726 / 1000) (1457 / 1000) (382 / 1000) (662 / 100)) by (apply G34_pos; lra).
  replace (t ^ 2 * (planck_const * G1 * e ^ 2 / (2 * g ^ 3 * (g - e)))) with ((t / g) ^ 2 * planck_const * ((e / g) ^ 2 / (2 * (1 - e / g)) * G1)) by (field; lra).
  apply Rmult_le_compat_l; [apply Rmult_le_pos; [apply pow2_ge_0|lra]|].
  assert (C: (e / g) ^ 2 / (2 * (1 - e / g)) * G1 <= (e / g) ^ 2 / (2 * (1 - e / g)) * G34 x (606 / 1000) (443 / 1000) (1481 / 1000) (54 / 100) (319 / 1000)).
  { apply Rmult_le_compat_l; [apply Rlt_le, div_pos; [apply pow_lt; lra|lra]|exact A]. }
  lra.
Qed.
Lemma log_integral e a b : e < a -> a <= b -> is_RInt (fun g => / (g - e)) a b (ln ((b - e) / (a - e))).
Proof.
  intros H1 H2. rewrite ln_div by lra. apply (is_RInt_derive (fun g => ln (g - e)) (fun g => / (g - e))).
  - intros x. rewrite Rmin_left, Rmax_right by lra. intros Hx. auto_derive; [lra|]. field. lra.
  - intros x. rewrite Rmin_left, Rmax_right by lra. intros Hx. apply continuity_pt_filterlim. apply cont_of_derive. auto_derive. lra.
Qed.

Lemma trapz_nonneg_list (f : R -> R) xs : grid xs -> (forall x, In x xs -> 0 <= f x) -> 0 <= trapz_loglog (map f xs) xs.
Proof. intros G H. apply trapz_nonneg; [exact G|]. rewrite List.Forall_forall. intros y Hy. apply in_map_iff in Hy. destruct Hy as (x & <- & I). apply H, I. Qed.

(** For every electron spectrum, whatever the grid, and every photon energy in the range of the electron energies: the exact
    spectrum (the limit of infinitely fine grids) exceeds any multiple of the computed one if the photon field is hot enough. *)
Theorem C179_hot_fields_refuted : forall mec2 ar nd pd lo hi Es i M, 0 < mec2 -> 0 < ar -> mec2 < lo -> (forall e, 0 < e -> 0 < pd e) ->
  (forall e, lo <= e <= hi -> continuity_pt pd e) -> (i < length Es)%nat -> List.Forall (fun E => 0 < E) Es -> lo <= nth i Es 0 < hi ->
  exists T0, 0 < T0 /\ forall T u, T0 <= T -> 0 < u -> exists exact,
    let N := fun nd => nth i (ic_spectrum mec2 ar pd (gam mec2 nd lo hi) [Thermal T u None] Es) 0 in
    tends N exact /\ M * N nd < exact.
Proof.
  intros mec2 ar nd pd lo hi Es i M Hm Har Hlo PP HC Hi HE HR. set (E := nth i Es 0) in *.
  assert (Hlh: lo < hi) by lra. assert (PE: 0 < E) by lra. set (e := E / mec2).
  assert (L1: 1 < lo / mec2). { apply (Rmult_lt_reg_r mec2); [lra|]. unfold Rdiv. rewrite Rmult_assoc, Rinv_l by lra. lra. }
  assert (LE: lo / mec2 <= e) by (apply Rmult_le_compat_r; [apply Rlt_le, Rinv_0_lt_compat|]; lra).
  assert (EH: e < hi / mec2) by (apply Rmult_lt_compat_r; [apply Rinv_0_lt_compat|]; lra).
  set (b := hi / mec2) in *. set (a := lo / mec2) in *.
  assert (KK: 0 < Ktomec2) by (unfold Ktomec2; lra). assert (PK: 0 < planck_const) by (unfold planck_const; lra). pose proof G1_pos as PG.
  destruct (continuity_ab_min pd lo hi ltac:(lra) HC) as (em & Hmin & Hem). assert (Pm: 0 < pd em) by (apply PP; lra). set (m := pd em) in *.
  set (C := trapz_loglog (map (fun g => pd (g * mec2) * mec2 * Kinf e g) (gam mec2 nd lo hi)) (gam mec2 nd lo hi)).
  set (B := m * mec2 * (planck_const * G1 * e ^ 2 / (2 * b ^ 3))).
  assert (PB: 0 < B). { unfold B. apply Rmult_lt_0_compat; [apply Rmult_lt_0_compat; assumption|]. apply div_pos; [|assert (0 < b ^ 3) by (apply pow_lt; lra); lra]. apply Rmult_lt_0_compat; [apply Rmult_lt_0_compat; assumption|apply pow_lt; lra]. }
  assert (PC: 0 <= C).
  { destruct (gam_facts mec2 nd lo hi Hm ltac:(lra) Hlh) as (G & _). unfold C. apply trapz_nonneg_list; [exact G|]. intros g Hg. 
    destruct G as [G _]. rewrite List.Forall_forall in G. specialize (G g Hg). apply Rmult_le_pos; [apply Rlt_le, Rmult_lt_0_compat; [apply PP, Rmult_lt_0_compat|]; assumption|].
    unfold Kinf. destruct (in_range e g) eqn:R; [|lra]. apply range_facts in R. destruct R as (R1 & R2). destruct (z_facts e g ltac:(lra) R1) as (Z & Z1). pose proof pi26_ge.
    apply Rlt_le. apply Rmult_lt_0_compat; [apply Rmult_lt_0_compat; [|lra]|apply div_pos; [assumption|apply pow_lt; lra]]. assert (0 < / (2 * (1 - e / g))) by (apply Rinv_0_lt_compat; lra). lra. }
  set (sl := slack nd lo hi). assert (Psl: 0 < sl) by (unfold sl, slack; apply exp_pos).
  set (L := Rabs M * sl * C / B + 1). assert (PL: 1 <= L).
  { unfold L. assert (0 <= Rabs M * sl * C / B); [|lra]. apply Rmult_le_pos; [|apply Rlt_le, Rinv_0_lt_compat; assumption]. apply Rmult_le_pos; [apply Rmult_le_pos; [apply Rabs_pos|lra]|assumption]. }
  exists (e * exp L / (4 * Ktomec2 * (b - e))). assert (P0: 0 < e * exp L / (4 * Ktomec2 * (b - e))).
  { apply div_pos; [apply Rmult_lt_0_compat; [lra|apply exp_pos]|]. apply Rmult_lt_0_compat; lra. }
  split; [exact P0|]. intros T u HT Hu. assert (PT: 0 < T) by lra. exists (ic_exact mec2 ar pd lo hi E (Thermal T u None)). cbv zeta.
  assert (OK: seed_ok (Thermal T u None)) by (split; [exact PT|]; split; [lra|intros t; discriminate]).
  assert (CD: continuous_density pd lo hi) by (intros x Hx; split; [apply HC; exact Hx|apply Rlt_le, PP; lra]).
  split.
  { pose proof (C110_inverse_compton_thermal mec2 ar pd lo hi [Thermal T u None] Es i Hm Hlo Hlh Hi HE CD ltac:(constructor; [split; [exact OK|exists T, u, None; reflexivity]|constructor])) as X.
    cbn [map fold_right] in X. rewrite Rplus_0_r in X. exact X. }
  change (nth i (ic_spectrum mec2 ar pd (gam mec2 nd lo hi) [Thermal T u None] Es) 0) with (N1 mec2 ar nd pd lo hi Es i (Thermal T u None)). rewrite N1_eq by assumption. fold E e.
  cbn [seed_kernel]. set (Q := u / (ar * T ^ 4) / mec2). assert (PQ: 0 < Q). { unfold Q. repeat apply div_pos; try assumption. apply Rmult_lt_0_compat; [assumption|apply pow_lt; assumption]. }
  set (tp := trapz_loglog _ _). set (t := T * Ktomec2). assert (Pt: 0 < t) by (apply Rmult_lt_0_compat; assumption).
  assert (U: tp <= sl * (t ^ 2 * C)).
  { apply (trapz_mono_slack mec2 nd lo hi (fun g => iso_ic_on_planck g T e) (Kinf e) pd (t ^ 2) Hm ltac:(lra) Hlh ltac:(intros; apply Rlt_le, PP; assumption) ltac:(apply pow_lt; assumption)).
    intros g Hg _. split; [apply (seed_kernel_nonneg (Thermal T u None)); [exact OK|assumption|lra]|]. apply K_upper; lra. }
  assert (Utp: 0 <= tp).
  { destruct (gam_facts mec2 nd lo hi Hm ltac:(lra) Hlh) as (G & _). apply trapz_nonneg_list; [exact G|]. intros g Hg. destruct G as [G _]. rewrite List.Forall_forall in G. specialize (G g Hg).
    apply Rmult_le_pos; [apply Rlt_le, Rmult_lt_0_compat; [apply PP, Rmult_lt_0_compat|]; assumption|]. apply (seed_kernel_nonneg (Thermal T u None)); [exact OK|assumption|lra]. }
  (* the exact integral *)
  assert (DE: density (ic_integrand mec2 pd (Thermal T u None) E) a b).
  { apply (kernel_density mec2 pd lo hi (fun g => seed_kernel (to_mec2 mec2 (Thermal T u None)) g (E / mec2))); try assumption; try lra.
    intros g Hg. fold a in Hg. assert (Pe: 0 < E / mec2) by (fold e; lra). split; [destruct OK as (O1 & O2 & O3); apply thermal_cont; try assumption; lra|].
    apply seed_kernel_nonneg; [exact OK|lra|exact Pe]. }
  destruct DE as (EX & NN). set (f := ic_integrand mec2 pd (Thermal T u None) E) in *.
  set (c := e + e / (4 * t)).
  assert (Pd: 0 < e / (4 * t)) by (apply div_pos; lra).
  assert (TL: exp L <= (b - e) / (e / (4 * t))).
  { apply Rmult_le_reg_r with (e / (4 * t)); [assumption|]. unfold Rdiv at 2. rewrite Rmult_assoc, Rinv_l, Rmult_1_r by lra.
    apply Rmult_le_reg_r with (4 * t); [lra|]. replace (exp L * (e / (4 * t)) * (4 * t)) with (e * exp L) by (field; lra).
    replace (e * exp L) with (e * exp L / (4 * Ktomec2 * (b - e)) * (4 * Ktomec2 * (b - e))) by (field; lra).
    replace ((b - e) * (4 * t)) with (T * (4 * Ktomec2 * (b - e))) by (unfold t; ring). apply Rmult_le_compat_r; [apply Rlt_le, Rmult_lt_0_compat; lra|exact HT]. }
  assert (CB: c <= b).
  { unfold c. assert (X1: 1 <= exp L) by (rewrite <- exp_0; apply exp_le; lra). assert (X2: 1 <= (b - e) / (e / (4 * t))) by lra. set (d := e / (4 * t)) in *.
    assert (X3: 1 * d <= (b - e) / d * d) by (apply Rmult_le_compat_r; lra). replace ((b - e) / d * d) with (b - e) in X3 by (field; lra). lra. }
  assert (AC: a <= c) by (unfold c; lra).
  assert (EX1: ex_RInt f a c) by (apply (ex_RInt_Chasles_1 f a c b); [lra|exact EX]).
  assert (EX2: ex_RInt f c b) by (apply (ex_RInt_Chasles_2 f a c b); [lra|exact EX]).
  assert (CH: @eq R (RInt f a b) (RInt f a c + RInt f c b)) by (symmetry; exact (RInt_Chasles f a c b EX1 EX2)).
  assert (N0: 0 <= RInt f a c) by (apply RInt_ge_0; [lra|exact EX1|intros x Hx; apply NN; lra]).
  pose proof (log_integral e c b ltac:(unfold c; lra) CB) as LI.
  assert (LI2: is_RInt (fun g => t ^ 2 * B * / (g - e)) c b (t ^ 2 * B * ln ((b - e) / (c - e)))) by (apply (is_RInt_scal (fun g => / (g - e)) c b (t ^ 2 * B)); exact LI).
  assert (LB: t ^ 2 * B * ln ((b - e) / (c - e)) <= RInt f c b).
  { apply (is_RInt_le (fun g => t ^ 2 * B * / (g - e)) f c b); [exact CB|exact LI2|apply (RInt_correct f c b); exact EX2|]. intros g Hg.
    assert (G1': e < g) by (unfold c in Hg; lra). assert (GE: 0 < g - e) by lra. unfold f, ic_integrand. cbn [to_mec2 seed_kernel]. fold e.
    assert (PDm: m <= pd (g * mec2)). { apply Hmin. split; [|]. - apply Rmult_le_reg_r with (/ mec2); [apply Rinv_0_lt_compat; assumption|]. rewrite Rmult_assoc, Rinv_r, Rmult_1_r by lra. fold (lo / mec2) a. lra.
      - apply Rmult_le_reg_r with (/ mec2); [apply Rinv_0_lt_compat; assumption|]. rewrite Rmult_assoc, Rinv_r, Rmult_1_r by lra. fold (hi / mec2) b. lra. }
    assert (KL: (T * Ktomec2) ^ 2 * (planck_const * G1 * e ^ 2 / (2 * g ^ 3 * (g - e))) <= iso_ic_on_planck g T e) by (apply K_lower; try lra; fold t; unfold c in Hg; lra).
    fold t in KL. apply Rle_trans with (m * mec2 * (t ^ 2 * (planck_const * G1 * e ^ 2 / (2 * g ^ 3 * (g - e))))).
    - unfold B. replace (t ^ 2 * (m * mec2 * (planck_const * G1 * e ^ 2 / (2 * b ^ 3))) * / (g - e)) with (m * mec2 * t ^ 2 * (planck_const * G1 * e ^ 2) / (2 * (g - e)) * / b ^ 3) by (field; split; lra).
      replace (m * mec2 * (t ^ 2 * (planck_const * G1 * e ^ 2 / (2 * g ^ 3 * (g - e))))) with (m * mec2 * t ^ 2 * (planck_const * G1 * e ^ 2) / (2 * (g - e)) * / g ^ 3) by (field; split; lra).
      apply Rmult_le_compat_l.
      + apply Rlt_le, div_pos; [|lra]. assert (Pe: 0 < e) by lra. pose proof (pow_lt t 2 Pt) as W1. pose proof (pow_lt e 2 Pe) as W2. clearbody t e m.
        apply Rmult_lt_0_compat; [apply Rmult_lt_0_compat; [apply Rmult_lt_0_compat|]|apply Rmult_lt_0_compat; [apply Rmult_lt_0_compat|]]; assumption.
      + apply Rinv_le_contravar; [apply pow_lt; lra|]. apply pow_incr. lra.
    - apply Rmult_le_compat; try assumption; [apply Rlt_le, Rmult_lt_0_compat; assumption| |apply Rmult_le_compat_r; lra].
      apply Rmult_le_pos; [apply pow2_ge_0|]. assert (Pe: 0 < e) by lra. assert (Pg: 0 < g) by lra. pose proof (pow_lt e 2 Pe) as W2. pose proof (pow_lt g 3 Pg) as W3. apply Rlt_le, div_pos.
      + apply Rmult_lt_0_compat; [apply Rmult_lt_0_compat; assumption|exact W2].
      + apply Rmult_lt_0_compat; lra. }
  replace (c - e) with (e / (4 * t)) in LB by (unfold c; ring).
  assert (LL: L <= ln ((b - e) / (e / (4 * t)))) by (rewrite <- (ln_exp L); apply ln_le'; [apply exp_pos|exact TL]).
  assert (V: t ^ 2 * B * L <= RInt f a b).
  { rewrite CH. apply Rle_trans with (t ^ 2 * B * ln ((b - e) / (e / (4 * t)))); [|lra]. apply Rmult_le_compat_l; [|exact LL]. apply Rlt_le, Rmult_lt_0_compat; [apply pow_lt; lra|assumption]. }
  unfold ic_exact. cbn [seed_factor]. fold f a b.
  replace (u / (ar * T ^ 4) * (E / mec2) * RInt f a b / E) with (Q * RInt f a b) by (unfold Q; set (w := RInt f a b : R); clearbody w; field; repeat split; try lra; apply Rgt_not_eq; apply pow_lt; assumption).
  replace (M * (Q * tp)) with (Q * (M * tp)) by ring. apply Rmult_lt_compat_l; [exact PQ|]. apply Rlt_le_trans with (2 := V).
  apply Rle_lt_trans with (Rabs M * (sl * (t ^ 2 * C))).
  - apply Rle_trans with (Rabs M * tp); [apply Rmult_le_compat_r; [assumption|apply Rle_abs]|]. apply Rmult_le_compat_l; [apply Rabs_pos|exact U].
  - unfold L. replace (t ^ 2 * B * (Rabs M * sl * C / B + 1)) with (Rabs M * (sl * (t ^ 2 * C)) + t ^ 2 * B) by (field; lra).
    assert (0 < t ^ 2 * B) by (apply Rmult_lt_0_compat; [apply pow_lt; lra|assumption]). lra.
Qed.
Print Assumptions C179_hot_fields_refuted.

(** a case: units with m_e c^2 = 1, electrons E^-2 between 10 and 1000, 100 points per decade, photon energy 100: for hot
    enough photons the code computes less than a thousandth of the exact flux *)
Example C179_hot_fields_example : exists T0, 0 < T0 /\ forall T u, T0 <= T -> 0 < u -> exists exact,
  let N := fun nd => nth 0 (ic_spectrum 1 1 (fun e => / e ^ 2) (gam 1 nd 10 1000) [Thermal T u None] [100]) 0 in tends N exact /\ 1000 * N 100 < exact.
Proof.
  apply (C179_hot_fields_refuted 1 1 100 (fun e => / e ^ 2) 10 1000 [100] 0%nat 1000); try lra; try (cbn; lia).
  - intros e He. apply Rinv_0_lt_compat, pow_lt. assumption.
  - intros e He. apply cont_of_derive. auto_derive. assert (0 < e * (e * 1)) by nra. lra.
  - repeat constructor; lra.
  - cbn. lra.
Qed.
