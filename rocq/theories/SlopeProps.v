(** Property C176: how a synchrotron spectrum responds to the photon energy and to the magnetic field. *)
From Coq Require Import Reals ZArith List Lra Lia.
From Coquelicot Require Import Coquelicot.
From Verif Require Import SpectralModel SpectralProofs TrapzModel TrapzSpec TrapzProofs EnergyModel EnergyProofs ElectronModel ElectronProofs PionModel PionProofs PionProps RadiativeProps ConvProofs ConvProps ConvProps2 ConvPion ConvProps3 ErrProps2 FloatTrapzProofs ErrProps SuperProofs SuperProps.
Import ListNotations.
Local Open Scope R_scope.

(** ** The emissivity function *)
Lemma derive_incr (g g1 : R -> R) s t : s <= t -> (forall u, is_derive g u (g1 u)) -> (forall u, 0 <= g1 u) -> g s <= g t.
Proof.
  intros H D P. destruct (MVT_gen g s t g1) as (c & _ & E).
  - intros; apply D.
  - intros x _. apply continuity_pt_filterlim. apply (@ex_derive_continuous R_AbsRing R_NormedModule). eexists. apply D.
  - specialize (P c). assert (0 <= g1 c * (t - s)) by (apply Rmult_le_pos; lra). lra.
Qed.
Definition H0 (t : R) : R := - / 2 * L (34 / 10) 0 (2 / 3) 0 t + L (221 / 100) (347 / 1000) (2 / 3) 0 t - L (1353 / 1000) (217 / 1000) (2 / 3) 0 t.
Definition H1 (t : R) : R := - / 2 * L1 (34 / 10) 0 (2 / 3) 0 t + L1 (221 / 100) (347 / 1000) (2 / 3) 0 t - L1 (1353 / 1000) (217 / 1000) (2 / 3) 0 t.
Lemma H_derive t : is_derive H0 t (H1 t).
Proof.
  destruct (L_derive (34 / 10) 0 (2 / 3) 0 t) as (A1 & _ & _); [lra|lra|].
  destruct (L_derive (221 / 100) (347 / 1000) (2 / 3) 0 t) as (B1 & _ & _); [lra|lra|].
  destruct (L_derive (1353 / 1000) (217 / 1000) (2 / 3) 0 t) as (C1 & _ & _); [lra|lra|].
  unfold H0, H1. auto_derive; [repeat split; eexists; eassumption|].
  assert (DA: Derive (fun x => L (34 / 10) 0 (2 / 3) 0 x) t = L1 (34 / 10) 0 (2 / 3) 0 t) by (apply is_derive_unique; exact A1).
  assert (DB: Derive (fun x => L (221 / 100) (347 / 1000) (2 / 3) 0 x) t = L1 (221 / 100) (347 / 1000) (2 / 3) 0 t) by (apply is_derive_unique; exact B1).
  assert (DC: Derive (fun x => L (1353 / 1000) (217 / 1000) (2 / 3) 0 x) t = L1 (1353 / 1000) (217 / 1000) (2 / 3) 0 t) by (apply is_derive_unique; exact C1).
  rewrite DA, DB, DC. field.
Qed.
Lemma H1_range t : - / 3 <= H1 t <= 0.
Proof.
  unfold H1, L1. cbv zeta. set (y := exp (2 / 3 * t + 0)). assert (Hy: 0 < y) by apply exp_pos.
  assert (P: forall k, 0 < y ^ k) by (intros; apply pow_lt; assumption).
  set (s := 1 + 34 / 10 * y + 0 * y ^ 2). set (n := 1 + 221 / 100 * y + 347 / 1000 * y ^ 2). set (d := 1 + 1353 / 1000 * y + 217 / 1000 * y ^ 2).
  assert (S: 0 < s) by (unfold s; lra). assert (N: 0 < n) by (unfold n; pose proof (P 2%nat); lra). assert (D: 0 < d) by (unfold d; pose proof (P 2%nat); lra).
  assert (M: 0 < s * n * d) by (apply Rmult_lt_0_compat; [apply Rmult_lt_0_compat|]; assumption).
  pose proof (P 2%nat). pose proof (P 3%nat). pose proof (P 4%nat). pose proof (P 5%nat). pose proof (P 6%nat).
  split.
  - apply Rmult_le_reg_r with (s * n * d); [exact M|].
    match goal with |- _ <= ?l * _ => replace (l * (s * n * d)) with (- / 2 * (2 / 3 * (34 / 10 * y + 2 * 0 * y ^ 2)) * (n * d)
      + (2 / 3 * (221 / 100 * y + 2 * (347 / 1000) * y ^ 2)) * (s * d) - (2 / 3 * (1353 / 1000 * y + 2 * (217 / 1000) * y ^ 2)) * (s * n)) by (field; repeat split; lra) end.
    unfold s, n, d. apply Rminus_le. ring_simplify. lra.
  - apply Rmult_le_reg_r with (s * n * d); [exact M|].
    match goal with |- ?l * _ <= _ => replace (l * (s * n * d)) with (- / 2 * (2 / 3 * (34 / 10 * y + 2 * 0 * y ^ 2)) * (n * d)
      + (2 / 3 * (221 / 100 * y + 2 * (347 / 1000) * y ^ 2)) * (s * d) - (2 / 3 * (1353 / 1000 * y + 2 * (217 / 1000) * y ^ 2)) * (s * n)) by (field; repeat split; lra) end.
    rewrite Rmult_0_l. unfold s, n, d. ring_simplify. lra.
Qed.
Lemma Gtilde_slopes x1 x2 : 0 < x1 -> x1 <= x2 ->
  Gtilde x2 <= Rpower (x2 / x1) (/ 3) * exp (- (x2 - x1)) * Gtilde x1 /\ exp (- (x2 - x1)) * Gtilde x1 <= Gtilde x2.
Proof.
  intros P1 H. assert (P2: 0 < x2) by lra.
  pose proof (Gtilde_pos x1 P1) as G1. pose proof (Gtilde_pos x2 P2) as G2.
  assert (E1: Gtilde x1 = exp (ln (1808 / 1000) + ln x1 / 3 + H0 (ln x1) - x1)).
  { pose proof (ln_Gtilde (ln x1)) as X. rewrite (exp_ln x1 P1) in X. rewrite <- (exp_ln (Gtilde x1) G1). f_equal. rewrite X. unfold H0. ring. }
  assert (E2: Gtilde x2 = exp (ln (1808 / 1000) + ln x2 / 3 + H0 (ln x2) - x2)).
  { pose proof (ln_Gtilde (ln x2)) as X. rewrite (exp_ln x2 P2) in X. rewrite <- (exp_ln (Gtilde x2) G2). f_equal. rewrite X. unfold H0. ring. }
  assert (HL: ln x1 <= ln x2) by (destruct H as [H|<-]; [left; apply ln_increasing; assumption|right; reflexivity]).
  assert (A: - H0 (ln x1) <= - H0 (ln x2)).
  { apply (derive_incr (fun t => - H0 t) (fun t => - H1 t)); [assumption| |].
    - intros u. pose proof (H_derive u) as D. apply (is_derive_opp H0 u (H1 u)) in D. exact D.
    - intros u. pose proof (H1_range u). lra. }
  assert (B: ln x1 / 3 + H0 (ln x1) <= ln x2 / 3 + H0 (ln x2)).
  { apply (derive_incr (fun t => t / 3 + H0 t) (fun t => / 3 + H1 t)); [assumption| |].
    - intros u. pose proof (H_derive u) as D. apply (is_derive_plus (fun t => t / 3) H0 u (/ 3) (H1 u)); [auto_derive; [exact I|field]|exact D].
    - intros u. pose proof (H1_range u). lra. }
  rewrite E1, E2. unfold Rpower. rewrite (ln_div x2 x1) by assumption. rewrite <- !exp_plus. split; apply exp_le; lra.
Qed.

(** ** The spectrum *)
Lemma trapz_mono_slack mec2 nd lo hi K1 K2 pd c : 0 < mec2 -> 0 < lo -> lo < hi -> (forall E, 0 < E -> 0 <= pd E) -> 0 < c ->
  (forall g, 0 < g -> lo / mec2 <= g <= hi / mec2 -> 0 <= K1 g /\ K1 g <= c * K2 g) ->
  let T := fun K => trapz_loglog (map (fun g => pd (g * mec2) * mec2 * K g) (gam mec2 nd lo hi)) (gam mec2 nd lo hi) in
  T K1 <= slack nd lo hi * (c * T K2).
Proof.
  intros Hm Hlo Hhi PP Hc HK T. destruct (gam_facts mec2 nd lo hi Hm Hlo Hhi) as (G & E1 & E2 & RL & _).
  assert (RG: forall g, In g (gam mec2 nd lo hi) -> 0 < g /\ lo / mec2 <= g <= hi / mec2).
  { intros g Hg. split; [destruct G as [G _]; rewrite List.Forall_forall in G; apply G; exact Hg|].
    rewrite <- E1, <- E2. destruct (gam mec2 nd lo hi) as [|x0 xs]; [destruct Hg|]. apply (grid_range x0 xs G g Hg). }
  pose proof (trapz_super (step nd lo hi) (fun g => pd (g * mec2) * mec2 * K1 g) (fun _ => 0) (fun g => c * (pd (g * mec2) * mec2 * K2 g)) _ G RL) as X.
  rewrite trapz_zeros, Rplus_0_r in X. rewrite <- slack_window in X.
  rewrite <- (map_map (fun g => pd (g * mec2) * mec2 * K2 g) (Rmult c)), trapz_scale_y in X by assumption. apply X.
  intros g Hg. destruct (RG g Hg) as (P & Q). destruct (HK g P Q) as (A & B). pose proof (PP (g * mec2) ltac:(apply Rmult_lt_0_compat; assumption)) as C.
  assert (D: 0 <= pd (g * mec2) * mec2) by (apply Rmult_le_pos; lra). repeat split; [apply Rmult_le_pos; assumption|lra|].
  rewrite Rplus_0_r. apply Rle_trans with (pd (g * mec2) * mec2 * (c * K2 g)); [apply Rmult_le_compat_l; assumption|right; ring].
Qed.
Lemma Ecrit_mono k B g1 g2 : sy_ok k -> 0 < B -> 0 < g1 -> g1 <= g2 -> 0 < Ecrit k B g1 <= Ecrit k B g2.
Proof.
  intros K HB H1 H2. split; [apply Ecrit_pos; assumption|]. destruct K as (K1 & K2 & K3 & K4). unfold Ecrit, Rdiv.
  apply Rmult_le_compat_r; [apply Rlt_le, Rinv_0_lt_compat; nra|]. apply Rmult_le_compat_l; [|apply pow_incr; lra].
  repeat apply Rmult_le_pos; lra.
Qed.
Lemma S_trapz k B mec2 nd pd lo hi Es i : (i < length Es)%nat -> nth i (sy_spectrum k B mec2 pd (gam mec2 nd lo hi) Es) 0
  = trapz_loglog (map (fun g => pd (g * mec2) * mec2 * sy_kernel k B g (nth i Es 0)) (gam mec2 nd lo hi)) (gam mec2 nd lo hi).
Proof. intros Hi. unfold sy_spectrum. rewrite nth_map_lt by exact Hi. rewrite nelec_kernel. reflexivity. Qed.

(** The photon spectrum (dN/dE) at two energies E1 <= E2, for any electrons between
    lo and hi: it falls at least like E^(-2/3) (so the SED, E^2 dN/dE, rises at most
    like E^(4/3)) and, beyond the critical energy of the most energetic electrons, at
    least exponentially; and it falls at most like 1/E up to the critical energy of
    the least energetic ones. *)
Theorem C176_energy : forall k B mec2 nd pd lo hi Es i j, sy_ok k -> 0 < B -> 0 < mec2 -> 0 < lo -> lo < hi ->
  (forall E, 0 < E -> 0 <= pd E) -> (i < length Es)%nat -> (j < length Es)%nat ->
  let E1 := nth i Es 0 in let E2 := nth j Es 0 in 0 < E1 -> E1 <= E2 ->
  let N := sy_spectrum k B mec2 pd (gam mec2 nd lo hi) Es in
  nth j N 0 <= slack nd lo hi * (Rpower (E2 / E1) (- (2 / 3)) * exp (- ((E2 - E1) / Ecrit k B (hi / mec2))) * nth i N 0) /\
  nth i N 0 <= slack nd lo hi * (E2 / E1 * exp ((E2 - E1) / Ecrit k B (lo / mec2)) * nth j N 0).
Proof.
  intros k B mec2 nd pd lo hi Es i j K HB Hm Hlo Hhi PP Hi Hj E1 E2 P1 H12 N. assert (P2: 0 < E2) by lra.
  assert (HL: 0 < lo / mec2) by (apply div_pos; assumption).
  unfold N. rewrite !S_trapz by assumption. fold E1 E2.
  pose proof (CS1_pos k B E1 K HB P1) as C1. assert (C2: CS1 k B E2 = E1 / E2 * CS1 k B E1).
  { destruct K as (K1 & K2 & K3 & K4). unfold CS1. field. repeat split; try lra. apply Rgt_not_eq, PI_RGT_0. }
  assert (PR: 0 < E2 / E1) by (apply div_pos; assumption).
  assert (RP: Rpower (E2 / E1) (- (2 / 3)) = E1 / E2 * Rpower (E2 / E1) (/ 3)).
  { replace (E1 / E2) with (Rpower (E2 / E1) (Ropp 1)); [rewrite <- Rpower_plus; f_equal; lra|]. rewrite Rpower_Ropp, Rpower_1 by assumption. field. lra. }
  split; match goal with |- _ <= _ * (?c * _) => set (q := c) end;
  match goal with |- trapz_loglog (map (fun g => _ * _ * sy_kernel k B g ?a) _) _ <= _ * (_ * trapz_loglog (map (fun g => _ * _ * sy_kernel k B g ?b) _) _) =>
    apply (trapz_mono_slack mec2 nd lo hi (fun g => sy_kernel k B g a) (fun g => sy_kernel k B g b) pd q Hm Hlo Hhi PP) end.
  - unfold q. apply Rmult_lt_0_compat; [apply exp_pos|apply exp_pos].
  - intros g Hg (R1 & R2). split; [apply Rlt_le, sy_kernel_pos; assumption|].
    destruct (Ecrit_mono k B g (hi / mec2) K HB Hg R2) as (Q1 & Q2). set (e := Ecrit k B g) in *.
    destruct (Gtilde_slopes (E1 / e) (E2 / e)) as (A & _); [apply div_pos; assumption|apply Rmult_le_compat_r; [apply Rlt_le, Rinv_0_lt_compat|]; assumption|].
    unfold sy_kernel. fold e. rewrite C2. unfold q. rewrite RP. pose proof (Gtilde_pos (E1 / e) ltac:(apply div_pos; assumption)) as G1.
    replace (E2 / e / (E1 / e)) with (E2 / E1) in A by (field; lra).
    assert (X: exp (- (E2 / e - E1 / e)) <= exp (- ((E2 - E1) / Ecrit k B (hi / mec2)))).
    { apply exp_le. apply Ropp_le_contravar. replace (E2 / e - E1 / e) with ((E2 - E1) / e) by (field; lra).
      apply Rmult_le_compat_l; [lra|]. apply Rinv_le_contravar; lra. }
    set (x := exp (- (E2 / e - E1 / e))) in *. set (z := exp (- ((E2 - E1) / Ecrit k B (hi / mec2)))) in *.
    assert (R3: 0 < Rpower (E2 / E1) (/ 3)) by apply exp_pos. set (r := Rpower (E2 / E1) (/ 3)) in *.
    assert (P3: 0 < E1 / E2) by (apply div_pos; assumption).
    apply Rle_trans with (E1 / E2 * CS1 k B E1 * (r * x * Gtilde (E1 / e))).
    + apply Rmult_le_compat_l; [apply Rlt_le, Rmult_lt_0_compat; assumption|exact A].
    + replace (E1 / E2 * r * z * (CS1 k B E1 * Gtilde (E1 / e))) with (E1 / E2 * CS1 k B E1 * (r * z * Gtilde (E1 / e))) by ring.
      apply Rmult_le_compat_l; [apply Rlt_le, Rmult_lt_0_compat; assumption|]. apply Rmult_le_compat_r; [lra|]. apply Rmult_le_compat_l; lra.
  - unfold q. apply Rmult_lt_0_compat; [assumption|apply exp_pos].
  - intros g Hg (R1 & R2). split; [apply Rlt_le, sy_kernel_pos; assumption|].
    destruct (Ecrit_mono k B (lo / mec2) g K HB HL R1) as (Q1 & Q2). set (e := Ecrit k B g) in *. assert (He: 0 < e) by lra.
    destruct (Gtilde_slopes (E1 / e) (E2 / e)) as (_ & A); [apply div_pos; assumption|apply Rmult_le_compat_r; [apply Rlt_le, Rinv_0_lt_compat|]; assumption|].
    unfold sy_kernel. fold e. rewrite C2. unfold q. pose proof (Gtilde_pos (E2 / e) ltac:(apply div_pos; assumption)) as G1.
    assert (X: exp (E2 / e - E1 / e) <= exp ((E2 - E1) / Ecrit k B (lo / mec2))).
    { apply exp_le. replace (E2 / e - E1 / e) with ((E2 - E1) / e) by (field; lra).
      apply Rmult_le_compat_l; [lra|]. apply Rinv_le_contravar; lra. }
    rewrite exp_Ropp in A. pose proof (exp_pos (E2 / e - E1 / e)) as Y. set (x := exp (E2 / e - E1 / e)) in *. set (z := exp ((E2 - E1) / Ecrit k B (lo / mec2))) in *.
    replace (E2 / E1 * z * (E1 / E2 * CS1 k B E1 * Gtilde (E2 / e))) with (CS1 k B E1 * (z * Gtilde (E2 / e))) by (field; lra).
    apply Rmult_le_compat_l; [lra|]. apply Rle_trans with (x * Gtilde (E2 / e)); [|apply Rmult_le_compat_r; lra].
    apply Rmult_le_reg_l with (/ x); [apply Rinv_0_lt_compat; assumption|]. replace (/ x * (x * Gtilde (E2 / e))) with (Gtilde (E2 / e)) by (field; lra). exact A.
Qed.
Print Assumptions C176_energy.

(** The same electrons in a stronger field emit more at every energy: at least as
    B^(2/3), and much more above the critical energy; at most as B, up to the same
    exponential for the least energetic electrons. *)
Theorem C176_field : forall k B1 B2 mec2 nd pd lo hi Es i, sy_ok k -> 0 < B1 -> B1 <= B2 -> 0 < mec2 -> 0 < lo -> lo < hi ->
  (forall E, 0 < E -> 0 <= pd E) -> (i < length Es)%nat -> let E := nth i Es 0 in 0 < E ->
  let N := fun B => nth i (sy_spectrum k B mec2 pd (gam mec2 nd lo hi) Es) 0 in
  Rpower (B2 / B1) (2 / 3) * exp (E / Ecrit k B1 (hi / mec2) - E / Ecrit k B2 (hi / mec2)) * N B1 <= slack nd lo hi * N B2 /\
  N B2 <= slack nd lo hi * (B2 / B1 * exp (E / Ecrit k B1 (lo / mec2) - E / Ecrit k B2 (lo / mec2)) * N B1).
Proof.
  intros k B1 B2 mec2 nd pd lo hi Es i K HB HB2 Hm Hlo Hhi PP Hi E PE N. assert (PB2: 0 < B2) by lra.
  assert (HL: 0 < lo / mec2) by (apply div_pos; assumption).
  assert (HH: lo / mec2 < hi / mec2) by (apply Rmult_lt_compat_r; [apply Rinv_0_lt_compat; assumption|assumption]).
  unfold N. rewrite !S_trapz by assumption. fold E.
  pose proof (CS1_pos k B1 E K HB PE) as C1. assert (C2: CS1 k B2 E = B2 / B1 * CS1 k B1 E).
  { destruct K as (K1 & K2 & K3 & K4). unfold CS1. field. repeat split; try lra. apply Rgt_not_eq, PI_RGT_0. }
  assert (EB: forall g, 0 < g -> Ecrit k B2 g = B2 / B1 * Ecrit k B1 g).
  { intros g Hg. destruct K as (K1 & K2 & K3 & K4). unfold Ecrit. field. repeat split; lra. }
  assert (PR: 0 < B2 / B1) by (apply div_pos; assumption).
  assert (ED: forall g, 0 < g -> E / Ecrit k B1 g - E / Ecrit k B2 g = E * (1 - B1 / B2) * / Ecrit k B1 g).
  { intros g Hg. rewrite EB by assumption. pose proof (Ecrit_pos k B1 g K HB Hg). field. repeat split; lra. }
  assert (PD: 0 <= E * (1 - B1 / B2)).
  { apply Rmult_le_pos; [lra|]. assert (B1 / B2 <= 1) by (apply Rmult_le_reg_r with B2; [lra|]; unfold Rdiv; rewrite Rmult_assoc, Rinv_l by lra; lra). lra. }
  assert (X12: forall g, 0 < g -> 0 < E / Ecrit k B2 g <= E / Ecrit k B1 g /\ E / Ecrit k B1 g / (E / Ecrit k B2 g) = B2 / B1).
  { intros g Hg. pose proof (Ecrit_pos k B1 g K HB Hg) as Q1. pose proof (Ecrit_pos k B2 g K PB2 Hg) as Q2. split; [split; [apply div_pos; assumption|]|].
    - specialize (ED g Hg). assert (0 <= E * (1 - B1 / B2) * / Ecrit k B1 g) by (apply Rmult_le_pos; [assumption|apply Rlt_le, Rinv_0_lt_compat; assumption]). lra.
    - rewrite EB by assumption. field. repeat split; lra. }
  assert (RP: Rpower (B2 / B1) (2 / 3) = B2 / B1 * / Rpower (B2 / B1) (/ 3)).
  { rewrite <- Rpower_Ropp. rewrite <- (Rpower_1 (B2 / B1)) at 2 by assumption. rewrite <- Rpower_plus. f_equal. lra. }
  split.
  - set (q := Rpower (B2 / B1) (2 / 3) * exp (E / Ecrit k B1 (hi / mec2) - E / Ecrit k B2 (hi / mec2))).
    assert (Pq: 0 < q) by (apply Rmult_lt_0_compat; apply exp_pos).
    assert (X: trapz_loglog (map (fun g => pd (g * mec2) * mec2 * sy_kernel k B1 g E) (gam mec2 nd lo hi)) (gam mec2 nd lo hi) <=
      slack nd lo hi * (/ q * trapz_loglog (map (fun g => pd (g * mec2) * mec2 * sy_kernel k B2 g E) (gam mec2 nd lo hi)) (gam mec2 nd lo hi))).
    { apply (trapz_mono_slack mec2 nd lo hi (fun g => sy_kernel k B1 g E) (fun g => sy_kernel k B2 g E) pd (/ q) Hm Hlo Hhi PP).
      - apply Rinv_0_lt_compat; assumption.
      - intros g Hg (R1 & R2). split; [apply Rlt_le, sy_kernel_pos; assumption|].
        destruct (X12 g Hg) as ((Y1 & Y2) & Y3). destruct (Gtilde_slopes _ _ Y1 Y2) as (A & _). rewrite Y3 in A.
        pose proof (Gtilde_pos _ Y1) as G2.
        assert (X: exp (- (E / Ecrit k B1 g - E / Ecrit k B2 g)) <= / exp (E / Ecrit k B1 (hi / mec2) - E / Ecrit k B2 (hi / mec2))).
        { rewrite <- exp_Ropp. apply exp_le. apply Ropp_le_contravar. rewrite !ED by lra. apply Rmult_le_compat_l; [assumption|].
          destruct (Ecrit_mono k B1 g (hi / mec2) K HB Hg R2). apply Rinv_le_contravar; lra. }
        unfold sy_kernel. rewrite C2. unfold q. rewrite RP.
        assert (R3: 0 < Rpower (B2 / B1) (/ 3)) by apply exp_pos. set (r := Rpower (B2 / B1) (/ 3)) in *.
        pose proof (exp_pos (E / Ecrit k B1 (hi / mec2) - E / Ecrit k B2 (hi / mec2))) as PZ. set (z := exp (E / Ecrit k B1 (hi / mec2) - E / Ecrit k B2 (hi / mec2))) in *.
        set (x := exp (- (E / Ecrit k B1 g - E / Ecrit k B2 g))) in *. set (g2 := Gtilde (E / Ecrit k B2 g)) in *.
        replace (/ (B2 / B1 * / r * z) * (B2 / B1 * CS1 k B1 E * g2)) with (CS1 k B1 E * (r * / z * g2)) by (field; repeat split; lra).
        apply Rmult_le_compat_l; [lra|]. eapply Rle_trans; [exact A|]. apply Rmult_le_compat_r; [lra|]. apply Rmult_le_compat_l; lra. }
    apply (Rmult_le_compat_l q) in X; [|lra]. eapply Rle_trans; [exact X|]. right. field. lra.
  - set (q := B2 / B1 * exp (E / Ecrit k B1 (lo / mec2) - E / Ecrit k B2 (lo / mec2))).
    apply (trapz_mono_slack mec2 nd lo hi (fun g => sy_kernel k B2 g E) (fun g => sy_kernel k B1 g E) pd q Hm Hlo Hhi PP).
    + apply Rmult_lt_0_compat; [assumption|apply exp_pos].
    + intros g Hg (R1 & R2). split; [apply Rlt_le, sy_kernel_pos; assumption|].
      destruct (X12 g Hg) as ((Y1 & Y2) & Y3). destruct (Gtilde_slopes _ _ Y1 Y2) as (_ & A).
      pose proof (Gtilde_pos _ Y1) as G2. assert (G1: 0 < Gtilde (E / Ecrit k B1 g)) by (apply Gtilde_pos; lra).
      assert (X: exp (E / Ecrit k B1 g - E / Ecrit k B2 g) <= exp (E / Ecrit k B1 (lo / mec2) - E / Ecrit k B2 (lo / mec2))).
      { apply exp_le. rewrite !ED by lra. apply Rmult_le_compat_l; [assumption|].
        destruct (Ecrit_mono k B1 (lo / mec2) g K HB HL R1). apply Rinv_le_contravar; lra. }
      unfold sy_kernel. rewrite C2. unfold q. rewrite exp_Ropp in A.
      pose proof (exp_pos (E / Ecrit k B1 g - E / Ecrit k B2 g)) as PX. set (x := exp (E / Ecrit k B1 g - E / Ecrit k B2 g)) in *.
      set (z := exp (E / Ecrit k B1 (lo / mec2) - E / Ecrit k B2 (lo / mec2))) in *. set (g1 := Gtilde (E / Ecrit k B1 g)) in *. set (g2 := Gtilde (E / Ecrit k B2 g)) in *.
      replace (B2 / B1 * z * (CS1 k B1 E * g1)) with (B2 / B1 * CS1 k B1 E * (z * g1)) by ring.
      apply Rmult_le_compat_l; [apply Rlt_le, Rmult_lt_0_compat; assumption|]. apply Rle_trans with (x * g1); [|apply Rmult_le_compat_r; lra].
      apply Rmult_le_reg_l with (/ x); [apply Rinv_0_lt_compat; assumption|]. replace (/ x * (x * g1)) with g1 by (field; lra). exact A.
Qed.
Print Assumptions C176_field.

(** a concrete case: units in which e = m_e = c = hbar = m_e c^2 = 1, electrons E^-2 between 1 and 10,
    photon energies 1 and 8, 10 points per decade *)
Example C176_example : let k := mkSy 1 1 1 1 in let pd := fun E => / E ^ 2 in let N := fun B => sy_spectrum k B 1 pd (gam 1 10 1 10) [1; 8] in
  nth 1 (N 1) 0 <= slack 10 1 10 * (/ 4 * exp (- (7 / 150)) * nth 0 (N 1) 0) /\ nth 0 (N 1) 0 <= slack 10 1 10 * (8 * exp (7 / (3 / 2)) * nth 1 (N 1) 0) /\
  4 * exp (7 / 1200) * nth 0 (N 1) 0 <= slack 10 1 10 * nth 0 (N 8) 0.
Proof.
  intros k pd N. assert (K: sy_ok k) by (unfold sy_ok, k; simpl; lra).
  assert (PD: forall E, 0 < E -> 0 <= pd E) by (intros E HE; apply Rlt_le, Rinv_0_lt_compat, pow_lt; assumption).
  assert (R8: forall a, Rpower 8 a = exp (a * 3 * ln 2)). { intros a. unfold Rpower. replace 8 with (2 ^ 3) by ring. rewrite ln_pow by lra. f_equal. simpl. ring. }
  assert (E4: exp (2 * ln 2) = 4). { replace (2 * ln 2) with (ln 2 + ln 2) by ring. rewrite exp_plus, exp_ln by lra. ring. }
  destruct (C176_energy k 1 1 10 pd 1 10 [1; 8] 0 1 K) as (A & B); try lra; try (simpl; lia); try exact PD; [simpl; lra|simpl; lra|].
  destruct (C176_field k 1 8 1 10 pd 1 10 [1; 8] 0 K) as (C & _); try lra; try (simpl; lia); try exact PD; [simpl; lra|].
  fold (N 1) in A, B, C. fold (N 8) in C. cbv zeta in C. fold (N 1) (N 8) in C. change (nth 0 [1; 8] 0) with 1 in A, B, C. change (nth 1 [1; 8] 0) with 8 in A, B.
  replace (8 / 1) with 8 in A, B, C by field.
  rewrite R8 in A. rewrite R8 in C. replace (- (2 / 3) * 3 * ln 2) with (- (2 * ln 2)) in A by field. rewrite exp_Ropp, E4 in A. replace (2 / 3 * 3 * ln 2) with (2 * ln 2) in C by field. rewrite E4 in C.
  replace ((8 - 1) / Ecrit k 1 (10 / 1)) with (7 / 150) in A by (unfold Ecrit, k; simpl; field).
  replace ((8 - 1) / Ecrit k 1 (1 / 1)) with (7 / (3 / 2)) in B by (unfold Ecrit, k; simpl; field).
  replace (1 / Ecrit k 1 (10 / 1) - 1 / Ecrit k 8 (10 / 1)) with (7 / 1200) in C by (unfold Ecrit, k; simpl; field).
  repeat split; assumption.
Qed.
