(** C119 continued: the error of the computed synchrotron spectrum. *)
From Coq Require Import Reals ZArith List Lra Lia Sorted.
From Coquelicot Require Import Coquelicot.
From Flocq Require Import Raux.
From Verif Require Import TrapzModel TrapzSpec TrapzProofs CoreModel SpectralModel SpectralProofs EnergyModel EnergyProofs ElectronModel ElectronProofs RadiativeProps
  ConvProofs ConvProps ConvProps2 ConvProps3 FloatModel FloatProofs FloatProps FloatProps2 FloatTrapzModel FloatTrapzProofs FloatTrapzProps ErrProofs ErrProps PionModel PionProofs PionProps.
Import ListNotations.
Local Open Scope R_scope.

(** ** Products *)
(** [log_smooth] only constrains f on [a, b]; for products the factors must be positive
    on the whole half line (as all distributions and kernels of the code are). *)
Definition smooth (f : R -> R) (a b M : R) : Prop := (forall x, 0 < x -> 0 < f x) /\ log_smooth f a b M.
Lemma smooth_mult f g a b M N : smooth f a b M -> smooth g a b N -> smooth (fun x => f x * g x) a b (M + N).
Proof.
  intros (PF & FP & f1 & f2 & F) (PG & GP & g1 & g2 & H). split; [intros; apply Rmult_lt_0_compat; auto|]. split; [intros x Hx; apply Rmult_lt_0_compat; auto|].
  exists (fun t => f1 t + g1 t), (fun t => f2 t + g2 t). intros t Ht. destruct (F t Ht) as (A1 & A2 & A3). destruct (H t Ht) as (B1 & B2 & B3). split; [|split].
  - apply (is_derive_ext (fun t => ln (f (exp t)) + ln (g (exp t)))). { intros s. symmetry. apply ln_mult; [apply PF|apply PG]; apply exp_pos. }
    apply (is_derive_plus (fun t => ln (f (exp t))) (fun t => ln (g (exp t)))); assumption.
  - apply (is_derive_plus f1 g1); assumption.
  - eapply Rle_trans; [apply Rabs_triang|]. lra.
Qed.
Lemma smooth_const c a b : 0 < c -> smooth (fun _ => c) a b 0.
Proof.
  intros Hc. split; [intros; assumption|]. split; [intros; assumption|]. exists (fun _ => 0), (fun _ => 0). intros t _. split; [|split].
  - auto_derive; try exact I; try ring.
  - auto_derive; try exact I; try ring.
  - rewrite Rabs_R0. lra.
Qed.
Lemma smooth_scale f c a b M : 0 < c -> 0 < a -> a <= b -> smooth f (a * c) (b * c) M -> smooth (fun x => f (x * c)) a b M.
Proof.
  intros Hc Ha Hab (PF & FP & f1 & f2 & F). split; [intros; apply PF, Rmult_lt_0_compat; assumption|].
  split; [intros x Hx; apply FP; split; apply Rmult_le_compat_r; lra|].
  exists (fun t => f1 (t + ln c)), (fun t => f2 (t + ln c)). intros t Ht.
  destruct (F (t + ln c)) as (A1 & A2 & A3). { rewrite !ln_mult by lra. lra. }
  assert (DT: is_derive (fun t => t + ln c) t 1) by (auto_derive; [exact I|ring]).
  split; [|split; [|exact A3]].
  - apply (is_derive_ext (fun t => ln (f (exp (t + ln c))))). { intros s. rewrite exp_plus, exp_ln by assumption. reflexivity. }
    replace (f1 (t + ln c)) with (scal 1 (f1 (t + ln c))) by (unfold scal; cbn; unfold mult; cbn; ring).
    apply (is_derive_comp (fun t => ln (f (exp t))) (fun t => t + ln c)); assumption.
  - replace (f2 (t + ln c)) with (scal 1 (f2 (t + ln c))) by (unfold scal; cbn; unfold mult; cbn; ring).
    apply (is_derive_comp f1 (fun t => t + ln c)); assumption.
Qed.
(** ** The synchrotron kernel *)
(** logarithm of a quadratic with positive coefficients, in the logarithm of its argument *)
Definition L (a b k c t : R) : R := ln (1 + a * exp (k * t + c) + b * exp (k * t + c) ^ 2).
Definition L1 (a b k c t : R) : R := let p := exp (k * t + c) in k * (a * p + 2 * b * p ^ 2) / (1 + a * p + b * p ^ 2).
Definition L2 (a b k c t : R) : R := let p := exp (k * t + c) in k ^ 2 * (a * p + 4 * b * p ^ 2 + a * b * p ^ 3) / (1 + a * p + b * p ^ 2) ^ 2.
Lemma L_derive a b k c t : 0 <= a -> 0 <= b -> is_derive (L a b k c) t (L1 a b k c t) /\ is_derive (L1 a b k c) t (L2 a b k c t) /\ 0 <= L2 a b k c t <= k ^ 2.
Proof.
  intros Ha Hb. pose proof (exp_pos (k * t + c)) as P. unfold L, L1, L2. cbv zeta.
  set (p := exp (k * t + c)) in *.
  assert (Q: 0 < p ^ 2) by (apply pow_lt; assumption). assert (Q3: 0 < p ^ 3) by (apply pow_lt; assumption).
  assert (A: 0 <= a * p) by (apply Rmult_le_pos; lra). assert (B: 0 <= b * p ^ 2) by (apply Rmult_le_pos; lra).
  assert (D: 0 < 1 + a * p + b * p ^ 2) by lra.
  split; [|split; [|split]].
  - auto_derive; [fold p; cbn [pow] in *; lra|]. fold p. cbn [pow] in *. field. lra.
  - auto_derive; [fold p; cbn [pow] in *; repeat split; lra|]. fold p. cbn [pow] in *. field. lra.
  - apply Rmult_le_pos; [|left; apply Rinv_0_lt_compat, pow_lt; assumption]. apply Rmult_le_pos; [apply pow2_ge_0|].
    assert (0 <= a * b * p ^ 3) by (apply Rmult_le_pos; [apply Rmult_le_pos; assumption|lra]). lra.
  - apply Rmult_le_reg_r with ((1 + a * p + b * p ^ 2) ^ 2); [apply pow_lt; assumption|]. unfold Rdiv. rewrite Rmult_assoc, Rinv_l by (apply pow_nonzero; lra). rewrite Rmult_1_r.
    apply Rmult_le_compat_l; [apply pow2_ge_0|].
    assert (E: (1 + a * p + b * p ^ 2) ^ 2 - (a * p + 4 * b * p ^ 2 + a * b * p ^ 3) = (1 - b * p ^ 2) ^ 2 + a * p + (a * p) ^ 2 + (a * p) * (b * p ^ 2)) by ring.
    pose proof (pow2_ge_0 (1 - b * p ^ 2)). pose proof (pow2_ge_0 (a * p)). assert (0 <= (a * p) * (b * p ^ 2)) by (apply Rmult_le_pos; assumption). lra.
Qed.
Lemma L_linear a k c t : 0 <= a -> L2 a 0 k c t <= k ^ 2 / 4.
Proof.
  intros Ha. unfold L2. cbv zeta. pose proof (exp_pos (k * t + c)) as P. set (p := exp (k * t + c)) in *. assert (A: 0 <= a * p) by (apply Rmult_le_pos; lra).
  apply Rmult_le_reg_r with ((1 + a * p + 0 * p ^ 2) ^ 2); [apply pow_lt; lra|]. unfold Rdiv at 1. rewrite Rmult_assoc, Rinv_l by (apply pow_nonzero; lra). rewrite Rmult_1_r.
  replace (k ^ 2 / 4 * (1 + a * p + 0 * p ^ 2) ^ 2) with (k ^ 2 * ((1 + a * p) ^ 2 / 4)) by field. apply Rmult_le_compat_l; [apply pow2_ge_0|].
  pose proof (pow2_ge_0 (1 - a * p)). lra.
Qed.

Lemma cbrt_exp t : cbrt (exp t) = exp (t / 3).
Proof.
  pose proof (exp_pos t). unfold cbrt. destruct (Rlt_dec (exp t) 0); [lra|]. destruct (Req_EM_T (exp t) 0); [lra|].
  unfold Rpower. rewrite ln_exp. f_equal. field.
Qed.
Lemma ln_Gtilde t : ln (Gtilde (exp t)) = ln (1808 / 1000) + t / 3 - / 2 * L (34 / 10) 0 (2 / 3) 0 t + L (221 / 100) (347 / 1000) (2 / 3) 0 t - L (1353 / 1000) (217 / 1000) (2 / 3) 0 t - exp t.
Proof.
  unfold Gtilde. cbv zeta. rewrite cbrt_exp. pose proof (exp_pos (t / 3)) as P. unfold L.
  assert (E2: exp (2 / 3 * t + 0) = exp (t / 3) ^ 2). { rewrite <- (Rmult_1_r (exp (t / 3) ^ 2)). cbn [pow]. rewrite !Rmult_1_r, <- exp_plus. f_equal. field. }
  assert (E4: exp (2 / 3 * t + 0) ^ 2 = exp (t / 3) ^ 4) by (rewrite E2; ring).
  rewrite E4, E2. set (c := exp (t / 3)) in *.
  assert (C2: 0 < c ^ 2) by (apply pow_lt; assumption). assert (C4: 0 < c ^ 4) by (apply pow_lt; assumption).
  replace (1 + 34 / 10 * c ^ 2 + 0 * c ^ 4) with (1 + 34 / 10 * c ^ 2) by ring.
  set (s := 1 + 34 / 10 * c ^ 2). set (n := 1 + 221 / 100 * c ^ 2 + 347 / 1000 * c ^ 4). set (d := 1 + 1353 / 1000 * c ^ 2 + 217 / 1000 * c ^ 4).
  assert (S: 0 < s) by (unfold s; lra). assert (N: 0 < n) by (unfold n; lra). assert (D: 0 < d) by (unfold d; lra).
  assert (Q: 0 < sqrt s) by (apply sqrt_lt_R0; assumption).
  assert (X: 0 < 1808 / 1000 * c) by lra.
  rewrite ln_mult; [|apply Rmult_lt_0_compat; apply div_pos; assumption|apply exp_pos].
  rewrite ln_mult; [|apply div_pos; assumption|apply div_pos; assumption].
  rewrite !ln_div by assumption. rewrite ln_mult by lra. rewrite !ln_exp. unfold c at 1. rewrite ln_exp.
  assert (LS: ln (sqrt s) = / 2 * ln s). { rewrite <- (sqrt_sqrt s) at 2 by lra. rewrite ln_mult by assumption. lra. }
  rewrite LS. ring.
Qed.
(** In the logarithm of its argument the curvature of the synchrotron function is at
    most 1/2 + x. *)
Lemma smooth_Gtilde a b : 0 < a -> a <= b -> smooth Gtilde a b (/ 2 + b).
Proof.
  intros Ha Hab.
  assert (PG: forall x, 0 < x -> 0 < Gtilde x) by (intros; apply Gtilde_pos; assumption).
  split; [assumption|]. split; [intros; apply PG; lra|].
  exists (fun t => / 3 - / 2 * L1 (34 / 10) 0 (2 / 3) 0 t + L1 (221 / 100) (347 / 1000) (2 / 3) 0 t - L1 (1353 / 1000) (217 / 1000) (2 / 3) 0 t - exp t).
  exists (fun t => - / 2 * L2 (34 / 10) 0 (2 / 3) 0 t + L2 (221 / 100) (347 / 1000) (2 / 3) 0 t - L2 (1353 / 1000) (217 / 1000) (2 / 3) 0 t - exp t).
  intros t Ht.
  destruct (L_derive (34 / 10) 0 (2 / 3) 0 t) as (A1 & A2 & A3); [lra|lra|].
  destruct (L_derive (221 / 100) (347 / 1000) (2 / 3) 0 t) as (B1 & B2 & B3); [lra|lra|].
  destruct (L_derive (1353 / 1000) (217 / 1000) (2 / 3) 0 t) as (C1 & C2 & C3); [lra|lra|].
  pose proof (L_linear (34 / 10) (2 / 3) 0 t ltac:(lra)) as A4.
  split; [|split].
  - apply (is_derive_ext (fun t => ln (1808 / 1000) + t / 3 - / 2 * L (34 / 10) 0 (2 / 3) 0 t + L (221 / 100) (347 / 1000) (2 / 3) 0 t - L (1353 / 1000) (217 / 1000) (2 / 3) 0 t - exp t)).
    { intros s. symmetry. apply ln_Gtilde. }
    auto_derive; [repeat split; eexists; eassumption|].
    assert (DA: Derive (fun x => L (34 / 10) 0 (2 / 3) 0 x) t = L1 (34 / 10) 0 (2 / 3) 0 t) by (apply is_derive_unique; exact A1).
    assert (DB: Derive (fun x => L (221 / 100) (347 / 1000) (2 / 3) 0 x) t = L1 (221 / 100) (347 / 1000) (2 / 3) 0 t) by (apply is_derive_unique; exact B1).
    assert (DC: Derive (fun x => L (1353 / 1000) (217 / 1000) (2 / 3) 0 x) t = L1 (1353 / 1000) (217 / 1000) (2 / 3) 0 t) by (apply is_derive_unique; exact C1).
    rewrite DA, DB, DC. field.
  - auto_derive; [repeat split; eexists; eassumption|].
    assert (DA: Derive (fun x => L1 (34 / 10) 0 (2 / 3) 0 x) t = L2 (34 / 10) 0 (2 / 3) 0 t) by (apply is_derive_unique; exact A2).
    assert (DB: Derive (fun x => L1 (221 / 100) (347 / 1000) (2 / 3) 0 x) t = L2 (221 / 100) (347 / 1000) (2 / 3) 0 t) by (apply is_derive_unique; exact B2).
    assert (DC: Derive (fun x => L1 (1353 / 1000) (217 / 1000) (2 / 3) 0 x) t = L2 (1353 / 1000) (217 / 1000) (2 / 3) 0 t) by (apply is_derive_unique; exact C2).
    rewrite DA, DB, DC. field.
  - pose proof (exp_pos t) as P. assert (X: exp t <= b). { rewrite <- (exp_ln b) by lra. apply exp_le. lra. }
    apply Rabs_le. lra.
Qed.
(** a function of c / g^2 *)
Lemma smooth_inv2 f c a b M : 0 < c -> 0 < a -> a <= b -> smooth f (c / b ^ 2) (c / a ^ 2) M -> smooth (fun g => f (c / g ^ 2)) a b (4 * M).
Proof.
  intros Hc Ha Hab (PF & FP & f1 & f2 & F).
  assert (P2: forall x, 0 < x -> 0 < c / x ^ 2) by (intros; apply div_pos; [assumption|apply pow_lt; assumption]).
  assert (LN: forall x, 0 < x -> ln (c / x ^ 2) = ln c - 2 * ln x).
  { intros x Hx. rewrite ln_div by (try assumption; apply pow_lt; assumption). cbn [pow]. rewrite Rmult_1_r, ln_mult by assumption. ring. }
  split; [intros; apply PF, P2; assumption|]. split; [intros x Hx; apply PF, P2; lra|].
  exists (fun t => - 2 * f1 (ln c - 2 * t)), (fun t => 4 * f2 (ln c - 2 * t)). intros t Ht.
  destruct (F (ln c - 2 * t)) as (A1 & A2 & A3). { rewrite !LN by lra. lra. }
  assert (DT: is_derive (fun t => ln c - 2 * t) t (-2)) by (auto_derive; [exact I|ring]).
  split; [|split].
  - apply (is_derive_ext (fun t => ln (f (exp (ln c - 2 * t))))).
    { intros s. do 2 f_equal. rewrite <- (exp_ln (c / exp s ^ 2)) by (apply P2, exp_pos). f_equal. rewrite LN by apply exp_pos. rewrite ln_exp. reflexivity. }
    replace (- 2 * f1 (ln c - 2 * t)) with (scal (-2) (f1 (ln c - 2 * t))) by (unfold scal; cbn; unfold mult; cbn; ring).
    apply (is_derive_comp (fun t => ln (f (exp t))) (fun t => ln c - 2 * t)); assumption.
  - replace (4 * f2 (ln c - 2 * t)) with (scal (-2) (scal (-2) (f2 (ln c - 2 * t)))) by (unfold scal; cbn; unfold mult; cbn; ring).
    apply (is_derive_scal (fun t => f1 (ln c - 2 * t)) t (-2) (scal (-2) (f2 (ln c - 2 * t)))). apply (is_derive_comp f1 (fun t => ln c - 2 * t)); assumption.
  - rewrite Rabs_mult, (Rabs_pos_eq 4) by lra. lra.
Qed.
Lemma smooth_sy_kernel k B E a b : sy_ok k -> 0 < B -> 0 < E -> 0 < a -> a <= b ->
  smooth (fun g => sy_kernel k B g E) a b (2 + 4 * (E / Ecrit k B a)).
Proof.
  intros K HB HE Ha Hab. pose proof (CS1_pos k B E K HB HE) as PC. pose proof (Ecrit_pos k B 1 K HB ltac:(lra)) as P1.
  assert (EC: forall g, 0 < g -> E / Ecrit k B g = (E / Ecrit k B 1) / g ^ 2).
  { intros g Hg. destruct K as (K1 & K2 & K3 & K4). unfold Ecrit. field. repeat split; lra. }
  set (c := E / Ecrit k B 1) in *. assert (Hc: 0 < c) by (apply div_pos; assumption).
  assert (CA: c / b ^ 2 <= c / a ^ 2). { apply Rmult_le_compat_l; [lra|]. apply Rinv_le_contravar; [apply pow_lt; assumption|apply pow_incr; lra]. }
  pose proof (smooth_inv2 Gtilde c a b _ Hc Ha Hab (smooth_Gtilde _ _ (div_pos c (b ^ 2) Hc (pow_lt b 2 ltac:(lra))) CA)) as S.
  pose proof (smooth_mult _ _ a b _ _ (smooth_const (CS1 k B E) a b PC) S) as T. rewrite EC by assumption.
  replace (2 + 4 * (c / a ^ 2)) with (0 + 4 * (/ 2 + c / a ^ 2)) by lra.
  destruct T as (T1 & T2). split.
  - intros x Hx. unfold sy_kernel. rewrite EC by assumption. apply T1. assumption.
  - apply (smooth_ext (fun g => CS1 k B E * Gtilde (c / g ^ 2))); [assumption| |exact T2]. intros x Hx. unfold sy_kernel. rewrite EC by assumption. reflexivity.
Qed.

(** ** Theorem *)
(** Every electron distribution with slope changes of at most M per unit of ln E: the
    computed flux at photon energy E is the exact one up to an error of second order in
    the grid step, whose coefficient is M + 2 + 4 E / Ec(Emin), where Ec(Emin) is the
    critical photon energy of the least energetic electrons. *)
Theorem C119_synchrotron : forall k B mec2 pd lo hi Es i nd M, sy_ok k -> 0 < B -> 0 < mec2 -> 0 < lo -> lo < hi ->
  (i < List.length Es)%nat -> 0 < nth i Es 0 ->
  (forall E, 0 < E -> 0 < pd E) -> log_smooth pd lo hi M ->
  let E := nth i Es 0 in
  let exact := RInt (sy_integrand k B mec2 pd E) (lo / mec2) (hi / mec2) in
  let computed := nth i (sy_spectrum k B mec2 pd (gam mec2 nd lo hi) Es) 0 in
  let n := Z.to_nat (Z.max 10 (Int_part (nd * (ln (hi / lo) / ln 10)))) in
  let h := ln (hi / lo) / INR (n - 1) in
  let err := exp ((M + 2 + 4 * (E / Ecrit k B (lo / mec2))) * h ^ 2 / 8 + / 10 ^ 10 * h) in
  exact <= err * computed /\ computed <= err * exact.
Proof.
  intros k B mec2 pd lo hi Es i nd M K HB Hm Hlo Hhi Hi PE PP HS E exact computed n h err.
  assert (La: 0 < lo / mec2) by (apply div_pos; assumption).
  assert (Lb: lo / mec2 < hi / mec2) by (apply Rmult_lt_compat_r; [apply Rinv_0_lt_compat; assumption|assumption]).
  assert (SP: smooth (fun g => pd (g * mec2) * mec2) (lo / mec2) (hi / mec2) M).
  { replace M with (M + 0) by ring. apply smooth_mult; [|apply smooth_const; assumption]. apply smooth_scale; try assumption; [lra|].
    replace (lo / mec2 * mec2) with lo by (field; lra). replace (hi / mec2 * mec2) with hi by (field; lra). split; assumption. }
  pose proof (smooth_mult _ _ _ _ _ _ SP (smooth_sy_kernel k B E (lo / mec2) (hi / mec2) K HB PE La (Rlt_le _ _ Lb))) as (_ & S).
  destruct (gam_facts mec2 nd lo hi Hm Hlo Hhi) as (G & E1 & E2 & RL & _).
  pose proof (ln_ratio_pos lo hi Hlo Hhi) as LP.
  assert (LN: ln (step nd lo hi) = h). { unfold step, Rpower. rewrite ln_exp. fold n. unfold h. unfold Rdiv. ring. }
  assert (N: 0 < INR (n - 1)) by (apply lt_0_INR; unfold n; lia).
  assert (HP: 0 < h) by (apply div_pos; assumption).
  assert (S1: 1 <= step nd lo hi). { rewrite <- (exp_ln (step nd lo hi)) by apply exp_pos. rewrite LN. rewrite <- exp_0. apply exp_le. lra. }
  assert (LS: log_step h (gam mec2 nd lo hi)). { rewrite <- LN. apply ratio_le_step; assumption. }
  pose proof (C119_integral _ _ _ _ h _ La Lb S G E1 E2 LS) as X. cbv zeta in X.
  replace (M + (2 + 4 * (E / Ecrit k B (lo / mec2)))) with (M + 2 + 4 * (E / Ecrit k B (lo / mec2))) in X by ring.
  unfold computed, sy_spectrum. rewrite nth_map_lt by assumption. fold E. rewrite nelec_kernel. exact X.
Qed.

(** electrons with a cutoff, over three decades *)
Example C119_example_synchrotron : sy_ok (mkSy 1 1 1 1) /\ log_smooth (fun E => cutoff_power_law E 1 1 2 100 1) 1 1000 10.
Proof.
  split; [repeat split; cbn; lra|]. assert (E: 1 ^ 2 * Rpower (1000 / 100) 1 = 10) by (rewrite Rpower_1 by lra; lra).
  pose proof (smooth_cutoff 1 1 3 100 1 1 1000 ltac:(lra) ltac:(lra) ltac:(lra) ltac:(lra) ltac:(lra) ltac:(lra)) as S. rewrite E in S.
  apply (smooth_ext (fun E => E * cutoff_power_law E 1 1 3 100 1)); [lra| |exact S].
  intros x Hx. unfold cutoff_power_law. cbv zeta. replace (x / 1) with x by field. replace (- (2)) with (1 + - (3)) by ring. rewrite Rpower_plus, Rpower_1 by assumption. ring.
Qed.
Print Assumptions C119_synchrotron.
