(** Property C179, positive part: accuracy of the inverse Compton flux on black bodies in the Thomson regime. *)
From Coq Require Import Reals ZArith List Lra Lia.
From Coquelicot Require Import Coquelicot.
From Flocq Require Import Raux.
From Verif Require Import SpectralModel SpectralProofs TrapzModel TrapzSpec TrapzProofs EnergyModel EnergyProofs ElectronModel ElectronProofs PionModel PionProofs PionProps RadiativeProps ConvProofs ConvProps ConvProps2 ConvPion ConvProps3 FloatProofs FloatTrapzProofs ErrProofs ErrProps ErrProps2 SuperProofs SuperProps SlopeProps AccProps HeatProps KnProps.
Import ListNotations.
Local Open Scope R_scope.

(** ** The logarithm of G34 in the logarithm of its argument *)
Definition gfac2 (al a be b t : R) : R := let y := b * exp (be * t) in let w := a * exp (al * t) in
  be ^ 2 * y / (1 + y) ^ 2 - ((be ^ 2 * y + al ^ 2 * w) * (1 + y + w) - (be * y + al * w) ^ 2) / (1 + y + w) ^ 2.
Lemma gfac1_derive al a be b t : 0 < a -> 0 < b -> is_derive (gfac1 al a be b) t (gfac2 al a be b t).
Proof.
  intros Ha Hb. pose proof (Rmult_lt_0_compat _ _ Hb (exp_pos (be * t))) as Y. pose proof (Rmult_lt_0_compat _ _ Ha (exp_pos (al * t))) as W.
  unfold gfac1, gfac2. cbv zeta. auto_derive; [repeat split; lra|]. field. split; lra.
Qed.
Lemma quarter k y : 0 <= k -> 0 < y -> 0 <= k * y / (1 + y) ^ 2 <= k / 4.
Proof.
  intros Hk Hy. assert (Q: 0 < (1 + y) ^ 2) by (apply pow_lt; lra). split; [apply Rmult_le_pos; [apply Rmult_le_pos; lra|left; apply Rinv_0_lt_compat; assumption]|].
  apply Rmult_le_reg_r with ((1 + y) ^ 2); [assumption|]. unfold Rdiv at 1. rewrite Rmult_assoc, Rinv_l, Rmult_1_r by lra.
  replace (k / 4 * (1 + y) ^ 2) with (k * ((1 + y) ^ 2 / 4)) by field. apply Rmult_le_compat_l; [assumption|]. pose proof (pow2_ge_0 (1 - y)). lra.
Qed.
Lemma gfac2_bound al a be b t : 0 < a -> 0 < b -> 0 <= al <= be -> Rabs (gfac2 al a be b t) <= be ^ 2 / 4.
Proof.
  intros Ha Hb Hab. pose proof (Rmult_lt_0_compat _ _ Hb (exp_pos (be * t))) as Y. pose proof (Rmult_lt_0_compat _ _ Ha (exp_pos (al * t))) as W.
  unfold gfac2. cbv zeta. set (y := b * exp (be * t)) in *. set (w := a * exp (al * t)) in *.
  destruct (quarter (be ^ 2) y (pow2_ge_0 _) Y) as (A1 & A2).
  assert (D: 0 < 1 + y + w) by lra. assert (Q: 0 < (1 + y + w) ^ 2) by (apply pow_lt; lra).
  set (V := ((be ^ 2 * y + al ^ 2 * w) * (1 + y + w) - (be * y + al * w) ^ 2) / (1 + y + w) ^ 2).
  assert (B: 0 <= V <= be ^ 2 / 4).
  { unfold V. split.
    - apply Rmult_le_pos; [|left; apply Rinv_0_lt_compat; assumption].
      replace ((be ^ 2 * y + al ^ 2 * w) * (1 + y + w) - (be * y + al * w) ^ 2) with (be ^ 2 * y + al ^ 2 * w + y * w * (be - al) ^ 2) by ring.
      assert (0 <= be ^ 2 * y) by (apply Rmult_le_pos; [apply pow2_ge_0|lra]). assert (0 <= al ^ 2 * w) by (apply Rmult_le_pos; [apply pow2_ge_0|lra]).
      assert (0 <= y * w * (be - al) ^ 2) by (apply Rmult_le_pos; [apply Rmult_le_pos; lra|apply pow2_ge_0]). lra.
    - apply Rmult_le_reg_r with ((1 + y + w) ^ 2); [assumption|]. unfold Rdiv at 1. rewrite Rmult_assoc, Rinv_l, Rmult_1_r by lra.
      assert (E: be ^ 2 * y + al ^ 2 * w <= be * (be * y + al * w)). { assert (al * (al * w) <= be * (al * w)) by (apply Rmult_le_compat_r; [apply Rmult_le_pos; lra|lra]). lra. }
      set (s := be * y + al * w) in *. assert ((be ^ 2 * y + al ^ 2 * w) * (1 + y + w) <= be * s * (1 + y + w)) by (apply Rmult_le_compat_r; lra).
      pose proof (pow2_ge_0 (be * (1 + y + w) / 2 - s)). replace (be ^ 2 / 4 * (1 + y + w) ^ 2) with ((be * (1 + y + w) / 2) ^ 2) by field.
      assert (X: (be * (1 + y + w) / 2 - s) ^ 2 = (be * (1 + y + w) / 2) ^ 2 - be * s * (1 + y + w) + s ^ 2) by field. lra. }
  apply Rabs_le. lra.
Qed.
Lemma gfac1_lo al a be b t : 0 < a -> 0 < b -> 0 <= al -> 0 <= be -> - al <= gfac1 al a be b t.
Proof.
  intros Ha Hb Hal Hbe. pose proof (Rmult_lt_0_compat _ _ Hb (exp_pos (be * t))) as Y. pose proof (Rmult_lt_0_compat _ _ Ha (exp_pos (al * t))) as W.
  unfold gfac1. cbv zeta. set (y := b * exp (be * t)) in *. set (w := a * exp (al * t)) in *.
  replace (be * y / (1 + y) - (be * y + al * w) / (1 + y + w)) with (w / (1 + y + w) * (be * y / (1 + y) - al)) by (field; split; lra).
  assert (F: 0 <= w / (1 + y + w) <= 1). { split; [apply Rlt_le, div_pos; lra|]. apply Rmult_le_reg_r with (1 + y + w); [lra|]. unfold Rdiv. rewrite Rmult_assoc, Rinv_l by lra. lra. }
  assert (G: 0 <= be * y / (1 + y)) by (apply Rmult_le_pos; [apply Rmult_le_pos; lra|left; apply Rinv_0_lt_compat; lra]).
  assert (w / (1 + y + w) * - al <= w / (1 + y + w) * (be * y / (1 + y) - al)) by (apply Rmult_le_compat_l; lra). nra.
Qed.
Lemma gfac1_hi al a be b t : 0 < a -> 0 < b -> 0 <= al -> al <= be -> gfac1 al a be b t <= be - al.
Proof.
  intros Ha Hb Hal Hbe. pose proof (Rmult_lt_0_compat _ _ Hb (exp_pos (be * t))) as Y.
  apply gfac1_le; try assumption; [lra|]. pose proof (frac_lt1 _ Y) as F. replace (be * (b * exp (be * t)) / (1 + b * exp (be * t))) with (be * (b * exp (be * t) / (1 + b * exp (be * t)))) by (field; lra).
  assert (be * (b * exp (be * t) / (1 + b * exp (be * t))) <= be * 1) by (apply Rmult_le_compat_l; lra). lra.
Qed.
Definition p26 : R := PI ^ 2 / 6.
Lemma p26_bounds : 3 / 2 <= p26 <= 8 / 3.
Proof. unfold p26. split; [apply pi26_ge|]. pose proof PI_RGT_0. pose proof PI_4. nra. Qed.
Definition lG (al a be b c t : R) : R := ln p26 + ln (1 + c * exp t) - ln (1 + p26 * c * exp t) - exp t + gfac al a be b t.
Definition lG1 (al a be b c t : R) : R := c * exp t / (1 + c * exp t) - p26 * c * exp t / (1 + p26 * c * exp t) - exp t + gfac1 al a be b t.
Definition lG2 (al a be b c t : R) : R := c * exp t / (1 + c * exp t) ^ 2 - p26 * c * exp t / (1 + p26 * c * exp t) ^ 2 - exp t + gfac2 al a be b t.
Section LG.
  Variables (al a be b c : R).
  Hypotheses (Ha : 0 < a) (Hb : 0 < b) (Hc : 0 < c) (Hal : 0 < al) (Hbe : al <= be).
  Lemma lG_pos t : 0 < c * exp t /\ 0 < p26 * c * exp t.
  Proof. pose proof p26_bounds. pose proof (Rmult_lt_0_compat _ _ Hc (exp_pos t)). split; [assumption|]. rewrite Rmult_assoc. apply Rmult_lt_0_compat; lra. Qed.
  Lemma lG_val x : 0 < x -> G34 x al a be b c = exp (lG al a be b c (ln x)).
  Proof.
    intros Hx. pose proof p26_bounds as P. destruct (lG_pos (ln x)) as (A & B). rewrite exp_ln in A, B by assumption.
    unfold G34, lG. cbv zeta. fold p26. rewrite !(exp_ln x) by assumption.
    pose proof (ln_g al a be b (ln x) Ha Hb) as E. rewrite (exp_ln x Hx) in E. rewrite <- E.
    assert (P1: 0 < b * Rpower x be) by (apply Rmult_lt_0_compat; [assumption|apply exp_pos]). assert (P2: 0 < a * Rpower x al) by (apply Rmult_lt_0_compat; [assumption|apply exp_pos]).
    assert (G: 0 < 1 / (a * Rpower x al / (1 + b * Rpower x be) + 1)). { apply div_pos; [lra|]. assert (0 < a * Rpower x al / (1 + b * Rpower x be)) by (apply div_pos; lra). lra. }
    rewrite !exp_plus. unfold Rminus. rewrite !exp_plus. rewrite (exp_ln _ G). rewrite (exp_Ropp (ln (1 + p26 * c * x))), !exp_ln by lra. field_simplify; [reflexivity| |]; repeat split; lra.
  Qed.
  Lemma lG_derive t : is_derive (lG al a be b c) t (lG1 al a be b c t).
  Proof.
    destruct (lG_pos t) as (A & B). unfold lG, lG1. apply (is_derive_plus (fun t => ln p26 + ln (1 + c * exp t) - ln (1 + p26 * c * exp t) - exp t) (gfac al a be b)); [|apply gfac_derive; assumption].
    auto_derive; [repeat split; lra|]. field. split; lra.
  Qed.
  Lemma lG1_derive t : is_derive (lG1 al a be b c) t (lG2 al a be b c t).
  Proof.
    destruct (lG_pos t) as (A & B). unfold lG1, lG2. apply (is_derive_plus (fun t => c * exp t / (1 + c * exp t) - p26 * c * exp t / (1 + p26 * c * exp t) - exp t) (gfac1 al a be b)); [|apply gfac1_derive; assumption].
    auto_derive; [repeat split; lra|]. field. split; lra.
  Qed.
  Lemma lG2_bound t : Rabs (lG2 al a be b c t) <= exp t + / 4 + be ^ 2 / 4.
  Proof.
    destruct (lG_pos t) as (A & B). unfold lG2. pose proof (gfac2_bound al a be b t Ha Hb ltac:(lra)) as G. apply Rabs_le_inv in G. pose proof (exp_pos t).
    destruct (quarter 1 (c * exp t) ltac:(lra) A) as (Q1 & Q2). destruct (quarter 1 (p26 * c * exp t) ltac:(lra) B) as (Q3 & Q4). rewrite Rmult_1_l in Q1, Q2, Q3, Q4.
    apply Rabs_le. lra.
  Qed.
  Lemma lG1_bound t : - exp t - 42 / 100 - al <= lG1 al a be b c t <= - exp t + (be - al).
  Proof.
    destruct (lG_pos t) as (A & B). unfold lG1. pose proof (gfac1_lo al a be b t Ha Hb ltac:(lra) ltac:(lra)) as G1. pose proof (gfac1_hi al a be b t Ha Hb ltac:(lra) Hbe) as G2. pose proof p26_bounds as P.
    set (u := c * exp t) in *. rewrite (Rmult_assoc p26) in *. fold u in B |- *.
    assert (E: u / (1 + u) - p26 * u / (1 + p26 * u) = - ((p26 - 1) * (u / ((1 + u) * (1 + p26 * u))))) by (field; split; lra). rewrite E.
    assert (F: 0 <= u / ((1 + u) * (1 + p26 * u)) <= / 4).
    { assert (Q: 0 < (1 + u) * (1 + p26 * u)) by (apply Rmult_lt_0_compat; lra). split; [apply Rlt_le, div_pos; assumption|].
      apply Rmult_le_reg_r with ((1 + u) * (1 + p26 * u)); [assumption|]. unfold Rdiv. rewrite Rmult_assoc, Rinv_l by lra. pose proof (pow2_ge_0 (1 - u)). assert (u <= p26 * u) by nra. nra. }
    assert (0 <= (p26 - 1) * (u / ((1 + u) * (1 + p26 * u))) <= (8 / 3 - 1) * / 4) by (split; [apply Rmult_le_pos; lra|apply Rmult_le_compat; lra]). lra.
  Qed.
End LG.

(** ** Sums *)
Lemma exp_derive (p p1 : R -> R) s : is_derive p s (p1 s) -> is_derive (fun s => exp (p s)) s (p1 s * exp (p s)).
Proof. intros D. apply (is_derive_comp exp p s _ _ (is_derive_exp (p s)) D). Qed.
Lemma lse (p r p1 r1 p2 r2 : R -> R) s A B : (forall s, is_derive p s (p1 s)) -> (forall s, is_derive r s (r1 s)) -> is_derive p1 s (p2 s) -> is_derive r1 s (r2 s) ->
  Rabs (p2 s) <= A -> Rabs (r2 s) <= A -> Rabs (p1 s - r1 s) <= B ->
  let l1 := fun s => (exp (p s) * p1 s + exp (r s) * r1 s) / (exp (p s) + exp (r s)) in
  exists l2, is_derive (fun s => ln (exp (p s) + exp (r s))) s (l1 s) /\ is_derive l1 s l2 /\ Rabs l2 <= A + B ^ 2 / 4 /\ (forall k, Rabs (p1 s) <= k -> Rabs (r1 s) <= k -> Rabs (l1 s) <= k).
Proof.
  intros DP DR DP1 DR1 H1 H2 H3 l1. pose proof (exp_pos (p s)) as P. pose proof (exp_pos (r s)) as Q. set (lam := exp (p s) / (exp (p s) + exp (r s))).
  assert (L: 0 <= lam <= 1). { unfold lam. split; [apply Rlt_le, div_pos; lra|]. apply Rmult_le_reg_r with (exp (p s) + exp (r s)); [lra|]. unfold Rdiv. rewrite Rmult_assoc, Rinv_l by lra. lra. }
  exists (lam * p2 s + (1 - lam) * r2 s + lam * (1 - lam) * (p1 s - r1 s) ^ 2). split; [|split; [|split]].
  - assert (D0: is_derive (fun s => exp (p s) + exp (r s)) s (p1 s * exp (p s) + r1 s * exp (r s))) by (apply (is_derive_plus (fun s => exp (p s)) (fun s => exp (r s))); [apply (exp_derive p p1), DP|apply (exp_derive r r1), DR]).
    assert (DL: is_derive ln (exp (p s) + exp (r s)) (/ (exp (p s) + exp (r s)))) by (apply is_derive_ln; lra).
    pose proof (is_derive_comp ln (fun s => exp (p s) + exp (r s)) s _ _ DL D0) as X. replace (l1 s) with (scal (p1 s * exp (p s) + r1 s * exp (r s)) (/ (exp (p s) + exp (r s)))); [exact X|].
    unfold scal; cbn; unfold mult; cbn. unfold l1, Rdiv. ring.
  - assert (EP: forall s, is_derive (fun s => exp (p s)) s (p1 s * exp (p s))) by (intros; apply (exp_derive p p1), DP). assert (ER: forall s, is_derive (fun s => exp (r s)) s (r1 s * exp (r s))) by (intros; apply (exp_derive r r1), DR).
    assert (D0: is_derive (fun s => exp (p s) + exp (r s)) s (p1 s * exp (p s) + r1 s * exp (r s))) by (apply (is_derive_plus (fun s => exp (p s)) (fun s => exp (r s))); [apply EP|apply ER]).
    assert (N1: is_derive (fun s => exp (p s) * p1 s) s (p1 s * exp (p s) * p1 s + exp (p s) * p2 s)) by (apply (is_derive_mult (fun s => exp (p s)) p1); [apply EP|exact DP1|intros; apply Rmult_comm]).
    assert (N2: is_derive (fun s => exp (r s) * r1 s) s (r1 s * exp (r s) * r1 s + exp (r s) * r2 s)) by (apply (is_derive_mult (fun s => exp (r s)) r1); [apply ER|exact DR1|intros; apply Rmult_comm]).
    assert (N3: is_derive (fun s => exp (p s) * p1 s + exp (r s) * r1 s) s ((p1 s * exp (p s) * p1 s + exp (p s) * p2 s) + (r1 s * exp (r s) * r1 s + exp (r s) * r2 s))) by (apply (is_derive_plus (fun s => exp (p s) * p1 s) (fun s => exp (r s) * r1 s)); assumption).
    pose proof (is_derive_div _ _ s _ _ N3 D0 ltac:(lra)) as X. cbv beta in X.
    match type of X with is_derive _ _ ?d => replace (lam * p2 s + (1 - lam) * r2 s + lam * (1 - lam) * (p1 s - r1 s) ^ 2) with d; [exact X|] end.
    unfold lam. set (u := exp (p s)) in *. set (v := exp (r s)) in *. clearbody u v. set (q1 := p1 s) in *. set (q2 := p2 s) in *. set (w1 := r1 s) in *. set (w2 := r2 s) in *. clearbody q1 q2 w1 w2. field. lra.
  - apply Rabs_le_inv in H1. apply Rabs_le_inv in H2. assert (D2: 0 <= (p1 s - r1 s) ^ 2 <= B ^ 2).
    { split; [apply pow2_ge_0|]. rewrite <- (pow2_abs (p1 s - r1 s)). apply pow_incr. split; [apply Rabs_pos|assumption]. }
    assert (LL: 0 <= lam * (1 - lam) <= / 4) by (split; [apply Rmult_le_pos; lra|pose proof (pow2_ge_0 (1 - 2 * lam)); lra]).
    assert (0 <= lam * (1 - lam) * (p1 s - r1 s) ^ 2 <= / 4 * B ^ 2) by (split; [apply Rmult_le_pos; lra|apply Rmult_le_compat; lra]).
    apply Rabs_le. split; nra.
  - intros k K1 K2. apply Rabs_le_inv in K1. apply Rabs_le_inv in K2. unfold l1. replace ((exp (p s) * p1 s + exp (r s) * r1 s) / (exp (p s) + exp (r s))) with (lam * p1 s + (1 - lam) * r1 s) by (unfold lam; field; lra).
    apply Rabs_le. split; nra.
Qed.

Local Ltac req := match goal with |- @eq _ ?l ?r => change (@eq R l r) end.
(** ** The kernel *)
Definition pA (te s : R) : R := ln (2 * te) + s + lG (606 / 1000) (443 / 1000) (1481 / 1000) (54 / 100) (319 / 1000) s.
Definition pB (s : R) : R := lG (461 / 1000) (726 / 1000) (1457 / 1000) (382 / 1000) (662 / 100) s.
Definition LH (te s : R) : R := ln (exp (pA te s) + exp (pB s)).
Lemma LH_smooth te s : exists l2, let l1 := fun s => (exp (pA te s) * (1 + lG1 (606 / 1000) (443 / 1000) (1481 / 1000) (54 / 100) (319 / 1000) s) + exp (pB s) * lG1 (461 / 1000) (726 / 1000) (1457 / 1000) (382 / 1000) (662 / 100) s) / (exp (pA te s) + exp (pB s)) in
  is_derive (LH te) s (l1 s) /\ is_derive l1 s l2 /\ Rabs l2 <= exp s + 271 / 100 /\ Rabs (l1 s) <= exp s + 19 / 10.
Proof.
  destruct (lse (pA te) pB (fun s => 1 + lG1 (606 / 1000) (443 / 1000) (1481 / 1000) (54 / 100) (319 / 1000) s) (lG1 (461 / 1000) (726 / 1000) (1457 / 1000) (382 / 1000) (662 / 100))
     (lG2 (606 / 1000) (443 / 1000) (1481 / 1000) (54 / 100) (319 / 1000)) (lG2 (461 / 1000) (726 / 1000) (1457 / 1000) (382 / 1000) (662 / 100)) s (exp s + 8 / 10) (276 / 100)) as (l2 & D1 & D2 & D3 & D4).
  - intros u. unfold pA. replace (1 + lG1 (606 / 1000) (443 / 1000) (1481 / 1000) (54 / 100) (319 / 1000) u) with ((0 + 1) + lG1 (606 / 1000) (443 / 1000) (1481 / 1000) (54 / 100) (319 / 1000) u) by ring.
    apply (is_derive_plus (fun s => ln (2 * te) + s) (lG _ _ _ _ _)); [auto_derive; [exact I|ring]|apply lG_derive; lra].
  - intros u. apply lG_derive; lra.
  - replace (lG2 (606 / 1000) (443 / 1000) (1481 / 1000) (54 / 100) (319 / 1000) s) with (0 + lG2 (606 / 1000) (443 / 1000) (1481 / 1000) (54 / 100) (319 / 1000) s) by ring.
    apply (is_derive_plus (fun _ => 1) (lG1 _ _ _ _ _)); [auto_derive; [exact I|ring]|apply lG1_derive; lra].
  - apply lG1_derive; lra.
  - eapply Rle_trans; [apply lG2_bound; lra|]. lra.
  - eapply Rle_trans; [apply lG2_bound; lra|]. lra.
  - pose proof (lG1_bound (606 / 1000) (443 / 1000) (1481 / 1000) (54 / 100) (319 / 1000) ltac:(lra) ltac:(lra) ltac:(lra) ltac:(lra) ltac:(lra) s).
    pose proof (lG1_bound (461 / 1000) (726 / 1000) (1457 / 1000) (382 / 1000) (662 / 100) ltac:(lra) ltac:(lra) ltac:(lra) ltac:(lra) ltac:(lra) s). apply Rabs_le. lra.
  - exists l2. split; [exact D1|]. split; [exact D2|]. split; [lra|].
    pose proof (exp_pos s). apply D4.
    + pose proof (lG1_bound (606 / 1000) (443 / 1000) (1481 / 1000) (54 / 100) (319 / 1000) ltac:(lra) ltac:(lra) ltac:(lra) ltac:(lra) ltac:(lra) s). apply Rabs_le. lra.
    + pose proof (lG1_bound (461 / 1000) (726 / 1000) (1457 / 1000) (382 / 1000) (662 / 100) ltac:(lra) ltac:(lra) ltac:(lra) ltac:(lra) ltac:(lra) s). apply Rabs_le. lra.
Qed.
(** the kernel through the argument x = c/(g(g-e)) of its fitted functions *)
Definition GA (x : R) : R := G34 x (606 / 1000) (443 / 1000) (1481 / 1000) (54 / 100) (319 / 1000).
Definition GB (x : R) : R := G34 x (461 / 1000) (726 / 1000) (1457 / 1000) (382 / 1000) (662 / 100).
Definition HH (te x : R) : R := 2 * te * x * GA x + GB x.
Definition xi (e t g : R) : R := e / (4 * t) / (g * (g - e)).
Lemma xi_pos e t g : 0 < e -> 0 < t -> e < g -> 0 < xi e t g.
Proof. intros. unfold xi. apply div_pos; [apply div_pos; lra|apply Rmult_lt_0_compat; lra]. Qed.
Lemma iso_HH e T g : 0 < e -> 0 < T -> e < g -> 1 < g ->
  iso_ic_on_planck g T e = planck_const * (T * Ktomec2) ^ 2 / g ^ 2 * HH (T * Ktomec2 * e) (xi e (T * Ktomec2) g).
Proof.
  intros He HT Hg H1. unfold iso_ic_on_planck. cbv zeta. assert (R: in_range e g = true) by (unfold in_range; destruct (Rlt_dec e g); [|lra]; destruct (Rlt_dec 1 g); [reflexivity|lra]). rewrite R.
  assert (KK: 0 < Ktomec2) by (unfold Ktomec2; lra). assert (TP: 0 < T * Ktomec2) by (apply Rmult_lt_0_compat; assumption). set (t := T * Ktomec2) in *.
  assert (XE: e / g / (1 - e / g) / (4 * g * t) = xi e t g) by (unfold xi; field; lra). rewrite XE. unfold HH, GA, GB.
  replace ((e / g) ^ 2 / (2 * (1 - e / g))) with (2 * (t * e) * xi e t g) by (unfold xi; field; lra). unfold Rdiv. rewrite Rpow_mult_distr. rewrite pow_inv. ring.
Qed.
Lemma HH_val te x : 0 < te -> 0 < x -> HH te x = exp (LH te (ln x)).
Proof.
  intros Ht Hx. unfold LH. rewrite exp_ln by (apply Rplus_lt_0_compat; apply exp_pos). unfold HH, GA, GB, pA, pB.
  rewrite (lG_val (606 / 1000) (443 / 1000) (1481 / 1000) (54 / 100) (319 / 1000) ltac:(lra) ltac:(lra) ltac:(lra) x Hx).
  rewrite (lG_val (461 / 1000) (726 / 1000) (1457 / 1000) (382 / 1000) (662 / 100) ltac:(lra) ltac:(lra) ltac:(lra) x Hx). rewrite !exp_plus, !exp_ln by lra. reflexivity.
Qed.
Lemma HH_pos te x : 0 < te -> 0 < x -> 0 < HH te x.
Proof. intros. rewrite HH_val by assumption. apply exp_pos. Qed.
(** beyond x = 1 the kernel falls at least like exp(-x)/x^-2 *)
Lemma G34_fall al a be b c x1 x2 : 0 < a -> 0 < b -> 0 < c -> 0 < al -> al <= be -> be - al <= 1 -> 0 < x1 -> x1 <= x2 ->
  G34 x2 al a be b c <= x2 / x1 * exp (x1 - x2) * G34 x1 al a be b c.
Proof.
  intros Ha Hb Hc Hal Hbe B1 H1 H2. assert (P2: 0 < x2) by lra. rewrite !lG_val by assumption.
  assert (E: x2 / x1 * exp (x1 - x2) = exp (ln x2 - ln x1 + (x1 - x2))) by (rewrite exp_plus, <- ln_div, exp_ln by (lra || apply div_pos; assumption); reflexivity). rewrite E, <- exp_plus. apply exp_le.
  assert (LL: ln x1 <= ln x2) by (apply ln_le'; assumption).
  pose proof (derive_incr (fun t => t - exp t - lG al a be b c t) (fun t => 1 - exp t - lG1 al a be b c t) (ln x1) (ln x2) LL) as X. cbv beta in X. rewrite !exp_ln in X by assumption.
  assert (Y: ln x1 - x1 - lG al a be b c (ln x1) <= ln x2 - x2 - lG al a be b c (ln x2)); [|lra]. apply X.
  - intros u. apply (is_derive_minus (fun t => t - exp t) (lG al a be b c)); [auto_derive; [exact I|ring]|apply lG_derive; assumption].
  - intros u. pose proof (lG1_bound al a be b c Ha Hb Hc Hal Hbe u). lra.
Qed.
Lemma HH_fall te x1 x2 : 0 < te -> 0 < x1 -> x1 <= x2 -> HH te x2 <= (x2 / x1) ^ 2 * exp (x1 - x2) * HH te x1.
Proof.
  intros Ht H1 H2. assert (P2: 0 < x2) by lra. unfold HH.
  pose proof (G34_fall (606 / 1000) (443 / 1000) (1481 / 1000) (54 / 100) (319 / 1000) x1 x2 ltac:(lra) ltac:(lra) ltac:(lra) ltac:(lra) ltac:(lra) ltac:(lra) H1 H2) as A. fold (GA x1) (GA x2) in A.
  pose proof (G34_fall (461 / 1000) (726 / 1000) (1457 / 1000) (382 / 1000) (662 / 100) x1 x2 ltac:(lra) ltac:(lra) ltac:(lra) ltac:(lra) ltac:(lra) ltac:(lra) H1 H2) as B. fold (GB x1) (GB x2) in B.
  assert (GBP: 0 < GB x1) by (apply G34_pos; lra). pose proof (exp_pos (x1 - x2)) as EP.
  assert (R1: 1 <= x2 / x1). { apply Rmult_le_reg_r with x1; [assumption|]. unfold Rdiv. rewrite Rmult_assoc, Rinv_l by lra. lra. }
  replace ((x2 / x1) ^ 2 * exp (x1 - x2) * (2 * te * x1 * GA x1 + GB x1)) with (2 * te * x2 * (x2 / x1 * exp (x1 - x2) * GA x1) + (x2 / x1) * (x2 / x1 * exp (x1 - x2) * GB x1)) by (field; lra).
  apply Rplus_le_compat; [apply Rmult_le_compat_l; [apply Rmult_le_pos; lra|exact A]|]. eapply Rle_trans; [exact B|].
  rewrite <- (Rmult_1_l (x2 / x1 * exp (x1 - x2) * GB x1)) at 1. apply Rmult_le_compat_r; [|assumption]. apply Rmult_le_pos; [apply Rmult_le_pos; lra|lra].
Qed.

(** ** The integrand *)
Definition LH1 (te s : R) : R := (exp (pA te s) * (1 + lG1 (606 / 1000) (443 / 1000) (1481 / 1000) (54 / 100) (319 / 1000) s) + exp (pB s) * lG1 (461 / 1000) (726 / 1000) (1457 / 1000) (382 / 1000) (662 / 100) s) / (exp (pA te s) + exp (pB s)).
Definition sig (e c t : R) : R := ln c - t - ln (exp t - e).
Definition sig1 (e t : R) : R := - 1 - exp t / (exp t - e).
Definition sig2 (e t : R) : R := e * exp t / (exp t - e) ^ 2.
Lemma sig_derive e c t : e < exp t -> is_derive (sig e c) t (sig1 e t) /\ is_derive (sig1 e) t (sig2 e t).
Proof.
  intros H. unfold sig, sig1, sig2. split; auto_derive; try lra.
  - field. lra.
  - field. lra.
Qed.
Lemma xi_anti e t u v : 0 < e -> 0 < t -> e < u -> u <= v -> xi e t v <= xi e t u.
Proof.
  intros He Ht Hu Hv. unfold xi. apply Rmult_le_compat_l; [apply Rlt_le, div_pos; lra|]. apply Rinv_le_contravar; [apply Rmult_lt_0_compat; lra|]. apply Rmult_le_compat; lra.
Qed.
Definition tf (mec2 : R) (pd : R -> R) (T e g : R) : R := pd (g * mec2) * mec2 * iso_ic_on_planck g T e.
Lemma smooth_tf mec2 pd lo hi M T e a b X : 0 < mec2 -> 0 < lo -> lo < hi -> (forall E, 0 < E -> 0 < pd E) -> log_smooth pd lo hi M -> 0 < T -> 0 < e ->
  1 < a -> 4 * e <= a -> a <= b -> lo <= a * mec2 -> b * mec2 <= hi -> xi e (T * Ktomec2) a <= X -> log_smooth (tf mec2 pd T e) a b (M + (6 * X + 16)).
Proof.
  intros Hm Hlo Hhi PP HM HT He Ha1 Ha4 Hab HA HB HX.
  assert (KK: 0 < Ktomec2) by (unfold Ktomec2; lra). assert (TP: 0 < T * Ktomec2) by (apply Rmult_lt_0_compat; assumption). assert (PK: 0 < planck_const) by (unfold planck_const; lra).
  assert (POS: forall g, 1 < g -> e < g -> 0 < iso_ic_on_planck g T e).
  { intros g G1' G2'. rewrite iso_HH by assumption. pose proof (HH_pos (T * Ktomec2 * e) _ ltac:(apply Rmult_lt_0_compat; assumption) (xi_pos e _ g He TP G2')).
    apply Rmult_lt_0_compat; [|assumption]. apply div_pos; [apply Rmult_lt_0_compat; [assumption|apply pow_lt; assumption]|apply pow_lt; lra]. }
  assert (SP: smooth (fun g => pd (g * mec2) * mec2) a b M).
  { replace M with (M + 0) by ring. apply smooth_mult; [|apply smooth_const; assumption]. apply smooth_scale; try assumption; [lra|].
    split; [assumption|]. apply (smooth_sub pd lo hi); try assumption. apply Rmult_le_compat_r; lra. }
  destruct SP as (SP0 & _ & p1 & p2 & SP). set (t := T * Ktomec2) in *. set (te := t * e). assert (TE: 0 < te) by (apply Rmult_lt_0_compat; assumption).
  set (c := e / (4 * t)). assert (Hc: 0 < c) by (apply div_pos; lra).
  assert (Ka: forall u, ln a <= u -> a <= exp u). { intros u Hu. rewrite <- (exp_ln a) by lra. apply exp_le. assumption. }
  split. { intros x Hx. unfold tf. apply Rmult_lt_0_compat; [apply SP0; lra|apply POS; lra]. }
  exists (fun u => p1 u + (- 2 + LH1 te (sig e c u) * sig1 e u)), (fun u => p2 u + (Derive (LH1 te) (sig e c u) * sig1 e u ^ 2 + LH1 te (sig e c u) * sig2 e u)).
  intros u Hu. destruct (SP u Hu) as (A1 & A2 & A3). pose proof (Ka u (proj1 Hu)) as Ku. pose proof (exp_pos u) as Pu.
  destruct (sig_derive e c u ltac:(lra)) as (S1 & S2). destruct (LH_smooth te (sig e c u)) as (l2 & L0 & L0' & L2' & L3). fold (LH1 te) in L0, L0', L3. cbv beta in L0, L0', L3.
  change (is_derive (LH1 te) (sig e c u) l2) in L0'. change (is_derive (LH te) (sig e c u) (LH1 te (sig e c u))) in L0. change (Rabs (LH1 te (sig e c u)) <= exp (sig e c u) + 19 / 10) in L3.
  assert (XS: exp (sig e c u) = xi e t (exp u)).
  { unfold sig, xi. fold c. unfold Rminus. rewrite !exp_plus, !exp_Ropp. rewrite !exp_ln by lra. field. split; lra. }
  assert (XX: exp (sig e c u) <= X). { rewrite XS. eapply Rle_trans; [|exact HX]. apply xi_anti; lra. }
  split; [|split].
  - apply (is_derive_ext_loc (fun s => ln (pd (exp s * mec2) * mec2) + (ln (planck_const * t ^ 2) - 2 * s + LH te (sig e c s)))).
    + assert (LL: locally u (fun s => ln (Rmax e 1) < s)).
      { apply (open_gt (ln (Rmax e 1)) u). apply Rlt_le_trans with (ln a); [|lra]. apply ln_increasing; [pose proof (Rmax_r e 1); lra|apply Rmax_lub_lt; lra]. }
      revert LL. apply filter_imp. intros s Hs. assert (Es: Rmax e 1 < exp s). { rewrite <- (exp_ln (Rmax e 1)) by (pose proof (Rmax_r e 1); lra). apply exp_increasing. assumption. }
      assert (E1: e < exp s) by (pose proof (Rmax_l e 1); lra). assert (E2: 1 < exp s) by (pose proof (Rmax_r e 1); lra). pose proof (exp_pos s) as Ps.
      unfold tf. rewrite (ln_mult (pd (exp s * mec2) * mec2)) by (try apply (SP0 (exp s)); try apply POS; assumption). f_equal. rewrite iso_HH by assumption. fold t. fold te.
      pose proof (xi_pos e t (exp s) He TP E1) as XP. rewrite HH_val by assumption.
      assert (LX: ln (xi e t (exp s)) = sig e c s). { unfold xi, sig. fold c. rewrite ln_div by (exact Hc || (apply Rmult_lt_0_compat; lra)). rewrite ln_mult by lra. rewrite ln_exp. ring. }
      rewrite LX. assert (PT: 0 < planck_const * t ^ 2) by (apply Rmult_lt_0_compat; [assumption|apply pow_lt; assumption]). assert (P2: 0 < exp s ^ 2) by (apply pow_lt; assumption).
      rewrite (ln_mult (planck_const * t ^ 2 / exp s ^ 2)) by (try apply exp_pos; apply div_pos; assumption). rewrite (ln_div (planck_const * t ^ 2)) by assumption. rewrite ln_exp. replace (exp s ^ 2) with (exp s * exp s) by ring. rewrite (ln_mult (exp s) (exp s)) by assumption. rewrite !ln_exp. req. ring.
    + apply (is_derive_plus (fun s => ln (pd (exp s * mec2) * mec2)) (fun s => ln (planck_const * t ^ 2) - 2 * s + LH te (sig e c s))); [exact A1|].
      apply (is_derive_plus (fun s => ln (planck_const * t ^ 2) - 2 * s) (fun s => LH te (sig e c s))); [auto_derive; [exact I|ring]|].
      replace (LH1 te (sig e c u) * sig1 e u) with (scal (sig1 e u) (LH1 te (sig e c u))) by (unfold scal; cbn; unfold mult; cbn; ring).
      apply (is_derive_comp (LH te) (sig e c)); assumption.
  - apply (is_derive_plus p1 (fun u => - 2 + LH1 te (sig e c u) * sig1 e u)); [exact A2|].
    assert (D1: is_derive (fun u => LH1 te (sig e c u)) u (Derive (LH1 te) (sig e c u) * sig1 e u)).
    { replace (Derive (LH1 te) (sig e c u)) with l2 by (symmetry; apply is_derive_unique; exact L0').
      replace (l2 * sig1 e u) with (scal (sig1 e u) l2) by (unfold scal; cbn; unfold mult; cbn; ring). apply (is_derive_comp (LH1 te) (sig e c)); assumption. }
    replace (Derive (LH1 te) (sig e c u) * sig1 e u ^ 2 + LH1 te (sig e c u) * sig2 e u) with (0 + (Derive (LH1 te) (sig e c u) * sig1 e u * sig1 e u + LH1 te (sig e c u) * sig2 e u)) by ring.
    apply (is_derive_plus (fun _ => - 2) (fun u => LH1 te (sig e c u) * sig1 e u)); [auto_derive; [exact I|ring]|].
    apply (is_derive_mult (fun u => LH1 te (sig e c u)) (sig1 e)); [exact D1|exact S2|]. intros; apply Rmult_comm.
  - assert (DL: Derive (LH1 te) (sig e c u) = l2) by (apply is_derive_unique; exact L0'). rewrite DL.
    assert (R1: 0 < exp u / (exp u - e) <= 4 / 3).
    { split; [apply div_pos; lra|]. apply Rmult_le_reg_r with (exp u - e); [lra|]. unfold Rdiv at 1. rewrite Rmult_assoc, Rinv_l by lra. lra. }
    assert (V1: 0 <= sig1 e u ^ 2 <= 49 / 9). { unfold sig1. set (r := exp u / (exp u - e)) in *. split; [apply pow2_ge_0|]. nra. }
    assert (V2: 0 <= sig2 e u <= 4 / 9).
    { unfold sig2. assert (Q: 0 < (exp u - e) ^ 2) by (apply pow_lt; lra). split; [apply Rlt_le, div_pos; [apply Rmult_lt_0_compat; lra|assumption]|].
      apply Rmult_le_reg_r with ((exp u - e) ^ 2); [assumption|]. unfold Rdiv at 1. rewrite Rmult_assoc, Rinv_l, Rmult_1_r by lra. set (g := exp u) in *. clearbody g. assert (4 * e <= g) by lra. nra. }
    set (x := exp (sig e c u)) in *. assert (X0: 0 < x) by apply exp_pos.
    assert (B1: Rabs (l2 * sig1 e u ^ 2) <= (X + 271 / 100) * (49 / 9)).
    { rewrite Rabs_mult. rewrite (Rabs_pos_eq (sig1 e u ^ 2)) by lra. apply Rmult_le_compat; try lra. apply Rabs_pos. }
    assert (B2: Rabs (LH1 te (sig e c u) * sig2 e u) <= (X + 19 / 10) * (4 / 9)).
    { rewrite Rabs_mult. rewrite (Rabs_pos_eq (sig2 e u)) by lra. apply Rmult_le_compat; try lra. apply Rabs_pos. }
    eapply Rle_trans; [apply Rabs_triang|]. apply Rplus_le_compat; [exact A3|]. eapply Rle_trans; [apply Rabs_triang|]. lra.
Qed.

(** ** Integrands that vanish at the start *)
Lemma trapz_incr0 f h xs : h <= 1 -> forall x0, grid (x0 :: xs) -> log_step h (x0 :: xs) ->
  (forall x, x0 <= x <= last (x0 :: xs) 0 -> 0 <= f x) ->
  (forall x y, x0 <= x -> x <= y -> y <= last (x0 :: xs) 0 -> f x <= f y) ->
  0 <= trapz_loglog (map f (x0 :: xs)) (x0 :: xs) <= (last (x0 :: xs) 0 - x0) * f (last (x0 :: xs) 0).
Proof.
  intros Hh. induction xs as [|x1 xs IH]; intros x0 G LS PF MF; [unfold trapz_loglog; cbn; lra|].
  destruct (grid_cons2 _ _ _ G) as (P0 & P1 & G'). destruct (log_step_cons _ _ _ _ LS) as (L0 & LS').
  change (last (x0 :: x1 :: xs) 0) with (last (x1 :: xs) 0) in *.
  assert (LB: x1 <= last (x1 :: xs) 0) by (apply (grid_range x1 xs G'); left; reflexivity).
  destruct (IH x1 G' LS') as (A & B). { intros x Hx. apply PF. lra. } { intros x y Hx Hxy Hy. apply MF; lra. }
  cbn [map]. rewrite trapz_cons2. change (f x1 :: map f xs) with (map f (x1 :: xs)).
  pose proof (PF x0 ltac:(lra)) as F0. pose proof (PF x1 ltac:(lra)) as F1. pose proof (MF x0 x1 ltac:(lra) ltac:(lra) LB) as F01.
  pose proof (MF x1 _ ltac:(lra) LB (Rle_refl _)) as F1L.
  assert (CD: 0 <= interval x0 x1 (f x0) (f x1) <= f x1 * (x1 - x0)).
  { destruct (interval_cases x0 x1 (f x0) (f x1) F0 F1) as [(Q0 & Q1)|I0].
    - destruct (interval_bounds_all x0 x1 (f x0) (f x1) P0 P1 Q0 Q1 ltac:(lra)) as (C & D).
      rewrite Rmin_left in C by assumption. rewrite Rmax_right in D by assumption.
      assert (0 <= f x0 * (x1 - x0)) by (apply Rmult_le_pos; lra). lra.
    - rewrite I0. split; [lra|]. apply Rmult_le_pos; lra. }
  assert (f x1 * (x1 - x0) <= f (last (x1 :: xs) 0) * (x1 - x0)) by (apply Rmult_le_compat_r; lra).
  split; [lra|]. lra.
Qed.
Lemma acc_split0 f a b gc M h tau ps qs : 0 < a -> a <= gc -> gc < b -> h <= 1 -> ex_RInt f a b -> (forall x, a <= x <= b -> 0 <= f x) -> log_smooth f gc b M ->
  grid (ps ++ [gc]) -> log_step h (ps ++ [gc]) -> hd 0 (ps ++ [gc]) = a -> grid (gc :: qs) -> log_step h (gc :: qs) -> last (gc :: qs) 0 = b ->
  (forall x y, a <= x -> x <= y -> y <= gc -> f x <= f y) -> 0 <= tau -> gc * f gc <= tau * RInt f gc b ->
  Rabs (trapz_loglog (map f (ps ++ gc :: qs)) (ps ++ gc :: qs) - RInt f a b) <= (exp (M * h ^ 2 / 8 + / 10 ^ 10 * h) - 1 + tau) * RInt f a b.
Proof.
  intros Ha Hag Hgb Hh S0 PF S1 G1' L1' E1 G2 L2' E2 MF Ht HT.
  rewrite map_app. cbn [map]. rewrite trapz_split by apply map_length.
  pose proof (C119_integral f gc b M h (gc :: qs) ltac:(lra) Hgb S1 G2 eq_refl E2 L2') as X. cbv zeta in X.
  cbn [map] in X. set (C2 := trapz_loglog (f gc :: map f qs) (gc :: qs)) in *. set (I2 := RInt f gc b : R) in *. set (err := exp (M * h ^ 2 / 8 + / 10 ^ 10 * h)) in *.
  assert (EXa: ex_RInt f a gc) by (apply (ex_RInt_Chasles_1 f a gc b); [lra|exact S0]).
  assert (EXb: ex_RInt f gc b) by (apply (ex_RInt_Chasles_2 f a gc b); [lra|exact S0]).
  assert (X1: RInt f a b = RInt f a gc + I2) by (unfold I2; symmetry; exact (RInt_Chasles f a gc b EXa EXb)).
  assert (I2P: 0 <= I2). { apply RInt_ge_0; [lra|exact EXb|]. intros x Hx. apply PF. lra. }
  assert (I1P: 0 <= RInt f a gc). { apply RInt_ge_0; [lra|exact EXa|]. intros x Hx. apply PF. lra. }
  assert (FG: 0 < f gc) by (apply S1; lra).
  assert (I1U: RInt f a gc <= gc * f gc).
  { apply Rle_trans with (RInt (fun _ => f gc) a gc).
    - apply RInt_le; [assumption|exact EXa|apply ex_RInt_const|]. intros x Hx. apply MF; lra.
    - rewrite RInt_const. unfold scal; cbn; unfold mult; cbn. apply Rmult_le_compat_r; lra. }
  assert (C1: 0 <= trapz_loglog (map f ps ++ [f gc]) (ps ++ [gc]) <= gc * f gc).
  { change [f gc] with (map f [gc]). rewrite <- map_app. assert (LL: last (ps ++ [gc]) 0 = gc) by apply last_last.
    destruct (ps ++ [gc]) as [|x0 xs] eqn:EQ; [destruct ps; discriminate|]. cbn [hd] in E1. subst x0.
    destruct (trapz_incr0 f h xs Hh a G1' L1') as (A & B).
    - rewrite LL. intros x Hx. apply PF. lra.
    - rewrite LL. exact MF.
    - split; [exact A|]. eapply Rle_trans; [exact B|]. rewrite LL. apply Rmult_le_compat_r; lra. }
  set (C1v := trapz_loglog (map f ps ++ [f gc]) (ps ++ [gc])) in *. destruct X as (X2 & X3).
  assert (ERR: 1 <= err). { unfold err. rewrite <- exp_0. apply exp_le. pose proof (smooth_M_pos f gc b M ltac:(lra) ltac:(lra) S1) as M0.
    assert (HH0: 0 <= h). { destruct qs as [|q0 qs]; [cbn in E2; lra|]. destruct (grid_cons2 _ _ _ G2) as (P0 & P1 & _). destruct (log_step_cons _ _ _ _ L2') as (Q0 & _). 
      assert (0 <= ln (q0 / gc)); [|lra]. rewrite <- ln_1. apply ln_le'; [lra|]. apply Rmult_le_reg_r with gc; [lra|]. unfold Rdiv. rewrite Rmult_assoc, Rinv_l; lra. }
    assert (0 <= M * h ^ 2) by (apply Rmult_le_pos; [assumption|apply pow2_ge_0]). assert (0 <= / 10 ^ 10 * h) by (apply Rmult_le_pos; lra). lra. }
  pose proof (err_abs C2 I2 err ERR I2P X2 X3) as D2. rewrite X1.
  apply Rabs_le_inv in D2. assert (0 <= (err - 1 + tau) * RInt f a gc) by (apply Rmult_le_pos; lra).
  change (Rabs (C1v + C2 - (RInt f a gc + I2)) <= (err - 1 + tau) * (RInt f a gc + I2)). apply Rabs_le. split; lra.
Qed.

(** ** Slopes *)
Lemma smooth_pt f a b M x : 0 < a -> (forall x, 0 < x -> 0 < f x) -> log_smooth f a b M -> a <= x <= b -> continuity_pt f x.
Proof.
  intros Ha PF (_ & g1 & g2 & H) Hx. destruct (H (ln x)) as (D & _). { split; apply ln_le'; lra. }
  assert (Px: 0 < x) by lra.
  apply (cont_locally (fun y => exp (ln (f (exp (ln y))))) f x x Px).
  - intros y Hy. apply Rabs_def2 in Hy. rewrite exp_ln by (apply PF, exp_pos). rewrite exp_ln by lra. reflexivity.
  - apply cont_of_derive. apply (ex_derive_comp exp (fun y => ln (f (exp (ln y)))) x); [eexists; apply is_derive_exp|].
    apply (ex_derive_comp (fun t => ln (f (exp t))) ln x); [eexists; exact D|]. eexists. apply is_derive_ln. exact Px.
Qed.
Section Thom.
  Variables (mec2 : R) (pd : R -> R) (lo hi T e S : R).
  Hypotheses (Hm : 0 < mec2) (Hlo : mec2 < lo) (Hhi : lo < hi) (HT : 0 < T) (He : 0 < e) (PP : forall E, 0 < E -> 0 < pd E) (HS : 0 <= S).
  Let t := T * Ktomec2.
  Hypothesis FALL : forall e1 e2, lo <= e1 -> e1 <= e2 -> e2 <= hi -> 4 * t * (e2 / mec2) * (e2 / mec2 - e) <= e -> pd e1 * Rpower (e1 / e2) S <= pd e2.
  Let f := tf mec2 pd T e.
  Let a := lo / mec2.
  Let b := hi / mec2.
  Let q := S / 2 + 3.
  Lemma th_t : 0 < t. Proof. unfold t. apply Rmult_lt_0_compat; [assumption|unfold Ktomec2; lra]. Qed.
  Lemma th_a : 1 < a. Proof. unfold a. apply (Rmult_lt_reg_r mec2); [assumption|]. unfold Rdiv. rewrite Rmult_assoc, Rinv_l; lra. Qed.
  Lemma th_f0 g : g <= e -> f g = 0.
  Proof. intros Hg. unfold f, tf, iso_ic_on_planck. cbv zeta. assert (R: in_range e g = false) by (unfold in_range; destruct (Rlt_dec e g); [lra|reflexivity]). rewrite R. ring. Qed.
  Lemma th_fpos g : 1 < g -> e < g -> 0 < f g.
  Proof.
    intros H1 H2. pose proof th_t as Pt. unfold f, tf. rewrite iso_HH by assumption. fold t. pose proof (HH_pos (t * e) _ ltac:(apply Rmult_lt_0_compat; assumption) (xi_pos e t g He Pt H2)) as HP.
    assert (PK: 0 < planck_const) by (unfold planck_const; lra).
    apply Rmult_lt_0_compat; [apply Rmult_lt_0_compat; [apply PP, Rmult_lt_0_compat; lra|assumption]|]. apply Rmult_lt_0_compat; [|assumption].
    apply div_pos; [apply Rmult_lt_0_compat; [assumption|apply pow_lt; assumption]|apply pow_lt; lra].
  Qed.
  Lemma th_nonneg g : 1 < g -> 0 <= f g.
  Proof. intros H. destruct (Rle_or_lt g e) as [L|L]; [rewrite th_f0 by assumption; lra|apply Rlt_le, th_fpos; assumption]. Qed.
  Lemma th_ratio g g' : a <= g -> e < g -> g <= g' -> g' <= b -> 1 <= xi e t g' ->
    f g * exp (xi e t g - xi e t g' - q * ln (xi e t g / xi e t g')) <= f g'.
  Proof.
    intros H1 H0 H2 H3 H4. pose proof th_t as Pt. pose proof th_a as Pa. assert (Pe: 0 < t * e) by (apply Rmult_lt_0_compat; assumption).
    pose proof (xi_pos e t g He Pt H0) as X. pose proof (xi_pos e t g' He Pt ltac:(lra)) as X'. pose proof (xi_anti e t g g' He Pt H0 H2) as XX.
    pose proof (HH_fall (t * e) _ _ Pe X' XX) as HF. pose proof (HH_pos (t * e) _ Pe X') as HP'. pose proof (HH_pos (t * e) _ Pe X) as HP.
    assert (RR: xi e t g / xi e t g' = g' * (g' - e) / (g * (g - e))) by (unfold xi; field; repeat split; lra).
    assert (R2: (g' / g) ^ 2 <= xi e t g / xi e t g').
    { rewrite RR. apply Rmult_le_reg_r with (g * g * (g - e)); [repeat apply Rmult_lt_0_compat; lra|]. replace ((g' / g) ^ 2 * (g * g * (g - e))) with (g' * (g' * (g - e))) by (field; lra).
      replace (g' * (g' - e) / (g * (g - e)) * (g * g * (g - e))) with (g' * ((g' - e) * g)) by (field; lra). apply Rmult_le_compat_l; [lra|]. nra. }
    assert (FL: pd (g * mec2) * Rpower (g / g') S <= pd (g' * mec2)).
    { replace (g / g') with (g * mec2 / (g' * mec2)) by (field; split; lra).
      assert (MR: forall g, a <= g <= b -> lo <= g * mec2 <= hi).
      { intros z (Z1 & Z2). unfold a, b in *. apply (Rmult_le_compat_r mec2) in Z1; [|lra]. apply (Rmult_le_compat_r mec2) in Z2; [|lra].
        replace (lo / mec2 * mec2) with lo in Z1 by (field; lra). replace (hi / mec2 * mec2) with hi in Z2 by (field; lra). lra. }
      apply FALL; [apply MR; lra|apply Rmult_le_compat_r; lra|apply MR; lra|]. replace (g' * mec2 / mec2) with g' by (field; lra).
      unfold xi in H4. assert (W: 0 < g' * (g' - e)) by (apply Rmult_lt_0_compat; lra). apply (Rmult_le_compat_r (g' * (g' - e))) in H4; [|lra].
      replace (e / (4 * t) / (g' * (g' - e)) * (g' * (g' - e))) with (e / (4 * t)) in H4 by (field; lra). apply (Rmult_le_compat_r (4 * t)) in H4; [|lra].
      replace (e / (4 * t) * (4 * t)) with e in H4 by (field; lra). lra. }
    unfold f, tf. rewrite !iso_HH by lra. fold t.
    set (x := xi e t g) in *. set (x' := xi e t g') in *. set (r := x / x') in *. assert (Pr: 0 < r) by (apply div_pos; assumption).
    set (H := HH (t * e) x) in *. set (H' := HH (t * e) x') in *. set (p := pd (g * mec2)) in *. set (p' := pd (g' * mec2)) in *. 
    assert (Pp: 0 < p) by (apply PP, Rmult_lt_0_compat; lra). assert (Pp': 0 < p') by (apply PP, Rmult_lt_0_compat; lra).
    assert (PK: 0 < planck_const) by (unfold planck_const; lra).
    assert (LG: 2 * ln (g' / g) <= ln r). { replace (2 * ln (g' / g)) with (ln ((g' / g) ^ 2)). - apply ln_le'; [apply pow_lt, div_pos; lra|assumption]. - cbn [pow]. rewrite Rmult_1_r, ln_mult by (apply div_pos; lra). ring. }
    assert (F2: p * exp (- (S / 2) * ln r) <= p').
    { eapply Rle_trans; [|exact FL]. apply Rmult_le_compat_l; [lra|]. unfold Rpower. apply exp_le. rewrite ln_div by lra. rewrite ln_div in LG by lra.
      assert (S / 2 * (2 * (ln g' - ln g)) <= S / 2 * ln r) by (apply Rmult_le_compat_l; lra). lra. }
    assert (K2: / g ^ 2 <= r * / g' ^ 2). { apply Rle_trans with ((g' / g) ^ 2 * / g' ^ 2); [right; field; lra|]. apply Rmult_le_compat_r; [left; apply Rinv_0_lt_compat, pow_lt; lra|exact R2]. }
    assert (H2': H * exp (x - x' - 2 * ln r) <= H').
    { apply Rle_trans with (r ^ 2 * exp (x' - x) * H' * exp (x - x' - 2 * ln r)); [apply Rmult_le_compat_r; [left; apply exp_pos|exact HF]|]. right.
      assert (E2: r ^ 2 = exp (2 * ln r)). { replace (2 * ln r) with (ln r + ln r) by ring. rewrite exp_plus, exp_ln by assumption. ring. }
      rewrite E2. replace (exp (2 * ln r) * exp (x' - x) * H' * exp (x - x' - 2 * ln r)) with (H' * (exp (2 * ln r) * exp (x' - x) * exp (x - x' - 2 * ln r))) by ring. rewrite <- !exp_plus.
      replace (2 * ln r + (x' - x) + (x - x' - 2 * ln r)) with 0 by ring. rewrite exp_0. ring. }
    assert (K3: / g ^ 2 * exp (- ln r) <= / g' ^ 2).
    { rewrite exp_Ropp, exp_ln by assumption. apply Rmult_le_reg_r with r; [assumption|]. rewrite Rmult_assoc, Rinv_l by lra. lra. }
    assert (G0: 0 < / g ^ 2) by (apply Rinv_0_lt_compat, pow_lt; lra).
    replace (p * mec2 * (planck_const * t ^ 2 / g ^ 2 * H) * exp (x - x' - q * ln r)) with
      (mec2 * planck_const * t ^ 2 * ((p * exp (- (S / 2) * ln r)) * ((/ g ^ 2 * exp (- ln r)) * (H * exp (x - x' - 2 * ln r))))).
    - replace (p' * mec2 * (planck_const * t ^ 2 / g' ^ 2 * H')) with (mec2 * planck_const * t ^ 2 * (p' * (/ g' ^ 2 * H'))) by (unfold Rdiv; ring).
      pose proof (exp_pos (- (S / 2) * ln r)). pose proof (exp_pos (- ln r)). pose proof (exp_pos (x - x' - 2 * ln r)). pose proof (pow_lt t 2 Pt).
      apply Rmult_le_compat_l; [apply Rmult_le_pos; [apply Rmult_le_pos; lra|lra]|].
      apply Rmult_le_compat; [apply Rmult_le_pos; lra|apply Rmult_le_pos; apply Rmult_le_pos; lra|exact F2|]. apply Rmult_le_compat; [apply Rmult_le_pos; lra|apply Rmult_le_pos; lra|exact K3|exact H2'].
    - replace (x - x' - q * ln r) with (- (S / 2) * ln r + - ln r + (x - x' - 2 * ln r)) by (unfold q; field). rewrite !exp_plus. unfold Rdiv. ring.
  Qed.
  Lemma th_incr gc : a <= gc -> e < gc -> gc <= b -> 1 <= xi e t gc -> q <= xi e t gc -> forall x y, a <= x -> x <= y -> y <= gc -> f x <= f y.
  Proof.
    intros H1 H0 H2 H3 H4 x y X Y Z. pose proof th_a as Pa. pose proof th_t as Pt. destruct (Rle_or_lt x e) as [L|L]; [rewrite th_f0 by assumption; apply th_nonneg; lra|].
    pose proof (xi_anti e t y gc He Pt ltac:(lra) Z) as M1. pose proof (xi_anti e t x y He Pt L Y) as M2.
    pose proof (th_ratio x y X L Y ltac:(lra) ltac:(lra)) as R. eapply Rle_trans; [|exact R].
    pose proof (th_fpos x ltac:(lra) L) as P. assert (Q0: 0 <= q) by (unfold q; lra). assert (LL: q * ln (xi e t x / xi e t y) <= xi e t x - xi e t y) by (apply log_lin; lra).
    rewrite <- (Rmult_1_r (f x)) at 1. apply Rmult_le_compat_l; [lra|]. rewrite <- exp_0. apply exp_le. lra.
  Qed.
  (** the electron energy of argument X *)
  Definition rt (X : R) : R := (e + sqrt (e ^ 2 + 4 * (e / (4 * t) / X))) / 2.
  Lemma rt_spec X : 0 < X -> e < rt X /\ rt X * (rt X - e) = e / (4 * t) / X /\ xi e t (rt X) = X.
  Proof.
    intros HX. pose proof th_t as Pt. assert (C: 0 < e / (4 * t) / X) by (apply div_pos; [apply div_pos; lra|assumption]). pose proof (pow2_ge_0 e) as E2.
    assert (SQ: sqrt (e ^ 2 + 4 * (e / (4 * t) / X)) * sqrt (e ^ 2 + 4 * (e / (4 * t) / X)) = e ^ 2 + 4 * (e / (4 * t) / X)) by (apply sqrt_sqrt; lra).
    set (z := sqrt (e ^ 2 + 4 * (e / (4 * t) / X))) in *. pose proof (sqrt_pos (e ^ 2 + 4 * (e / (4 * t) / X))) as ZP. fold z in ZP.
    assert (EZ: e < z) by nra. assert (A: e < rt X) by (unfold rt; fold z; lra).
    assert (B: rt X * (rt X - e) = e / (4 * t) / X). { unfold rt. fold z. replace ((e + z) / 2 * ((e + z) / 2 - e)) with ((z * z - e ^ 2) / 4) by field. rewrite SQ. field. split; lra. }
    split; [exact A|]. split; [exact B|]. unfold xi. rewrite B. field. repeat split; lra.
  Qed.
  Lemma xi_le u v : e < u -> e < v -> xi e t v <= xi e t u -> u <= v.
  Proof.
    intros Hu Hv H. destruct (Rle_or_lt u v) as [|L]; [assumption|exfalso]. pose proof th_t as Pt.
    assert (xi e t u < xi e t v); [|lra]. unfold xi. apply Rmult_lt_compat_l; [apply div_pos; lra|]. apply Rinv_lt_contravar; [repeat apply Rmult_lt_0_compat; lra|]. nra.
  Qed.
  Lemma th_tail gc D : a <= gc -> 4 * e <= gc -> q <= 1 + D -> 1 <= D -> 1 + D <= xi e t gc -> e < b -> xi e t b <= 1 -> ex_RInt f gc b ->
    gc * f gc <= 16 / 3 * (exp (q * ln (1 + D)) * exp (1 - D)) * RInt f gc b.
  Proof.
    intros H1 H4 HDq HD HX Hb HXb EX. pose proof th_a as Pa. pose proof th_t as Pt. assert (Q0: 0 <= q) by (unfold q; lra).
    destruct (rt_spec 1 ltac:(lra)) as (S1 & S2 & S3). destruct (rt_spec 2 ltac:(lra)) as (T1 & T2 & T3). set (gs := rt 1) in *. set (g1 := rt 2) in *.
    assert (O1: gc <= g1) by (apply xi_le; lra). assert (O2: g1 <= gs) by (apply xi_le; lra). assert (O3: gs <= b) by (apply xi_le; lra).
    assert (W: 3 / 16 * gs <= gs - g1).
    { assert (K: (gs - g1) * (gs + g1 - e) = gs * (gs - e) / 2). { replace ((gs - g1) * (gs + g1 - e)) with (gs * (gs - e) - g1 * (g1 - e)) by ring. rewrite S2, T2. field. lra. }
      assert ((gs - g1) * (gs + g1 - e) <= (gs - g1) * (2 * gs)) by (apply Rmult_le_compat_l; lra).
      assert (gs * (3 / 4 * gs) <= gs * (gs - e)) by (apply Rmult_le_compat_l; lra).
      apply Rmult_le_reg_r with (2 * gs); [lra|]. lra. }
    pose proof (th_fpos gc ltac:(lra) ltac:(lra)) as FP. set (xc := xi e t gc) in *. set (lam := exp (D - 1 - q * ln (1 + D))).
    assert (LOW: forall g, g1 <= g <= gs -> lam * f gc <= f g).
    { intros g (L1' & L2'). pose proof (xi_anti e t g1 g He Pt T1 L1') as M1. pose proof (xi_anti e t g gs He Pt ltac:(lra) L2') as M2. rewrite S3 in M2. rewrite T3 in M1.
      pose proof (th_ratio gc g H1 ltac:(lra) ltac:(lra) ltac:(lra) ltac:(lra)) as R. fold xc in R. set (x := xi e t g) in *.
      eapply Rle_trans; [|exact R]. rewrite Rmult_comm. apply Rmult_le_compat_l; [lra|]. unfold lam. apply exp_le.
      assert (LN: ln (xc / x) <= ln (1 + D) + ln (xc / (1 + D))).
      { rewrite <- ln_mult by (lra || (apply div_pos; lra)). apply ln_le'; [apply div_pos; lra|]. replace ((1 + D) * (xc / (1 + D))) with (xc / 1) by (field; lra).
        apply Rmult_le_compat_l; [lra|]. apply Rinv_le_contravar; lra. }
      assert (LL: q * ln (xc / (1 + D)) <= xc - (1 + D)) by (apply log_lin; lra).
      assert (QL: q * ln (xc / x) <= q * (ln (1 + D) + ln (xc / (1 + D)))) by (apply Rmult_le_compat_l; assumption). lra. }
    assert (CH: ex_RInt f g1 gs /\ RInt f g1 gs <= RInt f gc b).
    { assert (E1: ex_RInt f gc g1) by (apply (ex_RInt_Chasles_1 f gc g1 b); [lra|exact EX]).
      assert (E2: ex_RInt f g1 b) by (apply (ex_RInt_Chasles_2 f gc g1 b); [lra|exact EX]).
      assert (E3: ex_RInt f g1 gs) by (apply (ex_RInt_Chasles_1 f g1 gs b); [lra|exact E2]).
      assert (E4: ex_RInt f gs b) by (apply (ex_RInt_Chasles_2 f g1 gs b); [lra|exact E2]).
      split; [exact E3|]. assert (Y1: @eq R (RInt f gc g1 + RInt f g1 b) (RInt f gc b)) by exact (RInt_Chasles f gc g1 b E1 E2). assert (Y2: @eq R (RInt f g1 gs + RInt f gs b) (RInt f g1 b)) by exact (RInt_Chasles f g1 gs b E3 E4).
      assert (0 <= RInt f gc g1) by (apply RInt_ge_0; [lra|exact E1|intros; apply th_nonneg; lra]).
      assert (0 <= RInt f gs b) by (apply RInt_ge_0; [lra|exact E4|intros; apply th_nonneg; lra]). lra. }
    destruct CH as (E3 & CH).
    assert (LB: (gs - g1) * (lam * f gc) <= RInt f g1 gs).
    { apply Rle_trans with (RInt (fun _ => lam * f gc) g1 gs). { rewrite RInt_const. unfold scal; cbn; unfold mult; cbn. lra. }
      apply RInt_le; [assumption|apply ex_RInt_const|exact E3|]. intros x Hx. apply LOW. lra. }
    set (tl := exp (q * ln (1 + D)) * exp (1 - D)). assert (TL: tl * lam = 1).
    { unfold tl, lam. rewrite <- !exp_plus. replace (q * ln (1 + D) + (1 - D) + (D - 1 - q * ln (1 + D))) with 0 by ring. apply exp_0. }
    assert (T0: 0 < tl) by (apply Rmult_lt_0_compat; apply exp_pos).
    apply Rle_trans with (16 / 3 * tl * ((gs - g1) * (lam * f gc))); [|apply Rmult_le_compat_l; lra].
    replace (16 / 3 * tl * ((gs - g1) * (lam * f gc))) with (16 / 3 * (tl * lam) * (gs - g1) * f gc) by ring. rewrite TL. apply Rmult_le_compat_r; lra.
  Qed.
End Thom.

Lemma e_lower : 269 / 100 <= exp 1.
Proof.
  assert (D: forall x y z, 0 <= y -> y <= exp x -> z <= y * y -> z <= exp (x + x)). { intros x y z H0 H1 H2. rewrite exp_plus. assert (y * y <= exp x * exp x) by (apply Rmult_le_compat; lra). lra. }
  pose proof (exp_ineq1_le (/ 64)) as X0.
  pose proof (D (/ 64) (1 + / 64) (103149 / 100000) ltac:(lra) X0 ltac:(lra)) as X1. replace (/ 64 + / 64) with (/ 32) in X1 by lra.
  pose proof (D (/ 32) (103149 / 100000) (10639 / 10000) ltac:(lra) X1 ltac:(lra)) as X2. replace (/ 32 + / 32) with (/ 16) in X2 by lra.
  pose proof (D (/ 16) (10639 / 10000) (11318 / 10000) ltac:(lra) X2 ltac:(lra)) as X3. replace (/ 16 + / 16) with (/ 8) in X3 by lra.
  pose proof (D (/ 8) (11318 / 10000) (12809 / 10000) ltac:(lra) X3 ltac:(lra)) as X4. replace (/ 8 + / 8) with (/ 4) in X4 by lra.
  pose proof (D (/ 4) (12809 / 10000) (16407 / 10000) ltac:(lra) X4 ltac:(lra)) as X5. replace (/ 4 + / 4) with (/ 2) in X5 by lra.
  pose proof (D (/ 2) (16407 / 10000) (269 / 100) ltac:(lra) X5 ltac:(lra)) as X6. replace (/ 2 + / 2) with 1 in X6 by lra. exact X6.
Qed.
Lemma exp_nat n x : exp (INR n * x) = exp x ^ n.
Proof. induction n as [|m IH]; [cbn; rewrite Rmult_0_l; apply exp_0|]. rewrite S_INR, Rmult_plus_distr_r, exp_plus, IH, Rmult_1_l. cbn [pow]. ring. Qed.
Lemma tail_num q : 0 <= q <= 6 -> 16 / 3 * (exp (q * ln (1 + 29)) * exp (1 - 29)) <= 37 / 10000.
Proof.
  intros Hq. assert (A: exp (q * ln (1 + 29)) <= 30 ^ 6).
  { apply Rle_trans with (exp (INR 6 * ln 30)).
    - apply exp_le. replace (1 + 29) with 30 by lra. assert (0 <= ln 30) by (rewrite <- ln_1; apply ln_le'; lra). apply Rmult_le_compat_r; [assumption|]. cbn. lra.
    - rewrite exp_nat, exp_ln by lra. lra. }
  assert (C: exp (1 - 29) <= / (269 / 100) ^ 28).
  { replace (1 - 29) with (- (INR 28 * 1)) by (cbn; lra). rewrite exp_Ropp, exp_nat. apply Rinv_le_contravar; [apply pow_lt; lra|]. apply pow_incr. pose proof e_lower. lra. }
  pose proof (exp_pos (1 - 29)). pose proof (exp_pos (q * ln (1 + 29))).
  apply Rle_trans with (16 / 3 * (30 ^ 6 * / (269 / 100) ^ 28)); [apply Rmult_le_compat_l; [lra|apply Rmult_le_compat; lra]|]. lra.
Qed.

(** At the default 100 points per decade (radiative.py:278). In units of m_e c^2 the photons of the field have energies of about
    kT = T*Ktomec2 and the scattered photon E/mec2. Thomson regime: 1920 kT (E/mec2) <= 1. Electrons of Lorentz factor gamma with
    4 kT gamma (gamma - E/mec2) below E/mec2 are too slow to bring typical photons to E: among them the spectrum must not fall
    faster than E^-S. The most energetic electrons are not too slow. *)
Theorem C179_thomson_partial : forall mec2 ar nd pd lo hi Es i T u M S, 0 < mec2 -> 0 < ar -> mec2 < lo -> 10 * lo <= hi -> 100 <= nd ->
  (i < List.length Es)%nat -> let E := nth i Es 0 in let kT := T * Ktomec2 in 0 < E -> 0 < T -> 0 < u ->
  1920 * kT * (E / mec2) <= 1 -> E < hi -> E / mec2 <= 4 * kT * (hi / mec2) * ((hi - E) / mec2) ->
  (forall e, 0 < e -> 0 < pd e) -> log_smooth pd lo hi M -> M <= 10 -> 0 <= S <= 6 ->
  (forall e1 e2, lo <= e1 -> e1 <= e2 -> e2 <= hi -> 4 * kT * (e2 / mec2) * ((e2 - E) / mec2) <= E / mec2 -> pd e1 * Rpower (e1 / e2) S <= pd e2) ->
  let exact := ic_exact mec2 ar pd lo hi E (Thermal T u None) in
  let computed := nth i (ic_spectrum mec2 ar pd (gam mec2 nd lo hi) [Thermal T u None] Es) 0 in
  Rabs (computed - exact) <= 2 / 100 * exact.
Proof.
  intros mec2 ar nd pd lo hi Es i T u M S Hm Har Hlo Hhi Hnd Hi E kT PE HT Hu HTh HEh HX PP HM M10 HS FALL0 exact computed.
  assert (LH: lo < hi) by lra. assert (Hlo0: 0 < lo) by lra. set (e := E / mec2) in *. assert (He: 0 < e) by (apply div_pos; assumption).
  assert (FALL: forall e1 e2, lo <= e1 -> e1 <= e2 -> e2 <= hi -> 4 * kT * (e2 / mec2) * (e2 / mec2 - e) <= e -> pd e1 * Rpower (e1 / e2) S <= pd e2).
  { intros e1 e2 H1 H2 H3 H4. apply FALL0; try assumption. replace ((e2 - E) / mec2) with (e2 / mec2 - e) by (unfold e; field; lra). exact H4. }
  set (f := tf mec2 pd T e). set (a := lo / mec2). set (b := hi / mec2).
  pose proof (th_t T HT) as Pt. fold kT in Pt. pose proof (th_a mec2 lo Hm Hlo) as Pa. fold a in Pa.
  assert (AB: a < b) by (apply Rmult_lt_compat_r; [apply Rinv_0_lt_compat; assumption|assumption]).
  assert (Heb: e < b) by (apply Rmult_lt_compat_r; [apply Rinv_0_lt_compat; assumption|assumption]).
  set (c := e / (4 * kT)). assert (Hc: 0 < c) by (apply div_pos; lra).
  assert (Xb: xi e kT b <= 1).
  { unfold xi. fold c. assert (W: 0 < b * (b - e)) by (apply Rmult_lt_0_compat; lra). apply Rmult_le_reg_r with (b * (b - e)); [assumption|]. unfold Rdiv. rewrite Rmult_assoc, Rinv_l by lra.
    apply Rmult_le_reg_r with (4 * kT); [lra|]. unfold c. replace (e / (4 * kT) * 1 * (4 * kT)) with e by (field; lra).
    replace ((hi - E) / mec2) with (b - e) in HX by (unfold b, e; field; lra). fold b in HX. lra. }
  assert (Cth: 480 * e ^ 2 <= c).
  { unfold c. apply Rmult_le_reg_r with (4 * kT); [lra|]. replace (e / (4 * kT) * (4 * kT)) with e by (field; lra). replace (480 * e ^ 2 * (4 * kT)) with (1920 * kT * e * e) by ring.
    rewrite <- (Rmult_1_l e) at 3. apply Rmult_le_compat_r; lra. }
  (* integrability *)
  assert (EXf: ex_RInt f a b).
  { assert (CD: continuous_density pd lo hi) by (intros x Hx; split; [apply (smooth_pt pd lo hi M); assumption|apply Rlt_le, PP; lra]).
    pose proof (kernel_density mec2 pd lo hi (fun g => seed_kernel (to_mec2 mec2 (Thermal T u None)) g e) Hm Hlo0 LH CD) as (Y & _); [|exact Y].
    intros g Hg. fold a in Hg. assert (O3: forall t, @None R = Some t -> cos t < 1) by discriminate. split; [apply thermal_cont; try assumption; lra|].
    apply (seed_kernel_nonneg (Thermal T u None)); [split; [exact HT|split; [lra|exact O3]]|lra|exact He]. }
  assert (NN: forall x, a <= x <= b -> 0 <= f x) by (intros x Hx; apply (th_nonneg mec2 pd T e Hm HT He PP); lra).
  set (IE := RInt f a b : R) in *. assert (IE0: 0 <= IE) by (apply RInt_ge_0; [lra|exact EXf|intros; apply NN; lra]).
  (* grid *)
  destruct (gam_facts mec2 nd lo hi Hm Hlo0 LH) as (G & E1 & E2 & RL & _). fold a in E1. fold b in E2.
  set (n := Z.to_nat (Z.max 10 (Int_part (nd * (ln (hi / lo) / ln 10))))) in *.
  set (h := ln (hi / lo) / INR (n - 1)) in *. pose proof (ln_ratio_pos lo hi Hlo0 LH) as LP. pose proof ln10_pos as T10. pose proof ln10_le as T10'.
  assert (L10: ln 10 <= ln (hi / lo)). { apply ln_le'; [lra|]. apply Rmult_le_reg_r with lo; [lra|]. unfold Rdiv. rewrite Rmult_assoc, Rinv_l; lra. }
  assert (Hh: 0 < h <= 2350 / 100000).
  { pose proof (npoints_large (nd * (ln (hi / lo) / ln 10))) as NL. unfold npoints in NL. fold n in NL.
    assert (NM: INR (n - 1) = INR n - 1) by (rewrite minus_INR by (unfold n; lia); reflexivity).
    set (q := ln (hi / lo) / ln 10) in *. assert (Q: 1 <= q). { unfold q. apply Rmult_le_reg_r with (ln 10); [lra|]. unfold Rdiv. rewrite Rmult_assoc, Rinv_l; lra. }
    assert (Eq: ln (hi / lo) = q * ln 10) by (unfold q; field; lra).
    assert (100 * q <= nd * q) by (apply Rmult_le_compat_r; lra).
    assert (NN': 98 * q <= INR (n - 1)) by (rewrite NM; lra).
    unfold h. split; [apply div_pos; lra|]. apply Rmult_le_reg_r with (INR (n - 1)); [lra|]. unfold Rdiv at 1. rewrite Rmult_assoc, Rinv_l, Rmult_1_r by lra.
    rewrite Eq. apply Rle_trans with (2350 / 100000 * (98 * q)); [|apply Rmult_le_compat_l; lra]. nra. }
  assert (LN: ln (step nd lo hi) = h). { unfold step, Rpower. rewrite ln_exp. fold n. unfold h. unfold Rdiv. ring. }
  assert (S1: 1 <= step nd lo hi). { rewrite <- (exp_ln (step nd lo hi)) by apply exp_pos. rewrite LN. rewrite <- exp_0. apply exp_le. lra. }
  assert (LS: log_step h (gam mec2 nd lo hi)). { rewrite <- LN. apply ratio_le_step; assumption. }
  assert (M0: 0 <= M) by (apply (smooth_M_pos pd lo hi M); try lra; assumption).
  assert (ERR: 1 <= exp ((M + (6 * 32 + 16)) * h ^ 2 / 8 + / 10 ^ 10 * h) <= 1 + 155 / 10000).
  { set (y := (M + (6 * 32 + 16)) * h ^ 2 / 8 + / 10 ^ 10 * h).
    assert (H2: 0 <= h ^ 2 <= 553 / 1000000). { split; [apply pow2_ge_0|]. cbn [pow]. rewrite Rmult_1_r. nra. }
    assert (Y: 0 <= y <= 151 / 10000).
    { unfold y. assert (A: (M + (6 * 32 + 16)) * h ^ 2 <= 218 * (553 / 1000000)) by (apply Rmult_le_compat; lra).
      assert (0 <= (M + (6 * 32 + 16)) * h ^ 2) by (apply Rmult_le_pos; lra). replace (10 ^ 10) with 10000000000 by ring. lra. }
    split; [rewrite <- exp_0; apply exp_le; lra|]. eapply Rle_trans; [apply exp_upper; lra|]. apply Rmult_le_reg_r with (1 - y); [lra|]. rewrite Rinv_l by lra. nra. }
  assert (SM: forall g, a <= g -> 4 * e <= g -> g < b -> xi e kT g <= 32 -> log_smooth f g b (M + (6 * 32 + 16))).
  { intros g H1 H2 H3 H4. apply (smooth_tf mec2 pd lo hi M T e g b 32); try assumption; try lra.
    - apply (Rmult_le_compat_r mec2) in H1; [|lra]. unfold a in H1. replace (lo / mec2 * mec2) with lo in H1 by (field; lra). exact H1.
    - unfold b. right. field. lra. }
  assert (EXP: exp h <= 10241 / 10000). { eapply Rle_trans; [apply exp_upper; lra|]. apply Rmult_le_reg_r with (1 - h); [lra|]. rewrite Rinv_l by lra. lra. }
  assert (KEY: Rabs (trapz_loglog (map f (gam mec2 nd lo hi)) (gam mec2 nd lo hi) - IE) <= 2 / 100 * IE).
  { destruct (rt_spec T e HT He 30 ltac:(lra)) as (R1 & R2 & R3). fold kT in R2, R3. fold c in R2. set (r := rt T e 30) in *.
    assert (R4: 9 / 2 * e <= r). { destruct (Rle_or_lt (9 / 2 * e) r) as [|L]; [assumption|exfalso]. assert (r * (r - e) <= 9 / 2 * e * (7 / 2 * e)) by (apply Rmult_le_compat; lra). assert (16 * e ^ 2 <= c / 30) by lra. assert (0 < e ^ 2) by (apply pow_lt; assumption). nra. }
    destruct (Rlt_or_le r a) as [C|C].
    - assert (XA: xi e kT a <= 30). { rewrite <- R3. apply xi_anti; try assumption; lra. }
      pose proof (C119_integral f a b _ h _ ltac:(lra) AB (SM a ltac:(lra) ltac:(lra) AB ltac:(lra)) G E1 E2 LS) as (A1 & A2). cbv zeta in A1, A2. fold IE in A1, A2.
      eapply Rle_trans; [apply (err_abs _ _ _ (proj1 ERR) IE0 A1 A2)|]. apply Rmult_le_compat_r; lra.
    - assert (RB: r < b). { destruct (Rlt_or_le r b) as [|L]; [assumption|exfalso]. pose proof (xi_anti e kT b r He Pt Heb L) as Y. rewrite R3 in Y. lra. }
      destruct (gam mec2 nd lo hi) as [|x0 xs] eqn:GE; [cbn in E1; lra|]. cbn [hd] in E1. subst x0.
      destruct (find_split r h ltac:(lra) xs a G LS) as (ps & gc & qs & EQ & (Q1 & Q2) & Q3 & Q4 & Q5 & Q6 & Q7 & Q8 & Q9); [lra|rewrite E2; assumption|].
      rewrite E2 in Q3, Q4. assert (AG: a <= gc).
      { destruct (ps ++ [gc]) as [|y0 ys] eqn:EP; [destruct ps; discriminate|]. cbn [hd] in Q9. subst y0. apply (grid_range a ys Q7). rewrite <- EP. apply in_or_app. right. left. reflexivity. }
      assert (Q2': r <= gc * (10241 / 10000)). { apply Rle_trans with (gc * exp h); [lra|]. apply Rmult_le_compat_l; lra. }
      assert (G4: 4 * e <= gc) by lra.
      assert (XG: 1 + 29 <= xi e kT gc) by (replace (1 + 29) with 30 by lra; rewrite <- R3; apply xi_anti; try assumption; lra).
      assert (XU: xi e kT gc <= 32).
      { unfold xi. fold c. assert (W: 0 < gc * (gc - e)) by (apply Rmult_lt_0_compat; lra). apply Rmult_le_reg_r with (gc * (gc - e)); [assumption|]. unfold Rdiv. rewrite Rmult_assoc, Rinv_l, Rmult_1_r by lra.
        assert (r * (r - e) <= gc * (10241 / 10000) * (gc * (10241 / 10000) - e)) by (apply Rmult_le_compat; lra). assert (c = 30 * (r * (r - e))) by (rewrite R2; field).
        assert (gc * (4 * e) <= gc * gc) by (apply Rmult_le_compat_l; lra). nra. }
      assert (HSq: S / 2 + 3 <= 6) by lra.
      assert (TS: gc * f gc <= 16 / 3 * (exp ((S / 2 + 3) * ln (1 + 29)) * exp (1 - 29)) * RInt f gc b).
      { apply (th_tail mec2 pd lo hi T e S Hm Hlo HT He PP (proj1 HS) FALL gc 29); fold a b kT; try assumption; try lra. apply (ex_RInt_Chasles_2 f a gc b); [lra|exact EXf]. }
      pose proof (tail_num (S / 2 + 3) ltac:(lra)) as TN. set (tau := 16 / 3 * (exp ((S / 2 + 3) * ln (1 + 29)) * exp (1 - 29))) in *.
      assert (TP: 0 <= tau). { unfold tau. apply Rmult_le_pos; [lra|]. apply Rlt_le, Rmult_lt_0_compat; apply exp_pos. }
      rewrite EQ. eapply Rle_trans; [apply (acc_split0 f a b gc _ h tau ps qs ltac:(lra) AG Q3 ltac:(lra) EXf NN (SM gc AG G4 Q3 XU) Q7 Q8 Q9 Q5 Q6 Q4)|].
      + apply (th_incr mec2 pd lo hi T e S Hm Hlo HT He PP (proj1 HS) FALL gc); fold a b kT; try assumption; try lra.
      + exact TP.
      + exact TS.
      + fold IE. apply Rmult_le_compat_r; lra. }
  (* prefactor *)
  unfold computed. change (nth i (ic_spectrum mec2 ar pd (gam mec2 nd lo hi) [Thermal T u None] Es) 0) with (N1 mec2 ar nd pd lo hi Es i (Thermal T u None)). rewrite N1_eq by assumption. fold E e.
  change (fun g => pd (g * mec2) * mec2 * seed_kernel (Thermal T u None) g e) with f. set (tp := trapz_loglog (map f (gam mec2 nd lo hi)) (gam mec2 nd lo hi)) in *.
  set (Q := u / (ar * T ^ 4) / mec2). assert (PQ: 0 < Q). { unfold Q. repeat apply div_pos; try assumption. apply Rmult_lt_0_compat; [assumption|apply pow_lt; assumption]. }
  assert (EE: exact = Q * IE).
  { unfold exact, ic_exact. cbn [seed_factor]. change (RInt (ic_integrand mec2 pd (Thermal T u None) E) (lo / mec2) (hi / mec2)) with IE. clearbody IE. unfold Q, e.
    field. repeat split; lra. }
  rewrite EE. replace (Q * tp - Q * IE) with (Q * (tp - IE)) by ring. rewrite Rabs_mult, (Rabs_pos_eq Q) by lra. replace (2 / 100 * (Q * IE)) with (Q * (2 / 100 * IE)) by ring. apply Rmult_le_compat_l; [lra|exact KEY].
Qed.
Print Assumptions C179_thomson_partial.

(** Power laws E^-alpha with 0 <= alpha <= 6 *)
Theorem C179_power_law_partial : forall mec2 ar nd A e0 alpha lo hi Es i T u, 0 < mec2 -> 0 < ar -> 0 < A -> 0 < e0 -> 0 <= alpha <= 6 ->
  mec2 < lo -> 10 * lo <= hi -> 100 <= nd -> (i < List.length Es)%nat -> let E := nth i Es 0 in let kT := T * Ktomec2 in 0 < E -> 0 < T -> 0 < u ->
  1920 * kT * (E / mec2) <= 1 -> E < hi -> E / mec2 <= 4 * kT * (hi / mec2) * ((hi - E) / mec2) ->
  let pd := fun e => power_law e A e0 alpha in
  let exact := ic_exact mec2 ar pd lo hi E (Thermal T u None) in
  let computed := nth i (ic_spectrum mec2 ar pd (gam mec2 nd lo hi) [Thermal T u None] Es) 0 in
  Rabs (computed - exact) <= 2 / 100 * exact.
Proof.
  intros mec2 ar nd A e0 alpha lo hi Es i T u Hm Har HA He Hal Hlo Hhi Hnd Hi E kT PE HT Hu HTh HEh HX pd exact computed.
  assert (PP: forall e, 0 < e -> 0 < pd e) by (intros e Pe; unfold pd, power_law; apply Rmult_lt_0_compat; [assumption|apply exp_pos]).
  apply (C179_thomson_partial mec2 ar nd pd lo hi Es i T u 0 alpha); try assumption; try lra.
  - apply (smooth_ext (fun e => e * power_law e (A / e0) e0 (alpha + 1))); [lra| |apply smooth_power_law; try assumption; [apply div_pos; assumption|lra]].
    intros x Hx. apply pl_shift; assumption.
  - intros e1 e2 H1 H2 H3 _. right. unfold pd, power_law, Rpower. rewrite Rmult_assoc, <- exp_plus. do 2 f_equal. rewrite !ln_div by lra. ring.
Qed.
Print Assumptions C179_power_law_partial.

(** a case: energies in units of m_e c^2; electrons E^-2 between 10 and 10^9, the cosmic microwave background (2.725 K), photon
    energy 10^5 (50 GeV): the photons given by the least energetic electrons have energies 10^12 times smaller *)
Example C179_example : let pd := fun e => power_law e 1 1 2 in let exact := ic_exact 1 1 pd 10 1000000000 100000 (Thermal (2725 / 1000) 1 None) in
  Rabs (nth 0 (ic_spectrum 1 1 pd (gam 1 100 10 1000000000) [Thermal (2725 / 1000) 1 None] [100000]) 0 - exact) <= 2 / 100 * exact.
Proof.
  assert (KK: Ktomec2 = 16863699549 / 100000000000000000000) by (unfold Ktomec2; lra).
  apply (C179_power_law_partial 1 1 100 1 1 2 10 1000000000 [100000] 0%nat (2725 / 1000) 1); try (rewrite KK); cbn [nth length]; try lra; try lia.
Qed.
