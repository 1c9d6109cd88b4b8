(** Property C172: inverse Compton electrons on isotropic black-body photons lose energy at the classical
    rate, less what recoil takes away. *)
From Coq Require Import Reals ZArith List Lra Lia.
From Coquelicot Require Import Coquelicot.
From Verif Require Import TrapzProofs ElectronModel ElectronProofs ConvProofs ErrProofs PubProps3 PubProps4 FloatTrapzProofs IntervalProofs PlanckProofs.
Local Open Scope R_scope.

(** ** The physics: energy density of black-body photons, Thomson cross section, and the
    power 4/3 sigma_T c gamma^2 u an electron loses in isotropic photons of energy density u. *)
Definition u_black_body (T : R) : R := PI ^ 2 / 15 * (k_B * T) ^ 4 / (m_e_c2 * lambda_C) ^ 3.
Definition thomson : R := 8 * PI / 3 * r_e ^ 2.
Definition classical_power (gamma T : R) : R := 4 / 3 * thomson * light * gamma ^ 2 * u_black_body T.

(** ** Elementary bounds *)
Definition G3 (x : R) : R := G34 x (606 / 1000) (443 / 1000) (1481 / 1000) (54 / 100) (319 / 1000).
Lemma lead_bounds c x : 0 < c -> 0 < x -> 1 <= 1 + (1 - wpi) / (wpi + c * x) <= 1646 / 1000.
Proof.
  intros Hc Hx. pose proof wpi_bounds as W. assert (0 < c * x) by (apply Rmult_lt_0_compat; assumption). split.
  - assert (0 <= (1 - wpi) / (wpi + c * x)); [|lra]. apply Rmult_le_pos; [lra|]. left. apply Rinv_0_lt_compat. lra.
  - assert ((1 - wpi) / (wpi + c * x) <= 646 / 1000); [|lra]. apply Rmult_le_reg_r with (wpi + c * x); [lra|]. unfold Rdiv at 1. rewrite Rmult_assoc, Rinv_l by lra. lra.
Qed.
Lemma tail_bounds A B a b : 0 < A -> 0 < B -> 0 < a -> 0 < b -> 0 < / (1 + a * A / (1 + b * B)) <= 1.
Proof.
  intros HA HB Ha Hb. assert (0 < b * B) by (apply Rmult_lt_0_compat; assumption). assert (0 < a * A) by (apply Rmult_lt_0_compat; assumption).
  assert (0 < a * A / (1 + b * B)) by (apply Rmult_lt_0_compat; [assumption|apply Rinv_0_lt_compat; lra]).
  split; [apply Rinv_0_lt_compat; lra|]. apply Rle_trans with (/ 1); [apply Rinv_le_contravar; lra|rewrite Rinv_1; lra].
Qed.
Lemma G34_bounds x al a be b c : 0 < x -> 0 < a -> 0 < b -> 0 < c -> 0 <= G34 x al a be b c <= 1646 / 1000 * exp (- x).
Proof.
  intros Hx Ha Hb Hc. rewrite G34_form by assumption. destruct (lead_bounds c x Hc Hx) as (L1 & L2). destruct (tail_bounds (Rpower x al) (Rpower x be) a b) as (T1 & T2); try assumption; try apply exp_pos.
  pose proof (exp_pos (- x)) as E. unfold Rdiv at 1 4. set (t := / _) in *. set (l := 1 + _) in *.
  assert (0 < l * exp (- x)) by (apply Rmult_lt_0_compat; lra). split; [apply Rmult_le_pos; lra|].
  apply Rle_trans with (l * exp (- x) * 1); [apply Rmult_le_compat_l; lra|]. rewrite Rmult_1_r. apply Rmult_le_compat_r; lra.
Qed.
Lemma G4_bounds x : 0 < x -> 0 <= G4 x <= 1646 / 1000 * exp (- x).
Proof. intros Hx. apply G34_bounds; lra. Qed.
Lemma G3_bounds x : 0 < x -> 0 <= G3 x <= 6 * G4 x.
Proof.
  intros Hx. split; [apply G34_bounds; lra|]. unfold G3. rewrite (G4_form x Hx). rewrite G34_form by lra.
  destruct (lead_bounds (319 / 1000) x ltac:(lra) Hx) as (_ & L3). destruct (lead_bounds (662 / 100) x ltac:(lra) Hx) as (L4 & _).
  destruct (tail_bounds (Rpower x (606 / 1000)) (Rpower x (1481 / 1000)) (443 / 1000) (54 / 100)) as (T1 & T2); try apply exp_pos; try lra.
  pose proof (exp_pos (- x)) as E. set (l3 := 1 + _ / (wpi + 319 / 1000 * x)) in *. set (l4 := 1 + _ / (wpi + 662 / 100 * x)) in *.
  set (A := Rpower x (461 / 1000)). set (B := Rpower x (1457 / 1000)). assert (PA: 0 < A) by apply exp_pos. assert (PB: 0 < B) by apply exp_pos.
  assert (AB: A <= 1 + B).
  { destruct (Rle_lt_dec x 1) as [C|C].
    - assert (A <= 1). { unfold A. replace 1 with (Rpower 1 (461 / 1000)) by (unfold Rpower; rewrite ln_1, Rmult_0_r; apply exp_0). apply Rle_Rpower_l; lra. } lra.
    - assert (A <= B) by (unfold A, B; apply Rle_Rpower; lra). lra. }
  assert (Q: 726 / 1000 * A / (1 + 382 / 1000 * B) <= 1901 / 1000).
  { apply Rmult_le_reg_r with (1 + 382 / 1000 * B); [lra|]. unfold Rdiv at 1. rewrite Rmult_assoc, Rinv_l by lra. lra. }
  assert (Q0: 0 <= 726 / 1000 * A / (1 + 382 / 1000 * B)). { apply Rmult_le_pos; [lra|]. left. apply Rinv_0_lt_compat. lra. }
  set (d := 726 / 1000 * A / (1 + 382 / 1000 * B)) in *. unfold Rdiv at 1. set (t3 := / (1 + _)) in *.
  apply Rle_trans with (1646 / 1000 * exp (- x)).
  - apply Rle_trans with (l3 * exp (- x) * 1). { apply Rmult_le_compat_l; [|lra]. apply Rmult_le_pos; [|lra]. unfold l3. destruct (lead_bounds (319 / 1000) x ltac:(lra) Hx). lra. }
    rewrite Rmult_1_r. apply Rmult_le_compat_r; lra.
  - assert (K: / (1 + d) >= / (2901 / 1000)) by (apply Rle_ge, Rinv_le_contravar; lra). unfold Rdiv. fold (Rdiv 461 1000).
    assert (LE: exp (- x) <= l4 * exp (- x)) by nra. assert (P1: exp (- x) * / (2901 / 1000) <= l4 * exp (- x) * / (1 + d)) by (apply Rmult_le_compat; lra). lra.
Qed.

(** the integrand in the variable x = E / (b gamma (gamma - E)) *)
Definition Jf (b x : R) : R := x / (1 + b * x) ^ 3 * ((b * x) ^ 2 / (2 * (1 + b * x)) * G3 x + G4 x).
Lemma Jf_upper b x : 0 < b -> 0 < x -> 0 <= Jf b x <= G4 x * x.
Proof.
  intros Hb Hx. unfold Jf. set (y := b * x). assert (Hy: 0 < y) by (apply Rmult_lt_0_compat; assumption). destruct (G3_bounds x Hx) as (A & B). destruct (G4_bounds x Hx) as (C & _).
  assert (P3: 0 < (1 + y) ^ 3) by (apply pow_lt; lra).
  assert (K: y ^ 2 / (2 * (1 + y)) * G3 x <= 3 * y ^ 2 * G4 x).
  { apply Rle_trans with (y ^ 2 / 2 * (6 * G4 x)); [|lra]. apply Rmult_le_compat; try assumption.
    - apply Rmult_le_pos; [nra|]. left. apply Rinv_0_lt_compat. lra.
    - unfold Rdiv. apply Rmult_le_compat_l; [nra|]. apply Rinv_le_contravar; lra. }
  assert (K0: 0 <= y ^ 2 / (2 * (1 + y)) * G3 x). { apply Rmult_le_pos; [|assumption]. apply Rmult_le_pos; [nra|]. left. apply Rinv_0_lt_compat. lra. }
  set (g3 := y ^ 2 / (2 * (1 + y)) * G3 x) in *. split.
  - apply Rmult_le_pos; [|lra]. apply Rmult_le_pos; [lra|]. left. apply Rinv_0_lt_compat. exact P3.
  - replace (x / (1 + y) ^ 3 * (g3 + G4 x)) with (x * ((g3 + G4 x) / (1 + y) ^ 3)) by (field; lra). rewrite (Rmult_comm (G4 x)). apply Rmult_le_compat_l; [lra|].
    apply Rmult_le_reg_r with ((1 + y) ^ 3); [exact P3|]. unfold Rdiv. rewrite Rmult_assoc, Rinv_l, Rmult_1_r by lra.
    assert (0 <= G4 x * (3 * y + y ^ 3)). { apply Rmult_le_pos; [assumption|]. assert (0 < y ^ 3) by (apply pow_lt; exact Hy). lra. }
    replace (G4 x * (1 + y) ^ 3) with (G4 x + 3 * y ^ 2 * G4 x + G4 x * (3 * y + y ^ 3)) by ring. lra.
Qed.
Lemma Jf_lower b x : 0 < b -> 0 < x -> G4 x * x - 3 * b * (G4 x * x * x) <= Jf b x.
Proof.
  intros Hb Hx. unfold Jf. set (y := b * x). assert (Hy: 0 < y) by (apply Rmult_lt_0_compat; assumption). destruct (G3_bounds x Hx) as (A & B). destruct (G4_bounds x Hx) as (C & _).
  assert (P3: 0 < (1 + y) ^ 3) by (apply pow_lt; lra).
  assert (K0: 0 <= y ^ 2 / (2 * (1 + y)) * G3 x). { apply Rmult_le_pos; [|assumption]. apply Rmult_le_pos; [nra|]. left. apply Rinv_0_lt_compat. lra. }
  set (g3 := y ^ 2 / (2 * (1 + y)) * G3 x) in *.
  apply Rle_trans with (x / (1 + y) ^ 3 * G4 x).
  - replace (G4 x * x - 3 * b * (G4 x * x * x)) with (x * G4 x * (1 - 3 * y)) by (unfold y; ring). replace (x / (1 + y) ^ 3 * G4 x) with (x * G4 x * / (1 + y) ^ 3) by (field; lra).
    apply Rmult_le_compat_l; [apply Rmult_le_pos; lra|]. apply Rmult_le_reg_r with ((1 + y) ^ 3); [exact P3|]. rewrite Rinv_l by lra.
    assert (0 < y ^ 3) by (apply pow_lt; exact Hy). assert (0 < y ^ 2) by (apply pow_lt; exact Hy). assert (0 < y ^ 4) by (apply pow_lt; exact Hy).
    replace ((1 - 3 * y) * (1 + y) ^ 3) with (1 - 6 * y ^ 2 - 8 * y ^ 3 - 3 * y ^ 4) by ring. lra.
  - apply Rmult_le_compat_l; [|lra]. apply Rmult_le_pos; [lra|]. left. apply Rinv_0_lt_compat. exact P3.
Qed.

(** ** Integrals *)
Lemma G3_cont x : 0 < x -> continuity_pt G3 x. Proof. intros; apply G34_cont; lra. Qed.
Lemma G4_cont x : 0 < x -> continuity_pt G4 x. Proof. intros; apply G34_cont; lra. Qed.
Lemma Jf_cont b x : 0 < b -> 0 < x -> continuity_pt (Jf b) x.
Proof.
  intros Hb Hx. assert (Hy: 0 < b * x) by (apply Rmult_lt_0_compat; assumption). unfold Jf.
  apply (continuity_pt_mult (fun x => x / (1 + b * x) ^ 3) (fun x => (b * x) ^ 2 / (2 * (1 + b * x)) * G3 x + G4 x)).
  - apply continuity_pt_filterlim. apply (@ex_derive_continuous R_AbsRing R_NormedModule (fun x => x / (1 + b * x) ^ 3) x). auto_derive. assert (0 < (1 + b * x) ^ 3) by (apply pow_lt; lra). cbn [pow] in *. lra.
  - apply (continuity_pt_plus (fun x => (b * x) ^ 2 / (2 * (1 + b * x)) * G3 x) G4); [|apply G4_cont; assumption].
    apply (continuity_pt_mult (fun x => (b * x) ^ 2 / (2 * (1 + b * x))) G3); [|apply G3_cont; assumption].
    apply continuity_pt_filterlim. apply (@ex_derive_continuous R_AbsRing R_NormedModule (fun x => (b * x) ^ 2 / (2 * (1 + b * x))) x). auto_derive. lra.
Qed.
Lemma G4xx_cont x : 0 < x -> continuity_pt (fun x => G4 x * x * x) x.
Proof. intros Hx. apply (continuity_pt_mult (fun x => G4 x * x) (fun x => x)); [apply G4x_cont; exact Hx|]. apply derivable_continuous_pt, derivable_pt_id. Qed.
Lemma sub_RInt (f : R -> R) a c d b : 0 < a -> a <= c -> c <= d -> d <= b -> (forall x, 0 < x -> continuity_pt f x) -> (forall x, 0 < x -> 0 <= f x) ->
  RInt f c d <= RInt f a b.
Proof.
  intros H0 H1 H2 H3 C P.
  assert (EX: forall u v, 0 < u -> u <= v -> ex_RInt f u v). { intros. apply ex_RInt_cont; [assumption|]. intros; apply C; lra. }
  assert (NN: forall u v, 0 < u -> u <= v -> 0 <= RInt f u v). { intros u v Hu Hv. apply RInt_ge_0; [exact Hv|apply EX; assumption|]. intros; apply P; lra. }
  rewrite <- (RInt_Chasles f a c b) by (apply EX; lra). rewrite <- (RInt_Chasles f c d b) by (apply EX; lra).
  repeat match goal with |- context [plus ?u ?v] => change (plus u v) with (u + v) end. pose proof (NN a c ltac:(lra) ltac:(lra)). pose proof (NN d b ltac:(lra) ltac:(lra)). lra.
Qed.
Lemma prim_RInt (F f : R -> R) a b : (forall x, is_derive F x (f x)) -> (forall x, continuous f x) -> is_RInt f a b (F b - F a).
Proof. intros D C. change (F b - F a) with (minus (F b) (F a)). apply (is_RInt_derive F f); intros; [apply D|apply C]. Qed.
Lemma exp_m16 : exp (- 16) <= / 65536.
Proof.
  replace (-16) with (Ropp 16) by lra. rewrite exp_Ropp. apply Rinv_le_contravar; [lra|]. apply Rle_trans with (exp (INR 16 * 1)).
  - assert (E: forall n, 2 ^ n <= exp (INR n * 1)). { induction n as [|n IH]; [simpl; rewrite Rmult_0_l, exp_0; lra|]. rewrite S_INR. replace ((INR n + 1) * 1) with (1 + INR n * 1) by ring. rewrite exp_plus. cbn [pow]. pose proof (exp_ge_1p 1). assert (0 < 2 ^ n) by (apply pow_lt; lra). apply Rmult_le_compat; lra. }
    apply Rle_trans with (2 ^ 16); [lra|apply E].
  - apply exp_le. simpl. lra.
Qed.
Lemma G4x_upper l h : 0 < l -> l < h -> RInt (fun x => G4 x * x) l h <= 7268 / 10000.
Proof.
  intros Hl Hh. destruct planck_integral as (p & q & Hp & Hq & _ & U). set (a := Rmin l p). set (b := Rmax h q).
  assert (Ha: 0 < a /\ a <= l /\ a <= p). { unfold a. repeat split; [apply Rmin_glb_lt; lra|apply Rmin_l|apply Rmin_r]. }
  assert (Hb: h <= b /\ q <= b). { unfold b. split; [apply Rmax_l|apply Rmax_r]. }
  assert (C: forall x, 0 < x -> continuity_pt (fun x => G4 x * x) x) by (intros; apply G4x_cont; assumption).
  assert (P: forall x, 0 < x -> 0 <= G4 x * x) by (intros; apply Rmult_le_pos; [apply G4_bounds; assumption|lra]).
  eapply Rle_trans; [apply (sub_RInt _ a l h b); try assumption; lra|].
  assert (EX: forall u v, 0 < u -> u <= v -> ex_RInt (fun x => G4 x * x) u v). { intros. apply ex_RInt_cont; [assumption|]. intros; apply C; lra. }
  rewrite <- (RInt_Chasles _ a p b) by (apply EX; lra). rewrite <- (RInt_Chasles _ p q b) by (apply EX; lra).
  repeat match goal with |- context [plus ?u ?v] => change (plus u v) with (u + v) end.
  assert (I1: is_RInt (fun x => 1646 / 1000 * x) a p (1646 / 1000 * (p ^ 2 / 2) - 1646 / 1000 * (a ^ 2 / 2))).
  { apply (prim_RInt (fun x => 1646 / 1000 * (x ^ 2 / 2))); intros x; [auto_derive; [exact Logic.I|field]|]. apply (@ex_derive_continuous R_AbsRing R_NormedModule (fun x => 1646 / 1000 * x) x). auto_derive. exact Logic.I. }
  assert (I2: is_RInt (fun x => 1646 / 1000 * (x * exp (- x))) q b (- (1646 / 1000 * ((b + 1) * exp (- b))) - - (1646 / 1000 * ((q + 1) * exp (- q))))).
  { apply (prim_RInt (fun x => - (1646 / 1000 * ((x + 1) * exp (- x))))); intros x; [auto_derive; [exact Logic.I|ring]|]. apply (@ex_derive_continuous R_AbsRing R_NormedModule (fun x => 1646 / 1000 * (x * exp (- x))) x). auto_derive. exact Logic.I. }
  assert (K1: RInt (fun x => G4 x * x) a p <= 1646 / 1000 * (p ^ 2 / 2) - 1646 / 1000 * (a ^ 2 / 2)).
  { rewrite <- (is_RInt_unique _ _ _ _ I1). apply RInt_le; [lra|apply EX; lra|eexists; exact I1|]. intros x Hx. apply Rmult_le_compat_r; [lra|].
    destruct (G4_bounds x ltac:(lra)) as (_ & V). assert (exp (- x) <= 1) by (rewrite <- exp_0; apply exp_le; lra). lra. }
  assert (K2: RInt (fun x => G4 x * x) q b <= - (1646 / 1000 * ((b + 1) * exp (- b))) - - (1646 / 1000 * ((q + 1) * exp (- q)))).
  { rewrite <- (is_RInt_unique _ _ _ _ I2). apply RInt_le; [lra|apply EX; lra|eexists; exact I2|]. intros x Hx. destruct (G4_bounds x ltac:(lra)) as (_ & V).
    replace (1646 / 1000 * (x * exp (- x))) with (1646 / 1000 * exp (- x) * x) by ring. apply Rmult_le_compat_r; lra. }
  assert (0 < (b + 1) * exp (- b)) by (apply Rmult_lt_0_compat; [lra|apply exp_pos]). assert (0 <= a ^ 2) by nra. assert (p ^ 2 <= (201 / 10000) ^ 2) by nra.
  assert (E16: exp (- q) <= / 65536). { eapply Rle_trans; [|exact exp_m16]. apply exp_le. lra. }
  assert ((q + 1) * exp (- q) <= 18 * / 65536). { pose proof (exp_pos (- q)). apply Rmult_le_compat; lra. }
  set (x1 := RInt _ a p) in *. set (x2 := RInt _ p q) in *. set (x3 := RInt _ q b) in *. clearbody x1 x2 x3. lra.
Qed.
Lemma Jf_integral_upper b l h : 0 < b -> 0 < l -> l < h -> RInt (Jf b) l h <= 7268 / 10000.
Proof.
  intros Hb Hl Hh. eapply Rle_trans; [|apply (G4x_upper l h Hl Hh)]. apply RInt_le; [lra| | |].
  - apply ex_RInt_cont; [lra|]. intros; apply Jf_cont; lra.
  - apply ex_RInt_cont; [lra|]. intros; apply G4x_cont; lra.
  - intros x Hx. apply Jf_upper; lra.
Qed.
Lemma Jf_integral_lower b l h : 0 < b -> 0 < l -> l <= 199 / 10000 -> 17 <= h -> 7169 / 10000 - 3 * b * (3293 / 1000) <= RInt (Jf b) l h.
Proof.
  intros Hb Hl H1 H2. destruct planck_integral as (p & q & Hp & Hq & L & _).
  eapply Rle_trans; [|apply (sub_RInt (Jf b) l p q h); try lra; [intros; apply Jf_cont; assumption|intros; apply Jf_upper; assumption]].
  assert (E1: ex_RInt (fun x => G4 x * x) p q). { apply ex_RInt_cont; [lra|]. intros; apply G4x_cont; lra. }
  assert (E2: ex_RInt (fun x => G4 x * x * x) p q). { apply ex_RInt_cont; [lra|]. intros; apply G4xx_cont; lra. }
  assert (I2: is_RInt (fun x => 1646 / 1000 * (x * x * exp (- x))) p q (- (1646 / 1000 * ((q ^ 2 + 2 * q + 2) * exp (- q))) - - (1646 / 1000 * ((p ^ 2 + 2 * p + 2) * exp (- p))))).
  { apply (prim_RInt (fun x => - (1646 / 1000 * ((x ^ 2 + 2 * x + 2) * exp (- x))))); intros x; [auto_derive; [exact Logic.I|ring]|]. apply (@ex_derive_continuous R_AbsRing R_NormedModule (fun x => 1646 / 1000 * (x * x * exp (- x))) x). auto_derive. exact Logic.I. }
  assert (K2: RInt (fun x => G4 x * x * x) p q <= 3293 / 1000).
  { apply Rle_trans with (- (1646 / 1000 * ((q ^ 2 + 2 * q + 2) * exp (- q))) - - (1646 / 1000 * ((p ^ 2 + 2 * p + 2) * exp (- p)))).
    - rewrite <- (is_RInt_unique _ _ _ _ I2). apply RInt_le; [lra|exact E2|eexists; exact I2|]. intros x Hx. destruct (G4_bounds x ltac:(lra)) as (_ & V).
      replace (1646 / 1000 * (x * x * exp (- x))) with (1646 / 1000 * exp (- x) * x * x) by ring. apply Rmult_le_compat_r; [lra|]. apply Rmult_le_compat_r; lra.
    - assert (0 < (q ^ 2 + 2 * q + 2) * exp (- q)) by (apply Rmult_lt_0_compat; [nra|apply exp_pos]).
      destruct (exp_m_bounds p ltac:(lra)) as (_ & Q). assert (M: (p ^ 2 + 2 * p + 2) * exp (- p) <= (p ^ 2 + 2 * p + 2) * (1 - p + p ^ 2 / 2)) by (apply Rmult_le_compat_l; [nra|exact Q]).
      replace ((p ^ 2 + 2 * p + 2) * (1 - p + p ^ 2 / 2)) with (2 + p ^ 4 / 2) in M by field. assert (p ^ 4 <= (201 / 10000) ^ 4) by (apply pow_incr; lra). lra. }
  assert (E3: ex_RInt (fun x => 3 * b * (G4 x * x * x)) p q) by (exact (ex_RInt_scal (fun x => G4 x * x * x) p q (3 * b) E2)).
  assert (V: RInt (fun x => G4 x * x - 3 * b * (G4 x * x * x)) p q = RInt (fun x => G4 x * x) p q - 3 * b * RInt (fun x => G4 x * x * x) p q).
  { transitivity (RInt (fun x => G4 x * x) p q - RInt (fun x => 3 * b * (G4 x * x * x)) p q).
    - exact (RInt_minus (fun x => G4 x * x) (fun x => 3 * b * (G4 x * x * x)) p q E1 E3).
    - f_equal. exact (RInt_scal (fun x => G4 x * x * x) p q (3 * b) E2). }
  apply Rle_trans with (RInt (fun x => G4 x * x - 3 * b * (G4 x * x * x)) p q).
  - rewrite V. assert (3 * b * RInt (fun x => G4 x * x * x) p q <= 3 * b * (3293 / 1000)) by (apply Rmult_le_compat_l; [lra|exact K2]).
    set (x1 := RInt (fun x => G4 x * x) p q) in *. set (x2 := 3 * b * RInt _ p q) in *. clearbody x1 x2. lra.
  - apply RInt_le; [lra|exact (ex_RInt_minus _ _ p q E1 E3)|apply ex_RInt_cont; [lra|]; intros; apply Jf_cont; lra|]. intros x Hx. apply Jf_lower; lra.
Qed.

(** ** Constants *)
Lemma PI4_bounds : 97409 / 1000 < PI ^ 4 < 974092 / 10000.
Proof.
  pose proof PI_bounds as P. assert (Q: 98696039 / 10 ^ 7 < PI ^ 2 < 98696050 / 10 ^ 7) by (split; nra). replace (PI ^ 4) with (PI ^ 2 * PI ^ 2) by ring. split; nra.
Qed.
Lemma close_factor x y : 0 < y -> close x y -> exists d, Rabs d < / 10 ^ 6 /\ x = y * (1 + d).
Proof. intros Hy H. exists (x / y - 1). split; [exact H|]. field. lra. Qed.
Lemma factors d1 d2 : Rabs d1 < / 10 ^ 6 -> Rabs d2 < / 10 ^ 6 -> 99999 / 100000 <= (1 + d1) * (1 + d2) ^ 4 <= 100001 / 100000.
Proof.
  intros H1 H2. apply Rabs_def2 in H1, H2. assert (D: 999995 / 1000000 <= (1 + d2) ^ 4 <= 1000005 / 1000000).
  { assert (S: 9999979 / 10000000 <= (1 + d2) ^ 2 <= 10000021 / 10000000) by (split; nra). replace ((1 + d2) ^ 4) with ((1 + d2) ^ 2 * (1 + d2) ^ 2) by ring. split; nra. }
  split; nra.
Qed.

(** ** Change of variable *)
Lemma kernel_J K t g E1 E2 m : 0 < t -> 0 < g -> 0 < E1 -> E1 < E2 -> E2 < g ->
  let b := 4 * g * t in let phi := fun E => E / g / ((1 - E / g) * b) in
  is_RInt (fun E => E * m * (K * khangulyan None g t E)) E1 E2 (16 * m * K * g ^ 2 * t ^ 4 * RInt (Jf b) (phi E1) (phi E2)) /\ 0 < phi E1 < phi E2.
Proof.
  intros Ht Hg H1 H2 H3 b phi. assert (Hb: 0 < b) by (unfold b; apply Rmult_lt_0_compat; lra).
  assert (Z: forall E, E1 <= E <= E2 -> 0 < E / g < 1). { intros E HE. split; [apply div_pos; lra|]. apply Rmult_lt_reg_r with g; [exact Hg|]. unfold Rdiv. rewrite Rmult_assoc, Rinv_l by lra. lra. }
  assert (PH: forall E, E1 <= E <= E2 -> 0 < phi E). { intros E HE. destruct (Z E HE). unfold phi. apply div_pos; [lra|]. apply Rmult_lt_0_compat; lra. }
  set (dphi := fun E => g / (b * (g - E) ^ 2)).
  assert (DP: forall E, E1 <= E <= E2 -> is_derive phi E (dphi E)).
  { intros E HE. destruct (Z E HE) as (Z1 & Z2). unfold phi, dphi. assert (0 < 1 - E / g) by lra. auto_derive.
    - repeat split; try lra. unfold Rdiv in *. apply Rgt_not_eq. apply Rmult_lt_0_compat; [|exact Hb]. lra.
    - field. repeat split; lra. }
  assert (DC: forall E, E1 <= E <= E2 -> continuous dphi E).
  { intros E HE. apply (@ex_derive_continuous R_AbsRing R_NormedModule dphi E). unfold dphi. auto_derive. assert (0 < (g - E) ^ 2) by (apply pow_lt; lra). cbn [pow] in *. apply Rgt_not_eq. apply Rmult_lt_0_compat; lra. }
  split.
  - pose proof (is_RInt_comp (Jf b) phi dphi E1 E2) as X. rewrite Rmin_left, Rmax_right in X by lra.
    specialize (X ltac:(intros E HE; apply continuity_pt_filterlim, Jf_cont; [exact Hb|apply PH; exact HE])). specialize (X (fun E HE => conj (DP E HE) (DC E HE))).
    apply (is_RInt_scal _ _ _ (16 * m * K * g ^ 2 * t ^ 4)) in X. unfold scal in X; cbn in X. unfold mult in X; cbn in X.
    eapply is_RInt_ext; [|exact X]. intros E HE. rewrite Rmin_left, Rmax_right in HE by lra. destruct (Z E ltac:(lra)) as (Z1 & Z2).
    unfold khangulyan. cbv zeta. assert (HP: E / g / ((1 - E / g) * (4 * g * t)) = phi E) by reflexivity. rewrite HP. assert (PE: 0 < phi E) by (apply PH; lra).
    replace (540 / 1000) with (54 / 100) by lra. replace (6620 / 1000) with (662 / 100) by lra. rewrite <- !G34_pub by (try exact PE; lra).
    change (G34 (phi E) (606 / 1000) (443 / 1000) (1481 / 1000) (54 / 100) (319 / 1000)) with (G3 (phi E)). change (G34 (phi E) (461 / 1000) (726 / 1000) (1457 / 1000) (382 / 1000) (662 / 100)) with (G4 (phi E)).
    unfold Jf. generalize (G3 (phi E)) (G4 (phi E)). intros g3 g4. unfold phi, dphi, b.
    assert (0 < g - E) by lra.
    match goal with |- ?a = ?b => change (@eq R a b) end. field. repeat split; try lra.
  - split; [apply PH; lra|]. unfold phi. destruct (Z E1 ltac:(lra)) as (A1 & A2). destruct (Z E2 ltac:(lra)) as (B1 & B2).
    assert (L: E1 / g < E2 / g) by (unfold Rdiv; apply Rmult_lt_compat_r; [apply Rinv_0_lt_compat; exact Hg|exact H2]).
    apply Rmult_lt_reg_r with ((1 - E1 / g) * b * ((1 - E2 / g) * b)); [repeat apply Rmult_lt_0_compat; lra|].
    replace (E1 / g / ((1 - E1 / g) * b) * ((1 - E1 / g) * b * ((1 - E2 / g) * b))) with (E1 / g * ((1 - E2 / g) * b)) by (field; repeat split; lra).
    replace (E2 / g / ((1 - E2 / g) * b) * ((1 - E1 / g) * b * ((1 - E2 / g) * b))) with (E2 / g * ((1 - E1 / g) * b)) by (field; repeat split; lra).
    assert (0 < b * (E2 / g - E1 / g)) by (apply Rmult_lt_0_compat; lra). nra.
Qed.

(** ** Theorem *)
(** An electron of Lorentz factor [gamma] in isotropic black-body photons of temperature [T].
    The function integrated is what the library computes before it applies the dilution factor
    u / (a T^4) of the field: photons per second and photon energy, energies in units of the
    rest energy of the electron.  [4 gamma^2 k T] is the typical scattered energy, and
    b = 4 gamma k T / (m c^2) measures the recoil. *)
Theorem C172_black_body : forall T u gamma E1 E2, 0 < T -> 1 < gamma -> 0 < E1 -> E1 < E2 -> E2 < gamma ->
  let rate := seed_kernel (Thermal T u None) gamma in
  let power := RInt (fun E => E * m_e_c2 * rate E) E1 E2 in
  let P := classical_power gamma T in
  let b := 4 * gamma * k_B * T / m_e_c2 in
  ex_RInt (fun E => E * m_e_c2 * rate E) E1 E2 /\
  0 <= power <= P * (1 + 1 / 100) /\
  (E1 <= gamma * b / 100 -> 18 * (gamma * b) <= E2 -> P * (1 - 1 / 100 - 14 * b) <= power).
Proof.
  intros T u g E1 E2 HT Hg H1 H2 H3 rate power P b. destruct C151_black_body as (K & Th & CK & CT & KER).
  assert (PP: 0 < PI) by apply PI_RGT_0. assert (KB: 0 < k_B) by (unfold k_B; lra). assert (ME: 0 < m_e_c2) by (unfold m_e_c2; lra). assert (LC: 0 < lambda_C) by (unfold lambda_C; lra). assert (RE: 0 < r_e) by (unfold r_e; lra). assert (LI: 0 < light) by (unfold light; lra).
  assert (K0: 0 < 2 * r_e ^ 2 * light / (PI * lambda_C ^ 3)). { apply div_pos; [apply Rmult_lt_0_compat; [|exact LI]; apply Rmult_lt_0_compat; [lra|apply pow_lt; exact RE]|]. apply Rmult_lt_0_compat; [exact PP|apply pow_lt; exact LC]. }
  assert (T0: 0 < k_B / m_e_c2) by (apply div_pos; assumption).
  destruct (close_factor _ _ K0 CK) as (d1 & D1 & EK). destruct (close_factor _ _ T0 CT) as (d2 & D2 & ET).
  pose proof (factors d1 d2 D1 D2) as FA. apply Rabs_def2 in D1, D2. set (ka := (1 + d1) * (1 + d2) ^ 4) in *.
  assert (TP: 0 < Th * T). { apply Rmult_lt_0_compat; [|exact HT]. rewrite ET. apply Rmult_lt_0_compat; lra. }
  assert (g0: 0 < g) by lra.
  destruct (kernel_J K (Th * T) g E1 E2 m_e_c2 TP g0 H1 H2 H3) as (I & F1 & F2). cbv zeta in I, F1, F2.
  set (b' := 4 * g * (Th * T)) in *. assert (HB: b' = b * (1 + d2)) by (unfold b', b; rewrite ET; field; lra).
  assert (BP: 0 < b). { unfold b. apply div_pos; [|exact ME]. apply Rmult_lt_0_compat; [|exact HT]. apply Rmult_lt_0_compat; lra. }
  assert (BP': 0 < b') by (rewrite HB; apply Rmult_lt_0_compat; lra).
  set (J := RInt (Jf b') _ _) in I.
  assert (PV: 16 * m_e_c2 * K * g ^ 2 * (Th * T) ^ 4 = P * (135 / PI ^ 4) * ka).
  { unfold P, classical_power, thomson, u_black_body, ka. rewrite EK, ET. field. repeat split; lra. }
  assert (I': is_RInt (fun E => E * m_e_c2 * rate E) E1 E2 (P * (135 / PI ^ 4) * ka * J)).
  { rewrite <- PV. eapply is_RInt_ext; [|exact I]. intros E HE. rewrite Rmin_left, Rmax_right in HE by lra. cbv beta. unfold rate.
    destruct (KER T u None g E HT ltac:(discriminate) Hg ltac:(lra)) as (L & _). rewrite L by lra. reflexivity. }
  split; [eexists; exact I'|]. assert (PW: power = P * (135 / PI ^ 4) * ka * J) by (apply is_RInt_unique; exact I'). rewrite PW.
  assert (PPos: 0 < P). { unfold P, classical_power, thomson, u_black_body. assert (0 < g ^ 2) by (apply pow_lt; lra). assert (0 < r_e ^ 2) by (apply pow_lt; lra). assert (0 < PI ^ 2) by (apply pow_lt; lra).
    assert (0 < (k_B * T) ^ 4) by (apply pow_lt, Rmult_lt_0_compat; lra). assert (0 < (m_e_c2 * lambda_C) ^ 3) by (apply pow_lt, Rmult_lt_0_compat; lra).
    apply Rmult_lt_0_compat; [|apply div_pos; [apply Rmult_lt_0_compat; lra|lra]]. apply Rmult_lt_0_compat; [|lra]. apply Rmult_lt_0_compat; [|lra]. apply Rmult_lt_0_compat; [lra|]. apply Rmult_lt_0_compat; lra. }
  pose proof PI4_bounds as P4. set (s := 135 / PI ^ 4 * ka).
  assert (S: 13858 / 10000 <= s <= 13860 / 10000).
  { assert (Q: 135 / (974092 / 10000) <= 135 / PI ^ 4 <= 135 / (97409 / 1000)). { unfold Rdiv at 1 3 4. split; (apply Rmult_le_compat_l; [lra|]); apply Rinv_le_contravar; lra. }
    unfold s. split.
    - apply Rle_trans with (135 / (974092 / 10000) * (99999 / 100000)); [lra|]. apply Rmult_le_compat; lra.
    - apply Rle_trans with (135 / (97409 / 1000) * (100001 / 100000)); [|lra]. apply Rmult_le_compat; lra. }
  replace (P * (135 / PI ^ 4) * ka * J) with (P * (s * J)) by (unfold s; ring).
  assert (JU: J <= 7268 / 10000) by (apply Jf_integral_upper; assumption).
  assert (J0: 0 <= J). { apply RInt_ge_0; [lra|apply ex_RInt_cont; [lra|]; intros; apply Jf_cont; lra|]. intros; apply Jf_upper; lra. }
  split.
  - split; [apply Rmult_le_pos; [lra|apply Rmult_le_pos; lra]|]. apply Rmult_le_compat_l; [lra|]. apply Rle_trans with (13860 / 10000 * (7268 / 10000)); [|lra]. apply Rmult_le_compat; lra.
  - intros L1 L2. apply Rmult_le_compat_l; [lra|]. destruct (Rle_lt_dec (1 / 14) b) as [BB|BB].
    { assert (0 <= s * J) by (apply Rmult_le_pos; lra). lra. }
    assert (JL: 7169 / 10000 - 3 * b' * (3293 / 1000) <= J).
    { apply Jf_integral_lower; try assumption.
      - assert (E1 / g <= b / 100). { apply Rmult_le_reg_r with g; [lra|]. unfold Rdiv at 1. rewrite Rmult_assoc, Rinv_l by lra. lra. }
        set (z := E1 / g) in *. apply Rmult_le_reg_r with ((1 - z) * b'); [apply Rmult_lt_0_compat; [lra|exact BP']|]. unfold Rdiv at 1. rewrite Rmult_assoc, Rinv_l by (apply Rgt_not_eq, Rmult_lt_0_compat; lra).
        rewrite HB. assert (b * (999999 / 1000000) <= b * (1 + d2)) by (apply Rmult_le_compat_l; lra).
        apply Rle_trans with (199 / 10000 * ((999 / 1000) * (b * (999999 / 1000000)))); [lra|]. apply Rmult_le_compat_l; [lra|]. apply Rmult_le_compat; lra.
      - assert (18 * b <= E2 / g). { apply Rmult_le_reg_r with g; [lra|]. replace (E2 / g * g) with E2 by (field; lra). lra. }
        assert (ZZ: E2 / g < 1). { apply Rmult_lt_reg_r with g; [lra|]. unfold Rdiv. rewrite Rmult_assoc, Rinv_l by lra. lra. }
        set (z := E2 / g) in *. assert (0 < (1 - z) * b') by (apply Rmult_lt_0_compat; lra). apply Rmult_le_reg_r with ((1 - z) * b'); [assumption|]. unfold Rdiv at 1. rewrite Rmult_assoc, Rinv_l by lra.
        assert (b' <= b * (1000001 / 1000000)) by (rewrite HB; apply Rmult_le_compat_l; lra). assert ((1 - z) * b' <= 1 * b') by (apply Rmult_le_compat_r; lra). lra. }
    assert (B2: b' <= b * (1000001 / 1000000)) by (rewrite HB; apply Rmult_le_compat_l; lra).
    apply Rle_trans with (s * (7169 / 10000 - 3 * b' * (3293 / 1000))); [|apply Rmult_le_compat_l; lra].
    assert (s * (7169 / 10000) >= 13858 / 10000 * (7169 / 10000)) by (apply Rle_ge, Rmult_le_compat_r; lra). assert (s * (3 * b' * (3293 / 1000)) <= 13860 / 10000 * (3 * b' * (3293 / 1000))) by (apply Rmult_le_compat_r; lra).
    lra.
Qed.
Print Assumptions C172_black_body.

(** Non-vacuity: photons of 2.7 K, electrons of Lorentz factor one million (0.5 TeV): the scattered photons
    from 2 keV to 20 GeV; the bound is within 4 per cent. *)
Example C172_case : 0 < 27 / 10 /\ 1 < 10 ^ 6 /\ let b := 4 * 10 ^ 6 * k_B * (27 / 10) / m_e_c2 in
  / 10 ^ 3 <= 10 ^ 6 * b / 100 /\ 18 * (10 ^ 6 * b) <= 4 * 10 ^ 4 /\ 4 * 10 ^ 4 < 10 ^ 6 /\ 1 / 100 + 14 * b <= 4 / 100.
Proof. unfold k_B, m_e_c2. cbv zeta. repeat split; lra. Qed.
