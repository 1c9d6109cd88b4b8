(** Lemmas for C170: the integral of the synchrotron function, by the midpoint rule with
    a proved error and integer arithmetic. *)
From Coq Require Import Reals ZArith List Lra Lia.
From Coquelicot Require Import Coquelicot.
From Flocq Require Import Raux.
From Verif Require Import TrapzProofs ElectronModel ElectronProofs ConvProofs ErrProofs PubProps3.
Local Open Scope R_scope.

(** ** Fixed point numbers *)
Definition SC : Z := (10 ^ 12)%Z.
Fixpoint plo (b : Z) (p : positive) : Z :=
  match p with
  | xH => b
  | xO p => let r := plo b p in (r * r / SC)%Z
  | xI p => let r := plo b p in ((r * r / SC) * b / SC)%Z
  end.
Fixpoint phi (b : Z) (p : positive) : Z :=
  match p with
  | xH => b
  | xO p => let r := phi b p in (r * r / SC + 1)%Z
  | xI p => let r := phi b p in ((r * r / SC + 1) * b / SC + 1)%Z
  end.
Lemma SC_pos : 0 < IZR SC. Proof. apply IZR_lt. reflexivity. Qed.
Lemma div_lo a b : (0 < b)%Z -> IZR (a / b) <= IZR a / IZR b.
Proof.
  intros H. assert (0 < IZR b) by (apply IZR_lt; assumption). apply Rmult_le_reg_r with (IZR b); [assumption|].
  unfold Rdiv. rewrite Rmult_assoc, Rinv_l, Rmult_1_r by lra. rewrite <- mult_IZR. apply IZR_le. rewrite Z.mul_comm. apply Z.mul_div_le. assumption.
Qed.
Lemma div_hi a b : (0 < b)%Z -> IZR a / IZR b <= IZR (a / b + 1).
Proof.
  intros H. assert (0 < IZR b) by (apply IZR_lt; assumption). apply Rmult_le_reg_r with (IZR b); [assumption|].
  unfold Rdiv. rewrite Rmult_assoc, Rinv_l, Rmult_1_r by lra. rewrite <- mult_IZR. apply IZR_le.
  pose proof (Z.mul_succ_div_gt a b H). lia.
Qed.
Lemma mul_lo x y a b : (0 <= a)%Z -> (0 <= b)%Z -> IZR a <= x * IZR SC -> IZR b <= y * IZR SC -> 0 <= x -> 0 <= y ->
  (0 <= a * b / SC)%Z /\ IZR (a * b / SC) <= x * y * IZR SC.
Proof.
  intros A B Ha Hb Hx Hy. pose proof SC_pos as S. split; [apply Z.div_pos; [nia|reflexivity]|].
  apply Rle_trans with (1 := div_lo (a * b) SC eq_refl). rewrite mult_IZR.
  apply Rmult_le_reg_r with (IZR SC); [assumption|]. replace (IZR a * IZR b / IZR SC * IZR SC) with (IZR a * IZR b) by (field; lra).
  replace (x * y * IZR SC * IZR SC) with ((x * IZR SC) * (y * IZR SC)) by ring.
  apply Rmult_le_compat; try assumption; apply IZR_le; assumption.
Qed.
Lemma mul_hi x y a b : (0 <= a)%Z -> (0 <= b)%Z -> x * IZR SC <= IZR a -> y * IZR SC <= IZR b -> 0 <= x -> 0 <= y ->
  (0 <= a * b / SC + 1)%Z /\ x * y * IZR SC <= IZR (a * b / SC + 1).
Proof.
  intros A B Ha Hb Hx Hy. pose proof SC_pos as S. split. { assert (0 <= a * b / SC)%Z by (apply Z.div_pos; [nia|reflexivity]). lia. }
  apply Rle_trans with (2 := div_hi (a * b) SC eq_refl). rewrite mult_IZR.
  apply Rmult_le_reg_r with (IZR SC); [assumption|]. replace (IZR a * IZR b / IZR SC * IZR SC) with (IZR a * IZR b) by (field; lra).
  replace (x * y * IZR SC * IZR SC) with ((x * IZR SC) * (y * IZR SC)) by ring.
  apply Rmult_le_compat; try assumption; apply Rmult_le_pos; lra.
Qed.
Lemma pow_pos_xO x p : x ^ Pos.to_nat (xO p) = x ^ Pos.to_nat p * x ^ Pos.to_nat p.
Proof. rewrite <- pow_add. f_equal. lia. Qed.
Lemma pow_pos_xI x p : x ^ Pos.to_nat (xI p) = x ^ Pos.to_nat p * x ^ Pos.to_nat p * x.
Proof. replace (Pos.to_nat (xI p)) with (Pos.to_nat p + Pos.to_nat p + 1)%nat by lia. rewrite !pow_add. simpl. ring. Qed.
Lemma plo_ok x b p : 0 <= x -> (0 <= b)%Z -> IZR b <= x * IZR SC -> (0 <= plo b p)%Z /\ IZR (plo b p) <= x ^ Pos.to_nat p * IZR SC.
Proof.
  intros Hx Hb H. assert (PX: forall n, 0 <= x ^ n) by (intros; apply pow_le; assumption).
  induction p as [p (I1 & I2)|p (I1 & I2)|]; cbn [plo].
  - rewrite pow_pos_xI. destruct (mul_lo _ _ _ _ I1 I1 I2 I2 (PX _) (PX _)) as (J1 & J2). apply mul_lo; try assumption. apply Rmult_le_pos; apply PX.
  - rewrite pow_pos_xO. apply mul_lo; try assumption; apply PX.
  - change (Pos.to_nat 1) with 1%nat. rewrite pow_1. split; assumption.
Qed.
Lemma phi_ok x b p : 0 <= x -> (0 <= b)%Z -> x * IZR SC <= IZR b -> (0 <= phi b p)%Z /\ x ^ Pos.to_nat p * IZR SC <= IZR (phi b p).
Proof.
  intros Hx Hb H. assert (PX: forall n, 0 <= x ^ n) by (intros; apply pow_le; assumption).
  induction p as [p (I1 & I2)|p (I1 & I2)|]; cbn [phi].
  - rewrite pow_pos_xI. destruct (mul_hi _ _ _ _ I1 I1 I2 I2 (PX _) (PX _)) as (J1 & J2). apply mul_hi; try assumption. apply Rmult_le_pos; apply PX.
  - rewrite pow_pos_xO. apply mul_hi; try assumption; apply PX.
  - change (Pos.to_nat 1) with 1%nat. rewrite pow_1. split; assumption.
Qed.

(** exp (-1/32768000) *)
Definition q0 : R := / 32768000.
Definition elo : Z := (SC - SC / 32768000 - 1)%Z.
Definition ehi : Z := (SC - SC / 32768000 + 1)%Z.
Lemma exp_q0 : IZR elo <= exp (- q0) * IZR SC /\ exp (- q0) * IZR SC <= IZR ehi.
Proof.
  assert (A: 1 - q0 <= exp (- q0)). { pose proof (exp_ge_1p (- q0)). lra. }
  assert (B: exp (- q0) <= / (1 + q0)). { rewrite exp_Ropp. apply Rinv_le_contravar; [unfold q0; lra|]. pose proof (exp_ge_1p q0). lra. }
  assert (C: / (1 + q0) <= 1 - q0 + q0 ^ 2).
  { apply Rmult_le_reg_r with (1 + q0); [unfold q0; lra|]. rewrite Rinv_l by (unfold q0; lra).
    replace ((1 - q0 + q0 ^ 2) * (1 + q0)) with (1 + q0 ^ 3) by ring. assert (0 < q0 ^ 3) by (apply pow_lt; unfold q0; lra). lra. }
  change elo with 999999969482%Z. change ehi with 999999969484%Z. change (IZR SC) with 1000000000000. split.
  - apply Rle_trans with ((1 - q0) * 1000000000000); [unfold q0; lra|lra].
  - apply Rle_trans with ((1 - q0 + q0 ^ 2) * 1000000000000); [lra|unfold q0; lra].
Qed.
Lemma exp_pow a n : exp a ^ n = exp (INR n * a).
Proof. induction n as [|n IH]; [simpl; rewrite Rmult_0_l, exp_0; reflexivity|]. rewrite S_INR. simpl pow. rewrite IH, <- exp_plus. f_equal. ring. Qed.

(** ** The integrand in c = x^(1/3) *)
Definition Sq (c : R) : R := 1 + 34 / 10 * c ^ 2.
Definition Nn (c : R) : R := 1 + 221 / 100 * c ^ 2 + 347 / 1000 * c ^ 4.
Definition Dn (c : R) : R := 1 + 1353 / 1000 * c ^ 2 + 217 / 1000 * c ^ 4.
Definition F (c : R) : R := 5424 / 1000 * c ^ 3 * exp (- / 2 * ln (Sq c) + ln (Nn c) - ln (Dn c) - c ^ 3).
Lemma pos_all c : 1 <= Sq c /\ 1 <= Nn c /\ 1 <= Dn c.
Proof.
  assert (0 <= c ^ 2) by apply pow2_ge_0. assert (0 <= c ^ 4) by (replace (c ^ 4) with ((c ^ 2) ^ 2) by ring; apply pow2_ge_0).
  unfold Sq, Nn, Dn. repeat split; lra.
Qed.
Lemma F_eq c : F c = 5424 / 1000 * c ^ 3 / sqrt (Sq c) * (Nn c / Dn c) * exp (- c ^ 3).
Proof.
  destruct (pos_all c) as (S & N & D). unfold F.
  replace (- / 2 * ln (Sq c) + ln (Nn c) - ln (Dn c) - c ^ 3) with (- (/ 2 * ln (Sq c)) + (ln (Nn c) + (- ln (Dn c) + - c ^ 3))) by ring.
  rewrite !exp_plus. rewrite (exp_Ropp (/ 2 * ln (Sq c))), (exp_Ropp (ln (Dn c))), (exp_ln (Nn c)), (exp_ln (Dn c)) by lra.
  assert (E: exp (/ 2 * ln (Sq c)) = sqrt (Sq c)). { rewrite <- Rpower_sqrt by lra. reflexivity. }
  rewrite E. assert (0 < sqrt (Sq c)) by (apply sqrt_lt_R0; lra). field. lra.
Qed.
Lemma G_of_cube c : 0 <= c -> 3 * c ^ 2 * Gtilde (c ^ 3) = F c.
Proof.
  intros Hc. rewrite F_eq. unfold Gtilde. cbv zeta.
  assert (CB: cbrt (c ^ 3) = c).
  { unfold cbrt. destruct (Req_dec c 0) as [->|NZ].
    - replace (0 ^ 3) with 0 by ring. destruct (Rlt_dec 0 0); [lra|]. destruct (Req_EM_T 0 0); [reflexivity|lra].
    - assert (0 < c) by lra. assert (0 < c ^ 3) by (apply pow_lt; assumption).
      destruct (Rlt_dec (c ^ 3) 0); [lra|]. destruct (Req_EM_T (c ^ 3) 0); [lra|].
      replace (c ^ 3) with (Rpower c (INR 3)) by (apply Rpower_pow; assumption). rewrite Rpower_mult. replace (INR 3 * (1 / 3)) with 1 by (simpl; field). apply Rpower_1. assumption. }
  rewrite CB. fold (Sq c). fold (Nn c). fold (Dn c). destruct (pos_all c) as (S & N & D). assert (0 < sqrt (Sq c)) by (apply sqrt_lt_R0; lra). field. lra.
Qed.
(** derivatives *)
Definition w1 (c : R) : R := - (34 / 10 * c) / Sq c + (2 * (221 / 100) * c + 4 * (347 / 1000) * c ^ 3) / Nn c - (2 * (1353 / 1000) * c + 4 * (217 / 1000) * c ^ 3) / Dn c - 3 * c ^ 2.
Definition w2 (c : R) : R := - (34 / 10 * (1 - 34 / 10 * c ^ 2)) / Sq c ^ 2
  + ((2 * (221 / 100) + 12 * (347 / 1000) * c ^ 2) / Nn c - ((2 * (221 / 100) * c + 4 * (347 / 1000) * c ^ 3) / Nn c) ^ 2)
  - ((2 * (1353 / 1000) + 12 * (217 / 1000) * c ^ 2) / Dn c - ((2 * (1353 / 1000) * c + 4 * (217 / 1000) * c ^ 3) / Dn c) ^ 2) - 6 * c.
Definition ew (c : R) : R := 5424 / 1000 * exp (- / 2 * ln (Sq c) + ln (Nn c) - ln (Dn c) - c ^ 3).
Definition F1 (c : R) : R := (3 * c ^ 2 + c ^ 3 * w1 c) * ew c.
Definition F2 (c : R) : R := (6 * c + 6 * c ^ 2 * w1 c + c ^ 3 * w1 c ^ 2 + c ^ 3 * w2 c) * ew c.
Lemma ew_derive c : is_derive ew c (w1 c * ew c).
Proof.
  destruct (pos_all c) as (S & N & D). unfold ew, w1.
  unfold Sq, Nn, Dn in *. auto_derive.
  - repeat split; cbn [pow] in *; lra.
  - set (e := exp _). cbn [pow] in *. unfold Rminus at 1. field. repeat split; lra.
Qed.
Lemma w1_derive c : is_derive w1 c (w2 c).
Proof.
  destruct (pos_all c) as (S & N & D). unfold w1, w2.
  unfold Sq, Nn, Dn in *. auto_derive.
  - repeat split; cbn [pow] in *; lra.
  - cbn [pow] in *. field. repeat split; lra.
Qed.
Lemma F_derive c : is_derive F c (F1 c).
Proof.
  apply (is_derive_ext (fun c => c ^ 3 * ew c)). { intros x. unfold F, ew. match goal with |- @eq _ ?l ?r => change (@eq R l r) end. ring. }
  pose proof (ew_derive c) as E. auto_derive; [repeat split; exists (w1 c * ew c); exact E|].
  replace (Derive (fun x => ew x) c) with (w1 c * ew c) by (symmetry; apply is_derive_unique; exact E). unfold F1. ring.
Qed.
Lemma F1_derive c : is_derive F1 c (F2 c).
Proof.
  pose proof (ew_derive c) as E. pose proof (w1_derive c) as W. unfold F1. auto_derive; [repeat split; eexists; eassumption|].
  replace (Derive (fun x => ew x) c) with (w1 c * ew c) by (symmetry; apply is_derive_unique; exact E).
  replace (Derive (fun x => w1 x) c) with (w2 c) by (symmetry; apply is_derive_unique; exact W). unfold F2. ring.
Qed.
Lemma frac_le a b k : 0 <= a -> 0 < b -> a <= k * b -> 0 <= a / b <= k.
Proof.
  intros Ha Hb H. split; [apply Rmult_le_pos; [assumption|left; apply Rinv_0_lt_compat; assumption]|].
  apply Rmult_le_reg_r with b; [assumption|]. unfold Rdiv. rewrite Rmult_assoc, Rinv_l, Rmult_1_r by lra. assumption.
Qed.
Lemma R_le c : Nn c / Dn c <= 17 / 10.
Proof.
  destruct (pos_all c) as (_ & N & D). apply frac_le; try lra. assert (0 <= c ^ 2) by apply pow2_ge_0.
  assert (0 <= c ^ 4) by (replace (c ^ 4) with ((c ^ 2) ^ 2) by ring; apply pow2_ge_0). unfold Nn, Dn. lra.
Qed.
Lemma exp_ge_quad u : 0 <= u -> 1 + u + u ^ 2 / 2 <= exp u.
Proof.
  intros Hu. destruct (Req_dec u 0) as [->|NZ]; [rewrite exp_0; lra|].
  assert (D: forall x, is_derive (fun x => exp x - (1 + x + x ^ 2 / 2)) x (exp x - (1 + x))). { intros x. auto_derive; [exact Logic.I|]. field. }
  destruct (MVT_gen (fun x => exp x - (1 + x + x ^ 2 / 2)) 0 u (fun x => exp x - (1 + x))) as (z & Hz & E).
  - intros x _. apply D.
  - intros x _. apply continuity_pt_filterlim. apply (@ex_derive_continuous R_AbsRing R_NormedModule (fun x => exp x - (1 + x + x ^ 2 / 2)) x). eexists. apply D.
  - rewrite exp_0 in E. pose proof (exp_ge_1p z). assert (0 <= (exp z - (1 + z)) * (u - 0)) by (apply Rmult_le_pos; lra). lra.
Qed.
(** c e^w is at most 5 e^(-c^3) *)
Lemma cew_le c : 0 <= c -> 0 <= c * ew c <= 505 / 100 * exp (- c ^ 3).
Proof.
  intros Hc. destruct (pos_all c) as (S & N & D).
  assert (E: ew c = 5424 / 1000 * (Nn c / Dn c) * exp (- c ^ 3) / sqrt (Sq c)).
  { unfold ew. replace (- / 2 * ln (Sq c) + ln (Nn c) - ln (Dn c) - c ^ 3) with (- (/ 2 * ln (Sq c)) + (ln (Nn c) + (- ln (Dn c) + - c ^ 3))) by ring.
    rewrite !exp_plus. rewrite (exp_Ropp (/ 2 * ln (Sq c))), (exp_Ropp (ln (Dn c))), (exp_ln (Nn c)), (exp_ln (Dn c)) by lra.
    assert (Q: exp (/ 2 * ln (Sq c)) = sqrt (Sq c)). { rewrite <- Rpower_sqrt by lra. reflexivity. }
    rewrite Q. assert (0 < sqrt (Sq c)) by (apply sqrt_lt_R0; lra). field. lra. }
  split; [apply Rmult_le_pos; [assumption|]; unfold ew; pose proof (exp_pos (- / 2 * ln (Sq c) + ln (Nn c) - ln (Dn c) - c ^ 3)); lra|].
  rewrite E. assert (SP: 0 < sqrt (Sq c)) by (apply sqrt_lt_R0; lra).
  assert (CS: c <= 5425 / 10000 * sqrt (Sq c)).
  { apply Rsqr_incr_0_var; [|lra]. unfold Rsqr. replace (5425 / 10000 * sqrt (Sq c) * (5425 / 10000 * sqrt (Sq c))) with ((5425 / 10000) ^ 2 * (sqrt (Sq c) * sqrt (Sq c))) by ring.
    rewrite sqrt_sqrt by lra. unfold Sq. assert (0 <= c ^ 2) by apply pow2_ge_0. nra. }
  pose proof (R_le c) as RL. assert (RP: 0 < Nn c / Dn c) by (apply div_pos; lra). pose proof (exp_pos (- c ^ 3)) as EP.
  replace (c * (5424 / 1000 * (Nn c / Dn c) * exp (- c ^ 3) / sqrt (Sq c))) with (5424 / 1000 * ((c / sqrt (Sq c)) * (Nn c / Dn c)) * exp (- c ^ 3)) by (field; lra).
  apply Rmult_le_compat_r; [lra|].
  assert (A: 0 <= c / sqrt (Sq c) <= 5425 / 10000) by (apply frac_le; assumption).
  assert (B: c / sqrt (Sq c) * (Nn c / Dn c) <= 5425 / 10000 * (17 / 10)) by (apply Rmult_le_compat; lra). lra.
Qed.
Lemma F2_bound c : 0 <= c -> Rabs (F2 c) <= 480.
Proof.
  intros Hc. destruct (pos_all c) as (S & N & D). set (u := c ^ 3). assert (U: 0 <= u) by (apply pow_le; assumption).
  assert (C2: 0 <= c ^ 2) by apply pow2_ge_0. assert (C4: 0 <= c ^ 4) by (apply pow_le; assumption).
  assert (A1: 0 <= (34 / 10 * c ^ 2) / Sq c <= 1) by (apply frac_le; unfold Sq in *; lra).
  assert (B1: 0 <= (2 * (221 / 100) * c ^ 2 + 4 * (347 / 1000) * c ^ 4) / Nn c <= 4) by (apply frac_le; unfold Nn in *; lra).
  assert (B2: 0 <= (2 * (1353 / 1000) * c ^ 2 + 4 * (217 / 1000) * c ^ 4) / Dn c <= 4) by (apply frac_le; unfold Dn in *; lra).
  assert (C1: 0 <= (2 * (221 / 100) * c ^ 2 + 12 * (347 / 1000) * c ^ 4) / Nn c <= 12) by (apply frac_le; unfold Nn in *; lra).
  assert (C3: 0 <= (2 * (1353 / 1000) * c ^ 2 + 12 * (217 / 1000) * c ^ 4) / Dn c <= 12) by (apply frac_le; unfold Dn in *; lra).
  set (z := (34 / 10 * c ^ 2) / Sq c) in *. set (n1 := (2 * (221 / 100) * c ^ 2 + 4 * (347 / 1000) * c ^ 4) / Nn c) in *.
  set (d1 := (2 * (1353 / 1000) * c ^ 2 + 4 * (217 / 1000) * c ^ 4) / Dn c) in *.
  set (n2 := (2 * (221 / 100) * c ^ 2 + 12 * (347 / 1000) * c ^ 4) / Nn c) in *. set (d2 := (2 * (1353 / 1000) * c ^ 2 + 12 * (217 / 1000) * c ^ 4) / Dn c) in *.
  assert (W1: c * w1 c = - z + n1 - d1 - 3 * u). { unfold w1, z, n1, d1, u. field. repeat split; lra. }
  assert (ZI: 34 / 10 * c ^ 2 / Sq c * (1 - 34 / 10 * c ^ 2) / Sq c = z * (1 - 2 * z)).
  { unfold z. assert (E: 1 - 34 / 10 * c ^ 2 = Sq c - 2 * (34 / 10 * c ^ 2)) by (unfold Sq; ring). rewrite E. field. lra. }
  assert (W2: c ^ 2 * w2 c = - (z * (1 - 2 * z)) + (n2 - n1 ^ 2) - (d2 - d1 ^ 2) - 6 * u).
  { rewrite <- ZI. unfold w2, n1, n2, d1, d2, u. field. repeat split; lra. }
  assert (N1: 0 <= n1 ^ 2 <= 16) by (split; [apply pow2_ge_0|nra]). assert (D1: 0 <= d1 ^ 2 <= 16) by (split; [apply pow2_ge_0|nra]).
  assert (Z1: -1 <= - (z * (1 - 2 * z)) <= 1) by nra.
  assert (X1: Rabs (c * w1 c) <= 5 + 3 * u) by (rewrite W1; apply Rabs_le; lra).
  assert (X2: Rabs (c ^ 2 * w2 c) <= 29 + 6 * u) by (rewrite W2; apply Rabs_le; lra).
  assert (FE: F2 c = (6 + 6 * (c * w1 c) + (c * w1 c) ^ 2 + c ^ 2 * w2 c) * (c * ew c)) by (unfold F2; ring).
  rewrite FE, Rabs_mult. destruct (cew_le c Hc) as (G1 & G2). rewrite (Rabs_pos_eq (c * ew c)) by assumption.
  set (a := c * w1 c) in *. set (b := c ^ 2 * w2 c) in *.
  assert (P: Rabs (6 + 6 * a + a ^ 2 + b) <= 90 + 54 * u + 9 * u ^ 2).
  { assert (A2: a ^ 2 <= (5 + 3 * u) ^ 2). { rewrite <- (pow2_abs a). apply pow_incr. split; [apply Rabs_pos|assumption]. }
    assert (0 <= a ^ 2) by apply pow2_ge_0. apply Rabs_le_inv in X1, X2. apply Rabs_le. nra. }
  fold u in G2. pose proof (exp_ge_quad u U) as Q. pose proof (exp_pos (- u)) as EP.
  assert (EE: exp u * exp (- u) = 1) by (rewrite <- exp_plus, Rplus_opp_r; apply exp_0).
  apply Rle_trans with ((90 + 54 * u + 9 * u ^ 2) * (505 / 100 * exp (- u))). { apply Rmult_le_compat; try assumption. apply Rabs_pos. }
  apply Rle_trans with (90 * exp u * (505 / 100 * exp (- u))).
  - apply Rmult_le_compat_r; [lra|]. assert (0 <= u ^ 2) by apply pow2_ge_0. lra.
  - replace (90 * exp u * (505 / 100 * exp (- u))) with (90 * (505 / 100) * (exp u * exp (- u))) by ring. rewrite EE. lra.
Qed.

(** ** Midpoint rule *)
Section Midpoint.
  Variables (f f1 f2 : R -> R) (M : R).
  Hypothesis D1 : forall c, 0 <= c -> is_derive f c (f1 c).
  Hypothesis D2 : forall c, 0 <= c -> is_derive f1 c (f2 c).
  Hypothesis B : forall c, 0 <= c -> Rabs (f2 c) <= M.
  Lemma taylor2 m c : 0 <= m -> 0 <= c -> Rabs (f c - f m - f1 m * (c - m)) <= M / 2 * (c - m) ^ 2.
  Proof.
    intros Hm Hc.
    assert (MV: forall (q q1 : R -> R) x y, 0 <= x -> 0 <= y -> (forall u, 0 <= u -> is_derive q u (q1 u)) -> exists z, Rmin x y <= z <= Rmax x y /\ q y - q x = q1 z * (y - x)).
    { intros q q1 x y A C H. destruct (MVT_gen q x y q1) as (z & Hz & E).
      - intros z Hz. apply H. unfold Rmin in Hz. destruct (Rle_dec x y); lra.
      - intros z Hz. apply continuity_pt_filterlim. apply (@ex_derive_continuous R_AbsRing R_NormedModule q z). exists (q1 z). apply H. unfold Rmin in Hz. destruct (Rle_dec x y); lra.
      - exists z. split; assumption. }
    assert (X: forall sg, (sg = 1 \/ sg = -1) -> sg * (f c - f m - f1 m * (c - m)) <= M / 2 * (c - m) ^ 2).
    { intros sg Hs.
      set (q := fun v => sg * (f v - f m - f1 m * (v - m)) - M / 2 * (v - m) ^ 2). set (q1 := fun v => sg * (f1 v - f1 m) - M * (v - m)). set (q2 := fun v => sg * f2 v - M).
      assert (Q1: forall v, 0 <= v -> is_derive q v (q1 v)).
      { intros v Hv. pose proof (D1 v Hv) as E. unfold q, q1. auto_derive; [repeat split; exists (f1 v); exact E|].
        replace (Derive (fun x => f x) v) with (f1 v) by (symmetry; apply is_derive_unique; exact E). field. }
      assert (Q2: forall v, 0 <= v -> is_derive q1 v (q2 v)).
      { intros v Hv. pose proof (D2 v Hv) as E. unfold q1, q2. auto_derive; [repeat split; exists (f2 v); exact E|].
        replace (Derive (fun x => f1 x) v) with (f2 v) by (symmetry; apply is_derive_unique; exact E). ring. }
      destruct (MV q q1 m c Hm Hc Q1) as (z & Hz & E). assert (Z0: 0 <= z) by (unfold Rmin in Hz; destruct (Rle_dec m c); lra).
      destruct (MV q1 q2 m z Hm Z0 Q2) as (y & Hy & E'). assert (Y0: 0 <= y) by (unfold Rmin in Hy; destruct (Rle_dec m z); lra).
      assert (q m = 0) by (unfold q; ring). assert (q1 m = 0) by (unfold q1; ring).
      assert (K: q2 y <= 0). { unfold q2. pose proof (B y Y0) as By. apply Rabs_le_inv in By. destruct Hs as [-> | ->]; lra. }
      assert (0 <= (z - m) * (c - m)). { unfold Rmin, Rmax in Hz. destruct (Rle_dec m c); [apply Rmult_le_pos; lra|]. replace ((z - m) * (c - m)) with ((m - z) * (m - c)) by ring. apply Rmult_le_pos; lra. }
      assert (QC: q c <= 0).
      { assert (E2: q1 z = q2 y * (z - m)) by lra. assert (E3: q c = q2 y * ((z - m) * (c - m))). { rewrite E2 in E. rewrite <- Rmult_assoc. lra. }
        rewrite E3. nra. }
      unfold q in QC. lra. }
    pose proof (X 1 (or_introl eq_refl)). pose proof (X (-1) (or_intror eq_refl)). apply Rabs_le. lra.
  Qed.
  Lemma f_cont c : 0 <= c -> continuity_pt f c.
  Proof. intros H. apply continuity_pt_filterlim. apply (@ex_derive_continuous R_AbsRing R_NormedModule f c). exists (f1 c). apply D1. assumption. Qed.
  Lemma cell m h : 0 <= m - h / 2 -> 0 < h -> Rabs (RInt f (m - h / 2) (m + h / 2) - h * f m) <= M * h ^ 3 / 24.
  Proof.
    intros H1 H2. assert (Hm: 0 <= m) by lra.
    assert (EX: ex_RInt f (m - h / 2) (m + h / 2)) by (apply ex_RInt_cont; [lra|]; intros; apply f_cont; lra).
    assert (P: forall sg, is_RInt (fun c => f m + f1 m * (c - m) + sg * (M / 2 * (c - m) ^ 2)) (m - h / 2) (m + h / 2) (h * f m + sg * (M * h ^ 3 / 24))).
    { intros sg. set (A := fun c => f m * c + f1 m * (c - m) ^ 2 / 2 + sg * (M / 6 * (c - m) ^ 3)).
      replace (h * f m + sg * (M * h ^ 3 / 24)) with (minus (A (m + h / 2)) (A (m - h / 2))).
      2:{ unfold A, minus, plus, opp; cbn. field. }
      apply (is_RInt_derive A (fun c => f m + f1 m * (c - m) + sg * (M / 2 * (c - m) ^ 2))).
      - intros x _. unfold A. auto_derive; [exact Logic.I|]. field.
      - intros x _. apply (@ex_derive_continuous R_AbsRing R_NormedModule (fun c => f m + f1 m * (c - m) + sg * (M / 2 * (c - m) ^ 2)) x). auto_derive. exact Logic.I. }
    assert (AB: m - h / 2 <= m + h / 2) by lra.
    destruct EX as (I0 & HI). rewrite (is_RInt_unique _ _ _ _ HI).
    assert (U: I0 <= h * f m + 1 * (M * h ^ 3 / 24)).
    { apply (is_RInt_le _ _ _ _ _ _ AB HI (P 1)). intros x Hx. pose proof (taylor2 m x Hm ltac:(lra)) as T. apply Rabs_le_inv in T. lra. }
    assert (L: h * f m + -1 * (M * h ^ 3 / 24) <= I0).
    { apply (is_RInt_le _ _ _ _ _ _ AB (P (-1)) HI). intros x Hx. pose proof (taylor2 m x Hm ltac:(lra)) as T. apply Rabs_le_inv in T. lra. }
    apply Rabs_le. lra.
  Qed.
  Fixpoint mids (h : R) (n : nat) : R := match n with O => 0 | S n => mids h n + h * f ((INR n + / 2) * h) end.
  Lemma midpoint h n : 0 < h -> Rabs (RInt f 0 (INR n * h) - mids h n) <= INR n * (M * h ^ 3 / 24).
  Proof.
    intros Hh. induction n as [|n IH].
    - simpl. rewrite !Rmult_0_l, RInt_point. unfold zero; cbn. rewrite Rminus_0_r, Rabs_R0. lra.
    - assert (NP: 0 <= INR n * h) by (apply Rmult_le_pos; [apply pos_INR|lra]).
      cbn [mids]. rewrite S_INR. rewrite <- (RInt_Chasles f 0 (INR n * h) ((INR n + 1) * h)).
      2:{ apply ex_RInt_cont; [lra|]. intros; apply f_cont; lra. }
      2:{ apply ex_RInt_cont; [lra|]. intros; apply f_cont; lra. }
      match goal with |- context [plus ?u ?v] => change (plus u v) with (u + v) end.
      pose proof (cell ((INR n + / 2) * h) h ltac:(lra) Hh) as C.
      replace ((INR n + / 2) * h - h / 2) with (INR n * h) in C by field. replace ((INR n + / 2) * h + h / 2) with ((INR n + 1) * h) in C by field.
      match goal with |- Rabs (?a + ?b - (?x + ?y)) <= _ => replace (a + b - (x + y)) with ((a - x) + (b - y)) by ring end.
      eapply Rle_trans; [apply Rabs_triang|]. lra.
  Qed.
End Midpoint.

(** ** The sum of the midpoint rule with 400 cells of width 1/160 *)
Definition Nk (k : Z) : Z := (10485760000000 + 226304000 * (k * k) + 347 * (k * k * (k * k)))%Z.
Definition Dk (k : Z) : Z := (10485760000000 + 138547200 * (k * k) + 217 * (k * k * (k * k)))%Z.
Definition Tk (k : Z) : Z := (10 ^ 24 + 33203125000000000000 * (k * k))%Z.
Definition k3 (k : positive) : positive := (k * k * k)%positive.
Definition flo (k : positive) : Z := (5424 * Zpos (k3 k) * Nk (Zpos k) * plo elo (k3 k) * SC / (32768000000 * (Z.sqrt (Tk (Zpos k)) + 1) * Dk (Zpos k)))%Z.
Definition fhi (k : positive) : Z := (5424 * Zpos (k3 k) * Nk (Zpos k) * phi ehi (k3 k) * SC / (32768000000 * Z.sqrt (Tk (Zpos k)) * Dk (Zpos k)) + 1)%Z.
Fixpoint slo (n : nat) : Z := match n with O => 0%Z | S m => (slo m + flo (Pos.of_succ_nat (2 * m)))%Z end.
Fixpoint shi (n : nat) : Z := match n with O => 0%Z | S m => (shi m + fhi (Pos.of_succ_nat (2 * m)))%Z end.

Lemma Tk_sqrt k : (0 < k)%Z -> IZR (Z.sqrt (Tk k)) <= sqrt (Sq (IZR k / 320)) * IZR SC /\ sqrt (Sq (IZR k / 320)) * IZR SC <= IZR (Z.sqrt (Tk k) + 1) /\ (0 < Z.sqrt (Tk k))%Z.
Proof.
  intros Hk. assert (TP: (0 < Tk k)%Z) by (unfold Tk; nia).
  assert (E: IZR (Tk k) = Sq (IZR k / 320) * (IZR SC * IZR SC)).
  { unfold Tk. rewrite plus_IZR, !mult_IZR. change (IZR (10 ^ 24)) with 1000000000000000000000000. change (IZR SC) with 1000000000000. unfold Sq. field. }
  destruct (pos_all (IZR k / 320)) as (S & _). pose proof SC_pos as SP. pose proof (Z.sqrt_spec (Tk k) ltac:(lia)) as (A & B). pose proof (Z.sqrt_nonneg (Tk k)) as N.
  assert (Q: sqrt (Sq (IZR k / 320)) * IZR SC = sqrt (IZR (Tk k))). { rewrite E, sqrt_mult, sqrt_square by nra. reflexivity. }
  rewrite Q. split; [|split].
  - rewrite <- (sqrt_square (IZR (Z.sqrt (Tk k)))) by (apply IZR_le; assumption). apply sqrt_le_1_alt. rewrite <- mult_IZR. apply IZR_le. exact A.
  - rewrite <- (sqrt_square (IZR (Z.sqrt (Tk k) + 1))) by (apply IZR_le; lia). apply sqrt_le_1_alt. rewrite <- mult_IZR. apply IZR_le. unfold Z.succ in B. lia.
  - assert (Z.sqrt (Tk k) <> 0)%Z; [|lia]. intros Z0. rewrite Z0 in B. unfold Tk in B. nia.
Qed.
Lemma ND k : Nn (IZR k / 320) = IZR (Nk k) / 10485760000000 /\ Dn (IZR k / 320) = IZR (Dk k) / 10485760000000.
Proof. unfold Nk, Dk. rewrite !plus_IZR, !mult_IZR. unfold Nn, Dn. split; field. Qed.
Lemma E_bounds k : (0 <= plo elo (k3 k))%Z /\ IZR (plo elo (k3 k)) <= exp (- (IZR (Zpos k) / 320) ^ 3) * IZR SC /\
  (0 <= phi ehi (k3 k))%Z /\ exp (- (IZR (Zpos k) / 320) ^ 3) * IZR SC <= IZR (phi ehi (k3 k)).
Proof.
  destruct exp_q0 as (A & B). assert (P: 0 <= exp (- q0)) by (left; apply exp_pos).
  assert (E: exp (- (IZR (Zpos k) / 320) ^ 3) = exp (- q0) ^ Pos.to_nat (k3 k)).
  { rewrite exp_pow. f_equal. rewrite INR_IZR_INZ, positive_nat_Z. unfold k3, q0. rewrite !Pos2Z.inj_mul, !mult_IZR. field. }
  rewrite E. destruct (plo_ok (exp (- q0)) elo (k3 k) P ltac:(vm_compute; discriminate) A) as (X1 & X2).
  destruct (phi_ok (exp (- q0)) ehi (k3 k) P ltac:(vm_compute; discriminate) B) as (Y1 & Y2). auto.
Qed.
Lemma arith1 K N0 D0 s e S : s <> 0 -> D0 <> 0 -> S <> 0 ->
  5424 / 1000 * (K / 32768000) / s * (N0 / 10485760000000 / (D0 / 10485760000000)) * e * S = 5424 * K * N0 * S / (32768000000 * D0) * ((e * S) / (s * S)).
Proof. intros. field. auto. Qed.
Lemma arith2 K N0 D0 p S q : D0 <> 0 -> q <> 0 -> 5424 * K * N0 * p * S / (32768000000 * q * D0) = 5424 * K * N0 * S / (32768000000 * D0) * (p / q).
Proof. intros. field. auto. Qed.
Lemma F_bounds k : IZR (flo k) <= F (IZR (Zpos k) / 320) * IZR SC <= IZR (fhi k).
Proof.
  set (c := IZR (Zpos k) / 320). rewrite F_eq. destruct (Tk_sqrt (Zpos k) eq_refl) as (A & B & C). destruct (E_bounds k) as (P0 & P1 & Q0 & Q1). destruct (ND (Zpos k)) as (N & D).
  fold c in A, B, P1, Q1, N, D. rewrite N, D. destruct (pos_all c) as (S & _). assert (SP: 0 < sqrt (Sq c)) by (apply sqrt_lt_R0; lra). pose proof SC_pos as SCP.
  assert (NP: 0 < IZR (Nk (Zpos k))) by (apply IZR_lt; unfold Nk; nia). assert (DP: (0 < Dk (Zpos k))%Z) by (unfold Dk; nia). assert (DR: 0 < IZR (Dk (Zpos k))) by (apply IZR_lt; assumption).
  assert (K3: c ^ 3 = IZR (Zpos (k3 k)) / 32768000). { unfold c, k3. rewrite !Pos2Z.inj_mul, !mult_IZR. field. }
  rewrite K3 in *. assert (KP: 0 < IZR (Zpos (k3 k))) by (apply IZR_lt; reflexivity).
  set (ex := exp (- (IZR (Zpos (k3 k)) / 32768000))) in *. assert (EP: 0 < ex) by apply exp_pos.
  set (sq := Z.sqrt (Tk (Zpos k))) in *. assert (SQ: 0 < IZR sq) by (apply IZR_lt; assumption).
  assert (SQ1: 0 < IZR (sq + 1)) by (apply IZR_lt; lia).
  set (V := 5424 * IZR (Zpos (k3 k)) * IZR (Nk (Zpos k)) * IZR SC / (32768000000 * IZR (Dk (Zpos k)))).
  assert (VP: 0 < V). { unfold V. apply div_pos; [|lra]. apply Rmult_lt_0_compat; [|assumption]. apply Rmult_lt_0_compat; [|assumption]. apply Rmult_lt_0_compat; [lra|assumption]. }
  assert (FV: 5424 / 1000 * (IZR (Zpos (k3 k)) / 32768000) / sqrt (Sq c) * (IZR (Nk (Zpos k)) / 10485760000000 / (IZR (Dk (Zpos k)) / 10485760000000)) * ex * IZR SC = V * ((ex * IZR SC) / (sqrt (Sq c) * IZR SC))).
  { unfold V. apply arith1; lra. }
  rewrite FV. assert (SS: 0 < sqrt (Sq c) * IZR SC) by (apply Rmult_lt_0_compat; assumption). split.
  - unfold flo. fold sq. eapply Rle_trans; [apply div_lo; nia|]. rewrite !mult_IZR.
    apply Rle_trans with (V * (IZR (plo elo (k3 k)) / IZR (sq + 1))). { right. unfold V. apply arith2; lra. }
    apply Rmult_le_compat_l; [lra|]. apply IZR_le in P0. unfold Rdiv. apply Rmult_le_compat; [lra|left; apply Rinv_0_lt_compat; assumption|assumption|]. apply Rinv_le_contravar; assumption.
  - unfold fhi. fold sq. eapply Rle_trans; [|apply div_hi; nia]. rewrite !mult_IZR.
    apply Rle_trans with (V * (IZR (phi ehi (k3 k)) / IZR sq)). 2:{ right. symmetry. unfold V. apply arith2; lra. }
    apply Rmult_le_compat_l; [lra|]. apply IZR_le in Q0. unfold Rdiv. apply Rmult_le_compat; [apply Rmult_le_pos; lra|left; apply Rinv_0_lt_compat; assumption|assumption|]. apply Rinv_le_contravar; assumption.
Qed.
Lemma mids_bounds n : IZR (slo n) / 160 <= mids F (/ 160) n * IZR SC <= IZR (shi n) / 160.
Proof.
  induction n as [|n IH]; [cbn; lra|]. cbn [slo shi mids]. rewrite !plus_IZR.
  pose proof (F_bounds (Pos.of_succ_nat (2 * n))) as B.
  assert (E: IZR (Zpos (Pos.of_succ_nat (2 * n))) / 320 = (INR n + / 2) * / 160).
  { rewrite <- INR_IPR || idtac. replace (IZR (Zpos (Pos.of_succ_nat (2 * n)))) with (2 * INR n + 1). field.
    rewrite Zpos_P_of_succ_nat, succ_IZR, <- INR_IZR_INZ, mult_INR. simpl INR. ring. }
  rewrite E in B. lra.
Qed.
Lemma sums : (171840000000000 <=? slo 400)%Z = true /\ (shi 400 <=? 171900000000000)%Z = true.
Proof. split; vm_compute; reflexivity. Qed.

Lemma F_integral : 10718 / 10000 <= RInt F 0 (5 / 2) <= 1077 / 1000.
Proof.
  pose proof (midpoint F F1 F2 480 (fun c _ => F_derive c) (fun c _ => F1_derive c) F2_bound (/ 160) 400 ltac:(lra)) as M.
  replace (INR 400) with 400 in M by (rewrite INR_IZR_INZ; reflexivity). replace (400 * / 160) with (5 / 2) in M by field.
  pose proof (mids_bounds 400) as B. destruct sums as (S1 & S2). apply Z.leb_le in S1, S2. apply IZR_le in S1, S2. set (m := mids F (/ 160) 400) in *.
  revert B S1 S2. generalize (IZR (slo 400)) (IZR (shi 400)). intros a b B S1 S2. clearbody m. change (IZR SC) with 1000000000000 in B. apply Rabs_le_inv in M. lra.
Qed.
