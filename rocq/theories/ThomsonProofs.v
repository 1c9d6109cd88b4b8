(** Integrals over the energies of scattered photons: change of variable to Jones' q and
    bounds of the kernel by its Thomson limit (for C171). *)
From Coq Require Import Reals List Lra Lia.
From Coquelicot Require Import Coquelicot.
From Verif Require Import TrapzProofs ConvProofs ErrProofs.
Local Open Scope R_scope.

Section Change.
  Variables (e G d : R) (f r : R -> R).
  Hypothesis He : 0 < e.
  Hypothesis HG : 0 < G.
  Hypothesis Hd : 0 < d < 1.
  Hypothesis Hf : forall q, d <= q <= 1 -> continuity_pt f q.
  Hypothesis Hin : forall E, 0 < E < e -> d < E / (G * (e - E)) < 1 -> r E = f (E / (G * (e - E))).
  Hypothesis Hout : forall E, 0 < E < e -> E / (G * (e - E)) < d \/ 1 < E / (G * (e - E)) -> r E = 0.
  Let En (q : R) := e * (G * q) / (1 + G * q).
  Lemma Gq q : 0 < q -> 0 < G * q. Proof. intros; apply Rmult_lt_0_compat; assumption. Qed.
  Lemma En_pos q : 0 < q -> 0 < En q < e.
  Proof.
    intros Hq. pose proof (Gq q Hq). unfold En. split; [apply div_pos; [apply Rmult_lt_0_compat; assumption|lra]|].
    apply Rmult_lt_reg_r with (1 + G * q); [lra|]. unfold Rdiv. rewrite Rmult_assoc, Rinv_l, Rmult_1_r by lra. nra.
  Qed.
  Lemma q_En q : 0 < q -> En q / (G * (e - En q)) = q.
  Proof.
    intros Hq. pose proof (Gq q Hq). unfold En. field. split; [lra|]. split; [lra|]. replace (e * (1 + G * q) - e * (G * q)) with e by ring. lra.
  Qed.
  Lemma En_lt a b : 0 < a -> a < b -> En a < En b.
  Proof.
    intros Ha Hb. pose proof (Gq a Ha). assert (0 < b) by lra. pose proof (Gq b H0). assert (G * a < G * b) by (apply Rmult_lt_compat_l; assumption).
    unfold En. apply Rmult_lt_reg_r with ((1 + G * a) * (1 + G * b)); [apply Rmult_lt_0_compat; lra|].
    replace (e * (G * a) / (1 + G * a) * ((1 + G * a) * (1 + G * b))) with (e * (G * a) * (1 + G * b)) by (field; lra).
    replace (e * (G * b) / (1 + G * b) * ((1 + G * a) * (1 + G * b))) with (e * (G * b) * (1 + G * a)) by (field; lra). nra.
  Qed.
  Lemma q_lt E E' : 0 < E -> E < E' -> E' < e -> E / (G * (e - E)) < E' / (G * (e - E')).
  Proof.
    intros H1 H2 H3. apply Rmult_lt_reg_r with (G * ((e - E) * (e - E'))); [apply Rmult_lt_0_compat; [assumption|apply Rmult_lt_0_compat; lra]|].
    replace (E / (G * (e - E)) * (G * ((e - E) * (e - E')))) with (E * (e - E')) by (field; lra).
    replace (E' / (G * (e - E')) * (G * ((e - E) * (e - E')))) with (E' * (e - E)) by (field; lra). nra.
  Qed.
  Lemma change_of_variable : is_RInt r 0 e (RInt (fun q => f q * (e * G / (1 + G * q) ^ 2)) d 1).
  Proof.
    assert (P1: 0 < En d < e) by (apply En_pos; lra). assert (P2: 0 < En 1 < e) by (apply En_pos; lra). assert (P3: En d < En 1) by (apply En_lt; lra).
    set (v := RInt (fun q => f q * (e * G / (1 + G * q) ^ 2)) d 1).
    assert (Z: forall a b, a <= b -> (forall E, a < E < b -> r E = 0) -> is_RInt r a b 0).
    { intros a b AB H. apply (is_RInt_ext (fun _ => 0)).
      - intros x. rewrite Rmin_left, Rmax_right by assumption. intros Hx. symmetry. apply H. exact Hx.
      - pose proof (@is_RInt_const R_NormedModule a b 0) as K. match type of K with is_RInt _ _ _ ?z => assert (Q: z = 0) by (unfold scal; cbn; unfold mult; cbn; ring); rewrite Q in K end. exact K. }
    assert (M: is_RInt r (En d) (En 1) v).
    { set (h := fun E => f (E / (G * (e - E)))).
      apply (is_RInt_ext h).
      - intros E. rewrite Rmin_left, Rmax_right by lra. intros HE. unfold h. symmetry. apply Hin; [lra|].
        rewrite <- (q_En d) at 1 by lra. rewrite <- (q_En 1) by lra. split; apply q_lt; lra.
      - assert (CH: forall q, d <= q <= 1 -> continuous h (En q)).
        { intros q Hq. apply continuity_pt_filterlim. unfold h. pose proof (En_pos q ltac:(lra)) as PQ.
          apply (continuity_pt_comp (fun E => E / (G * (e - E))) f).
          - apply continuity_pt_filterlim. apply (@ex_derive_continuous R_AbsRing R_NormedModule (fun E => E / (G * (e - E))) (En q)).
            auto_derive. assert (0 < G * (e - En q)) by (apply Rmult_lt_0_compat; lra). lra.
          - rewrite q_En by lra. apply Hf. exact Hq. }
        assert (EV: v = RInt h (En d) (En 1)).
        { rewrite <- (RInt_comp h En (fun q => e * G / (1 + G * q) ^ 2) d 1).
          - unfold v. apply RInt_ext. intros q. rewrite Rmin_left, Rmax_right by lra. intros Hq. unfold scal; cbn. unfold mult; cbn.
            unfold h. rewrite q_En by lra. ring.
          - intros q. rewrite Rmin_left, Rmax_right by lra. apply CH.
          - intros q. rewrite Rmin_left, Rmax_right by lra. intros Hq. pose proof (Gq q ltac:(lra)). unfold En. split.
            + auto_derive; [lra|]. field. lra.
            + apply (@ex_derive_continuous R_AbsRing R_NormedModule (fun q => e * G / (1 + G * q) ^ 2) q). auto_derive. apply Rgt_not_eq. assert (0 < 1 + G * q) by lra. nra. }
        rewrite EV. apply (RInt_correct h (En d) (En 1)). apply ex_RInt_cont; [lra|]. intros E HE. apply continuity_pt_filterlim.
        replace E with (En (E / (G * (e - E)))).
        + apply CH. destruct (Req_dec E (En d)) as [->|N1]; [rewrite q_En by lra; lra|]. destruct (Req_dec E (En 1)) as [->|N2]; [rewrite q_En by lra; lra|].
          split; left; [rewrite <- (q_En d) at 1 by lra|rewrite <- (q_En 1) by lra]; apply q_lt; lra.
        + unfold En. field. assert (0 < G * (e - E)) by (apply Rmult_lt_0_compat; lra). repeat split; lra. }
    assert (Z1: is_RInt r 0 (En d) 0). { apply Z; [lra|]. intros E HE. apply Hout; [lra|]. left. rewrite <- (q_En d) by lra. apply q_lt; lra. }
    assert (Z2: is_RInt r (En 1) e 0). { apply Z; [lra|]. intros E HE. apply Hout; [lra|]. right. rewrite <- (q_En 1) at 1 by lra. apply q_lt; lra. }
    pose proof (is_RInt_Chasles r _ _ _ _ _ (is_RInt_Chasles r _ _ _ _ _ Z1 M) Z2) as X.
    match type of X with is_RInt _ _ _ ?z => assert (Q: z = v) by (unfold plus; cbn; ring); rewrite Q in X end. exact X.
  Qed.
End Change.

(** ** The kernel against its Thomson limit *)
Definition F0 (q : R) : R := 2 * q * ln q + (1 + 2 * q) * (1 - q).
Lemma exp1_lower : 8 / 3 <= exp 1.
Proof.
  assert (P: forall m, exp (1 / 64) ^ m = exp (INR m * (1 / 64))).
  { induction m as [|m IH]; [simpl; rewrite Rmult_0_l, exp_0; reflexivity|]. rewrite S_INR. cbn [pow]. rewrite IH, <- exp_plus. f_equal. ring. }
  replace 1 with (INR 64 * (1 / 64)) at 1 by (simpl; field). rewrite <- P.
  apply Rle_trans with ((1 + 1 / 64) ^ 64); [lra|]. apply pow_incr. pose proof (exp_ge_1p (1 / 64)). lra.
Qed.
Lemma qlnq_lower q : 0 < q -> - (3 / 8) <= q * ln q.
Proof.
  intros Hq. pose proof exp1_lower as E. pose proof (exp_ge_1p (- (1) + - ln q)) as K.
  rewrite exp_plus, !exp_Ropp, exp_ln in K by assumption.
  assert (I: / exp 1 <= 3 / 8). { replace (3 / 8) with (/ (8 / 3)) by field. apply Rinv_le_contravar; lra. }
  assert (K2: - ln q <= / exp 1 * / q) by lra. apply (Rmult_le_compat_l q) in K2; [|lra]. replace (q * (/ exp 1 * / q)) with (/ exp 1) in K2 by (field; split; [lra|apply Rgt_not_eq, exp_pos]). lra.
Qed.
Lemma ln_half q : 0 < q <= 1 -> (q ^ 2 - 1) <= 2 * q * ln q.
Proof.
  intros [Hq H1]. destruct (Req_dec q 1) as [->|N]; [rewrite ln_1; lra|].
  (* the function q - 1/q - 2 ln q grows *)
  pose (u := fun x => x - / x - 2 * ln x). pose (du := fun x => 1 + / x ^ 2 - 2 / x).
  assert (D: forall x, 0 < x -> is_derive u x (du x)). { intros x Hx. unfold u, du. auto_derive; [lra|]. field. lra. }
  destruct (MVT_gen u q 1 du) as (c & Hc & EQ).
  - intros x. rewrite Rmin_left, Rmax_right by lra. intros Hx. apply D. lra.
  - intros x. rewrite Rmin_left, Rmax_right by lra. intros Hx. apply continuity_pt_filterlim. apply (@ex_derive_continuous R_AbsRing R_NormedModule u x). exists (du x). apply D. lra.
  - rewrite Rmin_left, Rmax_right in Hc by lra. assert (S: 0 <= du c). { unfold du. replace (1 + / c ^ 2 - 2 / c) with ((1 - / c) ^ 2) by (field; lra). apply pow2_ge_0. }
    assert (U1: u 1 = 0) by (unfold u; rewrite ln_1; field). assert (0 <= du c * (1 - q)) by (apply Rmult_le_pos; lra). rewrite U1 in EQ.
    assert (U: u q <= 0) by lra. unfold u in U. apply (Rmult_le_compat_l q) in U; [|lra]. replace (q * (q - / q - 2 * ln q)) with (q ^ 2 - 1 - 2 * q * ln q) in U by (field; lra). lra.
Qed.
Lemma F0_lower q : 0 < q <= 1 -> (1 - q) / 4 <= F0 q.
Proof.
  intros Hq. unfold F0. destruct (Rle_lt_dec (1 / 4) q) as [L|L].
  - pose proof (ln_half q Hq). assert (0 <= (1 - q) * (q - 1 / 4)) by (apply Rmult_le_pos; lra). nra.
  - pose proof (qlnq_lower q (proj1 Hq)). assert (0 <= q * (5 / 4 - 2 * q)) by (apply Rmult_le_pos; lra). nra.
Qed.
Definition Fkn (G q : R) : R := F0 q + (G * q) ^ 2 / (2 * (1 + G * q)) * (1 - q).
Lemma Fkn_ge G q : 0 < G -> 0 < q <= 1 -> F0 q <= Fkn G q.
Proof.
  intros HG Hq. unfold Fkn. assert (0 < G * q) by (apply Rmult_lt_0_compat; lra).
  assert (0 <= (G * q) ^ 2 / (2 * (1 + G * q)) * (1 - q)); [|lra]. apply Rmult_le_pos; [|lra]. left. apply div_pos; [apply pow_lt; lra|lra].
Qed.
Lemma Fkn_le G q : 0 < G -> 0 < q <= 1 -> Fkn G q <= F0 q * (1 + 2 * (G * q)).
Proof.
  intros HG Hq. pose proof (F0_lower q Hq) as L. unfold Fkn. assert (Y: 0 < G * q) by (apply Rmult_lt_0_compat; lra). set (y := G * q) in *.
  assert (B: y ^ 2 / (2 * (1 + y)) <= y / 2).
  { apply Rmult_le_reg_r with (2 * (1 + y)); [lra|]. unfold Rdiv at 1. rewrite Rmult_assoc, Rinv_l by lra. nra. }
  assert (C: y ^ 2 / (2 * (1 + y)) * (1 - q) <= y / 2 * (1 - q)) by (apply Rmult_le_compat_r; lra).
  assert (D: y * ((1 - q) / 4) <= y * F0 q) by (apply Rmult_le_compat_l; lra). nra.
Qed.
(** upper: photons suffer, never gain, from recoil *)
Lemma upper2 G q : 0 < G -> 0 < q <= 1 -> Fkn G q / (1 + G * q) ^ 2 <= F0 q.
Proof.
  intros HG Hq. pose proof (Fkn_le G q HG Hq) as L. pose proof (F0_lower q Hq) as L0. assert (Y: 0 < G * q) by (apply Rmult_lt_0_compat; lra). set (y := G * q) in *.
  assert (P: 0 < (1 + y) ^ 2) by (apply pow_lt; lra). apply Rmult_le_reg_r with ((1 + y) ^ 2); [exact P|]. unfold Rdiv. rewrite Rmult_assoc, Rinv_l by lra.
  assert (0 <= F0 q * y ^ 2) by (apply Rmult_le_pos; [lra|apply pow2_ge_0]). nra.
Qed.
Lemma upper3 G q : 0 < G -> 0 < q <= 1 -> Fkn G q / (1 + G * q) ^ 3 <= F0 q.
Proof.
  intros HG Hq. pose proof (Fkn_le G q HG Hq) as L. pose proof (F0_lower q Hq) as L0. assert (Y: 0 < G * q) by (apply Rmult_lt_0_compat; lra). set (y := G * q) in *.
  assert (P: 0 < (1 + y) ^ 3) by (apply pow_lt; lra). apply Rmult_le_reg_r with ((1 + y) ^ 3); [exact P|]. unfold Rdiv. rewrite Rmult_assoc, Rinv_l by lra.
  assert (0 <= F0 q * (y + 3 * y ^ 2 + y ^ 3)). { apply Rmult_le_pos; [lra|]. assert (0 <= y ^ 2) by apply pow2_ge_0. assert (0 < y ^ 3) by (apply pow_lt; lra). lra. } nra.
Qed.
Lemma lower2 G q : 0 < G -> 0 < q <= 1 -> F0 q - 2 * G * (q * F0 q) <= Fkn G q / (1 + G * q) ^ 2.
Proof.
  intros HG Hq. pose proof (Fkn_ge G q HG Hq) as L. pose proof (F0_lower q Hq) as L0. assert (Y: 0 < G * q) by (apply Rmult_lt_0_compat; lra).
  replace (F0 q - 2 * G * (q * F0 q)) with (F0 q * (1 - 2 * (G * q))) by ring. set (y := G * q) in *.
  assert (P: 0 < (1 + y) ^ 2) by (apply pow_lt; lra). apply Rmult_le_reg_r with ((1 + y) ^ 2); [exact P|]. unfold Rdiv. rewrite (Rmult_assoc (Fkn G q)), Rinv_l by lra.
  assert (0 <= F0 q * (3 * y ^ 2 + 2 * y ^ 3)). { apply Rmult_le_pos; [lra|]. assert (0 <= y ^ 2) by apply pow2_ge_0. assert (0 < y ^ 3) by (apply pow_lt; lra). lra. } nra.
Qed.
Lemma lower3 G q : 0 < G -> 0 < q <= 1 -> F0 q - 3 * G * (q * F0 q) <= Fkn G q / (1 + G * q) ^ 3.
Proof.
  intros HG Hq. pose proof (Fkn_ge G q HG Hq) as L. pose proof (F0_lower q Hq) as L0. assert (Y: 0 < G * q) by (apply Rmult_lt_0_compat; lra).
  replace (F0 q - 3 * G * (q * F0 q)) with (F0 q * (1 - 3 * (G * q))) by ring. set (y := G * q) in *.
  assert (P: 0 < (1 + y) ^ 3) by (apply pow_lt; lra). apply Rmult_le_reg_r with ((1 + y) ^ 3); [exact P|]. unfold Rdiv. rewrite (Rmult_assoc (Fkn G q)), Rinv_l by lra.
  assert (Q: 0 <= F0 q * (6 * y ^ 2 + 8 * y ^ 3 + 3 * y ^ 4)). { apply Rmult_le_pos; [lra|]. assert (0 <= y ^ 2) by apply pow2_ge_0. assert (0 < y ^ 3) by (apply pow_lt; lra). assert (0 < y ^ 4) by (apply pow_lt; lra). lra. }
  replace (F0 q * (1 - 3 * y) * (1 + y) ^ 3) with (F0 q - F0 q * (6 * y ^ 2 + 8 * y ^ 3 + 3 * y ^ 4)) by ring. lra.
Qed.

(** ** Integrals of the Thomson limit *)
Definition A0 (q : R) := q ^ 2 * ln q - q ^ 2 / 2 + q + q ^ 2 / 2 - 2 * q ^ 3 / 3.
Definition A1 (q : R) := 2 / 3 * q ^ 3 * ln q - 2 / 9 * q ^ 3 + q ^ 2 / 2 + q ^ 3 / 3 - q ^ 4 / 2.
Definition A2 (q : R) := 1 / 2 * q ^ 4 * ln q - q ^ 4 / 8 + q ^ 3 / 3 + q ^ 4 / 4 - 2 / 5 * q ^ 5.
Lemma int_of (A f : R -> R) d : 0 < d < 1 -> (forall q, 0 < q -> is_derive A q (f q)) -> (forall q, 0 < q -> continuous f q) -> is_RInt f d 1 (A 1 - A d).
Proof.
  intros Hd DA CF. apply (is_RInt_derive A f).
  - intros q. rewrite Rmin_left, Rmax_right by lra. intros. apply DA. lra.
  - intros q. rewrite Rmin_left, Rmax_right by lra. intros. apply CF. lra.
Qed.
Lemma int0 d : 0 < d < 1 -> is_RInt F0 d 1 (1 / 3 - A0 d).
Proof.
  intros Hd. replace (1 / 3) with (A0 1) by (unfold A0; rewrite ln_1; field). apply int_of; [exact Hd| |].
  - intros q Hq. unfold A0, F0. auto_derive; [lra|]. field. lra.
  - intros q Hq. apply (@ex_derive_continuous R_AbsRing R_NormedModule F0 q). unfold F0. auto_derive. lra.
Qed.
Lemma int1 d : 0 < d < 1 -> is_RInt (fun q => q * F0 q) d 1 (1 / 9 - A1 d).
Proof.
  intros Hd. replace (1 / 9) with (A1 1) by (unfold A1; rewrite ln_1; field). apply int_of; [exact Hd| |].
  - intros q Hq. unfold A1, F0. auto_derive; [lra|]. field. lra.
  - intros q Hq. apply (@ex_derive_continuous R_AbsRing R_NormedModule (fun q => q * F0 q) q). unfold F0. auto_derive. lra.
Qed.
Lemma int2 d : 0 < d < 1 -> is_RInt (fun q => q * (q * F0 q)) d 1 (7 / 120 - A2 d).
Proof.
  intros Hd. replace (7 / 120) with (A2 1) by (unfold A2; rewrite ln_1; field). apply int_of; [exact Hd| |].
  - intros q Hq. unfold A2, F0. auto_derive; [lra|]. field. lra.
  - intros q Hq. apply (@ex_derive_continuous R_AbsRing R_NormedModule (fun q => q * (q * F0 q)) q). unfold F0. auto_derive. lra.
Qed.
Lemma ends d : 0 < d <= 1 / 4 -> 0 <= A0 d <= d /\ 0 <= A1 d <= 9 / 16 * d ^ 2 /\ 0 <= A2 d.
Proof.
  intros Hd. pose proof (qlnq_lower d (proj1 Hd)) as L. assert (N: d * ln d <= 0). { assert (ln d <= 0) by (rewrite <- ln_1; left; apply ln_increasing; lra). assert (0 <= d * - ln d) by (apply Rmult_le_pos; lra). lra. }
  set (t := d * ln d) in *. assert (P2: 0 < d ^ 2) by (apply pow_lt; lra). assert (P3: 0 < d ^ 3) by (apply pow_lt; lra).
  unfold A0, A1, A2.
  replace (d ^ 2 * ln d - d ^ 2 / 2 + d + d ^ 2 / 2 - 2 * d ^ 3 / 3) with (d * (t + 1 - 2 / 3 * d ^ 2)) by (unfold t; field).
  replace (2 / 3 * d ^ 3 * ln d - 2 / 9 * d ^ 3 + d ^ 2 / 2 + d ^ 3 / 3 - d ^ 4 / 2) with (d ^ 2 * (2 / 3 * t + 1 / 9 * d + 1 / 2 - d ^ 2 / 2)) by (unfold t; field).
  replace (1 / 2 * d ^ 4 * ln d - d ^ 4 / 8 + d ^ 3 / 3 + d ^ 4 / 4 - 2 / 5 * d ^ 5) with (d ^ 3 * (1 / 2 * t + 1 / 8 * d + 1 / 3 - 2 / 5 * d ^ 2)) by (unfold t; field).
  assert (D2: d ^ 2 <= 1 / 16) by nra.
  split; [|split].
  - split; [apply Rmult_le_pos; lra|]. rewrite <- (Rmult_1_r d) at 3. apply Rmult_le_compat_l; lra.
  - split; [apply Rmult_le_pos; lra|]. rewrite (Rmult_comm (9 / 16)). apply Rmult_le_compat_l; lra.
  - apply Rmult_le_pos; lra.
Qed.
