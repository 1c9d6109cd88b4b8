From Coq Require Import Reals List ZArith Lra Lia.
From Flocq Require Import Raux.
From Coquelicot Require Import Coquelicot.
From Verif Require Import TrapzModel TrapzSpec TrapzProofs FloatModel FloatProofs FloatProps FloatTrapzModel.
Import ListNotations.
Local Open Scope R_scope.

(** Integral of exp(c s) from 0 to la *)
Definition G (la c : R) : R := if Req_EM_T c 0 then la else (exp (c * la) - 1) / c.
Lemma G_int la c : is_RInt (fun s => exp (c * s)) 0 la (G la c).
Proof.
  unfold G. destruct (Req_EM_T c 0) as [-> | H].
  - apply is_RInt_ext with (fun _ => 1). { intros x _. rewrite Rmult_0_l, exp_0. reflexivity. }
    replace la with (scal (la - 0) 1) at 2. 2:{ unfold scal; cbn; unfold mult; cbn. ring. } apply @is_RInt_const.
  - replace ((exp (c * la) - 1) / c) with (minus ((fun s => exp (c * s) / c) la) ((fun s => exp (c * s) / c) 0)).
    2:{ unfold minus, plus, opp; cbn. rewrite Rmult_0_r, exp_0. field. assumption. }
    apply (is_RInt_derive (fun s => exp (c * s) / c)).
    + intros x _. auto_derive; [trivial|]. field. assumption.
    + intros x _. apply (ex_derive_continuous (fun s => exp (c * s))). auto_derive. trivial.
Qed.
Lemma exp_le a b : a <= b -> exp a <= exp b.
Proof. intros [K | ->]; [left; apply exp_increasing; assumption|lra]. Qed.
Lemma G_ratio la c c' d : 0 < la -> Rabs (c' - c) * la <= d -> G la c * exp (- d) <= G la c' <= G la c * exp d.
Proof.
  intros Hl H.
  assert (A: forall s, 0 < s < la -> exp (c * s) * exp (- d) <= exp (c' * s) <= exp (c * s) * exp d).
  { intros s Hs. rewrite <- !exp_plus.
    assert (Rabs ((c' - c) * s) <= d). { rewrite Rabs_mult, (Rabs_right s) by lra. pose proof (Rabs_pos (c' - c)). nra. }
    apply Rabs_le_inv in H0. split; apply exp_le; lra. }
  assert (S: forall k, is_RInt (fun s => exp (c * s) * k) 0 la (G la c * k)).
  { intros k. apply is_RInt_ext with (fun s => scal k (exp (c * s))). { intros. unfold scal; cbn; unfold mult; cbn. ring. }
    replace (G la c * k) with (scal k (G la c)) by (unfold scal; cbn; unfold mult; cbn; ring). apply @is_RInt_scal. apply G_int. }
  split.
  - apply (is_RInt_le (fun s => exp (c * s) * exp (- d)) (fun s => exp (c' * s)) 0 la); [lra|apply S|apply G_int|intros; apply A; assumption].
  - apply (is_RInt_le (fun s => exp (c' * s)) (fun s => exp (c * s) * exp d) 0 la); [lra|apply G_int|apply S|intros; apply A; assumption].
Qed.
Lemma G_pos la c : 0 < la -> 0 < G la c.
Proof.
  intros H. unfold G. destruct (Req_EM_T c 0); [assumption|].
  assert (M: forall t, 0 < t -> 1 < exp t). { intros t Ht. rewrite <- exp_0. apply exp_increasing. assumption. }
  destruct (Rlt_dec 0 c) as [P | P].
  - apply Rdiv_lt_0_compat; [|assumption]. specialize (M (c * la)). assert (0 < c * la) by (apply Rmult_lt_0_compat; assumption). specialize (M H0). lra.
  - assert (c * la < 0) by nra. assert (exp (c * la) < 1). { rewrite <- exp_0. apply exp_increasing. assumption. }
    replace ((exp (c * la) - 1) / c) with ((1 - exp (c * la)) / - c) by (field; assumption). apply Rdiv_lt_0_compat; lra.
Qed.
(** the exact integral of one bin *)
Lemma through_G x1 x2 y1 y2 : 0 < x1 -> x1 < x2 -> 0 < y1 -> 0 < y2 ->
  let la := ln (x2 / x1) in let b := ln (y2 / y1) / la in
  is_RInt (through x1 x2 y1 y2) x1 x2 (x1 * y1 * G la (b + 1)).
Proof.
  intros H1 H2 H3 H4 la b. unfold through. fold la. fold b. unfold G. destruct (Req_EM_T (b + 1) 0) as [E | E].
  - replace b with (-1) by lra. apply is_RInt_power_m1; assumption.
  - replace (x1 * y1 * ((exp ((b + 1) * la) - 1) / (b + 1))) with (y1 * (x2 * Rpower (x2 / x1) b - x1) / (b + 1)).
    + apply is_RInt_power; assumption.
    + unfold Rpower. fold la. assert (X: x2 = x1 * exp la). { unfold la. rewrite exp_ln by (apply div_pos; lra). field. lra. }
      rewrite X at 1. replace ((b + 1) * la) with (la + b * la) by ring. rewrite exp_plus. field. assumption.
Qed.

(** e^t / |e^t - 1| *)
Lemma expm1_inv t : t <> 0 -> exp t <= Rabs (exp t - 1) * (1 + / Rabs t).
Proof.
  intros H. pose proof (exp_ineq1_le t) as A. pose proof (exp_ineq1_le (- t)) as B. pose proof (exp_pos t) as P.
  assert (E: exp t * exp (- t) = 1) by (rewrite <- exp_plus, Rplus_opp_r; apply exp_0).
  destruct (Rlt_dec 0 t) as [Q | Q].
  - rewrite (Rabs_right t) by lra. rewrite Rabs_right by lra.
    assert ((exp t - 1) * / t >= 1). { apply Rle_ge. apply Rmult_le_reg_r with t; [assumption|]. rewrite Rmult_assoc, Rinv_l; lra. }
    lra.
  - assert (t < 0) by lra. rewrite (Rabs_left t) by lra.
    assert (exp t <= 1). { rewrite <- exp_0. apply exp_le. lra. }
    rewrite Rabs_left1 by lra.
    assert ((1 - exp t) * / - t >= exp t). { apply Rle_ge. apply Rmult_le_reg_r with (- t); [lra|]. rewrite Rmult_assoc, Rinv_l by lra. nra. }
    lra.
Qed.
Lemma dev102 s d : Rabs s <= d -> d <= / 100 -> Rabs (exp s - 1) <= 102 / 100 * d.
Proof.
  intros H K. eapply Rle_trans; [apply exp_dev|]. pose proof (Rabs_pos s) as P.
  assert (exp (Rabs s) <= 102 / 100).
  { eapply Rle_trans; [apply exp_upper; lra|]. apply Rle_trans with (/ (99 / 100)); [apply Rinv_le_contravar; lra|lra]. }
  pose proof (exp_pos (Rabs s)). rewrite Rmult_comm. apply Rmult_le_compat; lra.
Qed.
Lemma v_tiny : v <= 112 / 100 * / 10 ^ 16.
Proof. pose proof v_le2. eapply Rle_trans; [exact H|]. unfold u. lra. Qed.

Section Bin.
  Variables (L : libm) (lg : R -> R).
  Hypothesis HL : libm_1ulp L.
  Hypothesis Hlg : forall x, 0 < x -> within 1 (log10 x) (lg x).
  Variables x1 x2 y1 y2 : R.
  Hypothesis H1 : 0 < x1.
  Hypothesis H2 : x1 < x2.
  Hypothesis H3 : 0 < y1.
  Hypothesis H4 : 0 < y2.
  Let la := ln (x2 / x1).
  Let b := ln (y2 / y1) / la.
  Hypothesis HT : (1 + Rabs b) * (1 + / la) <= 10 ^ 7.
  Hypothesis HS : (1 + Rabs b) * (1 + la) <= 10 ^ 7.
  Let tau := v * ((1 + Rabs b) * (1 + / la)).
  Let sig := v * ((1 + Rabs b) * (1 + la)).
  Let b' := flocal_index lg x1 x2 y1 y2.
  Let c' := fadd b' 1.
  Let I := x1 * y1 * G la (b + 1).

  Lemma la_pos : 0 < la. Proof. apply ln_ratio_pos; assumption. Qed.
  Lemma bounds : 0 <= tau <= / 10 ^ 8 /\ 0 <= sig <= / 10 ^ 8 /\ v <= tau /\ v <= sig /\
    v * (1 + Rabs b) <= sig /\ tau * la = sig /\ v * (1 + Rabs b) <= tau /\ v * (1 + Rabs b) / la <= tau /\ v / la <= tau /\
    tau = v * (1 + Rabs b) + v * (1 + Rabs b) / la.
  Proof.
    pose proof la_pos as P. pose proof (Rinv_0_lt_compat _ P) as PI. pose proof (Rabs_pos b) as B. pose proof v_pos as V. pose proof v_tiny as VT.
    replace (10 ^ 7) with 10000000 in * by ring.
    assert (A1: 0 <= Rabs b * / la) by (apply Rmult_le_pos; lra). assert (A2: 0 <= Rabs b * la) by (apply Rmult_le_pos; lra).
    assert (X: forall z, 0 <= z <= 10000000 -> 0 <= v * z <= / 10 ^ 8).
    { intros z Hz. split; [apply Rmult_le_pos; lra|]. apply Rle_trans with (112 / 100 * / 10 ^ 16 * 10000000); [apply Rmult_le_compat; lra|lra]. }
    assert (VM: forall p q, p <= q -> v * p <= v * q) by (intros; apply Rmult_le_compat_l; lra).
    split; [apply X; nra|]. split; [apply X; nra|].
    split; [rewrite <- (Rmult_1_r v) at 1; apply VM; nra|]. split; [rewrite <- (Rmult_1_r v) at 1; apply VM; nra|].
    split; [apply VM; nra|]. split; [unfold tau, sig; field; lra|]. split; [apply VM; nra|].
    unfold Rdiv. rewrite !Rmult_assoc. split; [apply VM; nra|]. split; [apply VM; nra|]. unfold tau. ring.
  Qed.

  Lemma rx_ln : exists s2, Rabs s2 <= v /\ ln (fdiv x2 x1) = la + s2 /\ 0 < fdiv x2 x1.
  Proof.
    destruct (near_fl (x2 / x1)) as (s & Hs & E). exists s. unfold fdiv. rewrite E.
    assert (0 < x2 / x1) by (apply div_pos; lra). split; [lra|]. split; [rewrite ln_mult by (try assumption; apply exp_pos); rewrite ln_exp; reflexivity|].
    apply Rmult_lt_0_compat; [assumption|apply exp_pos].
  Qed.
  Lemma ry_ln : exists s1, Rabs s1 <= v /\ ln (fdiv y2 y1) = b * la + s1 /\ 0 < fdiv y2 y1.
  Proof.
    destruct (near_fl (y2 / y1)) as (s & Hs & E). exists s. unfold fdiv. rewrite E.
    assert (0 < y2 / y1) by (apply div_pos; lra). split; [lra|]. split; [|apply Rmult_lt_0_compat; [assumption|apply exp_pos]].
    rewrite ln_mult by (try assumption; apply exp_pos). rewrite ln_exp. f_equal. unfold b. field. pose proof la_pos. lra.
  Qed.

  Lemma l2_pos s2 : Rabs s2 <= v -> 99 / 100 * la <= la + s2.
  Proof.
    intros H. destruct bounds as (BT & _ & _ & _ & _ & _ & _ & _ & B7 & _). pose proof la_pos as P. apply Rabs_le_inv in H.
    assert (v <= / 10 ^ 8 * la). { apply Rmult_le_reg_r with (/ la); [apply Rinv_0_lt_compat; assumption|]. rewrite Rmult_assoc, Rinv_r by lra. unfold Rdiv in B7. lra. }
    lra.
  Qed.

  (** the local index *)
  Lemma index_err : Rabs (b' - b) <= 8 * tau.
  Proof.
    destruct bounds as (BT & BS & B1 & B2 & B3 & B4 & B5 & B6 & B7 & BE). destruct rx_ln as (s2 & S2 & E2 & P2). destruct ry_ln as (s1 & S1 & E1 & P1).
    pose proof la_pos as P. pose proof v_pos as V. pose proof (Rabs_pos b) as Bp. pose proof (l2_pos s2 S2) as Q.
    assert (N: near 7 (ln (fdiv y2 y1) / ln (fdiv x2 x1)) b').
    { unfold b', flocal_index. replace (ln (fdiv y2 y1) / ln (fdiv x2 x1)) with (log10 (fdiv y2 y1) / log10 (fdiv x2 x1)).
      - eapply near_weaken; [apply near_fdiv; apply within_near, Hlg; assumption|lra].
      - unfold log10. pose proof ln10_pos. field. split; [rewrite E2; lra|lra]. }
    rewrite E1, E2 in N. set (m := (b * la + s1) / (la + s2)) in *.
    assert (Hm: Rabs (m - b) <= 102 / 100 * (v * (1 + Rabs b) / la)).
    { unfold m. replace ((b * la + s1) / (la + s2) - b) with ((s1 - b * s2) * / (la + s2)) by (field; lra).
      rewrite Rabs_mult, (Rabs_right (/ _)) by (apply Rle_ge; left; apply Rinv_0_lt_compat; lra).
      assert (K: Rabs (s1 - b * s2) <= v * (1 + Rabs b)).
      { unfold Rminus. eapply Rle_trans; [apply Rabs_triang|]. rewrite Rabs_Ropp, Rabs_mult. nra. }
      assert (J: / (la + s2) <= 102 / 100 * / la).
      { replace (102 / 100 * / la) with (/ (100 / 102 * la)) by (field; lra). apply Rinv_le_contravar; nra. }
      apply Rle_trans with (v * (1 + Rabs b) * (102 / 100 * / la)); [|right; field; lra].
      apply Rmult_le_compat; [apply Rabs_pos|left; apply Rinv_0_lt_compat; lra|assumption|assumption]. }
    destruct N as (t & Ht & Eb). pose proof v_tiny as VT.
    assert (D: Rabs (exp t - 1) <= 102 / 100 * (7 * v)) by (apply dev102; lra).
    assert (Rm: Rabs m <= 1 + Rabs b).
    { replace m with (b + (m - b)) by ring. eapply Rle_trans; [apply Rabs_triang|]. lra. }
    replace (b' - b) with (m * (exp t - 1) + (m - b)) by (rewrite Eb; ring). eapply Rle_trans; [apply Rabs_triang|]. rewrite Rabs_mult.
    assert (Rabs m * Rabs (exp t - 1) <= (1 + Rabs b) * (102 / 100 * (7 * v))) by (apply Rmult_le_compat; try apply Rabs_pos; assumption).
    assert (0 <= v * (1 + Rabs b)) by nra. assert (0 <= v * (1 + Rabs b) / la) by (apply Rmult_le_pos; [assumption|left; apply Rinv_0_lt_compat; assumption]). lra.
  Qed.
  Lemma c_err : Rabs (c' - (b + 1)) <= 10 * tau.
  Proof.
    destruct bounds as (BT & BS & B1 & B2 & B3 & B4 & B5 & B6 & B7 & BE). pose proof index_err as X. pose proof v_pos as V. pose proof v_tiny as VT.
    destruct (near_fl (b' + 1)) as (w & Hw & E). unfold c', fadd. rewrite E.
    assert (D: Rabs (exp w - 1) <= 102 / 100 * v) by (apply dev102; lra).
    replace ((b' + 1) * exp w - (b + 1)) with ((b' - b) + (b' + 1) * (exp w - 1)) by ring.
    eapply Rle_trans; [apply Rabs_triang|]. rewrite Rabs_mult.
    assert (Rabs (b' + 1) <= 8 * tau + (1 + Rabs b)).
    { replace (b' + 1) with ((b' - b) + (b + 1)) by ring. eapply Rle_trans; [apply Rabs_triang|]. pose proof (Rabs_triang b 1) as Y. rewrite Rabs_R1 in Y. lra. }
    assert (Rabs (b' + 1) * Rabs (exp w - 1) <= (8 * tau + (1 + Rabs b)) * (102 / 100 * v)) by (apply Rmult_le_compat; try apply Rabs_pos; assumption).
    assert (0 <= tau * v <= tau * / 10 ^ 8) by (split; [nra|apply Rmult_le_compat_l; lra]). lra.
  Qed.

  Lemma general_branch : c' <> 0 ->
    Rabs (fdiv (fmul y1 (fsub (fmul x2 (lpow L (fdiv x2 x1) b')) x1)) c' - I) <= 40 * sig * (1 + / (Rabs c' * la)) * I.
  Proof.
    intros Hc. destruct bounds as (BT & BS & B1 & B2 & B3 & B4 & B5 & B6 & B7 & BE). destruct rx_ln as (s2 & S2 & E2 & P2).
    pose proof la_pos as P. pose proof v_pos as V. pose proof v_tiny as VT. pose proof index_err as X. pose proof c_err as Y. pose proof (Rabs_pos b) as Bp.
    (* the power *)
    assert (NP: near 4 (x2 * Rpower (fdiv x2 x1) b') (fmul x2 (lpow L (fdiv x2 x1) b'))).
    { eapply near_weaken; [apply near_fmul; [apply near_0|apply within_near; destruct HL as (Hp & _); apply Hp; assumption]|lra]. }
    destruct NP as (r & Hr & EP). set (Pw := fmul x2 (lpow L (fdiv x2 x1) b')) in *.
    assert (X2: x2 = x1 * exp la). { unfold la. rewrite exp_ln by (apply div_pos; lra). field. lra. }
    set (eps := (b' - b) * la + b' * s2 + r).
    assert (EP': Pw = x1 * exp ((b + 1) * la + eps)).
    { rewrite EP. unfold Rpower. rewrite E2, X2, !Rmult_assoc, <- !exp_plus. f_equal. f_equal. unfold eps. ring. }
    assert (He: Rabs eps <= 13 * sig).
    { unfold eps. eapply Rle_trans; [apply Rabs_triang|]. apply Rle_trans with (8 * sig + v * (1 + Rabs b) + 4 * v); [|lra]. apply Rplus_le_compat; [|lra].
      eapply Rle_trans; [apply Rabs_triang|]. apply Rplus_le_compat.
      - rewrite Rabs_mult, (Rabs_right la) by lra. rewrite <- B4. nra.
      - rewrite Rabs_mult. rewrite (Rmult_comm v). apply Rmult_le_compat; try apply Rabs_pos; [|assumption].
        replace b' with ((b' - b) + b) by ring. eapply Rle_trans; [apply Rabs_triang|]. lra. }
    set (e2 := eps + (b + 1 - c') * la).
    assert (He2: Rabs e2 <= 23 * sig).
    { unfold e2. eapply Rle_trans; [apply Rabs_triang|]. apply Rle_trans with (13 * sig + 10 * sig); [|lra]. apply Rplus_le_compat; [assumption|].
      rewrite Rabs_mult, (Rabs_right la), Rabs_minus_sym by lra. rewrite <- B4. nra. }
    (* the quotient *)
    assert (NV: near 3 (y1 * (Pw - x1) / c') (fdiv (fmul y1 (fsub Pw x1)) c')).
    { eapply near_weaken; [apply near_fdiv; [apply near_fmul; [apply near_0|apply near_fl]|apply near_0]|lra]. }
    destruct NV as (z & Hz & EV). set (V' := fdiv (fmul y1 (fsub Pw x1)) c') in *. rewrite EV, EP'. clear EV.
    set (t := c' * la). assert (Ht: t <> 0) by (apply Rmult_integral_contrapositive_currified; lra).
    assert (At: Rabs t = Rabs c' * la) by (unfold t; rewrite Rabs_mult, (Rabs_right la); lra).
    replace ((b + 1) * la + eps) with (t + e2) by (unfold t, e2; ring).
    set (rho := exp t * (exp e2 - 1) / (exp t - 1)).
    assert (Het: exp t - 1 <> 0). { intros C. apply Ht. apply exp_inv. rewrite exp_0. lra. }
    assert (GE: G la c' = (exp t - 1) / c') by (unfold G; destruct (Req_EM_T c' 0); [contradiction|reflexivity]).
    replace (y1 * (x1 * exp (t + e2) - x1) / c' * exp z) with (x1 * y1 * G la c' * ((1 + rho) * exp z)).
    2:{ rewrite GE, exp_plus. unfold rho. field. split; assumption. }
    set (kap := 1 + / (Rabs c' * la)).
    assert (Hk: 1 <= kap). { unfold kap. rewrite <- At. assert (0 < / Rabs t) by (apply Rinv_0_lt_compat, Rabs_pos_lt; assumption). lra. }
    assert (Hrho: Rabs rho <= 24 * sig * kap).
    { unfold rho, Rdiv. rewrite !Rabs_mult, (Rabs_right (exp t)), Rabs_inv by (left; apply exp_pos).
      pose proof (expm1_inv t Ht) as K. rewrite At in K. fold kap in K.
      assert (Q: 0 < Rabs (exp t - 1)) by (apply Rabs_pos_lt; assumption).
      assert (D: Rabs (exp e2 - 1) <= 102 / 100 * (23 * sig)) by (apply dev102; lra).
      apply Rmult_le_reg_r with (Rabs (exp t - 1)); [assumption|]. rewrite Rmult_assoc, Rinv_l, Rmult_1_r by lra.
      apply Rle_trans with ((Rabs (exp t - 1) * kap) * (24 * sig)); [|right; ring].
      apply Rmult_le_compat; [left; apply exp_pos|apply Rabs_pos|assumption|lra]. }
    assert (GR: G la (b + 1) * exp (- (10 * sig)) <= G la c' <= G la (b + 1) * exp (10 * sig)).
    { apply G_ratio; [assumption|]. rewrite <- B4. nra. }
    pose proof (G_pos la (b + 1) P) as GP. pose proof (G_pos la c' P) as GP'.
    (* collect *)
    set (q := ln (G la c' / G la (b + 1))).
    assert (Eq: G la c' = G la (b + 1) * exp q). { unfold q. rewrite exp_ln by (apply div_pos; assumption). field. lra. }
    assert (Hq: Rabs q <= 10 * sig).
    { rewrite Eq in GR. assert (A: exp (- (10 * sig)) <= exp q) by (apply Rmult_le_reg_l with (G la (b + 1)); [assumption|tauto]).
      assert (B: exp q <= exp (10 * sig)) by (apply Rmult_le_reg_l with (G la (b + 1)); [assumption|tauto]).
      apply Rabs_le. split; [destruct (Rle_dec (- (10 * sig)) q) as [?|C]; [assumption|]|destruct (Rle_dec q (10 * sig)) as [?|C]; [assumption|]];
        exfalso; apply Rnot_le_lt, exp_increasing in C; lra. }
    rewrite Eq. fold I.
    replace (x1 * y1 * (G la (b + 1) * exp q) * ((1 + rho) * exp z) - I) with (I * ((1 + rho) * exp (q + z) - 1)) by (rewrite exp_plus; unfold I; ring).
    assert (IP: 0 < I). { unfold I. apply Rmult_lt_0_compat; [apply Rmult_lt_0_compat; assumption|assumption]. }
    rewrite Rabs_mult, (Rabs_right I), Rmult_comm by lra. apply Rmult_le_compat_r; [lra|].
    assert (Hqz: Rabs (q + z) <= 13 * sig). { eapply Rle_trans; [apply Rabs_triang|]. lra. }
    assert (D: Rabs (exp (q + z) - 1) <= 102 / 100 * (13 * sig)) by (apply dev102; lra).
    assert (EX: exp (q + z) <= 101 / 100). { apply Rabs_le_inv in D. lra. }
    replace ((1 + rho) * exp (q + z) - 1) with (rho * exp (q + z) + (exp (q + z) - 1)) by ring.
    eapply Rle_trans; [apply Rabs_triang|]. rewrite Rabs_mult, (Rabs_right (exp _)) by (left; apply exp_pos).
    assert (Rabs rho * exp (q + z) <= 24 * sig * kap * (101 / 100)) by (apply Rmult_le_compat; [apply Rabs_pos|left; apply exp_pos|assumption|assumption]).
    assert (sig <= sig * kap) by nra. lra.
  Qed.

  Lemma window_branch : Rabs c' <= 101 / 100 * / 10 ^ 10 ->
    Rabs (fmul (fmul x1 y1) (llog L (fdiv x2 x1)) - I) <= (2 * tau + 20 * sig + 2 * / 10 ^ 10 * la) * I.
  Proof.
    intros Hc. destruct bounds as (BT & BS & B1 & B2 & B3 & B4 & B5 & B6 & B7 & BE). destruct rx_ln as (s2 & S2 & E2 & P2).
    pose proof la_pos as P. pose proof v_pos as V. pose proof v_tiny as VT. pose proof c_err as Y.
    assert (LA: la <= 10 ^ 7). { pose proof (Rabs_pos b). replace (10 ^ 7) with 10000000 in * by ring. nra. }
    assert (N: near 5 (x1 * y1 * ln (fdiv x2 x1)) (fmul (fmul x1 y1) (llog L (fdiv x2 x1)))).
    { eapply near_weaken; [apply near_fmul; [apply near_fl|apply within_near; destruct HL as (_ & _ & Hl & _); apply Hl; assumption]|lra]. }
    rewrite E2 in N. destruct N as (z & Hz & EV). rewrite EV. clear EV.
    set (d := 101 / 100 * / 10 ^ 10 * la + 10 * sig).
    assert (GR: G la (b + 1) * exp (- d) <= G la 0 <= G la (b + 1) * exp d).
    { apply G_ratio; [assumption|]. unfold d. rewrite <- B4.
      assert (Rabs (0 - (b + 1)) <= 101 / 100 * / 10 ^ 10 + 10 * tau).
      { replace (0 - (b + 1)) with (- c' + (c' - (b + 1))) by ring. eapply Rle_trans; [apply Rabs_triang|]. rewrite Rabs_Ropp. lra. }
      nra. }
    assert (G0: G la 0 = la) by (unfold G; destruct (Req_EM_T 0 0); [reflexivity|lra]). rewrite G0 in GR.
    pose proof (G_pos la (b + 1) P) as GP.
    set (q := ln (la / G la (b + 1))).
    assert (Eq: la = G la (b + 1) * exp q). { unfold q. rewrite exp_ln by (apply div_pos; assumption). field. lra. }
    assert (Hq: Rabs q <= d).
    { rewrite Eq in GR at 2 3. 
      assert (A: exp (- d) <= exp q) by (apply Rmult_le_reg_l with (G la (b + 1)); [assumption|lra]).
      assert (B: exp q <= exp d) by (apply Rmult_le_reg_l with (G la (b + 1)); [assumption|lra]).
      apply Rabs_le. split; [destruct (Rle_dec (- d) q) as [?|C]; [assumption|]|destruct (Rle_dec q d) as [?|C]; [assumption|]];
        exfalso; apply Rnot_le_lt, exp_increasing in C; lra. }
    assert (IP: 0 < I). { unfold I. apply Rmult_lt_0_compat; [apply Rmult_lt_0_compat; assumption|assumption]. }
    assert (EI: x1 * y1 * la = I * exp q). { unfold I. rewrite Eq at 1. ring. }
    set (w := s2 / la).
    assert (Hw: Rabs w <= tau).
    { unfold w, Rdiv. rewrite Rabs_mult, Rabs_inv, (Rabs_right la) by lra. eapply Rle_trans; [|exact B7]. apply Rmult_le_compat_r; [left; apply Rinv_0_lt_compat; assumption|assumption]. }
    replace (x1 * y1 * (la + s2) * exp z - I) with (I * ((1 + w) * exp (q + z) - 1)).
    2:{ rewrite exp_plus. replace (I * ((1 + w) * (exp q * exp z) - 1)) with (I * exp q * (1 + w) * exp z - I) by ring. rewrite <- EI. unfold w. field. lra. }
    rewrite Rabs_mult, (Rabs_right I), Rmult_comm by lra. apply Rmult_le_compat_r; [lra|].
    assert (Hd: d <= 2 / 1000). { unfold d. replace (10 ^ 7) with 10000000 in * by ring. lra. }
    assert (Hqz: Rabs (q + z) <= d + 5 * v). { eapply Rle_trans; [apply Rabs_triang|]. lra. }
    assert (D: Rabs (exp (q + z) - 1) <= 102 / 100 * (d + 5 * v)) by (apply dev102; lra).
    assert (EX: exp (q + z) <= 101 / 100). { apply Rabs_le_inv in D. lra. }
    replace ((1 + w) * exp (q + z) - 1) with (w * exp (q + z) + (exp (q + z) - 1)) by ring.
    eapply Rle_trans; [apply Rabs_triang|]. rewrite Rabs_mult, (Rabs_right (exp _)) by (left; apply exp_pos).
    assert (Rabs w * exp (q + z) <= tau * (101 / 100)) by (apply Rmult_le_compat; [apply Rabs_pos|left; apply exp_pos|assumption|assumption]).
    unfold d in D. assert (0 < la) by assumption. lra.
  Qed.
End Bin.
