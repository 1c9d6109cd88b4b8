(** Lemmas about the pion-decay cross sections. *)
From Coq Require Import Reals List Lra Lia Bool Psatz.
From Verif Require Import TrapzModel TrapzSpec TrapzProofs EnergyModel EnergyProofs ElectronModel ElectronProofs PionModel.
Import ListNotations.
Local Open Scope R_scope.

(** The proton rest energy in GeV to six digits. *)
Definition proton (m_p : R) : Prop := 938272 / 1000000 <= m_p <= 938273 / 1000000.

Lemma m_pi_pos : 0 < m_pi. Proof. unfold m_pi. lra. Qed.
Lemma mbarn_pos : 0 < mbarn. Proof. unfold mbarn. apply Rinv_0_lt_compat, pow_lt. lra. Qed.
Lemma Tth_pos : 0 < Tth. Proof. unfold Tth. lra. Qed.

Lemma nsqrt_some x : 0 <= x -> nsqrt x = Some (sqrt x).
Proof. intros. unfold nsqrt. destruct (Rle_dec 0 x); [reflexivity|lra]. Qed.
Lemma nsqrt_none x : x < 0 -> nsqrt x = None.
Proof. intros. unfold nsqrt. destruct (Rle_dec 0 x); [lra|reflexivity]. Qed.
Lemma npow_pos x y : 0 < x -> 0 < npow x y.
Proof. intros. unfold npow. destruct (Req_EM_T x 0); [lra|]. apply exp_pos. Qed.
Lemma npow_0 y : y <> 0 -> npow 0 y = 0.
Proof. intros. unfold npow. destruct (Req_EM_T 0 0); [|lra]. destruct (Req_EM_T y 0); [contradiction|reflexivity]. Qed.
Lemma npow_nonneg x y : 0 <= x -> 0 <= npow x y.
Proof. intros. unfold npow. destruct (Req_EM_T x 0); [destruct (Req_EM_T y 0); lra|]. apply Rlt_le, exp_pos. Qed.
Lemma npow_1 y : npow 1 y = 1.
Proof. unfold npow. destruct (Req_EM_T 1 0); [lra|]. unfold Rpower. rewrite ln_1, Rmult_0_r, exp_0. reflexivity. Qed.
Lemma Rpower_lt1 x y : 0 < x < 1 -> 0 < y -> Rpower x y < 1.
Proof.
  intros [H0 H1] Hy. unfold Rpower. rewrite <- exp_0. apply exp_increasing.
  assert (ln x < 0) by (rewrite <- ln_1; apply ln_increasing; lra). nra.
Qed.
Lemma npow_lt1 x y : 0 <= x < 1 -> 0 < y -> npow x y < 1.
Proof.
  intros [H0 H1] Hy. unfold npow. destruct (Req_EM_T x 0); [destruct (Req_EM_T y 0); lra|]. apply Rpower_lt1; lra.
Qed.

(** ** Inelastic cross section *)
Lemma sigma_inel_pos Tp : Tth < Tp -> 0 < sigma_inel Tp.
Proof.
  intros H. pose proof Tth_pos. unfold sigma_inel. set (L := ln (Tp / Tth)).
  assert (0 < 307 / 10 - 96 / 100 * L + 18 / 100 * L ^ 2) by nra.
  assert (Rpower (Tth / Tp) (19 / 10) < 1).
  { apply Rpower_lt1; [|lra]. apply z_range; lra. }
  pose proof mbarn_pos. pos.
Qed.
Lemma sigma_inel_threshold : sigma_inel Tth = 0.
Proof.
  unfold sigma_inel. pose proof Tth_pos. replace (Tth / Tth) with 1 by (field; lra).
  replace (Rpower 1 (19 / 10)) with 1 by (unfold Rpower; rewrite ln_1, Rmult_0_r, exp_0; reflexivity). ring.
Qed.

Section P.
  Variable m_p : R.
  Hypothesis Hmp : proton m_p.

  Lemma mp_pos : 0 < m_p. Proof. destruct Hmp. lra. Qed.
  #[local] Hint Resolve mp_pos m_pi_pos Tth_pos : core.

  Lemma s_pos Tp : 0 <= Tp -> 0 < s_cm m_p Tp.
  Proof. intros. pose proof mp_pos. unfold s_cm. apply Rmult_lt_0_compat; lra. Qed.

  (** the numerical threshold is just above the kinematic one *)
  Lemma threshold Tp : Tth <= Tp -> 4 * m_pi * m_p + m_pi ^ 2 < 2 * m_p * Tp.
  Proof. intros. destruct Hmp. unfold Tth, m_pi in *. nra. Qed.

  Lemma mu_rad_pos Tp : Tth <= Tp -> 0 < mu_rad m_p Tp.
  Proof.
    intros H. pose proof (threshold Tp H). pose proof mp_pos. pose proof m_pi_pos. unfold mu_rad, s_cm.
    set (u := 2 * m_p * (Tp + 2 * m_p) - m_pi ^ 2 - 4 * m_p ^ 2).
    assert (Q : 4 * m_pi * m_p < u) by (unfold u; nra).
    assert (0 < m_pi * m_p) by (apply Rmult_lt_0_compat; auto).
    replace (16 * m_pi ^ 2 * m_p ^ 2) with ((4 * m_pi * m_p) ^ 2) by ring. nra.
  Qed.

  Lemma sqrt_s Tp : Tth <= Tp -> 2 * m_p + m_pi < sqrt (s_cm m_p Tp).
  Proof.
    intros H. pose proof (threshold Tp H). pose proof mp_pos. pose proof m_pi_pos.
    rewrite <- (sqrt_pow2 (2 * m_p + m_pi)) by lra. apply sqrt_lt_1; try nra.
    - apply Rlt_le, s_pos. pose proof Tth_pos. lra.
    - unfold s_cm. nra.
  Qed.

  Lemma EpiCM_gt Tp : Tth <= Tp -> m_pi < EpiCM m_p Tp.
  Proof.
    intros H. pose proof (sqrt_s Tp H) as S. pose proof mp_pos. pose proof m_pi_pos. pose proof Tth_pos.
    assert (SS : sqrt (s_cm m_p Tp) * sqrt (s_cm m_p Tp) = s_cm m_p Tp) by (apply sqrt_sqrt, Rlt_le, s_pos; lra).
    unfold EpiCM. set (q := sqrt (s_cm m_p Tp)) in *. rewrite <- SS.
    apply Rmult_lt_reg_r with (2 * q); [lra|]. unfold Rdiv. rewrite Rmult_assoc, Rinv_l by lra. nra.
  Qed.

  Lemma gCM_gt Tp : 0 < Tp -> 1 < gCM m_p Tp.
  Proof.
    intros H. pose proof mp_pos. pose proof (s_pos Tp ltac:(lra)) as S.
    assert (Q : sqrt (s_cm m_p Tp) < Tp + 2 * m_p).
    { rewrite <- (sqrt_pow2 (Tp + 2 * m_p)) by lra. apply sqrt_lt_1; [lra|nra|]. unfold s_cm. nra. }
    unfold gCM. assert (0 < sqrt (s_cm m_p Tp)) by (apply sqrt_lt_R0; auto).
    apply Rmult_lt_reg_r with (sqrt (s_cm m_p Tp)); auto. unfold Rdiv. rewrite Rmult_assoc, Rinv_l by lra. lra.
  Qed.

  Lemma inv_sq_lt1 g : 1 < g -> 0 < / g ^ 2 < 1.
  Proof.
    intros. assert (1 < g ^ 2) by nra. split; [apply Rinv_0_lt_compat; lra|].
    rewrite <- Rinv_1. apply Rinv_lt_contravar; lra.
  Qed.

  (** The maximum pion energy in the laboratory. *)
  Definition Epi (Tp : R) : R :=
    gCM m_p Tp * (EpiCM m_p Tp + sqrt (EpiCM m_p Tp ^ 2 - m_pi ^ 2) * sqrt (1 - / gCM m_p Tp ^ 2)).
  Lemma EpimaxLAB_some Tp : Tth <= Tp -> EpimaxLAB m_p Tp = Some (Epi Tp) /\ m_pi < Epi Tp.
  Proof.
    intros H. pose proof (EpiCM_gt Tp H) as E. pose proof m_pi_pos. pose proof Tth_pos.
    pose proof (gCM_gt Tp ltac:(lra)) as G. pose proof (inv_sq_lt1 _ G) as I.
    unfold EpimaxLAB. rewrite nsqrt_some by nra. cbn [nbind]. rewrite nsqrt_some by lra. cbn [nmap]. split; auto.
    unfold Epi. assert (P1 := sqrt_pos (EpiCM m_p Tp ^ 2 - m_pi ^ 2)). assert (P2 := sqrt_pos (1 - / gCM m_p Tp ^ 2)).
    set (a := sqrt (EpiCM m_p Tp ^ 2 - m_pi ^ 2)) in *. set (b := sqrt (1 - / gCM m_p Tp ^ 2)) in *.
    assert (0 <= a * b) by (apply Rmult_le_pos; auto). nra.
  Qed.

  (** The maximum photon energy: the most energetic photon of that pion. *)
  Definition Egm (Tp : R) : R := (Epi Tp + sqrt (Epi Tp ^ 2 - m_pi ^ 2)) / 2.
  Lemma Egmax_some Tp : Tth <= Tp -> Egmax m_p Tp = Some (Egm Tp) /\ m_pi / 2 < Egm Tp.
  Proof.
    intros H. destruct (EpimaxLAB_some Tp H) as [E L]. pose proof m_pi_pos. unfold Egmax. rewrite E. cbn [nbind].
    set (e := Epi Tp) in *. assert (G : 1 < e / m_pi).
    { apply Rmult_lt_reg_r with m_pi; auto. unfold Rdiv. rewrite Rmult_assoc, Rinv_l by lra. lra. }
    pose proof (inv_sq_lt1 _ G). rewrite nsqrt_some by lra. cbn [nmap]. unfold Egm. fold e. split.
    - f_equal. replace (1 - / (e / m_pi) ^ 2) with ((e ^ 2 - m_pi ^ 2) / e ^ 2) by (field; lra).
      rewrite sqrt_div_alt by nra. rewrite sqrt_pow2 by lra. field. lra.
    - assert (0 <= sqrt (e ^ 2 - m_pi ^ 2)) by apply sqrt_pos. lra.
  Qed.

  Lemma Ygmax Tp : Tth <= Tp -> Egm Tp + m_pi ^ 2 / (4 * Egm Tp) = Epi Tp.
  Proof.
    intros H. destruct (EpimaxLAB_some Tp H) as [_ L]. destruct (Egmax_some Tp H) as [_ M]. pose proof m_pi_pos.
    unfold Egm in *. set (e := Epi Tp) in *. set (p := sqrt (e ^ 2 - m_pi ^ 2)) in *.
    assert (PP : p * p = e ^ 2 - m_pi ^ 2) by (apply sqrt_sqrt; nra).
    assert (0 <= p) by apply sqrt_pos.
    replace (m_pi ^ 2) with (e ^ 2 - p * p) by lra. field. lra.
  Qed.

  (** the scaled variable *)
  Definition Xg (Tp Eg : R) : R := (Eg + m_pi ^ 2 / (4 * Eg) - m_pi) / (Epi Tp - m_pi).
  Lemma Yg_nonneg Eg : 0 < Eg -> 0 <= Eg + m_pi ^ 2 / (4 * Eg) - m_pi.
  Proof.
    intros. replace (Eg + m_pi ^ 2 / (4 * Eg) - m_pi) with ((2 * Eg - m_pi) ^ 2 / (4 * Eg)) by (field; lra).
    apply Rmult_le_pos; [apply pow2_ge_0|]. apply Rlt_le, Rinv_0_lt_compat. lra.
  Qed.

  Lemma Yg_cmp Tp Eg : Tth <= Tp -> 0 < Eg ->
    Eg + m_pi ^ 2 / (4 * Eg) - Epi Tp = (Eg - Egm Tp) * (Eg - m_pi ^ 2 / (4 * Egm Tp)) / Eg.
  Proof.
    intros H HE. rewrite <- (Ygmax Tp H). destruct (Egmax_some Tp H) as [_ M]. pose proof m_pi_pos. field. lra.
  Qed.

  Lemma lower_lt_upper Tp : Tth <= Tp -> 0 < m_pi ^ 2 / (4 * Egm Tp) < Egm Tp.
  Proof.
    intros H. destruct (Egmax_some Tp H) as [_ M]. pose proof m_pi_pos. split; [apply div_pos; nra|].
    apply Rmult_lt_reg_r with (4 * Egm Tp); [lra|]. unfold Rdiv. rewrite Rmult_assoc, Rinv_l by lra. nra.
  Qed.

  (** Eq. 11 once nan is excluded *)
  Definition Fval (Tp Eg : R) (p : R * R * R * R) : R :=
    let '(lamb, alpha, beta, gamma) := p in
    let X := Rmin 1 (Xg Tp Eg) in
    npow (1 - npow X alpha) beta / Rpower (1 + X / (lamb * m_pi / Epi Tp)) gamma.
  Lemma F_func_some Tp Eg p : Tth <= Tp -> F_func m_p Tp Eg p = Some (Fval Tp Eg p).
  Proof.
    intros H. destruct p as [[[lamb alpha] beta] gamma]. unfold F_func, Fval. destruct (Egmax_some Tp H) as [-> _].
    cbn [nmap]. f_equal. rewrite (Ygmax Tp H). fold (Xg Tp Eg).
    replace (if Rlt_dec 1 (Xg Tp Eg) then 1 else Xg Tp Eg) with (Rmin 1 (Xg Tp Eg)); auto.
    unfold Rmin. destruct (Rlt_dec 1 (Xg Tp Eg)), (Rle_dec 1 (Xg Tp Eg)); lra.
  Qed.

  Definition good_params (p : R * R * R * R) : Prop :=
    let '(lamb, alpha, beta, gamma) := p in 0 < lamb /\ 0 < alpha /\ 0 < beta.

  Lemma Fval_zero Tp Eg p : Tth <= Tp -> 0 < Eg -> good_params p ->
    Egm Tp <= Eg \/ Eg <= m_pi ^ 2 / (4 * Egm Tp) -> Fval Tp Eg p = 0.
  Proof.
    intros H HE HP HL. destruct p as [[[lamb alpha] beta] gamma]. destruct HP as (P1 & P2 & P3). unfold Fval.
    destruct (EpimaxLAB_some Tp H) as [_ L]. pose proof (lower_lt_upper Tp H) as LU.
    assert (X1 : 1 <= Xg Tp Eg).
    { unfold Xg. apply Rmult_le_reg_r with (Epi Tp - m_pi); [lra|]. unfold Rdiv at 1. rewrite Rmult_assoc, Rinv_l by lra.
      pose proof (Yg_cmp Tp Eg H HE) as C.
      assert (0 <= (Eg - Egm Tp) * (Eg - m_pi ^ 2 / (4 * Egm Tp)) / Eg); [|lra].
      apply Rmult_le_pos; [|apply Rlt_le, Rinv_0_lt_compat; auto]. destruct HL; nra. }
    rewrite Rmin_left by auto. rewrite npow_1, Rminus_diag_eq, npow_0 by lra. unfold Rdiv. ring.
  Qed.

  Lemma Fval_pos Tp Eg p : Tth <= Tp -> good_params p ->
    m_pi ^ 2 / (4 * Egm Tp) < Eg < Egm Tp -> 0 < Fval Tp Eg p.
  Proof.
    intros H HP HL. destruct p as [[[lamb alpha] beta] gamma]. destruct HP as (P1 & P2 & P3). unfold Fval.
    destruct (EpimaxLAB_some Tp H) as [_ L]. pose proof (lower_lt_upper Tp H) as LU. pose proof m_pi_pos.
    assert (HE : 0 < Eg) by lra. pose proof (Yg_nonneg Eg HE) as Y0.
    assert (X1 : Xg Tp Eg < 1).
    { unfold Xg. apply Rmult_lt_reg_r with (Epi Tp - m_pi); [lra|]. unfold Rdiv at 1. rewrite Rmult_assoc, Rinv_l by lra.
      pose proof (Yg_cmp Tp Eg H HE) as C.
      assert (0 < (Egm Tp - Eg) * (Eg - m_pi ^ 2 / (4 * Egm Tp)) / Eg) by (apply div_pos; [|lra]; apply Rmult_lt_0_compat; lra).
      replace ((Eg - Egm Tp) * (Eg - m_pi ^ 2 / (4 * Egm Tp)) / Eg) with
        (- ((Egm Tp - Eg) * (Eg - m_pi ^ 2 / (4 * Egm Tp)) / Eg)) in C by (field; lra). lra. }
    assert (X0 : 0 <= Xg Tp Eg).
    { unfold Xg. apply Rmult_le_pos; auto. apply Rlt_le, Rinv_0_lt_compat. lra. }
    rewrite Rmin_right by lra. apply div_pos; [|apply exp_pos]. apply npow_pos.
    pose proof (npow_lt1 (Xg Tp Eg) alpha (conj X0 X1) P2). lra.
  Qed.

  Lemma Fval_nonneg Tp Eg p : Tth <= Tp -> 0 < Eg -> good_params p -> 0 <= Fval Tp Eg p.
  Proof.
    intros H HE HP. destruct (Rle_dec (Egm Tp) Eg); [rewrite Fval_zero; auto; lra|].
    destruct (Rle_dec Eg (m_pi ^ 2 / (4 * Egm Tp))); [rewrite Fval_zero; auto; lra|].
    apply Rlt_le, Fval_pos; auto. lra.
  Qed.

  Lemma kappa_pos Tp : Tth <= Tp -> 0 < kappa m_p Tp.
  Proof.
    intros H. pose proof mp_pos. pose proof Tth_pos. unfold kappa.
    assert (Q : 1 / 4 < Tp / m_p).
    { apply Rmult_lt_reg_r with m_p; auto. unfold Rdiv at 2. rewrite Rmult_assoc, Rinv_l by lra.
      destruct Hmp. unfold Tth in H. lra. }
    assert (Rpower (Tp / m_p) (- (3 / 2)) < 8); [|lra].
    rewrite Rpower_Ropp. rewrite <- (Rinv_inv 8). apply Rinv_lt_contravar.
    - apply Rmult_lt_0_compat; [lra|apply exp_pos].
    - replace (/ 8) with (Rpower (1 / 4) (3 / 2)); [apply Rlt_Rpower_l; lra|].
      replace (3 / 2) with (1 + / 2) by lra. rewrite Rpower_plus, Rpower_1, Rpower_sqrt by lra.
      replace (1 / 4) with ((1 / 2) ^ 2) by lra. rewrite sqrt_pow2 by lra. lra.
  Qed.

  Lemma mu_F_nonneg Tp : 0 <= mu_F m_p Tp.
  Proof.
    unfold mu_F. assert (0 < Rpower ((Tp - 1) / m_p) (5 / 4)) by apply exp_pos.
    assert (0 < exp (- (5 / 4) * ((Tp - 1) / m_p))) by apply exp_pos. nra.
  Qed.

  Variable hi : hiE.
  Lemma F_params_good Tp : Tth <= Tp -> exists p, F_params m_p hi Tp = Some p /\ good_params p.
  Proof.
    intros H. pose proof (mu_F_nonneg Tp). unfold F_params.
    destruct (Rlt_dec (Etrans hi) Tp). { exists (tab_F hi). split; auto. destruct hi; simpl; lra. }
    destruct (Rlt_dec 20 Tp). { eexists; split; [reflexivity|]. simpl; lra. }
    destruct (Rlt_dec 4 Tp). { eexists; split; [reflexivity|]. simpl; lra. }
    destruct (Rlt_dec 1 Tp). { eexists; split; [reflexivity|]. simpl; lra. }
    destruct (Rle_dec Tth Tp); [|lra]. eexists; split; [reflexivity|]. simpl. pose proof (kappa_pos Tp H). lra.
  Qed.

  (** ** Inclusive cross section *)
  Lemma K_res_pos : 0 < K_res.
  Proof.
    assert (0 < gamma_res) by (unfold gamma_res, Mres, Gres; apply sqrt_lt_R0; lra).
    unfold K_res. apply div_pos.
    - unfold Mres, Gres. repeat apply Rmult_lt_0_compat; auto; try lra. apply sqrt_lt_R0; lra.
    - apply Rmult_lt_0_compat; [apply PI_RGT_0|]. apply sqrt_lt_R0. unfold Mres. nra.
  Qed.

  Lemma sigma2pi_nonneg Tp : 0 <= sigma2pi Tp.
  Proof.
    unfold sigma2pi. destruct (Rlt_dec Tp (56 / 100)); [lra|].
    pose proof (exp_pos (- (93 / 10) * (Tp - 14 / 10))). apply Rlt_le, div_pos; lra.
  Qed.

  Lemma sigma_pi_loE_pos Tp : Tth <= Tp -> exists v, sigma_pi_loE m_p Tp = Some v /\ 0 < v.
  Proof.
    intros H. pose proof (mu_rad_pos Tp H) as MR. unfold sigma_pi_loE. rewrite nsqrt_some by lra. cbn [nmap].
    eexists; split; [reflexivity|]. pose proof Tth_pos. pose proof m_pi_pos.
    assert (S : 0 < s_cm m_p Tp) by (apply s_pos; lra).
    set (mu := sqrt (mu_rad m_p Tp) / (2 * m_pi * sqrt (s_cm m_p Tp))).
    assert (0 < mu) by (unfold mu; pos). pose proof (sigma2pi_nonneg Tp). pose proof mbarn_pos.
    assert (0 < npow mu (195 / 100)) by (apply npow_pos; auto).
    assert (0 < Rpower (fBW m_p Tp) (186 / 100)) by apply exp_pos.
    assert (0 < mu ^ 5) by (apply pow_lt; auto).
    assert (0 < 766 / 100000 * npow mu (195 / 100) * (1 + mu + mu ^ 5) * Rpower (fBW m_p Tp) (186 / 100)) by pos.
    apply Rmult_lt_0_compat; lra.
  Qed.

  Lemma sigma_pi_midE_pos Tp : 2 <= Tp < 5 -> 0 < sigma_pi_midE m_p Tp.
  Proof.
    intros H. pose proof mp_pos. unfold sigma_pi_midE. apply Rmult_lt_0_compat; [apply sigma_inel_pos; unfold Tth; lra|].
    set (Q := (Tp - Tth) / m_p).
    assert (QE : Q * m_p = Tp - Tth) by (unfold Q; field; lra).
    assert (1 < Q < 6). { destruct Hmp. unfold Tth in QE. split; nra. }
    nra.
  Qed.

  Lemma sigma_pi_hiE_pos Tp h : 5 <= Tp -> 0 < sigma_pi_hiE m_p Tp (tab_a h).
  Proof.
    intros H. pose proof mp_pos.
    assert (K : forall a0 a1 a2 a3 a4, 0 < a0 -> 0 < a2 -> 0 < sigma_pi_hiE m_p Tp (a0, a1, a2, a3, a4)).
    { intros a0 a1 a2 a3 a4 P0 P2. unfold sigma_pi_hiE. apply Rmult_lt_0_compat; [apply sigma_inel_pos; unfold Tth; lra|].
      set (cs := (Tp - 3) / m_p). pose proof (exp_pos (- a1 * Rpower cs a4)).
      assert (0 < Rpower cs a3) by apply exp_pos. assert (0 < Rpower cs (1 / 4)) by apply exp_pos.
      apply Rmult_lt_0_compat; [pos|].
      assert (exp (- a2 * Rpower cs (1 / 4)) < 1); [|lra]. rewrite <- exp_0 at 2. apply exp_increasing. nra. }
    destruct h; apply K; lra.
  Qed.

  Lemma sigma_pi_pos Tp : Tth <= Tp -> exists v, sigma_pi m_p hi Tp = Some v /\ 0 < v.
  Proof.
    intros H. unfold sigma_pi. destruct (Rlt_dec Tp 2); [apply sigma_pi_loE_pos; auto|].
    destruct (Rlt_dec Tp 5). { eexists; split; [reflexivity|]. apply sigma_pi_midE_pos; lra. }
    destruct (Rlt_dec Tp (Etrans hi)); (eexists; split; [reflexivity|]; apply sigma_pi_hiE_pos; lra).
  Qed.

  Lemma Amax_pos Tp : Tth <= Tp -> exists v, Amax m_p hi Tp = Some v /\ 0 < v.
  Proof.
    intros H. destruct (sigma_pi_pos Tp H) as (s & ES & HS). pose proof mp_pos. pose proof m_pi_pos. unfold Amax. rewrite ES.
    destruct (Rlt_dec Tp 1).
    - destruct (EpimaxLAB_some Tp H) as [-> L]. cbn [nbind nmap]. eexists; split; [reflexivity|]. apply div_pos; lra.
    - assert (HB : 0 < fst (fst (b_params hi Tp))).
      { unfold b_params. destruct (Rle_dec (Etrans hi) Tp); [destruct hi; simpl; lra|].
        destruct (Rle_dec 5 Tp); simpl; lra. }
      destruct (b_params hi Tp) as [[b1 b2] b3]. simpl in HB. cbn [nmap]. eexists; split; [reflexivity|].
      assert (0 < Rpower (Tp / m_p) (- b2)) by apply exp_pos. assert (0 < exp (b3 * ln (Tp / m_p) ^ 2)) by apply exp_pos. pos.
  Qed.

  (** ** Nuclear enhancement *)
  Lemma nuclear_factor_ge Tp : Tth < Tp -> 137 / 100 <= nuclear_factor Tp.
  Proof.
    intros H. unfold nuclear_factor. destruct (Rlt_dec Tth Tp); [|lra]. destruct (Rlt_dec Tp 1); [lra|].
    pose proof (sigma_inel_pos Tp H). pose proof PI_RGT_0. pose proof mbarn_pos.
    set (f := sigma_inel Tp / sigma_inel 1000).
    assert (0 <= ln (if Rlt_dec 1 f then f else 1)).
    { rewrite <- ln_1. destruct (Rlt_dec 1 f) as [F1|F1]; [apply Rlt_le, ln_increasing; lra|lra]. }
    assert (0 <= (29 / 100 + 1 / 10) * (10 * PI * mbarn) * (1 + ln (if Rlt_dec 1 f then f else 1)) / sigma_inel Tp); [|lra].
    apply Rlt_le. pos.
  Qed.

  (** ** Differential cross section *)
  Lemma diffsigma_some nuclear Ep Eg : Tth <= Ep - m_p -> 0 < Eg ->
    exists v, diffsigma m_p hi nuclear Ep Eg = Some v /\ 0 <= v.
  Proof.
    intros H HE. set (Tp := Ep - m_p) in *. destruct (Amax_pos Tp H) as (a & EA & HA).
    destruct (F_params_good Tp H) as (p & EP & HP). unfold diffsigma. fold Tp. rewrite EA. unfold F. rewrite EP.
    rewrite F_func_some by auto. cbn [nmul nbind nmap]. pose proof (Fval_nonneg Tp Eg p H HE HP).
    destruct nuclear; eexists; (split; [reflexivity|]).
    - apply Rmult_le_pos; [nra|]. destruct (Rlt_dec Tth Tp) as [L|L].
      + pose proof (nuclear_factor_ge Tp L). lra.
      + unfold nuclear_factor. destruct (Rlt_dec Tth Tp); lra.
    - nra.
  Qed.
End P.

(** ** nan-aware integration *)
Lemma ntrapz_real ys : forall xs, ntrapz (map Some ys) xs = Some (trapz_loglog ys xs).
Proof.
  induction ys as [|y1 ys IH]; intros xs; [reflexivity|].
  destruct ys as [|y2 ys]; [destruct xs as [|? [|]]; reflexivity|].
  destruct xs as [|x1 [|x2 xs]]; [reflexivity..|]. rewrite trapz_cons2.
  change (ntrapz (map Some (y1 :: y2 :: ys)) (x1 :: x2 :: xs))
    with (nbind (ninterval x1 x2 (Some y1) (Some y2)) (fun v => nmap (Rplus v) (ntrapz (map Some (y2 :: ys)) (x2 :: xs)))).
  rewrite IH. unfold ninterval, interval. cbn [is_zero].
  destruct (Req_EM_T y1 0); [reflexivity|]. destruct (Req_EM_T y2 0); [reflexivity|]. cbn [orb].
  destruct (Req_EM_T x1 x2); reflexivity.
Qed.

Lemma ntrapz_ext_real ys rs xs : ys = map Some rs -> ntrapz ys xs = Some (trapz_loglog rs xs).
Proof. intros ->. apply ntrapz_real. Qed.
