(** C148: PionDecay follows the published parametrisation. *)
From Coq Require Import Reals ZArith List Lra Lia Bool Psatz.
From Verif Require Import TrapzModel TrapzSpec TrapzProofs EnergyModel EnergyProofs ElectronModel ElectronProofs
  PionModel PionProofs PionProps PionProps2 PubSpec.
Import ListNotations.
Local Open Scope R_scope.

Section K.
  Variable m_p : R.
  Hypothesis Hmp : proton m_p.
  Let P : 0 < m_p := mp_pos m_p Hmp.

  Lemma pub_mpi : mpi = m_pi. Proof. unfold mpi, m_pi. lra. Qed.
  Lemma pub_Tth : T_threshold = Tth. Proof. unfold T_threshold, Tth. lra. Qed.
  Lemma pub_W T : 0 <= T -> invariant_mass m_p T = sqrt (s_cm m_p T).
  Proof.
    intros H. unfold invariant_mass, total_energy, momentum, s_cm. f_equal.
    rewrite <- Rsqr_pow2 with (x := sqrt _). rewrite Rsqr_sqrt by nra. ring.
  Qed.
  Lemma pub_EpiCM T : 0 <= T -> pion_cm_energy m_p T = EpiCM m_p T.
  Proof.
    intros H. unfold pion_cm_energy, EpiCM. rewrite pub_W by auto. rewrite pub_mpi.
    f_equal. rewrite <- Rsqr_pow2 with (x := sqrt _). rewrite Rsqr_sqrt by (pose proof (s_pos m_p Hmp T H); lra). ring.
  Qed.
  Lemma pub_Epi T : Tth <= T -> pion_max_energy m_p T = Epi m_p T.
  Proof.
    intros H. pose proof Tth_pos as TP. assert (H0 : 0 <= T) by lra. pose proof (s_pos m_p Hmp T H0) as S.
    assert (Q : 0 < sqrt (s_cm m_p T)) by (apply sqrt_lt_R0; auto).
    unfold pion_max_energy, pion_cm_momentum. rewrite pub_W, pub_EpiCM, pub_mpi by auto. unfold Epi.
    replace (sqrt (1 - / gCM m_p T ^ 2)) with (momentum m_p T / total_energy m_p T).
    { unfold gCM, total_energy. field. lra. }
    unfold momentum, total_energy.
    replace (1 - / gCM m_p T ^ 2) with (((m_p + T) ^ 2 - m_p ^ 2) / (m_p + T + m_p) ^ 2).
    { rewrite sqrt_div_alt by nra. rewrite sqrt_pow2 by lra. reflexivity. }
    unfold gCM. assert (SS : sqrt (s_cm m_p T) ^ 2 = s_cm m_p T) by (rewrite <- Rsqr_pow2; apply Rsqr_sqrt; lra).
    replace (/ ((T + 2 * m_p) / sqrt (s_cm m_p T)) ^ 2) with (sqrt (s_cm m_p T) ^ 2 / (T + 2 * m_p) ^ 2) by (field; lra).
    rewrite SS. unfold s_cm. field. lra.
  Qed.
  Lemma pub_Eg T : Tth <= T -> photon_max_energy m_p T = Egm m_p T.
  Proof. intros H. unfold photon_max_energy, Egm. rewrite pub_Epi, pub_mpi by auto. reflexivity. Qed.

  Lemma pub_inel T : 0 < T -> inelastic T * mbarn = sigma_inel T.
  Proof.
    intros H. unfold inelastic, sigma_inel. pose proof Tth_pos. rewrite pub_Tth.
    rewrite ln_div by auto. unfold Rpower. rewrite (ln_div Tth T) by auto.
    replace (19 / 10 * (ln Tth - ln T)) with (- (19 / 10) * (ln T - ln Tth)) by ring.
    set (l := ln T - ln Tth). ring.
  Qed.
  Lemma pub_BW T : 0 <= T -> breit_wigner m_p T = fBW m_p T.
  Proof.
    intros H. unfold breit_wigner, fBW. rewrite pub_W by auto. unfold K_res, gamma_res, Mres, Gres.
    assert (E8 : sqrt 8 = 2 * sqrt 2).
    { replace 8 with (2 ^ 2 * 2) by ring. rewrite sqrt_mult by lra. rewrite sqrt_pow2 by lra. reflexivity. }
    set (M := 11883 / 10000). set (G := 2264 / 10000).
    assert (EG : sqrt (M ^ 2 * (M ^ 2 + G ^ 2)) = M * sqrt (M * M + G * G)).
    { rewrite sqrt_mult by (unfold M, G; lra). rewrite sqrt_pow2 by (unfold M; lra). f_equal. f_equal. ring. }
    rewrite EG, E8. replace (M ^ 2) with (M * M) by ring. replace ((M * G) ^ 2) with (M * M * G ^ 2) by ring. reflexivity.
  Qed.
  Lemma pub_eta T : Tth <= T -> pion_cm_momentum m_p T / mpi = sqrt (mu_rad m_p T) / (2 * m_pi * sqrt (s_cm m_p T)).
  Proof.
    intros H. pose proof Tth_pos as TP. assert (H0 : 0 <= T) by lra. pose proof (s_pos m_p Hmp T H0) as S. pose proof m_pi_pos.
    assert (Q : 0 < sqrt (s_cm m_p T)) by (apply sqrt_lt_R0; auto).
    unfold pion_cm_momentum. rewrite pub_EpiCM, pub_mpi by auto.
    assert (SS : sqrt (s_cm m_p T) ^ 2 = s_cm m_p T) by (rewrite <- Rsqr_pow2; apply Rsqr_sqrt; lra).
    replace (EpiCM m_p T ^ 2 - m_pi ^ 2) with (mu_rad m_p T / (2 * sqrt (s_cm m_p T)) ^ 2).
    2:{ unfold EpiCM, mu_rad. set (q := sqrt (s_cm m_p T)) in *. rewrite <- SS. field. lra. }
    rewrite sqrt_div_alt by nra. rewrite sqrt_pow2 by lra. field. lra.
  Qed.

  Lemma pub_lo T : Tth <= T -> sigma_pi_loE m_p T = Some ((one_pion m_p T + two_pions T) * mbarn).
  Proof.
    intros H. pose proof Tth_pos. pose proof (mu_rad_pos m_p Hmp T H) as MR. unfold sigma_pi_loE.
    rewrite nsqrt_some by lra. cbn [nmap]. f_equal. f_equal. unfold one_pion. rewrite pub_eta, pub_BW by (auto; lra).
    set (mu := sqrt (mu_rad m_p T) / (2 * m_pi * sqrt (s_cm m_p T))).
    assert (MP : 0 < mu).
    { unfold mu. pose proof m_pi_pos. pose proof (s_pos m_p Hmp T ltac:(lra)). apply div_pos; [apply sqrt_lt_R0; lra|].
      apply Rmult_lt_0_compat; [lra|apply sqrt_lt_R0; auto]. }
    f_equal.
    - unfold npow. destruct (Req_EM_T mu 0); [lra|]. unfold Rpower. f_equal. f_equal. f_equal. lra.
    - unfold sigma2pi, two_pions. destruct (Rlt_dec T (56 / 100)), (Rle_dec (56 / 100) T); try lra; try reflexivity.
      replace (- (93 / 10) * (T - 14 / 10)) with (93 / 10 * (14 / 10 - T)) by ring. reflexivity.
  Qed.
  Lemma pub_hi T p : 5 <= T -> inelastic T * multiplicity_high m_p T p * mbarn = sigma_pi_hiE m_p T (a p).
  Proof.
    intros H. unfold multiplicity_high, sigma_pi_hiE. destruct (a p) as [[[[a0 a1] a2] a3] a4].
    rewrite <- pub_inel by lra. set (x := (T - 3) / m_p).
    assert (XP : 0 < x) by (apply div_pos; lra).
    assert (E : Rpower x (1 / 4) = sqrt (sqrt x)).
    { rewrite <- !Rpower_sqrt by (try apply sqrt_lt_R0; auto; apply exp_pos). rewrite Rpower_mult. f_equal. lra. }
    rewrite E. unfold Rpower. ring.
  Qed.
  Lemma pub_from hi : from_energy (kafexhiu hi) = Etrans hi. Proof. destruct hi; reflexivity. Qed.
  Lemma pub_a hi : a (kafexhiu hi) = tab_a hi. Proof. destruct hi; reflexivity. Qed.
  Lemma pub_b hi : b (kafexhiu hi) = tab_b hi. Proof. destruct hi; reflexivity. Qed.
  Lemma pub_F hi : lambda_alpha_beta_gamma (kafexhiu hi) = tab_F hi. Proof. destruct hi; reflexivity. Qed.

  Lemma pub_sigma hi T : Tth <= T -> sigma_pi m_p hi T = Some (pi0_production m_p hi T * mbarn).
  Proof.
    intros H. unfold sigma_pi, pi0_production. destruct (Rlt_dec T 2) as [L2|L2]; [apply pub_lo; auto|].
    destruct (Rlt_dec T 5) as [L5|L5].
    - f_equal. unfold sigma_pi_midE, multiplicity_mid. rewrite <- pub_inel by lra. rewrite pub_Tth. ring.
    - rewrite pub_from. destruct (Rlt_dec T (Etrans hi)); f_equal; rewrite pub_hi by lra; rewrite pub_a; reflexivity.
  Qed.

  Lemma pub_peak hi T : Tth <= T -> Amax m_p hi T = Some (peak m_p hi T * mbarn).
  Proof.
    intros H. pose proof Tth_pos. unfold Amax, peak. rewrite pub_sigma by auto. destruct (Rlt_dec T 1) as [L1|L1].
    - destruct (EpimaxLAB_some m_p Hmp T H) as [-> L]. pose proof m_pi_pos. cbn [nbind nmap]. rewrite pub_Epi by auto. f_equal. field. lra.
    - assert (BP : b_params hi T = (if Rlt_dec T 5 then (953 / 100, 52 / 100, 54 / 1000)
            else b (if Rlt_dec T (from_energy (kafexhiu hi)) then kafexhiu Geant4 else kafexhiu hi))).
      { unfold b_params. rewrite pub_from. assert (50 <= Etrans hi) by (destruct hi; simpl; lra).
        destruct (Rle_dec (Etrans hi) T), (Rlt_dec T 5), (Rlt_dec T (Etrans hi)), (Rle_dec 5 T); try lra; rewrite ?pub_b; reflexivity. }
      rewrite <- BP. destruct (b_params hi T) as [[b1 b2] b3]. cbn [nmap]. f_equal. unfold Rpower.
      set (l := ln (T / m_p)).
      replace (b3 * l * l - b2 * l) with (- b2 * l + b3 * l ^ 2) by ring. rewrite exp_plus. unfold Rdiv. ring.
  Qed.

  Lemma pub_shape T Eg l al be ga : Tth <= T -> 0 < Eg -> 0 < l -> 0 < al -> 0 < be ->
    F_func m_p T Eg (l, al, be, ga) = Some (shape m_p T Eg l al be ga).
  Proof.
    intros H HE Hl Ha Hb. rewrite (F_func_some m_p Hmp) by auto. f_equal. unfold Fval, shape.
    rewrite pub_Eg, pub_mpi by auto. rewrite (Ygmax m_p Hmp T H). fold (Xg m_p T Eg).
    destruct (EpimaxLAB_some m_p Hmp T H) as [_ L]. pose proof m_pi_pos.
    set (X := Xg m_p T Eg). assert (X0 : 0 <= X).
    { unfold X, Xg. apply Rmult_le_pos; [apply Yg_nonneg; auto|]. apply Rlt_le, Rinv_0_lt_compat. lra. }
    destruct (Rle_dec 1 X) as [X1|X1].
    - rewrite Rmin_left by auto. rewrite npow_1, Rminus_diag_eq, npow_0 by lra. unfold Rdiv. ring.
    - rewrite Rmin_right by lra.
      assert (E : npow X al = (if Rle_dec X 0 then 0 else Rpower X al)).
      { unfold npow. destruct (Req_EM_T X 0), (Rle_dec X 0); try lra; try reflexivity. destruct (Req_EM_T al 0); lra. }
      rewrite <- E. pose proof (npow_lt1 X al ltac:(lra) Ha) as N.
      unfold npow at 1. destruct (Req_EM_T (1 - npow X al) 0) as [Z|Z]; [lra|].
      replace (X / (l * m_pi / Epi m_p T)) with (X * Epi m_p T / (l * m_pi)) by (field; lra). reflexivity.
  Qed.
  Lemma pub_kappa T : 0 < T -> kappa14 m_p T = kappa m_p T.
  Proof.
    intros H. unfold kappa14, kappa. set (x := T / m_p). assert (XP : 0 < x) by (apply div_pos; auto).
    assert (E : Rpower x (3 / 2) = sqrt x ^ 3).
    { replace (3 / 2) with (/ 2 * INR 3) by (simpl; lra). rewrite <- Rpower_mult, Rpower_sqrt by auto. apply Rpower_pow, sqrt_lt_R0; auto. }
    rewrite Rpower_Ropp, E. unfold Rdiv. ring.
  Qed.
  Lemma pub_mu T : 1 < T -> mu15 m_p T = mu_F m_p T.
  Proof.
    intros H. unfold mu15, mu_F. set (q := (T - 1) / m_p). assert (XP : 0 < q) by (apply div_pos; lra).
    replace (Rpower q (5 / 4)) with (q * sqrt (sqrt q)); [ring|].
    replace (5 / 4) with (1 + / 2 * / 2) by lra. rewrite Rpower_plus, Rpower_1 by auto. f_equal.
    rewrite <- Rpower_mult. rewrite !Rpower_sqrt by (auto; apply exp_pos). reflexivity.
  Qed.

  Lemma pub_spectrum_shape hi T Eg : Tth <= T -> 0 < Eg -> F m_p hi T Eg = Some (spectrum_shape m_p hi T Eg).
  Proof.
    intros H HE. unfold F, F_params, spectrum_shape. rewrite pub_from. pose proof (kappa_pos m_p Hmp T H). pose proof (mu_F_nonneg m_p T). pose proof Tth_pos.
    assert (E50 : 50 <= Etrans hi) by (destruct hi; simpl; lra).
    destruct (Rle_dec T 1) as [T1|T1].
    { destruct (Rlt_dec (Etrans hi) T); [lra|]. destruct (Rlt_dec 20 T); [lra|]. destruct (Rlt_dec 4 T); [lra|].
      destruct (Rlt_dec 1 T); [lra|]. destruct (Rle_dec Tth T); [|lra].
      rewrite pub_shape by (auto; lra). rewrite pub_kappa by lra. reflexivity. }
    destruct (Rle_dec T 4) as [T4|T4].
    { destruct (Rlt_dec (Etrans hi) T); [lra|]. destruct (Rlt_dec 20 T); [lra|]. destruct (Rlt_dec 4 T); [lra|].
      destruct (Rlt_dec 1 T); [|lra]. rewrite pub_shape by (auto; lra). rewrite pub_mu by lra. reflexivity. }
    destruct (Rle_dec T 20) as [T20|T20].
    { destruct (Rlt_dec (Etrans hi) T); [lra|]. destruct (Rlt_dec 20 T); [lra|]. destruct (Rlt_dec 4 T); [|lra].
      rewrite pub_shape by (auto; lra). rewrite pub_mu by lra. do 2 f_equal. lra. }
    destruct (Rle_dec T (Etrans hi)) as [TE|TE].
    { destruct (Rlt_dec (Etrans hi) T); [lra|]. destruct (Rlt_dec 20 T); [|lra]. rewrite pub_shape by (auto; lra). reflexivity. }
    destruct (Rlt_dec (Etrans hi) T); [|lra]. rewrite pub_F. destruct hi; cbn [tab_F]; rewrite pub_shape by (auto; lra); reflexivity.
  Qed.

  Lemma pub_enh T : Tth < T -> enhancement T = nuclear_factor T.
  Proof.
    intros H. pose proof Tth_pos. pose proof (sigma_inel_pos T H) as SP. pose proof mbarn_pos.
    assert (S0 : 0 < sigma_inel 1000) by (apply sigma_inel_pos; unfold Tth; lra).
    unfold enhancement, nuclear_factor. destruct (Rlt_dec Tth T); [|lra]. destruct (Rlt_dec T 1); [reflexivity|].
    rewrite <- (pub_inel T) in * by lra. rewrite <- (pub_inel 1000) in * by lra.
    assert (I1 : inelastic T <> 0) by nra. assert (I0 : inelastic 1000 <> 0) by nra.
    replace (inelastic T * mbarn / (inelastic 1000 * mbarn)) with (inelastic T / inelastic 1000) by (field; lra).
    set (f := inelastic T / inelastic 1000).
    replace (if Rlt_dec 1 f then f else 1) with (Rmax 1 f) by (unfold Rmax; destruct (Rle_dec 1 f), (Rlt_dec 1 f); lra).
    field. lra.
  Qed.
End K.

(** C148: above the threshold the differential cross section of PionDecay, evaluated
    directly, is the published one (1 mb = 1e-27 cm2). *)
Theorem C148_cross_section : forall m_p hi nuclear T Eg, proton m_p -> T_threshold < T -> 0 < Eg ->
  diffsigma m_p hi nuclear (m_p + T) Eg = Some (published_pp m_p hi nuclear T Eg / 10 ^ 27).
Proof.
  intros m_p hi nuclear T Eg Hmp HT HE. rewrite pub_Tth in HT. assert (HT' : Tth <= T) by lra.
  unfold diffsigma. replace (m_p + T - m_p) with T by ring.
  rewrite (pub_peak m_p Hmp) by auto. rewrite (pub_spectrum_shape m_p Hmp) by auto. unfold published_pp.
  change (/ 10 ^ 27) with mbarn. cbn [nmul nbind nmap]. rewrite (pub_enh T HT). fold mbarn.
  destruct nuclear; f_equal; unfold Rdiv; change (/ 10 ^ 27) with mbarn; ring.
Qed.
Print Assumptions C148_cross_section.

(** The kinematics of the specification conserve energy, and the numerical threshold is
    the kinematic one to 1e-7 GeV. *)
Theorem C148_kinematics : forall m_p, proton m_p ->
  Rabs (T_threshold - ((2 * m_p + mpi) ^ 2 - (2 * m_p) ^ 2) / (2 * m_p)) < / 10 ^ 7 /\
  forall T, T_threshold <= T ->
  2 * m_p + mpi < invariant_mass m_p T /\
  pion_cm_energy m_p T + sqrt (pion_cm_momentum m_p T ^ 2 + (2 * m_p) ^ 2) = invariant_mass m_p T.
Proof.
  intros m_p Hmp. pose proof (mp_pos m_p Hmp) as P. split.
  { unfold T_threshold, mpi. replace (((2 * m_p + 1349766 / 10 ^ 7) ^ 2 - (2 * m_p) ^ 2) / (2 * m_p))
      with (2 * (1349766 / 10 ^ 7) + (1349766 / 10 ^ 7) ^ 2 / 2 * / m_p) by (field; lra).
    assert (B : / (938273 / 1000000) <= / m_p <= / (938272 / 1000000)) by (destruct Hmp; split; apply Rinv_le_contravar; lra).
    apply Rabs_def1; lra. }
  intros T HT. rewrite pub_Tth in HT. pose proof Tth_pos. pose proof (s_pos m_p Hmp T ltac:(lra)) as S.
  rewrite (pub_W m_p Hmp) by lra. rewrite pub_mpi. pose proof (sqrt_s m_p Hmp T HT) as Q. split; auto.
  unfold pion_cm_momentum. rewrite (pub_EpiCM m_p Hmp) by lra. rewrite pub_mpi. pose proof (EpiCM_gt m_p Hmp T HT). pose proof m_pi_pos.
  rewrite <- Rsqr_pow2 with (x := sqrt (_ - _)). rewrite Rsqr_sqrt by nra.
  assert (SS : sqrt (s_cm m_p T) ^ 2 = s_cm m_p T) by (rewrite <- Rsqr_pow2; apply Rsqr_sqrt; lra).
  set (q := sqrt (s_cm m_p T)) in *.
  assert (E : EpiCM m_p T = (q ^ 2 - 4 * m_p ^ 2 + m_pi ^ 2) / (2 * q)) by (unfold EpiCM; fold q; rewrite SS; reflexivity).
  replace (EpiCM m_p T ^ 2 - m_pi ^ 2 + (2 * m_p) ^ 2) with ((q - EpiCM m_p T) ^ 2) by (rewrite E; field; lra).
  rewrite sqrt_pow2; [ring|]. rewrite E.
  assert (X : 0 < (q ^ 2 + 4 * m_p ^ 2 - m_pi ^ 2) / (2 * q)).
  { apply div_pos; [|lra]. assert (m_pi < m_p) by (unfold proton in Hmp; unfold m_pi; lra). nra. }
  replace (q - (q ^ 2 - 4 * m_p ^ 2 + m_pi ^ 2) / (2 * q)) with ((q ^ 2 + 4 * m_p ^ 2 - m_pi ^ 2) / (2 * q)) by (field; lra). lra.
Qed.
Print Assumptions C148_kinematics.
Example C148_example : proton (938272 / 1000000) /\ T_threshold < 1 / 2 /\ T_threshold < 1000.
Proof. unfold proton, T_threshold. lra. Qed.
