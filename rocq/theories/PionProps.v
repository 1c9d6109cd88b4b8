(** Properties C18, C21, C22, C26-C29, C69-C71 for pion decay. *)
From Coq Require Import Reals ZArith List Lra Lia Bool Psatz Permutation Sorted.
From Verif Require Import TrapzModel TrapzSpec TrapzProofs EnergyModel EnergyProofs ElectronModel ElectronProofs
  PionModel PionProofs.
Import ListNotations.
Local Open Scope R_scope.

(** ** C26: kinematic limit *)
(** For every proton kinetic energy at or above the pion threshold: with Mandelstam s,
    the largest pion energy in the centre of mass Ecm = (s - 4 m_p^2 + m_pi^2)/(2 sqrt s),
    boosted to the laboratory, is Epi; its most energetic photon has energy
    M = (Epi + sqrt(Epi^2 - m_pi^2))/2.  Photons at or beyond M (or at or below
    m_pi^2/(4M)) have differential cross section exactly 0, those strictly inside
    a positive one. *)
Theorem C26_photon_limit : forall m_p hi nuclear Ep Eg, proton m_p -> 0 < Eg ->
  let T := Ep - m_p in
  let s := 2 * m_p * (T + 2 * m_p) in
  let Ecm := (s - 4 * m_p ^ 2 + m_pi ^ 2) / (2 * sqrt s) in
  let g := (T + 2 * m_p) / sqrt s in
  let Epi := g * (Ecm + sqrt (Ecm ^ 2 - m_pi ^ 2) * sqrt (1 - / g ^ 2)) in
  let M := (Epi + sqrt (Epi ^ 2 - m_pi ^ 2)) / 2 in
  Tth < T ->
  m_pi / 2 < M /\ Egmax m_p T = Some M /\
  ((M <= Eg \/ Eg <= m_pi ^ 2 / (4 * M)) -> diffsigma m_p hi nuclear Ep Eg = Some 0) /\
  (m_pi ^ 2 / (4 * M) < Eg < M -> exists v, diffsigma m_p hi nuclear Ep Eg = Some v /\ 0 < v).
Proof.
  intros m_p hi nuclear Ep Eg Hmp HE T s Ecm g Epi M HT.
  assert (HT' : Tth <= T) by lra.
  destruct (Egmax_some m_p Hmp T HT') as [E1 E2].
  change (Egm m_p T) with M in E1, E2. split; auto. split; auto.
  destruct (Amax_pos m_p Hmp hi T HT') as (a & EA & HA).
  destruct (F_params_good m_p Hmp hi T HT') as (p & EP & HP).
  pose proof (nuclear_factor_ge T HT) as NF.
  unfold diffsigma. fold T. rewrite EA. unfold F. rewrite EP. rewrite (F_func_some m_p Hmp) by auto. cbn [nmul nbind nmap].
  split.
  - intros HL. rewrite (Fval_zero m_p Hmp T Eg p HT' HE HP HL). destruct nuclear; cbn [nmap]; f_equal; ring.
  - intros HL. pose proof (Fval_pos m_p Hmp T Eg p HT' HP HL) as FP.
    destruct nuclear; cbn [nmap]; eexists; (split; [reflexivity|]).
    + apply Rmult_lt_0_compat; [|lra]. apply Rmult_lt_0_compat; auto.
    + apply Rmult_lt_0_compat; auto.
Qed.
Print Assumptions C26_photon_limit.

Example C26_example : proton (9382720 / 10000000) /\ Tth < 10 - 9382720 / 10000000.
Proof. unfold proton, Tth. lra. Qed.

(** Below the threshold (refuted): the cross section does not vanish, it is nan. *)
Lemma EpimaxLAB_below m_p T : proton m_p -> 0 < T -> T <= 27966 / 100000 -> EpimaxLAB m_p T = None.
Proof.
  intros Hmp H0 H1. pose proof (mp_pos m_p Hmp) as P. pose proof m_pi_pos as PI0.
  assert (S : 0 < s_cm m_p T) by (apply s_pos; auto; lra).
  assert (SS : sqrt (s_cm m_p T) * sqrt (s_cm m_p T) = s_cm m_p T) by (apply sqrt_sqrt; lra).
  assert (Q1 : sqrt (s_cm m_p T) < 2 * m_p + m_pi).
  { rewrite <- (sqrt_pow2 (2 * m_p + m_pi)) by lra. apply sqrt_lt_1; [lra|nra|]. unfold s_cm. destruct Hmp. unfold m_pi in *. nra. }
  assert (Q2 : 2 * m_p < sqrt (s_cm m_p T)).
  { rewrite <- (sqrt_pow2 (2 * m_p)) by lra. apply sqrt_lt_1; [nra|lra|]. unfold s_cm. nra. }
  unfold EpimaxLAB. rewrite nsqrt_none; [reflexivity|].
  assert (E1 : EpiCM m_p T < m_pi).
  { unfold EpiCM. set (q := sqrt (s_cm m_p T)) in *. rewrite <- SS. apply Rmult_lt_reg_r with (2 * q); [lra|].
    unfold Rdiv. rewrite Rmult_assoc, Rinv_l by lra.
    assert (0 < (2 * m_p + m_pi - q) * (q - m_pi + 2 * m_p)).
    { apply Rmult_lt_0_compat; [lra|]. destruct Hmp. unfold m_pi in *. lra. }
    nra. }
  assert (E2 : 0 < EpiCM m_p T).
  { unfold EpiCM. apply div_pos; [|lra]. unfold s_cm. nra. }
  nra.
Qed.

Lemma diffsigma_below m_p hi nuclear Ep Eg : proton m_p -> m_p < Ep -> Ep <= m_p + 27966 / 100000 ->
  diffsigma m_p hi nuclear Ep Eg = None.
Proof.
  intros Hmp H0 H1. unfold diffsigma. assert (EA : Amax m_p hi (Ep - m_p) = None).
  { unfold Amax. destruct (Rlt_dec (Ep - m_p) 1); [|lra]. rewrite EpimaxLAB_below by (auto; lra).
    destruct (sigma_pi m_p hi (Ep - m_p)); reflexivity. }
  rewrite EA. destruct nuclear; reflexivity.
Qed.

(** ... so the flux is nan at every photon energy as soon as two points of the
    proton grid lie between the rest energy and the threshold. *)
Theorem C127_below_threshold_refuted : forall m_p hi nuclear nhc GeV pd e1 e2 es Egs,
  proton m_p -> m_p < e1 -> e1 < e2 -> e2 <= m_p + 27966 / 100000 ->
  pion_spectrum (diffsigma m_p hi nuclear) nhc GeV pd (e1 :: e2 :: es) Egs = map (fun _ => None) Egs.
Proof.
  intros m_p hi nuclear nhc GeV pd e1 e2 es Egs Hmp H1 H2 H3. unfold pion_spectrum. apply map_ext. intros Eg.
  unfold J. cbn [map combine fst snd]. rewrite !diffsigma_below by (auto; lra). cbn [nmul nbind].
  cbn [ntrapz]. unfold ninterval. cbn [is_zero orb]. destruct (Req_EM_T e1 e2); [lra|]. reflexivity.
Qed.
Print Assumptions C127_below_threshold_refuted.

(** e.g. a minimum proton energy of 1 GeV (default maximum and sampling) *)
Example C26_below_example : exists e1 e2 es, Ep 1 100 1 (10 ^ 7) = e1 :: e2 :: es /\ 938273 / 1000000 < e1 /\ e1 < e2 /\
  e2 <= 938272 / 1000000 + 27966 / 100000.
Proof.
  pose proof ln10_pos as L10.
  assert (N : Ep 1 100 1 (10 ^ 7) = logspace 0 7 (npoints 700)).
  { unfold Ep. assert (E1 : log10 (1 / 1) = 0) by (unfold log10, Rdiv; rewrite Rinv_1, Rmult_1_r, ln_1; lra).
    assert (E7 : log10 (10 ^ 7 / 1) = 7).
    { unfold log10, Rdiv. rewrite Rinv_1, Rmult_1_r, ln_pow by lra.
      simpl INR. field. lra. }
    rewrite E1, E7. do 2 f_equal. lra. }
  assert (NP : npoints 700 = 700%nat).
  { unfold npoints. replace 700 with (IZR 700) by reflexivity.
    assert (IP : Int_part (IZR 700) = 700%Z). { destruct (base_Int_part (IZR 700)) as [I1 I2]. assert (Int_part (IZR 700) <= 700)%Z by (apply le_IZR; auto). assert (699 < Int_part (IZR 700))%Z by (apply lt_IZR; lra). lia. } rewrite IP. reflexivity. }
  assert (GR : grid (logspace 0 7 (npoints 700))) by (apply logspace_grid; [rewrite NP; lia|lra]).
  assert (A0 := logspace_nth 0 7 (npoints 700) 0 0). assert (A1 := logspace_nth 0 7 (npoints 700) 1 0).
  rewrite NP in A0, A1. specialize (A0 ltac:(lia) ltac:(lia)). specialize (A1 ltac:(lia) ltac:(lia)).
  rewrite N. rewrite NP in GR |- *. assert (HL := logspace_length 0 7 700).
  destruct (logspace 0 7 700) as [|e1 [|e2 es]]; [discriminate|discriminate|].
  exists e1, e2, es. split; [reflexivity|]. cbn [nth] in A0, A1.
  change (INR 0) with 0 in A0. change (INR 1) with 1 in A1.
  assert (E699 : INR (700 - 1) = 699) by (rewrite INR_IZR_INZ; reflexivity). rewrite E699 in A1.
  destruct GR as [_ GR]. apply StronglySorted_inv in GR. destruct GR as [_ GF]. apply Forall_inv in GF. rename GF into LT.
  unfold pow10 in A0, A1. rewrite Rmult_0_l, Rplus_0_r, Rpower_O in A0 by lra. split; [lra|]. split; [lra|].
  rewrite A1. unfold pow10.
  apply Rle_trans with (Rpower 10 (/ 99)).
  { apply Rle_Rpower; lra. }
  apply Rle_trans with (6 / 5); [|lra].
  assert (B : 10 <= (6 / 5) ^ 99).
  { replace (6 / 5) with (1 + / 5) by lra. apply Rle_trans with (1 + INR 99 * / 5); [simpl; lra|].
    apply poly. lra. }
  rewrite <- (Rpower_1 (6 / 5)) by lra. replace 1 with (INR 99 * / 99) by (simpl; lra).
  rewrite <- Rpower_mult. rewrite Rpower_pow by lra. apply Rle_Rpower_l; lra.
Qed.

(** Kelner et al.: the inelastic cross section vanishes below 1.22 GeV. *)
Theorem C26_kelner_threshold : forall Ep, 0 < Ep ->
  (Ep < EthT -> sigma_inel_K Ep = 0) /\ (EthT < Ep -> 0 < sigma_inel_K Ep).
Proof.
  intros Ep HE. unfold sigma_inel_K. set (L := ln Ep). pose proof mbarn_pos.
  assert (0 < 343 / 10 + 188 / 100 * L + 25 / 100 * L ^ 2) by nra. split; intros HT.
  - destruct (Rle_dec Ep (1 / 10)); [|unfold EthT in HT; lra]. rewrite heaviside_neg by lra. ring.
  - apply Rmult_lt_0_compat; auto. destruct (Rle_dec Ep (1 / 10)); auto.
    apply Rmult_lt_0_compat; auto.
    assert (Q : 0 < EthT / Ep < 1) by (apply z_range; [unfold EthT; lra|auto]).
    apply Rmult_lt_0_compat.
    + apply pow_lt. assert ((EthT / Ep) ^ 4 < 1); [|lra]. rewrite <- (pow1 4). set (q := EthT / Ep) in *.
      assert (q ^ 2 < 1) by nra. assert (0 < q ^ 2) by nra. replace (q ^ 4) with (q ^ 2 * q ^ 2) by ring.
      rewrite pow1. nra.
    + unfold heaviside. destruct (Rlt_dec 0 (Ep - EthT)); lra.
Qed.
Print Assumptions C26_kelner_threshold.

(** ** C27: symmetry about half the pion mass (on a logarithmic axis), at every
    proton energy and for every high-energy model *)
Theorem C27_symmetry : forall m_p hi nuclear Ep Eg, 0 < Eg ->
  diffsigma m_p hi nuclear Ep ((m_pi / 2) ^ 2 / Eg) = diffsigma m_p hi nuclear Ep Eg.
Proof.
  intros m_p hi nuclear Ep Eg HE. pose proof m_pi_pos.
  assert (Y : (m_pi / 2) ^ 2 / Eg + m_pi ^ 2 / (4 * ((m_pi / 2) ^ 2 / Eg)) = Eg + m_pi ^ 2 / (4 * Eg)) by (field; lra).
  assert (K : forall T, F m_p hi T ((m_pi / 2) ^ 2 / Eg) = F m_p hi T Eg).
  { intros T. unfold F. destruct (F_params m_p hi T) as [[[[l a] b] g]|]; auto. unfold F_func. now rewrite Y. }
  unfold diffsigma. now rewrite K.
Qed.
Print Assumptions C27_symmetry.

(** ... so the whole spectrum is symmetric, for every proton distribution. *)
Theorem C27_spectrum_symmetry : forall m_p hi nuclear nhc GeV pd es Egs, Forall (fun E => 0 < E) Egs ->
  pion_spectrum (diffsigma m_p hi nuclear) nhc GeV pd es (map (fun E => (m_pi / 2) ^ 2 / E) Egs)
  = pion_spectrum (diffsigma m_p hi nuclear) nhc GeV pd es Egs.
Proof.
  intros m_p hi nuclear nhc GeV pd es Egs HF. unfold pion_spectrum. rewrite map_map. apply map_ext_in. intros E HI.
  rewrite Forall_forall in HF. f_equal. f_equal. apply map_ext. intros [e j]. cbn [fst snd].
  rewrite C27_symmetry; auto.
Qed.
Print Assumptions C27_spectrum_symmetry.

(** ** C28 *)
Theorem C28_cross_sections_positive : forall Tp,
  (Tth < Tp -> 0 < sigma_inel Tp /\ 137 / 100 <= nuclear_factor Tp) /\
  sigma_inel Tth = 0 /\
  (forall m_p hi, proton m_p -> Tth <= Tp -> exists v, sigma_pi m_p hi Tp = Some v /\ 0 < v).
Proof.
  intros Tp. split; [|split].
  - intros H. split; [apply sigma_inel_pos; auto|apply nuclear_factor_ge; auto].
  - apply sigma_inel_threshold.
  - intros m_p hi Hm H. apply sigma_pi_pos; auto.
Qed.
Print Assumptions C28_cross_sections_positive.

(** ** C21 for pion decay *)
Lemma all_some {A} (l : list A) (f : A -> option R) (P : R -> Prop) :
  (forall x, In x l -> exists v, f x = Some v /\ P v) -> exists rs, map f l = map Some rs /\ Forall P rs.
Proof.
  induction l as [|x l IH]; intros H; [exists []; split; auto; constructor|].
  destruct (H x (or_introl eq_refl)) as (v & E & HV). destruct IH as (rs & ER & HR); [intros; apply H; simpl; auto|].
  exists (v :: rs). simpl. rewrite E, ER. split; auto.
Qed.

(** For any differential cross section that is non-negative on the grid (in
    particular a lookup table with this property). *)
Lemma pion_nonneg_gen sig nhc GeV pd es Egs : 0 <= nhc -> 0 < GeV -> grid es ->
  (forall E, 0 < E -> 0 <= pd E) ->
  (forall e Eg, In e es -> In Eg Egs -> exists v, sig e Eg = Some v /\ 0 <= v) ->
  Forall (fun r => exists v, r = Some v /\ 0 <= v) (pion_spectrum sig nhc GeV pd es Egs).
Proof.
  intros Hn HG HE HP HS. unfold pion_spectrum. apply Forall_forall. intros r Hr. apply in_map_iff in Hr.
  destruct Hr as (Eg & <- & HI).
  destruct (all_some (combine es (J GeV pd es)) (fun p => nmul (sig (fst p) Eg) (Some (snd p))) (fun v => 0 <= v)) as (rs & E & HR).
  { intros [e j] Hej. assert (He := in_combine_l _ _ _ _ Hej). assert (Hj := in_combine_r _ _ _ _ Hej). cbn [fst snd].
    destruct (HS e Eg He HI) as (v & -> & Hv). exists (v * j). split; [reflexivity|].
    unfold J in Hj. apply in_map_iff in Hj. destruct Hj as (e' & <- & He'). destruct HE as [HE0 _].
    rewrite Forall_forall in HE0. specialize (HE0 e' He').
    apply Rmult_le_pos; auto. apply Rmult_le_pos; [|lra]. apply HP. apply Rmult_lt_0_compat; auto. }
  rewrite (ntrapz_ext_real _ _ _ E). cbn [nmap]. eexists; split; [reflexivity|].
  apply Rmult_le_pos; auto. apply trapz_nonneg; auto.
Qed.

Theorem C21_pion_nonnegative : forall m_p hi nuclear nhc GeV nd Emin Emax pd Egs,
  proton m_p -> 0 <= nhc -> 0 < GeV -> m_p * GeV + Tth * GeV <= Emin -> Emin < Emax ->
  (forall E, 0 < E -> 0 <= pd E) -> Forall (fun E => 0 < E) Egs ->
  Forall (fun r => exists v, r = Some v /\ 0 <= v)
    (pion_spectrum (diffsigma m_p hi nuclear) nhc GeV pd (Ep GeV nd Emin Emax) Egs).
Proof.
  intros m_p hi nuclear nhc GeV nd Emin Emax pd Egs Hmp Hn HG Hmin Hlt HP HEg.
  pose proof (mp_pos m_p Hmp) as P. pose proof Tth_pos as PT.
  assert (0 < Emin) by nra. assert (G : grid (Ep GeV nd Emin Emax)) by (apply Ep_grid; auto).
  apply pion_nonneg_gen; auto. intros e Eg He HI. rewrite Forall_forall in HEg. apply diffsigma_some; auto.
  (* every grid point is at least Emin *)
  assert (L : Emin / GeV <= e).
  { unfold Ep in He. set (N := npoints (nd * log10 (Emax / Emin))) in He.
    assert (HN : (10 <= N)%nat) by apply npoints_ge.
    destruct (In_nth _ _ 0 He) as (i & Hi & E). rewrite logspace_length in Hi. rewrite logspace_nth in E by lia. subst e.
    set (a := log10 (Emin / GeV)). set (b := log10 (Emax / GeV)). assert (a < b) by (apply log10_ratio; auto).
    rewrite <- (pow10_log10 (Emin / GeV)) by (apply div_pos; auto). fold a.
    assert (PN : 0 < INR (N - 1)) by (apply lt_0_INR; lia). assert (0 <= INR i) by apply pos_INR.
    assert (0 <= INR i * ((b - a) / INR (N - 1))).
    { apply Rmult_le_pos; auto. apply Rmult_le_pos; [lra|]. apply Rlt_le, Rinv_0_lt_compat; auto. }
    destruct (Req_dec (INR i * ((b - a) / INR (N - 1))) 0) as [Z|Z].
    - rewrite Z, Rplus_0_r. lra.
    - apply Rlt_le, pow10_lt. lra. }
  assert (Q : m_p + Tth <= Emin / GeV).
  { apply Rmult_le_reg_r with GeV; auto. unfold Rdiv. rewrite Rmult_assoc, Rinv_l by lra. lra. }
  lra.
Qed.
Print Assumptions C21_pion_nonnegative.

(** Kelner et al.: the integrands of both approximations are never negative, so
    any quadrature that maps non-negative functions to non-negative numbers gives
    a non-negative flux. *)
Lemma xb_range x L : 0 < x < 1 -> 0 < beta_K L -> 0 < Rpower x (beta_K L) < 1.
Proof. intros H B. split; [apply exp_pos|]. apply Rpower_lt1; auto. Qed.

Lemma Fgamma_nonneg x Ep : 0 < x < 1 -> 0 <= Fgamma x Ep.
Proof.
  intros Hx. unfold Fgamma. set (L := ln Ep).
  assert (HB : 0 < B_K L) by (unfold B_K; nra).
  assert (Hb : 0 < beta_K L) by (unfold beta_K; apply Rinv_0_lt_compat; nra).
  assert (Hk : 0 < k_K L) by (unfold k_K; apply Rinv_0_lt_compat; nra).
  destruct (xb_range x L Hx Hb) as [X0 X1]. set (xb := Rpower x (beta_K L)) in *.
  set (be := beta_K L) in *. set (k := k_K L) in *.
  assert (Hl : ln x < 0) by (rewrite <- ln_1; apply ln_increasing; lra).
  assert (0 < k * xb * (1 - xb)) by (repeat apply Rmult_lt_0_compat; lra).
  set (D := 1 + k * xb * (1 - xb)) in *. assert (HD : 0 < D) by (unfold D; lra).
  assert (F1 : B_K L * (ln x / x) * ((1 - xb) / D) ^ 4 <= 0).
  { assert (0 < ((1 - xb) / D) ^ 4) by (apply pow_lt, div_pos; lra).
    assert (ln x / x < 0). { unfold Rdiv. assert (0 < / x) by (apply Rinv_0_lt_compat; lra). nra. }
    assert (B_K L * (ln x / x) < 0) by nra. nra. }
  assert (F2 : 1 / ln x - 4 * be * xb / (1 - xb) - 4 * k * be * xb * (1 - 2 * xb) / D <= 0).
  { assert (1 / ln x < 0) by (unfold Rdiv; rewrite Rmult_1_l; apply Rinv_lt_0_compat; auto).
    assert (E : 4 * be * xb / (1 - xb) + 4 * k * be * xb * (1 - 2 * xb) / D
              = 4 * be * xb * (1 + k * (1 - xb) ^ 2) / ((1 - xb) * D)) by (unfold D; field; unfold D in HD; lra).
    assert (0 <= 4 * be * xb * (1 + k * (1 - xb) ^ 2) / ((1 - xb) * D)).
    { apply Rlt_le, div_pos; [|apply Rmult_lt_0_compat; lra].
      apply Rmult_lt_0_compat; [repeat apply Rmult_lt_0_compat; lra|].
      assert (0 <= k * (1 - xb) ^ 2) by (apply Rmult_le_pos; [lra|apply pow2_ge_0]). lra. }
    lra. }
  nra.
Qed.

Lemma sigma_inel_K_nonneg Ep : 0 < Ep -> 0 <= sigma_inel_K Ep.
Proof.
  intros HE. unfold sigma_inel_K. set (L := ln Ep). pose proof mbarn_pos.
  assert (0 < 343 / 10 + 188 / 100 * L + 25 / 100 * L ^ 2) by nra. apply Rmult_le_pos; [|lra].
  destruct (Rle_dec Ep (1 / 10)); [|lra]. apply Rmult_le_pos; [lra|].
  apply Rmult_le_pos; [apply pow2_ge_0|apply heaviside_nonneg].
Qed.

Theorem C21_kelner_nonnegative : forall m_pT pd c quad01 quad_inf nh Etr Es,
  0 < m_pT -> 0 <= c -> 0 <= nh -> 0 < Etr -> (forall E, 0 < E -> 0 <= pd E) ->
  (forall f, (forall x, 0 < x < 1 -> 0 <= f x) -> 0 <= quad01 f) ->
  (forall a f, (forall x, a < x -> 0 <= f x) -> 0 <= quad_inf a f) ->
  Forall (fun E => 0 < E) Es ->
  Forall (fun s => 0 <= s) (kelner_spectrum m_pT pd c quad01 quad_inf nh Etr Es).
Proof.
  intros m_pT pd c quad01 quad_inf nh Etr Es Hm Hc Hn Ht HP HQ1 HQ2 HEs.
  assert (Hhi : forall E, 0 < E -> 0 <= specpp_hiE pd c quad01 E).
  { intros E HE. unfold specpp_hiE. apply Rmult_le_pos; auto. apply HQ1. intros x Hx. unfold photon_integrand.
    assert (0 < E / x) by (apply div_pos; lra).
    apply Rmult_le_pos; [|apply Rlt_le, Rinv_0_lt_compat; lra].
    apply Rmult_le_pos; [|apply Fgamma_nonneg; auto]. apply Rmult_le_pos; auto. apply sigma_inel_K_nonneg; auto. }
  assert (Hlo : forall n E, 0 <= n -> 0 < E -> 0 <= specpp_loE m_pT pd c quad_inf n E).
  { intros n E Hn0 HE. unfold specpp_loE. apply Rmult_le_pos; [lra|]. apply HQ2. intros x Hx. unfold delta_integrand.
    assert (0 < m_piT ^ 2 / (4 * E)) by (unfold m_piT; pos). assert (Hx0 : 0 < x) by lra.
    assert (Kp : 0 < Kpi) by (unfold Kpi; lra).
    assert (0 < m_pT + x / Kpi). { assert (0 < x / Kpi) by (apply div_pos; auto). lra. }
    assert (RP : 0 <= / sqrt (x ^ 2 - m_piT ^ 2)).
    { assert (S := sqrt_pos (x ^ 2 - m_piT ^ 2)). destruct S as [S|S]; [apply Rlt_le, Rinv_0_lt_compat; auto|].
      rewrite <- S, Rinv_0. lra. }
    unfold Rdiv at 1. apply Rmult_le_pos; auto.
    apply Rmult_le_pos; auto. apply Rmult_le_pos; [|apply sigma_inel_K_nonneg; auto].
    apply Rmult_le_pos; auto. apply Rmult_le_pos; auto. apply Rlt_le, Rinv_0_lt_compat; auto. }
  assert (Hnh : 0 <= nhat_of m_pT pd c quad01 quad_inf Etr Es).
  { unfold nhat_of. destruct (_ && _); [|lra]. rewrite Rmult_1_l. pose proof (Hhi Etr Ht). pose proof (Hlo 1 Etr ltac:(lra) Ht) as [D|D].
    - apply Rmult_le_pos; auto. apply Rlt_le, Rinv_0_lt_compat; auto.
    - unfold Rdiv. rewrite <- D, Rinv_0. lra. }
  unfold kelner_spectrum. apply Forall_forall. intros s Hs. apply in_map_iff in Hs. destruct Hs as (E & <- & HI).
  rewrite Forall_forall in HEs. specialize (HEs E HI). apply Rmult_le_pos; auto. destruct (Rle_dec Etr E); auto.
Qed.
Print Assumptions C21_kelner_nonnegative.

(** ** C18 for pion decay: proportional to the amplitude and to the target
    density, with the direct cross section or any lookup table *)
Lemma ninterval_scale c x1 x2 y1 y2 : 0 < c ->
  ninterval x1 x2 (nmap (Rmult c) y1) (nmap (Rmult c) y2) = nmap (Rmult c) (ninterval x1 x2 y1 y2).
Proof.
  intros Hc. assert (Z : forall y, is_zero (nmap (Rmult c) y) = is_zero y).
  { intros [v|]; simpl; auto. destruct (Req_EM_T v 0) as [->|N]; destruct (Req_EM_T (c * _) 0) as [E|E]; auto; exfalso.
    - apply E. ring.
    - apply Rmult_integral in E. lra. }
  unfold ninterval. rewrite !Z. destruct (is_zero y1) eqn:Z1; cbn [orb]; [cbn [nmap]; f_equal; ring|].
  destruct (is_zero y2) eqn:Z2; [cbn [nmap]; f_equal; ring|].
  destruct (Req_EM_T x1 x2); [cbn [nmap]; f_equal; ring|].
  destruct y1 as [a|]; auto. cbn [nmap]. f_equal.
  assert (Na : a <> 0) by (intros ->; simpl in Z1; destruct (Req_EM_T 0 0); [discriminate|lra]).
  destruct y2 as [b|]; cbn [nmap]; [|ring].
  apply raw_interval_scale; auto.
Qed.
Lemma ntrapz_scale c ys : forall xs, 0 < c -> ntrapz (map (nmap (Rmult c)) ys) xs = nmap (Rmult c) (ntrapz ys xs).
Proof.
  induction ys as [|y1 ys IH]; intros xs Hc; [simpl; f_equal; ring|].
  destruct ys as [|y2 ys]; [destruct xs as [|? [|]]; simpl; f_equal; ring|].
  destruct xs as [|x1 [|x2 xs]]; [simpl; f_equal; ring..|].
  change (ntrapz (map (nmap (Rmult c)) (y1 :: y2 :: ys)) (x1 :: x2 :: xs)) with
   (nbind (ninterval x1 x2 (nmap (Rmult c) y1) (nmap (Rmult c) y2))
      (fun v => nmap (Rplus v) (ntrapz (map (nmap (Rmult c)) (y2 :: ys)) (x2 :: xs)))).
  rewrite IH, ninterval_scale by auto.
  change (ntrapz (y1 :: y2 :: ys) (x1 :: x2 :: xs)) with
   (nbind (ninterval x1 x2 y1 y2) (fun v => nmap (Rplus v) (ntrapz (y2 :: ys) (x2 :: xs)))).
  destruct (ninterval x1 x2 y1 y2) as [v|]; [|reflexivity].
  destruct (ntrapz (y2 :: ys) (x2 :: xs)) as [w|]; [|reflexivity]. cbn [nmap nbind]. f_equal. ring.
Qed.

Theorem C18_pion_linear : forall sig (pd : R -> R -> R) c A nhc GeV es Egs,
  (forall c a E, pd (c * a) E = c * pd a E) -> 0 < c ->
  pion_spectrum sig nhc GeV (pd (c * A)) es Egs = map (nmap (Rmult c)) (pion_spectrum sig nhc GeV (pd A) es Egs) /\
  pion_spectrum sig (c * nhc) GeV (pd A) es Egs = map (nmap (Rmult c)) (pion_spectrum sig nhc GeV (pd A) es Egs).
Proof.
  intros sig pd c A nhc GeV es Egs HP Hc. split; unfold pion_spectrum; rewrite map_map; apply map_ext; intros Eg.
  - assert (E : map (fun p => nmul (sig (fst p) Eg) (Some (snd p))) (combine es (J GeV (pd (c * A)) es))
              = map (nmap (Rmult c)) (map (fun p => nmul (sig (fst p) Eg) (Some (snd p))) (combine es (J GeV (pd A) es)))).
    { unfold J. rewrite map_map. assert (Q : forall f : R -> R, combine es (map f es) = map (fun x => (x, f x)) es).
      { intros f. induction es; simpl; congruence. }
      rewrite !Q, !map_map. apply map_ext. intros x. cbn [fst snd]. rewrite HP.
      destruct (sig x Eg); cbn [nmul nbind nmap]; auto. f_equal. ring. }
    rewrite E, ntrapz_scale by auto. destruct (ntrapz _ _); cbn [nmap]; auto. f_equal. ring.
  - destruct (ntrapz _ _); cbn [nmap]; auto. f_equal. ring.
Qed.
Print Assumptions C18_pion_linear.

(** ** C22 for pion decay *)
Theorem C22_pion_pointwise : forall sig nhc GeV pd es Es1 E Es2,
  nth_error (pion_spectrum sig nhc GeV pd es (Es1 ++ E :: Es2)) (length Es1)
  = hd_error (pion_spectrum sig nhc GeV pd es [E]).
Proof.
  intros. unfold pion_spectrum. rewrite map_app, nth_error_app2; rewrite map_length; auto.
  rewrite Nat.sub_diag. reflexivity.
Qed.
Print Assumptions C22_pion_pointwise.
Theorem C22_pion_permutation : forall sig nhc GeV pd es Es Es', Permutation.Permutation Es Es' ->
  Permutation.Permutation (combine Es (pion_spectrum sig nhc GeV pd es Es)) (combine Es' (pion_spectrum sig nhc GeV pd es Es')).
Proof.
  intros sig nhc GeV pd es Es Es' P. unfold pion_spectrum.
  assert (Q : forall (f : R -> option R) m, combine m (map f m) = map (fun x => (x, f x)) m) by (induction m; simpl; congruence).
  rewrite !Q. apply Permutation.Permutation_map, P.
Qed.
Print Assumptions C22_pion_permutation.

(** Refuted for PionDecayKelner06: whenever the delta approximation and the full
    calculation differ at Etrans, adding one energy above Etrans to a request
    changes the flux returned for every energy below it (with non-zero flux). *)
Theorem C125_kelner_refuted : forall m_pT pd c quad01 quad_inf nh Etr E1 E2,
  nh <> 0 -> E1 < Etr -> Etr <= E2 ->
  (forall k a f, quad_inf a (fun x => k * f x) = k * quad_inf a f) ->
  (forall a f g, (forall x, f x = g x) -> quad_inf a f = quad_inf a g) ->
  specpp_loE m_pT pd c quad_inf 1 E1 <> 0 -> specpp_loE m_pT pd c quad_inf 1 Etr <> 0 ->
  specpp_hiE pd c quad01 Etr <> specpp_loE m_pT pd c quad_inf 1 Etr ->
  nth_error (kelner_spectrum m_pT pd c quad01 quad_inf nh Etr [E1; E2]) 0
  <> nth_error (kelner_spectrum m_pT pd c quad01 quad_inf nh Etr [E1]) 0.
Proof.
  intros m_pT pd c quad01 quad_inf nh Etr E1 E2 Hn H1 H2 HQ HX N1 N2 ND. unfold kelner_spectrum. cbn [map nth_error].
  destruct (Rle_dec Etr E1); [lra|]. intros C. injection C as C. apply ND.
  apply Rmult_eq_reg_l in C; auto.
  assert (A1 : nhat_of m_pT pd c quad01 quad_inf Etr [E1; E2] = specpp_hiE pd c quad01 Etr / specpp_loE m_pT pd c quad_inf 1 Etr).
  { unfold nhat_of. cbn [existsb]. destruct (Rlt_dec E1 Etr); [|lra]. destruct (Rle_dec Etr E2); [|lra].
    destruct (Rle_dec Etr E1); [lra|]. simpl. ring. }
  assert (A2 : nhat_of m_pT pd c quad01 quad_inf Etr [E1] = 1).
  { unfold nhat_of. cbn [existsb]. destruct (Rle_dec Etr E1); [lra|]. rewrite Bool.andb_false_r. reflexivity. }
  rewrite A1, A2 in C. set (r := specpp_hiE pd c quad01 Etr / specpp_loE m_pT pd c quad_inf 1 Etr) in C.
  assert (S : specpp_loE m_pT pd c quad_inf r E1 = r * specpp_loE m_pT pd c quad_inf 1 E1).
  { unfold specpp_loE. rewrite (HX _ (delta_integrand m_pT pd c r) (fun x => r * delta_integrand m_pT pd c 1 x)).
    - rewrite HQ. ring.
    - intros x. unfold delta_integrand, Rdiv. ring. }
  rewrite S in C. assert (R1 : r = 1) by (apply Rmult_eq_reg_r with (specpp_loE m_pT pd c quad_inf 1 E1); [rewrite C; ring|exact N1]).
  unfold r in R1. apply (f_equal (fun x => x * specpp_loE m_pT pd c quad_inf 1 Etr)) in R1.
  unfold Rdiv in R1. rewrite Rmult_assoc, Rinv_l in R1 by auto. lra.
Qed.
Print Assumptions C125_kelner_refuted.

(** Such a model exists (a quadrature that is a point evaluation). *)
Example C22_kelner_example : exists m_pT pd c quad01 quad_inf nh Etr E1 E2,
  nh <> 0 /\ E1 < Etr /\ Etr <= E2 /\
  (forall k a (f : R -> R), quad_inf a (fun x => k * f x) = k * quad_inf a f) /\
  (forall a (f g : R -> R), (forall x, f x = g x) -> quad_inf a f = quad_inf a g) /\
  specpp_loE m_pT pd c quad_inf 1 E1 <> 0 /\ specpp_loE m_pT pd c quad_inf 1 Etr <> 0 /\
  specpp_hiE pd c quad01 Etr <> specpp_loE m_pT pd c quad_inf 1 Etr.
Proof.
  exists 1, (fun _ => 1), 1, (fun _ => 0), (fun a f => f (a + 1)), 1, 1, (1 / 2), 2.
  assert (K : forall E, 0 < E -> specpp_loE 1 (fun _ => 1) 1 (fun a f => f (a + 1)) 1 E <> 0).
  { intros E HE. unfold specpp_loE, delta_integrand. set (x := E + m_piT ^ 2 / (4 * E) + 1).
    assert (0 < m_piT ^ 2 / (4 * E)) by (unfold m_piT; pos). assert (1 < x) by (unfold x; lra).
    assert (0 < x / Kpi) by (apply div_pos; [lra|unfold Kpi; lra]).
    assert (S : 0 < sigma_inel_K (1 + x / Kpi)) by (apply C26_kelner_threshold; [lra|unfold EthT; lra]).
    assert (0 < sqrt (x ^ 2 - m_piT ^ 2)) by (apply sqrt_lt_R0; unfold m_piT; nra).
    assert (0 < Kpi) by (unfold Kpi; lra). apply Rgt_not_eq. unfold Rgt. pos. }
  repeat split; intros; try lra; auto; try (apply K; lra).
  unfold specpp_hiE. rewrite Rmult_0_r. apply not_eq_sym. apply K; lra.
Qed.

(** Proved for requests entirely on one side of Etrans. *)
Theorem C125_kelner_one_side_partial : forall m_pT pd c quad01 quad_inf nh Etr Es,
  (Forall (fun E => E < Etr) Es \/ Forall (fun E => Etr <= E) Es) ->
  kelner_spectrum m_pT pd c quad01 quad_inf nh Etr Es
  = flat_map (fun E => kelner_spectrum m_pT pd c quad01 quad_inf nh Etr [E]) Es.
Proof.
  intros m_pT pd c quad01 quad_inf nh Etr Es H.
  assert (N : forall l, Forall (fun E => E < Etr) l \/ Forall (fun E => Etr <= E) l ->
              nhat_of m_pT pd c quad01 quad_inf Etr l = 1).
  { intros l HL. unfold nhat_of. destruct HL as [HL|HL].
    - assert (E : existsb (fun E => if Rle_dec Etr E then true else false) l = false).
      { induction HL as [|x l Hx HL IH]; simpl; auto. destruct (Rle_dec Etr x); [lra|auto]. }
      rewrite E, Bool.andb_false_r. reflexivity.
    - assert (E : existsb (fun E => if Rlt_dec E Etr then true else false) l = false).
      { induction HL as [|x l Hx HL IH]; simpl; auto. destruct (Rlt_dec x Etr); [lra|auto]. }
      rewrite E. reflexivity. }
  assert (N1 : forall E, nhat_of m_pT pd c quad01 quad_inf Etr [E] = 1).
  { intros E. apply N. destruct (Rlt_dec E Etr); [left|right]; constructor; auto; lra. }
  unfold kelner_spectrum. rewrite (N Es H). clear H. induction Es as [|E Es IH]; simpl; auto.
  rewrite N1. f_equal. apply IH.
Qed.
Print Assumptions C125_kelner_one_side_partial.

(** ** C29: lookup tables *)
(** After any history of attribute changes and evaluations, an evaluation uses
    either the direct calculation or the table belonging to the current
    high-energy model and nuclear-enhancement setting; the latter exactly when
    table use is on and its file exists. *)
Definition history (avail : hiE * bool -> bool) (ops : list lut_op) : lut_state :=
  fold_left (lut_step avail) ops lut_init.

Lemma lut_inv avail ops f : src (history avail ops) = Table f -> avail f = true.
Proof.
  unfold history. assert (G : forall st, (forall f, src st = Table f -> avail f = true) ->
     forall f, src (fold_left (lut_step avail) ops st) = Table f -> avail f = true).
  { induction ops as [|o ops IH]; intros st HS g; simpl; auto. apply IH. clear IH g.
    intros g. destruct o; simpl; auto. unfold prepare. destruct (use_lut st); [|discriminate].
    destruct (src st) eqn:ES; unfold load; try destruct (fname_eqb _ _); try (destruct (avail (himodel st, nuc st)) eqn:EA); simpl;
      try discriminate; try (intros [= <-]; auto; fail); try (rewrite ES; auto). }
  apply G. discriminate.
Qed.

Lemma fname_eqb_eq a b : fname_eqb a b = true -> a = b.
Proof.
  destruct a as [[] []], b as [[] []]; simpl; unfold fname_eqb; simpl; congruence.
Qed.
Lemma fname_eqb_refl a : fname_eqb a a = true.
Proof. destruct a as [[] []]; reflexivity. Qed.

Theorem C29_table_in_use : forall avail ops,
  let before := history avail ops in
  let f := (himodel before, nuc before) in
  let after := lut_step avail before Spectrum in
  src after = (if use_lut before && avail f then Table f else Direct) /\
  himodel after = himodel before /\ nuc after = nuc before.
Proof.
  intros avail ops before f after. assert (I := lut_inv avail ops). fold before in I.
  unfold after, lut_step, prepare. destruct (use_lut before) eqn:EU; [|auto]. cbn [andb]. fold f.
  destruct (src before) as [|g|] eqn:ES; unfold load.
  - destruct (avail f); auto.
  - destruct (fname_eqb g f) eqn:EF.
    + apply fname_eqb_eq in EF. subst g. rewrite (I f eq_refl), ES. auto.
    + destruct (avail f); auto.
  - destruct (avail f); auto.
Qed.
Print Assumptions C29_table_in_use.

Example C29_example :
  let avail := fun f : hiE * bool => fname_eqb f (Pythia8, true) in
  src (history avail [Spectrum; SetModel SIBYLL; Spectrum]) = Direct.
Proof. reflexivity. Qed.

(** ** C69 refuted: one evaluation with a model that has no table switches table
    use off for good, although the user set it and never unset it. *)
Theorem C69_fallback_is_sticky_refuted : exists avail ops,
  avail (Pythia8, true) = true /\
  Forall (fun o => o <> SetUse false) ops /\
  let st := history avail ops in
  himodel st = Pythia8 /\ nuc st = true /\ use_lut st = false /\ src (lut_step avail st Spectrum) = Direct.
Proof.
  exists (fun f => fname_eqb f (Pythia8, true)), [Spectrum; SetModel SIBYLL; Spectrum; SetModel Pythia8].
  split; [reflexivity|]. split; [repeat constructor; discriminate|]. repeat split.
Qed.
Print Assumptions C69_fallback_is_sticky_refuted.

(** Proved: as long as every file asked for exists the setting is kept. *)
Theorem C69_setting_kept_partial : forall ops, Forall (fun o => o <> SetUse false) ops ->
  use_lut (history (fun _ => true) ops) = true.
Proof.
  unfold history. intros ops. assert (G : forall st, use_lut st = true -> Forall (fun o => o <> SetUse false) ops ->
    use_lut (fold_left (lut_step (fun _ => true)) ops st) = true); [|apply G; reflexivity].
  induction ops as [|o ops IH]; intros st HS HF; simpl; auto. inversion HF; subst. apply IH; auto.
  destruct o as [[]| | |]; simpl; auto; try congruence. unfold prepare. rewrite HS. unfold load.
  destruct (src st); simpl; auto. destruct (fname_eqb _ _); simpl; auto.
Qed.
Print Assumptions C69_setting_kept_partial.
