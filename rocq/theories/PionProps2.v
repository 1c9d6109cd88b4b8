(** C99: which parametrisation is used at which proton energy; exact threshold (C26). *)
From Coq Require Import Reals ZArith List Lra Lia Bool Psatz.
From Verif Require Import TrapzModel TrapzSpec TrapzProofs EnergyModel EnergyProofs ElectronModel ElectronProofs
  PionModel PionProofs PionProps.
Import ListNotations.
Local Open Scope R_scope.

(** Published parameters (Kafexhiu et al. 2014, tables IV, V and VII) of the models for
    high energies, with the energy in GeV from which each is used. *)
Record published := mkPub { from_energy : R; a : R * R * R * R * R; b : R * R * R; lambda_alpha_beta_gamma : R * R * R * R }.
Definition kafexhiu (h : hiE) : published :=
  match h with
  | Geant4 => mkPub 100 (728 / 1000, 596 / 1000, 491 / 1000, 2503 / 10000, 117 / 1000) (913 / 100, 35 / 100, 97 / 10000) (3, 1 / 2, 49 / 10, 1)
  | Pythia8 => mkPub 50 (652 / 1000, 16 / 10000, 488 / 1000, 1928 / 10000, 483 / 1000) (906 / 100, 3795 / 10000, 1105 / 100000) (35 / 10, 1 / 2, 4, 1)
  | SIBYLL => mkPub 100 (5436 / 1000, 254 / 1000, 72 / 1000, 75 / 1000, 166 / 1000) (1077 / 100, 412 / 1000, 1264 / 100000) (355 / 100, 1 / 2, 36 / 10, 1)
  | QGSJET => mkPub 100 (908 / 1000, 9 / 10000, 6089 / 1000, 176 / 1000, 448 / 1000) (1316 / 100, 4419 / 10000, 1439 / 100000) (355 / 100, 1 / 2, 45 / 10, 1)
  end.

(** Equations 6, 7, 11 and 12 of the paper with the parameters of one model: inclusive
    pion cross section, maximum and shape of the photon spectrum *)
Definition pion_cross_section (m_p T : R) (p : published) : R :=
  let '(a1, a2, a3, a4, a5) := a p in let xi := (T - 3) / m_p in
  sigma_inel T * (a1 * Rpower xi a4 * (1 + exp (- a2 * Rpower xi a5)) * (1 - exp (- a3 * Rpower xi (1 / 4)))).
Definition spectrum_maximum (m_p T sigma : R) (p : published) : R :=
  let '(b1, b2, b3) := b p in let th := T / m_p in
  b1 * Rpower th (- b2) * exp (b3 * ln th ^ 2) * sigma / m_p.

(** Above the energy from which a model is used, all three come from its tables. *)
Theorem C99_high_energy_model : forall m_p hi T Eg, let p := kafexhiu hi in from_energy p < T ->
  diffsigma m_p hi false (T + m_p) Eg =
  nmap (fun shape => spectrum_maximum m_p T (pion_cross_section m_p T p) p * shape) (F_func m_p T Eg (lambda_alpha_beta_gamma p)).
Proof.
  intros m_p hi T Eg p HT. assert (EQ : from_energy p = Etrans hi) by (unfold p; destruct hi; reflexivity). rewrite EQ in HT.
  assert (E50 : 50 <= Etrans hi) by (unfold Etrans; destruct hi; lra).
  unfold diffsigma. replace (T + m_p - m_p) with T by ring.
  assert (SP : sigma_pi m_p hi T = Some (pion_cross_section m_p T p)).
  { unfold sigma_pi. destruct (Rlt_dec T 2); [lra|]. destruct (Rlt_dec T 5); [lra|]. destruct (Rlt_dec T (Etrans hi)); [lra|].
    f_equal. unfold sigma_pi_hiE, pion_cross_section, p, tab_a. destruct hi; cbn [kafexhiu a]; reflexivity. }
  assert (AM : Amax m_p hi T = Some (spectrum_maximum m_p T (pion_cross_section m_p T p) p)).
  { unfold Amax. destruct (Rlt_dec T 1); [lra|]. rewrite SP.
    unfold b_params. destruct (Rle_dec (Etrans hi) T); [|lra]. set (s := pion_cross_section m_p T p).
    unfold spectrum_maximum, tab_b, p. destruct hi; cbn [kafexhiu b nmap nbind]; reflexivity. }
  assert (FF : F m_p hi T Eg = F_func m_p T Eg (lambda_alpha_beta_gamma p)).
  { unfold F, F_params. destruct (Rlt_dec (Etrans hi) T); [|lra]. unfold p, tab_F. destruct hi; reflexivity. }
  rewrite AM, FF. destruct (F_func m_p T Eg (lambda_alpha_beta_gamma p)); reflexivity.
Qed.
Print Assumptions C99_high_energy_model.

(** Below, the choice of the model makes no difference; nuclear enhancement is a factor
    that depends on the proton energy only. *)
Theorem C99_low_energies : forall m_p h1 h2 nuclear T Eg, T < 50 ->
  diffsigma m_p h1 nuclear (T + m_p) Eg = diffsigma m_p h2 nuclear (T + m_p) Eg.
Proof.
  intros m_p h1 h2 nuclear T Eg HT. assert (E50 : forall h, 50 <= Etrans h) by (intros []; unfold Etrans; lra).
  pose proof (E50 h1). pose proof (E50 h2).
  assert (SP : sigma_pi m_p h1 T = sigma_pi m_p h2 T).
  { unfold sigma_pi. destruct (Rlt_dec T 2); [reflexivity|]. destruct (Rlt_dec T 5); [reflexivity|].
    destruct (Rlt_dec T (Etrans h1)); [|lra]. destruct (Rlt_dec T (Etrans h2)); [|lra]. reflexivity. }
  unfold diffsigma. replace (T + m_p - m_p) with T by ring.
  assert (AM : Amax m_p h1 T = Amax m_p h2 T).
  { unfold Amax. rewrite SP. destruct (Rlt_dec T 1); [reflexivity|]. unfold b_params.
    destruct (Rle_dec (Etrans h1) T); [lra|]. destruct (Rle_dec (Etrans h2) T); [lra|]. reflexivity. }
  assert (FF : F m_p h1 T Eg = F m_p h2 T Eg).
  { unfold F, F_params. destruct (Rlt_dec (Etrans h1) T); [lra|]. destruct (Rlt_dec (Etrans h2) T); [lra|]. reflexivity. }
  rewrite AM, FF. reflexivity.
Qed.
Print Assumptions C99_low_energies.
Theorem C99_nuclear_enhancement : forall m_p hi T, exists k, (T <= Tth -> k = 0) /\ (Tth < T -> 137 / 100 <= k) /\ (Tth < T < 1 -> k = 19141 / 10000) /\
  forall Eg, diffsigma m_p hi true (T + m_p) Eg = nmap (fun x => x * k) (diffsigma m_p hi false (T + m_p) Eg).
Proof.
  intros m_p hi T. exists (nuclear_factor T). split; [|split; [|split]].
  - intros H. unfold nuclear_factor. destruct (Rlt_dec Tth T); [lra|reflexivity].
  - apply nuclear_factor_ge.
  - intros H. unfold nuclear_factor. destruct (Rlt_dec Tth T); [|lra]. destruct (Rlt_dec T 1); [reflexivity|lra].
  - intros Eg. unfold diffsigma. replace (T + m_p - m_p) with T by ring. reflexivity.
Qed.
Print Assumptions C99_nuclear_enhancement.
Example C99_example : from_energy (kafexhiu Pythia8) < 60 /\ from_energy (kafexhiu SIBYLL) < 1000 /\ 49 < 50.
Proof. cbn. lra. Qed.

(** C26: the pion cross section is a number exactly from the kinematic threshold
    2 m_pi + m_pi^2/(2 m_p) on, i.e. from s = (2 m_p + m_pi)^2 on. *)
Theorem C26_kinematic_threshold : forall m_p hi T, proton m_p -> 0 <= T ->
  (sigma_pi m_p hi T = None <-> T < 2 * m_pi + m_pi ^ 2 / (2 * m_p)).
Proof.
  intros m_p hi T Hmp HT. pose proof (mp_pos m_p Hmp) as P. pose proof m_pi_pos as Q.
  assert (K : 2 * m_p * (2 * m_pi + m_pi ^ 2 / (2 * m_p)) = 4 * m_p * m_pi + m_pi ^ 2) by (field; lra).
  assert (L : 2 * m_pi + m_pi ^ 2 / (2 * m_p) < 2).
  { apply Rmult_lt_reg_l with (2 * m_p); [lra|]. rewrite K. unfold proton in Hmp. unfold m_pi. nra. }
  assert (MU : 0 <= mu_rad m_p T <-> 2 * m_pi + m_pi ^ 2 / (2 * m_p) <= T).
  { unfold mu_rad, s_cm. set (u := 2 * m_p * T).
    replace (2 * m_p * (T + 2 * m_p) - m_pi ^ 2 - 4 * m_p ^ 2) with (u - m_pi ^ 2) by (unfold u; ring).
    assert (U : 0 <= u) by (unfold u; apply Rmult_le_pos; lra).
    replace ((u - m_pi ^ 2) ^ 2 - 16 * m_pi ^ 2 * m_p ^ 2) with ((u - m_pi ^ 2 - 4 * m_pi * m_p) * (u - m_pi ^ 2 + 4 * m_pi * m_p)) by ring.
    assert (V : 0 < u - m_pi ^ 2 + 4 * m_pi * m_p). { assert (m_pi < m_p) by (unfold proton in Hmp; unfold m_pi; lra). nra. }
    split; intros H.
    - apply Rmult_le_reg_l with (2 * m_p); [lra|]. rewrite K. fold u.
      destruct (Rle_or_lt 0 (u - m_pi ^ 2 - 4 * m_pi * m_p)); [lra|]. nra.
    - apply Rmult_le_pos; [|lra]. apply (Rmult_le_compat_l (2 * m_p)) in H; [|lra]. rewrite K in H. fold u in H. lra. }
  unfold sigma_pi. destruct (Rlt_dec T 2) as [L2|L2].
  - unfold sigma_pi_loE, nsqrt. destruct (Rle_dec 0 (mu_rad m_p T)) as [N|N]; cbn [nmap nbind]; split; intros H; try discriminate; try reflexivity.
    + apply MU in N. lra.
    + apply Rnot_le_lt. intros X. apply N, MU, X.
  - split; [|intros; lra]. destruct (Rlt_dec T 5); [discriminate|]. destruct (Rlt_dec T (Etrans hi)); discriminate.
Qed.
Print Assumptions C26_kinematic_threshold.
