(** Specification for C148: the cross section published by Kafexhiu, Aharonian, Taylor
    and Vila (2014), written down from the paper (energies in GeV, cross sections in
    mb).  Nothing here refers to the model, except for the four names of the
    high-energy interaction models and their published tables (PionProps2.kafexhiu). *)
From Coq Require Import Reals.
From Verif Require Import PionModel PionProps2.
Local Open Scope R_scope.

Section Kafexhiu14.
  Variable mp : R.                                  (* rest energy of the proton *)
  Definition mpi : R := 1349766 / 10 ^ 7.           (* of the neutral pion *)
  Definition T_threshold : R := 27966184 / 10 ^ 8.

  (** Kinematics of p p -> p p pi0 for a proton of kinetic energy T and a target at rest. *)
  Definition total_energy (T : R) : R := (mp + T) + mp.
  Definition momentum (T : R) : R := sqrt ((mp + T) ^ 2 - mp ^ 2).
  Definition invariant_mass (T : R) : R := sqrt (total_energy T ^ 2 - momentum T ^ 2).
  (** the pion in the centre of mass when the two protons recoil together *)
  Definition pion_cm_energy (T : R) : R :=
    let W := invariant_mass T in (W ^ 2 + mpi ^ 2 - (2 * mp) ^ 2) / (2 * W).
  Definition pion_cm_momentum (T : R) : R := sqrt (pion_cm_energy T ^ 2 - mpi ^ 2).
  (** that pion going forward, seen from the laboratory *)
  Definition pion_max_energy (T : R) : R :=
    (total_energy T * pion_cm_energy T + momentum T * pion_cm_momentum T) / invariant_mass T.
  (** the more energetic of its two decay photons when they fly along the pion *)
  Definition photon_max_energy (T : R) : R :=
    (pion_max_energy T + sqrt (pion_max_energy T ^ 2 - mpi ^ 2)) / 2.

  (** Eq. 1 *)
  Definition inelastic (T : R) : R :=
    let l := ln T - ln T_threshold in
    (307 / 10 - 96 / 100 * l + 18 / 100 * l * l) * (1 - exp (- (19 / 10) * l)) ^ 3.
  (** Eqs. 2-5 *)
  Definition breit_wigner (T : R) : R :=
    let M := 11883 / 10000 in let Gam := 2264 / 10000 in
    let g := M * sqrt (M * M + Gam * Gam) in
    let K := 2 * sqrt 2 * M * Gam * g / (PI * sqrt (M * M + g)) in
    mp * K / (((invariant_mass T - mp) ^ 2 - M * M) ^ 2 + (M * Gam) ^ 2).
  Definition one_pion (T : R) : R :=
    let eta := pion_cm_momentum T / mpi in
    766 / 10 ^ 5 * exp (195 / 100 * ln eta) * (1 + eta + eta ^ 5) * exp (186 / 100 * ln (breit_wigner T)).
  Definition two_pions (T : R) : R :=
    if Rle_dec (56 / 100) T then 57 / 10 / (1 + exp (93 / 10 * (14 / 10 - T))) else 0.
  (** Eqs. 6 and 7 *)
  Definition multiplicity_mid (T : R) : R :=
    let Q := (T - T_threshold) / mp in - (6 / 1000) + 237 / 1000 * Q - 23 / 1000 * Q * Q.
  Definition multiplicity_high (T : R) (p : published) : R :=
    let '(a1, a2, a3, a4, a5) := a p in
    let xi := (T - 3) / mp in
    a1 * exp (a4 * ln xi) * (1 + exp (- a2 * exp (a5 * ln xi))) * (1 - exp (- a3 * sqrt (sqrt xi))).
  Definition pi0_production (hi : hiE) (T : R) : R :=
    if Rlt_dec T 2 then one_pion T + two_pions T
    else inelastic T * (if Rlt_dec T 5 then multiplicity_mid T
                        else multiplicity_high T (if Rlt_dec T (from_energy (kafexhiu hi)) then kafexhiu Geant4 else kafexhiu hi)).

  (** Eq. 12: the maximum of the photon spectrum *)
  Definition peak (hi : hiE) (T : R) : R :=
    if Rlt_dec T 1 then 59 / 10 * pi0_production hi T / pion_max_energy T
    else let '(b1, b2, b3) :=
           (if Rlt_dec T 5 then (953 / 100, 52 / 100, 54 / 1000)
            else b (if Rlt_dec T (from_energy (kafexhiu hi)) then kafexhiu Geant4 else kafexhiu hi)) in
         let l := ln (T / mp) in b1 * exp (b3 * l * l - b2 * l) * pi0_production hi T / mp.

  (** Eqs. 9 and 11: its shape *)
  Definition shape (T Eg lambda alpha beta gamma : R) : R :=
    let Y := Eg + mpi ^ 2 / (4 * Eg) in
    let Ymax := photon_max_energy T + mpi ^ 2 / (4 * photon_max_energy T) in
    let X := (Y - mpi) / (Ymax - mpi) in
    if Rle_dec 1 X then 0
    else let Xa := if Rle_dec X 0 then 0 else Rpower X alpha in
         Rpower (1 - Xa) beta / Rpower (1 + X * Ymax / (lambda * mpi)) gamma.
  (** Table V, Eqs. 14 and 15 *)
  Definition kappa14 (T : R) : R := 329 / 100 - 1 / 5 * / (sqrt (T / mp)) ^ 3.
  Definition mu15 (T : R) : R :=
    let q := (T - 1) / mp in 5 / 4 * (q * sqrt (sqrt q)) * exp (- (5 / 4) * q).
  Definition spectrum_shape (hi : hiE) (T Eg : R) : R :=
    if Rle_dec T 1 then shape T Eg 1 1 (kappa14 T) 0
    else if Rle_dec T 4 then shape T Eg 3 1 (mu15 T + 245 / 100) (mu15 T + 145 / 100)
    else if Rle_dec T 20 then shape T Eg 3 1 (3 / 2 * mu15 T + 495 / 100) (mu15 T + 3 / 2)
    else if Rle_dec T (from_energy (kafexhiu hi)) then shape T Eg 3 (1 / 2) (42 / 10) 1
    else let '(l, al, be, ga) := lambda_alpha_beta_gamma (kafexhiu hi) in shape T Eg l al be ga.

  (** Section IV with the abundances of the local interstellar medium; 1.9141 below 1 GeV *)
  Definition enhancement (T : R) : R :=
    if Rlt_dec T 1 then 19141 / 10000
    else 137 / 100 + 39 / 100 * (10 * PI) * (1 + ln (Rmax 1 (inelastic T / inelastic 1000))) / inelastic T.

  (** dsigma/dE_gamma in mb/GeV *)
  Definition published_pp (hi : hiE) (nuclear : bool) (T Eg : R) : R :=
    peak hi T * spectrum_shape hi T Eg * (if nuclear then enhancement T else 1).
End Kafexhiu14.
