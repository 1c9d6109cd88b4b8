(** C123: the Sherpa models from their parameters to the photons per bin. *)
From Coq Require Import Reals List Bool String Arith Lra Lia Sorted FunctionalExtensionality.
From Verif Require Import Outcome TrapzModel TrapzSpec TrapzProofs EnergyModel SpectralModel ElectronModel ElectronProofs ElectronProps SeedModel
  BremsModel BremsProps PionModel PionProofs PionProps SherpaModel SherpaProps SherpaFluxModel.
Import ListNotations.
Local Open Scope R_scope.

(** ** Specification *)
(** the parameter vector Sherpa passes when the parameters have the values [val] *)
Definition vector (k : skind) (val : string -> R) : list R := map val (map p_name (declared k)).
(** one parameter changed *)
Definition change (n : string) (f : R -> R) (val : string -> R) : string -> R :=
  fun m => if String.eqb m n then f (val m) else val m.
Definition constants_ok (c : consts) : Prop :=
  0 < k_mec2 c /\ 0 < k_eV c /\ 0 < k_kpc c /\ 0 < k_ar c /\ sy_ok (k_sy c) /\ 0 < k_c c /\ k_mec2 c < 10 ^ 6 * k_eV c /\ 510 * 10 ^ 3 * k_eV c < k_mec2 c.
(** number of particles per erg at the energy E erg: a power law normalised at ref TeV
    (ampl in 1e30/eV), cut off at cutoff TeV unless this is 0 *)
Definition population (c : consts) (val : string -> R) (E : R) : R :=
  val "ampl"%string * 10 ^ 30 / k_eV c * Rpower (E / (val "ref"%string * (10 ^ 12 * k_eV c))) (- val "index"%string) *
  (if Req_EM_T (val "cutoff"%string) 0 then 1 else exp (- Rpower (E / (val "cutoff"%string * (10 ^ 12 * k_eV c))) (val "beta"%string))).
(** flux in 1/(s cm2 keV) of a luminosity per erg *)
Definition seen (c : consts) (val : string -> R) (L : R) : R :=
  L * (10 ^ 3 * k_eV c) / (4 * PI * (val "distance"%string * k_kpc c) ^ 2).
(** the seed photon fields: CMB, and those given *)
Definition fields (c : consts) (val : string -> R) : list seed :=
  Thermal (272548 / 100000) (k_ar c * (272548 / 100000) ^ 4) None
  :: (if Rlt_dec 0 (val "uFIR"%string) then [Thermal (val "TFIR"%string) (val "uFIR"%string * k_eV c) None] else [])
  ++ (if Rlt_dec 0 (val "uNIR"%string) then [Thermal (val "TNIR"%string) (val "uNIR"%string * k_eV c) None] else []).

(** ** Lemmas *)
Lemma population_is c val : particles c (val "index"%string) (val "ref"%string) (val "ampl"%string) (val "cutoff"%string) (val "beta"%string) = population c val.
Proof.
  apply functional_extensionality. intros E. unfold particles, population, power_law, cutoff_power_law, TeV. cbv zeta.
  destruct (Req_EM_T (val "cutoff"%string) 0); ring.
Qed.
Lemma nmap_nmap {A B C} (f : B -> C) (g : A -> B) x : nmap f (nmap g x) = nmap (fun y => f (g y)) x.
Proof. destruct x; reflexivity. Qed.
Lemma nmap_ext {A B} (f g : A -> B) x : (forall y, f y = g y) -> nmap f x = nmap g x.
Proof. destruct x; cbn; intros H; [rewrite H|]; reflexivity. Qed.
Lemma seeds_of c val : constants_ok c -> 0 <= val "TFIR"%string -> 0 <= val "TNIR"%string ->
  exists ss, process_list (k_ar c) (k_eV c) (seedspec (k_eV c) (val "TFIR"%string) (val "uFIR"%string) (val "TNIR"%string) (val "uNIR"%string)) = Ok ss /\
    map snd ss = fields c val.
Proof.
  intros (_ & HE & _) T1 T2. unfold seedspec, fields.
  assert (K : forall name T u, 0 <= T -> 0 < u -> process1 (k_ar c) (k_eV c) (SIso name (Temperature T) (EnergyDensity [u * k_eV c])) = Ok (name, Thermal T (u * k_eV c) None)).
  { intros name T u H1 H2. assert (0 < u * k_eV c) by (apply Rmult_lt_0_compat; lra).
    cbn. unfold thermal. destruct (Rlt_dec T 0); [lra|]. destruct (Req_EM_T (u * k_eV c) 0); [lra|]. destruct (Rlt_dec (u * k_eV c) 0); [lra|]. reflexivity. }
  assert (K0 : process1 (k_ar c) (k_eV c) (SName "CMB") = Ok ("CMB"%string, Thermal Tcmb (k_ar c * Tcmb ^ 4) None)) by reflexivity.
  destruct (Rlt_dec 0 (val "uFIR"%string)) as [F|F], (Rlt_dec 0 (val "uNIR"%string)) as [N|N]; unfold process_list; cbn [app fold_left obind];
    rewrite K0; cbn [obind]; repeat (rewrite K by assumption; cbn [obind]); eexists; (split; [reflexivity|reflexivity]).
Qed.
Lemma nintervals_scale c ys : forall xs, 0 < c -> nintervals (map (nmap (Rmult c)) ys) xs = map (nmap (Rmult c)) (nintervals ys xs).
Proof.
  induction ys as [|y1 ys IH]; intros xs Hc; [reflexivity|]. destruct ys as [|y2 ys]; [destruct xs as [|? [|]]; reflexivity|].
  destruct xs as [|x1 [|x2 xs]]; [reflexivity..|].
  change (nintervals (map (nmap (Rmult c)) (y1 :: y2 :: ys)) (x1 :: x2 :: xs)) with
    (ninterval x1 x2 (nmap (Rmult c) y1) (nmap (Rmult c) y2) :: nintervals (map (nmap (Rmult c)) (y2 :: ys)) (x2 :: xs)).
  rewrite IH, ninterval_scale by exact Hc. reflexivity.
Qed.
Lemma nintervals_real ys : forall xs, nintervals (map Some ys) xs = map Some (trapz_intervals ys xs).
Proof.
  induction ys as [|y1 ys IH]; intros xs; [reflexivity|]. destruct ys as [|y2 ys]; [destruct xs as [|? [|]]; reflexivity|].
  destruct xs as [|x1 [|x2 xs]]; [reflexivity..|].
  change (nintervals (map Some (y1 :: y2 :: ys)) (x1 :: x2 :: xs)) with (ninterval x1 x2 (Some y1) (Some y2) :: nintervals (map Some (y2 :: ys)) (x2 :: xs)).
  rewrite IH. cbn [trapz_intervals map]. f_equal. unfold ninterval, interval. cbn [is_zero].
  destruct (Req_EM_T y1 0); [reflexivity|]. destruct (Req_EM_T y2 0); [reflexivity|]. cbn [orb]. destruct (Req_EM_T x1 x2); reflexivity.
Qed.
(** photons per bin follow the flux *)
Lemma photons_scale c k p p' x xhi s : 0 < s -> (forall Eph, flux c k p' Eph = omap (map (nmap (Rmult s))) (flux c k p Eph)) ->
  photons c k p' x xhi = omap (map (nmap (Rmult s))) (photons c k p x xhi).
Proof.
  intros Hs F. unfold photons. destruct xhi as [h|].
  - rewrite F. destruct (flux c k p (mergex x h)) as [m|e]; cbn [omap]; [|reflexivity]. rewrite nintervals_scale by exact Hs. reflexivity.
  - rewrite F. destruct (flux c k p x) as [m|e]; cbn [omap]; [|reflexivity]. f_equal. rewrite map_map.
    clear. revert x. induction m as [|y m IH]; intros [|e x]; cbn; try reflexivity. rewrite IH. f_equal. rewrite !nmap_nmap. apply nmap_ext. intros; ring.
Qed.

(** the flux, energy by energy, as a multiple of a luminosity *)
Section Th.
  Variable c : consts.
  Notation TeV := (10 ^ 12 * k_eV c).
  Notation GeV := (10 ^ 9 * k_eV c).
  Notation keV := (10 ^ 3 * k_eV c).
  Lemma factor d unit : d <> 0 -> constants_ok c -> forall s, s * (SherpaFluxModel.keV c / unit) / (4 * PI * (d * k_kpc c) ^ 2) = (s / unit) * keV / (4 * PI * (d * k_kpc c) ^ 2).
  Proof. intros D K s. unfold SherpaFluxModel.keV, Rdiv. ring. Qed.
  Ltac open_model := unfold vector; cbn [declared app map p_name p_index p_ref p_ampl p_cutoff p_beta p_distance p_verbose flux].

  (** ** Every parameter does what its name says *)
  Theorem C123_synchrotron : forall val Eph, constants_ok c -> val "distance"%string <> 0 ->
    flux c SSync (vector SSync val) Eph =
    Ok (map (fun L => Some (seen c val L))
      (sy_spectrum (k_sy c) (val "B"%string) (k_mec2 c) (population c val) (gam (k_mec2 c) 100 (1 * GeV) (10 ^ 9 * k_mec2 c)) (map (fun e => e * keV) Eph))).
  Proof.
    intros val Eph K D. open_model. unfold at_distance. destruct (Req_EM_T _ 0); [contradiction|]. rewrite population_is, map_map. f_equal.
    apply map_ext. intros L. cbn [nmap]. rewrite factor by assumption. unfold seen. replace (L / 1) with L by field. reflexivity.
  Qed.
  Theorem C123_inverse_compton : forall val Eph, constants_ok c -> val "distance"%string <> 0 -> 0 <= val "TFIR"%string -> 0 <= val "TNIR"%string ->
    flux c SIC (vector SIC val) Eph =
    Ok (map (fun L => Some (seen c val L))
      (ic_spectrum (k_mec2 c) (k_ar c) (population c val) (gam (k_mec2 c) 100 (1 * GeV) (100 * TeV)) (fields c val) (map (fun e => e * keV) Eph))).
  Proof.
    intros val Eph K D T1 T2. open_model. destruct (seeds_of c val K T1 T2) as (ss & -> & E). cbn [obind]. unfold at_distance. destruct (Req_EM_T _ 0); [contradiction|].
    rewrite population_is, map_map, E. f_equal. apply map_ext. intros L. cbn [nmap]. rewrite factor by assumption. unfold seen. replace (L / 1) with L by field. reflexivity.
  Qed.
  Theorem C123_bremsstrahlung : forall val Eph l, constants_ok c -> val "distance"%string <> 0 ->
    brems_luminosity (k_br c) (k_gt c) (k_mec2 c) (k_c c) (population c val) (gam (k_mec2 c) 300 (GeV / 10) (10 ^ 9 * k_mec2 c))
      (val "n0"%string) (val "weight_ee"%string) (val "weight_ep"%string) (map (fun e => e * keV / k_mec2 c) Eph) = Ok l ->
    flux c SBrems (vector SBrems val) Eph = Ok (map (fun L => Some (seen c val (L / k_mec2 c))) l).
  Proof.
    intros val Eph l K D B. open_model. rewrite population_is, map_map. replace (100 * (SherpaFluxModel.GeV c / 1000)) with (GeV / 10) by (unfold SherpaFluxModel.GeV; field).
    unfold SherpaFluxModel.keV at 1. rewrite B. cbn [obind]. unfold at_distance. destruct (Req_EM_T _ 0); [contradiction|]. rewrite map_map. f_equal.
    apply map_ext. intros L. cbn [nmap]. rewrite factor by assumption. reflexivity.
  Qed.
  Theorem C123_pion_decay : forall val Eph, constants_ok c -> val "distance"%string <> 0 ->
    flux c SPion (vector SPion val) Eph =
    Ok (map (nmap (fun L => seen c val (L / GeV)))
      (pion_spectrum (k_sig c) (val "nH"%string * k_c c) GeV (population c val)
         (Ep GeV 100 ((k_mp c + 27966184 / 10 ^ 8 + 1 / 10 ^ 4) * GeV) (10 * (1000 * TeV))) (map (fun e => e * keV / GeV) Eph))).
  Proof.
    intros val Eph K D. open_model. rewrite population_is, map_map. unfold at_distance. destruct (Req_EM_T _ 0); [contradiction|]. f_equal.
    apply map_ext. intros [L|]; cbn [nmap]; [|reflexivity]. rewrite factor by assumption. reflexivity.
  Qed.

  (** ** Scaling *)
  Lemma change_same n f val : change n f val n = f (val n).
  Proof. unfold change. rewrite String.eqb_refl. reflexivity. Qed.
  Lemma at_distance_scale d unit s l : at_distance c d unit (map (nmap (Rmult s)) l) = omap (map (nmap (Rmult s))) (at_distance c d unit l).
  Proof.
    unfold at_distance. destruct (Req_EM_T d 0); [reflexivity|]. cbn [omap]. f_equal. rewrite !map_map. apply map_ext. intros [y|]; cbn [nmap]; [|reflexivity].
    f_equal. unfold Rdiv. ring.
  Qed.
  Lemma at_distance_far d unit s l : s <> 0 -> at_distance c (s * d) unit l = omap (map (nmap (Rmult (/ s ^ 2)))) (at_distance c d unit l).
  Proof.
    intros S. unfold at_distance. destruct (Req_EM_T d 0) as [->|N].
    - rewrite Rmult_0_r. destruct (Req_EM_T 0 0); [reflexivity|lra].
    - destruct (Req_EM_T (s * d) 0) as [E|_]; [apply Rmult_integral in E; tauto|]. cbn [omap]. f_equal. rewrite map_map. apply map_ext. intros [y|]; cbn [nmap]; [|reflexivity].
      f_equal. replace ((s * d * k_kpc c) ^ 2) with (s ^ 2 * (d * k_kpc c) ^ 2) by ring. unfold Rdiv. rewrite !Rinv_mult. ring.
  Qed.
  Lemma some_scale s l : map Some (map (Rmult s) l) = map (nmap (Rmult s)) (map Some l).
  Proof. rewrite !map_map. reflexivity. Qed.
  Lemma brems_linear_full k gt mec2 cc (pd : R -> R -> R) s A gs n0 w1 w2 Eph :
    (forall c a E, pd (c * a) E = c * pd a E) -> 0 < s ->
    brems_luminosity k gt mec2 cc (pd (s * A)) gs n0 w1 w2 Eph = omap (map (Rmult s)) (brems_luminosity k gt mec2 cc (pd A) gs n0 w1 w2 Eph).
  Proof.
    intros L S. destruct (brems_luminosity k gt mec2 cc (pd A) gs n0 w1 w2 Eph) as [l|e] eqn:E; cbn [omap].
    - apply (C18_brems_linear k gt mec2 cc pd s A gs n0 w1 w2 Eph l L S E).
    - revert E. unfold brems_luminosity, brems_spectrum, emiss. destruct (Req_EM_T w1 0), (Req_EM_T w2 0); cbn; auto; discriminate.
  Qed.
  Lemma flux_ampl k val s Eph : 0 < s -> flux c k (vector k (change "ampl" (Rmult s) val)) Eph = omap (map (nmap (Rmult s))) (flux c k (vector k val) Eph).
  Proof.
    intros S. set (pd := fun a => particles c (val "index"%string) (val "ref"%string) a (val "cutoff"%string) (val "beta"%string)).
    assert (PD : forall s a E, pd (s * a) E = s * pd a E).
    { intros. unfold pd, particles, power_law, cutoff_power_law. cbv zeta. destruct (Req_EM_T _ 0); unfold Rdiv; ring. }
    destruct k; unfold vector; cbn [declared app map p_name p_index p_ref p_ampl p_cutoff p_beta p_distance p_verbose flux]; unfold change; cbn [String.eqb Ascii.eqb Bool.eqb];
      change (particles c (val "index"%string) (val "ref"%string) (val "ampl"%string) (val "cutoff"%string) (val "beta"%string)) with (pd (val "ampl"%string));
      change (particles c (val "index"%string) (val "ref"%string) (s * val "ampl"%string) (val "cutoff"%string) (val "beta"%string)) with (pd (s * val "ampl"%string)).
    - destruct (process_list _ _ _) as [ss|e]; cbn [obind]; [|reflexivity].
      destruct (C18_amplitude_linear pd s (val "ampl"%string) PD) as (_ & H & _); [lra|]. rewrite H, some_scale. apply at_distance_scale.
    - destruct (C18_amplitude_linear pd s (val "ampl"%string) PD) as (H & _); [lra|]. rewrite H, some_scale. apply at_distance_scale.
    - rewrite (brems_linear_full _ _ _ _ pd s) by assumption. destruct (brems_luminosity _ _ _ _ _ _ _ _ _ _) as [l|e]; cbn [omap obind]; [|reflexivity].
      rewrite some_scale. apply at_distance_scale.
    - destruct (C18_pion_linear (k_sig c) pd s (val "ampl"%string) (val "nH"%string * k_c c) (SherpaFluxModel.GeV c)
        (Ep (SherpaFluxModel.GeV c) 100 ((k_mp c + 27966184 / 10 ^ 8 + 1 / 10 ^ 4) * SherpaFluxModel.GeV c) (10 * (1000 * SherpaFluxModel.TeV c)))
        (map (fun E => E / SherpaFluxModel.GeV c) (map (fun x => x * SherpaFluxModel.keV c) Eph)) PD S) as (H & _). rewrite H. apply at_distance_scale.
  Qed.
  (** The photons in every bin are proportional to the amplitude, ... *)
  Theorem C123_amplitude : forall k val s x xhi, 0 < s ->
    photons c k (vector k (change "ampl" (Rmult s) val)) x xhi = omap (map (nmap (Rmult s))) (photons c k (vector k val) x xhi).
  Proof. intros k val s x xhi S. apply photons_scale; [exact S|]. intros Eph. apply flux_ampl, S. Qed.
  (** ... and fall with the square of the distance. *)
  Theorem C123_distance : forall k val s x xhi, 0 < s ->
    photons c k (vector k (change "distance" (Rmult s) val)) x xhi = omap (map (nmap (Rmult (/ s ^ 2)))) (photons c k (vector k val) x xhi).
  Proof.
    intros k val s x xhi S. apply photons_scale; [apply Rinv_0_lt_compat, pow_lt, S|]. intros Eph.
    assert (S0 : s <> 0) by lra.
    destruct k; unfold vector; cbn [declared app map p_name p_index p_ref p_ampl p_cutoff p_beta p_distance p_verbose flux]; unfold change; cbn [String.eqb Ascii.eqb Bool.eqb].
    - destruct (process_list _ _ _); cbn [obind]; [|reflexivity]. apply at_distance_far, S0.
    - apply at_distance_far, S0.
    - destruct (brems_luminosity _ _ _ _ _ _ _ _ _ _); cbn [obind]; [|reflexivity]. apply at_distance_far, S0.
    - apply at_distance_far, S0.
  Qed.

  (** ** Bins *)
  (** The flux at an energy does not depend on the other energies, so that the photons in
      a bin depend on nothing else but its own edges; they are what C61 says of the flux. *)
  Theorem C123_bins : forall k p, (exists e, forall Eph, flux c k p Eph = Err e) \/
    exists f : R -> option R, (forall Eph, flux c k p Eph = Ok (map f Eph)) /\ forall xlo xhi g, (forall e, In e (mergex xlo xhi) -> f e = Some (g e)) ->
        photons c k p xlo (Some xhi) = Ok (map Some (calc g xlo (Some xhi))).
  Proof.
    intros k p.
    assert (P : (exists e, forall Eph, flux c k p Eph = Err e) \/ exists f : R -> option R, forall Eph, flux c k p Eph = Ok (map f Eph)).
    { assert (AD : forall d unit (g : R -> option R), (exists e, forall Eph, at_distance c d unit (map g Eph) = Err e) \/ exists f : R -> option R, forall Eph, at_distance c d unit (map g Eph) = Ok (map f Eph)).
      { intros d unit g. unfold at_distance. destruct (Req_EM_T d 0); [left; eauto|]. right. eexists. intros Eph. rewrite map_map. reflexivity. }
      destruct k.
      - destruct p as [|a [|b [|d [|e [|f [|g [|h [|i [|j [|l [|m [|? ?]]]]]]]]]]]]; try (left; exists "ValueError"%string; intros ?; reflexivity). cbn [flux].
        destruct (process_list _ _ _) as [ss|er]; cbn [obind]; [|left; eauto].
        destruct (AD l 1 (fun x => Some (fold_right Rplus 0 (map (fun s => specic1 (k_mec2 c) (k_ar c) (particles c a b d e f) (gam (k_mec2 c) 100 (1 * SherpaFluxModel.GeV c) (100 * SherpaFluxModel.TeV c)) s (x * SherpaFluxModel.keV c)) (map snd ss))))) as [(er & H)|(ff & H)];
          [left; exists er|right; exists ff]; intros Eph; rewrite <- (H Eph), ic_spectrum_map, !map_map; reflexivity.
      - destruct p as [|a [|b [|d [|e [|f [|g [|h [|i [|? ?]]]]]]]]]; try (left; exists "ValueError"%string; intros ?; reflexivity). cbn [flux]. unfold sy_spectrum.
        destruct (AD h 1 (fun x => Some (trapz_loglog (mul2 (nelec (k_mec2 c) (particles c a b d e f) (gam (k_mec2 c) 100 (1 * SherpaFluxModel.GeV c) (10 ^ 9 * k_mec2 c)))
            (map (fun g0 => sy_kernel (k_sy c) g g0 (x * SherpaFluxModel.keV c)) (gam (k_mec2 c) 100 (1 * SherpaFluxModel.GeV c) (10 ^ 9 * k_mec2 c)))) (gam (k_mec2 c) 100 (1 * SherpaFluxModel.GeV c) (10 ^ 9 * k_mec2 c))))) as [(er & H)|(ff & H)];
          [left; exists er|right; exists ff]; intros Eph; rewrite <- (H Eph), !map_map; reflexivity.
      - destruct p as [|a [|b [|d [|e [|f [|g [|h [|i [|j [|l [|? ?]]]]]]]]]]]; try (left; exists "ValueError"%string; intros ?; reflexivity). cbn [flux].
        destruct (Req_EM_T h 0) as [->|N1]; [left; eexists; intros Eph; rewrite (proj2 (C30_zero_weight_refuted _ _ _ _ _ _ _ _ _)); reflexivity|].
        destruct (Req_EM_T i 0) as [->|N2]; [left; eexists; intros Eph; rewrite (proj1 (C30_zero_weight_refuted _ _ _ _ _ _ _ _ _)); reflexivity|].
        set (F := fun eps => g * (h * (k_c c * strapz (mul2 (nelec (k_mec2 c) (particles c a b d e f) (gam (k_mec2 c) 300 (100 * (SherpaFluxModel.GeV c / 1000)) (10 ^ 9 * k_mec2 c))) (map (fun g0 => sigma_ee (k_br c) (k_gt c) g0 eps) (gam (k_mec2 c) 300 (100 * (SherpaFluxModel.GeV c / 1000)) (10 ^ 9 * k_mec2 c)))) (gam (k_mec2 c) 300 (100 * (SherpaFluxModel.GeV c / 1000)) (10 ^ 9 * k_mec2 c)))
                     + i * (k_c c * strapz (mul2 (nelec (k_mec2 c) (particles c a b d e f) (gam (k_mec2 c) 300 (100 * (SherpaFluxModel.GeV c / 1000)) (10 ^ 9 * k_mec2 c))) (map (fun g0 => sigma_ep (k_br c) g0 eps) (gam (k_mec2 c) 300 (100 * (SherpaFluxModel.GeV c / 1000)) (10 ^ 9 * k_mec2 c)))) (gam (k_mec2 c) 300 (100 * (SherpaFluxModel.GeV c / 1000)) (10 ^ 9 * k_mec2 c))))).
        assert (K : forall Es, brems_luminosity (k_br c) (k_gt c) (k_mec2 c) (k_c c) (particles c a b d e f) (gam (k_mec2 c) 300 (100 * (SherpaFluxModel.GeV c / 1000)) (10 ^ 9 * k_mec2 c)) g h i Es = Ok (map F Es)).
        { intros Es. unfold brems_luminosity, brems_spectrum, emiss. destruct (Req_EM_T h 0); [contradiction|]. destruct (Req_EM_T i 0); [contradiction|]. cbn [qscale qadd omap obind].
          f_equal. unfold add2. rewrite !map_map, combine_map, !map_map. reflexivity. }
        destruct (AD j (k_mec2 c) (fun x => Some (F (x * SherpaFluxModel.keV c / k_mec2 c)))) as [(er & H)|(ff & H)];
          [left; exists er|right; exists ff]; intros Eph; rewrite K; cbn [obind]; rewrite <- (H Eph), !map_map; reflexivity.
      - destruct p as [|a [|b [|d [|e [|f [|g [|h [|i [|? ?]]]]]]]]]; try (left; exists "ValueError"%string; intros ?; reflexivity). cbn [flux]. unfold pion_spectrum.
        set (es := Ep _ _ _ _). match goal with |- context [map (fun Eg => nmap ?F (ntrapz (@?G Eg) es)) _] =>
          destruct (AD h (SherpaFluxModel.GeV c) (fun x => nmap F (ntrapz (G (x * SherpaFluxModel.keV c / SherpaFluxModel.GeV c)) es))) as [(er & H)|(ff & H)] end;
          [left; exists er|right; exists ff]; intros Eph; rewrite <- (H Eph), !map_map; reflexivity. }
    destruct P as [P|(f & F)]; [left; exact P|]. right. exists f. split; [exact F|]. intros xlo xhi g G. unfold photons. cbv zeta. rewrite F. cbn [omap]. f_equal.
    unfold calc. cbv zeta. rewrite <- nintervals_real. f_equal. rewrite map_map. apply map_ext_in. exact G.
  Qed.

  (** ** Parameters as declared *)
  Theorem C123_declared : forall k,
    NoDup (map p_name (declared k)) /\ (forall p, In p (declared k) -> (forall m, p_min p = Some m -> m <= p_default p) /\ (forall m, p_max p = Some m -> p_default p <= m)) /\ (forall p, In p (declared k) -> p_frozen p = false <-> p_name p = "index"%string \/ p_name p = "ampl"%string).
  Proof.
    intros k. repeat split.
    - destruct k; cbn; repeat constructor; cbn; intros H; repeat (destruct H as [H|H]; [discriminate H|]); destruct H.
    - intros m M. destruct k; cbn in H; repeat (destruct H as [<-|H]; [cbn in *; inversion M; subst; lra|]); destruct H.
    - intros m M. destruct k; cbn in H; repeat (destruct H as [<-|H]; [cbn in *; inversion M; subst; lra|]); destruct H.
    - intros F. destruct k; cbn in H; repeat (destruct H as [<-|H]; [cbn in *; first [discriminate F | auto]|]); destruct H.
    - intros [F|F]; destruct k; cbn in H; repeat (destruct H as [<-|H]; [cbn in *; first [discriminate F | reflexivity]|]); destruct H.
  Qed.

  (** A fresh model: default, smallest and largest value of every parameter, in order. *)
  Theorem C123_table :
    let row p := (p_name p, p_default p, p_min p, p_max p) in
    let common := [("index", 21 / 10, Some (-10), Some 10); ("ref", 60, Some 0, None); ("ampl", 100, Some 0, Some (10 ^ 60));
                   ("cutoff", 0, Some 0, None); ("beta", 1, Some 0, Some 10)]%string in
    let rest := [("distance", 1, Some 0, Some (10 ^ 6)); ("verbose", 0, Some 0, Some 1)]%string in
    map row (declared SIC) = common ++ [("TFIR", 30, Some 0, None); ("uFIR", 0, Some 0, None); ("TNIR", 3000, Some 0, None); ("uNIR", 0, Some 0, None)]%string ++ rest /\
    map row (declared SSync) = common ++ [("B", 1, Some 0, Some 10)]%string ++ rest /\
    map row (declared SBrems) = common ++ [("n0", 1, Some 0, Some (10 ^ 20)); ("weight_ee", 1088 / 1000, Some 0, Some 10); ("weight_ep", 1263 / 1000, Some 0, Some 10)]%string ++ rest /\
    map row (declared SPion) = common ++ [("nH", 1, Some 0, None)]%string ++ rest.
  Proof. cbv zeta. repeat split; reflexivity. Qed.

  (** ** Photon numbers are not negative *)
  Lemma population_pos val E : constants_ok c -> 0 <= val "ampl"%string -> 0 <= population c val E.
  Proof.
    intros (_ & K & _) A. unfold population. apply Rmult_le_pos; [apply Rmult_le_pos|].
    - apply Rmult_le_pos; [apply Rmult_le_pos; [exact A|apply pow_le; lra]|apply Rlt_le, Rinv_0_lt_compat, K].
    - apply Rlt_le, exp_pos.
    - destruct (Req_EM_T _ 0); [lra|apply Rlt_le, exp_pos].
  Qed.
  Lemma seen_pos val L : constants_ok c -> val "distance"%string <> 0 -> 0 <= L -> 0 <= seen c val L.
  Proof.
    intros (_ & K & KP & _) D P. unfold seen, Rdiv. apply Rmult_le_pos; [apply Rmult_le_pos; [exact P|apply Rmult_le_pos; [apply pow_le; lra|lra]]|].
    apply Rlt_le, Rinv_0_lt_compat. pose proof PI_RGT_0. apply Rmult_lt_0_compat; [lra|]. rewrite <- Rsqr_pow2. apply Rlt_0_sqr. apply Rmult_integral_contrapositive. split; [exact D|lra].
  Qed.
  Lemma intervals_nonneg ys : forall xs, grid xs -> List.Forall (fun y => 0 <= y) ys -> List.Forall (fun y => 0 <= y) (trapz_intervals ys xs).
  Proof.
    induction ys as [|y1 ys IH]; intros xs G P; [constructor|]. destruct ys as [|y2 ys]; [destruct xs as [|? [|]]; constructor|].
    destruct xs as [|x1 [|x2 xs]]; [constructor..|]. cbn [trapz_intervals]. inversion P as [|? ? P1 P2]; subst. inversion P2; subst. apply grid_cons2 in G. destruct G as (G1 & G2 & G3).
    constructor; [apply interval_nonneg; try assumption; lra|]. apply (IH (x2 :: xs)); assumption.
  Qed.
  Lemma contiguous_grid xlo xhi : contiguous xlo xhi -> grid (mergex xlo xhi).
  Proof.
    intros C. pose proof C as (NE & LH & PO & CT).
    assert (LM : List.length (mergex xlo xhi) = S (List.length xlo)) by (unfold mergex; rewrite app_length; cbn; lia).
    assert (L0 : (0 < List.length xlo)%nat) by (destruct xlo; [congruence|cbn; lia]).
    assert (ST : forall i, (i < List.length xlo)%nat -> 0 < nth i (mergex xlo xhi) 0 < nth (S i) (mergex xlo xhi) 0).
    { intros i Hi. destruct (merged_bin _ _ i C Hi) as (-> & ->). apply PO, Hi. }
    clear C PO CT NE LH. revert LM L0 ST. generalize (mergex xlo xhi) as E. generalize (List.length xlo) as n. clear. intros n E. revert n.
    induction E as [|a E IH]; intros n L N0 ST; [discriminate|]. destruct E as [|b E]; [cbn in L; lia|].
    destruct n as [|[|n]]; [lia| |].
    - destruct E; [|discriminate]. specialize (ST 0%nat ltac:(lia)). cbn in ST. split; repeat constructor; lra.
    - destruct (IH (S n)) as (F & SS); [cbn in *; lia|lia|intros i Hi; apply (ST (S i)); lia|].
      specialize (ST 0%nat ltac:(lia)). cbn in ST. split; [constructor; [lra|exact F]|]. constructor; [exact SS|].
      inversion SS as [|? ? SS' F']; subst. constructor; [lra|]. eapply Forall_impl; [|exact F']. intros y Y. cbn in Y. lra.
  Qed.
  (** Synchrotron, inverse Compton and pion decay with parameters within their limits and
      positive distance, field and temperatures: every bin holds a number, not negative. *)
  Theorem C123_nonnegative : forall k val xlo xhi, constants_ok c -> k <> SBrems ->
    (k = SPion -> proton (k_mp c) /\ exists nuclear hi, k_sig c = diffsigma (k_mp c) hi nuclear) ->
    0 <= val "ampl"%string -> val "distance"%string <> 0 ->
    match k with
    | SSync => 0 < val "B"%string
    | SIC => 0 <= val "TFIR"%string /\ 0 <= val "TNIR"%string /\
        (0 < val "uFIR"%string -> 0 < val "TFIR"%string) /\ (0 < val "uNIR"%string -> 0 < val "TNIR"%string)
    | SPion => 0 <= val "nH"%string
    | SBrems => True
    end ->
    contiguous xlo xhi ->
    exists ys, photons c k (vector k val) xlo (Some xhi) = Ok (map Some ys) /\ List.length ys = List.length xlo /\ List.Forall (fun y => 0 <= y) ys.
  Proof.
    intros k val xlo xhi K NB SG A D PAR CT. pose proof (contiguous_grid _ _ CT) as G. pose proof K as (K1 & K2 & K3 & K4 & K5 & K6 & K7 & K8).
    assert (POS : forall e, In e (map (fun e => e * keV) (mergex xlo xhi)) -> 0 < e).
    { intros e I'. apply in_map_iff in I'. destruct I' as (x & <- & I'). apply Rmult_lt_0_compat; [|apply Rmult_lt_0_compat; [apply pow_lt; lra|exact K2]].
      destruct G as (G1 & _). revert x I'. apply Forall_forall. exact G1. }
    assert (FX : exists ys, flux c k (vector k val) (mergex xlo xhi) = Ok (map Some ys) /\ List.Forall (fun y => 0 <= y) ys /\ List.length ys = List.length (mergex xlo xhi)).
    { assert (PP : forall E, 0 < E -> 0 <= population c val E) by (intros; apply population_pos; assumption).
      assert (FP : List.Forall (fun E => 0 < E) (map (fun e => e * keV) (mergex xlo xhi))) by (apply Forall_forall; exact POS).
      destruct k; [| |congruence|].
      - destruct PAR as (T1 & T2 & T3 & T4). rewrite C123_inverse_compton by (try assumption; lra).
        set (S := ic_spectrum _ _ _ _ _ _). exists (map (seen c val) S). rewrite map_map. split; [reflexivity|]. split.
        + assert (SP : List.Forall (fun s => 0 <= s) S).
          { apply (C21_nonnegative (population c val) (k_mec2 c) 100 (1 * GeV) (100 * TeV)); try assumption; [lra|].
            unfold fields. constructor; [unfold seed_ok; split; [lra|split; [apply Rmult_le_pos; [lra|apply pow_le; lra]|discriminate]]|].
            apply Forall_app. split; destruct (Rlt_dec 0 _) as [U|U]; constructor; try constructor; unfold seed_ok; repeat split; try discriminate; auto; apply Rmult_le_pos; lra. }
          apply Forall_forall. intros y I'. apply in_map_iff in I'. destruct I' as (L & <- & I'). apply seen_pos; try assumption. revert L I'. apply Forall_forall. exact SP.
        + rewrite map_length. unfold S. rewrite ic_spectrum_map, !map_length. reflexivity.
      - rewrite C123_synchrotron by assumption. set (S := sy_spectrum _ _ _ _ _ _). exists (map (seen c val) S). rewrite map_map. split; [reflexivity|]. split.
        + assert (SP : List.Forall (fun s => 0 <= s) S).
          { apply (C21_nonnegative (population c val) (k_mec2 c) 100 (1 * GeV) (10 ^ 9 * k_mec2 c)); try assumption.
            cbn in K7, K8 |- *. lra. }
          apply Forall_forall. intros y I'. apply in_map_iff in I'. destruct I' as (L & <- & I'). apply seen_pos; try assumption. revert L I'. apply Forall_forall. exact SP.
        + rewrite map_length. unfold S, sy_spectrum. rewrite !map_length. reflexivity.
      - destruct (SG eq_refl) as (MP & nuclear & hi & SIG). rewrite C123_pion_decay by assumption. rewrite SIG. set (S := pion_spectrum _ _ _ _ _ _).
        assert (SP : List.Forall (fun r => exists v, r = Some v /\ 0 <= v) S).
        { unfold proton in MP. apply C21_pion_nonnegative; try assumption.
          - apply Rmult_le_pos; lra.
          - apply Rmult_lt_0_compat; [apply pow_lt; lra|exact K2].
          - unfold Tth. assert (0 < GeV) by (apply Rmult_lt_0_compat; [apply pow_lt; lra|exact K2]). nra.
          - cbn. nra.
          - apply Forall_forall. intros E I'. apply in_map_iff in I'. destruct I' as (x & <- & I'). apply Rdiv_lt_0_compat; [|apply Rmult_lt_0_compat; [apply pow_lt; lra|exact K2]].
            apply POS. apply in_map_iff. exists x. auto. }
        assert (LS : List.length S = List.length (mergex xlo xhi)) by (unfold S, pion_spectrum; rewrite !map_length; reflexivity).
        assert (GP : 0 < GeV) by (apply Rmult_lt_0_compat; [apply pow_lt; lra|exact K2]).
        clearbody S. rewrite <- LS. clear LS FP PP SIG. induction SP as [|r S (v & -> & V) SP (ys & E & F & L)]; [exists []; repeat split; constructor|].
        exists (seen c val (v / GeV) :: ys). cbn [map nmap]. split; [f_equal; f_equal; congruence|]. split; [|cbn; rewrite L; reflexivity].
        constructor; [|exact F]. apply seen_pos; try assumption. apply Rmult_le_pos; [exact V|apply Rlt_le, Rinv_0_lt_compat, GP]. }
    destruct FX as (ys & FX & FP & FL). unfold photons. cbv zeta. rewrite FX. cbn [omap]. rewrite nintervals_real. eexists. split; [reflexivity|]. split; [|apply intervals_nonneg; assumption].
    rewrite intervals_length by exact FL. rewrite FL. unfold mergex. rewrite app_length. cbn. lia.
  Qed.
End Th.

(** ** guess *)
(** guess changes the amplitude only, and afterwards the model has the integral of the data. *)
Lemma ntrapz_real ys : forall xs, ntrapz (map Some ys) xs = Some (trapz_loglog ys xs).
Proof.
  intros xs. unfold trapz_loglog. revert xs. induction ys as [|y1 ys IH]; intros xs; [reflexivity|]. destruct ys as [|y2 ys]; [destruct xs as [|? [|]]; reflexivity|].
  destruct xs as [|x1 [|x2 xs]]; [reflexivity..|].
  change (ntrapz (map Some (y1 :: y2 :: ys)) (x1 :: x2 :: xs)) with (nbind (ninterval x1 x2 (Some y1) (Some y2)) (fun v => nmap (Rplus v) (ntrapz (map Some (y2 :: ys)) (x2 :: xs)))).
  rewrite IH. pose proof (nintervals_real [y1; y2] [x1; x2]) as E. cbn [map nintervals trapz_intervals] in E. inversion E as [E']. rewrite E'. cbn [nbind nmap]. reflexivity.
Qed.
Theorem C123_guess : forall c k val dep x xhi ys, photons c k (vector k val) x xhi = Ok (map Some ys) ->
  0 < trapz_loglog ys x -> 0 < trapz_loglog dep x ->
  exists val' ys', guess c k dep x xhi (vector k val) = Ok (vector k val') /\ (forall n, n <> "ampl"%string -> val' n = val n) /\
    photons c k (vector k val') x xhi = Ok (map Some ys') /\ trapz_loglog ys' x = trapz_loglog dep x.
Proof.
  intros c k val dep x xhi ys P M D. set (s := trapz_loglog dep x / trapz_loglog ys x).
  assert (S : 0 < s) by (apply Rdiv_lt_0_compat; assumption).
  exists (change "ampl" (Rmult s) val), (map (Rmult s) ys).
  assert (Q : photons c k (vector k (change "ampl" (Rmult s) val)) x xhi = Ok (map Some (map (Rmult s) ys))).
  { rewrite C123_amplitude by exact S. rewrite P. cbn [omap]. rewrite some_scale. reflexivity. }
  split; [|split; [|split; [exact Q|]]].
  - unfold guess. rewrite P. cbn [obind]. rewrite ntrapz_real.
    destruct k; unfold vector; cbn [declared app map p_name p_index p_ref p_ampl p_cutoff p_beta p_distance p_verbose]; unfold change; cbn [String.eqb Ascii.eqb Bool.eqb];
      (destruct (Req_EM_T _ 0); [lra|]); f_equal; f_equal; f_equal; f_equal; unfold s; field; lra.
  - intros n N. unfold change. apply String.eqb_neq in N. rewrite N. reflexivity.
  - assert (E : Some (trapz_loglog (map (Rmult s) ys) x) = nmap (Rmult s) (Some (trapz_loglog ys x))).
    { rewrite <- !ntrapz_real, some_scale. apply ntrapz_scale, S. }
    cbn [nmap] in E. injection E as E. rewrite E. unfold s. field. lra.
Qed.

(** ** Where the limits of the parameters do not fit the models *)
Definition within (k : skind) (val : string -> R) : Prop :=
  forall p, In p (declared k) -> (forall m, p_min p = Some m -> m <= val (p_name p)) /\ (forall m, p_max p = Some m -> val (p_name p) <= m).
(** the values of a fresh model *)
Definition defaults (k : skind) (n : string) : R :=
  match find (fun p => String.eqb (p_name p) n) (declared k) with Some p => p_default p | None => 0 end.
Lemma within_defaults k : within k (defaults k).
Proof.
  intros p H. destruct (proj1 (proj2 (C123_declared k)) p H) as (A & B).
  assert (E : defaults k (p_name p) = p_default p); [|rewrite E; split; assumption].
  destruct k; cbn in H; repeat (destruct H as [<-|H]; [reflexivity|]); destruct H.
Qed.
Lemma within_change k n v : 0 <= v -> (forall p, In p (declared k) -> p_name p = n -> p_min p = Some 0 /\ forall m, p_max p = Some m -> v <= m) ->
  within k (change n (fun _ => v) (defaults k)).
Proof.
  intros V L p H. unfold change. destruct (String.eqb (p_name p) n) eqn:E.
  - apply String.eqb_eq in E. destruct (L p H E) as (A & B). split; [|exact B]. intros m M. rewrite A in M. inversion M; subst. exact V.
  - exact (within_defaults k p H).
Qed.
(** A distance of 0, which the limits allow, is an error in every model, *)
Theorem C146_distance_refuted : forall c k, exists val, within k val /\ (forall n, n <> "distance"%string -> val n = defaults k n) /\ val "distance"%string = 0 /\
  forall Eph, exists e, flux c k (vector k val) Eph = Err e.
Proof.
  intros c k. exists (change "distance" (fun _ => 0) (defaults k)). split; [|split; [|split]].
  - apply within_change; [lra|]. intros p H N. destruct k; cbn in H; repeat (destruct H as [<-|H]; [first [discriminate N | split; [reflexivity|cbn; intros m M; inversion M; lra]]|]); destruct H.
  - intros n N. unfold change. apply String.eqb_neq in N. rewrite N. reflexivity.
  - apply change_same.
  - intros Eph. set (val := change "distance" (fun _ => 0) (defaults k)). assert (D : val "distance"%string = 0) by apply change_same.
    destruct k; unfold vector; cbn [declared app map p_name p_index p_ref p_ampl p_cutoff p_beta p_distance p_verbose flux]; rewrite D; unfold at_distance; (destruct (Req_EM_T 0 0); [|lra]).
    + destruct (process_list _ _ _); cbn [obind]; eauto.
    + eauto.
    + destruct (brems_luminosity _ _ _ _ _ _ _ _ _ _); cbn [obind]; eauto.
    + eauto.
Qed.
(** and so is a bremsstrahlung weight of 0. *)
Theorem C146_weight_refuted : forall c w, w = "weight_ee"%string \/ w = "weight_ep"%string ->
  exists val, within SBrems val /\ (forall n, n <> w -> val n = defaults SBrems n) /\ val w = 0 /\ forall Eph, flux c SBrems (vector SBrems val) Eph = Err "UnitConversionError".
Proof.
  intros c w W. exists (change w (fun _ => 0) (defaults SBrems)). split; [|split; [|split]].
  - apply within_change; [lra|]. intros p H N. destruct W as [->| ->]; cbn in H; repeat (destruct H as [<-|H]; [first [discriminate N | split; [reflexivity|cbn; intros m M; inversion M; lra]]|]); destruct H.
  - intros n N. unfold change. apply String.eqb_neq in N. rewrite N. reflexivity.
  - apply change_same.
  - intros Eph. set (val := change w (fun _ => 0) (defaults SBrems)). assert (Z : val w = 0) by apply change_same.
    unfold vector; cbn [declared app map p_name p_index p_ref p_ampl p_cutoff p_beta p_distance p_verbose flux]. destruct W; subst w; rewrite Z.
    + rewrite (proj2 (C30_zero_weight_refuted _ _ _ _ _ _ _ _ _)). reflexivity.
    + rewrite (proj1 (C30_zero_weight_refuted _ _ _ _ _ _ _ _ _)). reflexivity.
Qed.
(** The inverse Compton model has no photons from 100 TeV on, whatever the parameters,
    although without a cutoff there are electrons of every energy. *)
Theorem C146_inverse_compton_edge_refuted : forall c val Eph, constants_ok c -> within SIC val -> val "distance"%string <> 0 ->
  (forall e, In e Eph -> 100 * 10 ^ 9 <= e) ->
  flux c SIC (vector SIC val) Eph = Ok (map (fun _ => Some 0) Eph) /\
  (0 < val "ampl"%string -> forall E, 0 < population c val E).
Proof.
  intros c val Eph K W D HE. pose proof K as (K1 & K2 & K3 & K4 & _). split.
  - rewrite C123_inverse_compton; [|exact K|exact D| |].
    2: { apply (proj1 (W (mkP "TFIR" 30 (Some 0) None true) ltac:(cbn; tauto)) 0 eq_refl). }
    2: { apply (proj1 (W (mkP "TNIR" 3000 (Some 0) None true) ltac:(cbn; tauto)) 0 eq_refl). }
    f_equal. set (S := ic_spectrum _ _ _ _ _ _).
    assert (Z : List.Forall (fun s => s = 0) S).
    { apply C23_photon_below_electron; [exact K1|lra|intros s Hs; unfold fields in Hs; destruct (Rlt_dec 0 (val "uFIR"%string)), (Rlt_dec 0 (val "uNIR"%string)); cbn [In app] in Hs; repeat (destruct Hs as [<-|Hs]; [exact Coq.Init.Logic.I|]); destruct Hs|]. apply Forall_forall. intros E H. apply in_map_iff in H. destruct H as (e & <- & H). specialize (HE e H).
      replace (100 * (10 ^ 12 * k_eV c)) with (100 * 10 ^ 9 * (10 ^ 3 * k_eV c)) by ring. apply Rmult_le_compat_r; [|exact HE]. apply Rmult_le_pos; [apply pow_le|]; lra. }
    assert (L : List.length S = List.length Eph) by (unfold S; rewrite ic_spectrum_map, !map_length; reflexivity).
    clearbody S. clear -Z L. revert Eph L. induction Z as [|s S -> Z IH]; intros [|e Eph] L; try discriminate; [reflexivity|]. cbn [map]. f_equal; [|apply IH; cbn in L; lia].
    unfold seen, Rdiv. rewrite !Rmult_0_l. reflexivity.
  - intros A E. unfold population. apply Rmult_lt_0_compat; [apply Rmult_lt_0_compat|].
    + apply Rmult_lt_0_compat; [apply Rmult_lt_0_compat; [exact A|apply pow_lt; lra]|apply Rinv_0_lt_compat, K2].
    + apply exp_pos.
    + destruct (Req_EM_T _ 0); [lra|apply exp_pos].
Qed.

(** ** The hypotheses are met: the constants in cgs and a fresh model *)
Definition cgs : consts := mkK (8187 / 10 ^ 10) (1602 / 10 ^ 15) (3086 * 10 ^ 18) (7566 / 10 ^ 18)
  {| sy_e := 4803 / 10 ^ 13; sy_me := 9109 / 10 ^ 31; sy_c := 29979 * 10 ^ 6; sy_hbar := 1055 / 10 ^ 30 |}
  1 4 (29979 * 10 ^ 6) (938 / 1000) (fun _ _ => None).
Example fresh_synchrotron : constants_ok cgs /\ within SSync (defaults SSync) /\
  exists ys, photons cgs SSync (vector SSync (defaults SSync)) [1; 2] (Some [2; 4]) = Ok (map Some ys) /\ List.length ys = 2%nat /\ List.Forall (fun y => 0 <= y) ys.
Proof.
  assert (K : constants_ok cgs).
  { unfold constants_ok, cgs, sy_ok; cbn [k_mec2 k_eV k_kpc k_ar k_sy k_c sy_e sy_me sy_c sy_hbar]. repeat split; lra. }
  split; [exact K|]. split; [apply within_defaults|]. apply (C123_nonnegative cgs SSync); try assumption.
  - discriminate.
  - discriminate.
  - cbn. lra.
  - cbn. lra.
  - cbn. lra.
  - split; [discriminate|]. split; [reflexivity|]. split; [intros [|[|i]] H; cbn in *; try lra; lia|intros [|i] H; cbn in *; [reflexivity|lia]].
Qed.
Print Assumptions C123_guess.
Print Assumptions C123_nonnegative.
Print Assumptions C146_inverse_compton_edge_refuted.
Print Assumptions fresh_synchrotron.
