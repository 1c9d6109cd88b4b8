(** The four Sherpa models from their parameters to the photons per bin:
    src/naima/sherpa_models.py 28-310. The radiative models underneath are those of
    ElectronModel, BremsModel and PionModel, in cgs units (that units do not matter to
    them is C113). Sherpa's own cache and the printout of verbose are not modelled. *)
From Coq Require Import Reals List Bool String.
From Verif Require Import Outcome TrapzModel EnergyModel SpectralModel ElectronModel SeedModel BremsModel PionModel SherpaModel.
Import ListNotations.
Local Open Scope R_scope.

(** sherpa Parameter(name, default, min, max, frozen); without min or max Sherpa has its
    own, very large, limits. sherpa_models.py 76-86 *)
Record param := mkP { p_name : string; p_default : R; p_min : option R; p_max : option R; p_frozen : bool }.
(** sherpa_models.py 76 *)
Definition p_index := mkP "index" (21 / 10) (Some (-10)) (Some 10) false.
(** sherpa_models.py 77 *)
Definition p_ref := mkP "ref" 60 (Some 0) None true.
(** sherpa_models.py 78-80 *)
Definition p_ampl := mkP "ampl" 100 (Some 0) (Some (10 ^ 60)) false.
(** sherpa_models.py 81 *)
Definition p_cutoff := mkP "cutoff" 0 (Some 0) None true.
(** sherpa_models.py 82 *)
Definition p_beta := mkP "beta" 1 (Some 0) (Some 10) true.
(** sherpa_models.py 83-85 *)
Definition p_distance := mkP "distance" 1 (Some 0) (Some (10 ^ 6)) true.
(** sherpa_models.py 86 *)
Definition p_verbose := mkP "verbose" 0 (Some 0) (Some 1) true.
(** the four classes, sherpa_models.py 105, 179, 217, 275 *)
Inductive skind := SIC | SSync | SBrems | SPion.
(** The parameters in the order given to ArithmeticModel: sherpa_models.py 113-142,
    187-206, 225-248, 283-302 *)
Definition declared (k : skind) : list param :=
  [p_index; p_ref; p_ampl; p_cutoff; p_beta] ++
  match k with
  | SIC => [mkP "TFIR" 30 (Some 0) None true; mkP "uFIR" 0 (Some 0) None true;
            mkP "TNIR" 3000 (Some 0) None true; mkP "uNIR" 0 (Some 0) None true]
  | SSync => [mkP "B" 1 (Some 0) (Some 10) true]
  | SBrems => [mkP "n0" 1 (Some 0) (Some (10 ^ 20)) true; mkP "weight_ee" (1088 / 1000) (Some 0) (Some 10) true;
               mkP "weight_ep" (1263 / 1000) (Some 0) (Some 10) true]
  | SPion => [mkP "nH" 1 (Some 0) None true]
  end ++ [p_distance; p_verbose].

(** Constants: m_e c^2, 1 eV and 1 kpc in cgs, radiation constant, constants of the
    synchrotron formulae, 4 r0^2 alpha and the transition of the bremsstrahlung cross
    sections, speed of light, m_p c^2 in GeV, cross section of pion decay (by default
    from the lookup table). radiative.py 35-40 *)
Record consts := mkK { k_mec2 : R; k_eV : R; k_kpc : R; k_ar : R; k_sy : sy_consts;
  k_br : R; k_gt : R; k_c : R; k_mp : R; k_sig : R -> R -> option R }.

Section S.
  Variable c : consts.
  (** 1 TeV in erg, sherpa_models.py 93 *)
  Definition TeV : R := 10 ^ 12 * k_eV c.
  (** 1 GeV in erg, sherpa_models.py 171 *)
  Definition GeV : R := 10 ^ 9 * k_eV c.
  (** 1 keV in erg, sherpa_models.py 49 *)
  Definition keV : R := 10 ^ 3 * k_eV c.

  (** sherpa_models.py 88-102 _pdist, energies in erg, result per erg *)
  Definition particles (index ref ampl cutoff beta E : R) : R :=
    if Req_EM_T cutoff 0 then power_law E (ampl * 10 ^ 30 / k_eV c) (ref * TeV) index
    else cutoff_power_law E (ampl * 10 ^ 30 / k_eV c) (ref * TeV) index (cutoff * TeV) beta.

  (** last line of the flux methods (176, 214, 272, 310) with radiative.py 103-111:
      [spec] per [unit] of energy; without a distance the result cannot be converted *)
  Definition at_distance (d unit : R) (spec : list (option R)) : outcome (list (option R)) :=
    if Req_EM_T d 0 then Err "UnitConversionError"
    else Ok (map (nmap (fun s => s * (keV / unit) / (4 * PI * (d * k_kpc c) ^ 2))) spec).

  (** sherpa_models.py 146-176, 210-214, 252-272, 306-310; photon energies in keV, flux in
      1/(s cm2 keV), None for nan. Defaults of the radiative models: radiative.py 276-278,
      825-827, 1167-1171. *)
  Definition flux (k : skind) (p Eph : list R) : outcome (list (option R)) :=
    let Es := map (fun x => x * keV) Eph in
    match k, p with
    | SIC, [index; ref; ampl; cutoff; beta; TFIR; uFIR; TNIR; uNIR; distance; verbose] =>
        obind (process_list (k_ar c) (k_eV c) (seedspec (k_eV c) TFIR uFIR TNIR uNIR)) (fun seeds =>
        at_distance distance 1
          (map Some (ic_spectrum (k_mec2 c) (k_ar c) (particles index ref ampl cutoff beta)
                       (gam (k_mec2 c) 100 (1 * GeV) (100 * TeV)) (map snd seeds) Es)))
    | SSync, [index; ref; ampl; cutoff; beta; B; distance; verbose] =>
        at_distance distance 1
          (map Some (sy_spectrum (k_sy c) B (k_mec2 c) (particles index ref ampl cutoff beta)
                       (gam (k_mec2 c) 100 (1 * GeV) (10 ^ 9 * k_mec2 c)) Es))
    | SBrems, [index; ref; ampl; cutoff; beta; n0; weight_ee; weight_ep; distance; verbose] =>
        obind (brems_luminosity (k_br c) (k_gt c) (k_mec2 c) (k_c c) (particles index ref ampl cutoff beta)
                 (gam (k_mec2 c) 300 (100 * (GeV / 1000)) (10 ^ 9 * k_mec2 c)) n0 weight_ee weight_ep
                 (map (fun E => E / k_mec2 c) Es)) (fun l =>
        at_distance distance (k_mec2 c) (map Some l))
    | SPion, [index; ref; ampl; cutoff; beta; nh; distance; verbose] =>
        at_distance distance GeV
          (pion_spectrum (k_sig c) (nh * k_c c) GeV (particles index ref ampl cutoff beta)
             (Ep GeV 100 ((k_mp c + 27966184 / 10 ^ 8 + 1 / 10 ^ 4) * GeV) (10 * (1000 * TeV))) (map (fun E => E / GeV) Es))
    | _, _ => Err "ValueError"
    end.

  (** utils.py 333-351 with intervals=True, with possible nans *)
  Fixpoint nintervals (ys : list (option R)) (xs : list R) : list (option R) :=
    match ys, xs with
    | y1 :: ((y2 :: _) as yr), x1 :: ((x2 :: _) as xr) => ninterval x1 x2 y1 y2 :: nintervals yr xr
    | _, _ => []
    end.
  (** sherpa_models.py 44-67 *)
  Definition photons (k : skind) (p x : list R) (xhi : option (list R)) : outcome (list (option R)) :=
    match xhi with
    | None => omap (fun m => map (fun q => nmap (fun y => y * snd q) (fst q)) (combine m x)) (flux k p x)
    | Some h => let E := mergex x h in omap (fun m => nintervals m E) (flux k p E)
    end.
  (** sherpa_models.py 31-42: the values of the parameters afterwards; ampl is the third.
      Sherpa refuses values outside the limits (here: none to be had, or an integral of 0);
      the limits of ampl, 0 to 10^60, are not modelled. *)
  Definition guess (k : skind) (dep : list R) (xlo : list R) (xhi : option (list R)) (p : list R) : outcome (list R) :=
    obind (photons k p xlo xhi) (fun model =>
    match p, ntrapz model xlo with
    | index :: ref :: ampl :: rest, Some m => if Req_EM_T m 0 then Err "ParameterErr" else Ok (index :: ref :: ampl * trapz_loglog dep xlo / m :: rest)
    | _, _ => Err "ParameterErr"
    end).
End S.
