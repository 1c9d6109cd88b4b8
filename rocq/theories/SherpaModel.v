(** Model of src/naima/sherpa_models.py, and of the keyword arguments of the radiative
    models it builds. *)
From Coq Require Import Reals List Bool String Arith.
From Verif Require Import Outcome TrapzModel SpectralModel ElectronModel SeedModel.
Import ListNotations.
Local Open Scope R_scope.

(** sherpa_models.py 14-26 _mergex *)
Definition mergex (xlo xhi : list R) : list R := xlo ++ [last xhi 0].

(** 44-67 calc; energies in keV, [flux e] is the value of self.flux(p, e) in
    1/(s cm2 keV). Sherpa's cache (modelCacher1d) and the printout are not modelled. *)
Definition calc (flux : R -> R) (x : list R) (xhi : option (list R)) : list R :=
  match xhi with
  | None => map (fun e => flux e * e) x
  | Some h => let E := mergex x h in trapz_intervals (map flux E) E
  end.
(** 31-42 guess: the new value of the amplitude; [calc_at a] is calc with amplitude a *)
Definition guess (calc_at : R -> list R) (ampl : R) (dep xlo : list R) : R :=
  ampl * trapz_loglog dep xlo / trapz_loglog (calc_at ampl) xlo.

(** 88-102 _pdist; energy in TeV. The amplitude in 1e30/eV is left in this unit. *)
Definition pdist (index ref ampl cutoff beta e : R) : R :=
  if Req_EM_T cutoff 0 then power_law e ampl ref index else cutoff_power_law e ampl ref index cutoff beta.
(** 161-166: seed photon fields of the inverse Compton wrapper; temperatures in K,
    densities in eV/cm3 ([eV] in erg) *)
Definition seedspec (eV TFIR uFIR TNIR uNIR : R) : list inseed :=
  [SName "CMB"] ++ (if Rlt_dec 0 uFIR then [SIso "FIR" (Temperature TFIR) (EnergyDensity [uFIR * eV])] else [])
                ++ (if Rlt_dec 0 uNIR then [SIso "NIR" (Temperature TNIR) (EnergyDensity [uNIR * eV])] else []).
(** the last line of every flux method (176, 214, 272, 310) with radiative.py:103-111: the
    luminosity [lum] in 1/(s keV) is divided by 4 pi d^2 unless d is 0, and converted to
    1/(s cm2 keV); [d] in cm *)
Definition sherpa_flux (lum : R -> R) (d e : R) : outcome R :=
  if Req_EM_T d 0 then Err "UnitConversionError" else Ok (lum e / (4 * PI * d ^ 2)).

(** radiative.py 280, 430, 836, 1173, 1589: [self.__dict__.update(kwargs)] over the
    attributes set before *)
Definition construct {V} (attrs kwargs : list (string * V)) : outcome (list (string * V)) :=
  Ok (fold_left (fun d kv => Outcome.dset (fst kv) (snd kv) d) kwargs attrs).
