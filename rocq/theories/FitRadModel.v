(** Model functions made of naima's radiative models, as used in a fit: the sum of
    [model.sed(data, distance)] or [model.flux(data, distance)] of several models
    (radiative.py 89-134), called by core.py 103 with the table. Units are measured in
    erg, cm and s. *)
From Coq Require Import Reals List ZArith Bool String.
From Verif Require Import Outcome UnitsModel TrapzModel EnergyModel ElectronModel BremsModel PionModel.
From Verif Require Import UnitFluxModel.
Import ListNotations.
Local Open Scope R_scope.

(** radiative models with their parameters as given: Synchrotron (273), InverseCompton
    (423), Bremsstrahlung (821) and PionDecay (1155) of radiative.py *)
Inductive comp :=
| Sy (B lo hi : quant) (n : R) (pd : qdist)
| IC (seeds : list qseed) (lo hi : quant) (n : R) (pd : qdist)
| Br (n0 : quant) (w_ee w_ep : R) (lo hi : quant) (n : R) (pd : qdist)
| Pi (nh lo hi : quant) (n : R) (pd : qdist).

Section FitRad.
  (** constants: m_e c^2, 1 eV and 1 GeV in erg, radiation constant, those of the
      synchrotron and bremsstrahlung formulas, speed of light; [sig] the cross section of
      PionDecay (radiative.py 1425-1519) *)
  Variables (mec2 eV GeV ar kb gt c : R) (ks : sy_consts) (sig : R -> R -> option R).

  (** np.array of numbers: a spectrum with nan is not followed further, radiative.py 1521-1537 *)
  Fixpoint numbers (l : list (option R)) : outcome (list R) :=
    match l with
    | [] => Ok []
    | Some x :: r => omap (cons x) (numbers r)
    | None :: _ => Err "nan"
    end.
  (** _spectrum in 1/(s eV): radiative.py 303-342, 689-714, 970-986, 1521-1537 *)
  Definition comp_spectrum (m : comp) (P : quants) : outcome (list R) :=
    match m with
    | Sy B lo hi n pd => Ok (sy_spectrum_q mec2 ks eV B pd (gam_q mec2 n lo hi) P)
    | IC seeds lo hi n pd => Ok (ic_spectrum_q mec2 ar eV pd (gam_q mec2 n lo hi) seeds P)
    | Br n0 wee wep lo hi n pd => Ok (brems_spectrum_q mec2 kb gt c eV n0 wee wep pd (gam_q mec2 n lo hi) P)
    | Pi nh lo hi n pd => numbers (pion_spectrum_q GeV sig c eV nh pd (Ep_q GeV n lo hi) P)
    end.
  (** photon energies of the table, radiative.py 102 (_validate_ene) *)
  Definition energies_of (e : qty) : quants := mkQa (vals e) (scale (qunit e)).
  (** flux, radiative.py 89-118, or sed, 120-134; distance 0 gives luminosities *)
  Definition comp_out (m : comp) (sed : bool) (d : quant) (e : qty) : outcome qty :=
    let P := energies_of e in
    let lum := if Req_EM_T (qv d) 0 then true else false in
    obind (comp_spectrum m P) (fun s =>
    Ok (if sed then mkQ (sed_q eV s d P) (mkU 1 (if lum then d_power else d_flux))
        else mkQ (flux_q s d) (mkU (/ eV) (if lum then d_diff_power else d_diff_flux)))).
  (** sum of Quantities: in the unit of the first, other kinds refused; model functions as
      in core.py 103 *)
  Definition qplus (a b : qty) : outcome qty :=
    obind (qto (qunit a) b) (fun b' => Ok (mkQ (zipw Rplus (vals a) (vals b')) (qunit a))).
  (** the model function: model_1.sed(...) + model_2.flux(...) + ..., core.py 103 *)
  Fixpoint fit_model (m : comp) (ms : list comp) (sed : bool) (d : quant) (e : qty) : outcome qty :=
    match ms with
    | [] => comp_out m sed d e
    | m' :: r => obind (comp_out m sed d e) (fun a => obind (fit_model m' r sed d e) (fun b => qplus a b))
    end.
End FitRad.
