(** The radiative models with the units of every input kept, each conversion
    where the code makes it (src/naima/radiative.py).

    A Quantity is a number and the size of its unit, measured in the cgs unit of
    its dimension (erg, G, cm, K, rad, 1/cm3, ...).  Dimensions are assumed
    right here (they are checked by the code: C10, C54, C68, C97). *)
From Coq Require Import Reals List Bool.
From Verif Require Import Outcome TrapzModel EnergyModel ElectronModel BremsModel PionModel.
Import ListNotations.
Local Open Scope R_scope.

(** an astropy Quantity, as in radiative.py 104-111 *)
Record quant := mkQu { qv : R; qs : R }.
(** an array with one unit for all its elements *)
(** an astropy Quantity array, as in radiative.py 104-111 *)
Record quants := mkQa { qvs : list R; qss : R }.

(** [q.to(unit).value], [unit] of size [s] *)
(** Quantity.to, as in radiative.py 109 *)
Definition conv (s : R) (q : quant) : R := qv q * (qs q / s).
(** Quantity.to, as in radiative.py 109 *)
Definition convs (s : R) (q : quants) : list R := map (fun v => v * (qss q / s)) (qvs q).

(** A particle distribution called on an array returns an array in a unit of
    its own choice (1/energy; its size may depend on anything). *)
Definition qdist := quants -> quants.

Section Electrons.
  Variable mec2 : R.        (* value of [mec2] in erg, and size of [mec2_unit] *)

  (** 148-154: Eemin/mec2 has the value qv/mec2 and a unit of size qs (over
      erg); np.log10 first converts to plain numbers *)
  Definition log10_mec2 (E : quant) : R := log10 ((qv E / mec2) * (qs E / 1)).
  (** radiative.py 147-154 *)
  Definition gam_q (nEed : R) (Eemin Eemax : quant) : list R :=
    let log10gmin := log10_mec2 Eemin in
    let log10gmax := log10_mec2 Eemax in
    logspace log10gmin log10gmax (npoints (nEed * (log10gmax - log10gmin))).

  (** 156-160: self._gam * mec2 is in erg; .to(1/mec2_unit) *)
  Definition nelec_q (pd : qdist) (gs : list R) : list R :=
    convs (/ mec2) (pd (mkQa (map (fun g => g * mec2) gs) 1)).

  (** 162-166: trapz_loglog(gam * nelec, gam * mec2): a Quantity in erg *)
  Definition We_q (nEed : R) (pd : qdist) (Eemin Eemax : quant) : quant :=
    let gs := gam_q nEed Eemin Eemax in
    mkQu (trapz_loglog (mul2 gs (nelec_q pd gs)) (map (fun g => g * mec2) gs)) 1.

  (** 282-342, value in 1/(s eV); [eV] is the size of 1 eV in erg *)
  Definition sy_spectrum_q (k : sy_consts) (eV : R) (B : quant) (pd : qdist) (gs : list R)
      (photon_energy : quants) : list R :=
    map (fun E =>
      let B_G := conv 1 B in
      let CS1 := (sqrt 3 * sy_e k ^ 3 * B_G) / (2 * PI * sy_me k * sy_c k ^ 2 * sy_hbar k * E) in
      let Ec := fun g => 3 * sy_e k * sy_hbar k * B_G * g ^ 2 / (2 * (sy_me k * sy_c k)) in
      trapz_loglog (mul2 (nelec_q pd gs) (map (fun g => CS1 * Gtilde (E / Ec g)) gs)) gs
        * (1 / (/ eV)))
      (convs 1 photon_energy).

  (** A processed seed photon field with its units as given (439-543). *)
  Inductive qseed :=
  | QThermal (T u : quant) (theta : option quant)
  | QLine (energy density : quant)                  (* one energy, energy density *)
  | QArray (energy density : quants).               (* several, number density *)

  (** 528-529: several energies with an energy density: uu /= energy**2 *)
  Definition density_of_pressure (energy uu : quants) : quants :=
    mkQa (map (fun p => fst p / snd p ^ 2) (combine (qvs uu) (qvs energy))) (qss uu / qss energy ^ 2).

  (** 608-655: photE0 = (seed_energy/mec2).decompose(); densities converted to
      1/(mec2 cm3), or mec2/cm3 for a line *)
  Definition mono_q (s : qseed) (electron gamma : R) : R :=
    match s with
    | QLine e0 n0 =>
        iso_ic_on_monochromatic electron [(qv e0 / mec2) * (qs e0 / 1)] [conv mec2 n0] gamma
    | QArray es ns =>
        iso_ic_on_monochromatic electron
          (map (fun v => (v / mec2) * (qss es / 1)) (qvs es)) (convs (/ mec2) ns) gamma
    | QThermal _ _ _ => 0
    end.

  (** 657-687; Eph = (outspecene/mec2).decompose(); the result, [lum / outspecene]
      in 1/s over the unit of the photon energies, is converted to 1/(s eV) (711) *)
  Definition calc_specic_q (ar eV : R) (pd : qdist) (gs : list R) (s : qseed) (photon_energy : quants) : list R :=
    map (fun v =>
      let Eph := (v / mec2) * (qss photon_energy / 1) in
      let uf := match s with
                | QThermal T u _ => (qv u / (ar * qv T ^ 4)) * (qs u / qs T ^ 4)
                | _ => 1
                end in
      let kernel := fun g =>
        match s with
        | QThermal T _ None => iso_ic_on_planck g (conv 1 T) Eph
        | QThermal T _ (Some th) => ani_ic_on_planck g (conv 1 T) Eph (conv 1 th)
        | _ => mono_q s g Eph
        end in
      (uf * Eph * trapz_loglog (mul2 (nelec_q pd gs) (map kernel gs)) gs / v)
        * ((1 / qss photon_energy) / (/ eV)))
      (qvs photon_energy).

  (** 703-714: each in 1/(s eV), then summed *)
  Definition ic_spectrum_q (ar eV : R) (pd : qdist) (gs : list R) (seeds : list qseed) (photon_energy : quants) : list R :=
    fold_right (fun s acc => map (fun p => fst p + snd p)
                               (combine (calc_specic_q ar eV pd gs s photon_energy) acc))
               (map (fun _ => 0) (qvs photon_energy)) seeds.

  (** 910-998, non-zero weights: sigma_ee is brought to cm2 over the unit of the
      photon energies before the integral (926), sigma_ep after it (968); both are
      computed in cm2/mec2.  The result is converted to 1/(s eV) (103-111). *)
  Definition brems_spectrum_q (k gam_trans c_cgs eV : R) (n0 : quant) (w_ee w_ep : R) (pd : qdist)
      (gs : list R) (photon_energy : quants) : list R :=
    let per_E := 1 / qss photon_energy in           (* size of 1/Eph.unit *)
    map (fun v =>
      let eps := (v / mec2) * (qss photon_energy / 1) in
      let n := nelec_q pd gs in
      let ee := c_cgs * strapz (mul2 n (map (fun g => sigma_ee k gam_trans g eps * ((/ mec2) / per_E)) gs)) gs in
      let ep := c_cgs * (strapz (mul2 n (map (fun g => sigma_ep k g eps) gs)) gs * ((/ mec2) / per_E)) in
      (qv n0 * (w_ee * ee + w_ep * ep)) * ((qs n0 * per_E) / (/ eV)))
      (qvs photon_energy).
End Electrons.

Section Protons.
  Variable GeV : R.
  (** 1002-1009 *)
  Definition Ep_q (nEpd : R) (Epmin Epmax : quant) : list R :=
    logspace (log10 (conv GeV Epmin)) (log10 (conv GeV Epmax))
             (npoints (nEpd * log10 ((qv Epmax / qv Epmin) * (qs Epmax / qs Epmin)))).
  (** 1011-1015 *)
  Definition J_q (pd : qdist) (es : list R) : list R := convs (/ GeV) (pd (mkQa es GeV)).
  (** 1017-1021 *)
  Definition Wp_q (nEpd : R) (pd : qdist) (Epmin Epmax : quant) : R :=
    let es := Ep_q nEpd Epmin Epmax in
    conv 1 (mkQu (trapz_loglog (mul2 es (J_q pd es)) es) GeV).
  (** 1039-1053: the integral in GeV times whatever unit the distribution uses
      times GeV, then .to("erg") *)
  Definition compute_Wp_q (nEpd : R) (pd : qdist) (Epmin Epmax : quant) : R :=
    let lo := log10 (conv GeV Epmin) in
    let hi := log10 (conv GeV Epmax) in
    let es := logspace lo hi (npoints (nEpd * (hi - lo))) in
    let p := pd (mkQa es GeV) in
    conv 1 (mkQu (trapz_loglog (mul2 es (qvs p)) es) (GeV * qss p * GeV)).

  (** 1521-1537: cross section in cm2/GeV, result in 1/(s eV); a missing value
      (nan) stays missing *)
  Definition pion_spectrum_q (sig : R -> R -> option R) (c_cgs eV : R) (nh : quant) (pd : qdist)
      (es : list R) (photon_energy : quants) : list (option R) :=
    map (fun Eg =>
      nmap (fun x => (x * qv nh * c_cgs) * ((/ GeV * qs nh) / (/ eV)))
        (ntrapz (map (fun p => nmul (sig (fst p) Eg) (Some (snd p))) (combine es (J_q pd es))) es))
      (convs GeV photon_energy).
End Protons.

Section KelnerUnits.
  Variables (m_pT TeV c_cgs : R) (quad01 : (R -> R) -> R) (quad_inf : R -> (R -> R) -> R).
  (** 1591-1592: a single energy *)
  Definition pd_TeV (pd : qdist) (E : R) : R := hd 0 (convs (/ TeV) (pd (mkQa [E] TeV))).
  (** 1732-1768: comparisons with Etrans convert units; energies are taken in
      TeV; nh is brought to 1/cm3; the result is converted to 1/(s eV) *)
  Definition kelner_spectrum_q (eV : R) (nh Etr : quant) (pd : qdist) (photon_energy : quants) : list R :=
    map (fun s => conv 1 nh * (s * ((/ TeV) / (/ eV))))
      (kelner_spectrum m_pT (pd_TeV pd) c_cgs quad01 quad_inf 1 (conv TeV Etr) (convs TeV photon_energy)).
End KelnerUnits.

(** ** flux and sed, 89-134 *)
(** [spec] in 1/(s eV); division by 4 pi distance.to("cm")**2 *)
Definition flux_q (spec : list R) (distance : quant) : list R :=
  if Req_EM_T (qv distance) 0 then spec
  else map (fun s => s / (4 * PI * conv 1 distance ^ 2)) spec.
(** (flux * photon_energy**2).to("erg/(cm2 s)") or to "erg/s" *)
Definition sed_q (eV : R) (spec : list R) (distance : quant) (photon_energy : quants) : list R :=
  map (fun p => (fst p * snd p ^ 2) * (((/ eV) * qss photon_energy ^ 2) / 1))
      (combine (flux_q spec distance) (qvs photon_energy)).
