(** Model of the synchrotron and inverse Compton spectra
    (src/naima/radiative.py:239-367, 547-710, 1539-1540).

    Energies are numbers of erg, spectra numbers of 1/(s erg) (the final
    conversion to 1/(s eV) is a constant positive factor). Electron grids and
    distributions are those of EnergyModel. Arrays over photon energies are
    handled element by element: every numpy expression in the code broadcasts
    photon energies along their own axis. *)
From Coq Require Import Reals List Bool.
From Verif Require Import TrapzModel EnergyModel.
Import ListNotations.
Local Open Scope R_scope.

(** ** Synchrotron, radiative.py:281-342 *)
(** physical constants in cgs; m_e and c separately *)
(** radiative.py 319-332: e, m_e, c, hbar *)
Record sy_consts := mkSy { sy_e : R; sy_me : R; sy_c : R; sy_hbar : R }.

(** scipy.special.cbrt: the real cube root *)
(** scipy.special.cbrt, radiative.py 298, 307 *)
Definition cbrt (x : R) : R :=
  if Rlt_dec x 0 then - Rpower (- x) (1 / 3)
  else if Req_EM_T x 0 then 0 else Rpower x (1 / 3).

(** radiative.py:300-311 *)
Definition Gtilde (x : R) : R :=
  let cb := cbrt x in
  let gt1 := (1808 / 1000) * cb / sqrt (1 + (34 / 10) * cb ^ 2) in
  let gt2 := 1 + (221 / 100) * cb ^ 2 + (347 / 1000) * cb ^ 4 in
  let gt3 := 1 + (1353 / 1000) * cb ^ 2 + (217 / 1000) * cb ^ 4 in
  gt1 * (gt2 / gt3) * exp (- x).

(** radiative.py:319-328: one photon energy E *)
Definition CS1 (k : sy_consts) (B E : R) : R :=
  (sqrt 3 * sy_e k ^ 3 * B) / (2 * PI * sy_me k * sy_c k ^ 2 * sy_hbar k * E).
(** radiative.py:331-332: critical energy of an electron of Lorentz factor g *)
Definition Ecrit (k : sy_consts) (B g : R) : R :=
  3 * sy_e k * sy_hbar k * B * g ^ 2 / (2 * (sy_me k * sy_c k)).
(** radiative.py:334-335 *)
Definition sy_kernel (k : sy_consts) (B g E : R) : R := CS1 k B E * Gtilde (E / Ecrit k B g).
(** radiative.py:336-340 *)
Definition sy_spectrum (k : sy_consts) (B mec2 : R) (pd : R -> R) (gs : list R) (Es : list R) : list R :=
  map (fun E => trapz_loglog (mul2 (nelec mec2 pd gs) (map (fun g => sy_kernel k B g E) gs)) gs) Es.

(** ** Inverse Compton *)
(** radiative.py:345-354 *)
Definition G12 (x alpha a beta b : R) : R :=
  let pi26 := PI ^ 2 / 6 in
  let G := (pi26 + x) * exp (- x) in
  let tmp := 1 + b * Rpower x beta in
  let g := 1 / (a * Rpower x alpha / tmp + 1) in
  G * g.

(** radiative.py:357-367 *)
Definition G34 (x alpha a beta b c : R) : R :=
  let pi26 := PI ^ 2 / 6 in
  let tmp := (1 + c * x) / (1 + pi26 * c * x) in
  let G := pi26 * tmp * exp (- x) in
  let tmp := 1 + b * Rpower x beta in
  let g := 1 / (a * Rpower x alpha / tmp + 1) in
  G * g.

(** radiative.py 557, 589 *)
Definition Ktomec2 : R := (16863699549 / 10000000000) / 10 ^ 10.
(** radiative.py 571, 604 *)
Definition planck_const : R := (26318735743809104 / 10000000000000000) * 10 ^ 16.

(** radiative.py 573, 606 *)
Definition in_range (gamma electron : R) : bool :=
  (if Rlt_dec gamma electron then true else false) && (if Rlt_dec 1 electron then true else false).

(** radiative.py:547-574; energies in units of mec2, T in K.  The masked value
    (photon energy not below the electron energy) may be inf or nan in numpy; it
    is discarded by np.where as here by the test. *)
Definition iso_ic_on_planck (electron T gamma : R) : R :=
  let T := T * Ktomec2 in
  let z := gamma / electron in
  let x := z / (1 - z) / (4 * electron * T) in
  let cross := z ^ 2 / (2 * (1 - z)) * G34 x (606 / 1000) (443 / 1000) (1481 / 1000) (54 / 100) (319 / 1000)
               + G34 x (461 / 1000) (726 / 1000) (1457 / 1000) (382 / 1000) (662 / 100) in
  let tmp := (T / electron) ^ 2 * planck_const in
  if in_range gamma electron then tmp * cross else 0.

(** radiative.py:576-607 *)
Definition ani_ic_on_planck (electron T gamma theta : R) : R :=
  let T := T * Ktomec2 in
  let z := gamma / electron in
  let ttheta := 2 * electron * T * (1 - cos theta) in
  let x := z / (1 - z) / ttheta in
  let cross := z ^ 2 / (2 * (1 - z)) * G12 x (857 / 1000) (153 / 1000) (184 / 100) (254 / 1000)
               + G12 x (691 / 1000) (133 / 100) (1668 / 1000) (534 / 1000) in
  let tmp := (T / electron) ^ 2 * planck_const in
  if in_range gamma electron then tmp * cross else 0.

(** radiative.py:1539-1540 *)
Definition heaviside (x : R) : R :=
  if Rlt_dec 0 x then 1 else if Req_EM_T x 0 then 1 / 2 else 0.

(** radiative.py:609-637: the Aharonian-Atoyan kernel for one seed photon energy
    (units of mec2).  Where q is not positive its logarithm, and where the
    denominator of q vanishes the difference of infinities, makes the value nan,
    which is replaced by 0 (line 637).  q is positive for photon energies below
    the electron energy, or above it if the seed photon energy is negative. *)
Definition fic (b q : R) : R :=
  2 * q * ln q + (1 + 2 * q) * (1 - q) + 1 / 2 * (b * q) ^ 2 * (1 - q) / (1 + b * q).
(** radiative.py 626-637 *)
Definition aa_kernel (electron eps gamma : R) : R :=
  let b := 4 * eps * electron in
  let w := gamma / electron in
  let q := w / (b * (1 - w)) in
  if Req_EM_T (b * (1 - w)) 0 then 0
  else if Rlt_dec 0 q then fic b q * heaviside (1 - q) * heaviside (q - 1 / (4 * electron ^ 2))
  else 0.

(** radiative.py 650-653 *)
Definition sigt_c : R := (6652458734983284 / 1000000000000000) / 10 ^ 25 * 29979245800.

(** radiative.py:639-655.  [eps] seed energies and [phn] densities (units of
    mec2 and 1/(mec2 cm3), or mec2/cm3 for a single line). *)
Definition iso_ic_on_monochromatic (electron : R) (eps phn : list R) (gamma : R) : R :=
  let gamint :=
    match eps, phn with
    | [e0], [n0] => aa_kernel electron e0 gamma * (n0 / e0 ^ 2)
    | _, _ => trapz_loglog (map (fun p => aa_kernel electron (fst p) gamma * snd p / fst p) (combine eps phn)) eps
    end in
  gamint * (3 / 4 * sigt_c / electron ^ 2).

(** A processed seed (see SeedModel): temperatures in K, energies in erg,
    densities in erg/cm3 (thermal, single line) or 1/(erg cm3) (several). *)
Inductive seed :=
| Thermal (T u : R) (theta : option R)      (* [None]: isotropic *)
| Array (eps phn : list R) (theta : option R).

(** radiative.py:618, 641, 644: conversion of an Array seed to units of mec2 *)
Definition to_mec2 (mec2 : R) (s : seed) : seed :=
  match s with
  | Thermal T u th => Thermal T u th
  | Array [e0] [n0] th => Array [e0 / mec2] [n0 / mec2] th
  | Array eps phn th => Array (map (fun e => e / mec2) eps) (map (fun n => n * mec2) phn) th
  end.

(** radiative.py:664-683: kernel and dilution factor; [ar] radiation constant.
    The angle of an Array seed is never looked at. *)
Definition seed_kernel (s : seed) (electron gamma : R) : R :=
  match s with
  | Thermal T _ None => iso_ic_on_planck electron T gamma
  | Thermal T _ (Some th) => ani_ic_on_planck electron T gamma th
  | Array eps phn _ => iso_ic_on_monochromatic electron eps phn gamma
  end.
(** radiative.py 667, 676 *)
Definition seed_factor (ar : R) (s : seed) : R :=
  match s with Thermal T u _ => u / (ar * T ^ 4) | Array _ _ _ => 1 end.

(** radiative.py:657-687 for the photon energies Es *)
Definition calc_specic (mec2 ar : R) (pd : R -> R) (gs : list R) (s : seed) (Es : list R) : list R :=
  map (fun E =>
    let Eph := E / mec2 in
    seed_factor ar s * Eph *
    trapz_loglog (mul2 (nelec mec2 pd gs) (map (fun g => seed_kernel (to_mec2 mec2 s) g Eph) gs)) gs / E) Es.

(** radiative.py:703-710: sum over the seeds, photon energy by photon energy *)
Definition ic_spectrum (mec2 ar : R) (pd : R -> R) (gs : list R) (seeds : list seed) (Es : list R) : list R :=
  fold_right (fun s acc => map (fun p => fst p + snd p) (combine (calc_specic mec2 ar pd gs s Es) acc))
             (map (fun _ => 0) Es) seeds.
