(** Model of Bremsstrahlung (src/naima/radiative.py:794-989).
    Electron and photon energies (gam, eps) in units of the electron rest energy;
    cross sections in units of cm2 / mec2. [k] is r0^2 * alpha. *)
From Coq Require Import Reals List String.
From Verif Require Import Outcome TrapzModel EnergyModel ElectronModel.
Import ListNotations.
Local Open Scope R_scope.

(** Log-log integration of samples of either sign (utils.py:335-355): between
    two ordinates of opposite sign the local index is nan, the comparison with
    1e-10 is false and the logarithmic branch is taken (so does TrapzModel.interval). *)
Definition sinterval (x1 x2 y1 y2 : R) : R :=
  if Req_EM_T y1 0 then 0
  else if Req_EM_T y2 0 then 0
  else if Req_EM_T x1 x2 then 0
  else if Rlt_dec (y1 * y2) 0 then x1 * y1 * ln (x2 / x1)
  else raw_interval x1 x2 y1 y2.
(** utils.py 317-355: sum over the bins *)
Fixpoint strapz (ys xs : list R) : R :=
  match ys, xs with
  | y1 :: ((y2 :: _) as yr), x1 :: ((x2 :: _) as xr) => sinterval x1 x2 y1 y2 + strapz yr xr
  | _, _ => 0
  end.

Section Brems.
  Variable k : R.
  Variable gam_trans : R.     (* 2 MeV / mec2, line 914 *)

  (** 838-849; at gam = eps the code yields -inf, the model 0 * ..: excluded in
      the theorems *)
  Definition sigma_1 (gam eps : R) : R :=
    let s1 := 4 * k / eps in
    let s2 := 1 + (1 / 3 - eps / gam) * (1 - eps / gam) in
    let s3 := if Rlt_dec gam eps then 0 else ln (2 * gam * (gam - eps) / eps) - 1 / 2 in
    s1 * s2 * s3.

  (** 851-871; at eps = 1/2 exactly the code yields nan *)
  Definition sigma_2 (gam eps : R) : R :=
    let s0 := k / (3 * eps) in
    let s1_1 := 16 * (1 - eps + eps ^ 2) * ln (gam / eps) in
    let s1_2 := - (1) / eps ^ 2 + 3 / eps - 4 - 4 * eps - 8 * eps ^ 2 in
    let s1_3 := - (2) * (1 - 2 * eps) * ln (1 - 2 * eps) in
    let s1_4 := 1 / (4 * eps ^ 3) - 1 / (2 * eps ^ 2) + 3 / eps - 2 + 4 * eps in
    let s1 := s1_1 + s1_2 + s1_3 * s1_4 in
    let s2_1 := 2 / eps in
    let s2_2 := (4 - 1 / eps + 1 / (4 * eps ^ 2)) * ln (2 * gam) in
    let s2_3 := - (2) + 2 / eps - 5 / (8 * eps ^ 2) in
    let s2 := s2_1 * (s2_2 + s2_3) in
    s0 * (if Rle_dec eps (1 / 2) then s1 else s2) * heaviside (gam - eps).

  (** 873-880 *)
  Definition sigma_ee_rel (gam eps : R) : R :=
    let A := 1 - 8 / 3 * Rpower (gam - 1) (2 / 10) / (gam + 1) * Rpower (eps / gam) (1 / 3) in
    (sigma_1 gam eps + sigma_2 gam eps) * A.

  (** 882-896 *)
  Definition F_nr (x gam : R) : R :=
    let beta := sqrt (1 - / gam ^ 2) in
    let B := 1 + 1 / 2 * (gam ^ 2 - 1) in
    let C := 10 * x * gam * beta * (2 + gam * beta) / (1 + x ^ 2 * (gam ^ 2 - 1)) in
    let F_1 := (17 - 3 * x ^ 2 / (2 - x) ^ 2 - C) * sqrt (1 - x) in
    let F_2 := 12 * (2 - x) - 7 * x ^ 2 / (2 - x) - 3 * x ^ 4 / (2 - x) ^ 3 in
    let F_3 := ln ((1 + sqrt (1 - x)) / sqrt x) in
    B * F_1 + F_2 * F_3.

  (** 898-908 *)
  Definition sigma_ee_nonrel (gam eps : R) : R :=
    let s0 := 4 * k / (15 * eps) in
    let x := 4 * eps / (gam ^ 2 - 1) in
    if Rlt_dec gam 1 then 0
    else if Rle_dec (1 / 4 * (gam ^ 2 - 1)) eps then 0
    else s0 * F_nr x gam.

  (** 910-928 *)
  Definition sigma_ee (gam eps : R) : R :=
    if Rle_dec gam gam_trans then sigma_ee_nonrel gam eps else sigma_ee_rel gam eps.
  (** 930-938 *)
  Definition sigma_ep (gam eps : R) : R := sigma_1 gam eps.

  (** A value with its unit: an emissivity (volume per time and energy) or, for
      np.zeros_like(Eph), an energy (lines 944-945, 960-961). *)
  (** radiative.py 940-961: the two kinds of results *)
  Inductive quantity := Emissivity (l : list R) | Energy (l : list R).
  Variable mec2 : R.
  Variable c_cgs : R.
  Variable pd : R -> R.
  Variable gs : list R.

  (** 940-971, photon energies in units of mec2 *)
  Definition emiss (sigma : R -> R -> R) (weight : R) (Eph : list R) : quantity :=
    if Req_EM_T weight 0 then Energy (map (fun _ => 0) Eph)
    else Emissivity (map (fun eps => c_cgs * strapz (mul2 (nelec mec2 pd gs) (map (fun g => sigma g eps) gs)) gs) Eph).

  (** radiative.py 984-989: product of a weight and a quantity *)
  Definition qscale (w : R) (q : quantity) : quantity :=
    match q with Emissivity l => Emissivity (map (Rmult w) l) | Energy l => Energy (map (Rmult w) l) end.
  (** radiative.py 984-989: elementwise sum *)
  Definition add2 (a b : list R) : list R := map (fun p => fst p + snd p) (combine a b).
  (** addition of astropy quantities *)
  (** radiative.py 984-989: sum of the two emissivities *)
  Definition qadd (a b : quantity) : outcome quantity :=
    match a, b with
    | Emissivity x, Emissivity y => Ok (Emissivity (add2 x y))
    | Energy x, Energy y => Ok (Energy (add2 x y))
    | _, _ => Err "UnitConversionError"
    end.
  (** 973-989 *)
  Definition brems_spectrum (n0 w_ee w_ep : R) (Eph : list R) : outcome quantity :=
    omap (qscale n0) (qadd (qscale w_ee (emiss sigma_ee w_ee Eph)) (qscale w_ep (emiss sigma_ep w_ep Eph))).
  (** radiative.py:103-111 for distance 0: the result is converted to 1/(s eV) *)
  Definition brems_luminosity (n0 w_ee w_ep : R) (Eph : list R) : outcome (list R) :=
    obind (brems_spectrum n0 w_ee w_ep Eph) (fun q =>
    match q with Emissivity l => Ok l | Energy _ => Err "UnitConversionError" end).
End Brems.

(** ** The class-level parameter table of PionDecay (radiative.py:1185-1197,
    1401-1423): evaluation writes the energy-dependent entries beta and gamma
    into lists shared by every instance, then reads them back. *)
(** radiative.py 1185-1197, 1401-1423 *)
Record cells := mkCells { c_beta : R; c_gamma : R }.
(** One evaluation in the regime 1 < Tp <= 4: its own values, its next
    instruction and, once finished, the values it used. *)
(** radiative.py 1401-1423: the statements executed in turn *)
Inductive pc := WriteBeta | WriteGamma | ReadBoth | Done (beta gamma : R).
(** radiative.py 1401-1423: one evaluation *)
Record thread := mkThread { own_beta : R; own_gamma : R; at_pc : pc }.
Definition tstep (c : cells) (t : thread) : cells * thread :=
  match at_pc t with
  | WriteBeta => (mkCells (own_beta t) (c_gamma c), mkThread (own_beta t) (own_gamma t) WriteGamma)   (* 1414 *)
  | WriteGamma => (mkCells (c_beta c) (own_gamma t), mkThread (own_beta t) (own_gamma t) ReadBoth)    (* 1415 *)
  | ReadBoth => (c, mkThread (own_beta t) (own_gamma t) (Done (c_beta c) (c_gamma c)))                (* 1416, 1370 *)
  | Done _ _ => (c, t)
  end.
(** A schedule names the thread that makes each step. *)
(** a thread of the interleaving moves on (no counterpart in the code; radiative.py 1401-1423 run by several threads) *)
Fixpoint tset (i : nat) (t : thread) (l : list thread) : list thread :=
  match i, l with
  | O, _ :: r => t :: r
  | S j, x :: r => x :: tset j t r
  | _, [] => []
  end.
(** one step of the interleaving of radiative.py 1401-1423 run by several threads *)
Definition sched_step (s : cells * list thread) (i : nat) : cells * list thread :=
  match nth_error (snd s) i with
  | Some t => let (c', t') := tstep (fst s) t in (c', tset i t' (snd s))
  | None => s
  end.
(** an interleaving of radiative.py 1401-1423 run by several threads *)
Definition run (s : cells * list thread) (sched : list nat) : cells * list thread := fold_left sched_step sched s.
