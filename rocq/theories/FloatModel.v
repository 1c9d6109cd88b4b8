(** Binary64 arithmetic in the parts of naima that combine numbers by products,
    quotients, powers and sums of terms of one sign: the log-likelihood
    (src/naima/core.py:72-95), the flux/SED assembly (src/naima/radiative.py:89-134),
    the SED conversion factor (src/naima/utils.py:237-244), the spectral models
    (src/naima/models.py) and the synchrotron function (radiative.py:300-311).

    A double is a real number of Flocq's format FLX with 53 bits: round to nearest,
    ties to even, no overflow and no underflow (SIMPLIFICATION: infinities, NaN and
    subnormal numbers are not modelled; [FloatProps2.C116_underflow] shows that for
    results of magnitude at least 2^-1022 this is the rounding of IEEE binary64).
    Each Python operation is the exact operation followed by [fl]; the functions of
    the C library (pow, exp, log, cbrt) are not correctly rounded and are parameters. *)
From Coq Require Import Reals List ZArith String Permutation.
From Flocq Require Import Core.
From Verif Require Import Outcome CoreModel.
Import ListNotations.
Local Open Scope R_scope.

(** rounding of every arithmetic operation of the code in double precision (no counterpart in the code; e.g. core.py 76-87, radiative.py 105-111) *)
Definition fl (x : R) : R := round radix2 (FLX_exp 53) ZnearestE x.
(** a double-precision number: the inputs of the computations modelled below (core.py 76-87, radiative.py 105-111, models.py 88-92) *)
Definition is_double (x : R) : Prop := generic_format radix2 (FLX_exp 53) x.

(** + of doubles, as in core.py 83, 87 *)
Definition fadd (a b : R) : R := fl (a + b).
(** - of doubles, as in core.py 76 *)
Definition fsub (a b : R) : R := fl (a - b).
(** * of doubles, as in core.py 82-84 *)
Definition fmul (a b : R) : R := fl (a * b).
(** / of doubles, as in core.py 81 *)
Definition fdiv (a b : R) : R := fl (a / b).
(** numpy evaluates [x ** 2] and [x ** 2.0] as x * x *)
Definition fsq (a : R) : R := fmul a a.
(** np.sqrt, as in radiative.py 308 *)
Definition fsqrt (a : R) : R := fl (sqrt a).

(** The C library *)
(** pow, exp, log, cbrt called by numpy and scipy, as in models.py 92, 161 and radiative.py 307-311 *)
Record libm := mkLibm { lpow : R -> R -> R; lexp : R -> R; llog : R -> R; lcbrt : R -> R }.

(** np.sum: the result of adding a list of doubles in some order and with some
    bracketing (numpy sums pairwise, in blocks, or linearly, depending on the memory
    layout). *)
(** np.sum, core.py 87 *)
Inductive fsum1 : list R -> R -> Prop :=
| fs_one x : fsum1 [x] x
| fs_add xs ys a b : fsum1 xs a -> fsum1 ys b -> fsum1 (xs ++ ys) (fadd a b)
| fs_perm xs ys a : Permutation xs ys -> fsum1 xs a -> fsum1 ys a.
(** np.sum, core.py 87; np.add.reduce, utils.py 353 *)
Definition fsum (l : list R) (s : R) : Prop := match l with [] => s = 0 | _ => fsum1 l s end.

(** core.py:75-85 *)
Definition frow_lnl (m : R) (r : row) : R :=
  let difference := fsub m (flux r) in
  let lo := if Rlt_dec 0 difference then 0 else 1 in
  let hi := if Rlt_dec 0 difference then 1 else 0 in
  fdiv (- fsq difference) (fmul 2 (fsq (fadd (fmul lo (err_lo r)) (fmul hi (err_hi r))))).

(** core.py:72-95, for a model already in the unit of the data. Lines 92-93 compare
    doubles, so they are exact; the count becomes a double before the product. *)
Definition flnl (L : libm) (model : list R) (data : list row) (out : outcome R) : Prop :=
  let pairs := combine model data in
  exists total,
    fsum (map (fun p => frow_lnl (fst p) (snd p)) (filter (fun p => negb (ul (snd p))) pairs)) total /\
    out =
    (if existsb ul data then
       let n := List.length (filter (fun p => ul (snd p) && violated (fst p) (snd p))%bool pairs) in
       match nth_error (map cl data) n with
       | None => Err "IndexError"
       | Some c => Ok (fadd total (fmul (fl (INR n)) (llog L (fsub 1 c))))
       end
     else Ok total).

(** np.pi is the double nearest to pi *)
(** np.pi, radiative.py 106 *)
Definition fpi : R := fl PI.
(** radiative.py:106, 111: [spec /= 4 * np.pi * d ** 2] for a distance of [cm] cm;
    the conversion to 1/(s cm2 eV) is by the factor 1. *)
Definition fflux (spec cm : R) : R := fdiv spec (fmul (fmul 4 fpi) (fsq cm)).
(** radiative.py:132: [(flux * E ** 2.0).to("erg/(cm2 s)")]; [eV_erg] is the factor
    as a real number, stored as the nearest double *)
Definition fsed (eV_erg spec cm E : R) : R := fmul (fmul (fflux spec cm) (fsq E)) (fl eV_erg).
(** utils.py:242 and 244 *)
Definition fto_sed (E x : R) : R := fmul x (fsq E).
(** utils.py 244 *)
Definition ffrom_sed (E x : R) : R := fmul x (fdiv 1 (fsq E)).

Section Models.
  Variable L : libm.
  (** models.py:87-92 *)
  Definition fpower_law (e amplitude e_0 alpha : R) : R :=
    let xx := fdiv e e_0 in fmul amplitude (lpow L xx (- alpha)).
  (** models.py:156-161 *)
  Definition fcutoff_power_law (e amplitude e_0 alpha e_cutoff beta : R) : R :=
    let xx := fdiv e e_0 in
    fmul (fmul amplitude (lpow L xx (- alpha))) (lexp L (- lpow L (fdiv e e_cutoff) beta)).
  (** models.py:233-238 *)
  Definition fbroken_power_law (e amplitude e_0 e_break alpha_1 alpha_2 : R) : R :=
    let K := if Rlt_dec e e_break then 1 else lpow L (fdiv e_break e_0) (fsub alpha_2 alpha_1) in
    let alpha := if Rlt_dec e e_break then alpha_1 else alpha_2 in
    fmul (fmul amplitude K) (lpow L (fdiv e e_0) (- alpha)).
  (** models.py:329-335 *)
  Definition fcutoff_broken_power_law (e amplitude e_0 e_break alpha_1 alpha_2 e_cutoff beta : R) : R :=
    let K := if Rlt_dec e e_break then 1 else lpow L (fdiv e_break e_0) (fsub alpha_2 alpha_1) in
    let alpha := if Rlt_dec e e_break then alpha_1 else alpha_2 in
    let ee2 := fdiv e e_cutoff in
    fmul (fmul (fmul amplitude K) (lpow L (fdiv e e_0) (- alpha))) (lexp L (- lpow L ee2 beta)).
  (** models.py:401-407 *)
  Definition flog_parabola (e amplitude e_0 alpha beta : R) : R :=
    let ee := fdiv e e_0 in
    let eeponent := fsub (- alpha) (fmul beta (llog L ee)) in
    fmul amplitude (lpow L ee eeponent).

  (** radiative.py:307-311; the decimal literals are the nearest doubles *)
  Definition fGtilde (x : R) : R :=
    let cb := lcbrt L x in
    let gt1 := fdiv (fmul (fl (1808 / 1000)) cb) (fsqrt (fadd 1 (fmul (fl (34 / 10)) (fsq cb)))) in
    let gt2 := fadd (fadd 1 (fmul (fl (2210 / 1000)) (fsq cb))) (fmul (fl (347 / 1000)) (lpow L cb 4)) in
    let gt3 := fadd (fadd 1 (fmul (fl (1353 / 1000)) (fsq cb))) (fmul (fl (217 / 1000)) (lpow L cb 4)) in
    fmul (fmul gt1 (fdiv gt2 gt3)) (lexp L (- x)).
End Models.
