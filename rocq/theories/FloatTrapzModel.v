(** utils.trapz_loglog (src/naima/utils.py:333-353) in binary64 arithmetic, as in
    FloatModel: one-dimensional arrays, no overflow or underflow. *)
From Coq Require Import Reals List.
From Verif Require Import FloatModel.
Import ListNotations.
Local Open Scope R_scope.

Section Trapz.
  (** the C library, and its log10 *)
  Variable L : libm.
  Variable lg : R -> R.

  (** utils.py:336 *)
  Definition flocal_index (x1 x2 y1 y2 : R) : R := fdiv (lg (fdiv y2 y1)) (lg (fdiv x2 x1)).
  (** utils.py:340-345; the literal 1e-10 is the nearest double *)
  Definition fraw_interval (x1 x2 y1 y2 : R) : R :=
    let b := flocal_index x1 x2 y1 y2 in
    if Rlt_dec (y1 * y2) 0 then fmul (fmul x1 y1) (llog L (fdiv x2 x1))   (* b is nan *)
    else if Rlt_dec (fl (/ 10 ^ 10)) (Rabs (fadd b 1))
    then fdiv (fmul y1 (fsub (fmul x2 (lpow L (fdiv x2 x1) b)) x1)) (fadd b 1)
    else fmul (fmul x1 y1) (llog L (fdiv x2 x1)).
  (** utils.py:347-348 *)
  Definition finterval (x1 x2 y1 y2 : R) : R :=
    if Req_EM_T y1 0 then 0
    else if Req_EM_T y2 0 then 0
    else if Req_EM_T x1 x2 then 0
    else fraw_interval x1 x2 y1 y2.
  (** utils.py:350-351 *)
  Fixpoint ftrapz_intervals (ys xs : list R) : list R :=
    match ys, xs with
    | y1 :: ((y2 :: _) as yr), x1 :: ((x2 :: _) as xr) => finterval x1 x2 y1 y2 :: ftrapz_intervals yr xr
    | _, _ => []
    end.
  (** utils.py:353: np.add.reduce, in any order *)
  Definition ftrapz (ys xs : list R) (s : R) : Prop := fsum (ftrapz_intervals ys xs) s.
End Trapz.
