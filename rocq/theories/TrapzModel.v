(** Model of utils.trapz_loglog (src/naima/utils.py:285-355). *)
From Coq Require Import Reals List Bool.
Import ListNotations.
Local Open Scope R_scope.

(** [np.log10] on positive arguments. *)
Definition log10 (z : R) : R := ln z / ln 10.

(** [x ** b] for a positive base is [Rpower x b]. *)

(** utils.py:336 - local power-law index of one integration bin. *)
Definition local_index (x1 x2 y1 y2 : R) : R := log10 (y2 / y1) / log10 (x2 / x1).

(** utils.py:341 - the width 1e-10 of the window round index -1. *)
Definition window_eps : R := / 10 ^ 10.

(** utils.py:335-345 - one bin before the zero mask is applied.  Between ordinates of
    opposite sign np.log10 yields nan, the comparison with 1e-10 is false and the
    logarithmic branch is taken. *)
Definition raw_interval (x1 x2 y1 y2 : R) : R :=
  let b := local_index x1 x2 y1 y2 in
  if Rlt_dec (y1 * y2) 0 then x1 * y1 * ln (x2 / x1)
  else if Rlt_dec window_eps (Rabs (b + 1))
  then (y1 * (x2 * Rpower (x2 / x1) b - x1)) / (b + 1)
  else x1 * y1 * ln (x2 / x1).

(** utils.py:347-348 - bins with a zero ordinate or of zero width are set to 0. *)
Definition interval (x1 x2 y1 y2 : R) : R :=
  if Req_EM_T y1 0 then 0
  else if Req_EM_T y2 0 then 0
  else if Req_EM_T x1 x2 then 0
  else raw_interval x1 x2 y1 y2.

(** utils.py:350-351 - [intervals=True].  Arrays are one-dimensional lists (the
    code works slice by slice along [axis]); units factor out (lines 306-315,
    351, 353) and are handled by the callers. *)
Fixpoint trapz_intervals (ys xs : list R) : list R :=
  match ys, xs with
  | y1 :: ((y2 :: _) as yr), x1 :: ((x2 :: _) as xr) =>
      interval x1 x2 y1 y2 :: trapz_intervals yr xr
  | _, _ => []
  end.

(** utils.py:353-355 *)
Definition trapz_loglog (ys xs : list R) : R := fold_right Rplus 0 (trapz_intervals ys xs).

(* ------------------------------------------------------------------ *)
(** * The same bin with the special values of IEEE arithmetic

    Used only to show that no inf/NaN can leak out (C16).  Rounding is not
    modelled; zeros are unsigned (all inputs are >= 0). *)
Inductive xr := Fin (r : R) | PInf | NInf | NaN.

(** utils.py 336, 342 *)
Definition xdiv (a b : xr) : xr :=
  match a, b with
  | NaN, _ | _, NaN => NaN
  | Fin x, Fin y =>
      if Req_EM_T y 0 then
        if Req_EM_T x 0 then NaN else if Rlt_dec 0 x then PInf else NInf
      else Fin (x / y)
  | Fin _, _ => Fin 0
  | PInf, Fin y => if Rlt_dec y 0 then NInf else PInf
  | NInf, Fin y => if Rlt_dec y 0 then PInf else NInf
  | _, _ => NaN
  end.
(** utils.py 336: sign of a double *)
Definition xsign (a : xr) : option comparison :=   (* sign; None for NaN *)
  match a with
  | NaN => None | PInf => Some Gt | NInf => Some Lt
  | Fin x => Some (if Req_EM_T x 0 then Eq else if Rlt_dec 0 x then Gt else Lt)
  end.
(** utils.py 342-344 *)
Definition xmul (a b : xr) : xr :=
  match a, b with
  | Fin x, Fin y => Fin (x * y)
  | _, _ => match xsign a, xsign b with
            | None, _ | _, None => NaN
            | Some Eq, _ | _, Some Eq => NaN
            | Some Gt, Some Gt | Some Lt, Some Lt => PInf
            | _, _ => NInf
            end
  end.
(** utils.py 341-343, 353 *)
Definition xadd (a b : xr) : xr :=
  match a, b with
  | NaN, _ | _, NaN => NaN
  | Fin x, Fin y => Fin (x + y)
  | PInf, NInf | NInf, PInf => NaN
  | PInf, _ | _, PInf => PInf
  | NInf, _ | _, NInf => NInf
  end.
(** utils.py 342: subtraction of doubles *)
Definition xopp (a : xr) : xr :=
  match a with Fin x => Fin (- x) | PInf => NInf | NInf => PInf | NaN => NaN end.
(** utils.py 341 *)
Definition xabs (a : xr) : xr :=
  match a with Fin x => Fin (Rabs x) | PInf | NInf => PInf | NaN => NaN end.
(** natural logarithm: log(0) = -inf, log(negative) = nan *)
Definition xln (a : xr) : xr :=
  match a with
  | Fin x => if Req_EM_T x 0 then NInf else if Rlt_dec 0 x then Fin (ln x) else NaN
  | PInf => PInf
  | NInf | NaN => NaN
  end.
(** utils.py 336 *)
Definition xlog10 (a : xr) : xr := xdiv (xln a) (Fin (ln 10)).
(** [a ** b] for a positive finite base (the only case that occurs). *)
(** utils.py 342 *)
Definition xpow (a b : xr) : xr :=
  match a, b with
  | Fin x, Fin y => if Rlt_dec 0 x then Fin (Rpower x y) else NaN
  | Fin x, PInf => if Rlt_dec 1 x then PInf else if Req_EM_T x 1 then Fin 1 else Fin 0
  | Fin x, NInf => if Rlt_dec 1 x then Fin 0 else if Req_EM_T x 1 then Fin 1 else PInf
  | _, _ => NaN
  end.
(** [a > eps]: false on NaN *)
(** utils.py 341 *)
Definition xgt (a : xr) (eps : R) : bool :=
  match a with Fin x => if Rlt_dec eps x then true else false | PInf => true | _ => false end.

(** utils.py:335-348 for one bin, on extended values. *)
Definition xinterval (x1 x2 y1 y2 : R) : xr :=
  let b := xdiv (xlog10 (xdiv (Fin y2) (Fin y1))) (xlog10 (xdiv (Fin x2) (Fin x1))) in
  let b1 := xadd b (Fin 1) in
  let v := if xgt (xabs b1) window_eps
           then xdiv (xmul (Fin y1) (xadd (xmul (Fin x2) (xpow (xdiv (Fin x2) (Fin x1)) b)) (xopp (Fin x1)))) b1
           else xmul (xmul (Fin x1) (Fin y1)) (xln (xdiv (Fin x2) (Fin x1))) in
  if Req_EM_T y1 0 then Fin 0
  else if Req_EM_T y2 0 then Fin 0
  else if Req_EM_T x1 x2 then Fin 0
  else v.
