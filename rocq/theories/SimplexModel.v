(** Model of the simplex minimiser (src/naima/extern/minimize.py). Points are
    lists of reals (rounding not modelled); objective values are extended reals
    with nan, with IEEE comparisons. *)
From Coq Require Import Reals List Bool Arith Permutation Sorted.
Import ListNotations.
Local Open Scope R_scope.

(** extern/minimize.py 100: the doubles of fsim *)
Inductive ev := Fin (r : R) | PInf | NInf | NaN.

(** IEEE [<] and [<=]: false as soon as one side is nan *)
(** extern/minimize.py 137, 141, 148, 153, 167 *)
Definition flt (a b : ev) : bool :=
  match a, b with
  | Fin x, Fin y => if Rlt_dec x y then true else false
  | NInf, Fin _ | NInf, PInf | Fin _, PInf => true
  | _, _ => false
  end.
(** extern/minimize.py 157 *)
Definition fle (a b : ev) : bool :=
  match a, b with
  | Fin x, Fin y => if Rle_dec x y then true else false
  | NInf, Fin _ | NInf, PInf | Fin _, PInf | NInf, NInf | PInf, PInf => true
  | _, _ => false
  end.
(** the order of numpy.argsort: as [<=], nan after everything *)
(** extern/minimize.py 118, 178 *)
Definition sle (a b : ev) : Prop := b = NaN \/ fle a b = true.
(** extern/minimize.py 118, 188 *)
Definition isnan (a : ev) : bool := match a with NaN => true | _ => false end.
(** numpy.min: nan if any entry is nan *)
(** extern/minimize.py 188 *)
Definition emin (a b : ev) : ev := if isnan a || isnan b then NaN else if fle a b then a else b.
(** extern/minimize.py 188 *)
Definition emin_list (l : list ev) : ev := match l with [] => NaN | a :: r => fold_left emin r a end.

(** extern/minimize.py 80, 99: rows of sim *)
Definition point := list R.
(** extern/minimize.py 132-133 *)
Definition vadd (a b : point) : point := map (fun p => fst p + snd p) (combine a b).
(** extern/minimize.py 132-133 *)
Definition vscale (c : R) (a : point) : point := map (Rmult c) a.

(** A vertex: the stored point and the stored value (rows of sim and fsim). *)
(** extern/minimize.py 99-100 *)
Definition vertex : Type := point * ev.

Section NM.
  Variable f : point -> ev.
  (** what storing a float in an array of the dtype of x0 does: identity for
      float arrays, truncation towards zero for integer arrays (lines 90-93) *)
  Variable store : R -> R.
  (** numpy.argsort followed by take (lines 112-115, 177-179) *)
  Variable srt : list vertex -> list vertex.
  Variables (xtol ftol : R) (maxfun maxiter : nat).

  (** extern/minimize.py 114, 142-175: stores into sim, whose dtype is that of x0 *)
  Definition put (p : point) : point := map store p.

  (** points evaluated so far, most recent first; its length is fcalls[0] *)
  Definition log := list point.

  (** lines 100-110: N perturbed copies of x0; [y] has the dtype of x0 *)
  Fixpoint set_nth (k : nat) (v : R) (p : point) : point :=
    match k, p with O, _ :: r => v :: r | S j, a :: r => a :: set_nth j v r | _, [] => [] end.
  (** extern/minimize.py 107-116 *)
  Definition perturbed (x0 : point) (k : nat) : point :=
    let a := nth k x0 0 in
    set_nth k (store (if Req_EM_T a 0 then 25 / 100000 else (1 + 5 / 100) * a)) x0.
  (** extern/minimize.py 101-116 *)
  Definition start_points (x0 : point) : list point := x0 :: map (perturbed x0) (seq 0 (length x0)).

  (** extern/minimize.py 79, 99-100, 123: sim, fsim, fcalls, iterations *)
  Record st := mkSt { sim : list vertex; calls : log; iter : nat }.

  (** lines 90-117 *)
  Definition init (x0 : point) : st :=
    mkSt (srt (map (fun p => (p, f p)) (start_points x0))) (rev (start_points x0)) 1.

  (** lines 120-124, all points have N >= 1 coordinates. A division by zero gives
      inf or nan, for which the comparison with the tolerance is false. *)
  Definition rel_close (tol ref v : R) : bool :=
    if Req_EM_T ref 0 then false else if Rle_dec (Rabs ((v - ref) / ref)) tol then true else false.
  (** extern/minimize.py 127 *)
  Definition close_points (p0 p : point) : bool := forallb (fun q => rel_close xtol (fst q) (snd q)) (combine p0 p).
  (** extern/minimize.py 128 *)
  Definition close_values (f0 v : ev) : bool :=
    match f0, v with
    | Fin a, Fin b => if Req_EM_T a 0 then false else if Rle_dec (Rabs ((a - b) / a)) ftol then true else false
    | _, _ => false
    end.
  (** extern/minimize.py 126-130 *)
  Definition converged (s : list vertex) : bool :=
    match s with
    | [] => false
    | (p0, f0) :: r => forallb (fun v => close_points p0 (fst v)) r && forallb (fun v => close_values f0 (snd v)) r
    end.

  (** extern/minimize.py 132 *)
  Fixpoint vsum (l : list point) : point :=
    match l with [] => [] | [p] => p | p :: r => vadd p (vsum r) end.
  (** extern/minimize.py 99: default of hd and last, never used on a simplex *)
  Definition zero : vertex := ([], NaN).
  (** extern/minimize.py 133, 138: sim[-1] *)
  Definition last_v (s : list vertex) : vertex := last s zero.
  (** extern/minimize.py 142-146, 149-150, 158-159, 168-169 *)
  Definition replace_last (s : list vertex) (v : vertex) : list vertex := removelast s ++ [v].

  (** lines 169-172: every vertex but the first moves half way to the first *)
  Definition shrink (s : list vertex) : list vertex * log :=
    match s with
    | [] => ([], [])
    | v0 :: r =>
        let ps := map (fun v => put (vadd (fst v0) (vscale (1 / 2) (vadd (fst v) (vscale (-1) (fst v0)))))) r in
        (v0 :: map (fun p => (p, f p)) ps, rev ps)
    end.

  (** lines 126-182: one iteration. The second component lists the points
      evaluated in it (most recent first). *)
  Definition step (s : list vertex) : list vertex * log :=
    let n := (length s - 1)%nat in
    let vN := last_v s in
    let xbar := vscale (/ INR n) (vsum (map fst (removelast s))) in
    let xr := vadd (vscale 2 xbar) (vscale (-1) (fst vN)) in
    let fxr := f xr in
    if flt fxr (snd (hd zero s)) then
      let xe := vadd (vscale 3 xbar) (vscale (-2) (fst vN)) in
      let fxe := f xe in
      (if flt fxe fxr then replace_last s (put xe, fxe) else replace_last s (put xr, fxr), [xe; xr])
    else if flt fxr (snd (nth (n - 1) s zero)) then (replace_last s (put xr, fxr), [xr])
    else if flt fxr (snd vN) then
      let xc := vadd (vscale (3 / 2) xbar) (vscale (- (1 / 2)) (fst vN)) in
      let fxc := f xc in
      if fle fxc fxr then (replace_last s (put xc, fxc), [xc; xr])
      else let (s', l) := shrink s in (s', l ++ [xc; xr])
    else
      let xcc := vadd (vscale (1 / 2) xbar) (vscale (1 / 2) (fst vN)) in
      let fxcc := f xcc in
      if flt fxcc (snd vN) then (replace_last s (put xcc, fxcc), [xcc; xr])
      else let (s', l) := shrink s in (s', l ++ [xcc; xr]).

  (** lines 119-187; [fuel] bounds the number of passes, see C47_terminates *)
  Fixpoint loop (fuel : nat) (x : st) : st :=
    match fuel with
    | O => x
    | S k =>
        if (Nat.ltb (length (calls x)) maxfun && Nat.ltb (iter x) maxiter)%bool then
          if converged (sim x) then x
          else let (s', l) := step (sim x) in loop k (mkSt (srt s') (l ++ calls x) (S (iter x)))
        else x
    end.

  (** extern/minimize.py 209-217 *)
  Record result := mkRes { x_ : point; fun_ : ev; nit : nat; nfev : nat; status : nat }.
  (** lines 189-221 *)
  Definition finish (x : st) : result :=
    mkRes (fst (hd zero (sim x))) (emin_list (map snd (sim x))) (iter x) (length (calls x))
      (if Nat.leb maxfun (length (calls x)) then 1 else if Nat.leb maxiter (iter x) then 2 else 0)%nat.
  (** extern/minimize.py 101-185 *)
  Definition final (x0 : point) : st := loop maxiter (init x0).
  (** extern/minimize.py 44-45, 48-220 *)
  Definition minimize (x0 : point) : result := finish (final x0).
End NM.
