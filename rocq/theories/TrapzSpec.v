(** Vocabulary for the integration theorems. *)
From Coq Require Import Reals List Sorted.
Import ListNotations.
Local Open Scope R_scope.

(** A grid of abscissae: positive and strictly increasing. *)
Definition grid (xs : list R) : Prop := Forall (fun x => 0 < x) xs /\ StronglySorted Rlt xs.

(** The power law K x^b. *)
Definition powerlaw (K b x : R) : R := K * Rpower x b.

(** The power law through (x1,y1) and (x2,y2) (straight line in log-log). *)
Definition through (x1 x2 y1 y2 x : R) : R :=
  y1 * Rpower (x / x1) (ln (y2 / y1) / ln (x2 / x1)).

(** Rectangle sum taking on each bin the value [f] of its two ordinates
    ([f] = Rmin: lower sum, Rmax: upper sum). *)
Fixpoint rect (f : R -> R -> R) (ys xs : list R) : R :=
  match ys, xs with
  | y1 :: ((y2 :: _) as yr), x1 :: ((x2 :: _) as xr) => f y1 y2 * (x2 - x1) + rect f yr xr
  | _, _ => 0
  end.


(** Indices outside the 1e-10 window round -1, and -1 itself. *)
Definition good_index (b : R) : Prop := b = -1 \/ / 10 ^ 10 < Rabs (b + 1).
