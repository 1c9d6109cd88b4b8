(** Shared vocabulary: Python exceptions as values. *)
From Coq Require Import String List.
Import ListNotations.

(** The result of a Python call: a value, or an exception identified by the
    name of its class. *)
Inductive outcome (A : Type) : Type :=
| Ok (a : A)
| Err (exn : string).
Arguments Ok {A} a.
Arguments Err {A} exn.

Definition obind {A B} (x : outcome A) (f : A -> outcome B) : outcome B :=
  match x with Ok a => f a | Err e => Err e end.

Definition omap {A B} (f : A -> B) (x : outcome A) : outcome B :=
  match x with Ok a => Ok (f a) | Err e => Err e end.

Definition is_ok {A} (x : outcome A) : Prop := exists a, x = Ok a.

(** [mapM f l]: evaluate [f] on each element, left to right, stopping at the
    first exception. *)
Fixpoint mapM {A B} (f : A -> outcome B) (l : list A) : outcome (list B) :=
  match l with
  | [] => Ok []
  | x :: r => obind (f x) (fun y => obind (mapM f r) (fun ys => Ok (y :: ys)))
  end.

(** Insertion ordered dictionary with string keys (Python [dict]). *)
Fixpoint dget {V} (k : string) (d : list (string * V)) : option V :=
  match d with
  | [] => None
  | (k', v) :: r => if String.eqb k k' then Some v else dget k r
  end.

(** [d[k] = v]: overwrite in place, or append when the key is new. *)
Fixpoint dset {V} (k : string) (v : V) (d : list (string * V)) : list (string * V) :=
  match d with
  | [] => [(k, v)]
  | (k', v') :: r => if String.eqb k k' then (k', v) :: r else (k', v') :: dset k v r
  end.

(** [d.pop(k, None)]. *)
Fixpoint ddel {V} (k : string) (d : list (string * V)) : list (string * V) :=
  match d with
  | [] => []
  | (k', v') :: r => if String.eqb k k' then r else (k', v') :: ddel k r
  end.

Definition dkeys {V} (d : list (string * V)) : list string := map fst d.
