(** The object array read_run makes of the blobs (analysis.py 559-575): numpy makes one array
    of numbers out of nested lists whose arrays all have the same first dimension, and keeps
    the objects (with their units) otherwise. Completes AnalysisModel.read_run. *)
From Coq Require Import Reals List Bool String Arith.
From Verif Require Import Outcome SimplexModel AnalysisModel.
Import ListNotations.

(** first dimension numpy finds in a blob; [None]: a single object (0-d Quantities and
    numbers). analysis.py 564-571, 575 *)
Definition idim (i : item) : option nat :=
  match i with
  | IArrayQ v _ => Some (List.length v)
  | ITuple l => Some (List.length l)
  | IScalars l => Some (List.length l)
  | IScalarQ _ _ | IFloat _ | IOther => None
  end.
(** all blobs of all samples are sequences of one first dimension, analysis.py 575 *)
Definition iblock (bs : list (list item)) : bool :=
  match bs with
  | (b :: _) :: _ =>
      match idim b with
      | Some n => forallb (forallb (fun i => match idim i with Some k => Nat.eqb k n | None => false end)) bs
      | None => false
      end
  | _ => false
  end.
(** analysis.py 575: in a block every blob is an array of objects, neither a Quantity nor a
    float, tuple or list *)
Definition boxed (r : run) : run :=
  if iblock (map s_blob (flat r)) then
    mkRun (map (map (fun s => mkS (s_par s) (s_lp s) (map (fun _ => IOther) (s_blob s)))) (r_steps r)) (r_labels r) (r_info r) (r_acc r) (r_data r)
  else r.
(** analysis.py 525-588 *)
Definition reload (f : fs) (n : string) : outcome run := omap boxed (read_run f n).
