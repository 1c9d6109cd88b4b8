(** Model of what validate_data_table (src/naima/utils.py:38-83) and plot_data
    (src/naima/plot.py:1244-1287) do with the object given as data. *)
From Coq Require Import Reals List ZArith Bool String.
From Verif Require Import Outcome UnitsModel DataModel.
Import ListNotations.
Local Open Scope R_scope.

(** plot.py 1251, 1031-1042: what is read of a dict; [dd_more]: the number of its other keys *)
Record ddict := mkDD { dd_energy : option qty; dd_flux : option qty; dd_group : option (list Z); dd_more : nat }.
(** len() of a dict, plot.py 1037 *)
Definition dlen (d : ddict) : nat :=
  ((if dd_energy d then 1 else 0) + (if dd_flux d then 1 else 0) + (if dd_group d then 1 else 0) + dd_more d)%nat.
(** empty dict: utils.py 56 runs over nothing *)
Definition dempty (d : ddict) : bool := Nat.eqb (dlen d) 0.
(** the objects distinguished by utils.py 52-63 and plot.py 1248-1258: a Table or QTable; a list or
    tuple; an iterator or generator, which can be run through once; a dict; an object with an attribute
    data that cannot be iterated (emcee's sampler after get_sampler, core.py 462; [rows]: its table);
    anything else that cannot be iterated *)
Inductive obj := OTable (t : itab) | OList (l : list obj) | OIter (l : list obj) | ODict (d : ddict) | OSampler (cu : cunits) (rows : list vrow) | OOther.
(** utils.py 57: isinstance(dt, Table) *)
Definition as_table (o : obj) : option itab := match o with OTable t => Some t | _ => None end.
(** utils.py 55-63: the tables, if all are *)
Fixpoint all_tables (l : list obj) : option (list itab) :=
  match l with
  | [] => Some []
  | o :: r => match as_table o, all_tables r with Some t, Some ts => Some (t :: ts) | _, _ => None end
  end.

Section Inputs.
  Variable nu : naima_units.
  Variable argsort : list R -> list nat.
  (** utils.py 52-83: the check runs through the object (56), and so does the validation (80) *)
  Definition validate_obj (o : obj) (sed : option bool) : outcome (cunits * list vrow) :=
    match o with
    | OTable t => validate_data_table nu argsort [t] sed
    | OList l => match all_tables l with Some ts => validate_data_table nu argsort ts sed | None => Err "TypeError" end
    | OIter l => match all_tables l with
                 | Some _ => validate_data_table nu argsort [] sed       (* used up by 56-60: nothing is left for 80 *)
                 | None => Err "TypeError"
                 end
    | ODict d => if dempty d then validate_data_table nu argsort [] sed else Err "TypeError"   (* its keys are strings *)
    | OSampler _ _ => Err "TypeError"                                      (* not iterable: 60-63 *)
    | OOther => Err "TypeError"
    end.

  (** what plot_data goes on with, plot.py 1246-1258 *)
  Inductive source := STable (cu : cunits) (rows : list vrow) | SDict (d : ddict).
  (** plot.py 1246-1258: only TypeError is caught *)
  Definition plot_source (o : obj) : outcome source :=
    match validate_obj o None with
    | Ok (cu, rows) => Ok (STable cu rows)
    | Err e => if String.eqb e "TypeError" then
                 match o with
                 | OSampler cu rows => Ok (STable cu rows)                 (* 1249-1250 *)
                 | ODict d => match dd_energy d with Some _ => Ok (SDict d) | None => Err e end   (* 1251-1252, 1253-1258 *)
                 | _ => Err e
                 end
               else Err e
    end.

  (** plot.py 1034-1042 on a dict (e_unit: 1278-1279, not None here): the dict afterwards and the outcome; the loop body
      selects rows with data_all[np.where(...)], and a tuple of arrays is not hashable *)
  Definition draw_dict (d : ddict) (sed : bool) : ddict * outcome unit :=
    match dd_energy d, dd_flux d with
    | Some e, Some f =>
        match sed_conversion nu e (qunit f) sed with
        | Err x => (d, Err x)
        | Ok _ =>
            let g := match dd_group d with Some g => g | None => repeat 0%Z (dlen d) end in   (* 1036-1037 *)
            let d' := mkDD (dd_energy d) (dd_flux d) (Some g) (dd_more d) in
            match g with
            | [] => (d', Err "UnboundLocalError"%string)                  (* 1041 runs over nothing, 1097 reads data *)
            | _ => (d', Err "TypeError"%string)                           (* 1042 *)
            end
        end
    | _, _ => (d, Err "KeyError"%string)
    end.
End Inputs.
