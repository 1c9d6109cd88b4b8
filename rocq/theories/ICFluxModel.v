(** Model of InverseCompton.flux / sed: seed selection and its state. *)
From Coq Require Import String List Arith Bool ZArith Reals.
From Verif Require Import Outcome MemoModel.
Import ListNotations.
Local Open Scope string_scope.
Local Open Scope R_scope.

(** The [seed] argument: None, an integer, or anything else (looked up by name
    among the seed photon fields). *)
(** the seed argument, radiative.py 712, 734 *)
Inductive seed_arg := NoSeed | SeedIdx (z : Z) | SeedName (s : string).

(** Elementwise sum of the rows of an array, [np.sum(u.Quantity(rows), axis=0)]. *)
Fixpoint vadd (a b : list R) : list R :=
  match a, b with
  | x :: r, y :: s => (x + y) :: vadd r s
  | _, _ => []
  end.
(** radiative.py 710 *)
Fixpoint vsum (rows : list (list R)) : list R :=
  match rows with
  | [] => []
  | [r] => r
  | r :: rest => vadd r (vsum rest)
  end.

(** Python indexing [l[z]]: negative indices count from the end. *)
(** self.specic[seed], radiative.py 757 *)
Definition py_nth {A} (l : list A) (z : Z) : outcome A :=
  let n := Z.of_nat (length l) in
  let i := if (z <? 0)%Z then (z + n)%Z else z in
  if (i <? 0)%Z then Err "IndexError"
  else match nth_error l (Z.to_nat i) with Some a => Ok a | None => Err "IndexError" end.

(** [list.index(s)] on the seed names. *)
(** radiative.py 735-741 *)
Fixpoint name_index (s : string) (names : list string) : option nat :=
  match names with
  | [] => None
  | n :: r => if String.eqb s n then Some O else option_map S (name_index s r)
  end.

(** radiative.py:104-106, 749-755: division by 4 pi d^2 unless d = 0. *)
Definition dfac (d : R) : R := if Req_EM_T d 0 then 1 else 4 * PI * d ^ 2.

Section IC.
  (** [St]: the attributes of the object; [seeds st]: the names of its seed
      photon fields, in order; [contrib st s E]: the spectrum produced by seed
      [s] at energy [E], in 1/(s eV) (radiative.py:657-687).  Energies are given
      by their values. *)
  Variable St : Type.
  Variable seeds : St -> list string.
  Variable contrib : St -> string -> R -> R.
  (** The cache key of BaseRadiative.flux for these attributes and arguments. *)
  Variable key : St -> list R -> R -> string.

  (** radiative.py:704-708 *)
  Definition specic (st : St) (Es : list R) : list (list R) :=
    map (fun s => map (contrib st s) Es) (seeds st).

  (** radiative.py:689-710 then 102-111: the wrapped BaseRadiative.flux, which
      sets [self.specic] and returns the total.  With no seed at all the sum is
      dimensionless and the unit conversion raises. *)
  Definition base_flux (st : St) (Es : list R) (d : R) (_ : list (list R))
    : list (list R) * outcome (list R) :=
    let sp := specic st Es in
    (sp, match sp with
         | [] => Err "UnitConversionError"
         | _ => Ok (map (fun x => x / dfac d) (vsum sp))
         end).

  (** radiative.py:732-757: select one row of [self.specic]. *)
  Definition select_seed (st : St) (sp : list (list R)) (d : R) (sd : seed_arg) (total : list R)
    : outcome (list R) :=
    match sd with
    | NoSeed => Ok total
    | SeedName s =>
        match name_index s (seeds st) with
        | None => Err "ValueError"
        | Some i => omap (map (fun x => x / dfac d)) (py_nth sp (Z.of_nat i))
        end
    | SeedIdx z =>
        if (z >? Z.of_nat (length (seeds st)))%Z then Err "ValueError"
        else omap (map (fun x => x / dfac d)) (py_nth sp z)
    end.

  (** State of an object: [specic] left by the last computation, and the cache. *)
  (** self.specic (radiative.py 704-708) and self._cache (model_utils.py) *)
  Definition icstate := (list (list R) * cache (list R))%type.

  (** radiative.py:712-759 - InverseCompton.flux(E, distance, seed). *)
  Definition ic_flux (enabled : option bool) (st : St) (Es : list R) (d : R) (sd : seed_arg)
      (s : icstate) : icstate * outcome (list R) :=
    let '(s', total) := memoized enabled (Ok (key st Es d)) (base_flux st Es d) (fst s) (snd s) in
    (s', match total with
         | Err e => Err e
         | Ok t => select_seed st (fst s') d sd t
         end).

  (** Elementwise product of two arrays. *)
  (** radiative.py 786-789 *)
  Fixpoint vmul (a b : list R) : list R :=
    match a, b with
    | x :: r, y :: q => (x * y) :: vmul r q
    | _, _ => []
    end.

  (** radiative.py:113-134 and 761-791 - InverseCompton.sed: the base class
      calls [self.flux(E, distance)], then flux is called again with the seed. *)
  Definition ic_sed (enabled : option bool) (st : St) (Es : list R) (d : R) (sd : seed_arg)
      (s : icstate) : icstate * outcome (list R) :=
    let '(s1, r1) := ic_flux enabled st Es d NoSeed s in
    match r1 with
    | Err e => (s1, Err e)
    | Ok t =>
        match sd with
        | NoSeed => (s1, Ok (vmul t (map (fun E => E ^ 2) Es)))
        | _ => let '(s2, r2) := ic_flux enabled st Es d sd s1 in
               (s2, omap (fun f => vmul f (map (fun E => E ^ 2) Es)) r2)
        end
    end.

  (** A history of flux calls; the attributes may be changed in between. *)
  (** calls of radiative.py 712-759 one after another *)
  Fixpoint ic_run (enabled : option bool) (h : list (St * list R * R * seed_arg)) (s : icstate)
    : list (outcome (list R)) :=
    match h with
    | [] => []
    | (st, Es, d, sd) :: r =>
        let '(s', out) := ic_flux enabled st Es d sd s in out :: ic_run enabled r s'
    end.
  (** the state left by calls of radiative.py 712-759 *)
  Fixpoint ic_after (enabled : option bool) (h : list (St * list R * R * seed_arg)) (s : icstate)
    : icstate :=
    match h with
    | [] => s
    | (st, Es, d, sd) :: r => ic_after enabled r (fst (ic_flux enabled st Es d sd s))
    end.
  (** radiative.py 143-145 *)
  Definition ic_init : icstate := ([], empty_cache).
End IC.
