(** Vocabulary of the cache theorems, independent of the cache model. *)
From Coq Require Import String List.
From Verif Require Import Outcome MemoModel.
Import ListNotations.
Local Open Scope string_scope.

(** Neither string is the beginning of the other (unless they are equal). *)
Definition prefix_free (a b : string) : Prop :=
  forall c, (b = a ++ c \/ a = b ++ c) -> c = "".
(** Neither string is the end of the other (unless they are equal). *)
Definition suffix_free (a b : string) : Prop :=
  forall c, (b = c ++ a \/ a = c ++ b) -> c = "".

(** Two lists of printed values of which the concatenation can be decoded:
    prefix-free up to some position, suffix-free after it; the entry at this
    position is arbitrary. *)
Definition delimited (l m : list string) : Prop :=
  exists p a s p' a' s',
    l = (p ++ a :: s)%list /\ m = (p' ++ a' :: s')%list /\
    Forall2 prefix_free p p' /\ Forall2 suffix_free s s'.

(** [f] does not send two different members of [l] to the same value. *)
Definition injective_on {A B} (f : A -> B) (l : list A) : Prop :=
  forall x y, In x l -> In y l -> f x = f y -> x = y.

Section S.
  Variables (pval dist V : Type).
  Variable show_val : pval -> string.
  Variable show_dist : dist -> string.
  Variable show_args : list dist -> string.

  (** What a call on an object may legitimately depend on: the energies, the
      distance, the positional arguments and the declared parameters. *)
  Definition declared_values (o : obj pval) : list (option pval) :=
    ((match o_param_names o with None => [] | Some ns => map (fun n => dget n (o_attrs o)) ns end)
     ++ match o_pdist o with
        | None => []
        | Some pd => match pd_param_names pd with
                     | None => []
                     | Some ns => map (fun n => dget n (pd_attrs pd)) ns
                     end
        end)%list.

  Definition depends_only_on_declared (func : obj pval -> call dist -> outcome V) : Prop :=
    forall o o' c, declared_values o = declared_values o' -> func o c = func o' c.

  (** Every declared parameter exists. *)
  Definition declared_present (o : obj pval) : Prop := ~ In None (declared_values o).
End S.
Arguments declared_values {pval}.
Arguments depends_only_on_declared {pval dist V}.
Arguments declared_present {pval}.

(** The last [n] elements of a list. *)
Definition lastn {A} (n : nat) (l : list A) : list A := skipn (length l - n) l.

(** An ideal first-in first-out window of 17 results: [w] lists the digests
    computed so far, oldest first; digest [k] is recomputed (and, if the
    computation succeeds, appended) only when it is not among the last 17. *)
Definition window_step (w : list string) (k : string) (succeeds : bool) : list string :=
  if in_dec string_dec k (lastn 17 w) then w
  else if succeeds then (w ++ [k])%list else w.
Definition window (l : list (string * bool)) : list string :=
  fold_left (fun w kb => window_step w (fst kb) (snd kb)) l [].

(** The part of a tagged list carrying tag [b]. *)
Definition only {A} (b : bool) (l : list (bool * A)) : list A :=
  map snd (filter (fun x => Bool.eqb (fst x) b) l).
