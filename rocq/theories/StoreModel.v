(** How the outputs of the model function are stored with the chain: core.lnprob (97-120),
    the sampler made with blobs_dtype=object (core.py 450-457), and what emcee
    (EnsembleSampler.compute_log_prob) does with them: np.array(blobs, dtype=object)
    followed by np.squeeze. core.py 110-112 refers to this step ("Avoid squeezing of the
    model output in order to retain units"). *)
From Coq Require Import Reals List Bool String Arith.
From Verif Require Import Outcome SimplexModel UnitsModel AnalysisModel CurveModel.
Import ListNotations.
Local Open Scope R_scope.

(** first dimension numpy finds in an output (array, tuple or list); [None]: it is a single
    object. core.py 112, 120, 456 *)
Definition first_dim (b : bitem) : option nat :=
  match b with BQ q => Some (List.length (vals q)) | BSeq l => Some (List.length l) | BScalar _ _ | BNum | BOther => None end.
(** the outputs form a block: [J] of them in every blob of the batch, all of first
    dimension [n]. core.py 456 *)
Definition block (batch : list (list bitem)) : option (nat * nat) :=
  match batch with
  | (b :: r) :: _ =>
      match first_dim b with
      | Some n =>
          if forallb (fun bl => (Nat.eqb (List.length bl) (S (List.length r)) &&
                                 forallb (fun x => match first_dim x with Some k => Nat.eqb k n | None => false end) bl)%bool) batch
          then Some (S (List.length r), n) else None
      | None => None
      end
  | _ => None
  end.
(** a blob of a block: every entry an array of objects without unit, dimensions of size one
    removed ([] : a single number, which has no entries). Entries of a pair keep their
    units inside such an array when their lengths differ, but the array is no tuple any
    more. core.py 456 *)
Definition squeezed (J n : nat) : list bitem :=
  match J, n with
  | 1%nat, 1%nat => []
  | 1%nat, _ => repeat BNum n
  | _, 1%nat => repeat BNum J
  | _, _ => repeat BOther J
  end.
(** the outputs of the evaluations of one batch as they are stored; core.py 120, 450-457 *)
Definition store (batch : list (list bitem)) : list (list bitem) :=
  match block batch with
  | Some (J, n) => map (fun _ => squeezed J n) batch
  | None => batch
  end.
