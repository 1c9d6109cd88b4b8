(** Model of the evaluation of the log-probability in several processes
    (src/naima/core.py 446-458, multiprocessing.Pool and the use emcee makes
    of it), and of model functions that keep naima objects between evaluations. *)
From Coq Require Import List Arith Bool String.
From Verif Require Import Outcome MemoModel.
Import ListNotations.

Section Pool.
  (** memory of a process, the parameters of a walker, log-probability and blobs *)
  Variables (Mem T Res : Type).
  (** core.py 97-124 (lnprob) together with what it leaves in the memory of the process.
      An evaluation that raises ends the run and is not considered here. *)
  Variable eval : Mem -> T -> Mem * Res.

  (** core.py 448 with threads = 1: the built-in map, in the process itself *)
  Fixpoint serial_map (m : Mem) (ts : list T) : Mem * list Res :=
    match ts with
    | [] => (m, [])
    | t :: r => let (m1, x) := eval m t in let (m2, xs) := serial_map m1 r in (m2, x :: xs)
    end.

  (** assignment to one worker, core.py 448 *)
  Fixpoint put (j : nat) (m : Mem) (ws : list Mem) : list Mem :=
    match ws, j with
    | [], _ => []
    | _ :: r, 0 => m :: r
    | w :: r, S i => w :: put i m r
    end.

  (** core.py 448, Pool(threads).map: tasks are taken by the workers in any order; [s] lists
      (task, worker) in the order of execution; workers share no memory. *)
  Fixpoint execute (s : list (nat * nat)) (ts : list T) (ws : list Mem) : list Mem * list (nat * Res) :=
    match s with
    | [] => (ws, [])
    | (i, j) :: r =>
        match nth_error ts i, nth_error ws j with
        | Some t, Some m =>
            let (m', x) := eval m t in
            let (ws', out) := execute r ts (put j m' ws) in
            (ws', (i, x) :: out)
        | _, _ => execute r ts ws
        end
    end.
  (** the result belonging to task i, Pool.map as used through core.py 455 *)
  Fixpoint result (i : nat) (out : list (nat * Res)) : option Res :=
    match out with
    | [] => None
    | (k, x) :: r => if Nat.eqb k i then Some x else result i r
    end.
  (** Pool.map returns the results in the order of the tasks, core.py 455 *)
  Definition pool_map (s : list (nat * nat)) (ts : list T) (ws : list Mem) : list Mem * list (option Res) :=
    let (ws', out) := execute s ts ws in (ws', map (fun i => result i out) (seq 0 (List.length ts))).

  (** emcee: the positions at which the log-probability is needed next, and the new ensemble
      from the values found there, both from the random state (core.py 450-457, 127-160) *)
  Variables (Rng Ens : Type).
  Variable propose : Rng -> Ens -> list T.
  Variable accept : Rng -> Ens -> list Res -> Rng * Ens.

  (** the chain of core.py 127-160 with threads = 1 *)
  Fixpoint chain_serial (n : nat) (g : Rng) (e : Ens) (m : Mem) : list Ens :=
    match n with
    | 0 => []
    | S k =>
        let (m', xs) := serial_map m (propose g e) in
        let (g', e') := accept g e xs in
        e' :: chain_serial k g' e' m'
    end.
  (** all results arrived, core.py 455 *)
  Fixpoint all_there (l : list (option Res)) : option (list Res) :=
    match l with
    | [] => Some []
    | Some x :: r => match all_there r with Some t => Some (x :: t) | None => None end
    | None :: _ => None
    end.
  (** the same with a pool; [sched k n] is the schedule of the k-th map, of n tasks, core.py 448, 127-160 *)
  Fixpoint chain_pool (sched : nat -> nat -> list (nat * nat)) (n : nat) (g : Rng) (e : Ens) (ws : list Mem) : option (list Ens) :=
    match n with
    | 0 => Some []
    | S k =>
        let ts := propose g e in
        let (ws', out) := pool_map (sched k (List.length ts)) ts ws in
        match all_there out with
        | None => None
        | Some xs =>
            let (g', e') := accept g e xs in
            match chain_pool sched k g' e' ws' with Some r => Some (e' :: r) | None => None end
        end
    end.
  (** core.py 446-458: a pool only for more than one thread; the workers are copies
      (fork) of the process *)
  Definition chain (threads : nat) (sched : nat -> nat -> list (nat * nat)) (n : nat) (g : Rng) (e : Ens) (m : Mem) : option (list Ens) :=
    if Nat.ltb 1 threads then chain_pool sched n g e (repeat m threads) else Some (chain_serial n g e m).
End Pool.

Section Functions.
  Variables (pval dist V P : Type).
  Variable show_val : pval -> string.
  Variable show_dist : dist -> string.
  Variable show_args : list dist -> string.
  Variable sha : string -> string.
  Variable func : obj pval -> call dist -> outcome V.

  (** the attributes after a history of assignments and calls, model_utils.py 48-55 *)
  Fixpoint obj_after (o : obj pval) (h : list (event pval dist)) : obj pval :=
    match h with
    | [] => o
    | SetAttr n v :: r => obj_after (set_attr n v o) r
    | SetPdAttr n v :: r => obj_after (set_pd_attr n v o) r
    | SetPdist pd :: r => obj_after (set_pdist (Some pd) o) r
    | Call _ :: r => obj_after o r
    end.
  (** A model function with a model object of its own (global) that it adjusts to the
      parameters and calls: the memory is the object with its cache, model_utils.py 13-74 *)
  Definition eval_kept (script : P -> list (event pval dist)) (m : obj pval * cache V) (p : P) : (obj pval * cache V) * list (outcome V) :=
    ((obj_after (fst m) (script p), cache_after pval dist show_val show_dist show_args sha V func (fst m) (snd m) (script p)),
     run pval dist show_val show_dist show_args sha V func (fst m) (snd m) (script p)).
  (** A model function that makes its model object from the parameters, with the empty
      cache of radiative.py 143-145 *)
  Definition eval_fresh {Mem : Type} (make : P -> obj pval) (script : P -> list (event pval dist)) (m : Mem) (p : P) : Mem * list (outcome V) :=
    (m, run pval dist show_val show_dist show_args sha V func (make p) empty_cache (script p)).
End Functions.
Arguments serial_map {Mem T Res}.
Arguments put {Mem}.
Arguments execute {Mem T Res}.
Arguments result {Res}.
Arguments pool_map {Mem T Res}.
Arguments chain_serial {Mem T Res} eval {Rng Ens}.
Arguments all_there {Res}.
Arguments chain_pool {Mem T Res} eval {Rng Ens}.
Arguments chain {Mem T Res} eval {Rng Ens}.
Arguments obj_after {pval dist}.
