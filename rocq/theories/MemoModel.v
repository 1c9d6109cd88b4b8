(** Model of the result cache of naima (src/naima/model_utils.py). *)
From Coq Require Import String List Arith Bool.
From Verif Require Import Outcome.
Import ListNotations.
Local Open Scope string_scope.

(* ------------------------------------------------------------------ *)
(** * The cache *)

(** model_utils.py:15-17 - the attributes [_cache] (a dict from digest to
    result) and [_queue] (a list of digests). *)
Record cache (V : Type) := mkCache { entries : list (string * V); queue : list string }.
Arguments mkCache {V}.
Arguments entries {V}.
Arguments queue {V}.

(** self._cache = {}, self._queue = [], e.g. radiative.py 143-145 *)
Definition empty_cache {V} : cache V := mkCache [] [].

(** model_utils.py:66-69 - when the queue already has more than 16 digests,
    pop the first and drop it from the dict. *)
Definition evict {V} (c : cache V) : cache V :=
  if (16 <? length (queue c))%nat then
    match queue c with
    | [] => c
    | k :: q => mkCache (ddel k (entries c)) q
    end
  else c.

(** model_utils.py:65-72 - evict, then append the digest and store the result. *)
Definition store {V} (k : string) (v : V) (c : cache V) : cache V :=
  let c' := evict c in
  mkCache (dset k v (entries c')) (queue c' ++ [k])%list.

(** model_utils.py:13-74 - the wrapper [model].  [enabled] is the value of
    [cls._memoize] ([None] when one of the three attributes is missing, line
    18-19); [digest] is the outcome of lines 24-58; [func] is the wrapped method
    together with its side effects on the object ([S]).  An exception raised by
    [func] leaves the cache untouched. *)
Definition memoized {V S} (enabled : option bool) (digest : outcome string)
    (func : S -> S * outcome V) (st : S) (c : cache V) : (S * cache V) * outcome V :=
  match enabled with
  | Some true =>
      match digest with
      | Err e => ((st, c), Err e)
      | Ok k =>
          match dget k (entries c) with
          | Some v => ((st, c), Ok v)
          | None =>
              let (st', r) := func st in
              match r with
              | Err e => ((st', c), Err e)
              | Ok v => ((st', store k v c), Ok v)
              end
          end
      end
  | _ => let (st', r) := func st in ((st', c), r)
  end.

(* ------------------------------------------------------------------ *)
(** * Objects, calls and the cache key *)

Section Key.
  (** Values of attributes and of distances, and what [str()] prints for them. *)
  Variables (pval dist : Type).
  Variable show_val : pval -> string.
  Variable show_dist : dist -> string.
  Variable show_args : list dist -> string.
  (** [hashlib.sha256(b).hexdigest()]. *)
  Variable sha : string -> string.

  (** A particle distribution: [pd_param_names = None] when the object has no
      attribute [param_names] (models.py:425-469 TableModel, any plain
      function).  [pd_attrs] holds all the state it has. *)
  Record pdist := mkPd { pd_param_names : option (list string);
                         pd_attrs : list (string * pval) }.

  (** A model object: [_memoize], [param_names], its attributes, and its
      particle distribution if it has one. *)
  (** cls as used at model_utils.py 15-17, 48-55 *)
  Record obj := mkObj { o_memoize : option bool;
                        o_param_names : option (list string);
                        o_attrs : list (string * pval);
                        o_pdist : option pdist }.

  (** A call [f(energy, *args, distance=...)].  The energy argument is given by
      the bytes of its value and the name of its unit; [c_distance = None] when
      the keyword is omitted. *)
  (** the arguments of a call, model_utils.py 13, 35-47 *)
  Record call := mkCall { c_bytes : string; c_unit : string;
                          c_distance : option dist; c_args : list dist }.

  (** model_utils.py:55 - [str(getattr(model, par))]. *)
  Definition show_attr (attrs : list (string * pval)) (p : string) : outcome string :=
    match dget p attrs with
    | Some v => Ok (show_val v)
    | None => Err "AttributeError"
    end.

  (** model_utils.py:53-55 *)
  Definition show_params (names : option (list string)) (attrs : list (string * pval))
    : outcome (list string) :=
    match names with
    | None => Ok []
    | Some ns => mapM (show_attr attrs) ns
    end.

  (** model_utils.py:41-47 - the parts of the key that come from the call. *)
  Definition call_parts (c : call) : list string :=
    ([ sha (c_bytes c); c_unit c;
      match c_distance c with None => "0" | Some d => show_dist d end ]
    ++ (match c_args c with [] => [] | _ => [show_args (c_args c)] end))%list.

  (** model_utils.py:48-55 - the parts that come from the object and its
      particle distribution. *)
  Definition obj_parts (o : obj) : outcome (list string) :=
    obind (show_params (o_param_names o) (o_attrs o)) (fun own =>
    obind (match o_pdist o with
           | None => Ok []
           | Some pd => show_params (pd_param_names pd) (pd_attrs pd)
           end) (fun pds =>
    Ok (own ++ pds)%list)).

  (** the list data, model_utils.py 41-55 *)
  Definition parts (o : obj) (c : call) : outcome (list string) :=
    omap (fun op => (call_parts c ++ op)%list) (obj_parts o).

  (** model_utils.py:57-58 - ["".join(data)] and its digest. *)
  Definition token (o : obj) (c : call) : outcome string :=
    omap (String.concat "") (parts o c).
  (** model_utils.py 58 *)
  Definition digest (o : obj) (c : call) : outcome string := omap sha (token o c).

  (* ---------------------------------------------------------------- *)
  (** * Histories *)

  (** What a user can do with a model object. *)
  (** what a user does to a model object between and at calls of model_utils.py 13 *)
  Inductive event :=
  | SetAttr (name : string) (v : pval)        (* model.name = v *)
  | SetPdAttr (name : string) (v : pval)      (* model.particle_distribution.name = v *)
  | SetPdist (pd : pdist)                     (* model.particle_distribution = pd *)
  | Call (c : call).                          (* model.flux(...) *)

  (** model.name = v; read at model_utils.py 55 *)
  Definition set_attr (n : string) (v : pval) (o : obj) : obj :=
    mkObj (o_memoize o) (o_param_names o) (dset n v (o_attrs o)) (o_pdist o).
  (** model.particle_distribution = pd; read at model_utils.py 49 *)
  Definition set_pdist (pd : option pdist) (o : obj) : obj :=
    mkObj (o_memoize o) (o_param_names o) (o_attrs o) pd.
  (** model.particle_distribution.name = v; read at model_utils.py 55 *)
  Definition set_pd_attr (n : string) (v : pval) (o : obj) : obj :=
    set_pdist (option_map (fun pd => mkPd (pd_param_names pd) (dset n v (pd_attrs pd)))
                          (o_pdist o)) o.

  Section Run.
    Variable V : Type.
    (** The wrapped method itself, e.g. BaseRadiative.flux without @memoize. *)
    Variable func : obj -> call -> outcome V.

    (** The outputs of the calls of a history, starting from attributes [o] and
        cache [ca]. *)
    (** a sequence of calls of model_utils.py 13-74 *)
    Fixpoint run (o : obj) (ca : cache V) (h : list event) : list (outcome V) :=
      match h with
      | [] => []
      | SetAttr n v :: r => run (set_attr n v o) ca r
      | SetPdAttr n v :: r => run (set_pd_attr n v o) ca r
      | SetPdist pd :: r => run (set_pdist (Some pd) o) ca r
      | Call c :: r =>
          let '((_, ca'), out) :=
            memoized (o_memoize o) (digest o c) (fun _ : unit => (tt, func o c)) tt ca in
          out :: run o ca' r
      end.

    (** The cache after a history. *)
    (** the cache left by a sequence of calls of model_utils.py 13-74 *)
    Fixpoint cache_after (o : obj) (ca : cache V) (h : list event) : cache V :=
      match h with
      | [] => ca
      | SetAttr n v :: r => cache_after (set_attr n v o) ca r
      | SetPdAttr n v :: r => cache_after (set_pd_attr n v o) ca r
      | SetPdist pd :: r => cache_after (set_pdist (Some pd) o) ca r
      | Call c :: r =>
          let '((_, ca'), _) :=
            memoized (o_memoize o) (digest o c) (fun _ : unit => (tt, func o c)) tt ca in
          cache_after o ca' r
      end.
  End Run.

  (** The calls of a history, each with the attributes in force. *)
  (** the calls of a history, model_utils.py 13 *)
  Fixpoint calls_of (o : obj) (h : list event) : list (obj * call) :=
    match h with
    | [] => []
    | SetAttr n v :: r => calls_of (set_attr n v o) r
    | SetPdAttr n v :: r => calls_of (set_pd_attr n v o) r
    | SetPdist pd :: r => calls_of (set_pdist (Some pd) o) r
    | Call c :: r => (o, c) :: calls_of o r
    end.

  (** Specification: what the same history yields with no cache at all. *)
  (** func itself, model_utils.py 63 *)
  Definition uncached {V} (func : obj -> call -> outcome V) (o : obj) (h : list event)
    : list (outcome V) :=
    map (fun oc => func (fst oc) (snd oc)) (calls_of o h).
End Key.

Arguments mkPd {pval}.
Arguments pd_param_names {pval}.
Arguments pd_attrs {pval}.
Arguments mkObj {pval}.
Arguments o_memoize {pval}.
Arguments o_param_names {pval}.
Arguments o_attrs {pval}.
Arguments o_pdist {pval}.
Arguments mkCall {dist}.
Arguments c_bytes {dist}.
Arguments c_unit {dist}.
Arguments c_distance {dist}.
Arguments c_args {dist}.
Arguments SetAttr {pval dist}.
Arguments SetPdAttr {pval dist}.
Arguments SetPdist {pval dist}.
Arguments Call {pval dist}.
Arguments set_attr {pval}.
Arguments set_pdist {pval}.
Arguments set_pd_attr {pval}.
Arguments calls_of {pval dist}.
Arguments uncached {pval dist V}.

(* ------------------------------------------------------------------ *)
(** * Two objects of one class *)
Section Two.
  Variables (pval dist V : Type).
  Variable show_val : pval -> string.
  Variable show_dist : dist -> string.
  Variable show_args : list dist -> string.
  Variable sha : string -> string.
  Variable func : obj pval -> call dist -> outcome V.

  (** [shared = false]: each instance creates its own [_cache] and [_queue] in
      [__init__] (radiative.py:143-145 BaseElectron, 998-1000 BaseProton).
      [shared = true]: they are class attributes, so all instances use one
      cache (radiative.py:1576-1578 PionDecayKelner06; models.py:76-78 and the
      other spectral models once their [_memoize] is switched on).
      An event is tagged with the object it is applied to ([false] = first).
      The output of a call carries the same tag. *)
  Fixpoint run2 (shared : bool) (o1 o2 : obj pval) (c1 c2 : cache V)
      (h : list (bool * event pval dist)) : list (bool * outcome V) :=
    match h with
    | [] => []
    | (b, e) :: r =>
        let o := if b then o2 else o1 in
        let upd o' := if b then run2 shared o1 o' c1 c2 r else run2 shared o' o2 c1 c2 r in
        match e with
        | SetAttr n v => upd (set_attr n v o)
        | SetPdAttr n v => upd (set_pd_attr n v o)
        | SetPdist pd => upd (set_pdist (Some pd) o)
        | Call c =>
            let second := andb b (negb shared) in
            let '((_, c'), out) :=
              memoized (o_memoize o) (digest pval dist show_val show_dist show_args sha o c)
                (fun _ : unit => (tt, func o c)) tt (if second then c2 else c1) in
            (b, out) :: (if second then run2 shared o1 o2 c1 c' r else run2 shared o1 o2 c' c2 r)
        end
    end.
End Two.

(* ------------------------------------------------------------------ *)
(** * Aliasing: the cache holds the very object handed to the caller *)
Section Heap.
  Variable A : Type.                        (* contents of an array *)
  Variable value : string -> A.             (* freshly computed result for a digest *)

  (** Calls (identified by their digest) interleaved with in-place writes by the
      caller into the array that was returned by its [i]-th call. *)
  (** calls that return cache[digest] or result, model_utils.py 61, 72-74, and writes into the returned array *)
  Inductive hevent := HCall (digest : string) | HWrite (i : nat) (a : A).

  (** an in-place write into an array returned at model_utils.py 61 or 74 *)
  Fixpoint upd_nth (i : nat) (a : A) (l : list A) : list A :=
    match l, i with
    | [], _ => []
    | _ :: r, 0 => a :: r
    | x :: r, S j => x :: upd_nth j a r
    end.

  (** model_utils.py:60-61,63,72,74: the cache stores and returns references;
      the heap [hp] maps a reference (its index) to contents; [rets] are the
      references returned so far.  The output of a call is what the caller sees
      on return. *)
  Fixpoint hrun (enabled : option bool) (hp : list A) (ca : cache nat) (rets : list nat)
      (h : list hevent) : list (option A) :=
    match h with
    | [] => []
    | HWrite i a :: r =>
        match nth_error rets i with
        | Some l => hrun enabled (upd_nth l a hp) ca rets r
        | None => hrun enabled hp ca rets r
        end
    | HCall k :: r =>
        let '((hp', ca'), out) :=
          memoized enabled (Ok k) (fun hp => (hp ++ [value k], Ok (length hp))%list) hp ca in
        match out with
        | Ok l => nth_error hp' l :: hrun enabled hp' ca' (rets ++ [l])%list r
        | Err _ => None :: hrun enabled hp' ca' rets r
        end
    end.

  (** the digests looked up by a history, model_utils.py 60 *)
  Definition hcalls (h : list hevent) : list string :=
    flat_map (fun e => match e with HCall k => [k] | HWrite _ _ => [] end) h.
End Heap.
Arguments HCall {A}.
Arguments HWrite {A}.
