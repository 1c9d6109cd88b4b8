(** Properties C154 and C155: several processes give what one process gives. *)
From Coq Require Import List Arith Bool String Lia Permutation.
From Verif Require Import Outcome MemoModel MemoSpec MemoProofs MemoProofs2 ParModel.
Import ListNotations.

(** Vocabulary.  A schedule for n tasks and w workers: every task exactly once, in any order,
    each on any worker. *)
Definition complete (w n : nat) (s : list (nat * nat)) : Prop :=
  Permutation (map fst s) (seq 0 n) /\ Forall (fun x => snd x < w) s.
(** The memory after evaluating [ts] one after the other. *)
Definition memory {Mem T Res} (eval : Mem -> T -> Mem * Res) (m : Mem) (ts : list T) : Mem :=
  fold_left (fun m t => fst (eval m t)) ts m.
(** The value at t is f t whatever was evaluated before. *)
Definition no_memory_of_the_past {Mem T Res} (eval : Mem -> T -> Mem * Res) (m : Mem) (f : T -> Res) : Prop :=
  forall past t, snd (eval (memory eval m past) t) = f t.

Section P.
  Context {Mem T Res : Type} (eval : Mem -> T -> Mem * Res) (m0 : Mem) (f : T -> Res).
  Hypothesis PURE : no_memory_of_the_past eval m0 f.
  Definition reached (m : Mem) := exists past, m = memory eval m0 past.
  Lemma reached_step m t : reached m -> reached (fst (eval m t)) /\ snd (eval m t) = f t.
  Proof.
    intros (past & ->). split; [|apply PURE]. exists (past ++ [t]). unfold memory. rewrite fold_left_app. reflexivity.
  Qed.
  Lemma serial_pure m ts : reached m -> reached (fst (serial_map eval m ts)) /\ snd (serial_map eval m ts) = map f ts.
  Proof.
    revert m. induction ts as [|t r IH]; intros m H; [split; [exact H|reflexivity]|]. cbn [serial_map].
    destruct (reached_step m t H) as [R1 R2]. destruct (eval m t) as [m1 x]. cbn [fst snd] in *.
    destruct (IH m1 R1) as [I1 I2]. destruct (serial_map eval m1 r) as [m2 xs]. cbn [fst snd] in *. split; [exact I1|]. cbn [map]. congruence.
  Qed.
  Lemma put_reached j m ws : reached m -> Forall reached ws -> Forall reached (put j m ws).
  Proof.
    intros H F. revert j. induction F as [|w r A B IH]; intros j; [destruct j; constructor|]. destruct j; cbn [put]; constructor; auto.
  Qed.
  Lemma put_length j m (ws : list Mem) : List.length (put j m ws) = List.length ws.
  Proof. revert j. induction ws as [|w r IH]; intros [|j]; simpl; auto. Qed.
  Lemma execute_pure s ts : forall ws, Forall reached ws -> Forall (fun x => fst x < List.length ts /\ snd x < List.length ws) s ->
    Forall reached (fst (execute eval s ts ws)) /\ List.length (fst (execute eval s ts ws)) = List.length ws /\
    map fst (snd (execute eval s ts ws)) = map fst s /\
    Forall (fun x => exists t, nth_error ts (fst x) = Some t /\ snd x = f t) (snd (execute eval s ts ws)).
  Proof.
    induction s as [|[i j] r IH]; intros ws F B; [repeat split; [exact F|constructor]|]. inversion B as [|? ? [B1 B2] B3]; subst. cbn [execute fst snd] in *.
    destruct (nth_error ts i) as [t|] eqn:Et; [|apply nth_error_None in Et; lia]. destruct (nth_error ws j) as [m|] eqn:Ew; [|apply nth_error_None in Ew; lia].
    assert (Rm : reached m) by (rewrite Forall_forall in F; apply F; eapply nth_error_In; exact Ew).
    destruct (reached_step m t Rm) as [R1 R2]. destruct (eval m t) as [m1 x]. cbn [fst snd] in *.
    destruct (IH (put j m1 ws)) as (I1 & I2 & I3 & I4).
    - apply put_reached; assumption.
    - rewrite put_length. exact B3.
    - destruct (execute eval r ts (put j m1 ws)) as [ws' out]. cbn [fst snd map] in *. rewrite put_length in I2. repeat split; try assumption; [congruence|].
      constructor; [|exact I4]. exists t. split; [exact Et|exact R2].
  Qed.
  Lemma result_in i x (out : list (nat * Res)) : NoDup (map fst out) -> In (i, x) out -> result i out = Some x.
  Proof.
    induction out as [|[k y] r IH]; intros N H; [destruct H|]. cbn [map fst] in N. inversion N as [|? ? N1 N2]; subst. cbn [result].
    destruct (Nat.eqb_spec k i) as [->|Q].
    - destruct H as [H|H]; [congruence|]. exfalso. apply N1. apply in_map_iff. exists (i, x). auto.
    - destruct H as [H|H]; [congruence|]. apply IH; assumption.
  Qed.
  Lemma pool_pure s ts ws : Forall reached ws -> complete (List.length ws) (List.length ts) s ->
    Forall reached (fst (pool_map eval s ts ws)) /\ List.length (fst (pool_map eval s ts ws)) = List.length ws /\
    snd (pool_map eval s ts ws) = map (fun t => Some (f t)) ts.
  Proof.
    intros F [C1 C2]. destruct (execute_pure s ts ws F) as (I1 & I2 & I3 & I4).
    { rewrite Forall_forall in *. intros x Hx. split; [|apply C2; exact Hx].
      assert (In (fst x) (seq 0 (List.length ts))) by (eapply Permutation_in; [exact C1|apply in_map; exact Hx]). apply in_seq in H. lia. }
    unfold pool_map. destruct (execute eval s ts ws) as [ws' out]. cbn [fst snd] in *. split; [exact I1|]. split; [exact I2|].
    assert (ND : NoDup (map fst out)). { rewrite I3. eapply Permutation_NoDup; [apply Permutation_sym; exact C1|]. apply seq_NoDup. }
    apply nth_ext with (d := None) (d' := None); [rewrite !map_length, seq_length; reflexivity|].
    rewrite map_length, seq_length. intros i Hi.
    rewrite (nth_indep _ None (result 0 out)) by (rewrite map_length, seq_length; exact Hi).
    rewrite (map_nth (fun i => result i out)). rewrite seq_nth by exact Hi. cbn [plus].
    destruct (nth_error ts i) as [t|] eqn:Et; [|apply nth_error_None in Et; lia].
    rewrite (nth_indep _ None (Some (f t))) by (rewrite map_length; exact Hi). rewrite (map_nth (fun t => Some (f t))). rewrite (nth_error_nth _ _ _ Et).
    apply result_in; [exact ND|].
    assert (In i (map fst out)). { rewrite I3. eapply Permutation_in; [apply Permutation_sym; exact C1|]. apply in_seq. lia. }
    apply in_map_iff in H. destruct H as ([k x] & E & H). cbn [fst] in E. subst k.
    rewrite Forall_forall in I4. destruct (I4 _ H) as (t' & E1 & E2). cbn [fst snd] in *. replace t with t' by congruence. rewrite <- E2. exact H.
  Qed.
  Lemma all_there_map (ts : list T) : all_there (map (fun t => Some (f t)) ts) = Some (map f ts).
  Proof. induction ts as [|t r IH]; [reflexivity|]. cbn [map all_there]. rewrite IH. reflexivity. Qed.

  Context {Rng Ens : Type} (propose : Rng -> Ens -> list T) (accept : Rng -> Ens -> list Res -> Rng * Ens).
  Lemma chain_serial_pool sched w n : (forall k j, complete w j (sched k j)) -> forall g e m ws,
    reached m -> Forall reached ws -> List.length ws = w ->
    chain_pool eval propose accept sched n g e ws = Some (chain_serial eval propose accept n g e m).
  Proof.
    intros HS. induction n as [|n IH]; intros g e m ws Rm Rw L; [reflexivity|]. cbn [chain_pool chain_serial].
    destruct (serial_pure m (propose g e) Rm) as [S1 S2]. destruct (pool_pure (sched n (List.length (propose g e))) (propose g e) ws Rw) as (P1 & P2 & P3).
    { rewrite L. apply HS. }
    destruct (serial_map eval m (propose g e)) as [m' xs]. destruct (pool_map eval _ (propose g e) ws) as [ws' out]. cbn [fst snd] in *.
    rewrite P3, all_there_map, <- S2. destruct (accept g e xs) as [g' e']. rewrite (IH g' e' m' ws' S1 P1) by congruence. reflexivity.
  Qed.
End P.

(** C154.  If the value of the log-probability (with its blobs) at given parameters does not
    depend on what the process evaluated before, then the chain does not depend on the number
    of threads nor on the way the tasks are spread over the processes: it is the one of a
    single process. *)
Theorem C154_chain : forall (Mem T Res Rng Ens : Type) (eval : Mem -> T -> Mem * Res) (m : Mem) (f : T -> Res)
    (propose : Rng -> Ens -> list T) (accept : Rng -> Ens -> list Res -> Rng * Ens) threads sched n g e,
  no_memory_of_the_past eval m f -> (forall k j, complete threads j (sched k j)) ->
  chain eval propose accept threads sched n g e m = Some (chain_serial eval propose accept n g e m).
Proof.
  intros Mem T Res Rng Ens eval m f propose accept threads sched n g e PURE HS. unfold chain.
  destruct (Nat.ltb_spec 1 threads); [|reflexivity].
  assert (R0 : reached eval m m) by (exists []; reflexivity).
  apply (chain_serial_pool eval m f PURE propose accept sched threads); try assumption.
  - apply Forall_forall. intros x Hx. apply repeat_spec in Hx. subst. exact R0.
  - apply repeat_length.
Qed.
Print Assumptions C154_chain.

(** One map: the results arrive in the order of the tasks. *)
Theorem C154_map : forall (Mem T Res : Type) (eval : Mem -> T -> Mem * Res) (m : Mem) (f : T -> Res) past w s ts,
  no_memory_of_the_past eval m f -> complete w (List.length ts) s -> List.length past = w ->
  snd (pool_map eval s ts (map (memory eval m) past)) = map (fun t => Some (f t)) ts /\ snd (serial_map eval m ts) = map f ts.
Proof.
  intros Mem T Res eval m f past w s ts PURE HS L. split.
  - apply (pool_pure eval m f PURE).
    + apply Forall_forall. intros x Hx. apply in_map_iff in Hx. destruct Hx as (h & <- & _). exists h. reflexivity.
    + rewrite map_length, L. exact HS.
  - apply (serial_pure eval m f PURE). exists []. reflexivity.
Qed.
Print Assumptions C154_map.

Section F.
  Context {pval dist V P Rng Ens : Type} (show_val : pval -> string) (show_dist : dist -> string) (show_args : list dist -> string)
    (sha : string -> string) (func : obj pval -> call dist -> outcome V).
  Notation kept := (eval_kept pval dist V P show_val show_dist show_args sha func).
  Notation digest := (digest pval dist show_val show_dist show_args sha).
  Notation run := (run pval dist show_val show_dist show_args sha V func).
  Notation cache_after := (cache_after pval dist show_val show_dist show_args sha V func).
  Variables (propose : Rng -> Ens -> list P) (accept : Rng -> Ens -> list (list (outcome V)) -> Rng * Ens).

  (** Model functions that build their model objects from the parameters (the examples of the
      documentation): no condition on the objects, the calls or the printed values. *)
  Theorem C154_own_objects : forall (make : P -> obj pval) (script : P -> list (event pval dist)) threads sched n g e,
    (forall k j, complete threads j (sched k j)) ->
    chain (eval_fresh pval dist V P show_val show_dist show_args sha func make script) propose accept threads sched n g e tt =
    Some (chain_serial (eval_fresh pval dist V P show_val show_dist show_args sha func make script) propose accept n g e tt).
  Proof.
    intros make script threads sched n g e HS.
    apply C154_chain with (f := fun p => run (make p) empty_cache (script p)); [|exact HS].
    intros past t. reflexivity.
  Qed.

  (** Every evaluation sets all that it uses of the object it keeps. *)
  Definition sets_all (o : obj pval) (script : P -> list (event pval dist)) : Prop :=
    forall past p, calls_of (fold_left (fun o q => obj_after o (script q)) past o) (script p) = calls_of o (script p).
  (** Calls with the same digest have the same value (C01 to C05 say when this is so). *)
  Definition no_confusion (o : obj pval) (script : P -> list (event pval dist)) : Prop :=
    forall p q o1 c1 o2 c2 k, In (o1, c1) (calls_of o (script p)) -> In (o2, c2) (calls_of o (script q)) ->
      digest o1 c1 = Ok k -> digest o2 c2 = Ok k -> func o1 c1 = func o2 c2.

  (** every entry of the cache is the value of some call that had this digest *)
  Definition from (ok : obj pval -> call dist -> Prop) (ca : cache V) : Prop :=
    forall k v, In (k, v) (entries ca) -> exists o c, ok o c /\ digest o c = Ok k /\ func o c = Ok v.
  Lemma evict_from ok ca : from ok ca -> from ok (evict ca).
  Proof.
    intros H k v IN. unfold evict in IN. destruct (16 <? List.length (queue ca)); [|apply H; exact IN].
    destruct (queue ca); [apply H; exact IN|]. cbn [entries] in IN. apply ddel_In in IN. apply H. exact IN.
  Qed.
  Lemma run_from ok h : forall o ca, from ok ca ->
    (forall o1 c1, In (o1, c1) (calls_of o h) -> ok o1 c1 /\ exists k, digest o1 c1 = Ok k) ->
    (forall o1 c1 o2 c2 k, ok o1 c1 -> ok o2 c2 -> digest o1 c1 = Ok k -> digest o2 c2 = Ok k -> func o1 c1 = func o2 c2) ->
    run o ca h = uncached func o h /\ from ok (cache_after o ca h).
  Proof.
    induction h as [|ev r IH]; intros o ca HF HO HC; [split; [reflexivity|exact HF]|].
    destruct ev as [n v|n v|pd|c]; cbn [MemoModel.run MemoModel.cache_after]; try (apply (IH _ ca HF); assumption).
    cbn [calls_of] in HO. destruct (HO o c (or_introl eq_refl)) as [O1 (k & Dk)].
    assert (HO' : forall o1 c1, In (o1, c1) (calls_of o r) -> ok o1 c1 /\ exists k, digest o1 c1 = Ok k) by (intros; apply HO; right; assumption).
    unfold memoized. unfold uncached. cbn [calls_of map fst snd]. fold (uncached func o r).
    destruct (o_memoize o) as [[|]|].
    - rewrite Dk. destruct (dget k (entries ca)) as [v|] eqn:G.
      + apply dget_In in G. destruct (HF k v G) as (o' & c' & A1 & A2 & A3).
        destruct (IH o ca HF HO' HC) as [I1 I2]. split; [|exact I2]. rewrite I1. f_equal. rewrite <- A3. apply (HC o' c' o c k); assumption.
      + destruct (func o c) as [v|e] eqn:FE.
        * assert (HF' : from ok (store k v ca)).
          { intros k' v' IN. unfold store in IN. cbn [entries] in IN. apply dset_In in IN. destruct IN as [E|IN]; [|apply (evict_from ok ca HF); exact IN].
            injection E as -> ->. exists o, c. auto. }
          destruct (IH o (store k v ca) HF' HO' HC) as [I1 I2]. split; [rewrite I1; reflexivity|exact I2].
        * destruct (IH o ca HF HO' HC) as [I1 I2]. split; [rewrite I1; reflexivity|exact I2].
    - destruct (IH o ca HF HO' HC) as [I1 I2]. split; [rewrite I1; reflexivity|exact I2].
    - destruct (IH o ca HF HO' HC) as [I1 I2]. split; [rewrite I1; reflexivity|exact I2].
  Qed.
  Lemma kept_pure o script : sets_all o script -> no_confusion o script ->
    (forall p o1 c1, In (o1, c1) (calls_of o (script p)) -> exists k, digest o1 c1 = Ok k) ->
    no_memory_of_the_past (kept script) (o, empty_cache) (fun p => uncached func o (script p)).
  Proof.
    intros SA NC DG.
    set (ok := fun o1 c1 => exists p, In (o1, c1) (calls_of o (script p))).
    assert (OKC : forall o1 c1 o2 c2 k, ok o1 c1 -> ok o2 c2 -> digest o1 c1 = Ok k -> digest o2 c2 = Ok k -> func o1 c1 = func o2 c2).
    { intros o1 c1 o2 c2 k (p & Hp) (q & Hq). apply NC with (p := p) (q := q); assumption. }
    assert (INV : forall past, fst (memory (kept script) (o, empty_cache) past) = fold_left (fun o q => obj_after o (script q)) past o /\
                  from ok (snd (memory (kept script) (o, empty_cache) past))).
    { intros past. induction past as [|p past IH] using rev_ind.
      - split; [reflexivity|]. intros k v [].
      - unfold memory in *. rewrite !fold_left_app. cbn [fold_left]. destruct IH as [I1 I2]. set (m := fold_left _ past (o, empty_cache)) in *.
        unfold eval_kept. cbn [fst snd]. rewrite I1. split; [reflexivity|].
        apply (run_from ok (script p)); [exact I2| |exact OKC].
        intros o1 c1 IN. rewrite SA in IN. split; [exists p; exact IN|]. apply (DG p). exact IN. }
    intros past p. destruct (INV past) as [I1 I2]. set (m := memory (kept script) (o, empty_cache) past) in *. unfold eval_kept. cbn [snd fst]. rewrite I1.
    destruct (run_from ok (script p) (fold_left (fun o q => obj_after o (script q)) past o) (snd m)) as [R1 _];
      [exact I2| |exact OKC|].
    - intros o1 c1 IN. rewrite SA in IN. split; [exists p; exact IN|]. apply (DG p). exact IN.
    - rewrite R1. unfold uncached. rewrite SA. reflexivity.
  Qed.

  (** C155, partial: model functions that keep a model object (with its cache) between
      evaluations, when no two calls are confused. *)
  Theorem C155_kept_object_partial : forall o script threads sched n g e,
    sets_all o script -> no_confusion o script ->
    (forall p o1 c1, In (o1, c1) (calls_of o (script p)) -> declared_present o1) ->
    (forall k j, complete threads j (sched k j)) ->
    chain (kept script) propose accept threads sched n g e (o, empty_cache) =
    Some (chain_serial (fun (m : unit) p => (m, uncached func o (script p))) propose accept n g e tt).
  Proof.
    intros o script threads sched n g e SA NC DP HS.
    assert (PU : no_memory_of_the_past (kept script) (o, empty_cache) (fun p => uncached func o (script p))).
    { apply kept_pure; try assumption. intros p o1 c1 IN. apply present_ok. apply (DP p o1 c1 IN). }
    rewrite (C154_chain _ _ _ _ _ (kept script) (o, empty_cache) _ propose accept threads sched n g e PU HS). f_equal.
    assert (PU2 : no_memory_of_the_past (fun (m : unit) p => (m, uncached func o (script p))) tt (fun p => uncached func o (script p))) by (intros ? ?; reflexivity).
    assert (X : forall n g e past past2, chain_serial (kept script) propose accept n g e (memory (kept script) (o, empty_cache) past) =
                     chain_serial (fun (m : unit) p => (m, uncached func o (script p))) propose accept n g e past2).
    { clear n g e. induction n as [|n IH]; intros g e past past2; [reflexivity|]. cbn [chain_serial].
      destruct (serial_pure (kept script) (o, empty_cache) _ PU (memory (kept script) (o, empty_cache) past) (propose g e)) as [(h & A1) A2]; [exists past; reflexivity|].
      destruct past2. destruct (serial_pure (fun (m : unit) p => (m, uncached func o (script p))) tt _ PU2 tt (propose g e)) as [_ B2]; [exists []; reflexivity|].
      destruct (serial_map (kept script) _ (propose g e)) as [m1 x1]. destruct (serial_map (fun (m : unit) p => (m, uncached func o (script p))) tt (propose g e)) as [m2 x2].
      cbn [fst snd] in *. subst. destruct (accept g e (map _ (propose g e))) as [g' e']. f_equal. apply IH. }
    exact (X n g e [] tt).
  Qed.

  (** C155: with caching off nothing can be confused. *)
  Theorem C155_cache_off_partial : forall o script threads sched n g e,
    sets_all o script ->
    o_memoize o <> Some true ->
    (forall k j, complete threads j (sched k j)) ->
    chain (kept script) propose accept threads sched n g e (o, empty_cache) =
    Some (chain_serial (kept script) propose accept n g e (o, empty_cache)).
  Proof.
    intros o script threads sched n g e SA HM HS.
    apply C154_chain with (f := fun p => uncached func o (script p)); [|exact HS].
    assert (MO : forall (h : list (event pval dist)) (o' : obj pval), o_memoize o' <> Some true -> o_memoize (obj_after o' h) <> Some true).
    { induction h as [|[? ?|? ?|?|?] r IH]; intros o' H; cbn [obj_after]; try (apply IH; exact H). exact H. }
    assert (INV : forall past, fst (memory (kept script) (o, empty_cache) past) = fold_left (fun o q => obj_after o (script q)) past o /\
                   o_memoize (fold_left (fun o q => obj_after o (script q)) past o) <> Some true).
    { intros past. induction past as [|p past IH] using rev_ind; [split; [reflexivity|exact HM]|].
      unfold memory in *. rewrite !fold_left_app. cbn [fold_left]. destruct IH as [I1 I2]. unfold eval_kept at 1. cbn [fst]. rewrite I1. split; [reflexivity|]. apply MO. exact I2. }
    intros past p. destruct (INV past) as [I1 I2]. set (m := memory (kept script) (o, empty_cache) past) in *. unfold eval_kept. cbn [snd fst]. rewrite I1.
    rewrite (run_disabled pval dist V show_val show_dist show_args sha func (script p) _ _ I2). unfold uncached. rewrite SA. reflexivity.
  Qed.

  (** C155 refuted (code defect): two parameter sets that C03 confuses.  One process returns
      the value of the first for both; two processes, each taking one, return both values. *)
  Theorem C155_threads_refuted : forall own attrs a20 a201 e110 e10 amp e0 beta c v1 v2 (p q : P) (script : P -> list (event pval dist)),
    show_val a20 = "2.0"%string -> show_val e110 = "110.0 TeV"%string -> show_val a201 = "2.01"%string -> show_val e10 = "10.0 TeV"%string ->
    let pd alpha cut := mkPd (Some ["amplitude"; "e_0"; "alpha"; "e_cutoff"; "beta"]%string)
                   [("amplitude", amp); ("e_0", e0); ("alpha", alpha); ("e_cutoff", cut); ("beta", beta)]%string in
    let o alpha cut := mkObj (Some true) (Some own) attrs (Some (pd alpha cut)) in
    declared_present (o a20 e110) ->
    script p = [SetPdAttr "alpha"%string a20; SetPdAttr "e_cutoff"%string e110; Call c] ->
    script q = [SetPdAttr "alpha"%string a201; SetPdAttr "e_cutoff"%string e10; Call c] ->
    func (o a20 e110) c = Ok v1 -> func (o a201 e10) c = Ok v2 ->
    let m := (o a20 e110, empty_cache) in
    complete 2 2 [(0, 0); (1, 1)] /\
    snd (serial_map (kept script) m [p; q]) = [[Ok v1]; [Ok v1]] /\
    snd (pool_map (kept script) [(0, 0); (1, 1)] [p; q] [m; m]) = [Some [Ok v1]; Some [Ok v2]].
  Proof.
    intros own attrs a20 a201 e110 e10 amp e0 beta c v1 v2 p q script H1 H2 H3 H4 pd o HP Sp Sq F1 F2 m.
    destruct (present_ok pval dist show_val show_dist show_args sha (o a20 e110) c HP) as [k Hk].
    assert (Hk' : digest (o a201 e10) c = Ok k).
    { rewrite <- Hk. destruct (mapM (show_attr pval show_val attrs) own) as [l|er] eqn:HM.
      - rewrite (digest_sconcat pval dist show_val show_dist show_args sha (o a20 e110) c
                   (l ++ [show_val amp; show_val e0; "2.0"%string; "110.0 TeV"%string; show_val beta])%list).
        2:{ unfold obj_parts; simpl. rewrite HM. simpl. unfold show_attr; simpl. rewrite H1, H2. reflexivity. }
        rewrite (digest_sconcat pval dist show_val show_dist show_args sha (o a201 e10) c
                   (l ++ [show_val amp; show_val e0; "2.01"%string; "10.0 TeV"%string; show_val beta])%list).
        2:{ unfold obj_parts; simpl. rewrite HM. simpl. unfold show_attr; simpl. rewrite H3, H4. reflexivity. }
        rewrite !sconcat_app. reflexivity.
      - exfalso. unfold MemoModel.digest, token, MemoModel.parts, obj_parts in Hk. simpl in Hk. rewrite HM in Hk. discriminate. }
    assert (E1 : kept script m p = ((o a20 e110, store k v1 empty_cache), [Ok v1])).
    { unfold eval_kept, m. cbn [fst snd]. rewrite Sp. cbn [obj_after MemoModel.cache_after MemoModel.run].
      change (set_pd_attr "e_cutoff" e110 (set_pd_attr "alpha" a20 (o a20 e110))) with (o a20 e110).
      unfold memoized. change (o_memoize (o a20 e110)) with (Some true). cbv iota. rewrite Hk. cbn [empty_cache entries dget]. rewrite F1. reflexivity. }
    assert (E2 : kept script m q = ((o a201 e10, store k v2 empty_cache), [Ok v2])).
    { unfold eval_kept, m. cbn [fst snd]. rewrite Sq. cbn [obj_after MemoModel.cache_after MemoModel.run].
      change (set_pd_attr "e_cutoff" e10 (set_pd_attr "alpha" a201 (o a20 e110))) with (o a201 e10).
      unfold memoized. change (o_memoize (o a201 e10)) with (Some true). cbv iota. rewrite Hk'. cbn [empty_cache entries dget]. rewrite F2. reflexivity. }
    assert (E3 : snd (kept script (o a20 e110, store k v1 empty_cache) q) = [Ok v1]).
    { unfold eval_kept. cbn [fst snd]. rewrite Sq. cbn [MemoModel.run].
      change (set_pd_attr "e_cutoff" e10 (set_pd_attr "alpha" a201 (o a20 e110))) with (o a201 e10).
      unfold memoized. change (o_memoize (o a201 e10)) with (Some true). cbv iota. rewrite Hk'. unfold store, empty_cache, evict. cbn. rewrite String.eqb_refl. reflexivity. }
    split; [|split].
    - split; [apply Permutation_refl|]. repeat constructor.
    - cbn [serial_map]. rewrite E1. destruct (kept script (o a20 e110, store k v1 empty_cache) q) as [m2 x]. cbn [snd] in E3. subst x. reflexivity.
    - unfold pool_map. cbn [execute nth_error]. rewrite E1. cbn [put nth_error]. rewrite E2. cbn. reflexivity.
  Qed.
End F.
Print Assumptions C155_threads_refuted.
Print Assumptions C154_own_objects.
Print Assumptions C155_kept_object_partial.
Print Assumptions C155_cache_off_partial.

(** The hypotheses can be met: an object with one declared parameter that every evaluation
    sets, with three threads and tasks handed out in turn. *)
Definition in_turn (w n : nat) : list (nat * nat) := map (fun i => (i, i mod w)) (seq 0 n).
Example C154_example : (forall j, complete 3 j (in_turn 3 j)) /\
  let o := mkObj (Some true) (Some ["B"%string]) [("B"%string, 1)] None in
  let script := fun p : nat => [SetAttr (dist := nat) "B"%string p; Call (mkCall "E" "eV" None [])] in
  sets_all o script /\ (forall p o1 c1, In (o1, c1) (calls_of o (script p)) -> declared_present o1) /\
  no_confusion (fun n => if Nat.eqb n 1 then "1" else "2")%string (fun _ => "d"%string) (fun _ => ""%string) (fun s => s) (fun o1 _ => Ok (match dget "B"%string (o_attrs o1) with Some 1 => true | _ => false end)) o script.
Proof.
  split.
  { intros j. unfold complete, in_turn. split.
    - rewrite map_map. cbn [fst]. rewrite map_id. apply Permutation_refl.
    - apply Forall_forall. intros x Hx. apply in_map_iff in Hx. destruct Hx as (i & <- & _). cbn [snd]. apply Nat.mod_upper_bound. lia. }
  intros o script.
  assert (C : forall p, calls_of o (script p) = [(mkObj (Some true) (Some ["B"%string]) [("B"%string, p)] None, mkCall "E" "eV" None [])]) by reflexivity.
  split; [|split].
  - intros past p. assert (X : exists b, fold_left (fun o q => obj_after o (script q)) past o = mkObj (Some true) (Some ["B"%string]) [("B"%string, b)] None).
    { induction past as [|q past IH] using rev_ind; [exists 1; reflexivity|]. rewrite fold_left_app. destruct IH as (b & ->). exists q. reflexivity. }
    destruct X as (b & ->). reflexivity.
  - intros p o1 c1. rewrite C. intros [[= <- <-]|[]]. intros [H|[]]. discriminate.
  - intros p q o1 c1 o2 c2 k. rewrite !C. intros [[= <- <-]|[]] [[= <- <-]|[]]. unfold digest, token, parts, obj_parts. simpl. unfold show_attr. simpl.
    intros D1 D2. rewrite <- D1 in D2. destruct (Nat.eqb_spec p 1) as [->|Np], (Nat.eqb_spec q 1) as [->|Nq]; try discriminate; try reflexivity.
    destruct p as [|[|p]], q as [|[|q]]; try reflexivity; congruence.
Qed.
