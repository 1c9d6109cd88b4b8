(** Theorems about the result cache: C01-C07. *)
From Coq Require Import String List Arith Bool Lia.
From Verif Require Import Outcome MemoModel MemoSpec MemoProofs MemoProofs2.
Import ListNotations.
Local Open Scope string_scope.

Section Props.
  Variables (pval dist V : Type).
  Variable show_val : pval -> string.
  Variable show_dist : dist -> string.
  Variable show_args : list dist -> string.
  Variable sha : string -> string.
  Variable func : obj pval -> call dist -> outcome V.
  Notation run := (run pval dist show_val show_dist show_args sha V func).
  Notation cache_after := (cache_after pval dist show_val show_dist show_args sha V func).
  Notation digest := (digest pval dist show_val show_dist show_args sha).
  Notation parts := (parts pval dist show_val show_dist show_args sha).
  Notation hashed := (hashed pval dist show_val show_dist show_args sha).

  (** C01. Every history of calls and assignments yields the uncached results,
      provided: the method depends only on the declared parameters; printing is
      injective; sha256 has no collision among the strings of this history;
      explicit distances do not print as "0"; and the printed values of any two
      calls are delimited.  Partial: without the last two conditions it is false
      (C02, C03), without the first too (C05). *)
  Theorem C01_memo_transparent_partial (o : obj pval) (h : list (event pval dist)) :
    depends_only_on_declared func ->
    (forall a b, show_val a = show_val b -> a = b) ->
    (forall a b, show_dist a = show_dist b -> a = b) ->
    injective_on show_args (map (fun oc => c_args (snd oc)) (calls_of o h)) ->
    injective_on sha (hashed o h) ->
    (forall o1 c1, In (o1, c1) (calls_of o h) -> declared_present o1) ->
    (forall o1 c1 d, In (o1, c1) (calls_of o h) -> c_distance c1 = Some d -> show_dist d <> "0") ->
    (forall o1 c1 o2 c2 l1 l2, In (o1, c1) (calls_of o h) -> In (o2, c2) (calls_of o h) ->
       parts o1 c1 = Ok l1 -> parts o2 c2 = Ok l2 ->
       length (declared_values o1) = length (declared_values o2) /\ delimited l1 l2) ->
    run o empty_cache h = uncached func o h.
  Proof. exact (memo_transparent pval dist V show_val show_dist show_args sha func o h). Qed.

  (** C01, parameter scans: with everything else fixed, any sequence of
      assignments to one declared parameter of the model, interleaved with one
      repeated call, is transparent - no condition on how values are printed
      beyond injectivity. *)
  Theorem C01_scan_transparent_partial (o : obj pval) (h : list (event pval dist)) n c ns :
    depends_only_on_declared func ->
    (forall a b, show_val a = show_val b -> a = b) ->
    injective_on sha (hashed o h) ->
    o_param_names o = Some ns -> NoDup ns -> In n ns -> declared_present o ->
    Forall (fun e => (exists v, e = SetAttr n v) \/ e = Call c) h ->
    run o empty_cache h = uncached func o h.
  Proof. exact (scan_own pval dist V show_val show_dist show_args sha func o h n c ns). Qed.

  (** C01: with caching off (or its attributes missing) every history is
      transparent, with no condition at all. *)
  Theorem C01_disabled_transparent_partial (o : obj pval) (ca : cache V) (h : list (event pval dist)) :
    o_memoize o <> Some true -> run o ca h = uncached func o h.
  Proof. intros H. exact (run_disabled pval dist V show_val show_dist show_args sha func h o ca H). Qed.

  (** C02 refuted: for every model object with caching on, flux(E) followed by
      flux(E, distance=0) returns the flux at 1 kpc a second time, whatever the
      intrinsic luminosity is (str(0) = "0" is also the key of an omitted
      distance). *)
  Theorem C02_default_distance_refuted (o : obj pval) b u d0 v1 :
    show_dist d0 = "0" ->
    o_memoize o = Some true -> declared_present o ->
    func o (mkCall b u None []) = Ok v1 ->
    run o empty_cache [Call (mkCall b u None []); Call (mkCall b u (Some d0) [])] = [Ok v1; Ok v1].
  Proof.
    intros H0 HM HP HF.
    destruct (present_ok pval dist show_val show_dist show_args sha o (mkCall b u None []) HP) as [k Hk].
    assert (Hk' : digest o (mkCall b u (Some d0) []) = Ok k).
    { rewrite <- Hk. unfold MemoModel.digest, token, MemoModel.parts, call_parts; simpl. now rewrite H0. }
    simpl. unfold memoized. rewrite HM, Hk, HF, Hk'. simpl. rewrite String.eqb_refl. reflexivity.
  Qed.

  (** C02 partial: calls that always give the distance explicitly (by keyword)
      are never confused, zero or not. *)
  Theorem C02_explicit_distance_partial (o : obj pval) b u (ds : list dist) :
    (forall x y, show_dist x = show_dist y -> x = y) ->
    declared_present o ->
    injective_on sha (hashed o (map (fun d => Call (mkCall b u (Some d) [])) ds)) ->
    run o empty_cache (map (fun d => Call (mkCall b u (Some d) [])) ds)
    = map (fun d => func o (mkCall b u (Some d) [])) ds.
  Proof.
    intros SD HP HS.
    assert (HC : calls_of o (map (fun d => Call (mkCall b u (Some d) [])) ds)
                 = map (fun d => (o, mkCall b u (Some d) [])) ds).
    { clear. induction ds; simpl; congruence. }
    transitivity (uncached func o (map (fun d => Call (mkCall b u (Some d) [])) ds)).
    2:{ unfold uncached. rewrite HC, map_map. reflexivity. }
    apply run_correct with (past := []).
    - intros ? ? [].
    - simpl. rewrite HC. intros o1 c1 o2 c2 k I1 I2 D1 D2.
      pose proof I1 as J1. pose proof I2 as J2.
      apply in_map_iff in I1, I2. destruct I1 as (d1 & [= <- <-] & _). destruct I2 as (d2 & [= <- <-] & _).
      f_equal. f_equal. f_equal. apply SD.
      unfold MemoModel.digest in D1, D2.
      destruct (omap_ok _ _ _ D1) as (t1 & T1 & ->). destruct (omap_ok _ _ _ D2) as (t2 & T2 & E).
      assert (t1 = t2).
      { apply HS; auto; unfold MemoProofs.hashed; apply in_flat_map; rewrite HC.
        - eexists; split; [exact J1|]. simpl fst; simpl snd. rewrite T1. simpl; auto.
        - eexists; split; [exact J2|]. simpl fst; simpl snd. rewrite T2. simpl; auto. }
      subst t2. unfold token in T1, T2.
      destruct (omap_ok _ _ _ T1) as (l1 & P1 & E1). destruct (omap_ok _ _ _ T2) as (l2 & P2 & E2).
      rewrite sconcat_concat in E1, E2. subst t1.
      unfold MemoModel.parts in P1, P2.
      destruct (omap_ok _ _ _ P1) as (q1 & Q1 & ->). destruct (omap_ok _ _ _ P2) as (q2 & Q2 & ->).
      rewrite Q1 in Q2. injection Q2 as <-. simpl in E2.
      apply sapp_inv in E2. apply sapp_inv in E2. now apply sapp_inv_r in E2.
    - intros o1 c1 I. rewrite HC in I. apply in_map_iff in I. destruct I as (d & [= <- <-] & _).
      apply present_ok; auto.
  Qed.

  (** C03 refuted: a radiative model whose particle distribution is an
      ExponentialCutoffPowerLaw (parameters amplitude, e_0, alpha, e_cutoff,
      beta).  After a call with alpha=2.0, e_cutoff=110 TeV, setting alpha=2.01
      and e_cutoff=10 TeV and repeating the call returns the old result, because
      "2.0"+"110.0 TeV" and "2.01"+"10.0 TeV" join to the same string. *)
  Theorem C03_parameter_confusion_refuted own attrs a20 a201 e110 e10 amp e0 beta c v1 :
    show_val a20 = "2.0" -> show_val e110 = "110.0 TeV" ->
    show_val a201 = "2.01" -> show_val e10 = "10.0 TeV" ->
    let pd := mkPd (Some ["amplitude"; "e_0"; "alpha"; "e_cutoff"; "beta"])
                   [("amplitude", amp); ("e_0", e0); ("alpha", a20); ("e_cutoff", e110); ("beta", beta)] in
    let o := mkObj (Some true) (Some own) attrs (Some pd) in
    declared_present o ->
    func o c = Ok v1 ->
    run o empty_cache [Call c; SetPdAttr "alpha" a201; SetPdAttr "e_cutoff" e10; Call c] = [Ok v1; Ok v1].
  Proof.
    intros H1 H2 H3 H4 pd o HP HF.
    destruct (present_ok pval dist show_val show_dist show_args sha o c HP) as [k Hk].
    set (o' := set_pd_attr "e_cutoff" e10 (set_pd_attr "alpha" a201 o)).
    assert (Hk' : digest o' c = Ok k).
    { rewrite <- Hk.
      destruct (mapM (show_attr pval show_val attrs) own) as [l|e] eqn:HM.
      - rewrite (digest_sconcat pval dist show_val show_dist show_args sha o c
                   (l ++ [show_val amp; show_val e0; "2.0"; "110.0 TeV"; show_val beta])%list).
        2:{ unfold obj_parts; simpl. rewrite HM. simpl. unfold show_attr; simpl. rewrite H1, H2. reflexivity. }
        rewrite (digest_sconcat pval dist show_val show_dist show_args sha o' c
                   (l ++ [show_val amp; show_val e0; "2.01"; "10.0 TeV"; show_val beta])%list).
        2:{ unfold obj_parts; simpl. rewrite HM. simpl. unfold show_attr; simpl. rewrite H3, H4. reflexivity. }
        rewrite !sconcat_app. reflexivity.
      - exfalso. unfold MemoModel.digest, token, MemoModel.parts, obj_parts in Hk. simpl in Hk.
        rewrite HM in Hk. discriminate. }
    simpl. unfold memoized. rewrite Hk, HF. simpl. fold o'.
    change (o_memoize o') with (Some true). cbv iota. rewrite Hk'. simpl. rewrite String.eqb_refl. reflexivity.
  Qed.

  (** C01 refuted: whenever the method tells those two parameter sets apart, the cached
      history is not the uncached one. *)
  Theorem C01_memo_transparent_refuted own attrs a20 a201 e110 e10 amp e0 beta c v1 :
    show_val a20 = "2.0" -> show_val e110 = "110.0 TeV" ->
    show_val a201 = "2.01" -> show_val e10 = "10.0 TeV" ->
    let names := Some ["amplitude"; "e_0"; "alpha"; "e_cutoff"; "beta"] in
    let o := mkObj (Some true) (Some own) attrs (Some (mkPd names [("amplitude", amp); ("e_0", e0); ("alpha", a20); ("e_cutoff", e110); ("beta", beta)])) in
    let o' := mkObj (Some true) (Some own) attrs (Some (mkPd names [("amplitude", amp); ("e_0", e0); ("alpha", a201); ("e_cutoff", e10); ("beta", beta)])) in
    declared_present o ->
    func o c = Ok v1 -> func o' c <> Ok v1 ->
    let h := [Call c; SetPdAttr "alpha" a201; SetPdAttr "e_cutoff" e10; Call c] in
    run o empty_cache h <> uncached func o h.
  Proof.
    intros H1 H2 H3 H4 names o o' HP HF HN h. unfold o, h, names.
    rewrite (C03_parameter_confusion_refuted own attrs a20 a201 e110 e10 amp e0 beta c v1 H1 H2 H3 H4 HP HF).
    cbn. intros E. injection E as E1 E2. apply HN. symmetry. exact E2.
  Qed.

  (** C03 partial: two calls whose printed parts are delimited and that share
      the digest print the same parts, i.e. agree on every declared value. *)
  Theorem C03_delimited_partial (o1 o2 : obj pval) c1 c2 k l1 l2 :
    (forall x y, sha x = sha y -> x = y) ->
    (forall a b, show_val a = show_val b -> a = b) ->
    parts o1 c1 = Ok l1 -> parts o2 c2 = Ok l2 -> delimited l1 l2 ->
    c_args c1 = c_args c2 ->
    digest o1 c1 = Ok k -> digest o2 c2 = Ok k ->
    l1 = l2 /\ declared_values o1 = declared_values o2.
  Proof.
    intros HS SV P1 P2 HD HA D1 D2.
    unfold MemoModel.digest in D1, D2.
    destruct (omap_ok _ _ _ D1) as (t1 & T1 & ->). destruct (omap_ok _ _ _ D2) as (t2 & T2 & E).
    apply HS in E. subst t2. unfold token in T1, T2. rewrite P1 in T1. rewrite P2 in T2.
    simpl in T1, T2. injection T1 as E1. injection T2 as E2. rewrite sconcat_concat in E1, E2.
    assert (l1 = l2) by (apply delimited_inj; congruence). split; auto. subst l2.
    unfold MemoModel.parts in P1, P2.
    destruct (omap_ok _ _ _ P1) as (q1 & Q1 & ->). destruct (omap_ok _ _ _ P2) as (q2 & Q2 & EQ).
    assert (q1 = q2).
    { unfold call_parts in EQ. simpl in EQ. injection EQ as _ _ _ EQ. rewrite HA in EQ.
      apply app_inv_head in EQ. auto. }
    subst q2. apply map_show_inj with (show_val := show_val); auto.
    erewrite (obj_parts_values pval show_val _ _ Q1), (obj_parts_values pval show_val _ _ Q2). reflexivity.
  Qed.

  (** C04. After any history the cache has at most 17 entries, its keys are
      exactly the queue (same order, no repetition), and the queue is the last
      17 digests of an ideal first-in first-out window. *)
  Theorem C04_cache_bounded_fifo (o : obj pval) (h : list (event pval dist)) :
    let ca := cache_after o empty_cache h in
    (length (entries ca) <= 17)%nat /\ NoDup (queue ca) /\ dkeys (entries ca) = queue ca /\
    (o_memoize o = Some true ->
     queue ca = lastn 17 (window (flat_map
       (fun oc => match digest (fst oc) (snd oc) with
                  | Ok k => [(k, match func (fst oc) (snd oc) with Ok _ => true | Err _ => false end)]
                  | Err _ => []
                  end) (calls_of o h)))).
  Proof.
    intros ca. pose proof (cache_after_ok pval dist V show_val show_dist show_args sha func h o _ empty_ok) as (HK & HN & HL).
    fold ca in HK, HN, HL. repeat split; auto.
    - rewrite <- (map_length fst). change (length (dkeys (entries ca)) <= 17)%nat. rewrite HK. auto.
    - intros HM. apply fifo_gen; auto using empty_ok.
  Qed.

  (** C05 refuted: when the particle distribution declares no parameters (a
      TableModel, a plain function), changing its amplitude - or replacing it by
      any other such distribution - is not seen by the next identical call. *)
  Theorem C05_undeclared_distribution_refuted (o : obj pval) pd n v pd' c v1 :
    o_memoize o = Some true -> declared_present o ->
    o_pdist o = Some pd -> pd_param_names pd = None -> pd_param_names pd' = None ->
    func o c = Ok v1 ->
    run o empty_cache [Call c; SetPdAttr n v; Call c; SetPdist pd'; Call c] = [Ok v1; Ok v1; Ok v1].
  Proof.
    intros HM HP HPD HN HN' HF.
    destruct (present_ok pval dist show_val show_dist show_args sha o c HP) as [k Hk].
    assert (Hk1 : digest (set_pd_attr n v o) c = Ok k).
    { rewrite <- Hk. unfold MemoModel.digest, token, MemoModel.parts, obj_parts; simpl.
      rewrite HPD; simpl. now rewrite HN. }
    assert (Hk2 : digest (set_pdist (Some pd') (set_pd_attr n v o)) c = Ok k).
    { rewrite <- Hk. unfold MemoModel.digest, token, MemoModel.parts, obj_parts; simpl.
      rewrite HPD; simpl. now rewrite HN, HN'. }
    simpl. unfold memoized. rewrite HM, Hk, HF, Hk1. simpl. rewrite String.eqb_refl, Hk2. simpl.
    rewrite String.eqb_refl. reflexivity.
  Qed.

  (** C05 partial: assignments to a declared parameter of the particle
      distribution are always seen (scan over one parameter). *)
  Theorem C05_declared_parameter_seen_partial (o : obj pval) (h : list (event pval dist)) n c pd ns :
    depends_only_on_declared func ->
    (forall a b, show_val a = show_val b -> a = b) ->
    injective_on sha (hashed o h) ->
    o_pdist o = Some pd -> pd_param_names pd = Some ns -> NoDup ns -> In n ns -> declared_present o ->
    Forall (fun e => (exists v, e = SetPdAttr n v) \/ e = Call c) h ->
    run o empty_cache h = uncached func o h.
  Proof. exact (scan_pd pval dist V show_val show_dist show_args sha func o h n c pd ns). Qed.

  (** C07, instance caches (Synchrotron, InverseCompton, Bremsstrahlung,
      PionDecay): whatever the interleaving, the results of each object are
      those it would give alone. *)
  Theorem C07_instances_isolated_partial (o1 o2 : obj pval) (h : list (bool * event pval dist)) b :
    only b (run2 pval dist V show_val show_dist show_args sha func false o1 o2 empty_cache empty_cache h)
    = run (if b then o2 else o1) empty_cache (only b h).
  Proof.
    rewrite (isolation pval dist V show_val show_dist show_args sha func h o1 o2 empty_cache empty_cache b).
    destruct b; reflexivity.
  Qed.

  (** C07 refuted for the class-level cache of PionDecayKelner06: two objects
      with equal nh and Etrans and different undeclared particle distributions;
      the second object returns the result of the first. *)
  Theorem C07_class_cache_refuted own attrs pd1 pd2 c v1 :
    pd_param_names pd1 = None -> pd_param_names pd2 = None ->
    let o1 := mkObj (Some true) (Some own) attrs (Some pd1) in
    let o2 := mkObj (Some true) (Some own) attrs (Some pd2) in
    declared_present o1 -> func o1 c = Ok v1 ->
    run2 pval dist V show_val show_dist show_args sha func true o1 o2 empty_cache empty_cache
         [(false, Call c); (true, Call c)] = [(false, Ok v1); (true, Ok v1)].
  Proof.
    intros H1 H2 o1 o2 HP HF.
    destruct (present_ok pval dist show_val show_dist show_args sha o1 c HP) as [k Hk].
    assert (Hk2 : digest o2 c = Ok k).
    { rewrite <- Hk. unfold MemoModel.digest, token, MemoModel.parts, obj_parts, o1, o2; simpl.
      now rewrite H1, H2. }
    simpl. unfold memoized. rewrite Hk, HF. simpl. rewrite Hk2. simpl. rewrite String.eqb_refl. reflexivity.
  Qed.
End Props.

(** C06 refuted: with caching on, overwriting the returned array changes what
    the next identical call returns. *)
Theorem C06_aliasing_refuted (A : Type) (value : string -> A) (k : string) (a : A) :
  hrun A value (Some true) [] empty_cache [] [HCall k; HWrite 0 a; HCall k] = [Some (value k); Some a].
Proof. simpl. rewrite String.eqb_refl. reflexivity. Qed.

(** C06 partial: results are private when caching is off, for every history of
    calls and writes; with caching on they are correct for callers that never
    write into returned arrays. *)
Theorem C06_private_results_partial (A : Type) (value : string -> A) :
  (forall en h, en <> Some true ->
     hrun A value en [] empty_cache [] h = map (fun k => Some (value k)) (hcalls A h)) /\
  (forall en ks, hrun A value en [] empty_cache [] (map HCall ks) = map (fun k => Some (value k)) ks).
Proof.
  split; intros.
  - now apply hrun_disabled.
  - apply hrun_nowrites. intros ? ? [].
Qed.

(* ------------------------------------------------------------------ *)
(** * The hypotheses are met by concrete objects *)

(** A Synchrotron-like object; printing is the identity on strings and sha is
    the identity; the method returns everything it may depend on. *)
Definition ex_pd : pdist string :=
  mkPd (Some ["amplitude"; "e_0"; "alpha"; "e_cutoff"; "beta"])
       [("amplitude", "1e+36 1 / eV"); ("e_0", "1.0 TeV"); ("alpha", "2.0"); ("e_cutoff", "110.0 TeV"); ("beta", "1.0")].
Definition ex_table_pd (a : string) : pdist string := mkPd None [("amplitude", a)].
Definition ex_obj (pd : pdist string) : obj string :=
  mkObj (Some true) (Some ["Eemin"; "Eemax"; "nEed"; "B"])
        [("Eemin", "1.0 GeV"); ("Eemax", "510.0 TeV"); ("nEed", "100"); ("B", "3.24e-06 G")] (Some pd).
Definition ex_call : call string := mkCall "bytes" "eV" None [].
Definition ex_func (o : obj string) (c : call string) : outcome (list (option string) * call string) :=
  Ok (declared_values o, c).
Definition ex_func2 (o : obj string) (c : call string) : outcome (obj string * call string) := Ok (o, c).

Example ex_declared : depends_only_on_declared ex_func.
Proof. intros o o' c H. unfold ex_func. now rewrite H. Qed.
Example ex_present : declared_present (ex_obj ex_pd).
Proof. unfold declared_present; simpl. intuition discriminate. Qed.

Example ex_scan :
  run string string (fun s => s) (fun s => s) (String.concat ",") (fun s => s) _ ex_func (ex_obj ex_pd) empty_cache
    [Call ex_call; SetAttr "B" "1.0 G"; Call ex_call; SetAttr "B" "3.24e-06 G"; Call ex_call]
  = uncached ex_func (ex_obj ex_pd)
    [Call ex_call; SetAttr "B" "1.0 G"; Call ex_call; SetAttr "B" "3.24e-06 G"; Call ex_call].
Proof.
  apply (C01_scan_transparent_partial string string _ (fun s => s) (fun s => s) (String.concat ",") (fun s => s) ex_func
           (ex_obj ex_pd) _ "B" ex_call ["Eemin"; "Eemax"; "nEed"; "B"]); auto using ex_declared, ex_present.
  - intros x y _ _ H; exact H.
  - repeat constructor; simpl; intuition discriminate.
  - simpl; auto.
  - repeat (constructor; [eauto|]). constructor.
Qed.

(** The collision of C03 makes two different parameter sets give one result. *)
Example ex_C03_wrong :
  let h := [Call ex_call; SetPdAttr "alpha" "2.01"; SetPdAttr "e_cutoff" "10.0 TeV"; Call ex_call] in
  run string string (fun s => s) (fun s => s) (String.concat ",") (fun s => s) _ ex_func (ex_obj ex_pd) empty_cache h
  <> uncached ex_func (ex_obj ex_pd) h.
Proof.
  vm_compute. discriminate.
Qed.

Example ex_C02_wrong :
  let h := [Call ex_call; Call (mkCall "bytes" "eV" (Some "0") [])] in
  run string string (fun s => s) (fun s => s) (String.concat ",") (fun s => s) _ ex_func (ex_obj ex_pd) empty_cache h
  <> uncached ex_func (ex_obj ex_pd) h.
Proof. vm_compute. discriminate. Qed.

Example ex_C05_wrong :
  let h := [Call ex_call; SetPdAttr "amplitude" "2"; Call ex_call] in
  run string string (fun s => s) (fun s => s) (String.concat ",") (fun s => s) _ ex_func2 (ex_obj (ex_table_pd "1")) empty_cache h
  <> uncached ex_func2 (ex_obj (ex_table_pd "1")) h.
Proof. vm_compute. discriminate. Qed.

(** An instance of the general transparency theorem that varies two quantities
    at once: their printed values are delimited. *)
Example ex_transparent :
  let h := [Call ex_call; SetAttr "Eemin" "2.0 GeV"; SetAttr "B" "1.0 G"; Call ex_call] in
  run string string (fun s => s) (fun s => s) (String.concat ",") (fun s => s) _ ex_func (ex_obj ex_pd) empty_cache h
  = uncached ex_func (ex_obj ex_pd) h.
Proof.
  intros h.
  assert (HI : forall x, In x (calls_of (ex_obj ex_pd) h) ->
     x = (ex_obj ex_pd, ex_call) \/ x = (set_attr "B" "1.0 G" (set_attr "Eemin" "2.0 GeV" (ex_obj ex_pd)), ex_call)).
  { simpl. intuition. }
  apply (C01_memo_transparent_partial string string _ (fun s => s) (fun s => s) (String.concat ",") (fun s => s) ex_func);
    auto using ex_declared.
  - intros x y Hx Hy _. simpl in Hx, Hy. intuition congruence.
  - intros x y _ _ H; exact H.
  - intros o1 c1 H. apply HI in H. destruct H as [[= -> ->]|[= -> ->]];
      unfold declared_present; simpl; intuition discriminate.
  - intros o1 c1 d H. apply HI in H. destruct H as [[= -> ->]|[= -> ->]]; discriminate.
  - intros o1 c1 o2 c2 l1 l2 H1 H2 P1 P2.
    apply HI in H1, H2.
    assert (PF : forall a, Forall2 prefix_free a a).
    { intros a; induction a; constructor; auto using prefix_free_refl. }
    assert (SF : forall a, Forall2 suffix_free a a).
    { intros a; induction a; constructor; auto using suffix_free_refl. }
    assert (G : prefix_free "1.0 GeV" "2.0 GeV" /\ prefix_free "2.0 GeV" "1.0 GeV").
    { split; intros c [H|H]; simpl in H; discriminate. }
    destruct H1 as [[= -> ->]|[= -> ->]], H2 as [[= -> ->]|[= -> ->]];
      simpl in P1, P2; injection P1 as <-; injection P2 as <-; (split; [reflexivity|]);
      unfold delimited;
      match goal with |- exists p a s p' a' s', [?x1; ?x2; ?x3; ?x4; ?x5; ?x6; ?x7; ?x8; ?x9; ?x10; ?x11; ?x12] = _
                       /\ [?y1; ?y2; ?y3; ?y4; ?y5; ?y6; ?y7; ?y8; ?y9; ?y10; ?y11; ?y12] = _ /\ _ =>
        exists [x1; x2; x3; x4; x5; x6], x7, [x8; x9; x10; x11; x12], [y1; y2; y3; y4; y5; y6], y7, [y8; y9; y10; y11; y12]
      end; (split; [reflexivity|split; [reflexivity|split]]); auto;
      repeat (constructor; try apply prefix_free_refl; try apply G).
Qed.

Print Assumptions C01_memo_transparent_partial.
Print Assumptions C01_scan_transparent_partial.
Print Assumptions C01_disabled_transparent_partial.
Print Assumptions C02_default_distance_refuted.
Print Assumptions C02_explicit_distance_partial.
Print Assumptions C03_parameter_confusion_refuted.
Print Assumptions C03_delimited_partial.
Print Assumptions C04_cache_bounded_fifo.
Print Assumptions C05_undeclared_distribution_refuted.
Print Assumptions C05_declared_parameter_seen_partial.
Print Assumptions C06_aliasing_refuted.
Print Assumptions C06_private_results_partial.
Print Assumptions C07_instances_isolated_partial.
Print Assumptions C07_class_cache_refuted.
