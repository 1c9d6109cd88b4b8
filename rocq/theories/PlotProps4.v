(** C103: what plot_chain and plot_distribution print. *)
From Coq Require Import Reals List ZArith Bool String Ascii Arith Permutation Sorted Lra Lia.
From Verif Require Import Outcome SimplexModel UnitsModel DataModel AnalysisModel AnalysisProofs AnalysisProps AnalysisProps2 AnalysisProps3 PlotModel PlotProps2 PlotModel2 PlotProps3.
Import ListNotations.
Local Open Scope R_scope.

Lemma percentile_perm a b q : Permutation a b -> percentile a q = percentile b q.
Proof.
  intros P. unfold percentile. rewrite (Permutation_length P).
  rewrite (sorted_perm_eq (rsort a) (rsort b)); [reflexivity| |apply rsort_sorted..].
  eapply Permutation_trans; [apply rsort_perm|]. eapply Permutation_trans; [exact P|]. apply Permutation_sym, rsort_perm.
Qed.
Lemma summary_perm l a b : Permutation a b -> summary l a = summary l b.
Proof. intros P. unfold summary. cbv zeta. rewrite !(percentile_perm _ _ _ P). reflexivity. Qed.
Lemma concat_cons_perm {A B} (h : B -> A) (g : B -> list A) ws :
  Permutation (List.concat (map (fun w => h w :: g w) ws)) (map h ws ++ List.concat (map g ws)).
Proof.
  induction ws as [|w ws IH]; cbn; [constructor|]. apply perm_skip.
  eapply Permutation_trans; [apply Permutation_app_head, IH|]. rewrite !app_assoc. apply Permutation_app_tail, Permutation_app_comm.
Qed.
Lemma transpose_perm {A} (f : sample -> A) W (l : list (list sample)) : List.Forall (fun s => List.length s = W) l ->
  Permutation (List.concat (map (fun w => map (fun st => f (nth w st empty_sample)) l) (seq 0 W))) (map f (List.concat l)).
Proof.
  induction 1 as [|st l L _ IH]; cbn [map List.concat].
  - induction (seq 0 W); cbn; auto.
  - rewrite map_app. eapply Permutation_trans; [apply concat_cons_perm|].
    assert (E : map (fun w => f (nth w st empty_sample)) (seq 0 W) = map f st).
    { rewrite <- L. rewrite <- (map_nth_seq empty_sample st) at 2. rewrite map_map. reflexivity. }
    rewrite E. apply Permutation_app_head, IH.
Qed.
Lemma last_map {A B} (f : A -> B) l d e : l <> [] -> last (map f l) d = f (last l e).
Proof. induction l as [|a l IH]; [congruence|]. intros _. destruct l; [reflexivity|]. change (last (map f (a0 :: l)) d = f (last (a0 :: l) e)). apply IH. discriminate. Qed.
Lemma last_step_walkers r : rectangular r -> List.length (last (r_steps r) []) = nwalkers r.
Proof. intros (NE & _ & F). rewrite List.Forall_forall in F. apply F, last_in, NE. Qed.
Lemma chain_dist_perm r p last_step : rectangular r -> Permutation (chain_dist r p last_step) (column (map s_par (used r last_step)) p).
Proof.
  intros REC. unfold column. rewrite map_map. unfold chain_dist, traces, used. destruct last_step.
  - rewrite map_map. replace (map (fun x => nth p (s_par x) 0) (last (r_steps r) [])) with
      (map (fun w => nth p (s_par (nth w (last (r_steps r) []) empty_sample)) 0) (seq 0 (nwalkers r))).
    + rewrite (map_ext _ (fun w => nth p (s_par (nth w (last (r_steps r) []) empty_sample)) 0)); [apply Permutation_refl|].
      intros w. rewrite (last_map _ _ _ []) by apply REC. reflexivity.
    + rewrite <- (last_step_walkers r REC). transitivity (map (fun x => nth p (s_par x) 0) (map (fun i => nth i (last (r_steps r) []) empty_sample) (seq 0 (List.length (last (r_steps r) []))))); [rewrite map_map; reflexivity|rewrite map_nth_seq; reflexivity].
  - apply (transpose_perm (fun x => nth p (s_par x) 0)). apply REC.
Qed.
Lemma kde_ok_iff d : kde_ok d = Ok tt <-> exists x y, In x d /\ In y d /\ x <> y.
Proof.
  destruct d as [|x [|y d]]; cbn [kde_ok].
  - split; [discriminate|]. intros (a & b & [] & _).
  - split; [discriminate|]. intros (a & b & [<-|[]] & [<-|[]] & H). congruence.
  - destruct (forallb _ (y :: d)) eqn:F.
    + split; [discriminate|]. intros (a & b & A & B & H). exfalso. rewrite forallb_forall in F.
      assert (G : forall z, In z (x :: y :: d) -> x = z).
      { intros z [Hz|Hz]; [exact Hz|]. specialize (F z Hz). destruct (Req_EM_T x z); [assumption|discriminate]. }
      rewrite <- (G a A), <- (G b B) in H. congruence.
    + split; [|reflexivity]. intros _.
      assert (E : exists z, In z (y :: d) /\ x <> z).
      { revert F. generalize (y :: d). induction l as [|z l IH]; cbn; [discriminate|]. destruct (Req_EM_T x z) as [E|E].
        - cbn. intros F. destruct (IH F) as (z' & I & N). exists z'. auto.
        - intros _. exists z. auto. }
      destruct E as (z & I & N). exists x, z. split; [left; reflexivity|]. split; [right; exact I|exact N].
Qed.
Lemma kde_ok_err d : kde_ok d <> Ok tt -> exists e, kde_ok d = Err e.
Proof. destruct d as [|x [|y d]]; cbn [kde_ok]; eauto. destruct (forallb _ _); eauto. congruence. Qed.

(** ** Specification: the columns of a row of results *)
Definition w_name (w : row) : string := let '(n, _, _, _) := w in n.
Definition w_med (w : row) : R := let '(_, m, _, _) := w in m.
Definition w_lo (w : row) : R := let '(_, _, l, _) := w in l.
Definition w_hi (w : row) : R := let '(_, _, _, h) := w in h.
(** a printed line tells the row *)
Definition tells (l : string * shown) (w : row) : Prop :=
  fst l = w_name w /\ (0 < w_hi w -> fair (snd l) (w_med w) (w_lo w) (w_hi w)).
Definition row_ok (w : row) : Prop := w_med w <> 0 /\ w_lo w <> 0.

Lemma printed_spec rnd w : nearest rnd -> 0 <= w_lo w -> 0 <= w_hi w ->
  (forall l, printed rnd w = Ok l -> tells l w) /\ ((exists l, printed rnd w = Ok l) <-> row_ok w).
Proof.
  intros N L H. destruct w as [[[n m] lo] hi]. unfold row_ok, tells. cbn [w_med w_lo w_hi w_name printed] in *.
  destruct (Req_EM_T m 0) as [->|M].
  { rewrite (proj1 (C136_error_text_zero_refuted rnd)). cbn [obind]. split; [discriminate|]. split; [intros (? & ?); discriminate|intros (? & _); congruence]. }
  destruct (Req_EM_T lo 0) as [->|LN].
  { rewrite (proj1 (proj2 (C136_error_text_zero_refuted rnd))). cbn [obind]. split; [discriminate|]. split; [intros (? & ?); discriminate|intros (_ & ?); congruence]. }
  destruct (Req_EM_T hi 0) as [->|HN].
  - destruct (proj2 (proj2 (C136_error_text_zero_refuted rnd)) N m lo M ltac:(lra)) as (s & -> & _). cbn [obind].
    split; [|split; [auto|eauto]]. intros l E. inversion E. cbn. split; [reflexivity|lra].
  - destruct (C108_value_error rnd m lo hi N M ltac:(lra) ltac:(lra)) as (s & -> & F). cbn [obind].
    split; [|split; [auto|eauto]]. intros l E. inversion E. cbn. auto.
Qed.
Lemma summary_signs l d : d <> [] -> 0 <= w_lo (summary l d) /\ 0 <= w_hi (summary l d).
Proof.
  intros ND. unfold summary, w_lo, w_hi. assert (L : (0 < List.length d)%nat) by (destruct d; [congruence|cbn; lia]).
  pose proof (percentile_mono d 16 50 L ltac:(lra) ltac:(lra) ltac:(lra)). pose proof (percentile_mono d 50 84 L ltac:(lra) ltac:(lra) ltac:(lra)). lra.
Qed.

(** ** C103. The lines printed for a parameter tell the median and the distances to the
    16th and 84th percentiles of its samples (of the last step, or of the whole chain),
    and for a logarithm also of the delogged samples; there is a plot exactly when the
    samples are not all equal and no median and no lower error is zero. *)
Theorem C103_chain : forall rnd r p k last_step, nearest rnd -> rectangular r -> is_kind (nth p (r_labels r) ""%string) k ->
  let xs := column (map s_par (used r last_step)) p in
  let rows := expected (map s_par (used r last_step)) p [(nth p (r_labels r) ""%string, k)] in
  (forall ls, chain_lines rnd r p last_step = Ok ls -> Forall2 tells ls rows) /\
  ((exists ls, chain_lines rnd r p last_step = Ok ls) <-> (exists x y, In x xs /\ In y xs /\ x <> y) /\ List.Forall row_ok rows).
Proof.
  intros rnd r p k last_step N REC K. cbv zeta. unfold chain_lines. cbv zeta.
  pose proof (chain_dist_perm r p last_step REC) as P. set (xs := column (map s_par (used r last_step)) p) in *.
  set (d := chain_dist r p last_step) in *. set (label := nth p (r_labels r) ""%string) in *.
  assert (KD : kde_ok d = Ok tt <-> exists x y, In x xs /\ In y xs /\ x <> y).
  { rewrite kde_ok_iff. split; intros (x & y & A & B & C); exists x, y.
    - split; [apply (Permutation_in _ P A)|]. split; [apply (Permutation_in _ P B)|exact C].
    - split; [apply (Permutation_in _ (Permutation_sym P) A)|]. split; [apply (Permutation_in _ (Permutation_sym P) B)|exact C]. }
  destruct (kde_ok d) as [[]|e] eqn:KE; cbn [obind].
  2:{ split; [discriminate|]. split; [intros (? & ?); discriminate|]. intros (X & _). apply KD in X. discriminate. }
  assert (X : exists x y, In x xs /\ In y xs /\ x <> y) by (apply KD; reflexivity).
  assert (ND : xs <> []) by (destruct X as (x & _ & I & _); destruct xs; [destruct I|discriminate]).
  rewrite (summary_perm label d xs P).
  assert (SX : forall f : R -> R, map f xs <> []) by (intros f; destruct xs; [congruence|discriminate]).
  cbn [expected]. fold xs.
  destruct (summary_signs label xs ND) as (S1 & S2). destruct (printed_spec rnd _ N S1 S2) as (T1 & O1).
  destruct k as [|name|name]; cbn [is_kind] in K.
  - destruct K as (-> & ->). cbn [orb app]. split.
    + intros ls E. destruct (printed rnd (summary label xs)) as [l|] eqn:PE; [|discriminate]. cbn [obind] in E. inversion E. constructor; [apply T1; reflexivity|constructor].
    + destruct (printed rnd (summary label xs)) as [l|e] eqn:PE; cbn [obind].
      * split; [|eauto]. intros _. split; [exact X|]. constructor; [apply O1; eauto|constructor].
      * split; [intros (? & ?); discriminate|]. intros (_ & F). inversion F as [|? ? F1 _]; subst. apply O1 in F1. destruct F1; discriminate.
  - destruct K as (LE & NP). rewrite LE. destruct (name_of_log "log10" name eq_refl NP) as (E1 & E2).
    change ("log10(" ++ name ++ ")")%string with ("log10" ++ "(" ++ name ++ ")")%string in *. rewrite E1, E2.
    replace (contains "log10(" ("log10" ++ "(" ++ name ++ ")")) with true by (symmetry; apply (contains_prefix "log10(" (name ++ ")"))).
    cbn [orb]. change (String.eqb "log10" "log10") with true. cbv iota.
    replace (map (fun x => exp (x * ln 10)) d) with (map (fun x => Rpower 10 x) d) by reflexivity.
    rewrite (summary_perm name (map (fun x => Rpower 10 x) d) (map (fun x => Rpower 10 x) xs) (Permutation_map _ P)). rewrite <- LE. cbn [app].
    destruct (summary_signs name _ (SX (fun x => Rpower 10 x))) as (S3 & S4). destruct (printed_spec rnd _ N S3 S4) as (T2 & O2).
    destruct (printed rnd (summary label xs)) as [l|e] eqn:PE; cbn [obind].
    2:{ split; [discriminate|]. split; [intros (? & ?); discriminate|]. intros (_ & F). inversion F as [|? ? F1 _]; subst. apply O1 in F1. destruct F1; discriminate. }
    destruct (printed rnd (summary name (map (fun x => Rpower 10 x) xs))) as [l2|e] eqn:PE2; cbn [obind].
    2:{ split; [discriminate|]. split; [intros (? & ?); discriminate|]. intros (_ & F). inversion F as [|? ? _ F1]; subst. inversion F1 as [|? ? F2 _]; subst. apply O2 in F2. destruct F2; discriminate. }
    split; [intros ls E; inversion E; auto|]. split; [|eauto]. intros _. split; [exact X|]. constructor; [apply O1; eauto|]. constructor; [apply O2; eauto|constructor].
  - destruct K as (LE & NP). rewrite LE. destruct (name_of_log "log" name eq_refl NP) as (E1 & E2).
    change ("log(" ++ name ++ ")")%string with ("log" ++ "(" ++ name ++ ")")%string in *. rewrite E1, E2.
    replace (contains "log(" ("log" ++ "(" ++ name ++ ")")) with true by (symmetry; apply (contains_prefix "log(" (name ++ ")"))).
    rewrite orb_true_r. change (String.eqb "log" "log10") with false. change (String.eqb "log" "log") with true. cbv iota.
    rewrite (summary_perm name (map exp d) (map exp xs) (Permutation_map _ P)). rewrite <- LE. cbn [app].
    destruct (summary_signs name _ (SX exp)) as (S3 & S4). destruct (printed_spec rnd _ N S3 S4) as (T2 & O2).
    destruct (printed rnd (summary label xs)) as [l|e] eqn:PE; cbn [obind].
    2:{ split; [discriminate|]. split; [intros (? & ?); discriminate|]. intros (_ & F). inversion F as [|? ? F1 _]; subst. apply O1 in F1. destruct F1; discriminate. }
    destruct (printed rnd (summary name (map exp xs))) as [l2|e] eqn:PE2; cbn [obind].
    2:{ split; [discriminate|]. split; [intros (? & ?); discriminate|]. intros (_ & F). inversion F as [|? ? _ F1]; subst. inversion F1 as [|? ? F2 _]; subst. apply O2 in F2. destruct F2; discriminate. }
    split; [intros ls E; inversion E; auto|]. split; [|eauto]. intros _. split; [exact X|]. constructor; [apply O1; eauto|]. constructor; [apply O2; eauto|constructor].
Qed.
Print Assumptions C103_chain.

(** The rows told with the whole chain are rows of the results table of the run. *)
Lemma expected_incl samples lk : forall p q l k, nth_error lk q = Some (l, k) -> incl (expected samples (p + q) [(l, k)]) (expected samples p lk).
Proof.
  induction lk as [|[l0 k0] lk IH]; intros p [|q] l k E; cbn [nth_error] in E; try discriminate.
  - inversion E; subst. rewrite Nat.add_0_r. cbn [expected]. rewrite app_nil_r. intros w [<-|I]; [left; reflexivity|right; apply in_or_app; left; exact I].
  - intros w I. right. apply in_or_app. right. replace (p + S q)%nat with (S p + q)%nat in I by lia. apply (IH (S p) q l k E). exact I.
Qed.
Theorem C103_agrees_with_table : forall r ks p k, labelled r -> List.Forall (fun x => is_kind (fst x) (snd x)) (combine (r_labels r) ks) -> List.length ks = List.length (r_labels r) ->
  nth_error ks p = Some k ->
  exists rows, save_results_table r true false false = Ok rows /\
    incl (expected (map s_par (used r false)) p [(nth p (r_labels r) ""%string, k)]) rows.
Proof.
  intros r ks p k LB F L E. eexists. split; [apply (C58_whole_chain r ks LB F L)|].
  apply (expected_incl _ _ 0%nat p).
  assert (LP : (p < List.length ks)%nat) by (apply nth_error_Some; congruence).
  clear F. revert p k E LP. revert ks L. generalize (r_labels r). induction l as [|a l IH]; intros [|k0 ks] L [|p] k E LP; cbn in *; try discriminate; try lia.
  - inversion E. reflexivity.
  - apply IH; auto. lia.
Qed.
Print Assumptions C103_agrees_with_table.
(** ** Refuted: a parameter of which the median is also the 16th percentile (a chain
    that stays at one value for a third of the samples), or is zero, cannot be plotted. *)
Theorem C138_overflow_refuted : forall rnd r p last_step,
  rectangular r -> let xs := column (map s_par (used r last_step)) p in
  (exists x y, In x xs /\ In y xs /\ x <> y) -> percentile xs 50 = percentile xs 16 \/ percentile xs 50 = 0 ->
  chain_lines rnd r p last_step = Err "OverflowError".
Proof.
  intros rnd r p last_step REC xs X H. unfold chain_lines. cbv zeta. pose proof (chain_dist_perm r p last_step REC) as P. fold xs in P.
  assert (KD : kde_ok (chain_dist r p last_step) = Ok tt).
  { apply kde_ok_iff. destruct X as (x & y & A & B & C). exists x, y. split; [apply (Permutation_in _ (Permutation_sym P) A)|]. split; [apply (Permutation_in _ (Permutation_sym P) B)|exact C]. }
  rewrite KD. cbn [obind]. rewrite (summary_perm _ _ _ P). unfold summary. cbn [printed].
  destruct H as [H|H]; rewrite H.
  - replace (percentile xs 16 - percentile xs 16) with 0 by ring. rewrite (proj1 (proj2 (C136_error_text_zero_refuted rnd))). reflexivity.
  - rewrite (proj1 (C136_error_text_zero_refuted rnd)). reflexivity.
Qed.
Print Assumptions C138_overflow_refuted.
(** ** The same for the distribution of a derived scalar (plot_distribution) *)
Theorem C103_distribution : forall rnd label d, nearest rnd ->
  (forall l, distribution_line rnd label d = Ok l -> tells l (summary label d)) /\
  ((exists l, distribution_line rnd label d = Ok l) <-> (exists x y, In x d /\ In y d /\ x <> y) /\ row_ok (summary label d)).
Proof.
  intros rnd label d N. unfold distribution_line.
  destruct (list_eq_dec Req_EM_T d []) as [->|ND].
  { cbn [kde_ok obind]. split.
    - intros l. destruct (printed rnd (summary label [])); discriminate.
    - split; [|intros ((x & _ & [] & _) & _)]. intros (l & E). destruct (printed rnd (summary label [])); discriminate. }
  destruct (summary_signs label d ND) as (S1 & S2). destruct (printed_spec rnd _ N S1 S2) as (T1 & O1).
  destruct (printed rnd (summary label d)) as [l|e] eqn:PE; cbn [obind].
  - destruct (kde_ok d) as [[]|e] eqn:KE; cbn [obind].
    + split; [intros l' E; inversion E; subst; apply T1; reflexivity|]. split; [|eauto]. intros _. split; [apply kde_ok_iff, KE|]. apply O1. eauto.
    + split; [discriminate|]. split; [intros (? & ?); discriminate|]. intros (X & _). apply kde_ok_iff in X. congruence.
  - split; [discriminate|]. split; [intros (? & ?); discriminate|]. intros (_ & R). apply O1 in R. destruct R; discriminate.
Qed.
Print Assumptions C103_distribution.
(** ** the histogram has between 25 and 100 bins *)
Theorem C103_bins : forall n, (25 <= hist_bins n <= 100)%nat /\ ((2500 <= n <= 100 * 100)%nat -> hist_bins n = n / 100)%nat.
Proof.
  intros n. unfold hist_bins. split; [lia|]. intros H. assert (25 <= n / 100)%nat by (apply Nat.div_le_lower_bound; lia).
  assert (n / 100 <= 100)%nat by (apply Nat.div_le_upper_bound; lia). lia.
Qed.
Print Assumptions C103_bins.
(** a run of which the parameter can be plotted *)
Definition ex_chain : run := mkRun [[mkS [1] (Fin 0) []; mkS [2] (Fin 0) []]; [mkS [3] (Fin 0) []; mkS [4] (Fin 0) []]] ["index"%string] [] 0 0.
Example C103_example : exists ls, chain_lines (fun x => floorZ (x + 1 / 2)) ex_chain 0 false = Ok ls /\ Forall2 tells ls [summary "index" [1; 2; 3; 4]].
Proof.
  assert (REC : rectangular ex_chain) by (split; [discriminate|split; [cbn; lia|repeat constructor]]).
  destruct (C103_chain _ ex_chain 0 Plain false nearest_exists REC) as (T & O); [split; reflexivity|].
  assert (S4 : rsort [1; 2; 3; 4] = [1; 2; 3; 4]).
  { cbn [rsort fold_right rins]. destruct (Rle_dec 3 4); [|exfalso; lra]. cbn [rins]. destruct (Rle_dec 2 3); [|exfalso; lra]. cbn [rins]. destruct (Rle_dec 1 2); [reflexivity|exfalso; lra]. }
  destruct (proj2 O) as (ls & E).
  - change (column (map s_par (used ex_chain false)) 0) with [1; 2; 3; 4]. split; [exists 1, 2; split; [left; reflexivity|split; [right; left; reflexivity|lra]]|].
    change (expected _ _ _) with [summary "index" [1; 2; 3; 4]]. constructor; [|constructor].
    unfold row_ok, summary, w_med, w_lo, percentile. cbv zeta. cbn [List.length Nat.pred]. rewrite S4.
    rewrite (trunc_unique (INR 3 * (50 / 100)) 1) by (cbn [INR]; lra). rewrite (trunc_unique (INR 3 * (16 / 100)) 0) by (cbn [INR]; lra). cbn [Nat.min nth INR]. split; lra.
  - exists ls. split; [exact E|]. apply (T ls E).
Qed.
