(** Properties of run analysis: C55-C59, C79-C82. *)
From Coq Require Import Reals List ZArith Bool String Ascii Arith Permutation Sorted Lra Lia.
From Verif Require Import Outcome SimplexModel AnalysisModel AnalysisProofs.
Import ListNotations.
Local Open Scope R_scope.

(** A run: at least one step, the same positive number of walkers in every step *)
Definition rectangular (r : run) : Prop :=
  r_steps r <> [] /\ (0 < nwalkers r)%nat /\ List.Forall (fun s => List.length s = nwalkers r) (r_steps r).

(** ** C57. The sample returned is in the chain, no sample has a larger
    log-probability, and every earlier one (in chain order) has a smaller one; value,
    parameters and blob belong to the same sample. *)
Theorem C57_find_ML : forall r, rectangular r -> List.Forall (fun s => isnan (s_lp s) = false) (flat r) ->
  exists n s, nth_error (flat r) n = Some s /\
    (let '(ml, p, _, b) := find_ML r in ml = s_lp s /\ p = s_par s /\ b = s_blob s) /\
    (forall s', In s' (flat r) -> fle (s_lp s') (s_lp s) = true) /\
    (forall m s', (m < n)%nat -> nth_error (flat r) m = Some s' -> flt (s_lp s') (s_lp s) = true).
Proof.
  intros r (NE & W & F) NN.
  assert (NF : flat r <> []).
  { unfold flat, nwalkers in *. destruct (r_steps r) as [|[|x s] l]; cbn in *; [congruence|lia|discriminate]. }
  assert (NM : map s_lp (flat r) <> []) by (destruct (flat r); [congruence|discriminate]).
  assert (NN' : List.Forall (fun x => isnan x = false) (map s_lp (flat r))) by (rewrite Forall_map; exact NN).
  destruct (argmax_spec _ NM NN') as (A1 & A2 & A3). rewrite map_length in *.
  set (n := argmax (map s_lp (flat r))) in *.
  exists n, (nth n (flat r) empty_sample).
  assert (E : forall m, (m < List.length (flat r))%nat -> nth m (map s_lp (flat r)) NaN = s_lp (nth m (flat r) empty_sample)).
  { intros m Hm. rewrite (nth_indep _ NaN (s_lp empty_sample)) by (rewrite map_length; exact Hm). apply map_nth. }
  split; [apply nth_error_nth'; exact A1|]. split; [|split].
  - unfold find_ML. cbv zeta. fold n. unfold at_. rewrite (nth_divmod empty_sample (nwalkers r) (r_steps r) n F A1). auto.
  - intros s' Hs'. apply (In_nth _ _ empty_sample) in Hs'. destruct Hs' as (m & Lm & <-). rewrite <- !E by (auto; exact A1). apply A2, Lm.
  - intros m s' Hm Hs'. assert (Lm : (m < List.length (flat r))%nat) by lia.
    rewrite (nth_error_nth' _ empty_sample Lm) in Hs'. inversion Hs'. rewrite <- !E by (auto; exact A1). apply A3, Hm.
Qed.
Definition ex_run : run :=
  mkRun [[mkS [1; 2] (Fin (-3)) [IScalarQ 5 "eV"; IFloat 1]; mkS [3; 4] (Fin (-1)) [IScalarQ 6 "eV"; IFloat 2]];
         [mkS [5; 6] (Fin (-1)) [IScalarQ 7 "eV"; IFloat 3]; mkS [7; 8] NInf [IScalarQ 8 "eV"; IFloat 4]]]
        ["log10(norm)"; "index"]%string [] (1 / 2) 0.
Lemma ex_run_rect : rectangular ex_run.
Proof. split; [discriminate|]. split; [cbn; lia|repeat constructor]. Qed.
Example C57_example : let '(ml, p, _, b) := find_ML ex_run in p = [3; 4] /\ ml = Fin (-1).
Proof.
  destruct (C57_find_ML ex_run ex_run_rect) as (n & s & H & K & A & B); [repeat constructor|].
  destruct (find_ML ex_run) as [[[ml p] e] b]. destruct K as (-> & -> & ->).
  pose proof (A (mkS [3; 4] (Fin (-1)) [IScalarQ 6 "eV"; IFloat 2]) ltac:(cbn; auto)) as A1.
  destruct n as [|[|[|[|n]]]]; cbn in H; try (injection H as <-); cbn in A1 |- *; auto; exfalso.
  - destruct (Rle_dec (-1) (-3)); [lra|discriminate].
  - specialize (B 1%nat _ ltac:(lia) eq_refl). cbn in B. destruct (Rlt_dec (-1) (-1)); [lra|discriminate].
  - discriminate A1.
  - destruct n; discriminate.
Qed.

(** ** C80. Reported quantities: median and percentiles lie within the range of the
    samples, and uncertainties are never negative *)
Theorem C80_summary_in_range : forall label d, (0 < List.length d)%nat ->
  let '(l, med, lo, hi) := summary label d in
  l = label /\ 0 <= lo /\ 0 <= hi /\
  (exists a, In a d /\ a <= med - lo) /\ (exists b, In b d /\ med + hi <= b).
Proof.
  intros label d L. unfold summary. cbv zeta.
  pose proof (percentile_mono d 16 50 L ltac:(lra) ltac:(lra) ltac:(lra)).
  pose proof (percentile_mono d 50 84 L ltac:(lra) ltac:(lra) ltac:(lra)).
  destruct (percentile_range d 16 L ltac:(lra)) as ((a & Ia & Ha) & _). destruct (percentile_range d 84 L ltac:(lra)) as (_ & (b & Ib & Hb)).
  split; auto. split; [lra|]. split; [lra|]. split; [exists a|exists b]; (split; [assumption|lra]).
Qed.
(** the percentile is the linear interpolation of the order statistics: at most q% of the
    gaps lie below, for instance the median of an odd number of samples is the middle one *)
Theorem C80_median_odd : forall d k, List.length d = S (2 * k) -> percentile d 50 = nth k (rsort d) 0.
Proof.
  intros d k L. unfold percentile. cbv zeta. rewrite L. cbn [Nat.pred].
  assert (H : INR (2 * k) * (50 / 100) = INR k) by (rewrite mult_INR; cbn [INR]; field).
  rewrite H. rewrite (trunc_unique (INR k) k) by lra. ring.
Qed.

(** ** C58. Results table *)
Definition no_paren (s : string) : Prop := String.index 0 "(" s = None /\ String.index 0 ")" s = None.
(** A label is plain, or the logarithm of something *)
Inductive lkind := Plain | Log10 (name : string) | Log (name : string).
Definition is_kind (label : string) (k : lkind) : Prop :=
  match k with
  | Plain => contains "log10(" label = false /\ contains "log(" label = false
  | Log10 name => label = ("log10(" ++ name ++ ")")%string /\ no_paren name
  | Log name => label = ("log(" ++ name ++ ")")%string /\ no_paren name
  end.
Definition column (samples : list (list R)) (p : nat) : list R := map (fun x => nth p x 0) samples.
(** rows expected for the labels, the first belonging to parameter [p] *)
Fixpoint expected (samples : list (list R)) (p : nat) (lk : list (string * lkind)) : list row :=
  match lk with
  | [] => []
  | (l, k) :: r =>
      summary l (column samples p) ::
      match k with
      | Plain => []
      | Log10 name => [summary name (map (fun x => Rpower 10 x) (column samples p))]
      | Log name => [summary name (map exp (column samples p))]
      end ++ expected samples (S p) r
  end.

Lemma prefix_app a b : prefix a (a ++ b)%string = true.
Proof. induction a as [|c a IH]; cbn; [destruct b; reflexivity|]. destruct (ascii_dec c c); [exact IH|congruence]. Qed.
Lemma contains_prefix a b : contains a (a ++ b) = true.
Proof.
  unfold contains. destruct (String.append a b) eqn:E.
  - destruct a; [reflexivity|discriminate].
  - change (String.index 0 a (String a0 s)) with (if prefix a (String a0 s) then Some 0%nat else match String.index 0 a s with Some n => Some (S n) | None => None end).
    rewrite <- E, prefix_app. reflexivity.
Qed.
Lemma index_cons c a s : String.index 0 (String c EmptyString) (String a s) =
  if ascii_dec c a then Some 0%nat else match String.index 0 (String c EmptyString) s with Some n => Some (S n) | None => None end.
Proof. cbn. destruct (ascii_dec c a); [destruct s; reflexivity|reflexivity]. Qed.
Lemma index_app c s t : String.index 0 (String c EmptyString) (s ++ t)%string = None <->
  String.index 0 (String c EmptyString) s = None /\ String.index 0 (String c EmptyString) t = None.
Proof.
  induction s as [|a s IH]; [cbn [String.append]; split; [auto|intros (_ & H); exact H]|].
  cbn [String.append]. rewrite !index_cons. destruct (ascii_dec c a).
  - split; [discriminate|intros (H & _); discriminate].
  - assert (Q : forall o : option nat, match o with Some n => Some (S n) | None => None end = None <-> o = None) by (intros [|]; split; congruence).
    rewrite !Q. exact IH.
Qed.
Lemma before_first_none c s t : String.index 0 (String c EmptyString) s = None -> before_first c (s ++ String c t) = s.
Proof.
  induction s as [|a s IH]; cbn [String.append before_first]; [rewrite Ascii.eqb_refl; reflexivity|]. rewrite index_cons.
  destruct (ascii_dec c a); [discriminate|]. destruct (String.index 0 (String c "") s) eqn:E; [discriminate|]. intros _.
  destruct (Ascii.eqb_spec a c); [congruence|]. rewrite IH; auto.
Qed.
Lemma after_last_once c s t : String.index 0 (String c EmptyString) s = None -> String.index 0 (String c EmptyString) t = None -> after_last c (s ++ String c t) = t.
Proof.
  intros HS HT. induction s as [|a s IH]; cbn [String.append after_last].
  - rewrite HT, Ascii.eqb_refl. reflexivity.
  - rewrite index_cons in HS. destruct (ascii_dec c a); [discriminate|]. destruct (String.index 0 (String c "") s) eqn:E; [discriminate|].
    destruct (String.index 0 (String c "") (s ++ String c t)) eqn:E2; [apply IH; reflexivity|].
    apply index_app in E2. destruct E2 as (_ & E2). rewrite index_cons in E2. destruct (ascii_dec c c); [discriminate|congruence].
Qed.
Lemma name_of_log pre name : String.index 0 "(" pre = None -> no_paren name ->
  before_first ")" (after_last "(" (pre ++ "(" ++ name ++ ")")) = name /\ before_first "(" (pre ++ "(" ++ name ++ ")") = pre.
Proof.
  intros HP (N1 & N2). split; [|apply (before_first_none "(" pre (name ++ ")") HP)].
  change ("(" ++ name ++ ")")%string with (String "(" (name ++ ")")%string).
  rewrite (after_last_once "(" pre (name ++ ")") HP).
  - apply (before_first_none ")" name ""), N2.
  - apply index_app. split; [exact N1|reflexivity].
Qed.

Lemma label_rows_expected w samples lk : List.Forall (fun x => is_kind (fst x) (snd x)) lk -> forall p stale, (p + List.length lk <= w)%nat ->
  label_rows true w samples p (map fst lk) stale = Ok (expected samples p lk).
Proof.
  induction 1 as [|[l k] lk K F IH0]; intros p stale HW; cbn [map label_rows expected fst]; [reflexivity|].
  cbn [List.length] in HW. assert (IH : forall stale, label_rows true w samples (S p) (map fst lk) stale = Ok (expected samples (S p) lk)) by (intros st; apply IH0; lia).
  destruct (Nat.ltb_spec p w) as [_|HX]; [|lia]. cbn [negb].
  cbn [fst snd] in K. fold (column samples p). destruct k as [|name|name]; cbn [is_kind] in K.
  - destruct K as (-> & ->). cbn [orb andb]. rewrite IH. reflexivity.
  - destruct K as (-> & NP). destruct (name_of_log "log10" name eq_refl NP) as (E1 & E2).
    change ("log10(" ++ name ++ ")")%string with ("log10" ++ "(" ++ name ++ ")")%string. rewrite E1, E2.
    replace (contains "log10(" ("log10" ++ "(" ++ name ++ ")")) with true by (symmetry; apply (contains_prefix "log10(" (name ++ ")"))).
    cbn [orb andb String.eqb Ascii.eqb Bool.eqb]. rewrite IH. cbn [obind app]. unfold Rpower. reflexivity.
  - destruct K as (-> & NP). destruct (name_of_log "log" name eq_refl NP) as (E1 & E2).
    change ("log(" ++ name ++ ")")%string with ("log" ++ "(" ++ name ++ ")")%string. rewrite E1, E2.
    replace (contains "log(" ("log" ++ "(" ++ name ++ ")")) with true by (symmetry; apply (contains_prefix "log(" (name ++ ")"))).
    rewrite orb_true_r. cbn [andb String.eqb Ascii.eqb Bool.eqb]. rewrite IH. reflexivity.
Qed.

(** With the whole chain the table has, per label, the summary of that parameter over
    all samples, and for logarithms also that of the delogged samples *)
(** every sample has (at least) a parameter for every label *)
Definition labelled (r : run) : Prop := rectangular r /\ List.Forall (fun s => (List.length (r_labels r) <= List.length (s_par s))%nat) (flat r).
Lemma flat_ne r : rectangular r -> flat r <> [].
Proof.
  intros (NE & NW & _) H. unfold flat, nwalkers in *. destruct (r_steps r) as [|[|s st] rs]; cbn in *; [congruence|lia|discriminate].
Qed.
Lemma labelled_width r : labelled r -> (List.length (r_labels r) <= List.length (hd [] (map s_par (flat r))))%nat.
Proof. intros (RC & F). apply flat_ne in RC. destruct (flat r); [congruence|]. inversion F; assumption. Qed.
Theorem C58_whole_chain : forall r ks, labelled r -> List.Forall (fun x => is_kind (fst x) (snd x)) (combine (r_labels r) ks) -> List.length ks = List.length (r_labels r) ->
  save_results_table r true false false = Ok (expected (map s_par (flat r)) 0 (combine (r_labels r) ks)).
Proof.
  intros r ks LB F L. unfold save_results_table, used_dists. cbv zeta. apply labelled_width in LB.
  replace (r_labels r) with (map fst (combine (r_labels r) ks)) at 1.
  - rewrite label_rows_expected by (try exact F; rewrite combine_length; lia). cbn [obind]. rewrite app_nil_r. reflexivity.
  - clear F LB. revert ks L. induction (r_labels r) as [|a l IH]; intros [|k ks] L; cbn in *; try discriminate; auto. f_equal. apply IH. congruence.
Qed.
Example C58_example : exists rs, save_results_table ex_run true false false = Ok rs /\ map (fun x => fst (fst (fst x))) rs = ["log10(norm)"; "norm"; "index"]%string.
Proof.
  eexists. split; [apply (C58_whole_chain ex_run [Log10 "norm"; Plain])|].
  - split; [apply ex_run_rect|repeat constructor].
  - repeat constructor.
  - reflexivity.
  - reflexivity.
Qed.
(** Without conversion every label gets exactly its own row, whatever it is called *)
Theorem C58_no_conversion : forall r, labelled r -> save_results_table r false false false = Ok (map (fun p => summary (snd p) (column (map s_par (flat r)) (fst p))) (combine (seq 0 (List.length (r_labels r))) (r_labels r))).
Proof.
  intros r LB. unfold save_results_table, used_dists. cbv zeta. apply labelled_width in LB.
  assert (G : forall w samples labels p stale, (p + List.length labels <= w)%nat -> label_rows false w samples p labels stale = Ok (map (fun q => summary (snd q) (column samples (fst q))) (combine (seq p (List.length labels)) labels))).
  { intros w samples. induction labels as [|l labels IH]; intros p stale HW; cbn [label_rows List.length seq combine map] in *; [reflexivity|].
    destruct (Nat.ltb_spec p w) as [_|HX]; [|lia]. cbn [negb andb]. rewrite IH by lia. reflexivity. }
  rewrite G by lia. cbn [obind]. rewrite app_nil_r. reflexivity.
Qed.

(** Refuted (code defect): with last_step the table does not describe the last step of
    every walker but the whole history of the last walker. *)
Theorem C133_last_step_refuted : forall r p label, labelled r -> r_labels r = [label] -> p = 0%nat ->
  save_results_table r false true false = Ok [summary label (map (fun st => nth p (s_par (last st empty_sample)) 0) (r_steps r))].
Proof.
  intros r p label ((NE & NW & RC) & LB) L ->. unfold save_results_table, used_dists. rewrite L in *. cbv zeta.
  assert (W : (0 < List.length (hd [] (map (fun st => s_par (last st empty_sample)) (r_steps r))))%nat).
  { unfold flat, nwalkers in *. destruct (r_steps r) as [|st rs]; [congruence|]. cbn [map hd List.concat] in *. rewrite List.Forall_forall in LB.
    assert (IN : In (last st empty_sample) (st ++ List.concat rs)).
    { apply in_or_app. left. destruct (exists_last (l := st)) as (a & b & ->); [destruct st; [cbn in NW; lia|discriminate]|]. rewrite last_last. apply in_or_app. right. left. reflexivity. }
    specialize (LB _ IN). cbn [List.length] in LB. lia. }
  cbn [label_rows]. destruct (Nat.ltb_spec 0 (List.length (hd [] (map (fun st => s_par (last st empty_sample)) (r_steps r))))) as [_|HX]; [|lia]. cbn [negb andb obind]. rewrite map_map. reflexivity.
Qed.
(** a run whose last step is [10] and [20] (median 15) is reported with median 2: the
    median of the positions 1, 2, 20 of the last walker *)
Theorem C133_last_step_example_refuted : exists r med lo hi, rectangular r /\ r_labels r = ["x"%string] /\
  map s_par (last (r_steps r) []) = [[10]; [20]] /\ percentile [10; 20] 50 = 15 /\
  save_results_table r false true false = Ok [("x"%string, med, lo, hi)] /\ med = 2.
Proof.
  set (mk := fun a b => [mkS [a] (Fin 0) []; mkS [b] (Fin 0) []]).
  exists (mkRun [mk 5 1; mk 6 2; mk 10 20] ["x"%string] [] 0 0). do 3 eexists.
  split; [split; [discriminate|split; [cbn; lia|repeat constructor]]|]. split; [reflexivity|]. split; [reflexivity|].
  assert (S2 : rsort [10; 20] = [10; 20]).
  { cbn [rsort fold_right rins]. destruct (Rle_dec 10 20); [reflexivity|exfalso; lra]. }
  assert (S3 : rsort [1; 2; 20] = [1; 2; 20]).
  { cbn [rsort fold_right rins]. destruct (Rle_dec 2 20); [|exfalso; lra]. cbn [rins]. destruct (Rle_dec 1 2); [reflexivity|exfalso; lra]. }
  split.
  { unfold percentile. cbv zeta. cbn [List.length Nat.pred]. rewrite S2. rewrite (trunc_unique _ 0) by (cbn [INR]; lra). cbn [Nat.min nth INR]. lra. }
  split. { erewrite (C133_last_step_refuted _ 0 "x"%string); [|split; [split; [discriminate|split; [cbn; lia|repeat constructor]]|repeat constructor]|reflexivity|reflexivity]. cbn [r_steps map last mk s_par nth]. unfold summary. reflexivity. }
  erewrite (C80_median_odd _ 1) by reflexivity. rewrite S3. reflexivity.
Qed.
(** Refuted (code defect): a label containing "log(" or "log10(" without starting with
    log or log10 is either an error, or is reported with the distribution of an earlier
    parameter *)
Theorem C133_odd_label_refuted : forall w samples l l', (2 <= w)%nat -> contains "log(" l = true -> before_first "(" l <> "log10"%string -> before_first "(" l <> "log"%string ->
  label_rows true w samples 0 [l] None = Err "UnboundLocalError" /\
  (is_kind l' (Log "x") -> label_rows true w samples 0 [l'; l] None =
     Ok [summary l' (column samples 0); summary "x" (map exp (column samples 0)); summary l (column samples 1);
         summary (before_first ")" (after_last "(" l)) (map exp (column samples 0))]).
Proof.
  intros w samples l l' HW C N1 N2. destruct w as [|[|w]]; [lia|lia|].
  assert (E : (contains "log10(" l || contains "log(" l)%bool = true) by (rewrite C; apply orb_true_r).
  split.
  - cbn [label_rows Nat.ltb Nat.leb negb]. rewrite E. cbn [andb]. destruct (String.eqb_spec (before_first "(" l) "log10"); [congruence|]. destruct (String.eqb_spec (before_first "(" l) "log"); [congruence|]. reflexivity.
  - intros (-> & NP). destruct (name_of_log "log" "x" eq_refl NP) as (E1 & E2).
    change ("log(" ++ "x" ++ ")")%string with ("log" ++ "(" ++ "x" ++ ")")%string.
    cbn [label_rows Nat.ltb Nat.leb negb]. rewrite E. rewrite E1, E2. replace (contains "log(" ("log" ++ "(" ++ "x" ++ ")")) with true by (symmetry; apply (contains_prefix "log(" ("x" ++ ")"))).
    rewrite orb_true_r. cbn [andb]. change (String.eqb "log" "log10") with false. change (String.eqb "log" "log") with true. cbv iota.
    destruct (String.eqb_spec (before_first "(" l) "log10"); [congruence|]. destruct (String.eqb_spec (before_first "(" l) "log"); [congruence|].
    cbn [obind]. reflexivity.
Qed.
(** Refuted (code defect): get_sampler accepts more labels than parameters (C73), and the
    results table of such a run is an exception. *)
Theorem C133_extra_labels_refuted : forall r conv inc, rectangular r ->
  List.Forall (fun s => (List.length (s_par s) < List.length (r_labels r))%nat) (flat r) ->
  (forall l, In l (r_labels r) -> contains "log10(" l = false /\ contains "log(" l = false) ->
  save_results_table r conv false inc = Err "IndexError".
Proof.
  intros r conv inc RC F NL. unfold save_results_table, used_dists. cbv zeta.
  assert (W : (List.length (hd [] (map s_par (flat r))) < List.length (r_labels r))%nat).
  { apply flat_ne in RC. destruct (flat r); [congruence|]. inversion F; assumption. }
  revert W NL. generalize (List.length (hd [] (map s_par (flat r)))). generalize (map s_par (flat r)). clear. intros samples w W NL.
  assert (G : forall labels p stale, (forall l, In l labels -> contains "log10(" l = false /\ contains "log(" l = false) ->
    (p <= w)%nat -> (w < p + List.length labels)%nat -> label_rows conv w samples p labels stale = Err "IndexError").
  { induction labels as [|l labels IH]; intros p stale H HP HW; cbn [List.length] in HW; [lia|]. cbn [label_rows].
    destruct (Nat.ltb_spec p w) as [HX|HX]; [|reflexivity]. cbn [negb]. destruct (H l (or_introl eq_refl)) as (-> & ->).
    cbn [orb]. rewrite andb_false_r. rewrite IH; [reflexivity|intros l' I'; apply H; right; exact I'|lia|lia]. }
  rewrite G; [reflexivity|exact NL|lia|lia].
Qed.
Print Assumptions C133_extra_labels_refuted.
Example C58_extra_labels_example : save_results_table (mkRun [[mkS [1] (Fin 0) []]] ["norm"; "index"]%string [] 0 0) true false true = Err "IndexError".
Proof.
  apply C133_extra_labels_refuted; [split; [discriminate|split; [cbn; lia|repeat constructor]]|repeat constructor|].
  intros l [<-|[<-|[]]]; split; reflexivity.
Qed.
Example C58_odd_label_example : contains "log(" "my log(E)" = true /\ before_first "(" "my log(E)" = "my log"%string.
Proof. split; reflexivity. Qed.

(** ** C59. Confidence bands *)
Definition is_cdf (cdf : R -> R) : Prop := (forall x y, x <= y -> cdf x <= cdf y) /\ (forall x, 0 <= cdf x <= 1).
Lemma order_stat_in fr l : l <> [] -> 0 <= fr <= 1 -> In (order_stat fr l) l.
Proof.
  intros NE F. unfold order_stat. eapply Permutation_in; [apply rsort_perm|]. apply nth_In. rewrite rsort_length.
  pose proof (pos_INR (Nat.pred (List.length l))).
  assert (trunc (fr * INR (Nat.pred (List.length l))) <= Nat.pred (List.length l))%nat by (apply trunc_le_nat; [apply Rmult_le_pos; lra|nra]).
  destruct l; [congruence|cbn in *; lia].
Qed.
Lemma order_stat_mono f g l : l <> [] -> 0 <= f -> f <= g -> g <= 1 -> order_stat f l <= order_stat g l.
Proof.
  intros NE F FG G. unfold order_stat. apply sorted_nth; [apply rsort_sorted|]. rewrite rsort_length.
  pose proof (pos_INR (Nat.pred (List.length l))). split.
  - apply trunc_mono; [apply Rmult_le_pos; lra|apply Rmult_le_compat_r; lra].
  - assert (trunc (g * INR (Nat.pred (List.length l))) <= Nat.pred (List.length l))%nat by (apply trunc_le_nat; [apply Rmult_le_pos; lra|nra]).
    destruct l; [congruence|cbn in *; lia].
Qed.
Theorem C59_bands_nested : forall cdf c1 c2 nx model i, is_cdf cdf -> 0 <= c1 -> c1 <= c2 -> model <> [] -> (i < nx)%nat ->
  let lo c := fst (nth i (band cdf c nx model) (0, 0)) in
  let hi c := snd (nth i (band cdf c nx model) (0, 0)) in
  lo c2 <= lo c1 /\ lo c1 <= hi c1 /\ hi c1 <= hi c2 /\
  (exists m, In m model /\ lo c1 = nth i m 0) /\ (exists m, In m model /\ hi c1 = nth i m 0).
Proof.
  intros cdf c1 c2 nx model i (MON & RNG) C1 C12 NE Hi. cbv beta zeta.
  assert (B : forall c, nth i (band cdf c nx model) (0, 0) = (order_stat (cdf (- c)) (map (fun m => nth i m 0) model), order_stat (cdf c) (map (fun m => nth i m 0) model))).
  { intros c. unfold band. rewrite (nth_indep _ (0, 0) ((fun i => (order_stat (cdf (- c)) (map (fun m => nth i m 0) model), order_stat (cdf c) (map (fun m => nth i m 0) model))) 0%nat)) by (rewrite map_length, seq_length; exact Hi).
    rewrite (map_nth (fun i => (order_stat (cdf (- c)) (map (fun m => nth i m 0) model), order_stat (cdf c) (map (fun m => nth i m 0) model)))).
    rewrite seq_nth by exact Hi. reflexivity. }
  rewrite !B. cbn [fst snd].
  assert (NC : map (fun m => nth i m 0) model <> []) by (destruct model; [congruence|discriminate]).
  pose proof (RNG (- c1)); pose proof (RNG (- c2)); pose proof (RNG c1); pose proof (RNG c2).
  split; [apply order_stat_mono; auto; try lra; apply MON; lra|].
  split; [apply order_stat_mono; auto; try lra; apply MON; lra|].
  split; [apply order_stat_mono; auto; try lra; apply MON; lra|].
  split.
  - pose proof (order_stat_in (cdf (- c1)) _ NC ltac:(lra)) as I. apply in_map_iff in I. destruct I as (m & E & I). exists m; auto.
  - pose proof (order_stat_in (cdf c1) _ NC ltac:(lra)) as I. apply in_map_iff in I. destruct I as (m & E & I). exists m; auto.
Qed.
(** a distribution function exists, and the hypotheses are met *)
Definition ex_cdf (x : R) : R := if Rlt_dec x 0 then 1 / 4 else 3 / 4.
Lemma ex_cdf_ok : is_cdf ex_cdf.
Proof.
  unfold is_cdf, ex_cdf. split; [intros x y H|intros x]; repeat match goal with |- context [Rlt_dec ?a ?b] => destruct (Rlt_dec a b) end; lra.
Qed.

(** ** C81. The band contains more than the fraction it stands for of all but one of the
    samples *)
Definition inside (lo hi x : R) : bool := if Rle_dec lo x then if Rle_dec x hi then true else false else false.
Lemma inside_sorted s : StronglySorted Rle s -> forall a b, (a <= b < List.length s)%nat ->
  (S b - a <= List.length (filter (inside (nth a s 0%R) (nth b s 0%R)) s))%nat.
Proof.
  intros SS a b L.
  assert (E : s = firstn a s ++ (firstn (S b - a) (skipn a s) ++ skipn (S b - a) (skipn a s))) by (rewrite firstn_skipn, firstn_skipn; reflexivity).
  rewrite E at 3. rewrite !filter_app, !app_length.
  assert (M : filter (inside (nth a s 0) (nth b s 0)) (firstn (S b - a) (skipn a s)) = firstn (S b - a) (skipn a s)).
  { assert (HA : forall (l : list R) p, (forall x, In x l -> p x = true) -> filter p l = l).
    { intros l p. induction l as [|x l IH]; intros H; cbn; auto. rewrite (H x (or_introl eq_refl)). f_equal. apply IH. intros y Hy; apply H; right; auto. }
    apply HA. intros x Hx.
    apply (In_nth _ _ 0) in Hx. destruct Hx as (k & Lk & <-). rewrite firstn_length, skipn_length in Lk.
    assert (N : nth k (firstn (Datatypes.S b - a) (skipn a s)) 0 = nth (a + k) s 0).
    { rewrite <- (firstn_skipn a s) at 2. rewrite app_nth2; rewrite firstn_length; [|lia].
      replace (a + k - Nat.min a (List.length s))%nat with k by lia.
      rewrite <- (firstn_skipn (Datatypes.S b - a) (skipn a s)) at 2. rewrite app_nth1; [reflexivity|]. rewrite firstn_length, skipn_length. lia. }
    rewrite N. unfold inside.
    destruct (Rle_dec (nth a s 0) (nth (a + k) s 0)) as [|Q]; [|exfalso; apply Q, sorted_nth; auto; lia].
    destruct (Rle_dec (nth (a + k) s 0) (nth b s 0)) as [|Q]; [reflexivity|exfalso; apply Q, sorted_nth; auto; lia]. }
  rewrite M, firstn_length, skipn_length. lia.
Qed.
Lemma filter_perm_length {A} (p : A -> bool) l l' : Permutation l l' -> List.length (filter p l) = List.length (filter p l').
Proof. induction 1; cbn; auto; repeat (match goal with |- context [p ?x] => destruct (p x) end); cbn; try congruence; lia. Qed.
Theorem C81_band_coverage : forall cdf c l, is_cdf cdf -> 0 <= c -> l <> [] ->
  (cdf c - cdf (- c)) * (INR (List.length l) - 1) < INR (List.length (filter (inside (order_stat (cdf (- c)) l) (order_stat (cdf c) l)) l)).
Proof.
  intros cdf c l (MON & RNG) C NE. set (n := Nat.pred (List.length l)).
  assert (LN : List.length l = S n) by (destruct l; [congruence|reflexivity]).
  pose proof (pos_INR n) as PN. pose proof (RNG c). pose proof (RNG (- c)). pose proof (MON (- c) c ltac:(lra)) as MC.
  unfold order_stat. fold n. set (a := trunc (cdf (- c) * INR n)). set (b := trunc (cdf c * INR n)).
  assert (AB : (a <= b)%nat) by (apply trunc_mono; [apply Rmult_le_pos; lra|apply Rmult_le_compat_r; lra]).
  assert (BN : (b <= n)%nat) by (apply trunc_le_nat; [apply Rmult_le_pos; lra|nra]).
  rewrite <- (filter_perm_length _ _ _ (rsort_perm l)).
  eapply Rlt_le_trans; [|apply le_INR, (inside_sorted (rsort l) (rsort_sorted l) a b); rewrite rsort_length; lia].
  rewrite minus_INR by lia. rewrite S_INR, LN, S_INR.
  pose proof (trunc_spec (cdf (- c) * INR n) ltac:(apply Rmult_le_pos; lra)) as TA. pose proof (trunc_spec (cdf c * INR n) ltac:(apply Rmult_le_pos; lra)) as TB.
  fold a in TA. fold b in TB. lra.
Qed.

(** ** C82 (refuted, code defect). When the model is recomputed on a wider energy range
    at most 100 samples are drawn, whatever the largest confidence level asked for, and
    the warning about too few samples can never be issued. *)
Theorem C82_sample_cap_refuted : forall cdf c, (fst (ci_samples cdf c) <= 100)%nat /\ snd (ci_samples cdf c) = false /\
  (0 < cdf (- c) < 1 / 100 -> fst (ci_samples cdf c) = 100%nat /\ INR (fst (ci_samples cdf c)) < 1 / cdf (- c)).
Proof.
  intros cdf c. unfold ci_samples. cbv zeta.
  assert (L : (Nat.min 100 (trunc (1 / cdf (- c) + 1)) <= 100)%nat) by lia.
  destruct (Nat.ltb_spec 1000 (Nat.min 100 (trunc (1 / cdf (- c) + 1)))); [lia|]. cbn [fst snd].
  split; [exact L|]. split; [reflexivity|]. intros (P & Q).
  assert (H100 : 100 < 1 / cdf (- c)).
  { apply Rmult_lt_reg_r with (cdf (- c)); [exact P|]. unfold Rdiv. rewrite Rmult_1_l, Rinv_l by lra. lra. }
  assert (T : (100 <= trunc (1 / cdf (- c) + 1))%nat).
  { replace 100%nat with (trunc (INR 100)) by (apply trunc_unique; lra). apply trunc_mono; [apply pos_INR|]. rewrite INR_IZR_INZ. cbn [Z.of_nat Pos.of_succ_nat Pos.succ]. lra. }
  rewrite Nat.min_l by exact T. split; [reflexivity|]. rewrite INR_IZR_INZ. cbn [Z.of_nat Pos.of_succ_nat Pos.succ]. lra.
Qed.
Example C82_example : exists cdf, is_cdf cdf /\ 0 < cdf (- 3) < 1 / 100.
Proof.
  exists (fun x => if Rlt_dec x 0 then 1 / 1000 else 999 / 1000). split; [|destruct (Rlt_dec (- 3) 0); lra].
  split; [intros x y H|intros x]; repeat match goal with |- context [Rlt_dec ?a ?b] => destruct (Rlt_dec a b) end; lra.
Qed.
Example C59_example : let lo c := fst (nth 0 (band ex_cdf c 1 [[3]; [1]; [2]; [5]; [4]]) (0, 0)) in lo 2 <= lo 1.
Proof. apply (C59_bands_nested ex_cdf 1 2 1 [[3]; [1]; [2]; [5]; [4]] 0 ex_cdf_ok); try lra; [discriminate|lia]. Qed.
Print Assumptions C57_find_ML.
Print Assumptions C80_summary_in_range.
Print Assumptions C80_median_odd.
Print Assumptions C58_whole_chain.
Print Assumptions C58_no_conversion.
Print Assumptions C133_last_step_example_refuted.
Print Assumptions C133_odd_label_refuted.
Print Assumptions C59_bands_nested.
Print Assumptions C81_band_coverage.
Print Assumptions C82_sample_cap_refuted.
