(** C121: what save_results_table records beside the rows, and where. *)
From Coq Require Import Reals List Bool String Ascii Arith Lra Lia.
From Verif Require Import Outcome SimplexModel AnalysisModel AnalysisProofs AnalysisProps AnalysisProps2 AnalysisProps3 MetaModel.
Import ListNotations.
Local Open Scope R_scope.

(** ** Specification *)
(** the same value, written without numpy types *)
Inductive same_value : mval -> mval -> Prop :=
| SameStr s : same_value (PStr s) (PStr s)
| SameNum x : same_value (PNum x) (PNum x)
| SameList l : same_value (PList l) (PList l)
| SameNp x : same_value (NNum x) (PNum x)
| SameArr l : same_value (NArr l) (PList l).
(** values with a plain equivalent: text, numbers and vectors *)
Definition ordinary (v : mval) : Prop := match v with NArr2 _ | NStr _ => False | _ => True end.
(** the entry of a table under a key *)
Definition entry (k : string) (t : table) : option mval :=
  match t_meta t with Keywords m => dget k m | Meta m => dget k m end.
(** names the table uses itself *)
Definition own_key (k : string) : Prop := In k ["n_samples"; "ML_pars"; "MaxLogLikelihood"; "BIC"]%string.
Definition unit_key (i : nat) : string := ("blob" ++ nat_str i ++ "_unit")%string.
(** a dictionary has every key once *)
Definition is_dict {V} (d : list (string * V)) : Prop := NoDup (map fst d).

(** ** Lemmas *)
Lemma dget_none {V} k (d : list (string * V)) : ~ In k (map fst d) -> dget k d = None.
Proof.
  induction d as [|[a b] d IH]; cbn; [reflexivity|]. intros H. destruct (String.eqb_spec k a) as [->|N]; [tauto|]. apply IH. tauto.
Qed.
Lemma dget_is_in {V} k (v : V) d : dget k d = Some v -> In (k, v) d.
Proof.
  induction d as [|[a b] d IH]; cbn; [discriminate|]. destruct (String.eqb_spec k a) as [->|N]; intros H; [left; congruence|right; auto].
Qed.
Lemma dget_dict {V} k (v : V) d : is_dict d -> In (k, v) d -> dget k d = Some v.
Proof.
  unfold is_dict. induction d as [|[a b] d IH]; cbn; [tauto|]. intros N H. inversion N; subst.
  destruct (String.eqb_spec k a) as [->|D].
  - destruct H as [H|H]; [congruence|]. exfalso. apply H2. apply (in_map fst) in H. exact H.
  - destruct H as [H|H]; [congruence|]. auto.
Qed.
Lemma update_other {V} (e : list (string * V)) : forall d k, ~ In k (map fst e) -> dget k (update d e) = dget k d.
Proof.
  unfold update. induction e as [|[a b] e IH]; cbn; [reflexivity|]. intros d k H. rewrite IH by tauto. apply dget_dset_other. intro; subst; tauto.
Qed.
Lemma update_in {V} (e : list (string * V)) : forall d k v, is_dict e -> In (k, v) e -> dget k (update d e) = Some v.
Proof.
  unfold is_dict. induction e as [|[a b] e IH]; cbn [map In fst]; [tauto|]. intros d k v N [H|H]; inversion N; subst.
  - inversion H; subst. change (update d ((k, v) :: e)) with (update (Outcome.dset k v d) e). rewrite update_other by assumption. apply dget_dset_same.
  - change (update d ((a, b) :: e)) with (update (Outcome.dset a b d) e). apply IH; assumption.
Qed.
Lemma update_keys {V} (e : list (string * V)) : forall d k v, In (k, v) (update d e) -> In (k, v) d \/ In (k, v) e.
Proof.
  unfold update. induction e as [|[a b] e IH]; cbn; [tauto|]. intros d k v H. destruct (IH _ _ _ H) as [H1|H1]; [|tauto].
  clear -H1. induction d as [|[x y] d IHd]; cbn in *; [destruct H1 as [H1|[]]; auto|].
  destruct (String.eqb_spec a x) as [->|N]; cbn in H1.
  - destruct H1 as [H1|H1]; [right; left; assumption|left; right; assumption].
  - destruct H1 as [H1|H1]; [left; left; assumption|]. destruct (IHd H1) as [H2|H2]; [left; right; assumption|right; assumption].
Qed.

Lemma to_plain_spec v w : to_plain v = Ok w -> ordinary v -> same_value v w.
Proof. destruct v; cbn; intros H O; inversion H; subst; try constructor; contradiction. Qed.
Lemma to_plain_ordinary v : ordinary v -> exists w, to_plain v = Ok w.
Proof. destruct v; cbn; intros H; try contradiction; eexists; reflexivity. Qed.
Lemma to_plain_plain v w : to_plain v = Ok w -> from_numpy w = false.
Proof.
  destruct v; cbn; intros H; try (inversion H; reflexivity).
  - destruct (row_items rows); cbn in H; inversion H; reflexivity.
  - destruct s; inversion H; reflexivity.
Qed.
Definition conv1 (kv : string * mval) : outcome (string * mval) := omap (pair (fst kv)) (to_plain (snd kv)).
Lemma conv_get m : forall m' k v, mapM conv1 m = Ok m' -> dget k m = Some v -> exists w, to_plain v = Ok w /\ dget k m' = Some w.
Proof.
  induction m as [|[a b] m IH]; cbn [mapM dget]; [discriminate|]. intros m' k v H G. unfold conv1 at 1 in H. cbn [fst snd] in H.
  destruct (to_plain b) as [w|e] eqn:E; cbn [omap obind] in H; [|discriminate]. destruct (mapM conv1 m) as [ms|e]; cbn [obind] in H; [|discriminate].
  inversion H; subst. cbn [dget]. destruct (String.eqb_spec k a) as [->|N].
  - inversion G; subst. eauto.
  - apply IH; auto.
Qed.
Lemma conv_none m : forall m' k, mapM conv1 m = Ok m' -> dget k m = None -> dget k m' = None.
Proof.
  induction m as [|[a b] m IH]; cbn [mapM dget]; intros m' k H G; [inversion H; reflexivity|]. unfold conv1 at 1 in H. cbn [fst snd] in H.
  destruct (to_plain b) as [w|e] eqn:E; cbn [omap obind] in H; [|discriminate]. destruct (mapM conv1 m) as [ms|e]; cbn [obind] in H; [|discriminate].
  inversion H; subst. cbn [dget]. destruct (String.eqb_spec k a) as [->|N]; [discriminate|]. apply IH; auto.
Qed.
Lemma conv_ok m : (forall k v, In (k, v) m -> ordinary v) -> exists m', mapM conv1 m = Ok m'.
Proof.
  induction m as [|[a b] m IH]; cbn [mapM]; intros H; [eauto|]. destruct (to_plain_ordinary b (H a b (or_introl eq_refl))) as (w & E).
  unfold conv1 at 1. cbn [fst snd]. rewrite E. cbn [omap obind]. destruct IH as (m' & ->); [intros k v I'; apply (H k v); right; assumption|]. eexists; reflexivity.
Qed.
Lemma conv_plain m : forall m', mapM conv1 m = Ok m' -> forall k v, In (k, v) m' -> from_numpy v = false.
Proof.
  induction m as [|[a b] m IH]; cbn [mapM]; intros m' H k v I'; [inversion H; subst; contradiction|]. unfold conv1 at 1 in H. cbn [fst snd] in H.
  destruct (to_plain b) as [w|e] eqn:E; cbn [omap obind] in H; [|discriminate]. destruct (mapM conv1 m) as [ms|e]; cbn [obind] in H; [|discriminate].
  inversion H; subst. destruct I' as [I'|I']; [inversion I'; subst; apply (to_plain_plain _ _ E)|eauto].
Qed.
Lemma conv_bad m : forall k v e, In (k, v) m -> to_plain v = Err e -> exists e', mapM conv1 m = Err e'.
Proof.
  induction m as [|[a b] m IH]; cbn [mapM In]; intros k v e I' E; [contradiction|]. destruct I' as [I'|I'].
  - inversion I'; subst. unfold conv1 at 1. cbn [fst snd]. rewrite E. eexists; reflexivity.
  - unfold conv1 at 1. cbn [fst snd]. destruct (to_plain b) as [w|e1]; cbn [omap obind]; [|eexists; reflexivity].
    destruct (IH k v e I' E) as (e' & ->). eexists; reflexivity.
Qed.

Lemma blob_units_spec r k v : In (k, v) (blob_units r) <->
  exists i u, (i < List.length (s_blob (nth 0 (last (r_steps r) []) empty_sample)))%nat /\ k = unit_key i /\ v = PStr u /\
    (let it := nth i (s_blob (nth 0 (last (r_steps r) []) empty_sample)) IOther in
     (exists x, it = IScalarQ x u) \/ (exists x, it = IArrayQ [x] u)).
Proof.
  unfold blob_units. set (b0 := s_blob _). rewrite in_flat_map. split.
  - intros (i & I1 & I2). apply in_seq in I1. destruct (nth i b0 IOther) as [x u|[|x [|? ?]] u|x|xs|xs|] eqn:E; cbn in I2; try tauto.
    + destruct I2 as [I2|[]]. inversion I2; subst. exists i, u. rewrite E. repeat split; [lia|left; eauto].
    + destruct I2 as [I2|[]]. inversion I2; subst. exists i, u. rewrite E. repeat split; [lia|right; eauto].
  - intros (i & u & L & -> & -> & C). exists i. split; [apply in_seq; lia|]. cbn zeta in C.
    destruct C as [(x & ->)|(x & ->)]; cbn; left; reflexivity.
Qed.
Lemma app_inj_tail' (s : string) : forall a b, (a ++ s)%string = (b ++ s)%string -> a = b.
Proof.
  assert (L : forall a : string, String.length (a ++ s) = (String.length a + String.length s)%nat) by (induction a; cbn; [reflexivity|rewrite IHa; reflexivity]).
  intros a. induction a as [|c a IH]; intros [|d b] H; cbn in H.
  - reflexivity.
  - exfalso. apply (f_equal String.length) in H. cbn in H. rewrite L in H. lia.
  - exfalso. apply (f_equal String.length) in H. cbn in H. rewrite L in H. lia.
  - inversion H. f_equal. apply IH. assumption.
Qed.
Lemma unit_key_inj i j : unit_key i = unit_key j -> i = j.
Proof. unfold unit_key. intros H. apply append_inj in H. apply app_inj_tail' in H. apply nat_str_inj, H. Qed.
Lemma blob_units_dict r : is_dict (blob_units r).
Proof.
  unfold is_dict, blob_units. set (b0 := s_blob _). generalize (seq_NoDup (List.length b0) 0). set (l := seq 0 _). clearbody l.
  induction l as [|i l IH]; intros N; [constructor|]. inversion N; subst. cbn [flat_map]. rewrite map_app.
  assert (K : forall x, In x (map fst (flat_map (fun idx => match nth idx b0 IOther with
      | IScalarQ _ u | IArrayQ [_] u => [(("blob" ++ nat_str idx ++ "_unit")%string, PStr u)] | _ => [] end) l)) -> exists j, In j l /\ x = unit_key j).
  { intros x I'. apply in_map_iff in I'. destruct I' as ([k v] & <- & I'). apply in_flat_map in I'. destruct I' as (j & J & I').
    exists j. split; [assumption|]. destruct (nth j b0 IOther) as [y u|[|y [|? ?]] u|y|xs|xs|]; cbn in I'; try tauto; destruct I' as [I'|[]]; inversion I'; reflexivity. }
  specialize (IH H2).
  destruct (nth i b0 IOther) as [y u|[|y [|? ?]] u|y|xs|xs|]; cbn [map app fst]; try exact IH.
  - constructor; [|exact IH]. intros I'. destruct (K _ I') as (j & J & E). apply (unit_key_inj i j) in E. subst. contradiction.
  - constructor; [|exact IH]. intros I'. destruct (K _ I') as (j & J & E). apply (unit_key_inj i j) in E. subst. contradiction.
Qed.
Lemma unit_key_not_own i : ~ own_key (unit_key i).
Proof. unfold own_key, unit_key. cbn. intros [H|[H|[H|[H|[]]]]]; discriminate H. Qed.
Lemma unit_keys_shape r k : In k (map fst (blob_units r)) -> exists i, k = unit_key i.
Proof. intros H. apply in_map_iff in H. destruct H as ([a b] & <- & H). apply blob_units_spec in H. destruct H as (i & u & _ & -> & _). exists i. reflexivity. Qed.

(** entries of the metadata *)
Lemma meta_info r nd i ls ib k v : is_dict i -> In (k, v) i -> (forall j, k <> unit_key j) -> dget k (metadata r nd (Some i) ls ib) = Some v.
Proof.
  intros D I' N. unfold metadata. assert (NU : ~ In k (map fst (blob_units r))) by (intros H; destruct (unit_keys_shape _ _ H) as (j & ->); apply (N j); reflexivity).
  destruct ib; [rewrite update_other by exact NU|]; apply update_in; assumption.
Qed.
Lemma meta_own r nd info ls ib k : own_key k -> match info with Some i => ~ In k (map fst i) | None => True end ->
  dget k (metadata r nd info ls ib) = dget k (own_meta r nd ls).
Proof.
  intros O N. unfold metadata. assert (NU : ~ In k (map fst (blob_units r))) by (intros H; destruct (unit_keys_shape _ _ H) as (j & ->); apply (unit_key_not_own j); exact O).
  destruct ib; [rewrite update_other by exact NU|]; destruct info as [i|]; try reflexivity; apply update_other; exact N.
Qed.
Lemma meta_unit r nd info ls k v : In (k, v) (blob_units r) -> dget k (metadata r nd info ls true) = Some v.
Proof. intros H. unfold metadata. apply update_in; [apply blob_units_dict|exact H]. Qed.
Lemma table_meta_get f m tm k v : table_meta f m = Ok tm -> dget k m = Some v -> ordinary v ->
  exists w, match tm with Keywords m' => dget k m' | Meta m' => dget k m' end = Some w /\ (w = v \/ same_value v w).
Proof.
  intros H G O. destruct f; cbn in H.
  - destruct (mapM _ m) as [m'|e] eqn:E; cbn in H; [|discriminate]. inversion H; subst. destruct (conv_get m m' k v E G) as (w & TP & G').
    exists w. split; [exact G'|]. right. apply to_plain_spec; assumption.
  - inversion H; subst. exists v. auto.
  - inversion H; subst. exists v. auto.
Qed.
Lemma table_meta_ecsv m tm k v : table_meta Ecsv m = Ok tm -> dget k m = Some v -> ordinary v ->
  exists w, match tm with Keywords m' => dget k m' | Meta m' => dget k m' end = Some w /\ same_value v w.
Proof.
  intros H G O. cbn in H. destruct (mapM _ m) as [m'|e] eqn:E; cbn in H; [|discriminate]. inversion H; subst. destruct (conv_get m m' k v E G) as (w & TP & G').
  exists w. split; [exact G'|]. apply to_plain_spec; assumption.
Qed.
Lemma save_ok yaml fs out f0 r nd info cl ls ib ow t fs' : save_table yaml fs out f0 r nd info cl ls ib ow = (Ok t, fs') ->
  let f := used_format yaml f0 in
  exists rows tm, save_results_table r cl ls ib = Ok rows /\ table_meta f (metadata r nd info ls ib) = Ok tm /\ t = mkTable f rows tm /\
    (ow = true \/ fs (file_name out f) = None) /\ fs' (file_name out f) = Some t /\ (forall k, k <> file_name out f -> fs' k = fs k).
Proof.
  unfold save_table. cbv zeta. set (f := used_format yaml f0). intros H.
  destruct (save_results_table r cl ls ib) as [rows|e]; cbn [obind] in H; [|inversion H].
  destruct (table_meta f _) as [tm|e]; cbn [omap] in H; [|inversion H].
  assert (K : (Ok (mkTable f rows tm), fun k => if (k =? file_name out f)%string then Some (mkTable f rows tm) else fs k) = (Ok t, fs') /\ (ow = true \/ fs (file_name out f) = None)).
  { destruct (fs (file_name out f)), ow; try (split; [exact H|auto]); inversion H. }
  destruct K as (K & E). inversion K; subst. exists rows, tm. repeat split; auto.
  - rewrite String.eqb_refl. reflexivity.
  - intros k N. destruct (String.eqb_spec k (file_name out f)); [contradiction|reflexivity].
Qed.

(** ** C121. The file written with the default format, and only that file. *)
Theorem C121_file : forall yaml fs out r nd info cl ls ib ow t fs',
  save_table yaml fs out Ecsv r nd info cl ls ib ow = (Ok t, fs') ->
  let name := (out ++ (if yaml then "_results.ecsv" else "_results.dat"))%string in
  fs' name = Some t /\ (forall k, k <> name -> fs' k = fs k) /\ save_results_table r cl ls ib = Ok (t_rows t) /\
  t_format t = (if yaml then Ecsv else Ipac).
Proof.
  intros yaml fs out r nd info cl ls ib ow t fs' H name. destruct (save_ok _ _ _ _ _ _ _ _ _ _ _ _ _ H) as (rows & tm & R & M & -> & _ & F & O).
  unfold file_name, used_format in *. subst name. destruct yaml; cbn [t_rows t_format]; auto.
Qed.
(** Nothing is written when the call fails, for whatever reason; an existing file is
    replaced only if asked. *)
Theorem C121_failure_writes_nothing : forall yaml fs out f r nd info cl ls ib ow e fs',
  save_table yaml fs out f r nd info cl ls ib ow = (Err e, fs') -> fs' = fs.
Proof.
  intros until fs'. unfold save_table. cbv zeta. intros H. destruct (obind _ _); [|congruence]. destruct (fs _), ow; congruence.
Qed.
Theorem C121_no_overwrite : forall yaml fs out f r nd info cl ls ib old,
  fs (file_name out (used_format yaml f)) = Some old ->
  exists e, save_table yaml fs out f r nd info cl ls ib false = (Err e, fs).
Proof.
  intros yaml fs out f r nd info cl ls ib old H. unfold save_table. cbv zeta. destruct (obind _ _) as [t|e]; [rewrite H|]; eauto.
Qed.
(** Every entry of run_info is there with its value; in the default format as a plain
    Python value, as is everything else. *)
Theorem C121_run_info : forall fs out r nd info cl ls ib ow t fs' k v,
  save_table true fs out Ecsv r nd (Some info) cl ls ib ow = (Ok t, fs') -> is_dict info -> In (k, v) info -> ordinary v ->
  (forall i, k <> unit_key i) ->
  exists w, entry k t = Some w /\ same_value v w.
Proof.
  intros until v. intros H D I' O N. destruct (save_ok _ _ _ _ _ _ _ _ _ _ _ _ _ H) as (rows & tm & R & M & -> & _).
  unfold entry. cbn [t_meta]. apply (table_meta_ecsv _ _ k v M); [|exact O]. apply meta_info; assumption.
Qed.
Theorem C121_plain : forall fs out r nd info cl ls ib ow t fs' k v,
  save_table true fs out Ecsv r nd info cl ls ib ow = (Ok t, fs') -> entry k t = Some v -> from_numpy v = false.
Proof.
  intros until v. intros H G. destruct (save_ok _ _ _ _ _ _ _ _ _ _ _ _ _ H) as (rows & tm & R & M & -> & _).
  unfold entry in G. cbn [t_meta] in G. cbn in M. destruct (mapM _ _) as [m'|e] eqn:E; cbn in M; [|discriminate]. inversion M; subst.
  apply (conv_plain _ _ E k). apply dget_is_in. exact G.
Qed.
(** ipac keeps every entry as it is *)
Theorem C121_ipac : forall yaml fs out r nd info cl ls ib ow t fs' k v,
  save_table yaml fs out Ipac r nd (Some info) cl ls ib ow = (Ok t, fs') -> is_dict info -> In (k, v) info ->
  (forall i, k <> unit_key i) -> entry k t = Some v.
Proof.
  intros until v. intros H D I' N. destruct (save_ok _ _ _ _ _ _ _ _ _ _ _ _ _ H) as (rows & tm & R & M & -> & _).
  unfold entry. cbn [t_meta]. cbn in M. inversion M; subst. apply meta_info; assumption.
Qed.
(** The results of the fit: with the whole chain, the number of samples, a sample of
    maximal log-probability, that log-probability, and the information criterion *)
Theorem C121_results : forall fs out r nd info cl ib ow t fs',
  save_table true fs out Ecsv r nd info cl false ib ow = (Ok t, fs') ->
  match info with Some i => forall k, own_key k -> ~ In k (map fst i) | None => True end ->
  rectangular r -> List.Forall (fun s => exists l, s_lp s = Fin l) (flat r) ->
  entry "n_samples" t = Some (PNum (Fin (INR (List.length (List.concat (r_steps r)))))) /\
  exists s l, In s (List.concat (r_steps r)) /\ s_lp s = Fin l /\
    (forall s' l', In s' (List.concat (r_steps r)) -> s_lp s' = Fin l' -> l' <= l) /\
    entry "ML_pars" t = Some (PList (map Fin (s_par s))) /\ entry "MaxLogLikelihood" t = Some (PNum (Fin l)) /\
    entry "BIC" t = Some (PNum (Fin (INR (List.length (s_par s)) * ln (INR nd) - 2 * l))).
Proof.
  intros until fs'. intros H NK RC FIN. destruct (save_ok _ _ _ _ _ _ _ _ _ _ _ _ _ H) as (rows & tm & R & M & -> & _).
  assert (G : forall k v, own_key k -> dget k (own_meta r nd false) = Some v -> ordinary v -> exists w, entry k (mkTable Ecsv rows tm) = Some w /\ same_value v w).
  { intros k v O E OV. unfold entry. cbn [t_meta]. apply (table_meta_ecsv _ _ k v M); [|exact OV]. rewrite meta_own; [exact E|exact O|]. destruct info; auto. }
  change (used_format true Ecsv) with Ecsv in *.
  assert (NN : List.Forall (fun s => isnan (s_lp s) = false) (flat r)).
  { eapply Forall_impl; [|exact FIN]. intros s (l & ->). reflexivity. }
  destruct (C57_find_ML r RC NN) as (n & s & IN & ML & MX & _). apply nth_error_In in IN.
  pose proof FIN as FIN'. rewrite List.Forall_forall in FIN'. destruct (FIN' s IN) as (l & EL).
  unfold own_meta, BIC in G. destruct (find_ML r) as [[[ml p] e] b]. destruct ML as (-> & -> & _). rewrite EL in G.
  unfold own_key in G. split.
  - destruct (G "n_samples"%string _ ltac:(cbn; auto) eq_refl ltac:(cbn; auto)) as (w & E & S). rewrite E. inversion S; subst. do 4 f_equal. unfold used_dists. rewrite map_length. reflexivity.
  - exists s, l. split; [exact IN|]. split; [exact EL|]. split.
    + intros s' l' I' E'. specialize (MX s' I'). rewrite E', EL in MX. cbn in MX. destruct (Rle_dec l' l); [assumption|discriminate].
    + destruct (G "ML_pars"%string _ ltac:(cbn; auto) eq_refl ltac:(cbn; auto)) as (w1 & E1 & S1).
      destruct (G "MaxLogLikelihood"%string _ ltac:(cbn; auto) eq_refl ltac:(cbn; auto)) as (w2 & E2 & S2).
      destruct (G "BIC"%string _ ltac:(cbn; auto) eq_refl ltac:(cbn; auto)) as (w3 & E3 & S3).
      rewrite E1, E2, E3. inversion S1; inversion S2; inversion S3; subst. auto.
Qed.
(** The unit of every scalar blob *)
Theorem C121_blob_units : forall fs out r nd info cl ls ow t fs' i u,
  save_table true fs out Ecsv r nd info cl ls true ow = (Ok t, fs') ->
  (i < List.length (s_blob (hd empty_sample (last (r_steps r) []))))%nat ->
  (exists x, nth i (s_blob (hd empty_sample (last (r_steps r) []))) IOther = IScalarQ x u) ->
  entry (unit_key i) t = Some (PStr u).
Proof.
  intros until u. intros H L (x & E). destruct (save_ok _ _ _ _ _ _ _ _ _ _ _ _ _ H) as (rows & tm & R & M & -> & _).
  assert (HD : hd empty_sample (last (r_steps r) []) = nth 0 (last (r_steps r) []) empty_sample) by (destruct (last (r_steps r) []); reflexivity).
  rewrite HD in *.
  destruct (table_meta_ecsv _ _ (unit_key i) (PStr u) M) as (w & G & S); [|cbn; auto|].
  - apply meta_unit, blob_units_spec. exists i, u. repeat split; auto. left. eauto.
  - unfold entry. cbn [t_meta]. rewrite G. inversion S; subst. reflexivity.
Qed.
(** The call succeeds whenever the rows can be computed and run_info holds ordinary
    values, unless the file exists and is to be kept *)
Theorem C121_succeeds : forall yaml fs out r nd info cl ls ib ow rows,
  save_results_table r cl ls ib = Ok rows -> (forall k v, In (k, v) info -> ordinary v) ->
  ow = true \/ fs (file_name out (used_format yaml Ecsv)) = None ->
  exists t fs', save_table yaml fs out Ecsv r nd (Some info) cl ls ib ow = (Ok t, fs') /\ t_rows t = rows.
Proof.
  intros yaml fs out r nd info cl ls ib ow rows R O F. unfold save_table. cbv zeta. rewrite R. cbn [obind].
  assert (OM : forall k v, In (k, v) (metadata r nd (Some info) ls ib) -> ordinary v).
  { assert (A : forall k v, In (k, v) (update (own_meta r nd ls) info) -> ordinary v).
    { intros k v I'. apply update_keys in I'. destruct I' as [I'|I']; [|eauto]. unfold own_meta in I'. destruct (find_ML r) as [[[a b] c] d].
      cbn in I'. destruct I' as [I'|[I'|[I'|[I'|[]]]]]; inversion I'; subst; cbn; auto. }
    intros k v I'. unfold metadata in I'. destruct ib; [|eauto]. apply update_keys in I'. destruct I' as [I'|I']; [eauto|].
    apply blob_units_spec in I'. destruct I' as (i & u & _ & _ & -> & _). cbn. auto. }
  destruct (conv_ok _ OM) as (m' & CM). fold conv1.
  assert (T : exists tm, table_meta (used_format yaml Ecsv) (metadata r nd (Some info) ls ib) = Ok tm).
  { destruct yaml; cbn; [fold conv1; change (fun kv : string * mval => omap (pair (fst kv)) (to_plain (snd kv))) with conv1; rewrite CM|]; eexists; reflexivity. }
  destruct T as (tm & ->). cbn [omap]. destruct (fs _), ow; try (do 2 eexists; split; [reflexivity|reflexivity]).
  destruct F as [F|F]; discriminate.
Qed.
(** A fit made by get_sampler and run_sampler: all six entries of its run_info *)
Theorem C121_fit : forall fs out r nd nw nb nr p0 med g cl ls ib rows,
  save_results_table r cl ls ib = Ok rows -> fs (out ++ "_results.ecsv")%string = None ->
  exists t fs', save_table true fs out Ecsv r nd (Some (fit_info nw nb nr p0 med g)) cl ls ib false = (Ok t, fs') /\ t_rows t = rows /\
    entry "n_walkers" t = Some (PNum (Fin (INR nw))) /\ entry "n_burn" t = Some (PNum (Fin (INR nb))) /\
    entry "n_run" t = Some (PNum (Fin (INR nr))) /\ entry "p0" t = Some (PList (map Fin p0)) /\
    entry "p0_burn_median" t = Some (PList (map Fin med)) /\ entry "guess" t = Some (PNum (Fin (if g then 1 else 0))).
Proof.
  intros until rows. intros R F.
  assert (O : forall k v, In (k, v) (fit_info nw nb nr p0 med g) -> ordinary v).
  { intros k v H. cbn in H. repeat (destruct H as [H|H]; [inversion H; subst; cbn; auto|]). destruct H. }
  destruct (C121_succeeds true fs out r nd _ cl ls ib false rows R O (or_intror F)) as (t & fs' & E & ER).
  exists t, fs'. split; [exact E|]. split; [exact ER|].
  assert (D : is_dict (fit_info nw nb nr p0 med g)).
  { unfold is_dict. cbn. repeat constructor; cbn; intros H; repeat (destruct H as [H|H]; [discriminate H|]); destruct H. }
  assert (G : forall k v, In (k, v) (fit_info nw nb nr p0 med g) -> (forall i, k <> unit_key i) -> exists w, entry k t = Some w /\ same_value v w).
  { intros k v I' N. eapply C121_run_info; eauto. }
  assert (GE : forall k v, In (k, v) (fit_info nw nb nr p0 med g) -> (forall i, k <> unit_key i) -> from_numpy v = false -> entry k t = Some v).
  { intros k v I' N NP. destruct (G k v I' N) as (w & -> & S). inversion S; subst; try reflexivity; discriminate NP. }
  repeat split; apply GE; try reflexivity; try (cbn; tauto); intros i H; discriminate H.
Qed.
(** what a reloaded run has: numpy numbers and vectors are written back as plain ones *)
Example C121_reloaded_example : same_value (NNum (Fin 3)) (PNum (Fin 3)) /\ same_value (NArr [Fin 1; Fin 2]) (PList [Fin 1; Fin 2]) /\ ordinary (NArr [Fin 1]).
Proof. repeat split; constructor. Qed.
Definition meta_run : run :=
  mkRun [[mkS [1] (Fin (-2)) [IScalarQ 5 "erg"]; mkS [2] (Fin (-1)) [IScalarQ 7 "erg"]; mkS [4] (Fin (-4)) [IScalarQ 6 "erg"]];
         [mkS [3] (Fin (-3)) [IScalarQ 8 "erg"]; mkS [2] (Fin (-1)) [IScalarQ 9 "erg"]; mkS [5] (Fin (-5)) [IScalarQ 6 "erg"]]] ["index"%string] [] (1 / 2) 0.
Example C121_example : exists t fs', save_table true (fun _ => None) "fit" Ecsv meta_run 10 (Some (fit_info 3 5 2 [1] [2] false)) true false true false = (Ok t, fs') /\
  rectangular meta_run /\ List.Forall (fun s => exists l, s_lp s = Fin l) (flat meta_run) /\ entry "blob0_unit" t = Some (PStr "erg") /\
  entry "n_samples" t = Some (PNum (Fin 6)).
Proof.
  destruct (C121_fit (fun _ => None) "fit" meta_run 10 3 5 2 [1] [2] false true false true _ eq_refl eq_refl) as (t & fs' & E & _).
  exists t, fs'. split; [exact E|].
  assert (RC : rectangular meta_run) by (split; [discriminate|split; [cbn; lia|repeat constructor]]).
  assert (FI : List.Forall (fun s => exists l, s_lp s = Fin l) (flat meta_run)) by (repeat constructor; eexists; reflexivity).
  split; [exact RC|]. split; [exact FI|]. split.
  - apply (C121_blob_units _ _ _ _ _ _ _ _ _ _ 0 "erg" E); [cbn; lia|cbn; eauto].
  - destruct (C121_results _ _ _ _ _ _ _ _ _ _ E) as (-> & _); [|exact RC|exact FI|cbn; do 3 f_equal; ring].
    intros k O H. cbn in O, H. repeat (destruct O as [O|O]; [subst; repeat (destruct H as [H|H]; [discriminate H|]); exact H|]). exact O.
Qed.

(** *** Refuted parts *)
(** An entry of run_info named like one of the table's own replaces it: the number of
    samples, the best parameters or the BIC recorded are then not those of the run. *)
Theorem C144_own_entry_replaced_refuted : forall fs out r nd info cl ls ib ow t fs' k v,
  save_table true fs out Ecsv r nd (Some info) cl ls ib ow = (Ok t, fs') -> is_dict info -> own_key k -> In (k, PNum v) info ->
  entry k t = Some (PNum v).
Proof.
  intros until v. intros H D O I'. destruct (C121_run_info _ _ _ _ _ _ _ _ _ _ _ k (PNum v) H D I') as (w & -> & S).
  - cbn. auto.
  - intros i ->. apply (unit_key_not_own i O).
  - inversion S; subst. reflexivity.
Qed.
(** One numpy string in run_info, and no table is saved in the default format. *)
Theorem C144_numpy_string_refuted : forall fs out r nd info cl ls ib ow k c s,
  is_dict info -> In (k, NStr (String c s)) info -> (forall i, k <> unit_key i) ->
  exists e, save_table true fs out Ecsv r nd (Some info) cl ls ib ow = (Err e, fs).
Proof.
  intros until s. intros D I' N. unfold save_table. cbv zeta. destruct (save_results_table r cl ls ib) as [rows|e]; cbn [obind]; [|eauto].
  change (used_format true Ecsv) with Ecsv. cbn [table_meta].
  pose proof (meta_info r nd info ls ib k _ D I' N) as G. apply dget_is_in in G.
  destruct (conv_bad _ _ _ "AttributeError" G eq_refl) as (e & E).
  change (mapM (fun kv : string * mval => omap (pair (fst kv)) (to_plain (snd kv))) (metadata r nd (Some info) ls ib)) with (mapM conv1 (metadata r nd (Some info) ls ib)).
  rewrite E. cbn [omap]. eauto.
Qed.
(** With last_step the number of samples recorded is the number of steps, not of walkers
    (the samples summarised are the wrong ones as well, see C58). *)
Theorem C144_last_step_refuted : forall fs out r nd cl ib ow t fs',
  save_table true fs out Ecsv r nd None cl true ib ow = (Ok t, fs') -> entry "n_samples" t = Some (PNum (Fin (INR (List.length (r_steps r))))).
Proof.
  intros until fs'. intros H. destruct (save_ok _ _ _ _ _ _ _ _ _ _ _ _ _ H) as (rows & tm & R & M & -> & _).
  destruct (table_meta_ecsv _ _ "n_samples" (PNum (Fin (INR (List.length (r_steps r))))) M) as (w & G & S); [|cbn; auto|].
  - rewrite meta_own; [|cbn; auto|exact Logic.I]. unfold own_meta. destruct (find_ML r) as [[[a b] c] d]. cbn [dget]. cbn. unfold used_dists. rewrite map_length. reflexivity.
  - unfold entry. cbn [t_meta]. rewrite G. inversion S; subst. reflexivity.
Qed.
Example C121_last_step_example : exists t fs', save_table true (fun _ => None) "fit" Ecsv meta_run 10 None true true true false = (Ok t, fs') /\
  entry "n_samples" t = Some (PNum (Fin 2)) /\ nwalkers meta_run = 3%nat.
Proof.
  destruct (save_table true (fun _ => None) "fit" Ecsv meta_run 10 None true true true false) as [[t|e] fs'] eqn:E.
  - exists t, fs'. split; [reflexivity|]. split; [|reflexivity]. rewrite (C144_last_step_refuted _ _ _ _ _ _ _ _ _ E). reflexivity.
  - exfalso. unfold save_table in E. cbv zeta in E. change (used_format true Ecsv) with Ecsv in E.
    change (save_results_table meta_run true true true) with (@Ok (list row) [summary "index" [4; 5]; summary "blob0" [8; 9; 6]]) in E. cbn [obind] in E.
    destruct (conv_ok (metadata meta_run 10 None true true)) as (m' & CM).
    { intros k v I'. unfold metadata in I'. apply update_keys in I'. destruct I' as [I'|I'].
      - apply update_keys in I'. destruct I' as [I'|[]]. unfold own_meta in I'. destruct (find_ML meta_run) as [[[a b] c] d].
        cbn in I'. destruct I' as [I'|[I'|[I'|[I'|[]]]]]; inversion I'; subst; cbn; auto.
      - apply blob_units_spec in I'. destruct I' as (i & u & _ & _ & -> & _). cbn. auto. }
    cbn [table_meta] in E. change (fun kv : string * mval => omap (pair (fst kv)) (to_plain (snd kv))) with conv1 in E. rewrite CM in E. cbn [omap] in E. inversion E.
Qed.
(** The documentation promises a file ending in _results.dat; with the default format
    that file is not touched. *)
Theorem C144_documented_name_refuted : forall fs out r nd info cl ls ib ow res fs',
  save_table true fs out Ecsv r nd info cl ls ib ow = (res, fs') -> fs' (out ++ "_results.dat")%string = fs (out ++ "_results.dat")%string.
Proof.
  intros until fs'. intros H. destruct res as [t|e].
  - destruct (C121_file _ _ _ _ _ _ _ _ _ _ _ _ H) as (_ & O & _). apply O. intros E. apply append_inj in E. discriminate E.
  - rewrite (C121_failure_writes_nothing _ _ _ _ _ _ _ _ _ _ _ _ _ H). reflexivity.
Qed.
(** A blob given in different units by different samples: the numbers are mixed, under
    the unit of one of them. *)
Theorem C144_mixed_units_refuted : exists r t fs' rows,
  save_table true (fun _ => None) "fit" Ecsv r 10 None true false true false = (Ok t, fs') /\
  map s_blob (flat r) = [[IScalarQ 1 "erg"]; [IScalarQ 1000000 "eV"]] /\
  t_rows t = rows ++ [summary "blob0" [1; 1000000]] /\ entry "blob0_unit" t = Some (PStr "erg").
Proof.
  set (r := mkRun [[mkS [1] (Fin 0) [IScalarQ 1 "erg"]; mkS [2] (Fin 0) [IScalarQ 1000000 "eV"]]] ["index"%string] [] 0 0).
  destruct (C121_succeeds true (fun _ => None) "fit" r 10 [] true false true false _ eq_refl) as (t & fs' & E & ER); [intros k v []|right; reflexivity|].
  exists r, t, fs', [summary "index" [1; 2]]. split; [|split; [reflexivity|split]].
  - unfold save_table in *. exact E.
  - rewrite ER. reflexivity.
  - apply (C121_blob_units _ _ _ _ _ _ _ _ _ _ 0 "erg" E); [cbn; lia|cbn; eauto].
Qed.
Print Assumptions C121_file. Print Assumptions C121_failure_writes_nothing. Print Assumptions C121_no_overwrite.
Print Assumptions C121_run_info. Print Assumptions C121_plain. Print Assumptions C121_ipac.
Print Assumptions C121_results. Print Assumptions C121_blob_units. Print Assumptions C121_succeeds. Print Assumptions C121_fit.
Print Assumptions C144_own_entry_replaced_refuted. Print Assumptions C144_numpy_string_refuted. Print Assumptions C144_last_step_refuted.
Print Assumptions C144_documented_name_refuted. Print Assumptions C144_mixed_units_refuted.
