(** Properties of saved runs: C55, C56, C79. *)
From Coq Require Import Reals List ZArith Bool String Ascii Arith Permutation Sorted DecimalString DecimalNat Lra Lia.
From Verif Require Import Outcome SimplexModel AnalysisModel AnalysisProofs AnalysisProps.
Import ListNotations.
Local Open Scope R_scope.

(** ** Specification *)
(** Two blob entries of the same kind that the file format can hold: same units, same
    lengths. *)
Inductive like : item -> item -> Prop :=
| like_scalar : forall v w u, like (IScalarQ v u) (IScalarQ w u)
| like_float : forall v w, like (IFloat v) (IFloat w)
| like_array : forall v w u, List.length v = List.length w -> like (IArrayQ v u) (IArrayQ w u)
| like_pair : forall a b c d u t, List.length a = List.length b -> List.length c = List.length a -> List.length d = List.length a ->
    like (ITuple [(a, u); (b, t)]) (ITuple [(c, u); (d, t)]).
(** A run of which every sample has the same blobs, at most 100, and one value per
    label *)
Definition storable (r : run) : Prop :=
  rectangular r /\
  List.Forall (fun s => List.length (s_par s) = List.length (r_labels r)) (flat r) /\
  exists b, (List.length b <= 100)%nat /\ List.Forall (fun s => List.Forall2 like b (s_blob s)) (flat r).
(** A float comes back as a dimensionless Quantity, everything else as it was *)
Definition back (i : item) : item := match i with IFloat v => IScalarQ v "" | _ => i end.
Definition back_sample (s : sample) : sample := mkS (s_par s) (s_lp s) (map back (s_blob s)).

(** ** Proofs *)
Lemma dget_dset_same {V} k (v : V) d : dget k (Outcome.dset k v d) = Some v.
Proof.
  induction d as [|[k' v'] d IH]; cbn; [rewrite String.eqb_refl; reflexivity|].
  destruct (String.eqb_spec k k'); cbn; [subst; rewrite String.eqb_refl; reflexivity|].
  destruct (String.eqb_spec k k'); [congruence|exact IH].
Qed.
Lemma dget_dset_other {V} k k' (v : V) d : k <> k' -> dget k (Outcome.dset k' v d) = dget k d.
Proof.
  intros N. induction d as [|[k2 v2] d IH]; cbn.
  - destruct (String.eqb_spec k k'); [congruence|reflexivity].
  - destruct (String.eqb_spec k' k2); cbn.
    + subst. destruct (String.eqb_spec k k2); [congruence|reflexivity].
    + destruct (String.eqb_spec k k2); [reflexivity|exact IH].
Qed.
Lemma nat_str_inj i j : nat_str i = nat_str j -> i = j.
Proof.
  unfold nat_str. intros H. apply (f_equal NilZero.uint_of_string) in H.
  assert (NN : forall n, Nat.to_uint n <> Decimal.Nil).
  { intros n E. pose proof (DecimalNat.Unsigned.of_to n) as Q. destruct n; [discriminate E|]. rewrite E in Q. cbn in Q. discriminate Q. }
  rewrite !NilZero.usu in H by apply NN. inversion H as [K]. apply DecimalNat.Unsigned.to_uint_inj, K.
Qed.
Lemma append_inj p a b : (p ++ a)%string = (p ++ b)%string -> a = b.
Proof. induction p as [|c p IH]; cbn; auto. intros H; inversion H; auto. Qed.
Lemma label_key_inj i j : label_key i = label_key j -> i = j.
Proof. unfold label_key. intros H. apply nat_str_inj, (append_inj "label"), H. Qed.
Lemma label_key_acc i : label_key i <> "acceptance_fraction"%string.
Proof. unfold label_key. cbn [String.append]. discriminate. Qed.
Lemma set_labels_other k ls : forall i d, (forall j, (i <= j < i + List.length ls)%nat -> k <> label_key j) -> dget k (set_labels i ls d) = dget k d.
Proof.
  induction ls as [|l ls IH]; intros i d H; cbn [set_labels]; auto.
  rewrite IH; [apply dget_dset_other, H; cbn; lia|]. intros j Hj. apply H. cbn. lia.
Qed.
Lemma set_labels_get ls : forall i d j, (j < List.length ls)%nat -> dget (label_key (i + j)) (set_labels i ls d) = Some (AStr (nth j ls ""%string)).
Proof.
  induction ls as [|l ls IH]; intros i d j H; cbn in H; [lia|]. cbn [set_labels]. destruct j as [|j].
  - rewrite Nat.add_0_r. rewrite set_labels_other; [apply dget_dset_same|]. intros j Hj E. apply label_key_inj in E. lia.
  - replace (i + S j)%nat with (S i + j)%nat by lia. rewrite IH by lia. reflexivity.
Qed.
Lemma read_labels_ok d ls : forall n i, (forall j, (i <= j < i + n)%nat -> dget (label_key j) d = Some (AStr (nth j ls ""%string))) ->
  read_labels d i n = Ok (map (fun j => nth j ls ""%string) (seq i n)).
Proof.
  induction n as [|n IH]; intros i H; cbn [read_labels seq map]; [reflexivity|].
  rewrite (H i) by lia. rewrite IH by (intros j Hj; apply H; lia). reflexivity.
Qed.
Lemma map_nth_seq {A} (d : A) l : map (fun i => nth i l d) (seq 0 (List.length l)) = l.
Proof.
  induction l as [|x l IH]; cbn [List.length seq map]; [reflexivity|]. f_equal. rewrite <- seq_shift, map_map. exact IH.
Qed.
Lemma info_dget (info : list (string * attr)) : NoDup (map fst info) -> forall k v d, In (k, v) info -> dget k (fold_left (fun d kv => Outcome.dset (fst kv) (snd kv) d) info d) = Some v.
Proof.
  assert (O : forall (info : list (string * attr)) k (d : list (string * attr)), ~ In k (map fst info) -> dget k (fold_left (fun d kv => Outcome.dset (fst kv) (snd kv) d) info d) = dget k d).
  { induction info0 as [|[k' v'] r IH]; intros k d H; cbn in *; auto. rewrite IH by tauto. apply dget_dset_other. intros ->. tauto. }
  induction info as [|[k' v'] r IH]; cbn; intros ND k v d H; [contradiction|]. inversion ND; subst. destruct H as [E|H].
  - inversion E; subst. rewrite O by assumption. apply dget_dset_same.
  - apply IH; assumption.
Qed.

(** blobs *)
Definition sitem (j : nat) (s : sample) : item := nth j (s_blob s) IOther.
Definition units_of (i : item) : list string := match item_units i with Some us => us | None => [] end.
Definition ds (r : run) (b0 : list item) (j : nat) : dset :=
  mkD (item_shape (nth j b0 IOther)) (map (fun s => item_vals (sitem j s)) (flat r)) (unit_attrs (units_of (nth j b0 IOther))).
Definition okitem (r : run) (i : item) (j : nat) : Prop :=
  (exists u us, item_units i = Some (u :: us)) /\ forallb (same_shape i) (map (sitem j) (flat r)) = true.
Lemma save_blobs_ok r rest : forall b0 idx, rest = skipn idx b0 -> (forall k, (k < List.length rest)%nat -> okitem r (nth k rest IOther) (idx + k)) ->
  save_blobs r rest idx = Ok (map (fun j => (j, ds r b0 j)) (seq idx (List.length rest))).
Proof.
  induction rest as [|i rest IH]; intros b0 idx E H; cbn [save_blobs List.length seq map]; [reflexivity|].
  destruct (H 0%nat ltac:(cbn; lia)) as ((u & us & U) & SH). cbn [nth] in U, SH. rewrite Nat.add_0_r in SH.
  rewrite U. unfold sitem in SH. rewrite SH.
  assert (SK : rest = skipn (S idx) b0).
  { clear -E. revert b0 E. induction idx as [|n IHn]; intros [|x b0] E; cbn in *; try discriminate; [inversion E; reflexivity|]. apply IHn in E. exact E. }
  rewrite (IH b0 (S idx) SK).
  - cbn [obind]. f_equal. f_equal.
    assert (NI : nth idx b0 IOther = i).
    { clear -E. revert b0 E. induction idx as [|n IHn]; intros [|x b0] E; cbn in *; try discriminate; [inversion E; reflexivity|]. apply IHn, E. }
    unfold ds, units_of. rewrite NI, U, map_map. reflexivity.
  - intros k Hk. specialize (H (S k) ltac:(cbn; lia)). cbn [nth] in H. replace (S idx + k)%nat with (idx + S k)%nat by lia. exact H.
Qed.
Lemma assoc_seq {A} (f : nat -> A) n : forall a i, (a <= i < a + n)%nat -> assoc i (map (fun j => (j, f j)) (seq a n)) = Some (f i).
Proof.
  induction n as [|n IH]; intros a i H; [lia|]. cbn [seq map assoc]. destruct (Nat.eqb_spec i a); [congruence|]. apply IH. lia.
Qed.
Lemma assoc_none {A} (f : nat -> A) n : forall a i, (i < a \/ a + n <= i)%nat -> assoc i (map (fun j => (j, f j)) (seq a n)) = None.
Proof.
  induction n as [|n IH]; intros a i H; [reflexivity|]. cbn [seq map assoc]. destruct (Nat.eqb_spec i a); [lia|]. apply IH. lia.
Qed.
Lemma read_blobs_ok bs m (D : nat -> dset) (rb : nat -> rblob) : bs = map (fun j => (j, D j)) (seq 0 m) ->
  (forall j, (j < m)%nat -> read_dset (D j) = Some (rb j)) ->
  forall fuel i, (i <= m)%nat -> (m - i <= fuel)%nat -> read_blobs bs i fuel = map rb (seq i (m - i)).
Proof.
  intros -> H. induction fuel as [|fu IH]; intros i Hi HF; cbn [read_blobs].
  - replace (m - i)%nat with 0%nat by lia. reflexivity.
  - destruct (Nat.eq_dec i m) as [->|NE].
    + rewrite assoc_none by lia. replace (m - m)%nat with 0%nat by lia. reflexivity.
    + rewrite assoc_seq by lia. rewrite H by lia. rewrite IH by lia. replace (m - i)%nat with (S (m - S i)) by lia. reflexivity.
Qed.

Definition rb_of (r : run) (i : item) (j : nat) : rblob :=
  let vs := map (fun s => item_vals (sitem j s)) (flat r) in
  match i with
  | IScalarQ _ u => ROne vs true u
  | IFloat _ => ROne vs true ""
  | IArrayQ _ u => ROne vs false u
  | ITuple ((a, u) :: (_, t) :: _) => RTwo (map (firstn (List.length a)) vs) (map (fun v => firstn (List.length a) (skipn (List.length a) v)) vs) u t
  | _ => ROne [] true ""
  end.
Lemma like_units a b : like a b -> units_of a = units_of b /\ (exists u us, item_units a = Some (u :: us)).
Proof. destruct 1; split; try reflexivity; eexists; eexists; reflexivity. Qed.
Lemma like_shape a b : like a b -> item_shape a = item_shape b.
Proof. destruct 1; cbn; congruence. Qed.
Lemma like_sym a b : like a b -> like b a.
Proof. destruct 1; constructor; congruence. Qed.
Lemma like_trans a b c : like a b -> like b c -> like a c.
Proof. intros H K. destruct H; inversion K; subst; constructor; congruence. Qed.
Lemma like_same_shape a b : like a b -> same_shape a b = true.
Proof.
  intros H. unfold same_shape. rewrite (like_shape _ _ H). destruct (list_eq_dec Nat.eq_dec (item_shape b) (item_shape b)); [|congruence].
  destruct H; cbn; try reflexivity. replace (List.length d) with (List.length c) by congruence. rewrite Nat.eqb_refl. reflexivity.
Qed.
Lemma read_ds_ok r b0 j i : like (nth j b0 IOther) i -> read_dset (ds r b0 j) = Some (rb_of r (nth j b0 IOther) j).
Proof. intros H. unfold ds, read_dset, rb_of. destruct H; cbn; try reflexivity. Qed.
Lemma nth_map_lt {A B} (f : A -> B) l n d e : (n < List.length l)%nat -> nth n (map f l) d = f (nth n l e).
Proof. intros H. rewrite (nth_indep _ d (f e)) by (rewrite map_length; exact H). apply map_nth. Qed.
Lemma pick_ok r b0i it j n : (n < List.length (flat r))%nat -> sitem j (nth n (flat r) empty_sample) = it -> like b0i it ->
  pick_blob (rb_of r b0i j) n = back it.
Proof.
  intros Ln E H.
  assert (V : nth n (map (fun s => item_vals (sitem j s)) (flat r)) [] = item_vals it) by (rewrite <- E; apply (nth_map_lt (fun s => item_vals (sitem j s))); exact Ln).
  assert (Ln' : (n < List.length (map (fun s => item_vals (sitem j s)) (flat r)))%nat) by (rewrite map_length; exact Ln).
  destruct H; cbn [rb_of pick_blob back item_vals] in *.
  - rewrite V. reflexivity.
  - rewrite V. reflexivity.
  - rewrite V. reflexivity.
  - rewrite (nth_map_lt (firstn (List.length a)) _ n [] [] Ln'), (nth_map_lt (fun v => firstn (List.length a) (skipn (List.length a) v)) _ n [] [] Ln').
    rewrite V. cbn [map fst List.concat]. rewrite app_nil_r, <- H0.
    rewrite firstn_app, Nat.sub_diag, firstn_all. cbn [firstn]. rewrite app_nil_r.
    rewrite skipn_app, Nat.sub_diag, skipn_all. cbn [skipn app]. replace (List.length c) with (List.length d) by congruence. rewrite firstn_all. reflexivity.
Qed.

Lemma last_in {A} (l : list A) d : l <> [] -> In (last l d) l.
Proof. induction l as [|a [|b l] IH]; intros H; [congruence|left; reflexivity|right; apply IH; discriminate]. Qed.
Lemma flat_in r s st : In st (r_steps r) -> In s st -> In s (flat r).
Proof. intros H K. unfold flat. apply in_concat. exists st. split; assumption. Qed.

(** ** C55. Saving a run and reading it back gives the run, samples, log-probabilities,
    blobs, labels, run information, acceptance fraction and data *)
Theorem C55_roundtrip : forall f n r, storable r -> NoDup (map fst (r_info r)) -> good_suffix n = true ->
  forall clobber, (f n = None \/ clobber = true) ->
  snd (save_run f n r clobber) = None /\
  exists r', read_run (fst (save_run f n r clobber)) n = Ok r' /\
    r_steps r' = map (map back_sample) (r_steps r) /\ r_labels r' = r_labels r /\ r_acc r' = r_acc r /\ r_data r' = r_data r /\
    (forall k v, In (k, v) (r_info r) -> k <> "acceptance_fraction"%string -> (forall i, k <> label_key i) -> dget k (r_info r') = Some v).
Proof.
  intros f n r ((NE & W & F) & P & b & B100 & B) ND SUF clobber CL.
  set (s0 := nth 0 (last (r_steps r) []) empty_sample).
  assert (I0 : In s0 (flat r)).
  { apply (flat_in r s0 (last (r_steps r) [])); [apply last_in, NE|]. unfold s0. apply nth_In.
    rewrite List.Forall_forall in F. rewrite (F _ (last_in _ [] NE)). exact W. }
  rewrite List.Forall_forall in B, P.
  assert (LB : forall s, In s (flat r) -> List.length (s_blob s) = List.length b) by (intros s Hs; specialize (B s Hs); clear -B; induction B; cbn; congruence).
  assert (LK : forall s j, In s (flat r) -> (j < List.length b)%nat -> like (nth j b IOther) (sitem j s)).
  { intros s j Hs Hj. specialize (B s Hs). clear -B Hj. unfold sitem. revert j Hj. induction B; intros j Hj; cbn in Hj; [lia|]. destruct j; cbn; [assumption|apply IHB; lia]. }
  set (m := List.length b) in *. set (b0 := s_blob s0) in *.
  assert (L0 : List.length b0 = m) by (apply LB, I0).
  assert (LK0 : forall s j, In s (flat r) -> (j < m)%nat -> like (nth j b0 IOther) (sitem j s)).
  { intros s j Hs Hj. apply like_trans with (nth j b IOther); [apply like_sym, (LK s0 j I0 Hj)|apply LK; assumption]. }
  assert (SB : save_blobs r b0 0 = Ok (map (fun j => (j, ds r b0 j)) (seq 0 m))).
  { rewrite (save_blobs_ok r b0 b0 0 eq_refl); [rewrite L0; reflexivity|]. intros k Hk. cbn [Nat.add]. rewrite L0 in Hk. split.
    - apply (like_units _ _ (LK0 s0 k I0 Hk)).
    - apply forallb_forall. intros x Hx. apply in_map_iff in Hx. destruct Hx as (s & <- & Hs). apply like_same_shape, LK0; assumption. }
  assert (T : to_h5 r = Ok (mkH (map (map s_par) (r_steps r)) (map (map s_lp) (r_steps r)) (map (fun j => (j, ds r b0 j)) (seq 0 m)) (attrs_of r) (r_data r))).
  { unfold to_h5. fold s0. fold b0. rewrite SB. reflexivity. }
  assert (SV : save_run f n r clobber = (fset f n (Some (mkH (map (map s_par) (r_steps r)) (map (map s_lp) (r_steps r)) (map (fun j => (j, ds r b0 j)) (seq 0 m)) (attrs_of r) (r_data r))), None)).
  { unfold save_run. rewrite SUF, T. cbn [negb]. destruct CL as [-> | ->]; [reflexivity|]. destruct (f n); reflexivity. }
  rewrite SV. cbn [fst snd]. split; [reflexivity|].
  unfold read_run, fset. rewrite String.eqb_refl. unfold from_h5. cbn [h_chain h_lp h_blobs h_attrs h_data].
  assert (ACC : dget "acceptance_fraction" (attrs_of r) = Some (ANum (r_acc r))).
  { unfold attrs_of. rewrite set_labels_other; [apply dget_dset_same|]. intros j _ E. symmetry in E. apply (label_key_acc _ E). }
  assert (NW : match map (map s_par) (r_steps r) with [] => 0%nat | s :: _ => List.length s end = nwalkers r).
  { unfold nwalkers. destruct (r_steps r); cbn [map]; [reflexivity|apply map_length]. }
  assert (NDIM : match map (map s_par) (r_steps r) with (p :: _) :: _ => List.length p | _ => 0%nat end = List.length (r_labels r)).
  { unfold nwalkers in W. destruct (r_steps r) as [|[|s st] l] eqn:ES; [congruence|cbn in W; lia|]. cbn [map]. apply P. unfold flat. rewrite ES. left. reflexivity. }
  rewrite ACC, NW, NDIM.
  rewrite (read_labels_ok (attrs_of r) (r_labels r)) by (intros j Hj; apply (set_labels_get _ 0); lia). cbn [obind].
  eexists. split; [reflexivity|]. cbn [r_steps r_labels r_acc r_data r_info].
  split; [|split; [apply map_nth_seq|split; [reflexivity|split; [reflexivity|]]]].
  - rewrite (read_blobs_ok _ m (ds r b0) (fun j => rb_of r (nth j b0 IOther) j) eq_refl) by
      (try (intros j Hj; apply (read_ds_ok r b0 j (sitem j s0)), LK0; assumption); lia).
    rewrite Nat.sub_0_r, map_length. transitivity (map (map back_sample) (map (fun i => nth i (r_steps r) []) (seq 0 (List.length (r_steps r))))); [|rewrite map_nth_seq; reflexivity]. rewrite map_map.
    apply map_ext_in. intros st Hst. apply in_seq in Hst. destruct Hst as (_ & Hst). cbn [Nat.add] in Hst.
    assert (Lst : List.length (nth st (r_steps r) []) = nwalkers r) by (rewrite List.Forall_forall in F; apply F, nth_In, Hst).
    transitivity (map back_sample (map (fun i => nth i (nth st (r_steps r) []) empty_sample) (seq 0 (List.length (nth st (r_steps r) []))))); [|rewrite map_nth_seq; reflexivity]. rewrite map_map, Lst.
    apply map_ext_in. intros wk Hwk. apply in_seq in Hwk. destruct Hwk as (_ & Hwk). cbn [Nat.add] in Hwk.
    set (s := nth wk (nth st (r_steps r) []) empty_sample).
    assert (FN : nth (st * nwalkers r + wk) (flat r) empty_sample = s) by (apply concat_nth; assumption).
    assert (FL : (st * nwalkers r + wk < List.length (flat r))%nat) by (unfold flat; rewrite (concat_length _ _ F); nia).
    assert (IS : In s (flat r)) by (rewrite <- FN; apply nth_In, FL).
    unfold back_sample. f_equal.
    + rewrite (nth_map_lt (map s_par) _ st [] [] Hst). apply (nth_map_lt s_par). rewrite Lst; exact Hwk.
    + rewrite (nth_map_lt (map s_lp) _ st [] [] Hst). apply (nth_map_lt s_lp). rewrite Lst; exact Hwk.
    + rewrite map_map. transitivity (map back (map (fun i => nth i (s_blob s) IOther) (seq 0 (List.length (s_blob s))))); [|rewrite map_nth_seq; reflexivity]. rewrite (LB s IS), map_map. fold m.
      apply map_ext_in. intros j Hj. apply in_seq in Hj. apply pick_ok; [exact FL|rewrite FN; reflexivity|apply LK0; [exact IS|lia]].
  - intros k v Hk N1 N2. unfold attrs_of. rewrite set_labels_other by (intros j _; apply N2). rewrite dget_dset_other by exact N1.
    apply info_dget; assumption.
Qed.

(** the hypotheses are met by a run with two walkers, two steps, and blobs of a scalar
    Quantity, a float and a pair of arrays *)
Definition ex_blob (x : R) : list item := [IScalarQ x "eV"; IFloat (x + 1); ITuple [([x; 2], "eV"%string); ([3; x], "1/(eV s cm2)"%string)]; IArrayQ [x; x; 0] "erg"].
Definition ex_run2 : run :=
  mkRun [[mkS [1; 2] (Fin (-3)) (ex_blob 5); mkS [3; 4] (Fin (-1)) (ex_blob 6)]; [mkS [5; 6] (Fin (-1)) (ex_blob 7); mkS [7; 8] NInf (ex_blob 8)]]
        ["log10(norm)"; "index"]%string [("n_walkers"%string, ANum 2); ("p0"%string, AStr "[1. 2.]")] (1 / 2) 7.
Lemma ex_run2_storable : storable ex_run2.
Proof.
  split; [split; [discriminate|split; [cbn; lia|repeat constructor]]|]. split; [repeat constructor|].
  exists (ex_blob 0). split; [cbn; lia|]. repeat (constructor; try reflexivity).
Qed.
Example C55_example : exists r', read_run (fst (save_run (fun _ => None) "run.h5" ex_run2 false)) "run.h5" = Ok r' /\
  map s_blob (flat r') = map (map back) [ex_blob 5; ex_blob 6; ex_blob 7; ex_blob 8] /\ dget "p0" (r_info r') = Some (AStr "[1. 2.]").
Proof.
  destruct (C55_roundtrip (fun _ => None) "run.h5" ex_run2 ex_run2_storable) with (clobber := false) as (_ & r' & E & ST & _ & _ & _ & I).
  - repeat constructor; cbn; intuition discriminate.
  - reflexivity.
  - left; reflexivity.
  - exists r'. split; [exact E|]. split; [unfold flat; rewrite ST; reflexivity|].
    apply I; [cbn; auto|discriminate|intros i; discriminate].
Qed.

(** ** Refuted (code defects): blobs silently lost *)
(** One blob that cannot be saved hides every later blob: reading stops at the first
    missing number. *)
Theorem C132_unsaved_blob_hides_later_refuted : forall r h, to_h5 r = Ok h ->
  forall k, nth_error (s_blob (nth 0 (last (r_steps r) []) empty_sample)) k = Some IOther ->
  (List.length (read_blobs (h_blobs h) 0 100) <= k)%nat.
Proof.
  intros r h H k K. unfold to_h5 in H.
  destruct (save_blobs r (s_blob (nth 0 (last (r_steps r) []) empty_sample)) 0) as [bs|e] eqn:E; cbn [obind] in H; [|discriminate].
  inversion H; subst h; clear H. cbn [h_blobs].
  assert (A : forall b0 idx bs, save_blobs r b0 idx = Ok bs -> forall k, nth_error b0 k = Some IOther -> assoc (idx + k) bs = None).
  { assert (LO : forall b0 idx bs, save_blobs r b0 idx = Ok bs -> forall j, (j < idx)%nat -> assoc j bs = None).
    { induction b0 as [|i b0 IH]; intros idx bs' S j Hj; cbn [save_blobs] in S; [inversion S; reflexivity|].
      destruct (item_units i); [|apply (IH _ _ S); lia].
      destruct (forallb _ _); [|discriminate]. destruct l; [discriminate|].
      destruct (save_blobs r b0 (Datatypes.S idx)) as [ds'|] eqn:E1; cbn [obind] in S; [|discriminate]. inversion S; subst. cbn [assoc].
      destruct (Nat.eqb_spec j idx); [lia|]. apply (IH _ _ E1). lia. }
    induction b0 as [|i b0 IH]; intros idx bs' S k' K'; [destruct k'; discriminate|]. cbn [save_blobs] in S. destruct k' as [|k'].
    - cbn in K'. inversion K'; subst i. cbn [item_units] in S. apply (LO _ _ _ S). lia.
    - cbn [nth_error] in K'. replace (idx + Datatypes.S k')%nat with (Datatypes.S idx + k')%nat by lia.
      destruct (item_units i); [|apply (IH _ _ S _ K')].
      destruct (forallb _ _); [|discriminate]. destruct l; [discriminate|].
      destruct (save_blobs r b0 (Datatypes.S idx)) as [ds'|] eqn:E1; cbn [obind] in S; [|discriminate]. inversion S; subst. cbn [assoc].
      destruct (Nat.eqb_spec (Datatypes.S idx + k') idx); [lia|]. apply (IH _ _ E1 _ K'). }
  specialize (A _ _ _ E _ K). cbn [Nat.add] in A.
  assert (G : forall fuel i, (i <= k)%nat -> (List.length (read_blobs bs i fuel) <= k - i)%nat).
  { induction fuel as [|fu IH]; intros i Hi; cbn [read_blobs]; [cbn; lia|].
    destruct (Nat.eq_dec i k) as [->|NE]; [rewrite A; cbn; lia|].
    destruct (assoc i bs); [|cbn; lia]. destruct (read_dset d); [|cbn; lia]. cbn [List.length]. specialize (IH (Datatypes.S i) ltac:(lia)). lia. }
  specialize (G 100%nat 0%nat ltac:(lia)). lia.
Qed.
(** At most 100 blobs come back, however many were saved. *)
Theorem C132_more_than_100_refuted : forall h, (List.length (read_blobs (h_blobs h) 0 100) <= 100)%nat.
Proof.
  intros h. assert (G : forall bs fuel i, (List.length (read_blobs bs i fuel) <= fuel)%nat).
  { intros bs. induction fuel as [|fu IH]; intros i; cbn [read_blobs]; [cbn; lia|]. destruct (assoc i bs); [|cbn; lia]. destruct (read_dset d); [|cbn; lia]. cbn. specialize (IH (S i)). lia. }
  apply G.
Qed.
(** A blob that is a tuple of three arrays comes back with two; a tuple of one array, or
    of scalars, is saved but never comes back. *)
Definition one (b : list item) : run := mkRun [[mkS [1] (Fin 0) b]] ["x"%string] [] 0 0.
Lemma same_shape_refl i : ragged i = false -> same_shape i i = true.
Proof. intros H. unfold same_shape. rewrite H. destruct (list_eq_dec Nat.eq_dec (item_shape i) (item_shape i)); [reflexivity|congruence]. Qed.
Lemma save_one r b i us rest idx : flat r = [mkS [1] (Fin 0) b] -> nth idx b IOther = i -> item_units i = Some us -> us <> [] -> ragged i = false ->
  save_blobs r (i :: rest) idx = obind (save_blobs r rest (S idx)) (fun ds => Ok ((idx, mkD (item_shape i) [item_vals i] (unit_attrs us)) :: ds)).
Proof.
  intros FL NT U NE RG. cbn [save_blobs]. rewrite U, FL. cbn [map s_blob forallb]. rewrite NT, (same_shape_refl i RG). cbn [andb].
  destruct us; [congruence|reflexivity].
Qed.
Lemma one_read b bs : save_blobs (one b) b 0 = Ok bs ->
  snd (save_run (fun _ => None) "r.h5" (one b) false) = None /\
  exists r', read_run (fst (save_run (fun _ => None) "r.h5" (one b) false)) "r.h5" = Ok r' /\ map s_blob (flat r') = [map (fun b => pick_blob b 0) (read_blobs bs 0 100)].
Proof.
  intros H.
  assert (T : to_h5 (one b) = Ok (mkH [[[1]]] [[Fin 0]] bs (attrs_of (one b)) 0)) by (unfold to_h5; cbn [one r_steps last nth s_blob]; rewrite H; reflexivity).
  unfold save_run. change (negb (good_suffix "r.h5")) with false. cbv iota. rewrite T. cbn [fst snd]. split; [reflexivity|].
  unfold read_run, fset. change (String.eqb "r.h5" "r.h5") with true. cbv iota. unfold from_h5. cbn [h_chain h_lp h_blobs h_attrs h_data].
  eexists. split; [reflexivity|]. reflexivity.
Qed.
Lemma like_self_saves i : like i i -> (exists u us, item_units i = Some (u :: us)) /\ ragged i = false.
Proof.
  intros H. split; [apply (like_units _ _ H)|]. pose proof (like_same_shape _ _ H) as S. unfold same_shape in S. apply andb_prop in S. destruct S as (S & _). destruct (ragged i); [discriminate|reflexivity].
Qed.
Theorem C132_tuples_refuted :
  (forall a b c u v w, List.length b = List.length a -> List.length c = List.length a ->
     exists r', read_run (fst (save_run (fun _ => None) "r.h5" (one [ITuple [(a, u); (b, v); (c, w)]]) false)) "r.h5" = Ok r' /\
                map s_blob (flat r') = [[ITuple [(a, u); (b, v)]]]) /\
  (forall a u i, like i i -> exists r', snd (save_run (fun _ => None) "r.h5" (one [ITuple [(a, u)]; i]) false) = None /\
                read_run (fst (save_run (fun _ => None) "r.h5" (one [ITuple [(a, u)]; i]) false)) "r.h5" = Ok r' /\ map s_blob (flat r') = [[]]) /\
  (forall x y u v i, like i i -> exists r', snd (save_run (fun _ => None) "r.h5" (one [IScalars [(x, u); (y, v)]; i]) false) = None /\
                read_run (fst (save_run (fun _ => None) "r.h5" (one [IScalars [(x, u); (y, v)]; i]) false)) "r.h5" = Ok r' /\ map s_blob (flat r') = [[]]).
Proof.
  split; [|split].
  - intros a b c u v w HB HC.
    assert (SV : save_blobs (one [ITuple [(a, u); (b, v); (c, w)]]) [ITuple [(a, u); (b, v); (c, w)]] 0 =
                 Ok [(0%nat, mkD [3%nat; List.length a] [a ++ b ++ c] [("unit0"%string, u); ("unit1"%string, v); ("unit2"%string, w)])]).
    { erewrite (save_one _ [ITuple [(a, u); (b, v); (c, w)]]); [|reflexivity|reflexivity|reflexivity|discriminate|].
      - cbn [save_blobs obind item_vals item_shape map fst List.concat List.length unit_attrs combine seq]. rewrite app_nil_r. reflexivity.
      - cbn [ragged existsb fst]. rewrite HB, HC, Nat.eqb_refl. reflexivity. }
    destruct (one_read _ _ SV) as (_ & r' & E & B). exists r'. split; [exact E|]. rewrite B.
    cbn [read_blobs assoc Nat.eqb read_dset d_inner d_attrs d_vals dget String.eqb Ascii.eqb Bool.eqb map pick_blob nth].
    rewrite firstn_app, Nat.sub_diag, firstn_all. cbn [firstn]. rewrite app_nil_r.
    rewrite skipn_app, Nat.sub_diag, skipn_all. cbn [skipn app]. rewrite firstn_app, <- HB, Nat.sub_diag, firstn_all. cbn [firstn]. rewrite app_nil_r. reflexivity.
  - intros a u i LI. destruct (like_self_saves i LI) as ((u1 & us1 & U) & RG).
    assert (SV : exists rest, save_blobs (one [ITuple [(a, u)]; i]) [ITuple [(a, u)]; i] 0 = Ok ((0%nat, mkD [1%nat; List.length a] [a] [("unit"%string, u)]) :: rest)).
    { erewrite (save_one _ [ITuple [(a, u)]; i]); [|reflexivity|reflexivity|reflexivity|discriminate|reflexivity].
      erewrite (save_one _ [ITuple [(a, u)]; i]); [|reflexivity|reflexivity|exact U|discriminate|exact RG]. cbn [save_blobs obind].
      eexists. cbn [item_vals map fst List.concat item_shape List.length unit_attrs snd]. rewrite app_nil_r. reflexivity. }
    destruct SV as (rest & SV). destruct (one_read _ _ SV) as (K & r' & E & B). exists r'. split; [exact K|]. split; [exact E|]. rewrite B. reflexivity.
  - intros x y u v i LI. destruct (like_self_saves i LI) as ((u1 & us1 & U) & RG).
    assert (SV : exists rest, save_blobs (one [IScalars [(x, u); (y, v)]; i]) [IScalars [(x, u); (y, v)]; i] 0 = Ok ((0%nat, mkD [2%nat] [[x; y]] [("unit0"%string, u); ("unit1"%string, v)]) :: rest)).
    { erewrite (save_one _ [IScalars [(x, u); (y, v)]; i]); [|reflexivity|reflexivity|reflexivity|discriminate|reflexivity].
      erewrite (save_one _ [IScalars [(x, u); (y, v)]; i]); [|reflexivity|reflexivity|exact U|discriminate|exact RG]. cbn [save_blobs obind].
      eexists. reflexivity. }
    destruct SV as (rest & SV). destruct (one_read _ _ SV) as (K & r' & E & B). exists r'. split; [exact K|]. split; [exact E|]. rewrite B. reflexivity.
Qed.

(** ** C56. An existing file is left alone unless overwriting was asked for; other files
    are never touched; a refused name writes nothing *)
Theorem C56_save_touches_one_file : forall f n r clobber,
  (forall m, m <> n -> fst (save_run f n r clobber) m = f m) /\
  (f n <> None -> clobber = false -> fst (save_run f n r clobber) = f) /\
  (snd (save_run f n r clobber) = None -> f n = None -> exists h, fst (save_run f n r clobber) n = Some (Some h)).
Proof.
  intros f n r clobber. unfold save_run. split; [|split].
  - intros m N. destruct (good_suffix n); cbn [negb]; [|reflexivity].
    destruct (f n), clobber; try reflexivity; destruct (to_h5 r); cbn [fst]; unfold fset; destruct (String.eqb_spec m n); congruence.
  - intros H ->. destruct (good_suffix n); cbn [negb]; [|reflexivity]. destruct (f n); [reflexivity|congruence].
  - destruct (good_suffix n); cbn [negb snd fst]; [|discriminate]. intros H FN. rewrite FN in *.
    destruct clobber, (to_h5 r); cbn [snd fst] in *; try discriminate; exists a; unfold fset; rewrite String.eqb_refl; reflexivity.
Qed.
(** The file name must end in .hdf5 or .h5, else ValueError *)
Theorem C56_bad_suffix_refused : forall f n r clobber,
  (forall stem, n <> (stem ++ ".hdf5")%string) -> (forall stem, n <> (stem ++ ".h5")%string) ->
  save_run f n r clobber = (f, Some "ValueError"%string).
Proof.
  intros f n r clobber A B. unfold save_run.
  assert (E : forall suf m, ends_with suf m = true -> exists stem, m = (stem ++ suf)%string).
  { intros suf. induction m as [|c m IH]; intros H; cbn [ends_with] in H.
    - destruct (String.eqb_spec "" suf); [exists ""%string; cbn; assumption|discriminate].
    - destruct (String.eqb_spec (String c m) suf) as [Q|Q]; [exists ""%string; exact Q|]. destruct (IH H) as (stem & ->). exists (String c stem). reflexivity. }
  unfold good_suffix. destruct (ends_with ".hdf5" n) eqn:E1; [destruct (E _ _ E1) as (st & Q); exfalso; apply (A st Q)|].
  destruct (ends_with ".h5" n) eqn:E2; [destruct (E _ _ E2) as (st & Q); exfalso; apply (B st Q)|]. reflexivity.
Qed.
Example C56_example : exists h f, f "old.h5"%string = Some (Some h) /\ f "new.h5"%string = None /\
  fst (save_run f "old.h5" ex_run2 false) "old.h5"%string = Some (Some h).
Proof. exists (mkH [] [] [] [] 3), (fun m => if String.eqb m "old.h5" then Some (Some (mkH [] [] [] [] 3)) else None). repeat split. Qed.

(** ** C79 (refuted, code defect). A save that raises does not leave the files as they
    were: the file is emptied before the blobs are looked at, so with clobber=True the
    old run is lost, and otherwise a file that cannot be read remains. *)
Theorem C79_failed_save_refuted : forall f n r clobber e, good_suffix n = true -> (f n = None \/ clobber = true) -> to_h5 r = Err e ->
  snd (save_run f n r clobber) = Some e /\ fst (save_run f n r clobber) n = Some None /\ read_run (fst (save_run f n r clobber)) n = Err "KeyError".
Proof.
  intros f n r clobber e SUF CL H. unfold save_run, read_run. rewrite SUF, H. cbn [negb].
  destruct CL as [-> | ->]; [|destruct (f n)]; cbn [fst snd]; unfold fset; rewrite String.eqb_refl; auto.
Qed.
(** for instance with an array blob whose length depends on the sample *)
Example C79_example : forall i, to_h5 (mkRun [[mkS [1] (Fin 0) [IArrayQ [1; 2] "eV"]; mkS [2] (Fin 0) [IArrayQ [1; 2; 3] "eV"]]] ["x"%string] i 0 0) = Err "ValueError".
Proof. intros i. reflexivity. Qed.
Print Assumptions C55_roundtrip.
Print Assumptions C132_unsaved_blob_hides_later_refuted.
Print Assumptions C132_more_than_100_refuted.
Print Assumptions C132_tuples_refuted.
Print Assumptions C56_save_touches_one_file.
Print Assumptions C56_bad_suffix_refused.
Print Assumptions C79_failed_save_refuted.
