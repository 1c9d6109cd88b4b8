(** C88: when the model of a residual plot is interpolated. *)
From Coq Require Import Reals List ZArith Bool String Ascii Arith Permutation Lra Lia.
From Verif Require Import Outcome SimplexModel UnitsModel DataModel DataSpec DataProofs AnalysisModel PlotModel PlotProps.
Import ListNotations.
Local Open Scope R_scope.

Definition nu1 : naima_units := mkNU 1 1 1 1.
Lemma qto1 d l : qto (u1 d) (mkQ l (u1 d)) = Ok (mkQ l (u1 d)).
Proof. unfold qto, u1. cbn [qunit dim vals scale]. rewrite dims_eqb_refl. do 2 f_equal. rewrite <- (map_id l) at 2. apply map_ext. intros; field. Qed.
Lemma sc1 l : sed_conversion nu1 (mkQ l (u1 d_energy)) (u1 d_diff_flux) false = Ok (u1 d_diff_flux, mkQ (map (fun _ => 1) l) (u1 d_none)).
Proof. unfold sed_conversion, u1. cbn -[Rmult Rinv pow]. do 3 f_equal. field. Qed.
Lemma qm1 l (l' : list R) : List.length l = List.length l' -> qto (u1 d_diff_flux) (qmul (mkQ l (u1 d_diff_flux)) (mkQ (map (fun _ => 1) l') (u1 d_none))) = Ok (mkQ l (u1 d_diff_flux)).
Proof.
  intros L. unfold qto, qmul, u1. cbn [qunit vals umul dim scale]. cbn [dmul d_diff_flux d_none Z.add dims_eqb Z.eqb Pos.eqb andb]. do 2 f_equal.
  revert l' L. induction l as [|a l IH]; intros [|b l'] L; cbn in L |- *; try discriminate; [reflexivity|]. f_equal; [field|]. apply IH. lia.
Qed.
Lemma nth_rows {A} (f : vrow -> R) (rows : list vrow) idx (P : A) : List.Forall (fun i => (i < List.length rows)%nat) idx ->
  map (fun i => nth i (map f rows) 0) idx = map (fun i => f (nth i rows row0)) idx.
Proof. intros H. apply map_ext_in. intros i Hi. rewrite Forall_forall in H. apply nth_map0, H, Hi. Qed.

Section R1.
  Variable interp : list R -> list R -> R -> option R.
  Variables (rows : list vrow) (xs ys : list R).
  Hypothesis LY : List.length ys = List.length xs.
  Definition value1 (ui : bool) (i : nat) : option R := if ui then interp xs ys (r_e (nth i rows row0)) else Some (nth i ys 0).
  Definition point1 (ui : bool) (i : nat) : R * option R :=
    let r := nth i rows row0 in (r_e r, option_map (fun y => (r_f r - y) / ((r_flo r + r_fhi r) / 2)) (value1 ui i)).
  Lemma group1 ui idx : List.Forall (fun i => (i < List.length rows)%nat) idx ->
    residual_group nu1 interp cu1 rows (mkQ xs (u1 d_energy)) (mkQ ys (u1 d_diff_flux)) ui false (u1 d_energy) idx =
    Ok (map (point1 ui) (filter (fun i => negb (r_ul (nth i rows row0))) idx)).
  Proof.
    intros HI. unfold residual_group, pick, col, cu1. cbn [ue uf uflo ufhi uelo uehi vals qunit].
    rewrite !(nth_rows _ rows idx tt HI). rewrite sc1. cbn [obind fst snd]. rewrite qto1. cbn [obind]. rewrite qm1 by (rewrite !map_length; reflexivity). cbn [obind].
    unfold qsum. cbn [qunit]. rewrite qto1. cbn [obind vals]. unfold qhalf. cbn [vals qunit]. rewrite qm1.
    2: { unfold zipw. rewrite !map_length, combine_length, !map_length. lia. }
    cbn [obind vals]. rewrite !map_map.
    assert (MV : (if ui then Ok (map (fun x => interp xs ys (r_e (nth x rows row0))) idx) else omap (fun q => map Some (vals q)) (qto (u1 d_diff_flux) (mkQ (map (fun i => nth i ys 0) idx) (u1 d_diff_flux)))) = Ok (map (value1 ui) idx)).
    { destruct ui; [reflexivity|]. rewrite qto1. cbn [omap vals]. rewrite map_map. reflexivity. }
    rewrite MV. cbn [obind]. f_equal. rewrite <- flat_map_filter. etransitivity; [|apply flat_map_seq]. apply flat_map_ext_in. intros j Hj. apply in_seq in Hj.
    assert (Hj' : (j < List.length idx)%nat) by lia. destruct (r_ul (nth (nth j idx 0%nat) rows row0)); [reflexivity|].
    assert (N0 : forall (f : nat -> R), nth j (map f idx) 0 = f (nth j idx 0%nat)).
    { intros f. rewrite (nth_indep _ 0 (f 0%nat)) by (rewrite map_length; exact Hj'). apply map_nth. }
    assert (N1 : nth j (map (value1 ui) idx) None = value1 ui (nth j idx 0%nat)).
    { rewrite (nth_indep _ None (value1 ui 0%nat)) by (rewrite map_length; exact Hj'). apply map_nth. }
    unfold point1. rewrite N1, !N0. do 2 f_equal.
    rewrite (nth_map0 _ _ _ 0) by (unfold zipw; rewrite map_length, combine_length, !map_length; lia).
    rewrite nth_zipw by (rewrite ?map_length; auto). rewrite !N0. destruct (value1 ui _); cbn [option_map]; [|reflexivity]. f_equal.
  Qed.
  Lemma residuals1 : exists ui pts, residuals nu1 interp cu1 rows (mkQ xs (u1 d_energy)) (mkQ ys (u1 d_diff_flux)) (u1 d_energy) false = Ok pts /\
    ui = negb (Nat.eqb (List.length rows) (List.length xs) && allclose (map r_e rows) xs) /\
    Permutation pts (map (point1 ui) (filter (fun i => negb (r_ul (nth i rows row0))) (seq 0 (List.length rows)))).
  Proof.
    unfold residuals. cbn [qunit]. rewrite sc1. cbn [obind fst snd]. rewrite qto1. cbn [obind vals]. rewrite qm1 by exact LY. cbn [obind].
    set (ui := negb _). exists ui. set (ok := fun i => negb (r_ul (nth i rows row0))).
    assert (E : map (fun g => residual_group nu1 interp cu1 rows (mkQ xs (u1 d_energy)) (mkQ ys (u1 d_diff_flux)) ui false (u1 d_energy) (group_idx rows g)) (nodup Z.eq_dec (map r_grp rows))
              = map Ok (map (fun g => map (point1 ui) (filter ok (group_idx rows g))) (nodup Z.eq_dec (map r_grp rows)))).
    { rewrite map_map. apply map_ext. intros g. apply group1. apply Forall_forall. intros i Hi.
      unfold group_idx in Hi. apply filter_In in Hi. destruct Hi as [Hi _]. apply in_seq in Hi. lia. }
    rewrite E, concat_all_ok. eexists. split; [reflexivity|]. split; [reflexivity|].
    assert (E2 : forall gs, List.concat (map (fun g => map (point1 ui) (filter ok (group_idx rows g))) gs) = map (point1 ui) (filter ok (flat_map (group_idx rows) gs))).
    { induction gs as [|g gs IH]; [reflexivity|]. cbn. rewrite IH, filter_app, map_app. reflexivity. }
    rewrite E2. apply Permutation_map.
    assert (PF : forall a b, Permutation a b -> Permutation (filter ok a) (filter ok b)).
    { induction 1 as [|x a b Hp IH|x y a|a b c H1 I1 H2 I2]; cbn; [apply perm_nil| | |eapply Permutation_trans; [exact I1|exact I2]].
      - destruct (ok x); [apply perm_skip, IH|exact IH].
      - destruct (ok x), (ok y); try apply perm_swap; apply Permutation_refl. }
    apply PF. apply (groups_partition (fun i => r_grp (nth i rows row0))).
    - apply NoDup_nodup.
    - intros i Hi. apply in_seq in Hi. apply nodup_In, in_map, nth_In. lia.
  Qed.
End R1.

(** the energies [x] of a table and [x'] of a model are told apart (1e-5, plus 1e-8 in the unit of the table) *)
Definition told_apart (x x' : R) : Prop := / 10 ^ 8 + / 10 ^ 5 * Rabs x' < Rabs (x - x').
(** The model is interpolated at the energies of all the detections as soon as one energy of
    the table is told apart from that of the model in the same place, or the model has
    another number of points; else the model is taken point by point. (All in units of 1:
    other units are in C88_residuals_partial.) *)
Theorem C88_interpolated_partial : forall interp rows xs ys, List.length ys = List.length xs ->
  let rs value := exists pts, residuals nu1 interp cu1 rows (mkQ xs (u1 d_energy)) (mkQ ys (u1 d_diff_flux)) (u1 d_energy) false = Ok pts /\
     Permutation pts (map (fun i => let r := nth i rows row0 in (r_e r, option_map (fun y => (r_f r - y) / ((r_flo r + r_fhi r) / 2)) (value i r)))
                          (filter (fun i => negb (r_ul (nth i rows row0))) (seq 0 (List.length rows)))) in
  ((List.length xs <> List.length rows \/ exists i, (i < List.length rows)%nat /\ told_apart (r_e (nth i rows row0)) (nth i xs 0)) -> rs (fun _ r => interp xs ys (r_e r))) /\
  (List.length xs = List.length rows -> (forall i, (i < List.length rows)%nat -> ~ told_apart (r_e (nth i rows row0)) (nth i xs 0)) -> rs (fun i _ => Some (nth i ys 0))).
Proof.
  intros interp rows xs ys LY. cbv zeta. destruct (residuals1 interp rows xs ys LY) as (ui & pts & R & U & P).
  assert (AC : allclose (map r_e rows) xs = true <-> forall i, (i < List.length rows)%nat -> (i < List.length xs)%nat -> ~ told_apart (r_e (nth i rows row0)) (nth i xs 0)).
  { clear. unfold allclose, told_apart. revert xs. induction rows as [|r rs IH]; intros xs; [cbn; split; [intros _ i Hi; lia|reflexivity]|].
    destruct xs as [|x xs]; [cbn; split; [intros _ i _ Hi; lia|reflexivity]|]. cbn [map combine forallb fst snd]. rewrite andb_true_iff, IH. split.
    - intros [A B] [|i] Hi Hx; cbn [nth List.length] in *; [destruct (Rle_dec _ _); [lra|discriminate]|]. apply B; lia.
    - intros H. split.
      + specialize (H 0%nat ltac:(cbn; lia) ltac:(cbn; lia)). cbn [nth] in H. destruct (Rle_dec _ _) as [|N]; [reflexivity|]. exfalso. apply H. lra.
      + intros i Hi Hx. apply (H (S i)); cbn; lia. }
  split.
  - intros H. assert (UT : ui = true).
    { rewrite U. apply negb_true_iff, andb_false_iff. destruct H as [H|(i & Hi & T)]; [left; apply Nat.eqb_neq; auto|].
      destruct (Nat.eqb_spec (List.length rows) (List.length xs)) as [L|L]; [right|left; reflexivity].
      apply not_true_iff_false. rewrite AC. intros Q. apply (Q i Hi); [lia|exact T]. }
    rewrite UT in P. exists pts. split; [exact R|exact P].
  - intros L H. assert (UT : ui = false).
    { rewrite U. apply negb_false_iff, andb_true_iff. split; [apply Nat.eqb_eq; auto|]. apply AC. auto. }
    rewrite UT in P. exists pts. split; [exact R|exact P].
Qed.
Print Assumptions C88_interpolated_partial.
(** two energies of which only the first is the model's *)
Example C88_interpolated_example : let rows := [mkR 1 3 1 1 0 0 0 false NaN; mkR 2 4 1 1 0 0 0 false NaN] in
  ~ told_apart (r_e (nth 0 rows row0)) (nth 0 [1; 3] 0) /\ told_apart (r_e (nth 1 rows row0)) (nth 1 [1; 3] 0).
Proof. cbn. unfold told_apart. rewrite (Rabs_left (2 - 3)) by lra. replace (1 - 1) with 0 by ring. rewrite Rabs_R0, !Rabs_pos_eq by lra. lra. Qed.
