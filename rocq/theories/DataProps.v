(** Properties of data tables: C49-C52, C54, C76. *)
From Coq Require Import Reals List ZArith Bool String Arith Permutation Sorted Lra Lia.
From Verif Require Import Outcome TrapzModel SimplexModel UnitsModel DataModel DataSpec DataProofs DataProofs2.
Import ListNotations.
Local Open Scope R_scope.

Lemma rows_out v : map (output_row (units_of v)) (rows_of v) =
  map (fun i => mkO (phys (v_e v) i) (phys (v_f v) i) (phys (v_flo v) i) (phys (v_fhi v) i) (phys (v_elo v) i) (phys (v_ehi v) i)
                    (nth i (v_ul v) false) (nth i (v_grp v) 0%Z) (nth i (v_cl v) NaN)) (seq 0 (List.length (vals (v_e v)))).
Proof. unfold rows_of. rewrite map_map. apply map_ext. intros i. reflexivity. Qed.

Section N.
Variable nu : naima_units.
Hypothesis NU : positive_units nu.

Lemma table_rows t g v sed v' : rect t -> validate_single t g = Ok v -> dt_sed_conversion nu v sed = Ok v' ->
  map (output_row (units_of v')) (rows_of v') = map (input_row sed t g) (seq 0 (nrows t)).
Proof.
  intros R H1 H2. pose proof (validate_single_spec _ _ _ R H1) as (W & FD & DE & LG & LU & S). cbv zeta in *.
  destruct (dt_sed_spec nu NU v sed _ v' W H2) as (A1 & A2 & A3 & A4 & A5 & A6 & _ & _ & _ & _ & _ & A7).
  rewrite rows_out, A1. destruct W as (LE & _). rewrite LE. apply map_ext_in. intros i Hi. apply in_seq in Hi.
  destruct (S i ltac:(lia)) as (S1 & S2 & S3 & S4 & S5 & S6 & S7 & S8 & S9).
  destruct (A7 i ltac:(lia)) as (B1 & B2 & B3). unfold input_row.
  rewrite A2, A3, A4, A5, A6, B1, B2, B3, FD, S1, S2, S3, S4, S5, S6, S7, S8, S9. reflexivity.
Qed.

Definition pos_cu (cu : cunits) : Prop :=
  0 < scale (ue cu) /\ 0 < scale (uf cu) /\ 0 < scale (uflo cu) /\ 0 < scale (ufhi cu) /\ 0 < scale (uelo cu) /\ 0 < scale (uehi cu).
Lemma conv1_ok a b k : conv1 a b = Ok k -> dim a = dim b /\ k = scale a / scale b.
Proof. unfold conv1. destruct (dims_eqb _ _) eqn:E; [|discriminate]. apply dims_eqb_eq in E. intros H; inv H. auto. Qed.
Lemma conv_rows_out a b rs rs' : pos_cu b -> conv_rows a b rs = Ok rs' -> map (output_row b) rs' = map (output_row a) rs.
Proof.
  intros (P1 & P2 & P3 & P4 & P5 & P6) H. unfold conv_rows in H. destruct rs as [|r rs]; [inv H; reflexivity|].
  obn H k1 F1. obn H k2 F2. obn H k3 F3. obn H k4 F4. obn H k5 F5. obn H k6 F6. apply ok_inj in H. subst rs'.
  apply conv1_ok in F1, F2, F3, F4, F5, F6.
  destruct F1 as (_ & ->), F2 as (_ & ->), F3 as (_ & ->), F4 as (_ & ->), F5 as (_ & ->), F6 as (_ & ->).
  rewrite map_map. apply map_ext. intros x. unfold output_row. cbn [r_e r_f r_flo r_fhi r_grp r_elo r_ehi r_ul r_cl].
  f_equal; field; lra.
Qed.

Lemma append_rows cu pt sed ts : forall g vs rows, List.Forall rect ts -> pos_cu cu -> validate_all ts g = Ok vs ->
  append_tables nu cu pt sed vs = Ok rows -> map (output_row cu) rows = input_rows sed ts g.
Proof.
  induction ts as [|t ts IH]; intros g vs rows HR P HV HA; cbn [validate_all] in HV.
  - inv HV. inv HA. reflexivity.
  - obn HV v F1. obn HV vs' F2. inv HV. cbn [append_tables] in HA.
    destruct (dims_eqb _ _ && _ || _ && _)%bool; [discriminate|].
    obn HA v' F3. obn HA rs F4. obn HA rest F5. inv HA. inv HR. rewrite map_app. cbn [input_rows]. f_equal.
    + rewrite (conv_rows_out _ _ _ _ P F4). eapply table_rows; eauto.
    + eapply IH; eauto.
Qed.

Lemma units_pos t g v sed v' : rect t -> validate_single t g = Ok v -> dt_sed_conversion nu v sed = Ok v' -> pos_cu (units_of v').
Proof.
  intros R H1 H2. pose proof (validate_single_spec _ _ _ R H1) as (W & _). cbv zeta in *.
  destruct (dt_sed_spec nu NU v sed _ v' W H2) as (A1 & A2 & A3 & A4 & A5 & A6 & (fu & U1 & U2 & U3 & P & _) & _).
  destruct W as (_ & _ & _ & _ & _ & _ & _ & _ & P1 & P2 & P3).
  unfold pos_cu, units_of. cbn [ue uf uflo ufhi uelo uehi]. rewrite A1, A3, A4, U1, U2, U3. repeat split; assumption.
Qed.

Lemma flux_like_exp d : flux_like d -> (dims_eqb d d_flux || dims_eqb d d_power)%bool = Z.eqb (energy_exp d) 1.
Proof. intros [ -> |[ -> |[ -> | -> ]]]; reflexivity. Qed.

Lemma sort_rows_map {B} argsort (f : vrow -> B) rs : is_argsort argsort -> Permutation (map f (sort_rows argsort rs)) (map f rs).
Proof.
  intros A. apply Permutation_map. unfold sort_rows. destruct (A (map r_e rs)) as (P & _). rewrite map_length in P.
  eapply Permutation_trans; [apply Permutation_map, P|].
  replace (map (fun i => nth i rs row0) (seq 0 (List.length rs))) with rs; [reflexivity|].
  apply nth_ext with row0 row0; rewrite ?map_length, ?seq_length; auto. intros i Hi.
  rewrite (nth_map_gen _ _ _ 0%nat) by (rewrite seq_length; exact Hi). rewrite seq_nth by exact Hi. reflexivity.
Qed.
Lemma sort_rows_sorted argsort rs : is_argsort argsort -> StronglySorted Rle (map r_e (sort_rows argsort rs)).
Proof.
  intros A. unfold sort_rows. destruct (A (map r_e rs)) as (P & S). rewrite map_map.
  replace (map (fun x => r_e (nth x rs row0)) (argsort (map r_e rs))) with (map (fun i => nth i (map r_e rs) 0) (argsort (map r_e rs))); [exact S|].
  apply map_ext. intros i. symmetry. exact (eq_sym (map_nth r_e rs row0 i)).
Qed.
Lemma scale_sorted k l : 0 < k -> StronglySorted Rle l -> StronglySorted Rle (map (fun x => x * k) l).
Proof.
  intros K H. induction H as [|a l S IH F]; cbn [map]; constructor; auto.
  rewrite Forall_map. eapply Forall_impl; [|exact F]. intros b Hb. cbn in Hb. nra.
Qed.

(** ** C49. The validated table: its rows, in physical units and converted as
    requested, are exactly the rows of the input tables - each once, nothing else,
    with every column staying with its row - in order of non-decreasing energy. *)
Theorem C49_rows_sorted_permutation : forall argsort ts sed cu rows,
  is_argsort argsort -> List.Forall rect ts -> validate_data_table nu argsort ts sed = Ok (cu, rows) ->
  StronglySorted Rle (map (fun r => o_E (output_row cu r)) rows) /\
  Permutation (map (output_row cu) rows) (input_rows (wants_sed ts sed) ts 0) /\
  dim (ue cu) = d_energy /\ dim (uf cu) = target_dims (wants_sed ts sed) (match ts with t :: _ => flux_dims t | [] => d_none end).
Proof.
  intros argsort ts sed cu rows A HR H. unfold validate_data_table in H. obn H vs F1.
  destruct ts as [|t ts]; cbn [validate_all] in F1; [inv F1; discriminate|].
  obn F1 v G1. obn F1 vs' G2. inv F1. obn H v0 F2. obn H rest F3. apply ok_inj in H. inv H.
  inversion HR as [|? ? R1 R2]; subst.
  pose proof (validate_single_spec _ _ _ R1 G1) as (W & FD & _). cbv zeta in *.
  assert (HS : match sed with Some b => b | None => (dims_eqb (dim (qunit (v_f v))) d_flux || dims_eqb (dim (qunit (v_f v))) d_power)%bool end = wants_sed (t :: ts) sed).
  { destruct sed; [reflexivity|]. cbn [wants_sed]. rewrite <- FD. apply flux_like_exp. apply W. }
  rewrite HS in F2, F3.
  pose proof (units_pos _ _ _ _ _ R1 G1 F2) as PU.
  destruct (dt_sed_spec nu NU v _ _ v0 W F2) as (A1 & _ & _ & _ & _ & _ & (fu & U1 & _ & _ & _ & DU) & _).
  split; [|split].
  - change (fun r => o_E (output_row (units_of v0) r)) with (fun r => (r_e r) * scale (ue (units_of v0))).
    rewrite <- (map_map r_e (fun x => x * scale (ue (units_of v0)))).
    apply scale_sorted; [apply PU|]. apply sort_rows_sorted, A.
  - eapply Permutation_trans; [apply sort_rows_map, A|]. rewrite map_app. cbn [input_rows].
    apply Permutation_app.
    + rewrite (table_rows _ _ _ _ _ R1 G1 F2). reflexivity.
    + rewrite (append_rows _ _ _ _ _ _ _ R2 PU G2 F3). reflexivity.
  - split.
    + unfold units_of. cbn [ue]. rewrite A1. apply W.
    + unfold units_of. cbn [uf]. rewrite U1, DU, FD. reflexivity.
Qed.

(** ** C52. A table is accepted exactly if it is well formed *)
Lemma validate_column_is_ok t key pts : is_ok (validate_column t key pts) <-> exists q, dget key (cols t) = Some q /\ In (dim (qunit q)) pts.
Proof.
  split.
  - intros (q & H). apply validate_column_ok in H. eauto.
  - intros (q & D & I). exists q. apply validate_column_intro; auto.
Qed.
Lemma col_has_energy t key : (exists q, validate_column t key [d_energy] = Ok q) <-> col_has t key d_energy.
Proof.
  split.
  - intros (q & H). apply validate_column_ok in H. destruct H as (D & I). apply in_energy in I. exists q; auto.
  - intros (q & D & I). exists q. apply validate_column_intro; auto. apply in_energy; auto.
Qed.
Lemma qsub_is_ok a b : is_ok (qsub a b) <-> dim (qunit b) = dim (qunit a).
Proof.
  unfold qsub. split.
  - intros (r & H). ob H. apply qto_is_ok. exists a0; auto.
  - intros H. apply qto_is_ok in H. destruct H as (r & ->). cbn. eexists; reflexivity.
Qed.
Lemma parse_ul_ok n u : is_ok (parse_ul n u) <->
  match u with None | Some (UInt _) | Some (UBool _) => True | Some (UStr l) => List.Forall (fun s => s = "True"%string \/ s = "False"%string) l | Some UOther => False end.
Proof.
  destruct u as [[l|l|l|]|]; cbn [parse_ul]; try (split; [auto|intros; eexists; reflexivity]).
  - split.
    + destruct (forallb _ l) eqn:E; [|intros (a & H); discriminate]. intros _. apply Forall_forall. intros s Hs.
      rewrite forallb_forall in E. specialize (E s Hs). apply orb_true_iff in E. rewrite !String.eqb_eq in E. exact E.
    + intros H. replace (forallb _ l) with true; [eexists; reflexivity|]. symmetry. apply forallb_forall. intros s Hs.
      rewrite Forall_forall in H. apply orb_true_iff. rewrite !String.eqb_eq. apply (H s Hs).
  - split; [intros (a & H); discriminate|intros []].
Qed.
Lemma apply_flux_ul_ok f u t : is_ok (apply_flux_ul f u t) <-> (present t "flux_ul" = true -> col_has t "flux_ul" (dim (qunit f))).
Proof.
  unfold apply_flux_ul, present, col_has. destruct (dget "flux_ul" (cols t)) as [q|].
  - split.
    + intros (r & H) _. ob H. exists q. split; auto. apply qto_is_ok. exists a; auto.
    + intros H. destruct (H eq_refl) as (q' & D & I). inv D. apply qto_is_ok in I. destruct I as (r & ->). eexists; reflexivity.
  - split; [intros _ H; discriminate|intros _; eexists; reflexivity].
Qed.

(** one table, with the conversion that always follows *)
Definition conv_single (t : itab) (g : nat) (sed : bool) : outcome vtab := obind (validate_single t g) (fun v => dt_sed_conversion nu v sed).
Lemma conv_single_ok t g sed : rect t -> is_ok (conv_single t g sed) <-> well_formed t.
Proof.
  intros R. unfold conv_single. split.
  - intros (v' & H). obn H v H1. pose proof (validate_single_spec _ _ _ R H1) as (W & FD & _). cbv zeta in *.
    destruct (dt_sed_spec nu NU v sed _ v' W H) as (_ & _ & _ & _ & _ & _ & _ & _ & _ & _ & (DL & DH) & _). clear H.
    unfold validate_single in H1.
    obn H1 e F1. apply validate_column_ok in F1. destruct F1 as (De & Ie). apply in_energy in Ie.
    obn H1 f F2. apply validate_column_ok in F2. destruct F2 as (Df & If). apply in_flux in If.
    obn H1 fe F3. obn H1 ee F4. obn H1 u F5. obn H1 f' F6. obn H1 c F7. apply ok_inj in H1. subst v.
    cbn [v_e v_f v_flo v_fhi v_grp v_elo v_ehi v_ul v_cl] in *.
    assert (Uf : qunit f' = qunit f).
    { unfold apply_flux_ul in F6. destruct (dget "flux_ul" (cols t)); [ob F6; inv F6; reflexivity|inv F6; reflexivity]. }
    rewrite Uf in *.
    split; [exists e; auto|]. split; [|split].
    + exists (dim (qunit f)). split; [exists f; auto|]. split; [exact If|]. split.
      * change (has t) with (present t) in F3. destruct (present t "flux_error") eqn:PF.
        -- apply omap_ok in F3. destruct F3 as (d & F3 & <-). apply validate_column_ok in F3. destruct F3 as (D & _). exists d. auto.
        -- destruct (present t "flux_error_lo" && present t "flux_error_hi")%bool; [|discriminate].
           obn F3 x1 G1. obn F3 x2 G2. inv F3. apply validate_column_ok in G1, G2. destruct G1 as (D1 & _), G2 as (D2 & _).
           split; [exists x1|exists x2]; auto.
      * apply (apply_flux_ul_ok f u t). exists f'; auto.
    + change (has t) with (present t) in F4.
      destruct (present t "energy_width"); [apply omap_ok in F4; destruct F4 as (d & F4 & _); apply col_has_energy; eauto|].
      destruct (present t "energy_error"); [apply omap_ok in F4; destruct F4 as (d & F4 & _); apply col_has_energy; eauto|].
      destruct (present t "energy_error_lo" && present t "energy_error_hi")%bool.
      { obn F4 x1 G1. obn F4 x2 G2. split; apply col_has_energy; eauto. }
      destruct (present t "energy_lo" && present t "energy_hi")%bool; [|exact I].
      obn F4 x1 G1. obn F4 x2 G2. obn F4 x3 G3. obn F4 x4 G4. split; apply col_has_energy; eauto.
    + apply (parse_ul_ok (List.length (vals e)) (i_ul t)). exists u; auto.
  - intros (WE & (d & WF & FL & WFE & WUL) & WW & WU).
    assert (OK1 : exists v, validate_single t g = Ok v /\ dim (qunit (v_f v)) = d /\ dim (qunit (v_flo v)) = d /\ dim (qunit (v_fhi v)) = d).
    { unfold validate_single.
      destruct WE as (e & De & Ie). rewrite (validate_column_intro _ _ [d_energy] _ De) by (apply in_energy; exact Ie). cbn [obind].
      destruct WF as (f & Df & If). rewrite (validate_column_intro _ _ flux_types _ Df) by (apply in_flux; rewrite If; exact FL). cbn [obind].
      change (has t) with (present t).
      assert (OE : exists lo hi, (if present t "flux_error" then omap (fun d => (d, d)) (validate_column t "flux_error" flux_types)
         else if (present t "flux_error_lo" && present t "flux_error_hi")%bool then
           obind (validate_column t "flux_error_lo" flux_types) (fun lo =>
           obind (validate_column t "flux_error_hi" flux_types) (fun hi => Ok (lo, hi)))
         else Err "TypeError") = Ok (lo, hi) /\ dim (qunit lo) = d /\ dim (qunit hi) = d).
      { destruct (present t "flux_error").
        - destruct WFE as (q & D & I). rewrite (validate_column_intro _ _ flux_types _ D) by (apply in_flux; rewrite I; exact FL).
          exists q, q. auto.
        - destruct WFE as ((q & D & I) & (q2 & D2 & I2)). rewrite (present_some _ _ _ D), (present_some _ _ _ D2). cbn [andb].
          rewrite (validate_column_intro _ _ flux_types _ D) by (apply in_flux; rewrite I; exact FL).
          rewrite (validate_column_intro _ _ flux_types _ D2) by (apply in_flux; rewrite I2; exact FL).
          exists q, q2. auto. }
      destruct OE as (lo & hi & -> & Dlo & Dhi). cbn [obind fst snd].
      set (WID := if present t "energy_width" then _ else _).
      assert (OW : is_ok WID).
      { subst WID. destruct (present t "energy_width"); [apply col_has_energy in WW; destruct WW as (w & ->); eexists; reflexivity|].
        destruct (present t "energy_error"); [apply col_has_energy in WW; destruct WW as (w & ->); eexists; reflexivity|].
        destruct (present t "energy_error_lo" && present t "energy_error_hi")%bool.
        { destruct WW as (W1 & W2). apply col_has_energy in W1, W2. destruct W1 as (w1 & ->), W2 as (w2 & ->). eexists; reflexivity. }
        destruct (present t "energy_lo" && present t "energy_hi")%bool; [|eexists; reflexivity].
        destruct WW as ((w1 & D1 & I1) & (w2 & D2 & I2)).
        rewrite (validate_column_intro _ _ [d_energy] _ D1) by (apply in_energy; exact I1).
        rewrite (validate_column_intro _ _ [d_energy] _ D2) by (apply in_energy; exact I2). cbn [obind].
        assert (S1 : is_ok (qsub e w1)) by (apply qsub_is_ok; congruence).
        assert (S2 : is_ok (qsub w2 e)) by (apply qsub_is_ok; congruence).
        destruct S1 as (s1 & ->), S2 as (s2 & ->). eexists; reflexivity. }
      destruct OW as (wid & ->). cbn [obind].
      assert (OU : is_ok (parse_ul (List.length (vals e)) (i_ul t))) by (apply parse_ul_ok; exact WU).
      destruct OU as (u & ->). cbn [obind].
      assert (OF : is_ok (apply_flux_ul f u t)) by (apply apply_flux_ul_ok; rewrite If; exact WUL).
      destruct OF as (f' & EF). rewrite EF. cbn [obind].
      assert (Uf : qunit f' = qunit f).
      { unfold apply_flux_ul in EF. destruct (dget "flux_ul" (cols t)); [ob EF; inv EF; reflexivity|inv EF; reflexivity]. }
      destruct (i_cl t) as [c|]; cbn [validate_scalar obind]; (eexists; split; [reflexivity|]; cbn [v_f v_flo v_fhi]; rewrite Uf; auto). }
    destruct OK1 as (v & V & D1 & D2 & D3). rewrite V. cbn [obind].
    pose proof (validate_single_spec _ _ _ R V) as (W & _). cbv zeta in W.
    apply (dt_sed_ok nu NU v sed _ W); congruence.
Qed.
End N.

Section N2.
Variable nu : naima_units.
Hypothesis NU : positive_units nu.

Lemma validate_all_ok ts : forall g, is_ok (validate_all ts g) <-> (forall k t, nth_error ts k = Some t -> is_ok (validate_single t (g + k))).
Proof.
  induction ts as [|t ts IH]; intros g; cbn [validate_all].
  - split; [intros _ [|k] t H; discriminate|intros _; eexists; reflexivity].
  - split.
    + intros (vs & H). obn H v F1. obn H vs' F2. intros [|k] t' E.
      * inv E. rewrite Nat.add_0_r. exists v; auto.
      * cbn in E. rewrite Nat.add_succ_r, <- Nat.add_succ_l. eapply (proj1 (IH (S g))); eauto. exists vs'; auto.
    + intros H. destruct (H 0%nat t eq_refl) as (v & E). rewrite Nat.add_0_r in E. rewrite E. cbn [obind].
      assert (K : is_ok (validate_all ts (S g))).
      { apply IH. intros k t' Hk. specialize (H (S k) t' Hk). rewrite Nat.add_succ_r, <- Nat.add_succ_l in H. exact H. }
      destruct K as (vs & ->). eexists; reflexivity.
Qed.
Lemma rows_of_length v : List.length (rows_of v) = List.length (vals (v_e v)).
Proof. unfold rows_of. rewrite map_length, seq_length. reflexivity. Qed.
Lemma conv_rows_nonempty a b rs : rs <> [] -> is_ok (conv_rows a b rs) <->
  (dim (ue a) = dim (ue b) /\ dim (uf a) = dim (uf b) /\ dim (uflo a) = dim (uflo b) /\ dim (ufhi a) = dim (ufhi b) /\ dim (uelo a) = dim (uelo b) /\ dim (uehi a) = dim (uehi b)).
Proof.
  intros NE. unfold conv_rows. destruct rs as [|r rs]; [congruence|]. clear NE.
  assert (C : forall x y, is_ok (conv1 x y) <-> dim x = dim y).
  { intros x y. unfold conv1. destruct (dims_eqb (dim x) (dim y)) eqn:E.
    - apply dims_eqb_eq in E. split; auto. intros _. eexists; reflexivity.
    - split; [intros (k & H); discriminate|]. intros H. apply dims_eqb_eq in H. congruence. }
  split.
  - intros (rs' & H). obn H k1 F1. obn H k2 F2. obn H k3 F3. obn H k4 F4. obn H k5 F5. obn H k6 F6.
    apply conv1_ok in F1, F2, F3, F4, F5, F6. intuition auto.
  - intros (H1 & H2 & H3 & H4 & H5 & H6). apply C in H1, H2, H3, H4, H5, H6.
    destruct H1 as (k1 & ->), H2 as (k2 & ->), H3 as (k3 & ->), H4 as (k4 & ->), H5 as (k5 & ->), H6 as (k6 & ->).
    cbn [obind]. eexists; reflexivity.
Qed.

Lemma well_formed_flux t : well_formed t -> flux_like (flux_dims t).
Proof. intros (_ & (d & (q & D & I) & F & _) & _). unfold flux_dims. rewrite D, I. exact F. Qed.

(** units of a converted table *)
Lemma conv_single_units t g sed v' : rect t -> conv_single nu t g sed = Ok v' ->
  dim (ue (units_of v')) = d_energy /\ dim (uelo (units_of v')) = d_energy /\ dim (uehi (units_of v')) = d_energy /\
  dim (uf (units_of v')) = target_dims sed (flux_dims t) /\ uflo (units_of v') = uf (units_of v') /\ ufhi (units_of v') = uf (units_of v') /\
  List.length (rows_of v') = nrows t.
Proof.
  intros R H. unfold conv_single in H. obn H v H1. pose proof (validate_single_spec _ _ _ R H1) as (W & FD & _). cbv zeta in *.
  destruct (dt_sed_spec nu NU v sed _ v' W H) as (A1 & A2 & A3 & A4 & A5 & A6 & (fu & U1 & U2 & U3 & P & DU) & _).
  rewrite rows_of_length. unfold units_of. cbn [ue uf uflo ufhi uelo uehi]. rewrite A1, A3, A4, U1, U2, U3, DU, FD.
  destruct W as (L & _ & _ & _ & DE & _ & D1 & D2 & _). repeat split; auto.
Qed.

Lemma append_ok cu t0 sed ts : forall g vs, List.Forall rect ts -> List.Forall (fun t => (0 < nrows t)%nat) ts ->
  dim (ue cu) = d_energy -> dim (uelo cu) = d_energy -> dim (uehi cu) = d_energy -> dim (uf cu) = target_dims sed (flux_dims t0) ->
  uflo cu = uf cu -> ufhi cu = uf cu -> flux_like (flux_dims t0) ->
  validate_all ts g = Ok vs ->
  (is_ok (append_tables nu cu (flux_dims t0) sed vs) <-> List.Forall (fun t => well_formed t /\ length_exp (flux_dims t) = length_exp (flux_dims t0)) ts).
Proof.
  induction ts as [|t ts IH]; intros g vs HR HN C1 C2 C3 C4 C5 C6 FL HV; cbn [validate_all] in HV.
  { inv HV. cbn. split; [constructor|intros _; eexists; reflexivity]. }
  obn HV v F1. obn HV vs' F2. inv HV. inversion HR as [|? ? R1 R2]; subst. inversion HN as [|? ? N1 N2]; subst.
  specialize (IH (S g) vs' R2 N2 C1 C2 C3 C4 C5 C6 FL F2).
  pose proof (validate_single_spec _ _ _ R1 F1) as (W & FD & _). cbv zeta in *.
  cbn [append_tables]. rewrite FD.
  assert (CH : (dims_eqb (flux_dims t) d_flux && dims_eqb (flux_dims t0) d_power || dims_eqb (flux_dims t) d_power && dims_eqb (flux_dims t0) d_flux)%bool = true ->
     length_exp (flux_dims t) <> length_exp (flux_dims t0)).
  { intros H. apply orb_true_iff in H. destruct H as [H|H]; apply andb_true_iff in H; destruct H as (H1 & H2); apply dims_eqb_eq in H1, H2; rewrite H1, H2; discriminate. }
  destruct (dims_eqb (flux_dims t) d_flux && _ || _)%bool.
  { split; [intros (a & H); discriminate|]. intros H. inv H. exfalso. apply CH; [reflexivity|]. apply H2. }
  clear CH.
  assert (CS : conv_single nu t g sed = dt_sed_conversion nu v sed) by (unfold conv_single; rewrite F1; reflexivity).
  split.
  - intros (rows & H). obn H v' G1. obn H rs G2. obn H rest G3. constructor; [|apply IH; exists rest; auto].
    rewrite <- CS in G1. split; [eapply conv_single_ok; eauto; exists v'; exact G1|].
    destruct (conv_single_units _ _ _ _ R1 G1) as (U1 & U2 & U3 & U4 & U5 & U6 & UL).
    assert (NE : rows_of v' <> []) by (intros E; rewrite E in UL; cbn in UL; lia).
    assert (OK1 : is_ok (conv_rows (units_of v') cu (rows_of v'))) by (exists rs; auto).
    apply (conv_rows_nonempty _ _ _ NE) in OK1. destruct OK1 as (_ & D & _).
    rewrite U4, C4 in D. inversion D. auto.
  - intros H. inv H. destruct H2 as (WF & LE).
    assert (OK1 : is_ok (conv_single nu t g sed)) by (apply conv_single_ok; auto).
    destruct OK1 as (v' & G1). destruct (conv_single_units _ _ _ _ R1 G1) as (U1 & U2 & U3 & U4 & U5 & U6 & UL).
    rewrite CS in G1. rewrite G1. cbn [obind].
    assert (NE : rows_of v' <> []) by (intros E; rewrite E in UL; cbn in UL; lia).
    assert (OK1 : is_ok (conv_rows (units_of v') cu (rows_of v'))).
    { apply (conv_rows_nonempty _ _ _ NE). rewrite U1, U2, U3, U4, U5, U6, C1, C2, C3, C4, C5, C6, U4, C4.
      assert (T : target_dims sed (flux_dims t) = target_dims sed (flux_dims t0)) by (unfold target_dims; rewrite LE; reflexivity).
      repeat split; auto. }
    destruct OK1 as (rs & ->). cbn [obind]. apply IH in H3. destruct H3 as (rest & ->). eexists; reflexivity.
Qed.

(** Tables with at least one row each are accepted - whatever is asked for - exactly
    if there is at least one, each is well formed, and they are all fluxes or all
    luminosities. Everything else raises an exception. *)
Theorem C52_accepted_iff_well_formed : forall argsort ts sed,
  List.Forall rect ts -> List.Forall (fun t => (0 < nrows t)%nat) ts ->
  (is_ok (validate_data_table nu argsort ts sed) <->
   ts <> [] /\ List.Forall well_formed ts /\ (forall t t', In t ts -> In t' ts -> (per_area t <-> per_area t'))).
Proof.
  intros argsort ts sed HR HN.
  assert (AREA : forall t t', well_formed t -> well_formed t' -> (length_exp (flux_dims t) = length_exp (flux_dims t') <-> (per_area t <-> per_area t'))).
  { intros t t' W W'. apply well_formed_flux in W, W'. unfold per_area.
    destruct W as [ -> |[ -> |[ -> | -> ]]], W' as [ -> |[ -> |[ -> | -> ]]]; cbn [length_exp snd fst d_flux d_diff_flux d_power d_diff_power]; split; intros H; try tauto; try discriminate; try lia. }
  unfold validate_data_table.
  destruct ts as [|t ts].
  { cbn. split; [intros (a & H); discriminate|intros (H & _); congruence]. }
  inversion HR as [|? ? R1 R2]; subst. inversion HN as [|? ? N1 N2]; subst.
  split.
  - intros (res & H). obn H vs F1. cbn [validate_all] in F1. obn F1 v G1. obn F1 vs' G2. inv F1.
    obn H v0 F2. obn H rest F3. clear H. set (sed' := match sed with Some b => b | None => _ end) in *. clearbody sed'.
    pose proof (validate_single_spec _ _ _ R1 G1) as (W & FD & _). cbv zeta in *.
    assert (CS : conv_single nu t 0 sed' = Ok v0) by (unfold conv_single; rewrite G1; exact F2).
    assert (WF : well_formed t) by (eapply conv_single_ok; eauto; exists v0; exact CS).
    destruct (conv_single_units _ _ _ _ R1 CS) as (U1 & U2 & U3 & U4 & U5 & U6 & UL).
    rewrite FD in F3.
    assert (OK1 : is_ok (append_tables nu (units_of v0) (flux_dims t) sed' vs')) by (exists rest; auto).
    apply (append_ok (units_of v0) t sed' ts 1 vs' R2 N2 U1 U2 U3 U4 U5 U6 (well_formed_flux _ WF) G2) in OK1.
    assert (ALL : List.Forall (fun x => well_formed x /\ length_exp (flux_dims x) = length_exp (flux_dims t)) (t :: ts)) by (constructor; auto).
    rewrite Forall_forall in ALL.
    split; [discriminate|]. split; [apply Forall_forall; intros x Hx; apply ALL, Hx|].
    intros x x' Hx Hx'. destruct (ALL x Hx) as (A1 & A2), (ALL x' Hx') as (B1 & B2). apply AREA; auto. congruence.
  - intros (_ & HW & HA). inversion HW as [|? ? W1 W2]; subst.
    assert (OKA : is_ok (validate_all (t :: ts) 0)).
    { apply validate_all_ok. intros k x Hk. apply nth_error_In in Hk as HI. rewrite Forall_forall in HW, HR.
      assert (C : is_ok (conv_single nu x (0 + k) true)) by (apply conv_single_ok; auto).
      destruct C as (v' & C). unfold conv_single in C. ob C. exists a; auto. }
    destruct OKA as (vs & EV). rewrite EV. cbn [obind]. cbn [validate_all] in EV. obn EV v G1. obn EV vs' G2. inv EV.
    set (sed' := match sed with Some b => b | None => _ end). clearbody sed'.
    assert (C : is_ok (conv_single nu t 0 sed')) by (apply conv_single_ok; auto). destruct C as (v0 & CS).
    destruct (conv_single_units _ _ _ _ R1 CS) as (U1 & U2 & U3 & U4 & U5 & U6 & UL).
    pose proof (validate_single_spec _ _ _ R1 G1) as (W & FD & _). cbv zeta in *.
    unfold conv_single in CS. rewrite G1 in CS. cbn [obind] in CS. rewrite CS. cbn [obind]. rewrite FD.
    assert (OK1 : is_ok (append_tables nu (units_of v0) (flux_dims t) sed' vs')).
    { apply (append_ok (units_of v0) t sed' ts 1 vs' R2 N2 U1 U2 U3 U4 U5 U6 (well_formed_flux _ W1) G2).
      apply Forall_forall. intros x Hx. rewrite Forall_forall in W2. split; [auto|]. apply AREA; auto. apply HA; [right; auto|left; auto]. }
    destruct OK1 as (rest & ->). eexists; reflexivity.
Qed.
End N2.

(** A concrete table (two rows, one an upper limit) meeting all hypotheses *)
Definition nu1 : naima_units := mkNU 1 (8 / 5) 1 1.
Lemma nu1_pos : positive_units nu1.
Proof. unfold positive_units, nu1; cbn. lra. Qed.
Definition ex_tab : itab :=
  mkI [("energy", mkQ [4; 1] (mkU 2 d_energy)); ("flux", mkQ [3; 5] (mkU 7 d_diff_flux)); ("flux_error", mkQ [1; 2] (mkU 5 d_diff_flux));
       ("flux_ul", mkQ [10; 11] (mkU 1 d_diff_flux))]%string None (Some (UBool [false; true])) None.
Lemma ex_tab_rect : rect ex_tab.
Proof.
  split; [|split].
  - cbn [ex_tab cols nrows dget String.eqb Ascii.eqb Bool.eqb]. repeat constructor; cbn; lra.
  - discriminate.
  - intros u m H. inv H. cbn. congruence.
Qed.
Lemma ex_tab_wf : well_formed ex_tab.
Proof.
  unfold well_formed, col_has. split; [eexists; split; reflexivity|]. split; [|split; exact I].
  exists d_diff_flux. split; [eexists; split; reflexivity|]. split; [right; left; reflexivity|].
  split; [eexists; split; reflexivity|intros _; eexists; split; reflexivity].
Qed.
(** hence accepted, by C52 *)
Example ex_tab_accepted : forall argsort sed, is_ok (validate_data_table nu1 argsort [ex_tab; ex_tab] sed).
Proof.
  intros. apply (C52_accepted_iff_well_formed nu1 nu1_pos).
  - constructor; [apply ex_tab_rect|constructor; [apply ex_tab_rect|constructor]].
  - repeat constructor; cbn; lia.
  - split; [discriminate|]. split; [constructor; [apply ex_tab_wf|constructor; [apply ex_tab_wf|constructor]]|]. intros t t' [ <- |[ <- |[]]] [ <- |[ <- |[]]]; tauto.
Qed.
(** a flux table and a luminosity table together are not, nor is a table without errors *)
Definition ex_lum : itab :=
  mkI [("energy", mkQ [4] (mkU 2 d_energy)); ("flux", mkQ [3] (mkU 7 d_diff_power)); ("flux_error", mkQ [1] (mkU 5 d_diff_power))]%string None None None.
Lemma ex_lum_rect : rect ex_lum.
Proof.
  split; [|split]; [|discriminate|discriminate].
  cbn [ex_lum cols nrows dget String.eqb Ascii.eqb Bool.eqb]. repeat constructor; cbn; lra.
Qed.
Example ex_mixed_rejected : forall argsort sed, ~ is_ok (validate_data_table nu1 argsort [ex_tab; ex_lum] sed).
Proof.
  intros argsort sed H. apply (C52_accepted_iff_well_formed nu1 nu1_pos) in H.
  - destruct H as (_ & _ & H). specialize (H ex_tab ex_lum (or_introl eq_refl) (or_intror (or_introl eq_refl))).
    unfold per_area in H. cbn in H. destruct H as (H & _). specialize (H eq_refl). discriminate.
  - constructor; [apply ex_tab_rect|constructor; [apply ex_lum_rect|constructor]].
  - repeat constructor; cbn; lia.
Qed.
(** there is an argsort: insertion sort of the indices *)
Fixpoint ins (l : list R) (i : nat) (s : list nat) : list nat :=
  match s with [] => [i] | j :: r => if Rle_dec (nth i l 0) (nth j l 0) then i :: s else j :: ins l i r end.
Definition isort (l : list R) : list nat := fold_right (ins l) [] (seq 0 (List.length l)).
Lemma ins_perm l i s : Permutation (ins l i s) (i :: s).
Proof. induction s as [|j r IH]; cbn; auto. destruct (Rle_dec _ _); auto. rewrite IH. apply perm_swap. Qed.
Lemma ins_sorted l i s : StronglySorted Rle (map (fun k => nth k l 0) s) -> StronglySorted Rle (map (fun k => nth k l 0) (ins l i s)).
Proof.
  induction s as [|j r IH]; cbn [ins map]; intros H; [repeat constructor|]. inversion H as [|? ? S F]; subst.
  destruct (Rle_dec (nth i l 0) (nth j l 0)); cbn [map]; constructor; auto.
  - constructor; auto. eapply Forall_impl; [|exact F]. intros b Hb; cbn in Hb. lra.
  - eapply Permutation_Forall; [apply Permutation_map, Permutation_sym, ins_perm|]. cbn [map]. constructor; [lra|exact F].
Qed.
Lemma isort_is_argsort : is_argsort isort.
Proof.
  intros l. unfold isort. split.
  - generalize (seq 0 (List.length l)). induction l0 as [|i s IH]; cbn [fold_right]; auto. rewrite ins_perm, IH. reflexivity.
  - generalize (seq 0 (List.length l)). induction l0 as [|i s IH]; cbn [fold_right map]; [constructor|]. apply ins_sorted, IH.
Qed.
Print Assumptions C49_rows_sorted_permutation.
Print Assumptions C52_accepted_iff_well_formed.
