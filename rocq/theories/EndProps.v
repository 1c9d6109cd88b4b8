(** Properties C156, C157: from the tables given by the user to the likelihood. *)
From Coq Require Import Reals List ZArith Bool String Arith Permutation Sorted Lra Lia.
From Verif Require Import Outcome SimplexModel UnitsModel DataModel DataSpec DataProofs DataProofs2 DataProps CoreModel CoreProps EndModel.
Import ListNotations.
Local Open Scope R_scope.

(** ** Specification *)
(** What an observation contributes when the model predicts the SED value [m]: a
    detection the Gaussian misfit with the error of the side the model is on, a
    violated upper limit the log of its tail probability, a respected one nothing *)
Definition obs_term (m : R) (o : obs) : R :=
  if o_ul o then (if Rlt_dec (o_F o) m then ln (1 - level_of (o_cl o)) else 0)
  else - (1 / 2) * ((m - o_F o) / (if Rlt_dec (o_F o) m then o_hi o else o_lo o)) ^ 2.
Definition violated_limit (S : R -> R) (o : obs) : Prop := o_ul o = true /\ o_F o < S (o_E o).
(** The model function computes the SED [S], as a flux or as a luminosity, whatever
    unit the energies come in and in whatever unit it likes, as SED or differential *)
Definition computes (area : bool) (model : qty -> outcome qty) (S : R -> R) : Prop := forall e,
  dim (qunit e) = d_energy -> 0 < scale (qunit e) -> List.Forall (fun x => 0 < x) (vals e) ->
  exists m, model e = Ok m /\ 0 < scale (qunit m) /\ List.length (vals m) = List.length (vals e) /\
    (if area then CoreProps.flux_like (dim (qunit m)) else power_like (dim (qunit m))) /\
    forall i, (i < List.length (vals e))%nat ->
      phys_sed (dim (qunit m)) (scale (qunit m)) (nth i (vals m) 0) (phys e i) = S (phys e i).
(** Tables a user may give: columns of equal length, at least one row each, all
    fluxes or all luminosities, positive energies and errors *)
Definition acceptable (area : bool) (ts : list itab) : Prop :=
  ts <> [] /\ List.Forall rect ts /\ List.Forall (fun t => (0 < nrows t)%nat) ts /\ List.Forall well_formed ts /\
  (forall t, In t ts -> length_exp (flux_dims t) = if area then (-2)%Z else 0%Z) /\
  (forall o, In o (input_rows true ts 0) -> 0 < o_E o /\ 0 < o_lo o /\ 0 < o_hi o).

(** ** Proofs *)
Lemma pos_units nu argsort ts sed cu rows : positive_units nu -> List.Forall rect ts ->
  validate_data_table nu argsort ts sed = Ok (cu, rows) -> pos_cu cu.
Proof.
  intros NU HR H. unfold validate_data_table in H. obn H vs F1.
  destruct ts as [|t ts]; cbn [validate_all] in F1; [inv F1; discriminate|].
  obn F1 v G1. obn F1 vs' G2. inv F1. obn H v0 F2. obn H rest F3. apply ok_inj in H. inv H.
  inversion HR as [|? ? R1 R2]; subst. eapply units_pos; eauto.
Qed.

(** an observation whose fluxes are differential, as an SED *)
Definition to_sed (sed : bool) (o : obs) : obs :=
  if sed then o else mkO (o_E o) (o_E o ^ 2 * o_F o) (o_E o ^ 2 * o_lo o) (o_E o ^ 2 * o_hi o) (o_wlo o) (o_whi o) (o_ul o) (o_grp o) (o_cl o).
Lemma input_to_sed sed t g i : DataSpec.flux_like (flux_dims t) -> 0 < pcol t "energy" i ->
  to_sed sed (input_row sed t g i) = input_row true t g i.
Proof.
  intros HF P. destruct sed; [reflexivity|]. unfold to_sed, input_row. cbn [o_E o_F o_lo o_hi o_wlo o_whi o_ul o_grp o_cl].
  set (E := pcol t "energy" i) in *. unfold sed_factor.
  destruct HF as [ -> |[ -> |[ -> | -> ]]]; cbn [energy_exp fst d_flux d_diff_flux d_power d_diff_power Z.eqb Pos.eqb]; f_equal; field; lra.
Qed.
Lemma in_input_rows sed ts : forall g o, In o (input_rows sed ts g) ->
  exists t g' i, In t ts /\ (i < nrows t)%nat /\ o = input_row sed t g' i.
Proof.
  induction ts as [|t ts IH]; intros g o H; cbn [input_rows] in H; [destruct H|].
  apply in_app_iff in H. destruct H as [H|H].
  - apply in_map_iff in H. destruct H as (i & <- & Hi). apply in_seq in Hi. exists t, g, i. repeat split; auto; [left; auto|lia].
  - destruct (IH _ _ H) as (t' & g' & i & A & B & C). exists t', g', i. repeat split; auto. right; auto.
Qed.
Lemma rows_to_sed sed ts : forall g, List.Forall well_formed ts ->
  (forall o, In o (input_rows true ts g) -> 0 < o_E o) ->
  map (to_sed sed) (input_rows sed ts g) = input_rows true ts g.
Proof.
  induction ts as [|t ts IH]; intros g HW HP; cbn [input_rows]; [reflexivity|]. inversion HW as [|? ? W1 W2]; subst.
  rewrite map_app, map_map. f_equal.
  - apply map_ext_in. intros i Hi. apply input_to_sed; [apply well_formed_flux; auto|].
    apply (HP (input_row true t g i)). cbn [input_rows]. apply in_app_iff. left. apply in_map. exact Hi.
  - apply IH; auto. intros o Ho. apply HP. cbn [input_rows]. apply in_app_iff. right; auto.
Qed.

Lemma sumR_perm a b : Permutation a b -> sumR a = sumR b.
Proof. induction 1; cbn [sumR]; lra. Qed.

(** a row of the table as lnprobmodel sees it, in SED space *)
Lemma fit_row_sed (sed : bool) dd cu r : pos_cu cu -> is_differential dd = negb sed ->
  let o := to_sed sed (output_row cu r) in
  scale_row (phys_sed dd (scale (uf cu)) 1 (scale (ue cu) * r_e r)) (fit_row cu r) =
  mkRow (o_F o) (o_lo o) (o_hi o) (o_ul o) (level_of (o_cl o)).
Proof.
  intros (P1 & P2 & P3 & P4 & _) D. cbv zeta. unfold phys_sed, fit_row, scale_row, to_sed, output_row. rewrite D.
  destruct sed; cbn [negb flux err_lo err_hi ul cl o_F o_lo o_hi o_ul o_cl o_E]; f_equal; field; lra.
Qed.

Lemma term_spec m o : 0 < o_lo o -> 0 < o_hi o ->
  let r := mkRow (o_F o) (o_lo o) (o_hi o) (o_ul o) (level_of (o_cl o)) in
  (if ul r then 0 else - (1 / 2) * ((m - flux r) / sigma_used m r) ^ 2) +
  (if (ul r && violated m r)%bool then ln (1 - cl r) else 0) = obs_term m o.
Proof.
  intros A B. cbv zeta. unfold obs_term, sigma_used, violated. cbn [ul flux cl err_lo err_hi].
  destruct (o_ul o), (Rlt_dec (o_F o) m); cbn [andb]; lra.
Qed.

Definition obs_row (o : obs) : row := mkRow (o_F o) (o_lo o) (o_hi o) (o_ul o) (level_of (o_cl o)).
Lemma lnl_obs (S : R -> R) os : (forall o, In o os -> 0 < o_lo o /\ 0 < o_hi o) ->
  ((exists c, forall o, In o os -> o_cl o = Fin c) \/ (forall o, In o os -> ~ violated_limit S o)) ->
  (exists o, In o os /\ ~ violated_limit S o) ->
  lnl (map (fun o => S (o_E o)) os) (map obs_row os) = Ok (sumR (map (fun o => obs_term (S (o_E o)) o) os)).
Proof.
  intros HP HC HV.
  assert (CMB : forall l, combine (map (fun o => S (o_E o)) l) (map obs_row l) = map (fun o => (S (o_E o), obs_row o)) l).
  { induction l as [|o l IH]; cbn [map combine]; auto. f_equal. exact IH. }
  assert (VB : forall o, (ul (obs_row o) && violated (S (o_E o)) (obs_row o))%bool = true <-> violated_limit S o).
  { intros o. unfold violated_limit, violated, obs_row. cbn [ul flux]. rewrite andb_true_iff. destruct (Rlt_dec _ _); split; intros [? ?]; split; auto; try discriminate; try contradiction. }
  assert (NV : forall l, (forall o, In o l -> ~ violated_limit S o) -> n_violated (map (fun o => S (o_E o)) l) (map obs_row l) = 0%nat).
  { intros l. unfold n_violated. rewrite CMB. induction l as [|o l IH]; intros H; cbn [map filter fst snd]; auto.
    destruct (ul (obs_row o) && violated (S (o_E o)) (obs_row o))%bool eqn:E; [apply VB in E; exfalso; apply (H o); cbn; auto|]. apply IH. intros; apply H; cbn; auto. }
  assert (LT : forall l, (exists o, In o l /\ ~ violated_limit S o) -> (n_violated (map (fun o => S (o_E o)) l) (map obs_row l) < List.length l)%nat).
  { intros l. unfold n_violated. rewrite CMB.
    assert (LE : forall l, (List.length (filter (fun p => ul (snd p) && violated (fst p) (snd p))%bool (map (fun o => (S (o_E o), obs_row o)) l)) <= List.length l)%nat).
    { induction l0 as [|o l0 IH]; cbn [map filter fst snd List.length]; auto. destruct (_ && _)%bool; cbn [List.length]; lia. }
    induction l as [|o l IH]; intros (o' & I1 & I2); [destruct I1|]. cbn [map filter fst snd List.length].
    destruct (ul (obs_row o) && violated (S (o_E o)) (obs_row o))%bool eqn:E; cbn [List.length].
    - apply VB in E. destruct I1 as [<-|I1]; [contradiction|]. apply -> Nat.succ_lt_mono. apply IH. exists o'; auto.
    - specialize (LE l). lia. }
  assert (T : lnl (map (fun o => S (o_E o)) os) (map obs_row os) = Ok (detections (map (fun o => S (o_E o)) os) (map obs_row os) + ul_penalty (map (fun o => S (o_E o)) os) (map obs_row os))).
  { destruct HC as [(c & HC)|HC]; [apply C39_common_level_partial with (c := c)|apply C39_common_level_partial with (c := 0)]; rewrite ?map_length; auto.
    - unfold good. rewrite Forall_map. apply Forall_forall. intros o Ho. cbn. apply HP; auto.
    - left. intros r Hr. apply in_map_iff in Hr. destruct Hr as (o & <- & Ho). cbn. rewrite (HC o Ho). reflexivity.
    - unfold good. rewrite Forall_map. apply Forall_forall. intros o Ho. cbn. apply HP; auto. }
  rewrite T. f_equal. clear T HC HV LT NV. unfold detections, ul_penalty. rewrite CMB, !map_map.
  induction os as [|o os IH]; cbn [map sumR]; [lra|]. rewrite <- IH by (intros; apply HP; cbn; auto). cbn [fst snd].
  destruct (HP o (or_introl eq_refl)) as [A B]. pose proof (term_spec (S (o_E o)) o A B) as T. cbv zeta in T. fold (obs_row o) in T. rewrite <- T. lra.
Qed.

Lemma target_area sed t : DataSpec.flux_like (flux_dims t) ->
  is_differential (target_dims sed (flux_dims t)) = negb sed /\
  (length_exp (flux_dims t) = (-2)%Z -> CoreProps.flux_like (target_dims sed (flux_dims t))) /\
  (length_exp (flux_dims t) = 0%Z -> power_like (target_dims sed (flux_dims t))).
Proof.
  unfold target_dims, CoreProps.flux_like, power_like.
  intros [ -> |[ -> |[ -> | -> ]]]; destruct sed; cbn; repeat split; auto; try discriminate.
Qed.

(** ** C156. The likelihood is the sum, over all the rows of all the tables the user
    gave, of the contribution of that row in physical units as an SED: whatever the
    units, the kind of flux, the order of the rows, the number of tables, the
    [data_sed] option, and the unit and kind of flux of the model. *)
Theorem C156_likelihood_of_tables : forall nu argsort ts sed area model S,
  positive_units nu -> is_argsort argsort -> acceptable area ts -> computes area model S ->
  ((exists c, forall o, In o (input_rows true ts 0) -> o_cl o = Fin c) \/
   (forall o, In o (input_rows true ts 0) -> ~ violated_limit S o)) ->
  (exists o, In o (input_rows true ts 0) /\ ~ violated_limit S o) ->
  fit_lnl nu argsort ts sed model = Ok (sumR (map (fun o => obs_term (S (o_E o)) o) (input_rows true ts 0))).
Proof.
  intros nu argsort ts sed area model S NU AS (NE & HR & HN & HW & HA & HP) HM HC HV.
  assert (OK : is_ok (validate_data_table nu argsort ts sed)).
  { apply C52_accepted_iff_well_formed; auto. split; auto. split; auto. intros t t' I1 I2. unfold per_area. rewrite (HA t I1), (HA t' I2). tauto. }
  destruct OK as ((cu, rows) & V). unfold fit_lnl. rewrite V. cbn [obind].
  destruct (C49_rows_sorted_permutation nu NU argsort ts sed cu rows AS HR V) as (_ & PM & DE & DF).
  pose proof (pos_units _ _ _ _ _ _ NU HR V) as PU. set (w := wants_sed ts sed) in *.
  destruct ts as [|t0 ts]; [congruence|]. set (tt := t0 :: ts) in *.
  assert (FL : DataSpec.flux_like (flux_dims t0)) by (apply well_formed_flux; inversion HW; auto).
  destruct (target_area w t0 FL) as (TD & TF & TP).
  (* the rows of the table, in SED space *)
  assert (PM2 : Permutation (map (fun r => to_sed w (output_row cu r)) rows) (input_rows true tt 0)).
  { rewrite <- (rows_to_sed w tt 0 HW) by (intros o Ho; apply (HP o Ho)). rewrite <- (map_map (output_row cu) (to_sed w)). apply Permutation_map, PM. }
  set (os := map (fun r => to_sed w (output_row cu r)) rows) in *.
  assert (HPo : forall o, In o os -> 0 < o_E o /\ 0 < o_lo o /\ 0 < o_hi o).
  { intros o Ho. apply HP. eapply Permutation_in; eauto. }
  assert (EO : map o_E os = map (Rmult (scale (ue cu))) (map r_e rows)).
  { unfold os. rewrite !map_map. apply map_ext. intros r. unfold to_sed, output_row. destruct w; cbn [o_E]; lra. }
  destruct PU as (P1 & P2 & P3 & P4 & P5 & P6).
  assert (PE : List.Forall (fun e => 0 < e) (map r_e rows)).
  { apply Forall_forall. intros e He. apply (in_map (Rmult (scale (ue cu)))) in He. rewrite <- EO in He. apply in_map_iff in He.
    destruct He as (o & Eo & Io). pose proof (HPo o Io) as (Q & _). rewrite Eo in Q. apply Rmult_lt_reg_l with (scale (ue cu)); auto. lra. }
  destruct (HM (mkQ (map r_e rows) (ue cu)) DE P1 PE) as (m & EM & PMm & LM & DM & SM). cbn [vals qunit] in *.
  unfold fit_table at 1. cbn [t_energy fst snd]. rewrite EM. cbn [obind].
  assert (KR : srows (map (phys_sed (dim (uf cu)) (scale (uf cu)) 1) (map (Rmult (scale (ue cu))) (map r_e rows))) (map (fit_row cu) rows) = map obs_row os).
  { unfold srows, os. rewrite !map_map. clear - P1 P2 P3 P4 P5 P6 TD DF. cbn [tt] in DF. induction rows as [|r rows IH]; cbn [map combine fst snd]; auto. f_equal; [|exact IH].
    apply fit_row_sed; [repeat split; auto|]. rewrite DF. exact TD. }
  assert (GD : good (map (fit_row cu) rows)).
  { unfold good. apply Forall_forall. intros q Hq. apply in_map_iff in Hq. destruct Hq as (r & <- & Ir).
    assert (Q : In (to_sed w (output_row cu r)) os) by (unfold os; apply (in_map (fun r => to_sed w (output_row cu r))), Ir).
    destruct (HPo _ Q) as (Q0 & Q1 & Q2). unfold fit_row; cbn [err_lo err_hi].
    assert (R1 : 0 < r_flo r * scale (uflo cu) /\ 0 < r_fhi r * scale (ufhi cu)).
    { unfold to_sed, output_row in Q0, Q1, Q2. destruct w; cbn [o_E o_lo o_hi] in *; [auto|].
      assert (0 < (r_e r * scale (ue cu)) ^ 2) by (apply pow_lt; auto).
      split; apply Rmult_lt_reg_l with ((r_e r * scale (ue cu)) ^ 2); auto; lra. }
    unfold Rdiv. rewrite <- !Rmult_assoc. split; apply Rmult_lt_0_compat; try apply Rinv_0_lt_compat; try apply R1; auto. }
  assert (AREA : (CoreProps.flux_like (dim (qunit m)) /\ CoreProps.flux_like (dim (uf cu))) \/ (power_like (dim (qunit m)) /\ power_like (dim (uf cu)))).
  { rewrite DF. specialize (HA t0 (or_introl eq_refl)). destruct area; [left|right]; split; auto. }
  pose proof (C42_units nu m (fit_table (cu, rows))) as C42. cbn [fit_table t_energy t_rows t_unit fst snd vals qunit] in C42.
  rewrite !map_length in C42. rewrite map_length in LM.
  destruct C42 as (C42 & _); auto; [tauto|]. specialize (C42 AREA). cbn [fit_table fst snd]. rewrite C42, KR. clear C42.
  assert (MV : zipw (phys_sed (dim (qunit m)) (scale (qunit m))) (vals m) (map (Rmult (scale (ue cu))) (map r_e rows)) = map (fun o => S (o_E o)) os).
  { rewrite <- (map_map o_E S), EO. apply nth_ext with 0 0; unfold zipw; rewrite !map_length, ?combine_length, ?map_length; [lia|].
    intros i Hi. rewrite ?combine_length, ?map_length in Hi.
    rewrite (nth_map_gen _ _ _ (0, 0)) by (rewrite combine_length, !map_length; lia). rewrite combine_nth by (rewrite !map_length; lia). cbn [fst snd].
    rewrite (nth_map_gen _ _ _ 0) by (rewrite map_length; lia). rewrite (nth_map_gen _ _ _ 0) by (rewrite !map_length; lia).
    rewrite (nth_map_gen _ _ _ 0) by (rewrite map_length; lia).
    rewrite map_length in SM. specialize (SM i ltac:(lia)). unfold phys in SM. cbn [vals qunit] in SM. rewrite (Rmult_comm (scale (ue cu))). exact SM. }
  rewrite MV. rewrite lnl_obs.
  - f_equal. apply sumR_perm. apply Permutation_map with (f := fun o => obs_term (S (o_E o)) o). exact PM2.
  - intros o Ho. apply HPo in Ho. tauto.
  - destruct HC as [(c & HC)|HC]; [left; exists c|right]; intros o Ho; apply HC; eapply Permutation_in; eauto.
  - destruct HV as (o & I1 & I2). exists o. split; auto. eapply Permutation_in; [apply Permutation_sym|]; eauto.
Qed.
Print Assumptions C156_likelihood_of_tables.

(** ** C157. Two ways of giving the same data are the same fit *)
(** what the likelihood may depend on: energy, flux, errors, upper-limit flag and
    confidence level - not the group nor the energy bins *)
Definition datum (o : obs) : R * R * R * R * bool * ev := (o_E o, o_F o, o_lo o, o_hi o, o_ul o, o_cl o).
Definition datum_term (S : R -> R) (d : R * R * R * R * bool * ev) : R :=
  let '(E, F, lo, hi, u, c) := d in obs_term (S E) (mkO E F lo hi 0 0 u 0%Z c).
Lemma datum_term_obs S o : datum_term S (datum o) = obs_term (S (o_E o)) o.
Proof. reflexivity. Qed.
Theorem C157_same_data_same_fit : forall nu argsort argsort' ts ts' sed sed' area model model' S,
  positive_units nu -> is_argsort argsort -> is_argsort argsort' ->
  acceptable area ts -> acceptable area ts' -> computes area model S -> computes area model' S ->
  Permutation (map datum (input_rows true ts 0)) (map datum (input_rows true ts' 0)) ->
  ((exists c, forall o, In o (input_rows true ts 0) -> o_cl o = Fin c) \/
   (forall o, In o (input_rows true ts 0) -> ~ violated_limit S o)) ->
  (exists o, In o (input_rows true ts 0) /\ ~ violated_limit S o) ->
  fit_lnl nu argsort ts sed model = fit_lnl nu argsort' ts' sed' model' /\
  exists L, fit_lnl nu argsort ts sed model = Ok L.
Proof.
  intros nu a a' ts ts' sed sed' area m m' S NU A1 A2 B1 B2 M1 M2 P HC HV.
  assert (TR : forall o', In o' (input_rows true ts' 0) -> exists o, In o (input_rows true ts 0) /\ datum o = datum o').
  { intros o' I'. apply (in_map datum) in I'. apply (Permutation_in _ (Permutation_sym P)) in I'. apply in_map_iff in I'. destruct I' as (o & E & I1). exists o; auto. }
  assert (TR' : forall o, In o (input_rows true ts 0) -> exists o', In o' (input_rows true ts' 0) /\ datum o = datum o').
  { intros o I'. apply (in_map datum) in I'. apply (Permutation_in _ P) in I'. apply in_map_iff in I'. destruct I' as (o' & E & I1). exists o'; auto. }
  assert (VL : forall o o', datum o = datum o' -> violated_limit S o -> violated_limit S o').
  { unfold datum, violated_limit. intros o o' E [V1 V2]. injection E as E1 E2 E3 E4 E5 E6. rewrite <- E1, <- E2, <- E5. auto. }
  rewrite (C156_likelihood_of_tables nu a ts sed area m S), (C156_likelihood_of_tables nu a' ts' sed' area m' S); auto.
  - split; [|eexists; reflexivity]. f_equal.
    rewrite <- (map_ext _ _ (datum_term_obs S)). rewrite <- (map_ext _ _ (datum_term_obs S) (input_rows true ts' 0)).
    rewrite <- !(map_map datum (datum_term S)). apply sumR_perm, Permutation_map, P.
  - destruct HC as [(c & HC)|HC]; [left; exists c|right]; intros o' I'; destruct (TR o' I') as (o & I1 & E).
    + injection E as E1 E2 E3 E4 E5 E6. rewrite <- E6. auto.
    + intros V. apply (HC o I1). eapply VL; eauto.
  - destruct HV as (o & I1 & V). destruct (TR' o I1) as (o' & I2 & E). exists o'. split; auto. intros V'. apply V. eapply VL; [symmetry|]; eauto.
Qed.
Print Assumptions C157_same_data_same_fit.

(** ** Example: two tables, differential flux with a limit in units of 2, 7, 5 and 1, and
    an energy flux; a constant SED given as a differential flux in a unit of size 3 *)
Definition tabA : itab :=
  mkI [("energy", mkQ [4; 1] (mkU 2 d_energy)); ("flux", mkQ [3; 5] (mkU 7 d_diff_flux)); ("flux_error", mkQ [1; 2] (mkU 5 d_diff_flux));
       ("flux_ul", mkQ [10; 11] (mkU 1 d_diff_flux))]%string None (Some (UBool [false; true])) None.
Definition tabB : itab :=
  mkI [("energy", mkQ [3] (mkU 1 d_energy)); ("flux", mkQ [6] (mkU 1 d_flux)); ("flux_error_lo", mkQ [1] (mkU 1 d_flux));
       ("flux_error_hi", mkQ [2] (mkU 1 d_flux))]%string None None None.
Definition flat_model (e : qty) : outcome qty :=
  Ok (mkQ (map (fun x => 8 / (x * scale (qunit e)) ^ 2 / 3) (vals e)) (mkU 3 d_diff_flux)).
Lemma tabB_rect : rect tabB.
Proof.
  split; [|split]; [|discriminate|discriminate].
  cbn [tabB cols nrows dget String.eqb Ascii.eqb Bool.eqb]. repeat constructor; cbn; lra.
Qed.
Lemma tabB_wf : well_formed tabB.
Proof.
  unfold well_formed, col_has. split; [eexists; split; reflexivity|]. split; [|split; exact I].
  exists d_flux. split; [eexists; split; reflexivity|]. split; [left; reflexivity|].
  split; [split; eexists; split; reflexivity|intros H; discriminate H].
Qed.
Example C156_example :
  acceptable true [tabA; tabB] /\ computes true flat_model (fun _ => 8) /\
  (forall o, In o (input_rows true [tabA; tabB] 0) -> o_cl o = Fin (9 / 10)) /\
  (exists o, In o (input_rows true [tabA; tabB] 0) /\ ~ violated_limit (fun _ => 8) o) /\
  (* the last observation: energy flux 6, model 8 above it, upper error 2 *)
  obs_term 8 (input_row true tabB 1 0) = - (1 / 2).
Proof.
  assert (RA : rect tabA) by exact ex_tab_rect. assert (WA : well_formed tabA) by exact ex_tab_wf.
  split; [|split; [|split; [|split]]].
  - unfold acceptable. split; [discriminate|]. split; [constructor; [exact RA|constructor; [exact tabB_rect|constructor]]|].
    split; [repeat constructor; cbn; lia|]. split; [constructor; [exact WA|constructor; [exact tabB_wf|constructor]]|].
    split; [intros t [ <- |[ <- |[]]]; reflexivity|].
    intros o [ <- |[ <- |[ <- |[]]]]; unfold input_row, pcol, phys; cbn; repeat split; lra.
  - intros e DE SE PE. eexists. split; [reflexivity|]. cbn [qunit vals scale dim]. split; [lra|]. split; [apply map_length|].
    split; [right; reflexivity|]. intros i Hi. unfold phys_sed, phys. cbn [is_differential dims_eqb d_diff_flux d_diff_power d_diff_energy d_diff_density Z.eqb Pos.eqb andb orb].
    rewrite (nth_map_gen _ _ _ 0) by exact Hi.
    assert (0 < nth i (vals e) 0) by (rewrite Forall_forall in PE; apply PE, nth_In, Hi).
    field. split; lra.
  - intros o [ <- |[ <- |[ <- |[]]]]; reflexivity.
  - eexists. split; [right; right; left; reflexivity|]. intros [V _]. discriminate V.
  - unfold obs_term, input_row, pcol, phys. cbn. destruct (Rlt_dec _ 8) as [|N]; [|exfalso; apply N; lra]. field.
Qed.
