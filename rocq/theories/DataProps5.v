(** Properties C159 (integration of samples of either sign) and C160 (upper limits in
    the estimate of the magnetic field). *)
From Coq Require Import Reals List ZArith Bool String Arith Permutation Sorted Lra Lia.
From Verif Require Import BremsModel.
From Verif Require Import Outcome TrapzModel TrapzSpec TrapzProofs SimplexModel UnitsModel DataModel DataSpec DataProofs DataProofs2 DataProps DataProps2 DataProps3.
Import ListNotations.
Local Open Scope R_scope.

(** ** C159 *)
Lemma sinterval_opp x1 x2 y1 y2 : sinterval x1 x2 (- y1) (- y2) = - sinterval x1 x2 y1 y2.
Proof.
  unfold sinterval. replace (- y1 * - y2) with (y1 * y2) by ring.
  destruct (Req_EM_T y1 0) as [ -> |N1]; [destruct (Req_EM_T (- 0) 0); lra|]. destruct (Req_EM_T (- y1) 0); [lra|].
  destruct (Req_EM_T y2 0) as [ -> |N2]; [destruct (Req_EM_T (- 0) 0); lra|]. destruct (Req_EM_T (- y2) 0); [lra|].
  destruct (Req_EM_T x1 x2); [lra|]. destruct (Rlt_dec (y1 * y2) 0); [ring|].
  apply raw_interval_opp; auto.
Qed.
Lemma sinterval_pos x1 x2 y1 y2 : 0 < y1 -> 0 < y2 -> sinterval x1 x2 y1 y2 = interval x1 x2 y1 y2.
Proof.
  intros A B. unfold sinterval, interval. destruct (Req_EM_T y1 0); [lra|]. destruct (Req_EM_T y2 0); [lra|].
  destruct (Req_EM_T x1 x2); [lra|]. destruct (Rlt_dec (y1 * y2) 0); [exfalso; nra|reflexivity].
Qed.
Lemma sinterval_change x1 x2 y1 y2 : 0 < x1 < x2 -> y1 * y2 < 0 -> sinterval x1 x2 y1 y2 = x1 * y1 * ln (x2 / x1).
Proof.
  intros A B. unfold sinterval. destruct (Req_EM_T y1 0); [nra|]. destruct (Req_EM_T y2 0); [nra|].
  destruct (Req_EM_T x1 x2); [lra|]. destruct (Rlt_dec (y1 * y2) 0); [reflexivity|contradiction].
Qed.
Lemma log_width x1 x2 : 0 < x1 < x2 -> 0 < x1 * ln (x2 / x1) <= x2 - x1.
Proof.
  intros A. pose proof (ln_ratio_pos x1 x2 ltac:(lra) ltac:(lra)). assert (P : 0 < x2 / x1) by (apply Rdiv_lt_0_compat; lra).
  pose proof (ln_le_minus1 _ P). split; [nra|]. apply Rle_trans with (x1 * (x2 / x1 - 1)); [nra|]. right. field. lra.
Qed.
Lemma sinterval_bounds x1 x2 y1 y2 : 0 < x1 < x2 -> ln (x2 / x1) <= 10 ^ 9 ->
  Rmin y1 y2 * (x2 - x1) <= sinterval x1 x2 y1 y2 <= Rmax y1 y2 * (x2 - x1).
Proof.
  intros A L. pose proof (log_width x1 x2 A) as W.
  assert (Z : y1 = 0 \/ y2 = 0 -> sinterval x1 x2 y1 y2 = 0).
  { intros H. unfold sinterval. destruct (Req_EM_T y1 0); auto. destruct (Req_EM_T y2 0); auto. tauto. }
  destruct (Req_EM_T y1 0) as [E1|N1].
  { rewrite Z by auto. subst y1. unfold Rmin, Rmax. destruct (Rle_dec 0 y2); split; nra. }
  destruct (Req_EM_T y2 0) as [E2|N2].
  { rewrite Z by auto. subst y2. unfold Rmin, Rmax. destruct (Rle_dec y1 0); split; nra. }
  destruct (Rlt_dec 0 y1) as [P1|P1]; destruct (Rlt_dec 0 y2) as [P2|P2].
  - rewrite sinterval_pos by auto. destruct (interval_bounds_all x1 x2 y1 y2) as [B1 B2]; auto; lra.
  - rewrite sinterval_change by (auto; nra). unfold Rmin, Rmax. destruct (Rle_dec y1 y2); [lra|]. split; nra.
  - rewrite sinterval_change by (auto; nra). unfold Rmin, Rmax. destruct (Rle_dec y1 y2); [|lra]. split; nra.
  - assert (E : sinterval x1 x2 y1 y2 = - interval x1 x2 (- y1) (- y2)).
    { rewrite <- sinterval_pos by lra. rewrite sinterval_opp. ring. }
    destruct (interval_bounds_all x1 x2 (- y1) (- y2)) as [B1 B2]; try lra. rewrite E.
    revert B1 B2. unfold Rmin, Rmax. destruct (Rle_dec (- y1) (- y2)), (Rle_dec y1 y2); intros; split; nra.
Qed.
(** Samples of any sign: the integral lies between the rectangle rules. *)
Theorem C159_rectangle_bounds_partial : forall ys xs, grid xs ->
  (forall a b, In a xs -> In b xs -> ln (b / a) <= 10 ^ 9) ->
  TrapzSpec.rect Rmin ys xs <= strapz ys xs <= TrapzSpec.rect Rmax ys xs.
Proof.
  induction ys as [|y1 ys IH]; intros xs G L; [cbn; lra|]. destruct ys as [|y2 ys]; [destruct xs as [|? [|]]; cbn; lra|].
  destruct xs as [|x1 [|x2 xs]]; [cbn; lra..|]. destruct (grid_cons2 _ _ _ G) as (G1 & G2 & G3).
  rewrite strapz_cons. specialize (IH (x2 :: xs) G3 ltac:(intros; apply L; right; assumption)).
  destruct (sinterval_bounds x1 x2 y1 y2 ltac:(lra) (L x1 x2 ltac:(cbn; auto) ltac:(cbn; auto))).
  change (TrapzSpec.rect Rmin (y1 :: y2 :: ys) (x1 :: x2 :: xs)) with (Rmin y1 y2 * (x2 - x1) + TrapzSpec.rect Rmin (y2 :: ys) (x2 :: xs)).
  change (TrapzSpec.rect Rmax (y1 :: y2 :: ys) (x1 :: x2 :: xs)) with (Rmax y1 y2 * (x2 - x1) + TrapzSpec.rect Rmax (y2 :: ys) (x2 :: xs)). lra.
Qed.
Print Assumptions C159_rectangle_bounds_partial.
(** Changing the sign of all samples changes the sign of the integral; non-negative
    samples are integrated as in C12-C16. *)
Theorem C159_sign_partial : forall ys xs,
  strapz (map Ropp ys) xs = - strapz ys xs /\ (List.Forall (fun y => 0 <= y) ys -> strapz ys xs = trapz_loglog ys xs).
Proof.
  intros ys xs. split; [|apply strapz_nonneg_eq]. revert xs. induction ys as [|y1 ys IH]; intros xs; [cbn; ring|].
  destruct ys as [|y2 ys]; [destruct xs as [|? [|]]; cbn; ring|]. destruct xs as [|x1 [|x2 xs]]; [cbn; ring..|].
  specialize (IH (x2 :: xs)). cbn [map] in *. rewrite !strapz_cons, IH, sinterval_opp. ring.
Qed.
Print Assumptions C159_sign_partial.
(** But where the samples change sign the second one is not used: a positive sample
    followed by however negative a one gives a positive integral, and the same samples
    read from the other end - on the mirrored grid of the same widths - a negative one. *)
Theorem C159_sign_change_refuted : forall x1 x2 y1 y2 y2', 0 < x1 < x2 -> 0 < y1 -> y2 < 0 -> y2' < 0 ->
  strapz [y1; y2] [x1; x2] = strapz [y1; y2'] [x1; x2] /\ 0 < strapz [y1; y2] [x1; x2] /\ strapz [y2; y1] [x1; x2] < 0.
Proof.
  intros x1 x2 y1 y2 y2' A B C D. pose proof (log_width x1 x2 A) as W. rewrite !strapz_cons. cbn [strapz].
  rewrite !sinterval_change by (auto; nra). repeat split; nra.
Qed.
Print Assumptions C159_sign_change_refuted.
Example C159_example : strapz [1; - 1000] [1; exp 1] = 1 /\ strapz [-1000; 1] [1; exp 1] = - 1000.
Proof.
  pose proof (exp_ineq1 1 ltac:(lra)). rewrite !strapz_cons. cbn [strapz]. rewrite !sinterval_change by lra.
  replace (exp 1 / 1) with (exp 1) by field. rewrite ln_exp. split; lra.
Qed.

(** ** C160 *)
(** The table without its upper-limit flags *)
Definition unflag (t : itab) : itab := mkI (cols t) (i_group t) None (i_cl t).
Definition vclear (v : vtab) : vtab :=
  mkV (v_e v) (v_f v) (v_flo v) (v_fhi v) (v_grp v) (v_elo v) (v_ehi v) (repeat false (List.length (vals (v_e v)))) (v_cl v).
Definition rclear (r : vrow) : vrow := mkR (r_e r) (r_f r) (r_flo r) (r_fhi r) (r_grp r) (r_elo r) (r_ehi r) false (r_cl r).
Lemma single_unflag t g v : dget "flux_ul" (cols t) = None -> validate_single t g = Ok v -> validate_single (unflag t) g = Ok (vclear v).
Proof.
  intros NF H. unfold validate_single in *. change (validate_column (unflag t)) with (validate_column t). change (has (unflag t)) with (has t).
  cbn [unflag i_group i_ul i_cl]. obn H e F1. rewrite ?F1. obn H f F2. rewrite ?F2. cbn [obind] in *.
  obn H fe F3. rewrite ?F3. cbn [obind] in *. obn H ee F4. rewrite ?F4. cbn [obind] in *. obn H u F5. obn H f' F6. obn H c F7. apply ok_inj in H. subst v.
  cbn [parse_ul obind]. unfold apply_flux_ul in *. cbn [unflag cols]. rewrite NF in *. apply ok_inj in F6. subst f'. cbn [obind]. rewrite F7. cbn [obind]. reflexivity.
Qed.
Section B.
Variable nu : naima_units.
Variable argsort : list R -> list nat.
Lemma dt_clear v sed : dt_sed_conversion nu (vclear v) sed = omap vclear (dt_sed_conversion nu v sed).
Proof.
  unfold dt_sed_conversion. cbn [vclear v_e v_f v_flo v_fhi v_grp v_elo v_ehi v_ul v_cl].
  destruct (sed_conversion _ _ _ _) as [us|]; [|reflexivity]. cbn [obind].
  destruct (qto _ (qmul (v_f v) _)); [|reflexivity]. destruct (qto _ (qmul (v_flo v) _)); [|reflexivity].
  destruct (qto _ (qmul (v_fhi v) _)); reflexivity.
Qed.
Lemma rows_clear v : rows_of (vclear v) = map rclear (rows_of v).
Proof.
  unfold rows_of. rewrite map_map. cbn [vclear v_e]. apply map_ext. intros i. unfold rclear. cbn [vclear v_e v_f v_flo v_fhi v_grp v_elo v_ehi v_ul v_cl r_e r_f r_flo r_fhi r_grp r_elo r_ehi r_ul r_cl].
  rewrite nth_repeat. reflexivity.
Qed.
Lemma conv_rows_clear a b rs : conv_rows a b (map rclear rs) = omap (map rclear) (conv_rows a b rs).
Proof.
  unfold conv_rows. destruct rs as [|r rs]; [reflexivity|]. cbn [map].
  destruct (conv1 (ue a) (ue b)); [|reflexivity]. destruct (conv1 (uf a) (uf b)); [|reflexivity]. destruct (conv1 (uflo a) (uflo b)); [|reflexivity].
  destruct (conv1 (ufhi a) (ufhi b)); [|reflexivity]. destruct (conv1 (uelo a) (uelo b)); [|reflexivity]. destruct (conv1 (uehi a) (uehi b)); [|reflexivity].
  cbn [obind omap map]. rewrite !map_map. reflexivity.
Qed.
Lemma append_clear cu pt sed vs : append_tables nu cu pt sed (map vclear vs) = omap (map rclear) (append_tables nu cu pt sed vs).
Proof.
  induction vs as [|v vs IH]; cbn [map append_tables]; [reflexivity|]. change (qunit (v_f (vclear v))) with (qunit (v_f v)).
  destruct (_ || _)%bool; [reflexivity|]. rewrite dt_clear. destruct (dt_sed_conversion nu v sed) as [v'|]; [|reflexivity]. cbn [omap obind].
  change (units_of (vclear v')) with (units_of v'). rewrite rows_clear, conv_rows_clear. destruct (conv_rows _ _ _) as [rs|]; [|reflexivity]. cbn [omap obind].
  rewrite IH. destruct (append_tables nu cu pt sed vs); [|reflexivity]. cbn [omap obind]. rewrite map_app. reflexivity.
Qed.
Lemma all_unflag ts : forall g vs, List.Forall (fun t => dget "flux_ul" (cols t) = None) ts -> validate_all ts g = Ok vs ->
  validate_all (map unflag ts) g = Ok (map vclear vs).
Proof.
  induction ts as [|t ts IH]; intros g vs F H; cbn [map validate_all] in *; [apply ok_inj in H; subst; reflexivity|].
  inversion F as [|? ? F1 F2]; subst. obn H v G1. obn H vs' G2. apply ok_inj in H. subst vs.
  rewrite (single_unflag _ _ _ F1 G1). cbn [obind]. rewrite (IH _ _ F2 G2). reflexivity.
Qed.
Lemma sort_clear rs : sort_rows argsort (map rclear rs) = map rclear (sort_rows argsort rs).
Proof.
  unfold sort_rows. rewrite !map_map. change (fun x => r_e (rclear x)) with r_e. apply map_ext. intros i.
  replace row0 with (rclear row0) at 1 by reflexivity. apply map_nth.
Qed.
Lemma table_unflag ts sed d : List.Forall (fun t => dget "flux_ul" (cols t) = None) ts -> validate_data_table nu argsort ts sed = Ok d ->
  validate_data_table nu argsort (map unflag ts) sed = Ok (fst d, map rclear (snd d)).
Proof.
  intros F H. unfold validate_data_table in *. obn H vs G. rewrite (all_unflag _ _ _ F G). cbn [obind].
  destruct vs as [|v vs]; cbn [map]; [discriminate|]. change (qunit (v_f (vclear v))) with (qunit (v_f v)).
  obn H v0 G2. obn H rest G3. apply ok_inj in H. subst d. rewrite dt_clear, G2. cbn [omap obind].
  change (units_of (vclear v0)) with (units_of v0). rewrite append_clear, G3. cbn [omap obind fst snd].
  rewrite rows_clear, <- map_app, sort_clear. reflexivity.
Qed.
(** Upper limits enter the estimate as if they were measured fluxes: with or without the
    flags that mark them the estimate is the same. *)
Theorem C160_limits_refuted : forall xray vhe uph B,
  List.Forall (fun t => dget "flux_ul" (cols t) = None) (xray ++ vhe) ->
  estimate_B nu argsort xray vhe uph = Ok B ->
  estimate_B nu argsort (map unflag xray) (map unflag vhe) uph = Ok B.
Proof.
  intros xray vhe uph B F H. apply Forall_app in F. destruct F as [F1 F2]. unfold estimate_B in *. obn H x G1. obn H v G2. apply ok_inj in H. subst B.
  rewrite (table_unflag _ _ _ F1 G1), (table_unflag _ _ _ F2 G2). cbn [obind]. f_equal. unfold lum. cbn [fst snd]. rewrite !map_map. reflexivity.
Qed.
End B.
Print Assumptions C160_limits_refuted.
(** a table with a flagged row and no flux_ul column is accepted *)
Definition limit_tab : itab :=
  mkI [("energy", mkQ [1; 4] (mkU 2 d_energy)); ("flux", mkQ [3; 5] (mkU 7 d_diff_flux)); ("flux_error", mkQ [1; 2] (mkU 5 d_diff_flux))]%string
      None (Some (UBool [false; true])) None.
Example C160_example : is_ok (estimate_B nu1 isort [limit_tab] [limit_tab] 1) /\ row_is_ul limit_tab 1 = true /\
  List.Forall (fun t => dget "flux_ul" (cols t) = None) ([limit_tab] ++ [limit_tab]).
Proof.
  split; [|split; [reflexivity|repeat constructor]].
  assert (R : DataSpec.rect limit_tab).
  { split; [|split].
    - cbn [limit_tab cols nrows dget String.eqb Ascii.eqb Bool.eqb]. repeat constructor; cbn; lra.
    - discriminate.
    - intros u m H. inv H. cbn. congruence. }
  assert (W : well_formed limit_tab).
  { unfold well_formed, col_has. split; [eexists; split; reflexivity|]. split; [|split; exact I].
    exists d_diff_flux. split; [eexists; split; reflexivity|]. split; [right; left; reflexivity|].
    split; [eexists; split; reflexivity|intros H; discriminate H]. }
  assert (OK1 : is_ok (validate_data_table nu1 isort [limit_tab] (Some false))).
  { apply (C52_accepted_iff_well_formed nu1 nu1_pos).
    - constructor; [exact R|constructor].
    - repeat constructor; cbn; lia.
    - split; [discriminate|]. split; [constructor; [exact W|constructor]|]. intros t t' [ <- |[]] [ <- |[]]; tauto. }
  destruct OK1 as (x & E). unfold estimate_B. rewrite E. cbn [obind]. eexists. reflexivity.
Qed.
