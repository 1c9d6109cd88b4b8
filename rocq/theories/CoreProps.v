(** Properties C38-C45, C72-C74: likelihood, priors, pre-fit, sampler set-up. *)
From Coq Require Import Reals List ZArith Bool String Ascii Arith Lra Lia Permutation Sorted.
From Verif Require Import Outcome SimplexModel SimplexProofs SimplexProps UnitsModel CoreModel.
Import ListNotations.
Local Open Scope R_scope.

Lemma sumR_app a b : sumR (a ++ b) = sumR a + sumR b.
Proof. induction a; simpl; lra. Qed.

(** ** C38 *)
(** Specification: the Gaussian misfit of one row with the upper error where the
    model is above the data and the lower error below. *)
Definition sigma_used (m : R) (r : row) : R := if Rlt_dec (flux r) m then err_hi r else err_lo r.
Definition chi2 (model : list R) (data : list row) : R :=
  sumR (map (fun p => ((fst p - flux (snd p)) / sigma_used (fst p) (snd p)) ^ 2) (combine model data)).
Definition good (data : list row) : Prop := Forall (fun r => 0 < err_lo r /\ 0 < err_hi r) data.

Lemma row_lnl_spec m r : 0 < err_lo r -> 0 < err_hi r -> row_lnl m r = - (1 / 2) * ((m - flux r) / sigma_used m r) ^ 2.
Proof.
  intros A B. unfold row_lnl, sigma_used. destruct (Rlt_dec 0 (m - flux r)), (Rlt_dec (flux r) m); try lra; field; lra.
Qed.
Lemma lnl_no_ul model data : Forall (fun r => ul r = false) data -> good data -> List.length model = List.length data ->
  lnl model data = Ok (- (1 / 2) * chi2 model data).
Proof.
  intros HU HG HL. unfold lnl. assert (EX : existsb ul data = false).
  { apply not_true_iff_false. intros E. apply existsb_exists in E. destruct E as (r & I & U). rewrite Forall_forall in HU. rewrite HU in U by auto. discriminate. }
  rewrite EX. f_equal. clear EX. revert data HU HG HL. induction model as [|m model IH]; intros [|r data] HU HG HL; simpl in HL; try lia.
  - unfold chi2. simpl. lra.
  - inversion HU; subst. inversion HG as [|? ? [G1 G2] G3]; subst. unfold chi2 in *. cbn [combine filter snd]. rewrite H1. cbn [negb map sumR fst snd].
    rewrite IH, row_lnl_spec by auto. cbn [fst snd]. lra.
Qed.
Theorem C38_asymmetric_gaussian : forall model data,
  Forall (fun r => ul r = false) data -> good data -> List.length model = List.length data ->
  exists L, lnl model data = Ok L /\ L = - (1 / 2) * chi2 model data /\ L <= 0 /\ (L = 0 <-> model = map flux data).
Proof.
  intros model data HU HG HL. exists (- (1 / 2) * chi2 model data). split; [apply lnl_no_ul; auto|]. split; auto.
  assert (P : 0 <= chi2 model data /\ (chi2 model data = 0 <-> model = map flux data)).
  { clear HU. revert data HG HL. unfold chi2. induction model as [|m model IH]; intros [|r data] HG HL; simpl in HL; try lia.
    - simpl. split; [lra|tauto].
    - inversion HG as [|? ? [G1 G2] G3]; subst. destruct (IH data G3 ltac:(lia)) as [I1 I2]. cbn [combine map sumR fst snd].
      set (S := sumR _) in *. assert (SN : sigma_used m r <> 0) by (unfold sigma_used; destruct (Rlt_dec _ _); lra).
      set (q := (m - flux r) / sigma_used m r). pose proof (pow2_ge_0 q). split; [lra|]. split.
      + intros E. assert (Q : q ^ 2 = 0) by lra. assert (q = 0) by nra. assert (m = flux r).
        { unfold q in H0. apply (f_equal (fun z => z * sigma_used m r)) in H0. unfold Rdiv in H0. rewrite Rmult_assoc, Rinv_l in H0 by auto. lra. }
        f_equal; auto. apply I2. lra.
      + intros E. injection E as E1 E2. apply I2 in E2. unfold q. rewrite E1, E2. unfold Rdiv. rewrite Rminus_diag_eq by auto. ring. }
  destruct P as [P1 P2]. split; [lra|]. rewrite <- P2. lra.
Qed.
Print Assumptions C38_asymmetric_gaussian.
Example C38_example : good [mkRow 1 (1 / 10) (2 / 10) false (9 / 10); mkRow 2 1 1 false (9 / 10)] /\
  chi2 [12 / 10; 1] [mkRow 1 (1 / 10) (2 / 10) false (9 / 10); mkRow 2 1 1 false (9 / 10)] = 2.
Proof.
  split; [repeat constructor; simpl; lra|]. unfold chi2, sigma_used. simpl.
  destruct (Rlt_dec 1 (12 / 10)); [|lra]. destruct (Rlt_dec 2 1); [lra|]. field.
Qed.

(** ** C39 *)
(** Specification: every violated upper limit adds the log of its own tail
    probability. *)
Definition ul_penalty (model : list R) (data : list row) : R :=
  sumR (map (fun p => if (ul (snd p) && violated (fst p) (snd p))%bool then ln (1 - cl (snd p)) else 0) (combine model data)).
Definition detections (model : list R) (data : list row) : R :=
  sumR (map (fun p => if ul (snd p) then 0 else - (1 / 2) * ((fst p - flux (snd p)) / sigma_used (fst p) (snd p)) ^ 2) (combine model data)).
Definition n_violated (model : list R) (data : list row) : nat :=
  List.length (filter (fun p => ul (snd p) && violated (fst p) (snd p))%bool (combine model data)).

Lemma detections_spec model : forall data, good data ->
  sumR (map (fun p => row_lnl (fst p) (snd p)) (filter (fun p => negb (ul (snd p))) (combine model data))) = detections model data.
Proof.
  unfold detections. induction model as [|m model IH]; intros [|r data] HG; try reflexivity.
  inversion HG as [|? ? [G1 G2] G3]; subst. cbn [combine filter snd map sumR fst]. destruct (ul r); cbn [negb map sumR fst snd]; rewrite IH by auto; [lra|].
  rewrite row_lnl_spec by auto. reflexivity.
Qed.

(** Proved when all rows have the same confidence level and not every row is a
    violated limit; also when no limit is violated, whatever the levels. *)
Theorem C39_common_level_partial : forall model data c, good data -> List.length model = List.length data ->
  ((forall r, In r data -> cl r = c) \/ n_violated model data = 0%nat) ->
  (n_violated model data < List.length data)%nat ->
  lnl model data = Ok (detections model data + ul_penalty model data).
Proof.
  intros model data c HG HL HC HV. unfold lnl. rewrite detections_spec by auto. fold (n_violated model data).
  assert (PE : (forall r, In r data -> cl r = c) -> ul_penalty model data = INR (n_violated model data) * ln (1 - c)).
  { clear HC HV. intros HC. unfold ul_penalty, n_violated. clear HG. revert data HL HC. induction model as [|m model IH]; intros [|r data] HL HC; simpl in HL; try lia; try (simpl; lra).
    cbn [combine map sumR filter fst snd]. rewrite IH by (auto; intros; apply HC; simpl; auto).
    destruct (ul r && violated m r)%bool; [|lra]. cbn [List.length]. rewrite S_INR. rewrite (HC r) by (simpl; auto). lra. }
  assert (PZ : n_violated model data = 0%nat -> ul_penalty model data = 0).
  { unfold ul_penalty, n_violated. clear. revert data. induction model as [|m model IH]; intros [|r data] H; try reflexivity.
    cbn [combine map sumR filter fst snd] in *. destruct (ul r && violated m r)%bool; [discriminate|]. rewrite IH by auto. lra. }
  assert (PN : existsb ul data = false -> n_violated model data = 0%nat).
  { intros E. unfold n_violated. clear - E. revert data E. induction model as [|m model IH]; intros [|r data] E; try reflexivity.
    simpl in E. apply orb_false_iff in E. destruct E as [E1 E2]. cbn [combine filter fst snd]. rewrite E1. simpl. apply IH; auto. }
  destruct (existsb ul data) eqn:E.
  - destruct (nth_error (map cl data) (n_violated model data)) as [cv|] eqn:EN.
    + f_equal. f_equal. destruct HC as [HC|HC].
      * apply nth_error_In in EN. apply in_map_iff in EN. destruct EN as (r & <- & Hr). rewrite (HC r Hr). symmetry. auto.
      * rewrite PZ, HC by auto. simpl. lra.
    + apply nth_error_None in EN. rewrite map_length in EN. lia.
  - rewrite PZ by auto. f_equal. lra.
Qed.
Print Assumptions C39_common_level_partial.
Example C39_example : let data := [mkRow 1 1 1 false (9 / 10); mkRow 1 1 1 true (9 / 10); mkRow 5 1 1 true (9 / 10)] in
  good data /\ n_violated [1; 2; 3] data = 1%nat.
Proof.
  split; [repeat constructor; simpl; lra|]. unfold n_violated, violated. simpl. destruct (Rlt_dec 1 2); [|lra]. destruct (Rlt_dec 5 3); [lra|]. reflexivity.
Qed.

(** Refuted: with upper limits of different confidence levels the level used is
    that of an unrelated row. A 99 percent limit is violated, the 50 percent level of
    a detection is charged. *)
Theorem C39_mixed_levels_refuted : exists model data L, good data /\ List.length model = List.length data /\
  n_violated model data = 1%nat /\ lnl model data = Ok L /\ L <> detections model data + ul_penalty model data.
Proof.
  exists [2; 1], [mkRow 1 1 1 true (99 / 100); mkRow 1 1 1 false (50 / 100)], (0 + ln (1 - 50 / 100)).
  assert (V : forall a b, a < b -> violated b (mkRow a 1 1 true (99 / 100)) = true) by (intros; unfold violated; simpl; destruct (Rlt_dec _ _); [auto|lra]).
  split; [repeat constructor; simpl; lra|]. split; [reflexivity|].
  assert (N : n_violated [2; 1] [mkRow 1 1 1 true (99 / 100); mkRow 1 1 1 false (50 / 100)] = 1%nat).
  { unfold n_violated. cbn [combine filter ul fst snd]. rewrite V by lra. reflexivity. }
  split; [exact N|]. split.
  - unfold lnl. fold (n_violated [2; 1] [mkRow 1 1 1 true (99 / 100); mkRow 1 1 1 false (50 / 100)]). rewrite N. cbn [existsb ul orb nth_error map cl].
    f_equal. cbn [combine filter ul snd negb map sumR fst]. unfold row_lnl. cbn [flux err_lo err_hi]. change (INR 1) with 1.
    destruct (Rlt_dec 0 (1 - 1)); [lra|]. field_simplify. lra.
  - unfold detections, ul_penalty. cbn [combine map ul snd fst sumR cl andb]. rewrite V by lra. cbn [flux].
    assert (Z : forall s : R, (1 - 1) / s = 0) by (intros; unfold Rdiv; ring). rewrite Z.
    assert (ln (1 - 99 / 100) < ln (1 - 50 / 100)) by (apply ln_increasing; lra). simpl. lra.
Qed.
Print Assumptions C39_mixed_levels_refuted.

(** Refuted: a table made only of upper limits, all violated, makes the
    likelihood fail. *)
Theorem C39_all_violated_refuted : forall model data, data <> [] -> List.length model = List.length data ->
  Forall (fun p => ul (snd p) = true /\ flux (snd p) < fst p) (combine model data) ->
  lnl model data = Err "IndexError".
Proof.
  intros model data NE HL HF.
  assert (K : n_violated model data = List.length data /\ existsb ul data = true).
  { unfold n_violated. revert data NE HL HF. induction model as [|m model IH]; intros [|r data] NE HL HF; simpl in HL; try lia; try congruence.
    inversion HF as [|? ? [F1 F2] F3]; subst. cbn [fst snd] in *. cbn [combine filter fst snd existsb].
    rewrite F1. unfold violated at 1. destruct (Rlt_dec _ _); [|lra]. cbn [andb List.length]. split; [|reflexivity].
    destruct data as [|r' data]; [destruct model; reflexivity|]. destruct (IH (r' :: data)) as [I _]; auto; try discriminate. }
  destruct K as [K1 K2]. unfold lnl. fold (n_violated model data). rewrite K1, K2.
  replace (nth_error (map cl data) (List.length data)) with (@None R); auto.
  symmetry. apply nth_error_None. rewrite map_length. lia.
Qed.
Print Assumptions C39_all_violated_refuted.

(** ** C40 *)
Section C40.
  Context {pars mout : Type}.
  Variable like : mout -> outcome R.

  (** The value: minus infinity for excluded parameters, else prior plus likelihood
      (0 without a prior), provided the model function returns. *)
  Theorem C40_value_partial : forall (modelfunc : pars -> outcome mout) prior p m, modelfunc p = Ok m ->
    (forall g, prior = Some g -> g p = NInf -> snd (lnprob like modelfunc prior p) = Ok NInf) /\
    (forall g a l, prior = Some g -> g p = Fin a -> like m = Ok l -> snd (lnprob like modelfunc prior p) = Ok (Fin (l + a))) /\
    (forall l, prior = None -> like m = Ok l -> snd (lnprob like modelfunc prior p) = Ok (Fin l)).
  Proof.
    intros modelfunc prior p m HM. split; [|split].
    - intros g -> G. unfold lnprob. rewrite HM, G. reflexivity.
    - intros g a l -> G L. unfold lnprob. rewrite HM, G. simpl. rewrite L. reflexivity.
    - intros l -> L. unfold lnprob. rewrite HM. simpl. rewrite L. simpl. do 2 f_equal. lra.
  Qed.

  (** Refuted: the model function is called for excluded parameters too, once, and its
      exception is the result. *)
  Theorem C40_excluded_evaluated_refuted : forall (modelfunc : pars -> outcome mout) g p e,
    g p = NInf -> modelfunc p = Err e ->
    fst (lnprob like modelfunc (Some g) p) = [p] /\ snd (lnprob like modelfunc (Some g) p) = Err e.
  Proof. intros modelfunc g p e G M. unfold lnprob. rewrite M. auto. Qed.
End C40.
Print Assumptions C40_value_partial.
Print Assumptions C40_excluded_evaluated_refuted.
(** e.g. a prior excluding negative values guarding a model that raises there *)
Example C40_example : (fun x : R => uniform_prior x 0 1) (-1) = NInf.
Proof. unfold uniform_prior. destruct (Rle_dec 0 (-1)); [lra|reflexivity]. Qed.

(** ** C41 *)
Theorem C41_uniform : forall v a b, (a <= v <= b -> uniform_prior v a b = Fin 0) /\ (v < a \/ b < v -> uniform_prior v a b = NInf).
Proof. intros. unfold uniform_prior. split; intros H; destruct (Rle_dec a v), (Rle_dec v b); auto; lra. Qed.
(** log-density of a Gaussian *)
Definition gauss_ln (v mean sigma : R) : R := - (1 / 2) * ln (2 * PI * sigma ^ 2) - (v - mean) ^ 2 / (2 * sigma ^ 2).
Definition fin (a : ev) : R := match a with Fin r => r | _ => 0 end.
(** Equal to the log of a Gaussian up to a constant exactly when sigma = 1. *)
Theorem C129_normal_refuted : forall mean sigma, 0 < sigma ->
  ((forall v w, fin (normal_prior v mean sigma) - fin (normal_prior w mean sigma) = gauss_ln v mean sigma - gauss_ln w mean sigma)
   <-> sigma = 1).
Proof.
  intros mean sigma HS. unfold normal_prior, gauss_ln, fin. split.
  - intros H. specialize (H (mean + 1) mean). replace (mean + 1 - mean) with 1 in H by lra. replace (mean - mean) with 0 in H by lra.
    assert (E : 1 / (2 * sigma) = 1 / (2 * sigma ^ 2)).
    { replace (0 ^ 2 / (2 * sigma)) with 0 in H by (field; lra). replace (0 ^ 2 / (2 * sigma ^ 2)) with 0 in H by (field; nra).
      replace (1 ^ 2) with 1 in H by ring. lra. }
    apply (f_equal (fun z => z * (2 * sigma ^ 2))) in E. field_simplify in E; lra.
  - intros -> v w. replace (1 ^ 2) with 1 by ring. lra.
Qed.
(** The constant is not that of a normalised density either, whatever sigma: at the
    mean the prior is too small by exactly PI sigma - ln (2 PI sigma^2) / 2 > 0. *)
Theorem C129_normalisation_refuted : forall mean sigma, 0 < sigma ->
  gauss_ln mean mean sigma - fin (normal_prior mean mean sigma) = PI * sigma - ln (2 * PI * sigma ^ 2) / 2 /\
  0 < PI * sigma - ln (2 * PI * sigma ^ 2) / 2.
Proof.
  intros mean sigma HS. pose proof PI_RGT_0 as P. split.
  - unfold normal_prior, gauss_ln, fin. field. lra.
  - assert (P1 : 0 < PI * sigma) by (apply Rmult_lt_0_compat; lra).
    assert (L : ln (2 * PI * sigma ^ 2) < 2 * (PI * sigma)); [|lra].
    assert (Q : 0 < 2 * PI * sigma ^ 2) by (apply Rmult_lt_0_compat; [lra|apply pow_lt, HS]).
    rewrite <- (ln_exp (2 * (PI * sigma))). apply ln_increasing; [exact Q|].
    replace (2 * (PI * sigma)) with (PI * sigma + PI * sigma) by ring. rewrite exp_plus.
    pose proof (exp_ineq1 (PI * sigma) ltac:(lra)) as E.
    assert (P3 : 2 <= PI). { pose proof PI2_3_2. unfold PI2 in *. lra. }
    assert (A : (1 + PI * sigma) * (1 + PI * sigma) < exp (PI * sigma) * exp (PI * sigma)) by (apply Rmult_gt_0_lt_compat; lra).
    assert (B : 2 * PI * sigma ^ 2 <= PI * sigma * (PI * sigma)). { replace (PI * sigma * (PI * sigma)) with (PI * PI * sigma ^ 2) by ring. apply Rmult_le_compat_r; [apply pow_le; lra|nra]. }
    nra.
Qed.
Print Assumptions C129_normalisation_refuted.
(** log_uniform_prior: support as documented; the value is 1/v, not -ln v plus a
    constant: refuted at every pair of points 0 < v, 2v in the support. *)
Theorem C129_log_uniform_refuted : forall v umin, 0 < v -> umin <= v ->
  fin (log_uniform_prior (2 * v) umin None) - fin (log_uniform_prior v umin None) = - (1 / (2 * v)) /\
  (v <> 1 / (2 * ln 2) -> fin (log_uniform_prior (2 * v) umin None) - fin (log_uniform_prior v umin None) <> - ln (2 * v) - - ln v).
Proof.
  intros v umin HV HU. unfold log_uniform_prior. destruct (Rlt_dec 0 (2 * v)); [|lra]. destruct (Rlt_dec 0 v); [|lra].
  destruct (Rle_dec umin (2 * v)); [|lra]. destruct (Rle_dec umin v); [|lra]. cbn [fin].
  assert (E : 1 / (2 * v) - 1 / v = - (1 / (2 * v))) by (field; lra). split; auto.
  rewrite E. rewrite ln_mult by lra. intros N C. apply N.
  assert (L2 : 0 < ln 2) by (rewrite <- ln_1; apply ln_increasing; lra). assert (Q : 1 / (2 * v) = ln 2) by lra.
  rewrite <- Q. field. lra.
Qed.
Theorem C41_log_uniform_support : forall v umin m,
  let inside := 0 < v /\ umin <= v /\ (forall umax, m = Some umax -> v <= umax) in
  (~ inside -> log_uniform_prior v umin m = NInf) /\ (inside -> log_uniform_prior v umin m = Fin (1 / v)).
Proof.
  intros v umin m inside. unfold log_uniform_prior, inside. destruct (Rlt_dec 0 v), (Rle_dec umin v); try (split; [reflexivity|intros (? & ? & _); contradiction]).
  destruct m as [x|]; [destruct (Rle_dec v x)|]; (split; [intros N|intros H]); eauto.
  - exfalso. apply N. repeat split; auto. intros y Y. injection Y as <-. assumption.
  - exfalso. destruct H as (_ & _ & H). specialize (H x eq_refl). contradiction.
  - exfalso. apply N. repeat split; auto. discriminate.
Qed.
Print Assumptions C41_uniform.
Print Assumptions C129_normal_refuted.
Print Assumptions C129_log_uniform_refuted.
Print Assumptions C41_log_uniform_support.

(** ** C42 *)
(** Physical meaning of a table entry: the SED value in the reference system. *)
Definition phys_sed (d : dims) (sc v e : R) : R := if is_differential d then v * sc * e ^ 2 else v * sc.
Definition scale_row (k : R) (r : row) : row := mkRow (k * flux r) (k * err_lo r) (k * err_hi r) (ul r) (cl r).
Definition flux_like (d : dims) : Prop := d = d_flux \/ d = d_diff_flux.
Definition power_like (d : dims) : Prop := d = d_power \/ d = d_diff_power.

Lemma row_lnl_scale k m r : 0 < k -> 0 < err_lo r -> 0 < err_hi r -> row_lnl (k * m) (scale_row k r) = row_lnl m r.
Proof.
  intros K A B. unfold row_lnl, scale_row. cbn [flux err_lo err_hi].
  destruct (Rlt_dec 0 (m - flux r)), (Rlt_dec 0 (k * m - k * flux r)); try (exfalso; nra); field; lra.
Qed.
Definition srows (ks : list R) (data : list row) : list row := map (fun p => scale_row (fst p) (snd p)) (combine ks data).
Lemma lnl_scale ks : forall model data, Forall (fun k => 0 < k) ks -> good data ->
  List.length ks = List.length data -> List.length model = List.length data ->
  lnl (zipw Rmult ks model) (srows ks data) = lnl model data.
Proof.
  intros model data HK HG L1 L2. unfold lnl.
  assert (E1 : existsb ul (srows ks data) = existsb ul data).
  { clear - L1. revert data L1. induction ks as [|k ks IH]; intros [|r data] L1; simpl in *; try lia; auto. f_equal. apply IH. lia. }
  assert (E2 : map cl (srows ks data) = map cl data).
  { clear - L1. revert data L1. induction ks as [|k ks IH]; intros [|r data] L1; simpl in *; try lia; auto. f_equal. apply IH. lia. }
  assert (E3 : sumR (map (fun p => row_lnl (fst p) (snd p)) (filter (fun p => negb (ul (snd p))) (combine (zipw Rmult ks model) (srows ks data)))) =
    sumR (map (fun p => row_lnl (fst p) (snd p)) (filter (fun p => negb (ul (snd p))) (combine model data))) /\
    List.length (filter (fun p => ul (snd p) && violated (fst p) (snd p))%bool (combine (zipw Rmult ks model) (srows ks data))) =
    List.length (filter (fun p => ul (snd p) && violated (fst p) (snd p))%bool (combine model data))).
  { clear E1 E2. revert model data HK HG L1 L2. induction ks as [|k ks IH]; intros [|m model] [|r data] HK HG L1 L2; simpl in L1, L2; try lia; auto.
    inversion HK; subst. inversion HG as [|? ? [G1 G2] G3]; subst. destruct (IH model data) as [I1 I2]; auto.
    unfold zipw, srows in *. cbn [combine map filter fst snd]. change (ul (scale_row k r)) with (ul r). split.
    - destruct (ul r); cbn [negb map sumR fst snd]; auto. rewrite row_lnl_scale by auto. rewrite I1. reflexivity.
    - destruct (ul r); cbn [andb]; auto.
      assert (V : violated (k * m) (scale_row k r) = violated m r).
      { unfold violated. cbn [flux scale_row]. destruct (Rlt_dec (k * flux r) (k * m)), (Rlt_dec (flux r) m); auto; exfalso; nra. }
      rewrite V. destruct (violated m r); cbn [List.length]; auto. }
  destruct E3 as [E3 E4]. rewrite E1, E2, E3, E4. reflexivity.
Qed.

Lemma zip_conv k g h s (q : R -> R) : forall (m e : list R), List.length m = List.length e -> Forall (fun x => 0 < x) e ->
  (forall v x, 0 < x -> k x * g (h v (q x)) = s v x) ->
  zipw Rmult (map k e) (map g (zipw h m (map q e))) = zipw s m e.
Proof.
  induction m as [|v m IH]; intros [|x e] L P H; simpl in L; try lia; auto. inversion P; subst.
  unfold zipw in *. cbn [map combine fst snd]. f_equal; auto.
Qed.
Lemma zip_conv1 k g s : forall (m e : list R), List.length m = List.length e -> Forall (fun x => 0 < x) e ->
  (forall v x, 0 < x -> k x * g v = s v x) ->
  zipw Rmult (map k e) (map g m) = zipw s m e.
Proof.
  induction m as [|v m IH]; intros [|x e] L P H; simpl in L; try lia; auto. inversion P; subst.
  unfold zipw in *. cbn [map combine fst snd]. f_equal; auto.
Qed.

Lemma dims_eqb_spec a b : dims_eqb a b = true <-> a = b.
Proof.
  destruct a as [[a1 a2] a3], b as [[b1 b2] b3]. simpl. rewrite !andb_true_iff, !Z.eqb_eq. split; [intros [[-> ->] ->]; auto|intros E; injection E as -> -> ->; auto].
Qed.
Lemma dims_eqb_neq a b : a <> b -> dims_eqb a b = false.
Proof. intros N. apply not_true_iff_false. intros E. apply dims_eqb_spec in E. auto. Qed.

(** For matching physical types the result only depends on physical SED values;
    otherwise it is an error. *)
Theorem C42_units : forall nu model data,
  0 < scale (qunit model) -> 0 < scale (t_unit data) ->
  dim (qunit (t_energy data)) = d_energy -> 0 < scale (qunit (t_energy data)) -> Forall (fun e => 0 < e) (vals (t_energy data)) ->
  good (t_rows data) ->
  List.length (vals (t_energy data)) = List.length (t_rows data) -> List.length (vals model) = List.length (t_rows data) ->
  flux_like (dim (t_unit data)) \/ power_like (dim (t_unit data)) ->
  let dm := dim (qunit model) in let dd := dim (t_unit data) in
  let es := map (Rmult (scale (qunit (t_energy data)))) (vals (t_energy data)) in   (* energies in the reference system *)
  ((flux_like dm /\ flux_like dd) \/ (power_like dm /\ power_like dd) ->
     lnprobmodel nu model data =
     lnl (zipw (phys_sed dm (scale (qunit model))) (vals model) es)
         (srows (map (phys_sed dd (scale (t_unit data)) 1) es) (t_rows data))) /\
  (~ ((flux_like dm /\ flux_like dd) \/ (power_like dm /\ power_like dd)) -> exists e, lnprobmodel nu model data = Err e).
Proof.
  intros nu [mv [sm dm]] [[ev [se de]] rows [sd dd]]. cbn [qunit scale dim t_energy t_rows t_unit vals].
  intros HM HD -> HE PE HG L1 L2 HDD. cbv zeta. split.
  - intros HC.
    set (es := map (Rmult se) ev). set (ks := map (phys_sed dd sd 1) es).
    assert (PK : Forall (fun k => 0 < k) ks).
    { unfold ks, es. rewrite map_map, Forall_map. eapply Forall_impl; [|exact PE]. intros x Hx. cbv beta in *. unfold phys_sed.
      assert (0 < se * x) by nra. destruct (is_differential dd); [|lra]. assert (0 < (se * x) ^ 2) by nra. nra. }
    assert (LK : List.length ks = List.length rows) by (unfold ks, es; rewrite !map_length; auto).
    assert (Kx : ks = map (fun x => phys_sed dd sd 1 (se * x)) ev) by (unfold ks, es; apply map_map).
    assert (Sx : zipw (phys_sed dm sm) mv es = zipw (fun v x => phys_sed dm sm v (se * x)) mv ev).
    { unfold es, zipw. assert (Q : forall a b, map (fun p => phys_sed dm sm (fst p) (snd p)) (combine a (map (Rmult se) b)) =
        map (fun p => phys_sed dm sm (fst p) (se * snd p)) (combine a b)); [|apply Q].
      induction a as [|a0 a IH]; intros [|b0 b]; simpl; auto. f_equal. apply IH. }
    rewrite Sx. unfold lnprobmodel. cbn [qunit scale dim t_energy t_rows t_unit vals].
    assert (PQ : forall x, 0 < x -> 0 < se * x) by (intros; nra).
    assert (LM : List.length mv = List.length ev) by lia.
    destruct HC as [[[-> | ->] [-> | ->]]|[[-> | ->] [-> | ->]]];
      unfold is_sed_type; cbn [dims_eqb d_flux d_diff_flux d_power d_diff_power Z.eqb Pos.eqb andb orb Bool.eqb];
      unfold sed_conversion; cbn [dim qunit scale vals is_integral is_differential dims_eqb d_flux d_diff_flux d_power d_diff_power d_energy d_diff_energy d_diff_density Z.eqb Pos.eqb andb orb negb obind snd qmul umul dmul dpow Z.mul Z.add Pos.mul Z.opp Z.pos_sub qto Pos.succ];
      unfold qto, qmul, umul; cbn [dim qunit scale vals dmul dims_eqb d_energy d_flux d_diff_flux d_power d_diff_power Z.add Z.mul Z.pos_sub Pos.pred_double Pos.mul Z.opp Z.eqb Pos.eqb andb obind vals].
    all: match goal with |- lnl ?m ?rw = _ => rewrite <- (lnl_scale ks m rw) by (auto; rewrite ?map_length; unfold zipw; rewrite ?map_length, ?combine_length, ?map_length; lia) end.
    all: f_equal; rewrite Kx.
    all: first [ apply zip_conv1; auto; intros v x Hx | apply zip_conv; auto; intros v x Hx ].
    all: specialize (PQ x Hx); unfold phys_sed, is_differential; cbn [dims_eqb d_flux d_diff_flux d_power d_diff_power d_diff_energy d_diff_density Z.eqb Pos.eqb andb orb]; field; repeat split; lra.
  - intros HN. unfold lnprobmodel. cbn [qunit scale dim t_energy t_rows t_unit vals].
    assert (QT : forall u q, dim (qunit q) <> dim u -> qto u q = Err "UnitConversionError").
    { intros u q H. unfold qto. rewrite dims_eqb_neq by auto. reflexivity. }
    destruct (Bool.eqb (is_sed_type dm) (is_sed_type dd)) eqn:EB.
    + rewrite QT; [cbn [obind]; eauto|]. cbn [qunit dim]. intros ->. apply HN. destruct HDD; auto.
    + destruct (sed_conversion nu (mkQ ev (mkU se d_energy)) (mkU sm dm) (is_sed_type dd)) as [[fu sf]|e] eqn:ES; [|cbn [obind]; eauto].
      cbn [obind snd]. rewrite QT; [cbn [obind]; eauto|]. cbn [qunit dim qmul umul]. intros C. apply HN.
      unfold sed_conversion in ES. cbn [dim qunit scale vals] in ES.
      assert (DS : dims_eqb dm d_flux = true \/ dims_eqb dm d_power = true \/ dims_eqb dm d_energy = true \/
                   dims_eqb dm d_diff_flux = true \/ dims_eqb dm d_diff_power = true \/ dims_eqb dm d_diff_energy = true \/
                   dims_eqb dm d_diff_density = true).
      { destruct (is_integral dm) eqn:I1.
        - unfold is_integral in I1. rewrite !orb_true_iff in I1. tauto.
        - destruct (is_differential dm) eqn:I2.
          + unfold is_differential in I2. rewrite !orb_true_iff in I2. tauto.
          + destruct (is_sed_type dd); simpl in ES; discriminate. }
      rewrite !dims_eqb_spec in DS.
      destruct HDD as [[-> | ->]|[-> | ->]]; destruct DS as [->|[->|[->|[->|[->|[->| ->]]]]]];
        cbn in EB; try discriminate; cbn in ES; injection ES as <- <-; cbn in C; try discriminate C;
        unfold flux_like, power_like; tauto.
Qed.
Print Assumptions C42_units.
(** a case: TeV data in 1/(TeV cm2 s), model as an SED in erg/(cm2 s) *)
Example C42_example :
  let data := mkT (mkQ [1; 2] (mkU (16 / 10) d_energy)) [mkRow 1 1 1 false (9 / 10); mkRow 1 1 1 true (9 / 10)] (mkU (10 / 16) d_diff_flux) in
  let model := mkQ [3; 4] (mkU 1 d_flux) in
  Forall (fun e => 0 < e) (vals (t_energy data)) /\ good (t_rows data) /\
  flux_like (dim (qunit model)) /\ flux_like (dim (t_unit data)).
Proof. simpl. unfold good, flux_like. repeat split; auto; repeat constructor; simpl; lra. Qed.
