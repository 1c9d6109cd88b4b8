(** Properties C33-C37, C63, C64: spectral models (models.py). *)
From Coq Require Import Reals List Lra Lia String.
From Coquelicot Require Import Coquelicot.
From Verif Require Import Outcome SpectralModel SpectralProofs.
Import ListNotations.
Local Open Scope R_scope.

(** An energy of [v] units of [s] eV. *)
Definition energy (v s : R) : quantity := mkQ v (Some s).
Definition TeV (v : R) : quantity := energy v (10 ^ 12).

(** ** C33 *)
(** Below the break the model is the power law of index alpha_1; from the break
    on it is the power law of index alpha_2 starting from the value of the
    former at the break. *)
Theorem C33_branches : forall A e0 eb a1 a2 e f fb,
  0 < q_value e0 -> 0 < q_value eb ->
  call (BrokenPowerLaw A e0 eb a1 a2) e = Ok f ->
  call (PowerLaw A e0 a1) eb = Ok fb ->
  forall s0 sb s, q_unit e0 = Some s0 -> q_unit eb = Some sb -> q_unit e = Some s ->
  0 < s0 -> 0 < sb -> 0 < s ->
  (q_value e * s < q_value eb * sb -> call (PowerLaw A e0 a1) e = Ok f) /\
  (q_value eb * sb <= q_value e * s ->
     f = fb * Rpower ((q_value e * s) / (q_value eb * sb)) (- a2)).
Proof.
  intros A [v0 u0] [vb ub] a1 a2 [v u] f fb P0 Pb HF HB s0 sb s U0 Ub U S0 Sb S; simpl in *; subst.
  unfold call in HF, HB |- *; simpl in *. injection HF as <-. injection HB as <-. split; intros HL.
  - f_equal. symmetry. apply bpl_lower; auto.
  - apply bpl_upper; auto; apply Rmult_lt_0_compat; auto.
Qed.
Print Assumptions C33_branches.

(** Continuity at every positive energy, the break included. *)
Theorem C33_continuous : forall A e0 eb a1 a2 e, 0 < e0 -> 0 < eb -> 0 < e ->
  continuous (fun x => broken_power_law x A e0 eb a1 a2) e /\
  (forall ec b, 0 < ec -> continuous (fun x => cutoff_broken_power_law x A e0 eb a1 a2 ec b) e).
Proof.
  intros. split; [apply cont_bpl; auto|]. intros. apply cont_ecbpl; auto.
Qed.
Print Assumptions C33_continuous.

Example C33_example : exists f, call (BrokenPowerLaw 2 (TeV 1) (TeV 3) 2 3) (energy 5 (10 ^ 12)) = Ok f.
Proof. eexists. reflexivity. Qed.

(** ** C34 *)
Section C34.
  Variables (A e0 : R).
  Hypothesis (HA : 0 < A) (H0 : 0 < e0).
  Let ref := energy e0 1.   (* in eV *)
  Let at_ (v : R) := energy v 1.

  (** value at the reference energy *)
  Theorem C34_normalisation :
    (forall a, call (PowerLaw A ref a) ref = Ok A) /\
    (forall a b, call (LogParabola A ref a b) ref = Ok A) /\
    (forall a ec b, call (ExponentialCutoffPowerLaw A ref a (at_ ec) b) ref = Ok (A * exp (- Rpower (e0 / ec) b))) /\
    (forall eb a1 a2, e0 < eb -> call (BrokenPowerLaw A ref (at_ eb) a1 a2) ref = Ok A) /\
    (forall eb a1 a2 ec b, e0 < eb ->
       call (ExponentialCutoffBrokenPowerLaw A ref (at_ eb) a1 a2 (at_ ec) b) ref = Ok (A * exp (- Rpower (e0 / ec) b))) /\
    (** with the reference energy at or above the break it is not the amplitude *)
    (forall eb a1 a2, eb <= e0 ->
       call (BrokenPowerLaw A ref (at_ eb) a1 a2) ref = Ok (A * Rpower (eb / e0) (a2 - a1))).
  Proof.
    assert (E : e0 * 1 / (e0 * 1) = 1) by (field; lra).
    repeat split; intros; unfold call, ref, at_, energy, to_eV; simpl; f_equal.
    - unfold power_law. rewrite E, Rpower_base1. ring.
    - unfold log_parabola. rewrite E, Rpower_base1. ring.
    - rewrite ecpl_factor. unfold power_law. rewrite E, Rpower_base1, !Rmult_1_r. reflexivity.
    - rewrite bpl_lower by lra. unfold power_law. rewrite E, Rpower_base1. ring.
    - rewrite ecbpl_factor, bpl_lower by lra. unfold power_law. rewrite E, Rpower_base1, !Rmult_1_r. reflexivity.
    - unfold broken_power_law. destruct (Rlt_dec _ _); [lra|]. rewrite E, Rpower_base1, !Rmult_1_r. reflexivity.
  Qed.

  (** special cases *)
  Theorem C34_special_cases : forall e,
    (forall a, call (LogParabola A ref a 0) (at_ e) = call (PowerLaw A ref a) (at_ e)) /\
    (forall eb a, 0 < eb -> call (BrokenPowerLaw A ref (at_ eb) a a) (at_ e) = call (PowerLaw A ref a) (at_ e)) /\
    (forall a ec, 0 < ec -> 0 < e -> omap (Rmult (exp (-1))) (call (PowerLaw A ref a) (at_ e))
                  = call (ExponentialCutoffPowerLaw A ref a (at_ ec) 0) (at_ e)).
  Proof.
    intros e. repeat split; intros; unfold call, ref, at_, energy, to_eV; simpl; f_equal.
    - unfold log_parabola, power_law. f_equal. f_equal. ring.
    - unfold broken_power_law, power_law. rewrite Rminus_eq_0, Rpower_O by (rewrite !Rmult_1_r; apply div_pos; auto).
      destruct (Rlt_dec _ _); ring.
    - rewrite ecpl_factor, Rpower_O by (rewrite !Rmult_1_r; apply div_pos; auto).
      replace (- (1)) with (-1) by ring. ring.
  Qed.

  (** A cutoff multiplies the uncut spectrum by a factor strictly between 0 and 1
      which is 1/e at the cutoff energy; all models are positive. *)
  Theorem C34_cutoff_and_sign : forall e a a1 a2 b eb ec, 0 < ec ->
    let pl := power_law e A e0 a in
    let bpl := broken_power_law e A e0 eb a1 a2 in
    0 < pl /\ 0 < bpl /\ 0 < log_parabola e A e0 a b /\
    0 < cutoff_power_law e A e0 a ec b < pl /\
    0 < cutoff_broken_power_law e A e0 eb a1 a2 ec b < bpl /\
    cutoff_power_law ec A e0 a ec b = power_law ec A e0 a * exp (-1).
  Proof.
    intros e a a1 a2 b eb ec Hc pl bpl.
    pose proof (pl_pos e A e0 a HA). pose proof (bpl_pos e A e0 eb a1 a2 HA). pose proof (cut_bounds (e / ec) b).
    unfold pl, bpl. repeat split; auto using lp_pos.
    - rewrite ecpl_factor. nra.
    - rewrite ecpl_factor. nra.
    - rewrite ecbpl_factor. nra.
    - rewrite ecbpl_factor. nra.
    - rewrite ecpl_factor. replace (ec / ec) with 1 by (field; lra). now rewrite Rpower_base1.
  Qed.

  (** The local spectral index d ln f / d ln E is -alpha for the power law and
      -alpha - 2 beta ln(E/E0) for the log parabola. *)
  Theorem C34_local_index : forall l a b,
    is_derive (fun l => ln (power_law (exp l) A e0 a)) l (- a) /\
    is_derive (fun l => ln (log_parabola (exp l) A e0 a b)) l (- a - 2 * b * (l - ln e0)).
  Proof. intros. split; [apply pl_index|apply lp_index]; auto. Qed.
End C34.
Print Assumptions C34_normalisation.
Print Assumptions C34_special_cases.
Print Assumptions C34_cutoff_and_sign.
Print Assumptions C34_local_index.

Example C34_example : call (LogParabola 3 (energy 1 1) 2 5) (energy 1 1) = Ok 3.
Proof. apply C34_normalisation; lra. Qed.

(** ** C35 *)
(** [requnit f m]: the same model with the unit of every energy parameter
    re-expressed by [f]. *)
Definition requnit (f : quantity -> quantity) (m : spectral) : spectral :=
  match m with
  | PowerLaw A e0 a => PowerLaw A (f e0) a
  | ExponentialCutoffPowerLaw A e0 a ec b => ExponentialCutoffPowerLaw A (f e0) a (f ec) b
  | BrokenPowerLaw A e0 eb a1 a2 => BrokenPowerLaw A (f e0) (f eb) a1 a2
  | ExponentialCutoffBrokenPowerLaw A e0 eb a1 a2 ec b => ExponentialCutoffBrokenPowerLaw A (f e0) (f eb) a1 a2 (f ec) b
  | LogParabola A e0 a b => LogParabola A (f e0) a b
  end.
Definition energies (m : spectral) : list quantity :=
  match m with
  | PowerLaw _ e0 _ | LogParabola _ e0 _ _ => [e0]
  | ExponentialCutoffPowerLaw _ e0 _ ec _ => [e0; ec]
  | BrokenPowerLaw _ e0 eb _ _ => [e0; eb]
  | ExponentialCutoffBrokenPowerLaw _ e0 eb _ _ ec _ => [e0; eb; ec]
  end.

(** Writing each energy in any other units (different for each one if desired)
    gives the same flux. *)
Theorem C35_units_of_arguments : forall m f e e',
  (forall q, In q (e' :: energies m) -> q_value (f q) * match q_unit (f q) with Some s => s | None => 0 end
                          = q_value q * match q_unit q with Some s => s | None => 0 end) ->
  (forall q, In q (e' :: energies m) -> (exists s, q_unit q = Some s) /\ (exists s, q_unit (f q) = Some s)) ->
  e = f e' ->
  call (requnit f m) e = call m e'.
Proof.
  intros m f e e' HV HU ->.
  assert (HT : forall q, In q (e' :: energies m) -> to_eV (f q) = to_eV q).
  { intros q Hq. destruct (HU q Hq) as [[s Hs] [s' Hs']]. specialize (HV q Hq).
    unfold to_eV. rewrite Hs, Hs' in *. now f_equal. }
  assert (HE : forall (g : R -> outcome R), obind (validate_ene (f e')) (fun e => obind (to_eV e) g)
                    = obind (validate_ene e') (fun e => obind (to_eV e) g)).
  { intros g. destruct (HU e' (or_introl eq_refl)) as [[s Hs] [s' Hs']]. unfold validate_ene. rewrite Hs, Hs'. simpl.
    now rewrite (HT e' (or_introl eq_refl)). }
  unfold call. rewrite HE. destruct m; simpl in HT |- *;
    repeat match goal with |- context [to_eV (f ?q)] => rewrite (HT q) by tauto end; reflexivity.
Qed.
Print Assumptions C35_units_of_arguments.

(** The base unit (eV) in which the code evaluates is irrelevant: had every
    energy been converted to another unit (k per eV) the flux would be equal. *)
Theorem C35_base_unit_irrelevant : forall m k e, 0 < k ->
  List.Forall (fun q => exists s, q_unit q = Some s /\ 0 < q_value q * s) (energies m) ->
  call (requnit (fun q => mkQ (q_value q) (option_map (Rmult k) (q_unit q))) m)
       (mkQ (q_value e) (option_map (Rmult k) (q_unit e))) = call m e.
Proof.
  intros m k [v u] Hk HF. destruct u as [s|]; [|destruct m; reflexivity].
  assert (C : forall v s, v * (k * s) = k * (v * s)) by (intros; ring).
  destruct m; simpl in HF;
  repeat match goal with
  | H : List.Forall _ (_ :: _) |- _ => inversion H; subst; clear H
  | H : exists s, q_unit ?q = Some s /\ _ |- _ => destruct q as [? ?]; simpl in H; destruct H as (? & -> & ?)
  end; unfold call, to_eV; simpl; f_equal; rewrite !C.
  - apply pl_scale; auto.
  - apply ecpl_scale; auto.
  - apply bpl_scale; auto.
  - apply ecbpl_scale; auto.
  - apply lp_scale; auto.
Qed.
Print Assumptions C35_base_unit_irrelevant.

(** Non-energy arguments are refused, never silently converted. *)
Theorem C35_wrong_dimension_rejected : forall m v, call m (mkQ v None) = Err "TypeError".
Proof. intros [] v; reflexivity. Qed.
Print Assumptions C35_wrong_dimension_rejected.

Example C35_example : let f q := match q_unit q with Some s => mkQ (q_value q * s) (Some 1) | None => q end in
  call (requnit f (PowerLaw 2 (TeV 1) 2)) (f (TeV 5)) = call (PowerLaw 2 (TeV 1) 2) (TeV 5).
Proof.
  intros f. apply (C35_units_of_arguments _ f (f (TeV 5)) (TeV 5)); auto.
  - intros q [<-|[<-|[]]]; simpl; ring.
  - intros q [<-|[<-|[]]]; simpl; eauto.
Qed.

(** ** C36 *)
(** For any interpolation routine that passes through its nodes: *)
Theorem C36_table_model : forall cubic energy values A,
  (forall x y, In (x, y) (table_nodes energy values) -> cubic (table_nodes energy values) x = y) ->
  List.length energy = List.length values -> List.Forall (fun x => 0 < x) energy -> List.Forall (fun x => 0 < x) values ->
  (* tabulated points are reproduced *)
  (forall i e v, nth_error energy i = Some e -> nth_error values i = Some v -> table_call cubic energy values A e = A * v) /\
  (* nothing outside the tabulated range *)
  (forall e, 0 < e -> (forall a, In a energy -> e < a) \/ (forall a, In a energy -> a < e) ->
     table_call cubic energy values A e = 0) /\
  (* strictly positive inside *)
  (forall e, 0 < A -> 0 < e -> (exists a, In a energy /\ a <= e) -> (exists b, In b energy /\ e <= b) ->
     0 < table_call cubic energy values A e) /\
  (* proportional to the amplitude *)
  (forall c e, table_call cubic energy values (c * A) e = c * table_call cubic energy values A e).
Proof.
  intros cubic energy values A HC HL HP HV. repeat split.
  - intros i e v Hi Hv. eapply table_node; eauto.
    rewrite List.Forall_forall in HV. apply HV. eapply nth_error_In; eauto.
  - intros e He H. apply table_outside; auto.
  - intros e PA He Ha Hb. rewrite table_inside by auto. apply Rmult_lt_0_compat; auto using pow10_pos.
  - intros c e. unfold table_call. ring.
Qed.
Print Assumptions C36_table_model.

(** The table of the counterexample below: energies 1, 10, 100, 1000 eV. *)
Definition e4 : list R := map pow10 [0; 1; 2; 3].
Definition v4 : list R := map pow10 [0; 0; 1; 1].
Lemma nodes4 : table_nodes e4 v4 = [(0, 0); (1, 0); (2, 1); (3, 1)].
Proof. unfold table_nodes, e4, v4. simpl. now rewrite !log10_pow10. Qed.

Example C36_example :
  (forall x y, In (x, y) (table_nodes e4 v4) -> lagrange4 (table_nodes e4 v4) x = y) /\
  List.length e4 = List.length v4 /\ List.Forall (fun x => 0 < x) e4 /\ List.Forall (fun x => 0 < x) v4.
Proof.
  repeat split; try (unfold e4, v4; repeat constructor; apply pow10_pos).
  rewrite nodes4. intros x y [H|[H|[H|[H|[]]]]]; injection H as <- <-; simpl; field.
Qed.

(** ** C64 refuted: between two equal tabulated values (1 and 1) the model takes
    a value below both, at any amplitude. *)
Theorem C64_between_nodes_refuted : exists energy values e,
  List.length energy = List.length values /\
  nth_error energy 0 = Some 1 /\ nth_error energy 1 = Some 10 /\
  nth_error values 0 = Some 1 /\ nth_error values 1 = Some 1 /\ 1 < e < 10 /\
  table_call lagrange4 energy values 1 e < 1.
Proof.
  assert (P0 : pow10 0 = 1) by (unfold pow10; apply Rpower_O; lra).
  assert (P1 : pow10 1 = 10) by (unfold pow10; apply Rpower_1; lra).
  assert (M : forall a b, a < b -> pow10 a < pow10 b) by (intros; apply Rpower_lt; lra).
  exists e4, v4, (pow10 (1/2)). repeat split.
  - unfold e4; simpl. now rewrite P0.
  - unfold e4; simpl. now rewrite P1.
  - unfold v4; simpl. now rewrite P0.
  - unfold v4; simpl. now rewrite P0.
  - rewrite <- P0. apply M; lra.
  - rewrite <- P1. apply M; lra.
  - rewrite table_inside.
    + rewrite nodes4, log10_pow10. rewrite Rmult_1_l. apply Rlt_le_trans with (pow10 0); [|lra].
      apply M. simpl. lra.
    + reflexivity.
    + unfold e4; repeat constructor; apply pow10_pos.
    + apply pow10_pos.
    + exists (pow10 0). split; [simpl; auto|]. apply Rlt_le, M; lra.
    + exists (pow10 1). split; [simpl; auto|]. apply Rlt_le, M; lra.
Qed.
Print Assumptions C64_between_nodes_refuted.

(** ** C37 *)
(** Below 1 GeV there is no absorption; everywhere the factor is positive, and
    it is at most 1 where the interpolated optical depth is not negative. *)
Theorem C37_transmission : forall cubic energy columns z e,
  List.length energy = List.length (ebl_taus columns z (List.length energy)) ->
  List.Forall (fun x => 0 < x) energy ->
  In (10 ^ 9) energy -> In (10 ^ 14) energy -> 0 < e ->
  let tau := cubic (table_nodes energy (ebl_taus columns z (List.length energy))) (log10 e) in
  (e < 10 ^ 9 -> ebl_transmission cubic energy columns z e = Some 1) /\
  (exists t, ebl_transmission cubic energy columns z e = Some t /\ 0 < t /\ (0 <= tau -> t <= 1)) /\
  (10 ^ 9 <= e <= 10 ^ 14 -> ebl_transmission cubic energy columns z e = Some (exp (- tau))).
Proof.
  intros cubic energy columns z e HL HP H9 H14 He tau.
  assert (IN : 10 ^ 9 <= e <= 10 ^ 14 -> ebl_transmission cubic energy columns z e = Some (exp (- tau))).
  { intros [L U]. unfold ebl_transmission. destruct (Rlt_dec e (10 ^ 9)); [lra|]. destruct (Rlt_dec (10 ^ 14) e); [lra|].
    rewrite table_inside; auto; [|exists (10 ^ 9); split; auto|exists (10 ^ 14); split; auto].
    fold tau. rewrite Rmult_1_l. destruct (Req_EM_T (pow10 tau) 0); [pose proof (pow10_pos tau); lra|].
    now rewrite log10_pow10. }
  assert (BELOW : e < 10 ^ 9 -> ebl_transmission cubic energy columns z e = Some 1).
  { intros L. unfold ebl_transmission. destruct (Rlt_dec e (10 ^ 9)); [|lra]. now rewrite Ropp_0, exp_0. }
  repeat split; auto.
  destruct (Rlt_dec e (10 ^ 9)) as [L|L].
  { exists 1. rewrite BELOW by auto. repeat split; lra. }
  destruct (Rlt_dec (10 ^ 14) e) as [U|U].
  - exists (exp (- log10 6000)). unfold ebl_transmission.
    destruct (Rlt_dec e (10 ^ 9)); [lra|]. destruct (Rlt_dec (10 ^ 14) e); [|lra].
    repeat split; auto using exp_pos. intros _. rewrite <- exp_0. apply Rlt_le, exp_increasing.
    assert (0 < log10 6000); [|lra]. unfold log10. apply div_pos; [|apply ln10_pos].
    rewrite <- ln_1. apply ln_increasing; lra.
  - exists (exp (- tau)). rewrite IN by lra. repeat split; auto using exp_pos.
    intros Ht. rewrite <- exp_0. destruct (Req_dec tau 0) as [->|]; [rewrite Ropp_0; lra|].
    apply Rlt_le, exp_increasing. lra.
Qed.
Print Assumptions C37_transmission.

(** For redshifts below 0.01 and up to 100 TeV the factor is exactly 1 (for an
    interpolation that reproduces the constant 0). *)
Theorem C37_nearby : forall cubic energy columns z e,
  (forall x, cubic (table_nodes energy (ebl_taus columns z (List.length energy))) x = 0) ->
  z < 1 / 100 -> List.Forall (fun x => 0 < x) energy ->
  In (10 ^ 9) energy -> In (10 ^ 14) energy -> 0 < e <= 10 ^ 14 ->
  ebl_transmission cubic energy columns z e = Some 1.
Proof.
  intros cubic energy columns z e HC Hz HP H9 H14 He.
  assert (HL : List.length energy = List.length (ebl_taus columns z (List.length energy))).
  { unfold ebl_taus. destruct (Rle_dec (1 / 100) z); [lra|]. now rewrite map_length, repeat_length. }
  destruct (C37_transmission cubic energy columns z e HL HP H9 H14 (proj1 He)) as (B & _ & I).
  destruct (Rlt_dec e (10 ^ 9)) as [L|L]; [auto|].
  rewrite I by lra. now rewrite HC, Ropp_0, exp_0.
Qed.
Print Assumptions C37_nearby.

Lemma log10_6000 : 3 < log10 6000 < 4.
Proof.
  pose proof ln10_pos.
  assert (E : forall n : nat, INR n * ln 10 = ln (10 ^ n)).
  { intros n. rewrite ln_pow by lra. reflexivity. }
  unfold log10. split.
  - apply Rmult_lt_reg_r with (ln 10); [auto|]. unfold Rdiv. rewrite Rmult_assoc, Rinv_l, Rmult_1_r by lra.
    pose proof (E 3%nat) as E3. replace (INR 3) with 3 in E3 by (simpl; lra). rewrite E3. apply ln_increasing; simpl; lra.
  - apply Rmult_lt_reg_r with (ln 10); [auto|]. unfold Rdiv. rewrite Rmult_assoc, Rinv_l, Rmult_1_r by lra.
    pose proof (E 4%nat) as E4. replace (INR 4) with 4 in E4 by (simpl; lra). rewrite E4. apply ln_increasing; simpl; lra.
Qed.

(** C37 refuted above 100 TeV: a source at redshift 0 is dimmed there to less
    than 1/8, whatever the table. *)
Theorem C128_redshift_zero_refuted : forall cubic energy columns e, 10 ^ 14 < e ->
  exists t, ebl_transmission cubic energy columns 0 e = Some t /\ t < 1 / 8.
Proof.
  intros cubic energy columns e He. exists (exp (- log10 6000)). unfold ebl_transmission.
  destruct (Rlt_dec e (10 ^ 9)); [simpl in *; lra|]. destruct (Rlt_dec (10 ^ 14) e); [|lra].
  split; auto.
  assert (H3 := log10_6000). rewrite exp_Ropp.
  assert (E3 : exp 3 < exp (log10 6000)) by (apply exp_increasing; lra).
  assert (E1 : 1 + 1 < exp 1) by (apply exp_ineq1; lra).
  assert (B : 8 < exp 3).
  { replace 3 with (1 + 1 + 1) by ring. rewrite !exp_plus. nra. }
  replace (1 / 8) with (/ 8) by field. apply Rinv_lt_contravar; [|lra]. apply Rmult_lt_0_compat; [lra|apply exp_pos].
Qed.
Print Assumptions C128_redshift_zero_refuted.

(** ** C63 refuted: for every column whose optical depth at 100 TeV exceeds 4
    (all of them: the smallest, redshift 0.01, is 19.76) the source is brighter
    just above 100 TeV than at 100 TeV. *)
Theorem C63_absorption_drop_refuted : forall cubic energy columns z e i,
  let taus := ebl_taus columns z (List.length energy) in
  (forall x y, In (x, y) (table_nodes energy taus) -> cubic (table_nodes energy taus) x = y) ->
  1 / 100 <= z -> List.length energy = List.length taus -> List.Forall (fun x => 0 < x) energy ->
  nth_error energy i = Some (10 ^ 14) ->
  (exists tau, nth_error taus i = Some (pow10 tau) /\ 4 < tau) ->
  10 ^ 14 < e ->
  exists t100 t, ebl_transmission cubic energy columns z (10 ^ 14) = Some t100 /\
                 ebl_transmission cubic energy columns z e = Some t /\ t100 < t.
Proof.
  intros cubic energy columns z e i taus HC Hz HL HP Hi (tau & Ht & H4) He.
  exists (exp (- tau)), (exp (- log10 6000)). unfold ebl_transmission. fold taus.
  destruct (Rlt_dec (10 ^ 14) (10 ^ 9)) as [C|_]; [simpl in C; lra|].
  destruct (Rlt_dec (10 ^ 14) (10 ^ 14)) as [C|_]; [lra|].
  destruct (Rlt_dec e (10 ^ 9)) as [C|_]; [simpl in *; lra|].
  destruct (Rlt_dec (10 ^ 14) e) as [_|C]; [|lra].
  rewrite (table_node cubic energy taus 1 i (10 ^ 14) (pow10 tau)); auto using pow10_pos.
  rewrite Rmult_1_l. destruct (Req_EM_T (pow10 tau) 0); [pose proof (pow10_pos tau); lra|].
  rewrite log10_pow10. repeat split. apply exp_increasing. pose proof log10_6000. lra.
Qed.
Print Assumptions C63_absorption_drop_refuted.

(** A table with those properties: two energies, every column [0; 19.7647]. *)
Example C63_example :
  let energy := [10 ^ 9; 10 ^ 14] in
  let taus := ebl_taus (repeat [0; 197647 / 10000] 399) (3 / 100) 2 in
  taus = [pow10 0; pow10 (197647 / 10000)].
Proof.
  intros energy taus. unfold taus, ebl_taus. destruct (Rle_dec (1 / 100) (3 / 100)); [|lra].
  assert (HN : forall i, (i < 399)%nat -> nth i (repeat [0; 197647 / 10000] 399) [] = [0; 197647 / 10000]).
  { intros i Hi. rewrite nth_indep with (d' := [0; 197647 / 10000]) by (rewrite repeat_length; auto). apply nth_repeat. }
  assert (HA : forall l i b v, (b < i)%nat -> (argmin_from i b v l < i + List.length l)%nat).
  { induction l as [|w l IH]; intros i b v Hb; simpl; [lia|].
    destruct (Rlt_dec w v).
    - specialize (IH (S i) i w). lia.
    - specialize (IH (S i) b v). lia. }
  rewrite HN.
  - simpl. destruct (Rlt_dec 150 0); [lra|]. destruct (Rlt_dec 150 (197647 / 10000)); [lra|]. reflexivity.
  - unfold redshift_list. rewrite map_map.
    assert (G : forall (f : nat -> R) n, (argmin (map f (seq 0 (S n))) < S n)%nat).
    { intros f n. unfold argmin. simpl. pose proof (HA (map f (seq 1 n)) 1%nat O (f O) ltac:(lia)) as Q.
      rewrite map_length, seq_length in Q. exact Q. }
    apply (G _ 398%nat).
Qed.
