(** Property C87: the numbers printed on the diagnostic plots. *)
From Coq Require Import Reals ZArith List String Bool Lra Lia.
From Verif Require Import Outcome ReportModel.
Local Open Scope R_scope.

Lemma ten_pos n : 0 < ten n.
Proof. unfold ten. apply powerRZ_lt. lra. Qed.
Lemma ten_add a b : ten (a + b) = ten a * ten b.
Proof. unfold ten. apply powerRZ_add. lra. Qed.
Lemma ten_0 : ten 0 = 1. Proof. reflexivity. Qed.
Lemma ten_opp n : ten (- n) = / ten n.
Proof.
  pose proof (ten_pos n). pose proof (ten_add n (- n)) as H0. rewrite Z.add_opp_diag_r, ten_0 in H0.
  apply (Rmult_eq_reg_l (ten n)); [|lra]. rewrite Rinv_r by lra. lra.
Qed.
Lemma ten_1 : ten 1 = 10. Proof. unfold ten. simpl. lra. Qed.
Lemma ten_log n : ln (ten n) = IZR n * ln 10.
Proof. unfold ten. rewrite powerRZ_Rpower by lra. unfold Rpower. apply ln_exp. Qed.
Lemma ln10 : 0 < ln 10.
Proof. rewrite <- ln_1. apply ln_increasing; lra. Qed.
Lemma ten_le_iff n x : 0 < x -> IZR n <= log10 x -> ten n <= x.
Proof.
  intros Hx H. apply Rnot_lt_le. intros L. apply ln_increasing in L; [|exact Hx]. rewrite ten_log in L.
  unfold log10 in H. pose proof ln10 as P. apply (Rmult_le_compat_r (ln 10)) in H; [|lra].
  unfold Rdiv in H. rewrite Rmult_assoc, Rinv_l, Rmult_1_r in H by lra. lra.
Qed.
Lemma ten_gt_iff n x : 0 < x -> log10 x < IZR n -> x < ten n.
Proof.
  intros Hx H. apply Rnot_le_lt. intros L.
  assert (LL : ln (ten n) <= ln x) by (destruct L as [L| ->]; [left; apply ln_increasing; [apply ten_pos|exact L]|right; reflexivity]).
  rewrite ten_log in LL. unfold log10 in H. pose proof ln10 as P. apply (Rmult_lt_compat_r (ln 10)) in H; [|lra].
  unfold Rdiv in H. rewrite Rmult_assoc, Rinv_l, Rmult_1_r in H by lra. lra.
Qed.

(** one digit, or two when the first is 1 *)
Lemma decimals_ok x : 0 < x -> exists n, decimals x = Ok n /\ 2 <= x * ten n < 20.
Proof.
  intros Hx. unfold decimals. destruct (Req_EM_T x 0); [lra|]. destruct (Rlt_dec x 0); [lra|].
  set (k := Int_part (log10 x)). destruct (base_Int_part (log10 x)) as [B1 B2]. fold k in B1, B2.
  assert (L : ten k <= x) by (apply ten_le_iff; auto).
  assert (U : x < ten (k + 1)) by (apply ten_gt_iff; [auto|rewrite plus_IZR; lra]).
  rewrite ten_add, ten_1 in U. pose proof (ten_pos k) as P.
  assert (E : x * ten (- k) = x / ten k) by (rewrite ten_opp; reflexivity).
  assert (L' : 1 <= x / ten k). { apply (Rmult_le_reg_r (ten k)); [exact P|]. unfold Rdiv. rewrite Rmult_assoc, Rinv_l; lra. }
  assert (U' : x / ten k < 10). { apply (Rmult_lt_reg_r (ten k)); [exact P|]. unfold Rdiv. rewrite Rmult_assoc, Rinv_l; lra. }
  eexists. split; [reflexivity|]. cbv zeta. rewrite E. destruct (Rlt_dec (x / ten k) 2).
  - rewrite ten_add, ten_1, <- Rmult_assoc, E. lra.
  - rewrite E. lra.
Qed.

Section S.
  Variable rnd : R -> Z.
  Hypothesis Hrnd : forall x, Rabs (x - IZR (rnd x)) <= 1 / 2.

  Lemma round2_close x n y : 2 <= y * ten n -> Rabs (round2 rnd x n - x) <= y / 4.
  Proof.
    intros H. unfold round2. pose proof (ten_pos n) as P. pose proof (Hrnd (x * ten n)) as B.
    rewrite ten_opp. set (t := ten n) in *. set (m := IZR (rnd (x * t))) in *.
    replace (m * / t - x) with (- ((x * t - m) / t)) by (field; lra).
    rewrite Rabs_Ropp. unfold Rdiv. rewrite Rabs_mult, (Rabs_right (/ t)) by (left; apply Rinv_0_lt_compat; exact P).
    apply (Rmult_le_reg_r t); [exact P|]. rewrite Rmult_assoc, Rinv_l by lra.
    replace (y * / 4 * t) with (y * t * / 4) by ring. lra.
  Qed.
  (** two digits at most *)
  Lemma round2_digits x n : 2 <= x * ten n < 20 -> exists m, (2 <= m <= 20)%Z /\ round2 rnd x n = IZR m * ten (- n).
  Proof.
    intros [H1 H2]. exists (rnd (x * ten n)). split; [|reflexivity]. pose proof (Hrnd (x * ten n)) as B.
    assert (B1 : x * ten n - 1 / 2 <= IZR (rnd (x * ten n)) <= x * ten n + 1 / 2).
    { revert B. unfold Rabs. destruct (Rcase_abs _); lra. }
    split.
    - apply Z.lt_succ_r. apply lt_IZR. unfold Z.succ. rewrite plus_IZR. lra.
    - apply Z.lt_succ_r. apply lt_IZR. unfold Z.succ. rewrite plus_IZR. lra.
  Qed.
End S.

(** Spec: a number with one or two significant digits (between 2 and 20 units of its
    last digit). *)
Definition one_or_two_digits (x : R) : Prop := exists m n : Z, (2 <= m <= 20)%Z /\ x = IZR m * powerRZ 10 n.

(** ** C87: for every value and pair of errors, what is printed, (value, errors) times a
    power of ten, is within a quarter of the errors of the true numbers, and errors
    are printed with one or two digits; a single error is printed only if the two
    differ by at most a quarter of their mean. *)
Theorem C87_printed : forall (rnd : R -> Z) val elo ehi,
  (forall x, Rabs (x - IZR (rnd x)) <= 1 / 2) ->
  val <> 0 -> 0 < elo -> 0 < ehi ->
  exists s, value_error rnd val elo ehi = Ok s /\
    let k := powerRZ 10 (s_order s) in
    let mean := (elo + ehi) / 2 in
    Rabs (k * s_val s - val) <= mean / 4 /\
    match s_err s with
    | Asym hi lo => Rabs (k * hi - ehi) <= ehi / 4 /\ Rabs (k * lo - elo) <= elo / 4 /\ one_or_two_digits hi /\ one_or_two_digits lo
    | Sym e => Rabs (k * e - mean) <= mean / 4 /\ Rabs (elo - ehi) <= mean / 4 /\ one_or_two_digits e
    end /\
    (s_order s = 0%Z \/ 1 / 10 < Rabs val / k < 10).
Proof.
  intros rnd val elo ehi Hr Hv Hlo Hhi. unfold value_error. destruct (Req_EM_T val 0); [contradiction|].
  set (o0 := trunc (log10 (Rabs val))).
  set (o := if (Z.ltb 2 o0 || Z.ltb o0 (-2))%bool then o0 else 0%Z). cbv zeta.
  pose proof (ten_pos o) as P. set (k := ten o) in *.
  assert (Hlo' : 0 < elo / k) by (apply Rdiv_lt_0_compat; auto).
  assert (Hhi' : 0 < ehi / k) by (apply Rdiv_lt_0_compat; auto).
  destruct (decimals_ok _ Hlo') as (nlo & Elo & Dlo). rewrite Elo. cbn [obind].
  destruct (Req_EM_T (ehi / k) 0) as [Z|_]; [lra|].
  destruct (decimals_ok _ Hhi') as (nhi & Ehi & Dhi). rewrite Ehi. cbn [obind].
  assert (SC : forall a b c, Rabs (a - b / k) <= c / k / 4 -> Rabs (k * a - b) <= c / 4).
  { intros a b c H. replace (k * a - b) with (k * (a - b / k)) by (field; lra). rewrite Rabs_mult, (Rabs_right k) by lra.
    apply (Rmult_le_compat_l k) in H; [|lra]. replace (k * (c / k / 4)) with (c / 4) in H by (field; lra). exact H. }
  assert (ORD : o = 0%Z \/ 1 / 10 < Rabs val / k < 10).
  { assert (OC : o = 0%Z \/ o = o0) by (unfold o; destruct (Z.ltb 2 o0 || Z.ltb o0 (-2))%bool; auto).
    destruct OC as [OC|OC]; [left; exact OC|right]. assert (EK : k = ten o0) by (unfold k; rewrite OC; reflexivity). rewrite EK.
    assert (PV : 0 < Rabs val) by (apply Rabs_pos_lt; auto). pose proof (ten_pos o0) as P0.
    assert (LU : IZR o0 - 1 < log10 (Rabs val) < IZR o0 + 1).
    { unfold o0, trunc. destruct (Rle_dec 0 (log10 (Rabs val))).
      - destruct (base_Int_part (log10 (Rabs val))). lra.
      - destruct (base_Int_part (- log10 (Rabs val))). rewrite opp_IZR. lra. }
    assert (L : ten (o0 - 1) <= Rabs val /\ ten (o0 - 1) <> Rabs val).
    { split; [apply ten_le_iff; [auto|rewrite minus_IZR; lra]|]. intros EE.
      assert (E2 : log10 (ten (o0 - 1)) = IZR (o0 - 1)) by (unfold log10; rewrite ten_log; field; pose proof ln10; lra).
      rewrite EE, minus_IZR in E2. lra. }
    assert (U : Rabs val < ten (o0 + 1)) by (apply ten_gt_iff; [auto|rewrite plus_IZR; lra]).
    rewrite ten_add, ten_1 in U. unfold Z.sub in L. rewrite ten_add, (ten_opp 1), ten_1 in L.
    split.
    - apply (Rmult_lt_reg_r (ten o0)); [auto|]. unfold Rdiv at 2. rewrite Rmult_assoc, Rinv_l by lra. lra.
    - apply (Rmult_lt_reg_r (ten o0)); [auto|]. unfold Rdiv. rewrite Rmult_assoc, Rinv_l by lra. lra. }
  assert (DG : forall x n, 2 <= x * ten n < 20 -> one_or_two_digits (round2 rnd x n)).
  { intros x j D. destruct (round2_digits rnd Hr x j D) as (m & Hm & Em). exists m, (- j)%Z. split; auto. }
  assert (MX : forall a b c, (a <= b)%Z -> 0 < c -> 2 <= c * ten a -> 2 <= c * ten b).
  { intros a b c L Hc H. replace b with (a + (b - a))%Z by ring. rewrite ten_add.
    assert (1 <= ten (b - a)). { unfold ten. rewrite <- (Z2Nat.id (b - a)) by lia. rewrite <- pow_powerRZ. apply pow_R1_Rle. lra. }
    assert (0 < ten a) by apply ten_pos. assert (0 < c * ten a) by (apply Rmult_lt_0_compat; auto).
    rewrite <- Rmult_assoc. assert (c * ten a * 1 <= c * ten a * ten (b - a)) by (apply Rmult_le_compat_l; lra). lra. }
  assert (AB : Rabs (elo / k - ehi / k) / ((elo / k + ehi / k) / 2) = Rabs (elo - ehi) / ((elo + ehi) / 2)).
  { replace (elo / k - ehi / k) with ((elo - ehi) / k) by (field; lra). unfold Rdiv at 2. rewrite Rabs_mult, (Rabs_right (/ k)) by (left; apply Rinv_0_lt_compat; lra).
    field. repeat split; lra. }
  rewrite AB. destruct (Rlt_dec (1 / 4) (Rabs (elo - ehi) / ((elo + ehi) / 2))) as [LT|GE].
  - eexists. split; [reflexivity|]. cbn. repeat split; try (apply DG; assumption).
    + replace ((elo + ehi) / 2 / 4) with ((elo / 4 + ehi / 4) / 2) by field.
      assert (H1 : Rabs (k * round2 rnd (val / k) (Z.max nlo nhi) - val) <= elo / 4)
        by (apply SC, round2_close; [auto|apply (MX nlo); [lia|auto|lra]]).
      assert (H2 : Rabs (k * round2 rnd (val / k) (Z.max nlo nhi) - val) <= ehi / 4)
        by (apply SC, round2_close; [auto|apply (MX nhi); [lia|auto|lra]]).
      unfold k, ten in *. lra.
    + apply SC, round2_close; [auto|lra].
    + apply SC, round2_close; [auto|lra].
    + exact ORD.
  - assert (He : 0 < (elo / k + ehi / k) / 2) by lra.
    destruct (decimals_ok _ He) as (ne & En & Dn). rewrite En. cbn [obind].
    assert (ME : (elo / k + ehi / k) / 2 = (elo + ehi) / 2 / k) by (field; lra).
    eexists. split; [reflexivity|]. cbn. repeat split; try (apply DG; assumption).
    + apply SC, round2_close; [auto|]. rewrite <- ME. lra.
    + rewrite ME. apply SC, round2_close; [auto|]. rewrite <- ME. lra.
    + apply Rnot_lt_le in GE. apply (Rmult_le_compat_r ((elo + ehi) / 2)) in GE; [|lra].
      unfold Rdiv at 1 in GE. rewrite Rmult_assoc, Rinv_l in GE by lra. lra.
    + exact ORD.
Qed.
Print Assumptions C87_printed.

(** The contract on rounding is met by rounding half up. *)
Example nearest_exists : exists rnd : R -> Z, forall x, Rabs (x - IZR (rnd x)) <= 1 / 2.
Proof.
  exists (fun x => Int_part (x + 1 / 2)). intros x. destruct (base_Int_part (x + 1 / 2)).
  apply Rabs_le. lra.
Qed.

(** ** Refuted: an upper error of exactly zero (all samples above the median equal) is
    taken for "not given", and the lower error is printed for both. *)
Theorem C136_zero_upper_error_refuted : forall (rnd : R -> Z) val elo,
  (forall x, Rabs (x - IZR (rnd x)) <= 1 / 2) -> val <> 0 -> 0 < elo ->
  exists s e, value_error rnd val elo 0 = Ok s /\ s_err s = Sym e /\ Rabs (powerRZ 10 (s_order s) * e - elo) <= elo / 4.
Proof.
  intros rnd val elo Hr Hv Hlo. unfold value_error. destruct (Req_EM_T val 0); [contradiction|]. cbv zeta.
  set (o := if (Z.ltb 2 _ || Z.ltb _ (-2))%bool then _ else 0%Z).
  pose proof (ten_pos o) as P. set (k := ten o) in *.
  assert (Hlo' : 0 < elo / k) by (apply Rdiv_lt_0_compat; auto).
  destruct (decimals_ok _ Hlo') as (nl & En & Dn). rewrite En. cbn [obind].
  destruct (Req_EM_T (0 / k) 0) as [_|N]; [|exfalso; apply N; unfold Rdiv; ring].
  eexists _, _. split; [reflexivity|]. split; [reflexivity|]. cbn [s_order].
  change (powerRZ 10 o) with k.
  pose proof (round2_close rnd Hr (elo / k) nl (elo / k)) as H. specialize (H ltac:(lra)).
  replace (k * round2 rnd (elo / k) nl - elo) with (k * (round2 rnd (elo / k) nl - elo / k)) by (field; lra).
  rewrite Rabs_mult, (Rabs_right k) by lra. apply (Rmult_le_compat_l k) in H; [|lra].
  replace (k * (elo / k / 4)) with (elo / 4) in H by (field; lra). exact H.
Qed.
Print Assumptions C136_zero_upper_error_refuted.

(** ** Refuted: a median of exactly zero, or a lower error of exactly zero (a parameter
    that no walker moved), makes the report fail. *)
Theorem C136_zero_refuted : forall rnd elo ehi val,
  value_error rnd 0 elo ehi = Err "OverflowError" /\ (val <> 0 -> value_error rnd val 0 ehi = Err "OverflowError").
Proof.
  intros. split.
  - unfold value_error. destruct (Req_EM_T 0 0); [reflexivity|lra].
  - intros H. unfold value_error. destruct (Req_EM_T val 0); [contradiction|]. cbv zeta. unfold decimals at 1.
    destruct (Req_EM_T (0 / _) 0) as [_|N]; [reflexivity|]. exfalso. apply N. unfold Rdiv. ring.
Qed.
Print Assumptions C136_zero_refuted.
