(** C103, C108: the numbers printed by plot_chain and plot_distribution. *)
From Coq Require Import Reals List ZArith Bool String Ascii Arith Permutation Sorted Lra Lia.
From Verif Require Import Outcome SimplexModel UnitsModel DataModel AnalysisModel AnalysisProofs AnalysisProps AnalysisProps2 AnalysisProps3 PlotModel PlotProps2 PlotModel2.
Import ListNotations.
Local Open Scope R_scope.

(** ** Powers of ten *)
Lemma ln10_pos : 0 < ln 10. Proof. rewrite <- ln_1. apply ln_increasing; lra. Qed.
Lemma p10_exp n : p10 n = exp (IZR n * ln 10).
Proof. unfold p10. rewrite powerRZ_Rpower by lra. reflexivity. Qed.
Lemma p10_pos n : 0 < p10 n. Proof. rewrite p10_exp. apply exp_pos. Qed.
Lemma p10_add m n : p10 (m + n) = p10 m * p10 n.
Proof. rewrite !p10_exp, plus_IZR, <- exp_plus. apply (f_equal exp). ring. Qed.
Lemma p10_0 : p10 0 = 1. Proof. reflexivity. Qed.
Lemma p10_1 : p10 1 = 10. Proof. apply powerRZ_1. Qed.
Lemma p10_neg n : p10 (- n) * p10 n = 1.
Proof. rewrite <- p10_add. replace (- n + n)%Z with 0%Z by lia. apply p10_0. Qed.
Lemma p10_le m n : (m <= n)%Z -> p10 m <= p10 n.
Proof.
  intros H. apply IZR_le in H. rewrite !p10_exp. pose proof ln10_pos.
  destruct (Rle_lt_or_eq_dec _ _ H) as [L| ->]; [|lra]. left. apply exp_increasing. nra.
Qed.
Lemma floorZ_spec x : IZR (floorZ x) <= x < IZR (floorZ x) + 1.
Proof. unfold floorZ. rewrite minus_IZR. destruct (archimed x). lra. Qed.
Lemma exp_log10 x : 0 < x -> exp (log10 x * ln 10) = x.
Proof. intros H. unfold log10. pose proof ln10_pos. replace (ln x / ln 10 * ln 10) with (ln x) by (field; lra). apply exp_ln, H. Qed.
(** the decimals: the error is then an integer number of units between 2 and 20 *)
Lemma decimals_ok e : 0 < e -> exists n, decimals e = Ok n /\ 2 <= e * p10 n < 20.
Proof.
  intros H. unfold decimals. destruct (Req_EM_T e 0) as [E0|_]; [lra|]. destruct (Rlt_dec e 0) as [E0|_]; [lra|].
  set (n := (- floorZ (log10 e))%Z).
  assert (B : 1 <= e * p10 n < 10).
  { rewrite <- (exp_log10 e H) at 1 2. rewrite p10_exp, <- exp_plus. unfold n. rewrite opp_IZR. pose proof (floorZ_spec (log10 e)) as F. pose proof ln10_pos.
    replace (log10 e * ln 10 + - IZR (floorZ (log10 e)) * ln 10) with ((log10 e - IZR (floorZ (log10 e))) * ln 10) by ring.
    split.
    - rewrite <- exp_0. assert (0 <= (log10 e - IZR (floorZ (log10 e))) * ln 10) by (apply Rmult_le_pos; lra).
      destruct H1 as [H1|H1]; [left; apply exp_increasing; exact H1|rewrite <- H1; lra].
    - rewrite <- (exp_ln 10) at 2 by lra. apply exp_increasing. nra. }
  destruct (Rlt_dec (e * p10 n) 2) as [L|L]; eexists; (split; [reflexivity|]).
  - rewrite p10_add, p10_1. lra.
  - lra.
Qed.
Lemma decimals_0 : decimals 0 = Err "OverflowError". Proof. unfold decimals. destruct (Req_EM_T 0 0); [reflexivity|lra]. Qed.

(** ** Specification *)
(** rounding to a nearest integer *)
Definition nearest (rnd : R -> Z) : Prop := forall x, Rabs (IZR (rnd x) - x) <= 1 / 2.
Example nearest_exists : nearest (fun x => floorZ (x + 1 / 2)).
Proof. intros x. pose proof (floorZ_spec (x + 1 / 2)). apply Rabs_le. lra. Qed.
(** what a reader takes from the text: value, lower and upper error *)
Definition reading (s : shown) : R * R * R :=
  match s with
  | Symmetric k v e => (v * p10 k, e * p10 k, e * p10 k)
  | Asymmetric k v hi lo => (v * p10 k, lo * p10 k, hi * p10 k)
  end.
(** [x] is shown as an integer number of units 10^m; for an error between 2 and 20 of
    them: one or two significant digits *)
Definition digits2 (x : R) (m : Z) : Prop := exists k, x = IZR k * p10 m /\ (2 <= k <= 20)%Z.
Definition multiple (x : R) (m : Z) : Prop := exists k, x = IZR k * p10 m.
(** the text is a fair account of val -elo +ehi *)
Definition fair (s : shown) (val elo ehi : R) : Prop :=
  let '(v, lo, hi) := reading s in
  Rabs (v - val) <= 2 / 7 * Rmin elo ehi /\ Rabs (lo - elo) <= 3 / 7 * elo /\ Rabs (hi - ehi) <= 3 / 7 * ehi /\
  exists m n, digits2 lo m /\ digits2 hi n /\ multiple v (Z.min m n).

Lemma round2_close rnd x n : nearest rnd -> Rabs (round2 rnd x n - x) <= p10 (- n) / 2.
Proof.
  intros N. unfold round2. pose proof (p10_neg n) as P. pose proof (p10_pos (- n)) as Q.
  replace (IZR (rnd (x * p10 n)) * p10 (- n) - x) with ((IZR (rnd (x * p10 n)) - x * p10 n) * p10 (- n)).
  - rewrite Rabs_mult, (Rabs_pos_eq (p10 (- n))) by lra. specialize (N (x * p10 n)). nra.
  - assert (Z : x * p10 n * p10 (- n) = x) by (rewrite Rmult_assoc, (Rmult_comm (p10 n)), P; ring). rewrite Rmult_minus_distr_r, Z. reflexivity.
Qed.
Lemma round2_digits rnd e n : nearest rnd -> 2 <= e * p10 n < 20 ->
  (2 <= rnd (e * p10 n)%R <= 20)%Z /\ p10 (- n) / 2 <= e / 4.
Proof.
  intros N H. specialize (N (e * p10 n)).
  assert (NN : - (1 / 2) <= IZR (rnd (e * p10 n)) - e * p10 n <= 1 / 2) by (revert N; unfold Rabs; destruct (Rcase_abs _); lra).
  split.
  - split; apply Z.lt_succ_r, lt_IZR; unfold Z.succ; rewrite plus_IZR; cbn; lra.
  - pose proof (p10_neg n). pose proof (p10_pos (- n)). nra.
Qed.
Lemma shown_unit rnd x n k : round2 rnd x n * p10 k = IZR (rnd (x * p10 n)) * p10 (k - n).
Proof. unfold round2. replace (k - n)%Z with (- n + k)%Z by lia. rewrite p10_add. ring. Qed.
Lemma scale_close k a b c : Rabs (a - b / p10 k) <= c / p10 k -> Rabs (a * p10 k - b) <= c.
Proof.
  intros H. pose proof (p10_pos k) as P. replace (a * p10 k - b) with ((a - b / p10 k) * p10 k) by (field; lra).
  rewrite Rabs_mult, (Rabs_pos_eq (p10 k)) by lra. apply Rmult_le_compat_r with (r := p10 k) in H; [|lra].
  replace (c / p10 k * p10 k) with c in H by (field; lra). exact H.
Qed.

(** ** C108 *)
Theorem C108_value_error : forall rnd val elo ehi, nearest rnd -> val <> 0 -> 0 < elo -> 0 < ehi ->
  exists s, latex_value_error rnd val elo ehi (1 / 4) = Ok s /\ fair s val elo ehi.
Proof.
  intros rnd val elo ehi N V E1 E2. unfold latex_value_error. destruct (Req_EM_T val 0) as [?|_]; [contradiction|]. cbv zeta.
  match goal with |- context [if ?b then ?o else 0%Z] => set (k := if b then o else 0%Z) end. clearbody k. pose proof (p10_pos k) as PK.
  set (a := elo / p10 k). set (b := ehi / p10 k).
  assert (PA : 0 < a) by (apply Rdiv_lt_0_compat; lra). assert (PB : 0 < b) by (apply Rdiv_lt_0_compat; lra).
  assert (EA : a * p10 k = elo) by (unfold a; field; lra). assert (EB : b * p10 k = ehi) by (unfold b; field; lra).
  destruct (decimals_ok a PA) as (nlo & -> & DL). destruct (decimals_ok b PB) as (nhi & Eb & DH). cbn [obind].
  destruct (Req_EM_T b 0) as [?|_]; [lra|]. rewrite Eb. cbn [obind].
  destruct (round2_digits rnd a nlo N DL) as (KL & UL). destruct (round2_digits rnd b nhi N DH) as (KH & UH).
  assert (MIN : Rmin elo ehi = Rmin a b * p10 k).
  { unfold Rmin. destruct (Rle_dec elo ehi), (Rle_dec a b); auto; exfalso; nra. }
  destruct (Rlt_dec (1 / 4) (Rabs (a - b) / ((a + b) / 2))) as [L|L].
  - eexists. split; [reflexivity|]. unfold fair, reading. cbv zeta.
    split; [|split; [|split]].
    + rewrite MIN. apply scale_close. replace (2 / 7 * (Rmin a b * p10 k) / p10 k) with (2 / 7 * Rmin a b) by (field; lra).
      eapply Rle_trans; [apply round2_close, N|].
      assert (p10 (- Z.max nlo nhi) <= p10 (- nlo)) by (apply p10_le; lia).
      assert (p10 (- Z.max nlo nhi) <= p10 (- nhi)) by (apply p10_le; lia).
      unfold Rmin. destruct (Rle_dec a b); lra.
    + apply scale_close. fold a. eapply Rle_trans; [apply round2_close, N|]. replace (3 / 7 * elo / p10 k) with (3 / 7 * a) by (unfold a; field; lra). lra.
    + apply scale_close. fold b. eapply Rle_trans; [apply round2_close, N|]. replace (3 / 7 * ehi / p10 k) with (3 / 7 * b) by (unfold b; field; lra). lra.
    + exists (k - nlo)%Z, (k - nhi)%Z. rewrite !shown_unit. split; [eexists; split; [reflexivity|exact KL]|]. split; [eexists; split; [reflexivity|exact KH]|].
      replace (Z.min (k - nlo) (k - nhi)) with (k - Z.max nlo nhi)%Z by lia. eexists; reflexivity.
  - set (e := (a + b) / 2) in *. assert (PE : 0 < e) by (unfold e; lra).
    assert (D : Rabs (a - b) <= e / 4).
    { apply Rnot_lt_le in L. apply Rmult_le_compat_r with (r := e) in L; [|lra]. unfold Rdiv in L. rewrite Rmult_assoc, Rinv_l, Rmult_1_r in L by lra. lra. }
    assert (DD : - (e / 4) <= a - b <= e / 4) by (revert D; unfold Rabs; destruct (Rcase_abs _); lra).
    destruct (decimals_ok e PE) as (n & -> & DE). cbn [obind]. destruct (round2_digits rnd e n N DE) as (KE & UE).
    eexists. split; [reflexivity|]. unfold fair, reading. cbv zeta.
    assert (CE : forall y, Rabs (round2 rnd y n - y) <= e / 4) by (intros y; eapply Rle_trans; [apply round2_close, N|lra]).
    assert (CE' : - (e / 4) <= round2 rnd e n - e <= e / 4) by (generalize (CE e); unfold Rabs; destruct (Rcase_abs _); lra).
    split; [|split; [|split]].
    + rewrite MIN. apply scale_close. replace (2 / 7 * (Rmin a b * p10 k) / p10 k) with (2 / 7 * Rmin a b) by (field; lra).
      eapply Rle_trans; [apply CE|]. unfold Rmin, e in *. destruct (Rle_dec a b); lra.
    + apply scale_close. fold a. replace (3 / 7 * elo / p10 k) with (3 / 7 * a) by (unfold a; field; lra). apply Rabs_le. unfold e in *. lra.
    + apply scale_close. fold b. replace (3 / 7 * ehi / p10 k) with (3 / 7 * b) by (unfold b; field; lra). apply Rabs_le. unfold e in *. lra.
    + exists (k - n)%Z, (k - n)%Z. rewrite !shown_unit. split; [eexists; split; [reflexivity|exact KE]|]. split; [eexists; split; [reflexivity|exact KE]|].
      rewrite Z.min_id. eexists; reflexivity.
Qed.
Print Assumptions C108_value_error.
Example C108_example : exists s, latex_value_error (fun x => floorZ (x + 1 / 2)) (271828 / 10) 30 41 (1 / 4) = Ok s /\ fair s (271828 / 10) 30 41.
Proof. apply C108_value_error; [apply nearest_exists|lra..]. Qed.

(** ** Refuted at the boundary: a value of exactly zero, or a lower error of zero, is an
    OverflowError, and an upper error of zero is shown as if it were the lower one. *)
Theorem C136_error_text_zero_refuted : forall rnd,
  (forall elo ehi tol, latex_value_error rnd 0 elo ehi tol = Err "OverflowError") /\
  (forall val ehi tol, latex_value_error rnd val 0 ehi tol = Err "OverflowError") /\
  (nearest rnd -> forall val elo, val <> 0 -> 0 < elo ->
     exists s, latex_value_error rnd val elo 0 (1 / 4) = Ok s /\ let '(_, lo, hi) := reading s in hi = lo /\ elo / 2 <= hi).
Proof.
  intros rnd. split; [|split].
  - intros. unfold latex_value_error. destruct (Req_EM_T 0 0); [reflexivity|lra].
  - intros. unfold latex_value_error. destruct (Req_EM_T val 0); [reflexivity|]. cbv zeta.
    match goal with |- context [decimals (0 / ?x)] => replace (0 / x) with 0 by (unfold Rdiv; ring) end. rewrite decimals_0. reflexivity.
  - intros N val elo V E. unfold latex_value_error. destruct (Req_EM_T val 0) as [?|_]; [contradiction|]. cbv zeta.
    match goal with |- context [if ?b then ?o else 0%Z] => set (k := if b then o else 0%Z) end. clearbody k. pose proof (p10_pos k) as PK. set (a := elo / p10 k).
    assert (PA : 0 < a) by (apply Rdiv_lt_0_compat; lra). destruct (decimals_ok a PA) as (n & -> & D). cbn [obind].
    destruct (Req_EM_T (0 / p10 k) 0) as [_|Q]; [|exfalso; apply Q; unfold Rdiv; ring].
    eexists. split; [reflexivity|]. cbn [reading]. split; [reflexivity|].
    destruct (round2_digits rnd a n N D) as (_ & U). pose proof (round2_close rnd a n N) as C.
    assert (CC : - (a / 4) <= round2 rnd a n - a) by (revert C; unfold Rabs; destruct (Rcase_abs _); lra).
    replace elo with (a * p10 k) by (unfold a; field; lra). nra.
Qed.
Print Assumptions C136_error_text_zero_refuted.

(** ** C108: the power of ten. Values from 0.001 to 1000 (exclusive) are printed as they
    are; larger and smaller ones with the power of ten that leaves a number between 1 and
    10, or between 0.1 and 1. *)
Definition order_of (s : shown) : Z := match s with Symmetric k _ _ | Asymmetric k _ _ _ => k end.
Lemma p10_lt m n : (m < n)%Z -> p10 m < p10 n.
Proof. intros H. apply IZR_lt in H. rewrite !p10_exp. apply exp_increasing. pose proof ln10_pos. nra. Qed.
Lemma p10_scale x k : 0 < x -> x / p10 k = exp ((log10 x - IZR k) * ln 10).
Proof.
  intros H. rewrite <- (exp_log10 x H) at 1. rewrite p10_exp. unfold Rdiv. rewrite <- exp_Ropp, <- exp_plus. apply (f_equal exp). ring.
Qed.
Lemma floorZ_neg x : (0 < floorZ (- x))%Z -> x < 0.
Proof. intros H. apply IZR_lt in H. pose proof (floorZ_spec (- x)). lra. Qed.
Lemma floorZ_pos x n : IZR n <= x -> (n <= floorZ x)%Z.
Proof. intros H. pose proof (floorZ_spec x) as F. apply Z.lt_succ_r, lt_IZR. unfold Z.succ. rewrite plus_IZR. lra. Qed.
Lemma floorZ_lt x n : x < IZR n -> (floorZ x < n)%Z.
Proof. intros H. pose proof (floorZ_spec x) as F. apply lt_IZR. lra. Qed.
Lemma log10_ge x n : 0 < x -> p10 n <= x -> IZR n <= log10 x.
Proof.
  intros H L. pose proof ln10_pos. destruct (Rle_or_lt (IZR n) (log10 x)) as [?|C]; [assumption|]. exfalso.
  assert (x < p10 n); [|lra]. rewrite <- (exp_log10 x H), p10_exp. apply exp_increasing. nra.
Qed.
Lemma log10_lt x n : 0 < x -> x < p10 n -> log10 x < IZR n.
Proof.
  intros H L. pose proof ln10_pos. destruct (Rlt_or_le (log10 x) (IZR n)) as [?|C]; [assumption|]. exfalso.
  assert (p10 n <= x); [|lra]. rewrite <- (exp_log10 x H), p10_exp. destruct C as [C|C]; [left; apply exp_increasing; nra|right; rewrite C; reflexivity].
Qed.
Theorem C108_order : forall rnd val elo ehi tol s, latex_value_error rnd val elo ehi tol = Ok s ->
  (1 / 1000 < Rabs val < 1000 -> order_of s = 0%Z) /\
  (1000 <= Rabs val -> 1 <= Rabs val / p10 (order_of s) < 10) /\
  (Rabs val <= 1 / 1000 -> 1 / 10 < Rabs val / p10 (order_of s) <= 1).
Proof.
  intros rnd val elo ehi tol s H. unfold latex_value_error in H. destruct (Req_EM_T val 0) as [?|V]; [discriminate|]. cbv zeta in H.
  pose proof (Rabs_pos_lt val V) as P. set (x := Rabs val) in *. pose proof ln10_pos as L10.
  set (o := intZ (log10 x)) in *. set (k := if (Z.ltb 2 o || Z.ltb o (-2))%bool then o else 0%Z) in *.
  assert (OS : order_of s = k).
  { destruct (decimals (elo / p10 k)) as [nlo|]; [|discriminate]. cbn [obind] in H. destruct (Req_EM_T (ehi / p10 k) 0); [inversion H; reflexivity|].
    destruct (decimals (ehi / p10 k)) as [nhi|]; [|discriminate]. cbn [obind] in H.
    destruct (Rlt_dec tol _); [inversion H; reflexivity|]. destruct (decimals _); [|discriminate]. cbn [obind] in H. inversion H; reflexivity. }
  rewrite OS. clear H OS s.
  assert (P3 : p10 3 = 1000) by (unfold p10, powerRZ; change (Pos.to_nat 3) with 3%nat; unfold pow; ring). assert (M3 : p10 (-3) = 1 / 1000) by (unfold p10, powerRZ; change (Pos.to_nat 3) with 3%nat; unfold pow; field).
  split; [|split]; intros H.
  - assert (A : -3 < log10 x < 3).
    { split; [|change 3 with (IZR 3); apply log10_lt; lra]. apply Rnot_le_lt. intros C. assert (x <= p10 (-3)); [|lra].
      rewrite <- (exp_log10 x P), p10_exp. destruct C as [C|C]; [left; apply exp_increasing; nra|right; rewrite C; reflexivity]. }
    assert (B : (-2 <= o <= 2)%Z).
    { unfold o, intZ. destruct (Rle_dec 0 (log10 x)) as [D|D].
      - assert (0 <= floorZ (log10 x))%Z by (apply floorZ_pos; lra). assert (floorZ (log10 x) < 3)%Z by (apply floorZ_lt; lra). lia.
      - assert (0 <= floorZ (- log10 x))%Z by (apply floorZ_pos; lra). assert (floorZ (- log10 x) < 3)%Z by (apply floorZ_lt; lra). lia. }
    unfold k. destruct (Z.ltb_spec 2 o); [lia|]. destruct (Z.ltb_spec o (-2)); [lia|]. reflexivity.
  - assert (A : 3 <= log10 x) by (change 3 with (IZR 3); apply log10_ge; lra).
    assert (O : o = floorZ (log10 x)) by (unfold o, intZ; destruct (Rle_dec 0 (log10 x)); [reflexivity|lra]).
    assert (3 <= o)%Z by (rewrite O; apply floorZ_pos; lra).
    assert (K : k = o) by (unfold k; destruct (Z.ltb_spec 2 o); [reflexivity|lia]).
    rewrite K, O, (p10_scale x _ P). pose proof (floorZ_spec (log10 x)) as F. split.
    + rewrite <- exp_0. destruct (proj1 F) as [F1|F1]; [left; apply exp_increasing; nra|right; apply (f_equal exp); rewrite F1; ring].
    + rewrite <- (exp_ln 10) at 2 by lra. apply exp_increasing. nra.
  - assert (A : log10 x <= -3).
    { apply Rnot_lt_le. intros C. assert (p10 (-3) < x); [|lra]. rewrite <- (exp_log10 x P), p10_exp. apply exp_increasing. nra. }
    assert (O : o = (- floorZ (- log10 x))%Z) by (unfold o, intZ; destruct (Rle_dec 0 (log10 x)); [lra|reflexivity]).
    assert (o <= -3)%Z by (rewrite O; assert (3 <= floorZ (- log10 x))%Z by (apply floorZ_pos; lra); lia).
    assert (K : k = o) by (unfold k; destruct (Z.ltb_spec 2 o); [lia|]; destruct (Z.ltb_spec o (-2)); [reflexivity|lia]).
    rewrite K, O, (p10_scale x _ P), opp_IZR. pose proof (floorZ_spec (- log10 x)) as F. split.
    + replace (1 / 10) with (exp (- ln 10)) by (rewrite exp_Ropp, exp_ln by lra; field). apply exp_increasing. nra.
    + rewrite <- exp_0. destruct (proj1 F) as [F1|F1]; [left; apply exp_increasing; nra|right; apply (f_equal exp); rewrite F1; ring].
Qed.
Print Assumptions C108_order.
Example C108_order_example : exists s, latex_value_error (fun x => floorZ (x + 1 / 2)) (271828 / 10) 30 41 (1 / 4) = Ok s /\ 1 <= 271828 / 10 / p10 (order_of s) < 10.
Proof.
  destruct C108_example as (s & E & _). exists s. split; [exact E|]. destruct (C108_order _ _ _ _ _ _ E) as (_ & B & _).
  rewrite (Rabs_pos_eq (271828 / 10)) in B by lra. apply B. lra.
Qed.
(** Errors below zero are not accepted *)
Theorem C108_negative : forall rnd val elo ehi tol, val <> 0 -> elo < 0 -> latex_value_error rnd val elo ehi tol = Err "ValueError".
Proof.
  intros rnd val elo ehi tol V H. unfold latex_value_error. destruct (Req_EM_T val 0) as [?|_]; [contradiction|]. cbv zeta.
  match goal with |- context [elo / p10 ?j] => set (k := j) end. pose proof (p10_pos k). assert (elo / p10 k < 0).
  { assert (0 < - elo / p10 k) by (apply Rdiv_lt_0_compat; lra). unfold Rdiv in *. lra. }
  unfold decimals at 1. destruct (Req_EM_T (elo / p10 k) 0) as [?|_]; [lra|]. destruct (Rlt_dec (elo / p10 k) 0); [reflexivity|lra].
Qed.
Print Assumptions C108_negative.
