(** Calculus of relative errors on a logarithmic scale. *)
From Coq Require Import Reals List ZArith String Permutation Lra Lia.
From Flocq Require Import Core Relative Sterbenz.
From Verif Require Import Outcome CoreModel FloatModel.
Import ListNotations.
Local Open Scope R_scope.

Definition u : R := / 9007199254740992. (* 2^-53 *)
Definition v : R := - ln (1 - u).
Lemma u_bpow : u = bpow radix2 (-53).
Proof. unfold u. reflexivity. Qed.
Lemma u_pos : 0 < u. Proof. unfold u. lra. Qed.
Lemma u_small : u <= / 1000000000000000. Proof. unfold u. apply Rinv_le_contravar; lra. Qed.

Lemma ln_le_sub1 x : 0 < x -> ln x <= x - 1.
Proof. intros H. pose proof (exp_ineq1_le (ln x)). rewrite exp_ln in H0 by assumption. lra. Qed.
Lemma ln_le a b : 0 < a -> a <= b -> ln a <= ln b.
Proof. intros H [K | ->]; [left; apply ln_increasing; assumption|lra]. Qed.
Lemma v_pos : 0 < v.
Proof.
  unfold v. pose proof u_pos. pose proof u_small. assert (ln (1 - u) < 0); [|lra].
  rewrite <- ln_1. apply ln_increasing; lra.
Qed.
Lemma v_le : v <= u / (1 - u).
Proof.
  unfold v. pose proof u_pos. pose proof u_small. rewrite <- ln_Rinv by lra.
  eapply Rle_trans; [apply ln_le_sub1, Rinv_0_lt_compat; lra|].
  right. field. lra.
Qed.
Lemma v_le2 : v <= 1001 / 1000 * u.
Proof.
  pose proof u_pos. pose proof u_small. eapply Rle_trans; [apply v_le|].
  apply Rmult_le_reg_r with (1 - u); [lra|]. unfold Rdiv. rewrite Rmult_assoc, Rinv_l by lra. nra.
Qed.
Lemma v_ge : u <= v.
Proof. unfold v. pose proof u_pos. pose proof u_small. pose proof (ln_le_sub1 (1 - u)). lra. Qed.

Definition near (k x y : R) : Prop := exists s, Rabs s <= k * v /\ y = x * exp s.

Lemma near_nonneg k x y : near k x y -> 0 <= k.
Proof. intros (s & H & _). pose proof (Rabs_pos s). pose proof v_pos. apply Rmult_le_reg_r with v; lra. Qed.
Lemma near_refl k x : 0 <= k -> near k x x.
Proof. intros H. exists 0. rewrite Rabs_R0, exp_0. pose proof v_pos. split; [nra|ring]. Qed.
Lemma near_weaken k k' x y : near k x y -> k <= k' -> near k' x y.
Proof. intros (s & H & ->) K. exists s. split; [|reflexivity]. pose proof v_pos. nra. Qed.
Lemma near_trans k1 k2 x y z : near k1 x y -> near k2 y z -> near (k1 + k2) x z.
Proof.
  intros (s & H & ->) (t & K & ->). exists (s + t). rewrite exp_plus. split; [|ring].
  eapply Rle_trans; [apply Rabs_triang|]. lra.
Qed.
Lemma near_mul k1 k2 x1 y1 x2 y2 : near k1 x1 y1 -> near k2 x2 y2 -> near (k1 + k2) (x1 * x2) (y1 * y2).
Proof.
  intros (s & H & ->) (t & K & ->). exists (s + t). rewrite exp_plus. split; [|ring].
  eapply Rle_trans; [apply Rabs_triang|]. lra.
Qed.
Lemma near_inv k x y : near k x y -> near k (/ x) (/ y).
Proof.
  intros (s & H & ->). exists (- s). rewrite Rabs_Ropp, exp_Ropp. split; [assumption|].
  apply Rinv_mult.
Qed.
Lemma near_div k1 k2 x1 y1 x2 y2 : near k1 x1 y1 -> near k2 x2 y2 -> near (k1 + k2) (x1 / x2) (y1 / y2).
Proof. intros. apply near_mul; [assumption|]. apply near_inv. assumption. Qed.
Lemma near_opp k x y : near k x y -> near k (- x) (- y).
Proof. intros (s & H & ->). exists s. split; [assumption|ring]. Qed.
Lemma near_sq k x y : near k x y -> near (2 * k) (x ^ 2) (y * y).
Proof. intros H. replace (2 * k) with (k + k) by ring. replace (x ^ 2) with (x * x) by ring. apply near_mul; assumption. Qed.
Lemma near_pos k x y : near k x y -> 0 < x -> 0 < y.
Proof. intros (s & H & ->) Hx. apply Rmult_lt_0_compat; [assumption|apply exp_pos]. Qed.
Lemma near_nn k x y : near k x y -> 0 <= x -> 0 <= y.
Proof. intros (s & H & ->) Hx. apply Rmult_le_pos; [assumption|left; apply exp_pos]. Qed.
Lemma near_sign k x y : near k x y -> (0 < x <-> 0 < y).
Proof.
  intros (s & H & ->). pose proof (exp_pos s). split; intros K; [apply Rmult_lt_0_compat; assumption|].
  destruct (Rlt_dec 0 x); [assumption|]. nra.
Qed.
Lemma near_sqrt k x y : 0 <= x -> near k x y -> near (k / 2) (sqrt x) (sqrt y).
Proof.
  intros Hx (s & H & ->). exists (s / 2). split.
  - unfold Rdiv. rewrite Rabs_mult, (Rabs_right (/ 2)) by lra. lra.
  - rewrite sqrt_mult by (try assumption; left; apply exp_pos). f_equal.
    apply sqrt_lem_1; [left; apply exp_pos|left; apply exp_pos|]. rewrite <- exp_plus. f_equal. lra.
Qed.
Lemma near_Rpower k x y a : 0 < x -> near k x y -> near (Rabs a * k) (Rpower x a) (Rpower y a).
Proof.
  intros Hx (s & H & ->). exists (a * s). split.
  - rewrite Rabs_mult. pose proof (Rabs_pos a). nra.
  - unfold Rpower. rewrite ln_mult by (try assumption; apply exp_pos). rewrite ln_exp, <- exp_plus. f_equal. ring.
Qed.
Lemma near_exponent k a b x : Rabs (b - a) * Rabs (ln x) <= k * v -> near k (Rpower x a) (Rpower x b).
Proof.
  intros H. exists ((b - a) * ln x). rewrite Rabs_mult. split; [assumption|].
  unfold Rpower. rewrite <- exp_plus. f_equal. ring.
Qed.
Lemma exp_bounds s d : Rabs s <= d -> exp (- d) <= exp s <= exp d.
Proof.
  intros H. apply Rabs_le_inv in H. assert (M: forall a b, a <= b -> exp a <= exp b).
  { intros a b [K | ->]; [left; apply exp_increasing; assumption|lra]. }
  split; apply M; lra.
Qed.
Lemma near_iff k x y : 0 < x -> (near k x y <-> x * exp (- (k * v)) <= y <= x * exp (k * v)).
Proof.
  intros Hx. split.
  - intros (s & H & ->). pose proof (exp_bounds s (k * v) H). nra.
  - intros (A & B). assert (0 < y) by (pose proof (exp_pos (- (k * v))); nra).
    exists (ln (y / x)). split.
    + assert (P: 0 < y / x) by (apply Rdiv_lt_0_compat; assumption).
      assert (L1: - (k * v) <= ln (y / x)).
      { rewrite <- (ln_exp (- (k * v))). apply ln_le; [apply exp_pos|]. apply Rmult_le_reg_r with x; [assumption|]. unfold Rdiv. rewrite Rmult_assoc, Rinv_l; lra. }
      assert (L2: ln (y / x) <= k * v).
      { rewrite <- (ln_exp (k * v)). apply ln_le; [assumption|]. apply Rmult_le_reg_r with x; [assumption|]. unfold Rdiv. rewrite Rmult_assoc, Rinv_l; lra. }
      apply Rabs_le. lra.
    + rewrite exp_ln by (apply Rdiv_lt_0_compat; assumption). field. lra.
Qed.
Lemma near_add k x1 y1 x2 y2 : 0 <= x1 -> 0 <= x2 -> near k x1 y1 -> near k x2 y2 -> near k (x1 + x2) (y1 + y2).
Proof.
  intros [P1 | <-] [P2 | <-] H1 H2.
  - apply near_iff in H1, H2; [|assumption..]. apply near_iff; lra.
  - destruct H2 as (s & _ & ->). rewrite Rmult_0_l, !Rplus_0_r. assumption.
  - destruct H1 as (s & _ & ->). rewrite Rmult_0_l, !Rplus_0_l. assumption.
  - destruct H1 as (s & Hs & ->). destruct H2 as (t & _ & ->). exists s. split; [assumption|ring].
Qed.
Lemma exp_dev s : Rabs (exp s - 1) <= Rabs s * exp (Rabs s).
Proof.
  pose proof (exp_ineq1_le s) as A. pose proof (exp_ineq1_le (- s)) as B. pose proof (exp_pos s) as P.
  assert (E: exp s * exp (- s) = 1) by (rewrite <- exp_plus, Rplus_opp_r; apply exp_0).
  destruct (Rle_dec 0 s) as [H | H].
  - rewrite (Rabs_right s) by lra. apply Rabs_le. split; nra.
  - rewrite (Rabs_left s) by lra. pose proof (exp_ineq1_le (- s)). apply Rabs_le. split; [nra|].
    assert (exp s <= 1). { rewrite <- exp_0. left. apply exp_increasing. lra. } nra.
Qed.
(** 1 / (1 - d) bounds exp d *)
Lemma exp_upper d : 0 <= d < 1 -> exp d <= / (1 - d).
Proof.
  intros H. pose proof (exp_ineq1_le (- d)). rewrite <- (Rinv_inv (exp d)). apply Rinv_le_contravar; [lra|].
  rewrite <- exp_Ropp. lra.
Qed.
Lemma near_dev k x y : near k x y -> k <= 2251799813685248 -> Rabs (y - x) <= k * (2 * u) * Rabs x.
Proof.
  intros N K. pose proof (near_nonneg _ _ _ N) as K0. destruct N as (s & H & ->).
  replace (x * exp s - x) with (x * (exp s - 1)) by ring. rewrite Rabs_mult, Rmult_comm.
  apply Rmult_le_compat_r; [apply Rabs_pos|]. eapply Rle_trans; [apply exp_dev|].
  pose proof v_pos. pose proof v_le2. pose proof u_pos.
  assert (A: Rabs s <= 26 / 100).
  { eapply Rle_trans; [exact H|]. apply Rle_trans with (2251799813685248 * (1001 / 1000 * u)).
    - apply Rmult_le_compat; lra. - unfold u. lra. }
  assert (B: exp (Rabs s) <= 136 / 100).
  { eapply Rle_trans; [apply exp_upper; pose proof (Rabs_pos s); lra|].
    apply Rle_trans with (/ (74 / 100)); [apply Rinv_le_contravar; lra|lra]. }
  pose proof (Rabs_pos s). pose proof (exp_pos (Rabs s)).
  apply Rle_trans with ((k * v) * (136 / 100)); [apply Rmult_le_compat; lra|].
  apply Rle_trans with ((k * (1001 / 1000 * u)) * (136 / 100)); [|nra].
  apply Rmult_le_compat_r; [lra|]. apply Rmult_le_compat_l; lra.
Qed.
(** from a plain relative error of at most 2 u (one unit in the last place) *)
Lemma near_of_ulp x y : Rabs (y - x) <= 2 * u * Rabs x -> near 3 x y.
Proof.
  intros H. pose proof u_pos. pose proof u_small. destruct (Req_dec x 0) as [-> | Hx].
  - rewrite Rabs_R0 in H. assert (y = 0).
    { pose proof (Rabs_pos (y - 0)). assert (Rabs (y - 0) = 0) by lra. destruct (Req_dec (y - 0) 0) as [?|C]; [lra|].
      apply Rabs_no_R0 in C. lra. }
    subst. apply near_refl. lra.
  - set (d := y / x - 1). assert (D: Rabs d <= 2 * u).
    { unfold d. replace (y / x - 1) with ((y - x) / x) by (field; assumption). unfold Rdiv. rewrite Rabs_mult, Rabs_inv.
      pose proof (Rabs_pos_lt x Hx). apply Rmult_le_reg_r with (Rabs x); [assumption|]. rewrite Rmult_assoc, Rinv_l; lra. }
    apply Rabs_le_inv in D. exists (ln (1 + d)). split.
    + pose proof v_ge. pose proof v_le2.
      apply Rabs_le. split.
      * assert (- ln (1 + d) <= 3 * v); [|lra]. rewrite <- ln_Rinv by lra.
        eapply Rle_trans; [apply ln_le_sub1, Rinv_0_lt_compat; lra|].
        apply Rle_trans with (3 * u); [|lra]. apply Rmult_le_reg_r with (1 + d); [lra|].
        rewrite Rmult_minus_distr_r, Rinv_l by lra. nra.
      * eapply Rle_trans; [apply ln_le_sub1; lra|]. lra.
    + rewrite exp_ln by lra. unfold d. field. assumption.
Qed.
Lemma near_fl x : near 1 x (fl x).
Proof.
  destruct (relative_error_N_FLX_ex radix2 53 ltac:(lia) (fun n => negb (Z.even n)) x) as (eps & He & E).
  unfold fl. rewrite E. clear E.
  replace (/ 2 * bpow radix2 (- (53) + 1)) with u in He.
  2:{ rewrite u_bpow. change (/ 2) with (bpow radix2 (-1)). rewrite <- bpow_plus. reflexivity. }
  pose proof u_pos. pose proof u_small. apply Rabs_le_inv in He.
  exists (ln (1 + eps)). rewrite exp_ln by lra. split; [|reflexivity].
  apply Rabs_le. split.
  - unfold v. assert (ln (1 - u) <= ln (1 + eps)) by (apply ln_le; lra). lra.
  - pose proof (ln_le_sub1 (1 + eps)). pose proof v_ge. lra.
Qed.
Lemma near_fl_of k x y : near k x y -> near (k + 1) x (fl y).
Proof. intros. eapply near_trans; [eassumption|apply near_fl]. Qed.
Lemma fl_double x : is_double x -> fl x = x.
Proof. intros. apply round_generic; [apply valid_rnd_N|assumption]. Qed.
Lemma fl_0 : fl 0 = 0. Proof. apply round_0. apply valid_rnd_N. Qed.
Lemma fl_opp x : fl (- x) = - fl x.
Proof. unfold fl. apply round_NE_opp. Qed.
Lemma is_double_fl x : is_double (fl x).
Proof. apply generic_format_round; [apply FLX_exp_valid; reflexivity|apply valid_rnd_N]. Qed.
Lemma is_double_1 : is_double 1.
Proof.
  change 1 with (bpow radix2 0). apply generic_format_bpow. unfold FLX_exp. lia.
Qed.

Ltac fnear := first
 [ eassumption
 | apply near_fl_of; fnear
 | apply near_opp; fnear
 ].

(** Sums in any order *)
Lemma sumR_app a b : sumR (a ++ b) = sumR a + sumR b.
Proof. induction a; cbn; [ring|rewrite IHa; ring]. Qed.
Lemma sumR_perm a b : Permutation a b -> sumR a = sumR b.
Proof. induction 1; cbn; lra. Qed.
Lemma sumR_nn l : List.Forall (fun x => 0 <= x) l -> 0 <= sumR l.
Proof. induction 1; cbn; lra. Qed.
Lemma fsum1_len l s : fsum1 l s -> (1 <= List.length l)%nat.
Proof. induction 1; cbn [List.length]; [lia|rewrite app_length; lia|]. apply Permutation_length in H. lia. Qed.

Lemma Forall2_flip {A B} (P : A -> B -> Prop) l1 l2 : Forall2 P l1 l2 -> Forall2 (fun b a => P a b) l2 l1.
Proof. induction 1; constructor; assumption. Qed.
Lemma fsum1_near k : forall ys s, fsum1 ys s -> forall xs, Forall2 (fun x y => 0 <= x /\ near k x y) xs ys ->
  near (k + INR (List.length ys) - 1) (sumR xs) s.
Proof.
  induction 1 as [y | ys1 ys2 a b H1 IH1 H2 IH2 | ys1 ys2 a P H1 IH1]; intros xs F.
  - inversion F as [|x ? ? ? (Hx & N) F']; subst. inversion F'; subst. cbn. rewrite Rplus_0_r. eapply near_weaken; [eassumption|lra].
  - apply Forall2_app_inv_r in F. destruct F as (xs1 & xs2 & F1 & F2 & ->).
    pose proof (fsum1_len _ _ H1) as L1. pose proof (fsum1_len _ _ H2) as L2.
    specialize (IH1 _ F1). specialize (IH2 _ F2). rewrite sumR_app.
    assert (N1: forall l1 l2, Forall2 (fun x y => 0 <= x /\ near k x y) l1 l2 -> List.Forall (fun x => 0 <= x) l1).
    { clear. induction 1; constructor; tauto. }
    rewrite app_length, plus_INR. apply le_INR in L1, L2. cbn in L1, L2.
    replace (k + (INR (List.length ys1) + INR (List.length ys2)) - 1)
      with ((k + (INR (List.length ys1) + INR (List.length ys2)) - 2) + 1) by ring.
    apply near_fl_of. apply near_add.
    + apply sumR_nn. eapply N1; eassumption. + apply sumR_nn. eapply N1; eassumption.
    + eapply near_weaken; [eassumption|lra]. + eapply near_weaken; [eassumption|lra].
  - pose proof (Permutation_length P) as PL. apply Permutation_sym in P.
    apply Forall2_flip in F. destruct (Permutation_Forall2 P F) as (xs' & Px & F').
    rewrite (sumR_perm _ _ Px). rewrite <- PL. apply IH1. apply Forall2_flip in F'. exact F'.
Qed.
