(** Super-additivity of the log-log trapezoid (for property C111). *)
From Coq Require Import Reals ZArith List Lra Lia.
From Coquelicot Require Import Coquelicot.
From Verif Require Import SpectralProofs TrapzModel TrapzSpec TrapzProofs ConvProofs.
Import ListNotations.
Local Open Scope R_scope.

Lemma exp_tangent x m : exp m * (1 + (x - m)) <= exp x.
Proof.
  replace (exp x) with (exp m * exp (x - m)) by (rewrite <- exp_plus; apply (f_equal exp); ring).
  apply Rmult_le_compat_l; [apply Rlt_le, exp_pos|apply exp_ge_1p].
Qed.
Lemma exp_tangent_lt x m : x <> m -> exp m * (1 + (x - m)) < exp x.
Proof.
  intros H. replace (exp x) with (exp m * exp (x - m)) by (rewrite <- exp_plus; apply (f_equal exp); ring).
  apply Rmult_lt_compat_l; [apply exp_pos|]. apply exp_ineq1. lra.
Qed.
(** weighted arithmetic-geometric mean *)
Lemma amgm t u v : 0 <= t <= 1 -> exp ((1 - t) * u + t * v) <= (1 - t) * exp u + t * exp v.
Proof.
  intros Ht. set (m := (1 - t) * u + t * v). pose proof (exp_tangent u m) as A. pose proof (exp_tangent v m) as B.
  assert (E : exp m = (1 - t) * (exp m * (1 + (u - m))) + t * (exp m * (1 + (v - m)))) by (unfold m; ring).
  rewrite E. apply Rplus_le_compat; apply Rmult_le_compat_l; lra.
Qed.
Lemma amgm_lt t u v : 0 < t < 1 -> u <> v -> exp ((1 - t) * u + t * v) < (1 - t) * exp u + t * exp v.
Proof.
  intros Ht N. set (m := (1 - t) * u + t * v). pose proof (exp_tangent_lt u m) as A. pose proof (exp_tangent_lt v m) as B.
  assert (NU : u <> m) by (unfold m; nra). assert (NV : v <> m) by (unfold m; nra). specialize (A NU). specialize (B NV).
  assert (E : exp m = (1 - t) * (exp m * (1 + (u - m))) + t * (exp m * (1 + (v - m)))) by (unfold m; ring).
  rewrite E. apply Rplus_lt_compat; apply Rmult_lt_compat_l; lra.
Qed.

(** geometric interpolation, t = 0 gives a, t = 1 gives b *)
Definition geo (t a b : R) : R := exp ((1 - t) * ln a + t * ln b).
Lemma geo_super t a b c d : 0 <= t <= 1 -> 0 < a -> 0 < b -> 0 < c -> 0 < d -> geo t a b + geo t c d <= geo t (a + c) (b + d).
Proof.
  intros Ht Ha Hb Hc Hd. unfold geo. set (A := ln (a + c)). set (B := ln (b + d)).
  assert (EA : exp A = a + c) by (apply exp_ln; lra). assert (EB : exp B = b + d) by (apply exp_ln; lra).
  pose proof (amgm t (ln a - A) (ln b - B) Ht) as P. pose proof (amgm t (ln c - A) (ln d - B) Ht) as Q.
  assert (D : forall x y, 0 < x -> exp (ln x - y) = x / exp y).
  { intros x y Hx. unfold Rminus. rewrite exp_plus, exp_Ropp, exp_ln by exact Hx. reflexivity. }
  rewrite !D in P, Q by assumption. rewrite EA, EB in P, Q.
  set (G := exp ((1 - t) * A + t * B)). assert (PG : 0 < G) by apply exp_pos.
  assert (F1 : exp ((1 - t) * ln a + t * ln b) = G * exp ((1 - t) * (ln a - A) + t * (ln b - B))) by (unfold G; rewrite <- exp_plus; apply (f_equal exp); ring).
  assert (F2 : exp ((1 - t) * ln c + t * ln d) = G * exp ((1 - t) * (ln c - A) + t * (ln d - B))) by (unfold G; rewrite <- exp_plus; apply (f_equal exp); ring).
  rewrite F1, F2, <- Rmult_plus_distr_l. rewrite <- (Rmult_1_r G) at 2. apply Rmult_le_compat_l; [lra|].
  assert (S : (1 - t) * (a / (a + c)) + t * (b / (b + d)) + ((1 - t) * (c / (a + c)) + t * (d / (b + d))) = 1) by (field; lra). lra.
Qed.
Lemma geo_super_lt t a b c d : 0 < t < 1 -> 0 < a -> 0 < b -> 0 < c -> 0 < d -> a * d <> b * c -> geo t a b + geo t c d < geo t (a + c) (b + d).
Proof.
  intros Ht Ha Hb Hc Hd N. unfold geo. set (A := ln (a + c)). set (B := ln (b + d)).
  assert (EA : exp A = a + c) by (apply exp_ln; lra). assert (EB : exp B = b + d) by (apply exp_ln; lra).
  assert (D : forall x y, 0 < x -> exp (ln x - y) = x / exp y).
  { intros x y Hx. unfold Rminus. rewrite exp_plus, exp_Ropp, exp_ln by exact Hx. reflexivity. }
  assert (N1 : ln a - A <> ln b - B).
  { intros E. apply (f_equal exp) in E. rewrite !D, EA, EB in E by assumption. apply N.
    assert (E' : a * (b + d) = b * (a + c)) by (replace (a * (b + d)) with (a / (a + c) * ((a + c) * (b + d))) by (field; lra); rewrite E; field; lra). lra. }
  pose proof (amgm_lt t (ln a - A) (ln b - B) Ht N1) as P. pose proof (amgm t (ln c - A) (ln d - B) ltac:(lra)) as Q.
  rewrite !D in P, Q by assumption. rewrite EA, EB in P, Q.
  set (G := exp ((1 - t) * A + t * B)). assert (PG : 0 < G) by apply exp_pos.
  assert (F1 : exp ((1 - t) * ln a + t * ln b) = G * exp ((1 - t) * (ln a - A) + t * (ln b - B))) by (unfold G; rewrite <- exp_plus; apply (f_equal exp); ring).
  assert (F2 : exp ((1 - t) * ln c + t * ln d) = G * exp ((1 - t) * (ln c - A) + t * (ln d - B))) by (unfold G; rewrite <- exp_plus; apply (f_equal exp); ring).
  rewrite F1, F2, <- Rmult_plus_distr_l. rewrite <- (Rmult_1_r G) at 2. apply Rmult_lt_compat_l; [lra|].
  assert (S : (1 - t) * (a / (a + c)) + t * (b / (b + d)) + ((1 - t) * (c / (a + c)) + t * (d / (b + d))) = 1) by (field; lra). lra.
Qed.

Lemma through_geo x1 x2 a b x : 0 < x1 -> x1 < x2 -> 0 < a -> 0 < b -> through x1 x2 a b x = geo (ln (x / x1) / ln (x2 / x1)) a b.
Proof.
  intros H1 H2 Ha Hb. pose proof (ln_ratio_pos _ _ H1 H2) as HL. unfold through, geo, Rpower. rewrite (ln_div b a) by auto.
  rewrite <- (exp_ln a) at 1 by auto. rewrite <- exp_plus. apply (f_equal exp). field. lra.
Qed.
Lemma through_t x1 x2 x : 0 < x1 -> x1 < x2 -> x1 <= x <= x2 -> 0 <= ln (x / x1) / ln (x2 / x1) <= 1.
Proof.
  intros H1 H2 Hx. pose proof (ln_ratio_pos _ _ H1 H2) as HL.
  assert (Hl : 0 <= ln (x / x1) <= ln (x2 / x1)).
  { rewrite !ln_div by lra. assert (ln x1 <= ln x) by (destruct (Req_dec x1 x) as [->|]; [lra|apply Rlt_le, ln_increasing; lra]).
    assert (ln x <= ln x2) by (destruct (Req_dec x2 x) as [->|]; [lra|apply Rlt_le, ln_increasing; lra]). lra. }
  split; [apply Rmult_le_pos; [lra|apply Rlt_le, Rinv_0_lt_compat; lra]|].
  apply Rmult_le_reg_r with (ln (x2 / x1)); [lra|]. unfold Rdiv at 1. rewrite Rmult_assoc, Rinv_l by lra. lra.
Qed.
Lemma through_t_lt x1 x2 x : 0 < x1 -> x1 < x2 -> x1 < x < x2 -> 0 < ln (x / x1) / ln (x2 / x1) < 1.
Proof.
  intros H1 H2 Hx. pose proof (ln_ratio_pos _ _ H1 H2) as HL.
  assert (Hl : 0 < ln (x / x1) < ln (x2 / x1)).
  { rewrite !ln_div by lra. assert (ln x1 < ln x) by (apply ln_increasing; lra). assert (ln x < ln x2) by (apply ln_increasing; lra). lra. }
  split; [apply div_pos; lra|]. apply Rmult_lt_reg_r with (ln (x2 / x1)); [lra|]. unfold Rdiv at 1. rewrite Rmult_assoc, Rinv_l by lra. lra.
Qed.
Lemma through_super x1 x2 a b c d x : 0 < x1 -> x1 < x2 -> 0 < a -> 0 < b -> 0 < c -> 0 < d -> x1 <= x <= x2 ->
  through x1 x2 a b x + through x1 x2 c d x <= through x1 x2 (a + c) (b + d) x.
Proof. intros. rewrite !through_geo by lra. apply geo_super; try assumption. apply through_t; assumption. Qed.

Lemma through_pos x1 x2 a b x : 0 < a -> 0 < through x1 x2 a b x.
Proof. intros. unfold through. apply Rmult_lt_0_compat; [assumption|apply exp_pos]. Qed.
Lemma through_cont x1 x2 a b x : 0 < x1 -> 0 < x -> continuity_pt (through x1 x2 a b) x.
Proof.
  intros H1 Hx. apply continuity_pt_filterlim. unfold through, Rpower.
  apply (ex_derive_continuous (fun x : R => a * exp (ln (b / a) / ln (x2 / x1) * ln (x / x1)))).
  auto_derive. apply div_pos; assumption.
Qed.
Lemma through_int x1 x2 a b : 0 < x1 -> x1 < x2 -> ex_RInt (through x1 x2 a b) x1 x2.
Proof. intros. apply ex_RInt_cont; [lra|]. intros x Hx. apply through_cont; lra. Qed.

(** a bin against the exact integral of the power law through its ends *)
Lemma bin_exact x1 x2 a b r : 0 < x1 -> x1 < x2 -> x2 / x1 <= r -> 0 < a -> 0 < b ->
  interval x1 x2 a b <= Rpower r window_eps * RInt (through x1 x2 a b) x1 x2 /\
  RInt (through x1 x2 a b) x1 x2 <= Rpower r window_eps * interval x1 x2 a b.
Proof.
  intros H1 H2 Hr Ha Hb. pose proof (ln_ratio_pos _ _ H1 H2) as HL.
  set (k := ln (b / a) / ln (x2 / x1)).
  destruct (bin_relative (through x1 x2 a b) x1 x2 k k r H1 H2 Hr) as [P Q].
  - intros x Hx. split; [apply through_cont; lra|apply through_pos; assumption].
  - intros x y Hx Hxy Hy. unfold through. fold k.
    assert (E : a * Rpower (x / x1) k * Rpower (y / x) k = a * Rpower (y / x1) k).
    { rewrite Rmult_assoc, Rpower_mult_distr by (apply div_pos; lra). f_equal. f_equal. field. lra. }
    lra.
  - assert (E1 : through x1 x2 a b x1 = a).
    { rewrite through_geo by assumption. unfold geo. replace (ln (x1 / x1)) with 0 by (rewrite <- ln_1; f_equal; field; lra).
      replace ((1 - 0 / ln (x2 / x1)) * ln a + 0 / ln (x2 / x1) * ln b) with (ln a) by (field; lra). apply exp_ln. exact Ha. }
    assert (E2 : through x1 x2 a b x2 = b).
    { rewrite through_geo by assumption. unfold geo.
      replace ((1 - ln (x2 / x1) / ln (x2 / x1)) * ln a + ln (x2 / x1) / ln (x2 / x1) * ln b) with (ln b) by (field; lra). apply exp_ln. exact Hb. }
    rewrite E1, E2 in P, Q. replace (k - k + window_eps) with window_eps in P, Q by ring. split; assumption.
Qed.

(** a bin with a zero end contributes nothing *)
Lemma interval_cases x1 x2 a b : 0 <= a -> 0 <= b -> (0 < a /\ 0 < b) \/ interval x1 x2 a b = 0.
Proof.
  intros. unfold interval. destruct (Req_EM_T a 0); [right; reflexivity|]. destruct (Req_EM_T b 0); [right; reflexivity|]. left. lra.
Qed.
Lemma bin_super x1 x2 r f1 f2 g1 g2 h1 h2 : 0 < x1 -> x1 < x2 -> x2 / x1 <= r ->
  0 <= f1 -> 0 <= f2 -> 0 <= g1 -> 0 <= g2 -> f1 + g1 <= h1 -> f2 + g2 <= h2 ->
  interval x1 x2 f1 f2 + interval x1 x2 g1 g2 <= Rpower r (2 * window_eps) * interval x1 x2 h1 h2.
Proof.
  intros H1 H2 Hr F1 F2 G1 G2 L1 L2. pose proof window_pos as W.
  replace (2 * window_eps) with (window_eps + window_eps) by ring. rewrite Rpower_plus.
  set (w := Rpower r window_eps). assert (PW : 0 < w) by apply exp_pos.
  pose proof (interval_nonneg x1 x2 h1 h2 H1 ltac:(lra) ltac:(lra) ltac:(lra)) as H0.
  assert (XM : forall a b c d, 0 < a -> 0 < b -> a <= c -> b <= d -> RInt (through x1 x2 a b) x1 x2 <= RInt (through x1 x2 c d) x1 x2).
  { intros a b c d A B C D. apply RInt_le; [lra|apply through_int; assumption|apply through_int; assumption|]. intros x Hx. apply through_mono; lra. }
  assert (ONE : forall a b, 0 < a -> 0 < b -> a <= h1 -> b <= h2 -> interval x1 x2 a b <= w * w * interval x1 x2 h1 h2).
  { intros a b A B C D. destruct (bin_exact x1 x2 a b r H1 H2 Hr A B) as [P _]. destruct (bin_exact x1 x2 h1 h2 r H1 H2 Hr ltac:(lra) ltac:(lra)) as [_ Q].
    fold w in P, Q. apply Rle_trans with (1 := P). rewrite Rmult_assoc. apply Rmult_le_compat_l; [lra|]. apply Rle_trans with (2 := Q). apply XM; lra. }
  destruct (interval_cases x1 x2 f1 f2 F1 F2) as [[Pf1 Pf2]|Zf], (interval_cases x1 x2 g1 g2 G1 G2) as [[Pg1 Pg2]|Zg].
  - destruct (bin_exact x1 x2 f1 f2 r H1 H2 Hr Pf1 Pf2) as [P _]. destruct (bin_exact x1 x2 g1 g2 r H1 H2 Hr Pg1 Pg2) as [Q _].
    destruct (bin_exact x1 x2 h1 h2 r H1 H2 Hr ltac:(lra) ltac:(lra)) as [_ S]. fold w in P, Q, S.
    assert (X : RInt (through x1 x2 f1 f2) x1 x2 + RInt (through x1 x2 g1 g2) x1 x2 <= RInt (through x1 x2 h1 h2) x1 x2).
    { apply Rle_trans with (RInt (through x1 x2 (f1 + g1) (f2 + g2)) x1 x2); [|apply XM; lra].
      assert (E : RInt (fun x => through x1 x2 f1 f2 x + through x1 x2 g1 g2 x) x1 x2 = RInt (through x1 x2 f1 f2) x1 x2 + RInt (through x1 x2 g1 g2) x1 x2)
        by exact (RInt_plus (through x1 x2 f1 f2) (through x1 x2 g1 g2) x1 x2 (through_int x1 x2 f1 f2 H1 H2) (through_int x1 x2 g1 g2 H1 H2)).
      rewrite <- E. apply RInt_le; [lra| |apply through_int; assumption|].
      - apply (ex_RInt_plus (through x1 x2 f1 f2) (through x1 x2 g1 g2)); apply through_int; assumption.
      - intros x Hx. apply through_super; lra. }
    apply Rle_trans with (w * (RInt (through x1 x2 f1 f2) x1 x2 + RInt (through x1 x2 g1 g2) x1 x2)); [lra|].
    rewrite Rmult_assoc. apply Rmult_le_compat_l; [lra|]. lra.
  - rewrite Zg, Rplus_0_r. apply ONE; lra.
  - rewrite Zf, Rplus_0_l. apply ONE; lra.
  - rewrite Zf, Zg, Rplus_0_l. apply Rmult_le_pos; [|exact H0]. apply Rmult_le_pos; lra.
Qed.

Lemma trapz_super r (f g h : R -> R) xs : grid xs -> ratio_le r xs ->
  (forall x, In x xs -> 0 <= f x /\ 0 <= g x /\ f x + g x <= h x) ->
  trapz_loglog (map f xs) xs + trapz_loglog (map g xs) xs <= Rpower r (2 * window_eps) * trapz_loglog (map h xs) xs.
Proof.
  induction xs as [|x1 xs IH]; intros G RL HF; [unfold trapz_loglog; simpl; lra|].
  destruct xs as [|x2 xs]; [unfold trapz_loglog; simpl; lra|].
  destruct (grid_cons2 _ _ _ G) as (P1 & P2 & G'). destruct RL as [R1 R2].
  specialize (IH G' R2 ltac:(intros x Hx; apply HF; right; exact Hx)).
  cbn [map] in *. rewrite !trapz_cons2.
  destruct (HF x1 ltac:(simpl; auto)) as (A1 & A2 & A3). destruct (HF x2 ltac:(simpl; auto)) as (B1 & B2 & B3).
  pose proof (bin_super x1 x2 r (f x1) (f x2) (g x1) (g x2) (h x1) (h x2) P1 P2 R1 A1 B1 A2 B2 A3 B3). lra.
Qed.
