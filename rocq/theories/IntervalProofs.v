(** Intervals of non-negative fixed-point numbers (units of 2^-36), for the numerical
    theorems on integrals over photon energies. *)
From Coq Require Import Reals ZArith List Lra Lia.
From Coquelicot Require Import Coquelicot.
From Verif Require Import TrapzProofs ConvProofs ErrProofs.
Local Open Scope R_scope.

Definition SC : Z := 68719476736%Z.
Definition shr (x : Z) : Z := Z.shiftr x 36.
Lemma SC_pos : 0 < IZR SC. Proof. apply IZR_lt. reflexivity. Qed.
Lemma div_lo a b : (0 < b)%Z -> IZR (a / b) <= IZR a / IZR b.
Proof.
  intros H. assert (0 < IZR b) by (apply IZR_lt; assumption). apply Rmult_le_reg_r with (IZR b); [assumption|].
  unfold Rdiv. rewrite Rmult_assoc, Rinv_l, Rmult_1_r by lra. rewrite <- mult_IZR. apply IZR_le. rewrite Z.mul_comm. apply Z.mul_div_le. assumption.
Qed.
Lemma div_hi a b : (0 < b)%Z -> IZR a / IZR b <= IZR (a / b + 1).
Proof.
  intros H. assert (0 < IZR b) by (apply IZR_lt; assumption). apply Rmult_le_reg_r with (IZR b); [assumption|].
  unfold Rdiv. rewrite Rmult_assoc, Rinv_l, Rmult_1_r by lra. rewrite <- mult_IZR. apply IZR_le.
  pose proof (Z.mul_succ_div_gt a b H). lia.
Qed.
Lemma mul_lo x y a b : (0 <= a)%Z -> (0 <= b)%Z -> IZR a <= x * IZR SC -> IZR b <= y * IZR SC -> 0 <= x -> 0 <= y ->
  (0 <= a * b / SC)%Z /\ IZR (a * b / SC) <= x * y * IZR SC.
Proof.
  intros A B Ha Hb Hx Hy. pose proof SC_pos as S. split; [apply Z.div_pos; [nia|reflexivity]|].
  apply Rle_trans with (1 := div_lo (a * b) SC eq_refl). rewrite mult_IZR.
  apply Rmult_le_reg_r with (IZR SC); [assumption|]. replace (IZR a * IZR b / IZR SC * IZR SC) with (IZR a * IZR b) by (field; lra).
  replace (x * y * IZR SC * IZR SC) with ((x * IZR SC) * (y * IZR SC)) by ring.
  apply Rmult_le_compat; try assumption; apply IZR_le; assumption.
Qed.
Lemma mul_hi x y a b : (0 <= a)%Z -> (0 <= b)%Z -> x * IZR SC <= IZR a -> y * IZR SC <= IZR b -> 0 <= x -> 0 <= y ->
  (0 <= a * b / SC + 1)%Z /\ x * y * IZR SC <= IZR (a * b / SC + 1).
Proof.
  intros A B Ha Hb Hx Hy. pose proof SC_pos as S. split. { assert (0 <= a * b / SC)%Z by (apply Z.div_pos; [nia|reflexivity]). lia. }
  apply Rle_trans with (2 := div_hi (a * b) SC eq_refl). rewrite mult_IZR.
  apply Rmult_le_reg_r with (IZR SC); [assumption|]. replace (IZR a * IZR b / IZR SC * IZR SC) with (IZR a * IZR b) by (field; lra).
  replace (x * y * IZR SC * IZR SC) with ((x * IZR SC) * (y * IZR SC)) by ring.
  apply Rmult_le_compat; try assumption; apply Rmult_le_pos; lra.
Qed.
Lemma shr_div x : shr x = (x / SC)%Z.
Proof. unfold shr. rewrite Z.shiftr_div_pow2 by discriminate. reflexivity. Qed.

Definition itv := (Z * Z)%type.
Definition has (i : itv) (v : R) : Prop := (0 <= fst i)%Z /\ IZR (fst i) <= v * IZR SC /\ v * IZR SC <= IZR (snd i).
Definition imul (a b : itv) : itv := (shr (fst a * fst b), shr (snd a * snd b) + 1)%Z.
Definition iadd (a b : itv) : itv := (fst a + fst b, snd a + snd b)%Z.
Definition idiv (a b : itv) : itv := (fst a * SC / snd b, snd a * SC / fst b + 1)%Z.
Definition icst (p q : Z) : itv := (p * SC / q, p * SC / q + 1)%Z.
Definition ihull (a b : itv) : itv := (fst a, snd b).
Fixpoint ipow (a : itv) (n : nat) : itv := match n with O => (SC, SC) | S n => imul a (ipow a n) end.

Lemma has_nonneg i v : has i v -> 0 <= v.
Proof. intros (H & L & _). pose proof SC_pos. apply IZR_le in H. destruct (Rle_lt_dec 0 v) as [C|C]; [exact C|]. exfalso. assert (0 < - v * IZR SC) by (apply Rmult_lt_0_compat; lra). lra. Qed.
Lemma has_hi i v : has i v -> (0 <= snd i)%Z.
Proof. intros H. pose proof (has_nonneg i v H). destruct H as (_ & _ & U). apply le_IZR. pose proof SC_pos. assert (0 <= v * IZR SC) by (apply Rmult_le_pos; lra). lra. Qed.
Lemma has_mul a b x y : has a x -> has b y -> has (imul a b) (x * y).
Proof.
  intros H K. pose proof (has_nonneg _ _ H) as N1. pose proof (has_nonneg _ _ K) as N2. pose proof (has_hi _ _ H) as N3. pose proof (has_hi _ _ K) as N4. destruct H as (H1 & H2 & H3), K as (K1 & K2 & K3).
  destruct (mul_lo x y _ _ H1 K1 H2 K2) as (A & B); try assumption. destruct (mul_hi x y (snd a) (snd b)) as (C & D); try assumption. unfold imul. rewrite !shr_div. split; [exact A|]. split; assumption.
Qed.
Lemma has_add a b x y : has a x -> has b y -> has (iadd a b) (x + y).
Proof. intros (H1 & H2 & H3) (K1 & K2 & K3). unfold has, iadd; cbn [fst snd]. rewrite !plus_IZR. split; [lia|]. split; lra. Qed.
Lemma has_div a b x y : has a x -> has b y -> (0 < fst b)%Z -> has (idiv a b) (x / y).
Proof.
  intros H K P. pose proof (has_nonneg _ _ H) as Hx. pose proof (has_hi _ _ H) as Hh. destruct H as (H1 & H2 & H3), K as (K1 & K2 & K3). pose proof SC_pos as S. assert (P': 0 < IZR (fst b)) by (apply IZR_lt; exact P).
  assert (Hy: 0 < y). { destruct (Rlt_dec 0 y) as [C|C]; [exact C|]. exfalso. assert (0 <= - y * IZR SC) by (apply Rmult_le_pos; lra). lra. }
  assert (Q: 0 < IZR (snd b)) by lra. assert (QZ: (0 < snd b)%Z) by (apply lt_IZR; exact Q).
  unfold has, idiv; cbn [fst snd]. split; [apply Z.div_pos; [apply Z.mul_nonneg_nonneg; [exact H1|discriminate]|exact QZ]|].
  assert (E: x / y * IZR SC = (x * IZR SC) * IZR SC / (y * IZR SC)) by (field; split; lra). rewrite E.
  assert (YS: 0 < y * IZR SC) by lra. split.
  - eapply Rle_trans; [apply div_lo; exact QZ|]. rewrite mult_IZR.
    assert (N: 0 <= IZR (fst a) * IZR SC). { apply Rmult_le_pos; [apply IZR_le; exact H1|lra]. }
    apply Rle_trans with (IZR (fst a) * IZR SC / (y * IZR SC)).
    + unfold Rdiv. apply Rmult_le_compat_l; [exact N|]. apply Rinv_le_contravar; lra.
    + unfold Rdiv. apply Rmult_le_compat_r; [left; apply Rinv_0_lt_compat; lra|]. apply Rmult_le_compat_r; lra.
  - eapply Rle_trans; [|apply div_hi; exact P]. rewrite mult_IZR.
    assert (N: 0 <= x * IZR SC * IZR SC). { apply Rmult_le_pos; [apply Rmult_le_pos; lra|lra]. }
    apply Rle_trans with (x * IZR SC * IZR SC / IZR (fst b)).
    + unfold Rdiv. apply Rmult_le_compat_l; [exact N|]. apply Rinv_le_contravar; lra.
    + unfold Rdiv. apply Rmult_le_compat_r; [left; apply Rinv_0_lt_compat; lra|]. apply Rmult_le_compat_r; lra.
Qed.
Lemma has_cst p q : (0 <= p)%Z -> (0 < q)%Z -> has (icst p q) (IZR p / IZR q).
Proof.
  intros Hp Hq. unfold has, icst; cbn [fst snd]. assert (0 < IZR q) by (apply IZR_lt; exact Hq). split; [apply Z.div_pos; [apply Z.mul_nonneg_nonneg; [exact Hp|discriminate]|exact Hq]|].
  replace (IZR p / IZR q * IZR SC) with (IZR (p * SC) / IZR q) by (rewrite mult_IZR; field; lra). split; [apply div_lo|apply div_hi]; exact Hq.
Qed.
Lemma has_one : has (SC, SC) 1.
Proof. split; [discriminate|]. cbn [fst snd]. lra. Qed.
Lemma has_pow a x n : has a x -> has (ipow a n) (x ^ n).
Proof. intros H. induction n as [|n IH]; cbn [ipow pow]; [exact has_one|]. apply has_mul; assumption. Qed.
Lemma has_hull a b x y z : has a x -> has b y -> x <= z <= y -> has (ihull a b) z.
Proof. intros (H1 & H2 & H3) (K1 & K2 & K3) Hz. pose proof SC_pos. unfold has, ihull; cbn [fst snd]. split; [exact H1|]. split; [apply Rle_trans with (1 := H2)|apply Rle_trans with (2 := K3)]; apply Rmult_le_compat_r; lra. Qed.
Lemma has_between a l h v : has a l -> has a h -> l <= v <= h -> has a v.
Proof. intros (H1 & H2 & H3) (K1 & K2 & K3) Hv. pose proof SC_pos. split; [exact H1|]. split; [apply Rle_trans with (1 := H2)|apply Rle_trans with (2 := K3)]; apply Rmult_le_compat_r; lra. Qed.
Lemma has_weaken a b v : has a v -> (0 <= fst b <= fst a)%Z -> (snd a <= snd b)%Z -> has b v.
Proof. intros (H1 & H2 & H3) (A & B) C. apply IZR_le in B, C. split; [exact A|]. split; lra. Qed.

(** the exponential of a small negative number *)
Definition cube (h : Z) : Z := ((shr ((shr (h * h) + 1) * h) + 1) / 6 + 1)%Z.
Definition iexpm (d : itv) : itv :=
  (SC - snd d + Z.shiftr (snd d * snd d) 37 - cube (snd d), SC - fst d + (Z.shiftr (fst d * fst d) 37 + 1))%Z.
Lemma cube_hi h : (0 <= h)%Z -> (IZR h / IZR SC) ^ 3 / 6 * IZR SC <= IZR (cube h).
Proof.
  intros Hh. pose proof SC_pos as S. unfold cube. rewrite !shr_div. set (d := IZR h / IZR SC). assert (D0: 0 <= d). { unfold d. apply Rmult_le_pos; [apply IZR_le; exact Hh|left; apply Rinv_0_lt_compat; exact S]. }
  assert (E: d * IZR SC <= IZR h) by (unfold d; right; field; lra).
  destruct (mul_hi d d h h Hh Hh E E D0 D0) as (P1 & P2). destruct (mul_hi (d * d) d _ h P1 Hh P2 E ltac:(nra) D0) as (P3 & P4).
  eapply Rle_trans; [|apply div_hi; reflexivity]. replace (d ^ 3 / 6 * IZR SC) with (d * d * d * IZR SC / 6) by field. unfold Rdiv. apply Rmult_le_compat_r; [lra|exact P4].
Qed.
Lemma exp_m_bounds d : 0 <= d <= 1 -> 1 - d + d ^ 2 / 2 - d ^ 3 / 6 <= exp (- d) <= 1 - d + d ^ 2 / 2.
Proof.
  intros [H0 H1]. destruct (Req_dec d 0) as [->|N]; [rewrite Ropp_0, exp_0; lra|].
  assert (K: forall (u du : R -> R) a, 0 < a -> (forall x, is_derive u x (du x)) -> (forall x, 0 <= x <= a -> 0 <= du x) -> u 0 <= u a).
  { intros u du a Ha D P. destruct (MVT_gen u 0 a du) as (c & Hc & EQ).
    - intros x _. apply D.
    - intros x _. apply continuity_pt_filterlim. apply (@ex_derive_continuous R_AbsRing R_NormedModule u x). exists (du x). apply D.
    - rewrite Rmin_left, Rmax_right in Hc by lra. assert (0 <= du c * (a - 0)) by (apply Rmult_le_pos; [apply P; lra|lra]). lra. }
  assert (E1: forall x, 0 <= x -> 0 <= exp (- x) - (1 - x)). { intros x Hx. pose proof (exp_ge_1p (- x)). lra. }
  assert (E2: forall x, 0 <= x -> exp (- x) <= 1 - x + x ^ 2 / 2).
  { intros x Hx. destruct (Req_dec x 0) as [->|Nx]; [rewrite Ropp_0, exp_0; lra|].
    pose proof (K (fun x => 1 - x + x ^ 2 / 2 - exp (- x)) (fun x => - 1 + x + exp (- x)) x) as Q.
    assert (Q': 1 - 0 + 0 ^ 2 / 2 - exp (- 0) <= 1 - x + x ^ 2 / 2 - exp (- x)).
    { apply Q; [lra| |]. - intros y. auto_derive; [exact Logic.I|field]. - intros y Hy. pose proof (E1 y (proj1 Hy)). lra. }
    rewrite Ropp_0, exp_0 in Q'. lra. }
  split; [|apply E2; lra].
  pose proof (K (fun x => exp (- x) - (1 - x + x ^ 2 / 2 - x ^ 3 / 6)) (fun x => 1 - x + x ^ 2 / 2 - exp (- x)) d) as Q.
  assert (Q': exp (- 0) - (1 - 0 + 0 ^ 2 / 2 - 0 ^ 3 / 6) <= exp (- d) - (1 - d + d ^ 2 / 2 - d ^ 3 / 6)).
  { apply Q; [lra| |]. - intros y. auto_derive; [exact Logic.I|field]. - intros y Hy. pose proof (E2 y (proj1 Hy)). lra. }
  rewrite Ropp_0, exp_0 in Q'. lra.
Qed.
Lemma has_expm i d : has i d -> (snd i <= SC)%Z -> (0 <= fst (iexpm i))%Z -> has (iexpm i) (exp (- d)).
Proof.
  intros H U F. pose proof (has_nonneg _ _ H) as Hd. destruct H as (H1 & H2 & H3). pose proof SC_pos as S. apply IZR_le in U.
  split; [exact F|]. clear F. unfold iexpm; cbn [fst snd]. set (l := fst i) in *. set (h := snd i) in *.
  set (s := IZR SC) in *. set (dl := IZR l / s). set (dh := IZR h / s).
  assert (L0: 0 <= dl). { unfold dl. apply Rmult_le_pos; [apply IZR_le; exact H1|left; apply Rinv_0_lt_compat; exact S]. }
  assert (L1: dl <= d). { unfold dl. apply Rmult_le_reg_r with s; [exact S|]. unfold Rdiv. rewrite Rmult_assoc, Rinv_l by lra. lra. }
  assert (L2: d <= dh). { unfold dh. apply Rmult_le_reg_r with s; [exact S|]. unfold Rdiv. rewrite Rmult_assoc, Rinv_l by lra. lra. }
  assert (L3: dh <= 1). { unfold dh. apply Rmult_le_reg_r with s; [exact S|]. unfold Rdiv. rewrite Rmult_assoc, Rinv_l by lra. lra. }
  destruct (exp_m_bounds dh) as (B1 & _); [lra|]. destruct (exp_m_bounds dl) as (_ & B2); [lra|].
  assert (M1: exp (- dh) <= exp (- d)) by (destruct (Req_dec d dh) as [->|]; [lra|left; apply exp_increasing; lra]).
  assert (M2: exp (- d) <= exp (- dl)) by (destruct (Req_dec d dl) as [->|]; [lra|left; apply exp_increasing; lra]).
  assert (EH: IZR h = dh * s) by (unfold dh; field; lra). assert (EL: IZR l = dl * s) by (unfold dl; field; lra).
  assert (SH: forall x, Z.shiftr x 37 = (x / (2 * SC))%Z). { intros x. rewrite Z.shiftr_div_pow2 by discriminate. reflexivity. }
  rewrite !SH. split.
  - assert (H0: (0 <= h)%Z). { apply le_IZR. fold s. pose proof (Rmult_le_pos dh s). lra. }
    pose proof (cube_hi h H0) as D2. fold s in D2. fold dh in D2. generalize dependent (cube h). intros cb D2.
    rewrite !minus_IZR, !plus_IZR. pose proof (div_lo (h * h) (2 * SC) eq_refl) as D1.
    rewrite !mult_IZR in D1. fold s in D1. rewrite minus_IZR. fold s. rewrite EH in *.
    replace (dh * s * (dh * s) / (2 * s)) with (dh ^ 2 / 2 * s) in D1 by (field; lra).
    assert (Q: (1 - dh + dh ^ 2 / 2 - dh ^ 3 / 6) * s <= exp (- d) * s) by (apply Rmult_le_compat_r; lra). lra.
  - rewrite !plus_IZR, minus_IZR. pose proof (div_hi (l * l) (2 * SC) eq_refl) as D1. rewrite plus_IZR in D1. rewrite !mult_IZR in D1. fold s in D1. fold s. rewrite EL in *.
    replace (dl * s * (dl * s) / (2 * s)) with (dl ^ 2 / 2 * s) in D1 by (field; lra).
    assert (Q: exp (- d) * s <= (1 - dl + dl ^ 2 / 2) * s) by (apply Rmult_le_compat_r; lra). lra.
Qed.

(** ** Weighted means *)
Lemma sc_R (f : R -> R) a b k v : is_RInt f a b v -> is_RInt (fun x => k * f x) a b (k * v).
Proof. intros H. exact (is_RInt_scal f a b k v H). Qed.
Lemma mean (f w : R -> R) a b W i : a < b -> 0 < W -> is_RInt w a b W -> (forall x, a <= x <= b -> 0 <= w x) ->
  (forall x, a <= x <= b -> has i (f x)) -> ex_RInt (fun x => f x * w x) a b -> exists m, has i m /\ RInt (fun x => f x * w x) a b = m * W.
Proof.
  intros AB PW IW W0 HI EX. assert (KK: forall v : R, v = v / W * W) by (intros; field; lra). exists (RInt (fun x => f x * w x) a b / W). split; [|apply KK].
  pose proof SC_pos as S. destruct (HI a ltac:(lra)) as (F & _).
  set (l := IZR (fst i) / IZR SC). set (h := IZR (snd i) / IZR SC).
  assert (B: forall x, a <= x <= b -> l <= f x <= h).
  { intros x Hx. destruct (HI x Hx) as (_ & A & C). unfold l, h. split; apply Rmult_le_reg_r with (IZR SC); try exact S; unfold Rdiv; rewrite Rmult_assoc, Rinv_l by lra; lra. }
  assert (L: l * W <= RInt (fun x => f x * w x) a b).
  { rewrite <- (is_RInt_unique _ _ _ _ (sc_R w a b l W IW)). apply RInt_le; [lra|eexists; apply (sc_R w a b l W IW)|exact EX|].
    intros x Hx. apply Rmult_le_compat_r; [apply W0; lra|apply B; lra]. }
  assert (U: RInt (fun x => f x * w x) a b <= h * W).
  { rewrite <- (is_RInt_unique _ _ _ _ (sc_R w a b h W IW)). apply RInt_le; [lra|exact EX|eexists; apply (sc_R w a b h W IW)|].
    intros x Hx. apply Rmult_le_compat_r; [apply W0; lra|apply B; lra]. }
  set (v := RInt (fun x => f x * w x) a b) in *.
  assert (L': l <= v / W). { apply Rmult_le_reg_r with W; [exact PW|]. unfold Rdiv. rewrite Rmult_assoc, Rinv_l by lra. lra. }
  assert (U': v / W <= h). { apply Rmult_le_reg_r with W; [exact PW|]. unfold Rdiv. rewrite Rmult_assoc, Rinv_l by lra. lra. }
  split; [exact F|]. unfold l, h in *. split.
  - apply (Rmult_le_compat_r (IZR SC)) in L'; [|lra]. unfold Rdiv at 1 in L'. rewrite Rmult_assoc, Rinv_l, Rmult_1_r in L' by lra. exact L'.
  - apply (Rmult_le_compat_r (IZR SC)) in U'; [|lra]. unfold Rdiv at 2 in U'. rewrite (Rmult_assoc (IZR (snd i))), Rinv_l, Rmult_1_r in U' by lra. exact U'.
Qed.
