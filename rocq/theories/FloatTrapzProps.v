(** C117: rounding errors of the log-log integration. *)
From Coq Require Import Reals List ZArith Lra Lia.
From Flocq Require Import Raux.
From Coquelicot Require Import Coquelicot.
From Verif Require Import TrapzModel TrapzSpec TrapzProofs CoreModel FloatModel FloatProofs FloatProps FloatTrapzModel FloatTrapzProofs.
Import ListNotations.
Local Open Scope R_scope.

(** ** Specification *)
(** the C library, including log10, is accurate to one unit in the last place *)
Definition lib_ok (L : libm) (lg : R -> R) : Prop :=
  libm_1ulp L /\ (forall x, 0 < x -> within 1 (ln x / ln 10) (lg x)).
(** [la] and [b] are the logarithmic width and the local index of a bin that is neither
    extremely narrow or wide nor extremely steep *)
Definition ordinary_bin (x1 x2 y1 y2 la b : R) : Prop :=
  0 < x1 < x2 /\ 0 < y1 /\ 0 < y2 /\ la = ln (x2 / x1) /\ b = ln (y2 / y1) / la /\
  (1 + Rabs b) * (1 + / la) <= 10 ^ 7 /\ (1 + Rabs b) * (1 + la) <= 10 ^ 7.

Lemma I_unique x1 x2 y1 y2 la b I : ordinary_bin x1 x2 y1 y2 la b -> is_RInt (through x1 x2 y1 y2) x1 x2 I ->
  I = x1 * y1 * G la (b + 1) /\ 0 < la /\ 0 < I.
Proof.
  intros ((H1 & H2) & H3 & H4 & -> & -> & _) HI.
  pose proof (through_G x1 x2 y1 y2 H1 H2 H3 H4) as K. cbv zeta in K.
  pose proof (is_RInt_unique _ _ _ _ HI) as A. pose proof (is_RInt_unique _ _ _ _ K) as B. rewrite A in B. clear A. subst I.
  pose proof (ln_ratio_pos x1 x2 H1 H2) as P. split; [reflexivity|]. split; [assumption|].
  apply Rmult_lt_0_compat; [apply Rmult_lt_0_compat; assumption|]. apply G_pos. assumption.
Qed.
Lemma finterval_raw L lg x1 x2 y1 y2 : x1 < x2 -> 0 < y1 -> 0 < y2 -> finterval L lg x1 x2 y1 y2 = fraw_interval L lg x1 x2 y1 y2.
Proof. intros. unfold finterval. destruct (Req_EM_T y1 0); [lra|]. destruct (Req_EM_T y2 0); [lra|]. destruct (Req_EM_T x1 x2); [lra|]. reflexivity. Qed.
Lemma fraw_same L lg x1 x2 y1 y2 : 0 <= y1 * y2 -> fraw_interval L lg x1 x2 y1 y2 =
  (let b := flocal_index lg x1 x2 y1 y2 in
   if Rlt_dec (fl (/ 10 ^ 10)) (Rabs (fadd b 1)) then fdiv (fmul y1 (fsub (fmul x2 (lpow L (fdiv x2 x1) b)) x1)) (fadd b 1)
   else fmul (fmul x1 y1) (llog L (fdiv x2 x1))).
Proof. intros H. unfold fraw_interval. destruct (Rlt_dec (y1 * y2) 0); [lra|reflexivity]. Qed.
Lemma eps_near : 99 / 100 * / 10 ^ 10 <= fl (/ 10 ^ 10) <= 101 / 100 * / 10 ^ 10.
Proof.
  pose proof (near_dev 1 _ _ (near_fl (/ 10 ^ 10))) as H. rewrite (Rabs_right (/ 10 ^ 10)) in H by lra.
  assert (H': Rabs (fl (/ 10 ^ 10) - / 10 ^ 10) <= 1 * (2 * u) * / 10 ^ 10) by (apply H; lra).
  apply Rabs_le_inv in H'. pose proof u_small. pose proof u_pos. lra.
Qed.

(** Away from index -1 a bin is accurate to a few units in the last place times the
    condition number 1 / |(b + 1) la|. *)
Theorem C117_bin : forall L lg x1 x2 y1 y2 la b I,
  lib_ok L lg -> ordinary_bin x1 x2 y1 y2 la b -> / 10 ^ 6 <= Rabs (b + 1) ->
  is_RInt (through x1 x2 y1 y2) x1 x2 I ->
  Rabs (finterval L lg x1 x2 y1 y2 - I)
    <= 43 * / 2 ^ 53 * ((1 + Rabs b) * (1 + la)) * (1 + / (Rabs (b + 1) * la)) * I.
Proof.
  intros L lg x1 x2 y1 y2 la b I (HL & Hlg) OB Hb HI. destruct (I_unique _ _ _ _ _ _ _ OB HI) as (-> & P & IP).
  destruct OB as ((H1 & H2) & H3 & H4 & -> & Eb & HT & HS). rewrite finterval_raw by assumption. subst b.
  pose proof (c_err lg Hlg x1 x2 y1 y2 H1 H2 H3 H4 HT HS) as Y.
  pose proof (general_branch L lg HL Hlg x1 x2 y1 y2 H1 H2 H3 H4 HT HS) as GB.
  destruct (bounds x1 x2 y1 y2 H1 H2 HT HS) as (BT & BS & _).
  set (la := ln (x2 / x1)) in *. set (b := ln (y2 / y1) / la) in *. rewrite fraw_same by nra. cbv zeta.
  set (c' := fadd (flocal_index lg x1 x2 y1 y2) 1) in *.
  assert (C: 98 / 100 * Rabs (b + 1) <= Rabs c').
  { assert (Rabs (b + 1) <= Rabs c' + Rabs (c' - (b + 1))).
    { replace (b + 1) with (c' + - (c' - (b + 1))) at 1 by ring. eapply Rle_trans; [apply Rabs_triang|]. rewrite Rabs_Ropp. lra. }
    pose proof v_tiny as VT. pose proof v_pos as V0.
    assert (v * ((1 + Rabs b) * (1 + / la)) <= 112 / 100 * / 10 ^ 16 * 10 ^ 7).
    { apply Rmult_le_compat; try lra. apply Rmult_le_pos; [pose proof (Rabs_pos b); lra|pose proof (Rinv_0_lt_compat _ P); lra]. }
    lra. }
  pose proof eps_near as EN.
  destruct (Rlt_dec (fl (/ 10 ^ 10)) (Rabs c')) as [_|N]; [|exfalso; lra].
  assert (C0: c' <> 0). { intros E. rewrite E, Rabs_R0 in C. lra. }
  eapply Rle_trans; [apply GB; assumption|]. apply Rmult_le_compat_r; [lra|].
  set (S := (1 + Rabs b) * (1 + la)) in *. set (k := / (Rabs (b + 1) * la)).
  assert (PB: 0 < Rabs (b + 1)) by lra. assert (Pk: 0 < k) by (apply Rinv_0_lt_compat, Rmult_lt_0_compat; assumption).
  assert (K: / (Rabs c' * la) <= 103 / 100 * k).
  { unfold k. replace (103 / 100 * / (Rabs (b + 1) * la)) with (/ ((100 / 103 * Rabs (b + 1)) * la)) by (field; lra).
    apply Rinv_le_contravar; [nra|]. apply Rmult_le_compat_r; lra. }
  pose proof v_le2 as V2. pose proof u_pos as U. replace (/ 2 ^ 53) with u by (unfold u; lra).
  assert (S0: 0 <= S). { unfold S. apply Rmult_le_pos; pose proof (Rabs_pos b); lra. }
  apply Rle_trans with (40 * (1001 / 1000 * u * S) * (1 + 103 / 100 * k)).
  - apply Rmult_le_compat; [nra|pose proof (Rabs_pos c'); assert (0 < / (Rabs c' * la)); [apply Rinv_0_lt_compat, Rmult_lt_0_compat; lra|lra]| |lra]. nra.
  - assert (0 <= u * S) by (apply Rmult_le_pos; lra). assert (0 <= u * S * k) by (apply Rmult_le_pos; lra). lra.
Qed.

(** Bins with an ordinate equal to zero, or of no width, contribute exactly nothing. *)
Theorem C117_no_contribution : forall L lg x1 x2 y1 y2, y1 = 0 \/ y2 = 0 \/ x1 = x2 -> finterval L lg x1 x2 y1 y2 = 0.
Proof.
  intros L lg x1 x2 y1 y2 H. unfold finterval. destruct (Req_EM_T y1 0); [reflexivity|]. destruct (Req_EM_T y2 0); [reflexivity|].
  destruct (Req_EM_T x1 x2); [reflexivity|]. tauto.
Qed.

(** For every index, also near -1 and inside the 1e-10 window *)
Theorem C117_bin_any_index : forall L lg x1 x2 y1 y2 la b I,
  lib_ok L lg -> ordinary_bin x1 x2 y1 y2 la b ->
  is_RInt (through x1 x2 y1 y2) x1 x2 I ->
  Rabs (finterval L lg x1 x2 y1 y2 - I)
    <= (5 * / 10 ^ 5 * ((1 + Rabs b) * (1 + / la)) + 3 * / 10 ^ 10 * ((1 + Rabs b) * (1 + la))) * I.
Proof.
  intros L lg x1 x2 y1 y2 la b I (HL & Hlg) OB HI. destruct (I_unique _ _ _ _ _ _ _ OB HI) as (-> & P & IP).
  destruct OB as ((H1 & H2) & H3 & H4 & -> & Eb & HT & HS). rewrite finterval_raw by assumption. subst b.
  pose proof (general_branch L lg HL Hlg x1 x2 y1 y2 H1 H2 H3 H4 HT HS) as GB.
  pose proof (window_branch L lg HL Hlg x1 x2 y1 y2 H1 H2 H3 H4 HT HS) as WB.
  destruct (bounds x1 x2 y1 y2 H1 H2 HT HS) as (BT & BS & _ & _ & _ & B4 & _).
  set (la := ln (x2 / x1)) in *. set (b := ln (y2 / y1) / la) in *. rewrite fraw_same by nra. cbv zeta.
  set (c' := fadd (flocal_index lg x1 x2 y1 y2) 1) in *. pose proof eps_near as EN. pose proof v_tiny as VT. pose proof v_pos as V0.
  set (S := (1 + Rabs b) * (1 + la)) in *. set (T := (1 + Rabs b) * (1 + / la)) in *.
  assert (PI: 0 < / la) by (apply Rinv_0_lt_compat; assumption). pose proof (Rabs_pos b) as Bp.
  assert (S0: la <= S) by (unfold S; nra). assert (T0: 1 <= T) by (unfold T; nra).
  assert (vS: v * S <= 112 / 100 * / 10 ^ 16 * S) by (apply Rmult_le_compat_r; lra).
  assert (vT: v * T <= 112 / 100 * / 10 ^ 16 * T) by (apply Rmult_le_compat_r; lra).
  destruct (Rlt_dec (fl (/ 10 ^ 10)) (Rabs c')) as [N|N].
  - assert (C0: c' <> 0). { intros E. rewrite E, Rabs_R0 in N. lra. }
    eapply Rle_trans; [apply GB; assumption|]. apply Rmult_le_compat_r; [lra|].
    assert (K: / (Rabs c' * la) <= 102 / 100 * 10 ^ 10 * / la).
    { rewrite Rinv_mult. apply Rmult_le_compat_r; [lra|]. apply Rle_trans with (/ (99 / 100 * / 10 ^ 10)); [apply Rinv_le_contravar; lra|].
      rewrite Rinv_mult, Rinv_inv. replace (10 ^ 10) with 10000000000 by ring. lra. }
    apply Rle_trans with (40 * (v * S) * (1 + 102 / 100 * 10 ^ 10 * / la)).
    + apply Rmult_le_compat_l; [|lra]. assert (0 <= v * S) by (apply Rmult_le_pos; lra). lra.
    + replace (40 * (v * S) * (1 + 102 / 100 * 10 ^ 10 * / la)) with (40 * (v * S) + 40 * (102 / 100 * 10 ^ 10) * (v * T)).
      2:{ replace (v * S) with (v * T * la) by exact B4. field. lra. }
      replace (10 ^ 10) with 10000000000 in * by ring. lra.
  - eapply Rle_trans; [apply WB; lra|]. apply Rmult_le_compat_r; [lra|]. lra.
Qed.

(** Grids with 2 to 200 points per decade and indices at least 0.01 away from -1: eight
    correct digits *)
Theorem C117_eight_digits : forall L lg x1 x2 y1 y2 la b I,
  lib_ok L lg -> 0 < x1 < x2 -> 0 < y1 -> 0 < y2 -> la = ln (x2 / x1) -> b = ln (y2 / y1) / la ->
  / 100 <= la <= 2 -> Rabs b <= 10 -> / 100 <= Rabs (b + 1) ->
  is_RInt (through x1 x2 y1 y2) x1 x2 I ->
  Rabs (finterval L lg x1 x2 y1 y2 - I) <= 2 * / 10 ^ 9 * I.
Proof.
  intros L lg x1 x2 y1 y2 la b I HL H1 H3 H4 El Eb Hla Hb Hc HI. pose proof (Rabs_pos b) as B0.
  assert (IL: 0 < / la <= 100).
  { split; [apply Rinv_0_lt_compat; lra|]. apply Rmult_le_reg_r with la; [lra|]. rewrite Rinv_l; lra. }
  assert (A1: (1 + Rabs b) * (1 + / la) <= 11 * 101) by (apply Rmult_le_compat; lra).
  assert (A2: (1 + Rabs b) * (1 + la) <= 11 * 3) by (apply Rmult_le_compat; lra).
  assert (OB: ordinary_bin x1 x2 y1 y2 la b) by (unfold ordinary_bin; replace (10 ^ 7) with 10000000 by ring; repeat (split; [assumption|]); lra).
  destruct (I_unique _ _ _ _ _ _ _ OB HI) as (_ & _ & IP).
  eapply Rle_trans; [apply (C117_bin L lg x1 x2 y1 y2 la b I HL OB); [lra|assumption]|]. apply Rmult_le_compat_r; [lra|].
  assert (K: / (Rabs (b + 1) * la) <= 10000).
  { rewrite Rinv_mult. replace 10000 with (100 * 100) by ring. apply Rmult_le_compat; try lra; [left; apply Rinv_0_lt_compat; lra|].
    apply Rmult_le_reg_r with (Rabs (b + 1)); [lra|]. rewrite Rinv_l; lra. }
  apply Rle_trans with (43 * / 2 ^ 53 * (11 * 3) * (1 + 10000)); [|replace (2 ^ 53) with 9007199254740992 by ring; lra].
  assert (0 < / 2 ^ 53) by (apply Rinv_0_lt_compat, pow_lt; lra). assert (0 < / (Rabs (b + 1) * la)) by (apply Rinv_0_lt_compat, Rmult_lt_0_compat; lra).
  assert (0 <= (1 + Rabs b) * (1 + la)) by (apply Rmult_le_pos; lra).
  apply Rmult_le_compat; [apply Rmult_le_pos; lra|lra| |lra]. apply Rmult_le_compat_l; lra.
Qed.

(** ** The whole integral *)
(** the exact integrals of the power laws through neighbouring samples; bins with a
    zero sample count nothing *)
Fixpoint exact_bins (ys xs Is : list R) : Prop :=
  match ys, xs, Is with
  | y1 :: ((y2 :: _) as yr), x1 :: ((x2 :: _) as xr), J :: Jr =>
      ((y1 = 0 \/ y2 = 0) /\ J = 0 \/ is_RInt (through x1 x2 y1 y2) x1 x2 J /\ 0 < y1 /\ 0 < y2) /\ exact_bins yr xr Jr
  | y1 :: y2 :: _, x1 :: x2 :: _, [] => False
  | _, _, _ => Is = []
  end.
(** all bins ordinary with an error bound of at most [d] *)
Fixpoint ordinary (d : R) (ys xs : list R) : Prop :=
  match ys, xs with
  | y1 :: ((y2 :: _) as yr), x1 :: ((x2 :: _) as xr) =>
      (0 < y1 -> 0 < y2 -> exists la b, ordinary_bin x1 x2 y1 y2 la b /\
         (5 * / 10 ^ 5 * ((1 + Rabs b) * (1 + / la)) + 3 * / 10 ^ 10 * ((1 + Rabs b) * (1 + la)) <= d \/
          / 10 ^ 6 <= Rabs (b + 1) /\ 43 * / 2 ^ 53 * ((1 + Rabs b) * (1 + la)) * (1 + / (Rabs (b + 1) * la)) <= d))
      /\ ordinary d yr xr
  | _, _ => True
  end.

Lemma bins_close L lg d : lib_ok L lg -> 0 <= d <= 1 -> forall xs ys Is, ordinary d ys xs -> exact_bins ys xs Is ->
  Forall2 (fun I V => 0 <= I /\ Rabs (V - I) <= d * I) Is (ftrapz_intervals L lg ys xs).
Proof.
  intros HL Hd. induction xs as [|x1 xs IH]; intros ys Is O E.
  { destruct ys as [|y1 [|y2 ys]]; cbn in E |- *; subst; constructor. }
  destruct ys as [|y1 [|y2 ys]]; try (cbn in E; subst; destruct xs; constructor).
  destruct xs as [|x2 xs]. { cbn in E. subst. constructor. }
  destruct Is as [|I Is]; [destruct E|]. destruct E as (E & E'). destruct O as (O & O').
  change (ftrapz_intervals L lg (y1 :: y2 :: ys) (x1 :: x2 :: xs)) with (finterval L lg x1 x2 y1 y2 :: ftrapz_intervals L lg (y2 :: ys) (x2 :: xs)).
  constructor; [|apply IH; assumption]. destruct E as [(Z & ->) | (HI & P1 & P2)].
  - split; [lra|]. replace (finterval L lg x1 x2 y1 y2) with 0. { rewrite Rminus_0_r, Rabs_R0. lra. }
    unfold finterval. destruct (Req_EM_T y1 0); [reflexivity|]. destruct (Req_EM_T y2 0); [reflexivity|]. tauto.
  - destruct (O P1 P2) as (la & b & OB & B). destruct (I_unique _ _ _ _ _ _ _ OB HI) as (_ & _ & IP). split; [lra|].
    destruct B as [B | (B0 & B)].
    + eapply Rle_trans; [eapply C117_bin_any_index; eassumption|]. apply Rmult_le_compat_r; lra.
    + eapply Rle_trans; [eapply C117_bin; eassumption|]. apply Rmult_le_compat_r; lra.
Qed.
Lemma sum_close d Is Vs : 0 <= d <= 1 -> Forall2 (fun I V => 0 <= I /\ Rabs (V - I) <= d * I) Is Vs ->
  Rabs (sumR Vs - sumR Is) <= d * sumR Is /\ List.Forall (fun V => 0 <= V) Vs /\ 0 <= sumR Is.
Proof.
  intros Hd. induction 1 as [|I V Is Vs (P & H) F (A & B & C)]; cbn [sumR].
  - rewrite Rminus_0_r, Rabs_R0. repeat split; [lra|constructor|lra].
  - repeat split; [|constructor; [apply Rabs_le_inv in H; nra|assumption]|lra].
    replace (V + sumR Vs - (I + sumR Is)) with ((V - I) + (sumR Vs - sumR Is)) by ring. eapply Rle_trans; [apply Rabs_triang|]. lra.
Qed.
Lemma ftrapz_len L lg : forall xs ys, (List.length (ftrapz_intervals L lg ys xs) <= List.length xs)%nat.
Proof.
  induction xs as [|x1 xs IH]; intros [|y1 [|y2 ys]]; try (cbn; lia); try (destruct xs; cbn; lia). destruct xs as [|x2 xs]; [cbn; lia|].
  change (ftrapz_intervals L lg (y1 :: y2 :: ys) (x1 :: x2 :: xs)) with (finterval L lg x1 x2 y1 y2 :: ftrapz_intervals L lg (y2 :: ys) (x2 :: xs)).
  cbn [List.length]. specialize (IH (y2 :: ys)). cbn [List.length] in IH. lia.
Qed.

(** The computed integral is the exact log-log integral up to the error of the worst
    bin plus one unit in the last place per bin, for every order of summation. *)
Theorem C117_integral : forall L lg d ys xs Is s,
  lib_ok L lg -> 0 <= d <= 1 -> INR (List.length xs) <= 10 ^ 15 ->
  ordinary d ys xs -> exact_bins ys xs Is -> ftrapz L lg ys xs s ->
  Rabs (s - sumR Is) <= (d + 2 * INR (List.length xs) * / 2 ^ 52) * sumR Is.
Proof.
  intros L lg d ys xs Is s HL Hd Len O E Hs. pose proof (bins_close L lg d HL Hd xs ys Is O E) as F.
  destruct (sum_close d _ _ Hd F) as (A & B & C). unfold ftrapz in Hs.
  pose proof (ftrapz_len L lg xs ys) as LL. apply le_INR in LL.
  assert (W: within (INR (List.length (ftrapz_intervals L lg ys xs))) (sumR (ftrapz_intervals L lg ys xs)) s) by (apply C116_sum; [assumption|lra|assumption]).
  unfold within in W. set (V := sumR (ftrapz_intervals L lg ys xs)) in *. set (n := INR (List.length xs)) in *.
  assert (VV: Rabs V <= 2 * sumR Is). { replace V with (sumR Is + (V - sumR Is)) by ring. eapply Rle_trans; [apply Rabs_triang|]. rewrite (Rabs_right (sumR Is)) by lra. nra. }
  replace (s - sumR Is) with ((s - V) + (V - sumR Is)) by ring. eapply Rle_trans; [apply Rabs_triang|].
  assert (Q: INR (List.length (ftrapz_intervals L lg ys xs)) * / 2 ^ 52 * Rabs V <= n * / 2 ^ 52 * (2 * sumR Is)).
  { assert (0 < / 2 ^ 52) by (rewrite <- two_u; pose proof u_pos; lra). pose proof (pos_INR (List.length (ftrapz_intervals L lg ys xs))).
    apply Rmult_le_compat; [nra|apply Rabs_pos| |assumption]. apply Rmult_le_compat_r; lra. }
  lra.
Qed.

(** a bin of a power law of index -2 over a factor of two *)
Example C117_hyp : exists L lg, lib_ok L lg /\ ordinary_bin 1 2 1 (1 / 4) (ln 2) (-2) /\ / 10 ^ 6 <= Rabs (-2 + 1).
Proof.
  assert (H: forall x, within 1 x (fl x)). { intros x. apply near_within; [apply near_fl|lra]. }
  exists (mkLibm (fun x a => fl (Rpower x a)) (fun x => fl (exp x)) (fun x => fl (ln x)) (fun x => fl (ElectronModel.cbrt x))), (fun x => fl (ln x / ln 10)).
  split; [split; [repeat split; cbn; intros; apply H|intros; apply H]|].
  assert (L2: / 2 <= ln 2).
  { assert (- ln 2 <= - / 2); [|lra]. rewrite <- ln_Rinv by lra. pose proof (ln_le_sub1 (/ 2)). lra. }
  assert (L3: ln 2 <= 1) by (pose proof (ln_le_sub1 2); lra).
  split; [|replace (-2 + 1) with (-1) by ring; rewrite Rabs_left by lra; lra].
  unfold ordinary_bin. repeat (split; [lra|]). split; [f_equal; lra|]. split.
  - replace (1 / 4 / 1) with (/ (2 * 2)) by lra. rewrite ln_Rinv, ln_mult by lra. field. lra.
  - rewrite Rabs_left by lra. assert (/ ln 2 <= 2). { apply Rmult_le_reg_r with (ln 2); [lra|]. rewrite Rinv_l; lra. }
    replace (10 ^ 7) with 10000000 by ring. split; nra.
Qed.
Print Assumptions C117_integral.
