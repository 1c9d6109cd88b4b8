(** Property C177: accuracy of the synchrotron flux for electrons over any range of energies. *)
From Coq Require Import Reals ZArith List Lra Lia.
From Coquelicot Require Import Coquelicot.
From Flocq Require Import Raux.
From Verif Require Import SpectralModel SpectralProofs TrapzModel TrapzSpec TrapzProofs EnergyModel EnergyProofs ElectronModel ElectronProofs RadiativeProps ConvProofs ConvProps ConvProps2 ConvProps3 FloatProofs FloatTrapzProofs ErrProofs ErrProps ErrProps2 SlopeProps.
Import ListNotations.
Local Open Scope R_scope.

(** ** Grids *)
Lemma find_split T h : 0 < T -> forall xs x0, grid (x0 :: xs) -> log_step h (x0 :: xs) -> x0 <= T -> T < last (x0 :: xs) 0 ->
  exists ps gc qs, x0 :: xs = ps ++ gc :: qs /\ gc <= T < gc * exp h /\ gc < last (x0 :: xs) 0 /\ last (gc :: qs) 0 = last (x0 :: xs) 0 /\ grid (gc :: qs) /\ log_step h (gc :: qs) /\
    grid (ps ++ [gc]) /\ log_step h (ps ++ [gc]) /\ hd 0 (ps ++ [gc]) = x0.
Proof.
  intros HT. induction xs as [|x1 xs IH]; intros x0 G LS H0 HL; [cbn in HL; lra|].
  destruct (grid_cons2 _ _ _ G) as (P0 & P1 & G'). destruct (log_step_cons _ _ _ _ LS) as (L0 & LS').
  change (last (x0 :: x1 :: xs) 0) with (last (x1 :: xs) 0) in *.
  destruct (Rle_or_lt x1 T) as [C|C].
  - destruct (IH x1 G' LS' C HL) as (ps & gc & qs & E & A1 & A2 & A3 & A4 & A5 & A6 & A7 & A8).
    exists (x0 :: ps), gc, qs. split; [cbn [app]; rewrite <- E; reflexivity|]. do 5 (split; [assumption|]).
    assert (HD: exists r, ps ++ [gc] = x1 :: r). { destruct ps; cbn in *; [exists []; congruence|eexists; f_equal; congruence]. }
    destruct HD as (r & HD). split; [|split; [|reflexivity]].
    + cbn. rewrite HD in *. destruct A6 as (F1 & F2). split; constructor; try assumption. inversion F2 as [|? ? F3 F4]; subst. constructor; [assumption|].
      apply List.Forall_forall. intros z Hz. rewrite List.Forall_forall in F4. specialize (F4 z Hz). lra.
    + cbn. rewrite HD in *. intros [|i] Hi; [exact L0|]. apply (A7 i). cbn in *. lia.
  - exists [], x0, (x1 :: xs). cbn [app]. split; [reflexivity|]. split; [split; [assumption|]|].
    { apply Rlt_le_trans with x1; [assumption|]. apply Rle_trans with (x0 * exp (ln (x1 / x0))).
      - rewrite exp_ln by (apply div_pos; lra). right. field. lra.
      - apply Rmult_le_compat_l; [lra|]. apply exp_le. assumption. }
    split; [lra|]. split; [reflexivity|]. split; [assumption|]. split; [assumption|]. split; [|split; [|reflexivity]].
    + split; repeat constructor. assumption.
    + intros i Hi. cbn in Hi. lia.
Qed.

(** an increasing integrand: the integral of the samples is at most that of its last value *)
Lemma trapz_incr f h xs : h <= 1 -> forall x0, grid (x0 :: xs) -> log_step h (x0 :: xs) ->
  (forall x, x0 <= x <= last (x0 :: xs) 0 -> 0 < f x) ->
  (forall x y, x0 <= x -> x <= y -> y <= last (x0 :: xs) 0 -> f x <= f y) ->
  0 <= trapz_loglog (map f (x0 :: xs)) (x0 :: xs) <= (last (x0 :: xs) 0 - x0) * f (last (x0 :: xs) 0).
Proof.
  intros Hh. induction xs as [|x1 xs IH]; intros x0 G LS PF MF; [unfold trapz_loglog; cbn; lra|].
  destruct (grid_cons2 _ _ _ G) as (P0 & P1 & G'). destruct (log_step_cons _ _ _ _ LS) as (L0 & LS').
  change (last (x0 :: x1 :: xs) 0) with (last (x1 :: xs) 0) in *.
  assert (LB: x1 <= last (x1 :: xs) 0) by (apply (grid_range x1 xs G'); left; reflexivity).
  destruct (IH x1 G' LS') as (A & B). { intros x Hx. apply PF. lra. } { intros x y Hx Hxy Hy. apply MF; lra. }
  cbn [map]. rewrite trapz_cons2. change (f x1 :: map f xs) with (map f (x1 :: xs)).
  pose proof (PF x0 ltac:(lra)) as F0. pose proof (PF x1 ltac:(lra)) as F1. pose proof (MF x0 x1 ltac:(lra) ltac:(lra) LB) as F01.
  pose proof (MF x1 _ ltac:(lra) LB (Rle_refl _)) as F1L.
  destruct (interval_bounds_all x0 x1 (f x0) (f x1) P0 P1 F0 F1 ltac:(lra)) as (C & D).
  rewrite Rmin_left in C by assumption. rewrite Rmax_right in D by assumption.
  assert (0 <= f x0 * (x1 - x0)) by (apply Rmult_le_pos; lra).
  assert (f x1 * (x1 - x0) <= f (last (x1 :: xs) 0) * (x1 - x0)) by (apply Rmult_le_compat_r; lra).
  split; [lra|]. lra.
Qed.

(** An integrand that increases up to the grid point [gc], where it is still small, and is smooth beyond *)
Lemma acc_split f a b gc M M0 h tau ps qs : 0 < a -> a <= gc -> gc < b -> h <= 1 -> log_smooth f a b M0 -> log_smooth f gc b M ->
  grid (ps ++ [gc]) -> log_step h (ps ++ [gc]) -> hd 0 (ps ++ [gc]) = a -> grid (gc :: qs) -> log_step h (gc :: qs) -> last (gc :: qs) 0 = b ->
  (forall x y, a <= x -> x <= y -> y <= gc -> f x <= f y) -> 0 <= tau -> gc * f gc <= tau * RInt f gc b ->
  Rabs (trapz_loglog (map f (ps ++ gc :: qs)) (ps ++ gc :: qs) - RInt f a b) <= (exp (M * h ^ 2 / 8 + / 10 ^ 10 * h) - 1 + tau) * RInt f a b.
Proof.
  intros Ha Hag Hgb Hh S0 S1 G1 L1 E1 G2 L2 E2 MF Ht HT.
  rewrite map_app. cbn [map]. rewrite trapz_split by apply map_length.
  pose proof (C119_integral f gc b M h (gc :: qs) ltac:(lra) Hgb S1 G2 eq_refl E2 L2) as X. cbv zeta in X.
  cbn [map] in X. set (C2 := trapz_loglog (f gc :: map f qs) (gc :: qs)) in *. set (I2 := RInt f gc b : R) in *. set (err := exp (M * h ^ 2 / 8 + / 10 ^ 10 * h)) in *.
  assert (X1: RInt f a b = RInt f a gc + I2).
  { unfold I2. symmetry. pose proof (RInt_Chasles f a gc b) as Y. apply Y; [apply (smooth_ex_RInt f a b M0)|apply (smooth_ex_RInt f a b M0)]; try assumption; lra. }
  assert (PF: forall x, a <= x <= b -> 0 < f x) by apply S0.
  assert (I2P: 0 <= I2). { apply RInt_ge_0; [lra|apply (smooth_ex_RInt f a b M0); try assumption; lra|]. intros x Hx. apply Rlt_le, PF. lra. }
  assert (EX: ex_RInt f a gc) by (apply (smooth_ex_RInt f a b M0); try assumption; lra).
  assert (I1P: 0 <= RInt f a gc). { apply RInt_ge_0; [lra|exact EX|]. intros x Hx. apply Rlt_le, PF. lra. }
  assert (FG: 0 < f gc) by (apply PF; lra).
  assert (I1U: RInt f a gc <= gc * f gc).
  { apply Rle_trans with (RInt (fun _ => f gc) a gc).
    - apply RInt_le; [assumption|exact EX|apply ex_RInt_const|]. intros x Hx. apply MF; lra.
    - rewrite RInt_const. unfold scal; cbn; unfold mult; cbn. apply Rmult_le_compat_r; lra. }
  assert (C1: 0 <= trapz_loglog (map f ps ++ [f gc]) (ps ++ [gc]) <= gc * f gc).
  { change [f gc] with (map f [gc]). rewrite <- map_app. assert (LL: last (ps ++ [gc]) 0 = gc) by apply last_last.
    destruct (ps ++ [gc]) as [|x0 xs] eqn:EQ; [destruct ps; discriminate|]. cbn [hd] in E1. subst x0.
    destruct (trapz_incr f h xs Hh a G1 L1) as (A & B).
    - rewrite LL. intros x Hx. apply PF. lra.
    - rewrite LL. exact MF.
    - split; [exact A|]. eapply Rle_trans; [exact B|]. rewrite LL. apply Rmult_le_compat_r; lra. }
  set (C1v := trapz_loglog (map f ps ++ [f gc]) (ps ++ [gc])) in *. destruct X as (X2 & X3).
  assert (ERR: 0 < err) by apply exp_pos.
  assert (C2P: 0 <= C2). { destruct (Rle_or_lt 0 C2); [assumption|]. exfalso. assert (err * C2 < 0) by nra. assert (I2 = 0) by lra.
    assert (gc * f gc <= tau * 0) by (eapply Rle_trans; [exact HT|]; apply Rmult_le_compat_l; lra). assert (0 < gc * f gc) by (apply Rmult_lt_0_compat; lra). lra. }
  rewrite X1. 
  assert (D2: Rabs (C2 - I2) <= (err - 1) * I2).
  { apply Rabs_le. split; [|lra]. assert (/ err * I2 <= C2). { apply Rmult_le_reg_l with err; [assumption|]. rewrite <- Rmult_assoc, Rinv_r, Rmult_1_l by lra. exact X2. }
    assert (IE: 2 - err <= / err). { apply Rmult_le_reg_r with err; [lra|]. rewrite Rinv_l by lra. pose proof (pow2_ge_0 (err - 1)). nra. }
    nra. }
  assert (E1': 1 <= err). { destruct (Req_dec I2 0) as [Z|Z]. { assert (gc * f gc <= tau * 0) by (eapply Rle_trans; [exact HT|]; apply Rmult_le_compat_l; lra). assert (0 < gc * f gc) by (apply Rmult_lt_0_compat; lra). lra. }
    pose proof (Rabs_pos (C2 - I2)). assert (0 <= (err - 1) * I2) by lra. nra. }
  apply Rabs_le_inv in D2. assert (0 <= (err - 1 + tau) * RInt f a gc) by (apply Rmult_le_pos; lra).
  apply Rabs_le. split; lra.
Qed.

(** ** The synchrotron integrand *)
Lemma log_lin q x x' : 0 < x' -> x' <= x -> 0 <= q <= x' -> q * ln (x / x') <= x - x'.
Proof.
  intros H1 H2 H3. pose proof (ln_le_sub1 (x / x') ltac:(apply div_pos; lra)) as L. assert (LP: 0 <= ln (x / x')).
  { rewrite <- ln_1. apply ln_le'; [lra|]. apply Rmult_le_reg_r with x'; [lra|]. unfold Rdiv. rewrite Rmult_assoc, Rinv_l; lra. }
  apply Rle_trans with (x' * ln (x / x')); [apply Rmult_le_compat_r; lra|]. apply Rle_trans with (x' * (x / x' - 1)); [apply Rmult_le_compat_l; lra|right; field; lra].
Qed.

Section Synch.
  Variables (k : sy_consts) (B mec2 : R) (pd : R -> R) (lo hi E S : R).
  Hypotheses (K : sy_ok k) (HB : 0 < B) (Hm : 0 < mec2) (Hlo : 0 < lo) (Hhi : lo < hi) (PE : 0 < E) (PP : forall e, 0 < e -> 0 < pd e).
  Hypothesis FALL : forall e1 e2, lo <= e1 -> e1 <= e2 -> e2 <= hi -> Ecrit k B (e2 / mec2) <= E -> pd e1 * Rpower (e1 / e2) S <= pd e2.
  Hypothesis HS : 0 <= S.
  Let f := sy_integrand k B mec2 pd E.
  Let c := E / Ecrit k B 1.
  Let a := lo / mec2.
  Let b := hi / mec2.
  Let q := S / 2 + / 3.
  Lemma a_pos : 0 < a. Proof. apply div_pos; assumption. Qed.
  Lemma ab : a < b. Proof. apply Rmult_lt_compat_r; [apply Rinv_0_lt_compat; assumption|assumption]. Qed.
  Lemma c_pos : 0 < c. Proof. apply div_pos; [assumption|apply Ecrit_pos; try assumption; lra]. Qed.
  Lemma x_of g : 0 < g -> E / Ecrit k B g = c / g ^ 2.
  Proof. intros Hg. unfold c. destruct K as (K1 & K2 & K3 & K4). unfold Ecrit. field. repeat split; lra. Qed.
  Lemma q_nonneg : 0 <= q. Proof. unfold q. lra. Qed.
  Lemma f_pos g : 0 < g -> 0 < f g.
  Proof. intros Hg. unfold f, sy_integrand. apply Rmult_lt_0_compat; [apply Rmult_lt_0_compat; [apply PP, Rmult_lt_0_compat; assumption|assumption]|]. apply sy_kernel_pos; assumption. Qed.
  Lemma f_ratio g g' : a <= g -> g <= g' -> g' <= b -> 1 <= c / g' ^ 2 ->
    f g * exp (c / g ^ 2 - c / g' ^ 2 - q * ln (c / g ^ 2 / (c / g' ^ 2))) <= f g'.
  Proof.
    intros H1 H2 H3 H4. pose proof a_pos as PA. pose proof c_pos as PC. assert (P: 0 < g) by lra. assert (P': 0 < g') by lra.
    assert (X': 0 < c / g' ^ 2) by (apply div_pos; [assumption|apply pow_lt; assumption]). assert (X: 0 < c / g ^ 2) by (apply div_pos; [assumption|apply pow_lt; assumption]).
    assert (XX: c / g' ^ 2 <= c / g ^ 2). { apply Rmult_le_compat_l; [lra|]. apply Rinv_le_contravar; [apply pow_lt; assumption|apply pow_incr; lra]. }
    destruct (Gtilde_slopes _ _ X' XX) as (A & _). pose proof (Gtilde_pos _ X') as G'. pose proof (Gtilde_pos _ X) as G.
    assert (LR: ln (c / g ^ 2 / (c / g' ^ 2)) = 2 * ln (g' / g)).
    { replace (c / g ^ 2 / (c / g' ^ 2)) with ((g' / g) * (g' / g)) by (field; repeat split; lra). rewrite ln_mult by (apply div_pos; assumption). ring. }
    assert (F: pd (g * mec2) * Rpower (g / g') S <= pd (g' * mec2)).
    { replace (g / g') with (g * mec2 / (g' * mec2)) by (field; split; lra).
      assert (MR: forall g, a <= g <= b -> lo <= g * mec2 <= hi).
      { intros z (Z1 & Z2). unfold a, b in *. apply (Rmult_le_compat_r mec2) in Z1; [|lra]. apply (Rmult_le_compat_r mec2) in Z2; [|lra].
        replace (lo / mec2 * mec2) with lo in Z1 by (field; lra). replace (hi / mec2 * mec2) with hi in Z2 by (field; lra). lra. }
      apply FALL; [apply MR; lra|apply Rmult_le_compat_r; lra|apply MR; lra|]. replace (g' * mec2 / mec2) with g' by (field; lra).
      pose proof (Ecrit_pos k B g' K HB P') as PEc. rewrite <- x_of in H4 by assumption. apply (Rmult_le_compat_r (Ecrit k B g')) in H4; [|lra].
      replace (E / Ecrit k B g' * Ecrit k B g') with E in H4 by (field; lra). lra. }
    unfold f, sy_integrand, sy_kernel. rewrite !x_of by assumption. pose proof (CS1_pos k B E K HB PE) as C1.
    set (u1 := Gtilde (c / g ^ 2)) in *. set (u2 := Gtilde (c / g' ^ 2)) in *. set (p1 := pd (g * mec2)) in *. set (p2 := pd (g' * mec2)) in *. set (C := CS1 k B E) in *.
    set (x := c / g ^ 2) in *. set (x' := c / g' ^ 2) in *. rewrite LR.
    assert (E1: Rpower (g / g') S = exp (- S * ln (g' / g))). { unfold Rpower. f_equal. rewrite !ln_div by assumption. ring. }
    unfold Rpower in A. rewrite LR in A.
    assert (A': u1 * exp (x - x' - / 3 * (2 * ln (g' / g))) <= u2).
    { apply Rle_trans with (exp (/ 3 * (2 * ln (g' / g))) * exp (- (x - x')) * u2 * exp (x - x' - / 3 * (2 * ln (g' / g)))).
      - apply Rmult_le_compat_r; [left; apply exp_pos|exact A].
      - right. replace (exp (/ 3 * (2 * ln (g' / g))) * exp (- (x - x')) * u2 * exp (x - x' - / 3 * (2 * ln (g' / g)))) with
          (u2 * (exp (/ 3 * (2 * ln (g' / g))) * exp (- (x - x')) * exp (x - x' - / 3 * (2 * ln (g' / g))))) by ring.
        rewrite <- !exp_plus. replace (/ 3 * (2 * ln (g' / g)) + - (x - x') + (x - x' - / 3 * (2 * ln (g' / g)))) with 0 by ring. rewrite exp_0. ring. }
    rewrite E1 in F. replace (p1 * mec2 * (C * u1) * exp (x - x' - q * (2 * ln (g' / g)))) with
      (mec2 * C * ((p1 * exp (- S * ln (g' / g))) * (u1 * exp (x - x' - / 3 * (2 * ln (g' / g)))))).
    - replace (p2 * mec2 * (C * u2)) with (mec2 * C * (p2 * u2)) by ring. apply Rmult_le_compat_l; [apply Rlt_le, Rmult_lt_0_compat; assumption|].
      assert (0 < p1) by (apply PP, Rmult_lt_0_compat; assumption).
      apply Rmult_le_compat; try assumption; apply Rmult_le_pos; try lra; left; apply exp_pos.
    - replace (x - x' - q * (2 * ln (g' / g))) with (- S * ln (g' / g) + (x - x' - / 3 * (2 * ln (g' / g)))) by (unfold q; field). rewrite exp_plus. ring.
  Qed.
  (** beyond a few critical energies the integrand increases with the electron energy *)
  Lemma f_incr gc : a <= gc -> gc <= b -> 1 <= c / gc ^ 2 -> q <= c / gc ^ 2 -> forall x y, a <= x -> x <= y -> y <= gc -> f x <= f y.
  Proof.
    intros H1 H2 H3 H4 x y X Y Z. pose proof a_pos. pose proof c_pos.
    assert (M: forall u v, 0 < u -> u <= v -> c / v ^ 2 <= c / u ^ 2). { intros u v U V. apply Rmult_le_compat_l; [lra|]. apply Rinv_le_contravar; [apply pow_lt; assumption|apply pow_incr; lra]. }
    pose proof (M y gc ltac:(lra) Z) as M1. pose proof (M x y ltac:(lra) Y) as M2.
    pose proof (f_ratio x y X Y ltac:(lra) ltac:(lra)) as R. eapply Rle_trans; [|exact R].
    pose proof (f_pos x ltac:(lra)) as P. pose proof q_nonneg. assert (LL: q * ln (c / x ^ 2 / (c / y ^ 2)) <= c / x ^ 2 - c / y ^ 2) by (apply log_lin; lra).
    rewrite <- (Rmult_1_r (f x)) at 1. apply Rmult_le_compat_l; [lra|]. rewrite <- exp_0. apply exp_le. lra.
  Qed.
  Variable D : R.
  Hypothesis HD : q <= D.
  Hypothesis HD1 : 1 <= D.
  Let Xs := Rmax 1 (E / Ecrit k B b).
  Let tail := 2 * (Xs + 1) * Rpower (1 + D) q * exp (1 - D).
  Lemma tail_small gc : a <= gc -> Xs + D <= c / gc ^ 2 -> ex_RInt f gc b -> gc < b /\ gc * f gc <= tail * RInt f gc b.
  Proof.
    intros H1 H2 EX. pose proof a_pos as PA. pose proof c_pos as PC. pose proof ab as AB. pose proof q_nonneg as Q.
    assert (X1: 1 <= Xs) by apply Rmax_l. assert (Xb: c / b ^ 2 <= Xs) by (rewrite <- x_of by lra; apply Rmax_r).
    assert (ST: forall X, 0 < X -> 0 < sqrt (c / X) /\ c / sqrt (c / X) ^ 2 = X).
    { intros X HX. assert (0 < c / X) by (apply div_pos; assumption). split; [apply sqrt_lt_R0; assumption|]. rewrite pow2_sqrt by lra. field. lra. }
    assert (MO: forall u v, 0 < u -> 0 < v -> c / v ^ 2 <= c / u ^ 2 -> u <= v).
    { intros u v U V H. destruct (Rle_or_lt u v) as [|L]; [assumption|exfalso]. assert (v ^ 2 < u ^ 2) by (apply pow_lt_compat_l || nra).
      assert (c / u ^ 2 < c / v ^ 2); [|lra]. apply Rmult_lt_compat_l; [assumption|]. apply Rinv_lt_contravar; [|assumption]. apply Rmult_lt_0_compat; apply pow_lt; assumption. }
    set (gs := sqrt (c / Xs)). set (g1 := sqrt (c / (Xs + 1))).
    destruct (ST Xs ltac:(lra)) as (S1 & S2). fold gs in S1, S2. destruct (ST (Xs + 1) ltac:(lra)) as (T1 & T2). fold g1 in T1, T2.
    assert (O1: gc <= g1) by (apply MO; lra). assert (O2: g1 <= gs) by (apply MO; lra). assert (O3: gs <= b) by (apply MO; lra).
    assert (W: gs / (2 * (Xs + 1)) <= gs - g1).
    { assert (Z: g1 <= gs * (1 - / (2 * (Xs + 1)))).
      { set (z := / (2 * (Xs + 1))). assert (Hz: 0 < z <= / 4). { unfold z. split; [apply Rinv_0_lt_compat; lra|apply Rinv_le_contravar; lra]. }
        assert (A1: g1 * g1 = gs * gs * (1 - 2 * z)).
        { assert (B1: g1 * g1 = c / (Xs + 1)) by (unfold g1; apply sqrt_sqrt, Rlt_le, div_pos; lra). assert (B2: gs * gs = c / Xs) by (unfold gs; apply sqrt_sqrt, Rlt_le, div_pos; lra).
          rewrite B1, B2. unfold z. field. lra. }
        apply Rsqr_incr_0; [unfold Rsqr; rewrite A1|lra|apply Rmult_le_pos; lra].
        replace (gs * (1 - z) * (gs * (1 - z))) with (gs * gs * (1 - 2 * z) + (gs * z) * (gs * z)) by ring. pose proof (Rle_0_sqr (gs * z)) as SQ. unfold Rsqr in SQ. lra. }
      unfold Rdiv. lra. }
    assert (Gp: 0 < gc) by lra. split; [assert (gs / (2 * (Xs + 1)) > 0) by (apply div_pos; lra); lra|].
    set (xc := c / gc ^ 2) in *.
    set (lam := exp (D - 1 - q * ln (1 + D))).
    assert (LOW: forall g, g1 <= g <= gs -> lam * f gc <= f g).
    { intros g (L1 & L2). assert (M: forall u v, 0 < u -> u <= v -> c / v ^ 2 <= c / u ^ 2). { intros u v U V. apply Rmult_le_compat_l; [lra|]. apply Rinv_le_contravar; [apply pow_lt; assumption|apply pow_incr; lra]. }
      pose proof (M g1 g T1 L1) as M1. pose proof (M g gs ltac:(lra) L2) as M2. rewrite S2 in M2. rewrite T2 in M1.
      pose proof (f_ratio gc g H1 ltac:(lra) ltac:(lra) ltac:(lra)) as R. fold xc in R. set (x := c / g ^ 2) in *.
      pose proof (f_pos gc Gp) as FP. eapply Rle_trans; [|exact R]. rewrite Rmult_comm. apply Rmult_le_compat_l; [lra|]. unfold lam. apply exp_le.
      assert (LN: ln (xc / x) <= ln (1 + D) + ln (xc / (Xs + D))).
      { rewrite <- ln_mult by (lra || (apply div_pos; lra)). apply ln_le'; [apply div_pos; lra|].
        apply Rle_trans with (xc / Xs). { apply Rmult_le_compat_l; [lra|]. apply Rinv_le_contravar; lra. }
        apply Rmult_le_reg_r with (Xs * (Xs + D)); [apply Rmult_lt_0_compat; lra|].
        replace (xc / Xs * (Xs * (Xs + D))) with (xc * (Xs + D)) by (field; lra). replace ((1 + D) * (xc / (Xs + D)) * (Xs * (Xs + D))) with (xc * ((1 + D) * Xs)) by (field; lra).
        apply Rmult_le_compat_l; [lra|]. nra. }
      assert (LL: q * ln (xc / (Xs + D)) <= xc - (Xs + D)) by (apply log_lin; lra).
      assert (QL: q * ln (xc / x) <= q * (ln (1 + D) + ln (xc / (Xs + D)))) by (apply Rmult_le_compat_l; assumption).
      lra. }
    assert (CH: ex_RInt f g1 gs /\ RInt f g1 gs <= RInt f gc b).
    { assert (E1: ex_RInt f gc g1) by (apply (ex_RInt_Chasles_1 f gc g1 b); [lra|exact EX]).
      assert (E2: ex_RInt f g1 b) by (apply (ex_RInt_Chasles_2 f gc g1 b); [lra|exact EX]).
      assert (E3: ex_RInt f g1 gs) by (apply (ex_RInt_Chasles_1 f g1 gs b); [lra|exact E2]).
      assert (E4: ex_RInt f gs b) by (apply (ex_RInt_Chasles_2 f g1 gs b); [lra|exact E2]).
      split; [exact E3|]. assert (Y1: @eq R (RInt f gc g1 + RInt f g1 b) (RInt f gc b)) by exact (RInt_Chasles f gc g1 b E1 E2). assert (Y2: @eq R (RInt f g1 gs + RInt f gs b) (RInt f g1 b)) by exact (RInt_Chasles f g1 gs b E3 E4).
      assert (0 <= RInt f gc g1) by (apply RInt_ge_0; [lra|exact E1|intros; apply Rlt_le, f_pos; lra]).
      assert (0 <= RInt f gs b) by (apply RInt_ge_0; [lra|exact E4|intros; apply Rlt_le, f_pos; lra]).
      lra. }
    destruct CH as (E3 & CH). pose proof (f_pos gc Gp) as FP.
    assert (LB: (gs - g1) * (lam * f gc) <= RInt f g1 gs).
    { apply Rle_trans with (RInt (fun _ => lam * f gc) g1 gs). { rewrite RInt_const. unfold scal; cbn; unfold mult; cbn. lra. }
      apply RInt_le; [assumption|apply ex_RInt_const|exact E3|]. intros x Hx. apply LOW. lra. }
    assert (TL: tail * lam = 2 * (Xs + 1)).
    { unfold tail, lam, Rpower. replace (2 * (Xs + 1) * exp (q * ln (1 + D)) * exp (1 - D) * exp (D - 1 - q * ln (1 + D))) with (2 * (Xs + 1) * (exp (q * ln (1 + D)) * exp (1 - D) * exp (D - 1 - q * ln (1 + D)))) by ring.
      rewrite <- !exp_plus. replace (q * ln (1 + D) + (1 - D) + (D - 1 - q * ln (1 + D))) with 0 by ring. rewrite exp_0. ring. }
    assert (T0: 0 < tail). { unfold tail. apply Rmult_lt_0_compat; [apply Rmult_lt_0_compat; [lra|apply exp_pos]|apply exp_pos]. }
    apply Rle_trans with (tail * ((gs - g1) * (lam * f gc))).
    - replace (tail * ((gs - g1) * (lam * f gc))) with ((tail * lam) * (gs - g1) * f gc) by ring. rewrite TL. apply Rmult_le_compat_r; [lra|].
      apply Rle_trans with gs; [lra|]. apply Rle_trans with (2 * (Xs + 1) * (gs / (2 * (Xs + 1)))); [right; field; lra|]. apply Rmult_le_compat_l; lra.
    - apply Rmult_le_compat_l; [lra|]. eapply Rle_trans; [exact LB|exact CH].
  Qed.
End Synch.

Lemma err_abs C I e : 1 <= e -> 0 <= I -> I <= e * C -> C <= e * I -> Rabs (C - I) <= (e - 1) * I.
Proof.
  intros H1 H2 H3 H4. apply Rabs_le. split; [|lra]. assert (/ e * I <= C). { apply Rmult_le_reg_l with e; [lra|]. rewrite <- Rmult_assoc, Rinv_r, Rmult_1_l by lra. exact H3. }
  assert (IE: 2 - e <= / e). { apply Rmult_le_reg_r with e; [lra|]. rewrite Rinv_l by lra. pose proof (pow2_ge_0 (e - 1)). nra. }
  nra.
Qed.

(** The flux at photon energy E of electrons between lo and hi, on the code's own grid. The
    electrons that radiate mostly far below E matter little, however many decades of them there
    are, provided that their number falls at most like E^-S:
    the error is [err - 1 + tail] with [err] as in C119 but with the excess [Xs + D] in place of
    E/Ecrit(lo). [Xs] is 1, or E/Ecrit(hi) for photons beyond the critical energy of the most
    energetic electrons; [D] is arbitrary. *)
Theorem C177_synchrotron : forall k B mec2 pd lo hi Es i nd M S D, sy_ok k -> 0 < B -> 0 < mec2 -> 0 < lo -> lo < hi ->
  (i < List.length Es)%nat -> 0 < nth i Es 0 ->
  (forall e, 0 < e -> 0 < pd e) -> log_smooth pd lo hi M ->
  let E := nth i Es 0 in
  (forall e1 e2, lo <= e1 -> e1 <= e2 -> e2 <= hi -> Ecrit k B (e2 / mec2) <= E -> pd e1 * Rpower (e1 / e2) S <= pd e2) ->
  0 <= S -> 1 <= D -> S / 2 + / 3 <= D ->
  let exact := RInt (sy_integrand k B mec2 pd E) (lo / mec2) (hi / mec2) in
  let computed := nth i (sy_spectrum k B mec2 pd (gam mec2 nd lo hi) Es) 0 in
  let n := Z.to_nat (Z.max 10 (Int_part (nd * (ln (hi / lo) / ln 10)))) in
  let h := ln (hi / lo) / INR (n - 1) in h <= 1 ->
  let Xs := Rmax 1 (E / Ecrit k B (hi / mec2)) in
  let err := exp ((M + 2 + 4 * ((Xs + D) * exp (2 * h))) * h ^ 2 / 8 + / 10 ^ 10 * h) in
  let tail := 2 * (Xs + 1) * Rpower (1 + D) (S / 2 + / 3) * exp (1 - D) in
  Rabs (computed - exact) <= (err - 1 + tail) * exact.
Proof.
  intros k B mec2 pd lo hi Es i nd M S D K HB Hm Hlo Hhi Hi PE PP HM E FALL HS HD1 HDq exact computed n h Hh Xs err tail.
  set (f := sy_integrand k B mec2 pd E) in *. set (c := E / Ecrit k B 1). set (a := lo / mec2) in *. set (b := hi / mec2) in *.
  pose proof (a_pos mec2 lo Hm Hlo) as PA. pose proof (ab mec2 lo hi Hm Hhi) as AB. fold a b in PA, AB.
  pose proof (c_pos k B E K HB PE) as PC. fold c in PC. assert (XO: forall g, 0 < g -> E / Ecrit k B g = c / g ^ 2) by (intros; apply (x_of k B E K HB); assumption).
  destruct (gam_facts mec2 nd lo hi Hm Hlo Hhi) as (G & E1 & E2 & RL & _). fold a in E1. fold b in E2.
  pose proof (ln_ratio_pos lo hi Hlo Hhi) as LP.
  assert (LN: ln (step nd lo hi) = h). { unfold step, Rpower. rewrite ln_exp. fold n. unfold h. unfold Rdiv. ring. }
  assert (N: 0 < INR (n - 1)) by (apply lt_0_INR; unfold n; lia).
  assert (HP: 0 < h) by (apply div_pos; assumption).
  assert (S1: 1 <= step nd lo hi). { rewrite <- (exp_ln (step nd lo hi)) by apply exp_pos. rewrite LN. rewrite <- exp_0. apply exp_le. lra. }
  assert (LS: log_step h (gam mec2 nd lo hi)). { rewrite <- LN. apply ratio_le_step; assumption. }
  assert (CO: computed = trapz_loglog (map f (gam mec2 nd lo hi)) (gam mec2 nd lo hi)).
  { unfold computed, sy_spectrum. rewrite nth_map_lt by assumption. fold E. rewrite nelec_kernel. reflexivity. }
  assert (SM: forall g, a <= g < b -> log_smooth f g b (M + (2 + 4 * (c / g ^ 2)))).
  { intros g (H1 & H2). assert (Pg: 0 < g) by lra. rewrite <- XO by assumption.
    assert (SP: smooth (fun g => pd (g * mec2) * mec2) g b M).
    { replace M with (M + 0) by ring. apply smooth_mult; [|apply smooth_const; assumption]. apply smooth_scale; try assumption; [lra|].
      split; [assumption|]. assert (EQ: b * mec2 = hi) by (unfold b; field; lra). rewrite EQ.
      apply (smooth_sub pd lo hi); try assumption; [|lra|].
      - apply (Rmult_le_compat_r mec2) in H1; [|lra]. unfold a in H1. replace (lo / mec2 * mec2) with lo in H1 by (field; lra). exact H1.
      - rewrite <- EQ. apply Rmult_le_compat_r; lra. }
    exact (proj2 (smooth_mult _ _ _ _ _ _ SP (smooth_sy_kernel k B E g b K HB PE Pg (Rlt_le _ _ H2)))). }
  assert (X1: 1 <= Xs) by apply Rmax_l. assert (Xb: c / b ^ 2 <= Xs) by (rewrite <- XO by lra; apply Rmax_r).
  assert (M0: 0 <= M) by (apply (smooth_M_pos pd lo hi M); try lra; assumption).
  assert (EH: 1 <= exp (2 * h)) by (rewrite <- exp_0; apply exp_le; lra).
  assert (ERR: forall g, c / g ^ 2 <= (Xs + D) * exp (2 * h) -> exp ((M + (2 + 4 * (c / g ^ 2))) * h ^ 2 / 8 + / 10 ^ 10 * h) <= err).
  { intros g Hg. unfold err. apply exp_le. apply Rplus_le_compat_r. apply Rmult_le_compat_r; [lra|]. apply Rmult_le_compat_r; [apply pow2_ge_0|]. lra. }
  assert (T0: 0 < tail). { unfold tail. apply Rmult_lt_0_compat; [apply Rmult_lt_0_compat; [lra|apply exp_pos]|apply exp_pos]. }
  pose proof (SM a ltac:(lra)) as SA. set (Ma := M + (2 + 4 * (c / a ^ 2))) in *.
  assert (PF: forall x, a <= x <= b -> 0 < f x) by apply SA.
  assert (EX0: 0 <= exact). { apply RInt_ge_0; [lra|apply (smooth_ex_RInt f a b Ma); try assumption; lra|]. intros x Hx. apply Rlt_le, PF. lra. }
  rewrite CO.
  destruct (Rle_or_lt (c / a ^ 2) (Xs + D)) as [C|C].
  - pose proof (C119_integral f a b Ma h _ PA AB SA G E1 E2 LS) as (A1 & A2). cbv zeta in A1, A2. fold exact in A1, A2.
    set (e := exp (Ma * h ^ 2 / 8 + / 10 ^ 10 * h)) in *.
    assert (Le: e <= err). { unfold e, Ma. apply ERR. apply Rle_trans with (Xs + D); [assumption|]. rewrite <- (Rmult_1_r (Xs + D)) at 1. apply Rmult_le_compat_l; lra. }
    assert (L1: 1 <= e). { unfold e. rewrite <- exp_0. apply exp_le. assert (0 <= c / a ^ 2) by (apply Rlt_le, div_pos; [assumption|apply pow_lt; assumption]).
      assert (0 <= Ma * h ^ 2) by (apply Rmult_le_pos; [unfold Ma; lra|apply pow2_ge_0]). assert (0 <= / 10 ^ 10 * h) by (apply Rmult_le_pos; lra). lra. }
    eapply Rle_trans; [apply (err_abs _ _ e); assumption|]. apply Rmult_le_compat_r; [assumption|]. lra.
  - set (T := sqrt (c / (Xs + D))). assert (PT: 0 < c / (Xs + D)) by (apply div_pos; lra).
    assert (T1: 0 < T) by (apply sqrt_lt_R0; assumption). assert (T2: T * T = c / (Xs + D)) by (apply sqrt_sqrt; lra).
    assert (T3: c / T ^ 2 = Xs + D) by (replace (T ^ 2) with (T * T) by ring; rewrite T2; field; lra).
    assert (MO: forall u v, 0 < u -> 0 < v -> c / v ^ 2 < c / u ^ 2 -> u < v).
    { intros u v U V H. destruct (Rle_or_lt v u) as [L|]; [exfalso|assumption].
      assert (c / u ^ 2 <= c / v ^ 2); [|lra]. apply Rmult_le_compat_l; [lra|]. apply Rinv_le_contravar; [apply pow_lt; assumption|apply pow_incr; lra]. }
    assert (MI: forall u v, 0 < u -> u <= v -> c / v ^ 2 <= c / u ^ 2). { intros u v U V. apply Rmult_le_compat_l; [lra|]. apply Rinv_le_contravar; [apply pow_lt; assumption|apply pow_incr; lra]. }
    assert (aT: a < T) by (apply MO; try assumption; rewrite T3; exact C). assert (Tb: T < b) by (apply MO; try assumption; [lra|rewrite T3; lra]).
    destruct (gam mec2 nd lo hi) as [|x0 xs] eqn:EG. { cbn in E1. lra. } cbn [hd] in E1. subst x0.
    destruct (find_split T h T1 xs a G LS) as (ps & gc & qs & EQ & (Q1 & Q2) & Q3 & Q4 & Q5 & Q6 & Q7 & Q8 & Q9); [lra|rewrite E2; assumption|].
    rewrite E2 in Q3, Q4. assert (AG: a <= gc).
    { destruct (ps ++ [gc]) as [|y0 ys] eqn:EP; [destruct ps; discriminate|]. cbn [hd] in Q9. subst y0. apply (grid_range a ys Q7). rewrite <- EP. apply in_or_app. right. left. reflexivity. }
    assert (XC: Xs + D <= c / gc ^ 2) by (rewrite <- T3; apply MI; lra).
    assert (XU: c / gc ^ 2 <= (Xs + D) * exp (2 * h)).
    { rewrite <- T3. replace (c / T ^ 2 * exp (2 * h)) with (c / (T * exp (- h)) ^ 2).
      - apply MI; [apply Rmult_lt_0_compat; [assumption|apply exp_pos]|]. apply Rmult_le_reg_r with (exp h); [apply exp_pos|]. rewrite Rmult_assoc, <- exp_plus, Rplus_opp_l, exp_0, Rmult_1_r. apply Rlt_le. exact Q2.
      - replace (2 * h) with (h + h) by ring. rewrite exp_plus, exp_Ropp. pose proof (exp_pos h). field. split; lra. }
    destruct (tail_small k B mec2 pd lo hi E S K HB Hm Hlo Hhi PE PP FALL HS D HDq HD1 gc AG) as (_ & TS); [exact XC|fold f b; apply (smooth_ex_RInt f a b Ma); try assumption; lra|].
    fold f b Xs tail in TS. rewrite EQ.
    eapply Rle_trans; [apply (acc_split f a b gc _ Ma h tail ps qs PA AG Q3 Hh SA (SM gc (conj AG Q3)) Q7 Q8 Q9 Q5 Q6 Q4)|].
    + apply (f_incr k B mec2 pd lo hi E S K HB Hm Hlo PE PP FALL HS); [exact AG|fold b; lra|fold c; lra|fold c; lra].
    + lra.
    + exact TS.
    + fold exact. apply Rmult_le_compat_r; [assumption|]. pose proof (ERR gc XU). lra.
Qed.
Print Assumptions C177_synchrotron.

(** At the default 100 points per decade (radiative.py 278), for photons up to the critical energy of
    the most energetic electrons: one per cent, whatever the lowest electron energy. *)
Theorem C177_default : forall k B mec2 pd lo hi Es i nd M S, sy_ok k -> 0 < B -> 0 < mec2 -> 0 < lo -> 10 * lo <= hi -> 100 <= nd ->
  (i < List.length Es)%nat -> let E := nth i Es 0 in 0 < E -> E <= Ecrit k B (hi / mec2) ->
  (forall e, 0 < e -> 0 < pd e) -> log_smooth pd lo hi M -> M <= 10 ->
  (forall e1 e2, lo <= e1 -> e1 <= e2 -> e2 <= hi -> Ecrit k B (e2 / mec2) <= E -> pd e1 * Rpower (e1 / e2) S <= pd e2) -> 0 <= S <= 6 ->
  let exact := RInt (sy_integrand k B mec2 pd E) (lo / mec2) (hi / mec2) in
  Rabs (nth i (sy_spectrum k B mec2 pd (gam mec2 nd lo hi) Es) 0 - exact) <= / 100 * exact.
Proof.
  intros k B mec2 pd lo hi Es i nd M S K HB Hm Hlo Hhi Hnd Hi E PE HE PP HM M10 FALL HS exact. assert (LH: lo < hi) by lra.
  pose proof (C177_synchrotron k B mec2 pd lo hi Es i nd M S 24 K HB Hm Hlo LH Hi PE PP HM FALL (proj1 HS) ltac:(lra) ltac:(lra)) as X. cbv zeta in X. fold E in X. fold exact in X.
  set (n := Z.to_nat (Z.max 10 (Int_part (nd * (ln (hi / lo) / ln 10))))) in *.
  set (h := ln (hi / lo) / INR (n - 1)) in *. pose proof (ln_ratio_pos lo hi Hlo LH) as LP. pose proof ln10_pos as T. pose proof ln10_le as T'.
  assert (L10: ln 10 <= ln (hi / lo)). { apply ln_le'; [lra|]. apply Rmult_le_reg_r with lo; [lra|]. unfold Rdiv. rewrite Rmult_assoc, Rinv_l; lra. }
  assert (Hh: 0 < h <= 2350 / 100000).
  { pose proof (npoints_large (nd * (ln (hi / lo) / ln 10))) as NL. unfold npoints in NL. fold n in NL.
    assert (NM: INR (n - 1) = INR n - 1) by (rewrite minus_INR by (unfold n; lia); reflexivity).
    set (q := ln (hi / lo) / ln 10) in *. assert (Q: 1 <= q). { unfold q. apply Rmult_le_reg_r with (ln 10); [lra|]. unfold Rdiv. rewrite Rmult_assoc, Rinv_l; lra. }
    assert (Eq: ln (hi / lo) = q * ln 10) by (unfold q; field; lra).
    assert (100 * q <= nd * q) by (apply Rmult_le_compat_r; lra).
    assert (NN: 98 * q <= INR (n - 1)) by (rewrite NM; lra).
    unfold h. split; [apply div_pos; lra|]. apply Rmult_le_reg_r with (INR (n - 1)); [lra|]. unfold Rdiv at 1. rewrite Rmult_assoc, Rinv_l, Rmult_1_r by lra.
    rewrite Eq. apply Rle_trans with (2350 / 100000 * (98 * q)); [|apply Rmult_le_compat_l; lra]. nra. }
  specialize (X ltac:(lra)).
  assert (HB': 0 < hi / mec2) by (apply div_pos; lra). pose proof (Ecrit_pos k B _ K HB HB') as PEc.
  assert (XS: Rmax 1 (E / Ecrit k B (hi / mec2)) = 1).
  { apply Rmax_left. apply Rmult_le_reg_r with (Ecrit k B (hi / mec2)); [assumption|]. unfold Rdiv. rewrite Rmult_assoc, Rinv_l by lra. lra. }
  rewrite XS in X.
  assert (EX0: 0 <= exact).
  { destruct (Rle_or_lt 0 exact) as [|Q]; [assumption|exfalso].
    pose proof (Rabs_pos (nth i (sy_spectrum k B mec2 pd (gam mec2 nd lo hi) Es) 0 - exact)) as RP. revert Q. apply Rle_not_lt.
    apply RInt_ge_0; [apply Rmult_le_compat_r; [apply Rlt_le, Rinv_0_lt_compat; assumption|lra]| |].
    - assert (La: 0 < lo / mec2) by (apply div_pos; assumption).
      assert (Lb: lo / mec2 < hi / mec2) by (apply Rmult_lt_compat_r; [apply Rinv_0_lt_compat; assumption|assumption]).
      assert (SP: smooth (fun g => pd (g * mec2) * mec2) (lo / mec2) (hi / mec2) M).
      { replace M with (M + 0) by ring. apply smooth_mult; [|apply smooth_const; assumption]. apply smooth_scale; try assumption; [lra|].
        replace (lo / mec2 * mec2) with lo by (field; lra). replace (hi / mec2 * mec2) with hi by (field; lra). split; assumption. }
      pose proof (smooth_mult _ _ _ _ _ _ SP (smooth_sy_kernel k B E (lo / mec2) (hi / mec2) K HB PE La (Rlt_le _ _ Lb))) as (_ & SS).
      eapply smooth_ex_RInt; [| | | |exact SS]; lra.
    - intros x Hx. assert (0 < lo / mec2) by (apply div_pos; assumption). apply Rlt_le. unfold sy_integrand. apply Rmult_lt_0_compat; [apply Rmult_lt_0_compat; [apply PP, Rmult_lt_0_compat; lra|assumption]|]. apply sy_kernel_pos; try assumption. lra. }
  eapply Rle_trans; [exact X|]. apply Rmult_le_compat_r; [assumption|].
  assert (H2: 0 <= h ^ 2 <= 553 / 1000000). { split; [apply pow2_ge_0|]. cbn [pow]. rewrite Rmult_1_r. nra. }
  assert (E2: exp (2 * h) <= 105 / 100). { eapply Rle_trans; [apply exp_upper; lra|]. apply Rmult_le_reg_r with (1 - 2 * h); [lra|]. rewrite Rinv_l by lra. lra. }
  assert (M0: 0 <= M) by (apply (smooth_M_pos pd lo hi M); try lra; assumption).
  assert (Y: exp ((M + 2 + 4 * ((1 + 24) * exp (2 * h))) * h ^ 2 / 8 + / 10 ^ 10 * h) <= 1 + 83 / 10000).
  { set (y := (M + 2 + 4 * ((1 + 24) * exp (2 * h))) * h ^ 2 / 8 + / 10 ^ 10 * h).
    assert (Y: 0 <= y <= 81 / 10000).
    { pose proof (exp_pos (2 * h)). unfold y. assert (A: (M + 2 + 4 * ((1 + 24) * exp (2 * h))) * h ^ 2 <= 117 * (553 / 1000000)) by (apply Rmult_le_compat; lra).
      assert (0 <= (M + 2 + 4 * ((1 + 24) * exp (2 * h))) * h ^ 2) by (apply Rmult_le_pos; lra).
      replace (10 ^ 10) with 10000000000 by ring. lra. }
    eapply Rle_trans; [apply exp_upper; lra|]. apply Rmult_le_reg_r with (1 - y); [lra|]. rewrite Rinv_l by lra. nra. }
  assert (TL: 2 * (1 + 1) * Rpower (1 + 24) (S / 2 + / 3) * exp (1 - 24) <= 10 / 10000).
  { assert (A: Rpower (1 + 24) (S / 2 + / 3) <= 78125).
    { apply Rle_trans with (Rpower (1 + 24) (7 / 2)); [apply Rle_Rpower; lra|]. right. replace (1 + 24) with (5 * 5) by lra. rewrite <- Rpower_mult_distr, <- Rpower_plus by lra.
      replace (7 / 2 + 7 / 2) with (INR 7) by (cbn; lra). rewrite Rpower_pow by lra. lra. }
    assert (C: exp (1 - 24) <= / (5 / 2) ^ 23).
    { replace (1 - 24) with (- (23)) by lra. rewrite exp_Ropp. apply Rinv_le_contravar; [apply pow_lt; lra|].
      assert (P: forall n x, exp (INR n * x) = exp x ^ n).
      { intros m x. induction m as [|m IH]; [cbn; rewrite Rmult_0_l; apply exp_0|]. rewrite S_INR, Rmult_plus_distr_r, exp_plus, IH, Rmult_1_l. cbn [pow]. ring. }
      replace 23 with (INR 23 * 1) by (cbn; lra). rewrite P. apply pow_incr. split; [lra|].
      replace 1 with (/ 5 + / 5 + / 5 + / 5 + / 5) by lra. rewrite !exp_plus. pose proof (exp_ineq1_le (/ 5)). 
      assert (Q: exp (/ 5) >= 1 + / 5) by lra. pose proof (exp_ineq1_le (/ 10)) as Q2. assert (Q3: exp (/ 5) = exp (/ 10) * exp (/ 10)) by (rewrite <- exp_plus; f_equal; lra).
      assert (Q4: 121 / 100 <= exp (/ 5)) by (rewrite Q3; nra).
      apply Rle_trans with (121 / 100 * (121 / 100) * (121 / 100) * (121 / 100) * (121 / 100)); [lra|]. repeat apply Rmult_le_compat; lra. }
    pose proof (exp_pos (1 - 24)). assert (0 < Rpower (1 + 24) (S / 2 + / 3)) by apply exp_pos.
    apply Rle_trans with (2 * (1 + 1) * 78125 * / (5 / 2) ^ 23); [apply Rmult_le_compat; lra|]. lra. }
  lra.
Qed.
Print Assumptions C177_default.

(** Power laws and power laws with a cutoff *)
Lemma pl_shift x A e0 al : 0 < x -> 0 < e0 -> power_law x A e0 al = x * power_law x (A / e0) e0 (al + 1).
Proof.
  intros Hx H0. unfold power_law. assert (P: 0 < x / e0) by (apply div_pos; assumption).
  replace (- (al + 1)) with (- al + Ropp 1) by ring. rewrite Rpower_plus, (Rpower_Ropp (x / e0) 1), Rpower_1 by assumption. field. split; lra.
Qed.
Theorem C177_power_law : forall k B mec2 A e0 alpha lo hi Es i nd, sy_ok k -> 0 < B -> 0 < mec2 -> 0 < A -> 0 < e0 -> 0 <= alpha <= 6 ->
  0 < lo -> 10 * lo <= hi -> 100 <= nd -> (i < List.length Es)%nat -> let E := nth i Es 0 in 0 < E -> E <= Ecrit k B (hi / mec2) ->
  let pd := fun e => power_law e A e0 alpha in
  let exact := RInt (sy_integrand k B mec2 pd E) (lo / mec2) (hi / mec2) in
  Rabs (nth i (sy_spectrum k B mec2 pd (gam mec2 nd lo hi) Es) 0 - exact) <= / 100 * exact.
Proof.
  intros k B mec2 A e0 alpha lo hi Es i nd K HB Hm HA He Hal Hlo Hhi Hnd Hi E PE HE pd exact.
  assert (PP: forall e, 0 < e -> 0 < pd e) by (intros e Pe; unfold pd, power_law; apply Rmult_lt_0_compat; [assumption|apply exp_pos]).
  apply (C177_default k B mec2 pd lo hi Es i nd 0 alpha); try assumption; try lra.
  - apply (smooth_ext (fun e => e * power_law e (A / e0) e0 (alpha + 1))); [assumption| |apply smooth_power_law; try assumption; apply div_pos; assumption].
    intros x Hx. apply pl_shift; assumption.
  - intros e1 e2 H1 H2 H3 _. right. unfold pd, power_law, Rpower. rewrite Rmult_assoc, <- exp_plus. do 2 f_equal. rewrite !ln_div by lra. ring.
Qed.
Print Assumptions C177_power_law.
(** [es]: any electron energy (below hi) with critical energy above E; up to there the spectrum must not be too steep *)
Theorem C177_cutoff : forall k B mec2 A e0 alpha ec beta lo hi es Es i nd, sy_ok k -> 0 < B -> 0 < mec2 -> 0 < A -> 0 < e0 -> 0 < ec -> 0 <= alpha -> 0 <= beta ->
  0 < lo -> 10 * lo <= hi -> 100 <= nd -> (i < List.length Es)%nat -> let E := nth i Es 0 in 0 < E -> lo <= es <= hi -> E <= Ecrit k B (es / mec2) ->
  alpha + beta * Rpower (es / ec) beta <= 6 -> beta ^ 2 * Rpower (hi / ec) beta <= 10 ->
  let pd := fun e => cutoff_power_law e A e0 alpha ec beta in
  let exact := RInt (sy_integrand k B mec2 pd E) (lo / mec2) (hi / mec2) in
  Rabs (nth i (sy_spectrum k B mec2 pd (gam mec2 nd lo hi) Es) 0 - exact) <= / 100 * exact.
Proof.
  intros k B mec2 A e0 alpha ec beta lo hi es Es i nd K HB Hm HA He Hec Hal Hbe Hlo Hhi Hnd Hi E PE Hes HE HS6 HM pd exact.
  assert (PP: forall e, 0 < e -> 0 < pd e).
  { intros e Pe. unfold pd. rewrite ecpl_factor. apply Rmult_lt_0_compat; [apply pl_pos; assumption|apply exp_pos]. }
  assert (S0: 0 <= beta * Rpower (es / ec) beta) by (apply Rmult_le_pos; [assumption|left; apply exp_pos]).
  assert (DM: forall u v, u <= v -> u / mec2 <= v / mec2) by (intros; apply Rmult_le_compat_r; [apply Rlt_le, Rinv_0_lt_compat|]; assumption).
  assert (PS: 0 < es / mec2) by (apply div_pos; lra).
  apply (C177_default k B mec2 pd lo hi Es i nd (beta ^ 2 * Rpower (hi / ec) beta) (alpha + beta * Rpower (es / ec) beta)); try assumption; try lra.
  - eapply Rle_trans; [exact HE|]. apply (Ecrit_mono k B _ _ K HB PS). apply DM. lra.
  - apply (smooth_ext (fun e => e * cutoff_power_law e (A / e0) e0 (alpha + 1) ec beta)); [assumption| |apply smooth_cutoff; try assumption; [apply div_pos; assumption|lra]].
    intros x Hx. unfold pd. rewrite !ecpl_factor. rewrite (pl_shift x A e0 alpha Hx He). ring.
  - intros e1 e2 H1 H2 H3 H4. assert (P1: 0 < e1) by lra. assert (P2: 0 < e2) by lra.
    assert (E2: e2 <= es).
    { destruct (Rle_or_lt e2 es) as [|C]; [assumption|exfalso].
      assert (es / mec2 < e2 / mec2) by (apply Rmult_lt_compat_r; [apply Rinv_0_lt_compat|]; assumption).
      assert (Ecrit k B (es / mec2) < Ecrit k B (e2 / mec2)).
      { destruct K as (K1 & K2 & K3 & K4). unfold Ecrit, Rdiv at 1 4. 
        assert (D: (es / mec2) ^ 2 < (e2 / mec2) ^ 2) by nra.
        apply Rmult_lt_compat_r; [apply Rinv_0_lt_compat; nra|]. apply Rmult_lt_compat_l; [|exact D]. repeat apply Rmult_lt_0_compat; lra. }
      fold E in H4. apply (Rlt_irrefl E). eapply Rle_lt_trans; [exact HE|]. eapply Rlt_le_trans; [eassumption|exact H4]. }
    unfold pd. rewrite !ecpl_factor. unfold power_law, Rpower.
    replace (A * exp (- alpha * ln (e1 / e0)) * exp (- exp (beta * ln (e1 / ec))) * exp ((alpha + beta * exp (beta * ln (es / ec))) * ln (e1 / e2)))
      with (A * (exp (- alpha * ln (e1 / e0)) * exp (- exp (beta * ln (e1 / ec))) * exp ((alpha + beta * exp (beta * ln (es / ec))) * ln (e1 / e2)))) by ring.
    rewrite (Rmult_assoc A). rewrite <- !exp_plus. apply Rmult_le_compat_l; [lra|]. apply exp_le. rewrite !ln_div by lra.
    pose proof (ln_le' e1 e2 P1 H2) as L12. pose proof (ln_le' e2 es P2 E2) as L2s.
    set (x1 := ln e1) in *. set (x2 := ln e2) in *. set (xs := ln es) in *. set (xc := ln ec) in *.
    assert (CV: exp (beta * (x2 - xc)) - exp (beta * (x1 - xc)) <= beta * exp (beta * (xs - xc)) * (x2 - x1)).
    { assert (C1: exp (beta * (x1 - xc)) = exp (beta * (x2 - xc)) * exp (- (beta * (x2 - x1)))) by (rewrite <- exp_plus; f_equal; ring).
      rewrite C1. pose proof (exp_ineq1_le (- (beta * (x2 - x1)))) as C2. pose proof (exp_pos (beta * (x2 - xc))) as C3.
      assert (C4: exp (beta * (x2 - xc)) <= exp (beta * (xs - xc))) by (apply exp_le, Rmult_le_compat_l; [assumption|lra]).
      assert (C5: 0 <= beta * (x2 - x1)) by (apply Rmult_le_pos; lra).
      apply Rle_trans with (exp (beta * (x2 - xc)) * (beta * (x2 - x1))); [nra|].
      replace (beta * exp (beta * (xs - xc)) * (x2 - x1)) with (exp (beta * (xs - xc)) * (beta * (x2 - x1))) by ring. apply Rmult_le_compat_r; assumption. }
    lra.
Qed.
Print Assumptions C177_cutoff.

(** a case: e = m_e = c = hbar = m_e c^2 = B = 1, so that Ecrit(g) = 3/2 g^2. Electrons E^-2 exp(-E/10^6) between 10^-6 and 10^7,
    photons of energy 10^12: the least energetic electrons have critical energies 10^24 times smaller *)
Example C177_example : let k := mkSy 1 1 1 1 in let pd := fun e => cutoff_power_law e 1 1 2 1000000 1 in
  let exact := RInt (sy_integrand k 1 1 pd 1000000000000) (/ 1000000 / 1) (10000000 / 1) in
  Rabs (nth 0 (sy_spectrum k 1 1 pd (gam 1 100 (/ 1000000) 10000000) [1000000000000]) 0 - exact) <= / 100 * exact.
Proof.
  intros k pd exact. assert (K: sy_ok k) by (unfold sy_ok, k; simpl; lra).
  apply (C177_cutoff k 1 1 1 1 2 1000000 1 (/ 1000000) 10000000 1000000 [1000000000000] 0 100 K); try lra; simpl; try lia; try lra.
  - unfold Ecrit. simpl. lra.
  - replace (1000000 / 1000000) with 1 by lra. rewrite Rpower_1; lra.
  - rewrite Rpower_1 by lra. lra.
Qed.
