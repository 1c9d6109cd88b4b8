(** C116, continued: the spectral models and the synchrotron function. *)
From Coq Require Import Reals List ZArith String Permutation Lra Lia.
From Flocq Require Import Core Relative.
From Verif Require Import Outcome CoreModel SpectralModel ElectronModel ElectronProofs FloatModel FloatProofs FloatProps.
Import ListNotations.
Local Open Scope R_scope.

(** On numbers of magnitude at least 2^-1022 the rounding [fl] is that of IEEE
    binary64 with its subnormal numbers. *)
Theorem C116_underflow : forall x, / 2 ^ 1022 <= Rabs x ->
  round radix2 (FLT_exp (-1074) 53) ZnearestE x = fl x.
Proof.
  intros x H. unfold fl. apply round_FLT_FLX. eapply Rle_trans; [|exact H]. right.
  change (-1074 + 53 - 1)%Z with (-1022)%Z. rewrite bpow_powerRZ. reflexivity.
Qed.

Lemma div_near e e0 : near 1 (e / e0) (fdiv e e0). Proof. apply near_fl. Qed.
Lemma lpow_near L k x y a : libm_1ulp L -> 0 < x -> near k x y -> near (Rabs a * k + 3) (Rpower x a) (lpow L y a).
Proof.
  intros (Hp & _) Hx N. eapply near_trans; [apply near_Rpower; eassumption|]. apply within_near, Hp. eapply near_pos; eassumption.
Qed.
(** the exponential of an argument known to relative accuracy k *)
Lemma lexp_near L k z z' : libm_1ulp L -> 0 <= z -> near k z z' -> k <= 2 ^ 50 -> near (2 * k * z + 3) (exp (- z)) (lexp L (- z')).
Proof.
  intros (_ & He & _) Hz N K. eapply near_trans; [|apply within_near, He].
  exists (z - z'). split; [|rewrite <- exp_plus; f_equal; ring].
  pose proof (near_within _ _ _ N K) as W. unfold within in W. rewrite <- two_u in W. rewrite Rabs_minus_sym.
  eapply Rle_trans; [exact W|]. rewrite (Rabs_right z) by lra. pose proof v_ge. pose proof (near_nonneg _ _ _ N).
  assert (0 <= k * z) by (apply Rmult_le_pos; assumption). nra.
Qed.

Theorem C116_power_law : forall L e amplitude e_0 alpha,
  libm_1ulp L -> 0 < e -> 0 < e_0 -> Rabs alpha <= 10 ^ 15 ->
  within (Rabs alpha + 4) (power_law e amplitude e_0 alpha) (fpower_law L e amplitude e_0 alpha).
Proof.
  intros L e A e0 al HL He H0 Ha. apply near_within.
  2:{ replace (10 ^ 15) with 1000000000000000 in Ha by ring. replace (2 ^ 50) with 1125899906842624 by ring. lra. }
  unfold power_law, fpower_law. cbv zeta. eapply near_weaken.
  - apply near_fmul; [apply near_0|]. apply lpow_near; [assumption| |apply div_near]. apply Rdiv_lt_0_compat; assumption.
  - rewrite Rabs_Ropp. lra.
Qed.

(** The relative error of the cutoff factor grows with the exponent (E / E_cutoff)^beta *)
Theorem C116_cutoff_power_law : forall L e amplitude e_0 alpha e_cutoff beta,
  libm_1ulp L -> 0 < e -> 0 < e_0 -> 0 < e_cutoff ->
  Rabs alpha <= 10 ^ 6 -> Rabs beta <= 10 ^ 6 -> Rpower (e / e_cutoff) beta <= 1000 ->
  within (Rabs alpha + 8 + 2 * (Rabs beta + 3) * Rpower (e / e_cutoff) beta)
    (cutoff_power_law e amplitude e_0 alpha e_cutoff beta) (fcutoff_power_law L e amplitude e_0 alpha e_cutoff beta).
Proof.
  intros L e A e0 al ec be HL He H0 Hc Ha Hb Hz. pose proof (Rabs_pos al). pose proof (Rabs_pos be).
  assert (Z: 0 < Rpower (e / ec) be) by apply exp_pos.
  replace (10 ^ 6) with 1000000 in * by ring. apply near_within.
  2:{ replace (2 ^ 50) with 1125899906842624 by ring. assert ((Rabs be + 3) * Rpower (e / ec) be <= (1000000 + 3) * 1000) by (apply Rmult_le_compat; lra). lra. }
  unfold cutoff_power_law, fcutoff_power_law. cbv zeta.
  assert (Nz: near (Rabs be + 3) (Rpower (e / ec) be) (lpow L (fdiv e ec) be)).
  { eapply near_weaken; [apply (lpow_near L 1 (e / ec)); [assumption|apply Rdiv_lt_0_compat; assumption|apply div_near]|lra]. }
  eapply near_weaken.
  - apply near_fmul; [apply near_fmul; [apply near_0|]|].
    + apply lpow_near; [assumption| |apply div_near]. apply Rdiv_lt_0_compat; assumption.
    + apply lexp_near with (k := Rabs be + 3); [assumption|lra|assumption|]. replace (2 ^ 50) with 1125899906842624 by ring. lra.
  - rewrite Rabs_Ropp. lra.
Qed.

(** continuity factor of the broken power laws *)
Lemma K_near L e eb e0 a1 a2 : libm_1ulp L -> 0 < eb -> 0 < e0 ->
  near (3 + 2 * Rabs (a2 - a1) * (1 + Rabs (ln (eb / e0))))
    (if Rlt_dec e eb then 1 else Rpower (eb / e0) (a2 - a1))
    (if Rlt_dec e eb then 1 else lpow L (fdiv eb e0) (fsub a2 a1)).
Proof.
  intros HL Hb H0. set (x := eb / e0). assert (Hx: 0 < x) by (apply Rdiv_lt_0_compat; assumption).
  set (d := a2 - a1). pose proof (Rabs_pos d) as Pd. pose proof (Rabs_pos (ln x)) as Pl. destruct (Rlt_dec e eb); [apply near_refl; nra|].
  assert (D: Rabs (fsub a2 a1 - d) <= 2 * u * Rabs d).
  { assert (N: near 1 d (fsub a2 a1)) by apply near_fl. apply near_dev in N; lra. }
  pose proof u_pos. pose proof u_small. pose proof v_ge.
  assert (D2: Rabs (fsub a2 a1) <= 2 * Rabs d).
  { replace (fsub a2 a1) with (d + (fsub a2 a1 - d)) by ring. eapply Rle_trans; [apply Rabs_triang|]. nra. }
  eapply near_weaken.
  - eapply near_trans; [apply (near_exponent (2 * Rabs d * Rabs (ln x)) d (fsub a2 a1) x)|].
    + apply Rle_trans with (2 * u * Rabs d * Rabs (ln x)); [apply Rmult_le_compat_r; assumption|].
      assert (0 <= Rabs d * Rabs (ln x)) by (apply Rmult_le_pos; assumption). nra.
    + apply (lpow_near L 1 x (fdiv eb e0)); [assumption|assumption|apply div_near].
  - lra.
Qed.

Theorem C116_broken_power_law : forall L e amplitude e_0 e_break alpha_1 alpha_2,
  libm_1ulp L -> 0 < e -> 0 < e_0 -> 0 < e_break ->
  Rabs alpha_1 <= 10 ^ 6 -> Rabs alpha_2 <= 10 ^ 6 -> Rabs (ln (e_break / e_0)) <= 1000 ->
  within (Rabs (if Rlt_dec e e_break then alpha_1 else alpha_2) + 8
          + 2 * Rabs (alpha_2 - alpha_1) * (1 + Rabs (ln (e_break / e_0))))
    (broken_power_law e amplitude e_0 e_break alpha_1 alpha_2)
    (fbroken_power_law L e amplitude e_0 e_break alpha_1 alpha_2).
Proof.
  intros L e A e0 eb a1 a2 HL He H0 Hb A1 A2 Hl. set (a := if Rlt_dec e eb then a1 else a2).
  replace (10 ^ 6) with 1000000 in * by ring.
  assert (Ha: Rabs a <= 1000000) by (unfold a; destruct (Rlt_dec e eb); assumption).
  assert (Hd: Rabs (a2 - a1) <= 2000000).
  { unfold Rminus. eapply Rle_trans; [apply Rabs_triang|]. rewrite Rabs_Ropp. lra. }
  pose proof (Rabs_pos a). pose proof (Rabs_pos (a2 - a1)). pose proof (Rabs_pos (ln (eb / e0))).
  apply near_within.
  2:{ replace (2 ^ 50) with 1125899906842624 by ring. assert (Rabs (a2 - a1) * (1 + Rabs (ln (eb / e0))) <= 2000000 * 1001) by (apply Rmult_le_compat; lra). lra. }
  unfold broken_power_law, fbroken_power_law. cbv zeta. fold a. eapply near_weaken.
  - apply near_fmul; [apply near_fmul; [apply near_0|apply K_near; assumption]|].
    apply lpow_near; [assumption| |apply div_near]. apply Rdiv_lt_0_compat; assumption.
  - rewrite Rabs_Ropp. lra.
Qed.

Theorem C116_cutoff_broken_power_law : forall L e amplitude e_0 e_break alpha_1 alpha_2 e_cutoff beta,
  libm_1ulp L -> 0 < e -> 0 < e_0 -> 0 < e_break -> 0 < e_cutoff ->
  Rabs alpha_1 <= 10 ^ 6 -> Rabs alpha_2 <= 10 ^ 6 -> Rabs (ln (e_break / e_0)) <= 1000 ->
  Rabs beta <= 10 ^ 6 -> Rpower (e / e_cutoff) beta <= 1000 ->
  within (Rabs (if Rlt_dec e e_break then alpha_1 else alpha_2) + 12
          + 2 * Rabs (alpha_2 - alpha_1) * (1 + Rabs (ln (e_break / e_0)))
          + 2 * (Rabs beta + 3) * Rpower (e / e_cutoff) beta)
    (cutoff_broken_power_law e amplitude e_0 e_break alpha_1 alpha_2 e_cutoff beta)
    (fcutoff_broken_power_law L e amplitude e_0 e_break alpha_1 alpha_2 e_cutoff beta).
Proof.
  intros L e A e0 eb a1 a2 ec be HL He H0 Hb Hc A1 A2 Hl B Hz. set (a := if Rlt_dec e eb then a1 else a2).
  replace (10 ^ 6) with 1000000 in * by ring.
  assert (Ha: Rabs a <= 1000000) by (unfold a; destruct (Rlt_dec e eb); assumption).
  assert (Hd: Rabs (a2 - a1) <= 2000000).
  { unfold Rminus. eapply Rle_trans; [apply Rabs_triang|]. rewrite Rabs_Ropp. lra. }
  pose proof (Rabs_pos a). pose proof (Rabs_pos (a2 - a1)). pose proof (Rabs_pos (ln (eb / e0))). pose proof (Rabs_pos be).
  assert (Z: 0 < Rpower (e / ec) be) by apply exp_pos.
  apply near_within.
  2:{ replace (2 ^ 50) with 1125899906842624 by ring. assert (Rabs (a2 - a1) * (1 + Rabs (ln (eb / e0))) <= 2000000 * 1001) by (apply Rmult_le_compat; lra).
      assert ((Rabs be + 3) * Rpower (e / ec) be <= (1000000 + 3) * 1000) by (apply Rmult_le_compat; lra). lra. }
  assert (Nz: near (Rabs be + 3) (Rpower (e / ec) be) (lpow L (fdiv e ec) be)).
  { eapply near_weaken; [apply (lpow_near L 1 (e / ec)); [assumption|apply Rdiv_lt_0_compat; assumption|apply div_near]|lra]. }
  unfold cutoff_broken_power_law, fcutoff_broken_power_law. cbv zeta. fold a. eapply near_weaken.
  - apply near_fmul; [apply near_fmul; [apply near_fmul; [apply near_0|apply K_near; assumption]|]|].
    + apply lpow_near; [assumption| |apply div_near]. apply Rdiv_lt_0_compat; assumption.
    + apply lexp_near with (k := Rabs be + 3); [assumption|lra|assumption|]. replace (2 ^ 50) with 1125899906842624 by ring. lra.
  - rewrite Rabs_Ropp. lra.
Qed.

(** The exponent of the log parabola is a difference, so its error counts absolutely *)
Theorem C116_log_parabola : forall L e amplitude e_0 alpha beta,
  libm_1ulp L -> 0 < e -> 0 < e_0 ->
  Rabs alpha <= 10 ^ 4 -> Rabs beta <= 10 ^ 4 -> Rabs (ln (e / e_0)) <= 1000 ->
  within (4 + (Rabs alpha + Rabs beta * (1 + Rabs (ln (e / e_0)))) * (2 + 10 * Rabs (ln (e / e_0))))
    (log_parabola e amplitude e_0 alpha beta) (flog_parabola L e amplitude e_0 alpha beta).
Proof.
  intros L e A e0 al be HL He H0 Ha Hb Hl.
  unfold log_parabola, flog_parabola. cbv zeta. set (x := e / e0) in *. set (x' := fdiv e e0).
  assert (Hx: 0 < x) by (apply Rdiv_lt_0_compat; assumption).
  assert (N: near 1 x x') by apply near_fl.
  assert (Hx': 0 < x') by (eapply near_pos; eassumption).
  set (l := ln x) in *. set (M := 1 + Rabs l). set (W := Rabs al + Rabs be * M).
  replace (10 ^ 4) with 10000 in * by ring.
  pose proof (Rabs_pos l) as Pl. pose proof (Rabs_pos al) as Pa. pose proof (Rabs_pos be) as Pb.
  pose proof u_pos as U0. pose proof u_small as U1. pose proof v_pos as V0. pose proof v_ge as V1. pose proof v_le2 as V2.
  assert (BM: 0 <= Rabs be * M) by (apply Rmult_le_pos; unfold M; lra).
  assert (l': Rabs (ln x' - l) <= v).
  { destruct N as (s & Hs & E). rewrite E, ln_mult by (try assumption; apply exp_pos). rewrite ln_exp. fold l.
    replace (l + s - l) with s by ring. lra. }
  assert (q: Rabs (llog L x' - l) <= 2 * u * M).
  { destruct HL as (_ & _ & Hlog & _). specialize (Hlog x' Hx'). unfold within in Hlog. rewrite <- two_u in Hlog.
    replace (llog L x' - l) with ((llog L x' - ln x') + (ln x' - l)) by ring. eapply Rle_trans; [apply Rabs_triang|].
    assert (Rabs (ln x') <= Rabs l + v). { replace (ln x') with (l + (ln x' - l)) by ring. eapply Rle_trans; [apply Rabs_triang|]. lra. }
    assert (2 * u * Rabs (ln x') <= 2 * u * (Rabs l + v)) by (apply Rmult_le_compat_l; lra). unfold M. nra. }
  set (q' := llog L x') in *.
  assert (q2: Rabs q' <= 2 * M).
  { replace q' with (l + (q' - l)) by ring. eapply Rle_trans; [apply Rabs_triang|]. assert (2 * u * M <= 1 * M) by (apply Rmult_le_compat_r; unfold M; lra). unfold M in *. lra. }
  assert (Rd: forall y, Rabs (fl y - y) <= 2 * u * Rabs y).
  { intros y. pose proof (near_dev 1 y (fl y) (near_fl y)). lra. }
  set (p := fmul be q').
  assert (P: Rabs (p - be * l) <= 6 * u * (Rabs be * M)).
  { replace (p - be * l) with ((p - be * q') + be * (q' - l)) by ring. eapply Rle_trans; [apply Rabs_triang|].
    rewrite Rabs_mult. assert (R1: Rabs (p - be * q') <= 2 * u * (Rabs be * Rabs q')) by (rewrite <- Rabs_mult; apply Rd).
    assert (Rabs be * Rabs q' <= Rabs be * (2 * M)) by (apply Rmult_le_compat_l; assumption).
    assert (Rabs be * Rabs (q' - l) <= Rabs be * (2 * u * M)) by (apply Rmult_le_compat_l; assumption).
    assert (2 * u * (Rabs be * Rabs q') <= 2 * u * (Rabs be * (2 * M))) by (apply Rmult_le_compat_l; lra). lra. }
  assert (P2: Rabs p <= 2 * (Rabs be * M)).
  { replace p with (be * l + (p - be * l)) by ring. eapply Rle_trans; [apply Rabs_triang|]. rewrite Rabs_mult.
    assert (Rabs be * Rabs l <= Rabs be * M) by (apply Rmult_le_compat_l; unfold M; lra). nra. }
  set (y := - al - be * l). set (y' := fsub (- al) p).
  assert (Y: Rabs (y' - y) <= 10 * u * W).
  { unfold y. replace (y' - (- al - be * l)) with ((y' - (- al - p)) + - (p - be * l)) by ring. eapply Rle_trans; [apply Rabs_triang|]. rewrite Rabs_Ropp.
    assert (R1: Rabs (y' - (- al - p)) <= 2 * u * Rabs (- al - p)) by apply Rd.
    assert (Rabs (- al - p) <= Rabs al + Rabs p). { unfold Rminus. eapply Rle_trans; [apply Rabs_triang|]. rewrite !Rabs_Ropp. lra. }
    assert (2 * u * Rabs (- al - p) <= 2 * u * (Rabs al + 2 * (Rabs be * M))) by (apply Rmult_le_compat_l; lra). unfold W. nra. }
  assert (PW: 0 <= W) by (unfold W; lra).
  assert (Y2: Rabs y' <= 2 * W).
  { replace y' with (y + (y' - y)) by ring. eapply Rle_trans; [apply Rabs_triang|].
    assert (Rabs y <= W). { unfold y, Rminus. eapply Rle_trans; [apply Rabs_triang|]. rewrite !Rabs_Ropp, Rabs_mult. unfold W, M. nra. }
    nra. }
  apply near_within.
  2:{ replace (2 ^ 50) with 1125899906842624 by ring. assert (Rabs be * M <= 10000 * 1001) by (apply Rmult_le_compat; unfold M; lra).
      assert (W * (2 + 10 * Rabs l) <= 10020000 * 10002) by (apply Rmult_le_compat; unfold W; lra). fold M W. lra. }
  fold M W. eapply near_weaken.
  - apply near_fmul; [apply near_0|]. eapply near_trans; [apply (near_exponent (10 * W * Rabs l) y y' x)|].
    + fold l. apply Rle_trans with (10 * u * W * Rabs l); [apply Rmult_le_compat_r; assumption|].
      assert (0 <= W * Rabs l) by (apply Rmult_le_pos; assumption). nra.
    + apply (lpow_near L 1 x x'); [assumption|assumption|assumption].
  - lra.
Qed.

(** The synchrotron function: at most 54 units in the last place, for every argument *)
Theorem C116_synchrotron_function : forall L x, libm_1ulp L -> 0 < x -> within 54 (Gtilde x) (fGtilde L x).
Proof.
  intros L x HL Hx. apply near_within; [|lra]. unfold Gtilde, fGtilde. cbv zeta.
  assert (Nc: near 3 (cbrt x) (lcbrt L x)) by (destruct HL as (_ & _ & _ & H); apply within_near, H; assumption).
  assert (Pc: 0 < cbrt x).
  { unfold cbrt. destruct (Rlt_dec x 0); [lra|]. destruct (Req_EM_T x 0); [lra|]. apply exp_pos. }
  set (c := cbrt x) in *. set (c' := lcbrt L x) in *.
  assert (Pc2: 0 < c ^ 2) by (apply pow_lt; assumption). assert (Pc4: 0 < c ^ 4) by (apply pow_lt; assumption).
  assert (N2: near 7 (c ^ 2) (fsq c')) by (eapply near_weaken; [apply near_fsq; exact Nc|lra]).
  assert (N4: near 15 (c ^ 4) (lpow L c' 4)).
  { replace (c ^ 4) with (Rpower c 4). 2:{ replace 4 with (INR 4) by (cbn; lra). rewrite Rpower_pow by assumption. reflexivity. }
    eapply near_weaken; [apply (lpow_near L 3 c c'); assumption|]. rewrite Rabs_right; lra. }
  assert (M: forall k q y y', near k y y' -> near (k + 2) (q * y) (fmul (fl q) y')).
  { intros k q y y' N. eapply near_weaken; [apply near_fmul; [apply near_fl|exact N]|lra]. }
  assert (G: forall q2 q4 f2 f4, 0 <= q2 -> 0 <= q4 -> f2 = fl q2 -> f4 = fl q4 ->
    near 18 (1 + q2 * c ^ 2 + q4 * c ^ 4) (fadd (fadd 1 (fmul f2 (fsq c'))) (fmul f4 (lpow L c' 4)))).
  { intros q2 q4 f2 f4 P2 P4 -> ->. replace 18 with (17 + 1) by ring. apply near_fadd.
    - assert (0 <= q2 * c ^ 2) by (apply Rmult_le_pos; lra). lra.
    - apply Rmult_le_pos; lra.
    - apply near_weaken with (9 + 1); [|lra]. apply near_fadd; [lra|apply Rmult_le_pos; lra|apply near_refl; lra|].
      eapply near_weaken; [apply M; exact N2|lra].
    - eapply near_weaken; [apply M; exact N4|lra]. }
  eapply near_weaken.
  - apply near_fmul; [apply near_fmul; [apply near_fdiv; [apply M; exact Nc|]|apply near_fdiv; apply G; try lra; f_equal; lra]|].
    + unfold fsqrt. apply near_fl_of. apply near_sqrt; [|].
      * assert (0 <= 34 / 10 * c ^ 2) by (apply Rmult_le_pos; lra). lra.
      * apply near_fadd with (k := 9); [lra|apply Rmult_le_pos; lra|apply near_refl; lra|]. eapply near_weaken; [apply M; exact N2|lra].
    + destruct HL as (_ & He & _). apply within_near, He.
  - lra.
Qed.

(** ** Non-vacuity *)
(** a library that rounds correctly satisfies the hypothesis *)
Example C116_libm : libm_1ulp (mkLibm (fun x a => fl (Rpower x a)) (fun x => fl (exp x)) (fun x => fl (ln x)) (fun x => fl (cbrt x))).
Proof.
  assert (H: forall x, within 1 x (fl x)). { intros x. apply near_within; [apply near_fl|lra]. }
  repeat split; cbn; intros; apply H.
Qed.
(** one measured point and one violated upper limit *)
Definition ex_L : libm := mkLibm (fun x a => fl (Rpower x a)) (fun x => fl (exp x)) (fun x => fl (ln x)) (fun x => fl (cbrt x)).
Definition ex_data : list row := [mkRow 1 (1/2) 2 false (3/4); mkRow 3 1 1 true (3/4)].
Lemma is_double_quarter (n : Z) : (Z.abs n < 2 ^ 53)%Z -> is_double (IZR n / 4).
Proof.
  intros H. apply generic_format_FLX. exists (Float radix2 n (-2)); [|exact H].
  unfold F2R. cbn. reflexivity.
Qed.
Example C116_data : List.Forall good_row ex_data.
Proof.
  assert (Q: forall n x, (Z.abs n < 2 ^ 53)%Z -> x = IZR n / 4 -> is_double x) by (intros n x H ->; apply is_double_quarter; assumption).
  repeat constructor; cbn; try lra.
  - apply (Q 2%Z); [reflexivity|lra]. - apply (Q 8%Z); [reflexivity|lra]. - apply (Q 3%Z); [reflexivity|lra].
  - apply (Q 4%Z); [reflexivity|lra]. - apply (Q 4%Z); [reflexivity|lra]. - apply (Q 3%Z); [reflexivity|lra].
Qed.
Example C116_run : exists out, flnl ex_L [2; 4] ex_data out /\ lnl [2; 4] ex_data = Ok (- (1 / 8) + ln (1 / 4)).
Proof.
  eexists. split.
  - eexists. split; [apply fs_one|reflexivity].
  - unfold lnl, ex_data, violated. cbn [combine filter ul snd fst negb existsb orb andb CoreModel.flux map sumR List.length].
    destruct (Rlt_dec 3 4); [|lra]. cbn. f_equal. unfold row_lnl. cbn. destruct (Rlt_dec 0 (2 - 1)); [|lra].
    replace (1 - 3 / 4) with (1 / 4) by lra. lra.
Qed.

Print Assumptions C116_cutoff_broken_power_law.
Print Assumptions C116_synchrotron_function.
Print Assumptions C116_likelihood.
