(** C162: is the bremsstrahlung flux a number? *)
From Coq Require Import Reals List Bool Lra Lia.
From Verif Require Import Outcome TrapzModel TrapzSpec TrapzProofs EnergyModel EnergyProofs ElectronModel ElectronProofs BremsModel SeedProps XBremsModel.
Import ListNotations.
Local Open Scope R_scope.

Lemma xln_pos x : 0 < x -> xln (Fin x) = Fin (ln x).
Proof. intros. unfold xln. destruct (Req_EM_T x 0); [lra|]. destruct (Rlt_dec 0 x); [reflexivity|lra]. Qed.
Lemma xdiv_fin x y : y <> 0 -> xdiv (Fin x) (Fin y) = Fin (x / y).
Proof. intros. unfold xdiv. destruct (Req_EM_T y 0); [contradiction|reflexivity]. Qed.
Lemma ln10_neq : ln 10 <> 0.
Proof. assert (0 < ln 10) by (rewrite <- ln_1; apply ln_increasing; lra). lra. Qed.
Lemma xlog10_pos x : 0 < x -> xlog10 (Fin x) = Fin (log10 x).
Proof. intros. unfold xlog10. rewrite xln_pos by auto. apply xdiv_fin, ln10_neq. Qed.
Lemma xmul_nan_r a : xmul a NaN = NaN.
Proof. destruct a as [x| | |]; cbn; try reflexivity. destruct (Req_EM_T x 0); [|destruct (Rlt_dec 0 x)]; reflexivity. Qed.
Lemma xmul_nan_l a : xmul NaN a = NaN.
Proof. destruct a as [x| | |]; reflexivity. Qed.
Lemma xadd_nan_r a : xadd a NaN = NaN. Proof. destruct a; reflexivity. Qed.
Lemma xadd_nan_l a : xadd NaN a = NaN. Proof. destruct a; reflexivity. Qed.

(** ** Ordinary values *)
Lemma xbin_fin x1 x2 y1 y2 : 0 < x1 -> x1 < x2 -> xbin x1 x2 (Fin y1) (Fin y2) = Fin (sinterval x1 x2 y1 y2).
Proof.
  intros H1 H2. unfold xbin, sinterval. cbn [xis_zero].
  destruct (Req_EM_T y1 0) as [Z1|Z1]; [reflexivity|]. destruct (Req_EM_T y2 0) as [Z2|Z2]; [reflexivity|].
  destruct (Req_EM_T x1 x2) as [Zx|Zx]; [reflexivity|].
  assert (X : 1 < x2 / x1). { apply Rmult_lt_reg_r with x1; auto. unfold Rdiv. rewrite Rmult_assoc, Rinv_l; lra. }
  rewrite (xdiv_fin x2 x1) by lra. rewrite (xdiv_fin y2 y1) by auto. rewrite (xlog10_pos (x2 / x1)) by lra.
  assert (LX : 0 < ln (x2 / x1)) by (rewrite <- ln_1; apply ln_increasing; lra).
  assert (L10 : log10 (x2 / x1) <> 0). { unfold log10. pose proof ln10_neq. apply Rmult_integral_contrapositive. split; [lra|]. now apply Rinv_neq_0_compat. }
  rewrite (xln_pos (x2 / x1)) by lra.
  destruct (Rlt_dec (y1 * y2) 0) as [S|S].
  - assert (Neg : y2 / y1 < 0).
    { replace (y2 / y1) with (y1 * y2 * (/ y1 * / y1)) by (field; auto). assert (0 < / y1 * / y1) by (apply Rlt_0_sqr; now apply Rinv_neq_0_compat). nra. }
    assert (EN : xlog10 (Fin (y2 / y1)) = NaN).
    { unfold xlog10, xln. destruct (Req_EM_T (y2 / y1) 0); [lra|]. destruct (Rlt_dec 0 (y2 / y1)); [lra|]. reflexivity. }
    rewrite EN. cbn [xdiv xadd xabs xgt xmul]. reflexivity.
  - assert (Pos : 0 < y2 / y1).
    { replace (y2 / y1) with (y1 * y2 * (/ y1 * / y1)) by (field; auto). assert (0 < / y1 * / y1) by (apply Rlt_0_sqr; now apply Rinv_neq_0_compat).
      assert (y1 * y2 <> 0) by (apply Rmult_integral_contrapositive; auto). assert (0 < y1 * y2) by lra. nra. }
    rewrite (xlog10_pos (y2 / y1)) by auto. rewrite xdiv_fin by auto. fold (local_index x1 x2 y1 y2). set (b := local_index x1 x2 y1 y2).
    cbn [xadd xabs xgt]. rewrite raw_interval_same by lra. cbv zeta. fold b. destruct (Rlt_dec window_eps (Rabs (b + 1))) as [W|W]; [|reflexivity].
    unfold xpow. destruct (Rlt_dec 0 (x2 / x1)); [|lra]. cbn [xmul xopp xadd].
    rewrite xdiv_fin; [reflexivity|]. intros Z. rewrite Z, Rabs_R0 in W. unfold window_eps in W. assert (0 < / 10 ^ 10) by (apply Rinv_0_lt_compat, pow_lt; lra). lra.
Qed.
Lemma xtrapz_fin ys : forall xs, grid xs -> xtrapz (map Fin ys) xs = Fin (strapz ys xs).
Proof.
  induction ys as [|y1 ys IH]; intros xs G; [reflexivity|].
  destruct ys as [|y2 ys]; [destruct xs as [|? [|]]; reflexivity|]. destruct xs as [|x1 [|x2 xs]]; [reflexivity|reflexivity|].
  destruct (grid_cons2 _ _ _ G) as (G1 & G2 & G3).
  change (xadd (xbin x1 x2 (Fin y1) (Fin y2)) (xtrapz (map Fin (y2 :: ys)) (x2 :: xs)) = Fin (sinterval x1 x2 y1 y2 + strapz (y2 :: ys) (x2 :: xs))).
  rewrite IH, xbin_fin by auto. reflexivity.
Qed.

Lemma xsigma_1_fin k g eps : 0 < g -> 0 < eps -> g <> eps -> xsigma_1 k g eps = Fin (sigma_1 k g eps).
Proof.
  intros Hg He N. unfold xsigma_1, sigma_1. cbv zeta. destruct (Rlt_dec g eps); [reflexivity|].
  rewrite xln_pos by (apply div_pos; auto; apply Rmult_lt_0_compat; lra). cbn [xadd xmul]. f_equal.
Qed.
Lemma xsigma_2_fin k g eps : 0 < g -> 0 < eps -> eps <> 1 / 2 -> xsigma_2 k g eps = Fin (sigma_2 k g eps).
Proof.
  intros Hg He N. unfold xsigma_2, sigma_2. cbv zeta. rewrite (xln_pos (g / eps)) by (apply div_pos; auto). rewrite (xln_pos (2 * g)) by lra.
  destruct (Rle_dec eps (1 / 2)) as [L|L]; [rewrite (xln_pos (1 - 2 * eps)) by lra|]; reflexivity.
Qed.
Lemma xsigma_ee_fin k gt g eps : 0 < g -> 0 < eps -> g <> eps -> eps <> 1 / 2 -> xsigma_ee k gt g eps = Fin (sigma_ee k gt g eps).
Proof.
  intros. unfold xsigma_ee, sigma_ee, xsigma_ee_rel, sigma_ee_rel. cbv zeta. destruct (Rle_dec g gt); [reflexivity|].
  rewrite xsigma_1_fin, xsigma_2_fin by auto. reflexivity.
Qed.
Lemma xemiss_fin mec2 c pd gs (xs : R -> R -> xr) (s : R -> R -> R) eps : grid gs -> (forall g, In g gs -> xs g eps = Fin (s g eps)) ->
  xemiss mec2 c pd gs xs eps = Fin (c * strapz (mul2 (nelec mec2 pd gs) (map (fun g => s g eps) gs)) gs).
Proof.
  intros G H. unfold xemiss. rewrite nelec_kernel.
  rewrite (map_ext_in _ (fun g => Fin (pd (g * mec2) * mec2 * s g eps))) by (intros g Hg; rewrite H by auto; reflexivity).
  rewrite <- (map_map (fun g => pd (g * mec2) * mec2 * s g eps) Fin), xtrapz_fin by auto. reflexivity.
Qed.

(** Away from half the electron rest energy and from the electron energies of the
    grid the flux is a number, the one computed without infinities. *)
Theorem C162_number_partial : forall k gt mec2 c pd nd lo hi n0 w_ee w_ep eps,
  0 < mec2 -> 0 < lo < hi -> w_ee <> 0 -> w_ep <> 0 -> 0 < eps -> eps <> 1 / 2 -> ~ In eps (gam mec2 nd lo hi) ->
  exists v, xbrems k gt mec2 c pd (gam mec2 nd lo hi) n0 w_ee w_ep eps = Fin v /\
            brems_luminosity k gt mec2 c pd (gam mec2 nd lo hi) n0 w_ee w_ep [eps] = Ok [v].
Proof.
  intros k gt mec2 c pd nd lo hi n0 w_ee w_ep eps Hm HE W1 W2 He N1 N2. set (gs := gam mec2 nd lo hi) in *.
  assert (G : grid gs) by (apply gam_grid; lra).
  assert (GP : forall g, In g gs -> 0 < g /\ g <> eps).
  { intros g Hg. split; [destruct G as [G _]; rewrite Forall_forall in G; auto|]. intros ->. contradiction. }
  eexists. split.
  - unfold xbrems. rewrite (xemiss_fin mec2 c pd gs _ (sigma_ee k gt)), (xemiss_fin mec2 c pd gs _ (sigma_ep k)); auto.
    + cbn [xmul xadd]. reflexivity.
    + intros g Hg. destruct (GP g Hg). unfold xsigma_ep. apply xsigma_1_fin; auto.
    + intros g Hg. destruct (GP g Hg). apply xsigma_ee_fin; auto.
  - unfold brems_luminosity, brems_spectrum, emiss. destruct (Req_EM_T w_ee 0); [contradiction|]. destruct (Req_EM_T w_ep 0); [contradiction|].
    cbn [qscale map qadd add2 combine fst snd omap obind]. reflexivity.
Qed.
Print Assumptions C162_number_partial.

(** ** nan *)
Lemma xtrapz_nan ys xs : (exists i, (S i < List.length ys)%nat /\ (S i < List.length xs)%nat /\
    xbin (nth i xs 0) (nth (S i) xs 0) (nth i ys (Fin 0)) (nth (S i) ys (Fin 0)) = NaN) -> xtrapz ys xs = NaN.
Proof.
  revert xs. induction ys as [|y1 ys IH]; intros xs (i & L1 & L2 & B); [cbn in L1; lia|].
  destruct ys as [|y2 ys]; [cbn in L1; lia|]. destruct xs as [|x1 [|x2 xs]]; [cbn in L2; lia|cbn in L2; lia|].
  change (xadd (xbin x1 x2 y1 y2) (xtrapz (y2 :: ys) (x2 :: xs)) = NaN). destruct i as [|i].
  - cbn [nth] in B. rewrite B. apply xadd_nan_l.
  - rewrite IH; [apply xadd_nan_r|]. exists i. cbn [List.length nth] in *. repeat split; auto; lia.
Qed.
Lemma xbrems_nan k gt mec2 c pd gs n0 w_ee w_ep eps :
  xemiss mec2 c pd gs (xsigma_ee k gt) eps = NaN \/ xemiss mec2 c pd gs (xsigma_ep k) eps = NaN ->
  xbrems k gt mec2 c pd gs n0 w_ee w_ep eps = NaN.
Proof. intros [H|H]; unfold xbrems; rewrite H, xmul_nan_r, ?xadd_nan_r, ?xadd_nan_l, xmul_nan_r; reflexivity. Qed.

(** Photons of exactly half the electron rest energy: nan for every distribution of
    electrons above 2 MeV. *)
Theorem C162_half_refuted : forall k gt mec2 c pd nd lo hi n0 w_ee w_ep,
  0 < k -> 1 <= gt -> 0 < mec2 -> gt * mec2 < lo -> lo < hi ->
  xbrems k gt mec2 c pd (gam mec2 nd lo hi) n0 w_ee w_ep (1 / 2) = NaN.
Proof.
  intros k gt mec2 c pd nd lo hi n0 w_ee w_ep Hk Hgt Hm Hlo Hhi. apply xbrems_nan. left. unfold xemiss. set (gs := gam mec2 nd lo hi).
  assert (LOP : 0 < lo) by (assert (0 < gt * mec2) by (apply Rmult_lt_0_compat; lra); lra).
  assert (G : grid gs) by (apply gam_grid; lra).
  assert (LG : (10 <= List.length gs)%nat) by (unfold gs, gam; rewrite logspace_length; apply npoints_ge).
  assert (B : forall g, In g gs -> gt < g).
  { intros g Hg. destruct (gam_bounds mec2 nd lo hi g Hm ltac:(lra) Hg) as [B _]. apply Rlt_le_trans with (2 := B).
    apply Rmult_lt_reg_r with mec2; auto. unfold Rdiv. rewrite Rmult_assoc, Rinv_l; lra. }
  assert (SN : forall g, In g gs -> xsigma_ee k gt g (1 / 2) = NaN).
  { intros g Hg. specialize (B g Hg). unfold xsigma_ee. destruct (Rle_dec g gt); [lra|]. unfold xsigma_ee_rel, xsigma_2. cbv zeta.
    destruct (Rle_dec (1 / 2) (1 / 2)); [|lra]. replace (- (2) * (1 - 2 * (1 / 2))) with 0 by field. replace (1 - 2 * (1 / 2)) with 0 by field.
    assert (E : xmul (Fin 0) (xln (Fin 0)) = NaN).
    { unfold xln. destruct (Req_EM_T 0 0); [|lra]. cbn [xmul xsign]. destruct (Req_EM_T 0 0); [reflexivity|lra]. }
    rewrite E, !xmul_nan_l, xadd_nan_r, xmul_nan_r, !xmul_nan_l, xadd_nan_r, xmul_nan_l. reflexivity. }
  rewrite (map_ext_in _ (fun _ => NaN)) by (intros g Hg; rewrite SN by auto; apply xmul_nan_r).
  rewrite xtrapz_nan; [apply xmul_nan_r|]. exists 0%nat. rewrite map_length. repeat split; try lia.
  destruct gs as [|g1 [|g2 gl]]; cbn in LG; try lia. cbn [map nth]. destruct (grid_cons2 _ _ _ G) as (G1 & G2 & _).
  unfold xbin. cbn [xis_zero xdiv]. destruct (Req_EM_T g1 g2); [lra|]. unfold xlog10 at 1. cbn [xln xdiv xadd xabs xgt].
  unfold xdiv. destruct (Req_EM_T g1 0); [lra|]. rewrite xmul_nan_r. 
  destruct (xln _); reflexivity.
Qed.
Print Assumptions C162_half_refuted.

Lemma grid_next : forall gs i, grid gs -> (S i < List.length gs)%nat -> nth i gs 0 < nth (S i) gs 0.
Proof.
  induction gs as [|x1 gs IH]; intros i G L; [cbn in L; lia|]. destruct gs as [|x2 gs]; [cbn in L; lia|].
  destruct (grid_cons2 _ _ _ G) as (G1 & G2 & G3). destruct i as [|i]; [exact G2|]. apply (IH i G3). cbn [List.length] in *. lia.
Qed.
(** -inf at one point of an increasing grid and a finite value at the next *)
Lemma xbin_ninf x1 x2 y2 : 0 < x1 -> x1 < x2 -> y2 <> 0 -> xbin x1 x2 NInf (Fin y2) = NaN.
Proof.
  intros H1 H2 Hy. unfold xbin. cbn [xis_zero]. destruct (Req_EM_T y2 0); [contradiction|]. destruct (Req_EM_T x1 x2); [lra|].
  assert (X : 1 < x2 / x1). { apply Rmult_lt_reg_r with x1; auto. unfold Rdiv. rewrite Rmult_assoc, Rinv_l; lra. }
  rewrite (xdiv_fin x2 x1) by lra. rewrite (xlog10_pos (x2 / x1)) by lra.
  assert (LX : 0 < ln (x2 / x1)) by (rewrite <- ln_1; apply ln_increasing; lra).
  assert (L1 : 0 < ln 10) by (rewrite <- ln_1; apply ln_increasing; lra).
  assert (L10 : 0 < log10 (x2 / x1)) by (unfold log10; apply div_pos; auto).
  change (xdiv (Fin y2) NInf) with (Fin 0).
  assert (E : xlog10 (Fin 0) = NInf). { unfold xlog10, xln. destruct (Req_EM_T 0 0); [|lra]. cbn [xdiv]. destruct (Rlt_dec (ln 10) 0); [lra|reflexivity]. }
  rewrite E. assert (E2 : xdiv NInf (Fin (log10 (x2 / x1))) = NInf). { cbn [xdiv]. destruct (Rlt_dec (log10 (x2 / x1)) 0); [lra|reflexivity]. }
  rewrite E2. cbn [xadd xabs xgt]. unfold xpow. destruct (Rlt_dec 1 (x2 / x1)); [|lra]. cbn [xmul xopp xadd xsign].
  destruct (Req_EM_T (x2 * 0 + - x1) 0); [lra|]. destruct (Rlt_dec 0 (x2 * 0 + - x1)); [lra|]. reflexivity.
Qed.
Lemma xsigma_1_at k g : 0 < k -> 0 < g -> xsigma_1 k g g = NInf.
Proof.
  intros Hk Hg. unfold xsigma_1. cbv zeta. destruct (Rlt_dec g g); [lra|]. replace (2 * g * (g - g) / g) with 0 by (field; lra).
  unfold xln. destruct (Req_EM_T 0 0); [|lra]. cbn [xadd]. assert (0 < 4 * k / g) by (apply div_pos; lra).
  replace (1 + (1 / 3 - g / g) * (1 - g / g)) with 1 by (field; lra). cbn [xmul xsign]. destruct (Req_EM_T (4 * k / g * 1) 0); [lra|].
  destruct (Rlt_dec 0 (4 * k / g * 1)); [reflexivity|lra].
Qed.

(** Photons as energetic as some electrons of the grid, other than its last point: nan,
    unless the cross section vanishes at the next point. *)
Theorem C162_grid_refuted : forall k gt mec2 c pd nd lo hi n0 w_ee w_ep i,
  0 < k -> 0 < mec2 -> 0 < lo < hi -> (forall E, 0 < E -> 0 < pd E) ->
  let gs := gam mec2 nd lo hi in (S i < List.length gs)%nat ->
  let g := nth i gs 0 in let g' := nth (S i) gs 0 in
  2 * g' * (g' - g) / g <> exp (1 / 2) ->
  xbrems k gt mec2 c pd gs n0 w_ee w_ep g = NaN.
Proof.
  intros k gt mec2 c pd nd lo hi n0 w_ee w_ep i Hk Hm HE Hpd gs Hi g g' Hne. apply xbrems_nan. right. unfold xemiss.
  assert (G : grid gs) by (apply gam_grid; lra).
  assert (G1 : 0 < g /\ g < g').
  { split; [destruct G as [G _]; rewrite Forall_forall in G; apply G, nth_In; lia|]. apply grid_next; auto. }
  destruct G1 as [G1 G2]. rewrite xtrapz_nan; [apply xmul_nan_r|]. exists i. rewrite map_length. repeat split; auto.
  set (f := fun g0 => xmul (Fin (pd (g0 * mec2) * mec2)) (xsigma_ep k g0 g)).
  rewrite !(nth_indep (map f gs) (Fin 0) (f 0)) by (rewrite map_length; lia). rewrite !map_nth. fold g g'.
  assert (P : forall x, 0 < x -> 0 < pd (x * mec2) * mec2).
  { intros x Hx. apply Rmult_lt_0_compat; auto. apply Hpd, Rmult_lt_0_compat; auto. }
  assert (F1 : f g = NInf).
  { unfold f, xsigma_ep. rewrite xsigma_1_at by auto. cbn [xmul xsign]. specialize (P g G1). destruct (Req_EM_T (pd (g * mec2) * mec2) 0); [lra|]. destruct (Rlt_dec 0 (pd (g * mec2) * mec2)); [reflexivity|lra]. }
  assert (F2 : exists y, f g' = Fin y /\ y <> 0).
  { unfold f, xsigma_ep. rewrite xsigma_1_fin by lra. cbn [xmul]. eexists. split; [reflexivity|]. specialize (P g' ltac:(lra)).
    apply Rmult_integral_contrapositive. split; [lra|]. unfold sigma_1. cbv zeta. destruct (Rlt_dec g' g); [lra|].
    assert (0 < 4 * k / g) by (apply div_pos; lra).
    assert (S2 : 0 < 1 + (1 / 3 - g / g') * (1 - g / g')).
    { assert (0 < g / g' < 1). { split; [apply div_pos; lra|]. apply Rmult_lt_reg_r with g'; [lra|]. unfold Rdiv. rewrite Rmult_assoc, Rinv_l; lra. } nra. }
    apply Rmult_integral_contrapositive. split; [assert (0 < 4 * k / g * (1 + (1 / 3 - g / g') * (1 - g / g'))) by (apply Rmult_lt_0_compat; auto); lra|].
    intros Z. apply Hne. rewrite <- (exp_ln (2 * g' * (g' - g) / g)); [f_equal; lra|]. apply div_pos; auto. apply Rmult_lt_0_compat; lra. }
  destruct F2 as (y & F2 & Hy). rewrite F1, F2. apply xbin_ninf; auto.
Qed.
Print Assumptions C162_grid_refuted.

(** not vacuous: electrons from 1 to 512 rest energies on ten points, each twice the
    one before, and photons of the lowest electron energy *)
Example C162_example : let gs := gam 1 0 1 512 in
  (1 < List.length gs)%nat /\ nth 0 gs 0 = 1 /\ nth 1 gs 0 = 2 /\
  2 * nth 1 gs 0 * (nth 1 gs 0 - nth 0 gs 0) / nth 0 gs 0 <> exp (1 / 2).
Proof.
  cbv zeta. assert (N : npoints (0 * (log10 (512 / 1) - log10 (1 / 1))) = 10%nat).
  { rewrite Rmult_0_l. unfold npoints. change 0 with (IZR 0). rewrite <- (Rplus_0_r (IZR 0)). replace (Int_part (IZR 0 + 0)) with 0%Z; [reflexivity|].
    rewrite Rplus_0_r. unfold Int_part. rewrite <- (tech_up (IZR 0) 1); [reflexivity|simpl; lra|simpl; lra]. }
  assert (G : gam 1 0 1 512 = logspace (log10 (1 / 1)) (log10 (512 / 1)) 10) by (unfold gam; rewrite N; reflexivity).
  rewrite G. assert (A : nth 0 (logspace (log10 (1 / 1)) (log10 (512 / 1)) 10) 0 = 1).
  { rewrite logspace_nth by lia. simpl INR. rewrite Rmult_0_l, Rplus_0_r. rewrite pow10_log10 by lra. field. }
  assert (B : nth 1 (logspace (log10 (1 / 1)) (log10 (512 / 1)) 10) 0 = 2).
  { rewrite logspace_nth by lia. replace (log10 (1 / 1)) with 0 by (unfold log10; replace (1 / 1) with 1 by field; rewrite ln_1; field; apply ln10_neq).
    replace (0 + INR 1 * ((log10 (512 / 1) - 0) / INR (10 - 1))) with (log10 2); [apply pow10_log10; lra|].
    replace (512 / 1) with (2 ^ 9) by (simpl; lra). unfold log10. rewrite ln_pow by lra. simpl INR. field. apply ln10_neq. }
  rewrite A, B. split; [rewrite logspace_length; lia|]. repeat split.
  assert (exp (1 / 2) < 4); [|lra]. pose proof exp_le_3 as E3. assert (exp (1 / 2) < exp 1) by (apply exp_increasing; lra). lra.
Qed.
