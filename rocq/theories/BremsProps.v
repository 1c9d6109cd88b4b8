(** Properties C18, C22, C30, C31, C70, C71: bremsstrahlung and the shared table. *)
From Coq Require Import Reals List String Lra Lia Psatz Sorted Permutation.
From Verif Require Import Outcome TrapzModel TrapzSpec TrapzProofs EnergyModel EnergyProofs ElectronModel ElectronProofs
  BremsModel.
Import ListNotations.
Local Open Scope R_scope.

(** ** C30 *)
(** Both weights non-zero: the result at every energy is the weighted sum of the two parts, the integrals over
    the electrons of the two cross sections (identified as the published ones in C153). *)
Theorem C30_weights_partial : forall k gt mec2 c pd gs Eph n0 w_ee w_ep, w_ee <> 0 -> w_ep <> 0 ->
  let part (sigma : R -> R -> R) eps := c * strapz (mul2 (map (fun g => pd (g * mec2) * mec2) gs) (map (fun g => sigma g eps) gs)) gs in
  brems_luminosity k gt mec2 c pd gs n0 w_ee w_ep Eph =
  Ok (map (fun eps => n0 * (w_ee * part (sigma_ee k gt) eps + w_ep * part (sigma_ep k) eps)) Eph).
Proof.
  intros k gt mec2 c pd gs Eph n0 w1 w2 H1 H2 part. unfold brems_luminosity, brems_spectrum, emiss.
  destruct (Req_EM_T w1 0); [contradiction|]. destruct (Req_EM_T w2 0); [contradiction|]. cbn [qscale qadd omap obind].
  f_equal. unfold add2. rewrite !map_map, combine_map, !map_map. apply map_ext. intros. cbn [fst snd]. reflexivity.
Qed.
Print Assumptions C30_weights_partial.

(** Refuted when a weight is 0 (the documented way to ask for pure
    electron-electron bremsstrahlung): the call always fails. *)
Theorem C30_zero_weight_refuted : forall k gt mec2 c pd gs n0 w Eph,
  brems_luminosity k gt mec2 c pd gs n0 w 0 Eph = Err "UnitConversionError" /\
  brems_luminosity k gt mec2 c pd gs n0 0 w Eph = Err "UnitConversionError".
Proof.
  intros. unfold brems_luminosity, brems_spectrum, emiss.
  destruct (Req_EM_T 0 0); [|lra]. destruct (Req_EM_T w 0); cbn; auto.
Qed.
Print Assumptions C30_zero_weight_refuted.

(** ** C22, C18 for bremsstrahlung *)
Theorem C22_brems_pointwise : forall k gt mec2 c pd gs n0 w_ee w_ep Es1 E Es2, w_ee <> 0 -> w_ep <> 0 ->
  exists l l1, brems_luminosity k gt mec2 c pd gs n0 w_ee w_ep (Es1 ++ E :: Es2) = Ok l /\
    brems_luminosity k gt mec2 c pd gs n0 w_ee w_ep [E] = Ok [l1] /\ nth_error l (List.length Es1) = Some l1.
Proof.
  intros k gt mec2 c pd gs n0 w1 w2 Es1 E Es2 H1 H2.
  set (f := fun eps => n0 * (w1 * (c * strapz (mul2 (nelec mec2 pd gs) (map (fun g => sigma_ee k gt g eps) gs)) gs)
                     + w2 * (c * strapz (mul2 (nelec mec2 pd gs) (map (fun g => sigma_ep k g eps) gs)) gs))).
  assert (K : forall Es, brems_luminosity k gt mec2 c pd gs n0 w1 w2 Es = Ok (map f Es)).
  { intros Es. unfold brems_luminosity, brems_spectrum, emiss.
    destruct (Req_EM_T w1 0); [contradiction|]. destruct (Req_EM_T w2 0); [contradiction|]. cbn [qscale qadd omap obind].
    f_equal. unfold add2. rewrite !map_map, combine_map, !map_map. reflexivity. }
  rewrite !K. do 2 eexists. split; [reflexivity|]. split; [reflexivity|].
  rewrite map_app, nth_error_app2; rewrite map_length; auto. rewrite Nat.sub_diag. reflexivity.
Qed.
Print Assumptions C22_brems_pointwise.
Theorem C22_brems_permutation : forall k gt mec2 c pd gs n0 w_ee w_ep Es Es' l l', Permutation Es Es' ->
  brems_luminosity k gt mec2 c pd gs n0 w_ee w_ep Es = Ok l -> brems_luminosity k gt mec2 c pd gs n0 w_ee w_ep Es' = Ok l' ->
  Permutation (combine Es l) (combine Es' l').
Proof.
  intros k gt mec2 c pd gs n0 w1 w2 Es Es' l l' P.
  set (f := fun eps => n0 * (w1 * (c * strapz (mul2 (nelec mec2 pd gs) (map (fun g => sigma_ee k gt g eps) gs)) gs)
                     + w2 * (c * strapz (mul2 (nelec mec2 pd gs) (map (fun g => sigma_ep k g eps) gs)) gs))).
  assert (K : forall Es l, brems_luminosity k gt mec2 c pd gs n0 w1 w2 Es = Ok l -> l = map f Es).
  { intros Xs m H. unfold brems_luminosity, brems_spectrum, emiss in H.
    destruct (Req_EM_T w1 0) as [E1|N1], (Req_EM_T w2 0) as [E2|N2]; subst; cbn [qscale qadd omap obind] in H;
    repeat (destruct (Req_EM_T _ _) in H; try contradiction; cbn [qscale qadd omap obind] in H); try discriminate.
    injection H as <-. unfold add2. rewrite !map_map, combine_map, !map_map. reflexivity. }
  intros H H'. apply K in H, H'. subst. 
  assert (Q : forall m, combine m (map f m) = map (fun x => (x, f x)) m) by (induction m; simpl; congruence).
  rewrite !Q. apply Permutation_map, P.
Qed.
Print Assumptions C22_brems_permutation.

Lemma sinterval_scale c x1 x2 y1 y2 : 0 < c -> sinterval x1 x2 (c * y1) (c * y2) = c * sinterval x1 x2 y1 y2.
Proof.
  intros Hc. unfold sinterval.
  destruct (Req_EM_T y1 0) as [->|N1]. { rewrite Rmult_0_r. destruct (Req_EM_T 0 0); [reflexivity|lra]. }
  destruct (Req_EM_T (c * y1) 0) as [E|_]; [exfalso; apply Rmult_integral in E; lra|].
  destruct (Req_EM_T y2 0) as [->|N2]. { rewrite Rmult_0_r. destruct (Req_EM_T 0 0); [reflexivity|lra]. }
  destruct (Req_EM_T (c * y2) 0) as [E|_]; [exfalso; apply Rmult_integral in E; lra|].
  destruct (Req_EM_T x1 x2); [ring|].
  replace (c * y1 * (c * y2)) with (c * c * (y1 * y2)) by ring. assert (0 < c * c) by nra.
  destruct (Rlt_dec (y1 * y2) 0), (Rlt_dec (c * c * (y1 * y2)) 0); try ring; try (exfalso; nra).
  apply raw_interval_scale; auto.
Qed.
Lemma strapz_cons2 y1 y2 ys x1 x2 xs :
  strapz (y1 :: y2 :: ys) (x1 :: x2 :: xs) = sinterval x1 x2 y1 y2 + strapz (y2 :: ys) (x2 :: xs).
Proof. reflexivity. Qed.
Lemma strapz_scale c ys : forall xs, 0 < c -> strapz (map (Rmult c) ys) xs = c * strapz ys xs.
Proof.
  induction ys as [|y1 ys IH]; intros xs Hc; [simpl; ring|].
  destruct ys as [|y2 ys]; [destruct xs as [|? [|]]; simpl; ring|].
  destruct xs as [|x1 [|x2 xs]]; [simpl; ring..|]. specialize (IH (x2 :: xs) Hc). cbn [map] in *.
  rewrite !strapz_cons2, IH, sinterval_scale by auto. ring.
Qed.

Theorem C18_brems_linear : forall k gt mec2 cc (pd : R -> R -> R) c A gs n0 w_ee w_ep Eph l,
  (forall c a E, pd (c * a) E = c * pd a E) -> 0 < c ->
  brems_luminosity k gt mec2 cc (pd A) gs n0 w_ee w_ep Eph = Ok l ->
  brems_luminosity k gt mec2 cc (pd (c * A)) gs n0 w_ee w_ep Eph = Ok (map (Rmult c) l) /\
  brems_luminosity k gt mec2 cc (pd A) gs (c * n0) w_ee w_ep Eph = Ok (map (Rmult c) l).
Proof.
  intros k gt mec2 cc pd c A gs n0 w1 w2 Eph l HP Hc.
  assert (E : forall K : R -> R, mul2 (nelec mec2 (pd (c * A)) gs) (map K gs) = map (Rmult c) (mul2 (nelec mec2 (pd A) gs) (map K gs))).
  { intros K. rewrite !nelec_kernel, map_map. apply map_ext. intros g. rewrite HP. ring. }
  unfold brems_luminosity, brems_spectrum, emiss.
  destruct (Req_EM_T w1 0), (Req_EM_T w2 0); cbn [qscale qadd omap obind]; try discriminate.
  intros [= <-]. unfold add2. rewrite !map_map, !combine_map, !map_map. split; f_equal; apply map_ext; intros eps; cbn [fst snd].
  - rewrite !E, !strapz_scale by auto. ring.
  - ring.
Qed.
Print Assumptions C18_brems_linear.

(** ** C31 *)
(** The electron-ion cross section (for photon energies below the electron energy):
    its sign is that of 2 gam (gam - eps)/eps - sqrt e. *)
Theorem C31_ep_sign_partial : forall k gam eps, 0 < k -> 0 < eps -> eps < gam ->
  (exp (1 / 2) < 2 * gam * (gam - eps) / eps -> 0 < sigma_ep k gam eps) /\
  (2 * gam * (gam - eps) / eps < exp (1 / 2) -> sigma_ep k gam eps < 0).
Proof.
  intros k gam eps Hk He Hlt. unfold sigma_ep, sigma_1. destruct (Rlt_dec gam eps); [lra|].
  destruct (z_range eps gam He Hlt) as [R0 R1]. set (r := eps / gam) in *.
  assert (S1 : 0 < 4 * k / eps) by pos. assert (S2 : 0 < 1 + (1 / 3 - r) * (1 - r)) by nra.
  assert (P : 0 < 2 * gam * (gam - eps) / eps). { apply div_pos; auto. apply Rmult_lt_0_compat; lra. }
  set (q := 2 * gam * (gam - eps) / eps) in *. split; intros HQ.
  - assert (1 / 2 < ln q) by (rewrite <- (ln_exp (1 / 2)); apply ln_increasing; [apply exp_pos|auto]).
    pose proof (Rmult_lt_0_compat _ _ S1 S2). nra.
  - assert (ln q < 1 / 2) by (rewrite <- (ln_exp (1 / 2)); apply ln_increasing; auto).
    pose proof (Rmult_lt_0_compat _ _ S1 S2). nra.
Qed.
Print Assumptions C31_ep_sign_partial.

(** Refuted: for every electron energy within 0.1 percent above a 5.11 MeV photon the
    electron-electron cross section is negative as well. *)
Lemma brems_negative k gt g : 0 < k -> gt < 10 -> 10 < g <= 1001 / 100 ->
  sigma_ee k gt g 10 < 0 /\ sigma_ep k g 10 < 0.
Proof.
  intros Hk Hg Hg2.
  assert (P : 0 < 2 * g * (g - 10) / 10) by nra.
  assert (L : ln (2 * g * (g - 10) / 10) < -3).
  { rewrite <- (ln_exp (-3)). apply ln_increasing; auto. apply Rle_lt_trans with (/ 30); [nra|].
    replace (-3) with (- (1 + 1 + 1)) by lra. rewrite exp_Ropp. apply Rinv_lt_contravar; [apply Rmult_lt_0_compat; [apply exp_pos|lra]|].
    rewrite !exp_plus. pose proof exp_le_3. pose proof (exp_pos 1). nra. }
  assert (S1 : sigma_1 k g 10 <= - (k * (12 / 10))).
  { unfold sigma_1. destruct (Rlt_dec g 10); [lra|]. destruct (z_range 10 g ltac:(lra) ltac:(lra)) as [R0 R1].
    set (r := 10 / g) in *. assert (8 / 9 <= 1 + (1 / 3 - r) * (1 - r)) by (pose proof (pow2_ge_0 (r - 2 / 3)); lra).
    set (s2 := 1 + (1 / 3 - r) * (1 - r)) in *. set (s3 := ln (2 * g * (g - 10) / 10) - 1 / 2) in *. assert (s3 < - (7 / 2)) by (unfold s3; lra).
    replace (4 * k / 10) with (k * (4 / 10)) by field. assert (s2 * s3 <= - (28 / 9)) by nra.
    replace (k * (4 / 10) * s2 * s3) with (k * (4 / 10) * (s2 * s3)) by ring. nra. }
  split.
  - unfold sigma_ee. destruct (Rle_dec g gt); [lra|]. unfold sigma_ee_rel.
    assert (S2 : sigma_2 k g 10 <= k * (6 / 10)).
    { unfold sigma_2. destruct (Rle_dec 10 (1 / 2)); [lra|].
      assert (Hv : heaviside (g - 10) = 1) by (unfold heaviside; destruct (Rlt_dec 0 (g - 10)); lra). rewrite Hv.
      assert (LN : ln (2 * g) <= 2 * g - 1) by (apply ln_le_minus1; lra).
      assert (L0 : 0 <= ln (2 * g)) by (rewrite <- ln_1; apply Rlt_le, ln_increasing; lra).
      set (l := ln (2 * g)) in *. replace (k / (3 * 10)) with (k * / 30) by field.
      match goal with |- _ * ?t * 1 <= _ => assert (t <= 18) end.
      { simpl. lra. }
      nra. }
    assert (A : 0 < 1 - 8 / 3 * Rpower (g - 1) (2 / 10) / (g + 1) * Rpower (10 / g) (1 / 3)).
    { assert (Q1 : 0 < Rpower (10 / g) (1 / 3) <= 1).
      { split; [apply exp_pos|]. destruct (z_range 10 g ltac:(lra) ltac:(lra)) as [R0 R1].
        unfold Rpower. apply Rle_trans with (exp 0); [|rewrite exp_0; lra]. apply Rlt_le, exp_increasing. assert (ln (10 / g) < 0) by (rewrite <- ln_1; apply ln_increasing; auto). lra. }
      assert (Q2 : 0 < Rpower (g - 1) (2 / 10) <= 4).
      { split; [apply exp_pos|]. apply Rle_trans with (Rpower (g - 1) (1 / 2)).
        - apply Rle_Rpower; lra.
        - replace (1 / 2) with (/ 2) by lra. rewrite Rpower_sqrt by lra. replace 4 with (sqrt (4 ^ 2)) by (apply sqrt_pow2; lra). apply sqrt_le_1; lra. }
      set (a := Rpower (10 / g) (1 / 3)) in *. set (b := Rpower (g - 1) (2 / 10)) in *.
      assert (b * a <= 4) by nra.
      replace (8 / 3 * b / (g + 1) * a) with (8 / 3 * (b * a) / (g + 1)) by (field; lra).
      assert (8 / 3 * (b * a) / (g + 1) < 1); [|lra]. apply Rmult_lt_reg_r with (g + 1); [lra|].
      unfold Rdiv at 1. rewrite Rmult_assoc, Rinv_l by lra. lra. }
    assert (sigma_1 k g 10 + sigma_2 k g 10 < 0) by nra. nra.
  - unfold sigma_ep. nra.
Qed.

Theorem C31_negative_refuted : forall k gt, 0 < k -> gt < 10 ->
  exists gam eps, 0 < eps < gam /\ sigma_ee k gt gam eps < 0.
Proof.
  intros k gt Hk Hg. exists (1001 / 100), 10. split; [lra|]. apply (proj1 (brems_negative k gt (1001 / 100) Hk Hg ltac:(lra))).
Qed.
Print Assumptions C31_negative_refuted.

(** ** C71 refuted: electrons concentrated just above a photon energy give a
    negative bremsstrahlung flux at that energy. *)
Lemma strapz_neg ys : forall xs, grid xs -> List.length ys = List.length xs -> (2 <= List.length xs)%nat ->
  Forall (fun y => y < 0) ys -> strapz ys xs < 0.
Proof.
  induction ys as [|y1 ys IH]; intros xs HG HL H2 HF; [simpl in HL; lia|].
  destruct xs as [|x1 [|x2 xs]]; simpl in H2; try lia. destruct ys as [|y2 ys]; [simpl in HL; lia|].
  inversion HF as [|? ? F1 F2]; subst. inversion F2 as [|? ? F3 F4]; subst.
  destruct (grid_cons2 _ _ _ HG) as (G1 & G2 & G3). rewrite strapz_cons2.
  assert (S : sinterval x1 x2 y1 y2 < 0).
  { assert (I := interval_pos x1 x2 (- y1) (- y2) G1 G2 ltac:(lra) ltac:(lra)).
    unfold interval in I. unfold sinterval. destruct (Req_EM_T y1 0); [lra|]. destruct (Req_EM_T y2 0); [lra|].
    destruct (Req_EM_T x1 x2); [lra|]. destruct (Rlt_dec (y1 * y2) 0); [nra|].
    destruct (Req_EM_T (- y1) 0); [lra|]. destruct (Req_EM_T (- y2) 0); [lra|].
    rewrite raw_interval_opp in I by lra. lra. }
  destruct xs as [|x3 xs].
  - destruct ys; simpl in *; try lia. lra.
  - assert (strapz (y2 :: ys) (x2 :: x3 :: xs) < 0); [|lra]. apply IH; auto; simpl in *; lia.
Qed.

Theorem C71_negative_flux_refuted : forall k gt mec2 c pd nd lo hi n0 w_ee w_ep,
  0 < k -> gt < 10 -> 0 < mec2 -> 0 < c -> 0 < n0 -> 0 < w_ee -> 0 < w_ep ->
  (forall E, 0 < E -> 0 < pd E) ->
  10 * mec2 < lo -> lo < hi -> hi <= 1001 / 100 * mec2 ->
  exists v, brems_luminosity k gt mec2 c pd (gam mec2 nd lo hi) n0 w_ee w_ep [10] = Ok [v] /\ v < 0.
Proof.
  intros k gt mec2 c pd nd lo hi n0 w1 w2 Hk Hg Hm Hc Hn H1 H2 HP Hlo Hlt Hhi.
  assert (GR : grid (gam mec2 nd lo hi)) by (apply gam_grid; lra).
  assert (HIn : forall g, In g (gam mec2 nd lo hi) -> 10 < g <= 1001 / 100).
  { intros g Hgin. unfold gam in Hgin. set (N := npoints _) in Hgin.
    assert (HN : (10 <= N)%nat) by apply npoints_ge.
    destruct (In_nth _ _ 0 Hgin) as (i & Hi & E). rewrite logspace_length in Hi. rewrite logspace_nth in E by lia. subst g.
    set (a := log10 (lo / mec2)). set (b := log10 (hi / mec2)). assert (AB : a < b) by (apply log10_ratio; lra).
    assert (PN : 0 < INR (N - 1)) by (apply lt_0_INR; lia). assert (P0 : 0 <= INR i) by apply pos_INR.
    assert (PL : INR i <= INR (N - 1)) by (apply le_INR; lia).
    assert (D : 0 <= (b - a) / INR (N - 1)) by (apply Rmult_le_pos; [lra|apply Rlt_le, Rinv_0_lt_compat; auto]).
    assert (T0 : 0 <= INR i * ((b - a) / INR (N - 1))) by (apply Rmult_le_pos; auto).
    assert (T1 : INR i * ((b - a) / INR (N - 1)) <= b - a).
    { apply Rle_trans with (INR (N - 1) * ((b - a) / INR (N - 1))); [apply Rmult_le_compat_r; auto|right; field; lra]. }
    assert (M : forall u v, u <= v -> pow10 u <= pow10 v) by (intros u v [UV| ->]; [apply Rlt_le, pow10_lt; auto|lra]).
    assert (LO : 10 < pow10 a).
    { unfold a. rewrite pow10_log10 by (apply div_pos; lra). apply Rmult_lt_reg_r with mec2; auto.
      unfold Rdiv. rewrite Rmult_assoc, Rinv_l by lra. lra. }
    assert (HI : pow10 b <= 1001 / 100).
    { unfold b. rewrite pow10_log10 by (apply div_pos; lra). apply Rmult_le_reg_r with mec2; auto.
      unfold Rdiv at 1. rewrite Rmult_assoc, Rinv_l by lra. lra. }
    split; [apply Rlt_le_trans with (pow10 a); auto; apply M; lra|]. apply Rle_trans with (pow10 b); auto. apply M; lra. }
  assert (HL2 : (2 <= List.length (gam mec2 nd lo hi))%nat).
  { unfold gam. rewrite logspace_length. pose proof (npoints_ge (nd * (log10 (hi / mec2) - log10 (lo / mec2)))). lia. }
  set (gs := gam mec2 nd lo hi) in *.
  assert (K : forall s : R -> R, (forall g, 10 < g <= 1001 / 100 -> s g < 0) ->
     strapz (mul2 (nelec mec2 pd gs) (map s gs)) gs < 0).
  { intros s Hs. rewrite nelec_kernel. apply strapz_neg; auto; [apply map_length|].
    apply Forall_forall. intros y Hy. apply in_map_iff in Hy. destruct Hy as (g & <- & Hgi).
    specialize (HIn g Hgi). specialize (Hs g HIn).
    assert (0 < pd (g * mec2) * mec2). { apply Rmult_lt_0_compat; auto. apply HP. apply Rmult_lt_0_compat; lra. } nra. }
  unfold brems_luminosity, brems_spectrum, emiss. destruct (Req_EM_T w1 0); [lra|]. destruct (Req_EM_T w2 0); [lra|].
  cbn [qscale qadd omap obind map]. unfold add2. cbn [combine map fst snd]. eexists. split; [reflexivity|].
  assert (K1 := K (fun g => sigma_ee k gt g 10) (fun g Hgg => proj1 (brems_negative k gt g Hk Hg Hgg))).
  assert (K2 := K (fun g => sigma_ep k g 10) (fun g Hgg => proj2 (brems_negative k gt g Hk Hg Hgg))).
  cbv beta in K1, K2.
  set (a := strapz (mul2 (nelec mec2 pd gs) (map (fun g => sigma_ee k gt g 10) gs)) gs) in *.
  set (b := strapz (mul2 (nelec mec2 pd gs) (map (fun g => sigma_ep k g 10) gs)) gs) in *.
  assert (c * a < 0) by nra. assert (c * b < 0) by nra. assert (w1 * (c * a) < 0) by nra. assert (w2 * (c * b) < 0) by nra. nra.
Qed.
Print Assumptions C71_negative_flux_refuted.

Example C71_example : 10 * 1 < 10002 / 1000 /\ 10002 / 1000 < 10005 / 1000 /\ 10005 / 1000 <= 1001 / 100 * 1.
Proof. lra. Qed.

(** ** C70: the shared parameter table *)
Definition start (b g : R) : thread := mkThread b g WriteBeta.
Definition finished (t : thread) : Prop := exists b g, at_pc t = Done b g.
Definition used_own (t : thread) : Prop := at_pc t = Done (own_beta t) (own_gamma t).

(** Evaluations one after the other, in any order and of any number of models,
    whatever the table held before: each uses its own parameters. *)
Lemma nth_tset_same i : forall t l, (i < List.length l)%nat -> nth_error (tset i t l) i = Some t.
Proof. induction i; intros t [|x l] H; simpl in *; try lia; auto. apply IHi. lia. Qed.
Lemma nth_tset_other i : forall j t l, i <> j -> nth_error (tset i t l) j = nth_error l j.
Proof. induction i; intros [|j] t [|x l] H; simpl; auto; try congruence. Qed.
Lemma tset_tset i : forall t u l, tset i t (tset i u l) = tset i t l.
Proof. induction i; intros t u [|x l]; simpl; auto. f_equal. auto. Qed.
Lemma run_block c l i b g : nth_error l i = Some (start b g) ->
  run (c, l) [i; i; i] = (mkCells b g, tset i (mkThread b g (Done b g)) l).
Proof.
  intros H. assert (HL : (i < List.length l)%nat) by (apply nth_error_Some; congruence).
  assert (LT : forall t l, List.length (tset i t l) = List.length l).
  { clear. induction i; intros t [|x l]; simpl; auto. }
  unfold run. cbn [fold_left]. unfold sched_step at 3. cbn [fst snd]. rewrite H. cbn [tstep start at_pc].
  unfold sched_step at 2. cbn [fst snd]. rewrite nth_tset_same by auto. cbn [tstep at_pc own_beta own_gamma c_beta c_gamma].
  unfold sched_step. cbn [fst snd]. rewrite nth_tset_same by (rewrite LT; auto). cbn [tstep at_pc own_beta own_gamma c_beta c_gamma].
  rewrite !tset_tset. reflexivity.
Qed.
Definition one_after_the_other (order : list nat) : list nat := flat_map (fun i => [i; i; i]) order.
Theorem C70_sequential_partial : forall order c (par : list (R * R)),
  NoDup order -> Forall (fun i => (i < List.length par)%nat) order ->
  let final := snd (run (c, map (fun p => start (fst p) (snd p)) par) (one_after_the_other order)) in
  (forall i, In i order -> exists t, nth_error final i = Some t /\ used_own t /\
      exists p, nth_error par i = Some p /\ own_beta t = fst p /\ own_gamma t = snd p) /\
  (forall i, ~ In i order -> nth_error final i = nth_error (map (fun p => start (fst p) (snd p)) par) i).
Proof.
  intros order c par ND FA.
  assert (G : forall ts c, (forall i, In i order -> exists p, nth_error par i = Some p /\ nth_error ts i = Some (start (fst p) (snd p))) ->
    let final := snd (run (c, ts) (one_after_the_other order)) in
    (forall i, In i order -> exists t, nth_error final i = Some t /\ used_own t /\
      exists p, nth_error par i = Some p /\ own_beta t = fst p /\ own_gamma t = snd p) /\
    (forall i, ~ In i order -> nth_error final i = nth_error ts i)).
  { clear FA. induction order as [|j order IH]; intros ts c0 HT; cbv zeta.
    - simpl. split; [tauto|auto].
    - inversion ND as [|? ? N1 N2]; subst. destruct (HT j (or_introl eq_refl)) as (p & P1 & P2).
      assert (E : run (c0, ts) (one_after_the_other (j :: order)) =
        run (mkCells (fst p) (snd p), tset j (mkThread (fst p) (snd p) (Done (fst p) (snd p))) ts) (one_after_the_other order)).
      { unfold one_after_the_other. cbn [flat_map]. unfold run. rewrite fold_left_app. fold (run (c0, ts) [j; j; j]).
        rewrite (run_block _ _ _ _ _ P2). reflexivity. }
      rewrite E. destruct (IH N2 (tset j (mkThread (fst p) (snd p) (Done (fst p) (snd p))) ts) (mkCells (fst p) (snd p))) as [I1 I2].
      { intros i Hi. destruct (HT i (or_intror Hi)) as (p' & Q1 & Q2). exists p'. split; auto.
        rewrite nth_tset_other; auto. intros ->. auto. }
      split.
      + intros i [->|Hi]; auto. rewrite (I2 _ N1). eexists. split; [apply nth_tset_same, nth_error_Some; congruence|].
        split; [reflexivity|]. exists p. auto.
      + intros i Hn. assert (j <> i /\ ~ In i order) as [A B] by (simpl in Hn; tauto). rewrite I2 by auto. apply nth_tset_other; auto. }
  apply G. intros i Hi. rewrite Forall_forall in FA. specialize (FA i Hi).
  destruct (nth_error par i) as [p|] eqn:E; [|apply nth_error_None in E; lia].
  exists p. split; auto. erewrite map_nth_error by eauto. reflexivity.
Qed.
Print Assumptions C70_sequential_partial.

Example C70_sequential_example : NoDup [1; 0]%nat /\ Forall (fun i => (i < List.length [(1, 2); (3, 4)])%nat) [1; 0]%nat.
Proof. split; repeat constructor; simpl; intuition lia. Qed.

(** Refuted for concurrent evaluations of two models in one process. *)
Theorem C70_concurrent_refuted : exists c t1 t2 sched,
  let s := run (c, [t1; t2]) sched in
  Forall finished (snd s) /\ exists t, In t (snd s) /\ ~ used_own t.
Proof.
  exists (mkCells 0 0), (start 1 1), (start 2 2), [0; 0; 1; 0; 1; 1]%nat. split.
  - repeat constructor; do 2 eexists; reflexivity.
  - exists (mkThread 1 1 (Done 2 1)). split; [simpl; auto|]. unfold used_own. simpl. intros C. injection C as C. lra.
Qed.
Print Assumptions C70_concurrent_refuted.
