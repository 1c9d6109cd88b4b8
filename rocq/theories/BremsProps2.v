(** C98: kinematic limits of bremsstrahlung. Domains on which C31 and C71 hold. *)
From Coq Require Import Reals List String Lra Lia Psatz Sorted.
From Verif Require Import Outcome TrapzModel TrapzSpec TrapzProofs EnergyModel EnergyProofs ElectronModel ElectronProofs
  BremsModel BremsProps.
Import ListNotations.
Local Open Scope R_scope.

Lemma strapz_zero ys : forall xs, Forall (fun y => y = 0) ys -> strapz ys xs = 0.
Proof.
  induction ys as [|y1 ys IH]; intros xs HF; [reflexivity|]. inversion HF as [|? ? F1 F2]; subst.
  destruct ys as [|y2 ys]; [reflexivity|]. destruct xs as [|x1 [|x2 xs]]; try reflexivity.
  change (strapz (0 :: y2 :: ys) (x1 :: x2 :: xs)) with (sinterval x1 x2 0 y2 + strapz (y2 :: ys) (x2 :: xs)).
  rewrite IH by exact F2. unfold sinterval. destruct (Req_EM_T 0 0); lra.
Qed.

(** ** C98 *)
(** No electron emits a photon of more than its own energy; by electron-electron
    scattering below 2 MeV (gam_trans) no photon above a quarter of gam^2 - 1. *)
Theorem C98_cross_sections : forall k gt gam eps, 0 < eps ->
  (gam < eps -> sigma_ep k gam eps = 0) /\
  (gam < eps -> gt < gam -> sigma_ee k gt gam eps = 0) /\
  (gam <= gt -> gam < 1 \/ (gam ^ 2 - 1) / 4 <= eps -> sigma_ee k gt gam eps = 0).
Proof.
  intros k gt g e He.
  assert (S1 : g < e -> sigma_1 k g e = 0) by (intros H; unfold sigma_1; destruct (Rlt_dec g e); [ring|contradiction]).
  split; [exact S1|]. split.
  - intros H Hg. unfold sigma_ee. destruct (Rle_dec g gt); [lra|]. unfold sigma_ee_rel. rewrite S1 by exact H.
    assert (Hv : heaviside (g - e) = 0) by (unfold heaviside; destruct (Rlt_dec 0 (g - e)); [lra|destruct (Req_EM_T (g - e) 0); lra]).
    unfold sigma_2. rewrite Hv. ring.
  - intros Hg H. unfold sigma_ee. destruct (Rle_dec g gt); [|lra]. unfold sigma_ee_nonrel.
    destruct (Rlt_dec g 1); [reflexivity|]. destruct (Rle_dec (1 / 4 * (g ^ 2 - 1)) e); [reflexivity|]. lra.
Qed.
Print Assumptions C98_cross_sections.

(** Hence photons above the energy of all electrons are not emitted at all. *)
Theorem C98_no_photons_above_electrons : forall k gt mec2 c pd gs n0 w_ee w_ep Eph,
  1 <= gt <= 4 -> w_ee <> 0 -> w_ep <> 0 ->
  Forall (fun eps => Forall (fun g => g < eps) gs /\ 4 <= eps) Eph ->
  brems_luminosity k gt mec2 c pd gs n0 w_ee w_ep Eph = Ok (map (fun _ => 0) Eph).
Proof.
  intros k gt mec2 c pd gs n0 w1 w2 Eph Hgt H1 H2 HE. unfold brems_luminosity, brems_spectrum, emiss.
  destruct (Req_EM_T w1 0); [contradiction|]. destruct (Req_EM_T w2 0); [contradiction|]. cbn [qscale qadd omap obind]. f_equal.
  induction HE as [|eps Es [Hg He4] _ IH]; [reflexivity|]. unfold add2 in *. cbn [map combine fst snd]. f_equal; [|exact IH].
  rewrite Forall_forall in Hg.
  assert (Z : forall s : R -> R, (forall g, In g gs -> s g = 0) -> strapz (mul2 (nelec mec2 pd gs) (map s gs)) gs = 0).
  { intros s Hs. rewrite nelec_kernel. apply strapz_zero. apply Forall_forall. intros y Hy. apply in_map_iff in Hy.
    destruct Hy as (g & <- & I). rewrite Hs by exact I. ring. }
  rewrite (Z (fun g => sigma_ee k gt g eps)), (Z (fun g => sigma_ep k g eps)); [ring| |].
  - intros g I. destruct (C98_cross_sections k gt g eps ltac:(lra)) as (X & _ & _). apply X, Hg, I.
  - intros g I. specialize (Hg g I). destruct (C98_cross_sections k gt g eps ltac:(lra)) as (_ & X & Y).
    destruct (Rle_or_lt g gt) as [L|L]; [|apply X; lra].
    apply Y; [exact L|]. destruct (Rlt_or_le g 1) as [L1|L1]; [auto|right]. nra.
Qed.
Print Assumptions C98_no_photons_above_electrons.

Example C98_example : Forall (fun eps => Forall (fun g => g < eps) [2; 3; 5] /\ 4 <= eps) [6; 7].
Proof. repeat constructor; lra. Qed.

(** ** Domain of C31 and C71 *)
Lemma ln_one_minus u : 0 <= u < 1 -> ln (1 - u) <= - (u + u ^ 2 / 2).
Proof.
  intros [H0 H1]. destruct H0 as [H0|<-]; [|replace (1 - 0) with 1 by ring; rewrite ln_1; lra].
  set (f := fun x => ln (1 - x) + x + x ^ 2 / 2). set (f' := fun x => - / (1 - x) + 1 + x).
  assert (D : forall x, 0 <= x <= u -> derivable_pt_lim f x (f' x)).
  { intros x Hx. unfold f, f'. apply derivable_pt_lim_plus.
    - apply derivable_pt_lim_plus; [|apply derivable_pt_lim_id].
      replace (- / (1 - x)) with (/ (1 - x) * (0 - 1)) by (field; lra).
      apply (derivable_pt_lim_comp (fun x => 1 - x) ln); [|apply derivable_pt_lim_ln; lra].
      apply (derivable_pt_lim_minus (fun _ => 1) (fun x => x)); [apply derivable_pt_lim_const|apply derivable_pt_lim_id].
    - replace x with (INR 2 * x ^ 1 * / 2 + x ^ 2 * 0) at 2 by (cbn [pow INR]; field).
      apply (derivable_pt_lim_mult (fun x => x ^ 2) (fun _ => / 2)); [apply (derivable_pt_lim_pow x 2)|apply derivable_pt_lim_const]. }
  destruct (MVT_cor2 f f' 0 u H0 D) as (c & E & Hc).
  assert (F0 : f 0 = 0) by (unfold f; replace (1 - 0) with 1 by ring; rewrite ln_1; simpl; lra).
  assert (F1 : f' c <= 0).
  { unfold f'. assert (1 + c <= / (1 - c)); [|lra]. apply Rmult_le_reg_r with (1 - c); [lra|]. rewrite Rinv_l by lra. nra. }
  assert (f u <= 0) by (rewrite F0 in E; nra). unfold f in H. lra.
Qed.

Lemma ln2_lower : 5 / 8 <= ln 2.
Proof.
  pose proof (ln_one_minus (1 / 2) ltac:(lra)) as H. replace (1 - 1 / 2) with (/ 2) in H by field. rewrite (ln_Rinv 2 ltac:(lra)) in H. nra.
Qed.

(** The photon yield of sigma_2 is positive below the electron energy. *)
Lemma sigma_2_pos k g e : 0 < k -> 1 <= g -> 0 < e < g -> e <> 1 / 2 -> 0 < sigma_2 k g e.
Proof.
  intros Hk Hg He Hn. pose proof ln2_lower as L2.
  assert (Hv : heaviside (g - e) = 1) by (unfold heaviside; destruct (Rlt_dec 0 (g - e)); lra).
  assert (I : 0 < / e) by (apply Rinv_0_lt_compat; lra). assert (IE : e * / e = 1) by (apply Rinv_r; lra).
  unfold sigma_2. rewrite Hv, Rmult_1_r. apply Rmult_lt_0_compat; [apply Rdiv_lt_0_compat; lra|]. destruct (Rle_dec e (1 / 2)) as [L|L].
  - (* eps < 1/2 *)
    pose proof (ln_one_minus (2 * e) ltac:(lra)) as LN. set (l := ln (1 - 2 * e)) in *.
    assert (LG : ln 2 <= ln (g / e)).
    { destruct (Req_dec 2 (g / e)) as [Q|Q]; [rewrite <- Q; lra|]. apply Rlt_le, ln_increasing; [lra|].
      assert (2 <= g / e); [|lra]. apply Rmult_le_reg_r with e; [lra|]. unfold Rdiv. rewrite Rmult_assoc, Rinv_l by lra. lra. }
    set (m := ln (g / e)) in *.
    set (Q := 1 / (4 * e ^ 3) - 1 / (2 * e ^ 2) + 3 / e - 2 + 4 * e).
    assert (E3 : Q = (1 - 2 * e + 12 * e ^ 2 - 8 * e ^ 3 + 16 * e ^ 4) * (/ e ^ 3 / 4)) by (unfold Q; field; lra).
    assert (P3 : 0 < / e ^ 3 / 4) by (assert (0 < / e ^ 3) by (apply Rinv_0_lt_compat, pow_lt; lra); lra).
    assert (QP : 0 < Q) by (rewrite E3; apply Rmult_lt_0_compat; [nra|exact P3]).
    assert (B : 2 * (1 - 2 * e) * (2 * e + (2 * e) ^ 2 / 2) * Q <= - (2) * (1 - 2 * e) * l * Q).
    { apply Rmult_le_compat_r; [lra|]. nra. }
    assert (C : 2 * (1 - 2 * e) * (2 * e + (2 * e) ^ 2 / 2) * Q = 1 / e ^ 2 - 3 / e + 12 - 16 * e - 32 * e ^ 4).
    { unfold Q. field. lra. }
    assert (D : 12 * m <= 16 * (1 - e + e ^ 2) * m) by (apply Rmult_le_compat_r; [lra|nra]).
    assert (F : 1 / e ^ 2 + (- (1) / e ^ 2 + 3 / e) = 3 / e) by (field; lra).
    assert (K : e ^ 2 <= 1 / 4) by nra. assert (K4 : e ^ 4 <= 1 / 16) by (replace (e ^ 4) with (e ^ 2 * e ^ 2) by ring; assert (0 <= e ^ 2) by nra; nra).
    unfold Q in *. lra.
  - (* eps > 1/2 *)
    assert (I2 : / e < 2) by (apply Rmult_lt_reg_r with e; [lra|]; rewrite Rinv_l by lra; lra).
    assert (LG : ln 2 <= ln (2 * g)).
    { destruct (Req_dec g 1) as [Q|Q]; [rewrite Q, Rmult_1_r; lra|]. apply Rlt_le, ln_increasing; lra. }
    set (m := ln (2 * g)) in *. apply Rmult_lt_0_compat; [apply Rdiv_lt_0_compat; lra|].
    replace (4 - 1 / e + 1 / (4 * e ^ 2)) with (4 - / e + (/ e) ^ 2 / 4) by (field; lra).
    replace (- (2) + 2 / e - 5 / (8 * e ^ 2)) with (- (2) + 2 * / e - 5 / 8 * (/ e) ^ 2) by (field; lra).
    set (t := / e) in *. assert (A1 : (4 - t + t ^ 2 / 4) * (5 / 8) <= (4 - t + t ^ 2 / 4) * m) by (apply Rmult_le_compat_l; [nra|lra]).
    nra.
Qed.

(** The relativistic correction factor A is positive above 9/7. *)
Lemma correction_pos g e : 9 / 7 < g -> 0 < e < g ->
  0 < 1 - 8 / 3 * Rpower (g - 1) (2 / 10) / (g + 1) * Rpower (e / g) (1 / 3).
Proof.
  intros Hg He.
  assert (Q1 : 0 < Rpower (e / g) (1 / 3) <= 1).
  { split; [apply exp_pos|]. destruct (z_range e g ltac:(lra) ltac:(lra)) as [R0 R1].
    unfold Rpower. apply Rle_trans with (exp 0); [|rewrite exp_0; lra]. apply Rlt_le, exp_increasing.
    assert (ln (e / g) < 0) by (rewrite <- ln_1; apply ln_increasing; auto). lra. }
  assert (Q2 : 0 < Rpower (g - 1) (2 / 10) <= (g + 3) / 5).
  { split; [apply exp_pos|]. unfold Rpower. assert (P : 0 < (g + 3) / 5) by lra. rewrite <- (exp_ln _ P) at 1.
    assert (2 / 10 * ln (g - 1) <= ln ((g + 3) / 5)) as H.
    { (* ln (g-1) - ln ((g+3)/5) <= (g-1)/((g+3)/5) - 1, and so for ((g+3)/5) against 1 *)
      set (a := (g + 3) / 5) in *. assert (X : ln (g - 1) <= 5 * ln a); [|lra].
      assert (g - 1 <= a ^ 5). { replace (g - 1) with (5 * a - 4) by (unfold a; lra).
        assert (0 <= (a - 1) ^ 2 * (a ^ 3 + 2 * a ^ 2 + 3 * a + 4)). { apply Rmult_le_pos; [apply pow2_ge_0|]. assert (0 < a ^ 3) by (apply pow_lt; lra). nra. }
        nra. }
      replace (5 * ln a) with (INR 5 * ln a) by (simpl; lra). rewrite <- ln_pow by lra.
      destruct H as [H|H]; [apply Rlt_le, ln_increasing; lra|rewrite H; lra]. }
    destruct H as [H|H]; [apply Rlt_le, exp_increasing, H|rewrite H; lra]. }
  set (a := Rpower (e / g) (1 / 3)) in *. set (b := Rpower (g - 1) (2 / 10)) in *.
  assert (b * a <= (g + 3) / 5) by nra.
  replace (8 / 3 * b / (g + 1) * a) with (8 / 3 * (b * a) / (g + 1)) by (field; lra).
  assert (8 / 3 * (b * a) / (g + 1) < 1); [|lra]. apply Rmult_lt_reg_r with (g + 1); [lra|].
  unfold Rdiv at 1. rewrite Rmult_assoc, Rinv_l by lra. lra.
Qed.

(** C31: above 2 MeV the electron-electron cross section is positive wherever the
    electron-ion one is not negative, i.e. for 2 gam (gam - eps)/eps >= sqrt e. *)
Theorem C31_ee_positive_partial : forall k gt gam eps, 0 < k -> 9 / 7 <= gt < gam -> 0 < eps < gam -> eps <> 1 / 2 ->
  exp (1 / 2) <= 2 * gam * (gam - eps) / eps -> 0 < sigma_ee k gt gam eps.
Proof.
  intros k gt g e Hk Hgt He Hn HQ. unfold sigma_ee. destruct (Rle_dec g gt); [lra|]. unfold sigma_ee_rel.
  apply Rmult_lt_0_compat; [|apply correction_pos; lra].
  pose proof (sigma_2_pos k g e Hk ltac:(lra) He Hn). assert (0 <= sigma_1 k g e); [|lra].
  unfold sigma_1. destruct (Rlt_dec g e); [lra|]. destruct (z_range e g ltac:(lra) ltac:(lra)) as [R0 R1].
  apply Rmult_le_pos; [apply Rmult_le_pos; [apply Rlt_le, Rdiv_lt_0_compat; lra|]|].
  - nra.
  - assert (1 / 2 <= ln (2 * g * (g - e) / e)); [|lra]. rewrite <- (ln_exp (1 / 2)).
    destruct HQ as [HQ|HQ]; [apply Rlt_le, ln_increasing; [apply exp_pos|exact HQ]|rewrite HQ; lra].
Qed.
Print Assumptions C31_ee_positive_partial.

Lemma strapz_nonneg ys : forall xs, grid xs -> Forall (fun y => 0 <= y) ys -> 0 <= strapz ys xs.
Proof.
  induction ys as [|y1 ys IH]; intros xs HG HF; [simpl; lra|].
  inversion HF as [|? ? F1 F2]; subst. destruct ys as [|y2 ys]; [simpl; destruct xs; lra|]. inversion F2 as [|? ? F3 F4]; subst.
  destruct xs as [|x1 [|x2 xs]]; [simpl; lra|simpl; lra|].
  destruct (grid_cons2 _ _ _ HG) as (G1 & G2 & G3).
  change (strapz (y1 :: y2 :: ys) (x1 :: x2 :: xs)) with (sinterval x1 x2 y1 y2 + strapz (y2 :: ys) (x2 :: xs)).
  assert (0 <= strapz (y2 :: ys) (x2 :: xs)) by (apply IH; auto).
  assert (0 <= sinterval x1 x2 y1 y2); [|lra].
  unfold sinterval. destruct (Req_EM_T y1 0); [lra|]. destruct (Req_EM_T y2 0); [lra|]. destruct (Req_EM_T x1 x2); [lra|].
  destruct (Rlt_dec (y1 * y2) 0); [nra|]. pose proof (interval_pos x1 x2 y1 y2 G1 G2 ltac:(lra) ltac:(lra)) as I.
  unfold interval in I. destruct (Req_EM_T y1 0); [lra|]. destruct (Req_EM_T y2 0); [lra|]. destruct (Req_EM_T x1 x2); [lra|]. lra.
Qed.

(** C71: the flux is not negative at photon energies of at most half of the lowest
    electron energy, for electrons above 2 MeV (the default is 100 MeV). *)
Theorem C71_low_energies_partial : forall k gt mec2 c pd nd lo hi n0 w_ee w_ep Eph,
  0 < k -> 9 / 7 <= gt -> 0 < mec2 -> 0 <= c -> 0 <= n0 -> 0 < w_ee -> 0 < w_ep -> (forall E, 0 < E -> 0 <= pd E) ->
  gt * mec2 < lo -> lo < hi -> Forall (fun eps => 0 < eps <= lo / mec2 / 2 /\ eps <> 1 / 2) Eph ->
  exists l, brems_luminosity k gt mec2 c pd (gam mec2 nd lo hi) n0 w_ee w_ep Eph = Ok l /\ Forall (fun y => 0 <= y) l.
Proof.
  intros k gt mec2 c pd nd lo hi n0 w1 w2 Eph Hk Hgt Hm Hc Hn H1 H2 HP Hlo Hlt HE.
  assert (PLO : 0 < lo) by nra.
  assert (GR : grid (gam mec2 nd lo hi)) by (apply gam_grid; lra).
  assert (HG : forall g, In g (gam mec2 nd lo hi) -> lo / mec2 <= g).
  { intros g Hgin. unfold gam in Hgin. set (N := npoints _) in Hgin. assert (HN : (10 <= N)%nat) by apply npoints_ge.
    destruct (In_nth _ _ 0 Hgin) as (i & Hi & E). rewrite logspace_length in Hi. rewrite logspace_nth in E by lia. subst g.
    set (a := log10 (lo / mec2)). set (b := log10 (hi / mec2)). assert (AB : a < b) by (apply log10_ratio; lra).
    assert (PN : 0 < INR (N - 1)) by (apply lt_0_INR; lia). assert (P0 : 0 <= INR i) by apply pos_INR.
    assert (D : 0 <= (b - a) / INR (N - 1)) by (apply Rmult_le_pos; [lra|apply Rlt_le, Rinv_0_lt_compat; auto]).
    assert (T0 : 0 <= INR i * ((b - a) / INR (N - 1))) by (apply Rmult_le_pos; auto).
    assert (LO : pow10 a = lo / mec2) by (unfold a; apply pow10_log10, Rdiv_lt_0_compat; lra). rewrite <- LO.
    destruct T0 as [T0|T0]; [apply Rlt_le, pow10_lt; lra|]. rewrite <- T0. rewrite Rplus_0_r. lra. }
  assert (LG : gt < lo / mec2) by (apply Rmult_lt_reg_r with mec2; auto; unfold Rdiv; rewrite Rmult_assoc, Rinv_l by lra; lra).
  set (gs := gam mec2 nd lo hi) in *. unfold brems_luminosity, brems_spectrum, emiss.
  destruct (Req_EM_T w1 0); [lra|]. destruct (Req_EM_T w2 0); [lra|]. cbn [qscale qadd omap obind]. eexists. split; [reflexivity|].
  assert (Z : forall s : R -> R, (forall g, In g gs -> 0 <= s g) -> 0 <= strapz (mul2 (nelec mec2 pd gs) (map s gs)) gs).
  { intros s Hs. rewrite nelec_kernel. apply strapz_nonneg; [exact GR|]. apply Forall_forall. intros y Hy. apply in_map_iff in Hy.
    destruct Hy as (g & <- & I). specialize (HG g I). apply Rmult_le_pos; [|apply Hs, I].
    apply Rmult_le_pos; [apply HP, Rmult_lt_0_compat; lra|lra]. }
  induction HE as [|eps Es [Hg Hh] _ IH]; [constructor|]. unfold add2 in *. cbn [map combine fst snd]. constructor; [|exact IH].
  assert (Q : forall g, In g gs -> 0 < eps < g /\ exp (1 / 2) < 2 * g * (g - eps) / eps).
  { intros g I. specialize (HG g I). split; [lra|]. apply Rlt_le_trans with (2 * g).
    - assert (exp (1 / 2) < exp 1) by (apply exp_increasing; lra). pose proof exp_le_3. assert (X : exp (1 / 2) < 2); [|lra].
      apply Rsqr_incrst_0; [|apply Rlt_le, exp_pos|lra]. unfold Rsqr. rewrite <- exp_plus. replace (1 / 2 + 1 / 2) with 1 by field. lra.
    - unfold Rdiv. rewrite Rmult_assoc. rewrite <- (Rmult_1_r (2 * g)) at 1. apply Rmult_le_compat_l; [lra|].
      apply Rmult_le_reg_r with eps; [lra|]. rewrite Rmult_assoc, Rinv_l by lra. lra. }
  assert (A : 0 <= strapz (mul2 (nelec mec2 pd gs) (map (fun g => sigma_ee k gt g eps) gs)) gs).
  { apply Z. intros g I. destruct (Q g I) as [Q1 Q2]. specialize (HG g I). apply Rlt_le, C31_ee_positive_partial; lra. }
  assert (B : 0 <= strapz (mul2 (nelec mec2 pd gs) (map (fun g => sigma_ep k g eps) gs)) gs).
  { apply Z. intros g I. destruct (Q g I) as [Q1 Q2]. apply Rlt_le. apply (C31_ep_sign_partial k g eps); lra. }
  apply Rmult_le_pos; [exact Hn|]. apply Rplus_le_le_0_compat; apply Rmult_le_pos; try lra; apply Rmult_le_pos; auto.
Qed.
Print Assumptions C71_low_energies_partial.


(** More generally: at every photon energy with no electron energy of the grid in
    the narrow range just above it, of width 0.87 m_e c^2 (0.45 MeV), where the
    cross section is negative (C31). *)
Theorem C71_off_grid_partial : forall k gt mec2 c pd nd lo hi n0 w_ee w_ep Eph,
  0 < k -> 9 / 7 <= gt -> 0 < mec2 -> 0 <= c -> 0 <= n0 -> 0 < w_ee -> 0 < w_ep -> (forall E, 0 < E -> 0 <= pd E) ->
  gt * mec2 < lo -> lo < hi ->
  Forall (fun eps => 0 < eps /\ eps <> 1 / 2 /\ Forall (fun g => g < eps \/ eps + 87 / 100 <= g) (gam mec2 nd lo hi)) Eph ->
  exists l, brems_luminosity k gt mec2 c pd (gam mec2 nd lo hi) n0 w_ee w_ep Eph = Ok l /\ Forall (fun y => 0 <= y) l.
Proof.
  intros k gt mec2 c pd nd lo hi n0 w1 w2 Eph Hk Hgt Hm Hc Hn H1 H2 HP Hlo Hlt HE.
  assert (PLO : 0 < lo) by nra.
  assert (GR : grid (gam mec2 nd lo hi)) by (apply gam_grid; lra).
  assert (HG : forall g, In g (gam mec2 nd lo hi) -> lo / mec2 <= g).
  { intros g Hgin. unfold gam in Hgin. set (N := npoints _) in Hgin. assert (HN : (10 <= N)%nat) by apply npoints_ge.
    destruct (In_nth _ _ 0 Hgin) as (i & Hi & E). rewrite logspace_length in Hi. rewrite logspace_nth in E by lia. subst g.
    set (a := log10 (lo / mec2)). set (b := log10 (hi / mec2)). assert (AB : a < b) by (apply log10_ratio; lra).
    assert (PN : 0 < INR (N - 1)) by (apply lt_0_INR; lia). assert (P0 : 0 <= INR i) by apply pos_INR.
    assert (D : 0 <= (b - a) / INR (N - 1)) by (apply Rmult_le_pos; [lra|apply Rlt_le, Rinv_0_lt_compat; auto]).
    assert (T0 : 0 <= INR i * ((b - a) / INR (N - 1))) by (apply Rmult_le_pos; auto).
    assert (LO : pow10 a = lo / mec2) by (unfold a; apply pow10_log10, Rdiv_lt_0_compat; lra). rewrite <- LO.
    destruct T0 as [T0|T0]; [apply Rlt_le, pow10_lt; lra|]. rewrite <- T0. rewrite Rplus_0_r. lra. }
  assert (LG : gt < lo / mec2) by (apply Rmult_lt_reg_r with mec2; auto; unfold Rdiv; rewrite Rmult_assoc, Rinv_l by lra; lra).
  set (gs := gam mec2 nd lo hi) in *. unfold brems_luminosity, brems_spectrum, emiss.
  destruct (Req_EM_T w1 0); [lra|]. destruct (Req_EM_T w2 0); [lra|]. cbn [qscale qadd omap obind]. eexists. split; [reflexivity|].
  assert (Z : forall s : R -> R, (forall g, In g gs -> 0 <= s g) -> 0 <= strapz (mul2 (nelec mec2 pd gs) (map s gs)) gs).
  { intros s Hs. rewrite nelec_kernel. apply strapz_nonneg; [exact GR|]. apply Forall_forall. intros y Hy. apply in_map_iff in Hy.
    destruct Hy as (g & <- & I). specialize (HG g I). apply Rmult_le_pos; [|apply Hs, I].
    apply Rmult_le_pos; [apply HP, Rmult_lt_0_compat; lra|lra]. }
  assert (X : exp (1 / 2) < 174 / 100).
  { pose proof exp_le_3. apply Rsqr_incrst_0; [|apply Rlt_le, exp_pos|lra]. unfold Rsqr. rewrite <- exp_plus. replace (1 / 2 + 1 / 2) with 1 by field. lra. }
  induction HE as [|eps Es (Hp & Hh & Hw) _ IH]; [constructor|]. unfold add2 in *. cbn [map combine fst snd]. constructor; [|exact IH].
  rewrite Forall_forall in Hw.
  assert (Q : forall g, In g gs -> g < eps \/ (eps < g /\ exp (1 / 2) < 2 * g * (g - eps) / eps)).
  { intros g I. destruct (Hw g I) as [Y|Y]; [left; exact Y|right]. split; [lra|]. apply Rlt_le_trans with (1 := X).
    apply Rmult_le_reg_r with eps; [lra|]. replace (2 * g * (g - eps) / eps * eps) with (2 * g * (g - eps)) by (field; lra). nra. }
  assert (A : 0 <= strapz (mul2 (nelec mec2 pd gs) (map (fun g => sigma_ee k gt g eps) gs)) gs).
  { apply Z. intros g I. specialize (HG g I). destruct (Q g I) as [Q1|[Q1 Q2]].
    - right. symmetry. destruct (C98_cross_sections k gt g eps Hp) as (_ & B & _). apply B; lra.
    - apply Rlt_le, C31_ee_positive_partial; lra. }
  assert (B : 0 <= strapz (mul2 (nelec mec2 pd gs) (map (fun g => sigma_ep k g eps) gs)) gs).
  { apply Z. intros g I. destruct (Q g I) as [Q1|[Q1 Q2]].
    - right. symmetry. apply (C98_cross_sections k gt g eps Hp). exact Q1.
    - apply Rlt_le. apply (C31_ep_sign_partial k g eps); lra. }
  apply Rmult_le_pos; [exact Hn|]. apply Rplus_le_le_0_compat; apply Rmult_le_pos; try lra; apply Rmult_le_pos; auto.
Qed.
Print Assumptions C71_off_grid_partial.

Example C71_low_example : Forall (fun eps => 0 < eps <= 200 / 1 / 2 /\ eps <> 1 / 2) [1 / 1000; 1; 90] /\ 4 * 1 < 200 /\ 200 < 1000.
Proof. repeat constructor; lra. Qed.

(** a case: electron energies of 10, 100, .. 10^10 m_e c^2, photon energies between the first few *)
Example C71_off_grid_example : Forall (fun eps => 0 < eps /\ eps <> 1 / 2 /\ Forall (fun g => g < eps \/ eps + 87 / 100 <= g) (gam 1 (1 / 10) 10 (10 ^ 10))) [50; 99; 500].
Proof.
  assert (L1: log10 (10 / 1) = 1) by (unfold log10; replace (10 / 1) with 10 by field; apply Rinv_r, Rgt_not_eq, ln10_pos).
  assert (L2: log10 (10 ^ 10 / 1) = 10).
  { unfold log10. replace (10 ^ 10 / 1) with (10 ^ 10) by field. rewrite ln_pow by lra. pose proof ln10_pos. replace (INR 10) with 10 by (cbn; ring). field. lra. }
  assert (N: npoints (1 / 10 * (10 - 1)) = 10%nat).
  { unfold npoints. destruct (base_Int_part (1 / 10 * (10 - 1))) as [B _]. apply (Rle_lt_trans _ _ 1) in B; [|lra]. apply lt_IZR in B. rewrite Z.max_l by lia. reflexivity. }
  assert (GB: forall g, In g (gam 1 (1 / 10) 10 (10 ^ 10)) -> g = 10 \/ g = 100 \/ 1000 <= g).
  { intros g I. unfold gam in I. rewrite L1, L2, N in I. destruct (In_nth _ _ 0 I) as (i & Hi & E). rewrite logspace_length in Hi.
    rewrite logspace_nth in E by lia. subst g. replace ((10 - 1) / INR (10 - 1)) with 1 by (cbn; field). rewrite Rmult_1_r. unfold pow10.
    replace (1 + INR i) with (INR (S i)) by (rewrite S_INR; ring). rewrite Rpower_pow by lra.
    destruct i as [|[|i]]; [left; cbn; lra|right; left; cbn; lra|right; right].
    replace 1000 with (10 ^ 3) by (cbn; lra). apply Rle_pow; [lra|lia]. }
  repeat constructor; try lra; apply Forall_forall; intros g I; destruct (GB g I) as [->|[->|G]]; first [left; lra|right; lra].
Qed.
