(** Property C173, inverse Compton on isotropic thermal photons: the luminosity of a population of electrons is the sum
    of the powers of its members. *)
From Coq Require Import Reals List Lra Lia.
From Coquelicot Require Import Coquelicot.
From Flocq Require Import Raux.
From Verif Require Import EnergyModel TrapzModel TrapzProofs ElectronModel ElectronProofs ConvProofs ConvProps2 ErrProofs PubProps3 PubProps4 FubiniProofs LumProps PlanckProofs PlanckProps.
Import ListNotations.
Local Open Scope R_scope.

(** ** The kernel is continuous in both arguments, also where the photon takes all the energy *)
Definition flip (q : R -> R) (s : R) : R := if Rlt_dec 0 s then q (/ s) else 0.
Lemma flip_cont q C : 0 < C -> (forall x, 0 < x -> continuity_pt q x /\ 0 <= q x <= C / x) -> forall s, continuity_pt (flip q) s.
Proof.
  intros HC Q s. destruct (Rlt_le_dec 0 s) as [P|P].
  - apply (continuity_pt_ext_loc (fun s => q (/ s))).
    + exists (mkposreal s P). intros y Hy. unfold ball in Hy; cbn in Hy. unfold AbsRing_ball, abs, minus, plus, opp in Hy; cbn in Hy. apply Rabs_def2 in Hy. unfold flip. destruct (Rlt_dec 0 y); [reflexivity|lra].
    + apply (continuity_pt_comp Rinv q); [|apply Q, Rinv_0_lt_compat, P]. apply (continuity_pt_inv (fun x => x)); [apply derivable_continuous_pt, derivable_pt_id|lra].
  - assert (B: forall y, Rabs (flip q y) <= C * Rmax 0 y).
    { intros y. unfold flip. destruct (Rlt_dec 0 y) as [Y|Y].
      - destruct (Q (/ y) (Rinv_0_lt_compat _ Y)) as (_ & A). rewrite Rabs_pos_eq by lra. rewrite Rmax_right by lra. unfold Rdiv in A. rewrite Rinv_inv in A. lra.
      - rewrite Rabs_R0. apply Rmult_le_pos; [lra|apply Rmax_l]. }
    assert (Z: flip q s = 0) by (unfold flip; destruct (Rlt_dec 0 s); [lra|reflexivity]).
    intros e He. exists (e / C). split; [apply div_pos; lra|]. intros y ((_ & _) & Hy). cbn in *. unfold R_dist in *. rewrite Z, Rminus_0_r.
    eapply Rle_lt_trans; [apply B|]. assert (Rmax 0 y < e / C). { apply Rabs_def2 in Hy. apply Rmax_lub_lt; [apply div_pos; lra|lra]. }
    apply Rmult_lt_reg_r with (/ C); [apply Rinv_0_lt_compat; exact HC|]. replace (C * Rmax 0 y * / C) with (Rmax 0 y) by (field; lra). exact H.
Qed.
Lemma exp_m_inv x : 0 < x -> exp (- x) <= 1 / x /\ exp (- x) <= 2 / x ^ 2.
Proof.
  intros Hx. assert (E: 1 + x + x ^ 2 / 2 <= exp x).
  {
    assert (K: exists c, 0 < c < x /\ exp x - (1 + x + x ^ 2 / 2) - (exp 0 - (1 + 0 + 0 ^ 2 / 2)) = (exp c - (1 + c)) * (x - 0)).
    { destruct (MVT_cor2 (fun x => exp x - (1 + x + x ^ 2 / 2)) (fun c => exp c - (1 + c)) 0 x Hx) as (c & V & W).
      - intros c _. apply is_derive_Reals. auto_derive; [exact Logic.I|field].
      - exists c. split; [exact W|exact V]. }
    destruct K as (c & W & V). rewrite exp_0 in V. pose proof (exp_ge_1p c). assert (0 <= (exp c - (1 + c)) * (x - 0)) by (apply Rmult_le_pos; lra). replace (0 ^ 2) with 0 in V by ring. lra. }
  assert (X2: 0 < x ^ 2) by (apply pow_lt; exact Hx). rewrite exp_Ropp. split.
  - unfold Rdiv. rewrite Rmult_1_l. apply Rinv_le_contravar; lra.
  - replace (2 / x ^ 2) with (/ (x ^ 2 / 2)) by (field; lra). apply Rinv_le_contravar; lra.
Qed.
Lemma G4_small x : 0 < x -> continuity_pt G4 x /\ 0 <= G4 x <= 4 / x.
Proof.
  intros Hx. split; [apply G4_cont; exact Hx|]. destruct (G4_bounds x Hx) as (A & B). destruct (exp_m_inv x Hx) as (E & _). split; [exact A|]. unfold Rdiv in *. pose proof (Rinv_0_lt_compat _ Hx). lra.
Qed.
Lemma xG3_small x : 0 < x -> continuity_pt (fun x => x * G3 x) x /\ 0 <= x * G3 x <= 4 / x.
Proof.
  intros Hx. split; [apply (continuity_pt_mult (fun x => x) G3); [apply derivable_continuous_pt, derivable_pt_id|apply G3_cont; exact Hx]|].
  destruct (G34_bounds x (606 / 1000) (443 / 1000) (1481 / 1000) (54 / 100) (319 / 1000) Hx) as (A & B); try lra. change (G34 x (606 / 1000) (443 / 1000) (1481 / 1000) (54 / 100) (319 / 1000)) with (G3 x) in A, B.
  destruct (exp_m_inv x Hx) as (_ & E). split; [apply Rmult_le_pos; lra|]. apply Rle_trans with (x * (1646 / 1000 * (2 / x ^ 2))).
  - apply Rmult_le_compat_l; [lra|]. lra.
  - replace (x * (1646 / 1000 * (2 / x ^ 2))) with (3292 / 1000 * / x) by (field; lra). unfold Rdiv at 2. apply Rmult_le_compat_r; [left; apply Rinv_0_lt_compat; exact Hx|lra].
Qed.
(** energies scattered per time: [t] temperature, [K] the constant *)
Definition arg (t E g : R) : R := (g - E) * (4 * g * t) * / E.
Definition W (K t E g : R) : R := K * (t ^ 2 * (/ g * / g)) * (2 * t * E * flip (fun x => x * G3 x) (arg t E g) + flip G4 (arg t E g)).
Lemma W_lt K t E g : 0 < t -> 0 < E -> E < g -> K * khangulyan None g t E = W K t E g.
Proof.
  intros Ht HE Hg. unfold W, khangulyan. cbv zeta. set (x := E / g / ((1 - E / g) * (4 * g * t))).
  assert (Z: E / g < 1). { apply Rmult_lt_reg_r with g; [lra|]. unfold Rdiv. rewrite Rmult_assoc, Rinv_l by lra. lra. }
  assert (X: x = / arg t E g). { unfold x, arg. field. repeat split; try lra. }
  assert (A: 0 < arg t E g). { unfold arg. apply Rmult_lt_0_compat; [|apply Rinv_0_lt_compat; exact HE]. apply Rmult_lt_0_compat; [lra|]. apply Rmult_lt_0_compat; lra. }
  assert (PX: 0 < x) by (rewrite X; apply Rinv_0_lt_compat; exact A).
  replace (540 / 1000) with (54 / 100) by lra. replace (6620 / 1000) with (662 / 100) by lra. rewrite <- !G34_pub by (try exact PX; lra).
  change (G34 x (606 / 1000) (443 / 1000) (1481 / 1000) (54 / 100) (319 / 1000)) with (G3 x). change (G34 x (461 / 1000) (726 / 1000) (1457 / 1000) (382 / 1000) (662 / 100)) with (G4 x).
  unfold flip. destruct (Rlt_dec 0 (arg t E g)); [|lra]. rewrite <- X. generalize (G3 x) (G4 x). intros g3 g4. unfold x. field. repeat split; lra.
Qed.
Lemma W_ge K t E g : 0 < t -> 0 < E -> 0 < g -> g <= E -> W K t E g = 0.
Proof.
  intros Ht HE Hg L. assert (A: arg t E g <= 0).
  { unfold arg. replace ((g - E) * (4 * g * t) * / E) with (- ((E - g) * (4 * g * t) * / E)) by ring. assert (0 <= (E - g) * (4 * g * t) * / E); [|lra].
    apply Rmult_le_pos; [|left; apply Rinv_0_lt_compat; exact HE]. apply Rmult_le_pos; [lra|]. apply Rmult_le_pos; lra. }
  unfold W, flip. destruct (Rlt_dec 0 (arg t E g)); [lra|]. ring.
Qed.
Lemma W_cont K t (a b : R -> R) u v : continuity_pt a u -> continuity_pt b v -> 0 < a u -> 0 < b v ->
  continuity_2d_pt (fun u v => W K t (a u) (b v)) u v.
Proof.
  intros Ca Cb Pa Pb. unfold W.
  assert (CE: continuity_2d_pt (fun u _ => a u) u v) by (apply (in_u a); exact Ca). assert (CG: continuity_2d_pt (fun _ v => b v) u v) by (apply (in_v b); exact Cb).
  assert (IG: continuity_2d_pt (fun _ v => / b v) u v) by (apply continuity_2d_pt_inv; [exact CG|lra]). assert (IE: continuity_2d_pt (fun u _ => / a u) u v) by (apply continuity_2d_pt_inv; [exact CE|lra]).
  assert (CA: continuity_2d_pt (fun u v => arg t (a u) (b v)) u v).
  { unfold arg. apply continuity_2d_pt_mult; [|exact IE]. apply continuity_2d_pt_mult; [apply continuity_2d_pt_minus; assumption|]. apply continuity_2d_pt_mult; [apply continuity_2d_pt_mult; [apply continuity_2d_pt_const|exact CG]|apply continuity_2d_pt_const]. }
  apply continuity_2d_pt_mult.
  - apply continuity_2d_pt_mult; [apply continuity_2d_pt_const|]. apply continuity_2d_pt_mult; [apply continuity_2d_pt_const|]. apply continuity_2d_pt_mult; assumption.
  - apply continuity_2d_pt_plus.
    + apply continuity_2d_pt_mult; [apply continuity_2d_pt_mult; [apply continuity_2d_pt_const|exact CE]|]. apply (continuity_1d_2d_pt_comp (flip (fun x => x * G3 x)) (fun u v => arg t (a u) (b v))); [|exact CA]. apply (flip_cont _ 4); [lra|exact xG3_small].
    + apply (continuity_1d_2d_pt_comp (flip G4) (fun u v => arg t (a u) (b v))); [|exact CA]. apply (flip_cont _ 4); [lra|exact G4_small].
Qed.
(** the kernel of the library in these terms *)
Lemma kernel_W : exists K t0, 0 < t0 /\ forall T u g E, 0 < T -> 1 < g -> 0 < E -> seed_kernel (Thermal T u None) g E = W K (t0 * T) E g.
Proof.
  destruct C151_black_body as (K & Th & CK & CT & KER). exists K, Th. assert (T0: 0 < k_B / m_e_c2) by (apply div_pos; [unfold k_B|unfold m_e_c2]; lra).
  destruct (close_factor _ _ T0 CT) as (d & D & ET). apply Rabs_def2 in D. assert (TP: 0 < Th). { rewrite ET. apply Rmult_lt_0_compat; lra. }
  split; [exact TP|]. intros T u g E HT Hg HE. assert (0 < Th * T) by (apply Rmult_lt_0_compat; assumption).
  destruct (KER T u None g E HT ltac:(discriminate) Hg HE) as (A & B). destruct (Rlt_le_dec E g) as [L|L].
  - rewrite A by exact L. apply W_lt; assumption.
  - rewrite B by exact L. symmetry. apply W_ge; lra.
Qed.

(** ** One electron, photon energies up to and beyond its own energy *)
Lemma rate_cont T u g E : 0 < T -> 1 < g -> 0 < E -> continuity_pt (fun E => E * m_e_c2 * seed_kernel (Thermal T u None) g E) E.
Proof.
  intros HT Hg HE. destruct kernel_W as (K & t0 & T0 & KW). assert (TP: 0 < t0 * T) by (apply Rmult_lt_0_compat; assumption).
  apply (continuity_pt_ext_loc (fun E => E * m_e_c2 * W K (t0 * T) E g)).
  { exists (mkposreal E HE). intros y Hy. unfold ball in Hy; cbn in Hy. unfold AbsRing_ball, abs, minus, plus, opp in Hy; cbn in Hy. apply Rabs_def2 in Hy. rewrite (KW T u g y) by lra. reflexivity. }
  apply (continuity_pt_mult (fun E => E * m_e_c2) (fun E => W K (t0 * T) E g)).
  - apply derivable_continuous_pt. apply (derivable_pt_mult (fun E => E) (fun _ => m_e_c2)); [apply derivable_pt_id|apply derivable_pt_const].
  - pose proof (W_cont K (t0 * T) (fun E => E) (fun g => g) E g) as C. specialize (C ltac:(apply derivable_continuous_pt, derivable_pt_id) ltac:(apply derivable_continuous_pt, derivable_pt_id) HE ltac:(lra)).
    intros e He. destruct (C (mkposreal e He)) as (d & D). exists d. split; [apply cond_pos|]. intros y ((_ & _) & Hy). cbn in *. unfold R_dist in *. apply D; [exact Hy|]. rewrite Rminus_eq_0, Rabs_R0. apply cond_pos.
Qed.
Lemma rate_nonneg T u g E : 0 < T -> 0 < u -> 1 < g -> 0 < E -> 0 <= E * m_e_c2 * seed_kernel (Thermal T u None) g E.
Proof.
  intros HT Hu Hg HE. apply Rmult_le_pos; [apply Rmult_le_pos; [lra|unfold m_e_c2; lra]|]. apply seed_kernel_nonneg; try lra. unfold seed_ok. repeat split; try lra; try discriminate.
Qed.
Lemma power_any T u g E1 E2 : 0 < T -> 0 < u -> 1 < g -> 0 < E1 -> E1 < E2 ->
  let power := RInt (fun E => E * m_e_c2 * seed_kernel (Thermal T u None) g E) E1 E2 in
  let P := classical_power g T in let b := 4 * g * k_B * T / m_e_c2 in
  0 <= power <= P * (1 + 1 / 100) /\ (E1 <= g * b / 100 -> 18 * (g * b) <= E2 -> P * (1 - 1 / 100 - 18 * b) <= power).
Proof.
  intros HT Hu Hg H1 H2 power P b. set (F := fun E => E * m_e_c2 * seed_kernel (Thermal T u None) g E) in *.
  assert (FC: forall E, 0 < E -> continuity_pt F E) by (intros; apply rate_cont; assumption).
  assert (F0: forall E, 0 < E -> 0 <= F E) by (intros; apply rate_nonneg; assumption).
  assert (FX: forall x y, 0 < x -> x <= y -> ex_RInt F x y). { intros x y Hx Hy. apply ex_RInt_cont; [exact Hy|]. intros; apply FC; lra. }
  assert (P0: 0 <= power). { apply RInt_ge_0; [lra|apply FX; lra|]. intros; apply F0; lra. }
  assert (PP: 0 < P).
  { unfold P, classical_power, thomson, u_black_body. pose proof PI_RGT_0. assert (0 < g ^ 2) by (apply pow_lt; lra). assert (0 < r_e ^ 2) by (unfold r_e; apply pow_lt; lra). assert (0 < PI ^ 2) by (apply pow_lt; lra).
    assert (0 < (k_B * T) ^ 4) by (unfold k_B; apply pow_lt, Rmult_lt_0_compat; lra). assert (0 < (m_e_c2 * lambda_C) ^ 3) by (unfold m_e_c2, lambda_C; apply pow_lt; lra). assert (0 < light) by (unfold light; lra).
    apply Rmult_lt_0_compat; [|apply div_pos; [apply Rmult_lt_0_compat; lra|lra]]. apply Rmult_lt_0_compat; [|lra]. apply Rmult_lt_0_compat; [|lra]. apply Rmult_lt_0_compat; [lra|]. apply Rmult_lt_0_compat; lra. }
  assert (BP: 0 < b). { unfold b, k_B, m_e_c2. apply div_pos; [|lra]. apply Rmult_lt_0_compat; [|exact HT]. lra. }
  assert (UB: forall e, E1 < e -> e < g -> RInt F E1 e <= P * (1 + 1 / 100)). { intros e He Hl. pose proof (C172_black_body T u g E1 e HT Hg H1 He Hl) as (_ & (_ & U) & _). exact U. }
  split; [split; [exact P0|]|].
  - destruct (Rlt_le_dec E2 g) as [L|L]; [apply UB; assumption|]. destruct (Rle_lt_dec g E1) as [G|G].
    + assert (Z: power = 0).
      { unfold power. transitivity (RInt (fun _ => 0) E1 E2); [|rewrite RInt_const; unfold scal; cbn; unfold mult; cbn; ring].
        apply RInt_ext. intros E HE. rewrite Rmin_left, Rmax_right in HE by lra. unfold F. destruct C151_black_body as (K & Th & _ & _ & KER). destruct (KER T u None g E HT ltac:(discriminate) Hg ltac:(lra)) as (_ & B). rewrite B by lra. match goal with |- ?a = ?b => change (@eq R a b) end. ring. }
      rewrite Z. apply Rmult_le_pos; lra.
    + assert (Z: power = RInt F E1 g).
      { unfold power. rewrite <- (RInt_Chasles F E1 g E2) by (apply FX; lra). transitivity (plus (RInt F E1 g) (RInt (fun _ => 0) g E2)).
        - f_equal. apply RInt_ext. intros E HE. rewrite Rmin_left, Rmax_right in HE by lra. unfold F. destruct C151_black_body as (K & Th & _ & _ & KER). destruct (KER T u None g E HT ltac:(discriminate) Hg ltac:(lra)) as (_ & B). rewrite B by lra. match goal with |- ?a = ?b => change (@eq R a b) end. ring.
        - rewrite RInt_const. unfold plus, scal; cbn. unfold mult; cbn. match goal with |- ?a = ?b => change (@eq R a b) end. ring. }
      rewrite Z. assert (C: continuous (fun e => RInt F E1 e) g).
      { apply (continuous_RInt_1 F E1 g). exists (mkposreal (g - E1) ltac:(lra)). intros y Hy. unfold ball in Hy; cbn in Hy. unfold AbsRing_ball, abs, minus, plus, opp in Hy; cbn in Hy. apply Rabs_def2 in Hy. apply (@RInt_correct R_CompleteNormedModule). apply FX; lra. }
      apply Rnot_lt_le. intros N. apply continuity_pt_filterlim in C. destruct (C (RInt F E1 g - P * (1 + 1 / 100)) ltac:(lra)) as (d & D0 & D).
      set (e := g - Rmin (d / 2) ((g - E1) / 2)). assert (M: 0 < Rmin (d / 2) ((g - E1) / 2)) by (apply Rmin_glb_lt; lra). pose proof (Rmin_l (d / 2) ((g - E1) / 2)). pose proof (Rmin_r (d / 2) ((g - E1) / 2)).
      assert (Q: R_dist (RInt F E1 e) (RInt F E1 g) < RInt F E1 g - P * (1 + 1 / 100)). { apply D. split; [split; [exact Logic.I|unfold e; lra]|]. cbn. unfold R_dist, e. rewrite Rabs_left; lra. }
      pose proof (UB e ltac:(unfold e; lra) ltac:(unfold e; lra)). unfold R_dist in Q. apply Rabs_def2 in Q. lra.
  - intros L1 L2. destruct (Rle_lt_dec 1 (18 * b)) as [B|B].
    { apply Rle_trans with 0; [|exact P0]. assert (P * (1 / 100 + 18 * b - 1) >= 0) by (apply Rle_ge, Rmult_le_pos; lra). lra. }
    assert (0 < g * b) by (apply Rmult_lt_0_compat; lra). set (e := 18 * (g * b)) in *. assert (EG: e < g) by (unfold e; nra).
    pose proof (C172_black_body T u g E1 e HT Hg H1 ltac:(unfold e; lra) EG) as (_ & _ & V). fold b in V. specialize (V L1 (Rle_refl _)). fold F in V. fold P in V.
    apply Rle_trans with (RInt F E1 e).
    + eapply Rle_trans; [|exact V]. apply Rmult_le_compat_l; lra.
    + unfold power. rewrite <- (RInt_Chasles F E1 e E2) by (apply FX; unfold e in *; lra). assert (0 <= RInt F e E2). { apply RInt_ge_0; [exact L2|apply FX; unfold e in *; lra|]. intros; apply F0; unfold e in *; lra. }
      change (RInt F E1 e <= RInt F E1 e + RInt F e E2). lra.
Qed.

(** ** The population *)
(** For any electron spectrum [pd] (per energy) between [lo] and [hi] in isotropic thermal photons of temperature [T] and
    energy density [u]: the spectrum the library computes tends, as the grid is refined, to a spectrum
    whose energy between two photon energies [E1] and [E2] is at most 1.01 times the sum over the electrons of the classical power
    4/3 sigma_T c gamma^2 u, and at least the fraction 1 - 0.01 - 18 b of it if [E1] to [E2] covers the scattered
    photons of all electrons, where b = 4 gamma k T / (m c^2) measures the recoil of the most energetic.
    The radiation constant is that of the black body: energy density at temperature 1. *)
Theorem C173_inverse_compton : forall pd lo hi T u E1 E2, 0 < T -> 0 < u -> m_e_c2 < lo -> lo < hi -> continuous_density pd lo hi -> 0 < E1 -> E1 < E2 ->
  exists spectrum : R -> R,
  (forall E, 0 < E -> tends (fun nd => nth 0 (ic_spectrum m_e_c2 (u_black_body 1) pd (gam m_e_c2 nd lo hi) [Thermal T u None] [E]) 0) (spectrum E)) /\
  ex_RInt (fun E => E * spectrum E) E1 E2 /\
  let luminosity := RInt (fun E => E * spectrum E) E1 E2 in
  let L := RInt (fun g => pd (g * m_e_c2) * m_e_c2 * (4 / 3 * thomson * light * g ^ 2 * u)) (lo / m_e_c2) (hi / m_e_c2) in
  let b e := 4 * (e / m_e_c2) * k_B * T / m_e_c2 in
  0 <= luminosity <= L * (1 + 1 / 100) /\
  (E1 <= lo * b lo / 100 -> 18 * (hi * b hi) <= E2 -> L * (1 - 1 / 100 - 18 * b hi) <= luminosity).
Proof.
  intros pd lo hi T u E1 E2 HT Hu Hlo Hhi CD H1 H2. set (m := m_e_c2) in *. assert (M0: 0 < m) by (unfold m, m_e_c2; lra). set (l := lo / m). set (h := hi / m).
  assert (l1: 1 < l). { unfold l. apply Rmult_lt_reg_r with m; [exact M0|]. unfold Rdiv. rewrite Rmult_assoc, Rinv_l by lra. lra. }
  assert (lh: l < h) by (unfold l, h, Rdiv; apply Rmult_lt_compat_r; [apply Rinv_0_lt_compat; exact M0|exact Hhi]).
  destruct kernel_W as (K & t0 & T0 & KW). assert (TP: 0 < t0 * T) by (apply Rmult_lt_0_compat; assumption). set (t := t0 * T) in *.
  set (s := Thermal T u None). set (A := u / (u_black_body 1 * T ^ 4)).
  set (N := fun g => pd (g * m) * m).
  exists (fun E => ic_exact m (u_black_body 1) pd lo hi E s). split.
  { intros E HE. pose proof (C110_inverse_compton_thermal m (u_black_body 1) pd lo hi [s] [E] 0 M0 Hlo Hhi ltac:(cbn; lia) ltac:(constructor; [exact HE|constructor]) CD) as X.
    cbn [map fold_right nth] in X. rewrite Rplus_0_r in X. apply X. constructor; [|constructor]. split; [unfold seed_ok, s; repeat split; try lra; discriminate|exists T, u, None; reflexivity]. }
  assert (A0: 0 < A).
  { unfold A. apply div_pos; [exact Hu|]. apply Rmult_lt_0_compat; [|apply pow_lt; exact HT]. unfold u_black_body. pose proof PI_RGT_0.
    apply div_pos; [apply Rmult_lt_0_compat; [apply div_pos; [apply pow_lt; lra|lra]|apply pow_lt; unfold k_B; lra]|apply pow_lt; unfold m_e_c2, lambda_C; lra]. }
  assert (GR: forall g, l <= g <= h -> lo <= g * m <= hi).
  { intros g Hg. unfold l, h in Hg. split; apply Rmult_le_reg_r with (/ m); try (apply Rinv_0_lt_compat; exact M0); rewrite Rmult_assoc, Rinv_r by lra; unfold Rdiv in Hg; lra. }
  assert (NC: forall g, l <= g <= h -> continuity_pt N g).
  { intros g Hg. unfold N. apply (continuity_pt_mult (fun g => pd (g * m)) (fun _ => m)); [|apply derivable_continuous_pt, derivable_pt_const].
    apply (continuity_pt_comp (fun g => g * m) pd); [apply derivable_continuous_pt; apply (derivable_pt_mult (fun g => g) (fun _ => m)); [apply derivable_pt_id|apply derivable_pt_const]|]. apply CD, GR, Hg. }
  assert (N0: forall g, l <= g <= h -> 0 <= N g). { intros g Hg. unfold N. apply Rmult_le_pos; [apply CD, GR, Hg|lra]. }
  set (f := fun E g => N (clamp l h g) * (A * (clamp E1 E2 E * / m) * W K t (clamp E1 E2 E * / m) (clamp l h g))).
  assert (CE: forall E, continuity_pt (fun E => clamp E1 E2 E * / m) E). { intros E. apply (continuity_pt_mult (clamp E1 E2) (fun _ => / m)); [apply clamp_cont|apply derivable_continuous_pt, derivable_pt_const]. }
  assert (PE: forall E, 0 < clamp E1 E2 E * / m). { intros E. pose proof (clamp_in E1 E2 E ltac:(lra)). apply Rmult_lt_0_compat; [lra|apply Rinv_0_lt_compat; exact M0]. }
  assert (FC: forall u v, continuity_2d_pt f u v).
  { intros E g. pose proof (clamp_in l h g ltac:(lra)) as CG. unfold f. apply continuity_2d_pt_mult.
    - apply (in_v (fun g => N (clamp l h g))). apply (continuity_pt_comp (clamp l h) N); [apply clamp_cont|apply NC; exact CG].
    - apply continuity_2d_pt_mult.
      + apply continuity_2d_pt_mult; [apply continuity_2d_pt_const|]. apply (in_u (fun E => clamp E1 E2 E * / m)). apply CE.
      + apply (W_cont K t (fun E => clamp E1 E2 E * / m) (clamp l h)); [apply CE|apply clamp_cont|apply PE|lra]. }
  destruct (fubini f E1 E2 l h FC) as (X1 & X2 & X3).
  assert (FV: forall E g, E1 < E < E2 -> l < g < h -> f E g = A * (E / m) * (N g * seed_kernel (to_mec2 m s) g (E / m))).
  { intros E g HE Hg. unfold f. rewrite !clamp_id by lra. unfold s. cbn [to_mec2]. rewrite (KW T u g (E / m)) by (try lra; apply div_pos; lra). fold t. unfold Rdiv. ring. }
  assert (IE: forall E, E1 < E < E2 -> E * ic_exact m (u_black_body 1) pd lo hi E s = RInt (f E) l h).
  { intros E HE. unfold ic_exact. cbn [seed_factor s]. fold A. fold l h.
    assert (XX: ex_RInt (fun g => N g * seed_kernel (to_mec2 m s) g (E / m)) l h).
    { apply (ex_RInt_ext (fun g => scal (/ (A * (E / m))) (f E g))); [|apply (ex_RInt_scal (f E)), ex_slice_v, FC].
      intros g Hg. rewrite Rmin_left, Rmax_right in Hg by lra. rewrite FV by lra. unfold scal; cbn. unfold mult; cbn. match goal with |- ?a = ?b => change (@eq R a b) end. field. repeat split; lra. }
    transitivity (RInt (fun g => A * (E / m) * (N g * seed_kernel (to_mec2 m s) g (E / m))) l h).
    - transitivity (A * (E / m) * RInt (fun g => N g * seed_kernel (to_mec2 m s) g (E / m)) l h).
      + change (RInt (ic_integrand m pd s E) l h) with (RInt (fun g => N g * seed_kernel (to_mec2 m s) g (E / m)) l h). unfold s. field. repeat split; lra.
      + symmetry. exact (RInt_scal (fun g => N g * seed_kernel (to_mec2 m s) g (E / m)) l h (A * (E / m)) XX).
    - apply RInt_ext. intros g Hg. rewrite Rmin_left, Rmax_right in Hg by lra. symmetry. apply FV; lra. }
  split.
  { eapply ex_RInt_ext; [|exact X1]. intros E HE0. rewrite Rmin_left, Rmax_right in HE0 by lra. symmetry. apply IE. exact HE0. }
  intros luminosity L b.
  assert (LV: luminosity = RInt (fun g => RInt (fun E => f E g) E1 E2) l h).
  { rewrite <- X3. apply RInt_ext. intros E HE0. rewrite Rmin_left, Rmax_right in HE0 by lra. apply IE. exact HE0. }
  set (P := fun g => 4 / 3 * thomson * light * g ^ 2 * u).
  assert (AP: forall g, A * classical_power g T = P g).
  { intros g. unfold A, P, classical_power, u_black_body. pose proof PI_RGT_0. unfold k_B, m_e_c2, lambda_C. field. repeat split; lra. }
  assert (INN: forall g, l < g < h -> RInt (fun E => f E g) E1 E2 = N g * (A * RInt (fun E => E * m * seed_kernel s g E) (E1 / m) (E2 / m))).
  { intros g Hg. assert (XF: ex_RInt (fun E => E * m * seed_kernel s g E) (/ m * E1 + 0) (/ m * E2 + 0)).
    { apply ex_RInt_cont; [rewrite !Rplus_0_r; apply Rmult_le_compat_l; [left; apply Rinv_0_lt_compat; exact M0|lra]|]. intros E HE. apply (rate_cont T u g E HT); [lra|]. rewrite Rplus_0_r in HE. assert (0 < / m * E1) by (apply Rmult_lt_0_compat; [apply Rinv_0_lt_compat; exact M0|exact H1]). lra. }
    pose proof (RInt_comp_lin (fun E => E * m * seed_kernel s g E) (/ m) 0 E1 E2 XF) as Q. rewrite !Rplus_0_r in Q. replace (/ m * E1) with (E1 / m) in Q by (unfold Rdiv; ring). replace (/ m * E2) with (E2 / m) in Q by (unfold Rdiv; ring).
    rewrite <- Q. pose proof (ex_RInt_comp_lin (fun E => E * m * seed_kernel s g E) (/ m) 0 E1 E2 XF) as QX.
    rewrite <- Rmult_assoc. transitivity (RInt (fun E => N g * A * scal (/ m) ((/ m * E + 0) * m * seed_kernel s g (/ m * E + 0))) E1 E2).
    - apply RInt_ext. intros E HE. rewrite Rmin_left, Rmax_right in HE by lra. rewrite FV by lra. cbn [to_mec2 s]. unfold scal; cbn. unfold mult; cbn. replace (/ m * E + 0) with (E / m) by (unfold Rdiv; ring). unfold s. match goal with |- ?a = ?b => change (@eq R a b) end. field. lra.
    - exact (RInt_scal _ E1 E2 (N g * A) QX). }
  assert (PC: forall g, continuity_pt P g).
  { intros g. apply continuity_pt_filterlim. apply (@ex_derive_continuous R_AbsRing R_NormedModule P g). unfold P. auto_derive. exact Logic.I. }
  assert (LX: ex_RInt (fun g => N g * P g) l h). { apply ex_RInt_cont; [lra|]. intros g Hg. apply (continuity_pt_mult N P); [apply NC; exact Hg|apply PC]. }
  assert (LI: is_RInt (fun g => N g * P g) l h L) by (exact (RInt_correct (fun g => N g * P g) l h LX)).
  rewrite LV. pose proof (@RInt_correct R_CompleteNormedModule _ _ _ X2) as XI. set (J := RInt (fun g => RInt (fun E => f E g) E1 E2) l h) in *.
  assert (D0: 0 < E1 / m) by (apply div_pos; assumption). assert (D1: E1 / m < E2 / m) by (unfold Rdiv; apply Rmult_lt_compat_r; [apply Rinv_0_lt_compat; exact M0|exact H2]).
  assert (PO: forall g, l < g < h -> let p := RInt (fun E => E * m * seed_kernel s g E) (E1 / m) (E2 / m) in let b := 4 * g * k_B * T / m in
     0 <= A * p <= P g * (1 + 1 / 100) /\ (E1 / m <= g * b / 100 -> 18 * (g * b) <= E2 / m -> P g * (1 - 1 / 100 - 18 * b) <= A * p)).
  { intros g Hg. destruct (power_any T u g (E1 / m) (E2 / m) HT Hu ltac:(lra) D0 D1) as ((Q1 & Q2) & Q3). fold s in Q1, Q2, Q3. fold m in Q1, Q2, Q3. cbv zeta. rewrite <- (AP g).
    set (p := RInt (fun E => E * m * seed_kernel s g E) (E1 / m) (E2 / m)) in *. set (bg := 4 * g * k_B * T / m) in *. rewrite !(Rmult_assoc A). split; [split|].
    - apply Rmult_le_pos; lra.
    - apply Rmult_le_compat_l; lra.
    - intros Y1 Y2. apply Rmult_le_compat_l; [lra|]. apply Q3; assumption. }
  split; [split|].
  - apply (is_RInt_ge_0 (fun g => RInt (fun E => f E g) E1 E2) l h); [lra|exact XI|]. intros g Hg. rewrite INN by exact Hg. apply Rmult_le_pos; [apply N0; lra|]. apply PO; exact Hg.
  - rewrite Rmult_comm. apply (is_RInt_le (fun g => RInt (fun E => f E g) E1 E2) (fun g => (1 + 1 / 100) * (N g * P g)) l h); [lra|exact XI|exact (is_RInt_scal (fun g => N g * P g) l h (1 + 1 / 100) L LI)|].
    intros g Hg. rewrite INN by exact Hg. replace ((1 + 1 / 100) * (N g * P g)) with (N g * (P g * (1 + 1 / 100))) by ring. apply Rmult_le_compat_l; [apply N0; lra|]. apply PO; exact Hg.
  - intros Y1 Y2. rewrite Rmult_comm. apply (is_RInt_le (fun g => (1 - 1 / 100 - 18 * b hi) * (N g * P g)) (fun g => RInt (fun E => f E g) E1 E2) l h); [lra|exact (is_RInt_scal (fun g => N g * P g) l h (1 - 1 / 100 - 18 * b hi) L LI)|exact XI|].
    intros g Hg. rewrite INN by exact Hg. replace ((1 - 1 / 100 - 18 * b hi) * (N g * P g)) with (N g * (P g * (1 - 1 / 100 - 18 * b hi))) by ring. apply Rmult_le_compat_l; [apply N0; lra|].
    destruct (PO g Hg) as (_ & Q). set (bg := 4 * g * k_B * T / m) in *. set (q := 4 * k_B * T / m). assert (q0: 0 < q) by (unfold q, k_B; apply div_pos; [lra|exact M0]).
    assert (EB: bg = q * g) by (unfold bg, q, Rdiv; ring). assert (EH: b hi = q * h) by (unfold b, q, h, Rdiv; ring). assert (EL: b lo = q * l) by (unfold b, q, l, Rdiv; ring).
    assert (LM: lo = l * m) by (unfold l; field; lra). assert (HM: hi = h * m) by (unfold h; field; lra).
    assert (P0: 0 <= P g). { rewrite <- AP. destruct (PO g Hg) as ((U1 & U2) & _). rewrite <- (AP g) in U2. lra. }
    apply Rle_trans with (P g * (1 - 1 / 100 - 18 * bg)).
    + apply Rmult_le_compat_l; [exact P0|]. rewrite EB, EH. assert (q * g <= q * h) by (apply Rmult_le_compat_l; lra). lra.
    + apply Q.
      * apply Rmult_le_reg_r with m; [exact M0|]. replace (E1 / m * m) with E1 by (field; lra). eapply Rle_trans; [exact Y1|]. rewrite EL, EB, LM. assert (l * l <= g * g) by (apply Rmult_le_compat; lra). assert (q * m * (l * l) <= q * m * (g * g)) by (apply Rmult_le_compat_l; [apply Rmult_le_pos; lra|assumption]). lra.
      * apply Rmult_le_reg_r with m; [exact M0|]. replace (E2 / m * m) with E2 by (field; lra). eapply Rle_trans; [|exact Y2]. rewrite EH, EB, HM. assert (g * g <= h * h) by (apply Rmult_le_compat; lra). assert (q * m * (g * g) <= q * m * (h * h)) by (apply Rmult_le_compat_l; [apply Rmult_le_pos; lra|assumption]). lra.
Qed.
Print Assumptions C173_inverse_compton.

(** Non-vacuity: one electron per unit energy between 10^5 and 10^6 rest energies, photons of 2.7 K: photon energies from 51 keV to 20 GeV,
    from a tenth of the rest energy to 40000 of them; the bounds are within 4.3 per cent. *)
Example C173_ic_case : let lo := 10 ^ 5 * m_e_c2 in let hi := 10 ^ 6 * m_e_c2 in let T := 27 / 10 in
  m_e_c2 < lo /\ lo < hi /\ continuous_density (fun _ => 1) lo hi /\
  let b e := 4 * (e / m_e_c2) * k_B * T / m_e_c2 in m_e_c2 / 10 <= lo * b lo / 100 /\ 18 * (hi * b hi) <= 4 * 10 ^ 4 * m_e_c2 /\ 1 / 100 + 18 * b hi <= 43 / 1000.
Proof.
  cbv zeta. split; [unfold m_e_c2; lra|]. split; [unfold m_e_c2; lra|]. split; [intros x _; split; [apply derivable_continuous_pt, derivable_pt_const|lra]|]. unfold k_B, m_e_c2. repeat split; lra.
Qed.
