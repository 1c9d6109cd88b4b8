(** C151, C152: inverse Compton scattering follows the published formulas. *)
From Coq Require Import Reals ZArith List Lra Lia Bool Machin.
From Coquelicot Require Import Coquelicot.
From Verif Require Import TrapzModel TrapzSpec TrapzProofs EnergyModel EnergyProofs ElectronModel ElectronProofs ConvProofs ConvProps ConvProps2 PubProps3.
Import ListNotations.
Local Open Scope R_scope.

(** Physical constants in cgs units (CODATA): classical electron radius, reduced Compton
    wavelength, speed of light, Boltzmann constant, electron rest energy. *)
Definition r_e : R := 28179403262 / 10 ^ 10 / 10 ^ 13.
Definition lambda_C : R := 38615926796 / 10 ^ 10 / 10 ^ 11.
Definition light : R := 29979245800.
Definition k_B : R := 1380649 / 10 ^ 6 / 10 ^ 16.
Definition m_e_c2 : R := 81871057769 / 10 ^ 10 / 10 ^ 7.
Definition close (x y : R) : Prop := Rabs (x / y - 1) < / 10 ^ 6.

(** ** C151: black-body photons, Khangulyan, Aharonian and Kelner (2014) *)
(** correction of Eqs. 21-27: 1 / (1 + a x^alpha / (1 + b x^beta)) *)
Definition correction (alpha a beta b x : R) : R :=
  (1 + b * exp (beta * ln x)) / (1 + b * exp (beta * ln x) + a * exp (alpha * ln x)).
(** leading terms of F_1, F_2 (Eq. 20) and of F_3, F_4 (Eq. 24) *)
Definition leading12 (x : R) : R := (PI * PI / 6 + x) / exp x.
Definition leading34 (c x : R) : R := PI * PI / 6 * (1 + c * x) / ((1 + PI * PI * c * x / 6) * exp x).
(** Eqs. 11 and 14: photons per time and photon energy from one electron of energy e on
    black-body photons of temperature t, at photon energy E (e, t, E in units of the
    electron rest energy), without the constant K of [C151_black_body] *)
Definition khangulyan (direction : option R) (e t E : R) : R :=
  let z := E / e in
  match direction with
  | None =>
      let x := z / ((1 - z) * (4 * e * t)) in
      (t / e) ^ 2 * (z ^ 2 / (2 * (1 - z)) * (leading34 (319 / 1000) x * correction (606 / 1000) (443 / 1000) (1481 / 1000) (540 / 1000) x)
                     + leading34 (6620 / 1000) x * correction (461 / 1000) (726 / 1000) (1457 / 1000) (382 / 1000) x)
  | Some theta =>
      let x := z / ((1 - z) * (2 * e * t * (1 - cos theta))) in
      (t / e) ^ 2 * (z ^ 2 / (2 * (1 - z)) * (leading12 x * correction (857 / 1000) (153 / 1000) (1840 / 1000) (254 / 1000) x)
                     + leading12 x * correction (691 / 1000) (1330 / 1000) (1668 / 1000) (534 / 1000) x)
  end.

Lemma G34_pub x alpha a beta b c : 0 < x -> 0 < a -> 0 < b -> 0 < c -> G34 x alpha a beta b c = leading34 c x * correction alpha a beta b x.
Proof.
  intros Hx Ha Hb Hc. unfold G34, leading34, correction, Rpower. pose proof (exp_pos (alpha * ln x)) as P1. pose proof (exp_pos (beta * ln x)) as P2.
  pose proof (exp_pos x) as P3. pose proof PI_RGT_0 as PP. rewrite exp_Ropp. set (u := exp (alpha * ln x)) in *. set (v := exp (beta * ln x)) in *.
  assert (0 < b * v) by (apply Rmult_lt_0_compat; assumption). assert (0 < a * u) by (apply Rmult_lt_0_compat; assumption).
  assert (PP2 : 0 < PI * PI) by nra. assert (PCX : 0 < c * x) by (apply Rmult_lt_0_compat; assumption).
  assert (PPC : 0 < PI * PI * (c * x)) by (apply Rmult_lt_0_compat; assumption).
  field. simpl. repeat split; try lra; nra.
Qed.
Lemma G12_pub x alpha a beta b : 0 < x -> 0 < a -> 0 < b -> G12 x alpha a beta b = leading12 x * correction alpha a beta b x.
Proof.
  intros Hx Ha Hb. unfold G12, leading12, correction, Rpower. pose proof (exp_pos (alpha * ln x)) as P1. pose proof (exp_pos (beta * ln x)) as P2.
  pose proof (exp_pos x) as P3. pose proof PI_RGT_0 as PP. rewrite exp_Ropp. set (u := exp (alpha * ln x)) in *. set (v := exp (beta * ln x)) in *.
  assert (0 < b * v) by (apply Rmult_lt_0_compat; assumption). assert (0 < a * u) by (apply Rmult_lt_0_compat; assumption).
  field. repeat split; lra.
Qed.

Theorem C151_black_body : exists K Theta,
  close K (2 * r_e ^ 2 * light / (PI * lambda_C ^ 3)) /\ close Theta (k_B / m_e_c2) /\
  forall T u direction e E, 0 < T -> (forall th, direction = Some th -> cos th < 1) -> 1 < e -> 0 < E ->
  (E < e -> seed_kernel (Thermal T u direction) e E = K * khangulyan direction e (Theta * T) E) /\
  (e <= E -> seed_kernel (Thermal T u direction) e E = 0).
Proof.
  exists planck_const, Ktomec2. pose proof PI_bounds as PB. split; [|split].
  - unfold close, planck_const, r_e, lambda_C, light.
    match goal with |- Rabs (?a / (?b / (PI * ?c)) - 1) < _ => replace (a / (b / (PI * c)) - 1) with (a * c / b * PI - 1) by (field; lra) end.
    apply Rabs_def1; lra.
  - unfold close, Ktomec2, k_B, m_e_c2. apply Rabs_def1; lra.
  - intros T u direction e E HT Hdir He HE. pose proof Ktomec2_pos as PK.
    assert (PT : 0 < T * Ktomec2) by (apply Rmult_lt_0_compat; assumption). split; intros HL.
    + assert (IR : in_range E e = true).
      { unfold in_range. destruct (Rlt_dec E e); [|lra]. destruct (Rlt_dec 1 e); [reflexivity|lra]. }
      assert (Z : 0 < E / e < 1).
      { split; [apply div_pos; lra|]. apply (Rmult_lt_reg_r e); [lra|]. unfold Rdiv. rewrite Rmult_assoc, Rinv_l by lra. lra. }
      cbn [seed_kernel]. unfold khangulyan. rewrite (Rmult_comm Ktomec2 T). destruct direction as [th|].
      * specialize (Hdir th eq_refl). unfold ani_ic_on_planck. cbv zeta. rewrite IR. set (z := E / e) in *. set (t := T * Ktomec2) in *.
        assert (PX : 0 < z / (1 - z) / (2 * e * t * (1 - cos th))).
        { apply div_pos; [apply div_pos; lra|]. repeat apply Rmult_lt_0_compat; lra. }
        replace (z / ((1 - z) * (2 * e * t * (1 - cos th)))) with (z / (1 - z) / (2 * e * t * (1 - cos th))) by (field; repeat split; lra).
        rewrite !G12_pub by (try assumption; lra). set (x := z / (1 - z) / (2 * e * t * (1 - cos th))) in *. field_simplify_eq; [|lra].
        replace (184 / 100) with (1840 / 1000) by lra. replace (133 / 100) with (1330 / 1000) by lra. ring.
      * unfold iso_ic_on_planck. cbv zeta. rewrite IR. set (z := E / e) in *. set (t := T * Ktomec2) in *.
        assert (PX : 0 < z / (1 - z) / (4 * e * t)).
        { apply div_pos; [apply div_pos; lra|]. repeat apply Rmult_lt_0_compat; lra. }
        replace (z / ((1 - z) * (4 * e * t))) with (z / (1 - z) / (4 * e * t)) by (field; repeat split; lra).
        rewrite !G34_pub by (try assumption; lra). set (x := z / (1 - z) / (4 * e * t)) in *. field_simplify_eq; [|lra].
        replace (54 / 100) with (540 / 1000) by lra. replace (662 / 100) with (6620 / 1000) by lra. ring.
    + assert (IR : in_range E e = false).
      { unfold in_range. destruct (Rlt_dec E e); [lra|reflexivity]. }
      cbn [seed_kernel]. destruct direction as [th|]; [unfold ani_ic_on_planck|unfold iso_ic_on_planck]; cbv zeta; rewrite IR; reflexivity.
Qed.
Print Assumptions C151_black_body.

(** The spectrum: every field contributes its dilution factor u / (a T^4) times the integral
    over the electrons above the photon energy. *)
Definition field := (R * R * option R)%type.     (* temperature, energy density, direction *)
Definition scattered (K Theta mec2 ar : R) (pd : R -> R) (lo hi E : R) (f : field) : R :=
  let '(T, u, direction) := f in
  u / (ar * T ^ 4) / mec2 *
  RInt (fun g => pd (g * mec2) * mec2 * (if Rlt_dec (E / mec2) g then K * khangulyan direction g (Theta * T) (E / mec2) else 0)) (lo / mec2) (hi / mec2).
Theorem C151_spectrum : exists K Theta,
  close K (2 * r_e ^ 2 * light / (PI * lambda_C ^ 3)) /\ close Theta (k_B / m_e_c2) /\
  forall mec2 ar pd lo hi fields Es i, 0 < mec2 -> mec2 < lo -> lo < hi -> (i < length Es)%nat ->
  List.Forall (fun E => 0 < E) Es -> continuous_density pd lo hi ->
  List.Forall (fun f => let '(T, u, direction) := f in 0 < T /\ 0 <= u /\ forall th, direction = Some th -> cos th < 1) fields ->
  tends (fun nd => nth i (ic_spectrum mec2 ar pd (gam mec2 nd lo hi) (map (fun f : field => let '(T, u, d) := f in Thermal T u d) fields) Es) 0)
        (fold_right Rplus 0 (map (scattered K Theta mec2 ar pd lo hi (nth i Es 0)) fields)).
Proof.
  destruct C151_black_body as (K & Theta & CK & CT & HB). exists K, Theta. split; [exact CK|]. split; [exact CT|].
  intros mec2 ar pd lo hi fields Es i Hm Hlo Hhi Hi HE HD HF.
  assert (PE : 0 < nth i Es 0) by (rewrite List.Forall_forall in HE; apply HE, nth_In; exact Hi).
  replace (fold_right Rplus 0 (map (scattered K Theta mec2 ar pd lo hi (nth i Es 0)) fields))
    with (fold_right Rplus 0 (map (ic_exact mec2 ar pd lo hi (nth i Es 0)) (map (fun f : field => let '(T, u, d) := f in Thermal T u d) fields))).
  - apply C110_inverse_compton_thermal; try assumption. rewrite Forall_map. eapply List.Forall_impl; [|exact HF].
    intros [[T u] d] (F1 & F2 & F3). split; [|exists T, u, d; reflexivity]. split; [exact F1|]. split; [exact F2|exact F3].
  - rewrite map_map. f_equal. apply map_ext_in. intros [[T u] d] IN. rewrite List.Forall_forall in HF. destruct (HF _ IN) as (F1 & F2 & F3).
    unfold ic_exact, scattered, seed_factor. set (E := nth i Es 0) in *.
    assert (L1 : 1 < lo / mec2). { apply (Rmult_lt_reg_r mec2); [lra|]. unfold Rdiv. rewrite Rmult_assoc, Rinv_l by lra. lra. }
    assert (LH : lo / mec2 < hi / mec2) by (apply Rmult_lt_compat_r; [apply Rinv_0_lt_compat|]; lra).
    rewrite (RInt_ext _ (fun g => pd (g * mec2) * mec2 * (if Rlt_dec (E / mec2) g then K * khangulyan d g (Theta * T) (E / mec2) else 0))).
    { set (I0 := RInt _ _ _). set (A := u / (ar * T ^ 4)). field. split; lra. }
    intros g. rewrite Rmin_left, Rmax_right by lra. intros [A _]. unfold ic_integrand. cbn [to_mec2]. f_equal.
    assert (P2 : 0 < E / mec2) by (apply div_pos; assumption).
    destruct (HB T u d g (E / mec2) F1 F3 ltac:(lra) P2) as [H1 H2]. destruct (Rlt_dec (E / mec2) g); [apply H1|apply H2]; lra.
Qed.
Print Assumptions C151_spectrum.
Example C151_example : 0 < 272548 / 100000 /\ cos PI < 1 /\ 1 < 10 ^ 6.
Proof. rewrite cos_PI. simpl. lra. Qed.

(** ** C152: photon fields of given energies, Jones (1968), Blumenthal and Gould (1970) *)
(** photons per time and energy from one electron of energy e on n photons per volume of
    energy eps (all in units of the electron rest energy): 3/4 sigma_T c n / (eps e^2) times
    F(Gamma, q), with Gamma = 4 eps e and q = E / (Gamma (e - E)), for 1/(4 e^2) < q < 1 *)
Definition blumenthal_gould (Gamma q : R) : R :=
  2 * q * ln q + (1 + 2 * q) * (1 - q) + (Gamma * q) ^ 2 / (2 * (1 + Gamma * q)) * (1 - q).
Theorem C152_line : exists sigma_T, close sigma_T (8 * PI / 3 * r_e ^ 2) /\
  forall mec2 eps u th e E, 0 < mec2 -> 0 < eps -> 1 / 2 < e -> 0 < E ->
  let eps' := eps / mec2 in
  let n := u / eps in
  let Gamma := 4 * eps' * e in
  let q := E / (Gamma * (e - E)) in
  let rate := seed_kernel (to_mec2 mec2 (Array [eps] [u] th)) e E in
  (E < e -> 1 / (4 * e ^ 2) < q < 1 -> rate = 3 / 4 * sigma_T * light * n / (eps' * e ^ 2) * blumenthal_gould Gamma q) /\
  (e <= E \/ q < 1 / (4 * e ^ 2) \/ 1 < q -> rate = 0).
Proof.
  exists (sigt_c / light). pose proof PI_bounds as PB. split.
  - unfold close, sigt_c, light, r_e.
    match goal with |- Rabs (?a / (8 * PI / 3 * ?b) - 1) < _ => replace (a / (8 * PI / 3 * b) - 1) with (a * 3 / 8 / b / PI - 1) by (field; lra) end.
    assert (B : / (31415927 / 10 ^ 7) < / PI < / (31415926 / 10 ^ 7)) by (split; (apply Rinv_lt_contravar; [|lra]); apply (Rmult_lt_0_compat); lra).
    unfold Rdiv at 1. apply Rabs_def1; lra.
  - intros mec2 eps u th e E Hm He0 He HE eps' n Gamma q rate.
    assert (PE : 0 < eps') by (apply div_pos; assumption). assert (PG : 0 < Gamma) by (unfold Gamma; apply Rmult_lt_0_compat; lra).
    assert (ER : rate = aa_kernel e eps' E * (u / mec2 / eps' ^ 2) * (3 / 4 * sigt_c / e ^ 2)) by reflexivity.
    assert (NE : u / mec2 / eps' ^ 2 = n / eps') by (unfold n, eps'; field; lra).
    assert (QE : E < e -> E / e / (4 * eps' * e * (1 - E / e)) = q).
    { intros L. unfold q, Gamma. field. repeat split; lra. }
    assert (W : E < e <-> E / e < 1).
    { split; intros L; [apply (Rmult_lt_reg_r e); [lra|]; unfold Rdiv; rewrite Rmult_assoc, Rinv_l by lra; lra|].
      apply (Rmult_lt_compat_r e) in L; [|lra]. unfold Rdiv in L. rewrite Rmult_assoc, Rinv_l in L by lra. lra. }
    split.
    + intros L [Q1 Q2]. rewrite ER, NE. rewrite aa_positive by (try (apply div_pos; lra); try assumption; lra). cbv zeta. destruct (Rlt_dec (E / e) 1) as [A|A]; [|exfalso; apply A, W, L].
      cbv zeta. rewrite (QE L). fold Gamma. unfold heaviside.
      destruct (Rlt_dec 0 (1 - q)); [|lra]. destruct (Rlt_dec 0 (q - 1 / (4 * e ^ 2))); [|lra].
      unfold fic, blumenthal_gould, light. assert (0 < q) by (unfold q; apply div_pos; [lra|]; apply Rmult_lt_0_compat; lra).
      assert (0 < Gamma * q) by (apply Rmult_lt_0_compat; assumption). field. repeat split; lra.
    + intros H. rewrite ER. rewrite aa_positive by (try (apply div_pos; lra); try assumption; lra). cbv zeta. destruct (Rlt_dec (E / e) 1) as [A|A]; [|ring].
      apply W in A. cbv zeta. rewrite (QE A). unfold heaviside. destruct H as [H|[H|H]]; [lra| |].
      * destruct (Rlt_dec 0 (q - 1 / (4 * e ^ 2))); [lra|]. destruct (Req_EM_T (q - 1 / (4 * e ^ 2)) 0); [lra|]. ring.
      * destruct (Rlt_dec 0 (1 - q)); [lra|]. destruct (Req_EM_T (1 - q) 0); [lra|]. ring.
Qed.
Print Assumptions C152_line.

(** Thomson limit: when Gamma is small the photon energy is 4 e^2 eps q; the kernel then
    gives one scattering per sigma_T c n, and photons of mean energy 4/3 e^2 eps. *)
Theorem C152_thomson : let F := blumenthal_gould 0 in
  (forall q, 0 < q < 1 -> forall eps, 0 < eps -> exists d, 0 < d /\ forall Gamma, 0 < Gamma < d -> Rabs (blumenthal_gould Gamma q - F q) < eps) /\
  (forall d, 0 < d < 1 ->
     Rabs (RInt (fun q => 3 / 4 * 4 * F q) d 1 - 1) <= 12 * d /\
     Rabs (RInt (fun q => 3 / 4 * 4 * (4 * q) * F q) d 1 - 4 / 3) <= 40 * d).
Proof.
  intros F. split.
  - intros q Hq eps He. exists (Rmin 1 eps). split; [apply Rmin_pos; lra|]. intros G [G1 G2].
    assert (G3 : G < 1) by (eapply Rlt_le_trans; [exact G2|apply Rmin_l]). assert (G4 : G < eps) by (eapply Rlt_le_trans; [exact G2|apply Rmin_r]).
    assert (GQ : 0 < G * q < G) by nra. unfold F, blumenthal_gould.
    match goal with |- Rabs ?x < _ => replace x with ((G * q) ^ 2 / (2 * (1 + G * q)) * (1 - q)) by (field; lra) end.
    assert (0 < (G * q) ^ 2 / (2 * (1 + G * q))) by (apply div_pos; [apply pow_lt|]; lra).
    rewrite Rabs_pos_eq by (apply Rlt_le, Rmult_lt_0_compat; lra).
    assert ((G * q) ^ 2 / (2 * (1 + G * q)) < G).
    { apply (Rmult_lt_reg_r (2 * (1 + G * q))); [lra|]. unfold Rdiv. rewrite Rmult_assoc, Rinv_l by lra. nra. }
    nra.
  - intros d Hd. assert (LD : - (1 / d) <= ln d < 0).
    { split; [|rewrite <- ln_1; apply ln_increasing; lra]. assert (X : ln (/ d) <= / d - 1).
      { assert (1 + (/ d - 1) <= exp (/ d - 1)) by apply exp_ineq1_le. assert (0 < / d) by (apply Rinv_0_lt_compat; lra).
        rewrite <- (ln_exp (/ d - 1)). apply ln_le; lra. }
      rewrite ln_Rinv in X by lra. unfold Rdiv. lra. }
    assert (LD1 : - 1 <= d * ln d <= 0).
    { split; [|nra]. destruct LD as [L1 L2]. 
      apply (Rmult_le_compat_l d) in L1; [|lra]. replace (d * - (1 / d)) with (- 1) in L1 by (field; lra). lra. }
    assert (R1 : is_RInt (fun q => 3 / 4 * 4 * F q) d 1
      (minus (3 * (1 ^ 2 * ln 1 + 1 - 2 / 3 * 1 ^ 3)) (3 * (d ^ 2 * ln d + d - 2 / 3 * d ^ 3)))).
    { apply (is_RInt_derive (fun q => 3 * (q ^ 2 * ln q + q - 2 / 3 * q ^ 3))).
      - intros x. rewrite Rmin_left, Rmax_right by lra. intros [X1 X2]. unfold F, blumenthal_gould. auto_derive; [lra|]. field. lra.
      - intros x. rewrite Rmin_left, Rmax_right by lra. intros [X1 X2]. apply continuity_pt_filterlim. apply derivable_continuous_pt, ex_derive_Reals_0.
        unfold F, blumenthal_gould. auto_derive. repeat split; lra. }
    assert (R2 : is_RInt (fun q => 3 / 4 * 4 * (4 * q) * F q) d 1
      (minus (12 * (2 / 3 * 1 ^ 3 * ln 1 + 1 / 9 * 1 ^ 3 + 1 ^ 2 / 2 - 1 ^ 4 / 2)) (12 * (2 / 3 * d ^ 3 * ln d + 1 / 9 * d ^ 3 + d ^ 2 / 2 - d ^ 4 / 2)))).
    { apply (is_RInt_derive (fun q => 12 * (2 / 3 * q ^ 3 * ln q + 1 / 9 * q ^ 3 + q ^ 2 / 2 - q ^ 4 / 2))).
      - intros x. rewrite Rmin_left, Rmax_right by lra. intros [X1 X2]. unfold F, blumenthal_gould. auto_derive; [lra|]. field. lra.
      - intros x. rewrite Rmin_left, Rmax_right by lra. intros [X1 X2]. apply continuity_pt_filterlim. apply derivable_continuous_pt, ex_derive_Reals_0.
        unfold F, blumenthal_gould. auto_derive. repeat split; lra. }
    rewrite (is_RInt_unique _ _ _ _ R1), (is_RInt_unique _ _ _ _ R2). unfold minus, plus, opp; simpl. rewrite ln_1.
    set (m := d * ln d) in *. split; apply Rabs_le.
    + replace (d * (d * 1) * ln d) with (d * m) by (unfold m; ring). split; nra.
    + replace (2 / 3 * (d * (d * (d * 1))) * ln d) with (2 / 3 * (d * d * m)) by (unfold m; ring).
      assert (0 <= d * d <= d) by nra. assert (0 <= d * d * d <= d) by nra. assert (0 <= d * d * d * d <= d) by nra. assert (- d <= d * d * m <= 0) by nra. split; nra.
Qed.
Print Assumptions C152_thomson.
Example C152_example : let e := 10 in let eps := / 100 in 1 / (4 * e ^ 2) < 1 / (4 * eps * e * (e - 1)) < 1.
Proof. simpl. split; [apply Rmult_lt_compat_l; [lra|]; apply Rinv_lt_contravar; lra|lra]. Qed.
