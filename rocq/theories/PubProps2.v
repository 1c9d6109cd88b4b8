(** C148, continued (the spectrum), and C149: PionDecayKelner06. *)
From Coq Require Import Reals ZArith List Lra Lia Bool.
From Coquelicot Require Import Coquelicot.
From Verif Require Import TrapzModel TrapzSpec TrapzProofs EnergyModel EnergyProofs ElectronModel ElectronProofs
  PionModel PionProofs ConvProps2 ConvProps3 PionProps PionProps2 PubSpec PubProps.
Import ListNotations.
Local Open Scope R_scope.

(** The spectrum without lookup table tends, with the number of points per decade, to
    n_H c times the integral over the protons of their number times the published cross section. *)
Theorem C148_spectrum : forall m_p hi nuclear nhc GeV pd lo hi' Egs i, proton m_p -> 0 < GeV ->
  (m_p + T_threshold) * GeV <= lo -> lo < hi' -> continuous_density pd lo hi' ->
  (i < length Egs)%nat -> List.Forall (fun E => 0 < E) Egs ->
  exists v, (forall nd, nth i (pion_spectrum (diffsigma m_p hi nuclear) nhc GeV pd (Ep GeV nd lo hi') Egs) None = Some (v nd)) /\
    tends v (nhc * RInt (fun E => published_pp m_p hi nuclear (E - m_p) (nth i Egs 0) / 10 ^ 27 * (pd (E * GeV) * GeV)) (lo / GeV) (hi' / GeV)).
Proof.
  intros m_p hi nuclear nhc GeV pd lo hi' Egs i Hmp HG Hlo Hhi HD Hi HE. rewrite pub_Tth in Hlo.
  destruct (C110_pion m_p hi nuclear nhc GeV pd lo hi' Egs i Hmp HG Hlo Hhi HD Hi HE) as (v & HT & HV).
  exists v. split; [exact HV|].
  replace (RInt (fun E => published_pp m_p hi nuclear (E - m_p) (nth i Egs 0) / 10 ^ 27 * (pd (E * GeV) * GeV)) (lo / GeV) (hi' / GeV))
    with (RInt (pp_integrand m_p hi nuclear GeV pd (nth i Egs 0)) (lo / GeV) (hi' / GeV)); [exact HT|].
  assert (LL : m_p + Tth <= lo / GeV). { apply (Rmult_le_reg_r GeV); [exact HG|]. unfold Rdiv. rewrite Rmult_assoc, Rinv_l by lra. lra. }
  assert (LH : lo / GeV < hi' / GeV) by (apply Rmult_lt_compat_r; [apply Rinv_0_lt_compat; exact HG|exact Hhi]).
  assert (PE : 0 < nth i Egs 0) by (rewrite List.Forall_forall in HE; apply HE, nth_In; exact Hi).
  apply RInt_ext. intros E. rewrite Rmin_left, Rmax_right by lra. intros [A B]. unfold pp_integrand, cross_section.
  replace E with (m_p + (E - m_p)) at 1 by ring. rewrite C148_cross_section by (try rewrite pub_Tth; try assumption; lra). reflexivity.
Qed.
Print Assumptions C148_spectrum.

(** ** C149: Kelner, Aharonian and Bugayov (2006), energies in TeV, cross sections in mb *)
(** Eqs. 59-61, L = ln (E_p / TeV) *)
Definition B_gamma (L : R) : R := 130 / 100 + 14 / 100 * L + 11 / 1000 * (L * L).
Definition beta_gamma (L : R) : R := 1 / (179 / 100 + 11 / 100 * L + 8 / 1000 * (L * L)).
Definition k_gamma (L : R) : R := 1 / (801 / 1000 + 49 / 1000 * L + 14 / 1000 * (L * L)).
(** the function whose derivative is Eq. 58: F_gamma = B_gamma d/dx [ln x ((1 - x^beta)/(1 + k x^beta (1 - x^beta)))^4] *)
Definition potential (L x : R) : R :=
  let y := exp (beta_gamma L * ln x) in ln x * ((1 - y) / (1 + k_gamma L * y * (1 - y))) ^ 4.
(** Eqs. 73 and 79, with the threshold at 1.22 GeV *)
Definition inelastic06 (E : R) : R :=
  let L := ln E in
  let s := 343 / 10 + 188 / 100 * L + 25 / 100 * (L * L) in
  if Rlt_dec (1 / 10) E then s
  else if Rle_dec (122 / 10 ^ 5) E then s * (1 - (122 / 10 ^ 5 / E) ^ 4) ^ 2 else 0.

Lemma quad_pos a b c L : 0 < a -> 0 < c -> b * b < 4 * a * c -> 0 < a + b * L + c * (L * L).
Proof.
  intros Ha Hc H. assert (X : 0 < 4 * c * (a + b * L + c * (L * L))).
  { replace (4 * c * (a + b * L + c * (L * L))) with ((2 * c * L + b) * (2 * c * L + b) + (4 * a * c - b * b)) by ring.
    pose proof (Rle_0_sqr (2 * c * L + b)) as Q. unfold Rsqr in Q. lra. }
  destruct (Rle_or_lt (a + b * L + c * (L * L)) 0) as [N|N]; [|exact N]. exfalso.
  assert (4 * c * (a + b * L + c * (L * L)) <= 0); [|lra]. apply Rmult_le_0_l; lra.
Qed.
Lemma beta_pos L : 0 < beta_gamma L.
Proof. unfold beta_gamma. apply div_pos; [lra|]. apply quad_pos; lra. Qed.
Lemma k_pos L : 0 < k_gamma L.
Proof. unfold k_gamma. apply div_pos; [lra|]. apply quad_pos; lra. Qed.

(** F_gamma used by the code is the derivative of the published potential. *)
Theorem C149_photons_per_collision : forall Ep x, 0 < Ep -> 0 < x < 1 ->
  is_derive (fun x => B_gamma (ln Ep) * potential (ln Ep) x) x (Fgamma x Ep).
Proof.
  intros Ep x HEp Hx. set (L := ln Ep). pose proof (beta_pos L) as PB. pose proof (k_pos L) as PK.
  assert (LX : ln x < 0) by (rewrite <- ln_1; apply ln_increasing; lra).
  assert (Y0 : 0 < exp (beta_gamma L * ln x)) by apply exp_pos.
  assert (Y1 : exp (beta_gamma L * ln x) < 1) by (rewrite <- exp_0; apply exp_increasing; nra).
  assert (D : 0 < 1 + k_gamma L * exp (beta_gamma L * ln x) * (1 - exp (beta_gamma L * ln x))).
  { assert (0 < k_gamma L * exp (beta_gamma L * ln x) * (1 - exp (beta_gamma L * ln x))); [|lra].
    apply Rmult_lt_0_compat; [apply Rmult_lt_0_compat|]; lra. }
  unfold potential. auto_derive.
  - repeat split; lra.
  - unfold Fgamma. fold L.
    assert (EB : B_K L = B_gamma L) by (unfold B_K, B_gamma; ring).
    assert (Eb : beta_K L = beta_gamma L).
    { unfold beta_K, beta_gamma. unfold Rdiv at 4. rewrite Rmult_1_l. f_equal. ring. }
    assert (Ek : k_K L = k_gamma L).
    { unfold k_K, k_gamma. unfold Rdiv at 4. rewrite Rmult_1_l. f_equal. ring. }
    rewrite EB, Eb, Ek. unfold Rpower. set (y := exp (beta_gamma L * ln x)) in *.
    set (k := k_gamma L) in *. set (be := beta_gamma L) in *. set (l := ln x) in *. field. repeat split; lra.
Qed.
Print Assumptions C149_photons_per_collision.

Theorem C149_cross_section : forall Ep, 0 < Ep -> sigma_inel_K Ep = inelastic06 Ep / 10 ^ 27.
Proof.
  intros E H. unfold sigma_inel_K, inelastic06, EthT, heaviside.
  match goal with |- _ = ?x / 10 ^ 27 => change (x / 10 ^ 27) with (x * mbarn) end.
  replace (122 / 100000) with (122 / 10 ^ 5) by lra. set (e := 122 / 10 ^ 5). set (m := mbarn). set (L := ln E).
  assert (PE : 0 < e) by (unfold e; lra).
  destruct (Rle_dec E (1 / 10)) as [A|A], (Rlt_dec (1 / 10) E) as [B|B]; try lra.
  - destruct (Rle_dec e E) as [C|C].
    + destruct (Rlt_dec 0 (E - e)) as [D|D]; [ring|]. destruct (Req_EM_T (E - e) 0) as [G|G]; [|lra].
      replace (e / E) with 1 by (replace e with E by lra; field; lra). ring.
    + destruct (Rlt_dec 0 (E - e)); [lra|]. destruct (Req_EM_T (E - e) 0); [lra|]. ring.
Qed.
Print Assumptions C149_cross_section.

(** Eqs. 71/72 above the transition energy, and the delta-function approximation, Eqs. 77 and 78, below:
    what the code integrates. *)
Theorem C149_integrands : forall pd c nhat m_pT,
  (forall Eg x, 0 < Eg -> 0 < x < 1 ->
     photon_integrand pd Eg x =
     inelastic06 (Eg / x) / 10 ^ 27 * pd (Eg / x) * Derive (fun x' => B_gamma (ln (Eg / x)) * potential (ln (Eg / x)) x') x / x) /\
  (forall Epi, 0 < m_pT -> 1349766 / 10 ^ 10 < Epi ->
     let E0 := m_pT + Epi / (17 / 100) in
     delta_integrand m_pT pd c nhat Epi =
     c * (nhat / (17 / 100) * (inelastic06 E0 / 10 ^ 27) * pd E0) / sqrt (Epi ^ 2 - (1349766 / 10 ^ 10) ^ 2)).
Proof.
  intros pd c nhat m_pT. split.
  - intros Eg x HE Hx. assert (P : 0 < Eg / x) by (apply div_pos; lra). unfold photon_integrand.
    rewrite C149_cross_section by exact P. 
    assert (D : Derive (fun x' => B_gamma (ln (Eg / x)) * potential (ln (Eg / x)) x') x = Fgamma x (Eg / x)) by (apply is_derive_unique, C149_photons_per_collision; assumption).
    rewrite D. reflexivity.
  - intros Epi Hm HE E0. unfold delta_integrand. fold Kpi.
    assert (P : 0 < E0) by (unfold E0; assert (0 < Epi / (17 / 100)) by (apply div_pos; lra); lra).
    change Kpi with (17 / 100). fold E0. rewrite C149_cross_section by exact P. change m_piT with (1349766 / 10 ^ 10). unfold Rdiv. ring.
Qed.
Print Assumptions C149_integrands.

(** The spectrum for any numerical integrator that looks at the integrand inside (0, 1) and
    (Emin, infinity) only: n_H c times the integral of the published integrand from the
    transition energy on, twice the integral over the pions below. *)
Definition inside01 (quad : (R -> R) -> R) : Prop := forall f g, (forall x, 0 < x < 1 -> f x = g x) -> quad f = quad g.
Definition beyond (quad : R -> (R -> R) -> R) : Prop := forall a f g, (forall x, a < x -> f x = g x) -> quad a f = quad a g.
Theorem C149_spectrum : forall m_pT pd c quad01 quad_inf nh Etr Es, 0 < m_pT -> 0 < Etr -> inside01 quad01 -> beyond quad_inf ->
  List.Forall (fun E => 0 < E) Es ->
  let hiE Eg := c * quad01 (fun x => inelastic06 (Eg / x) / 10 ^ 27 * pd (Eg / x) * Derive (fun x' => B_gamma (ln (Eg / x)) * potential (ln (Eg / x)) x') x / x) in
  let m := 1349766 / 10 ^ 10 in
  let loE nhat Eg := 2 * quad_inf (Eg + m ^ 2 / (4 * Eg)) (fun Epi => let E0 := m_pT + Epi / (17 / 100) in
     c * (nhat / (17 / 100) * (inelastic06 E0 / 10 ^ 27) * pd E0) / sqrt (Epi ^ 2 - m ^ 2)) in
  let both := (exists E, In E Es /\ E < Etr) /\ (exists E, In E Es /\ Etr <= E) in
  exists nhat, (both -> nhat = hiE Etr / loE 1 Etr) /\ (~ both -> nhat = 1) /\
    kelner_spectrum m_pT pd c quad01 quad_inf nh Etr Es =
    map (fun E => nh * (if Rle_dec Etr E then hiE E else loE nhat E)) Es.
Proof.
  intros m_pT pd c quad01 quad_inf nh Etr Es Hm HEt Q1 Q2 HE hiE m loE both.
  assert (LO : forall nhat E, 0 < E -> specpp_loE m_pT pd c quad_inf nhat E = loE nhat E).
  { intros nhat E P. unfold specpp_loE, loE. change (m_piT) with m. f_equal. apply Q2. intros Epi HEpi.
    apply (C149_integrands pd c nhat m_pT); [exact Hm|]. fold m.
    assert (PM : 0 < m) by (unfold m; lra).
    assert (m <= E + m ^ 2 / (4 * E)); [|lra].
    assert (0 <= E + m ^ 2 / (4 * E) - m); [|lra].
    replace (E + m ^ 2 / (4 * E) - m) with ((2 * E - m) ^ 2 / (4 * E)) by (field; lra).
    apply Rmult_le_pos; [apply pow2_ge_0|]. apply Rlt_le, Rinv_0_lt_compat. lra. }
  assert (HI : forall E, 0 < E -> specpp_hiE pd c quad01 E = hiE E).
  { intros E P. unfold specpp_hiE, hiE. f_equal. apply Q1. intros x Hx. apply (C149_integrands pd c 1 m_pT); assumption. }
  exists (nhat_of m_pT pd c quad01 quad_inf Etr Es).
  assert (EX1 : existsb (fun E => if Rlt_dec E Etr then true else false) Es = true <-> exists E, In E Es /\ E < Etr).
  { rewrite existsb_exists. split; intros (E & I1 & I2); exists E; (split; [exact I1|]); destruct (Rlt_dec E Etr); auto; try discriminate; contradiction. }
  assert (EX2 : existsb (fun E => if Rle_dec Etr E then true else false) Es = true <-> exists E, In E Es /\ Etr <= E).
  { rewrite existsb_exists. split; intros (E & I1 & I2); exists E; (split; [exact I1|]); destruct (Rle_dec Etr E); auto; try discriminate; contradiction. }
  split; [|split].
  - intros [B1 B2]. unfold nhat_of. apply EX1 in B1. apply EX2 in B2. rewrite B1, B2. cbn [andb]. rewrite HI, LO by exact HEt. ring.
  - intros NB. unfold nhat_of. destruct (_ && _) eqn:E; [|reflexivity]. exfalso. apply andb_true_iff in E. destruct E as [E1 E2].
    apply NB. split; [apply EX1; exact E1|apply EX2; exact E2].
  - unfold kelner_spectrum. apply map_ext_in. intros E IE. rewrite List.Forall_forall in HE. specialize (HE E IE).
    f_equal. destruct (Rle_dec Etr E); [apply HI|apply LO]; exact HE.
Qed.
Print Assumptions C149_spectrum.
Example C149_example : 0 < 1 / 2 < 1 /\ 0 < 10 /\ 1349766 / 10 ^ 10 < 1 /\ inside01 (fun f => f (1 / 2)) /\ beyond (fun a f => f (a + 1)).
Proof. split; [lra|]. split; [lra|]. split; [lra|]. split; [intros f g H; apply H; lra|intros a f g H; apply H; lra]. Qed.
