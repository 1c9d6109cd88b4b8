(** Property C110, continued: pion decay, the built-in particle distributions,
    and concrete cases of the hypotheses used. *)
From Coq Require Import Reals ZArith List Lra Lia Sorted.
From Coquelicot Require Import Coquelicot.
From Verif Require Import SpectralModel SpectralProofs TrapzModel TrapzSpec TrapzProofs EnergyModel EnergyProofs ElectronModel ElectronProofs PionModel PionProofs RadiativeProps ConvProofs ConvProps ConvProps2 ConvPion.
Import ListNotations.
Local Open Scope R_scope.

Lemma grid_ge_hd l : grid l -> forall e, In e l -> hd 0 l <= e.
Proof.
  destruct l as [|x l]; [intros _ e []|]. intros [_ S] e [<-|I]; [simpl; lra|]. inversion_clear S as [|? ? S1 S2].
  simpl. rewrite List.Forall_forall in S2. apply Rlt_le, S2, I.
Qed.

(** ** Pion decay *)
(** the differential cross section as a real number *)
Definition cross_section (m_p : R) (hi : hiE) (nuclear : bool) (E Eg : R) : R :=
  match diffsigma m_p hi nuclear E Eg with Some v => v | None => 0 end.
(** protons per GeV times the cross section, at proton energy E (in GeV) *)
Definition pp_integrand (m_p : R) (hi : hiE) (nuclear : bool) (GeV : R) (pd : R -> R) (Eg E : R) : R :=
  cross_section m_p hi nuclear E Eg * (pd (E * GeV) * GeV).

Lemma pion_value m_p hi nuclear nhc GeV pd es Eg : proton m_p -> 0 < Eg -> (forall e, In e es -> m_p + Tth <= e) ->
  nmap (fun x => nhc * x) (ntrapz (map (fun p => nmul (diffsigma m_p hi nuclear (fst p) Eg) (Some (snd p))) (combine es (J GeV pd es))) es)
  = Some (nhc * trapz_loglog (map (pp_integrand m_p hi nuclear GeV pd Eg) es) es).
Proof.
  intros Hmp HE HL. assert (X : map (fun p => nmul (diffsigma m_p hi nuclear (fst p) Eg) (Some (snd p))) (combine es (J GeV pd es))
    = map Some (map (pp_integrand m_p hi nuclear GeV pd Eg) es)).
  { unfold J. clear - Hmp HE HL. induction es as [|e es IH]; [reflexivity|]. cbn [map combine fst snd]. f_equal.
    - destruct (diffsigma_some m_p Hmp hi nuclear e Eg) as (v & EV & _); [specialize (HL e (or_introl eq_refl)); lra|exact HE|].
      unfold pp_integrand, cross_section. rewrite EV. reflexivity.
    - apply IH. intros e' H'. apply HL. right. exact H'. }
  rewrite (ntrapz_ext_real _ _ _ X). reflexivity.
Qed.

Theorem C110_pion : forall m_p hi nuclear nhc GeV pd lo hi' Egs i, proton m_p -> 0 < GeV ->
  (m_p + Tth) * GeV <= lo -> lo < hi' -> continuous_density pd lo hi' ->
  (i < length Egs)%nat -> List.Forall (fun E => 0 < E) Egs ->
  exists v, tends v (nhc * RInt (pp_integrand m_p hi nuclear GeV pd (nth i Egs 0)) (lo / GeV) (hi' / GeV)) /\
    forall nd, nth i (pion_spectrum (diffsigma m_p hi nuclear) nhc GeV pd (Ep GeV nd lo hi') Egs) None = Some (v nd).
Proof.
  intros m_p hi nuclear nhc GeV pd lo hi' Egs i Hmp HG Hlo Hhi HD Hi HE.
  pose proof (mp_pos m_p Hmp) as PM. pose proof Tth_pos as PT. assert (L0 : 0 < lo) by nra.
  set (Eg := nth i Egs 0). assert (PE : 0 < Eg) by (rewrite List.Forall_forall in HE; apply HE, nth_In; exact Hi).
  assert (LL : m_p + Tth <= lo / GeV). { apply (Rmult_le_reg_r GeV); [exact HG|]. unfold Rdiv. rewrite Rmult_assoc, Rinv_l by lra. lra. }
  assert (LH : lo / GeV < hi' / GeV) by (apply Rmult_lt_compat_r; [apply Rinv_0_lt_compat; exact HG|exact Hhi]).
  assert (IN : forall E, lo / GeV <= E <= hi' / GeV -> lo <= E * GeV <= hi').
  { intros E [A B]. apply (Rmult_le_compat_r GeV) in A, B; [|lra|lra]. unfold Rdiv in A, B. rewrite Rmult_assoc, Rinv_l in A, B by lra. lra. }
  exists (fun nd => nhc * trapz_loglog (map (pp_integrand m_p hi nuclear GeV pd Eg) (gam GeV nd lo hi')) (gam GeV nd lo hi')). split.
  - apply tends_scale. intros eps He.
    apply (grid_converges (fun nd => gam GeV nd lo hi') (pp_integrand m_p hi nuclear GeV pd Eg) (lo / GeV) (hi' / GeV) lo hi' L0 Hhi); try assumption.
    + lra.
    + split.
      * apply (diffsigma_integrable m_p Hmp hi nuclear Eg (fun E => pd (E * GeV) * GeV)); try assumption; try lra.
        intros E HEE. destruct (HD _ (IN E HEE)) as [C _]. apply (cont_mult (fun E => pd (E * GeV)) (fun _ => GeV)); [|apply cont_const].
        apply (continuity_pt_comp (fun E => E * GeV) pd); [apply cont_mult; [apply cont_id|apply cont_const]|exact C].
      * intros E HEE. destruct (HD _ (IN E HEE)) as [_ P]. unfold pp_integrand, cross_section.
        destruct (diffsigma_some m_p Hmp hi nuclear E Eg) as (v & -> & V); [lra|exact PE|]. apply Rmult_le_pos; [exact V|]. apply Rmult_le_pos; lra.
    + intros nd. destruct (gam_facts GeV nd lo hi' HG L0 Hhi) as (G & E1 & E2 & _ & F & _). auto.
  - intros nd. unfold pion_spectrum. rewrite Ep_same by (try assumption; lra). change (Ep_explicit GeV nd lo hi') with (gam GeV nd lo hi').
    erewrite nth_indep by (rewrite map_length; exact Hi).
    rewrite (map_nth (fun Eg => nmap (fun x => nhc * x) (ntrapz (map (fun p => nmul (diffsigma m_p hi nuclear (fst p) Eg) (Some (snd p))) (combine (gam GeV nd lo hi') (J GeV pd (gam GeV nd lo hi')))) (gam GeV nd lo hi'))) Egs 0 i).
    fold Eg. apply pion_value; try assumption. intros e Ie. destruct (gam_facts GeV nd lo hi' HG L0 Hhi) as (G & E1 & _).
    pose proof (grid_ge_hd _ G e Ie) as B. rewrite E1 in B. lra.
Qed.
Print Assumptions C110_pion.

(** ** Built-in particle distributions: the slope bounds *)
Lemma ratio_ge1 x y : 0 < x -> x <= y -> 1 <= y / x.
Proof. intros. apply (Rmult_le_reg_r x); [lra|]. unfold Rdiv. rewrite Rmult_assoc, Rinv_l by lra. lra. Qed.
Lemma pl_step A e0 a x y : 0 < e0 -> 0 < x -> 0 < y ->
  y * power_law y A e0 a = x * power_law x A e0 a * Rpower (y / x) (1 - a).
Proof.
  intros H0 Hx Hy. unfold power_law. assert (Y : y = x * (y / x)) by (field; lra).
  assert (P : 0 < y / x) by (apply div_pos; lra).
  replace (y / e0) with (x / e0 * (y / x)) by (field; lra). rewrite <- Rpower_mult_distr by (first [exact P|apply div_pos; lra]).
  unfold Rminus at 1. rewrite Rpower_plus, Rpower_1 by exact P. rewrite Y at 1. ring.
Qed.
Lemma cut_step ec b hi x y : 0 < ec -> 0 <= b -> 0 < x -> x <= y -> y <= hi ->
  exp (- Rpower (x / ec) b) * Rpower (y / x) (- (b * Rpower (hi / ec) b)) <= exp (- Rpower (y / ec) b) <= exp (- Rpower (x / ec) b).
Proof.
  intros Hc Hb Hx Hxy Hh. assert (R1 : 1 <= y / x) by (apply ratio_ge1; assumption).
  assert (P : 0 < x / ec) by (apply div_pos; lra). assert (Q : 0 < y / ec) by (apply div_pos; lra).
  set (v := Rpower (x / ec) b). set (u := Rpower (y / ec) b). set (w := Rpower (hi / ec) b).
  assert (V : 0 < v) by apply exp_pos. assert (U : 0 < u) by apply exp_pos.
  assert (VU : v <= u). { apply Rle_Rpower_l; [exact Hb|]. split; [exact P|]. apply Rmult_le_compat_r; [apply Rlt_le, Rinv_0_lt_compat; lra|lra]. }
  assert (UW : u <= w). { apply Rle_Rpower_l; [exact Hb|]. split; [exact Q|]. apply Rmult_le_compat_r; [apply Rlt_le, Rinv_0_lt_compat; lra|lra]. }
  assert (EXP : forall s t, s <= t -> exp s <= exp t) by (intros s t [H| ->]; [apply Rlt_le, exp_increasing; exact H|lra]).
  split; [|apply EXP; lra].
  unfold Rpower at 1. rewrite <- exp_plus. apply EXP.
  assert (LY : 0 <= ln (y / x)). { rewrite <- ln_1. destruct R1 as [R1|<-]; [apply Rlt_le, ln_increasing; lra|lra]. }
  assert (LU : ln u - ln v = b * ln (y / x)).
  { unfold u, v, Rpower. rewrite !ln_exp. replace (y / ec) with (x / ec * (y / x)) by (field; lra). rewrite ln_mult by lra. ring. }
  assert (K : u - v <= u * (ln u - ln v)).
  { assert (M : 1 + (ln v - ln u) <= v / u).
    { replace (v / u) with (exp (ln v - ln u)); [apply exp_ge_1p|]. unfold Rminus. rewrite exp_plus, exp_Ropp, !exp_ln by assumption. reflexivity. }
    apply (Rmult_le_compat_l u) in M; [|lra]. replace (u * (v / u)) with v in M by (field; lra). lra. }
  rewrite LU in K. assert (0 <= b * ln (y / x)) by (apply Rmult_le_pos; assumption). nra.
Qed.

(** Power laws: the energy content is exact up to the index -1 window. *)
Theorem C110_power_law : forall unit nd A e0 alpha lo hi, 0 < unit -> 0 < A -> 0 < e0 -> 0 < lo -> lo < hi ->
  let pd := fun E => power_law E A e0 alpha in
  let exact := RInt (fun E => E * pd E) lo hi in
  let n := Z.to_nat (Z.max 10 (Int_part (nd * (ln (hi / lo) / ln 10)))) in
  let err := Rpower (Rpower (hi / lo) (/ INR (n - 1))) (/ 10 ^ 10) in
  (exact <= err * compute_We unit nd pd lo hi None None /\ compute_We unit nd pd lo hi None None <= err * exact) /\
  (exact <= err * compute_Wp unit nd pd lo hi None None /\ compute_Wp unit nd pd lo hi None None <= err * exact).
Proof.
  intros unit nd A e0 alpha lo hi Hu HA H0 Hlo Hhi pd exact n err.
  assert (R := C110_relative_error unit nd pd lo hi None None (1 - alpha) (1 - alpha) Hu). cbn [bound] in R. cbv zeta in R.
  fold exact in R. replace (1 - alpha - (1 - alpha) + / 10 ^ 10) with (/ 10 ^ 10) in R by ring. fold n in R. fold err in R.
  apply R; try assumption.
  - intros E [HE _]. split; [|apply pl_pos; exact HA]. apply continuity_pt_filterlim. apply cont_pl; lra.
  - intros x y H1 H2 H3. unfold pd. rewrite (pl_step A e0 alpha x y) by lra. lra.
Qed.
Print Assumptions C110_power_law.

(** Power laws with a cutoff: the relative error per point is set by how steep
    the cutoff makes the distribution at the highest energy. *)
Theorem C110_cutoff : forall unit nd A e0 alpha ec beta lo hi, 0 < unit -> 0 < A -> 0 < e0 -> 0 < ec -> 0 <= beta -> 0 < lo -> lo < hi ->
  let pd := fun E => cutoff_power_law E A e0 alpha ec beta in
  let exact := RInt (fun E => E * pd E) lo hi in
  let n := Z.to_nat (Z.max 10 (Int_part (nd * (ln (hi / lo) / ln 10)))) in
  let err := Rpower (Rpower (hi / lo) (/ INR (n - 1))) (beta * Rpower (hi / ec) beta + / 10 ^ 10) in
  (exact <= err * compute_We unit nd pd lo hi None None /\ compute_We unit nd pd lo hi None None <= err * exact) /\
  (exact <= err * compute_Wp unit nd pd lo hi None None /\ compute_Wp unit nd pd lo hi None None <= err * exact).
Proof.
  intros unit nd A e0 alpha ec beta lo hi Hu HA H0 Hc Hb Hlo Hhi pd exact n err.
  assert (R := C110_relative_error unit nd pd lo hi None None (1 - alpha - beta * Rpower (hi / ec) beta) (1 - alpha) Hu). cbn [bound] in R. cbv zeta in R.
  fold exact in R. replace (1 - alpha - (1 - alpha - beta * Rpower (hi / ec) beta) + / 10 ^ 10) with (beta * Rpower (hi / ec) beta + / 10 ^ 10) in R by ring.
  fold n in R. fold err in R. apply R; try assumption.
  - intros E [HE _]. unfold pd. split.
    + apply (cont_locally (fun E => power_law E A e0 alpha * exp (- Rpower (E / ec) beta)) _ E 1); [lra|intros y _; apply ecpl_factor|].
      apply cont_mult; apply continuity_pt_filterlim; [apply cont_pl|apply cont_cutoff]; lra.
    + rewrite ecpl_factor. apply Rmult_lt_0_compat; [apply pl_pos; exact HA|apply exp_pos].
  - intros x y H1 H2 H3. unfold pd. rewrite !ecpl_factor.
    destruct (cut_step ec beta hi x y Hc Hb ltac:(lra) H2 H3) as [K1 K2].
    pose proof (pl_step A e0 alpha x y H0 ltac:(lra) ltac:(lra)) as PS.
    assert (PX : 0 < x * power_law x A e0 alpha) by (apply Rmult_lt_0_compat; [lra|apply pl_pos; exact HA]).
    assert (PR : 0 < Rpower (y / x) (1 - alpha)) by apply exp_pos.
    unfold Rminus. rewrite Rpower_plus. fold (1 - alpha).
    replace (y * (power_law y A e0 alpha * exp (- Rpower (y / ec) beta))) with (x * power_law x A e0 alpha * Rpower (y / x) (1 - alpha) * exp (- Rpower (y / ec) beta)) by (rewrite <- PS; ring).
    assert (PP : 0 < x * power_law x A e0 alpha * Rpower (y / x) (1 - alpha)) by (apply Rmult_lt_0_compat; assumption).
    split.
    + apply Rle_trans with (x * power_law x A e0 alpha * Rpower (y / x) (1 - alpha) * (exp (- Rpower (x / ec) beta) * Rpower (y / x) (- (beta * Rpower (hi / ec) beta)))); [right; ring|].
      apply Rmult_le_compat_l; lra.
    + apply Rle_trans with (x * power_law x A e0 alpha * Rpower (y / x) (1 - alpha) * exp (- Rpower (x / ec) beta)); [|right; ring].
      apply Rmult_le_compat_l; lra.
Qed.
Print Assumptions C110_cutoff.

(** ** Concrete cases of the hypotheses *)
Lemma power_law_density : forall A e0 alpha lo hi, 0 < A -> 0 < e0 -> 0 < lo -> continuous_density (fun E => power_law E A e0 alpha) lo hi.
Proof. intros A e0 alpha lo hi HA H0 Hlo x Hx. split; [apply continuity_pt_filterlim, cont_pl; lra|apply Rlt_le, pl_pos; exact HA]. Qed.
Example C110_example_density : density (fun E => E * power_law E 1 10 2) 1 1000 /\ 0 < RInt (fun E => E * power_law E 1 10 2) 1 1000.
Proof.
  assert (C : forall x, 1 <= x <= 1000 -> continuity_pt (fun E => E * power_law E 1 10 2) x /\ 0 < x * power_law x 1 10 2).
  { intros x Hx. assert (P : 0 < power_law x 1 10 2) by (apply pl_pos; lra). split; [|apply Rmult_lt_0_compat; lra].
    apply cont_mult; [apply cont_id|]. apply (power_law_density 1 10 2 1 1000); lra. }
  split.
  - split; [apply ex_RInt_cont; [lra|intros x Hx; apply C; exact Hx]|]. intros x Hx. apply Rlt_le, C. exact Hx.
  - apply RInt_gt_0; [lra|intros x Hx; apply C; lra|]. intros x Hx. apply continuity_pt_filterlim. apply C; lra.
Qed.
(** a 1 GHz-like photon from power-law electrons in a field of one unit; a 2.7 K
    and an anisotropic 3000 K seed; protons between 1.3 GeV and 100 GeV *)
Example C110_example_emission :
  (exists l, tends (fun nd => nth 0 (sy_spectrum (mkSy 1 1 1 1) 1 1 (fun E => power_law E 1 10 2) (gam 1 nd 2 2000) [1 / 10]) 0) l) /\
  (exists l, tends (fun nd => nth 1 (ic_spectrum 1 1 (fun E => power_law E 1 10 2) (gam 1 nd 2 2000) [Thermal (27 / 10) 1 None; Thermal 3000 2 (Some PI)] [1 / 10; 5]) 0) l) /\
  (exists v l, tends v l /\ forall nd, nth 0 (pion_spectrum (diffsigma (938272 / 10 ^ 6) Pythia8 true) 1 1 (fun E => power_law E 1 10 2) (Ep 1 nd (13 / 10) 100) [1]) None = Some (v nd)).
Proof.
  split; [|split].
  - eexists. apply (C110_synchrotron_continuous (mkSy 1 1 1 1)); try lra; try (repeat constructor; simpl; lra); try (simpl; lia).
    apply power_law_density; lra.
  - eexists. apply C110_inverse_compton_thermal; try lra; try (simpl; lia).
    + repeat constructor; lra.
    + apply power_law_density; lra.
    + constructor; [|constructor; [|constructor]]; split; try (do 3 eexists; reflexivity); simpl; repeat split; try lra; intros t Ht; inversion Ht. rewrite cos_PI. lra.
  - destruct (C110_pion (938272 / 10 ^ 6) Pythia8 true 1 1 (fun E => power_law E 1 10 2) (13 / 10) 100 [1] 0) as (v & T & X); try lra.
    + unfold proton. lra.
    + unfold Tth. lra.
    + apply power_law_density; lra.
    + simpl; lia.
    + repeat constructor; lra.
    + exists v. eexists. split; [exact T|exact X].
Qed.
