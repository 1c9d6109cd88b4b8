(** Property C111: several particle populations, more particles. *)
From Coq Require Import Reals ZArith List Lra Lia Sorted.
From Coquelicot Require Import Coquelicot.
From Verif Require Import SpectralModel SpectralProofs TrapzModel TrapzSpec TrapzProofs EnergyModel EnergyProofs ElectronModel ElectronProofs PionModel PionProofs PionProps RadiativeProps ConvProofs ConvProps ConvProps2 ConvPion ConvProps3 SuperProofs.
Import ListNotations.
Local Open Scope R_scope.

(** [total] has at least the particles of both populations. *)
Definition contains (total pd1 pd2 : R -> R) : Prop := forall E, 0 < E -> 0 <= pd1 E /\ 0 <= pd2 E /\ pd1 E + pd2 E <= total E.
(** (ratio of neighbouring grid points) ^ 2e-10, between 1 and 1.0000000005 for
    grids with at least 1 point per decade *)
Definition slack (nd lo hi : R) : R := Rpower (step nd lo hi) (2 / 10 ^ 10).

Lemma slack_window nd lo hi : slack nd lo hi = Rpower (step nd lo hi) (2 * window_eps).
Proof. reflexivity. Qed.

Lemma kernel_super unit nd lo hi K pd1 pd2 pd : 0 < unit -> 0 < lo -> lo < hi -> contains pd pd1 pd2 ->
  (forall g, In g (gam unit nd lo hi) -> 0 <= K g) ->
  let T := fun pd => trapz_loglog (map (fun g => pd (g * unit) * unit * K g) (gam unit nd lo hi)) (gam unit nd lo hi) in
  T pd1 + T pd2 <= slack nd lo hi * T pd.
Proof.
  intros Hu Hlo Hhi HC HK T. destruct (gam_facts unit nd lo hi Hu Hlo Hhi) as (G & _ & _ & RL & _ & _).
  rewrite slack_window. apply trapz_super; [exact G|exact RL|]. intros g Hg. specialize (HK g Hg).
  assert (0 < g) by (destruct G as [G _]; rewrite List.Forall_forall in G; apply G; exact Hg).
  destruct (HC (g * unit) ltac:(apply Rmult_lt_0_compat; assumption)) as (A & B & C).
  split; [|split].
  - apply Rmult_le_pos; [apply Rmult_le_pos; lra|exact HK].
  - apply Rmult_le_pos; [apply Rmult_le_pos; lra|exact HK].
  - rewrite <- !Rmult_plus_distr_r. apply Rmult_le_compat_r; [exact HK|]. apply Rmult_le_compat_r; lra.
Qed.

(** What the populations emit (or contain) separately is not more than what
    they emit together, up to the slack. *)
Theorem C111_energy_content : forall unit nd pd1 pd2 pd smin smax Emin Emax, 0 < unit ->
  let lo := bound Emin smin in let hi := bound Emax smax in
  0 < lo -> lo < hi -> contains pd pd1 pd2 ->
  let We := fun pd => compute_We unit nd pd smin smax Emin Emax in
  let Wp := fun pd => compute_Wp unit nd pd smin smax Emin Emax in
  We pd1 + We pd2 <= slack nd lo hi * We pd /\ Wp pd1 + Wp pd2 <= slack nd lo hi * Wp pd.
Proof.
  intros unit nd pd1 pd2 pd smin smax Emin Emax Hu lo hi Hlo Hhi HC We Wp.
  assert (X : forall p, We p = trapz_loglog (map (fun E => E * p E) (map (fun g => g * unit) (gam unit nd lo hi))) (map (fun g => g * unit) (gam unit nd lo hi))).
  { intros p. unfold We. rewrite We_bound. apply energy_eq. }
  assert (Y : forall p, Wp p = We p).
  { intros p. unfold We, Wp. rewrite We_bound, Wp_bound by assumption || (fold lo hi; lra). reflexivity. }
  rewrite !Y, !X. destruct (Es_facts unit nd lo hi Hu Hlo Hhi) as (G & _ & _ & RL & _). cbv zeta in G, RL.
  assert (Z : trapz_loglog (map (fun E => E * pd1 E) (map (fun g => g * unit) (gam unit nd lo hi))) (map (fun g => g * unit) (gam unit nd lo hi)) +
              trapz_loglog (map (fun E => E * pd2 E) (map (fun g => g * unit) (gam unit nd lo hi))) (map (fun g => g * unit) (gam unit nd lo hi)) <=
    slack nd lo hi * trapz_loglog (map (fun E => E * pd E) (map (fun g => g * unit) (gam unit nd lo hi))) (map (fun g => g * unit) (gam unit nd lo hi))).
  { rewrite slack_window. apply trapz_super; [exact G|exact RL|]. intros E HE. assert (P : 0 < E) by (destruct G as [G _]; rewrite List.Forall_forall in G; apply G; exact HE).
    destruct (HC E P) as (A & B & C). split; [apply Rmult_le_pos; lra|]. split; [apply Rmult_le_pos; lra|].
    rewrite <- Rmult_plus_distr_l. apply Rmult_le_compat_l; lra. }
  split; exact Z.
Qed.
Print Assumptions C111_energy_content.

Theorem C111_synchrotron : forall k B mec2 nd pd1 pd2 pd lo hi Es i, sy_ok k -> 0 < B -> 0 < mec2 -> 0 < lo -> lo < hi ->
  List.Forall (fun E => 0 < E) Es -> contains pd pd1 pd2 -> (i < length Es)%nat ->
  let S := fun pd => nth i (sy_spectrum k B mec2 pd (gam mec2 nd lo hi) Es) 0 in
  S pd1 + S pd2 <= slack nd lo hi * S pd.
Proof.
  intros k B mec2 nd pd1 pd2 pd lo hi Es i K HB Hm Hlo Hhi HE HC Hi S.
  assert (P : 0 < nth i Es 0) by (rewrite List.Forall_forall in HE; apply HE, nth_In; exact Hi).
  assert (X : forall p, S p = trapz_loglog (map (fun g => p (g * mec2) * mec2 * sy_kernel k B g (nth i Es 0)) (gam mec2 nd lo hi)) (gam mec2 nd lo hi)).
  { intros p. unfold S, sy_spectrum. rewrite nth_map_lt by exact Hi. rewrite nelec_kernel. reflexivity. }
  rewrite !X. apply kernel_super; try assumption. intros g Hg. destruct (gam_facts mec2 nd lo hi Hm Hlo Hhi) as ((G & _) & _).
  rewrite List.Forall_forall in G. apply Rlt_le, sy_kernel_pos; try assumption. apply G, Hg.
Qed.
Print Assumptions C111_synchrotron.

Theorem C111_inverse_compton : forall mec2 ar nd pd1 pd2 pd lo hi seeds Es i, 0 < mec2 -> 0 < ar -> 0 < lo -> lo < hi ->
  List.Forall seed_ok seeds -> List.Forall (fun E => 0 < E) Es -> contains pd pd1 pd2 -> (i < length Es)%nat ->
  let S := fun pd => nth i (ic_spectrum mec2 ar pd (gam mec2 nd lo hi) seeds Es) 0 in
  S pd1 + S pd2 <= slack nd lo hi * S pd.
Proof.
  intros mec2 ar nd pd1 pd2 pd lo hi seeds Es i Hm Ha Hlo Hhi HS HE HC Hi S.
  assert (P : 0 < nth i Es 0) by (rewrite List.Forall_forall in HE; apply HE, nth_In; exact Hi). set (E := nth i Es 0) in *.
  assert (X : forall p, S p = fold_right Rplus 0 (map (fun s => specic1 mec2 ar p (gam mec2 nd lo hi) s E) seeds)).
  { intros p. unfold S. rewrite ic_spectrum_map. rewrite nth_map_lt by exact Hi. reflexivity. }
  rewrite !X. clear X S. induction HS as [|s seeds H0 HS IH]; [simpl; lra|]. cbn [map fold_right].
  assert (Y : specic1 mec2 ar pd1 (gam mec2 nd lo hi) s E + specic1 mec2 ar pd2 (gam mec2 nd lo hi) s E <= slack nd lo hi * specic1 mec2 ar pd (gam mec2 nd lo hi) s E).
  { unfold specic1. rewrite !nelec_kernel.
    assert (F0 : 0 <= seed_factor ar s * (E / mec2) / E).
    { apply Rmult_le_pos; [apply Rmult_le_pos|apply Rlt_le, Rinv_0_lt_compat; lra].
      - destruct s as [T u th|]; cbn [seed_factor]; [|lra]. destruct H0 as (T0 & u0 & _). apply Rmult_le_pos; [exact u0|]. apply Rlt_le, Rinv_0_lt_compat, Rmult_lt_0_compat; [exact Ha|apply pow_lt; exact T0].
      - apply Rlt_le, div_pos; lra. }
    pose proof (kernel_super mec2 nd lo hi (fun g => seed_kernel (to_mec2 mec2 s) g (E / mec2)) pd1 pd2 pd Hm Hlo Hhi HC) as Q. cbv zeta in Q.
    assert (HK : forall g, In g (gam mec2 nd lo hi) -> 0 <= seed_kernel (to_mec2 mec2 s) g (E / mec2)).
    { intros g Hg. destruct (gam_facts mec2 nd lo hi Hm Hlo Hhi) as ((G & _) & _). rewrite List.Forall_forall in G.
      apply seed_kernel_nonneg; [apply to_mec2_ok; assumption|apply G, Hg|apply div_pos; lra]. }
    specialize (Q HK). apply (Rmult_le_compat_l _ _ _ F0) in Q. unfold Rdiv in *. lra. }
  lra.
Qed.
Print Assumptions C111_inverse_compton.

Theorem C111_pion : forall m_p hiE nuclear nhc GeV nd pd1 pd2 pd lo hi Egs i, proton m_p -> 0 <= nhc -> 0 < GeV ->
  (m_p + Tth) * GeV <= lo -> lo < hi -> List.Forall (fun E => 0 < E) Egs -> contains pd pd1 pd2 -> (i < length Egs)%nat ->
  let S := fun pd => nth i (pion_spectrum (diffsigma m_p hiE nuclear) nhc GeV pd (Ep GeV nd lo hi) Egs) None in
  exists v1 v2 v, S pd1 = Some v1 /\ S pd2 = Some v2 /\ S pd = Some v /\ v1 + v2 <= slack nd lo hi * v.
Proof.
  intros m_p hiE nuclear nhc GeV nd pd1 pd2 pd lo hi Egs i Hmp Hn HG Hlo Hhi HE HC Hi S.
  pose proof (mp_pos m_p Hmp) as PM. pose proof Tth_pos as PT. assert (L0 : 0 < lo) by nra.
  set (Eg := nth i Egs 0). assert (PE : 0 < Eg) by (rewrite List.Forall_forall in HE; apply HE, nth_In; exact Hi).
  assert (LL : m_p + Tth <= lo / GeV). { apply (Rmult_le_reg_r GeV); [exact HG|]. unfold Rdiv. rewrite Rmult_assoc, Rinv_l by lra. lra. }
  destruct (gam_facts GeV nd lo hi HG L0 Hhi) as (G & E1 & _).
  assert (GE : forall e, In e (gam GeV nd lo hi) -> m_p + Tth <= e) by (intros e Ie; pose proof (grid_ge_hd _ G e Ie) as B; rewrite E1 in B; lra).
  assert (X : forall p, S p = Some (nhc * trapz_loglog (map (fun g => p (g * GeV) * GeV * cross_section m_p hiE nuclear g Eg) (gam GeV nd lo hi)) (gam GeV nd lo hi))).
  { intros p. unfold S, pion_spectrum. rewrite Ep_same by (try assumption; lra). change (Ep_explicit GeV nd lo hi) with (gam GeV nd lo hi).
    erewrite nth_indep by (rewrite map_length; exact Hi).
    rewrite (map_nth (fun Eg => nmap (fun x => nhc * x) (ntrapz (map (fun q => nmul (diffsigma m_p hiE nuclear (fst q) Eg) (Some (snd q))) (combine (gam GeV nd lo hi) (J GeV p (gam GeV nd lo hi)))) (gam GeV nd lo hi))) Egs 0 i).
    fold Eg. rewrite pion_value by assumption. do 3 f_equal. apply map_ext. intros e. unfold pp_integrand. ring. }
  do 3 eexists. split; [apply X|]. split; [apply X|]. split; [apply X|].
  pose proof (kernel_super GeV nd lo hi (fun g => cross_section m_p hiE nuclear g Eg) pd1 pd2 pd HG L0 Hhi HC) as Q. cbv zeta in Q.
  assert (HK : forall g, In g (gam GeV nd lo hi) -> 0 <= cross_section m_p hiE nuclear g Eg).
  { intros g Hg. unfold cross_section. destruct (diffsigma_some m_p Hmp hiE nuclear g Eg) as (v & -> & V); [specialize (GE g Hg); lra|exact PE|exact V]. }
  specialize (Q HK). apply (Rmult_le_compat_l nhc) in Q; [lra|exact Hn].
Qed.
Print Assumptions C111_pion.

Lemma RInt_sum (f g : R -> R) a b : ex_RInt f a b -> ex_RInt g a b -> RInt (fun x => f x + g x) a b = RInt f a b + RInt g a b.
Proof. intros F G. exact (RInt_plus f g a b F G). Qed.

(** In the other direction: with slopes of both populations in [k1, k2], the sum
    of the contents is not exceeded by more than step^(2 (k2 - k1) + 2e-10). *)
Lemma slope_plus f g a b k1 k2 : slope_between f a b k1 k2 -> slope_between g a b k1 k2 -> slope_between (fun x => f x + g x) a b k1 k2.
Proof. intros F G x y A B C. destruct (F x y A B C), (G x y A B C). rewrite !Rmult_plus_distr_r. lra. Qed.
Theorem C111_upper : forall unit nd pd1 pd2 smin smax Emin Emax k1 k2, 0 < unit ->
  let lo := bound Emin smin in let hi := bound Emax smax in
  0 < lo -> lo < hi ->
  (forall E, lo <= E <= hi -> continuity_pt pd1 E /\ 0 < pd1 E) -> (forall E, lo <= E <= hi -> continuity_pt pd2 E /\ 0 < pd2 E) ->
  slope_between (fun E => E * pd1 E) lo hi k1 k2 -> slope_between (fun E => E * pd2 E) lo hi k1 k2 ->
  let W := fun pd => compute_We unit nd pd smin smax Emin Emax in
  W (fun E => pd1 E + pd2 E) <= Rpower (step nd lo hi) (2 * (k2 - k1) + 2 / 10 ^ 10) * (W pd1 + W pd2).
Proof.
  intros unit nd pd1 pd2 smin smax Emin Emax k1 k2 Hu lo hi Hlo Hhi C1 C2 S1 S2 W.
  assert (C3 : forall E, lo <= E <= hi -> continuity_pt (fun E => pd1 E + pd2 E) E /\ 0 < pd1 E + pd2 E).
  { intros E HE. destruct (C1 E HE), (C2 E HE). split; [apply cont_plus; assumption|lra]. }
  assert (S3 : slope_between (fun E => E * (pd1 E + pd2 E)) lo hi k1 k2).
  { intros x y A B C. pose proof (slope_plus _ _ _ _ _ _ S1 S2 x y A B C). cbv beta in H. rewrite !Rmult_plus_distr_l. exact H. }
  destruct (C110_relative_error unit nd pd1 smin smax Emin Emax k1 k2 Hu Hlo Hhi C1 S1) as [[A1 _] _].
  destruct (C110_relative_error unit nd pd2 smin smax Emin Emax k1 k2 Hu Hlo Hhi C2 S2) as [[A2 _] _].
  destruct (C110_relative_error unit nd _ smin smax Emin Emax k1 k2 Hu Hlo Hhi C3 S3) as [[_ A3] _]. cbv zeta in A1, A2, A3.
  fold lo hi in A1, A2, A3. fold (step nd lo hi) in A1, A2, A3. fold (W pd1) in A1. fold (W pd2) in A2. fold (W (fun E => pd1 E + pd2 E)) in A3.
  replace (2 * (k2 - k1) + 2 / 10 ^ 10) with ((k2 - k1 + / 10 ^ 10) + (k2 - k1 + / 10 ^ 10)) by (unfold Rdiv; ring). rewrite Rpower_plus.
  set (w := Rpower (step nd lo hi) (k2 - k1 + / 10 ^ 10)) in *. assert (PW : 0 < w) by apply exp_pos.
  assert (I1 : forall p, (forall E, lo <= E <= hi -> continuity_pt p E /\ 0 < p E) -> ex_RInt (fun E => E * p E) lo hi).
  { intros p C. apply ex_RInt_cont; [lra|]. intros x Hx. apply cont_mult; [apply cont_id|apply C; exact Hx]. }
  assert (RS : RInt (fun E => E * (pd1 E + pd2 E)) lo hi = RInt (fun E => E * pd1 E) lo hi + RInt (fun E => E * pd2 E) lo hi).
  { rewrite <- (RInt_sum _ _ _ _ (I1 _ C1) (I1 _ C2)). apply RInt_ext. intros x _. cbv beta. lra. }
  rewrite RS in A3. apply Rle_trans with (1 := A3). rewrite Rmult_assoc. apply Rmult_le_compat_l; [lra|]. lra.
Qed.
Print Assumptions C111_upper.

(** ... and with ever finer grids the emission is additive. *)
Lemma tends_unique_0 f g h a b c : tends f a -> tends g b -> tends h c -> c = a + b -> tends (fun nd => h nd - (f nd + g nd)) 0.
Proof.
  intros F G H E. eapply tends_ext; [|replace 0 with (c + -1 * (a + b)) by (rewrite E; ring); apply (tends_plus h (fun nd => -1 * (f nd + g nd))); [exact H|apply tends_scale, tends_plus; assumption]].
  intros x. cbv beta. ring.
Qed.
Theorem C111_limit : forall k B mec2 pd1 pd2 lo hi Es i, sy_ok k -> 0 < B -> 0 < mec2 -> 0 < lo -> lo < hi ->
  (i < length Es)%nat -> List.Forall (fun E => 0 < E) Es -> continuous_density pd1 lo hi -> continuous_density pd2 lo hi ->
  let S := fun pd nd => nth i (sy_spectrum k B mec2 pd (gam mec2 nd lo hi) Es) 0 in
  tends (fun nd => S (fun E => pd1 E + pd2 E) nd - (S pd1 nd + S pd2 nd)) 0.
Proof.
  intros k B mec2 pd1 pd2 lo hi Es i K HB Hm Hlo Hhi Hi HE D1 D2 S.
  assert (D3 : continuous_density (fun E => pd1 E + pd2 E) lo hi).
  { intros x Hx. destruct (D1 x Hx), (D2 x Hx). split; [apply cont_plus; assumption|lra]. }
  eapply tends_unique_0; [apply C110_synchrotron_continuous; eassumption|apply C110_synchrotron_continuous; eassumption|apply C110_synchrotron_continuous; eassumption|].
  assert (P : 0 < nth i Es 0) by (rewrite List.Forall_forall in HE; apply HE, nth_In; exact Hi).
  assert (I1 : forall p, continuous_density p lo hi -> ex_RInt (sy_integrand k B mec2 p (nth i Es 0)) (lo / mec2) (hi / mec2)).
  { intros p D. apply (kernel_density mec2 p lo hi (fun g => sy_kernel k B g (nth i Es 0))); try assumption.
    intros g Hg. assert (0 < lo / mec2) by (apply div_pos; lra). split; [apply sy_kernel_cont; try assumption; lra|]. apply Rlt_le, sy_kernel_pos; try assumption; lra. }
  rewrite <- (RInt_sum _ _ _ _ (I1 _ D1) (I1 _ D2)). apply RInt_ext. intros x _. unfold sy_integrand. cbv beta. lra.
Qed.
Print Assumptions C111_limit.
