(** Property C110, continued: emission spectra. *)
From Coq Require Import Reals ZArith List Lra Lia Sorted.
From Coquelicot Require Import Coquelicot.
From Verif Require Import SpectralModel SpectralProofs TrapzModel TrapzSpec TrapzProofs EnergyModel EnergyProofs ElectronModel ElectronProofs RadiativeProps ConvProofs ConvProps.
Import ListNotations.
Local Open Scope R_scope.

(** [f] of the number of points per decade tends to [l] *)
Definition tends (f : R -> R) (l : R) : Prop :=
  forall eps, 0 < eps -> exists N, forall nd, N <= nd -> Rabs (f nd - l) <= eps.

Lemma tends_ext f g l : (forall x, f x = g x) -> tends f l -> tends g l.
Proof. intros E H eps He. destruct (H eps He) as (N & HN). exists N. intros nd Hn. rewrite <- E. auto. Qed.
Lemma tends_const c : tends (fun _ => c) c.
Proof. intros eps He. exists 0. intros. rewrite Rminus_eq_0, Rabs_R0. lra. Qed.
Lemma tends_plus f g l m : tends f l -> tends g m -> tends (fun x => f x + g x) (l + m).
Proof.
  intros Hf Hg eps He. destruct (Hf (eps / 2) ltac:(lra)) as (N1 & H1). destruct (Hg (eps / 2) ltac:(lra)) as (N2 & H2).
  exists (Rmax N1 N2). intros nd Hn. pose proof (Rmax_l N1 N2). pose proof (Rmax_r N1 N2).
  specialize (H1 nd ltac:(lra)). specialize (H2 nd ltac:(lra)). apply Rabs_le_between in H1. apply Rabs_le_between in H2. apply Rabs_le. lra.
Qed.
Lemma tends_scale c f l : tends f l -> tends (fun x => c * f x) (c * l).
Proof.
  intros Hf eps He. assert (0 <= Rabs c) by apply Rabs_pos. destruct (Hf (eps / (Rabs c + 1)) ltac:(apply div_pos; lra)) as (N1 & H1).
  exists N1. intros nd Hn. specialize (H1 nd Hn). rewrite <- Rmult_minus_distr_l, Rabs_mult.
  apply Rle_trans with (Rabs c * (eps / (Rabs c + 1))); [apply Rmult_le_compat_l; assumption|].
  apply Rle_trans with ((Rabs c + 1) * (eps / (Rabs c + 1))); [|right; field; lra].
  apply Rmult_le_compat_r; [apply Rlt_le, div_pos; lra|lra].
Qed.

Lemma nth_map_lt (f : R -> R) l i : (i < length l)%nat -> nth i (map f l) 0 = f (nth i l 0).
Proof. intros H. rewrite (nth_indep _ 0 (f 0)) by (rewrite map_length; exact H). apply map_nth. Qed.

Lemma kernel_tends mec2 pd lo hi K : 0 < mec2 -> 0 < lo -> lo < hi ->
  density (fun g => pd (g * mec2) * mec2 * K g) (lo / mec2) (hi / mec2) ->
  tends (fun nd => trapz_loglog (mul2 (nelec mec2 pd (gam mec2 nd lo hi)) (map K (gam mec2 nd lo hi))) (gam mec2 nd lo hi))
        (RInt (fun g => pd (g * mec2) * mec2 * K g) (lo / mec2) (hi / mec2)).
Proof.
  intros Hm Hlo Hhi HD eps He.
  destruct (grid_converges (fun nd => gam mec2 nd lo hi) (fun g => pd (g * mec2) * mec2 * K g) (lo / mec2) (hi / mec2) lo hi Hlo Hhi)
    with (eps := eps) as (N2 & H2).
  - apply div_pos; lra.
  - apply Rmult_lt_compat_r; [apply Rinv_0_lt_compat; lra|lra].
  - exact HD.
  - intros nd. destruct (gam_facts mec2 nd lo hi Hm Hlo Hhi) as (G & E1 & E2 & _ & F & _). auto.
  - exact He.
  - exists N2. intros nd Hn. rewrite nelec_kernel. apply H2. exact Hn.
Qed.

(** ** Synchrotron *)
(** electrons per Lorentz factor times the emissivity of one electron *)
Definition sy_integrand (k : sy_consts) (B mec2 : R) (pd : R -> R) (E g : R) : R := pd (g * mec2) * mec2 * sy_kernel k B g E.

Theorem C110_synchrotron : forall k B mec2 pd lo hi Es i, 0 < mec2 -> 0 < lo -> lo < hi -> (i < length Es)%nat ->
  density (sy_integrand k B mec2 pd (nth i Es 0)) (lo / mec2) (hi / mec2) ->
  tends (fun nd => nth i (sy_spectrum k B mec2 pd (gam mec2 nd lo hi) Es) 0)
        (RInt (sy_integrand k B mec2 pd (nth i Es 0)) (lo / mec2) (hi / mec2)).
Proof.
  intros k B mec2 pd lo hi Es i Hm Hlo Hhi Hi HD.
  eapply tends_ext; [|apply (kernel_tends mec2 pd lo hi (fun g => sy_kernel k B g (nth i Es 0)) Hm Hlo Hhi HD)].
  intros nd. unfold sy_spectrum. rewrite nth_map_lt by exact Hi. reflexivity.
Qed.
Print Assumptions C110_synchrotron.

(** ... in particular for every continuous particle distribution *)
Definition continuous_density (pd : R -> R) (a b : R) : Prop := forall x, a <= x <= b -> continuity_pt pd x /\ 0 <= pd x.

Lemma Gtilde_cont x : 0 < x -> continuity_pt Gtilde x.
Proof.
  intros H. assert (CB : continuity_pt cbrt x).
  { apply continuity_pt_locally_ext with (f := fun y => exp (1 / 3 * ln y)) (a := x); [exact H| |].
    - intros y Hy. apply Rabs_def2 in Hy. unfold cbrt. destruct (Rlt_dec y 0); [lra|]. destruct (Req_EM_T y 0); [lra|]. reflexivity.
    - apply continuity_pt_filterlim. apply (ex_derive_continuous (fun y => exp (1 / 3 * ln y))). auto_derive. exact H. }
  assert (CP : 0 < cbrt x) by (unfold cbrt; destruct (Rlt_dec x 0); [lra|]; destruct (Req_EM_T x 0); [lra|]; apply exp_pos).
  unfold Gtilde.
  apply continuity_pt_filterlim.
  assert (CC : continuous cbrt x) by (apply continuity_pt_filterlim; exact CB).
  apply (continuous_mult (fun x => 1808 / 1000 * cbrt x / sqrt (1 + 34 / 10 * cbrt x ^ 2) * ((1 + 221 / 100 * cbrt x ^ 2 + 347 / 1000 * cbrt x ^ 4) / (1 + 1353 / 1000 * cbrt x ^ 2 + 217 / 1000 * cbrt x ^ 4))) (fun x => exp (- x))).
  - apply (continuous_comp cbrt (fun c => 1808 / 1000 * c / sqrt (1 + 34 / 10 * c ^ 2) * ((1 + 221 / 100 * c ^ 2 + 347 / 1000 * c ^ 4) / (1 + 1353 / 1000 * c ^ 2 + 217 / 1000 * c ^ 4)))).
    + exact CC.
    + set (c := cbrt x) in *.
      assert (0 < c ^ 2) by (apply pow_lt; assumption). assert (0 < c ^ 4) by (apply pow_lt; assumption).
      assert (0 < sqrt (1 + 34 / 10 * c ^ 2)) by (apply sqrt_lt_R0; lra).
      apply (ex_derive_continuous (fun c : R => 1808 / 1000 * c / sqrt (1 + 34 / 10 * c ^ 2) * ((1 + 221 / 100 * c ^ 2 + 347 / 1000 * c ^ 4) / (1 + 1353 / 1000 * c ^ 2 + 217 / 1000 * c ^ 4)))).
      auto_derive. simpl in *. repeat split; try lra.
  - apply (ex_derive_continuous (fun x => exp (- x))). auto_derive. exact I.
Qed.
Lemma sy_kernel_cont k B E g : sy_ok k -> 0 < B -> 0 < E -> 0 < g -> continuity_pt (fun g => sy_kernel k B g E) g.
Proof.
  intros K HB HE Hg. unfold sy_kernel. apply (continuity_pt_mult (fun _ => CS1 k B E) (fun g => Gtilde (E / Ecrit k B g))).
  - apply continuity_pt_const. intros ? ?. reflexivity.
  - apply (continuity_pt_comp (fun g => E / Ecrit k B g) Gtilde).
    + apply continuity_pt_filterlim. pose proof (Ecrit_pos k B g K HB Hg) as P. unfold Ecrit in *.
      destruct K as (K1 & K2 & K3 & K4). apply (ex_derive_continuous (fun g => E / (3 * sy_e k * sy_hbar k * B * g ^ 2 / (2 * (sy_me k * sy_c k))))).
      auto_derive. apply Rgt_not_eq. unfold Rgt. exact P.
    + apply Gtilde_cont. apply div_pos; [assumption|]. apply Ecrit_pos; assumption.
Qed.
Lemma kernel_density mec2 pd lo hi (K : R -> R) : 0 < mec2 -> 0 < lo -> lo < hi -> continuous_density pd lo hi ->
  (forall g, lo / mec2 <= g -> continuity_pt K g /\ 0 <= K g) ->
  density (fun g => pd (g * mec2) * mec2 * K g) (lo / mec2) (hi / mec2).
Proof.
  intros Hm Hlo Hhi HD HK.
  assert (X : forall g, lo / mec2 <= g <= hi / mec2 -> continuity_pt (fun g => pd (g * mec2) * mec2 * K g) g /\ 0 <= pd (g * mec2) * mec2 * K g).
  { intros g [Hg1 Hg2].
    assert (G1 : lo <= g * mec2). { apply (Rmult_le_compat_r _ _ _ (Rlt_le _ _ Hm)) in Hg1. unfold Rdiv in Hg1. rewrite Rmult_assoc, Rinv_l in Hg1 by lra. lra. }
    assert (G2 : g * mec2 <= hi). { apply (Rmult_le_compat_r _ _ _ (Rlt_le _ _ Hm)) in Hg2. unfold Rdiv in Hg2. rewrite Rmult_assoc, Rinv_l in Hg2 by lra. lra. }
    destruct (HD (g * mec2) ltac:(lra)) as [C P0]. destruct (HK g Hg1) as [C2 P2]. split.
    + apply (continuity_pt_mult (fun g => pd (g * mec2) * mec2) K); [|exact C2].
      apply (continuity_pt_mult (fun g => pd (g * mec2)) (fun _ => mec2)); [|apply continuity_pt_const; intros ? ?; reflexivity].
      apply (continuity_pt_comp (fun g => g * mec2) pd); [|exact C]. apply derivable_continuous_pt. apply derivable_pt_mult; [apply derivable_pt_id|apply derivable_pt_const].
    + apply Rmult_le_pos; [apply Rmult_le_pos; lra|exact P2]. }
  split; [|intros g Hg; apply X; exact Hg].
  apply ex_RInt_cont; [|intros g Hg; apply X; exact Hg]. apply Rmult_le_compat_r; [apply Rlt_le, Rinv_0_lt_compat; lra|lra].
Qed.
Theorem C110_synchrotron_continuous : forall k B mec2 pd lo hi Es i, sy_ok k -> 0 < B -> 0 < mec2 -> 0 < lo -> lo < hi ->
  (i < length Es)%nat -> List.Forall (fun E => 0 < E) Es -> continuous_density pd lo hi ->
  tends (fun nd => nth i (sy_spectrum k B mec2 pd (gam mec2 nd lo hi) Es) 0)
        (RInt (sy_integrand k B mec2 pd (nth i Es 0)) (lo / mec2) (hi / mec2)).
Proof.
  intros k B mec2 pd lo hi Es i K HB Hm Hlo Hhi Hi HE HD. apply C110_synchrotron; try assumption.
  assert (P : 0 < nth i Es 0) by (rewrite List.Forall_forall in HE; apply HE, nth_In; exact Hi).
  apply (kernel_density mec2 pd lo hi (fun g => sy_kernel k B g (nth i Es 0))); try assumption.
  intros g Hg. assert (0 < lo / mec2) by (apply div_pos; lra). split; [apply sy_kernel_cont; try assumption; lra|]. apply Rlt_le, sy_kernel_pos; try assumption; lra.
Qed.
Print Assumptions C110_synchrotron_continuous.

(** ** Inverse Compton *)
Definition ic_integrand (mec2 : R) (pd : R -> R) (s : seed) (E g : R) : R := pd (g * mec2) * mec2 * seed_kernel (to_mec2 mec2 s) g (E / mec2).
Definition ic_exact (mec2 ar : R) (pd : R -> R) (lo hi E : R) (s : seed) : R :=
  seed_factor ar s * (E / mec2) * RInt (ic_integrand mec2 pd s E) (lo / mec2) (hi / mec2) / E.

Theorem C110_inverse_compton : forall mec2 ar pd lo hi seeds Es i, 0 < mec2 -> 0 < lo -> lo < hi -> (i < length Es)%nat ->
  List.Forall (fun s => density (ic_integrand mec2 pd s (nth i Es 0)) (lo / mec2) (hi / mec2)) seeds ->
  tends (fun nd => nth i (ic_spectrum mec2 ar pd (gam mec2 nd lo hi) seeds Es) 0)
        (fold_right Rplus 0 (map (ic_exact mec2 ar pd lo hi (nth i Es 0)) seeds)).
Proof.
  intros mec2 ar pd lo hi seeds Es i Hm Hlo Hhi Hi HD. set (E := nth i Es 0) in *.
  apply tends_ext with (fun nd => fold_right Rplus 0 (map (fun s => specic1 mec2 ar pd (gam mec2 nd lo hi) s E) seeds)).
  { intros nd. rewrite ic_spectrum_map. rewrite nth_map_lt by exact Hi. reflexivity. }
  induction HD as [|s seeds HS HF IH]; [exact (tends_const 0)|]. cbn [map fold_right].
  apply (tends_plus (fun nd => specic1 mec2 ar pd (gam mec2 nd lo hi) s E)); [|exact IH].
  unfold ic_exact. replace (seed_factor ar s * (E / mec2) * RInt (ic_integrand mec2 pd s E) (lo / mec2) (hi / mec2) / E)
    with (seed_factor ar s * (E / mec2) / E * RInt (ic_integrand mec2 pd s E) (lo / mec2) (hi / mec2)) by (unfold Rdiv; ring).
  eapply tends_ext; [|apply (tends_scale (seed_factor ar s * (E / mec2) / E)); apply (kernel_tends mec2 pd lo hi (fun g => seed_kernel (to_mec2 mec2 s) g (E / mec2)) Hm Hlo Hhi HS)].
  intros nd. unfold specic1, Rdiv. cbv beta. ring.
Qed.
Print Assumptions C110_inverse_compton.

(** ... in particular for thermal seeds and every continuous distribution of
    electrons above their rest energy: the kernels are continuous, also where
    the electron energy reaches the photon energy. *)
Lemma cont_of_derive (f : R -> R) x : ex_derive f x -> continuity_pt f x.
Proof. intros H. apply continuity_pt_filterlim. apply (ex_derive_continuous f). exact H. Qed.
Lemma cont_locally f h x d : 0 < d -> (forall y, Rabs (y - x) < d -> h y = f y) -> continuity_pt f x -> continuity_pt h x.
Proof. intros Hd H C. apply continuity_pt_locally_ext with (f := f) (a := d); [exact Hd| |exact C]. intros y Hy. symmetry. apply H. exact Hy. Qed.
(** a function vanishing on one side and bounded linearly on the other *)
Lemma cont_linear h x K d : 0 < d -> 0 <= K -> h x = 0 -> (forall y, Rabs (y - x) < d -> Rabs (h y) <= K * Rabs (y - x)) -> continuity_pt h x.
Proof.
  intros Hd HK E H eps He. exists (Rmin d (eps / (K + 1))). split; [apply Rmin_glb_lt; [exact Hd|apply div_pos; lra]|].
  intros y [_ Hy]. simpl in *; unfold R_dist in *. rewrite E, Rminus_0_r.
  assert (Y1 : Rabs (y - x) < d) by (apply Rlt_le_trans with (1 := Hy); apply Rmin_l).
  assert (Y2 : Rabs (y - x) < eps / (K + 1)) by (apply Rlt_le_trans with (1 := Hy); apply Rmin_r).
  apply Rle_lt_trans with (1 := H y Y1). apply Rle_lt_trans with (K * (eps / (K + 1))).
  - apply Rmult_le_compat_l; lra.
  - apply Rlt_le_trans with ((K + 1) * (eps / (K + 1))); [|right; field; lra]. assert (0 < eps / (K + 1)) by (apply div_pos; lra). nra.
Qed.

Lemma G34_cont x alpha a beta b c : 0 < x -> 0 < a -> 0 < b -> 0 < c -> continuity_pt (fun x => G34 x alpha a beta b c) x.
Proof.
  intros. apply cont_of_derive. unfold G34, Rpower. pose proof pi26_pos.
  pose proof (exp_pos (beta * ln x)). pose proof (exp_pos (alpha * ln x)).
  assert (0 < 1 + b * exp (beta * ln x)) by nra.
  assert (0 < a * exp (alpha * ln x) / (1 + b * exp (beta * ln x))) by (apply div_pos; nra).
  assert (0 < c * x) by nra.
  auto_derive. repeat split; try lra; try (apply Rgt_not_eq; unfold Rgt, Rdiv in *; nra).
Qed.
Lemma G12_cont x alpha a beta b : 0 < x -> 0 < a -> 0 < b -> continuity_pt (fun x => G12 x alpha a beta b) x.
Proof.
  intros. apply cont_of_derive. unfold G12, Rpower. pose proof pi26_pos.
  pose proof (exp_pos (beta * ln x)). pose proof (exp_pos (alpha * ln x)).
  assert (0 < 1 + b * exp (beta * ln x)) by nra.
  assert (0 < a * exp (alpha * ln x) / (1 + b * exp (beta * ln x))) by (apply div_pos; nra).
  auto_derive. repeat split; try lra; try (apply Rgt_not_eq; unfold Rgt, Rdiv in *; nra).
Qed.
Lemma g_le_1 a x alpha b beta : 0 < a -> 0 < b -> 1 / (a * Rpower x alpha / (1 + b * Rpower x beta) + 1) <= 1.
Proof.
  intros. pose proof (Rpower_pos x alpha). pose proof (Rpower_pos x beta).
  assert (0 < a * Rpower x alpha / (1 + b * Rpower x beta)) by (apply div_pos; nra).
  set (y := a * Rpower x alpha / (1 + b * Rpower x beta)) in *. apply (Rmult_le_reg_r (y + 1)); [lra|]. unfold Rdiv. rewrite Rmult_assoc, Rinv_l by lra. lra.
Qed.
Lemma pi26_ge1 : 1 <= PI ^ 2 / 6.
Proof. pose proof PI2_3_2 as H. assert (3 < PI) by lra. assert (9 <= PI ^ 2) by (simpl; nra). lra. Qed.
Lemma G34_le x alpha a beta b c : 0 < x -> 0 < a -> 0 < b -> 0 < c -> G34 x alpha a beta b c <= PI ^ 2 / 6 * exp (- x).
Proof.
  intros Hx Ha Hb Hc. unfold G34. pose proof (g_le_1 a x alpha b beta Ha Hb) as G1. pose proof (g_pos a x alpha b beta Ha Hb) as G0.
  set (g := 1 / _) in *. pose proof (exp_pos (- x)) as EP. pose proof pi26_ge1 as P1. set (p := PI ^ 2 / 6) in *.
  assert (0 < c * x) by nra. assert (D : 0 < 1 + p * c * x) by nra.
  assert (T : 0 < (1 + c * x) / (1 + p * c * x) <= 1).
  { split; [apply div_pos; lra|]. apply (Rmult_le_reg_r (1 + p * c * x)); [lra|]. unfold Rdiv. rewrite Rmult_assoc, Rinv_l by lra. nra. }
  set (t := (1 + c * x) / (1 + p * c * x)) in *. assert (0 < p * exp (- x)) by nra.
  replace (p * t * exp (- x) * g) with (p * exp (- x) * (t * g)) by ring.
  assert (t * g <= 1) by nra. nra.
Qed.
Lemma G12_le x alpha a beta b : 0 < x -> 0 < a -> 0 < b -> G12 x alpha a beta b <= (PI ^ 2 / 6 + x) * exp (- x).
Proof.
  intros Hx Ha Hb. unfold G12. pose proof (g_le_1 a x alpha b beta Ha Hb) as G1. pose proof (g_pos a x alpha b beta Ha Hb) as G0.
  set (g := 1 / _) in *. pose proof (exp_pos (- x)) as EP. pose proof pi26_ge1 as P1. set (p := PI ^ 2 / 6) in *.
  assert (0 < (p + x) * exp (- x)) by nra. nra.
Qed.
(** exp(-x) falls faster than 1/x, 1/x^2, 1/x^3 *)
Lemma exp_cube x : exp x = exp (x / 3) ^ 3.
Proof. simpl. rewrite Rmult_1_r, <- !exp_plus. apply (f_equal exp). field. Qed.
Lemma exp_powers x : 0 < x -> exp (- x) <= / x /\ exp (- x) <= 3 / x ^ 2 /\ exp (- x) <= 27 / x ^ 3.
Proof.
  intros H. rewrite exp_Ropp. pose proof (exp_ge_1p (x / 3)) as L.
  assert (C : (1 + x / 3) ^ 3 <= exp x) by (rewrite exp_cube; apply pow_incr; lra).
  assert (0 < x ^ 2) by (apply pow_lt; exact H). assert (0 < x ^ 3) by (apply pow_lt; exact H).
  replace ((1 + x / 3) ^ 3) with (1 + x + x ^ 2 / 3 + x ^ 3 / 27) in C by (simpl; field).
  split; [apply Rinv_le_contravar; lra|]. split.
  - replace (3 / x ^ 2) with (/ (x ^ 2 / 3)) by (field; lra). apply Rinv_le_contravar; lra.
  - replace (27 / x ^ 3) with (/ (x ^ 3 / 27)) by (field; lra). apply Rinv_le_contravar; lra.
Qed.

(** the common form of both thermal kernels *)
Definition planck_form (A c gamma : R) (G1 G2 : R -> R) (e : R) : R :=
  if in_range gamma e then
    let z := gamma / e in let x := z / (1 - z) / (c * e) in A / e ^ 2 * (z ^ 2 / (2 * (1 - z)) * G1 x + G2 x)
  else 0.
Definition good_G (G : R -> R) : Prop := forall x, 0 < x -> continuity_pt G x /\ 0 <= G x <= (PI ^ 2 / 6 + x) * exp (- x).
Lemma planck_cont A c gamma G1 G2 e0 : 0 < A -> 0 < c -> 0 < gamma -> 1 < e0 -> good_G G1 -> good_G G2 ->
  continuity_pt (planck_form A c gamma G1 G2) e0.
Proof.
  intros HA Hc Hg He H1 H2. destruct (Rtotal_order gamma e0) as [L|[L|L]].
  - (* above: smooth *)
    apply (cont_locally (fun e => let z := gamma / e in let x := z / (1 - z) / (c * e) in A / e ^ 2 * (z ^ 2 / (2 * (1 - z)) * G1 x + G2 x)) _ e0 (Rmin (e0 - gamma) (e0 - 1))).
    { apply Rmin_glb_lt; lra. }
    { intros y Hy. pose proof (Rmin_l (e0 - gamma) (e0 - 1)). pose proof (Rmin_r (e0 - gamma) (e0 - 1)). apply Rabs_def2 in Hy.
      unfold planck_form. rewrite in_range_iff by lra. reflexivity. }
    cbv zeta. destruct (z_range gamma e0 Hg L) as [Z1 Z2].
    assert (X : 0 < gamma / e0 / (1 - gamma / e0) / (c * e0)).
    { apply div_pos; [apply div_pos; lra|]. apply Rmult_lt_0_compat; lra. }
    assert (CX : continuity_pt (fun e => gamma / e / (1 - gamma / e) / (c * e)) e0).
    { apply cont_of_derive. auto_derive. repeat split; try lra; try (apply Rgt_not_eq; unfold Rgt, Rdiv in *; nra). }
    apply (continuity_pt_mult (fun e => A / e ^ 2) (fun e => (gamma / e) ^ 2 / (2 * (1 - gamma / e)) * G1 (gamma / e / (1 - gamma / e) / (c * e)) + G2 (gamma / e / (1 - gamma / e) / (c * e)))).
    { apply cont_of_derive. auto_derive. apply Rgt_not_eq. unfold Rgt. nra. }
    apply (continuity_pt_plus (fun e => (gamma / e) ^ 2 / (2 * (1 - gamma / e)) * G1 (gamma / e / (1 - gamma / e) / (c * e))) (fun e => G2 (gamma / e / (1 - gamma / e) / (c * e)))).
    + apply (continuity_pt_mult (fun e => (gamma / e) ^ 2 / (2 * (1 - gamma / e))) (fun e => G1 (gamma / e / (1 - gamma / e) / (c * e)))).
      * apply cont_of_derive. auto_derive. repeat split; try lra; try (apply Rgt_not_eq; unfold Rgt, Rdiv in *; nra).
      * apply (continuity_pt_comp (fun e => gamma / e / (1 - gamma / e) / (c * e)) G1); [exact CX|apply H1; exact X].
    + apply (continuity_pt_comp (fun e => gamma / e / (1 - gamma / e) / (c * e)) G2); [exact CX|apply H2; exact X].
  - (* at the photon energy *)
    subst e0. pose proof pi26_pos as P. set (p := PI ^ 2 / 6) in *.
    set (M := (3 * p + 27) / 2 * c ^ 2 * (gamma + 1) + (p + 3) * c * (gamma + 1) / gamma).
    assert (C2 : 0 < c ^ 2) by (apply pow_lt; exact Hc). assert (G2p : 0 < gamma ^ 2) by (apply pow_lt; exact Hg).
    assert (HM : 0 < M). { unfold M. apply Rplus_lt_0_compat; [apply Rmult_lt_0_compat; nra|]. apply div_pos; [|exact Hg]. repeat apply Rmult_lt_0_compat; lra. }
    apply (cont_linear _ gamma (A / gamma ^ 2 * M) 1); [lra| |unfold planck_form; rewrite in_range_false by lra; reflexivity|].
    { apply Rlt_le, Rmult_lt_0_compat; [apply div_pos; assumption|exact HM]. }
    intros y Hy. apply Rabs_def2 in Hy. destruct (Rle_or_lt y gamma) as [Y|Y].
    { unfold planck_form. rewrite in_range_false by lra. rewrite Rabs_R0. apply Rmult_le_pos; [apply Rlt_le, Rmult_lt_0_compat; [apply div_pos; assumption|exact HM]|apply Rabs_pos]. }
    unfold planck_form. rewrite in_range_iff by lra. cbv zeta. destruct (z_range gamma y Hg Y) as [Z1 Z2].
    assert (X : 0 < gamma / y / (1 - gamma / y) / (c * y)).
    { apply div_pos; [apply div_pos; lra|]. apply Rmult_lt_0_compat; lra. }
    destruct (H1 _ X) as (_ & A1 & A2). destruct (H2 _ X) as (_ & B1 & B2).
    destruct (exp_powers _ X) as (E1 & E2 & E3). set (x := gamma / y / (1 - gamma / y) / (c * y)) in *. fold p in A2, B2.
    assert (X2 : 0 < x ^ 2) by (apply pow_lt; exact X). assert (X3 : 0 < x ^ 3) by (apply pow_lt; exact X).
    assert (U1 : (p + x) * exp (- x) <= (3 * p + 27) / x ^ 2).
    { replace ((3 * p + 27) / x ^ 2) with (p * (3 / x ^ 2) + x * (27 / x ^ 3)) by (field; lra).
      rewrite Rmult_plus_distr_r. apply Rplus_le_compat; apply Rmult_le_compat_l; lra. }
    assert (U2 : (p + x) * exp (- x) <= (p + 3) / x).
    { replace ((p + 3) / x) with (p * / x + x * (3 / x ^ 2)) by (field; lra).
      rewrite Rmult_plus_distr_r. apply Rplus_le_compat; apply Rmult_le_compat_l; lra. }
    assert (Q : 0 < (gamma / y) ^ 2 / (2 * (1 - gamma / y))) by (apply div_pos; [apply pow_lt; exact Z1|lra]).
    assert (V : (gamma / y) ^ 2 / (2 * (1 - gamma / y)) * G1 x + G2 x <= (y - gamma) * M).
    { apply Rle_trans with ((gamma / y) ^ 2 / (2 * (1 - gamma / y)) * ((3 * p + 27) / x ^ 2) + (p + 3) / x).
      - apply Rplus_le_compat; [apply Rmult_le_compat_l|]; lra.
      - replace ((gamma / y) ^ 2 / (2 * (1 - gamma / y)) * ((3 * p + 27) / x ^ 2) + (p + 3) / x)
          with ((y - gamma) * ((3 * p + 27) / 2 * c ^ 2 * y + (p + 3) * c * y / gamma)).
        2:{ unfold x. field. repeat split; try lra. }
        apply Rmult_le_compat_l; [lra|]. unfold M. apply Rplus_le_compat.
        + apply Rmult_le_compat_l; [nra|lra].
        + unfold Rdiv. apply Rmult_le_compat_r; [apply Rlt_le, Rinv_0_lt_compat; exact Hg|]. apply Rmult_le_compat_l; [nra|lra]. }
    assert (W0 : 0 <= (gamma / y) ^ 2 / (2 * (1 - gamma / y)) * G1 x + G2 x).
    { apply Rplus_le_le_0_compat; [|lra]. apply Rmult_le_pos; lra. }
    assert (AY : 0 < A / y ^ 2 <= A / gamma ^ 2).
    { split; [apply div_pos; [exact HA|apply pow_lt; lra]|]. apply Rmult_le_compat_l; [lra|]. apply Rinv_le_contravar; [exact G2p|]. apply pow_incr. lra. }
    rewrite Rabs_pos_eq by (apply Rmult_le_pos; lra). rewrite (Rabs_pos_eq (y - gamma)) by lra.
    replace (A / gamma ^ 2 * M * (y - gamma)) with (A / gamma ^ 2 * ((y - gamma) * M)) by ring.
    apply Rmult_le_compat; lra.
  - (* below: zero *)
    apply (cont_locally (fun _ => 0) _ e0 (gamma - e0)); [lra| |apply continuity_pt_const; intros ? ?; reflexivity].
    intros y Hy. apply Rabs_def2 in Hy. unfold planck_form. rewrite in_range_false by lra. reflexivity.
Qed.

Lemma good_G34 alpha a beta b c : 0 < a -> 0 < b -> 0 < c -> good_G (fun x => G34 x alpha a beta b c).
Proof.
  intros Ha Hb Hc x Hx. split; [apply G34_cont; assumption|]. split; [apply Rlt_le, G34_pos; assumption|].
  apply Rle_trans with (1 := G34_le x alpha a beta b c Hx Ha Hb Hc). pose proof (exp_pos (- x)). nra.
Qed.
Lemma good_G12 alpha a beta b : 0 < a -> 0 < b -> good_G (fun x => G12 x alpha a beta b).
Proof.
  intros Ha Hb x Hx. split; [apply G12_cont; assumption|]. split; [apply Rlt_le, G12_pos; assumption|]. apply G12_le; assumption.
Qed.
Lemma thermal_cont T u th mec2 gamma e0 : 0 < T -> (forall t, th = Some t -> cos t < 1) -> 0 < gamma -> 1 < e0 ->
  continuity_pt (fun e => seed_kernel (to_mec2 mec2 (Thermal T u th)) e gamma) e0.
Proof.
  intros HT Hth Hg He. pose proof Ktomec2_pos. pose proof planck_const_pos.
  assert (T1 : 0 < T * Ktomec2) by (apply Rmult_lt_0_compat; assumption). cbn [to_mec2 seed_kernel].
  assert (HA : 0 < (T * Ktomec2) ^ 2 * planck_const) by (apply Rmult_lt_0_compat; [apply pow_lt|]; assumption).
  destruct th as [t|].
  - specialize (Hth t eq_refl). 
    eapply (cont_locally (planck_form ((T * Ktomec2) ^ 2 * planck_const) (2 * (T * Ktomec2) * (1 - cos t)) gamma
      (fun x => G12 x (857 / 1000) (153 / 1000) (184 / 100) (254 / 1000)) (fun x => G12 x (691 / 1000) (133 / 100) (1668 / 1000) (534 / 1000))) _ e0 1); [lra| |].
    + intros y Hy. unfold ani_ic_on_planck, planck_form. destruct (in_range gamma y) eqn:IR; [|reflexivity]. apply in_range_true in IR. cbv zeta.
      replace (2 * y * (T * Ktomec2) * (1 - cos t)) with (2 * (T * Ktomec2) * (1 - cos t) * y) by ring.
      assert (TT : (T * Ktomec2 / y) ^ 2 * planck_const = (T * Ktomec2) ^ 2 * planck_const / y ^ 2) by (field; lra). rewrite TT. reflexivity.
    + apply planck_cont; try assumption; try (apply good_G12; lra). apply Rmult_lt_0_compat; lra.
  - eapply (cont_locally (planck_form ((T * Ktomec2) ^ 2 * planck_const) (4 * (T * Ktomec2)) gamma
      (fun x => G34 x (606 / 1000) (443 / 1000) (1481 / 1000) (54 / 100) (319 / 1000)) (fun x => G34 x (461 / 1000) (726 / 1000) (1457 / 1000) (382 / 1000) (662 / 100))) _ e0 1); [lra| |].
    + intros y Hy. unfold iso_ic_on_planck, planck_form. destruct (in_range gamma y) eqn:IR; [|reflexivity]. apply in_range_true in IR. cbv zeta.
      replace (4 * y * (T * Ktomec2)) with (4 * (T * Ktomec2) * y) by ring.
      assert (TT : (T * Ktomec2 / y) ^ 2 * planck_const = (T * Ktomec2) ^ 2 * planck_const / y ^ 2) by (field; lra). rewrite TT. reflexivity.
    + apply planck_cont; try assumption; try (apply good_G34; lra). lra.
Qed.

Theorem C110_inverse_compton_thermal : forall mec2 ar pd lo hi seeds Es i, 0 < mec2 -> mec2 < lo -> lo < hi -> (i < length Es)%nat ->
  List.Forall (fun E => 0 < E) Es -> continuous_density pd lo hi ->
  List.Forall (fun s => seed_ok s /\ exists T u th, s = Thermal T u th) seeds ->
  tends (fun nd => nth i (ic_spectrum mec2 ar pd (gam mec2 nd lo hi) seeds Es) 0)
        (fold_right Rplus 0 (map (ic_exact mec2 ar pd lo hi (nth i Es 0)) seeds)).
Proof.
  intros mec2 ar pd lo hi seeds Es i Hm Hlo Hhi Hi HE HD HS. apply C110_inverse_compton; try assumption; try lra.
  assert (P : 0 < nth i Es 0) by (rewrite List.Forall_forall in HE; apply HE, nth_In; exact Hi).
  eapply List.Forall_impl; [|exact HS]. intros s (OK & T & u & th & ->).
  apply (kernel_density mec2 pd lo hi (fun g => seed_kernel (to_mec2 mec2 (Thermal T u th)) g (nth i Es 0 / mec2))); try assumption; try lra.
  intros g Hg. assert (L : 1 < lo / mec2). { apply (Rmult_lt_reg_r mec2); [lra|]. unfold Rdiv. rewrite Rmult_assoc, Rinv_l by lra. lra. }
  assert (0 < nth i Es 0 / mec2) by (apply div_pos; lra). split.
  - destruct OK as (O1 & O2 & O3). apply thermal_cont; try assumption. lra.
  - apply seed_kernel_nonneg; [exact OK|lra|assumption].
Qed.
Print Assumptions C110_inverse_compton_thermal.
