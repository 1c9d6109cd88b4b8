(** Property C173: the luminosity of a population of electrons is the sum of the powers of its members. *)
From Coq Require Import Reals List Lra Lia.
From Coquelicot Require Import Coquelicot.
From Flocq Require Import Raux.
From Verif Require Import EnergyModel TrapzModel TrapzProofs ElectronModel ElectronProofs ConvProofs ConvProps2 ErrProofs PubProps3 FubiniProofs PowerProofs PowerProps.
Import ListNotations.
Local Open Scope R_scope.

Definition clamp (a b x : R) : R := Rmax a (Rmin x b).
Lemma clamp_in a b x : a <= b -> a <= clamp a b x <= b.
Proof. intros H. unfold clamp, Rmax, Rmin. repeat destruct (Rle_dec _ _); lra. Qed.
Lemma clamp_id a b x : a <= x <= b -> clamp a b x = x.
Proof. intros H. unfold clamp, Rmax, Rmin. repeat destruct (Rle_dec _ _); lra. Qed.
Lemma clamp_cont a b x : continuity_pt (clamp a b) x.
Proof.
  intros e He. exists e. split; [exact He|]. intros y ((_ & _) & Hy). cbn in *. unfold R_dist in *. eapply Rle_lt_trans; [|exact Hy].
  unfold clamp, Rmax, Rmin, Rabs. repeat (destruct (Rle_dec _ _) || destruct (Rcase_abs _)); lra.
Qed.
Lemma in_v (h : R -> R) u v : continuity_pt h v -> continuity_2d_pt (fun _ v => h v) u v.
Proof. intros H. apply (continuity_1d_2d_pt_comp h (fun _ v => v)); [exact H|apply continuity_2d_pt_id2]. Qed.
Lemma in_u (h : R -> R) u v : continuity_pt h u -> continuity_2d_pt (fun u _ => h u) u v.
Proof. intros H. apply (continuity_1d_2d_pt_comp h (fun u _ => u)); [exact H|apply continuity_2d_pt_id1]. Qed.

(** ** Synchrotron *)
(** For any electron spectrum [pd] (per energy) between [lo] and [hi], any field: the spectrum the
    library computes tends, as the grid is refined, to a spectrum whose energy, summed over all photon
    energies up to any energy beyond 16 critical energies of the most energetic electrons, is the
    sum over the electrons of the classical power, to one part in 300. *)
Theorem C173_synchrotron : forall k B mec2 pd lo hi Emax, sy_ok k -> 0 < B -> 0 < mec2 -> 0 < lo -> lo < hi -> continuous_density pd lo hi ->
  16 * (3 * sy_e k * sy_hbar k * B * (hi / mec2) ^ 2 / (2 * sy_me k * sy_c k)) <= Emax ->
  exists spectrum : R -> R,
  (forall E, 0 < E -> tends (fun nd => nth 0 (sy_spectrum k B mec2 pd (gam mec2 nd lo hi) [E]) 0) (spectrum E)) /\
  ex_RInt (fun E => E * spectrum E) 0 Emax /\
  let luminosity := RInt (fun E => E * spectrum E) 0 Emax in
  let L := RInt (fun g => pd (g * mec2) * mec2 * synchrotron_power (sy_e k) (sy_me k) (sy_c k) B g) (lo / mec2) (hi / mec2) in
  Rabs (luminosity - L) <= L / 300.
Proof.
  intros k B mec2 pd lo hi Emax K HB Hm Hlo Hhi CD HE. pose proof K as (K1 & K2 & K3 & K4). pose proof PI_RGT_0 as PP.
  set (l := lo / mec2). set (h := hi / mec2). assert (l0: 0 < l) by (apply div_pos; assumption). assert (lh: l < h) by (unfold l, h, Rdiv; apply Rmult_lt_compat_r; [apply Rinv_0_lt_compat; exact Hm|exact Hhi]).
  exists (fun E => RInt (fun g => pd (g * mec2) * mec2 * published_sy k B g E) l h). split.
  { intros E HE0. apply (C150_spectrum k B mec2 pd lo hi [E] 0); try assumption; [cbn; lia|]. constructor; [exact HE0|constructor]. }
  set (A := sqrt 3 * sy_e k ^ 3 * B / (2 * PI * sy_me k * sy_c k ^ 2 * sy_hbar k)).
  set (N := fun g => pd (g * mec2) * mec2).
  assert (EM: 0 < Emax). { eapply Rlt_le_trans; [|exact HE]. fold h. apply Rmult_lt_0_compat; [lra|]. pose proof (Ecrit_pos k B h K HB ltac:(lra)) as Q. unfold Ecrit in Q. replace (2 * sy_me k * sy_c k) with (2 * (sy_me k * sy_c k)) by ring. exact Q. }
  assert (GR: forall g, l <= g <= h -> lo <= g * mec2 <= hi).
  { intros g Hg. unfold l, h in Hg. split; apply Rmult_le_reg_r with (/ mec2); try (apply Rinv_0_lt_compat; exact Hm); rewrite Rmult_assoc, Rinv_r by lra; unfold Rdiv in Hg; lra. }
  assert (NC: forall g, l <= g <= h -> continuity_pt N g).
  { intros g Hg. unfold N. apply (continuity_pt_mult (fun g => pd (g * mec2)) (fun _ => mec2)); [|apply derivable_continuous_pt, derivable_pt_const].
    apply (continuity_pt_comp (fun g => g * mec2) pd); [apply derivable_continuous_pt; apply (derivable_pt_mult (fun g => g) (fun _ => mec2)); [apply derivable_pt_id|apply derivable_pt_const]|]. apply CD, GR, Hg. }
  assert (N0: forall g, l <= g <= h -> 0 <= N g). { intros g Hg. unfold N. apply Rmult_le_pos; [apply CD, GR, Hg|lra]. }
  set (f := fun E g => N (clamp l h g) * (A * Gtilde (clamp 0 Emax E * / Ecrit k B (clamp l h g)))).
  assert (EP: forall g, 0 < Ecrit k B (clamp l h g)). { intros g. pose proof (clamp_in l h g ltac:(lra)). apply Ecrit_pos; try assumption; lra. }
  assert (EC: forall g, 0 < g -> continuity_pt (fun g => Ecrit k B g) g).
  { intros g Hg. apply continuity_pt_filterlim. apply (@ex_derive_continuous R_AbsRing R_NormedModule (fun g => Ecrit k B g) g). unfold Ecrit. auto_derive. exact Logic.I. }
  assert (FC: forall u v, continuity_2d_pt f u v).
  { intros E g. pose proof (clamp_in l h g ltac:(lra)) as CG. unfold f. apply continuity_2d_pt_mult.
    - apply (in_v (fun g => N (clamp l h g))). apply (continuity_pt_comp (clamp l h) N); [apply clamp_cont|apply NC; exact CG].
    - apply continuity_2d_pt_mult; [apply continuity_2d_pt_const|]. apply (continuity_1d_2d_pt_comp Gtilde (fun E g => clamp 0 Emax E * / Ecrit k B (clamp l h g))).
      + apply Gtilde_cont. apply Rmult_le_pos; [apply clamp_in; lra|]. left. apply Rinv_0_lt_compat, EP.
      + apply continuity_2d_pt_mult; [apply (in_u (clamp 0 Emax)), clamp_cont|]. apply continuity_2d_pt_inv; [|apply Rgt_not_eq, EP].
        apply (in_v (fun g => Ecrit k B (clamp l h g))). apply (continuity_pt_comp (clamp l h) (fun g => Ecrit k B g)); [apply clamp_cont|apply EC; lra]. }
  destruct (fubini f 0 Emax l h FC) as (X1 & X2 & X3).
  assert (IE: forall E, 0 < E < Emax -> E * RInt (fun g => pd (g * mec2) * mec2 * published_sy k B g E) l h = RInt (f E) l h).
  { intros E HE0. assert (XX: ex_RInt (fun g => N g * published_sy k B g E) l h).
    { apply (ex_RInt_ext (fun g => scal (/ E) (f E g))); [|apply (ex_RInt_scal (f E)), ex_slice_v, FC].
      intros g Hg. rewrite Rmin_left, Rmax_right in Hg by lra. rewrite <- C150_emission by (try assumption; lra). unfold f. rewrite !clamp_id by lra. unfold scal; cbn. unfold mult; cbn. unfold sy_kernel, CS1, A.
      pose proof (Ecrit_pos k B g K HB ltac:(lra)). match goal with |- ?a = ?b => change (@eq R a b) end. unfold Rdiv. field. repeat split; lra. }
    transitivity (RInt (fun g => E * (N g * published_sy k B g E)) l h).
    - symmetry. exact (RInt_scal (fun g => N g * published_sy k B g E) l h E XX).
    - apply RInt_ext. intros g Hg. rewrite Rmin_left, Rmax_right in Hg by lra. rewrite <- C150_emission by (try assumption; lra). unfold f. rewrite !clamp_id by lra. unfold sy_kernel, CS1, A.
      pose proof (Ecrit_pos k B g K HB ltac:(lra)). match goal with |- ?a = ?b => change (@eq R a b) end. unfold Rdiv. field. repeat split; lra. }
  split.
  { eapply ex_RInt_ext; [|exact X1]. intros E HE0. rewrite Rmin_left, Rmax_right in HE0 by lra. symmetry. apply IE. exact HE0. }
  intros luminosity L.
  assert (LV: luminosity = RInt (fun g => RInt (fun E => f E g) 0 Emax) l h).
  { rewrite <- X3. apply RInt_ext. intros E HE0. rewrite Rmin_left, Rmax_right in HE0 by lra. apply IE. exact HE0. }
  set (P := fun g => synchrotron_power (sy_e k) (sy_me k) (sy_c k) B g).
  assert (INN: forall g, l < g < h -> Rabs (RInt (fun E => f E g) 0 Emax - N g * P g) <= N g * P g / 300).
  { intros g Hg. assert (HEg: 16 * (3 * sy_e k * sy_hbar k * B * g ^ 2 / (2 * sy_me k * sy_c k)) <= Emax).
    { eapply Rle_trans; [|exact HE]. fold h. apply Rmult_le_compat_l; [lra|]. unfold Rdiv. apply Rmult_le_compat_r; [left; apply Rinv_0_lt_compat; repeat apply Rmult_lt_0_compat; lra|].
      apply Rmult_le_compat_l; [left; repeat apply Rmult_lt_0_compat; lra|]. apply pow_incr. lra. }
    pose proof (C170_power k B g Emax K HB ltac:(lra) HEg) as Q. cbv zeta in Q. fold (P g) in Q.
    assert (V: RInt (fun E => f E g) 0 Emax = N g * RInt (fun E => E * sy_kernel k B g E) 0 Emax).
    { transitivity (RInt (fun E => N g * (E * sy_kernel k B g E)) 0 Emax).
      - apply RInt_ext. intros E HE0. rewrite Rmin_left, Rmax_right in HE0 by lra. unfold f. rewrite !clamp_id by lra. unfold sy_kernel, CS1, A.
        pose proof (Ecrit_pos k B g K HB ltac:(lra)). match goal with |- ?a = ?b => change (@eq R a b) end. unfold Rdiv. field. repeat split; lra.
      - apply (RInt_scal (fun E => E * sy_kernel k B g E) 0 Emax (N g)).
        assert (CA: forall E, 0 < E < Emax -> A * Gtilde (clamp 0 Emax E * / Ecrit k B g) = E * sy_kernel k B g E).
        { intros E HE0. rewrite clamp_id by lra. unfold sy_kernel, CS1, A. pose proof (Ecrit_pos k B g K HB ltac:(lra)). unfold Rdiv. field. repeat split; lra. }
        apply (ex_RInt_ext (fun E => A * Gtilde (clamp 0 Emax E * / Ecrit k B g))). { intros E HE0. rewrite Rmin_left, Rmax_right in HE0 by lra. apply CA. exact HE0. }
        apply (@ex_RInt_continuous R_CompleteNormedModule). intros E _. apply continuity_pt_filterlim. apply (continuity_pt_mult (fun _ => A)); [apply derivable_continuous_pt, derivable_pt_const|].
        pose proof (Ecrit_pos k B g K HB ltac:(lra)) as EG. apply (continuity_pt_comp (fun E => clamp 0 Emax E * / Ecrit k B g) Gtilde).
        + apply (continuity_pt_mult (clamp 0 Emax) (fun _ => / Ecrit k B g)); [apply clamp_cont|apply derivable_continuous_pt, derivable_pt_const].
        + apply Gtilde_cont. apply Rmult_le_pos; [apply clamp_in; lra|]. left. apply Rinv_0_lt_compat. exact EG. }
    rewrite V. set (I := RInt (fun E => E * sy_kernel k B g E) 0 Emax) in *. replace (N g * I - N g * P g) with (N g * (I - P g)) by ring.
    rewrite Rabs_mult, (Rabs_pos_eq (N g)) by (apply N0; lra). unfold Rdiv at 1. rewrite Rmult_assoc. apply Rmult_le_compat_l; [apply N0; lra|exact Q]. }
  assert (PC: forall g, continuity_pt P g).
  { intros g. apply continuity_pt_filterlim. apply (@ex_derive_continuous R_AbsRing R_NormedModule P g). unfold P, synchrotron_power. auto_derive. exact Logic.I. }
  assert (LX: ex_RInt (fun g => N g * P g) l h). { apply ex_RInt_cont; [lra|]. intros g Hg. apply (continuity_pt_mult N P); [apply NC; exact Hg|apply PC]. }
  assert (LI: is_RInt (fun g => N g * P g) l h L) by (exact (RInt_correct (fun g => N g * P g) l h LX)).
  rewrite LV. pose proof (@RInt_correct R_CompleteNormedModule _ _ _ X2) as XI. set (J := RInt (fun g => RInt (fun E => f E g) 0 Emax) l h) in *.
  assert (U: J <= (1 + 1 / 300) * L).
  { apply (is_RInt_le (fun g => RInt (fun E => f E g) 0 Emax) (fun g => (1 + 1 / 300) * (N g * P g)) l h); [lra|exact XI|exact (is_RInt_scal (fun g => N g * P g) l h (1 + 1 / 300) L LI)|].
    intros g Hg. pose proof (INN g Hg) as Q. apply Rabs_le_inv in Q. lra. }
  assert (D: (1 - 1 / 300) * L <= J).
  { apply (is_RInt_le (fun g => (1 - 1 / 300) * (N g * P g)) (fun g => RInt (fun E => f E g) 0 Emax) l h); [lra|exact (is_RInt_scal (fun g => N g * P g) l h (1 - 1 / 300) L LI)|exact XI|].
    intros g Hg. pose proof (INN g Hg) as Q. apply Rabs_le_inv in Q. lra. }
  apply Rabs_le. lra.
Qed.
Print Assumptions C173_synchrotron.

(** Non-vacuity: one electron per unit energy between energies 1 and 2, unit constants and field: the
    critical energy of the most energetic is 6, the classical luminosity 28/27. *)
Example C173_case : sy_ok (mkSy 1 1 1 1) /\ continuous_density (fun _ => 1) 1 2 /\
  16 * (3 * 1 * 1 * 1 * (2 / 1) ^ 2 / (2 * 1 * 1)) <= 96 /\
  RInt (fun g => (fun _ => 1) (g * 1) * 1 * synchrotron_power 1 1 1 1 g) (1 / 1) (2 / 1) = 28 / 27.
Proof.
  split; [unfold sy_ok; cbn; repeat split; lra|]. split; [intros x _; split; [apply derivable_continuous_pt, derivable_pt_const|lra]|]. split; [lra|].
  pose proof PI_RGT_0 as PP. replace (1 / 1) with 1 by field. replace (2 / 1) with 2 by field. apply is_RInt_unique.
  apply (is_RInt_ext (fun g => 4 / 9 * g ^ 2)). { intros g _. unfold synchrotron_power, sigma_T, U_B. match goal with |- ?a = ?b => change (@eq R a b) end. field. lra. }
  replace (28 / 27) with (minus ((fun g => 4 / 27 * g ^ 3) 2) ((fun g => 4 / 27 * g ^ 3) 1)) by (unfold minus, plus, opp; cbn; field).
  apply (is_RInt_derive (fun g => 4 / 27 * g ^ 3)).
  - intros g _. auto_derive; [exact Logic.I|field].
  - intros g _. apply (@ex_derive_continuous R_AbsRing R_NormedModule (fun g => 4 / 9 * g ^ 2) g). auto_derive. exact Logic.I.
Qed.
