(** Scaling laws of the electron spectra (C96), meaning of seed photon fields (C97), and
    the domain on which C66-C68 hold. *)
From Coq Require Import Reals ZArith List Lra Lia Sorted String Ascii.
From Verif Require Import SpectralModel Outcome TrapzModel TrapzSpec TrapzProofs EnergyModel EnergyProofs
  ElectronModel ElectronProofs SeedModel ElectronProps.
Import ListNotations.
Local Open Scope R_scope.

(** ** C96 *)
Lemma kernel_field k B g E m : sy_ok k -> 0 < B -> 0 < g -> 0 < E -> 0 < m -> sy_kernel k (m * B) g (m * E) = sy_kernel k B g E.
Proof.
  intros (P1 & P2 & P3 & P4) HB Hg HE Hm. unfold sy_kernel. pose proof PI_RGT_0. f_equal.
  - unfold CS1. field. repeat split; lra.
  - f_equal. unfold Ecrit. field. repeat split; lra.
Qed.
Lemma kernel_energy k B g E l : sy_ok k -> 0 < B -> 0 < g -> 0 < E -> 0 < l -> sy_kernel k B (l * g) (l ^ 2 * E) = / l ^ 2 * sy_kernel k B g E.
Proof.
  intros (P1 & P2 & P3 & P4) HB Hg HE Hl. unfold sy_kernel. pose proof PI_RGT_0.
  replace (l ^ 2 * E / Ecrit k B (l * g)) with (E / Ecrit k B g) by (unfold Ecrit; field; repeat split; lra).
  rewrite <- Rmult_assoc. f_equal. unfold CS1. field. repeat split; lra.
Qed.
(** A field m times stronger shifts the synchrotron spectrum to m times higher energies,
    photon for photon; electrons l times more energetic shift it by l^2, so that
    electrons with a power law of index p give photons with a power law of index
    (p+1)/2 (here: the grid of electrons shifted along). *)
Theorem C96_synchrotron_scaling : forall k B mec2 pd gs Es,
  sy_ok k -> 0 < B -> 0 < mec2 -> Forall (fun g => 0 < g) gs -> Forall (fun E => 0 < E) Es ->
  (forall m, 0 < m -> sy_spectrum k (m * B) mec2 pd gs (map (Rmult m) Es) = sy_spectrum k B mec2 pd gs Es) /\
  (forall l p, 0 < l -> (forall x, 0 < x -> pd (l * x) = Rpower l (- p) * pd x) ->
     sy_spectrum k B mec2 pd (map (Rmult l) gs) (map (Rmult (l ^ 2)) Es) =
     map (Rmult (Rpower (l ^ 2) (- ((p + 1) / 2)))) (sy_spectrum k B mec2 pd gs Es)).
Proof.
  intros k B mec2 pd gs Es Hk HB Hm2 HG HE. rewrite Forall_forall in HG, HE. split.
  - intros m Hm. unfold sy_spectrum. rewrite map_map. apply map_ext_in. intros E I. specialize (HE E I).
    f_equal. f_equal. apply map_ext_in. intros g Ig. apply kernel_field; auto.
  - intros l p Hl HP. unfold sy_spectrum. rewrite !map_map. apply map_ext_in. intros E I. specialize (HE E I).
    rewrite !nelec_kernel, map_map. rewrite trapz_scale_x; [|exact Hl|].
    + set (c := Rpower l (- p) * / l ^ 2). assert (L2 : 0 < l ^ 2) by (apply pow_lt; auto).
      assert (Pc : 0 < c) by (unfold c; apply Rmult_lt_0_compat; [apply exp_pos|apply Rinv_0_lt_compat, L2]).
      replace (map (fun x => pd (l * x * mec2) * mec2 * sy_kernel k B (l * x) (l ^ 2 * E)) gs)
         with (map (Rmult c) (map (fun g => pd (g * mec2) * mec2 * sy_kernel k B g E) gs)).
      * rewrite trapz_scale_y by exact Pc. rewrite <- Rmult_assoc. f_equal. unfold c.
        replace (l ^ 2) with (Rpower l 2) by (rewrite <- (Rpower_pow 2 l Hl); reflexivity).
        rewrite Rpower_mult, <- Rpower_Ropp. rewrite <- (Rpower_1 l Hl) at 1. rewrite <- !Rpower_plus. f_equal. lra.
      * rewrite map_map. apply map_ext_in. intros g Ig. rewrite kernel_energy by auto. rewrite (Rmult_assoc l g), HP by (apply Rmult_lt_0_compat; auto). unfold c. ring.
    + apply Forall_forall. intros x Hx. specialize (HG x Hx). lra.
Qed.
Print Assumptions C96_synchrotron_scaling.
(** Electrons l times more energetic, seed photons l times less: inverse Compton photons
    are l times more energetic (same recoil), for thermal seeds of either kind. *)
Theorem C96_compton_scaling : forall electron T gamma l, 0 < l -> 0 < T -> 0 < gamma -> 1 < electron -> 1 < l * electron ->
  iso_ic_on_planck (l * electron) (T / l) (l * gamma) = iso_ic_on_planck electron T gamma / l ^ 4 /\
  forall theta, cos theta < 1 -> ani_ic_on_planck (l * electron) (T / l) (l * gamma) theta = ani_ic_on_planck electron T gamma theta / l ^ 4.
Proof.
  intros electron T gamma l Hl HT Hg He Hle.
  assert (RNG : in_range (l * gamma) (l * electron) = in_range gamma electron).
  { destruct (Rlt_dec gamma electron) as [L|L].
    - rewrite !in_range_iff; auto. apply Rmult_lt_compat_l; auto.
    - rewrite !in_range_false; auto; [left; lra|]. left. apply Rmult_le_compat_l; lra. }
  assert (Z : l * gamma / (l * electron) = gamma / electron) by (field; lra).
  assert (TT : T / l * Ktomec2 / (l * electron) = T * Ktomec2 / electron * / l ^ 2) by (field; lra).
  pose proof Ktomec2_pos as KP.
  split; [|intros theta Hth].
  - unfold iso_ic_on_planck. rewrite RNG. destruct (in_range gamma electron) eqn:R; [|unfold Rdiv; ring].
    rewrite Z, TT. replace (4 * (l * electron) * (T / l * Ktomec2)) with (4 * electron * (T * Ktomec2)) by (field; lra).
    unfold Rdiv. rewrite !Rpow_mult_distr, !Rinv_pow by lra. rewrite <- !pow_mult. cbn [Nat.mul Nat.add]. ring.
  - unfold ani_ic_on_planck. rewrite RNG. destruct (in_range gamma electron) eqn:R; [|unfold Rdiv; ring].
    rewrite Z, TT. replace (2 * (l * electron) * (T / l * Ktomec2) * (1 - cos theta)) with (2 * electron * (T * Ktomec2) * (1 - cos theta)) by (field; lra).
    unfold Rdiv. rewrite !Rpow_mult_distr, !Rinv_pow by lra. rewrite <- !pow_mult. cbn [Nat.mul Nat.add]. ring.
Qed.
Print Assumptions C96_compton_scaling.
Example C96_example : sy_ok (mkSy 1 1 1 1) /\ (forall x, 0 < x -> power_law (3 * x) 1 1 2 = Rpower 3 (- (2)) * power_law x 1 1 2) /\
  1 < 10 /\ 1 < 1 / 2 * 10 /\ cos (PI / 2) < 1.
Proof.
  rewrite cos_PI2. split; [unfold sy_ok; cbn; lra|]. split; [|lra]. intros x P.
  unfold power_law. replace (3 * x / 1) with (3 * x) by field. replace (x / 1) with x by field. rewrite <- (Rpower_mult_distr 3 x) by lra. ring.
Qed.

(** ** C97: what a seed photon field means *)
(** Spec: the energy per volume of photons of an array seed, entry by entry: for a line
    the energy density, otherwise E^2 dn/dE *)
Definition field_angle (s : seed) : option R := match s with Thermal _ _ th => th | Array _ _ th => th end.
Theorem C97_named_fields : forall ar eV name,
  let field T u := Ok (name, Thermal T u None) in
  (name = "CMB"%string -> process1 ar eV (SName name) = field (272548 / 100000) (ar * (272548 / 100000) ^ 4)) /\
  (name = "FIR"%string -> process1 ar eV (SName name) = field 30 (eV / 2)) /\
  (name = "NIR"%string -> process1 ar eV (SName name) = field 3000 eV) /\
  (name <> "CMB"%string -> name <> "FIR"%string -> name <> "NIR"%string -> process1 ar eV (SName name) = Err "TypeError").
Proof.
  intros ar eV name field. unfold field. repeat split.
  - intros ->. reflexivity.
  - intros ->. cbn. do 3 f_equal. field.
  - intros ->. cbn. do 3 f_equal. field.
  - intros A B C. cbn. unfold named. destruct (String.eqb_spec name "CMB"); [contradiction|]. destruct (String.eqb_spec name "FIR"); [contradiction|].
    destruct (String.eqb_spec name "NIR"); [contradiction|reflexivity].
Qed.
Print Assumptions C97_named_fields.

(** an entry of a list of seeds with or without an angle *)
Definition given (name : string) (T : tq) (u : uq) (th : option R) : inseed :=
  match th with None => SIso name T u | Some a => SAni name T u (Angle a) end.
Theorem C97_given_fields : forall ar eV name th,
  (* thermal: temperature, density (0: black body) and angle are kept *)
  (forall T u, 0 <= T -> 0 <= u ->
     process1 ar eV (given name (Temperature T) (EnergyDensity [u]) th) = Ok (name, Thermal T (if Req_EM_T u 0 then ar * T ^ 4 else u) th)) /\
  (forall T u, T < 0 \/ u < 0 -> process1 ar eV (given name (Temperature T) (EnergyDensity [u]) th) = Err "ValueError") /\
  (* a line: energy and energy density are kept *)
  (forall e u, 0 <= u -> process1 ar eV (given name (Energies [e]) (EnergyDensity [u]) th) = Ok (name, Array [e] [u] th)) /\
  (forall e u, u < 0 -> process1 ar eV (given name (Energies [e]) (EnergyDensity [u]) th) = Err "ValueError") /\
  (* a spectrum of densities E^2 dn/dE or of number densities dn/dE *)
  (forall es us, (2 <= List.length es)%nat -> Forall (fun e => 0 < e) es -> List.length us = List.length es ->
     exists ns, process1 ar eV (given name (Energies es) (EnergyDensity us) th) = Ok (name, Array es ns th) /\
       List.length ns = List.length es /\ forall i, (i < List.length es)%nat -> nth i ns 0 * nth i es 0 ^ 2 = nth i us 0) /\
  (forall es ns, (2 <= List.length es)%nat -> process1 ar eV (given name (Energies es) (NumberDensity ns) th) = Ok (name, Array es ns th)).
Proof.
  intros ar eV name th. repeat split.
  - intros T u HT HU. destruct th as [a|]; cbn; unfold thermal; (destruct (Rlt_dec T 0); [lra|]); destruct (Req_EM_T u 0); try reflexivity;
    (destruct (Rlt_dec u 0); [lra|reflexivity]).
  - intros T u H. destruct th as [a|]; cbn; unfold thermal; (destruct (Rlt_dec T 0); [reflexivity|]); (destruct (Req_EM_T u 0); [lra|]);
    (destruct (Rlt_dec u 0); [reflexivity|lra]).
  - intros e u H. destruct th as [a|]; cbn; (destruct (Rlt_dec u 0); [lra|reflexivity]).
  - intros e u H. destruct th as [a|]; cbn; (destruct (Rlt_dec u 0); [reflexivity|lra]).
  - intros es us L P E. exists (map (fun p => fst p / snd p ^ 2) (combine us es)). split; [|split].
    + destruct es as [|e0 [|e1 es]]; cbn in L; try lia. destruct th as [a|]; cbn [given process1 array omap]; rewrite E, Nat.eqb_refl; reflexivity.
    + rewrite map_length, combine_length. lia.
    + intros i Hi. rewrite (nth_indep _ 0 (fst (0, 0) / snd (0, 0) ^ 2)) by (rewrite map_length, combine_length; lia).
      rewrite (map_nth (fun p => fst p / snd p ^ 2)), combine_nth by exact E. cbn [fst snd]. rewrite Forall_forall in P.
      assert (0 < nth i es 0) by (apply P, nth_In, Hi). field. lra.
  - intros es ns L. destruct es as [|e0 [|e1 es]]; cbn in L; try lia. destruct th; reflexivity.
Qed.
Print Assumptions C97_given_fields.
Example C97_example : (2 <= List.length [1; 2])%nat /\ Forall (fun e => 0 < e) [1; 2] /\ List.length [3; 4] = List.length [1; 2].
Proof. repeat split; try (repeat constructor; lra); cbn; lia. Qed.

(** ** C66 for thermal seeds: the angle selects the anisotropic kernel at that angle *)
Theorem C66_thermal_partial : forall ar eV name T u th, 0 <= T -> 0 <= u ->
  exists s, process1 ar eV (SAni name (Temperature T) (EnergyDensity [u]) (Angle th)) = Ok (name, s) /\
    forall mec2 electron gamma, seed_kernel (to_mec2 mec2 s) electron gamma = ani_ic_on_planck electron T gamma th.
Proof.
  intros ar eV name T u th HT HU. destruct (C97_given_fields ar eV name (Some th)) as (A & _). eexists. split; [apply (A T u HT HU)|]. reflexivity.
Qed.
Print Assumptions C66_thermal_partial.
(** ** C67 for energies in increasing order *)
Theorem C67_increasing_partial : forall mec2 ar eV pd nd Emin Emax name es ns Es,
  0 < mec2 -> 0 < ar -> 0 < Emin < Emax -> (forall x, 0 < x -> 0 <= pd x) -> Forall (fun E => 0 < E) Es ->
  (2 <= List.length es)%nat -> Forall (fun x => 0 < x) es -> StronglySorted Rlt es -> Forall (fun n => 0 <= n) ns ->
  exists s, process1 ar eV (SIso name (Energies es) (NumberDensity ns)) = Ok (name, s) /\
  Forall (fun y => 0 <= y) (ic_spectrum mec2 ar pd (gam mec2 nd Emin Emax) [s] Es).
Proof.
  intros mec2 ar eV pd nd Emin Emax name es ns Es Hm Ha HE HP HEs HL HX HS HN. exists (Array es ns None). split.
  - destruct (C97_given_fields ar eV name None) as (_ & _ & _ & _ & _ & A). apply (A es ns HL).
  - apply (C21_nonnegative pd mec2 nd Emin Emax Es HP Hm HE HEs); [exact Ha|]. constructor; [|constructor]. split; [split; assumption|exact HN].
Qed.
Print Assumptions C67_increasing_partial.
Example C67_increasing_example : (2 <= List.length [1; 2])%nat /\ Forall (fun e => 0 < e) [1; 2] /\ StronglySorted Rlt [1; 2] /\ Forall (fun n => 0 <= n) [3; 0].
Proof. repeat split; try (repeat constructor; lra); cbn; lia. Qed.
(** ** C68 for positive fields: the spectrum is positive and falls exponentially above the
    critical energy, kernel by kernel at most in proportion to exp(-E/Ec) *)
Lemma poly_ratio c : 0 <= c -> 0 <= (1 + 221 / 100 * c ^ 2 + 347 / 1000 * c ^ 4) / (1 + 1353 / 1000 * c ^ 2 + 217 / 1000 * c ^ 4) <= 2.
Proof.
  intros H. assert (0 <= c ^ 2) by (apply pow_le; auto). assert (0 <= c ^ 4) by (apply pow_le; auto).
  split.
  - apply Rmult_le_pos; [lra|]. apply Rlt_le, Rinv_0_lt_compat. lra.
  - apply Rmult_le_reg_r with (1 + 1353 / 1000 * c ^ 2 + 217 / 1000 * c ^ 4); [lra|]. unfold Rdiv at 1. rewrite Rmult_assoc, Rinv_l by lra. lra.
Qed.
Theorem C68_positive_partial : forall k B g E, sy_ok k -> 0 < B -> 0 < g -> 0 < E ->
  0 < sy_kernel k B g E <= 2 * CS1 k B E * exp (- (E / Ecrit k B g)).
Proof.
  intros k B g E Hk HB Hg HE. split; [apply sy_kernel_pos; auto|].
  pose proof (CS1_pos k B E Hk HB HE) as C. pose proof (Ecrit_pos k B g Hk HB Hg) as EC.
  unfold sy_kernel. set (x := E / Ecrit k B g). assert (X : 0 < x) by (apply div_pos; auto).
  unfold Gtilde. set (c := cbrt x).
  assert (Pc : 0 <= c). { unfold c, cbrt. destruct (Rlt_dec x 0); [lra|]. destruct (Req_EM_T x 0); [lra|]. apply Rlt_le, exp_pos. }
  pose proof (poly_ratio c Pc) as PR. set (r := _ / _) in PR |- *.
  assert (S1 : 1808 / 1000 * c / sqrt (1 + 34 / 10 * c ^ 2) <= 1).
  { assert (Q : 0 < 1 + 34 / 10 * c ^ 2) by (assert (0 <= c ^ 2) by (apply pow_le; auto); lra).
    assert (SQ : 0 < sqrt (1 + 34 / 10 * c ^ 2)) by (apply sqrt_lt_R0; exact Q).
    apply Rmult_le_reg_r with (sqrt (1 + 34 / 10 * c ^ 2)); [exact SQ|]. unfold Rdiv at 1. rewrite Rmult_assoc, Rinv_l, Rmult_1_r, Rmult_1_l by lra.
    apply Rle_trans with (sqrt ((1808 / 1000 * c) ^ 2)); [rewrite sqrt_pow2; lra|]. apply sqrt_le_1_alt.
    assert (0 <= c ^ 2) by (apply pow_le; auto). rewrite Rpow_mult_distr. lra. }
  set (s := 1808 / 1000 * c / _) in *.
  assert (S0 : 0 <= s). { unfold s. apply Rmult_le_pos; [lra|]. apply Rlt_le, Rinv_0_lt_compat, sqrt_lt_R0. assert (0 <= c ^ 2) by (apply pow_le; auto). lra. }
  replace (2 * CS1 k B E * exp (- x)) with (CS1 k B E * (2 * exp (- x))) by ring.
  apply Rmult_le_compat_l; [lra|]. apply Rmult_le_compat_r; [apply Rlt_le, exp_pos|]. nra.
Qed.
Print Assumptions C68_positive_partial.
