(** Properties C18, C21-C25, C66-C68: synchrotron and inverse Compton spectra,
    seed photon fields. *)
From Coq Require Import Reals ZArith List Lra Lia Sorted String Ascii Permutation.
From Verif Require Import SpectralModel Outcome TrapzModel TrapzSpec TrapzProofs EnergyModel EnergyProofs
  ElectronModel ElectronProofs SeedModel.
Import ListNotations.
Local Open Scope R_scope.

(** ** C18: proportional to the amplitude of the particle distribution *)
Lemma nelec_ext mec2 f g gs : (forall E, f E = g E) -> nelec mec2 f gs = nelec mec2 g gs.
Proof. intros H. unfold nelec. apply map_ext. intros. now rewrite H. Qed.

Lemma specic1_ext mec2 ar f g gs s E : (forall x, f x = g x) ->
  specic1 mec2 ar f gs s E = specic1 mec2 ar g gs s E.
Proof. intros H. unfold specic1. now rewrite (nelec_ext mec2 f g gs H). Qed.

Theorem C18_amplitude_linear : forall (pd : R -> R -> R) c A,
  (forall c a E, pd (c * a) E = c * pd a E) -> 0 <= c ->
  (forall k B mec2 gs Es, sy_spectrum k B mec2 (pd (c * A)) gs Es = map (Rmult c) (sy_spectrum k B mec2 (pd A) gs Es)) /\
  (forall mec2 ar gs seeds Es,
     ic_spectrum mec2 ar (pd (c * A)) gs seeds Es = map (Rmult c) (ic_spectrum mec2 ar (pd A) gs seeds Es)) /\
  (forall m nd smin smax lo hi, compute_We m nd (pd (c * A)) smin smax lo hi = c * compute_We m nd (pd A) smin smax lo hi).
Proof.
  intros pd c A HP Hc. split; [|split].
  - intros. unfold sy_spectrum. rewrite map_map. apply map_ext. intros E.
    rewrite <- kernel_integral_scale by auto. f_equal. f_equal. apply nelec_ext. auto.
  - intros. rewrite !ic_spectrum_map, map_map. apply map_ext. intros E.
    rewrite <- sum_scale, map_map. f_equal. apply map_ext. intros s.
    rewrite <- specic1_scale by auto. apply specic1_ext. auto.
  - intros. rewrite <- compute_We_scale by auto. apply compute_We_ext. auto.
Qed.
Print Assumptions C18_amplitude_linear.

Example C18_example : forall c a E, power_law E (c * a) 1 2 = c * power_law E a 1 2.
Proof. intros. unfold power_law. ring. Qed.

(** ** C21: spectra are never negative, for every particle distribution that is
    not, on the grid of every model with Emin < Emax *)
Theorem C21_nonnegative : forall pd mec2 nd Emin Emax Es,
  (forall E, 0 < E -> 0 <= pd E) -> 0 < mec2 -> 0 < Emin < Emax -> Forall (fun E => 0 < E) Es ->
  let gs := gam mec2 nd Emin Emax in
  (forall k B, sy_ok k -> 0 < B -> Forall (fun s => 0 <= s) (sy_spectrum k B mec2 pd gs Es)) /\
  (forall ar seeds, 0 < ar -> Forall seed_ok seeds -> Forall (fun s => 0 <= s) (ic_spectrum mec2 ar pd gs seeds Es)).
Proof.
  intros pd mec2 nd Emin Emax Es HP Hm HE HEs gs.
  assert (G : grid gs) by (apply gam_grid; lra). split.
  - intros k B Hk HB. unfold sy_spectrum. apply Forall_map. eapply Forall_impl; [|exact HEs].
    intros E HE0. simpl. apply kernel_integral_nonneg; auto.
    intros g Hg. apply Rlt_le, sy_kernel_pos; auto. destruct G as [G _]. rewrite Forall_forall in G. auto.
  - intros ar seeds Ha HS. rewrite ic_spectrum_map. apply Forall_map. eapply Forall_impl; [|exact HEs].
    intros E HE0. simpl. apply sum_nonneg. apply Forall_map. eapply Forall_impl; [|exact HS].
    intros s Hs. simpl. apply specic1_nonneg; auto.
Qed.
Print Assumptions C21_nonnegative.

Example C21_example : sy_ok (mkSy 1 1 1 1) /\ seed_ok (Thermal 3 1 None) /\ seed_ok (Thermal 30 2 (Some (PI / 2)))
  /\ seed_ok (Array [1; 2; 3] [5; 0; 1] None).
Proof.
  unfold sy_ok, seed_ok; simpl. repeat split; try lra; try discriminate.
  - intros t [= <-]. rewrite cos_PI2. lra.
  - repeat constructor; lra.
  - repeat constructor; lra.
  - repeat constructor; lra.
Qed.

(** For a positive distribution synchrotron is strictly positive everywhere. *)
Theorem C21_synchrotron_positive : forall k B pd mec2 nd Emin Emax Es,
  sy_ok k -> 0 < B -> (forall E, 0 < E -> 0 < pd E) -> 0 < mec2 -> 0 < Emin < Emax -> Forall (fun E => 0 < E) Es ->
  Forall (fun s => 0 < s) (sy_spectrum k B mec2 pd (gam mec2 nd Emin Emax) Es).
Proof.
  intros k B pd mec2 nd Emin Emax Es Hk HB HP Hm HE HEs.
  assert (G : grid (gam mec2 nd Emin Emax)) by (apply gam_grid; lra).
  assert (HL : (2 <= List.length (gam mec2 nd Emin Emax))%nat).
  { unfold gam. rewrite logspace_length. pose proof (npoints_ge (nd * (log10 (Emax / mec2) - log10 (Emin / mec2)))). lia. }
  destruct (gam mec2 nd Emin Emax) as [|g1 [|g2 gs]]; simpl in HL; try lia.
  unfold sy_spectrum. apply Forall_map. eapply Forall_impl; [|exact HEs]. intros E HE0. simpl.
  assert (Y : forall g, In g (g1 :: g2 :: gs) -> 0 < pd (g * mec2) * mec2 * sy_kernel k B g E).
  { intros g Hg. destruct G as [G _]. rewrite Forall_forall in G. specialize (G g Hg).
    apply Rmult_lt_0_compat; [|apply sy_kernel_pos; auto]. apply Rmult_lt_0_compat; auto. apply HP.
    apply Rmult_lt_0_compat; auto. }
  pose proof (nelec_kernel mec2 pd (g1 :: g2 :: gs) (fun g => sy_kernel k B g E)) as EQ. simpl in EQ. rewrite EQ.
  apply trapz_pos; auto.
  - apply Y; simpl; auto.
  - apply Y; simpl; auto.
  - apply Forall_forall. intros y Hy. apply in_map_iff in Hy. destruct Hy as (g & <- & Hg). apply Rlt_le, Y. simpl; auto.
Qed.
Print Assumptions C21_synchrotron_positive.

(** ** C22: one request for many energies is the same as many requests for one
    energy; in particular the order of the request is irrelevant. *)
Theorem C22_pointwise : forall pd mec2 gs Es1 E Es2,
  (forall k B, nth_error (sy_spectrum k B mec2 pd gs (Es1 ++ E :: Es2)) (List.length Es1)
               = hd_error (sy_spectrum k B mec2 pd gs [E])) /\
  (forall ar seeds, nth_error (ic_spectrum mec2 ar pd gs seeds (Es1 ++ E :: Es2)) (List.length Es1)
               = hd_error (ic_spectrum mec2 ar pd gs seeds [E])).
Proof.
  intros. split; intros.
  - unfold sy_spectrum. rewrite map_app, nth_error_app2; rewrite map_length; auto.
    rewrite Nat.sub_diag. reflexivity.
  - rewrite !ic_spectrum_map. rewrite map_app, nth_error_app2; rewrite map_length; auto.
    rewrite Nat.sub_diag. reflexivity.
Qed.
Print Assumptions C22_pointwise.

Theorem C22_permutation : forall pd mec2 gs Es Es', Permutation Es Es' ->
  (forall k B, Permutation (combine Es (sy_spectrum k B mec2 pd gs Es)) (combine Es' (sy_spectrum k B mec2 pd gs Es'))) /\
  (forall ar seeds, Permutation (combine Es (ic_spectrum mec2 ar pd gs seeds Es)) (combine Es' (ic_spectrum mec2 ar pd gs seeds Es'))).
Proof.
  assert (K : forall (f : R -> R) l l', Permutation l l' -> Permutation (combine l (map f l)) (combine l' (map f l'))).
  { intros f l l' H. assert (Q : forall m, combine m (map f m) = map (fun x => (x, f x)) m).
    { induction m; simpl; congruence. }
    rewrite !Q. now apply Permutation_map. }
  intros. split; intros.
  - unfold sy_spectrum. apply K; auto.
  - rewrite !ic_spectrum_map. apply K; auto.
Qed.
Print Assumptions C22_permutation.

(** ** C23: kinematic limits of inverse Compton *)
Lemma gam_le_max mec2 nd Emin Emax g : 0 < mec2 -> 0 < Emin < Emax -> In g (gam mec2 nd Emin Emax) -> 0 < g /\ g <= Emax / mec2.
Proof.
  intros Hm HE Hg.
  assert (G : grid (gam mec2 nd Emin Emax)) by (apply gam_grid; lra).
  split; [destruct G as [G _]; rewrite Forall_forall in G; auto|].
  unfold gam in Hg. set (N := npoints _) in Hg.
  assert (HN : (10 <= N)%nat) by apply npoints_ge.
  destruct (In_nth _ _ 0 Hg) as (i & Hi & E). rewrite logspace_length in Hi.
  rewrite logspace_nth in E by lia. subst g.
  set (a := log10 (Emin / mec2)) in *. set (b := log10 (Emax / mec2)) in *.
  assert (a < b) by (apply log10_ratio; lra).
  rewrite <- (pow10_log10 (Emax / mec2)) by (apply div_pos; lra). fold b.
  assert (P : 0 < INR (N - 1)) by (apply lt_0_INR; lia).
  assert (Q : INR i <= INR (N - 1)) by (apply le_INR; lia).
  assert (L : a + INR i * ((b - a) / INR (N - 1)) <= b).
  { assert (INR i * ((b - a) / INR (N - 1)) <= INR (N - 1) * ((b - a) / INR (N - 1))).
    { apply Rmult_le_compat_r; auto. apply Rmult_le_pos; [lra|]. apply Rlt_le, Rinv_0_lt_compat; auto. }
    replace (INR (N - 1) * ((b - a) / INR (N - 1))) with (b - a) in H0 by (field; lra). lra. }
  destruct L as [L|L]; [apply Rlt_le, pow10_lt; auto|rewrite L; lra].
Qed.

(** the seed photons of a line or spectrum have positive energies *)
Definition positive_energies (s : seed) : Prop :=
  match s with Thermal _ _ _ => True | Array es _ _ => forall e, In e es -> 0 < e end.

(** No kernel produces a photon with at least the energy of its electron, and at
    or above the maximum electron energy the whole spectrum is exactly zero.
    (Negative seed photon energies, which are not refused: C161.) *)
Theorem C23_photon_below_electron :
  (forall s electron gamma, 0 < electron -> positive_energies s -> electron <= gamma -> seed_kernel s electron gamma = 0) /\
  (forall mec2 ar pd nd Emin Emax seeds Es, 0 < mec2 -> 0 < Emin < Emax -> (forall s, In s seeds -> positive_energies s) ->
     Forall (fun E => Emax <= E) Es ->
     Forall (fun s => s = 0) (ic_spectrum mec2 ar pd (gam mec2 nd Emin Emax) seeds Es)).
Proof.
  assert (PS : forall s, positive_energies s -> positive_seed s).
  { intros [T u th|es ns th] H; simpl in *; auto. apply Forall_forall; auto. }
  split; [intros; apply seed_kernel_zero; auto|].
  intros mec2 ar pd nd Emin Emax seeds Es Hm HE Hseeds HEs. rewrite ic_spectrum_map. apply Forall_map.
  eapply Forall_impl; [|exact HEs]. intros E HE0. simpl.
  replace (map _ seeds) with (map (fun _ : seed => 0) seeds).
  - clear Hseeds. induction seeds; simpl; lra.
  - apply map_ext_in. intros s Hs. unfold specic1. rewrite kernel_integral_zero.
    + unfold Rdiv. rewrite Rmult_0_r. now rewrite Rmult_0_l.
    + intros g Hg. destruct (gam_le_max mec2 nd Emin Emax g) as [G1 G2]; auto.
      apply seed_kernel_zero; auto. { apply to_mec2_positive; auto. } apply Rle_trans with (Emax / mec2); auto.
      apply Rmult_le_compat_r; auto. apply Rlt_le, Rinv_0_lt_compat; auto.
Qed.
Print Assumptions C23_photon_below_electron.

(** A line of energy eps scatters only into eps e/(e+eps) <= gamma <= e b/(1+b)
    with b = 4 eps e (energies in units of the electron rest energy). *)
Theorem C23_line_kinematics : forall electron eps n gamma, 1 / 2 < electron -> 0 < eps -> 0 < gamma ->
  (gamma < eps * electron / (electron + eps) \/ electron * (4 * eps * electron) / (1 + 4 * eps * electron) < gamma) ->
  iso_ic_on_monochromatic electron [eps] [n] gamma = 0.
Proof.
  intros electron eps n gamma He Hp Hg H. unfold iso_ic_on_monochromatic.
  replace (aa_kernel electron eps gamma) with 0; [ring|]. symmetry.
  destruct H; [apply aa_zero_below|apply aa_zero_above]; auto; lra.
Qed.
Print Assumptions C23_line_kinematics.

(** ... and inside that range it does produce photons: the limits are sharp. *)
Theorem C23_thermal_positive : forall T u electron gamma, 0 < T -> 0 < gamma -> gamma < electron -> 1 < electron ->
  0 < seed_kernel (Thermal T u None) electron gamma /\
  forall th, cos th < 1 -> 0 < seed_kernel (Thermal T u (Some th)) electron gamma.
Proof. intros. split; intros; simpl; [apply iso_pos|apply ani_pos]; auto. Qed.
Print Assumptions C23_thermal_positive.

Example C23_example : 1 / 2 < 10 /\ 10 * (4 * 1 * 10) / (1 + 4 * 1 * 10) < 99 / 10.
Proof. lra. Qed.

(** ** C24: grey bodies *)
Definition blackbody_density (ar T : R) : R := ar * T ^ 4.
Theorem C24_grey_body : forall mec2 ar pd gs T u theta Es, 0 < ar -> 0 < T ->
  calc_specic mec2 ar pd gs (Thermal T u theta) Es
  = map (Rmult (u / blackbody_density ar T)) (calc_specic mec2 ar pd gs (Thermal T (blackbody_density ar T) theta) Es).
Proof.
  intros mec2 ar pd gs T u theta Es Ha HT. unfold calc_specic. rewrite map_map. apply map_ext. intros E.
  assert (HB : blackbody_density ar T <> 0).
  { apply Rgt_not_eq. unfold blackbody_density. apply Rmult_lt_0_compat; auto. apply pow_lt; auto. }
  assert (HK : forall g, seed_kernel (to_mec2 mec2 (Thermal T (blackbody_density ar T) theta)) g (E / mec2)
                       = seed_kernel (to_mec2 mec2 (Thermal T u theta)) g (E / mec2)) by (intros; destruct theta; reflexivity).
  cbv beta; rewrite (map_ext _ (fun g => seed_kernel (to_mec2 mec2 (Thermal T u theta)) g (E / mec2)) HK gs). cbn [seed_factor]. fold (blackbody_density ar T).
  set (I := trapz_loglog _ _). clearbody I. unfold Rdiv. rewrite (Rinv_r _ HB). ring.
Qed.
Print Assumptions C24_grey_body.

(** An energy density of 0 (a plain number or a quantity) means the pure black
    body, a density below 0 or a negative temperature is refused, any other
    density is kept. *)
Theorem C24_zero_is_blackbody : forall ar T name,
  (0 <= T -> process1 ar 1 (SIso name (Temperature T) (Plain 0)) = Ok (name, Thermal T (blackbody_density ar T) None)) /\
  (0 <= T -> process1 ar 1 (SIso name (Temperature T) (EnergyDensity [0])) = Ok (name, Thermal T (blackbody_density ar T) None)) /\
  (0 <= T -> forall u, 0 < u -> process1 ar 1 (SIso name (Temperature T) (EnergyDensity [u])) = Ok (name, Thermal T u None)) /\
  (0 <= T -> forall u, u < 0 -> process1 ar 1 (SIso name (Temperature T) (EnergyDensity [u])) = Err "ValueError") /\
  (T < 0 -> forall u, process1 ar 1 (SIso name (Temperature T) u) = Err "ValueError").
Proof.
  intros. unfold process1, thermal, blackbody_density.
  repeat split; intros HT; intros; (destruct (Rlt_dec T 0); [try lra|try lra]); simpl; auto;
    repeat match goal with |- context [Req_EM_T ?a ?b] => destruct (Req_EM_T a b) end; simpl; auto; try lra.
  - destruct (Rlt_dec u 0); auto; lra.
  - destruct (Rlt_dec u 0); auto; lra.
Qed.
Print Assumptions C24_zero_is_blackbody.

(** ** C25 *)
(** The name a requested field is stored under. *)
Definition requested_name (i : inseed) : string :=
  match i with SName s => s | SIso n _ _ => n | SAni n _ _ _ => n | SBad => "" end.

Lemma process1_name ar eV i n s : process1 ar eV i = Ok (n, s) -> n = requested_name i.
Proof.
  destruct i; simpl; intros H; try discriminate.
  - destruct (named ar eV s0); inversion H; auto.
  - destruct T; match type of H with omap _ ?x = _ => destruct x end; inversion H; auto.
  - destruct theta; [|discriminate]. destruct T; match type of H with omap _ ?x = _ => destruct x end; inversion H; auto.
Qed.

Lemma dset_new {V} k (v : V) d : ~ In k (dkeys d) -> dset k v d = d ++ [(k, v)].
Proof.
  induction d as [|[k' v'] d IH]; simpl; intros H; auto.
  destruct (String.eqb_spec k k') as [->|N]; [tauto|]. rewrite IH by tauto. reflexivity.
Qed.

Lemma fold_err ar eV e l : fold_left (fun acc i => obind acc (fun d => obind (process1 ar eV i) (fun p => Ok (dset (fst p) (snd p) d))))
              l (Err e) = Err e.
Proof. induction l; simpl; auto. Qed.

Lemma process_fold ar eV l : forall d,
  NoDup (dkeys d ++ map requested_name l) ->
  fold_left (fun acc i => obind acc (fun d => obind (process1 ar eV i) (fun p => Ok (dset (fst p) (snd p) d)))) l (Ok d)
  = omap (fun r => d ++ r) (mapM (process1 ar eV) l).
Proof.
  induction l as [|i l IH]; intros d ND.
  - simpl. now rewrite app_nil_r.
  - cbn [fold_left mapM obind]. destruct (process1 ar eV i) as [[n s]|e] eqn:P; cbn [obind omap fst snd].
    + pose proof (process1_name _ _ _ _ _ P) as EN. simpl in ND.
      assert (NI : ~ In n (dkeys d)).
      { apply NoDup_remove_2 in ND. rewrite EN. intros C. apply ND. apply in_or_app; auto. }
      rewrite dset_new by auto. rewrite IH.
      * destruct (mapM (process1 ar eV) l); simpl; auto. now rewrite <- app_assoc.
      * unfold dkeys in *. rewrite map_app. simpl. rewrite <- app_assoc. simpl. rewrite EN. exact ND.
    + apply fold_err.
Qed.

(** With pairwise different names every requested field is stored, under its
    name, in the order of the request, and an invalid field makes the whole
    request fail with its error. *)
Theorem C25_distinct_names : forall ar eV l, NoDup (map requested_name l) ->
  process_list ar eV l = mapM (process1 ar eV) l /\
  forall d, process_list ar eV l = Ok d -> dkeys d = map requested_name l.
Proof.
  intros ar eV l ND. assert (E : process_list ar eV l = mapM (process1 ar eV) l).
  { unfold process_list. rewrite process_fold by auto. destruct (mapM _ _); reflexivity. }
  split; auto. rewrite E. clear E ND. induction l as [|i l IH]; simpl; intros d H.
  - inversion H. reflexivity.
  - destruct (process1 ar eV i) as [[n s]|] eqn:P; [|discriminate]. simpl in H.
    destruct (mapM (process1 ar eV) l) as [r|] eqn:M; [|discriminate]. simpl in H. inversion H; subst.
    simpl. f_equal; [eapply process1_name; eauto|]. apply IH; auto.
Qed.
Print Assumptions C25_distinct_names.

(** Refuted in general: a second field of the same name replaces the first, which
    then contributes nothing, without an error. *)
Theorem C126_duplicate_name_refuted : forall ar eV, 0 < ar ->
  exists l d, process_list ar eV l = Ok d /\ (List.length d < List.length l)%nat /\
    exists i s, nth_error l 0 = Some i /\ process1 ar eV i = Ok s /\ ~ In s d.
Proof.
  intros ar eV Ha.
  exists [SIso "star" (Temperature 3000) (Plain 0); SIso "star" (Temperature 30) (Plain 0)],
         [("star"%string, Thermal 30 (ar * 30 ^ 4) None)].
  unfold process_list. simpl. unfold thermal.
  destruct (Rlt_dec 3000 0); [lra|]. destruct (Rlt_dec 30 0); [lra|]. destruct (Req_EM_T 0 0); [|lra]. simpl.
  split; [reflexivity|]. split; [lia|]. eexists. eexists. split; [reflexivity|]. simpl. unfold thermal.
  destruct (Rlt_dec 3000 0); [lra|]. destruct (Req_EM_T 0 0); [|lra]. split; [reflexivity|].
  intros [C|[]]. injection C as C _. lra.
Qed.
Print Assumptions C126_duplicate_name_refuted.

(** A string request "A-B-..." is the same as the list of its parts. *)
Fixpoint join_dash (l : list string) : string :=
  match l with
  | [] => EmptyString
  | [s] => s
  | s :: r => (s ++ String "-"%char (join_dash r))%string
  end.
Fixpoint no_dash (s : string) : bool :=
  match s with EmptyString => true | String c r => negb (Ascii.eqb c "-"%char) && no_dash r end.

Lemma split_single s : no_dash s = true -> split_dash s = [s].
Proof.
  induction s as [|c s IH]; simpl; intros H; auto. apply Bool.andb_true_iff in H. destruct H as [H1 H2].
  destruct (Ascii.eqb c "-"%char); [discriminate|]. rewrite IH by auto. reflexivity.
Qed.
Lemma split_cons s r : no_dash s = true -> split_dash (s ++ String "-"%char r)%string = s :: split_dash r.
Proof.
  induction s as [|c s IH]; simpl; intros H; auto. apply Bool.andb_true_iff in H. destruct H as [H1 H2].
  destruct (Ascii.eqb c "-"%char); [discriminate|]. rewrite IH by auto. reflexivity.
Qed.
Theorem C25_string_is_list : forall ar eV l, l <> [] -> Forall (fun s => no_dash s = true) l ->
  process_string ar eV (join_dash l) = process_list ar eV (map SName l).
Proof.
  intros ar eV l HN HF. unfold process_string. do 2 f_equal.
  induction l as [|s [|s2 l] IH]; [congruence| |].
  - inversion HF; subst. apply split_single; auto.
  - inversion HF; subst. cbn [join_dash]. rewrite split_cons by auto. f_equal. apply IH; auto. congruence.
Qed.
Print Assumptions C25_string_is_list.

Example C25_example : join_dash ["CMB"; "FIR"]%string = "CMB-FIR"%string /\ no_dash "CMB" = true /\ no_dash "FIR" = true.
Proof. repeat split. Qed.

Lemma fold_names ar eV pre : forall d,
  let r := fold_left (fun acc i => obind acc (fun d => obind (process1 ar eV i) (fun p => Ok (dset (fst p) (snd p) d))))
              (map SName pre) (Ok d) in
  r = Err "TypeError"%string \/ exists d', r = Ok d'.
Proof.
  induction pre as [|p pre IH]; intros d; [right; exists d; reflexivity|]. cbn [map fold_left obind process1].
  destruct (named ar eV p) as [x|e] eqn:N; cbn [omap obind].
  - apply IH.
  - left. rewrite fold_err. unfold named in N.
    repeat match type of N with context [if ?b then _ else _] => destruct b; [discriminate|] end. congruence.
Qed.

(** Any other word in the string is refused. *)
Theorem C25_unknown_name : forall ar eV pre s post, s <> "CMB"%string -> s <> "FIR"%string -> s <> "NIR"%string ->
  exists e, process_list ar eV (map SName pre ++ SName s :: post) = Err e.
Proof.
  intros ar eV pre s post H1 H2 H3. exists "TypeError"%string. unfold process_list. rewrite fold_left_app.
  destruct (fold_names ar eV pre []) as [->|[d ->]]; [apply fold_err|]. cbn [fold_left process1 obind]. unfold named.
  destruct (String.eqb_spec s "CMB"); [contradiction|]. destruct (String.eqb_spec s "FIR"); [contradiction|].
  destruct (String.eqb_spec s "NIR"); [contradiction|]. cbn [omap obind]. apply fold_err.
Qed.
Print Assumptions C25_unknown_name.

(** ** C66 refuted: for a seed given as energies the angle is accepted and then
    never used: every angle gives the isotropic spectrum. *)
Theorem C66_angle_ignored_refuted : forall ar eV name es us th,
  forall s, process1 ar eV (SAni name (Energies es) us (Angle th)) = Ok (name, s) ->
  exists s0, process1 ar eV (SIso name (Energies es) us) = Ok (name, s0) /\
  forall mec2 pd gs Es, calc_specic mec2 ar pd gs s Es = calc_specic mec2 ar pd gs s0 Es.
Proof.
  intros ar eV name es us th s H.
  assert (K : forall o o', (forall x, o' = Ok x -> exists y, o = Ok y /\
               forall mec2 pd gs Es, calc_specic mec2 ar pd gs x Es = calc_specic mec2 ar pd gs y Es) ->
             omap (fun r : seed => (name, r)) o' = Ok (name, s) ->
             exists s0, omap (fun r : seed => (name, r)) o = Ok (name, s0) /\
               forall mec2 pd gs Es, calc_specic mec2 ar pd gs s Es = calc_specic mec2 ar pd gs s0 Es).
  { intros o o' HO HS. destruct o' as [x|]; [|discriminate]. simpl in HS. inversion HS; subst.
    destruct (HO s eq_refl) as (y & -> & HY). exists y. auto. }
  simpl in H |- *. eapply K; [|exact H]. intros x. unfold array.
  destruct es as [|e0 [|e1 es]], us as [p|l|l|]; try discriminate; try destruct l as [|x0 [|x1 l]]; try discriminate; simpl;
    repeat match goal with |- context [if ?b then _ else _] => destruct b end; intros HX; try discriminate;
    injection HX as <-; eexists; (split; [reflexivity|]); intros; unfold calc_specic; apply map_ext; intros E; simpl;
    try reflexivity.
  all: destruct es; reflexivity.
Qed.
Print Assumptions C66_angle_ignored_refuted.

Example C66_example : exists s, process1 1 1 (SAni "line" (Energies [1]) (EnergyDensity [2]) (Angle 1)) = Ok ("line"%string, s).
Proof. simpl. destruct (Rlt_dec 2 0); [lra|]. eexists. reflexivity. Qed.

(** ... while for a thermal seed the angle matters. *)
(** ** C67 refuted: seed photon energies in decreasing order are accepted and
    give a flux that is never positive. *)
Lemma sorted_gt_div k l : 0 < k -> StronglySorted Rgt l -> StronglySorted Rgt (map (fun x => x / k) l).
Proof.
  intros Hk. induction 1 as [|x l H1 IH H2]; simpl; constructor; auto.
  apply Forall_map. eapply Forall_impl; [|exact H2]. intros y Hy. simpl.
  unfold Rgt in *. apply Rmult_lt_compat_r; auto. apply Rinv_0_lt_compat; auto.
Qed.

Lemma interval_opp x1 x2 y1 y2 : interval x1 x2 (- y1) (- y2) = - interval x1 x2 y1 y2.
Proof.
  unfold interval. destruct (Req_EM_T y1 0) as [->|N1].
  { rewrite Ropp_0. destruct (Req_EM_T 0 0); lra. }
  destruct (Req_EM_T (- y1) 0); [lra|]. destruct (Req_EM_T y2 0) as [->|N2].
  { rewrite Ropp_0. destruct (Req_EM_T 0 0); lra. }
  destruct (Req_EM_T (- y2) 0); [lra|]. destruct (Req_EM_T x1 x2); [lra|].
  apply raw_interval_opp; auto.
Qed.
Lemma trapz_opp ys : forall xs, trapz_loglog (map Ropp ys) xs = - trapz_loglog ys xs.
Proof.
  induction ys as [|y1 ys IH]; intros xs; [unfold trapz_loglog; simpl; ring|].
  destruct ys as [|y2 ys]; [destruct xs as [|? [|]]; unfold trapz_loglog; simpl; ring|].
  destruct xs as [|x1 [|x2 xs]]; [unfold trapz_loglog; simpl; ring..|].
  specialize (IH (x2 :: xs)). cbn [map] in *. rewrite !trapz_cons2, IH, interval_opp. ring.
Qed.

Lemma mono_decreasing mec2 es ns g gamma : 0 < mec2 -> (2 <= List.length es)%nat ->
  Forall (fun x => 0 < x) es -> StronglySorted Rgt es -> Forall (fun n => 0 <= n) ns -> 0 < g -> 0 < gamma ->
  iso_ic_on_monochromatic g (map (fun e => e / mec2) es) (map (fun n => n * mec2) ns) gamma <= 0.
Proof.
  intros Hm HL HX HS HN Hg Hga. unfold iso_ic_on_monochromatic.
  pose proof (mono_factor_pos g Hg) as F.
  match goal with |- ?a * _ <= 0 => assert (A : a <= 0); [|nra] end.
  set (es' := map (fun e => e / mec2) es). set (ns' := map (fun n => n * mec2) ns).
  assert (L' : (2 <= List.length es')%nat) by (unfold es'; now rewrite map_length).
  assert (X' : Forall (fun x => 0 < x) es').
  { unfold es'. apply Forall_map. eapply Forall_impl; [|exact HX]. intros; simpl. apply div_pos; auto. }
  assert (T : trapz_loglog (map (fun p => aa_kernel g (fst p) gamma * snd p / fst p) (combine es' ns')) es' <= 0).
  { apply trapz_reversed_nonpos; auto.
    - apply sorted_gt_div; auto.
    - apply Forall_forall. intros y Hy. apply in_map_iff in Hy. destruct Hy as ([e n] & <- & HI). simpl.
      assert (HI1 := in_combine_l _ _ _ _ HI). assert (HI2 := in_combine_r _ _ _ _ HI).
      rewrite Forall_forall in X'. specialize (X' e HI1).
      unfold ns' in HI2. apply in_map_iff in HI2. destruct HI2 as (n0 & <- & HI2). rewrite Forall_forall in HN.
      specialize (HN n0 HI2). apply Rmult_le_pos; [|apply Rlt_le, Rinv_0_lt_compat; auto].
      apply Rmult_le_pos; [apply aa_nonneg; auto|]. apply Rmult_le_pos; lra. }
  destruct es' as [|a [|b es']]; simpl in L'; try lia. destruct ns'; exact T.
Qed.

Theorem C67_decreasing_seed_energies_refuted : forall mec2 ar eV pd nd Emin Emax name es ns Es,
  0 < mec2 -> 0 < Emin < Emax -> (forall x, 0 < x -> 0 <= pd x) -> Forall (fun E => 0 < E) Es ->
  (2 <= List.length es)%nat -> Forall (fun x => 0 < x) es -> StronglySorted Rgt es ->
  Forall (fun n => 0 <= n) ns ->
  exists s, process1 ar eV (SIso name (Energies es) (NumberDensity ns)) = Ok (name, s) /\
  Forall (fun y => y <= 0) (calc_specic mec2 ar pd (gam mec2 nd Emin Emax) s Es).
Proof.
  intros mec2 ar eV pd nd Emin Emax name es ns Es Hm HE HP HEs HL HX HS HN.
  exists (Array es ns None). split.
  { destruct es as [|e0 [|e1 es]]; simpl in HL; try lia. reflexivity. }
  assert (K : to_mec2 mec2 (Array es ns None) = Array (map (fun e => e / mec2) es) (map (fun n => n * mec2) ns) None).
  { destruct es as [|e0 [|e1 es]]; simpl in HL; try lia. reflexivity. }
  unfold calc_specic. rewrite K. apply Forall_map. eapply Forall_impl; [|exact HEs]. intros E HE0.
  cbn [seed_factor]. set (gs := gam mec2 nd Emin Emax). assert (G : grid gs) by (apply gam_grid; lra).
  assert (HEm : 0 < E / mec2) by (apply div_pos; auto).
  match goal with |- 1 * _ * ?t / E <= 0 => assert (T : 0 <= - t) end.
  { rewrite nelec_kernel, <- trapz_opp, map_map. apply trapz_nonneg; auto. apply Forall_forall. intros y Hy.
    apply in_map_iff in Hy. destruct Hy as (g & <- & Hg). destruct G as [G _]. rewrite Forall_forall in G. specialize (G g Hg).
    assert (Q : seed_kernel (Array (map (fun e => e / mec2) es) (map (fun n => n * mec2) ns) None) g (E / mec2) <= 0)
      by (apply mono_decreasing; auto).
    assert (0 <= pd (g * mec2) * mec2) by (apply Rmult_le_pos; [apply HP; apply Rmult_lt_0_compat; auto|lra]). nra. }
  match goal with |- 1 * _ * ?t / E <= 0 => set (I := t) in * end.
  assert (0 < / E) by (apply Rinv_0_lt_compat; auto). unfold Rdiv at 1. assert (1 * (E / mec2) * I <= 0) by nra. nra.
Qed.
Print Assumptions C67_decreasing_seed_energies_refuted.

(** ** C68 refuted: a negative magnetic field is accepted (validate_scalar is
    called without a domain); every kernel value is that of |B| times
    exp(2 E/Ec), i.e. growing instead of falling beyond the critical energy. *)
Theorem C68_negative_B_refuted : forall k B g E, sy_ok k -> 0 < B -> 0 < g -> 0 < E ->
  sy_kernel k (- B) g E = sy_kernel k B g E * exp (2 * (E / Ecrit k B g)) /\
  sy_kernel k B g E < sy_kernel k (- B) g E.
Proof.
  intros k B g E Hk HB Hg HE. pose proof (sy_kernel_negB k B g E Hk HB Hg HE) as Q. split; auto.
  rewrite Q. pose proof (sy_kernel_pos k B g E Hk HB Hg HE) as P.
  assert (1 < exp (2 * (E / Ecrit k B g))).
  { rewrite <- exp_0. apply exp_increasing. assert (0 < E / Ecrit k B g) by (apply div_pos; auto; apply Ecrit_pos; auto). lra. }
  nra.
Qed.
Print Assumptions C68_negative_B_refuted.

Example C68_example : sy_ok (mkSy 1 1 1 1) /\ 0 < 1 /\ 0 < 5.
Proof. unfold sy_ok; simpl. lra. Qed.
