(** Properties C17, C19, C20, C32, C62, C65: energy content, flux and SED. *)
From Coq Require Import Reals ZArith List Lra Lia Sorted String.
From Verif Require Import SpectralModel Outcome TrapzModel TrapzSpec TrapzProofs EnergyModel EnergyProofs FluxModel.
Import ListNotations.
Local Open Scope R_scope.

(** ** C32: the grids, for any requested range Emin < Emax and any number of
    points per decade. [unit] is the electron rest energy (Lorentz factors) or
    1 GeV (protons). *)
Theorem C32_grids : forall unit nd Emin Emax, 0 < unit -> 0 < Emin -> Emin < Emax ->
  let ge := gam unit nd Emin Emax in
  let gp := Ep unit nd Emin Emax in
  let N := Z.to_nat (Z.max 10 (Int_part (nd * (ln (Emax / Emin) / ln 10)))) in
  forall g, g = ge \/ g = gp ->
  List.length g = N /\ (10 <= N)%nat /\
  hd 0 g * unit = Emin /\ last g 0 * unit = Emax /\
  StronglySorted Rlt g /\ Forall (fun x => 0 < x) g /\
  (* equal ratios between neighbours *)
  (forall i, (S i < N)%nat -> nth (S i) g 0 / nth i g 0 = Rpower (Emax / Emin) (/ (INR (N - 1)))).
Proof.
  intros unit nd Emin Emax Hu Hmin Hlt ge gp N g Hg.
  assert (EL : log10 (Emax / unit) - log10 (Emin / unit) = ln (Emax / Emin) / ln 10).
  { rewrite !log10_div by lra. unfold log10. rewrite ln_div by lra. pose proof ln10_pos. field. lra. }
  assert (EQ : g = logspace (log10 (Emin / unit)) (log10 (Emax / unit)) N).
  { destruct Hg as [->| ->].
    - unfold ge, gam. rewrite EL. reflexivity.
    - reflexivity. }
  assert (HN : (10 <= N)%nat) by (unfold N; lia).
  clearbody N. clear Hg. subst g.
  pose proof (log10_ratio unit Emin Emax Hu Hmin Hlt) as HL.
  destruct (logspace_grid (log10 (Emin / unit)) (log10 (Emax / unit)) N ltac:(lia) HL) as [G1 G2].
  assert (Pn : 0 < INR (N - 1)) by (apply lt_0_INR; lia).
  repeat split; auto.
  - apply logspace_length.
  - pose proof (logspace_nth (log10 (Emin / unit)) (log10 (Emax / unit)) N 0 0 ltac:(lia) ltac:(lia)) as E.
    assert (H0 : forall l : list R, nth 0 l 0 = hd 0 l) by (intros [|]; reflexivity).
    rewrite H0 in E. rewrite E. simpl INR. rewrite Rmult_0_l, Rplus_0_r, pow10_log10 by (apply div_pos; lra). field. lra.
  - assert (HLst : forall l : list R, last l 0 = nth (List.length l - 1) l 0).
    { induction l as [|x [|y l] IH]; auto. change (last (x :: y :: l) 0) with (last (y :: l) 0). rewrite IH.
      simpl. now rewrite Nat.sub_0_r. }
    rewrite HLst, logspace_length, logspace_nth by lia.
    replace (log10 (Emin / unit) + INR (N - 1) * ((log10 (Emax / unit) - log10 (Emin / unit)) / INR (N - 1)))
      with (log10 (Emax / unit)) by (field; lra).
    rewrite pow10_log10 by (apply div_pos; lra). field. lra.
  - intros i Hi. rewrite !logspace_nth by lia.
    unfold pow10, Rpower, Rdiv at 1. rewrite <- exp_Ropp, <- exp_plus. f_equal.
    rewrite S_INR. unfold log10. rewrite !ln_div by lra. pose proof ln10_pos. field. lra.
Qed.
Print Assumptions C32_grids.

Example C32_example : (0 < 1 /\ 0 < 2 /\ 2 < 200)%R.
Proof. lra. Qed.

(** ** C17 *)
(** A particle distribution as a function of its amplitude and of the energy,
    proportional to its amplitude. *)
Definition proportional (f : R -> R -> R) : Prop := forall c a E, f (c * a) E = c * f a E.

(** Setting the energy content between any two energies (either bound may be
    omitted) and asking for it again returns the value set, for electrons and
    for protons, whichever way the amplitude is named. *)
#[local] Opaque npoints.
Theorem C17_set_energy : forall m nd W smin smax lo hi named fresh h d,
  0 < m -> 0 <= W -> proportional (eval d) ->
  let a := match lo with Some x => x | None => smin end in
  let b := match hi with Some x => x | None => smax end in
  0 < smin -> 0 < smax -> 0 < a < b ->
  (forall E, a <= E <= b -> 0 < as_function h d E) ->
  let We pd := compute_We m nd pd smin smax lo hi in
  let Wp pd := compute_Wp m nd pd smin smax lo hi in
  (let (h', d') := set_energy We named fresh h d W in We (as_function h' d') = W) /\
  (let (h', d') := set_energy Wp named fresh h d W in Wp (as_function h' d') = W).
Proof.
  intros m nd W smin smax lo hi named fresh h d Hm HW HP a b H1 H2 Hab HPos We Wp'.
  assert (EP : forall pd, Wp' pd = We pd).
  { intros pd. unfold Wp', We. rewrite compute_Wp_as_We; [reflexivity|assumption|assumption|assumption| |].
    - intros x ->. unfold a in Hab. lra.
    - intros x ->. unfold b in Hab. lra. }
  assert (EW : forall pd, We pd = electron_energy m pd (gam m nd a b)).
  { intros pd. unfold We, compute_We, a, b. destruct lo, hi; reflexivity. }
  assert (P : 0 < We (as_function h d)) by (rewrite EW; apply electron_energy_pos; auto; lra).
  assert (K : forall h' d', eval d' = eval d ->
            h' (amplitude d') = h (amplitude d) * (W / We (as_function h d)) ->
            We (as_function h' d') = W).
  { intros h' d' E1 E2.
    transitivity (We (fun E => (W / We (as_function h d)) * as_function h d E)).
    - unfold We at 1 2. apply compute_We_ext. intros E. unfold as_function. rewrite E1, E2, Rmult_comm. apply HP.
    - unfold We at 1. rewrite compute_We_scale.
      + fold (We (as_function h d)). field. lra.
      + apply Rmult_le_pos; auto. apply Rlt_le, Rinv_0_lt_compat; auto. }
  assert (HS : forall hh x v, hset hh x v x = v) by (intros; unfold hset; now rewrite Nat.eqb_refl).
  split; unfold set_energy; destruct named; rewrite ?EP; apply K; simpl; auto.
Qed.
Print Assumptions C17_set_energy.

(** The naima spectral models are proportional to their amplitude. *)
Theorem C17_models_proportional : forall e0 a a1 a2 eb ec b,
  proportional (fun A E => power_law E A e0 a) /\
  proportional (fun A E => cutoff_power_law E A e0 a ec b) /\
  proportional (fun A E => broken_power_law E A e0 eb a1 a2) /\
  proportional (fun A E => cutoff_broken_power_law E A e0 eb a1 a2 ec b) /\
  proportional (fun A E => log_parabola E A e0 a b) /\
  (forall cubic en vals, proportional (fun A E => table_call cubic en vals A E)).
Proof.
  intros. repeat split; intros; intros c A E.
  - unfold power_law. ring.
  - unfold cutoff_power_law. ring.
  - unfold broken_power_law. ring.
  - unfold cutoff_broken_power_law. ring.
  - unfold log_parabola. ring.
  - unfold table_call. ring.
Qed.
Print Assumptions C17_models_proportional.

(** Explicitly passing the model's own bounds is the same as omitting them. *)
Theorem C17_default_bounds : forall m nd pd smin smax, 0 < m -> 0 < smin -> 0 < smax ->
  compute_We m nd pd smin smax (Some smin) (Some smax) = compute_We m nd pd smin smax None None /\
  compute_Wp m nd pd smin smax (Some smin) (Some smax) = compute_Wp m nd pd smin smax None None.
Proof.
  intros. split; [reflexivity|].
  rewrite !compute_Wp_as_We; auto; try discriminate; intros x [= <-]; auto.
Qed.
Print Assumptions C17_default_bounds.

Example C17_example :
  let d := mkDist 0 (fun A E => power_law E A 1 2) in let h := fun _ : nat => 5 in
  proportional (eval d) /\ (forall E, 1 <= E <= 10 -> 0 < as_function h d E).
Proof.
  intros d h. split; [apply C17_models_proportional; exact 0|].
  intros E HE. unfold as_function, d, h, power_law. simpl. apply Rmult_lt_0_compat; [lra|apply exp_pos].
Qed.

(** ** C62 *)
(** Refuted: with the default amplitude name, setting the energy content of one
    distribution changes the amplitude seen through every other distribution (or
    variable) built from the same Quantity. *)
Theorem C62_shared_amplitude_refuted :
  exists (d1 d2 : dist) h W old, proportional (eval d1) /\ proportional (eval d2) /\
    old (as_function h d1) > 0 /\ W > 0 /\
    let (h', d1') := set_energy old false 7 h d1 W in
    exists E, as_function h' d2 E <> as_function h d2 E.
Proof.
  exists (mkDist 0 (fun A E => A)), (mkDist 0 (fun A E => A * E)), (fun _ => 1), 2, (fun pd => pd 1).
  unfold proportional; simpl. repeat split; intros; try ring; try lra.
  exists 1. unfold as_function, hset; simpl. lra.
Qed.
Print Assumptions C62_shared_amplitude_refuted.

(** Proved: distributions whose amplitude is a different Quantity are untouched,
    and with an explicit amplitude name every other one is. *)
Theorem C62_others_untouched_partial : forall old named fresh h d W d2,
  (named = true -> amplitude d2 <> fresh) -> (named = false -> amplitude d2 <> amplitude d) ->
  let (h', d') := set_energy old named fresh h d W in
  forall E, as_function h' d2 E = as_function h d2 E.
Proof.
  intros old named fresh h d W d2 H1 H2. unfold set_energy. destruct named; intros E; unfold as_function, hset; simpl.
  - destruct (Nat.eqb_spec fresh (amplitude d2)); auto. exfalso. apply H1; auto.
  - destruct (Nat.eqb_spec (amplitude d) (amplitude d2)); auto. exfalso. apply H2; auto.
Qed.
Print Assumptions C62_others_untouched_partial.

(** ** C65 refuted: with the bounds given in the wrong order, setting a positive
    energy content makes the amplitude of any positive distribution negative. *)
Theorem C65_reversed_bounds_refuted : forall m nd W smin smax lo hi fresh h d,
  0 < m -> 0 < W -> 0 < lo -> lo < hi -> 0 < h (amplitude d) ->
  (forall E, 0 < E -> 0 < as_function h d E) ->
  let We pd := compute_We m nd pd smin smax (Some hi) (Some lo) in
  We (as_function h d) < 0 /\
  let (h', d') := set_energy We false fresh h d W in h' (amplitude d') < 0.
Proof.
  intros m nd W smin smax lo hi fresh h d Hm HW Hlo Hlt HA HP We.
  assert (N : We (as_function h d) < 0) by (apply electron_energy_reversed; auto).
  split; auto. unfold set_energy, hset. simpl. rewrite Nat.eqb_refl.
  assert (W / We (as_function h d) < 0); [|nra].
  unfold Rdiv. assert (/ We (as_function h d) < 0) by (apply Rinv_lt_0_compat; auto). nra.
Qed.
Print Assumptions C65_reversed_bounds_refuted.

(** ** C19 *)
Lemma four_pi_d2 d : d <> 0 -> 4 * PI * d ^ 2 <> 0.
Proof. intros. pose proof PI_RGT_0. apply Rmult_integral_contrapositive_currified; [lra|]. apply pow_nonzero; auto. Qed.

Theorem C19_inverse_square : forall spectrum energies d f L,
  d <> 0 ->
  flux spectrum energies (Length d) = Ok f -> flux spectrum energies (Number 0) = Ok L ->
  map (fun x => x * (4 * PI * d ^ 2)) f = L /\
  (forall d2 f2, d2 <> 0 -> flux spectrum energies (Length d2) = Ok f2 ->
     map (fun x => x * d ^ 2) f = map (fun x => x * d2 ^ 2) f2).
Proof.
  intros spectrum energies d f L Hd HF HL. unfold flux in HF, HL.
  destruct (spectrum energies) as [s|] eqn:ES; [|discriminate]. simpl in HF, HL.
  destruct (Req_EM_T d 0); [contradiction|]. destruct (Req_EM_T 0 0); [|lra].
  simpl in HF. injection HF as <-. injection HL as <-. split.
  - rewrite map_map. rewrite <- (map_id s) at 2. apply map_ext. intros x. pose proof PI_RGT_0. field. split; [auto|lra].
  - intros d2 f2 H2 HF2. unfold flux in HF2. rewrite ES in HF2. simpl in HF2. destruct (Req_EM_T d2 0); [contradiction|].
    simpl in HF2. injection HF2 as <-. rewrite !map_map. apply map_ext. intros x. pose proof PI_RGT_0. field. repeat split; auto; lra.
Qed.
Print Assumptions C19_inverse_square.

(** A zero length is the intrinsic luminosity; anything non-zero that is not a
    length is refused. *)
Theorem C19_distance_validation : forall spectrum energies s, spectrum energies = Ok s ->
  flux spectrum energies (Length 0) = flux spectrum energies (Number 0) /\
  (forall x, x <> 0 -> flux spectrum energies (Number x) = Err "TypeError" /\ flux spectrum energies (Other x) = Err "TypeError").
Proof.
  intros spectrum energies s ES. split.
  - unfold flux. rewrite ES. simpl. destruct (Req_EM_T 0 0); [reflexivity|lra].
  - intros x Hx. unfold flux. rewrite ES. simpl. destruct (Req_EM_T x 0); [contradiction|]. split; reflexivity.
Qed.
Print Assumptions C19_distance_validation.

Example C19_example : exists f, flux (fun es => Ok (map (fun e => / e) es)) [1; 2] (Length 3) = Ok f.
Proof. unfold flux; simpl. destruct (Req_EM_T 3 0); [lra|]. eexists. reflexivity. Qed.

(** ** C20 (models other than Inverse Compton; see C20_ic_sed_is_E2_flux) *)
Theorem C20_sed_is_E2_flux : forall spectrum eV_erg energies d f s,
  List.length f = List.length energies ->
  flux spectrum energies d = Ok f -> sed spectrum eV_erg energies d = Ok s ->
  List.length s = List.length energies /\
  forall i e x, nth_error energies i = Some e -> nth_error f i = Some x ->
    nth_error s i = Some (e ^ 2 * x * eV_erg).
Proof.
  intros spectrum eV_erg energies d f s HL HF HS. unfold sed in HS. rewrite HF in HS. simpl in HS. injection HS as <-.
  split; [rewrite map_length, combine_length; lia|].
  clear HF. revert energies HL. induction f as [|x0 f IH]; intros [|e0 energies] HL i e x He Hx; try discriminate; destruct i; try discriminate.
  - simpl in *. injection He as <-. injection Hx as <-. f_equal. ring.
  - simpl in *. apply IH; auto.
Qed.
Print Assumptions C20_sed_is_E2_flux.

(** If the flux fails (bad distance, bad energy) so does the SED, with the same
    error, and vice versa. *)
Theorem C20_sed_fails_like_flux : forall spectrum eV_erg energies d x,
  sed spectrum eV_erg energies d = Err x <-> flux spectrum energies d = Err x.
Proof.
  intros. unfold sed. destruct (flux spectrum energies d); simpl; split; congruence.
Qed.
Print Assumptions C20_sed_fails_like_flux.
