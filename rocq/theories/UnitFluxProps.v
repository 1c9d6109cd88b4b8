(** C113: the units in which inputs are given do not matter. *)
From Coq Require Import Reals List Bool Lra Lia.
From Verif Require Import Outcome TrapzModel TrapzProofs EnergyModel EnergyProofs ElectronModel BremsModel BremsProps
  PionModel PionProps UnitFluxModel.
From Verif Require FluxModel.
From Coq Require Import FunctionalExtensionality.
Import ListNotations.
Local Open Scope R_scope.

(** ** Specification *)
(** The amount a quantity stands for, in cgs units. *)
Definition amount (q : quant) : R := qv q * qs q.
Definition amounts (a : quants) : list R := map (fun v => v * qss a) (qvs a).
(** Two ways to write the same quantity. *)
Definition same (q q' : quant) : Prop := 0 < qs q /\ 0 < qs q' /\ amount q = amount q'.
Definition sames (a a' : quants) : Prop := 0 < qss a /\ 0 < qss a' /\ amounts a = amounts a'.
(** A particle distribution that respects units: the amounts it returns are a
    function, element by element, of the amounts given, whatever units it is
    called with and returns. *)
Definition respects_units (pd : qdist) (f : R -> R) : Prop :=
  forall a, 0 < qss a -> 0 < qss (pd a) /\ amounts (pd a) = map f (amounts a).
(** The same particle distribution, possibly returning other units. *)
Definition same_dist (pd pd' : qdist) : Prop := exists f, respects_units pd f /\ respects_units pd' f.
Inductive same_seed : qseed -> qseed -> Prop :=
| same_thermal_iso T u T' u' : same T T' -> same u u' -> same_seed (QThermal T u None) (QThermal T' u' None)
| same_thermal_ani T u th T' u' th' : same T T' -> same u u' -> same th th' ->
    same_seed (QThermal T u (Some th)) (QThermal T' u' (Some th'))
| same_line e n e' n' : same e e' -> same n n' -> same_seed (QLine e n) (QLine e' n')
| same_array e n e' n' : sames e e' -> sames n n' -> same_seed (QArray e n) (QArray e' n').

(** ** Lemmas *)
Lemma conv_amount s q : conv s q = amount q / s.
Proof. unfold conv, amount, Rdiv. ring. Qed.
Lemma convs_amounts s a : convs s a = map (fun x => x / s) (amounts a).
Proof. unfold convs, amounts. rewrite map_map. apply map_ext. intro v. unfold Rdiv. ring. Qed.

Lemma log10_mec2_amount mec2 E : log10_mec2 mec2 E = log10 (amount E / mec2).
Proof. unfold log10_mec2, amount. f_equal. unfold Rdiv. rewrite Rinv_1. ring. Qed.
Lemma gam_q_amount mec2 n lo hi : gam_q mec2 n lo hi = gam mec2 n (amount lo) (amount hi).
Proof. unfold gam_q, gam. now rewrite !log10_mec2_amount. Qed.

Lemma nelec_q_amount mec2 pd f gs : 0 < mec2 -> respects_units pd f -> nelec_q mec2 pd gs = nelec mec2 f gs.
Proof.
  intros Hm H. unfold nelec_q, nelec. rewrite convs_amounts.
  destruct (H (mkQa (map (fun g => g * mec2) gs) 1)) as [_ E]; [simpl; lra|]. rewrite E.
  unfold amounts. simpl. rewrite !map_map. apply map_ext. intro g. rewrite Rmult_1_r.
  field. lra.
Qed.

Lemma sy_q_amount mec2 k eV B pd f gs P : 0 < mec2 -> 0 < eV -> respects_units pd f ->
  sy_spectrum_q mec2 k eV B pd gs P
  = map (fun x => x * eV) (sy_spectrum k (amount B) mec2 f gs (amounts P)).
Proof.
  intros Hm He H. unfold sy_spectrum_q, sy_spectrum. rewrite convs_amounts, !map_map.
  apply map_ext. intro x. cbv zeta. rewrite (nelec_q_amount mec2 pd f) by assumption.
  rewrite conv_amount. unfold sy_kernel, CS1, Ecrit, Rdiv. rewrite Rinv_1, !Rmult_1_r, !Rmult_1_l.
  rewrite Rinv_involutive by lra. reflexivity.
Qed.

(** The seed in cgs numbers. *)
Definition seed_amount (s : qseed) : seed :=
  match s with
  | QThermal T u th => Thermal (amount T) (amount u) (option_map amount th)
  | QLine e n => Array [amount e] [amount n] None
  | QArray e n => Array (amounts e) (amounts n) None
  end.
(** What the code treats as a line (QLine) or as several energies (QArray), 640. *)
Definition seed_wf (s : qseed) : Prop :=
  match s with
  | QThermal T u th => 0 < qs T /\ 0 < qs u /\ match th with Some a => 0 < qs a | None => True end
  | QLine e n => 0 < qs e /\ 0 < qs n
  | QArray e n => 0 < qss e /\ 0 < qss n /\ List.length (qvs n) <> 1%nat
  end.

Lemma seed_kernel_amount mec2 s g x : 0 < mec2 -> seed_wf s ->
  seed_kernel (to_mec2 mec2 (seed_amount s)) g x
  = match s with
    | QThermal T _ None => iso_ic_on_planck g (conv 1 T) x
    | QThermal T _ (Some th) => ani_ic_on_planck g (conv 1 T) x (conv 1 th)
    | _ => mono_q mec2 s g x
    end.
Proof.
  intros Hm Hs. destruct s as [T u [th|]|e n|e n]; simpl in Hs.
  - simpl. rewrite !conv_amount. f_equal; field.
  - simpl. rewrite conv_amount. f_equal; field.
  - simpl. rewrite conv_amount. unfold amount. f_equal; f_equal; unfold Rdiv; rewrite Rinv_1; ring.
  - destruct Hs as [He [Hn Hl]].
    assert (E : to_mec2 mec2 (Array (amounts e) (amounts n) None)
                = Array (map (fun z => z / mec2) (amounts e)) (map (fun z => z * mec2) (amounts n)) None).
    { unfold to_mec2. destruct (amounts e) as [|e0 [|? ?]]; try reflexivity.
      destruct (amounts n) as [|n0 [|? ?]] eqn:En; try reflexivity.
      exfalso. apply Hl. apply (f_equal (@List.length R)) in En. unfold amounts in En.
      rewrite map_length in En. exact En. }
    simpl seed_amount. rewrite E. simpl.
    assert (E1 : map (fun z => z / mec2) (amounts e) = map (fun v => v / mec2 * (qss e / 1)) (qvs e)).
    { unfold amounts. rewrite map_map. apply map_ext. intro v. unfold Rdiv. rewrite Rinv_1. ring. }
    assert (E2 : map (fun z => z * mec2) (amounts n) = convs (/ mec2) n).
    { rewrite convs_amounts. apply map_ext. intro v. field. lra. }
    now rewrite E1, E2.
Qed.

Lemma calc_q_amount mec2 ar eV pd f gs s P : 0 < mec2 -> 0 < eV -> 0 < qss P -> respects_units pd f -> seed_wf s ->
  calc_specic_q mec2 ar eV pd gs s P
  = map (fun x => x * eV) (calc_specic mec2 ar f gs (seed_amount s) (amounts P)).
Proof.
  intros Hm He Hp H Hs. unfold calc_specic_q, calc_specic, amounts. rewrite !map_map.
  apply map_ext. intro v. cbv zeta. rewrite (nelec_q_amount mec2 pd f) by assumption.
  replace (v / mec2 * (qss P / 1)) with (v * qss P / mec2) by (field; lra).
  rewrite (map_ext (fun g => seed_kernel (to_mec2 mec2 (seed_amount s)) g (v * qss P / mec2)) _
             (fun g => seed_kernel_amount mec2 s g (v * qss P / mec2) Hm Hs)).
  set (I := trapz_loglog _ gs).
  replace (match s with QThermal T u _ => qv u / (ar * qv T ^ 4) * (qs u / qs T ^ 4) | _ => 1 end)
    with (seed_factor ar (seed_amount s)).
  2:{ destruct s as [T u th|e n|e n]; simpl; try reflexivity. unfold amount.
      rewrite !Rmult_1_r. unfold Rdiv. rewrite !Rinv_mult. ring. }
  unfold Rdiv. rewrite !Rinv_mult, Rinv_involutive by lra. ring.
Qed.

Lemma combine_map2 (a b : list R) (k : R) :
  map (fun p => fst p + snd p) (combine (map (fun x => x * k) a) (map (fun x => x * k) b))
  = map (fun x => x * k) (map (fun p => fst p + snd p) (combine a b)).
Proof.
  revert b. induction a as [|x a IH]; intros [|y b]; simpl; try reflexivity.
  rewrite IH. f_equal. ring.
Qed.

Lemma ic_q_amount mec2 ar eV pd f gs seeds P : 0 < mec2 -> 0 < eV -> 0 < qss P -> respects_units pd f ->
  List.Forall seed_wf seeds ->
  ic_spectrum_q mec2 ar eV pd gs seeds P
  = map (fun x => x * eV) (ic_spectrum mec2 ar f gs (map seed_amount seeds) (amounts P)).
Proof.
  intros Hm He Hp H Hs. unfold ic_spectrum_q, ic_spectrum. induction Hs as [|s r Hs Hr IH]; simpl.
  - unfold amounts. rewrite !map_map. apply map_ext. intro. ring.
  - rewrite IH, (calc_q_amount mec2 ar eV pd f) by assumption. apply combine_map2.
Qed.

Lemma mul2_scale_r c (a : list R) (f : R -> R) gs :
  mul2 a (map (fun g => f g * c) gs) = map (Rmult c) (mul2 a (map f gs)).
Proof.
  unfold mul2. rewrite map_map. revert a. induction gs as [|g gs IH]; intros [|x a]; simpl; try reflexivity.
  rewrite IH. f_equal. ring.
Qed.

Lemma brems_q_amount mec2 k gt c eV n0 wee wep pd f gs P : 0 < mec2 -> 0 < eV -> 0 < qss P -> wee <> 0 -> wep <> 0 ->
  respects_units pd f ->
  Ok (map (fun x => x * (mec2 / eV)) (brems_spectrum_q mec2 k gt c eV n0 wee wep pd gs P))
  = brems_luminosity k gt mec2 c f gs (amount n0) wee wep (map (fun x => x / mec2) (amounts P)).
Proof.
  intros Hm He Hp Hee Hep H. unfold brems_luminosity, brems_spectrum, emiss.
  destruct (Req_EM_T wee 0) as [?|_]; [contradiction|]. destruct (Req_EM_T wep 0) as [?|_]; [contradiction|].
  cbn [qscale qadd omap obind]. f_equal. unfold brems_spectrum_q, amounts. unfold add2.
  rewrite !map_map.
  induction (qvs P) as [|v vs IH]; [reflexivity|].
  cbn [map combine]. rewrite IH. f_equal. cbn [fst snd].
  rewrite (nelec_q_amount mec2 pd f) by assumption.
  replace (v / mec2 * (qss P / 1)) with (v * qss P / mec2) by (field; lra).
  set (eps := v * qss P / mec2). rewrite mul2_scale_r, strapz_scale.
  2:{ apply Rdiv_lt_0_compat; [apply Rinv_0_lt_compat; lra|apply Rdiv_lt_0_compat; lra]. }
  unfold amount. field. lra.
Qed.

(** ** Theorems: electrons *)

(** Synchrotron: field strength, energy bounds, photon energies, distance and
    particle distribution may be given in any units; flux and spectral energy
    distribution come out the same. *)
Lemma flux_q_same spec d d' : same d d' -> flux_q spec d = flux_q spec d'.
Proof.
  intros [H [H' E]]. unfold flux_q. rewrite !conv_amount, E. unfold amount in E.
  destruct (Req_EM_T (qv d) 0) as [Z|Z], (Req_EM_T (qv d') 0) as [Z'|Z']; try reflexivity; exfalso.
  - rewrite Z, Rmult_0_l in E. symmetry in E. apply Rmult_integral in E. lra.
  - rewrite Z', Rmult_0_l in E. apply Rmult_integral in E. lra.
Qed.

Lemma sed_q_amount eV spec d P : 0 < eV -> 
  sed_q eV spec d P = map (fun p => fst p * snd p ^ 2 / eV) (combine (flux_q spec d) (amounts P)).
Proof.
  intros He. unfold sed_q, amounts. generalize (flux_q spec d). intro l.
  revert l. induction (qvs P) as [|v vs IH]; intros [|x l]; simpl; try reflexivity.
  rewrite IH. f_equal. field. lra.
Qed.

Lemma sed_q_same eV spec d d' P P' : 0 < eV -> same d d' -> sames P P' ->
  sed_q eV spec d P = sed_q eV spec d' P'.
Proof.
  intros He Hd [_ [_ EP]]. rewrite !sed_q_amount by assumption. now rewrite (flux_q_same _ _ _ Hd), EP.
Qed.

Theorem C113_synchrotron : forall mec2 eV k n B B' lo lo' hi hi' pd pd' P P' d d',
  0 < mec2 -> 0 < eV ->
  same B B' -> same lo lo' -> same hi hi' -> same_dist pd pd' -> sames P P' -> same d d' ->
  let spec := sy_spectrum_q mec2 k eV B pd (gam_q mec2 n lo hi) P in
  let spec' := sy_spectrum_q mec2 k eV B' pd' (gam_q mec2 n lo' hi') P' in
  flux_q spec d = flux_q spec' d' /\ sed_q eV spec d P = sed_q eV spec' d' P'.
Proof.
  intros mec2 eV k n B B' lo lo' hi hi' pd pd' P P' d d' Hm He HB Hlo Hhi [f [Hf Hf']] HP Hd spec spec'.
  assert (E : spec = spec').
  { unfold spec, spec'. rewrite (sy_q_amount mec2 k eV B pd f), (sy_q_amount mec2 k eV B' pd' f) by assumption.
    rewrite !gam_q_amount. destruct HB as [_ [_ ->]], Hlo as [_ [_ ->]], Hhi as [_ [_ ->]], HP as [_ [_ ->]].
    reflexivity. }
  rewrite <- E. split; [now apply flux_q_same|now apply sed_q_same].
Qed.

Lemma same_seed_amount s s' : same_seed s s' -> seed_amount s = seed_amount s'.
Proof.
  intros [T u T' u' [_ [_ A]] [_ [_ B]]|T u th T' u' th' [_ [_ A]] [_ [_ B]] [_ [_ C]]|e n e' n' [_ [_ A]] [_ [_ B]]|e n e' n' [_ [_ A]] [_ [_ B]]];
    simpl; now rewrite A, B, ?C.
Qed.

(** Inverse Compton: also the temperatures, energy densities, angles, photon
    energies and number densities of the seeds. *)
Theorem C113_inverse_compton : forall mec2 ar eV n seeds seeds' lo lo' hi hi' pd pd' P P' d d',
  0 < mec2 -> 0 < eV ->
  List.Forall2 same_seed seeds seeds' -> List.Forall seed_wf seeds -> List.Forall seed_wf seeds' ->
  same lo lo' -> same hi hi' -> same_dist pd pd' -> sames P P' -> same d d' ->
  let spec := ic_spectrum_q mec2 ar eV pd (gam_q mec2 n lo hi) seeds P in
  let spec' := ic_spectrum_q mec2 ar eV pd' (gam_q mec2 n lo' hi') seeds' P' in
  flux_q spec d = flux_q spec' d' /\ sed_q eV spec d P = sed_q eV spec' d' P'.
Proof.
  intros mec2 ar eV n seeds seeds' lo lo' hi hi' pd pd' P P' d d' Hm He HS W W' Hlo Hhi [f [Hf Hf']] HP Hd spec spec'.
  assert (E : spec = spec').
  { unfold spec, spec'. pose proof HP as [HP1 [HP2 EP]].
    rewrite (ic_q_amount mec2 ar eV pd f), (ic_q_amount mec2 ar eV pd' f) by assumption.
    rewrite !gam_q_amount. destruct Hlo as [_ [_ ->]], Hhi as [_ [_ ->]]. rewrite EP.
    replace (map seed_amount seeds) with (map seed_amount seeds'); [reflexivity|].
    clear -HS. induction HS as [|s s' l l' H Hl IH]; [reflexivity|]. simpl.
    now rewrite IH, (same_seed_amount _ _ H). }
  rewrite <- E. split; [now apply flux_q_same|now apply sed_q_same].
Qed.

(** Several seed energies given with an energy density: the number density made
    of it (528-529) does not depend on the units either. *)
Theorem C113_seed_density : forall e e' u u',
  sames e e' -> sames u u' -> sames (density_of_pressure e u) (density_of_pressure e' u').
Proof.
  intros e e' u u' [He [He' Ee]] [Hu [Hu' Eu]].
  assert (K : forall a b, 0 < qss a -> 0 < qss b ->
    amounts (density_of_pressure a b) = map (fun p => fst p / snd p ^ 2) (combine (amounts b) (amounts a))).
  { intros a b Ha Hb. unfold amounts, density_of_pressure. simpl.
    assert (G : forall (w v : list R),
      map (fun z => z * (qss b / (qss a * (qss a * 1)))) (map (fun p => fst p / (snd p * (snd p * 1))) (combine w v))
      = map (fun p => fst p / (snd p * (snd p * 1))) (combine (map (fun z => z * qss b) w) (map (fun z => z * qss a) v))).
    { induction w as [|x w IH]; intros [|y v]; simpl; try reflexivity.
      rewrite IH. f_equal. unfold Rdiv. rewrite !Rinv_mult, Rinv_1. ring. }
    apply G. }
  repeat split.
  - simpl. apply Rdiv_lt_0_compat; [assumption|]. repeat apply Rmult_lt_0_compat; lra.
  - simpl. apply Rdiv_lt_0_compat; [assumption|]. repeat apply Rmult_lt_0_compat; lra.
  - rewrite !K by assumption. now rewrite Ee, Eu.
Qed.

(** Bremsstrahlung (non-zero weights, C30): also the density. *)
Theorem C113_bremsstrahlung : forall mec2 k gt c eV n wee wep n0 n0' lo lo' hi hi' pd pd' P P' d d',
  0 < mec2 -> 0 < eV -> wee <> 0 -> wep <> 0 ->
  same n0 n0' -> same lo lo' -> same hi hi' -> same_dist pd pd' -> sames P P' -> same d d' ->
  let spec := brems_spectrum_q mec2 k gt c eV n0 wee wep pd (gam_q mec2 n lo hi) P in
  let spec' := brems_spectrum_q mec2 k gt c eV n0' wee wep pd' (gam_q mec2 n lo' hi') P' in
  flux_q spec d = flux_q spec' d' /\ sed_q eV spec d P = sed_q eV spec' d' P'.
Proof.
  intros mec2 k gt c eV n wee wep n0 n0' lo lo' hi hi' pd pd' P P' d d' Hm He Hw1 Hw2 Hn Hlo Hhi [f [Hf Hf']] HP Hd spec spec'.
  assert (E : spec = spec').
  { pose proof HP as [HP1 [HP2 EP]].
    pose proof (brems_q_amount mec2 k gt c eV n0 wee wep pd f (gam_q mec2 n lo hi) P Hm He HP1 Hw1 Hw2 Hf) as A.
    pose proof (brems_q_amount mec2 k gt c eV n0' wee wep pd' f (gam_q mec2 n lo' hi') P' Hm He HP2 Hw1 Hw2 Hf') as A'.
    fold spec in A. fold spec' in A'. rewrite !gam_q_amount in A, A'.
    destruct Hn as [_ [_ En]], Hlo as [_ [_ El]], Hhi as [_ [_ Eh]].
    rewrite En, El, Eh, EP in A. rewrite <- A' in A. injection A as A.
    assert (K : mec2 / eV <> 0) by (apply Rgt_not_eq, Rdiv_lt_0_compat; assumption).
    clear -A K. revert A. generalize spec', spec. clear -K. intros l. induction l as [|x l IH]; intros [|y m]; simpl; intro A; try discriminate; [reflexivity|].
    injection A as A1 A2. f_equal; [|now apply IH]. apply Rmult_eq_reg_r in A1; assumption. }
  rewrite <- E. split; [now apply flux_q_same|now apply sed_q_same].
Qed.

(** Energy content of the electrons. *)
Theorem C113_We : forall mec2 n lo lo' hi hi' pd pd', 0 < mec2 ->
  same lo lo' -> same hi hi' -> same_dist pd pd' ->
  amount (We_q mec2 n pd lo hi) = amount (We_q mec2 n pd' lo' hi').
Proof.
  intros mec2 n lo lo' hi hi' pd pd' Hm [_ [_ El]] [_ [_ Eh]] [f [Hf Hf']].
  unfold We_q. rewrite !gam_q_amount, El, Eh.
  now rewrite (nelec_q_amount mec2 pd f), (nelec_q_amount mec2 pd' f) by assumption.
Qed.

(** ** Theorems: protons *)
Lemma Ep_q_amount GeV n lo hi : 0 < qs lo -> 0 < qs hi ->
  Ep_q GeV n lo hi = Ep GeV n (amount lo) (amount hi).
Proof.
  intros Hl Hh. unfold Ep_q, Ep. rewrite !conv_amount. f_equal. f_equal. f_equal. f_equal.
  unfold amount, Rdiv. rewrite Rinv_mult. ring.
Qed.
Lemma J_q_amount GeV pd f es : 0 < GeV -> respects_units pd f -> J_q GeV pd es = J GeV f es.
Proof.
  intros HG H. unfold J_q, J. rewrite convs_amounts. destruct (H (mkQa es GeV) HG) as [_ E]. rewrite E.
  unfold amounts. simpl. rewrite !map_map. apply map_ext. intro x. field. lra.
Qed.

Theorem C113_pion_decay : forall GeV sig c eV n nh nh' lo lo' hi hi' pd pd' P P',
  0 < GeV -> 0 < eV ->
  same nh nh' -> same lo lo' -> same hi hi' -> same_dist pd pd' -> sames P P' ->
  pion_spectrum_q GeV sig c eV nh pd (Ep_q GeV n lo hi) P
  = pion_spectrum_q GeV sig c eV nh' pd' (Ep_q GeV n lo' hi') P'.
Proof.
  intros GeV sig c eV n nh nh' lo lo' hi hi' pd pd' P P' HG He [Hn [Hn' En]] [Hl [Hl' El]] [Hh [Hh' Eh]] [f [Hf Hf']] [_ [_ EP]].
  unfold pion_spectrum_q. rewrite !Ep_q_amount by assumption. rewrite El, Eh, !convs_amounts, EP.
  rewrite (J_q_amount GeV pd f), (J_q_amount GeV pd' f) by assumption.
  apply map_ext. intro Eg. destruct (ntrapz _ _) as [x|]; simpl; [|reflexivity]. f_equal.
  unfold amount in En. transitivity (x * c * ((qv nh * qs nh) * (/ GeV / / eV))).
  - unfold Rdiv. ring.
  - rewrite En. unfold Rdiv. ring.
Qed.

(** It is the spectrum of PionModel, converted from 1/GeV to 1/eV. *)
Theorem C113_pion_decay_agrees : forall GeV sig c eV n nh lo hi pd f P,
  0 < GeV -> 0 < eV -> 0 < qs lo -> 0 < qs hi -> respects_units pd f ->
  pion_spectrum_q GeV sig c eV nh pd (Ep_q GeV n lo hi) P
  = map (nmap (fun x => x * (eV / GeV)))
        (pion_spectrum sig (amount nh * c) GeV f (Ep GeV n (amount lo) (amount hi)) (map (fun x => x / GeV) (amounts P))).
Proof.
  intros GeV sig c eV n nh lo hi pd f P HG He Hl Hh Hf.
  unfold pion_spectrum_q, pion_spectrum. rewrite Ep_q_amount, convs_amounts, (J_q_amount GeV pd f) by assumption.
  rewrite (map_map _ (nmap (fun x => x * (eV / GeV)))). apply map_ext. intro Eg.
  destruct (ntrapz _ _) as [x|]; simpl; [|reflexivity]. f_equal.
  unfold amount. field. lra.
Qed.

Lemma trapz_scale_pos c ys xs : 0 < c -> trapz_loglog (map (Rmult c) ys) xs = c * trapz_loglog ys xs.
Proof.
  intro Hc. now apply trapz_scale_y.
Qed.

(** Energy content of the protons, with and without explicit bounds. *)
Theorem C113_Wp : forall GeV n lo lo' hi hi' pd pd', 0 < GeV ->
  same lo lo' -> same hi hi' -> same_dist pd pd' ->
  Wp_q GeV n pd lo hi = Wp_q GeV n pd' lo' hi' /\
  compute_Wp_q GeV n pd lo hi = compute_Wp_q GeV n pd' lo' hi'.
Proof.
  intros GeV n lo lo' hi hi' pd pd' HG [Hl [Hl' El]] [Hh [Hh' Eh]] [f [Hf Hf']]. split.
  - unfold Wp_q. rewrite !Ep_q_amount by assumption. rewrite El, Eh.
    now rewrite (J_q_amount GeV pd f), (J_q_amount GeV pd' f) by assumption.
  - assert (K : forall pd, respects_units pd f -> forall es,
      conv 1 (mkQu (trapz_loglog (mul2 es (qvs (pd (mkQa es GeV)))) es) (GeV * qss (pd (mkQa es GeV)) * GeV))
      = GeV * GeV * trapz_loglog (mul2 es (map f (map (fun x => x * GeV) es))) es).
    { intros p Hp es. destruct (Hp (mkQa es GeV) HG) as [Hpos Ep]. rewrite conv_amount. unfold amount. cbn [qv qs].
      unfold amounts in Ep. cbn [qvs qss] in Ep. rewrite <- Ep.
      assert (E : mul2 es (map (fun v => v * qss (p (mkQa es GeV))) (qvs (p (mkQa es GeV))))
                  = map (Rmult (qss (p (mkQa es GeV)))) (mul2 es (qvs (p (mkQa es GeV))))).
      { exact (eq_trans (mul2_scale_r (qss (p (mkQa es GeV))) es (fun x => x) (qvs (p (mkQa es GeV))))
                 (f_equal (fun l => map (Rmult (qss (p (mkQa es GeV)))) (mul2 es l)) (map_id (qvs (p (mkQa es GeV)))))). }
      rewrite E, trapz_scale_pos by assumption. field. }
    unfold compute_Wp_q. cbv zeta. rewrite !(conv_amount GeV), El, Eh. now rewrite !K by assumption.
Qed.

Theorem C113_kelner : forall m_pT TeV c quad01 quad_inf eV nh nh' Etr Etr' pd pd' P P',
  0 < TeV -> (forall g h : R -> R, (forall x, g x = h x) -> quad01 g = quad01 h) ->
  (forall a g h, (forall x : R, g x = h x) -> quad_inf a g = quad_inf a h) ->
  same nh nh' -> same Etr Etr' -> same_dist pd pd' -> sames P P' ->
  kelner_spectrum_q m_pT TeV c quad01 quad_inf eV nh Etr pd P
  = kelner_spectrum_q m_pT TeV c quad01 quad_inf eV nh' Etr' pd' P'.
Proof.
  intros m_pT TeV c quad01 quad_inf eV nh nh' Etr Etr' pd pd' P P' HT X1 X2 [_ [_ En]] [_ [_ Et]] [f [Hf Hf']] [_ [_ EP]].
  unfold kelner_spectrum_q. rewrite !conv_amount, !convs_amounts, En, Et, EP.
  assert (K : forall E, pd_TeV TeV pd E = pd_TeV TeV pd' E).
  { intro E. unfold pd_TeV. rewrite !convs_amounts.
    destruct (Hf (mkQa [E] TeV) HT) as [_ ->]. destruct (Hf' (mkQa [E] TeV) HT) as [_ ->]. reflexivity. }
  set (a := pd_TeV TeV pd) in *. set (b := pd_TeV TeV pd') in *.
  assert (HI : forall E, specpp_hiE a c quad01 E = specpp_hiE b c quad01 E).
  { intro E. unfold specpp_hiE. f_equal. apply X1. intro x. unfold photon_integrand. now rewrite K. }
  assert (LO : forall nhat E, specpp_loE m_pT a c quad_inf nhat E = specpp_loE m_pT b c quad_inf nhat E).
  { intros nhat E. unfold specpp_loE. f_equal. apply X2. intro x. unfold delta_integrand. cbv zeta. now rewrite K. }
  apply f_equal. unfold kelner_spectrum. cbv zeta.
  assert (N : forall t l, nhat_of m_pT a c quad01 quad_inf t l = nhat_of m_pT b c quad01 quad_inf t l).
  { intros t l. unfold nhat_of. now rewrite HI, LO. }
  rewrite N. apply map_ext. intro E. rewrite HI, LO. reflexivity.
Qed.

(** The spectrum of PionDecayKelner06 is that of PionModel, energies in TeV, times the density
    in 1/cm3 *)
Theorem C113_kelner_agrees : forall m_pT TeV c quad01 quad_inf eV nh Etr pd f P,
  0 < TeV -> 0 < eV -> (forall g h : R -> R, (forall x, g x = h x) -> quad01 g = quad01 h) ->
  (forall a g h, (forall x : R, g x = h x) -> quad_inf a g = quad_inf a h) -> respects_units pd f ->
  kelner_spectrum_q m_pT TeV c quad01 quad_inf eV nh Etr pd P
  = map (fun s => amount nh * s * (eV / TeV))
        (kelner_spectrum m_pT (fun E => f (E * TeV) * TeV) c quad01 quad_inf 1 (amount Etr / TeV) (map (fun x => x / TeV) (amounts P))).
Proof.
  intros m_pT TeV c quad01 quad_inf eV nh Etr pd f P HT HE X1 X2 Hf.
  unfold kelner_spectrum_q. rewrite !conv_amount, convs_amounts.
  assert (K : forall E, pd_TeV TeV pd E = f (E * TeV) * TeV).
  { intro E. unfold pd_TeV. rewrite !convs_amounts. destruct (Hf (mkQa [E] TeV) HT) as [_ ->]. cbn. field. lra. }
  set (a := pd_TeV TeV pd) in *. set (b := fun E => f (E * TeV) * TeV) in *. change (forall E, a E = b E) in K.
  assert (HI : forall E, specpp_hiE a c quad01 E = specpp_hiE b c quad01 E).
  { intro E. unfold specpp_hiE. f_equal. apply X1. intro x. unfold photon_integrand. now rewrite K. }
  assert (LO : forall nhat E, specpp_loE m_pT a c quad_inf nhat E = specpp_loE m_pT b c quad_inf nhat E).
  { intros nhat E. unfold specpp_loE. f_equal. apply X2. intro x. unfold delta_integrand. cbv zeta. now rewrite K. }
  unfold kelner_spectrum. cbv zeta.
  assert (N : forall t l, nhat_of m_pT a c quad01 quad_inf t l = nhat_of m_pT b c quad01 quad_inf t l).
  { intros t l. unfold nhat_of. now rewrite HI, LO. }
  rewrite N, !map_map. apply map_ext. intro E. rewrite HI, LO. field. lra.
Qed.
(** ** The hypotheses are met: a power law returning numbers per whatever unit
    the energies came in, called for 1 erg = 2 half-ergs, 5 km = 5e5 cm. *)
Definition pl_own_unit : qdist := fun a => mkQa (map (fun v => Rpower (v * qss a) (-2) * qss a) (qvs a)) (/ qss a).
Definition pl_cgs : qdist := fun a => mkQa (map (fun v => Rpower (v * qss a) (-2)) (qvs a)) 1.
Example C113_example :
  same_dist pl_own_unit pl_cgs /\ sames (mkQa [1; 2] 1) (mkQa [2; 4] (1 / 2)) /\ same (mkQu 5 100000) (mkQu 500000 1) /\
  seed_wf (QThermal (mkQu 3000 1) (mkQu 1 (16 / 10 ^ 13)) None) /\
  same_seed (QThermal (mkQu 3000 1) (mkQu 1 2) None) (QThermal (mkQu 3 1000) (mkQu 2 1) None).
Proof.
  split; [|split; [|split; [|split]]].
  - exists (fun x => Rpower x (-2)). split; intros a Ha; simpl.
    + split; [now apply Rinv_0_lt_compat|]. unfold amounts. simpl. rewrite !map_map. apply map_ext. intro v. field. lra.
    + split; [lra|]. unfold amounts. simpl. rewrite !map_map. apply map_ext. intro v. ring.
  - unfold sames, amounts. simpl. split; [lra|split; [lra|]]. f_equal; [lra|f_equal; lra].
  - unfold same, amount. simpl. split; [lra|split; [lra|lra]].
  - simpl. lra.
  - constructor; repeat split; unfold amount; simpl; lra.
Qed.

(** ** The spectra are those of the other files for the amounts given, in
    1/(s eV) in place of 1/(s erg) (bremsstrahlung: of 1/(s mec2)). *)
Theorem C113_synchrotron_agrees : forall mec2 k eV n B lo hi pd f P, 0 < mec2 -> 0 < eV -> respects_units pd f ->
  sy_spectrum_q mec2 k eV B pd (gam_q mec2 n lo hi) P
  = map (fun x => x * eV) (sy_spectrum k (amount B) mec2 f (gam mec2 n (amount lo) (amount hi)) (amounts P)).
Proof. intros. rewrite gam_q_amount. now apply sy_q_amount. Qed.
Theorem C113_inverse_compton_agrees : forall mec2 ar eV n seeds lo hi pd f P, 0 < mec2 -> 0 < eV -> 0 < qss P ->
  respects_units pd f -> List.Forall seed_wf seeds ->
  ic_spectrum_q mec2 ar eV pd (gam_q mec2 n lo hi) seeds P
  = map (fun x => x * eV) (ic_spectrum mec2 ar f (gam mec2 n (amount lo) (amount hi)) (map seed_amount seeds) (amounts P)).
Proof. intros. rewrite gam_q_amount. now apply ic_q_amount. Qed.
Theorem C113_bremsstrahlung_agrees : forall mec2 k gt c eV n n0 wee wep lo hi pd f P, 0 < mec2 -> 0 < eV -> 0 < qss P ->
  wee <> 0 -> wep <> 0 -> respects_units pd f ->
  Ok (map (fun x => x * (mec2 / eV)) (brems_spectrum_q mec2 k gt c eV n0 wee wep pd (gam_q mec2 n lo hi) P))
  = brems_luminosity k gt mec2 c f (gam mec2 n (amount lo) (amount hi)) (amount n0) wee wep (map (fun x => x / mec2) (amounts P)).
Proof. intros. rewrite gam_q_amount. now apply brems_q_amount. Qed.
(** The energy content is that of EnergyModel. *)
Theorem C113_We_agrees : forall mec2 n lo hi pd f smin smax, 0 < mec2 -> respects_units pd f ->
  amount (We_q mec2 n pd lo hi) = compute_We mec2 n f smin smax (Some (amount lo)) (Some (amount hi)).
Proof.
  intros mec2 n lo hi pd f smin smax Hm Hf. unfold We_q, amount at 1, compute_We, electron_energy. cbv zeta. cbn [qv qs].
  rewrite gam_q_amount, (nelec_q_amount mec2 pd f) by assumption. ring.
Qed.
Theorem C113_Wp_agrees : forall GeV n lo hi pd f smin smax, 0 < GeV -> 0 < qs lo -> 0 < qs hi -> 0 < amount lo -> 0 < amount hi ->
  respects_units pd f ->
  Wp_q GeV n pd lo hi = compute_Wp GeV n f (amount lo) (amount hi) None None /\
  compute_Wp_q GeV n pd lo hi = compute_Wp GeV n f smin smax (Some (amount lo)) (Some (amount hi)).
Proof.
  intros GeV n lo hi pd f smin smax HG Hl Hh Al Ah Hf. split.
  - unfold Wp_q, compute_Wp, Wp. cbv zeta. rewrite conv_amount. unfold amount at 1. cbn [qv qs].
    rewrite Ep_q_amount, (J_q_amount GeV pd f) by assumption. field.
  - set (pd' := fun a => mkQa (map f (amounts a)) 1).
    assert (Hf' : respects_units pd' f).
    { intros a Ha. unfold pd'. simpl. split; [lra|]. unfold amounts at 1. simpl.
      rewrite map_map. apply map_ext. intro. ring. }
    assert (S : compute_Wp_q GeV n pd lo hi = compute_Wp_q GeV n pd' lo hi).
    { apply (C113_Wp GeV n lo lo hi hi pd pd' HG); unfold same; auto. now exists f. }
    rewrite S. unfold compute_Wp_q, compute_Wp, Ep_explicit. cbv zeta.
    rewrite !(conv_amount GeV), conv_amount. unfold amount at 1. cbn [qv qs]. unfold pd'. cbn [qvs qss].
    unfold amounts. cbn [qvs qss].
    set (es := logspace _ _ _).
    assert (M : mul2 (map (fun x => x * GeV) es) (map f (map (fun x => x * GeV) es))
                = map (Rmult GeV) (mul2 es (map f (map (fun x => x * GeV) es)))).
    { clearbody es. clear S. unfold mul2. induction es as [|x l IH]; [reflexivity|].
      cbn [map combine fst snd]. rewrite IH. f_equal. ring. }
    fold es. rewrite M. rewrite trapz_scale_pos by assumption.
    rewrite trapz_units; [|assumption|apply logspace_nonzero]. field.
Qed.

(** Flux and spectral energy distribution are those of FluxModel (C19) for the distance
    in cm, the photon energies in eV and one eV in erg. *)
Theorem C113_flux_agrees : forall eV spec d P s, 0 < eV -> 0 < qs d -> 0 < qss P -> s (map (fun x => x / eV) (amounts P)) = Ok spec ->
  FluxModel.flux s (map (fun x => x / eV) (amounts P)) (FluxModel.Length (amount d)) = Ok (flux_q spec d) /\
  FluxModel.sed s eV (map (fun x => x / eV) (amounts P)) (FluxModel.Length (amount d)) = Ok (sed_q eV spec d P).
Proof.
  intros eV spec d P s He Hd HP HS.
  assert (F : FluxModel.flux s (map (fun x => x / eV) (amounts P)) (FluxModel.Length (amount d)) = Ok (flux_q spec d)).
  { unfold FluxModel.flux. rewrite HS. cbn [obind FluxModel.nonzero]. unfold flux_q. rewrite conv_amount. unfold amount at 1.
    destruct (Req_EM_T (qv d * qs d) 0) as [Z|Z], (Req_EM_T (qv d) 0) as [Z'|Z']; cbn [FluxModel.validate_length obind]; try reflexivity.
    - exfalso. apply Rmult_integral in Z. lra.
    - exfalso. apply Z. rewrite Z'. ring.
    - do 2 f_equal. apply functional_extensionality. intros x. unfold Rdiv. rewrite Rinv_1, Rmult_1_r. reflexivity. }
  split; [exact F|]. unfold FluxModel.sed. rewrite F. cbn [obind]. rewrite sed_q_amount by assumption. f_equal.
  generalize (flux_q spec d) as l. generalize (amounts P) as E. induction E as [|e E IH]; intros [|x l]; try reflexivity.
  cbn [map combine]. rewrite IH. f_equal. cbn [fst snd]. field. lra.
Qed.
Print Assumptions C113_flux_agrees.
