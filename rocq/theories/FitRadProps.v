(** C165: fits with naima's radiative models, from tables and parameters in any units to
    the likelihood. *)
From Coq Require Import Reals List ZArith Bool String Arith Permutation Lra Lia.
From Verif Require Import Outcome SimplexModel TrapzModel EnergyModel ElectronModel BremsModel PionModel UnitFluxModel UnitFluxProps.
From Verif Require Import UnitsModel DataModel DataSpec DataProofs DataProps CoreModel CoreProps EndModel EndProps FitRadModel.
Import ListNotations.
Local Open Scope R_scope.

(** ** Specification *)
Section Spec.
  Variables (mec2 eV GeV ar kb gt c : R) (ks : sy_consts) (sig : R -> R -> option R).
  (** Photons per erg and second at the photon energy E (erg), computed from the amounts (cgs)
      the parameters stand for, for the particle distribution [f] (particles per erg) *)
  Inductive emits : comp -> (R -> R) -> Prop :=
  | emits_sy B lo hi n pd f : respects_units pd f ->
      emits (Sy B lo hi n pd) (fun E => hd 0 (sy_spectrum ks (amount B) mec2 f (gam mec2 n (amount lo) (amount hi)) [E]))
  | emits_ic seeds lo hi n pd f : respects_units pd f -> List.Forall seed_wf seeds ->
      emits (IC seeds lo hi n pd) (fun E => hd 0 (ic_spectrum mec2 ar f (gam mec2 n (amount lo) (amount hi)) (map seed_amount seeds) [E]))
  | emits_br n0 wee wep lo hi n pd f L : respects_units pd f -> wee <> 0 -> wep <> 0 ->
      (forall E, 0 < E -> brems_luminosity kb gt mec2 c f (gam mec2 n (amount lo) (amount hi)) (amount n0) wee wep [E / mec2] = Ok [L E * mec2]) ->
      emits (Br n0 wee wep lo hi n pd) L
  | emits_pi nh lo hi n pd f L : respects_units pd f -> 0 < qs lo -> 0 < qs hi ->
      (forall E, 0 < E -> pion_spectrum sig (amount nh * c) GeV f (Ep GeV n (amount lo) (amount hi)) [E / GeV] = [Some (L E * GeV)]) ->
      emits (Pi nh lo hi n pd) L.
  (** SED of the sum of several models for the distance D (cm); luminosity for D = 0 *)
  Definition SED (Ls : list (R -> R)) (D E : R) : R :=
    E ^ 2 * fold_right Rplus 0 (map (fun L => L E) Ls) / (if Req_EM_T D 0 then 1 else 4 * PI * D ^ 2).
End Spec.

(** ** Lemmas *)
Section Th.
  Variables (mec2 eV GeV ar kb gt c : R) (ks : sy_consts) (sig : R -> R -> option R).
  Hypothesis (Hm : 0 < mec2) (He : 0 < eV) (HG : 0 < GeV).
  Notation emits := (emits mec2 GeV ar kb gt c ks sig).
  Notation comp_spectrum := (comp_spectrum mec2 eV GeV ar kb gt c ks sig).
  Notation comp_out := (comp_out mec2 eV GeV ar kb gt c ks sig).
  Notation fit_model := (fit_model mec2 eV GeV ar kb gt c ks sig).

  Lemma ic_cons f gs seeds E Es :
    ic_spectrum mec2 ar f gs seeds (E :: Es) = hd 0 (ic_spectrum mec2 ar f gs seeds [E]) :: ic_spectrum mec2 ar f gs seeds Es.
  Proof.
    assert (X : exists x, forall Es, ic_spectrum mec2 ar f gs seeds (E :: Es) = x :: ic_spectrum mec2 ar f gs seeds Es).
    { unfold ic_spectrum, calc_specic. induction seeds as [|s r (x & IHs)]; [exists 0; reflexivity|].
      eexists. intros Es'. cbn [fold_right]. rewrite IHs. cbn [map combine fst snd]. reflexivity. }
    destruct X as (x & X). rewrite !X. reflexivity.
  Qed.
  Lemma ic_pointwise f gs seeds Es :
    ic_spectrum mec2 ar f gs seeds Es = map (fun E => hd 0 (ic_spectrum mec2 ar f gs seeds [E])) Es.
  Proof.
    induction Es as [|E Es IH].
    - unfold ic_spectrum. induction seeds as [|s r IHs]; [reflexivity|]. cbn [fold_right]. rewrite IHs. reflexivity.
    - cbn [map]. rewrite <- IH. apply ic_cons.
  Qed.
  Lemma brems_pointwise f gs n0 wee wep es L : wee <> 0 -> wep <> 0 ->
    (forall x, In x es -> brems_luminosity kb gt mec2 c f gs n0 wee wep [x] = Ok [L x]) ->
    brems_luminosity kb gt mec2 c f gs n0 wee wep es = Ok (map L es).
  Proof.
    intros H1 H2. unfold brems_luminosity, brems_spectrum, emiss.
    destruct (Req_EM_T wee 0) as [?|_]; [contradiction|]. destruct (Req_EM_T wep 0) as [?|_]; [contradiction|].
    cbn [qscale qadd omap obind]. intros H. f_equal. induction es as [|x es IH]; [reflexivity|].
    cbn [map] in *. unfold add2 in *. cbn [combine map fst snd] in *. f_equal.
    - specialize (H x (or_introl eq_refl)). injection H as H. exact H.
    - apply IH. intros y Hy. apply H. right; exact Hy.
  Qed.
  (** the spectrum in 1/(s eV) *)
  Lemma spectrum_is m L : emits m L -> forall P, 0 < qss P -> List.Forall (fun x => 0 < x) (amounts P) ->
    comp_spectrum m P = Ok (map (fun E => L E * eV) (amounts P)).
  Proof.
    intros H P HP PP. destruct H as [B lo hi n pd f Hf|seeds lo hi n pd f Hf Hs|n0 wee wep lo hi n pd f L Hf H1 H2 HL|nh lo hi n pd f L Hf Hlo Hhi HL]; cbn [FitRadModel.comp_spectrum].
    - f_equal. rewrite (C113_synchrotron_agrees mec2 ks eV n B lo hi pd f P) by assumption. unfold sy_spectrum. rewrite map_map. reflexivity.
    - f_equal. rewrite (C113_inverse_compton_agrees mec2 ar eV n seeds lo hi pd f P) by assumption. rewrite ic_pointwise, map_map. reflexivity.
    - pose proof (C113_bremsstrahlung_agrees mec2 kb gt c eV n n0 wee wep lo hi pd f P Hm He HP H1 H2 Hf) as A.
      rewrite (brems_pointwise _ _ _ _ _ _ (fun x => L (x * mec2) * mec2)) in A; [|assumption|assumption|].
      + injection A as A. f_equal. rewrite map_map in A.
        revert A PP. generalize (brems_spectrum_q mec2 kb gt c eV n0 wee wep pd (gam_q mec2 n lo hi) P) as l. generalize (amounts P) as es.
        induction es as [|x es IH]; intros [|y l] A PP; try discriminate; [reflexivity|]. cbn [map] in *. injection A as A1 A2. inversion PP; subst. f_equal; [|auto].
        replace (x / mec2 * mec2) with x in A1 by (field; lra).
        apply (Rmult_eq_reg_r (mec2 / eV)); [|apply Rgt_not_eq, Rdiv_lt_0_compat; assumption]. rewrite A1. field. lra.
      + intros x Hx. apply in_map_iff in Hx. destruct Hx as (E & <- & HE). replace (E / mec2 * mec2) with E by (field; lra). apply HL. rewrite Forall_forall in PP. apply PP, HE.
    - rewrite (C113_pion_decay_agrees GeV sig c eV n nh lo hi pd f P) by assumption.
      revert PP HL. unfold pion_spectrum. generalize (amounts P) as es. induction es as [|x es IH]; intros PP HL; [reflexivity|].
      inversion PP as [|? ? P1 P2]; subst. cbn [map]. specialize (IH P2 HL). cbn [map] in IH.
      pose proof (HL x P1) as X. cbn [map] in X. injection X as X. rewrite X. cbn [nmap numbers]. rewrite IH. cbn [omap]. do 2 f_equal. field. lra.
  Qed.

  Definition area_of (d : quant) : bool := if Req_EM_T (qv d) 0 then false else true.
  Definition out_unit (sed : bool) (d : quant) : unit_ :=
    if sed then mkU 1 (if area_of d then d_flux else d_power) else mkU (/ eV) (if area_of d then d_diff_flux else d_diff_power).
  Lemma amount_zero d : 0 < qs d -> (qv d = 0 <-> amount d = 0).
  Proof. intros H. unfold amount. split; [intros ->; ring|]. intros E. apply Rmult_integral in E. lra. Qed.
  Lemma nth_map0 {A} (f : A -> R) l i d : (i < List.length l)%nat -> nth i (map f l) 0 = f (nth i l d).
  Proof. intros H. rewrite (nth_indep _ 0 (f d)) by (rewrite map_length; exact H). apply map_nth. Qed.

  (** one model: the values in physical units *)
  Lemma out_is m L sed d e : emits m L -> 0 < qs d -> 0 < scale (qunit e) -> List.Forall (fun x => 0 < x) (vals e) ->
    exists v, comp_out m sed d e = Ok (mkQ v (out_unit sed d)) /\ List.length v = List.length (vals e) /\
      forall i, (i < List.length (vals e))%nat ->
        nth i v 0 * scale (out_unit sed d) * (if sed then 1 else phys e i ^ 2) = SED [L] (amount d) (phys e i).
  Proof.
    intros HE Hd Hs Hp. unfold comp_out, FitRadModel.comp_out.
    assert (PP : List.Forall (fun x => 0 < x) (amounts (energies_of e))).
    { unfold amounts, energies_of. cbn [qvs qss]. rewrite Forall_map. eapply Forall_impl; [|exact Hp]. intros x Hx. cbv beta. apply Rmult_lt_0_compat; assumption. }
    rewrite (spectrum_is m L HE (energies_of e) Hs PP). cbn [obind].
    pose proof (amount_zero d Hd) as AZ. pose proof PI_RGT_0 as PI0.
    assert (NV : forall i, (i < List.length (vals e))%nat -> 0 < phys e i).
    { intros i Hi. unfold phys. apply Rmult_lt_0_compat; [|exact Hs]. rewrite Forall_forall in Hp. apply Hp, nth_In, Hi. }
    assert (AM : forall i, (i < List.length (vals e))%nat -> nth i (amounts (energies_of e)) 0 = phys e i).
    { intros i Hi. unfold amounts, energies_of, phys. cbn [qvs qss]. rewrite (nth_map0 _ _ _ 0) by exact Hi. reflexivity. }
    assert (LM : List.length (amounts (energies_of e)) = List.length (vals e)) by (unfold amounts; apply map_length).
    set (flux := flux_q (map (fun E => L E * eV) (amounts (energies_of e))) d).
    assert (LF : List.length flux = List.length (vals e)).
    { unfold flux, flux_q. destruct (Req_EM_T (qv d) 0); rewrite ?map_length; exact LM. }
    assert (FL : forall i, (i < List.length (vals e))%nat ->
       nth i flux 0 = L (phys e i) * eV / (if Req_EM_T (amount d) 0 then 1 else 4 * PI * amount d ^ 2)).
    { intros i Hi. unfold flux, flux_q. rewrite conv_amount.
      destruct (Req_EM_T (qv d) 0) as [Z|Z], (Req_EM_T (amount d) 0) as [Z'|Z']; try (exfalso; tauto).
      - rewrite (nth_map0 _ _ _ 0) by lia. rewrite AM by exact Hi. field.
      - rewrite map_map. rewrite (nth_map0 _ _ _ 0) by lia. rewrite AM by exact Hi. field. split; lra. }
    assert (DN : (if Req_EM_T (amount d) 0 then 1 else 4 * PI * amount d ^ 2) <> 0).
    { destruct (Req_EM_T (amount d) 0); [lra|]. apply Rmult_integral_contrapositive_currified; [lra|]. apply pow_nonzero. assumption. }
    destruct sed.
    - eexists. split.
      { unfold out_unit, area_of. destruct (Req_EM_T (qv d) 0); reflexivity. }
      split.
      { unfold sed_q. rewrite map_length, combine_length. fold flux. cbn [energies_of qvs]. lia. }
      intros i Hi. unfold sed_q. fold flux. rewrite (nth_map0 _ _ _ (0, 0)) by (rewrite combine_length; cbn [energies_of qvs]; lia).
      rewrite combine_nth by (cbn [energies_of qvs]; lia). cbn [fst snd energies_of qvs qss]. rewrite FL by exact Hi.
      unfold out_unit. cbn [scale]. unfold SED. cbn [map fold_right]. unfold phys. field. split; [exact DN|lra].
    - eexists. split.
      { unfold out_unit, area_of. destruct (Req_EM_T (qv d) 0); reflexivity. }
      split; [exact LF|]. intros i Hi. fold flux. rewrite FL by exact Hi. unfold out_unit. cbn [scale]. unfold SED. cbn [map fold_right]. field. split; [exact DN|lra].
  Qed.
  Lemma out_scale sed d : 0 < scale (out_unit sed d).
  Proof. unfold out_unit. destruct sed; cbn; [lra|]. apply Rinv_0_lt_compat, He. Qed.
  Lemma dims_refl x : dims_eqb x x = true.
  Proof. destruct x as [[? ?] ?]. cbn. rewrite !Z.eqb_refl. reflexivity. Qed.
  Lemma SED_cons L Ls D E : SED (L :: Ls) D E = SED [L] D E + SED Ls D E.
  Proof.
    unfold SED. cbn [map fold_right]. destruct (Req_EM_T D 0) as [Z|Z]; [field|]. field. split; [exact Z|]. pose proof PI_RGT_0. lra.
  Qed.
  Lemma model_is sed d e : 0 < qs d -> 0 < scale (qunit e) -> List.Forall (fun x => 0 < x) (vals e) ->
    forall ms m L Ls, emits m L -> Forall2 emits ms Ls ->
    exists v, fit_model m ms sed d e = Ok (mkQ v (out_unit sed d)) /\ List.length v = List.length (vals e) /\
      forall i, (i < List.length (vals e))%nat ->
        nth i v 0 * scale (out_unit sed d) * (if sed then 1 else phys e i ^ 2) = SED (L :: Ls) (amount d) (phys e i).
  Proof.
    intros Hd Hs Hp. induction ms as [|m' ms IH]; intros m L Ls HL H2.
    - inversion H2; subst. apply (out_is m L sed d e HL Hd Hs Hp).
    - inversion H2 as [|? L' ? Ls' HL' H2']; subst. cbn [FitRadModel.fit_model].
      destruct (out_is m L sed d e HL Hd Hs Hp) as (v & Ev & Lv & Pv). rewrite Ev. cbn [obind].
      destruct (IH m' L' Ls' HL' H2') as (w & Ew & Lw & Pw). rewrite Ew. cbn [obind].
      unfold qplus, qto. cbn [qunit vals]. rewrite dims_refl. cbn [obind vals].
      eexists. split; [reflexivity|]. pose proof (out_scale sed d) as S0. split.
      { unfold zipw. rewrite map_length, combine_length, map_length. lia. }
      intros i Hi. unfold zipw. rewrite (nth_map0 _ _ _ (0, 0)) by (rewrite combine_length, map_length; lia).
      rewrite combine_nth by (rewrite map_length; lia). cbn [fst snd]. rewrite (nth_map0 _ _ _ 0) by lia.
      rewrite (SED_cons L), <- Pv, <- Pw by exact Hi. field. lra.
  Qed.
  Lemma model_computes m L ms Ls sed d : 0 < qs d -> emits m L -> Forall2 emits ms Ls ->
    computes (area_of d) (fit_model m ms sed d) (SED (L :: Ls) (amount d)).
  Proof.
    intros Hd HL H2 e DE SE PE. destruct (model_is sed d e Hd SE PE ms m L Ls HL H2) as (v & Ev & Lv & Pv).
    eexists. split; [exact Ev|]. cbn [qunit vals]. split; [apply out_scale|]. split; [exact Lv|]. split.
    - unfold out_unit. destruct sed, (area_of d); [left|left|right|right]; reflexivity.
    - intros i Hi. rewrite <- (Pv i Hi). unfold phys_sed, out_unit. destruct sed, (area_of d); cbn; ring.
  Qed.

  (** ** Theorems *)
  (** The likelihood of a fit with a sum of radiative models: every measurement contributes
      with the physical SED of the sum at its energy *)
  Theorem C165_likelihood : forall nu argsort ts data_sed m L ms Ls sed d,
    positive_units nu -> is_argsort argsort -> 0 < qs d -> acceptable (area_of d) ts ->
    emits m L -> Forall2 emits ms Ls ->
    let S := SED (L :: Ls) (amount d) in
    ((exists c0, forall o, In o (input_rows true ts 0) -> o_cl o = SimplexModel.Fin c0) \/
     (forall o, In o (input_rows true ts 0) -> ~ violated_limit S o)) ->
    (exists o, In o (input_rows true ts 0) /\ ~ violated_limit S o) ->
    fit_lnl nu argsort ts data_sed (fit_model m ms sed d)
      = Ok (sumR (map (fun o => obs_term (S (o_E o)) o) (input_rows true ts 0))).
  Proof.
    intros nu argsort ts data_sed m L ms Ls sed d NU AS Hd AC HL H2 S H3 H4.
    apply (C156_likelihood_of_tables nu argsort ts data_sed (area_of d) (fit_model m ms sed d) S); auto. apply model_computes; assumption.
  Qed.
  (** Measurements, model parameters, distances and kind of output written differently:
      the same likelihood *)
  Theorem C165_same_physics : forall nu argsort argsort' ts ts' ds ds' m m' L ms ms' Ls sed sed' d d',
    positive_units nu -> is_argsort argsort -> is_argsort argsort' ->
    same d d' -> acceptable (area_of d) ts -> acceptable (area_of d') ts' ->
    emits m L -> emits m' L -> Forall2 emits ms Ls -> Forall2 emits ms' Ls ->
    Permutation (map datum (input_rows true ts 0)) (map datum (input_rows true ts' 0)) ->
    let S := SED (L :: Ls) (amount d) in
    ((exists c0, forall o, In o (input_rows true ts 0) -> o_cl o = SimplexModel.Fin c0) \/
     (forall o, In o (input_rows true ts 0) -> ~ violated_limit S o)) ->
    (exists o, In o (input_rows true ts 0) /\ ~ violated_limit S o) ->
    fit_lnl nu argsort ts ds (fit_model m ms sed d) = fit_lnl nu argsort' ts' ds' (fit_model m' ms' sed' d') /\
    exists l, fit_lnl nu argsort ts ds (fit_model m ms sed d) = Ok l.
  Proof.
    intros nu argsort argsort' ts ts' ds ds' m m' L ms ms' Ls sed sed' d d' NU A1 A2 (D1 & D2 & DD) AC AC' E1 E2 F1 F2 PM S H3 H4.
    assert (AR : area_of d' = area_of d).
    { unfold area_of. pose proof (amount_zero d D1). pose proof (amount_zero d' D2).
      destruct (Req_EM_T (qv d) 0) as [z|z], (Req_EM_T (qv d') 0) as [z'|z']; try reflexivity; exfalso; rewrite DD in *; tauto. }
    rewrite AR in AC'.
    apply (C157_same_data_same_fit nu argsort argsort' ts ts' ds ds' (area_of d) (fit_model m ms sed d) (fit_model m' ms' sed' d') S); auto.
    - apply model_computes; assumption.
    - rewrite <- AR. unfold S. rewrite DD. apply model_computes; assumption.
  Qed.
  (** What "written differently" may be: the same amounts in other units emit the same *)
  Theorem C165_same_parameters :
    (forall B lo hi n pd B' lo' hi' pd', same B B' -> same lo lo' -> same hi hi' -> same_dist pd pd' ->
       exists L, emits (Sy B lo hi n pd) L /\ emits (Sy B' lo' hi' n pd') L) /\
    (forall seeds lo hi n pd seeds' lo' hi' pd', Forall2 same_seed seeds seeds' -> List.Forall seed_wf seeds -> List.Forall seed_wf seeds' ->
       same lo lo' -> same hi hi' -> same_dist pd pd' ->
       exists L, emits (IC seeds lo hi n pd) L /\ emits (IC seeds' lo' hi' n pd') L) /\
    (forall n0 wee wep lo hi n pd n0' lo' hi' pd', wee <> 0 -> wep <> 0 ->
       same n0 n0' -> same lo lo' -> same hi hi' -> same_dist pd pd' ->
       exists L, emits (Br n0 wee wep lo hi n pd) L /\ emits (Br n0' wee wep lo' hi' n pd') L) /\
    (forall nh lo hi n pd nh' lo' hi' pd' f L, same nh nh' -> same lo lo' -> same hi hi' ->
       respects_units pd f -> respects_units pd' f ->
       (forall E, 0 < E -> pion_spectrum sig (amount nh * c) GeV f (Ep GeV n (amount lo) (amount hi)) [E / GeV] = [Some (L E * GeV)]) ->
       emits (Pi nh lo hi n pd) L /\ emits (Pi nh' lo' hi' n pd') L).
  Proof.
    split; [|split; [|split]].
    - intros B lo hi n pd B' lo' hi' pd' (_ & _ & H1) (_ & _ & H2) (_ & _ & H3) (f & F1 & F2).
      eexists. split; [apply (emits_sy _ _ _ _ _ _ _ _ B lo hi n pd f F1)|]. rewrite H1, H2, H3. apply emits_sy. exact F2.
    - intros seeds lo hi n pd seeds' lo' hi' pd' HS W1 W2 (_ & _ & H2) (_ & _ & H3) (f & F1 & F2).
      assert (E : map seed_amount seeds = map seed_amount seeds').
      { clear W1 W2. induction HS as [|s s' r r' H HS IH]; [reflexivity|]. cbn [map]. rewrite IH. f_equal.
        destruct H as [T u T' u' (_ & _ & A) (_ & _ & B)|T u th T' u' th' (_ & _ & A) (_ & _ & B) (_ & _ & C)|e x e' x' (_ & _ & A) (_ & _ & B)|e x e' x' (_ & _ & A) (_ & _ & B)]; cbn [seed_amount option_map]; congruence. }
      eexists. split; [apply (emits_ic _ _ _ _ _ _ _ _ seeds lo hi n pd f F1 W1)|]. rewrite E, H2, H3. apply emits_ic; assumption.
    - intros n0 wee wep lo hi n pd n0' lo' hi' pd' W1 W2 (_ & _ & H1) (_ & _ & H2) (_ & _ & H3) (f & F1 & F2).
      assert (X : exists g, forall e, brems_luminosity kb gt mec2 c f (gam mec2 n (amount lo) (amount hi)) (amount n0) wee wep [e] = Ok [g e]).
      { unfold brems_luminosity, brems_spectrum, emiss. destruct (Req_EM_T wee 0) as [?|_]; [contradiction|]. destruct (Req_EM_T wep 0) as [?|_]; [contradiction|].
        cbn [qscale qadd omap obind map add2 combine fst snd]. eexists. intros e. unfold add2. cbn [combine map fst snd]. reflexivity. }
      destruct X as (g & X). exists (fun E => g (E / mec2) / mec2). split.
      + apply (emits_br _ _ _ _ _ _ _ _ n0 wee wep lo hi n pd f _ F1 W1 W2). intros E _. rewrite X. do 2 f_equal. field. lra.
      + apply (emits_br _ _ _ _ _ _ _ _ n0' wee wep lo' hi' n pd' f _ F2 W1 W2). intros E _. rewrite <- H1, <- H2, <- H3, X. do 2 f_equal. field. lra.
    - intros nh lo hi n pd nh' lo' hi' pd' f L (_ & _ & H1) (P1 & P2 & H2) (P3 & P4 & H3) F1 F2 HL. split.
      + apply (emits_pi _ _ _ _ _ _ _ _ nh lo hi n pd f L F1 P1 P3 HL).
      + apply (emits_pi _ _ _ _ _ _ _ _ nh' lo' hi' n pd' f L F2 P2 P4). rewrite <- H1, <- H2, <- H3. exact HL.
  Qed.
End Th.

(** ** Example: the two tables of EndProps and the sum of four models for a distance of 2 in
    a unit of 5 cm; the constants do not matter, the cross section is any without nan *)
Lemma ntrapz_some : forall (l : list R) ys, List.Forall (fun y => y <> None) ys -> ntrapz ys l <> None.
Proof.
  intros l ys. revert l. induction ys as [|y ys IH]; intros [|x l] H; try (cbn; discriminate); [destruct ys; discriminate|].
  inversion H as [|? ? H1 H2]; subst. destruct ys as [|y' ys]; [discriminate|]. destruct l as [|x' l]; [discriminate|].
  change (ntrapz (y :: y' :: ys) (x :: x' :: l)) with (nbind (ninterval x x' y y') (fun v => nmap (Rplus v) (ntrapz (y' :: ys) (x' :: l)))).
  specialize (IH (x' :: l) H2). destruct y as [a|]; [|congruence]. unfold ninterval.
  destruct (is_zero (Some a) || is_zero y'); cbn [nbind nmap]; [|destruct (Req_EM_T x x'); cbn [nbind nmap]];
  destruct (ntrapz (y' :: ys) (x' :: l)); try congruence; discriminate.
Qed.
Lemma pion_emits mec2 GeV ar kb gt c ks sig nh lo hi n pd f : 0 < GeV -> respects_units pd f -> 0 < qs lo -> 0 < qs hi ->
  (forall a b, sig a b <> None) -> exists L, emits mec2 GeV ar kb gt c ks sig (Pi nh lo hi n pd) L.
Proof.
  intros HG Hf H1 H2 Hs.
  set (es := Ep GeV n (amount lo) (amount hi)).
  set (T := fun Eg => ntrapz (map (fun p => nmul (sig (fst p) Eg) (Some (snd p))) (combine es (J GeV f es))) es).
  assert (HT : forall Eg, T Eg <> None).
  { intros Eg. apply ntrapz_some. rewrite Forall_map, Forall_forall. intros p _. pose proof (Hs (fst p) Eg). destruct (sig (fst p) Eg); [discriminate|congruence]. }
  exists (fun E => match T (E / GeV) with Some v => amount nh * c * v / GeV | None => 0 end).
  apply (emits_pi _ _ _ _ _ _ _ _ nh lo hi n pd f _ Hf H1 H2). intros E _. unfold pion_spectrum. cbn [map]. fold es. fold (T (E / GeV)).
  specialize (HT (E / GeV)). destruct (T (E / GeV)) as [v|]; [|congruence]. cbn [nmap]. do 2 f_equal. field. lra.
Qed.
Example C165_example : forall mec2 eV GeV ar kb gt c ks, 0 < mec2 -> 0 < eV -> 0 < GeV ->
  let E1 := mkQu 1 (1 / 2) in let E2 := mkQu 100 3 in let d := mkQu 2 5 in
  let em := emits mec2 GeV ar kb gt c ks (fun _ _ => Some 1) in
  exists L1 L2 L3 L4,
    em (Sy (mkQu 3 (1 / 1000000)) E1 E2 20 pl_own_unit) L1 /\
    Forall2 em [IC [QThermal (mkQu 3000 1) (mkQu 1 2) None; QLine (mkQu 1 2) (mkQu 1 1)] E1 E2 20 pl_cgs;
                Br (mkQu 1 1) (1 / 2) 2 E1 E2 20 pl_own_unit; Pi (mkQu 1 1) E1 E2 20 pl_cgs] [L2; L3; L4] /\
    acceptable (area_of d) [tabA; tabB] /\
    (forall o, In o (input_rows true [tabA; tabB] 0) -> o_cl o = SimplexModel.Fin (9 / 10)) /\
    (exists o, In o (input_rows true [tabA; tabB] 0) /\ ~ violated_limit (SED [L1; L2; L3; L4] (amount d)) o).
Proof.
  intros mec2 eV GeV ar kb gt c ks Hm He HG E1 E2 d em.
  assert (P1 : respects_units pl_own_unit (fun x => Rpower x (-2)) /\ respects_units pl_cgs (fun x => Rpower x (-2))).
  { split; intros a Ha; simpl.
    + split; [now apply Rinv_0_lt_compat|]. unfold amounts. simpl. rewrite !map_map. apply map_ext. intro v. field. lra.
    + split; [lra|]. unfold amounts. simpl. rewrite !map_map. apply map_ext. intro v. ring. }
  destruct P1 as [P1 P2]. destruct C156_example as (AC & _ & CL & _).
  destruct (C165_same_parameters mec2 GeV ar kb gt c ks (fun _ _ => Some 1) Hm) as (_ & _ & X3 & _).
  assert (SD : same_dist pl_own_unit pl_own_unit) by (eexists; split; exact P1).
  destruct (X3 (mkQu 1 1) (1 / 2) 2 E1 E2 20 pl_own_unit (mkQu 1 1) E1 E2 pl_own_unit) as (L3 & B3 & _); unfold same, E1, E2; cbn; try lra; auto.
  destruct (pion_emits mec2 GeV ar kb gt c ks (fun _ _ => Some 1) (mkQu 1 1) E1 E2 20 pl_cgs _ HG P2) as (L4 & B4); [cbn; lra|cbn; lra|discriminate|].
  do 2 eexists. exists L3, L4. split; [apply emits_sy; exact P1|]. split.
  - constructor; [apply emits_ic; [exact P2|repeat constructor; cbn; lra]|]. constructor; [exact B3|]. constructor; [exact B4|constructor].
  - split; [|split; [exact CL|]].
    + replace (area_of d) with true; [exact AC|]. unfold area_of, d. cbn [qv]. destruct (Req_EM_T 2 0); [lra|reflexivity].
    + eexists. split; [right; right; left; reflexivity|]. intros [V _]. discriminate V.
Qed.
