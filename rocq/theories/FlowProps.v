(** C120: a fit from start to finish. *)
From Coq Require Import Reals List ZArith Bool String Arith Lra Lia Permutation Sorted.
From Verif Require Import Outcome SimplexModel UnitsModel CoreModel AnalysisModel AnalysisProofs FitterModel FlowModel.
Import ListNotations.
Local Open Scope R_scope.

(** ** Specification: [chain] is what one gets by moving the ensemble [e] step by step,
    the random state going from [w] to [w']. *)
Section Spec.
  Context {W : Type} (mv : W -> ensemble -> outcome (ensemble * W)).
  Inductive trajectory : W -> ensemble -> list ensemble -> W -> Prop :=
  | traj_nil w e : trajectory w e [] w
  | traj_cons w e e' w' c w'' : mv w e = Ok (e', w') -> trajectory w' e' c w'' -> trajectory w e (e' :: c) w''.
End Spec.

Lemma last_cons {A} (c : list A) : forall x e, last (x :: c) e = last c x.
Proof. induction c as [|a c IH]; intros x e; [reflexivity|]. change (last (a :: c) e = last (a :: c) x). rewrite !IH. reflexivity. Qed.
Section FlowProps.
  Variables (Tab W : Type) (nu : naima_units) (dec : nat -> string).
  Variable validate : Tab -> option bool -> outcome table.
  Variable move : (list R -> outcome ev) -> W -> ensemble -> outcome (ensemble * W).
  Variable normals : W -> nat -> nat -> list (list R) * W.
  Variable fit : table -> modelfn -> option (list R -> ev) -> list R -> outcome (list R * bool).
  Notation get_sampler := (get_sampler Tab W nu dec validate move normals fit).
  Notation run_sampler := (run_sampler Tab W nu dec validate move normals fit).
  Notation continue_ := (continue_ W nu move).
  Notation path := (path W move).
  Notation target := (target nu).

  Lemma path_traj tg n : forall w e c w', path tg n w e = Ok (c, w') <-> trajectory (move tg) w e c w' /\ List.length c = n.
  Proof.
    induction n as [|n IH]; intros w e c w'; split.
    - cbn. intros H. injection H as <- <-. split; [constructor|reflexivity].
    - intros [T HL]. destruct c; [|discriminate]. inversion T. reflexivity.
    - cbn [FlowModel.path]. destruct (move tg w e) as [[e1 w1]|] eqn:E; cbn [obind fst snd]; [|discriminate].
      destruct (path tg n w1 e1) as [[c1 w2]|] eqn:P; cbn [obind fst snd]; [|discriminate]. intros H. injection H as <- <-.
      apply IH in P. destruct P as [P1 P2]. split; [econstructor; eassumption|cbn [List.length]; f_equal; exact P2].
    - intros [T HL]. destruct c as [|e1 c]; [discriminate|]. inversion T as [|w0 e0 e1' w1 c' w2 M T']; subst.
      cbn [FlowModel.path]. rewrite M. cbn [obind fst snd]. assert (P : path tg n w1 e1 = Ok (c, w')) by (apply IH; split; [exact T'|injection HL as HL; exact HL]).
      rewrite P. reflexivity.
  Qed.
  Lemma traj_app tg : forall w e c w' c2 w2, trajectory (move tg) w e c w' -> trajectory (move tg) w' (last c e) c2 w2 ->
    trajectory (move tg) w e (c ++ c2) w2.
  Proof.
    intros w e c w' c2 w2 H. revert c2 w2. induction H as [w e|w e e' w' c w'' M T IH]; intros c2 w2 H2; [exact H2|].
    cbn [app]. econstructor; [exact M|]. apply IH. rewrite last_cons in H2. exact H2.
  Qed.

  (** What a successful fit did: the start. [p1] is the point after the normalisation
      guess, [p2] the one after the interactive window and the pre-fit, [ml] whether it is
      a maximum of the likelihood. *)
  Definition started (a : args Tab) (data : table) (m : modelfn) (p0 p1 p2 : list R) (ml : bool) : Prop :=
    exists spec r, m p0 data = Ok spec /\
    is_ok (sed_conversion nu (t_energy data) (qunit spec) false) /\ is_ok (sed_conversion nu (t_energy data) (t_unit data) false) /\
    (if a_guess a then guess_p0 nu data spec (fill_labels dec (a_labels a) (List.length p0)) p0 = Ok p1 else p1 = p0) /\
    match a_window a with
    | None => r = (p1, false)
    | Some session => let o := session p1 (fill_labels dec (a_labels a) (List.length p0)) in
                      o = Ok r \/ o = Err "ImportError" /\ r = (p1, false)
    end /\
    (if (a_prefit a && negb (snd r))%bool then fit data m (a_prior a) (fst r) = Ok (p2, ml) else r = (p2, ml)).

  Lemma start_inv a data m labels p1 p2 ml : start Tab fit a data m labels p1 = Ok (p2, ml) ->
    exists r, match a_window a with
      | None => r = (p1, false)
      | Some session => let o := session p1 labels in o = Ok r \/ o = Err "ImportError" /\ r = (p1, false)
      end /\ (if (a_prefit a && negb (snd r))%bool then fit data m (a_prior a) (fst r) = Ok (p2, ml) else r = (p2, ml)).
  Proof.
    unfold start. intros H. destruct (a_window a) as [ses|].
    - cbn zeta. destruct (ses p1 labels) as [r|e] eqn:E.
      + cbn [obind] in H. exists r. split; [left; reflexivity|]. destruct (a_prefit a && negb (snd r))%bool; [exact H|congruence].
      + destruct (String.eqb e "ImportError") eqn:X; cbn [obind] in H; [|discriminate]. apply String.eqb_eq in X. subst e.
        exists (p1, false). split; [right; split; reflexivity|]. cbn [fst snd] in *. destruct (a_prefit a && negb false)%bool; [exact H|congruence].
    - cbn [obind fst snd] in H. exists (p1, false). split; [reflexivity|]. cbn [fst snd] in *. destruct (a_prefit a && negb false)%bool; [exact H|congruence].
  Qed.

  Lemma get_inv a w s e w' : get_sampler a w = Ok (s, e, w') ->
    exists tab data m p0 p1 p2 ml burn,
      a_table a = Some tab /\ validate tab (a_sed a) = Ok data /\ a_model a = Some m /\ a_p0 a = Some p0 /\
      started a data m p0 p1 p2 ml /\
      let gw := normals w (a_nwalkers a) (List.length p2) in
      let e0 := walkers ml p2 (fst gw) in
      trajectory (move (target data m (a_prior a))) (snd gw) e0 burn w' /\ List.length burn = a_nburn a /\ e = last burn e0 /\
      s = mkSamp data m (a_prior a) (fill_labels dec (a_labels a) (List.length p0))
            (mkInfo (a_nwalkers a) (a_nburn a) p2 (a_guess a) (Some (medians (List.length p2) e)) None) burn
            (Nat.ltb 1 (a_threads a)) true (Nat.ltb 1 (a_threads a)).
  Proof.
    unfold FlowModel.get_sampler. destruct (a_table a) as [tab|]; [|discriminate].
    destruct (validate tab (a_sed a)) as [data|] eqn:V; cbn [obind]; [|discriminate].
    destruct (a_model a) as [m|]; [|discriminate]. destruct (a_p0 a) as [p0|]; [|discriminate].
    destruct (m p0 data) as [spec|] eqn:M; cbn [obind]; [|discriminate].
    destruct (check_units nu data spec) as [ab|] eqn:U; cbn [obind]; [|discriminate].
    destruct (if a_guess a then guess_p0 nu data spec (fill_labels dec (a_labels a) (List.length p0)) p0 else Ok p0) as [p1|] eqn:P1; cbn [obind]; [|discriminate].
    destruct (start Tab fit a data m (fill_labels dec (a_labels a) (List.length p0)) p1) as [[p2 ml]|] eqn:S; cbn [obind fst snd]; [|discriminate].
    intros H. exists tab, data, m, p0, p1, p2, ml.
    assert (ST : started a data m p0 p1 p2 ml).
    { apply start_inv in S. destruct S as [r [R1 R2]]. exists spec, r. split; [exact M|]. unfold check_units in U.
      destruct (sed_conversion nu (t_energy data) (qunit spec) false) as [x|] eqn:X; [|discriminate].
      destruct (sed_conversion nu (t_energy data) (t_unit data) false) as [y|] eqn:Y; [|discriminate].
      split; [exists x; reflexivity|]. split; [exists y; reflexivity|]. split; [|split; assumption].
      destruct (a_guess a); congruence. }
    set (gw := normals w (a_nwalkers a) (List.length p2)) in *. set (e0 := walkers ml p2 (fst gw)) in *.
    destruct (Nat.ltb_spec 0 (a_nburn a)) as [NB|NB].
    - unfold run_mcmc in H. cbn [f_data f_model f_prior f_pool f_open f_chain f_labels f_info f_owned fst snd] in H.
      destruct (Nat.eqb_spec (a_nburn a) 0) as [Z|_]; [lia|]. cbn [negb] in H. rewrite andb_false_r in H.
      destruct (path (target data m (a_prior a)) (a_nburn a) (snd gw) e0) as [[c w2]|] eqn:PA; cbn [obind fst snd] in H; [|discriminate].
      injection H as <- <- <-. apply path_traj in PA. destruct PA as [PA1 PA2]. exists c.
      split; [reflexivity|]. split; [exact V|]. split; [reflexivity|]. split; [reflexivity|]. split; [exact ST|].
      cbv zeta. fold gw e0. split; [exact PA1|]. split; [exact PA2|]. split; [reflexivity|]. reflexivity.
    - cbn [obind] in H. injection H as <- <- <-. exists [].
      split; [reflexivity|]. split; [exact V|]. split; [reflexivity|]. split; [reflexivity|]. split; [exact ST|].
      cbv zeta. fold gw e0. split; [constructor|]. split; [cbn; lia|]. split; reflexivity.
  Qed.

  Lemma continue_inv s w pos n s' e w' : continue_ s w pos n = (s', Ok (e, w')) ->
    trajectory (move (target (f_data s) (f_model s) (f_prior s))) w pos (f_chain s') w' /\ List.length (f_chain s') = n /\ (0 < n)%nat /\
    e = last (f_chain s') pos /\ f_data s' = f_data s /\ f_model s' = f_model s /\ f_prior s' = f_prior s /\ f_labels s' = f_labels s /\
    f_info s' = (let i := f_info s in mkInfo (i_walkers i) (i_burn i) (i_p0 i) (i_guess i) (i_median i) (Some n)) /\
    (f_pool s = true -> f_open s = true) /\ f_pool s' = f_pool s /\ (f_owned s = true -> f_open s' = false).
  Proof.
    unfold FlowModel.continue_, run_mcmc. cbn [f_data f_model f_prior f_pool f_open f_chain f_labels f_info f_owned fst snd].
    destruct (Nat.eqb_spec n 0) as [Z|NZ]; [discriminate|].
    destruct (f_pool s && negb (f_open s))%bool eqn:PO; [discriminate|].
    destruct (path _ n w pos) as [[c w2]|] eqn:PA; [|discriminate]. cbn [app f_owned].
    apply path_traj in PA. destruct PA as [PA1 PA2].
    intros H. assert (PB : f_pool s = true -> f_open s = true) by (intros X; rewrite X in PO; destruct (f_open s); [reflexivity|discriminate]).
    destruct (f_owned s) eqn:OW; injection H as <- <- <-;
      cbn [f_data f_model f_prior f_pool f_open f_chain f_labels f_info f_owned i_walkers i_burn i_p0 i_guess i_median];
      repeat (match goal with |- _ /\ _ => split end); try assumption; try reflexivity; try lia; discriminate.
  Qed.

  (** ** C120: a fit that succeeds. The posterior sampled is that of the validated data,
      the model and the prior given; the walkers start around the starting point; the
      chain returned is exactly [nrun] successive ensembles, beginning one move after
      [nburn] moves of burn-in; run_info says the truth. *)
  Theorem C120_fit : forall nrun a w s pos w', run_sampler nrun None None a w = Ok (s, pos, w') ->
    exists tab data m p0 p1 p2 ml burn wb,
      a_table a = Some tab /\ validate tab (a_sed a) = Ok data /\ a_model a = Some m /\ a_p0 a = Some p0 /\
      started a data m p0 p1 p2 ml /\
      f_data s = data /\ f_model s = m /\ f_prior s = a_prior a /\ f_labels s = fill_labels dec (a_labels a) (List.length p0) /\
      let gw := normals w (a_nwalkers a) (List.length p2) in
      let e0 := walkers ml p2 (fst gw) in
      let mv := move (target data m (a_prior a)) in
      trajectory mv (snd gw) e0 burn wb /\ List.length burn = a_nburn a /\
      trajectory mv wb (last burn e0) (f_chain s) w' /\ List.length (f_chain s) = nrun /\ (0 < nrun)%nat /\ pos = last (f_chain s) (last burn e0) /\
      f_info s = mkInfo (a_nwalkers a) (a_nburn a) p2 (a_guess a) (Some (medians (List.length p2) (last burn e0))) (Some nrun).
  Proof.
    intros nrun a w s pos w' H. unfold FlowModel.run_sampler in H.
    destruct (get_sampler a w) as [[[s0 e0] w0]|] eqn:GS; cbn [obind] in H; [|discriminate].
    destruct (continue_ s0 w0 e0 nrun) as [s1 r] eqn:C. cbn [fst snd] in H. destruct r as [[e1 w1]|]; cbn [obind fst snd] in H; [|discriminate].
    injection H as <- <- <-. apply get_inv in GS.
    destruct GS as (tab & data & m & p0 & p1 & p2 & ml & burn & A1 & A2 & A3 & A4 & A5 & B1 & B2 & B3 & B4).
    apply continue_inv in C. subst s0. cbn [f_data f_model f_prior f_labels f_info f_pool f_open f_owned i_walkers i_burn i_p0 i_guess i_median] in C.
    cbv zeta in C. destruct C as (C1 & C2 & C3 & C4 & C5 & C6 & C7 & C8 & C9 & _). subst e0.
    exists tab, data, m, p0, p1, p2, ml, burn, w0.
    repeat (match goal with |- _ /\ _ => split end); try assumption. cbv zeta.
    repeat (match goal with |- _ /\ _ => split end); try assumption.
  Qed.

  (** The run is the continuation of the burn-in: together they are one sequence of
      [nburn + nrun] moves, of which the last [nrun] ensembles are kept. *)
  Theorem C120_one_sequence : forall nrun a w s pos w', run_sampler nrun None None a w = Ok (s, pos, w') ->
    exists tg wd e0 burn, trajectory (move tg) wd e0 (burn ++ f_chain s) w' /\
      List.length (burn ++ f_chain s) = (a_nburn a + nrun)%nat /\ f_chain s = skipn (a_nburn a) (burn ++ f_chain s) /\
      (forall p, tg p = target (f_data s) (f_model s) (f_prior s) p).
  Proof.
    intros nrun a w s pos w' H. apply C120_fit in H.
    destruct H as (tab & data & m & p0 & p1 & p2 & ml & burn & wb & A1 & A2 & A3 & A4 & A5 & D1 & D2 & D3 & D4 & T1 & L1 & T2 & L2 & P & _).
    exists (target data m (a_prior a)), (snd (normals w (a_nwalkers a) (List.length p2))), (walkers ml p2 (fst (normals w (a_nwalkers a) (List.length p2)))), burn.
    split; [eapply traj_app; eassumption|]. split; [rewrite app_length; lia|]. split.
    - rewrite <- L1, skipn_app, skipn_all, Nat.sub_diag. reflexivity.
    - intros p. subst. rewrite D3. reflexivity.
  Qed.

  (** Given a sampler and a position, that sampler is run from that position: nothing of
      the other arguments matters, the steps of before are dropped, and of run_info only
      the number of steps changes. *)
  Theorem C120_given_sampler : forall nrun s pos a w s' e w', run_sampler nrun (Some s) (Some pos) a w = Ok (s', e, w') ->
    trajectory (move (target (f_data s) (f_model s) (f_prior s))) w pos (f_chain s') w' /\ List.length (f_chain s') = nrun /\ e = last (f_chain s') pos /\
    f_data s' = f_data s /\ f_model s' = f_model s /\ f_prior s' = f_prior s /\ f_labels s' = f_labels s /\
    f_info s' = mkInfo (i_walkers (f_info s)) (i_burn (f_info s)) (i_p0 (f_info s)) (i_guess (f_info s)) (i_median (f_info s)) (Some nrun).
  Proof.
    intros nrun s pos a w s' e w' H. unfold FlowModel.run_sampler in H. cbn [obind] in H.
    destruct (continue_ s w pos nrun) as [s1 r] eqn:C. cbn [fst snd] in H. destruct r as [[e1 w1]|]; cbn [obind fst snd] in H; [|discriminate].
    injection H as <- <- <-. apply continue_inv in C. cbv zeta in C. tauto.
  Qed.

  (** After a run the sampler holds no pool that naima has to close, and one that naima had
      made is closed; the number of workers does not change. *)
  Theorem C120_pool_released : forall nrun s pos a w s' e w', run_sampler nrun s pos a w = Ok (s', e, w') ->
    f_owned s' = false /\ (forall s0, s = Some s0 -> pos <> None -> f_pool s' = f_pool s0 /\ (f_owned s0 = true -> f_open s' = false) /\ (f_owned s0 = false -> f_open s' = f_open s0)) /\
    (s = None \/ pos = None -> f_pool s' = Nat.ltb 1 (a_threads a) /\ f_open s' = negb (f_pool s')).
  Proof.
    intros nrun s pos a w s' e w' H.
    assert (CO : forall s0 w0 p0 s1 r1, continue_ s0 w0 p0 nrun = (s1, Ok r1) -> f_owned s1 = false /\ f_pool s1 = f_pool s0 /\ (f_owned s0 = true -> f_open s1 = false) /\ (f_owned s0 = false -> f_open s1 = f_open s0)).
    { intros s0 w0 p0 s1 r1. unfold FlowModel.continue_, run_mcmc. cbn [f_data f_model f_prior f_pool f_open f_chain f_labels f_info f_owned fst snd].
      destruct (Nat.eqb_spec nrun 0) as [Z|NZ]; [discriminate|]. destruct (f_pool s0 && negb (f_open s0))%bool; [discriminate|].
      destruct (path _ nrun w0 p0) as [[c w2]|]; [|discriminate]. cbn [app f_owned].
      destruct (f_owned s0) eqn:OW; intros Q; injection Q as <- _; cbn [f_owned f_pool f_open]; auto; repeat split; auto; discriminate. }
    unfold FlowModel.run_sampler in H. destruct (match s, pos with Some s, Some e => Ok (s, e, w) | _, _ => get_sampler a w end) as [[[s0 e0] w0]|] eqn:G; cbn [obind] in H; [|discriminate].
    destruct (continue_ s0 w0 e0 nrun) as [s1 r] eqn:C. cbn [fst snd] in H. destruct r as [[e1 w1]|]; cbn [obind fst snd] in H; [|discriminate].
    injection H as <- <- <-. destruct (CO _ _ _ _ _ C) as (K1 & K2 & K3 & K4). split; [exact K1|]. split.
    - intros s2 -> NP. destruct pos as [p|]; [|congruence]. injection G as <- _ _. auto.
    - intros N. assert (GS : get_sampler a w = Ok (s0, e0, w0)) by (destruct N as [ -> | -> ]; [exact G|destruct s; exact G]).
      apply get_inv in GS. destruct GS as (tab & data & m & p0 & p1 & p2 & ml & burn & _ & _ & _ & _ & _ & _ & _ & _ & B4).
      rewrite B4 in K2, K3, K4. cbn [f_pool f_owned f_open] in K2, K3, K4. split; [exact K2|]. rewrite K2. destruct (Nat.ltb 1 (a_threads a)); [rewrite K3 by reflexivity|rewrite K4 by reflexivity]; reflexivity.
  Qed.

  (** The ensembles have the shape asked for, if the random numbers and emcee's moves do. *)
  Definition shaped (n d : nat) (e : ensemble) : Prop := List.length e = n /\ List.Forall (fun x => List.length x = d) e.
  Lemma traj_shaped tg n d : (forall w e e' w', shaped n d e -> move tg w e = Ok (e', w') -> shaped n d e') ->
    forall w e c w', trajectory (move tg) w e c w' -> shaped n d e -> List.Forall (shaped n d) c.
  Proof.
    intros HM w e c w' T. induction T as [|w e e' w' c w'' M T IH]; intros S; [constructor|].
    assert (S' : shaped n d e') by (eapply HM; eassumption). constructor; [exact S'|apply IH, S'].
  Qed.
  Lemma zipw_len {A} (f : R -> A -> R) x y : List.length (zipw f x y) = Nat.min (List.length x) (List.length y).
  Proof. unfold zipw. rewrite map_length, combine_length. reflexivity. Qed.
  Lemma walkers_shaped ml p draws n : shaped n (List.length p) draws -> shaped n (List.length p) (walkers ml p draws).
  Proof.
    intros [H1 H2]. unfold walkers. split; [rewrite map_length; exact H1|]. rewrite Forall_forall in *. intros x Hx. apply in_map_iff in Hx.
    destruct Hx as (g & <- & Hg). rewrite !zipw_len, map_length, (H2 g Hg). lia.
  Qed.
  Lemma last_shaped n d c e : List.Forall (shaped n d) c -> shaped n d e -> shaped n d (last c e).
  Proof. intros H. induction H as [|x c Hx Hc IH]; intros S; [exact S|]. destruct c; [exact Hx|]. apply IH, S. Qed.
  Theorem C120_shape : forall nrun a w s pos w',
    (forall w n d, shaped n d (fst (normals w n d))) ->
    (forall tg n d w e e' w', shaped n d e -> move tg w e = Ok (e', w') -> shaped n d e') ->
    run_sampler nrun None None a w = Ok (s, pos, w') ->
    let d := List.length (i_p0 (f_info s)) in
    List.Forall (shaped (a_nwalkers a) d) (f_chain s) /\ shaped (a_nwalkers a) d pos /\
    (exists m, i_median (f_info s) = Some m /\ List.length m = d).
  Proof.
    intros nrun a w s pos w' HN HM H. apply C120_fit in H.
    destruct H as (tab & data & m & p0 & p1 & p2 & ml & burn & wb & A1 & A2 & A3 & A4 & A5 & D1 & D2 & D3 & D4 & T1 & L1 & T2 & L2 & P & Q & I1).
    rewrite I1. cbn [i_p0 i_median]. cbv zeta.
    set (d := List.length p2) in *. set (gw := normals w (a_nwalkers a) d) in *.
    assert (S0 : shaped (a_nwalkers a) d (walkers ml p2 (fst gw))) by (apply walkers_shaped, HN).
    assert (SB : shaped (a_nwalkers a) d (last burn (walkers ml p2 (fst gw)))).
    { apply last_shaped; [|exact S0]. eapply traj_shaped; [apply HM|exact T1|exact S0]. }
    assert (SC : List.Forall (shaped (a_nwalkers a) d) (f_chain s)) by (eapply traj_shaped; [apply HM|exact T2|exact SB]).
    split; [exact SC|]. split; [rewrite Q; apply last_shaped; assumption|].
    eexists. split; [reflexivity|]. unfold medians. rewrite map_length, seq_length. reflexivity.
  Qed.

  (** ** The errors of get_sampler come before any step, for every ensemble sampler and
      random state, in the order of the checks. *)
  Theorem C120_errors : forall a w,
    (a_table a = None -> get_sampler a w = Err "TypeError") /\
    (forall tab, a_table a = Some tab ->
      (forall e, validate tab (a_sed a) = Err e -> get_sampler a w = Err e) /\
      (forall data, validate tab (a_sed a) = Ok data ->
        (a_model a = None \/ a_p0 a = None -> get_sampler a w = Err "TypeError") /\
        (forall m p0, a_model a = Some m -> a_p0 a = Some p0 ->
          (forall e, m p0 data = Err e -> get_sampler a w = Err e) /\
          (forall spec, m p0 data = Ok spec ->
             ~ (is_integral (dim (qunit spec)) = true \/ is_differential (dim (qunit spec)) = true) \/
             ~ (is_integral (dim (t_unit data)) = true \/ is_differential (dim (t_unit data)) = true) ->
             get_sampler a w = Err "UnitsError")))).
  Proof.
    intros a w. unfold FlowModel.get_sampler. split; [intros ->; reflexivity|]. intros tab ->. split; [intros e ->; reflexivity|].
    intros data ->. cbn [obind]. split.
    - intros [->| ->]; [reflexivity|]. destruct (a_model a); reflexivity.
    - intros m p0 -> ->. split; [intros e ->; reflexivity|]. intros spec -> HU. cbn [obind].
      assert (E : check_units nu data spec = Err "UnitsError").
      { unfold check_units, sed_conversion. cbn [negb andb orb]. destruct HU as [HU|HU].
        - destruct (is_differential (dim (qunit spec))); [exfalso; apply HU; right; reflexivity|].
          destruct (is_integral (dim (qunit spec))); [exfalso; apply HU; left; reflexivity|]. reflexivity.
        - destruct (is_differential (dim (t_unit data))); [exfalso; apply HU; right; reflexivity|].
          destruct (is_integral (dim (t_unit data))); [exfalso; apply HU; left; reflexivity|]. cbn [obind].
          match goal with |- match ?x with _ => _ end = _ => destruct x; reflexivity end. }
      rewrite E. reflexivity.
  Qed.

  (** What is sampled: the likelihood of the data times the prior, without a prior the
      likelihood. Where the prior excludes a point its probability is zero whatever the
      data; an exception of the model is not swallowed. *)
  Theorem C120_posterior : forall data (m : modelfn) prior p,
    (forall e, m p data = Err e -> target data m prior p = Err e) /\
    (forall out, m p data = Ok out ->
      (forall l, lnprobmodel nu out data = Ok l ->
        (prior = None -> target data m prior p = Ok (Fin l)) /\
        (forall g x, prior = Some g -> g p = Fin x -> target data m prior p = Ok (Fin (l + x)))) /\
      (forall g, prior = Some g -> g p = NInf -> target data m prior p = Ok NInf)).
  Proof.
    intros data m prior p. unfold FlowModel.target, lnprob. cbn [snd]. split; [intros e ->; reflexivity|]. intros out ->. cbn [obind]. split.
    - intros l HL. split.
      + intros ->. cbn [isinf negb]. rewrite HL. cbn. rewrite Rplus_0_r. reflexivity.
      + intros g x -> HG. rewrite HG. cbn [isinf negb]. rewrite HL. reflexivity.
    - intros g -> HG. rewrite HG. reflexivity.
  Qed.

  (** Without exactly one normalisation among the labels, asking for a guess changes
      nothing but the flag in run_info. *)
  Definition no_guess (a : args Tab) : args Tab :=
    mkArgs (a_table a) (a_sed a) (a_p0 a) (a_model a) (a_prior a) (a_nwalkers a) (a_nburn a) false (a_window a) (a_prefit a) (a_labels a) (a_threads a).
  Theorem C120_no_guess : forall a w, (forall p0, a_p0 a = Some p0 -> List.length (norm_idxs (fill_labels dec (a_labels a) (List.length p0))) <> 1%nat) ->
    (forall e, get_sampler (no_guess a) w = Err e -> get_sampler a w = Err e) /\
    (forall s e w', get_sampler (no_guess a) w = Ok (s, e, w') ->
      exists s', get_sampler a w = Ok (s', e, w') /\ f_chain s' = f_chain s /\ i_p0 (f_info s') = i_p0 (f_info s) /\ i_median (f_info s') = i_median (f_info s)).
  Proof.
    intros a w HN. unfold FlowModel.get_sampler, no_guess, start. cbn [a_table a_sed a_p0 a_model a_prior a_nwalkers a_nburn a_guess a_window a_prefit a_labels a_threads].
    destruct (a_table a) as [tab|]; [|split; [auto|discriminate]].
    destruct (validate tab (a_sed a)) as [data|]; cbn [obind]; [|split; [auto|discriminate]].
    destruct (a_model a) as [m|]; [|split; [auto|discriminate]]. destruct (a_p0 a) as [p0|]; [|split; [auto|discriminate]].
    destruct (m p0 data) as [spec|]; cbn [obind]; [|split; [auto|discriminate]].
    destruct (check_units nu data spec) as [ab|] eqn:U; cbn [obind]; [|split; [auto|discriminate]].
    assert (G : (if a_guess a then guess_p0 nu data spec (fill_labels dec (a_labels a) (List.length p0)) p0 else Ok p0) = Ok p0).
    { destruct (a_guess a); [|reflexivity]. unfold guess_p0. rewrite U. cbn [obind]. specialize (HN p0 eq_refl).
      destruct (norm_idxs _) as [|i [|j l]]; [reflexivity|exfalso; apply HN; reflexivity|reflexivity]. }
    rewrite G. cbn [obind].
    match goal with |- context [obind (obind ?x ?f) ?g] => destruct (obind x f) as [[p2 ml]|] end; cbn [obind fst snd]; [|split; [auto|discriminate]].
    destruct (Nat.ltb 0 (a_nburn a)).
    - unfold run_mcmc. cbn [f_data f_model f_prior f_pool f_open f_chain f_labels f_info f_owned fst snd].
      destruct (Nat.eqb (a_nburn a) 0); cbn [obind fst snd]; [split; [auto|discriminate]|]. rewrite andb_false_r.
      destruct (path _ _ _ _) as [[ch w2]|]; cbn [obind fst snd]; [|split; [auto|discriminate]].
      split; [discriminate|]. intros s e w' H. injection H as <- <- <-. eexists. split; [reflexivity|]. repeat split.
    - cbn [obind]. split; [discriminate|]. intros s e w' H. injection H as <- <- <-. eexists. split; [reflexivity|]. repeat split.
  Qed.

  (** ** Refuted: the sampler passed is the sampler run. Without a position it is ignored
      and another one is made from the remaining arguments; with the defaults this is
      the complaint that the data table is missing. *)
  Theorem C143_sampler_without_position_refuted : forall nrun s a w,
    run_sampler nrun (Some s) None a w = run_sampler nrun None None a w /\
    (a_table a = None -> run_sampler nrun (Some s) None a w = Err "TypeError").
  Proof.
    intros nrun s a w. split; [reflexivity|]. intros H. unfold FlowModel.run_sampler.
    rewrite (proj1 (C120_errors a w) H). reflexivity.
  Qed.

  (** ** Refuted: a run that fails leaves the earlier results. After a successful fit with
      several threads, a further run raises, and by then the chain is empty and run_info
      claims the steps that were not made. Zero steps do the same with one thread. *)
  Theorem C143_failed_run_loses_chain_refuted : forall n1 n2 a w s pos w1,
    run_sampler n1 None None a w = Ok (s, pos, w1) -> (1 < a_threads a)%nat \/ n2 = 0%nat ->
    f_chain s <> [] /\
    exists s' e, continue_ s w1 pos n2 = (s', Err e) /\ f_chain s' = [] /\ i_run (f_info s') = Some n2.
  Proof.
    intros n1 n2 a w s pos w1 H HT. unfold FlowModel.run_sampler in H.
    destruct (get_sampler a w) as [[[s0 e0] w0]|] eqn:GS; cbn [obind] in H; [|discriminate].
    destruct (continue_ s0 w0 e0 n1) as [s1 r] eqn:C. cbn [fst snd] in H. destruct r as [[e1 w2]|]; cbn [obind fst snd] in H; [|discriminate].
    injection H as <- <- <-. apply get_inv in GS.
    destruct GS as (tab & data & m & p0 & p1 & p2 & ml & burn & A1 & A2 & A3 & A4 & A5 & B1 & B2 & B3 & B4).
    apply continue_inv in C. destruct C as (C1 & C2 & C3 & _ & _ & _ & _ & _ & _ & _ & C4 & C5).
    split; [destruct (f_chain s1); [cbn in C2; lia|discriminate]|].
    unfold FlowModel.continue_, run_mcmc. cbn [f_data f_model f_prior f_pool f_open f_chain f_labels f_info f_owned].
    destruct (Nat.eqb_spec n2 0) as [Z|NZ].
    - eexists _, _. split; [reflexivity|]. split; reflexivity.
    - destruct HT as [HT|HT]; [|contradiction].
      rewrite B4 in C4, C5. cbn [f_pool f_owned] in C4, C5. apply Nat.ltb_lt in HT. rewrite HT in C4, C5. rewrite C4, (C5 eq_refl). cbn [andb negb].
      eexists _, _. split; [reflexivity|]. split; reflexivity.
  Qed.

  (** ** Refuted: run_info["guess"] tells whether the normalisation was guessed. It is
      the argument; with no or several normalisation labels nothing is guessed. *)
  Theorem C143_guess_flag_refuted : forall a w s e w' p0, get_sampler a w = Ok (s, e, w') -> a_guess a = true -> a_p0 a = Some p0 ->
    a_window a = None -> a_prefit a = false -> List.length (norm_idxs (f_labels s)) <> 1%nat ->
    i_guess (f_info s) = true /\ i_p0 (f_info s) = p0.
  Proof.
    intros a w s e w' p0 H HG HP HW HF HL. apply get_inv in H.
    destruct H as (tab & data & m & p0' & p1 & p2 & ml & burn & A1 & A2 & A3 & A4 & A5 & B1 & B2 & B3 & B4).
    subst s. cbn [f_info i_guess i_p0 f_labels] in *. split; [exact HG|]. rewrite HP in A4. injection A4 as <-.
    destruct A5 as (spec & r & _ & _ & _ & Q & Wd & F). rewrite HW in Wd. subst r. rewrite HF in F. cbn [andb] in F. injection F as <- <-.
    rewrite HG in Q. unfold guess_p0 in Q. destruct (check_units nu data spec); cbn [obind] in Q; [|discriminate].
    destruct (norm_idxs (fill_labels dec (a_labels a) (List.length p0))) as [|i [|j l]]; [congruence|exfalso; apply HL; reflexivity|congruence].
  Qed.
End FlowProps.
Print Assumptions C120_fit.
Print Assumptions C120_one_sequence.
Print Assumptions C120_given_sampler.
Print Assumptions C120_pool_released.
Print Assumptions C120_shape.
Print Assumptions C120_errors.
Print Assumptions C120_posterior.
Print Assumptions C120_no_guess.
Print Assumptions C143_sampler_without_position_refuted.
Print Assumptions C143_failed_run_loses_chain_refuted.
Print Assumptions C143_guess_flag_refuted.

(** ** p0_burn_median is a median of the burnt-in walkers: at least half of them are on
    either side of it. *)
Definition count (f : R -> bool) (l : list R) : nat := List.length (filter f l).
Definition atmost (m x : R) : bool := if Rle_dec x m then true else false.
Definition atleast (m x : R) : bool := if Rle_dec m x then true else false.
Lemma count_perm f l l' : Permutation l l' -> count f l = count f l'.
Proof.
  unfold count. intros H. induction H as [|x l l' H IH|x y l|l l' l'' H1 IH1 H2 IH2]; auto.
  - cbn. destruct (f x); cbn; congruence.
  - cbn. destruct (f x), (f y); reflexivity.
  - congruence.
Qed.
Lemma count_le f : forall k (l : list R), (k <= List.length l)%nat -> (forall i, (i < k)%nat -> f (nth i l 0) = true) -> (k <= count f l)%nat.
Proof.
  induction k as [|k IH]; intros l HL HF; [lia|]. destruct l as [|x l]; [cbn in HL; lia|]. unfold count. cbn [filter].
  pose proof (HF 0%nat ltac:(lia)) as HF0; cbn [nth] in HF0; rewrite HF0. cbn [List.length]. apply le_n_S, IH; [cbn in HL; lia|]. intros i Hi. apply (HF (S i)). lia.
Qed.
Lemma count_ge f : forall k (l : list R), (forall i, (k <= i < List.length l)%nat -> f (nth i l 0) = true) -> (List.length l - k <= count f l)%nat.
Proof.
  intros k l. revert k. induction l as [|x l IH]; intros k HF; [cbn; lia|]. unfold count. cbn [filter List.length].
  destruct k as [|k].
  - pose proof (HF 0%nat ltac:(cbn; lia)) as HF0; cbn [nth] in HF0; rewrite HF0. cbn [List.length]. specialize (IH 0%nat). unfold count in IH. assert (List.length l - 0 <= List.length (filter f l))%nat; [|lia].
    apply IH. intros i Hi. apply (HF (S i)). cbn. lia.
  - specialize (IH k). unfold count in IH. assert (X : (List.length l - k <= List.length (filter f l))%nat).
    { apply IH. intros i Hi. apply (HF (S i)). cbn. lia. }
    destruct (f x); cbn [List.length]; lia.
Qed.
Theorem C120_median : forall (e : ensemble) d k, (k < d)%nat -> e <> [] ->
  let xs := map (fun wk => nth k wk 0) e in
  let m := nth k (medians d e) 0 in
  (List.length xs <= 2 * count (atmost m) xs)%nat /\ (List.length xs <= 2 * count (atleast m) xs)%nat.
Proof.
  intros e d k Hk HE xs m.
  assert (HM : m = median xs).
  { unfold m, medians. rewrite (nth_indep _ 0 (median (map (fun wk => nth 0 wk 0) e))) by (rewrite map_length, seq_length; exact Hk).
    rewrite (map_nth (fun k => median (map (fun wk => nth k wk 0) e)) (seq 0 d) 0%nat). rewrite seq_nth by exact Hk. reflexivity. }
  assert (HX : (0 < List.length xs)%nat) by (unfold xs; rewrite map_length; destruct e; [congruence|cbn; lia]).
  clearbody m xs. clear HE Hk. set (n := List.length xs) in *.
  assert (SL : List.length (rsort xs) = n) by apply rsort_length.
  assert (MONO : forall i j, (i <= j < n)%nat -> nth i (rsort xs) 0 <= nth j (rsort xs) 0).
  { intros i j Hij. apply sorted_nth; [apply rsort_sorted|]. rewrite SL. lia. }
  rewrite <- !(count_perm _ _ _ (rsort_perm xs)).
  pose proof (Nat.div_mod n 2 ltac:(lia)) as DM. pose proof (Nat.mod_upper_bound n 2 ltac:(lia)) as DU.
  unfold median in HM. fold n in HM. destruct (Nat.odd n) eqn:OD.
  - apply Nat.odd_spec in OD. destruct OD as [q OD].
    assert (Q : (n / 2 = q)%nat) by (rewrite OD; replace (2 * q + 1)%nat with (1 + q * 2)%nat by lia; rewrite Nat.div_add by lia; reflexivity).
    rewrite Q in HM. split.
    + assert (q + 1 <= count (atmost m) (rsort xs))%nat; [|lia]. apply count_le; [lia|]. intros i Hi. unfold atmost. destruct (Rle_dec (nth i (rsort xs) 0) m); [reflexivity|].
      exfalso. apply n0. rewrite HM. apply MONO. lia.
    + assert (List.length (rsort xs) - q <= count (atleast m) (rsort xs))%nat; [|lia]. apply count_ge. intros i Hi. unfold atleast. destruct (Rle_dec m (nth i (rsort xs) 0)); [reflexivity|].
      exfalso. apply n0. rewrite HM. apply MONO. lia.
  - assert (EV : Nat.even n = true) by (rewrite <- Nat.negb_odd, OD; reflexivity). apply Nat.even_spec in EV. destruct EV as [q EV].
    assert (Q : (n / 2 = q)%nat) by (rewrite EV, Nat.mul_comm; apply Nat.div_mul; lia).
    rewrite Q in HM. pose proof (MONO (q - 1)%nat q ltac:(lia)) as MM. split.
    + assert (q <= count (atmost m) (rsort xs))%nat; [|lia]. apply count_le; [lia|]. intros i Hi. unfold atmost. destruct (Rle_dec (nth i (rsort xs) 0) m); [reflexivity|].
      exfalso. apply n0. pose proof (MONO i (q - 1)%nat ltac:(lia)). lra.
    + assert (List.length (rsort xs) - q <= count (atleast m) (rsort xs))%nat; [|lia]. apply count_ge. intros i Hi. unfold atleast. destruct (Rle_dec m (nth i (rsort xs) 0)); [reflexivity|].
      exfalso. apply n0. pose proof (MONO q i ltac:(lia)). lra.
Qed.
Print Assumptions C120_median.

(** For any arrangement of the values in increasing order it is the middle one or the mean
    of the two in the middle. *)
Lemma sorted_perm_unique : forall l l' : list R, StronglySorted Rle l -> StronglySorted Rle l' -> Permutation l l' -> l = l'.
Proof.
  induction l as [|a l IH]; intros l' S S' P; [apply Permutation_nil in P; subst; reflexivity|].
  destruct l' as [|b l']; [apply Permutation_sym, Permutation_nil in P; discriminate|].
  inversion S as [|? ? S1 F1]; subst. inversion S' as [|? ? S2 F2]; subst. rewrite Forall_forall in F1, F2.
  assert (E : a = b).
  { assert (A : a <= b). { assert (I1 : In b (a :: l)) by (apply Permutation_in with (b :: l'); [apply Permutation_sym, P|left; reflexivity]). destruct I1 as [->|I1]; [lra|apply F1, I1]. }
    assert (B : b <= a). { assert (I1 : In a (b :: l')) by (apply Permutation_in with (a :: l); [exact P|left; reflexivity]). destruct I1 as [->|I1]; [lra|apply F2, I1]. }
    lra. }
  subst b. f_equal. apply IH; try assumption. apply Permutation_cons_inv in P. exact P.
Qed.
Theorem C120_median_value : forall (e : ensemble) d k s, (k < d)%nat -> e <> [] ->
  Permutation (map (fun wk => nth k wk 0) e) s -> (forall i j, (i <= j < List.length s)%nat -> nth i s 0 <= nth j s 0) ->
  nth k (medians d e) 0 = (nth ((List.length e - 1) / 2) s 0 + nth (List.length e / 2) s 0) / 2.
Proof.
  intros e d k s Hk HE P S. set (xs := map (fun wk => nth k wk 0) e) in *.
  assert (HM : nth k (medians d e) 0 = median xs).
  { unfold medians. rewrite (nth_indep _ 0 (median (map (fun wk => nth 0 wk 0) e))) by (rewrite map_length, seq_length; exact Hk).
    rewrite (map_nth (fun k => median (map (fun wk => nth k wk 0) e)) (seq 0 d) 0%nat). rewrite seq_nth by exact Hk. reflexivity. }
  rewrite HM. assert (LX : List.length xs = List.length e) by apply map_length.
  assert (RS : rsort xs = s).
  { apply sorted_perm_unique.
    - pose proof (rsort_sorted xs) as Q. exact Q.
    - assert (SS : forall l : list R, (forall i j, (i <= j < List.length l)%nat -> nth i l 0 <= nth j l 0) -> StronglySorted Rle l).
      { clear. induction l as [|a l IH]; intros H; [constructor|]. constructor; [apply IH; intros i j Hij; apply (H (Datatypes.S i) (Datatypes.S j)); cbn; lia|].
        apply Forall_forall. intros x Hx. apply (In_nth l x 0) in Hx. destruct Hx as (i & Hi & <-). apply (H 0%nat (Datatypes.S i)). cbn. lia. }
      apply SS, S.
    - apply perm_trans with xs; [apply rsort_perm|exact P]. }
  assert (N0 : (0 < List.length e)%nat) by (destruct e; [congruence|cbn; lia]).
  unfold median. rewrite RS, LX. generalize dependent (List.length e). intros n _ N0. destruct (Nat.odd n) eqn:OD.
  - apply Nat.odd_spec in OD. destruct OD as [q OD]. replace ((n - 1) / 2)%nat with q by (rewrite OD; replace (2 * q + 1 - 1)%nat with (q * 2)%nat by lia; rewrite Nat.div_mul; lia).
    replace (n / 2)%nat with q by (rewrite OD; replace (2 * q + 1)%nat with (1 + q * 2)%nat by lia; rewrite Nat.div_add by lia; reflexivity). field.
  - assert (EV : Nat.even n = true) by (rewrite <- Nat.negb_odd, OD; reflexivity). apply Nat.even_spec in EV. destruct EV as [q EV].
    assert (Q : (n / 2 = q)%nat) by (rewrite EV, Nat.mul_comm; apply Nat.div_mul; lia). rewrite Q.
    replace ((n - 1) / 2)%nat with (q - 1)%nat; [reflexivity|]. replace (n - 1)%nat with (1 + (q - 1) * 2)%nat by lia. rewrite Nat.div_add by lia. reflexivity.
Qed.
Print Assumptions C120_median_value.

(** ** A concrete fit: two data points, a constant model in the unit of the data, three
    walkers in one dimension, a "move" that adds one, two threads. *)
Definition ex_u : unit_ := mkU 1 d_diff_flux.
Definition ex_data : table := mkT (mkQ [1; 2] (mkU 1 d_energy)) [mkRow 1 1 1 false (95 / 100); mkRow 2 1 1 false (95 / 100)] ex_u.
Definition ex_args : args unit := mkArgs (Some tt) None (Some [5]) (Some (fun p d => Ok (mkQ [nth 0 p 0; nth 0 p 0] ex_u))) None 3 2 false None false None 2.
Definition ex_move (tg : list R -> outcome ev) (w : nat) (e : ensemble) : outcome (ensemble * nat) := Ok (map (map (Rplus 1)) e, S w).
Definition ex_normals (w n d : nat) : list (list R) * nat := (repeat (repeat 0 d) n, w).
Definition ex_run n a w := run_sampler unit nat (mkNU 1 1 1 1) (fun _ => "?"%string) (fun _ _ => Ok ex_data) ex_move ex_normals (fun _ _ _ p => Ok (p, true)) n None None a w.
Example C120_example : exists s, ex_run 4 ex_args 7%nat = Ok (s, [[5 + 0 + 6]; [5 + 0 + 6]; [5 + 0 + 6]], 13%nat) /\
  List.length (f_chain s) = 4%nat /\ i_burn (f_info s) = 2%nat /\ i_run (f_info s) = Some 4%nat /\ i_p0 (f_info s) = [5] /\ f_labels s = ["norm"%string].
Proof.
  unfold ex_run, run_sampler, get_sampler, ex_args. cbn -[Rplus Rmult Rdiv]. eexists. split.
  - replace (1 + (1 + (1 + (1 + (1 + (1 + (5 + 1 / 10 * 5 * 0))))))) with (5 + 0 + 6) by field. reflexivity.
  - repeat (match goal with |- _ /\ _ => split end); reflexivity.
Qed.
Example C120_units_error_example : forall w, ex_run 4 (mkArgs (Some tt) None (Some [5]) (Some (fun p d => Ok (mkQ [1; 1] (mkU 1 d_none)))) None 3 2 true None false None 2) w = Err "UnitsError".
Proof. intros w. reflexivity. Qed.
