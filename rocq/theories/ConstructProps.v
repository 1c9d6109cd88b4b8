(** C122: constructing a radiative model. *)
From Coq Require Import Reals List Bool String Ascii ZArith Arith Lra Lia.
From Verif Require Import Outcome ElectronModel SeedModel MetaModel MetaProps ConstructModel.
Import ListNotations.
Local Open Scope R_scope.

(** ** Specification *)
(** a number of particles per unit energy *)
Definition per_energy (v : value) : Prop := exists p, v = VQ (-1, 0, 0, 0)%Z p.
(** a particle distribution in the sense of the documentation: called with any energies,
    it returns a number of particles per unit energy *)
Definition is_distribution (pd : pdist) : Prop := forall es, exists v, pd_call pd es = Ok v /\ per_energy v.
(** looking for an amplitude gives something, or fails like a missing attribute *)
Definition plain_amplitude (pd : pdist) : Prop :=
  match pd_amp pd with Ok _ => True | Err e => e = "AttributeError"%string \/ e = "TypeError"%string end.
(** arguments in the units documented *)
Definition args_ok (ar eV : R) (c : spec) : Prop :=
  match c with
  | CSynchrotron B => exists x, B = VQ (0, 0, 0, 1)%Z (PS x)
  | CInverseCompton (inl s) => exists ss, process_string ar eV s = Ok ss
  | CInverseCompton (inr l) => exists ss, process_list ar eV l = Ok ss
  | CBremsstrahlung n0 => exists x, n0 = VQ (0, -3, 0, 0)%Z (PS x)
  | CPionDecay nh _ => exists x, nh = VQ (0, -3, 0, 0)%Z (PS x)
  | CKelner06 nh Etrans => (exists x, nh = VQ (0, -3, 0, 0)%Z (PS x)) /\ exists x, Etrans = VQ (1, 0, 0, 0)%Z (PS x) /\ 0 <= x
  end.
Definition is_kelner (c : spec) : bool := match c with CKelner06 _ _ => true | _ => false end.
(** an energy in erg *)
Definition erg (x : R) : attr := AVal (VQ (1, 0, 0, 0)%Z (PS x)).
(** The defaults of the documentation: 1 GeV, 100 MeV, 100 or 300 points per decade, 10 PeV,
    Pythia8; the number of points of InverseCompton is treated apart. *)
Definition documented (TeV : R) (c : spec) : list (string * attr) :=
  match c with
  | CSynchrotron _ => [("Eemin", erg (TeV / 1000)); ("nEed", ANum 100)]
  | CInverseCompton _ => [("Eemin", erg (TeV / 1000))]
  | CBremsstrahlung _ => [("Eemin", erg (TeV / 10000)); ("nEed", ANum 300)]
  | CPionDecay _ _ => [("Epmax", erg (10 * (1000 * TeV))); ("nEpd", ANum 100); ("useLUT", ABool true); ("hiEmodel", AStr "Pythia8")]
  | CKelner06 _ _ => []
  end%string.
(** the arguments of the call, under the name of their attribute *)
Definition arguments (c : spec) : list (string * attr) :=
  match c with
  | CSynchrotron B => [("B", AVal B)]
  | CInverseCompton _ => []
  | CBremsstrahlung n0 => [("n0", AVal n0)]
  | CPionDecay nh ne => [("nh", AVal nh); ("nuclear_enhancement", ABool ne)]
  | CKelner06 nh Etrans => [("nh", AVal nh); ("Etrans", AVal Etrans)]
  end%string.
(** attributes that hold no parameter *)
Definition internal (k : string) : Prop := In k ["particle_distribution"; "param_names"; "_memoize"; "_cache"; "_queue"]%string.

(** ** Lemmas *)
Lemma pdim_eqb_true a b : pdim_eqb a b = true <-> a = b.
Proof.
  destruct a as [[[e l] t] m], b as [[[e' l'] t'] m']. unfold pdim_eqb. rewrite !andb_true_iff, !Z.eqb_eq. split; [intros (((-> & ->) & ->) & ->); reflexivity|]. intros H; inversion H; auto.
Qed.
Lemma vpt_ok v d w : validate_physical_type v d = Ok w <-> w = v /\ exists p, v = VQ d p.
Proof.
  destruct v as [d' p|p|]; cbn; try (split; [discriminate|intros (_ & p' & H); discriminate]).
  destruct (pdim_eqb d' d) eqn:E.
  - apply pdim_eqb_true in E. subst. split; [intros H; inversion H; eauto|intros (-> & _); reflexivity].
  - split; [discriminate|]. intros (_ & p' & H). inversion H; subst. rewrite (proj2 (pdim_eqb_true d d) eq_refl) in E. discriminate.
Qed.
Lemma set_all_update o kw : set_all o kw = update o kw.
Proof. reflexivity. Qed.
Lemma vs_ok v b d w : validate_scalar v b d = Ok w -> w = v /\ exists p, v = VQ d p.
Proof.
  unfold validate_scalar. destruct (validate_physical_type v d) as [v'|e] eqn:E; cbn [obind]; [|discriminate]. apply vpt_ok in E. destruct E as (-> & p & ->).
  destruct b; [|intros H; inversion H; eauto]. destruct (below_zero p) as [[|]|e]; cbn; intros H; inversion H; eauto.
Qed.
Lemma vs_free d p : validate_scalar (VQ d p) false d = Ok (VQ d p).
Proof. unfold validate_scalar, validate_physical_type. rewrite (proj2 (pdim_eqb_true d d) eq_refl). reflexivity. Qed.
Lemma vs_pos d x : 0 <= x -> validate_scalar (VQ d (PS x)) true d = Ok (VQ d (PS x)).
Proof. intros H. unfold validate_scalar, validate_physical_type. rewrite (proj2 (pdim_eqb_true d d) eq_refl). cbn. destruct (Rlt_dec x 0); [lra|reflexivity]. Qed.

Section C.
  Variables (TeV mec2 m_p ar eV : R).
  Notation new := (new TeV mec2 m_p ar eV).

  (** the object before the remaining keywords are applied *)
  Definition bare (pd : pdist) (c : spec) (o : obj) : Prop := new pd c [] = Ok o.
  Lemma new_split pd c kw : new pd c kw = omap (fun o => update o kw) (new pd c []).
  Proof.
    destruct c; cbn -[dset dget update set_all]; unfold new_synchrotron, new_ic, new_bremsstrahlung, new_pion, new_kelner;
      repeat (match goal with |- obind ?x _ = omap _ (obind ?x _) => destruct x; cbn [obind omap]; try reflexivity end).
  Qed.
  Lemma new_ok pd c kw o : new pd c kw = Ok o -> exists b, new pd c [] = Ok b /\ o = update b kw.
  Proof. rewrite new_split. destruct (new pd c []) as [b|e]; cbn; intros H; inversion H; eauto. Qed.
  Lemma check_dist_ok pd v : check_dist TeV pd = Ok v ->
    (exists a, pd_amp pd = Ok a /\ per_energy a) \/ (exists w, pd_call pd [1 / 10 * TeV; 1 * TeV; 10 * TeV] = Ok w /\ per_energy w).
  Proof.
    unfold check_dist. destruct (obind (pd_amp pd) _) as [v'|e] eqn:E.
    - destruct (pd_amp pd) as [a|e]; cbn in E; [|discriminate]. apply vpt_ok in E. destruct E as (-> & p & ->). left. eexists. split; [reflexivity|]. exists p. reflexivity.
    - destruct (_ || _)%bool; [|discriminate]. unfold check_output. destruct (pd_call pd _) as [w|e']; cbn; [|discriminate]. intros H.
      apply vpt_ok in H. destruct H as (-> & p & ->). right. eexists. split; [reflexivity|]. exists p. reflexivity.
  Qed.
  Lemma check_dist_amp pd a : pd_amp pd = Ok a -> per_energy a -> check_dist TeV pd = Ok a.
  Proof. intros E (p & ->). unfold check_dist. rewrite E. reflexivity. Qed.
  Lemma check_dist_proper pd : is_distribution pd -> plain_amplitude pd -> exists v, check_dist TeV pd = Ok v.
  Proof.
    intros D P. unfold check_dist, plain_amplitude in *.
    assert (O : exists v, check_output TeV pd = Ok v).
    { unfold check_output. destruct (D [1 / 10 * TeV; 1 * TeV; 10 * TeV]) as (v & -> & p & ->). cbn. eauto. }
    destruct (pd_amp pd) as [a|e]; cbn [obind].
    - destruct a as [d p|p|]; cbn; try (destruct (pdim_eqb d p_diff_energy)); cbn; eauto.
    - destruct P as [-> | ->]; cbn; exact O.
  Qed.
  Lemma new_checked pd c o : is_kelner c = false -> new pd c [] = Ok o -> exists v, check_dist TeV pd = Ok v.
  Proof.
    destruct c; cbn [is_kelner]; try discriminate; intros _; cbn -[dset dget]; unfold new_synchrotron, new_ic, new_bremsstrahlung, new_pion, base_electron, base_proton;
      destruct (check_dist TeV pd); cbn; eauto; discriminate.
  Qed.

  (** ** Theorems *)
  (** A model (other than PionDecayKelner06) is made only of a distribution that has an
      amplitude per unit energy, or that returns a number per unit energy at three
      energies. *)
  Theorem C122_checked : forall pd c kw o, is_kelner c = false -> new pd c kw = Ok o ->
    (exists a, pd_amp pd = Ok a /\ per_energy a) \/
    (exists v, pd_call pd [1 / 10 * TeV; 1 * TeV; 10 * TeV] = Ok v /\ per_energy v).
  Proof.
    intros pd c kw o K H. apply new_ok in H. destruct H as (b & H & _). apply new_checked in H; [|exact K]. destruct H as (v & H). apply (check_dist_ok _ _ H).
  Qed.
  (** Every distribution that keeps its contract is accepted, whatever it is otherwise:
      plain function, spectral model, class of the user; arguments being valid. *)
  Theorem C122_accepted : forall pd c kw, is_distribution pd -> plain_amplitude pd -> args_ok ar eV c -> exists o, new pd c kw = Ok o.
  Proof.
    intros pd c kw D P A. destruct (check_dist_proper pd D P) as (v & CD). rewrite new_split.
    enough (exists b, new pd c [] = Ok b) as (b & ->) by (eexists; reflexivity).
    destruct c as [B|[s|l]|n0|nh ne|nh Et]; cbn -[dset dget]; unfold new_synchrotron, new_ic, new_bremsstrahlung, new_pion, new_kelner, base_electron, base_proton;
      try rewrite CD; cbn [obind omap]; cbn [args_ok] in A.
    - destruct A as (x & ->). fold p_magnetic. rewrite vs_free. cbn [obind]. eauto.
    - destruct A as (ss & ->). cbn [obind]. eauto.
    - destruct A as (ss & ->). cbn [obind]. eauto.
    - eauto.
    - destruct A as (x & ->). fold p_density. rewrite vs_free. cbn [obind]. eauto.
    - destruct A as ((x & ->) & y & -> & H). fold p_density p_energy. rewrite vs_free. cbn [obind]. rewrite vs_pos by exact H. cbn [obind]. eauto.
  Qed.
  (** The magnetic field, the density and the transition energy must have the right
      units; the transition energy must not be negative. *)
  Theorem C122_arguments_checked : forall pd c kw o, new pd c kw = Ok o ->
    match c with
    | CSynchrotron B => exists p, B = VQ (0, 0, 0, 1)%Z p
    | CInverseCompton (inl s) => exists ss, process_string ar eV s = Ok ss
    | CInverseCompton (inr l) => exists ss, process_list ar eV l = Ok ss
    | CBremsstrahlung _ => True
    | CPionDecay nh _ => exists p, nh = VQ (0, -3, 0, 0)%Z p
    | CKelner06 nh Etrans => (exists p, nh = VQ (0, -3, 0, 0)%Z p) /\ (exists p, Etrans = VQ (1, 0, 0, 0)%Z p /\ forall x, p = PS x -> 0 <= x)
    end.
  Proof.
    intros pd c kw o H. apply new_ok in H. destruct H as (b & H & _).
    destruct c as [B|[s|l]|n0|nh ne|nh Et]; cbn -[dset dget] in H; unfold new_synchrotron, new_ic, new_bremsstrahlung, new_pion, new_kelner in H.
    - destruct (base_electron TeV pd); cbn [obind] in H; [|discriminate]. destruct (validate_scalar B _ _) eqn:E; cbn [obind] in H; [|discriminate]. apply vs_ok in E. destruct E as (_ & E). exact E.
    - destruct (base_electron TeV pd); cbn [obind] in H; [|discriminate]. destruct (process_string ar eV s); cbn [obind] in H; [eauto|discriminate].
    - destruct (base_electron TeV pd); cbn [obind] in H; [|discriminate]. destruct (process_list ar eV l); cbn [obind] in H; [eauto|discriminate].
    - exact Logic.I.
    - destruct (base_proton TeV pd); cbn [obind] in H; [|discriminate]. destruct (validate_scalar nh _ _) eqn:E; cbn [obind] in H; [|discriminate]. apply vs_ok in E. destruct E as (_ & E). exact E.
    - destruct (validate_scalar nh _ _) eqn:E; cbn [obind] in H; [|discriminate]. apply vs_ok in E. destruct E as (-> & E). split; [exact E|].
      destruct (validate_scalar Et _ _) eqn:E'; cbn [obind] in H; [|discriminate]. pose proof E' as E2. apply vs_ok in E'. destruct E' as (-> & p & ->). exists p. split; [reflexivity|].
      intros x ->. cbn in E2. destruct (Rlt_dec x 0); [discriminate|lra].
  Qed.
  (** Exactly these arguments are accepted with a distribution that keeps its contract. Arrays
      pass as magnetic field or density; as transition energy only one number passes, or
      none at all. *)
  Theorem C122_accepted_exactly : forall pd c kw, is_distribution pd -> plain_amplitude pd ->
    (exists o, new pd c kw = Ok o) <->
    match c with
    | CSynchrotron B => exists p, B = VQ (0, 0, 0, 1)%Z p
    | CInverseCompton (inl s) => exists ss, process_string ar eV s = Ok ss
    | CInverseCompton (inr l) => exists ss, process_list ar eV l = Ok ss
    | CBremsstrahlung _ => True
    | CPionDecay nh _ => exists p, nh = VQ (0, -3, 0, 0)%Z p
    | CKelner06 nh Etrans => (exists p, nh = VQ (0, -3, 0, 0)%Z p) /\
        (exists x, Etrans = VQ (1, 0, 0, 0)%Z (PS x) /\ 0 <= x) \/
        (exists p, nh = VQ (0, -3, 0, 0)%Z p) /\ (exists l, Etrans = VQ (1, 0, 0, 0)%Z (PA l) /\ (List.length l <= 1)%nat /\ List.Forall (fun x => 0 <= x) l)
    end.
  Proof.
    intros pd c kw D P. destruct (check_dist_proper pd D P) as (v & CD). split.
    - intros (o & H). pose proof (C122_arguments_checked pd c kw o H) as A. destruct c as [B|[s|l]|n0|nh ne|nh Et]; try exact A.
      destruct A as (A1 & p & -> & A2). destruct p as [x|l].
      + left. split; [exact A1|]. exists x. split; [reflexivity|]. apply A2. reflexivity.
      + right. split; [exact A1|]. exists l. split; [reflexivity|]. apply new_ok in H. destruct H as (b & H & _). cbn -[dset dget] in H. unfold new_kelner in H. destruct A1 as (q & ->).
        change (validate_scalar (VQ (0, -3, 0, 0)%Z q) false p_density) with (validate_scalar (VQ p_density q) false p_density) in H. rewrite vs_free in H. cbn [obind] in H.
        destruct l as [|x [|y l]]; cbn in H.
        * split; [cbn; lia|constructor].
        * destruct (Rlt_dec x 0); [discriminate|]. split; [cbn; lia|]. constructor; [lra|constructor].
        * discriminate.
    - intros A. rewrite new_split. enough (exists b, new pd c [] = Ok b) as (b & ->) by (eexists; reflexivity).
      destruct c as [B|[s|l]|n0|nh ne|nh Et]; cbn -[dset dget]; unfold new_synchrotron, new_ic, new_bremsstrahlung, new_pion, new_kelner, base_electron, base_proton;
        try rewrite CD; cbn [obind omap].
      + destruct A as (x & ->). fold p_magnetic. rewrite vs_free. cbn [obind]. eauto.
      + destruct A as (ss & ->). cbn [obind]. eauto.
      + destruct A as (ss & ->). cbn [obind]. eauto.
      + eauto.
      + destruct A as (x & ->). fold p_density. rewrite vs_free. cbn [obind]. eauto.
      + destruct A as [((q & ->) & x & -> & H)|((q & ->) & l & -> & L & H)]; fold p_density p_energy; rewrite vs_free; cbn [obind].
        * rewrite vs_pos by exact H. cbn [obind]. eauto.
        * destruct l as [|x [|y l]]; [| |cbn in L; lia].
          -- cbn. eauto.
          -- inversion H; subst. cbn. destruct (Rlt_dec x 0); [lra|]. cbn. eauto.
  Qed.
  (** The distribution and the arguments are recorded as given. *)
  Theorem C122_recorded : forall pd c kw o k a, new pd c kw = Ok o -> ~ In k (map fst kw) ->
    In (k, a) (("particle_distribution"%string, ADist pd) :: arguments c) -> dget k o = Some a.
  Proof.
    intros pd c kw o k a H N I'. apply new_ok in H. destruct H as (b & H & ->). rewrite update_other by exact N.
    destruct c as [B|s|n0|nh ne|nh Et]; cbn -[dset dget] in H; unfold new_synchrotron, new_ic, new_bremsstrahlung, new_pion, new_kelner, base_electron, base_proton in H;
      repeat (match type of H with obind (omap _ ?x) _ = _ => destruct x; cbn [obind omap] in H; [|discriminate] end).
    - destruct (validate_scalar B _ _) eqn:E; cbn [obind] in H; [|discriminate]. apply vs_ok in E. destruct E as (-> & _). inversion H; subst.
      cbn in I'. repeat (destruct I' as [I'|I']; [inversion I'; subst; reflexivity|]). destruct I'.
    - destruct (match s with inl _ => _ | inr _ => _ end) eqn:E; cbn [obind] in H; [|discriminate]. inversion H; subst.
      cbn in I'. repeat (destruct I' as [I'|I']; [inversion I'; subst; reflexivity|]). destruct I'.
    - inversion H; subst. cbn in I'. repeat (destruct I' as [I'|I']; [inversion I'; subst; reflexivity|]). destruct I'.
    - destruct (validate_scalar nh _ _) eqn:E; cbn [obind] in H; [|discriminate]. apply vs_ok in E. destruct E as (-> & _). inversion H; subst.
      cbn in I'. repeat (destruct I' as [I'|I']; [inversion I'; subst; reflexivity|]). destruct I'.
    - destruct (validate_scalar nh _ _) eqn:E; cbn [obind] in H; [|discriminate]. apply vs_ok in E. destruct E as (-> & _).
      destruct (validate_scalar Et _ _) eqn:E; cbn [obind] in H; [|discriminate]. apply vs_ok in E. destruct E as (-> & _). inversion H; subst.
      cbn in I'. repeat (destruct I' as [I'|I']; [inversion I'; subst; reflexivity|]). destruct I'.
  Qed.
  (** the objects, one by one *)
  Lemma bare_form pd c b : new pd c [] = Ok b ->
    match c with
    | CSynchrotron B => b = [("particle_distribution", ADist pd); ("param_names", ANames ["Eemin"; "Eemax"; "nEed"; "B"]);
        ("_memoize", ABool true); ("_cache", ACache); ("_queue", ACache); ("B", AVal B); ("Eemin", erg (TeV / 1000)); ("Eemax", erg (10 ^ 9 * mec2)); ("nEed", ANum 100)]%string
    | CInverseCompton s => exists ss, b = [("particle_distribution", ADist pd); ("param_names", ANames ["Eemin"; "Eemax"; "nEed"; "seed_photon_fields"]);
        ("_memoize", ABool true); ("_cache", ACache); ("_queue", ACache); ("seed_photon_fields", ASeeds ss); ("Eemin", erg (TeV / 1000)); ("Eemax", erg (10 ^ 9 * mec2)); ("nEed", ANum 100)]%string
        /\ match s with inl s => process_string ar eV s | inr l => process_list ar eV l end = Ok ss
    | CBremsstrahlung n0 => b = [("particle_distribution", ADist pd); ("param_names", ANames ["Eemin"; "Eemax"; "nEed"; "n0"; "weight_ee"; "weight_ep"]);
        ("_memoize", ABool true); ("_cache", ACache); ("_queue", ACache); ("n0", AVal n0); ("Eemin", erg (TeV / 10000)); ("Eemax", erg (10 ^ 9 * mec2)); ("nEed", ANum 300);
        ("weight_ee", ANum (weight 1)); ("weight_ep", ANum (weight 2))]%string
    | CPionDecay nh ne => b = [("particle_distribution", ADist pd); ("param_names", ANames ["Epmin"; "Epmax"; "nEpd"; "nh"; "nuclear_enhancement"; "useLUT"; "hiEmodel"]);
        ("_memoize", ABool true); ("_cache", ACache); ("_queue", ACache); ("nh", AVal nh); ("nuclear_enhancement", ABool ne); ("useLUT", ABool true); ("hiEmodel", AStr "Pythia8");
        ("Epmin", erg ((m_p + 27966184 / 10 ^ 8 + 1 / 10 ^ 4) * (TeV / 1000))); ("Epmax", erg (10 * (1000 * TeV))); ("nEpd", ANum 100)]%string
    | CKelner06 nh Et => b = [("particle_distribution", ADist pd); ("nh", AVal nh); ("Etrans", AVal Et)]%string
    end.
  Proof.
    intros H. destruct c as [B|s|n0|nh ne|nh Et]; cbn -[dset dget] in H; unfold new_synchrotron, new_ic, new_bremsstrahlung, new_pion, new_kelner, base_electron, base_proton in H;
      repeat (match type of H with obind (omap _ ?x) _ = _ => destruct x; cbn [obind omap] in H; [|discriminate] end).
    - destruct (validate_scalar B _ _) eqn:E; cbn [obind] in H; [|discriminate]. apply vs_ok in E. destruct E as (-> & _). inversion H; subst. reflexivity.
    - destruct (match s with inl _ => _ | inr _ => _ end) eqn:E; cbn [obind] in H; [|discriminate]. inversion H; subst. eexists. split; [reflexivity|reflexivity].
    - inversion H; subst. reflexivity.
    - destruct (validate_scalar nh _ _) eqn:E; cbn [obind] in H; [|discriminate]. apply vs_ok in E. destruct E as (-> & _). inversion H; subst. reflexivity.
    - destruct (validate_scalar nh _ _) eqn:E; cbn [obind] in H; [|discriminate]. apply vs_ok in E. destruct E as (-> & _).
      destruct (validate_scalar Et _ _) eqn:E; cbn [obind] in H; [|discriminate]. apply vs_ok in E. destruct E as (-> & _). inversion H; subst. reflexivity.
  Qed.
  (** Settings not given have the documented defaults; those given as keywords have the
      value given. *)
  Theorem C122_defaults : forall pd c kw o k a, new pd c kw = Ok o -> is_dict kw -> In (k, a) (documented TeV c) ->
    dget k o = match dget k kw with Some a' => Some a' | None => Some a end.
  Proof.
    intros pd c kw o k a H D I'. apply new_ok in H. destruct H as (b & H & ->).
    destruct (dget k kw) as [a'|] eqn:G.
    - apply update_in; [exact D|]. apply dget_is_in. exact G.
    - rewrite update_other.
      + apply bare_form in H. destruct c; cbn [documented] in I'; [subst b|destruct H as (ss & -> & _)|subst b|subst b|subst b];
          cbn [In] in I'; repeat (destruct I' as [I'|I']; [inversion I'; subst; reflexivity|]); destruct I'.
      + intros J. apply in_map_iff in J. destruct J as ((k', v) & <- & J). cbn [fst] in G. rewrite (dget_dict k' v kw D J) in G. discriminate.
  Qed.
  (** Every parameter that identifies a cached result exists, whatever keywords were
      given (unless they replace the list itself). *)
  Lemma update_has (kw : obj) : forall b k, (exists a, dget k b = Some a) -> exists a, dget k (update b kw) = Some a.
  Proof.
    unfold update. induction kw as [|[x y] kw IH]; cbn; [auto|]. intros b k (a & H). apply IH. destruct (String.eqb_spec k x) as [->|N].
    - exists y. apply AnalysisProps2.dget_dset_same.
    - exists a. rewrite AnalysisProps2.dget_dset_other by exact N. exact H.
  Qed.
  Theorem C122_cache_key_exists : forall pd c kw o, new pd c kw = Ok o -> ~ In "param_names"%string (map fst kw) ->
    exists vs, key_values c o = Ok vs /\ List.length vs = List.length (names_of c o) /\ names_of c o <> [].
  Proof.
    intros pd c kw o H N. apply new_ok in H. destruct H as (b & H & ->).
    assert (E : names_of c (update b kw) = names_of c b) by (unfold names_of; rewrite update_other by exact N; reflexivity).
    assert (A : forall l, (forall k, In k l -> exists a, dget k (update b kw) = Some a) ->
      exists vs, mapM (fun p => match dget p (update b kw) with Some a => Ok a | None => Err "AttributeError" end) l = Ok vs /\ List.length vs = List.length l).
    { induction l as [|k l IH]; cbn [mapM In]; intros L; [exists []; auto|]. destruct (L k (or_introl eq_refl)) as (a & ->). cbn [obind].
      destruct IH as (vs & -> & IL); [intros; apply L; auto|]. cbn [obind]. exists (a :: vs). split; [reflexivity|]. cbn. rewrite IL. reflexivity. }
    unfold key_values. rewrite E.
    assert (P : (forall k, In k (names_of c b) -> exists a, dget k b = Some a) /\ names_of c b <> []).
    { apply bare_form in H. destruct c; [subst b|destruct H as (ss & -> & _)|subst b|subst b|subst b]; (split; [|cbn; discriminate]); intros k K; cbn in K;
        repeat (destruct K as [<-|K]; [eexists; reflexivity|]); destruct K. }
    destruct P as (P & Q). destruct (A (names_of c b)) as (vs & V & L).
    - intros k K. apply update_has, P, K.
    - exists vs. auto.
  Qed.
  (** Every setting of a model takes part in that key. *)
  Theorem C122_cache_key_complete : forall pd c o k a, new pd c [] = Ok o -> In (k, a) o -> ~ internal k -> In k (names_of c o).
  Proof.
    intros pd c o k a H I' N. apply bare_form in H. destruct c; [subst o|destruct H as (ss & -> & _)|subst o|subst o|subst o]; cbn [In] in I';
      repeat (destruct I' as [I'|I']; [inversion I'; subst; first [cbn; tauto | exfalso; apply N; cbn; tauto]|]); destruct I'.
  Qed.
  (** With a proton mass of 0.938 to 0.9384 GeV the minimal proton energy is, to two
      decimals, the documented 1.22 GeV, and it lies above the threshold of pion
      production, by less than 0.2 MeV. *)
  Theorem C122_proton_threshold : forall pd nh ne kw o, new pd (CPionDecay nh ne) kw = Ok o -> ~ In "Epmin"%string (map fst kw) ->
    938 / 1000 <= m_p <= 9384 / 10000 ->
    exists Epmin, dget "Epmin" o = Some (erg (Epmin * (TeV / 1000))) /\ Rabs (Epmin - 122 / 100) <= 5 / 1000 /\
      (let m_pi := 1349766 / 10 ^ 7 in let threshold := m_p + 2 * m_pi + m_pi ^ 2 / (2 * m_p) in threshold < Epmin < threshold + 2 / 10 ^ 4).
  Proof.
    intros pd nh ne kw o H N M. apply new_ok in H. destruct H as (b & H & ->). rewrite update_other by exact N. apply bare_form in H. subst b.
    exists (m_p + 27966184 / 10 ^ 8 + 1 / 10 ^ 4). split; [reflexivity|]. split; [apply Rabs_le; lra|].
    cbv zeta. set (q := (1349766 / 10 ^ 7) ^ 2 / (2 * m_p)).
    assert (Q : (1349766 / 10 ^ 7) ^ 2 / (2 * (9384 / 10000)) <= q <= (1349766 / 10 ^ 7) ^ 2 / (2 * (938 / 1000))).
    { unfold q. split; unfold Rdiv at 1; [unfold Rdiv at 3|unfold Rdiv at 4]; apply Rmult_le_compat_l; try lra; apply Rinv_le_contravar; lra. }
    lra.
  Qed.
  (** Bremsstrahlung: the weights documented, to three decimals *)
  Theorem C122_weights : forall pd n0 kw o, new pd (CBremsstrahlung n0) kw = Ok o ->
    ~ In "weight_ee"%string (map fst kw) -> ~ In "weight_ep"%string (map fst kw) ->
    exists ee ep, dget "weight_ee" o = Some (ANum ee) /\ dget "weight_ep" o = Some (ANum ep) /\ Rabs (ee - 1088 / 1000) <= 1 / 2000 /\ Rabs (ep - 1263 / 1000) <= 1 / 2000 /\
      (* nine helium nuclei and a bit per hundred protons *)
      ee = (1 + 2 * (959 / 10000)) / (1 + 959 / 10000) /\ ep = (1 + 4 * (959 / 10000)) / (1 + 959 / 10000).
  Proof.
    intros pd n0 kw o H N1 N2. apply new_ok in H. destruct H as (b & H & ->). rewrite !update_other by assumption. apply bare_form in H. subst b.
    exists (weight 1), (weight 2). split; [reflexivity|]. split; [reflexivity|].
    unfold weight, abundances. cbn [map combine fold_right fst snd]. split; [apply Rabs_le; lra|]. split; [apply Rabs_le; lra|]. split; field.
  Qed.
  (** However the object came about and whatever distribution it has been given since, the
      particle numbers it computes with are per unit energy, or the calculation fails. *)
  Theorem C122_numbers : forall (o : obj) es p,
    particle_numbers o es = Ok p <->
    exists pd, dget "particle_distribution" o = Some (ADist pd) /\ pd_call pd es = Ok (VQ (-1, 0, 0, 0)%Z p).
  Proof.
    intros o es p. unfold particle_numbers. split.
    - destruct (dget "particle_distribution" o) as [[pd|v|x|b|s|l|s|]|]; try discriminate. intros H. exists pd. split; [reflexivity|].
      destruct (pd_call pd es) as [[d q|q|]|e]; cbn [obind] in H; try discriminate. destruct (pdim_eqb d p_diff_energy) eqn:E; [|discriminate].
      apply pdim_eqb_true in E. inversion H; subst. reflexivity.
    - intros (pd & -> & ->). reflexivity.
  Qed.
  Theorem C122_reassigned : forall (o : obj) pd es v, pd_call pd es = Ok v ->
    (exists p, particle_numbers (dset "particle_distribution" (ADist pd) o) es = Ok p) <-> per_energy v.
  Proof.
    intros o pd es v E. split.
    - intros (p & H). apply C122_numbers in H. destruct H as (pd' & G & C). rewrite AnalysisProps2.dget_dset_same in G. inversion G; subst. rewrite E in C. inversion C. exists p. reflexivity.
    - intros (p & ->). exists p. apply C122_numbers. exists pd. split; [apply AnalysisProps2.dget_dset_same|exact E].
  Qed.

  (** A tabulated distribution: the unit of the amplitude times that of the values must be
      1/energy; the numbers are then the amplitude times the interpolated values. *)
  Theorem C122_table : forall (o : obj) interp e l t m e' l' t' m' a es p,
    particle_numbers (dset "particle_distribution" (ADist (table_dist interp (e, l, t, m) (Some (e', l', t', m')) a)) o) es = Ok p <->
    (e + e' = -1 /\ l + l' = 0 /\ t + t' = 0 /\ m + m' = 0)%Z /\ p = PA (map (Rmult a) (interp es)).
  Proof.
    intros o interp e l t m e' l' t' m' a es p. rewrite C122_numbers. split.
    - intros (pd & G & C). rewrite AnalysisProps2.dget_dset_same in G. inversion G; subst. cbn in C. inversion C; subst. split; [repeat split; lia|reflexivity].
    - intros ((E & L & T & M) & ->). eexists. split; [apply AnalysisProps2.dget_dset_same|]. cbn [pd_call table_dist pdim_mul].
      replace (e' + e)%Z with (-1)%Z by lia. replace (l' + l)%Z with 0%Z by lia. replace (t' + t)%Z with 0%Z by lia. replace (m' + m)%Z with 0%Z by lia. reflexivity.
  Qed.

  (** ** What does not hold *)
  (** A distribution with the right amplitude is accepted whatever it returns, even if it
      cannot be called. *)
  Theorem C145_output_unchecked_refuted : forall pd a c kw, pd_amp pd = Ok a -> per_energy a -> args_ok ar eV c -> exists o, new pd c kw = Ok o.
  Proof.
    intros pd a c kw E P A.
    pose proof (check_dist_amp pd a E P) as CD. rewrite new_split.
    enough (exists b, new pd c [] = Ok b) as (b & ->) by (eexists; reflexivity).
    destruct c as [B|[s|l]|n0|nh ne|nh Et]; cbn -[dset dget]; unfold new_synchrotron, new_ic, new_bremsstrahlung, new_pion, new_kelner, base_electron, base_proton;
      try rewrite CD; cbn [obind omap]; cbn [args_ok] in A.
    - destruct A as (x & ->). fold p_magnetic. rewrite vs_free. cbn [obind]. eauto.
    - destruct A as (ss & ->). cbn [obind]. eauto.
    - destruct A as (ss & ->). cbn [obind]. eauto.
    - eauto.
    - destruct A as (x & ->). fold p_density. rewrite vs_free. cbn [obind]. eauto.
    - destruct A as ((x & ->) & y & -> & H). fold p_density p_energy. rewrite vs_free. cbn [obind]. rewrite vs_pos by exact H. cbn [obind]. eauto.
  Qed.
  (** A tabulated distribution whose values and amplitude both carry a unit: accepted,
      and every calculation fails. *)
  Theorem C145_table_units_refuted : forall interp a c kw, args_ok ar eV c -> ~ In "particle_distribution"%string (map fst kw) ->
    exists o, new (table_dist interp (-1, 0, 0, 0)%Z (Some (-1, 0, 0, 0)%Z) a) c kw = Ok o /\ forall es, particle_numbers o es = Err "UnitConversionError".
  Proof.
    intros interp a c kw A N. destruct (C145_output_unchecked_refuted (table_dist interp (-1, 0, 0, 0)%Z (Some (-1, 0, 0, 0)%Z) a) (VQ (-1, 0, 0, 0)%Z (PS a)) c kw) as (o & H); [reflexivity|eexists; reflexivity|exact A|].
    exists o. split; [exact H|]. intros es. unfold particle_numbers. rewrite (C122_recorded _ _ _ _ "particle_distribution" _ H N (or_introl eq_refl)). reflexivity.
  Qed.
  (** PionDecayKelner06 accepts any distribution. *)
  Theorem C145_kelner_unchecked_refuted : forall pd x y kw, 0 <= y -> exists o, new pd (CKelner06 (VQ (0, -3, 0, 0)%Z (PS x)) (VQ (1, 0, 0, 0)%Z (PS y))) kw = Ok o.
  Proof.
    intros pd x y kw H. unfold ConstructModel.new, new_kelner. fold p_density p_energy. rewrite vs_free. cbn [obind]. rewrite vs_pos by exact H. cbn [obind]. eauto.
  Qed.
  (** Bremsstrahlung accepts anything as a density; Synchrotron and PionDecay accept
      negative numbers and arrays. *)
  Theorem C145_density_unchecked_refuted : forall pd kw, is_distribution pd -> plain_amplitude pd ->
    (forall n0, exists o, new pd (CBremsstrahlung n0) kw = Ok o) /\
    (forall p, exists o, new pd (CSynchrotron (VQ (0, 0, 0, 1)%Z p)) kw = Ok o) /\
    (forall p ne, exists o, new pd (CPionDecay (VQ (0, -3, 0, 0)%Z p) ne) kw = Ok o).
  Proof.
    intros pd kw D P. destruct (check_dist_proper pd D P) as (v & CD).
    repeat split; intros; cbn -[dset dget]; unfold new_synchrotron, new_bremsstrahlung, new_pion, base_electron, base_proton; rewrite CD; cbn [omap obind]; eauto.
    - fold p_magnetic. rewrite vs_free. cbn [obind]. eauto.
    - fold p_density. rewrite vs_free. cbn [obind]. eauto.
  Qed.
  (** Settings given as keywords are not checked. *)
  Theorem C145_keywords_unchecked_refuted : forall pd c kw k a, is_distribution pd -> plain_amplitude pd -> args_ok ar eV c -> is_dict kw -> In (k, a) kw ->
    exists o, new pd c kw = Ok o /\ dget k o = Some a.
  Proof.
    intros pd c kw k a D P A K I'. destruct (C122_accepted pd c kw D P A) as (o & H). exists o. split; [exact H|].
    apply new_ok in H. destruct H as (b & _ & ->). apply update_in; assumption.
  Qed.
  (** InverseCompton: 300 points per decade are documented, 100 are used. *)
  Theorem C145_ic_points_refuted : forall pd s kw o, new pd (CInverseCompton s) kw = Ok o -> ~ In "nEed"%string (map fst kw) -> dget "nEed" o = Some (ANum 100).
  Proof.
    intros pd s kw o H N. apply new_ok in H. destruct H as (b & H & ->). rewrite update_other by exact N. apply bare_form in H. destruct H as (ss & -> & _). reflexivity.
  Qed.

  (** ** The hypotheses are met *)
  Definition flat_dist : pdist := mkPd (Err "AttributeError") (fun es => Ok (VQ (-1, 0, 0, 0)%Z (PA (map (fun _ => 1) es)))).
  Example C122_example :
    is_distribution flat_dist /\ plain_amplitude flat_dist /\
    args_ok ar eV (CSynchrotron (VQ (0, 0, 0, 1)%Z (PS 1))) /\ args_ok ar eV (CInverseCompton (inr [SName "CMB"])) /\
    (exists o, new flat_dist (CInverseCompton (inl "CMB-FIR"%string)) [("nEed"%string, ANum 20)] = Ok o /\ dget "nEed" o = Some (ANum 20) /\
       names_of (CInverseCompton (inl "CMB-FIR"%string)) o = ["Eemin"; "Eemax"; "nEed"; "seed_photon_fields"]%string) /\
    new (mkPd (Err "AttributeError") (fun es => Ok (VBare (PA es)))) (CSynchrotron (VQ (0, 0, 0, 1)%Z (PS 1))) [] = Err "TypeError" /\
    new flat_dist (CSynchrotron (VQ (0, 1, 0, 0)%Z (PS 1))) [] = Err "TypeError" /\
    new flat_dist (CKelner06 (VQ (0, -3, 0, 0)%Z (PS 1)) (VQ (1, 0, 0, 0)%Z (PS (-1)))) [] = Err "ValueError".
  Proof.
    split; [intros es; eexists; split; [reflexivity|eexists; reflexivity]|]. split; [cbn; auto|]. split; [eexists; reflexivity|]. split; [eexists; reflexivity|].
    split; [eexists; repeat split; reflexivity|]. split; [reflexivity|]. split; [reflexivity|]. cbn. destruct (Rlt_dec (-1) 0); [reflexivity|lra].
  Qed.
End C.
Print Assumptions C122_checked. Print Assumptions C122_accepted. Print Assumptions C122_arguments_checked.
Print Assumptions C122_recorded. Print Assumptions C122_defaults. Print Assumptions C122_cache_key_exists.
Print Assumptions C122_cache_key_complete. Print Assumptions C122_proton_threshold. Print Assumptions C122_weights.
Print Assumptions C122_numbers. Print Assumptions C122_reassigned. Print Assumptions C145_table_units_refuted.
Print Assumptions C145_density_unchecked_refuted. Print Assumptions C145_keywords_unchecked_refuted. Print Assumptions C145_ic_points_refuted.
