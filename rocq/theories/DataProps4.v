(** C50, C75, C76: further theorems about data tables and unit conversion. *)
From Coq Require Import Reals List ZArith Bool String Arith Permutation Sorted Lra Lia.
From Verif Require Import Outcome TrapzModel SimplexModel UnitsModel DataModel DataSpec DataProofs DataProofs2 DataProps DataProps2.
Import ListNotations.
Local Open Scope R_scope.

(** ** C50: also particle energy distributions (energy, 1/energy): same factors, and the
    units announced are exactly those documented. *)
Definition convertible (d : dims) : Prop :=
  flux_like d \/ d = d_energy \/ d = d_diff_energy.
(** The documented target: erg, erg/s or erg/(cm2 s) for an SED; 1/TeV, 1/(s TeV) or
    1/(s TeV cm2) for a differential spectrum, keeping area and time *)
Definition documented (nu : naima_units) (sed : bool) (d : dims) : unit_ :=
  let per_time := if Z.eqb (snd d) 0 then 1 else / u_s nu in
  let per_area := if Z.eqb (length_exp d) 0 then 1 else / u_cm nu ^ 2 in
  mkU ((if sed then u_erg nu else / u_TeV nu) * per_time * per_area) ((if sed then 1 else -1)%Z, length_exp d, snd d).
Theorem C50_documented_units : forall nu e mu sed, positive_units nu -> convertible (dim mu) -> dim (qunit e) = d_energy ->
  exists sf, sed_conversion nu e mu sed = Ok (documented nu sed (dim mu), sf) /\
    (forall q, dim (qunit q) = dim mu -> List.length (vals q) = List.length (vals e) ->
       exists r, qto (documented nu sed (dim mu)) (qmul q sf) = Ok r /\ qunit r = documented nu sed (dim mu) /\
         forall i, (i < List.length (vals e))%nat -> phys r i = phys q i * sed_factor sed (dim mu) (phys e i)).
Proof.
  intros nu e mu sed NU HC HE. pose proof NU as (P1 & P2 & P3 & P4).
  assert (C2 : 0 < u_cm nu ^ 2) by (apply pow_lt; exact P4).
  assert (POS : 0 < scale (documented nu sed (dim mu))).
  { unfold documented. cbn [scale]. apply Rmult_lt_0_compat; [apply Rmult_lt_0_compat|].
    - destruct sed; [exact P1|apply Rinv_0_lt_compat, P2].
    - destruct (Z.eqb _ 0); [lra|apply Rinv_0_lt_compat, P3].
    - destruct (Z.eqb _ 0); [lra|apply Rinv_0_lt_compat, C2]. }
  assert (EX : exists sf, sed_conversion nu e mu sed = Ok (documented nu sed (dim mu), sf) /\
     List.length (vals sf) = List.length (vals e) /\ dmul (dim mu) (dim (qunit sf)) = dim (documented nu sed (dim mu)) /\
     (forall i, (i < List.length (vals e))%nat -> phys sf i = sed_factor sed (dim mu) (phys e i))).
  { destruct mu as [ms md]. cbn [dim] in *. destruct e as [ev [es ed]]; cbn [dim qunit] in HE; subst ed.
    assert (U : forall a b c d', a = c -> b = d' -> mkU a b = mkU c d') by (intros; subst; reflexivity).
    assert (V : forall (a b : unit_) (s : qty), a = b -> Ok (a, s) = Ok (b, s)) by (intros; subst; reflexivity).
    destruct HC as [HF | HC].
    - destruct HF as [ -> | [ -> | [ -> | -> ] ] ]; destruct sed;
      (eexists; split;
        [cbv [sed_conversion dim qunit scale vals is_integral is_differential dims_eqb d_flux d_diff_flux d_power d_diff_power d_energy d_diff_energy d_diff_density Z.eqb Pos.eqb andb orb negb obind snd];
         cbv [documented length_exp snd fst Z.eqb]; apply V; apply U; [field; lra|reflexivity]
        |split; [cbn [vals]; apply map_length|split; [reflexivity|]];
         intros i L; unfold phys; cbn [vals qunit scale] in *; rewrite (nth_map0 _ _ _ 0) by exact L; unfold sed_factor; cbn [energy_exp fst dim d_flux d_diff_flux d_power d_diff_power Z.eqb Pos.eqb];
         try ring; rewrite ?Rpow_mult_distr, ?Rinv_mult; ring]).
    - destruct HC as [ -> | -> ]; destruct sed;
      (eexists; split;
        [cbv [sed_conversion dim qunit scale vals is_integral is_differential dims_eqb d_flux d_diff_flux d_power d_diff_power d_energy d_diff_energy d_diff_density Z.eqb Pos.eqb andb orb negb obind snd];
         cbv [documented length_exp snd fst Z.eqb]; apply V; apply U; [field; lra|reflexivity]
        |split; [cbn [vals]; apply map_length|split; [reflexivity|]];
         intros i L; unfold phys; cbn [vals qunit scale] in *; rewrite (nth_map0 _ _ _ 0) by exact L; unfold sed_factor; cbn [energy_exp fst dim d_energy d_diff_energy Z.eqb Pos.eqb];
         try ring; rewrite ?Rpow_mult_distr, ?Rinv_mult; ring]). }
  destruct EX as (sf & S & L & DM & F). exists sf. split; [exact S|]. intros q DQ LQ.
  set (fu := documented nu sed (dim mu)) in *.
  assert (OK1 : is_ok (qto fu (qmul q sf))).
  { apply qto_is_ok. cbn [qmul qunit umul dim]. rewrite DQ. exact DM. }
  destruct OK1 as (r & Er). exists r. split; [exact Er|].
  destruct (conv_col fu sf q _ LQ L POS r Er) as (A & B & C & DD). split; [exact A|].
  intros i Hi. rewrite DD by exact Hi. rewrite F by exact Hi. ring.
Qed.
Print Assumptions C50_documented_units.
Example C50_documented_example : convertible (dim (mkU 3 d_diff_energy)) /\
  documented nu1 true d_diff_energy = mkU (u_erg nu1 * 1 * 1) d_energy /\ documented nu1 false d_diff_flux = mkU (/ u_TeV nu1 * / u_s nu1 * / u_cm nu1 ^ 2) d_diff_flux.
Proof. split; [right; right; reflexivity|]. split; reflexivity. Qed.

(** Round trip and independence of the unit, for all these types. *)
Theorem C50_round_trip_all : forall nu e mu (sed : bool) q, positive_units nu -> convertible (dim mu) -> dim (qunit e) = d_energy ->
  dim (qunit q) = dim mu -> List.length (vals q) = List.length (vals e) ->
  energy_exp (dim mu) = (if sed then -1 else 1)%Z ->
  (forall i, (i < List.length (vals e))%nat -> phys e i <> 0) ->
  exists fu sf r fu' sf' r',
    sed_conversion nu e mu sed = Ok (fu, sf) /\ qto fu (qmul q sf) = Ok r /\
    sed_conversion nu e fu (negb sed) = Ok (fu', sf') /\ qto fu' (qmul r sf') = Ok r' /\
    dim fu' = dim mu /\ forall i, (i < List.length (vals e))%nat -> phys r' i = phys q i.
Proof.
  intros nu e mu sed q NU HC HE DQ LQ EX NZ. destruct (C50_documented_units nu e mu sed NU HC HE) as (sf & S & K).
  destruct (K q DQ LQ) as (r & Q & U & F). set (fu := documented nu sed (dim mu)) in *.
  assert (LEN : forall e mu sed u sf, sed_conversion nu e mu sed = Ok (u, sf) -> List.length (vals sf) = List.length (vals e)).
  { clear. intros e mu sed u sf H. revert H. unfold sed_conversion. destruct (_ || _)%bool; [|destruct (_ && _)%bool; [|destruct (_ && _)%bool; [|discriminate]]]; cbn [obind]; intros S'; injection S' as _ <-; cbn; apply map_length. }
  assert (LR : List.length (vals r) = List.length (vals e)).
  { apply qto_ok in Q. destruct Q as (_ & _ & L & _). rewrite L. cbn [qmul vals]. rewrite zipw_length; [exact LQ|]. rewrite (LEN _ _ _ _ _ S). exact LQ. }
  assert (HC' : convertible (dim fu)).
  { unfold fu, documented, convertible, flux_like. cbn [dim]. destruct HC as [ [ -> | [ -> | [ -> | -> ] ] ] | [ -> | -> ] ]; destruct sed; cbn; auto 10. }
  destruct (C50_documented_units nu e fu (negb sed) NU HC' HE) as (sf' & S' & K').
  destruct (K' r ltac:(rewrite U; reflexivity) LR) as (r' & Q' & U' & F').
  exists fu, sf, r, (documented nu (negb sed) (dim fu)), sf', r'. repeat (split; [assumption|]). split.
  - unfold fu, documented. cbn [dim length_exp fst snd]. destruct (dim mu) as [[a b] c]. cbn in *. subst a. destruct sed; reflexivity.
  - intros i Hi. rewrite F', F by exact Hi. unfold sed_factor. rewrite EX. replace (energy_exp (dim fu)) with (if sed then 1 else -1)%Z by reflexivity.
    destruct sed; cbn [negb Z.eqb Pos.eqb Z.opp]; field; apply NZ; exact Hi.
Qed.
Theorem C50_unit_independent_all : forall nu e mu mu' (sed : bool) q q' fu sf r fu' sf' r', positive_units nu -> convertible (dim mu) -> dim (qunit e) = d_energy ->
  dim mu' = dim mu -> dim (qunit q) = dim mu -> dim (qunit q') = dim mu ->
  List.length (vals q) = List.length (vals e) -> List.length (vals q') = List.length (vals e) ->
  (forall i, (i < List.length (vals e))%nat -> phys q i = phys q' i) ->
  sed_conversion nu e mu sed = Ok (fu, sf) -> qto fu (qmul q sf) = Ok r ->
  sed_conversion nu e mu' sed = Ok (fu', sf') -> qto fu' (qmul q' sf') = Ok r' -> r = r'.
Proof.
  intros nu e mu mu' sed q q' fu sf r fu' sf' r' NU HC HE DM DQ DQ' L L' PH S Q S' Q'.
  assert (POS : 0 < scale (documented nu sed (dim mu))).
  { destruct NU as (P1 & P2 & P3 & P4). assert (C2 : 0 < u_cm nu ^ 2) by (apply pow_lt; exact P4). unfold documented. cbn [scale]. apply Rmult_lt_0_compat; [apply Rmult_lt_0_compat|].
    - destruct sed; [exact P1|apply Rinv_0_lt_compat, P2].
    - destruct (Z.eqb _ 0); [lra|apply Rinv_0_lt_compat, P3].
    - destruct (Z.eqb _ 0); [lra|apply Rinv_0_lt_compat, C2]. }
  destruct (C50_documented_units nu e mu sed NU HC HE) as (sf0 & S0 & K). rewrite S in S0. injection S0 as -> ->.
  destruct (C50_documented_units nu e mu' sed NU ltac:(rewrite DM; exact HC) HE) as (sf1 & S1 & K'). rewrite S' in S1. injection S1 as -> ->. rewrite DM in *.
  destruct (K q DQ L) as (r0 & Q0 & U0 & F0). assert (r0 = r) by congruence. subst r0.
  destruct (K' q' DQ' L') as (r1 & Q1 & U1 & F1). assert (r1 = r') by congruence. subst r1.
  assert (LEN : forall e mu sed u sf, sed_conversion nu e mu sed = Ok (u, sf) -> List.length (vals sf) = List.length (vals e)).
  { clear. intros e mu sed u sf H. revert H. unfold sed_conversion. destruct (_ || _)%bool; [|destruct (_ && _)%bool; [|destruct (_ && _)%bool; [|discriminate]]]; cbn [obind]; intros S'; injection S' as _ <-; cbn; apply map_length. }
  assert (LR : List.length (vals r) = List.length (vals e)).
  { apply qto_ok in Q. destruct Q as (_ & _ & H & _). rewrite H. cbn [qmul vals]. rewrite zipw_length; [exact L|]. rewrite (LEN _ _ _ _ _ S). exact L. }
  assert (LR' : List.length (vals r') = List.length (vals e)).
  { apply qto_ok in Q'. destruct Q' as (_ & _ & H & _). rewrite H. cbn [qmul vals]. rewrite zipw_length; [exact L'|]. rewrite (LEN _ _ _ _ _ S'). exact L'. }
  destruct r as [va ua], r' as [vb ub]. cbn [qunit vals] in *. subst ua ub. f_equal.
  apply nth_ext with 0 0; [congruence|]. intros i Hi. rewrite LR in Hi.
  assert (PE : phys (mkQ va (documented nu sed (dim mu))) i = phys (mkQ vb (documented nu sed (dim mu))) i) by (rewrite F0, F1, PH by exact Hi; reflexivity).
  unfold phys in PE. cbn [vals qunit] in PE. eapply Rmult_eq_reg_r; [exact PE|lra].
Qed.
Print Assumptions C50_round_trip_all. Print Assumptions C50_unit_independent_all.
(** Every type that is neither of these nor a number density is refused. *)
Theorem C50_other_types : forall nu e mu sed, ~ convertible (dim mu) -> dim mu <> d_diff_density ->
  sed_conversion nu e mu sed = Err "UnitsError".
Proof.
  intros nu e mu sed NC ND. unfold sed_conversion, is_integral, is_differential.
  assert (N : forall d, d = d_diff_density \/ convertible d -> dims_eqb (dim mu) d = false).
  { intros d Hd. destruct (dims_eqb (dim mu) d) eqn:E; [|reflexivity]. apply dims_eqb_eq in E. subst d. destruct Hd; contradiction. }
  unfold convertible, flux_like in N. rewrite !N by auto 8. destruct sed; reflexivity.
Qed.
Print Assumptions C50_other_types.

(** ** C75: a table listed by increasing positive energies gets, without any columns on
    the bins, contiguous bins that contain their energies. *)
Theorem C75_increasing_partial : forall t g, (2 <= nrows t)%nat -> increasing (energies t) -> List.Forall (fun x => 0 < x) (energies t) ->
  i_group t = None -> present t "energy_width" = false -> present t "energy_error" = false ->
  (present t "energy_error_lo" && present t "energy_error_hi")%bool = false -> (present t "energy_lo" && present t "energy_hi")%bool = false ->
  forall sed i, (i < nrows t)%nat -> let o := input_row sed t g in
    0 < o_E (o i) - o_wlo (o i) < o_E (o i) /\ o_E (o i) < o_E (o i) + o_whi (o i) /\
    ((S i < nrows t)%nat -> o_E (o i) + o_whi (o i) = o_E (o (S i)) - o_wlo (o (S i))).
Proof.
  intros t g H2 HI HP HG W1 W2 W3 W4 sed i Hi. cbv zeta. unfold input_row, o_E, o_wlo, o_whi, half_width. rewrite W1, W2, W3, W4.
  assert (LE : List.length (energies t) = nrows t) by (unfold energies; rewrite map_length, seq_length; reflexivity).
  assert (EN : forall k, (k < nrows t)%nat -> pcol t "energy" k = nth k (energies t) 0).
  { intros k Hk. unfold energies. rewrite (nth_indep _ 0 (pcol t "energy" 0%nat)) by (rewrite map_length, seq_length; exact Hk).
    rewrite map_nth, seq_nth by exact Hk. reflexivity. }
  assert (GR : groups t g = repeat (Z.of_nat g) (List.length (energies t))) by (unfold groups; rewrite HG, LE; reflexivity).
  assert (GE : generate_energy_edges (energies t) (Some (groups t g)) = generate_energy_edges (energies t) None).
  { pose proof (C51_groups_independent (energies t) (groups t g) (Z.of_nat g)) as GI.
    assert (PA : forall A (l : list A), pick (Z.of_nat g) (repeat (Z.of_nat g) (List.length l)) l = l).
    { intros A l. unfold pick. induction l as [|a l IH]; [reflexivity|]. cbn [List.length repeat combine filter snd]. rewrite Z.eqb_refl. cbn [map fst]. f_equal. exact IH. }
    rewrite GR in *. rewrite repeat_length in GI. specialize (GI eq_refl). rewrite PA in GI. set (n := List.length (energies t)) in *. set (G := generate_energy_edges (energies t) (Some (repeat (Z.of_nat g) n))) in *.
    assert (LG : List.length G = n) by (unfold G; apply generate_edges_length).
    rewrite <- GI. rewrite <- LG at 1. symmetry. apply PA. }
  rewrite GE. destruct (C51_bins (energies t) HI HP ltac:(lia)) as (_ & B1 & B2). unfold above, below in B1, B2.
  rewrite EN by exact Hi. destruct (B2 i ltac:(lia)) as (C1 & C2). split; [exact C1|]. split; [exact C2|].
  intros Hs. rewrite EN by exact Hs. apply B1. lia.
Qed.
Print Assumptions C75_increasing_partial.

(** ** C76: a level in (0,1) is accepted and used; none means 90 %. *)
Theorem C76_valid_level_partial : forall nu argsort t c, positive_units nu -> is_argsort argsort -> rect t -> well_formed t -> (0 < nrows t)%nat ->
  i_cl t = Some (SimplexModel.Fin c) \/ (i_cl t = None /\ c = 9 / 10) ->
  exists cu rows, validate_data_table nu argsort [t] None = Ok (cu, rows) /\ List.Forall (fun r => r_cl r = SimplexModel.Fin c) rows /\ List.length rows = nrows t.
Proof.
  intros nu argsort t c NU A R W N HC.
  assert (OK1 : is_ok (validate_data_table nu argsort [t] None)).
  { apply (C52_accepted_iff_well_formed nu NU); [constructor; auto|constructor; auto|].
    split; [discriminate|]. split; [constructor; auto|]. intros x x' [ <- |[]] [ <- |[]]; tauto. }
  destruct OK1 as ((cu & rows) & E). exists cu, rows. split; [exact E|].
  destruct (C49_rows_sorted_permutation nu NU argsort [t] None cu rows A ltac:(constructor; auto) E) as (_ & P & _).
  cbn [input_rows] in P. rewrite app_nil_r in P. split.
  - assert (F : List.Forall (fun o => o_cl o = SimplexModel.Fin c) (map (output_row cu) rows)).
    { eapply Permutation_Forall; [apply Permutation_sym, P|]. apply Forall_map, Forall_forall. intros i _. cbn. destruct HC as [ -> |( -> & -> )]; reflexivity. }
    rewrite Forall_map in F. exact F.
  - apply Permutation_length in P. rewrite !map_length, seq_length in P. exact P.
Qed.
Print Assumptions C76_valid_level_partial.
Example C75_increasing_example : let t := mkI [("energy"%string, mkQ [1; 4] (mkU 2 d_energy))] None None None in
  (2 <= nrows t)%nat /\ increasing (energies t) /\ List.Forall (fun x => 0 < x) (energies t).
Proof.
  cbv zeta. split; [cbn; lia|].
  assert (EN : energies (mkI [("energy"%string, mkQ [1; 4] (mkU 2 d_energy))] None None None) = [2; 8]).
  { unfold energies, pcol, phys, nrows. cbn [cols dget String.eqb Ascii.eqb Bool.eqb List.length vals qunit scale seq map nth]. repeat f_equal; ring. }
  rewrite EN. split; repeat constructor; lra.
Qed.
