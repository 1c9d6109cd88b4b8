(** Properties of data tables: C50, C51, C54, C75, C76. *)
From Coq Require Import Reals List ZArith Bool String Arith Permutation Sorted Lra Lia.
From Verif Require Import Outcome TrapzModel SimplexModel UnitsModel DataModel DataSpec DataProofs DataProofs2 DataProps.
Import ListNotations.
Local Open Scope R_scope.

(** ** C50. The conversion factor is E^2 to an SED from a differential spectrum,
    1/E^2 the other way, 1 otherwise, in any units; the unit announced is that of
    flux times factor, so the conversion always succeeds. *)
Theorem C50_factor : forall nu e mu sed, positive_units nu -> flux_like (dim mu) -> dim (qunit e) = d_energy ->
  exists fu sf, sed_conversion nu e mu sed = Ok (fu, sf) /\ 0 < scale fu /\
    energy_exp (dim fu) = (if sed then 1 else -1)%Z /\ length_exp (dim fu) = length_exp (dim mu) /\
    (forall q, dim (qunit q) = dim mu -> List.length (vals q) = List.length (vals e) ->
       exists r, qto fu (qmul q sf) = Ok r /\ qunit r = fu /\
         forall i, (i < List.length (vals e))%nat -> phys r i = phys q i * sed_factor sed (dim mu) (phys e i)).
Proof.
  intros nu e mu sed NU HF HE. destruct (sed_conversion_spec nu NU e mu sed HF HE) as (fu & sf & S & P & D & L & DM & F).
  exists fu, sf. split; [exact S|]. split; [exact P|]. rewrite D. split; [reflexivity|]. split; [reflexivity|].
  intros q DQ LQ. assert (OK1 : is_ok (qto fu (qmul q sf))).
  { apply qto_is_ok. cbn [qmul qunit umul dim]. rewrite DQ. exact DM. }
  destruct OK1 as (r & Er). exists r. split; [exact Er|].
  destruct (conv_col fu sf q _ LQ L P r Er) as (A & B & C & DD). split; [exact A|].
  intros i Hi. rewrite DD, F by exact Hi. reflexivity.
Qed.

(** A differential spectrum converted to an SED and back, and an SED converted to
    a differential spectrum and back, are restored (in physical units) *)
Theorem C50_round_trip : forall nu e mu (sed : bool) q, positive_units nu -> flux_like (dim mu) -> dim (qunit e) = d_energy ->
  dim (qunit q) = dim mu -> List.length (vals q) = List.length (vals e) ->
  energy_exp (dim mu) = (if sed then -1 else 1)%Z ->
  (forall i, (i < List.length (vals e))%nat -> phys e i <> 0) ->
  exists fu sf r fu' sf' r',
    sed_conversion nu e mu sed = Ok (fu, sf) /\ qto fu (qmul q sf) = Ok r /\
    sed_conversion nu e fu (negb sed) = Ok (fu', sf') /\ qto fu' (qmul r sf') = Ok r' /\
    dim fu' = dim mu /\ forall i, (i < List.length (vals e))%nat -> phys r' i = phys q i.
Proof.
  intros nu e mu sed q NU HF HE DQ LQ EX NZ.
  destruct (C50_factor nu e mu sed NU HF HE) as (fu & sf & S & P & X1 & X2 & K).
  destruct (K q DQ LQ) as (r & Er & Ur & Fr).
  pose proof (sed_conversion_spec nu NU e mu sed HF HE) as (fu0 & sf0 & S0 & P0 & D0 & _).
  assert (fu0 = fu) by congruence. subst fu0.
  assert (FL : flux_like (dim fu)).
  { rewrite D0. unfold flux_like, target_dims. destruct HF as [ -> |[ -> |[ -> | -> ]]]; destruct sed; cbn; auto. }
  destruct (C50_factor nu e fu (negb sed) NU FL HE) as (fu' & sf' & S' & P' & X1' & X2' & K').
  pose proof (sed_conversion_spec nu NU e fu (negb sed) FL HE) as (fu1 & sf1 & S1 & P1 & D1 & _).
  assert (fu1 = fu') by congruence. subst fu1.
  assert (LR : List.length (vals r) = List.length (vals e)).
  { apply qto_ok in Er. destruct Er as (_ & _ & L & _). rewrite L. cbn [qmul vals].
    pose proof (sed_conversion_spec nu NU e mu sed HF HE) as (fu2 & sf2 & S2 & _ & _ & L2 & _). assert (sf2 = sf) by congruence. subst sf2.
    rewrite zipw_length; congruence. }
  destruct (K' r ltac:(rewrite Ur; reflexivity) LR) as (r' & Er' & Ur' & Fr').
  exists fu, sf, r, fu', sf', r'. repeat (split; [assumption|]). split.
  - rewrite D1, D0. unfold target_dims. destruct sed, HF as [ HF |[ HF |[ HF | HF ]]]; rewrite HF in *; cbn in *; try discriminate; reflexivity.
  - intros i Hi. rewrite Fr', Fr by exact Hi. unfold sed_factor. rewrite EX, X1.
    destruct sed; cbn [negb Z.eqb Pos.eqb Z.opp]; field; apply NZ; exact Hi.
Qed.
(** hypotheses met by two bins in units of 7 / (erg cm2 s) *)
Example C50_example : exists fu sf r fu' sf' r', let e := mkQ [1; 4] (mkU 2 d_energy) in let mu := mkU 7 d_diff_flux in let q := mkQ [3; 5] (mkU 7 d_diff_flux) in
    sed_conversion nu1 e mu true = Ok (fu, sf) /\ qto fu (qmul q sf) = Ok r /\
    sed_conversion nu1 e fu false = Ok (fu', sf') /\ qto fu' (qmul r sf') = Ok r' /\
    dim fu' = dim mu /\ phys r' 1 = 35.
Proof.
  destruct (C50_round_trip nu1 (mkQ [1; 4] (mkU 2 d_energy)) (mkU 7 d_diff_flux) true (mkQ [3; 5] (mkU 7 d_diff_flux)) nu1_pos) as (fu & sf & r & fu' & sf' & r' & A & B & C & D & E & F); try reflexivity.
  - right; left; reflexivity.
  - intros [|[|i]] H; cbn in *; unfold phys; cbn; try lra; lia.
  - exists fu, sf, r, fu', sf', r'. cbv zeta. repeat (split; [assumption|]). rewrite F by (cbn; lia). unfold phys; cbn. lra.
Qed.
(** The result depends only on the physical type: the same flux in two units gives
    the same array in the same unit *)
Theorem C50_unit_independent : forall nu e mu mu' (sed : bool) q q' fu sf r fu' sf' r', positive_units nu -> flux_like (dim mu) -> dim (qunit e) = d_energy ->
  0 < scale (qunit q) -> 0 < scale (qunit q') ->
  dim mu' = dim mu -> dim (qunit q) = dim mu -> dim (qunit q') = dim mu ->
  List.length (vals q) = List.length (vals e) -> List.length (vals q') = List.length (vals e) ->
  (forall i, (i < List.length (vals e))%nat -> phys q i = phys q' i) ->
  sed_conversion nu e mu sed = Ok (fu, sf) -> qto fu (qmul q sf) = Ok r ->
  sed_conversion nu e mu' sed = Ok (fu', sf') -> qto fu' (qmul q' sf') = Ok r' -> r = r'.
Proof.
  intros nu e mu mu' sed q q' fu sf r fu' sf' r' NU HF HE SP SP' DM DQ DQ' L L' PH S Q S' Q'.
  assert (EQ : Ok (fu, sf) = Ok (fu', sf')).
  { rewrite <- S, <- S'. unfold sed_conversion. rewrite DM. reflexivity. }
  inv EQ.
  destruct (C50_factor nu e mu sed NU HF HE) as (fu & sf & S2 & P & _ & _ & K). rewrite S in S2. inv S2.
  destruct (K q DQ L) as (r0 & E0 & U0 & F0). rewrite Q in E0. inv E0.
  destruct (K q' DQ' L') as (r1 & E1 & U1 & F1). rewrite Q' in E1. inv E1.
  pose proof (sed_conversion_spec nu NU e mu sed HF HE) as (fu2 & sf2 & S2 & _ & _ & L2 & _). rewrite S in S2. inv S2.
  assert (LL : forall x y, qto (qunit r0) (qmul x sf2) = Ok y -> List.length (vals x) = List.length (vals e) -> List.length (vals y) = List.length (vals e)).
  { intros x y H LX. apply qto_ok in H. destruct H as (_ & _ & H & _). rewrite H. cbn [qmul vals]. rewrite zipw_length; congruence. }
  pose proof (LL _ _ Q L) as LR. pose proof (LL _ _ Q' L') as LR'.
  destruct r0 as [va ua], r1 as [vb ub]. cbn [qunit vals] in *. subst ub. f_equal.
  apply nth_ext with 0 0; [congruence|]. intros i Hi. rewrite LR in Hi.
  assert (PE : phys (mkQ va ua) i = phys (mkQ vb ua) i) by (rewrite F0, F1, PH by exact Hi; reflexivity).
  unfold phys in PE. cbn [vals qunit] in PE. eapply Rmult_eq_reg_r; [exact PE|lra].
Qed.

(** Refuted (code defect) for the other type sed_conversion lists as supported, the
    differential number density: the unit announced is that of a luminosity, and the
    conversion it is meant for always fails. *)
Theorem C130_number_density_refuted : forall nu e mu sed q,
  dim mu = (-1, -3, 0)%Z -> dim (qunit e) = (1, 0, 0)%Z -> dim (qunit q) = (-1, -3, 0)%Z ->   (* exponents of energy, length and time *)
  exists fu sf, sed_conversion nu e mu sed = Ok (fu, sf) /\ qto fu (qmul q sf) = Err "UnitConversionError".
Proof.
  intros nu e mu sed q DM DE DQ. unfold sed_conversion. rewrite DM.
  destruct e as [ev [es ed]]; cbn [dim qunit] in DE; subst ed.
  destruct sed; cbn [is_integral is_differential dims_eqb d_flux d_diff_flux d_power d_diff_power d_energy d_diff_energy d_diff_density Z.eqb Pos.eqb andb orb negb obind];
  do 2 eexists; (split; [reflexivity|]); unfold qto; cbn [qmul qunit umul dim]; rewrite DQ; reflexivity.
Qed.

(** ** C51. Generated bins *)
Definition below (e : list R) (ed : list (R * R)) (i : nat) : R := nth i e 0 - fst (nth i ed (0, 0)).   (* lower edge *)
Definition above (e : list R) (ed : list (R * R)) (i : nat) : R := nth i e 0 + snd (nth i ed (0, 0)).   (* upper edge *)
Definition increasing (e : list R) : Prop := StronglySorted Rlt e.

Lemma increasing_nth e : increasing e -> forall i j, (i < j < List.length e)%nat -> nth i e 0 < nth j e 0.
Proof.
  intros H. induction H as [|a l S IH F]; intros i j L; cbn [List.length] in L; [lia|].
  destruct j as [|j]; [lia|]. destruct i as [|i]; cbn [nth].
  - rewrite Forall_forall in F. apply F, nth_In. lia.
  - apply IH. lia.
Qed.
Lemma sqrt_between a b : 0 < a -> a < b -> a < sqrt (b * a) < b.
Proof.
  intros A B. split.
  - rewrite <- (sqrt_square a) at 1 by lra. apply sqrt_lt_1; nra.
  - rewrite <- (sqrt_square b) at 2 by lra. apply sqrt_lt_1; nra.
Qed.
Lemma edges_nth e i : (i < List.length e)%nat ->
  nth i (edges_single e) (0, 0) =
  (let n := List.length e in
   let ehi' i := if Nat.eqb (S i) n then 0 else nth i (mids e) 0 - nth i e 0 in
   let elo0 := nth 0 e 0 * (1 - nth 0 e 0 / (nth 0 e 0 + ehi' 0%nat)) in
   let elo i := match i with O => elo0 | S j => nth i e 0 - nth j (mids e) 0 end in
   (elo i, if Nat.eqb (S i) n then elo i else ehi' i)).
Proof.
  intros H. unfold edges_single. cbv zeta. rewrite (nth_map_gen _ _ _ 0%nat) by (rewrite seq_length; exact H).
  rewrite seq_nth by exact H. reflexivity.
Qed.

Theorem C51_bins : forall e, increasing e -> List.Forall (fun x => 0 < x) e -> (2 <= List.length e)%nat ->
  let ed := generate_energy_edges e None in
  List.length ed = List.length e /\
  (forall i, (S i < List.length e)%nat -> above e ed i = below e ed (S i)) /\
  (forall i, (i < List.length e)%nat -> 0 < below e ed i < nth i e 0 /\ nth i e 0 < above e ed i).
Proof.
  intros e HI HP HL ed. subst ed. cbn [generate_energy_edges].
  assert (PN : forall i, (i < List.length e)%nat -> 0 < nth i e 0).
  { intros i Hi. rewrite Forall_forall in HP. apply HP, nth_In, Hi. }
  assert (MB : forall i, (S i < List.length e)%nat -> nth i e 0 < nth i (mids e) 0 < nth (S i) e 0).
  { intros i Hi. rewrite mids_nth by exact Hi. apply sqrt_between; [apply PN; lia|apply increasing_nth; [exact HI|lia]]. }
  split; [apply edges_single_length|]. split.
  - intros i Hi. unfold above, below. rewrite !edges_nth by lia. cbv zeta. cbn [fst snd].
    destruct (Nat.eqb_spec (S i) (List.length e)); [lia|]. lra.
  - intros i Hi. unfold above, below. rewrite !edges_nth by lia. cbv zeta. cbn [fst snd].
    assert (LO : 0 < match i with O => nth 0 e 0 * (1 - nth 0 e 0 / (nth 0 e 0 + (if Nat.eqb 1 (List.length e) then 0 else nth 0 (mids e) 0 - nth 0 e 0))) | S j => nth i e 0 - nth j (mids e) 0 end < nth i e 0).
    { destruct i as [|j].
      - destruct (Nat.eqb_spec 1 (List.length e)); [lia|].
        pose proof (PN 0%nat ltac:(lia)) as P0. pose proof (MB 0%nat ltac:(lia)) as M0.
        replace (nth 0 e 0 + (nth 0 (mids e) 0 - nth 0 e 0)) with (nth 0 (mids e) 0) by ring.
        assert (Q : 0 < nth 0 e 0 / nth 0 (mids e) 0 < 1).
        { split; [apply Rdiv_lt_0_compat; lra|]. apply Rmult_lt_reg_r with (nth 0 (mids e) 0); [lra|]. unfold Rdiv. rewrite Rmult_assoc, Rinv_l by lra. lra. }
        nra.
      - pose proof (MB j ltac:(lia)) as M. pose proof (PN j ltac:(lia)). lra. }
    split; [lra|].
    destruct (Nat.eqb_spec (S i) (List.length e)); [lra|]. pose proof (MB i ltac:(lia)). lra.
Qed.
(** the common edge of two bins is the geometric mean of their energies *)
Theorem C51_edges_geometric_mean : forall e i, (S i < List.length e)%nat ->
  above e (generate_energy_edges e None) i = sqrt (nth (S i) e 0 * nth i e 0).
Proof.
  intros e i Hi. cbn [generate_energy_edges]. unfold above. rewrite edges_nth by lia. cbv zeta. cbn [snd].
  destruct (Nat.eqb_spec (S i) (List.length e)); [lia|]. rewrite mids_nth by lia. ring.
Qed.
Example C51_example : increasing [1; 4; 16] /\ List.Forall (fun x => 0 < x) [1; 4; 16] /\ above [1; 4; 16] (generate_energy_edges [1; 4; 16] None) 0 = 2.
Proof.
  split; [repeat constructor; lra|]. split; [repeat constructor; lra|].
  rewrite C51_edges_geometric_mean by (cbn; lia). cbn [nth]. replace (4 * 1) with (2 * 2) by ring. apply sqrt_square. lra.
Qed.

(** Entries of [l] belonging to group [g] *)
Definition pick {A} (g : Z) (gs : list Z) (l : list A) : list A := map fst (filter (fun p => Z.eqb (snd p) g) (combine l gs)).
Lemma pick_scatter_same g gs : forall new old, List.length old = List.length gs ->
  List.length new = List.length (pick g gs old) -> pick g gs (scatter g gs new old) = new.
Proof.
  unfold pick. induction gs as [|h gs IH]; intros new [|o old] L1 L2; cbn in L1; try discriminate.
  - cbn in L2. destruct new; [reflexivity|discriminate].
  - cbn [scatter combine filter snd] in *. destruct (Z.eqb h g) eqn:E.
    + destruct new as [|x new]; cbn [map List.length] in L2; [discriminate|].
      cbn [combine filter snd]. rewrite E. cbn [map fst]. f_equal. apply IH; congruence.
    + cbn [combine filter snd]. rewrite E. apply IH; auto.
Qed.
Lemma pick_scatter_other g g' gs : g' <> g -> forall new old, pick g' gs (scatter g gs new old) = pick g' gs old.
Proof.
  intros N. unfold pick. induction gs as [|h gs IH]; intros new [|o old]; cbn [scatter combine filter snd]; auto.
  destruct (Z.eqb_spec h g) as [ -> |].
  - destruct new as [|x new]; cbn [combine filter snd]; (destruct (Z.eqb_spec g g'); [congruence|]); apply IH.
  - cbn [combine filter snd]. destruct (Z.eqb h g'); cbn [map]; [f_equal|]; apply IH.
Qed.
Lemma pick_length {A B} g gs (l : list A) (l' : list B) : List.length l = List.length l' -> List.length (pick g gs l) = List.length (pick g gs l').
Proof.
  unfold pick. revert l l'. induction gs as [|h gs IH]; intros [|a l] [|b l'] L; cbn in L; try discriminate; auto.
  cbn [combine filter snd]. destruct (Z.eqb h g); cbn [map List.length]; [f_equal|]; apply IH; congruence.
Qed.

(** With groups, the bins of every group are those of its energies alone *)
Theorem C51_groups_independent : forall e gs g, List.length gs = List.length e ->
  pick g gs (generate_energy_edges e (Some gs)) = generate_energy_edges (pick g gs e) None.
Proof.
  intros e gs g L. cbn [generate_energy_edges]. rewrite L, Nat.eqb_refl.
  assert (Z0 : List.length (map (fun _ : R => (0, 0)) e) = List.length e) by apply map_length.
  assert (G : forall l acc, NoDup l -> List.length acc = List.length e ->
     pick g gs (fold_left (edges_step e gs) l acc) = if in_dec Z.eq_dec g l then edges_single (pick g gs e) else pick g gs acc).
  { induction l as [|h l IH]; intros acc ND LA; cbn [fold_left]; [reflexivity|]. inversion ND as [|? ? NI ND']; subst.
    assert (LA' : List.length (edges_step e gs acc h) = List.length e) by (unfold edges_step; rewrite scatter_length; exact LA).
    rewrite IH by assumption. destruct (in_dec Z.eq_dec g (h :: l)) as [[EQ|I]|NI'].
    - subst h. destruct (in_dec Z.eq_dec g l); [contradiction|]. unfold edges_step. apply pick_scatter_same; [congruence|].
      rewrite edges_single_length. change (List.length (pick g gs e) = List.length (pick g gs acc)). apply pick_length. congruence.
    - destruct (in_dec Z.eq_dec g l); [reflexivity|contradiction].
    - destruct (in_dec Z.eq_dec g l) as [I|_]; [exfalso; apply NI'; right; exact I|].
      unfold edges_step. apply pick_scatter_other. intros E. apply NI'. left. auto. }
  rewrite G by (auto using NoDup_nodup). destruct (in_dec Z.eq_dec g (nodup Z.eq_dec gs)) as [I|NI]; [reflexivity|].
  assert (P0 : forall A (l : list A), pick g gs l = []).
  { intros A l. unfold pick. assert (NI2 : ~ In g gs) by (intros H; apply NI, nodup_In, H). clear -NI2.
    revert l. induction gs as [|h gs IH]; intros [|a l]; cbn [combine filter snd]; auto.
    destruct (Z.eqb_spec h g); [exfalso; apply NI2; left; auto|]. apply IH. intros H; apply NI2; right; auto. }
  rewrite !P0. reflexivity.
Qed.
(** two interleaved groups *)
Example C51_groups_example : pick 1%Z [0%Z; 1%Z; 0%Z; 1%Z] (generate_energy_edges [1; 2; 3; 8] (Some [0%Z; 1%Z; 0%Z; 1%Z])) = edges_single [2; 8].
Proof. rewrite C51_groups_independent by reflexivity. reflexivity. Qed.

(** ** C75 (refuted, code defect). The bins of a table depend on the order of its
    rows: edges are generated before sorting, and every bin of a table listed by
    decreasing energy has negative widths, so it does not contain its energy. *)
Theorem C75_row_order_refuted : forall a b, 0 < a -> a < b ->
  let ed := generate_energy_edges [b; a] None in
  snd (nth 0 ed (0, 0)) < 0 /\ fst (nth 1 ed (0, 0)) < 0 /\ snd (nth 1 ed (0, 0)) < 0.
Proof.
  intros a b A B. cbn [generate_energy_edges]. cbv zeta. unfold edges_single. cbv zeta. cbn [List.length seq map nth mids Nat.eqb fst snd].
  replace (a * b) with (b * a) by ring. pose proof (sqrt_between a b A B). lra.
Qed.
(** such a table is accepted (C52), and the negative half-width is what the row gets (C49) *)
Theorem C75_table_refuted : exists t, rect t /\ well_formed t /\ o_whi (input_row false t 0 0) < 0 /\ o_wlo (input_row false t 0 1) < 0.
Proof.
  exists ex_tab. split; [apply ex_tab_rect|]. split; [apply ex_tab_wf|].
  unfold input_row, o_whi, o_wlo, half_width. cbn [present ex_tab cols dget String.eqb Ascii.eqb Bool.eqb andb].
  assert (EN : energies ex_tab = [8; 2]).
  { unfold energies, pcol, phys, nrows. cbn [ex_tab cols dget String.eqb Ascii.eqb Bool.eqb List.length vals qunit scale seq map nth]. repeat f_equal; ring. }
  rewrite EN. unfold groups. cbn [i_group ex_tab]. cbn [nrows ex_tab cols dget String.eqb Ascii.eqb Bool.eqb List.length vals repeat Z.of_nat].
  assert (GE : generate_energy_edges [8; 2] (Some [0%Z; 0%Z]) = generate_energy_edges [8; 2] None).
  { pose proof (C51_groups_independent [8; 2] [0%Z; 0%Z] 0 eq_refl) as GI. change (pick 0%Z [0%Z; 0%Z] [8; 2]) with [8; 2] in GI. rewrite <- GI. clear GI. pose proof (generate_edges_length [8; 2] (Some [0%Z; 0%Z])) as L.
    destruct (generate_energy_edges [8; 2] (Some [0%Z; 0%Z])) as [|x [|y [|]]]; cbn in L; try discriminate. reflexivity. }
  rewrite GE. destruct (C75_row_order_refuted 2 8 ltac:(lra) ltac:(lra)) as (A & B & C). auto.
Qed.
(** Proved for tables listed by increasing energy: C51_bins. *)

(** ** C54. Validation of the domain *)
Definition in_domain (d : domain) (x : R) : Prop :=
  match d with Positive => 0 <= x | StrictlyPositive => 0 < x | Negative => x <= 0 | StrictlyNegative => x < 0 | Range a b => a <= x <= b | NoDomain => True end.
Theorem C54_scalar : forall d x, (validate_scalar (SimplexModel.Fin x) d = Ok (SimplexModel.Fin x) <-> in_domain d x) /\
  (~ in_domain d x -> validate_scalar (SimplexModel.Fin x) d = Err "ValueError").
Proof.
  intros d x. unfold validate_scalar, in_domain. destruct d; cbn [flt fle orb];
  repeat match goal with |- context [Rlt_dec ?a ?b] => destruct (Rlt_dec a b) | |- context [Rle_dec ?a ?b] => destruct (Rle_dec a b) end; cbn [orb];
  (split; [split; intros H; try reflexivity; try discriminate; try lra; try exact I|intros H; try reflexivity; exfalso; lra || (apply H; lra) || (apply H; exact I)]).
Qed.
Theorem C54_physical_type : forall q d pts, (validate_array q d pts = Ok q <-> In (dim (qunit q)) pts) /\ (~ In (dim (qunit q)) pts -> validate_array q d pts = Err "TypeError").
Proof.
  intros q d pts. unfold validate_array, validate_physical_type. destruct (existsb _ pts) eqn:E.
  - apply existsb_exists in E. destruct E as (x & I & E). apply dims_eqb_eq in E. subst x. split; [split; auto|contradiction].
  - assert (N : ~ In (dim (qunit q)) pts).
    { intros I. assert (existsb (dims_eqb (dim (qunit q))) pts = true); [|congruence]. apply existsb_exists. exists (dim (qunit q)). split; auto. apply dims_eqb_refl. }
    split; [split; [discriminate|contradiction]|reflexivity].
Qed.
(** Refuted (code defect): nan passes every domain *)
Theorem C131_nan_refuted : forall d, validate_scalar NaN d = Ok NaN.
Proof. intros [ | | | |a b| ]; reflexivity. Qed.
(** Refuted (code defect): validate_array ignores the domain, so a data table whose
    energies and fluxes are negative is accepted although "positive" is asked for *)
Theorem C131_array_domain_refuted : exists t q, dget "energy" (cols t) = Some q /\ vals q = [-1] /\
  validate_column t "energy" [d_energy] = Ok q /\ forall argsort sed, is_ok (validate_data_table nu1 argsort [t] sed).
Proof.
  exists (mkI [("energy", mkQ [-1] (mkU 2 d_energy)); ("flux", mkQ [-3] (mkU 7 d_diff_flux)); ("flux_error", mkQ [-1] (mkU 5 d_diff_flux))]%string None None None).
  eexists. split; [reflexivity|]. split; [reflexivity|]. split; [reflexivity|]. intros argsort sed.
  apply (C52_accepted_iff_well_formed nu1 nu1_pos).
  - constructor; [|constructor]. split; [|split]; [|discriminate|discriminate].
    cbn [cols nrows dget String.eqb Ascii.eqb Bool.eqb]. repeat constructor; cbn; lra.
  - repeat constructor; cbn; lia.
  - split; [discriminate|]. split; [constructor; [|constructor]|intros t t' [ <- |[]] [ <- |[]]; tauto].
    unfold well_formed, col_has. split; [eexists; split; reflexivity|]. split; [|split; exact I].
    exists d_diff_flux. split; [eexists; split; reflexivity|]. split; [right; left; reflexivity|].
    split; [eexists; split; reflexivity|intros H; discriminate H].
Qed.

(** ** C76 (refuted, code defect). Any number, also nan, is taken as confidence level:
    for every well-formed table, setting the level to [c] is accepted and [c] is used. *)
Theorem C76_confidence_level_refuted : forall nu argsort t c, positive_units nu -> is_argsort argsort -> rect t -> well_formed t -> (0 < nrows t)%nat ->
  let t' := mkI (cols t) (i_group t) (i_ul t) (Some c) in
  exists cu rows, validate_data_table nu argsort [t'] None = Ok (cu, rows) /\ List.Forall (fun r => r_cl r = c) rows /\ List.length rows = nrows t.
Proof.
  intros nu argsort t c NU A R W N t'.
  assert (R' : rect t') by exact R. assert (W' : well_formed t') by exact W.
  assert (OK1 : is_ok (validate_data_table nu argsort [t'] None)).
  { apply (C52_accepted_iff_well_formed nu NU); [constructor; auto|constructor; auto|].
    split; [discriminate|]. split; [constructor; auto|]. intros x x' [ <- |[]] [ <- |[]]; tauto. }
  destruct OK1 as ((cu & rows) & E). exists cu, rows. split; [exact E|].
  destruct (C49_rows_sorted_permutation nu NU argsort [t'] None cu rows A ltac:(constructor; auto) E) as (_ & P & _).
  cbn [input_rows] in P. rewrite app_nil_r in P. split.
  - assert (F : List.Forall (fun o => o_cl o = c) (map (output_row cu) rows)).
    { eapply Permutation_Forall; [apply Permutation_sym, P|]. apply Forall_map, Forall_forall. intros i _. reflexivity. }
    rewrite Forall_map in F. exact F.
  - apply Permutation_length in P. rewrite !map_length, seq_length in P. exact P.
Qed.

Print Assumptions C50_factor.
Print Assumptions C50_round_trip.
Print Assumptions C50_unit_independent.
Print Assumptions C130_number_density_refuted.
Print Assumptions C51_bins.
Print Assumptions C51_edges_geometric_mean.
Print Assumptions C51_groups_independent.
Print Assumptions C75_table_refuted.
Print Assumptions C54_scalar.
Print Assumptions C54_physical_type.
Print Assumptions C131_nan_refuted.
Print Assumptions C131_array_domain_refuted.
Print Assumptions C76_confidence_level_refuted.
