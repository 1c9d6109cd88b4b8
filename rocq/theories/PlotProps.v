(** Properties C88-C90: residuals, data points and option dictionaries of the plots. *)
From Coq Require Import Reals List ZArith Bool String Ascii Arith Permutation Lra Lia.
From Verif Require Import Outcome SimplexModel UnitsModel DataModel DataSpec DataProofs AnalysisModel PlotModel.
Import ListNotations.
Local Open Scope R_scope.

Lemma filter_split {A} (p : A -> bool) l : Permutation (filter p l ++ filter (fun x => negb (p x)) l) l.
Proof.
  induction l as [|a l IH]; [constructor|]. cbn [filter]. destruct (p a); cbn [negb app].
  - constructor. exact IH.
  - apply Permutation_sym, Permutation_cons_app, Permutation_sym. exact IH.
Qed.
Lemma filter_filter {A} (p q : A -> bool) l : (forall x, p x = true -> q x = true) -> filter p (filter q l) = filter p l.
Proof. intros H. induction l as [|a l IH]; [reflexivity|]. cbn. destruct (q a) eqn:E; cbn; rewrite IH; destruct (p a) eqn:P; auto. rewrite H in E; congruence. Qed.
Lemma groups_partition {A} (f : A -> Z) gs : NoDup gs -> forall l, (forall x, In x l -> In (f x) gs) ->
  Permutation (flat_map (fun g => filter (fun x => Z.eqb (f x) g) l) gs) l.
Proof.
  induction 1 as [|g gs Hn ND IH]; intros l H; cbn [flat_map].
  - destruct l as [|x l]; [constructor|]. destruct (H x); left; auto.
  - apply Permutation_trans with (filter (fun x => Z.eqb (f x) g) l ++ filter (fun x => negb (Z.eqb (f x) g)) l); [|apply filter_split].
    apply Permutation_app_head.
    assert (E : flat_map (fun h => filter (fun x => Z.eqb (f x) h) l) gs
              = flat_map (fun h => filter (fun x => Z.eqb (f x) h) (filter (fun x => negb (Z.eqb (f x) g)) l)) gs).
    { rewrite !flat_map_concat_map. f_equal. apply map_ext_in. intros h Hh. symmetry. apply filter_filter.
      intros x E. apply Z.eqb_eq in E. apply negb_true_iff, Z.eqb_neq. intros E2. apply Hn. congruence. }
    rewrite E. apply IH. intros x Hx. apply filter_In in Hx. destruct Hx as [Hx N]. apply negb_true_iff, Z.eqb_neq in N.
    destruct (H x Hx); [congruence|auto].
Qed.

(** ** C88 *)
(** Spec: differential flux (per energy) at energy E of a value that is either a
    differential flux or an SED *)
Definition differential (d : dims) (v E : R) : R := if Z.eqb (energy_exp d) 1 then v / E ^ 2 else v.

Section Res.
  Variable nu : naima_units.
  Hypothesis NU : positive_units nu.
  Variable interp : list R -> list R -> R -> option R.
  (** scipy.interpolate.interp1d: at a node (or repeated nodes of equal value) the
      value of the node *)
  Hypothesis INT : forall xs ys x y, List.length xs = List.length ys ->
    (exists j, (j < List.length xs)%nat /\ nth j xs 0 = x) ->
    (forall j, (j < List.length xs)%nat -> nth j xs 0 = x -> nth j ys 0 = y) -> interp xs ys x = Some y.

  (** the unit sed_conversion announces depends only on what is converted to *)
  Lemma target_unit e1 m1 e2 m2 sed us1 us2 : flux_like (dim m1) -> flux_like (dim m2) -> length_exp (dim m1) = length_exp (dim m2) ->
    sed_conversion nu e1 m1 sed = Ok us1 -> sed_conversion nu e2 m2 sed = Ok us2 -> fst us1 = fst us2.
  Proof.
    intros F1 F2 L H1 H2. destruct m1 as [s1 d1], m2 as [s2 d2]. cbn [dim] in F1, F2, L.
    unfold sed_conversion in H1, H2. cbn [dim] in H1, H2.
    destruct sed; destruct F1 as [ -> | [ -> | [ -> | -> ] ] ]; destruct F2 as [ -> | [ -> | [ -> | -> ] ] ]; try discriminate L;
    cbn in H1, H2; injection H1 as <-; injection H2 as <-; reflexivity.
  Qed.
  Lemma pick_len q idx : List.length (vals (pick q idx)) = List.length idx.
  Proof. apply map_length. Qed.
  Lemma phys_pick q idx j : (j < List.length idx)%nat -> phys (pick q idx) j = phys q (nth j idx 0%nat).
  Proof. intros H. unfold phys, pick. cbn [vals qunit]. rewrite (nth_indep _ 0 (nth 0 (vals q) 0)) by (rewrite map_length; exact H).
    rewrite (map_nth (fun i => nth i (vals q) 0)). reflexivity. Qed.
  Lemma phys_nth q i : 0 < scale (qunit q) -> nth i (vals q) 0 = phys q i / scale (qunit q).
  Proof. intros H. unfold phys. field. lra. Qed.

  Lemma flat_map_seq {B} (F : nat -> list B) idx : flat_map (fun j => F (nth j idx 0%nat)) (seq 0 (List.length idx)) = flat_map F idx.
  Proof.
    induction idx as [|a idx IH]; [reflexivity|]. cbn [List.length seq flat_map]. cbn [nth]. f_equal. rewrite <- IH.
    rewrite <- seq_shift, !flat_map_concat_map, map_map. reflexivity.
  Qed.
  Lemma flat_map_filter {B} (u : nat -> bool) (F : nat -> B) idx : flat_map (fun i => if u i then [] else [F i]) idx = map F (filter (fun i => negb (u i)) idx).
  Proof. induction idx as [|a idx IH]; [reflexivity|]. cbn. destruct (u a); cbn; rewrite IH; reflexivity. Qed.
  Lemma flat_map_ext_in {A B} (F G : A -> list B) l : (forall a, In a l -> F a = G a) -> flat_map F l = flat_map G l.
  Proof. intros H. rewrite !flat_map_concat_map. f_equal. apply map_ext_in. exact H. Qed.

  Variables (cu : cunits) (rows : list vrow) (MLx MLy : qty) (e_unit : unit_) (sed : bool).
  Let o (i : nat) : obs := output_row cu (nth i rows row0).
  Let dd := dim (uf cu).
  Let dm := dim (qunit MLy).
  Hypothesis POS : 0 < scale (ue cu) /\ 0 < scale (uf cu) /\ 0 < scale (uflo cu) /\ 0 < scale (ufhi cu) /\ 0 < scale e_unit /\ 0 < scale (qunit MLx) /\ 0 < scale (qunit MLy).
  Hypothesis DIM : dim (ue cu) = d_energy /\ flux_like dd /\ dim (uflo cu) = dd /\ dim (ufhi cu) = dd /\ dim e_unit = d_energy /\
    dim (qunit MLx) = d_energy /\ flux_like dm /\ length_exp dm = length_exp dd.
  Hypothesis ROWS : forall i, (i < List.length rows)%nat -> 0 < o_E (o i) /\ 0 < o_lo (o i) + o_hi (o i).
  Hypothesis LEN : List.length (vals MLx) = List.length rows /\ List.length (vals MLy) = List.length rows.
  Hypothesis SAME : forall i, (i < List.length rows)%nat -> phys MLx i = o_E (o i).
  Hypothesis FUN : forall i j, (i < List.length rows)%nat -> (j < List.length rows)%nat -> o_E (o i) = o_E (o j) -> phys MLy i = phys MLy j.

  Definition residual_of (i : nat) : R :=
    (differential dd (o_F (o i)) (o_E (o i)) - differential dm (phys MLy i) (o_E (o i))) /
    ((differential dd (o_lo (o i)) (o_E (o i)) + differential dd (o_hi (o i)) (o_E (o i))) / 2).

  Lemma phys_col (f : vrow -> R) u i : (i < List.length rows)%nat -> phys (col f u rows) i = f (nth i rows row0) * scale u.
  Proof. intros H. unfold phys, col. cbn [vals qunit]. rewrite (nth_map0 _ _ _ row0) by exact H. reflexivity. Qed.

  Lemma group_ok mx my us : sed_conversion nu MLx (qunit MLy) sed = Ok us -> qto e_unit MLx = Ok mx -> qto (fst us) (qmul MLy (snd us)) = Ok my ->
    forall ui idx, List.Forall (fun i => (i < List.length rows)%nat) idx ->
    residual_group nu interp cu rows mx my ui sed e_unit idx =
      Ok (map (fun i => (o_E (o i) / scale e_unit, Some (residual_of i))) (filter (fun i => negb (o_ul (o i))) idx)).
  Proof.
    destruct POS as (P1 & P2 & P3 & P4 & P5 & P6 & P7). destruct DIM as (D1 & D2 & D3 & D4 & D5 & D6 & D7 & D8). destruct LEN as (L1 & L2).
    intros HU HX HY ui idx HI. rewrite Forall_forall in HI.
    destruct (sed_conversion_spec nu NU MLx (qunit MLy) sed D7 D6) as (fu & sf & S & Pf & Df & Lf & DMf & Ff).
    rewrite S in HU. injection HU as <-. cbn [fst snd] in HY.
    destruct (conv_col fu sf MLy _ eq_refl (eq_trans Lf (eq_trans L1 (eq_sym L2))) Pf _ HY) as (Y1 & Y2 & _ & Y4).
    apply qto_ok in HX. destruct HX as (_ & X2 & X3 & X4). specialize (X4 P5).
    unfold residual_group. set (e := pick (col r_e (ue cu) rows) idx).
    destruct (sed_conversion_spec nu NU e (uf cu) sed D2 D1) as (fu2 & sf2 & S2 & Pf2 & Df2 & Lf2 & DMf2 & Ff2).
    rewrite S2. cbn [obind fst snd].
    assert (EU : fu = fu2). { apply (target_unit MLx (qunit MLy) e (uf cu) sed (fu, sf) (fu2, sf2)); auto. }
    subst fu2.
    assert (LE : List.length (vals e) = List.length idx) by (apply map_length).
    destruct (proj2 (qto_is_ok e_unit e)) as (ene & Eene). { cbn. congruence. }
    rewrite Eene. cbn [obind]. apply qto_ok in Eene. destruct Eene as (_ & N2 & N3 & N4). specialize (N4 P5).
    set (qf := pick (col r_f (uf cu) rows) idx).
    destruct (proj2 (qto_is_ok fu (qmul qf sf2))) as (flux & Eflux). { exact DMf2. }
    rewrite Eflux. cbn [obind].
    destruct (conv_col fu sf2 qf (List.length idx) (pick_len _ _) (eq_trans Lf2 LE) Pf2 _ Eflux) as (G1 & G2 & _ & G4).
    set (ql := pick (col r_flo (uflo cu) rows) idx). set (qh := pick (col r_fhi (ufhi cu) rows) idx).
    destruct (proj2 (qto_is_ok (qunit ql) qh)) as (qh' & Eqh). { cbn. congruence. }
    assert (ES : qsum ql qh = Ok (mkQ (zipw Rplus (vals ql) (vals qh')) (qunit ql))) by (unfold qsum; rewrite Eqh; reflexivity).
    rewrite ES. cbn [obind]. apply qto_ok in Eqh. destruct Eqh as (_ & H2 & H3 & H4). specialize (H4 P3).
    set (qs := qhalf (mkQ (zipw Rplus (vals ql) (vals qh')) (qunit ql))).
    assert (Lqh : List.length (vals qh') = List.length idx) by (rewrite H3; apply pick_len).
    assert (Lqs : List.length (vals qs) = List.length idx).
    { unfold qs, qhalf. cbn [vals]. rewrite map_length, zipw_length; [apply pick_len|rewrite Lqh; apply pick_len]. }
    destruct (proj2 (qto_is_ok fu (qmul qs sf2))) as (dflux & Edf).
    { change (dmul (dim (uflo cu)) (dim (qunit sf2)) = dim fu). rewrite D3. exact DMf2. }
    rewrite Edf. cbn [obind].
    destruct (conv_col fu sf2 qs (List.length idx) Lqs (eq_trans Lf2 LE) Pf2 _ Edf) as (K1 & K2 & _ & K4).
    (* physical values *)
    assert (PE : forall j, (j < List.length idx)%nat -> phys e j = o_E (o (nth j idx 0%nat))).
    { intros j Hj. unfold e. rewrite phys_pick by exact Hj. rewrite phys_col; [reflexivity|]. apply HI, nth_In. exact Hj. }
    assert (PF : forall j, (j < List.length idx)%nat -> phys flux j = o_F (o (nth j idx 0%nat)) * sed_factor sed dd (o_E (o (nth j idx 0%nat)))).
    { intros j Hj. rewrite G4 by exact Hj. rewrite Ff2 by (rewrite LE; exact Hj). rewrite PE by exact Hj. f_equal.
      unfold qf. rewrite phys_pick by exact Hj. rewrite phys_col; [reflexivity|]. apply HI, nth_In. exact Hj. }
    assert (PD : forall j, (j < List.length idx)%nat -> phys dflux j = (o_lo (o (nth j idx 0%nat)) + o_hi (o (nth j idx 0%nat))) / 2 * sed_factor sed dd (o_E (o (nth j idx 0%nat)))).
    { intros j Hj. rewrite K4 by exact Hj. rewrite Ff2 by (rewrite LE; exact Hj). rewrite PE by exact Hj. f_equal.
      assert (A1 : phys ql j = o_lo (o (nth j idx 0%nat))).
      { unfold ql. rewrite phys_pick by exact Hj. rewrite phys_col; [reflexivity|]. apply HI, nth_In. exact Hj. }
      assert (A2 : phys qh' j = o_hi (o (nth j idx 0%nat))).
      { rewrite H4. unfold qh. rewrite phys_pick by exact Hj. rewrite phys_col; [reflexivity|]. apply HI, nth_In. exact Hj. }
      rewrite <- A1, <- A2. unfold phys, qs, qhalf. cbn [vals qunit].
      rewrite (nth_map0 _ _ _ 0) by (rewrite zipw_length; [unfold ql; rewrite pick_len; exact Hj|rewrite Lqh; apply pick_len]).
      rewrite nth_zipw; [|rewrite Lqh; apply pick_len|unfold ql; rewrite pick_len; exact Hj]. rewrite H2. cbn [ql pick qunit]. lra. }
    assert (PM : forall i, (i < List.length rows)%nat -> phys my i = phys MLy i * sed_factor sed dm (o_E (o i))).
    { intros i Hi. rewrite Y4 by lia. rewrite Ff by lia. rewrite SAME by exact Hi. reflexivity. }
    assert (MU : qunit my = fu) by exact Y1.
    (* the model values *)
    assert (MV : exists m, (if ui then Ok (map (interp (vals mx) (vals my)) (vals ene)) else omap (fun q => map Some (vals q)) (qto fu (pick my idx))) = Ok m /\
      forall j, (j < List.length idx)%nat -> nth j m None = Some (phys my (nth j idx 0%nat) / scale fu)).
    { destruct ui.
      - eexists. split; [reflexivity|]. intros j Hj. set (i := nth j idx 0%nat).
        assert (Hi : (i < List.length rows)%nat) by (apply HI, nth_In; exact Hj).
        rewrite (nth_indep _ None (interp (vals mx) (vals my) 0)) by (rewrite map_length; lia). rewrite (map_nth (interp (vals mx) (vals my))).
        assert (NX : forall q, (q < List.length rows)%nat -> nth q (vals mx) 0 = o_E (o q) / scale e_unit).
        { intros q Hq. rewrite phys_nth by (rewrite X2; exact P5). rewrite X2, X4, SAME by exact Hq. reflexivity. }
        assert (NE : nth j (vals ene) 0 = o_E (o i) / scale e_unit).
        { rewrite phys_nth by (rewrite N2; exact P5). rewrite N2, N4, PE by exact Hj. reflexivity. }
        apply INT.
        + lia.
        + exists i. split; [lia|]. rewrite NX, NE by exact Hi. reflexivity.
        + intros q Hq EQ. rewrite NX, NE in EQ by lia.
          assert (EE : o_E (o q) = o_E (o i)). { apply (Rmult_eq_reg_r (/ scale e_unit)); [exact EQ|]. apply Rinv_neq_0_compat. lra. }
          rewrite phys_nth by (rewrite MU; exact Pf). rewrite MU, !PM by lia. rewrite EE, (FUN q i) by (auto; lia). reflexivity.
      - destruct (proj2 (qto_is_ok fu (pick my idx))) as (pm & Epm). { cbn. rewrite MU. reflexivity. }
        rewrite Epm. cbn [omap]. eexists. split; [reflexivity|]. intros j Hj. apply qto_ok in Epm. destruct Epm as (_ & M2 & M3 & M4). specialize (M4 Pf).
        rewrite pick_len in M3. rewrite (nth_indep _ None (Some 0)) by (rewrite map_length; lia). rewrite (map_nth Some). f_equal.
        rewrite phys_nth by (rewrite M2; exact Pf). rewrite M2, M4, phys_pick by exact Hj. reflexivity. }
    destruct MV as (m & Em & Hm). rewrite Em. cbn [obind]. f_equal.
    rewrite <- flat_map_filter. etransitivity; [|apply flat_map_seq]. apply flat_map_ext_in. intros j Hj. apply in_seq in Hj. assert (Hj' : (j < List.length idx)%nat) by lia.
    set (i := nth j idx 0%nat). assert (Hi : (i < List.length rows)%nat) by (apply HI, nth_In; exact Hj').
    change (o_ul (o i)) with (r_ul (nth i rows row0)). destruct (r_ul (nth i rows row0)); [reflexivity|]. f_equal. f_equal.
    - rewrite phys_nth by (rewrite N2; exact P5). rewrite N2, N4, PE by exact Hj'. reflexivity.
    - rewrite Hm by exact Hj'. cbn [option_map]. f_equal. fold i.
      rewrite (phys_nth flux) by (rewrite G1; exact Pf). rewrite (phys_nth dflux) by (rewrite K1; exact Pf). rewrite G1, K1, PF, PD, PM by auto. fold i.
      destruct (ROWS i Hi) as (RE & RS). unfold residual_of, differential, sed_factor.
      assert (EX : (energy_exp dd = 1 \/ energy_exp dd = -1)%Z) by (unfold flux_like in D2; destruct D2 as [ -> | [ -> | [ -> | -> ] ] ]; cbn; auto).
      assert (EY : (energy_exp dm = 1 \/ energy_exp dm = -1)%Z) by (unfold flux_like in D7; destruct D7 as [ -> | [ -> | [ -> | -> ] ] ]; cbn; auto).
      set (X := o_E (o i)) in *. assert (PX : X ^ 2 <> 0) by (apply pow_nonzero; lra).
      destruct EX as [ -> | -> ], EY as [ -> | -> ], sed; cbn [Z.eqb Pos.eqb]; field; repeat split; lra.
  Qed.

  Lemma concat_all_ok {A} (l : list (list A)) : concat_all (map Ok l) = Ok (List.concat l).
  Proof. induction l as [|a l IH]; [reflexivity|]. cbn. rewrite IH. reflexivity. Qed.

  Lemma residuals_ok : exists pts, residuals nu interp cu rows MLx MLy e_unit sed = Ok pts /\
    Permutation pts (map (fun i => (o_E (o i) / scale e_unit, Some (residual_of i))) (filter (fun i => negb (o_ul (o i))) (seq 0 (List.length rows)))).
  Proof.
    destruct POS as (P1 & P2 & P3 & P4 & P5 & P6 & P7). destruct DIM as (D1 & D2 & D3 & D4 & D5 & D6 & D7 & D8).
    unfold residuals. destruct (sed_conversion_spec nu NU MLx (qunit MLy) sed D7 D6) as (fu & sf & S & Pf & Df & Lf & DMf & Ff).
    rewrite S. cbn [obind fst snd].
    destruct (proj2 (qto_is_ok e_unit MLx)) as (mx & Emx). { congruence. } rewrite Emx. cbn [obind].
    destruct (proj2 (qto_is_ok fu (qmul MLy sf))) as (my & Emy). { exact DMf. } rewrite Emy. cbn [obind].
    set (ui := negb _). set (P := fun i => (o_E (o i) / scale e_unit, Some (residual_of i))).
    set (ok := fun i => negb (o_ul (o i))).
    assert (E : map (fun g => residual_group nu interp cu rows mx my ui sed e_unit (group_idx rows g)) (nodup Z.eq_dec (map r_grp rows))
              = map Ok (map (fun g => map P (filter ok (group_idx rows g))) (nodup Z.eq_dec (map r_grp rows)))).
    { rewrite map_map. apply map_ext. intros g. apply (group_ok mx my (fu, sf) S Emx Emy). apply Forall_forall. intros i Hi.
      unfold group_idx in Hi. apply filter_In in Hi. destruct Hi as [Hi _]. apply in_seq in Hi. lia. }
    rewrite E, concat_all_ok. eexists. split; [reflexivity|].
    assert (E2 : forall gs, List.concat (map (fun g => map P (filter ok (group_idx rows g))) gs) = map P (filter ok (flat_map (group_idx rows) gs))).
    { induction gs as [|g gs IH]; [reflexivity|]. cbn. rewrite IH, filter_app, map_app. reflexivity. }
    rewrite E2. apply Permutation_map. 
    assert (PF : forall a b, Permutation a b -> Permutation (filter ok a) (filter ok b)).
    { induction 1 as [|x a b Hp IH|x y a|a b c H1 I1 H2 I2]; cbn; [apply perm_nil| | |eapply Permutation_trans; [exact I1|exact I2]].
      - destruct (ok x); [apply perm_skip, IH|exact IH].
      - destruct (ok x), (ok y); try apply perm_swap; apply Permutation_refl. }
    apply PF. apply (groups_partition (fun i => r_grp (nth i rows row0))).
    - apply NoDup_nodup.
    - intros i Hi. apply in_seq in Hi. apply nodup_In, in_map, nth_In. lia.
  Qed.
End Res.

(** The residual plotted for observation [b] against a model value [m] whose unit has
    dimensions [dm]: (data - model) / mean error, all as differential fluxes. *)
Definition residual (dd dm : dims) (b : obs) (m : R) : R :=
  (differential dd (o_F b) (o_E b) - differential dm m (o_E b)) /
  ((differential dd (o_lo b) (o_E b) + differential dd (o_hi b) (o_E b)) / 2).
(** A model evaluated at the energies of the table *)
Record comparable (cu : cunits) (rows : list vrow) (MLx MLy : qty) (e_unit : unit_) : Prop := {
  cmp_units : 0 < scale (ue cu) /\ 0 < scale (uf cu) /\ 0 < scale (uflo cu) /\ 0 < scale (ufhi cu) /\ 0 < scale e_unit /\ 0 < scale (qunit MLx) /\ 0 < scale (qunit MLy);
  cmp_dims : dim (ue cu) = d_energy /\ flux_like (dim (uf cu)) /\ dim (uflo cu) = dim (uf cu) /\ dim (ufhi cu) = dim (uf cu) /\ dim e_unit = d_energy /\
    dim (qunit MLx) = d_energy /\ flux_like (dim (qunit MLy)) /\ length_exp (dim (qunit MLy)) = length_exp (dim (uf cu));
  cmp_rows : forall r, In r rows -> 0 < r_e r /\ 0 < o_lo (output_row cu r) + o_hi (output_row cu r);
  cmp_len : List.length (vals MLx) = List.length rows /\ List.length (vals MLy) = List.length rows;
  cmp_energies : forall i, (i < List.length rows)%nat -> phys MLx i = o_E (output_row cu (nth i rows row0));
  (* equal energies, equal model values *)
  cmp_function : forall i j, (i < List.length rows)%nat -> (j < List.length rows)%nat -> phys MLx i = phys MLx j -> phys MLy i = phys MLy j }.
(** scipy's interp1d at an energy that is one of the nodes *)
Definition exact_at_nodes (interp : list R -> list R -> R -> option R) : Prop := forall xs ys x y, List.length xs = List.length ys ->
    (exists j, (j < List.length xs)%nat /\ nth j xs 0 = x) ->
    (forall j, (j < List.length xs)%nat -> nth j xs 0 = x -> nth j ys 0 = y) -> interp xs ys x = Some y.

(** ** C88: one point per detection, at its energy, with the residual in units of the
    mean error of the detection, whatever units the table, model and plot use and
    whether the plot shows an SED. *)
Theorem C88_residuals_partial : forall nu interp cu rows MLx MLy e_unit sed,
  positive_units nu -> exact_at_nodes interp -> comparable cu rows MLx MLy e_unit ->
  exists pts, residuals nu interp cu rows MLx MLy e_unit sed = Ok pts /\
    Permutation pts
      (map (fun i => let b := output_row cu (nth i rows row0) in
                     (o_E b / scale e_unit, Some (residual (dim (uf cu)) (dim (qunit MLy)) b (phys MLy i))))
           (filter (fun i => negb (o_ul (output_row cu (nth i rows row0)))) (seq 0 (List.length rows)))).
Proof.
  intros nu interp cu rows MLx MLy e_unit sed NU INT [P D RW L E F].
  apply residuals_ok; auto.
  - intros i Hi. destruct (RW (nth i rows row0)) as [H1 H2]; [apply nth_In; exact Hi|]. split; [|exact H2].
    cbn [o_E output_row]. apply Rmult_lt_0_compat; [exact H1|apply P].
  - intros i j Hi Hj EQ. apply F; auto. rewrite !E by auto. exact EQ.
Qed.
Print Assumptions C88_residuals_partial.

Definition u1 d := mkU 1 d.
Definition cu1 : cunits := mkCU (u1 d_energy) (u1 d_diff_flux) (u1 d_diff_flux) (u1 d_diff_flux) (u1 d_energy) (u1 d_energy).
(** a table of a detection and an upper limit, compared with an SED *)
Example C88_hypotheses_met :
  comparable cu1 [mkR 1 3 1 1 0 0 0 false NaN; mkR 2 4 1 1 1 0 0 true NaN] (mkQ [1 / 2; 1] (mkU 2 d_energy)) (mkQ [5; 7] (mkU 3 d_flux)) (mkU 4 d_energy).
Proof.
  constructor; cbn.
  - repeat split; lra.
  - unfold flux_like. repeat split; auto.
  - intros r [<-|[<-|[]]]; cbn; lra.
  - auto.
  - intros [|[|i]] H; unfold phys, cu1, u1; cbn; try lra. lia.
  - intros [|[|i]] [|[|j]] Hi Hj; unfold phys; cbn; try lra; lia.
Qed.
Example C88_interp_exists : exists interp, exact_at_nodes interp.
Proof.
  exists (fun xs ys x => match find (fun p => if Req_EM_T (fst p) x then true else false) (combine xs ys) with Some p => Some (snd p) | None => None end).
  intros xs ys x y. revert ys. induction xs as [|a xs IH]; intros [|b ys] L (j & Hj & Ej) U; cbn in L, Hj; try discriminate; try lia.
  cbn. destruct (Req_EM_T a x) as [E|N]; cbn.
  - f_equal. apply (U 0%nat); [cbn; lia|exact E].
  - apply IH.
    + lia.
    + destruct j as [|j]; [contradiction|]. exists j. split; [lia|exact Ej].
    + intros k Hk Ek. apply (U (S k)); [cbn; lia|exact Ek].
Qed.

(** ** Refuted: np.allclose has an absolute tolerance of 1e-8. A table in TeV with
    X-ray energies is compared with a model at other X-ray energies as if they were
    the same: the residual at 1e-9 uses the model at 5e-9, whatever interpolation would
    give; the same table in a smaller unit is interpolated (nan outside the model). *)
Theorem C88_wrong_energy_refuted : forall interp F M,
  interp [5] [M] 1 = None ->
  residuals (mkNU 1 1 1 1) interp cu1 [mkR (1 / 10 ^ 9) F 1 1 0 0 0 false NaN] (mkQ [5 / 10 ^ 9] (u1 d_energy)) (mkQ [M] (u1 d_diff_flux)) (u1 d_energy) false
    = Ok [(1 / 10 ^ 9, Some (F - M))] /\
  residuals (mkNU 1 1 1 1) interp (mkCU (mkU (1 / 10 ^ 9) d_energy) (u1 d_diff_flux) (u1 d_diff_flux) (u1 d_diff_flux) (u1 d_energy) (u1 d_energy))
    [mkR 1 F 1 1 0 0 0 false NaN] (mkQ [5] (mkU (1 / 10 ^ 9) d_energy)) (mkQ [M] (u1 d_diff_flux)) (mkU (1 / 10 ^ 9) d_energy) false
    = Ok [(1, None)].
Proof.
  intros interp F M NA. assert (Q9 : 0 < 10 ^ 9) by (apply pow_lt; lra). split.
  - unfold residuals, sed_conversion, qto, obind. cbn -[pow]. cbv zeta.
    unfold allclose. cbn -[pow]. destruct (Rle_dec _ _) as [H|H].
    + cbn -[pow]. unfold residual_group, sed_conversion, qto, obind, qsum. cbn -[pow]. f_equal. f_equal. f_equal; [field; lra|]. f_equal. field.
    + exfalso. apply H. replace (1 / 10 ^ 9 - 5 / 10 ^ 9 * (1 / 1)) with (- (4 / 10 ^ 9)) by (field; lra).
      rewrite Rabs_Ropp, Rabs_pos_eq by lra.
      apply Rle_trans with (/ 10 ^ 8); [lra|]. assert (0 <= / 10 ^ 5 * Rabs (5 / 10 ^ 9 * (1 / 1))) by (apply Rmult_le_pos; [lra|apply Rabs_pos]). lra.
  - set (s := 1 / 10 ^ 9). assert (S0 : 0 < s) by (unfold s; lra). clearbody s.
    unfold residuals, sed_conversion, qto, obind. cbn -[pow]. cbv zeta.
    unfold allclose. cbn -[pow]. destruct (Rle_dec _ _) as [H|H].
    + exfalso. revert H. replace (5 * (s / s)) with 5 by (field; lra). replace (1 - 5) with (- (4)) by ring.
      rewrite Rabs_Ropp, !Rabs_pos_eq by lra. lra.
    + cbn -[pow]. unfold residual_group, sed_conversion, qto, obind, qsum. cbn -[pow].
      match goal with |- context [interp [?a] [?b] ?c] => replace a with 5 by (field; lra); replace b with M by (field; lra); replace c with 1 by (field; lra) end.
      rewrite NA. reflexivity.
Qed.
Print Assumptions C88_wrong_energy_refuted.
