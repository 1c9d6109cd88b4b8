(** C124: the curves drawn for a fit. *)
From Coq Require Import Reals List ZArith Bool String Arith Lra Lia.
From Verif Require Import Outcome SimplexModel UnitsModel DataModel DataSpec DataProofs DataProps DataProps2 DataProps4 AnalysisModel AnalysisProofs PlotModel2 PlotProps5 CurveModel.
Import ListNotations.
Local Open Scope R_scope.

(** ** Specification *)
(** entry [i] of what the model function returned for energies [E]: a curve (energies, values) *)
Inductive entry (E : qty) : mout -> nat -> qty -> qty -> Prop :=
| entry_plain q : entry E (MQ q) 0 E q
| entry_array l i q : nth_error l i = Some (BQ q) -> entry E (MTuple l) i E q
| entry_scalar l i v u : nth_error l i = Some (BScalar v u) -> entry E (MTuple l) i E (mkQ (map (fun _ => v) (vals E)) u)
| entry_pair l i x y : nth_error l i = Some (BSeq [x; y]) -> entry E (MTuple l) i x y.
(** [pts], read in the unit [eu] of the energy axis and in the documented unit of the other
    axis, are the points (E, F) or (E, E^2 F), or (E, F / E^2), of the curve *)
Definition shows (nu : naima_units) (eu : unit_) (sed : bool) (x y : qty) (pts : list (R * R)) : Prop :=
  List.length pts = List.length (vals x) /\ List.length pts = List.length (vals y) /\
  forall i, (i < List.length pts)%nat ->
    fst (nth i pts (0, 0)) * scale eu = phys x i /\
    snd (nth i pts (0, 0)) * scale (documented nu sed (dim (qunit y))) = phys y i * sed_factor sed (dim (qunit y)) (phys x i).
(** a curve with energies and a flux, a power or a particle distribution *)
Definition proper (x y : qty) : Prop := dim (qunit x) = d_energy /\ convertible (dim (qunit y)).
(** no walker missing *)
Definition crect {C} (r : crun C) : Prop :=
  c_steps r <> [] /\ (0 < cwalkers r)%nat /\ List.Forall (fun s => List.length s = cwalkers r) (c_steps r).
(** the chain of a fit: every sample holds what the model function gave for its parameters *)
Definition fitted {C} (r : crun C) : Prop :=
  forall s, In s (cflat r) -> exists m, c_fn r (c_par s) (c_data r) = Ok m /\ c_blob s = stored m.
Definition most_probable {C} (r : crun C) (s : csample) : Prop :=
  In s (cflat r) /\ forall s', In s' (cflat r) -> fle (c_lp s') (c_lp s) = true.

(** ** Lemmas *)
Lemma best_is {C} (r : crun C) : crect r -> List.Forall (fun s => isnan (c_lp s) = false) (cflat r) -> most_probable r (best r).
Proof.
  intros (NE & W & F) NN.
  assert (NF : cflat r <> []).
  { unfold cflat, cwalkers in *. destruct (c_steps r) as [|[|x s] l]; cbn in *; [congruence|lia|discriminate]. }
  assert (NM : map c_lp (cflat r) <> []) by (destruct (cflat r); [congruence|discriminate]).
  assert (NN' : List.Forall (fun x => isnan x = false) (map c_lp (cflat r))) by (rewrite Forall_map; exact NN).
  destruct (argmax_spec _ NM NN') as (A1 & A2 & _). rewrite map_length in *.
  unfold best. cbv zeta. set (n := argmax (map c_lp (cflat r))) in *.
  rewrite (nth_divmod cnone (cwalkers r) (c_steps r) n F A1). fold (cflat r).
  assert (E : forall m, (m < List.length (cflat r))%nat -> nth m (map c_lp (cflat r)) NaN = c_lp (nth m (cflat r) cnone)).
  { intros m Hm. rewrite (nth_indep _ NaN (c_lp cnone)) by (rewrite map_length; exact Hm). apply map_nth. }
  split; [apply nth_In, A1|]. intros s' Hs'. apply (In_nth _ _ cnone) in Hs'. destruct Hs' as (m & Lm & <-). rewrite <- !E by (auto; exact A1). apply A2, Lm.
Qed.
Lemma read_stored E m i x y : read_blob E (nth_error (stored m) i) = Ok (x, y) <-> entry E m i x y.
Proof.
  split.
  - destruct m as [q|l]; cbn [stored].
    + destruct i as [|[|i]]; cbn; try discriminate; [|destruct i; discriminate]. intros H. injection H as <- <-. constructor.
    + destruct (nth_error l i) as [[q|v u| |[|a [|b [|? ?]]]|]|] eqn:N; cbn; try discriminate; intros H; injection H as <- <-; econstructor; eassumption.
  - intros H. inversion H as [q E0|l i' q N|l i' v u N|l i' x' y' N]; subst; cbn [stored]; [reflexivity|rewrite N; reflexivity..].
Qed.
Lemma read_computed E m i x y : read_blob E (match m with MQ q => Some (BQ q) | MTuple l => nth_error l i end) = Ok (x, y) ->
  (exists q, m = MQ q /\ x = E /\ y = q) \/ entry E m i x y.
Proof.
  destruct m as [q|l].
  - cbn. intros H. injection H as <- <-. left. eauto.
  - intros H. right. apply read_stored. exact H.
Qed.
Section Th.
  Variables (Cols : Type) (nu : naima_units).
  Hypothesis NU : positive_units nu.
  Lemma line_shows eu sed x y pts : 0 < scale eu -> proper x y -> line nu eu sed (x, y) = Ok pts -> shows nu eu sed x y pts.
  Proof.
    intros EU (DX & DY) H. unfold line in H. destruct (Nat.eqb_spec (List.length (vals x)) (List.length (vals y))) as [L|L]; [|discriminate]. cbn [negb] in H.
    destruct (C50_documented_units nu x (qunit y) sed NU DY DX) as (sf & S & K). rewrite S in H. cbn [obind fst snd] in H.
    destruct (qto eu x) as [xs|] eqn:QX; cbn [obind] in H; [|discriminate].
    destruct (K y eq_refl (eq_sym L)) as (ys & QY & UY & FY). rewrite QY in H. cbn [obind] in H. injection H as <-.
    apply qto_ok in QX. destruct QX as (_ & UX & LX & PX). specialize (PX EU).
    assert (LY : List.length (vals ys) = List.length (vals x)).
    { apply qto_ok in QY. destruct QY as (_ & _ & LQ & _). rewrite LQ. cbn [qmul vals].
      assert (LS : List.length (vals sf) = List.length (vals x)).
      { revert S. unfold sed_conversion. destruct (_ || _)%bool; [|destruct (_ && _)%bool; [|destruct (_ && _)%bool; [|discriminate]]]; cbn [obind]; intros S'; injection S' as _ <-; cbn; apply map_length. }
      rewrite zipw_length; congruence. }
    assert (LC : List.length (combine (vals xs) (vals ys)) = List.length (vals x)) by (rewrite combine_length; lia).
    split; [exact LC|]. split; [lia|]. intros i Hi. rewrite LC in Hi. rewrite combine_nth by lia. cbn [fst snd]. split.
    - rewrite <- PX. unfold phys. rewrite UX. reflexivity.
    - rewrite <- FY by exact Hi. unfold phys. rewrite UY. reflexivity.
  Qed.
  Lemma line_works eu sed x y : proper x y -> dim eu = d_energy -> List.length (vals x) = List.length (vals y) -> exists pts, line nu eu sed (x, y) = Ok pts.
  Proof.
    intros (DX & DY) DE L. unfold line. rewrite L, Nat.eqb_refl. cbn [negb].
    destruct (C50_documented_units nu x (qunit y) sed NU DY DX) as (sf & S & K). rewrite S. cbn [obind fst snd].
    destruct (K y eq_refl (eq_sym L)) as (ys & QY & _). rewrite QY.
    assert (QX : exists xs, qto eu x = Ok xs). { apply qto_is_ok. rewrite DX, DE. reflexivity. }
    destruct QX as (xs & ->). cbn [obind]. eauto.
  Qed.

  (** ** The line of the best fit *)
  (** It is drawn whenever the output asked for is a curve, and shows what the model
      function gave for a most probable sample of the chain. *)
  Theorem C124_best_fit : forall (r : crun Cols) idx n eu sed, crect r -> List.Forall (fun s => isnan (c_lp s) = false) (cflat r) -> fitted r ->
    dim eu = d_energy -> 0 < scale eu ->
    exists s m, most_probable r s /\ c_fn r (c_par s) (c_data r) = Ok m /\
      (forall x y, entry (v_energy (c_data r)) m idx x y -> proper x y ->
        (List.length (vals x) = List.length (vals y) <-> exists pts, plot_ML nu r idx None n eu sed = Ok pts) /\
        (forall pts, plot_ML nu r idx None n eu sed = Ok pts -> shows nu eu sed x y pts)).
  Proof.
    intros r idx n eu sed CR NN FT DE EU. pose proof (best_is r CR NN) as B. destruct (FT _ (proj1 B)) as (m & M & ST).
    exists (best r), m. split; [exact B|]. split; [exact M|]. intros x y EN PR.
    assert (CM : calc_ML r idx None n = Ok (x, y)).
    { unfold calc_ML. rewrite ST. apply read_stored in EN. rewrite EN. reflexivity. }
    unfold plot_ML. rewrite CM. cbn [obind]. split; [|intros pts H; apply line_shows; assumption]. split.
    - intros L. apply line_works; assumption.
    - intros (pts & H). apply line_shows in H; [|assumption|assumption]. destruct H as (A & B' & _). congruence.
  Qed.

  (** With e_range it shows the model function at the parameters of a most probable sample,
      evaluated anew from one end of the range to the other. *)
  Theorem C124_recomputed : forall (r : crun Cols) idx n eu sed a b ru pts, crect r -> List.Forall (fun s => isnan (c_lp s) = false) (cflat r) -> fitted r ->
    0 < scale eu -> 0 < a < b -> (2 <= n)%nat ->
    plot_ML nu r idx (Some (a, b, ru)) n eu sed = Ok pts ->
    exists s m E F, most_probable r s /\
      List.length (vals E) = n /\ qunit E = ru /\ nth 0 (vals E) 0 = a /\ nth (Nat.pred n) (vals E) 0 = b /\
      (forall i, (S i < n)%nat -> nth i (vals E) 0 < nth (S i) (vals E) 0) /\
      c_fn r (c_par s) (mkV E F None) = Ok m /\
      forall x y, entry E m idx x y -> proper x y -> shows nu eu sed x y pts.
  Proof.
    intros r idx n eu sed a b ru pts CR NN FT EU AB N2 H. pose proof (best_is r CR NN) as B.
    unfold plot_ML, calc_ML in H. destruct (read_blob _ _) as [ml|]; cbn [obind] in H; [|discriminate].
    unfold new_view in H. destruct (dims_eqb (dim ru) d_energy); cbn [obind] in H; [|discriminate].
    destruct (c_fn r (c_par (best r)) _) as [m|] eqn:M; cbn [obind] in H; [|discriminate]. cbn [v_energy] in H.
    destruct (C104_grid a b n (proj1 AB) (proj2 AB) N2) as (G1 & G2 & G3 & G4 & _).
    exists (best r), m, (mkQ (logspace a b n) ru), (mkQ (repeat 0 n) (qunit (v_flux (c_data r)))).
    split; [exact B|]. cbn [vals qunit]. repeat (split; [assumption || reflexivity|]). intros x y EN PR.
    assert (RB : read_blob (mkQ (logspace a b n) ru) (match m with MQ q => Some (BQ q) | MTuple l => nth_error l idx end) = Ok (x, y)).
    { inversion EN as [q E0|l i q N|l i v u N|l i x' y' N]; subst; [reflexivity|rewrite N; reflexivity..]. }
    rewrite RB in H. cbn [obind] in H. apply line_shows; assumption.
  Qed.

  (** ** The lines of the samples *)
  Lemma same_unit_phys u len l : 0 < scale u -> forall l', same_unit u len l = Ok l' -> List.length l' = List.length l /\
    forall k, (k < List.length l)%nat -> let q := nth k l (mkQ [] (mkU 1 d_none)) in let q' := nth k l' (mkQ [] (mkU 1 d_none)) in
      dim (qunit q') = dim (qunit q) /\ List.length (vals q) = len /\ List.length (vals q') = len /\ forall i, phys q' i = phys q i.
  Proof.
    intros U. induction l as [|q l IH]; intros l' H; cbn in H; [injection H as <-; split; [reflexivity|intros k Hk; cbn in Hk; lia]|].
    destruct (Nat.eqb_spec (List.length (vals q)) len) as [L|]; [|discriminate]. destruct (qto u q) as [q'|] eqn:Q; cbn [obind] in H; [|discriminate].
    destruct (same_unit u len l) as [r|] eqn:S; cbn [obind] in H; [|discriminate]. injection H as <-. destruct (IH r eq_refl) as (A & B).
    split; [cbn; congruence|]. intros [|k] Hk; cbn [nth].
    - apply qto_ok in Q. destruct Q as (Q1 & Q2 & Q3 & Q4). rewrite Q2. split; [congruence|]. split; [exact L|]. split; [congruence|]. apply Q4, U.
    - apply B. cbn in Hk. lia.
  Qed.
  Lemma gather_nth get idx blobs : forall l, gather get idx blobs = Ok l -> List.length l = List.length blobs /\
    forall k, (k < List.length blobs)%nat -> exists it, nth_error (nth k blobs []) idx = Some it /\ get it = Ok (nth k l (mkQ [] (mkU 1 d_none))).
  Proof.
    induction blobs as [|b blobs IH]; intros l H; cbn in H; [injection H as <-; split; [reflexivity|intros k Hk; cbn in Hk; lia]|].
    destruct (nth_error b idx) as [it|] eqn:N; [|discriminate]. destruct (get it) as [q|] eqn:G; cbn [obind] in H; [|discriminate].
    destruct (gather get idx blobs) as [r|]; cbn [obind] in H; [|discriminate]. injection H as <-. destruct (IH r eq_refl) as (A & B).
    split; [cbn; congruence|]. intros [|k] Hk; cbn [nth]; [eauto|]. apply B. cbn in Hk. lia.
  Qed.
  Lemma lines_nth eu sed x ys : forall ls, lines nu eu sed x ys = Ok ls -> List.length ls = List.length ys /\
    forall k, (k < List.length ys)%nat -> line nu eu sed (x, nth k ys (mkQ [] (mkU 1 d_none))) = Ok (nth k ls []).
  Proof.
    induction ys as [|y ys IH]; intros ls H; cbn [lines] in H; [injection H as <-; split; [reflexivity|intros k Hk; cbn in Hk; lia]|].
    destruct (line nu eu sed (x, y)) as [l|] eqn:L; cbn [obind] in H; [|discriminate]. destruct (lines nu eu sed x ys) as [r|]; cbn [obind] in H; [|discriminate].
    injection H as <-. destruct (IH r eq_refl) as (A & B). split; [cbn; congruence|]. intros [|k] Hk; cbn [nth]; [exact L|]. apply B. cbn in Hk. lia.
  Qed.

  Notation q0 := (mkQ [] (mkU 1 d_none)).
  (** the same curve, perhaps in another unit *)
  Definition same_curve (q q' : qty) : Prop := dim (qunit q') = dim (qunit q) /\ List.length (vals q') = List.length (vals q) /\ forall i, phys q' i = phys q i.
  Lemma shows_same eu sed x y y' pts : same_curve y y' -> shows nu eu sed x y' pts -> shows nu eu sed x y pts.
  Proof. intros (D & L & P) (A & B & K). split; [exact A|]. split; [congruence|]. intros i Hi. rewrite <- D, <- P. apply K, Hi. Qed.
  Lemma proper_same x y y' : same_curve y y' -> proper x y -> proper x y'.
  Proof. intros (D & _) (A & B). split; [exact A|]. rewrite D. exact B. Qed.

  (** an output that is an array or a pair of arrays, with energies and values *)
  Definition curve_in (E : qty) (b : list bitem) (idx : nat) (x y : qty) : Prop :=
    (nth_error b idx = Some (BQ y) /\ x = E) \/ nth_error b idx = Some (BSeq [x; y]).
  (** processing blobs that are curves over the common energies X *)
  Lemma process_curves E b0 blobs idx X : (exists b y0, b0 = Some b /\ curve_in E b idx X y0) ->
    (forall b, In b blobs -> exists y, curve_in E b idx X y /\ 0 < scale (qunit y)) ->
    forall X' l, process E b0 blobs idx = Ok (Some X', l) ->
    X' = X /\ List.length l = List.length blobs /\
    forall k y, (k < List.length blobs)%nat -> curve_in E (nth k blobs []) idx X y -> same_curve y (nth k l q0).
  Proof.
    intros (b & y0 & -> & R0) HB X' l H. unfold process in H.
    assert (COM : forall get l0, gather get idx blobs = Ok l0 -> as_quantity l0 = Ok l ->
      (forall k it y, (k < List.length blobs)%nat -> nth_error (nth k blobs []) idx = Some it -> get it = Ok (nth k l0 q0) -> curve_in E (nth k blobs []) idx X y -> nth k l0 q0 = y) ->
      List.length l = List.length blobs /\ forall k y, (k < List.length blobs)%nat -> curve_in E (nth k blobs []) idx X y -> same_curve y (nth k l q0)).
    { intros get l0 G AQ EQ. apply gather_nth in G. destruct G as (GL & GN).
      destruct blobs as [|b1 blobs']; [destruct l0; [|discriminate]; cbn in AQ; injection AQ as <-; split; [reflexivity|intros k y Hk; cbn in Hk; lia]|].
      set (bl := b1 :: blobs') in *. destruct l0 as [|q1 l0']; [discriminate|]. set (l0 := q1 :: l0') in *. unfold as_quantity in AQ. fold l0 in AQ. unfold l0 at 1 in AQ.
      assert (L0 : (0 < List.length bl)%nat) by (cbn; lia).
      assert (U1 : 0 < scale (qunit q1)).
      { destruct (GN 0%nat L0) as (it & N & GE). destruct (HB b1 (or_introl eq_refl)) as (y & RB & U).
        assert (E1 : nth 0 l0 q0 = y) by (apply (EQ 0%nat it y L0); [exact N|exact GE|exact RB]). cbn in E1. subst y. exact U. }
      destruct (same_unit_phys (qunit q1) (List.length (vals q1)) l0 U1 l AQ) as (SL & SN). split; [congruence|].
      intros k y Hk RB. rewrite <- GL in Hk. destruct (SN k Hk) as (S1 & S2 & S3 & S4). rewrite GL in Hk. destruct (GN k Hk) as (it & N & GE).
      assert (EY : nth k l0 q0 = y) by (apply (EQ k it y Hk N GE RB)). rewrite <- EY. split; [exact S1|]. split; [congruence|exact S4]. }
    destruct R0 as [(N0 & ->)|N0]; rewrite N0 in H.
    - destruct (Nat.eqb (List.length (vals y0)) (List.length (vals E))).
      + destruct (gather get_q idx blobs) as [l0|] eqn:G; cbn [obind] in H; [|discriminate]. destruct (as_quantity l0) as [l1|] eqn:AQ; cbn [obind] in H; [|discriminate].
        injection H as <- <-. split; [reflexivity|]. apply (COM get_q l0 G AQ). intros k it y Hk N GE [(RB & _)|RB]; rewrite RB in N; injection N as <-; cbn in GE; [congruence|discriminate].
      + destruct (Nat.eqb (List.length (vals y0)) 1); [|discriminate]. destruct (gather get_q idx blobs); cbn [obind] in H; [|discriminate]. destruct (as_quantity _); discriminate.
    - destruct (gather get_2 idx blobs) as [l0|] eqn:G; cbn [obind] in H; [|discriminate]. destruct (as_quantity l0) as [l1|] eqn:AQ; cbn [obind] in H; [|discriminate].
      injection H as <- <-. split; [reflexivity|]. apply (COM get_2 l0 G AQ). intros k it y Hk N GE [(RB & _)|RB]; rewrite RB in N; injection N as <-; cbn in GE; [discriminate|congruence].
  Qed.

  (** ** plot_samples *)
  (** [draw]s give as many indices as asked for, all in range *)
  Definition drawing (draw : nat -> nat -> list nat) : Prop := forall n k, (0 < k)%nat -> List.length (draw n k) = n /\ forall i, In i (draw n k) -> (i < k)%nat.
  Lemma lines_are draw2 eu sed ns X model ls blobs E idx : drawing draw2 -> 0 < scale eu -> (0 < List.length blobs)%nat ->
    List.length model = List.length blobs ->
    (forall b, In b blobs -> exists y, curve_in E b idx X y /\ proper X y) ->
    (forall k y, (k < List.length blobs)%nat -> curve_in E (nth k blobs []) idx X y -> same_curve y (nth k model q0)) ->
    lines nu eu sed X (map (fun i => nth i model q0) (draw2 ns (List.length model))) = Ok ls ->
    List.length ls = ns /\ forall l, In l ls -> exists b y, In b blobs /\ curve_in E b idx X y /\ shows nu eu sed X y l.
  Proof.
    intros D EU NB LM HB SC H. apply lines_nth in H. destruct H as (A & B). rewrite map_length in A, B. destruct (D ns (List.length model)) as (D1 & D2); [lia|].
    split; [congruence|]. intros l IL. apply (In_nth ls l []) in IL. destruct IL as (k & Hk & <-). rewrite A in Hk. specialize (B k Hk).
    rewrite (nth_indep _ q0 (nth 0 model q0)) in B by (rewrite map_length; exact Hk). rewrite (map_nth (fun i => nth i model q0)) in B.
    set (i := nth k (draw2 ns (List.length model)) 0%nat) in *. assert (Hi : (i < List.length blobs)%nat) by (rewrite <- LM; apply D2, nth_In, Hk).
    assert (IB : In (nth i blobs []) blobs) by (apply nth_In, Hi). destruct (HB _ IB) as (y & CY & PY). exists (nth i blobs []), y.
    split; [exact IB|]. split; [exact CY|]. specialize (SC i y Hi CY). eapply shows_same; [exact SC|]. apply line_shows; [exact EU| |exact B]. eapply proper_same; eassumption.
  Qed.
  Lemma used_flat (r : crun Cols) ls s : In s (used r ls) -> In s (cflat r).
  Proof.
    unfold used, cflat. destruct ls; [|auto]. intros H. apply in_concat. exists (last (c_steps r) []). split; [|exact H].
    destruct (c_steps r) as [|a l]; [destruct H|]. destruct (exists_last (l := a :: l) ltac:(discriminate)) as (l' & x & ->). rewrite last_last. apply in_or_app. right. left. reflexivity.
  Qed.
  Lemma used_nonempty (r : crun Cols) ls : crect r -> (0 < List.length (used r ls))%nat.
  Proof.
    intros (NE & W & F). assert (LL : (0 < List.length (last (c_steps r) []))%nat).
    { rewrite Forall_forall in F. rewrite F; [exact W|]. destruct (exists_last NE) as (l' & x & ->). rewrite last_last. apply in_or_app. right. left. reflexivity. }
    unfold used. destruct ls; [exact LL|]. unfold cflat, cwalkers in *. destruct (c_steps r) as [|[|x s] l]; cbn in *; [congruence|lia|lia].
  Qed.
  (** [n_samples] lines are drawn, each the stored curve of a sample of the last step or of
      the whole chain, if the curves of all samples have the same energies; the line of the
      best fit is that of _plot_MLmodel. *)
  Theorem C124_samples : forall draw draw2 (r : crun Cols) idx sed ns last_step n eu X ls ml, drawing draw2 -> crect r -> fitted r -> 0 < scale eu ->
    (forall s m, In s (cflat r) -> c_fn r (c_par s) (c_data r) = Ok m ->
       exists y, curve_in (v_energy (c_data r)) (stored m) idx X y /\ proper X y /\ 0 < scale (qunit y)) ->
    plot_samples nu draw draw2 r idx sed ns last_step None n eu = Ok (ls, ml) ->
    List.length ls = ns /\ plot_ML nu r idx None n eu sed = Ok ml /\
    forall l, In l ls -> exists s m y, In s (used r last_step) /\ c_fn r (c_par s) (c_data r) = Ok m /\ entry (v_energy (c_data r)) m idx X y /\ shows nu eu sed X y l.
  Proof.
    intros draw draw2 r idx sed ns last_step n eu X ls ml D CR FT EU HC H. unfold plot_samples, samples in H.
    set (E := v_energy (c_data r)) in *. set (blobs := map c_blob (used r last_step)) in *.
    destruct (process E _ blobs idx) as [[[X'|] model]|] eqn:P; cbn [obind] in H; [|discriminate|discriminate].
    destruct (lines nu eu sed X' _) as [ls'|] eqn:L; cbn [obind] in H; [|discriminate].
    destruct (plot_ML nu r idx None n eu sed) as [ml'|]; cbn [obind] in H; [|discriminate]. injection H as <- <-.
    assert (HB : forall b, In b blobs -> exists s m y, b = stored m /\ In s (used r last_step) /\ c_fn r (c_par s) (c_data r) = Ok m /\ curve_in E b idx X y /\ proper X y /\ 0 < scale (qunit y)).
    { intros b IB. apply in_map_iff in IB. destruct IB as (s & <- & IS). pose proof (used_flat _ _ _ IS) as IF. destruct (FT s IF) as (m & M & ST).
      destruct (HC s m IF M) as (y & C1 & C2 & C3). exists s, m, y. rewrite ST. auto 10. }
    assert (B0 : exists b y0, option_map c_blob (nth_error (last (c_steps r) []) 0) = Some b /\ curve_in E b idx X y0).
    { pose proof (used_nonempty r true CR) as LL. unfold used in LL. destruct (last (c_steps r) []) as [|s rest] eqn:LS; [cbn in LL; lia|]. cbn [nth_error option_map].
      assert (IF : In s (cflat r)) by (apply (used_flat r true); unfold used; rewrite LS; left; reflexivity). destruct (FT s IF) as (m & M & ST). destruct (HC s m IF M) as (y & C1 & _).
      exists (c_blob s), y. split; [reflexivity|]. rewrite ST. exact C1. }
    destruct (process_curves E _ blobs idx X B0 ltac:(intros b IB; destruct (HB b IB) as (s & m & y & _ & _ & _ & C1 & _ & C3); eauto) X' model P) as (-> & LM & SC).
    assert (NB : (0 < List.length blobs)%nat) by (unfold blobs; rewrite map_length; apply used_nonempty, CR).
    destruct (lines_are draw2 eu sed ns X model ls' blobs E idx D EU NB LM ltac:(intros b IB; destruct (HB b IB) as (s & m & y & _ & _ & _ & C1 & C2 & _); eauto) SC L) as (A & B).
    split; [exact A|]. split; [reflexivity|]. intros l IL. destruct (B l IL) as (b & y & IB & CY & SH). destruct (HB b IB) as (s & m & y' & -> & IS & M & _).
    exists s, m, y. split; [exact IS|]. split; [exact M|]. split; [|exact SH]. apply read_stored. destruct CY as [(CY & ->)|CY]; rewrite CY; reflexivity.
  Qed.
  (** Recomputed: each line is what the model function gives, over the new energies, for a
      sample of the last step or of the whole chain. *)
  Lemma call_all_in (fn : modelfn Cols) v ps : forall bl, call_all fn v ps = Ok bl -> List.length bl = List.length ps /\
    forall b, In b bl -> exists p m, In p ps /\ fn p v = Ok m /\ b = match m with MQ q => [BQ q] | MTuple l => l end.
  Proof.
    induction ps as [|p ps IH]; intros bl H; cbn in H; [injection H as <-; split; [reflexivity|intros b []]|].
    destruct (fn p v) as [m|] eqn:M; cbn [obind] in H; [|discriminate]. destruct (call_all fn v ps) as [l|]; cbn [obind] in H; [|discriminate]. injection H as <-.
    destruct (IH l eq_refl) as (A & B). split; [cbn; congruence|]. intros b [<-|IB]; [exists p, m; split; [left; reflexivity|auto]|].
    destruct (B b IB) as (p' & m' & I1 & I2 & I3). exists p', m'. split; [right; exact I1|auto].
  Qed.
  Theorem C124_recomputed_samples : forall draw draw2 (r : crun Cols) idx sed ns last_step n eu a b ru X ls ml, drawing draw -> drawing draw2 -> crect r -> 0 < scale eu ->
    let E := mkQ (logspace a b n) ru in
    (forall p v m, c_fn r p v = Ok m -> v_energy v = E -> exists y, entry E m idx X y /\ (forall l w u, m = MTuple l -> nth_error l idx <> Some (BScalar w u)) /\ proper X y /\ 0 < scale (qunit y)) ->
    plot_samples nu draw draw2 r idx sed ns last_step (Some (a, b, ru)) n eu = Ok (ls, ml) ->
    List.length ls = ns /\ plot_ML nu r idx (Some (a, b, ru)) n eu sed = Ok ml /\
    forall l, In l ls -> exists s v m y, In s (used r last_step) /\ v_energy v = E /\ c_fn r (c_par s) v = Ok m /\ entry E m idx X y /\ shows nu eu sed X y l.
  Proof.
    intros draw draw2 r idx sed ns last_step n eu a b ru X ls ml D1 D2 CR EU E HC H. unfold plot_samples, samples in H.
    destruct (new_view r a b ru n) as [v|] eqn:V; cbn [obind] in H; [|discriminate].
    assert (VE : v_energy v = E). { unfold new_view in V. destruct (dims_eqb _ _); [|discriminate]. injection V as <-. reflexivity. }
    pose proof (used_nonempty r last_step CR) as LU. set (chain := used r last_step) in *.
    destruct (D1 100%nat (List.length chain) LU) as (DL & DI). set (pars := map (fun i => c_par (nth i chain cnone)) (draw 100%nat (List.length chain))) in *.
    destruct (call_all (c_fn r) v pars) as [blobs|] eqn:CA; cbn [obind] in H; [|discriminate].
    destruct (process (v_energy v) (nth_error blobs 0) blobs idx) as [[[X'|] model]|] eqn:P; cbn [obind] in H; [|discriminate|discriminate].
    destruct (lines nu eu sed X' _) as [ls'|] eqn:L; cbn [obind] in H; [|discriminate].
    destruct (plot_ML nu r idx (Some (a, b, ru)) n eu sed) as [ml'|]; cbn [obind] in H; [|discriminate]. injection H as <- <-. rewrite VE in P.
    apply call_all_in in CA. destruct CA as (CL & CI).
    assert (NB : (0 < List.length blobs)%nat) by (rewrite CL; unfold pars; rewrite map_length, DL; lia).
    assert (HB : forall bb, In bb blobs -> exists s m y, In s chain /\ c_fn r (c_par s) v = Ok m /\ bb = match m with MQ q => [BQ q] | MTuple l => l end /\ entry E m idx X y /\ curve_in E bb idx X y /\ proper X y /\ 0 < scale (qunit y)).
    { intros bb IB. destruct (CI bb IB) as (p & m & IP & M & EB). unfold pars in IP. apply in_map_iff in IP. destruct IP as (i & <- & II).
      destruct (HC _ _ m M VE) as (y & EN & NS & PR & SC). exists (nth i chain cnone), m, y. split; [apply nth_In, DI, II|]. split; [exact M|]. split; [exact EB|]. split; [exact EN|]. split; [|auto].
      rewrite EB. inversion EN as [q E0|l' i' q N|l' i' w u N|l' i' x' y' N]; subst; [left; auto|left; auto|exfalso; eapply NS; [reflexivity|eassumption]|right; exact N]. }
    assert (B0 : exists bb y0, nth_error blobs 0 = Some bb /\ curve_in E bb idx X y0).
    { destruct blobs as [|bb rest]; [cbn in NB; lia|]. destruct (HB bb (or_introl eq_refl)) as (s & m & y & _ & _ & _ & _ & CU & _). exists bb, y. split; [reflexivity|exact CU]. }
    destruct (process_curves E _ blobs idx X B0 ltac:(intros bb IB; destruct (HB bb IB) as (s & m & y & _ & _ & _ & _ & C1 & _ & C3); eauto) X' model P) as (-> & LM & SC).
    destruct (lines_are draw2 eu sed ns X model ls' blobs E idx D2 EU NB LM ltac:(intros bb IB; destruct (HB bb IB) as (s & m & y & _ & _ & _ & _ & C1 & C2 & _); eauto) SC L) as (A & B).
    split; [exact A|]. split; [reflexivity|]. intros l IL. destruct (B l IL) as (bb & y & IB & CY & SH). destruct (HB bb IB) as (s & m & y' & IS & M & EB & EN & CU & _).
    exists s, v, m, y. split; [exact IS|]. split; [exact VE|]. split; [exact M|]. split; [|exact SH].
    assert (EY : y = y'). { destruct CY as [(CY & _)|CY], CU as [(CU & _)|CU]; congruence. } subst y'. exact EN.
  Qed.

  (** ** plot_blob *)
  (** Scalars become a distribution of all the values, also if the samples give them in
      different units; curves become a fit. *)
  Theorem C124_blob : forall (r : crun Cols) idx last_step, crect r ->
    ((forall s, In s (cflat r) -> exists v u, nth_error (c_blob s) idx = Some (BScalar v u) /\ 0 < scale u) -> List.length (vals (v_energy (c_data r))) <> 1%nat ->
       forall d, (forall s v u, In s (cflat r) -> nth_error (c_blob s) idx = Some (BScalar v u) -> dim u = d) ->
       exists l, plot_blob r idx last_step = Ok (Distribution l) /\ List.length l = List.length (used r last_step) /\
         forall k v u, (k < List.length (used r last_step))%nat -> nth_error (c_blob (nth k (used r last_step) cnone)) idx = Some (BScalar v u) -> phys (nth k l q0) 0 = v * scale u) /\
    (forall s, nth_error (last (c_steps r) []) 0 = Some s ->
       (exists q, nth_error (c_blob s) idx = Some (BQ q) /\ List.length (vals q) = List.length (vals (v_energy (c_data r)))) \/ (exists x y, nth_error (c_blob s) idx = Some (BSeq [x; y])) ->
       forall g, plot_blob r idx last_step = Ok g -> g = Fit).
  Proof.
    intros r idx last_step CR. split.
    - intros HS NE d HD. unfold plot_blob, process.
      pose proof (used_nonempty r true CR) as LL. unfold used in LL. destruct (last (c_steps r) []) as [|s0 rest] eqn:LS; [cbn in LL; lia|]. cbn [nth_error option_map].
      assert (I0 : In s0 (cflat r)) by (apply (used_flat r true); unfold used; rewrite LS; left; reflexivity).
      destruct (HS s0 I0) as (v0 & u0 & N0 & P0). rewrite N0.
      assert (G : exists l0, gather get_q idx (map c_blob (used r last_step)) = Ok l0).
      { assert (HU : forall s, In s (used r last_step) -> In s (cflat r)) by (intros; eapply used_flat; eassumption). revert HU. generalize (used r last_step) as us. induction us as [|s us IH]; intros HU; [exists []; reflexivity|].
        destruct IH as (l0 & E0); [intros; apply HU; right; assumption|]. destruct (HS s (HU s (or_introl eq_refl))) as (v & u & N & _). cbn [map gather]. rewrite N. cbn [get_q obind]. rewrite E0. eexists. reflexivity. }
      destruct G as (l0 & G). rewrite G. cbn [obind]. apply gather_nth in G. rewrite map_length in G. destruct G as (GL & GN).
      assert (LU : (0 < List.length (used r last_step))%nat) by (apply used_nonempty, CR).
      assert (AT : forall k, (k < List.length (used r last_step))%nat -> exists v u, nth_error (c_blob (nth k (used r last_step) cnone)) idx = Some (BScalar v u) /\ 0 < scale u /\ dim u = d /\ nth k l0 q0 = mkQ [v] u).
      { intros k Hk. assert (IK : In (nth k (used r last_step) cnone) (cflat r)) by (eapply used_flat, nth_In, Hk). destruct (HS _ IK) as (v & u & N & U). exists v, u. split; [exact N|]. split; [exact U|].
        split; [eapply HD; eassumption|]. destruct (GN k Hk) as (it & N' & GE).
        rewrite (nth_indep _ [] (c_blob cnone)) in N' by (rewrite map_length; exact Hk). rewrite map_nth in N'. rewrite N in N'. injection N' as <-. cbn in GE. congruence. }
      destruct (AT 0%nat LU) as (v1 & u1 & _ & P1 & D1 & E1).
      assert (SU : forall l, (forall q, In q l -> exists v u, q = mkQ [v] u /\ dim u = d) -> exists l', same_unit u1 1 l = Ok l').
      { clear -D1. induction l as [|q l IH]; intros H; [exists []; reflexivity|]. destruct (H q (or_introl eq_refl)) as (v & u & -> & DU). cbn [same_unit vals List.length Nat.eqb].
        unfold qto. cbn [qunit dim]. rewrite DU, D1. assert (T : dims_eqb d d = true) by (apply dims_eqb_eq; reflexivity). rewrite T. cbn [obind]. destruct IH as (l' & ->); [intros; apply H; right; assumption|]. eexists. reflexivity. }
      destruct l0 as [|q1 l0']; [cbn in GL; lia|]. cbn in E1. subst q1. unfold as_quantity. cbn [vals qunit List.length].
      destruct (SU (mkQ [v1] u1 :: l0')) as (l & SL).
      { intros q IQ. apply (In_nth _ _ q0) in IQ. destruct IQ as (k & Hk & <-). rewrite GL in Hk. destruct (AT k Hk) as (v & u & _ & _ & DU & ->). eauto. }
      cbn [List.length] in SL. rewrite SL. cbn [obind]. destruct (Nat.eqb_spec (List.length (vals (v_energy (c_data r)))) 1); [contradiction|]. cbn [fst snd].
      exists l. split; [reflexivity|]. destruct (same_unit_phys u1 1 _ P1 l SL) as (SL1 & SN). split; [congruence|]. intros k v u Hk N. rewrite <- GL in Hk. destruct (SN k Hk) as (_ & _ & _ & S4). rewrite S4.
      rewrite GL in Hk. destruct (AT k Hk) as (v' & u' & N' & _ & _ & EQ). rewrite EQ. rewrite N in N'. injection N' as <- <-. reflexivity.
    - intros s NS HS g H. unfold plot_blob, process in H. rewrite NS in H. cbn [option_map] in H. destruct HS as [(q & N & LQ)|(x & y & N)]; rewrite N in H.
      + rewrite LQ, Nat.eqb_refl in H. destruct (gather _ _ _) as [l0|]; cbn [obind] in H; [|discriminate]. destruct (as_quantity l0) as [l|]; cbn [obind fst] in H; [|discriminate]. injection H as <-. reflexivity.
      + destruct (gather _ _ _) as [l0|]; cbn [obind] in H; [|discriminate]. destruct (as_quantity l0) as [l|]; cbn [obind fst] in H; [|discriminate]. injection H as <-. reflexivity.
  Qed.
End Th.

(** ** The axes without data *)
Lemma decade_ceil_ge x d : decade_ceil x = Ok (Some d) -> x <= d.
Proof.
  intros H. destruct (Rlt_dec 0 x) as [P|N].
  - destruct (decade_ceil_ok x P) as (m & E & B). rewrite E in H. injection H as <-. lra.
  - unfold decade_ceil in H. destruct (Rlt_dec x 0); [discriminate|]. destruct (Req_EM_T x 0); [discriminate|lra].
Qed.
Theorem C124_axes : forall (sed : bool) (y0 y1 : R) (pts : list (R * R)),
  let depth := if sed then 10 ^ 10 else 10 ^ 20 in
  (forall (lo : R) (hi : option R), bare_axes sed (y0, y1) pts = Ok (lo, hi) ->
     y0 <= lo /\ y1 / depth <= lo /\ (lo = y0 \/ lo = y1 / depth) /\
     forall x, hi = Some x -> forall p, In p pts -> lo < snd p -> fst p <= x) /\
  ((forall p, In p pts -> 0 < fst p) -> (exists p, In p pts /\ y0 < snd p /\ y1 / depth < snd p) -> exists lo x, bare_axes sed (y0, y1) pts = Ok (lo, Some x)).
Proof.
  intros sed y0 y1 pts depth. unfold bare_axes. cbn [fst snd]. replace (10 ^ (if sed then 10 else 20)) with depth by (unfold depth; destruct sed; reflexivity).
  set (ymin := Rmax y0 (y1 / depth)). set (f := fun p : R * R => if Rlt_dec ymin (snd p) then true else false).
  assert (LMX : forall l d, d <= lmax l d /\ forall x, In x l -> x <= lmax l d).
  { clear. induction l as [|a l IH]; intros d; cbn [lmax]; [split; [lra|intros x []]|]. destruct (IH (Rmax d a)) as (A & B). split; [eapply Rle_trans; [apply Rmax_l|exact A]|].
    intros x [<-|I1]; [eapply Rle_trans; [apply Rmax_r|exact A]|apply B, I1]. }
  split.
  - intros lo hi H. destruct (filter f pts) as [|p rest] eqn:F; [discriminate|]. destruct (decade_ceil _) as [x|] eqn:DC; cbn [obind] in H; [|discriminate]. injection H as <- <-.
    split; [apply Rmax_l|]. split; [apply Rmax_r|]. split; [unfold ymin, Rmax; destruct (Rle_dec _ _); auto|]. intros x' -> p' IP HP.
    assert (IF : In p' (p :: rest)). { rewrite <- F. apply filter_In. split; [exact IP|]. unfold f. destruct (Rlt_dec ymin (snd p')); [reflexivity|contradiction]. }
    destruct (LMX (map fst rest) (fst p)) as (A & B).
    assert (LE : fst p' <= lmax (map fst rest) (fst p)). { destruct IF as [<-|IF]; [exact A|apply B, in_map, IF]. }
    eapply Rle_trans; [exact LE|]. eapply decade_ceil_ge, DC.
  - intros HP (p & IP & Y0 & Y1).
    destruct (filter f pts) as [|p1 rest] eqn:F.
    + exfalso. assert (IF : In p (filter f pts)). { apply filter_In. split; [exact IP|]. unfold f. destruct (Rlt_dec ymin (snd p)) as [|N]; [reflexivity|]. exfalso. apply N. apply Rmax_lub_lt; assumption. }
      rewrite F in IF. destruct IF.
    + destruct (LMX (map fst rest) (fst p1)) as (A & _). assert (P1 : 0 < fst p1). { apply HP. apply (filter_In f). rewrite F. left. reflexivity. }
      unfold decade_ceil. destruct (Rlt_dec _ 0); [lra|]. destruct (Req_EM_T _ 0); [lra|]. cbn [obind]. eauto.
Qed.

(** ** Refutations *)
(** Outputs given as (energies, values) with energies that depend on the parameters: the
    lines of the samples are drawn at the energies of the first walker of the last step. *)
Definition ener : unit_ := mkU 1 d_energy.
Definition dfl : unit_ := mkU 1 d_diff_flux.
Definition E2 : qty := mkQ [1; 2] ener.
Definition moving : modelfn unit := fun p _ => match p with [e] => Ok (MTuple [BSeq [mkQ [e] ener; mkQ [e] dfl]]) | _ => Err "ValueError" end.
Definition moving_view : view unit := mkV E2 (mkQ [1; 1] dfl) (Some tt).
Definition moving_run : crun unit :=
  mkR [[mkC [1] (Fin (-2)) [BSeq [mkQ [1] ener; mkQ [1] dfl]]; mkC [2] (Fin (-1)) [BSeq [mkQ [2] ener; mkQ [2] dfl]]]] moving moving_view.
Lemma moving_ok : crect moving_run /\ List.Forall (fun s => isnan (c_lp s) = false) (cflat moving_run) /\ fitted moving_run.
Proof.
  split; [|split].
  - split; [discriminate|]. split; [cbn; lia|]. repeat constructor.
  - cbn. repeat constructor.
  - intros s IS. cbn in IS. destruct IS as [<-|[<-|[]]]; eexists; (split; [reflexivity|reflexivity]).
Qed.
Lemma dfl_proper x v : dim (qunit x) = d_energy -> proper x (mkQ v dfl).
Proof. intros H. split; [exact H|]. unfold convertible, flux_like. cbn. auto 10. Qed.
Theorem C147_sample_energies_refuted :
  ~ (forall draw draw2 (r : crun unit) idx sed ns last_step n eu ls ml, drawing draw -> drawing draw2 -> crect r -> List.Forall (fun s => isnan (c_lp s) = false) (cflat r) -> fitted r ->
       dim eu = d_energy -> 0 < scale eu ->
       (forall s m, In s (cflat r) -> c_fn r (c_par s) (c_data r) = Ok m -> exists x y, entry (v_energy (c_data r)) m idx x y /\ proper x y /\ 0 < scale (qunit y)) ->
       plot_samples nu1 draw draw2 r idx sed ns last_step None n eu = Ok (ls, ml) ->
       forall l, In l ls -> exists s m x y, In s (cflat r) /\ c_fn r (c_par s) (c_data r) = Ok m /\ entry (v_energy (c_data r)) m idx x y /\ shows nu1 eu sed x y l).
Proof.
  intros H. set (dr := fun n k => repeat (Nat.pred k) n).
  assert (D : drawing dr). { intros n k Hk. unfold dr. split; [apply repeat_length|]. intros i Hi. apply repeat_spec in Hi. lia. }
  destruct moving_ok as (M1 & M2 & M3).
  assert (PR : forall e v, proper (mkQ [e] ener) (mkQ [v] dfl)) by (intros; apply dfl_proper; reflexivity).
  destruct (line_works nu1 nu1_pos ener false (mkQ [1] ener) (mkQ [2] dfl) (PR 1 2) eq_refl eq_refl) as (p1 & L1).
  destruct (line_works nu1 nu1_pos ener false (mkQ [2] ener) (mkQ [2] dfl) (PR 2 2) eq_refl eq_refl) as (p2 & L2).
  assert (BE : best moving_run = mkC [2] (Fin (-1)) [BSeq [mkQ [2] ener; mkQ [2] dfl]]).
  { pose proof (best_is moving_run M1 M2) as MP. revert MP. generalize (best moving_run). intros b (B & Q). cbn in B. destruct B as [B|[B|[]]]; [|symmetry; exact B].
    specialize (Q _ (or_intror (or_introl eq_refl))). rewrite <- B in Q. cbn in Q. destruct (Rle_dec (-1) (-2)); [lra|discriminate]. }
  assert (CQ : forall v, qto dfl (mkQ [v] dfl) = Ok (mkQ [v] dfl)) by (intros v; unfold qto; cbn; do 3 f_equal; field).
  assert (PS : plot_samples nu1 dr dr moving_run 0 false 1 true None 0 ener = Ok ([p1], p2)).
  { unfold plot_samples, samples, process. cbn [moving_run c_steps last nth_error option_map c_blob used map gather get_2 obind as_quantity same_unit vals List.length Nat.eqb qunit].
    rewrite !CQ. cbn [obind].
    unfold dr at 1. cbn [List.length Nat.pred repeat map nth lines]. rewrite L1. cbn [obind].
    unfold plot_ML, calc_ML. rewrite BE. cbn [c_blob nth_error read_blob obind]. rewrite L2. reflexivity. }
  specialize (H dr dr moving_run 0%nat false 1%nat true 0%nat ener [p1] p2 D D M1 M2 M3 eq_refl Rlt_0_1).
  assert (HC : forall s m, In s (cflat moving_run) -> c_fn moving_run (c_par s) (c_data moving_run) = Ok m -> exists x y, entry (v_energy (c_data moving_run)) m 0 x y /\ proper x y /\ 0 < scale (qunit y)).
  { intros s m IS M. cbn in IS. destruct IS as [<-|[<-|[]]]; cbn in M; injection M as <-; eexists; eexists; (split; [apply entry_pair; reflexivity|split; [apply PR|cbn; lra]]). }
  destruct (H HC PS p1 (or_introl eq_refl)) as (s & m & x & y & IS & M & EN & (_ & _ & S3)).
  apply (line_shows nu1 nu1_pos) in L1; [|exact Rlt_0_1|apply PR]. destruct L1 as (A1 & _ & A3).
  assert (Z0 : (0 < List.length p1)%nat) by (rewrite A1; cbn; lia). destruct (A3 _ Z0) as (A4 & A5), (S3 _ Z0) as (S4 & S5).
  cbn in IS. destruct IS as [<-|[<-|[]]]; cbn in M; injection M as <-; inversion EN as [|l i q N|l i v u N|l i x' y' N]; subst; cbn in N; try discriminate; injection N as <- <-.
  - assert (S6 := eq_trans (eq_sym A5) S5). unfold phys in S6. cbn in S6. lra.
  - assert (S6 := eq_trans (eq_sym A4) S4). unfold phys in S6. cbn in S6. lra.
Qed.

(** A model function that uses a column of the data other than energy and flux, as the fit
    allows, cannot be drawn over another range of energies. *)
Theorem C147_other_columns_refuted : forall Cols nu (r : crun Cols) idx sed n eu a b ru,
  (forall p v, v_cols v = None -> exists e, c_fn r p v = Err e) ->
  (exists e, plot_ML nu r idx (Some (a, b, ru)) n eu sed = Err e) /\
  (forall draw draw2 ns last_step, exists e, plot_samples nu draw draw2 r idx sed ns last_step (Some (a, b, ru)) n eu = Err e).
Proof.
  intros Cols nu r idx sed n eu a b ru H.
  assert (PM : exists e, plot_ML nu r idx (Some (a, b, ru)) n eu sed = Err e).
  { unfold plot_ML, calc_ML. destruct (read_blob _ _) as [ml|]; cbn [obind]; [|eauto]. unfold new_view. destruct (dims_eqb _ _); cbn [obind]; [|eauto].
    destruct (H (c_par (best r)) (mkV (mkQ (logspace a b n) ru) (mkQ (repeat 0 n) (qunit (v_flux (c_data r)))) None) eq_refl) as (e & ->). cbn [obind]. eauto. }
  split; [exact PM|]. intros draw draw2 ns last_step. destruct PM as (e & PM). unfold plot_samples.
  destruct (samples draw r idx last_step _ n) as [[[x|] model]|]; cbn [obind]; [|eauto|eauto].
  destruct (lines _ _ _ _ _) as [ls|]; cbn [obind]; [|eauto]. rewrite PM. cbn [obind]. eauto.
Qed.
(** such a run: the fit works and the stored curve is drawn *)
Definition coldep : modelfn unit := fun _ v => match v_cols v with Some _ => Ok (MQ (mkQ [1; 1] dfl)) | None => Err "KeyError" end.
Definition coldep_run : crun unit := mkR [[mkC [0] (Fin 0) [BQ (mkQ [1; 1] dfl); BNum]]] coldep moving_view.
Example C124_other_columns_example : crect coldep_run /\ fitted coldep_run /\ (forall p v, v_cols v = None -> exists e, c_fn coldep_run p v = Err e) /\
  (exists pts, plot_ML nu1 coldep_run 0 None 0 ener true = Ok pts /\ shows nu1 ener true E2 (mkQ [1; 1] dfl) pts).
Proof.
  assert (CR : crect coldep_run) by (split; [discriminate|split; [cbn; lia|repeat constructor]]).
  assert (FT : fitted coldep_run). { intros s IS. cbn in IS. destruct IS as [<-|[]]. eexists. split; reflexivity. }
  split; [exact CR|]. split; [exact FT|]. split; [intros p v V; cbn; unfold coldep; rewrite V; eauto|].
  assert (PR : proper E2 (mkQ [1; 1] dfl)) by (apply dfl_proper; reflexivity).
  destruct (C124_best_fit unit nu1 nu1_pos coldep_run 0 0 ener true CR ltac:(cbn; repeat constructor) FT eq_refl Rlt_0_1) as (s & m & MP & M & K).
  cbn in M. injection M as <-. destruct (K E2 (mkQ [1; 1] dfl) (entry_plain _ _) PR) as (K1 & K2). destruct (proj1 K1 eq_refl) as (pts & P). exists pts. split; [exact P|apply K2, P].
Qed.

(** Entries that a plain model function does not have: an error, as for any entry that is
    not a curve. *)
Theorem C124_no_such_output : forall Cols nu (r : crun Cols) idx n eu sed, crect r -> List.Forall (fun s => isnan (c_lp s) = false) (cflat r) -> fitted r ->
  (forall p v m x y, c_fn r p v = Ok m -> ~ entry (v_energy v) m idx x y) ->
  exists e, plot_ML nu r idx None n eu sed = Err e.
Proof.
  intros Cols nu r idx n eu sed CR NN FT H. pose proof (best_is r CR NN) as B. destruct (FT _ (proj1 B)) as (m & M & ST).
  unfold plot_ML, calc_ML. rewrite ST. destruct (read_blob (v_energy (c_data r)) (nth_error (stored m) idx)) as [[x y]|] eqn:RB; [|cbn; eauto].
  exfalso. apply read_stored in RB. eapply H; eassumption.
Qed.
(** Without any point of the curve above the bottom of the axis there is no plot. *)
Theorem C147_axes_refuted : forall (sed : bool) (y0 y1 : R) (pts : list (R * R)),
  (forall p, In p pts -> snd p <= y0 \/ snd p <= y1 / (if sed then 10 ^ 10 else 10 ^ 20)) -> exists e, bare_axes sed (y0, y1) pts = Err e.
Proof.
  intros sed y0 y1 pts H. unfold bare_axes. cbn [fst snd].
  assert (F : filter (fun p : R * R => if Rlt_dec (Rmax y0 (y1 / 10 ^ (if sed then 10 else 20))) (snd p) then true else false) pts = []).
  { clear -H. induction pts as [|p pts IH]; [reflexivity|]. cbn [filter]. destruct (Rlt_dec _ (snd p)) as [L|_]; [|apply IH; intros; apply H; right; assumption].
    exfalso. pose proof (Rmax_l y0 (y1 / 10 ^ (if sed then 10 else 20))). pose proof (Rmax_r y0 (y1 / 10 ^ (if sed then 10 else 20))).
    destruct (H p (or_introl eq_refl)) as [Q|Q]; [lra|]. destruct sed; lra. }
  rewrite F. eauto.
Qed.
(** ** A case that meets the hypotheses *)
Example C124_example : exists r : crun unit, crect r /\ List.Forall (fun s => isnan (c_lp s) = false) (cflat r) /\ fitted r /\ (2 <= List.length (cflat r))%nat /\
  (forall s m, In s (cflat r) -> c_fn r (c_par s) (c_data r) = Ok m -> exists y, curve_in (v_energy (c_data r)) (stored m) 0 E2 y /\ proper E2 y /\ 0 < scale (qunit y)).
Proof.
  exists (mkR [[mkC [1] (Fin (-2)) [BQ (mkQ [1; 2] dfl); BNum]; mkC [2] (Fin (-1)) [BQ (mkQ [2; 4] dfl); BNum]]]
            (fun p v => match p with [a] => Ok (MQ (mkQ [a; 2 * a] dfl)) | _ => Err "ValueError" end) moving_view).
  split; [split; [discriminate|split; [cbn; lia|repeat constructor]]|]. split; [cbn; repeat constructor|].
  split; [|split; [cbn; lia|]].
  - intros s IS. cbn in IS. destruct IS as [<-|[<-|[]]]; eexists; (split; [reflexivity|]); cbn; repeat f_equal; lra.
  - intros s m IS M. cbn in IS. destruct IS as [<-|[<-|[]]]; cbn in M; injection M as <-; eexists; (split; [left; split; reflexivity|]); (split; [apply dfl_proper; reflexivity|cbn; lra]).
Qed.
Print Assumptions C124_best_fit. Print Assumptions C124_recomputed. Print Assumptions C124_samples. Print Assumptions C124_recomputed_samples.
Print Assumptions C124_blob. Print Assumptions C124_axes. Print Assumptions C147_sample_energies_refuted. Print Assumptions C147_other_columns_refuted.
Print Assumptions C124_no_such_output. Print Assumptions C147_axes_refuted.
Example C124_no_such_output_example : forall p v m x y, coldep p v = Ok m -> ~ entry (v_energy v) m 1 x y.
Proof. intros p v m x y H EN. unfold coldep in H. destruct (v_cols v); [|discriminate]. injection H as <-. inversion EN. Qed.
(** scalars in two units, 1 and 1000 *)
Example C124_blob_example : exists r : crun unit, crect r /\ List.length (vals (v_energy (c_data r))) <> 1%nat /\
  (forall s, In s (cflat r) -> exists v u, nth_error (c_blob s) 1 = Some (BScalar v u) /\ 0 < scale u /\ dim u = d_energy) /\
  plot_blob r 1 false = Ok (Distribution [mkQ [3 * (1 / 1)] ener; mkQ [2 * (1000 / 1)] ener]).
Proof.
  exists (mkR [[mkC [1] (Fin (-2)) [BQ (mkQ [1; 2] dfl); BScalar 3 ener]]; [mkC [2] (Fin (-1)) [BQ (mkQ [2; 4] dfl); BScalar 2 (mkU 1000 d_energy)]]] coldep moving_view).
  split; [split; [discriminate|split; [cbn; lia|repeat constructor]]|]. split; [cbn; lia|]. split; [|reflexivity].
  intros s IS. cbn in IS. destruct IS as [<-|[<-|[]]]; cbn; do 2 eexists; (split; [reflexivity|cbn; split; [lra|reflexivity]]).
Qed.
