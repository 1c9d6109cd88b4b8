(** Properties of the interactive fitter: C60, C83, C84. *)
From Coq Require Import Reals List Bool String Arith Lra Lia.
From Verif Require Import Outcome SimplexModel AnalysisModel FitterModel CoreModel.
Import ListNotations.
Local Open Scope R_scope.

(** ** C60 *)
Section C60.
  Context {C T : Type}.
  Variables (curve : list R -> outcome C) (like : list R -> outcome T) (fit : list R -> outcome (list R * bool)).
  Notation step := (step C T curve like fit). Notation update := (update C T curve like). Notation run := (run_events C T curve like fit).
  (** the line drawn and the log-likelihood shown are those of parameters [p] *)
  Definition shows (hasdata : bool) (s : st C T) (p : list R) : Prop :=
    curve p = Ok (line s) /\ if hasdata then exists t, text s = Some t /\ like p = Ok t else text s = None.
  (** a slider is moved while auto-update is off *)
  Fixpoint blind_move (hd : bool) (s : st C T) (es : list event) : Prop :=
    match es with
    | [] => False
    | e :: r => (exists i v, e = Move i v) /\ auto s = false \/ blind_move hd (fst (step hd s e)) r
    end.
  Definition total {A B} (f : A -> outcome B) : Prop := forall a, exists b, f a = Ok b.
  Definition same_length (f : list R -> outcome (list R * bool)) : Prop := forall p q b, f p = Ok (q, b) -> List.length q = List.length p.

  Lemma update_ok hd s : total curve -> total like -> (hd = false -> text s = None) ->
    exists s', update hd s = (s', None) /\ vals s' = vals s /\ pars s' = vals s /\ auto s' = auto s /\ is_ml s' = false /\ ranges s' = ranges s /\ shows hd s' (vals s).
  Proof.
    intros TC TL TX. destruct (TC (vals s)) as (c & EC). destruct (TL (vals s)) as (t & ET). unfold FitterModel.update. rewrite EC.
    destruct hd; [rewrite ET|]; eexists; (split; [reflexivity|]); repeat (split; [reflexivity|]); unfold shows; cbn [line text].
    - split; [exact EC|]. exists t. auto.
    - split; [exact EC|]. apply TX; reflexivity.
  Qed.
  Lemma set_vals_all vs ps : List.length ps = List.length vs -> set_vals vs ps = ps.
  Proof. revert ps. induction vs as [|v vs IH]; intros [|p ps] H; cbn in *; try discriminate; auto. f_equal. apply IH. congruence. Qed.
  Lemma shows_text hd s p : shows hd s p -> hd = false -> text s = None.
  Proof. intros (_ & H) ->. exact H. Qed.

  (** The displayed model is always that of the current slider positions, unless a slider
      was moved with auto-update off. *)
  Theorem C60_display_follows_sliders : forall hd s es, total curve -> total like -> total fit -> same_length fit ->
    shows hd s (vals s) -> ~ blind_move hd s es -> let s' := run hd s es in shows hd s' (vals s').
  Proof.
    intros hd s es TC TL TF SL H NB. cbv zeta. revert s H NB. induction es as [|e es IH]; intros s H NB; [exact H|].
    cbn [run_events fold_left]. cbn [blind_move] in NB.
    change (fold_left (fun s e => fst (step hd s e)) es (fst (step hd s e))) with (run hd (fst (step hd s e)) es).
    apply IH; [|tauto]. destruct e as [i v| | |]; cbn [FitterModel.step].
    - destruct (Nat.ltb i (List.length (vals s)) && _)%bool; [|exact H].
      destruct (auto s) eqn:AU; [|exfalso; apply NB; left; split; [exists i, v; reflexivity|reflexivity]].
      match goal with |- context [FitterModel.update _ _ _ _ _ ?x] => destruct (update_ok hd x TC TL) as (s' & E & V & _ & _ & _ & _ & SH); [apply (shows_text hd s _ H)|] end.
      rewrite E. cbn [fst]. rewrite V. exact SH.
    - exact H.
    - destruct (update_ok hd s TC TL (shows_text hd s _ H)) as (s' & E & V & _ & _ & _ & _ & SH). rewrite E. cbn [fst]. rewrite V. exact SH.
    - destruct hd; [|exact H]. unfold FitterModel.do_fit. destruct (TF (vals s)) as ((p & ok) & EF). rewrite EF. destruct ok; [|exact H].
      rewrite (set_vals_all (vals s) p) by (apply (SL _ _ _ EF)).
      match goal with |- context [FitterModel.update _ _ _ _ _ ?x] => destruct (update_ok true x TC TL ltac:(discriminate)) as (s' & E & V & _ & _ & _ & _ & SH) end.
      rewrite E. cbn [fst]. unfold shows in *. cbn [line text vals] in *. rewrite V. exact SH.
  Qed.

  (** Whenever the parameters are flagged as the maximum-likelihood ones, they are the
      outcome of a successful fit, and they are the ones displayed; whatever happened
      before. *)
  Theorem C60_ml_flag : forall hd s es, total curve -> total like -> total fit -> same_length fit ->
    is_ml s = false -> (hd = false -> text s = None) -> let s' := run hd s es in is_ml s' = true ->
    exists q, fit q = Ok (pars s', true) /\ shows hd s' (pars s').
  Proof.
    intros hd s es TC TL TF SL ML TX. cbv zeta.
    assert (G : forall s, (hd = false -> text s = None) -> (is_ml s = true -> exists q, fit q = Ok (pars s, true) /\ shows hd s (pars s)) ->
                is_ml (run hd s es) = true -> exists q, fit q = Ok (pars (run hd s es), true) /\ shows hd (run hd s es) (pars (run hd s es))).
    2:{ apply G; [exact TX|]. rewrite ML. discriminate. }
    clear s ML TX. induction es as [|e es IH]; intros s TX H; [exact H|]. cbn [run_events fold_left].
    change (fold_left (fun s e => fst (step hd s e)) es (fst (step hd s e))) with (run hd (fst (step hd s e)) es).
    assert (UP : forall x, (hd = false -> text x = None) -> let x' := fst (update hd x) in (hd = false -> text x' = None) /\ is_ml x' = false).
    { intros x X. destruct (update_ok hd x TC TL X) as (s' & E & _ & _ & _ & M & _ & SH). rewrite E. cbn [fst]. split; [|exact M]. apply (shows_text hd s' _ SH). }
    assert (K : (hd = false -> text (fst (step hd s e)) = None) /\ (is_ml (fst (step hd s e)) = true -> exists q, fit q = Ok (pars (fst (step hd s e)), true) /\ shows hd (fst (step hd s e)) (pars (fst (step hd s e))))).
    { destruct e as [i v| | |]; cbn [FitterModel.step].
      - destruct (Nat.ltb i (List.length (vals s)) && _)%bool; [|auto]. destruct (auto s) eqn:AU; [|cbn [fst]; split; [exact TX|exact H]].
        match goal with |- context [FitterModel.update _ _ _ _ _ ?x] => destruct (UP x TX) as (U1 & U2) end.
        split; [exact U1|]. rewrite U2. discriminate.
      - split; [exact TX|exact H].
      - destruct (UP s TX) as (U1 & U2). split; [exact U1|]. rewrite U2. discriminate.
      - destruct hd; [|split; [exact TX|exact H]]. split; [discriminate|]. unfold FitterModel.do_fit. destruct (TF (vals s)) as ((p & ok) & EF). rewrite EF. destruct ok; [|cbn; discriminate].
        rewrite (set_vals_all (vals s) p) by (apply (SL _ _ _ EF)).
        match goal with |- context [FitterModel.update _ _ _ _ _ ?x] => destruct (update_ok true x TC TL ltac:(discriminate)) as (s' & E & V & P & _ & _ & _ & SH) end.
        rewrite E. cbn [fst is_ml pars]. intros _. exists (vals s). cbn [vals] in *. rewrite P. split; [exact EF|exact SH]. }
    destruct K as (K1 & K2). apply IH; [exact K1|exact K2].
  Qed.

  (** An update whose model raises: the parameters are those of the sliders, not called
      maximum likelihood, and the display is unchanged *)
  Theorem C60_failed_update : forall hd s e, curve (vals s) = Err e ->
    let s' := run hd s [Update] in pars s' = vals s /\ vals s' = vals s /\ is_ml s' = false /\ line s' = line s /\ text s' = text s /\ auto s' = auto s.
  Proof. intros hd s e E. cbn. unfold FitterModel.update. rewrite E. cbn. auto 10. Qed.

  (** A click on the value a slider already has changes nothing: a fitted point stays the
      maximum likelihood point. *)
  Theorem C60_same_value : forall hd s i, in_bounds (nth i (ranges s) (0, 0)) (nth i (vals s) 0) = nth i (vals s) 0 ->
    run hd s [Move i (nth i (vals s) 0)] = s.
  Proof. intros hd s i E. cbn. rewrite E. destruct (Req_EM_T (nth i (vals s) 0) (nth i (vals s) 0)); [|congruence]. rewrite Bool.andb_false_r. reflexivity. Qed.

  (** Refuted (code defect): a fit that stops at the evaluation limit (the pre-fit returns
      the new point but does not call it maximum likelihood) changes the parameters handed
      to the sampler, while sliders and display keep the old ones. *)
  Theorem C134_limit_refuted : forall s p, fit (vals s) = Ok (p, false) ->
    let s' := run true s [Fit] in pars s' = p /\ vals s' = vals s /\ line s' = line s /\ text s' = text s /\ is_ml s' = false.
  Proof. intros s p E. cbn. unfold FitterModel.do_fit. rewrite E. cbn. auto. Qed.
  (** Refuted (code defect): auto-update on, and the display not of the slider positions *)
  Theorem C134_toggle_refuted : forall hd s v, vals s = [v] -> auto s = true -> forall w, in_bounds (nth 0 (ranges s) (0, 0)) w = w -> w <> v ->
    let s' := run hd s [Toggle; Move 0 w; Toggle] in auto s' = true /\ vals s' = [w] /\ line s' = line s.
  Proof.
    intros hd s v V A w IB N. cbn -[in_bounds nth]. rewrite V, A, IB. cbn. destruct (Req_EM_T w v); [contradiction|]. cbn. auto.
  Qed.
  (** Refuted (code defect): if the model raises an exception for the fitted parameters,
      auto-update stays off. *)
  Theorem C134_exception_refuted : forall s p e, fit (vals s) = Ok (p, true) -> List.length p = List.length (vals s) -> curve p = Err e ->
    let s' := run true s [Fit] in auto s' = false /\ pars s' = p.
  Proof.
    intros s p e EF L EC. cbn. unfold FitterModel.do_fit. rewrite EF, (set_vals_all _ _ L). unfold FitterModel.update. cbn [vals ranges line text auto]. rewrite EC. cbn. auto.
  Qed.
  (** Refuted (code defect): if the fit raises, slider positions never fitted keep the
      flag of an earlier fit. *)
  Theorem C134_flag_after_exception_refuted : forall s e, fit (vals s) = Err e -> is_ml s = true ->
    let s' := run true s [Fit] in is_ml s' = true /\ pars s' = vals s.
  Proof. intros s e EF ML. cbn. unfold FitterModel.do_fit. rewrite EF. cbn. auto. Qed.
End C60.

(** What the constructor sets up: the display is that of the initial parameters *)
Theorem C60_init : forall C T curve like hd p0 labels au (s : st C T), init C T curve like hd p0 labels au = Ok s ->
  pars s = p0 /\ auto s = au /\ is_ml s = false /\ shows curve like hd s p0.
Proof.
  intros C T curve like hd p0 labels au s H. unfold init in H.
  destruct (curve p0) as [c|] eqn:EC; cbn [obind] in H; [|discriminate].
  destruct hd.
  - destruct (like p0) as [t|] eqn:ET; cbn [obind] in H; [|discriminate]. inversion H; subst; clear H. cbn. repeat split; auto. exists t; auto.
  - cbn [obind] in H. inversion H; subst; clear H. cbn. repeat split; auto.
Qed.

(** a fitter whose model is its parameters and whose fit gives 7: moving, then fitting *)
Example C60_example : let ok {A} := fun p : A => Ok p in
  exists s : st (list R) (list R), init (list R) (list R) ok ok true [2] ["index"%string] true = Ok s /\
  shows ok ok true s (vals s) /\ ~ blind_move ok ok (fun _ => Ok ([7], true)) true s [Move 0 3; Fit] /\
  is_ml (run_events _ _ ok ok (fun _ => Ok ([7], true)) true s [Move 0 3; Fit]) = true /\
  line (run_events _ _ ok ok (fun _ => Ok ([7], true)) true s [Move 0 3; Fit]) = [7].
Proof.
  cbv zeta. eexists. split; [reflexivity|].
  assert (V : in_bounds (slider_range "index" 2) 2 = 2).
  { change (slider_range "index" 2) with (if Rlt_dec 0 2 then (0, 5) else (-5, 0)). destruct (Rlt_dec 0 2); [|lra]. unfold in_bounds; cbn [fst snd]. destruct (Rle_dec 2 0); [lra|]. destruct (Rle_dec 5 2); lra. }
  assert (M : in_bounds (slider_range "index" 2) 3 = 3).
  { change (slider_range "index" 2) with (if Rlt_dec 0 2 then (0, 5) else (-5, 0)). destruct (Rlt_dec 0 2); [|lra]. unfold in_bounds; cbn [fst snd]. destruct (Rle_dec 3 0); [lra|]. destruct (Rle_dec 5 3); lra. }
  cbn [combine map fst snd]. rewrite V.
  split; [split; [reflexivity|exists [2]; split; reflexivity]|].
  cbn [blind_move run_events fold_left]. unfold step. cbn [vals ranges List.length Nat.ltb Nat.leb nth]. rewrite M.
  destruct (Req_EM_T 3 2); [lra|]. cbn. split; [|split; reflexivity]. intros [(_ & H)|[((i & v & H) & _)|H]]; [discriminate|discriminate|exact H].
Qed.

(** ** C83. Sliders start at the initial parameters *)
Definition plain_label (l : string) : Prop := contains "log" l = false /\ contains "index" l = false /\ contains "alpha" l = false.
Theorem C83_initial_value_partial : forall label v,
  (contains "log" label = true -> in_bounds (slider_range label v) v = v) /\
  (plain_label label -> 0 <= v -> in_bounds (slider_range label v) v = v) /\
  (contains "log" label = false -> (contains "index" label || contains "alpha" label)%bool = true -> - 5 <= v <= 5 -> in_bounds (slider_range label v) v = v).
Proof.
  intros label v. unfold slider_range, in_bounds. split; [|split].
  - intros ->. destruct (contains "norm" label || contains "amplitude" label)%bool; cbn [fst snd];
      repeat match goal with |- context [Rle_dec ?a ?b] => destruct (Rle_dec a b) end; lra.
  - intros (-> & -> & ->) P. cbn [orb]. destruct (contains "norm" label || contains "amplitude" label)%bool; cbn [fst snd];
      repeat match goal with |- context [Rle_dec ?a ?b] => destruct (Rle_dec a b) end; lra.
  - intros -> -> B. destruct (Rlt_dec 0 v); cbn [fst snd]; repeat match goal with |- context [Rle_dec ?a ?b] => destruct (Rle_dec a b) end; lra.
Qed.
(** The ranges: four decades up and down for the logarithm of a norm, two for other
    logarithms, factors 100 and 1/100 for norms, 1/10 and 3 for others *)
Theorem C83_ranges_partial : forall label v,
  let norm := (contains "norm" label || contains "amplitude" label)%bool in
  (contains "log" label = true -> slider_range label v = if norm then (v - 4, v + 4) else (v - 2, v + 2)) /\
  (plain_label label -> slider_range label v = if norm then (v / 100, 100 * v) else (v / 10, 3 * v)) /\
  (contains "log" label = false -> (contains "index" label || contains "alpha" label)%bool = true ->
     slider_range label v = if Rlt_dec 0 v then (0, 5) else (-5, 0)).
Proof.
  intros label v norm. unfold slider_range. fold norm. split; [|split].
  - intros ->. destruct norm; reflexivity.
  - intros (-> & -> & ->). cbn [orb]. destruct norm; f_equal; ring.
  - intros -> ->. reflexivity.
Qed.
(** Refuted (code defect): a negative parameter without a log or index label starts at a
    tenth (or hundredth) of its value, because the range is reversed; an index outside
    [-5, 5] is cut to 5 or -5. *)
Theorem C83_initial_value_refuted : forall label v,
  (plain_label label -> v < 0 -> in_bounds (slider_range label v) v <> v) /\
  (contains "log" label = false -> (contains "index" label || contains "alpha" label)%bool = true ->
     (5 < v -> in_bounds (slider_range label v) v = 5) /\ (v < - 5 -> in_bounds (slider_range label v) v = -5)).
Proof.
  intros label v. unfold slider_range, in_bounds. split.
  - intros (-> & -> & ->) P. cbn [orb]. destruct (contains "norm" label || contains "amplitude" label)%bool; cbn [fst snd];
      repeat match goal with |- context [Rle_dec ?a ?b] => destruct (Rle_dec a b) end; lra.
  - intros -> ->. split; intros B; (destruct (Rlt_dec 0 v); [|]; cbn [fst snd]; repeat match goal with |- context [Rle_dec ?a ?b] => destruct (Rle_dec a b) end; lra).
Qed.
Example C83_example : plain_label "cutoff" /\ contains "log" "log10(norm)" = true /\ contains "index" "index" = true.
Proof. repeat split; reflexivity. Qed.
(** as a consequence the first slider event changes a parameter nobody touched *)
Theorem C83_untouched_parameter_refuted : exists s : st (list R) R,
  init (list R) R (fun p => Ok p) (fun _ => Ok 0) false [2; -3] ["index"; "offset"]%string true = Ok s /\
  line s = [2; -3] /\ line (run_events (list R) R (fun p => Ok p) (fun _ => Ok 0) (fun p => Ok (p, true)) false s [Move 0 3]) = [3; -3 / 10].
Proof.
  eexists. split; [reflexivity|]. split; [reflexivity|].
  cbn [run_events fold_left]. unfold step. cbn [vals ranges combine map List.length nth fst snd].
  change (slider_range "index" 2) with (if Rlt_dec 0 2 then (0, 5) else (-5, 0)).
  change (slider_range "offset" (-3)) with (-3 / 10, -3 * 3). destruct (Rlt_dec 0 2); [|lra].
  unfold in_bounds. cbn [fst snd]. destruct (Rle_dec 3 0); [lra|]. destruct (Rle_dec 5 3); [lra|]. destruct (Rle_dec 2 0); [lra|]. destruct (Rle_dec 5 2); [lra|].
  destruct (Req_EM_T 3 2); [lra|]. destruct (Rle_dec (-3) (-3 / 10)); [|lra]. reflexivity.
Qed.

(** ** C84. The walkers never start at a point the prior forbids, if the parameters given
    are allowed *)
Theorem C84_prefit_only_partial : forall nll full store srt prefit_on p0, isinf (full p0) = false ->
  isinf (full (fst (start_point None prefit_on (prefit nll full store srt) p0))) = false.
Proof.
  intros nll full store srt prefit_on p0 H. unfold start_point. destruct prefit_on; cbn [andb negb fst]; [|exact H].
  unfold prefit. cbv zeta. destruct (_ && _)%bool eqn:E; [|exact H]. cbn [fst]. apply andb_prop in E. destruct E as (_ & E).
  apply negb_true_iff in E. exact E.
Qed.
(** Refuted (code defect): the fit in the interactive window ignores the prior, and a
    successful one is used as it is, even where the prior is zero. *)
Theorem C84_interactive_refuted : forall full fitp p0 p, isinf (full p0) = false -> isinf (full p) = true ->
  forall prefit_on, start_point (Some (p, true)) prefit_on fitp p0 = (p, true) /\ isinf (full (fst (start_point (Some (p, true)) prefit_on fitp p0))) = true.
Proof. intros full fitp p0 p A B prefit_on. unfold start_point. rewrite andb_false_r. cbn [fst]. auto. Qed.
Example C84_example : exists full : list R -> ev, isinf (full [1]) = false /\ isinf (full [-1]) = true.
Proof. exists (fun p => uniform_prior (nth 0 p 0) 0 10). unfold uniform_prior. cbn [nth]. destruct (Rle_dec 0 1); [|lra]. destruct (Rle_dec 1 10); [|lra]. destruct (Rle_dec 0 (-1)); [lra|]. auto. Qed.
Print Assumptions C60_display_follows_sliders.
Print Assumptions C60_ml_flag.
Print Assumptions C134_limit_refuted.
Print Assumptions C134_toggle_refuted.
Print Assumptions C134_exception_refuted.
Print Assumptions C134_flag_after_exception_refuted.
Print Assumptions C60_init.
Print Assumptions C83_initial_value_partial.
Print Assumptions C83_initial_value_refuted.
Print Assumptions C83_untouched_parameter_refuted.
Print Assumptions C84_prefit_only_partial.
Print Assumptions C84_interactive_refuted.
