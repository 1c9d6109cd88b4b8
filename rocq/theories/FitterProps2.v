(** Further properties of the interactive fitter (C60) and of the starting point (C84). *)
From Coq Require Import Reals List Bool String Arith Lra Lia.
From Verif Require Import Outcome SimplexModel AnalysisModel FitterModel.
Import ListNotations.
Local Open Scope R_scope.

(** The auto-update setting is changed by the user's check box and by nothing else, as
    long as model and fit raise no exception; slider ranges never change. *)
Theorem C60_settings_kept : forall (C T : Type) curve like fit hd s es,
  (forall p, is_ok (curve p)) -> (forall p, is_ok (like p)) -> (forall p, is_ok (fit p)) ->
  let s' := run_events C T curve like fit hd s es in
  auto s' = Nat.odd (List.length (filter (fun e => match e with Toggle => true | _ => false end) es) + if auto s then 1 else 0) /\
  ranges s' = ranges s.
Proof.
  intros C T curve like fit hd s es HC HL HF. cbv zeta.
  assert (U : forall hd (x : st C T), ranges (fst (update C T curve like hd x)) = ranges x /\ auto (fst (update C T curve like hd x)) = auto x /\ snd (update C T curve like hd x) = None).
  { intros h x. unfold update. destruct (HC (vals x)) as (c & ->), (HL (vals x)) as (t & ->). destruct h; cbn; auto. }
  assert (S : forall e (x : st C T), ranges (fst (step C T curve like fit hd x e)) = ranges x /\
              auto (fst (step C T curve like fit hd x e)) = match e with Toggle => negb (auto x) | _ => auto x end).
  { intros [i v| | |] x; cbn [step].
    - destruct (_ && _)%bool; [|cbn; auto]. destruct (auto x) eqn:A; [|cbn; auto].
      destruct (U hd (mkSt (ranges x) (set_nth i (in_bounds (nth i (ranges x) (0, 0)) v) (vals x)) (pars x) true (is_ml x) (line x) (text x))) as (U1 & U2 & _). auto.
    - cbn. auto.
    - destruct (U hd x) as (U1 & U2 & _). auto.
    - destruct hd; [|cbn; auto]. unfold do_fit. destruct (HF (vals x)) as ([p [|]] & ->); [|cbn; auto].
      destruct (update C T curve like true (mkSt (ranges x) (set_vals (vals x) p) p false (is_ml x) (line x) (text x))) as [s1 o] eqn:E.
      destruct (U true (mkSt (ranges x) (set_vals (vals x) p) p false (is_ml x) (line x) (text x))) as (U1 & U2 & U3).
      rewrite E in U1, U2, U3. cbn in U1, U2, U3. subst o. cbn. auto. }
  unfold run_events. revert s. induction es as [|e es IH]; intros s; cbn [fold_left filter].
  - cbn. destruct (auto s); auto.
  - destruct (IH (fst (step C T curve like fit hd s e))) as [IA IR]. destruct (S e s) as [SR SA]. rewrite IA, IR, SR, SA. split; [|reflexivity].
    destruct e; try reflexivity. cbn [List.length Nat.add]. rewrite Nat.odd_succ, <- Nat.negb_odd.
    rewrite !Nat.odd_add. destruct (Nat.odd (List.length _)), (auto s); reflexivity.
Qed.
Print Assumptions C60_settings_kept.

(** C84: the parameters left in the interactive window are used: as they are if they are
    the result of a fit or no pre-fit is asked for, and otherwise as the start of the
    pre-fit; without the window the same holds for p0. *)
Theorem C84_start_partial : forall imf prefit_on fitp p0,
  let chosen := match imf with Some (p, _) => p | None => p0 end in
  let fitted := match imf with Some (_, ml) => ml | None => false end in
  (prefit_on = true -> fitted = false -> start_point imf prefit_on fitp p0 = fitp chosen) /\
  (prefit_on = false \/ fitted = true -> start_point imf prefit_on fitp p0 = (chosen, fitted)).
Proof.
  intros imf prefit_on fitp p0. destruct imf as [[p ml]|]; cbn; unfold start_point.
  - split; [intros -> ->; reflexivity|]. intros [ -> | -> ]; [reflexivity|]. destruct prefit_on; reflexivity.
  - split; [intros -> _; reflexivity|]. intros [ -> | H]; [reflexivity|discriminate].
Qed.
Print Assumptions C84_start_partial.
Example C84_start_example : start_point (Some ([1; 2], false)) true (fun p => (map (Rmult 2) p, true)) [5; 6] = ([2 * 1; 2 * 2], true).
Proof. reflexivity. Qed.
