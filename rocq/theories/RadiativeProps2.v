(** C65: with bounds in increasing order. *)
From Coq Require Import Reals ZArith List Lra Lia.
From Verif Require Import Outcome TrapzModel TrapzSpec EnergyModel EnergyProofs SpectralModel FluxModel RadiativeProps.
Import ListNotations.
Local Open Scope R_scope.

(** The energy content of a positive distribution is positive, and setting it to a
    positive value keeps the sign of the amplitude. *)
Theorem C65_ordered_bounds_partial : forall m nd W smin smax lo hi named fresh h d,
  0 < m -> 0 < W -> 0 < smin -> 0 < smax ->
  let a := match lo with Some x => x | None => smin end in
  let b := match hi with Some x => x | None => smax end in
  0 < a < b -> 0 < h (amplitude d) -> (forall E, a <= E <= b -> 0 < as_function h d E) ->
  let We pd := compute_We m nd pd smin smax lo hi in
  let Wp pd := compute_Wp m nd pd smin smax lo hi in
  0 < We (as_function h d) /\ 0 < Wp (as_function h d) /\
  (let (h', d') := set_energy We named fresh h d W in 0 < h' (amplitude d')) /\
  (let (h', d') := set_energy Wp named fresh h d W in 0 < h' (amplitude d')).
Proof.
  intros m nd W smin smax lo hi named fresh h d Hm HW H1 H2 a b Hab HA HP We Wp'.
  assert (EP : forall pd, Wp' pd = We pd).
  { intros pd. unfold Wp', We. rewrite compute_Wp_as_We; [reflexivity|assumption|assumption|assumption| |].
    - intros x ->. unfold a in Hab. lra.
    - intros x ->. unfold b in Hab. lra. }
  assert (EW : forall pd, We pd = electron_energy m pd (gam m nd a b)).
  { intros pd. unfold We, compute_We, a, b. destruct lo, hi; reflexivity. }
  assert (P : 0 < We (as_function h d)) by (rewrite EW; apply electron_energy_pos; auto; lra).
  assert (HS : forall hh x v, hset hh x v x = v) by (intros; unfold hset; now rewrite Nat.eqb_refl).
  split; [exact P|]. split; [rewrite EP; exact P|].
  assert (Q : 0 < h (amplitude d) * (W / We (as_function h d))) by (apply Rmult_lt_0_compat; [exact HA|apply Rdiv_lt_0_compat; assumption]).
  split; unfold set_energy; destruct named; cbn [amplitude]; rewrite HS, ?EP; exact Q.
Qed.
Print Assumptions C65_ordered_bounds_partial.
Example C65_example : let d := mkDist 0 (fun A E => power_law E A 1 2) in let h := fun _ : nat => 5 in
  0 < h (amplitude d) /\ (forall E, 1 <= E <= 10 -> 0 < as_function h d E).
Proof. split; [lra|]. apply C17_example. Qed.
