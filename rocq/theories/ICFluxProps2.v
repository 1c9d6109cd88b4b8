(** C19 for InverseCompton, in total and for one seed photon field. *)
From Coq Require Import String List Arith Bool ZArith Reals Lia Lra.
From Verif Require Import Outcome MemoModel MemoProofs ICFluxModel ICFluxProofs.
Import ListNotations.
Local Open Scope string_scope.
Local Open Scope R_scope.

(** On an object that has computed nothing yet (or with the cache disabled): the flux at
    distance d, times 4 pi d^2, is the luminosity (distance 0), in total and for every
    seed photon field, by name or by number. *)
Theorem C19_ic_inverse_square : forall (St : Type) (seeds : St -> list string) contrib key en st Es d sd s,
  seeds st <> [] -> d <> 0 -> en <> Some true \/ entries (snd s) = [] ->
  sd = NoSeed \/ (exists nm, sd = SeedName nm /\ In nm (seeds st)) \/ (exists i, sd = SeedIdx (Z.of_nat i) /\ (i < length (seeds st))%nat) ->
  exists f L, snd (ic_flux St seeds contrib key en st Es d sd s) = Ok f /\
    snd (ic_flux St seeds contrib key en st Es 0 sd s) = Ok L /\ map (fun x => x * (4 * PI * d ^ 2)) f = L.
Proof.
  intros St seeds contrib key en st Es d sd s HN Hd Hen Hsd. pose proof PI_RGT_0 as HPI.
  assert (FR : forall d', en <> Some true \/ dget (key st Es d') (entries (snd s)) = None) by (intros d'; destruct Hen as [H| -> ]; auto).
  destruct (flux_fresh St seeds contrib key en st Es d sd s HN (FR d)) as [_ ->].
  destruct (flux_fresh St seeds contrib key en st Es 0 sd s HN (FR 0)) as [_ ->].
  assert (D : dfac d = 4 * PI * d ^ 2) by (unfold dfac; destruct (Req_EM_T d 0); [contradiction|reflexivity]).
  assert (D0 : dfac 0 = 1) by (unfold dfac; destruct (Req_EM_T 0 0); [reflexivity|lra]).
  assert (M : forall l, map (fun x => x * (4 * PI * d ^ 2)) (map (fun x => x / dfac d) l) = map (fun x => x / dfac 0) l).
  { intros l. rewrite D, D0, map_map. apply map_ext. intros x. field. split; [exact Hd|lra]. }
  assert (S : forall nm, map (fun x => x * (4 * PI * d ^ 2)) (seed_flux St contrib st nm Es d) = seed_flux St contrib st nm Es 0).
  { intros nm. unfold seed_flux. rewrite <- (map_map (contrib st nm) (fun x => x / dfac d)), M, map_map. reflexivity. }
  destruct Hsd as [ -> |[(nm & -> & I)|(i & -> & I)]].
  - cbn. do 2 eexists. split; [reflexivity|]. split; [reflexivity|]. apply M.
  - rewrite (select_name St seeds contrib key st Es d nm _ I), (select_name St seeds contrib key st Es 0 nm _ I). do 2 eexists. split; [reflexivity|]. split; [reflexivity|]. apply S.
  - destruct (nth_error (seeds st) i) as [nm|] eqn:E; [|apply nth_error_None in E; lia].
    rewrite (select_idx St seeds contrib st Es d i nm _ E), (select_idx St seeds contrib st Es 0 i nm _ E). do 2 eexists. split; [reflexivity|]. split; [reflexivity|]. apply S.
Qed.
Print Assumptions C19_ic_inverse_square.

Example C19_ic_example : exists f L,
  snd (ic_flux unit (fun _ => ["CMB"; "FIR"]) (fun _ s E => if String.eqb s "CMB" then E else 2 * E) (fun _ _ _ => "k") (Some true) tt [1; 2] 3 (SeedName "FIR") ic_init) = Ok f /\
  snd (ic_flux unit (fun _ => ["CMB"; "FIR"]) (fun _ s E => if String.eqb s "CMB" then E else 2 * E) (fun _ _ _ => "k") (Some true) tt [1; 2] 0 (SeedName "FIR") ic_init) = Ok L /\
  map (fun x => x * (4 * PI * 3 ^ 2)) f = L.
Proof. apply C19_ic_inverse_square; [discriminate|lra|right; reflexivity|]. right; left. exists "FIR". cbn. auto. Qed.
