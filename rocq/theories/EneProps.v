(** C114: the forms in which photon energies may be given. *)
From Coq Require Import String List Bool.
From Verif Require Import Outcome EneModel.
Import ListNotations.
Local Open Scope string_scope.

Section S.
  Variables data V : Type.
  (** A table or dict with a column [energy], and that column itself. *)
  Definition table_of (q : quantity data) : ene data := EMap (Some q).
End S.

(** A table (or dict) with an energy column and the column itself give the same
    fluxes, spectral energy distributions and model values, with the cache on
    or off. *)
Theorem C114_table_like_array : forall data V compute times_E2 eval enabled (q : quantity data),
  q_ndim q = OneD ->
  flux (V:=V) compute enabled (table_of data q) = flux compute enabled (EQuantity q) /\
  sed compute times_E2 enabled (table_of data q) = sed compute times_E2 enabled (EQuantity q) /\
  call eval (table_of data q) = call (V:=V) eval (EQuantity q).
Proof.
  intros data V compute times_E2 eval enabled [n b d] Hn. cbn in Hn. subst n.
  unfold flux, sed, call, table_of, validate_ene, validate_array, check_energy. cbn.
  destruct enabled, b; cbn; repeat split; reflexivity.
Qed.

(** Quantities of another physical type, and tables of them, are refused with
    TypeError by everything, cache on or off. *)
Theorem C114_other_dimension : forall data V compute times_E2 seed_part eval enabled seed (q : quantity data),
  q_is_energy q = false ->
  forall e, e = EQuantity q \/ e = EMap (Some q) ->
  flux (V:=V) compute enabled e = Err "TypeError" /\
  sed compute times_E2 enabled e = Err "TypeError" /\
  ic_sed compute times_E2 seed_part enabled seed e = Err "TypeError" /\
  call (V:=V) eval e = Err "TypeError".
Proof.
  intros data V compute times_E2 seed_part eval enabled seed [n b d] Hb e He. cbn in Hb. subst b.
  destruct He as [-> | ->]; unfold flux, ic_sed, sed, call, validate_ene, validate_array, check_energy; cbn;
    destruct enabled, n; cbn; repeat split; reflexivity.
Qed.

(** sed and the spectral models take anything that u.Quantity turns into an
    energy, and refuse numbers without unit and tables without energy column
    with TypeError. *)
Theorem C114_sed_and_models : forall data V compute times_E2 eval enabled,
  (forall q : quantity data, q_is_energy q = true ->
     sed (V:=V) compute times_E2 enabled (EOther (Ok q)) = sed compute times_E2 enabled (EQuantity q) /\
     call (V:=V) eval (EOther (Ok q)) = Ok (eval q)) /\
  (forall q : quantity data, q_is_energy q = false ->
     sed (V:=V) compute times_E2 enabled (EOther (Ok q)) = Err "TypeError" /\
     call (V:=V) eval (EOther (Ok q)) = Err "TypeError") /\
  sed (V:=V) (data:=data) compute times_E2 enabled (EMap None) = Err "TypeError" /\
  call (V:=V) (data:=data) eval (EMap None) = Err "TypeError".
Proof.
  intros data V compute times_E2 eval enabled. split; [|split; [|split]].
  - intros [n b d] Hb. cbn in Hb. subst b. unfold sed, call. cbn. split; reflexivity.
  - intros [n b d] Hb. cbn in Hb. subst b. unfold sed, call. cbn. split; reflexivity.
  - reflexivity.
  - reflexivity.
Qed.

(** Code defect: with the cache on, as it is by default in the radiative models,
    flux never gets to its own validation.  A table without energy column
    raises KeyError (sed raises the intended TypeError), numbers without unit
    raise AttributeError, and so does a list of quantities, which sed accepts. *)
Theorem C141_flux_refuted : forall data V (compute : quantity data -> outcome V) times_E2,
  flux compute true (EMap None) = Err "KeyError" /\
  flux compute false (EMap None) = Err "TypeError" /\
  (forall o, flux compute true (EOther o) = Err "AttributeError") /\
  (forall q, q_is_energy q = true ->
     flux compute false (EOther (Ok q)) = compute q /\
     sed compute times_E2 true (EOther (Ok q)) = omap (fun f => times_E2 f q) (compute q)).
Proof.
  intros data V compute times_E2. repeat split.
  - destruct q as [n b d]. cbn in *. subst b. reflexivity.
  - destruct q as [n b d]. cbn in *. subst b. reflexivity.
Qed.

(** Code defect: InverseCompton.sed of one seed raises TypeError for a table,
    although the same call without seed and flux of that seed work. *)
Theorem C141_ic_sed_table_refuted : forall data V compute times_E2 seed_part enabled (q : quantity data) (f g : V),
  q_ndim q = OneD -> q_is_energy q = true -> compute q = Ok f -> seed_part f = Ok g ->
  ic_sed compute times_E2 seed_part enabled true (EMap (Some q)) = Err "TypeError" /\
  ic_sed compute times_E2 seed_part enabled false (EMap (Some q)) = Ok (times_E2 f q) /\
  ic_flux compute seed_part enabled true (EMap (Some q)) = Ok g /\
  ic_sed compute times_E2 seed_part enabled true (EQuantity q) = Ok (times_E2 g q).
Proof.
  intros data V compute times_E2 seed_part enabled [n b d] f g Hn Hb Hc Hs. cbn in Hn, Hb. subst n b.
  unfold ic_sed, ic_flux, sed, flux, validate_ene, validate_array, check_energy; cbn.
  destruct enabled; cbn; rewrite Hc; cbn; rewrite ?Hs; cbn; repeat split; reflexivity.
Qed.

(** Code defect: whether a dict with a single (scalar) energy is accepted depends
    on the cache setting: flux takes it with the cache on; with the cache off, and
    always in sed and in the spectral models, it is refused. *)
Theorem C141_scalar_in_dict_refuted : forall data V compute times_E2 eval enabled (q : quantity data) (f : V),
  q_ndim q = Scalar -> q_is_energy q = true -> compute q = Ok f ->
  flux compute true (EMap (Some q)) = Ok f /\
  flux compute false (EMap (Some q)) = Err "TypeError" /\
  sed compute times_E2 enabled (EMap (Some q)) = Err "TypeError" /\
  call (V:=V) eval (EMap (Some q)) = Err "TypeError".
Proof.
  intros data V compute times_E2 eval enabled [n b d] f Hn Hb Hc. cbn in Hn, Hb. subst n b.
  unfold sed, flux, call, validate_ene, validate_array, check_energy; cbn. rewrite Hc. repeat split; reflexivity.
Qed.

(** The hypotheses are met. *)
Example C114_example :
  let q := mkQt OneD true [1; 2] in
  flux (fun q => Ok (q_data q)) true (EMap (Some q)) = Ok [1; 2] /\
  ic_sed (fun q => Ok (q_data q)) (fun l _ => l) (fun l => Ok (map S l)) true true (EQuantity q) = Ok [2; 3].
Proof. split; reflexivity. Qed.
