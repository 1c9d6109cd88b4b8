(** Theorems about InverseCompton.flux / sed: C08, C09, C10, C20 (per seed). *)
From Coq Require Import String List Arith Bool ZArith Reals Lia Lra.
From Verif Require Import Outcome MemoModel MemoProofs ICFluxModel ICFluxProofs.
Import ListNotations.
Local Open Scope string_scope.
Local Open Scope R_scope.

Section Props.
  Variable St : Type.
  Variable seeds : St -> list string.
  Variable contrib : St -> string -> R -> R.
  Variable key : St -> list R -> R -> string.
  Notation ic_flux := (ic_flux St seeds contrib key).
  Notation ic_sed := (ic_sed St seeds contrib key).
  Notation ic_run := (ic_run St seeds contrib key).
  Notation ic_after := (ic_after St seeds contrib key).
  (** [seed_flux st s Es d] = map (fun E => contrib st s E / dfac d) Es, the
      contribution of seed s at the requested energies. *)
  Notation seed_flux := (seed_flux St contrib).

  (** C08 refuted: flux(E1), flux(E2), flux(E1, seed=0): the third call returns
      the contribution of seed 0 at E2, for every object with a seed and every
      pair of requests with different keys. *)
  Theorem C08_stale_seed_refuted st Es1 Es2 d nm :
    nth_error (seeds st) 0 = Some nm -> key st Es1 d <> key st Es2 d ->
    nth_error (ic_run (Some true) [(st, Es1, d, NoSeed); (st, Es2, d, NoSeed); (st, Es1, d, SeedIdx 0)] ic_init) 2
    = Some (Ok (seed_flux st nm Es2 d)).
  Proof.
    intros H HK.
    assert (HN : seeds st <> []) by (destruct (seeds st); [discriminate|congruence]).
    cbn [ICFluxModel.ic_run].
    destruct (ic_flux (Some true) st Es1 d NoSeed ic_init) as [s1 o1] eqn:E1.
    pose proof (flux_fresh St seeds contrib key (Some true) st Es1 d NoSeed ic_init HN (or_intror eq_refl)) as [A1 A2].
    pose proof (flux_fresh_stored St seeds contrib key st Es1 d NoSeed ic_init HN eq_refl) as A3.
    rewrite E1 in A1, A2, A3. simpl in A1, A2, A3.
    destruct (ic_flux (Some true) st Es2 d NoSeed s1) as [s2 o2] eqn:E2.
    assert (G2 : dget (key st Es2 d) (entries (snd s1)) = None).
    { rewrite A3. simpl. destruct (String.eqb_spec (key st Es2 d) (key st Es1 d)); congruence. }
    pose proof (flux_fresh St seeds contrib key (Some true) st Es2 d NoSeed s1 HN (or_intror G2)) as [B1 B2].
    pose proof (flux_fresh_stored St seeds contrib key st Es2 d NoSeed s1 HN G2) as B3.
    rewrite E2 in B1, B2, B3. simpl in B1, B2, B3.
    destruct (ic_flux (Some true) st Es1 d (SeedIdx 0) s2) as [s3 o3] eqn:E3.
    simpl. f_equal.
    assert (G3 : dget (key st Es1 d) (entries (snd s2)) = Some (total_flux St seeds contrib st Es1 d)).
    { rewrite B3, A3. simpl. rewrite (proj2 (String.eqb_neq (key st Es2 d) (key st Es1 d))) by congruence.
      simpl. rewrite String.eqb_refl. reflexivity. }
    rewrite (flux_hit St seeds contrib key _ _ _ _ _ _ G3) in E3. apply (f_equal (@snd _ _)) in E3.
    change (select_seed St seeds st (fst s2) d (SeedIdx 0) (total_flux St seeds contrib st Es1 d) = o3) in E3.
    rewrite <- E3, B1.
    exact (select_idx St seeds contrib st Es2 d 0 nm (total_flux St seeds contrib st Es1 d) H).
  Qed.

  (** C08 partial: (a) with caching off every history of flux calls returns the
      right contribution; (b) with caching on, every history that keeps the
      attributes and the energies fixed (distances and seeds may vary) does;
      (c) after any history, a request that is not in the cache does. *)
  Theorem C08_seed_flux_partial :
    (forall en h s, en <> Some true ->
       (forall x, In x h -> seeds (fst (fst (fst x))) <> []) ->
       forall k st Es d i nm, nth_error h k = Some (st, Es, d, SeedIdx (Z.of_nat i)) ->
         nth_error (seeds st) i = Some nm ->
         nth_error (ic_run en h s) k = Some (Ok (seed_flux st nm Es d))) /\
    (forall st Es h, seeds st <> [] -> Forall (fun x => fst (fst x) = (st, Es)) h ->
       Forall2 (fun x out => let '(_, d, sd) := x in
               match sd with
               | NoSeed => True
               | SeedIdx z => forall i nm, z = Z.of_nat i -> nth_error (seeds st) i = Some nm ->
                                out = Ok (seed_flux st nm Es d)
               | SeedName nm => In nm (seeds st) -> out = Ok (seed_flux st nm Es d)
               end) h (ic_run (Some true) h ic_init)) /\
    (forall h st Es d i nm,
       let s := ic_after (Some true) h ic_init in
       dget (key st Es d) (entries (snd s)) = None ->
       nth_error (seeds st) i = Some nm ->
       snd (ic_flux (Some true) st Es d (SeedIdx (Z.of_nat i)) s) = Ok (seed_flux st nm Es d)).
  Proof.
    split; [|split].
    - intros en h s HE HN k st Es d i nm H1 H2.
      rewrite (run_disabled St seeds contrib key en h HE HN s), nth_error_map, H1. simpl. f_equal.
      apply (select_idx St seeds contrib st Es d i nm (total_flux St seeds contrib st Es d) H2).
    - intros st Es h HN HF. apply run_fixed; auto.
    - intros h st Es d i nm s HG H2.
      assert (HN : seeds st <> []) by (intros E; rewrite E in H2; destruct i; discriminate).
      destruct (flux_fresh St seeds contrib key (Some true) st Es d (SeedIdx (Z.of_nat i)) s HN (or_intror HG)) as [_ ->].
      apply select_idx; auto.
  Qed.

  (** C09. On a fresh request, asking for the total and then for each seed in
      turn gives arrays whose elementwise sum over the seeds is the total. *)
  Theorem C09_total_is_sum_of_seeds st Es d :
    seeds st <> [] ->
    let n := length (seeds st) in
    exists total rows,
      ic_run (Some true)
        ((st, Es, d, NoSeed) :: map (fun i => (st, Es, d, SeedIdx (Z.of_nat i))) (seq 0 n)) ic_init
      = Ok total :: map Ok rows /\
      length rows = n /\ length total = length Es /\
      forall j, (j < length Es)%nat -> nth j total 0 = fold_right Rplus 0 (map (fun r => nth j r 0) rows).
  Proof.
    intros HN n.
    exists (total_flux St seeds contrib st Es d), (map (fun s => seed_flux st s Es d) (seeds st)).
    assert (HLs : Forall (fun r => length r = length Es) (specic St seeds contrib st Es)).
    { unfold specic. rewrite Forall_map. apply Forall_forall. intros; apply map_length. }
    assert (HNs : specic St seeds contrib st Es <> []) by (intros E; apply specic_nil in E; auto).
    split; [|split; [apply map_length|split]].
    - cbn [ICFluxModel.ic_run].
      destruct (ic_flux (Some true) st Es d NoSeed ic_init) as [s1 o1] eqn:E1.
      pose proof (flux_fresh St seeds contrib key (Some true) st Es d NoSeed ic_init HN (or_intror eq_refl)) as [A1 A2].
      pose proof (flux_fresh_stored St seeds contrib key st Es d NoSeed ic_init HN eq_refl) as A3.
      rewrite E1 in A1, A2, A3. simpl in A1, A2, A3. subst o1. f_equal.
      assert (G : dget (key st Es d) (entries (snd s1)) = Some (total_flux St seeds contrib st Es d)).
      { rewrite A3. apply dget_dset_entries. }
      assert (HS : forall l i0, (forall k nm, nth_error l k = Some nm -> nth_error (seeds st) (i0 + k) = Some nm) ->
        ic_run (Some true) (map (fun i => (st, Es, d, SeedIdx (Z.of_nat i))) (seq i0 (length l))) s1
        = map Ok (map (fun s => seed_flux st s Es d) l)).
      { induction l as [|nm l IH]; intros i0 HI; [reflexivity|].
        cbn [length seq map ICFluxModel.ic_run].
        rewrite (flux_hit St seeds contrib key _ _ _ _ _ _ G). f_equal.
        - rewrite A1. apply (select_idx St seeds contrib st Es d i0 nm).
          rewrite <- (Nat.add_0_r i0). apply HI. reflexivity.
        - apply IH. intros k nm' Hk. replace (S i0 + k)%nat with (i0 + S k)%nat by lia. apply HI. exact Hk. }
      apply HS. auto.
    - unfold total_flux. rewrite map_length. apply length_vsum; auto.
    - intros j Hj. unfold total_flux.
      rewrite nth_map_div, (nth_vsum (length Es)) by auto.
      unfold specic. rewrite !map_map.
      assert (HD : forall l, fold_right Rplus 0 (map (fun s => nth j (map (contrib st s) Es) 0) l) / dfac d
                 = fold_right Rplus 0 (map (fun s => nth j (seed_flux st s Es d) 0) l)).
      { induction l as [|s l IH]; simpl; [unfold Rdiv; lra|]. rewrite <- IH.
        unfold ICFluxProofs.seed_flux. unfold Rdiv at 1. rewrite Rmult_plus_distr_r. f_equal.
        replace (map (fun E => contrib st s E / dfac d) Es) with (map (fun x => x / dfac d) (map (contrib st s) Es))
          by (rewrite map_map; reflexivity).
        rewrite nth_map_div. reflexivity. }
      apply HD.
  Qed.

  (** C10 refuted: seed = n (one past the end) is not rejected with ValueError
      but fails with IndexError, and seed = -1 is accepted. *)
  Theorem C10_seed_index_refuted st Es d :
    seeds st <> [] ->
    let n := Z.of_nat (length (seeds st)) in
    snd (ic_flux (Some true) st Es d (SeedIdx n) ic_init) = Err "IndexError" /\
    is_ok (snd (ic_flux (Some true) st Es d (SeedIdx (-1)) ic_init)).
  Proof.
    intros HN n.
    split.
    - destruct (flux_fresh St seeds contrib key (Some true) st Es d (SeedIdx n) ic_init HN (or_intror eq_refl)) as [_ ->].
      unfold select_seed. rewrite Z.gtb_ltb, Z.ltb_irrefl. unfold py_nth.
      destruct (Z.ltb_spec n 0); [lia|]. destruct (Z.ltb_spec n 0); [lia|].
      unfold n, specic. rewrite Nat2Z.id, nth_error_map.
      rewrite (proj2 (nth_error_None _ _)) by lia. reflexivity.
    - destruct (flux_fresh St seeds contrib key (Some true) st Es d (SeedIdx (-1)) ic_init HN (or_intror eq_refl)) as [_ ->].
      unfold select_seed, py_nth. rewrite Z.gtb_ltb.
      destruct (Z.ltb_spec (Z.of_nat (length (seeds st))) (-1)); [lia|].
      unfold specic. rewrite map_length. change ((-1 <? 0)%Z) with true. cbv iota zeta.
      assert (0 < length (seeds st))%nat by (destruct (seeds st); simpl; [congruence|lia]).
      destruct (Z.ltb_spec (-1 + Z.of_nat (length (seeds st))) 0); [lia|].
      rewrite nth_error_map.
      destruct (nth_error (seeds st) (Z.to_nat (-1 + Z.of_nat (length (seeds st))))) eqn:E.
      + simpl. eexists; reflexivity.
      + apply nth_error_None in E. lia.
  Qed.

  (** C10 partial: names are validated exactly; indices 0..n-1 are accepted and
      indices > n are rejected with ValueError. *)
  Theorem C10_seed_validation_partial st Es d :
    seeds st <> [] ->
    (forall nm, is_ok (snd (ic_flux (Some true) st Es d (SeedName nm) ic_init)) <-> In nm (seeds st)) /\
    (forall nm, ~ In nm (seeds st) ->
       snd (ic_flux (Some true) st Es d (SeedName nm) ic_init) = Err "ValueError") /\
    (forall i, (i < length (seeds st))%nat ->
       is_ok (snd (ic_flux (Some true) st Es d (SeedIdx (Z.of_nat i)) ic_init))) /\
    (forall z, (z > Z.of_nat (length (seeds st)))%Z ->
       snd (ic_flux (Some true) st Es d (SeedIdx z) ic_init) = Err "ValueError").
  Proof.
    intros HN.
    assert (HE : forall sd, snd (ic_flux (Some true) st Es d sd ic_init)
                 = select_seed St seeds st (specic St seeds contrib st Es) d sd (total_flux St seeds contrib st Es d)).
    { intros sd. apply flux_fresh; auto. }
    assert (HV : forall nm, ~ In nm (seeds st) ->
       snd (ic_flux (Some true) st Es d (SeedName nm) ic_init) = Err "ValueError").
    { intros nm H. rewrite HE. simpl. apply name_index_None in H. rewrite H. reflexivity. }
    repeat split.
    - intros [x Hx]. destruct (in_dec string_dec nm (seeds st)) as [I|I]; auto. rewrite HV in Hx by auto. discriminate.
    - intros H. rewrite HE, (select_name St seeds contrib) by auto. eexists; reflexivity.
    - exact HV.
    - intros i Hi. rewrite HE. destruct (nth_error (seeds st) i) as [nm|] eqn:E.
      + rewrite (select_idx St seeds contrib st Es d i nm _ E). eexists; reflexivity.
      + apply nth_error_None in E. lia.
    - intros z Hz. rewrite HE. unfold select_seed. rewrite Z.gtb_ltb.
      destruct (Z.ltb_spec (Z.of_nat (length (seeds st))) z); [reflexivity|lia].
  Qed.

  (** C20 for InverseCompton: in any state, sed(E, d, seed) is E^2 times what
      flux(E, d, seed) returns if called instead (for a seed: right after the
      total, which is what sed itself evaluates first). *)
  Theorem C20_ic_sed_is_E2_flux en st Es d sd s :
    let s1 := fst (ic_flux en st Es d NoSeed s) in
    forall t, snd (ic_flux en st Es d NoSeed s) = Ok t ->
    snd (ic_sed en st Es d sd s) =
      omap (fun f => map (fun p => fst p * snd p ^ 2) (combine f Es))
           (match sd with NoSeed => Ok t | _ => snd (ic_flux en st Es d sd s1) end).
  Proof.
    intros s1 t H. unfold ICFluxModel.ic_sed, s1.
    assert (V : forall f, vmul f (map (fun E => E ^ 2) Es) = map (fun p => fst p * snd p ^ 2) (combine f Es)).
    { clear. induction Es as [|E Es IH]; intros [|x f]; try reflexivity. cbn [map vmul combine fst snd]. rewrite IH. reflexivity. }
    destruct (ic_flux en st Es d NoSeed s) as [s' r]. simpl in *. subst r.
    destruct sd; [cbn [snd omap]; rewrite V; reflexivity| |]; destruct (ic_flux en st Es d _ s') as [s2 [r2|e]]; cbn [snd omap]; rewrite ?V; reflexivity.
  Qed.
End Props.

(** Non-vacuity: an object with two seeds. *)
Definition ex_seeds (_ : unit) : list string := ["CMB"; "FIR"].
Definition ex_contrib (_ : unit) (s : string) (E : R) : R := if String.eqb s "CMB" then E else 2 * E.
Definition ex_key (_ : unit) (Es : list R) (_ : R) : string :=
  match Es with [] => "a" | _ => "b" end.

(** The stale result is really wrong: requests [] and [1]. *)
Example ex_C08_wrong :
  seed_flux unit ex_contrib tt "CMB" [1] 0 <> seed_flux unit ex_contrib tt "CMB" [] 0 /\
  ex_key tt [] 0 <> ex_key tt [1] 0 /\ nth_error (ex_seeds tt) 0 = Some "CMB".
Proof. repeat split; discriminate. Qed.

Print Assumptions C08_stale_seed_refuted.
Print Assumptions C08_seed_flux_partial.
Print Assumptions C09_total_is_sum_of_seeds.
Print Assumptions C10_seed_index_refuted.
Print Assumptions C10_seed_validation_partial.
Print Assumptions C20_ic_sed_is_E2_flux.
