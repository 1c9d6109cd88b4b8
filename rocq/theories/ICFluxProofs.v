(** Lemmas about InverseCompton.flux / sed. *)
From Coq Require Import String List Arith Bool ZArith Reals Lia Lra.
From Verif Require Import Outcome MemoModel MemoProofs ICFluxModel.
Import ListNotations.
Local Open Scope string_scope.
Local Open Scope R_scope.

Lemma dget_dset_entries {V} k (v : V) c : dget k (entries (store k v c)) = Some v.
Proof. unfold store; simpl. apply dget_dset_same. Qed.

Lemma nth_vadd a b j : (j < length a)%nat -> length a = length b -> nth j (vadd a b) 0 = nth j a 0 + nth j b 0.
Proof.
  revert b j. induction a; destruct b; simpl; intros j H HL; try lia.
  destruct j; [reflexivity|]. apply IHa; lia.
Qed.
Lemma length_vadd a b : length a = length b -> length (vadd a b) = length a.
Proof. revert b; induction a; destruct b; simpl; intros; try lia. rewrite IHa; lia. Qed.
Lemma length_vsum n rows : rows <> [] -> Forall (fun r => length r = n) rows -> length (vsum rows) = n.
Proof.
  induction rows as [|r rest IH]; intros HN HF; [congruence|]. inversion HF; subst.
  destruct rest; [reflexivity|]. change (vsum (r :: l :: rest)) with (vadd r (vsum (l :: rest))).
  rewrite length_vadd; auto. rewrite IH; auto. discriminate.
Qed.
Lemma nth_vsum n rows j : Forall (fun r => length r = n) rows -> (j < n)%nat ->
  nth j (vsum rows) 0 = fold_right Rplus 0 (map (fun r => nth j r 0) rows).
Proof.
  induction rows as [|r rest IH]; intros HF HJ; [destruct j; reflexivity|]. inversion HF; subst.
  destruct rest as [|r' rest]; [simpl; lra|].
  change (vsum (r :: r' :: rest)) with (vadd r (vsum (r' :: rest))).
  change (map (fun r0 => nth j r0 0) (r :: r' :: rest)) with (nth j r 0 :: map (fun r0 => nth j r0 0) (r' :: rest)).
  simpl (fold_right _ _ (_ :: _)). rewrite nth_vadd; auto.
  - rewrite IH; auto.
  - symmetry. apply length_vsum; auto. discriminate.
Qed.

Lemma nth_map_div l c j : nth j (map (fun x => x / c) l) 0 = nth j l 0 / c.
Proof.
  revert j; induction l; intros [|j]; simpl; auto; unfold Rdiv; try lra.
Qed.

Section Props.
  Variable St : Type.
  Variable seeds : St -> list string.
  Variable contrib : St -> string -> R -> R.
  Variable key : St -> list R -> R -> string.
  Notation ic_flux := (ic_flux St seeds contrib key).
  Notation ic_sed := (ic_sed St seeds contrib key).
  Notation ic_run := (ic_run St seeds contrib key).
  Notation ic_after := (ic_after St seeds contrib key).
  Notation specic := (specic St seeds contrib).

  (** What flux(E, d, seed=s) should be. *)
  Definition seed_flux (st : St) (s : string) (Es : list R) (d : R) : list R :=
    map (fun E => contrib st s E / dfac d) Es.

  Lemma specic_nth st Es i s : nth_error (seeds st) i = Some s ->
    py_nth (specic st Es) (Z.of_nat i) = Ok (map (contrib st s) Es).
  Proof.
    intros H. unfold py_nth. destruct (Z.ltb_spec (Z.of_nat i) 0); [lia|].
    destruct (Z.ltb_spec (Z.of_nat i) 0); [lia|]. rewrite Nat2Z.id.
    unfold ICFluxModel.specic. rewrite nth_error_map, H. reflexivity.
  Qed.

  Lemma select_idx st Es d i s t : nth_error (seeds st) i = Some s ->
    select_seed St seeds st (specic st Es) d (SeedIdx (Z.of_nat i)) t = Ok (seed_flux st s Es d).
  Proof.
    intros H. assert (i < length (seeds st))%nat by (apply nth_error_Some; congruence).
    unfold select_seed. rewrite Z.gtb_ltb. destruct (Z.ltb_spec (Z.of_nat (length (seeds st))) (Z.of_nat i)); [lia|].
    rewrite (specic_nth _ _ _ _ H). simpl. unfold seed_flux. rewrite map_map. reflexivity.
  Qed.

  Lemma name_index_nth s names i : name_index s names = Some i -> nth_error names i = Some s.
  Proof.
    revert i. induction names as [|n r IH]; simpl; intros i; [discriminate|].
    destruct (String.eqb_spec s n); [intros [= <-]; subst; reflexivity|].
    destruct (name_index s r); simpl; [intros [= <-]; simpl; auto|discriminate].
  Qed.

  Lemma name_index_None s names : name_index s names = None <-> ~ In s names.
  Proof.
    induction names as [|n r IH]; simpl; [tauto|].
    destruct (String.eqb_spec s n) as [->|N]; [split; [discriminate|tauto]|].
    destruct (name_index s r) as [i|]; simpl.
    - split; [discriminate|]. intros H. exfalso.
      assert (~ In s r) as K by tauto. apply IH in K. discriminate.
    - split; auto. intros _ [E|H]; [congruence|]. apply IH in H; auto.
  Qed.

  Lemma select_name st Es d s t : In s (seeds st) ->
    select_seed St seeds st (specic st Es) d (SeedName s) t = Ok (seed_flux st s Es d).
  Proof.
    intros H. simpl. destruct (name_index s (seeds st)) as [i|] eqn:E.
    - apply name_index_nth in E. rewrite (specic_nth _ _ _ _ E). simpl.
      unfold seed_flux. rewrite map_map. reflexivity.
    - apply name_index_None in E. tauto.
  Qed.

  Definition total_flux (st : St) (Es : list R) (d : R) : list R :=
    map (fun x => x / dfac d) (vsum (specic st Es)).

  Lemma specic_nil st Es : specic st Es = [] <-> seeds st = [].
  Proof. unfold ICFluxModel.specic. destruct (seeds st); simpl; split; congruence. Qed.

  (** A computed (not cached) call. *)
  Lemma flux_fresh en st Es d sd s : seeds st <> [] ->
    en <> Some true \/ dget (key st Es d) (entries (snd s)) = None ->
    fst (fst (ic_flux en st Es d sd s)) = specic st Es /\
    snd (ic_flux en st Es d sd s) = select_seed St seeds st (specic st Es) d sd (total_flux st Es d).
  Proof.
    intros HN H. unfold ICFluxModel.ic_flux, memoized, base_flux.
    assert (HS : exists r rs, specic st Es = r :: rs).
    { destruct (specic st Es) eqn:E; [|eauto]. apply specic_nil in E. congruence. }
    destruct HS as (r & rs & HS).
    destruct en as [[|]|].
    - destruct H as [H|H]; [congruence|]. rewrite H. rewrite !HS. simpl. unfold total_flux. rewrite HS. auto.
    - rewrite !HS. simpl. unfold total_flux. rewrite HS. auto.
    - rewrite !HS. simpl. unfold total_flux. rewrite HS. auto.
  Qed.

  Lemma flux_hit st Es d sd s v : dget (key st Es d) (entries (snd s)) = Some v ->
    ic_flux (Some true) st Es d sd s = (s, select_seed St seeds st (fst s) d sd v).
  Proof.
    intros H. unfold ICFluxModel.ic_flux, memoized. rewrite H. destruct s; reflexivity.
  Qed.

  Lemma flux_fresh_stored st Es d sd s : seeds st <> [] ->
    dget (key st Es d) (entries (snd s)) = None ->
    snd (fst (ic_flux (Some true) st Es d sd s)) = store (key st Es d) (total_flux st Es d) (snd s).
  Proof.
    intros HN H. unfold ICFluxModel.ic_flux, memoized, base_flux. rewrite H.
    assert (HS : exists r rs, specic st Es = r :: rs).
    { destruct (specic st Es) eqn:E; [|eauto]. apply specic_nil in E. congruence. }
    destruct HS as (r & rs & HS). unfold total_flux. rewrite HS. reflexivity.
  Qed.

  Lemma run_disabled en h : en <> Some true -> (forall x, In x h -> seeds (fst (fst (fst x))) <> []) -> forall s,
    ic_run en h s = map (fun x => let '(st, Es, d, sd) := x in
        select_seed St seeds st (specic st Es) d sd (total_flux st Es d)) h.
  Proof.
    intros HE. induction h as [|[[[st Es] d] sd] r IH]; intros HN s; simpl; auto.
    destruct (ic_flux en st Es d sd s) as [s' out] eqn:E.
    assert (HS : seeds st <> []) by (apply (HN (st, Es, d, sd)); simpl; auto).
    pose proof (flux_fresh en st Es d sd s HS (or_introl HE)) as [_ H2].
    rewrite E in H2. simpl in H2. subst out. f_equal. apply IH. intros x Hx. apply HN; simpl; auto.
  Qed.

  (** With attributes and energies fixed, [specic] is right whenever the cache
      is not empty. *)
  Lemma run_fixed st Es : seeds st <> [] -> forall h,
    Forall (fun x => fst (fst x) = (st, Es)) h -> forall s,
    (entries (snd s) = [] \/ fst s = specic st Es) ->
    Forall2 (fun x out => let '(_, d, sd) := x in
               match sd with
               | NoSeed => True
               | SeedIdx z => forall i nm, z = Z.of_nat i -> nth_error (seeds st) i = Some nm ->
                                out = Ok (seed_flux st nm Es d)
               | SeedName nm => In nm (seeds st) -> out = Ok (seed_flux st nm Es d)
               end) h (ic_run (Some true) h s).
  Proof.
    intros HN. induction h as [|[[[st' Es'] d] sd] r IH]; intros HF s HS; simpl; [constructor|].
    inversion HF as [|? ? HE HF']; subst. simpl in HE. injection HE as -> ->.
    destruct (ic_flux (Some true) st Es d sd s) as [s' out] eqn:E.
    assert (HR : (exists t, out = select_seed St seeds st (specic st Es) d sd t) /\ fst s' = specic st Es).
    { destruct (dget (key st Es d) (entries (snd s))) as [v|] eqn:G.
      - rewrite (flux_hit _ _ _ _ _ _ G) in E. injection E as <- <-.
        destruct HS as [HS|HS]; [rewrite HS in G; discriminate|]. rewrite HS. split; eauto.
      - pose proof (flux_fresh (Some true) st Es d sd s HN (or_intror G)) as [H1 H2]. rewrite E in H1, H2.
        simpl in H1, H2. split; eauto. }
    destruct HR as [[t ->] HS']. constructor.
    - destruct sd as [|z|nm]; auto.
      + intros i nm -> H. apply select_idx; auto.
      + intros H. apply select_name; auto.
    - apply IH; auto.
  Qed.
End Props.
