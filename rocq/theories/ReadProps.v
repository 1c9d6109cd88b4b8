(** C166: what is computed from a reloaded run. *)
From Coq Require Import Reals List Bool String Arith Lia Lra.
From Verif Require Import Outcome SimplexModel AnalysisModel AnalysisProps AnalysisProps2 MetaModel ReadModel.
Import ListNotations.
Local Open Scope R_scope.

(** ** Specification *)
(** In every sample there is a scalar among the blobs, or there are two whose numpy shapes
    begin differently. The only runs emcee keeps the units of (C163); the output of a model
    function that returns one array has a dummy number beside it (core.py 110-112). *)
Definition shape0 (i : item) : option nat :=
  match i with
  | IScalarQ _ _ | IFloat _ | IOther => None
  | IArrayQ v _ => Some (List.length v)
  | ITuple l => Some (List.length l)
  | IScalars l => Some (List.length l)
  end.
Definition kept (r : run) : Prop := forall s, In s (flat r) ->
  exists a b, In a (s_blob s) /\ In b (s_blob s) /\ (shape0 a = None \/ shape0 a <> shape0 b).
Definition no_floats (r : run) : Prop := forall s i, In s (flat r) -> In i (s_blob s) -> forall v, i <> IFloat v.

(** ** Proofs *)
Lemma shape0_back i : shape0 (back i) = shape0 i.
Proof. destruct i; reflexivity. Qed.
Lemma boxed_kept r : r_steps r <> [] -> (0 < nwalkers r)%nat -> kept r -> boxed r = r.
Proof.
  intros NE W K. unfold boxed. destruct (iblock (map s_blob (flat r))) eqn:B; [|reflexivity]. exfalso.
  destruct (flat r) as [|s l] eqn:F.
  { unfold nwalkers, flat in *. destruct (r_steps r) as [|[|x st] t]; cbn in *; [congruence|lia|discriminate]. }
  assert (I0 : In s (flat r)) by (rewrite F; left; reflexivity).
  destruct (K s I0) as (a & b & Ia & Ib & H).
  cbn [map iblock] in B. destruct (s_blob s) as [|c bl] eqn:SB; [destruct Ia|].
  destruct (idim c) as [n|] eqn:D; [|discriminate]. cbn [map forallb] in B.
  apply andb_prop in B. destruct B as (B & _). 
  assert (B' : forall i, In i (c :: bl) -> shape0 i = Some n).
  { intros i Hi. assert (X : forallb (fun i => match idim i with Some k => Nat.eqb k n | None => false end) (c :: bl) = true) by exact B.
    rewrite forallb_forall in X. specialize (X i Hi). change (shape0 i) with (idim i). destruct (idim i) as [k|]; [|discriminate]. apply Nat.eqb_eq in X. congruence. }
  rewrite (B' a Ia), (B' b Ib) in H. destruct H as [H|H]; [discriminate|congruence].
Qed.
Lemma flat_back r r' : r_steps r' = map (map back_sample) (r_steps r) -> flat r' = map back_sample (flat r).
Proof. intros E. unfold flat. rewrite E. symmetry. apply concat_map. Qed.
Lemma nwalkers_back r r' : r_steps r' = map (map back_sample) (r_steps r) -> nwalkers r' = nwalkers r.
Proof. intros E. unfold nwalkers. rewrite E. destruct (r_steps r); [reflexivity|apply map_length]. Qed.
Lemma at_back r r' st wk : r_steps r' = map (map back_sample) (r_steps r) -> at_ r' st wk = back_sample (at_ r st wk).
Proof.
  intros E. unfold at_. rewrite E. change (@nil sample) with (map back_sample []) at 1. rewrite (map_nth (map back_sample)).
  change empty_sample with (back_sample empty_sample) at 1. apply map_nth.
Qed.
Lemma last_map {A B} (f : A -> B) l d : last (map f l) (f d) = f (last l d).
Proof. induction l as [|a [|b l] IH]; [reflexivity|reflexivity|exact IH]. Qed.
Lemma item_value_back i : item_value (back i) = item_value i.
Proof. destruct i; reflexivity. Qed.
Lemma find_ML_back r r' : r_steps r' = map (map back_sample) (r_steps r) ->
  find_ML r' = let '(ml, p, e, b) := find_ML r in (ml, p, e, map back b).
Proof.
  intros E. unfold find_ML. rewrite (flat_back _ _ E), (nwalkers_back _ _ E), (at_back _ _ _ _ E), !map_map.
  change (map (fun x => s_lp (back_sample x)) (flat r)) with (map s_lp (flat r)).
  set (s := at_ r _ _). cbn [s_lp s_par s_blob back_sample]. f_equal. f_equal. apply map_ext. intros p. rewrite map_map. reflexivity.
Qed.
Lemma used_back r r' ls : r_steps r' = map (map back_sample) (r_steps r) -> used_dists r' ls = used_dists r ls.
Proof.
  intros E. unfold used_dists. destruct ls.
  - rewrite E, map_map. apply map_ext. intros st. change empty_sample with (back_sample empty_sample) at 1. rewrite last_map. reflexivity.
  - rewrite (flat_back _ _ E), map_map. reflexivity.
Qed.
Lemma first_back r r' : r_steps r' = map (map back_sample) (r_steps r) ->
  nth 0 (last (r_steps r') []) empty_sample = back_sample (nth 0 (last (r_steps r) []) empty_sample).
Proof.
  intros E. rewrite E. change (@nil sample) with (map back_sample []) at 1. rewrite last_map.
  change empty_sample with (back_sample empty_sample) at 1. apply map_nth.
Qed.
Lemma blob_rows_back r r' ls : r_steps r' = map (map back_sample) (r_steps r) -> blob_rows r' ls = blob_rows r ls.
Proof.
  intros E. unfold blob_rows. rewrite (first_back _ _ E). set (s := nth 0 _ _). cbn [s_blob back_sample]. rewrite map_length.
  assert (L : last (r_steps r') [] = map back_sample (last (r_steps r) [])).
  { rewrite E. change (@nil sample) with (map back_sample []) at 1. apply last_map. }
  rewrite L, (flat_back _ _ E). apply flat_map_ext. intros idx.
  change (nth idx (map back (s_blob s)) IOther) with (nth idx (map back (s_blob s)) (back IOther)). rewrite map_nth.
  assert (M : forall ss, map (fun s0 => item_value (nth idx (s_blob s0) IOther)) (map back_sample ss) = map (fun s0 => item_value (nth idx (s_blob s0) IOther)) ss).
  { intros ss. rewrite map_map. apply map_ext. intros x. cbn [s_blob back_sample].
    change (nth idx (map back (s_blob x)) IOther) with (nth idx (map back (s_blob x)) (back IOther)). rewrite map_nth. apply item_value_back. }
  replace (if ls then map back_sample (last (r_steps r) []) else map back_sample (flat r)) with (map back_sample (if ls then last (r_steps r) [] else flat r)) by (destruct ls; reflexivity).
  rewrite M. destruct (nth idx (s_blob s) IOther) as [| [|? [|? ?]] | | | |]; reflexivity.
Qed.
Lemma units_back r r' : r_steps r' = map (map back_sample) (r_steps r) -> rectangular r -> no_floats r -> blob_units r' = blob_units r.
Proof.
  intros E (NE & W & F) NF. unfold blob_units. rewrite (first_back _ _ E). set (s := nth 0 _ _). cbn [s_blob back_sample]. rewrite map_length.
  assert (I0 : In s (flat r)).
  { apply (flat_in r s (last (r_steps r) [])); [apply last_in, NE|]. unfold s. apply nth_In.
    rewrite List.Forall_forall in F. rewrite (F _ (last_in _ [] NE)). exact W. }
  replace (map back (s_blob s)) with (s_blob s); [reflexivity|].
  specialize (NF s). revert NF. generalize (s_blob s) as l. intros l NF. induction l as [|i l IH]; [reflexivity|]. cbn [map]. f_equal.
  - destruct i; try reflexivity. exfalso. apply (NF (IFloat v) I0 (or_introl eq_refl) v eq_refl).
  - apply IH. intros j Hs Hj v. apply (NF j Hs (or_intror Hj) v).
Qed.

(** ** Theorems *)
(** Reading back: nothing is lost in the object array of the blobs *)
Theorem C166_reload : forall f n r clobber, storable r -> kept r -> NoDup (map fst (r_info r)) -> good_suffix n = true -> (f n = None \/ clobber = true) ->
  exists r', reload (fst (save_run f n r clobber)) n = Ok r' /\
    r_steps r' = map (map back_sample) (r_steps r) /\ r_labels r' = r_labels r /\ r_acc r' = r_acc r /\ r_data r' = r_data r.
Proof.
  intros f n r clobber ST K ND SUF CL. destruct (C55_roundtrip f n r ST ND SUF clobber CL) as (_ & r' & E & S & L & A & D & _).
  exists r'. split; [|auto]. unfold reload. rewrite E. cbn [omap]. f_equal. destruct ST as ((NE & W & F) & _).
  apply boxed_kept.
  - rewrite S. intros H. apply NE. destruct (r_steps r); [reflexivity|discriminate].
  - rewrite (nwalkers_back _ _ S). exact W.
  - intros s' Hs. rewrite (flat_back _ _ S) in Hs. apply in_map_iff in Hs. destruct Hs as (s & <- & Hs).
    destruct (K s Hs) as (a & b & Ia & Ib & H). exists (back a), (back b). rewrite !shape0_back. cbn [s_blob back_sample].
    split; [apply in_map, Ia|]. split; [apply in_map, Ib|exact H].
Qed.
(** The results table made from a reloaded run has the rows and the number of samples, best
    parameters, largest log-probability and BIC of the table made from the original, and the
    same maximum-likelihood parameters, errors and model are found. *)
Theorem C166_same_results : forall f n r clobber, storable r -> kept r -> NoDup (map fst (r_info r)) -> good_suffix n = true -> (f n = None \/ clobber = true) ->
  exists r', reload (fst (save_run f n r clobber)) n = Ok r' /\
    (forall convert_log last_step include_blobs, save_results_table r' convert_log last_step include_blobs = save_results_table r convert_log last_step include_blobs) /\
    (forall ndata last_step, own_meta r' ndata last_step = own_meta r ndata last_step) /\
    (no_floats r -> blob_units r' = blob_units r) /\
    find_ML r' = (let '(ml, p, e, b) := find_ML r in (ml, p, e, map back b)).
Proof.
  intros f n r clobber ST K ND SUF CL. destruct (C166_reload f n r clobber ST K ND SUF CL) as (r' & E & S & L & _).
  exists r'. split; [exact E|]. split; [|split; [|split]].
  - intros c ls ib. unfold save_results_table. rewrite (used_back _ _ _ S), (blob_rows_back _ _ _ S), L. reflexivity.
  - intros nd ls. unfold own_meta, BIC. rewrite (find_ML_back _ _ S), (used_back _ _ _ S). destruct (find_ML r) as [[[ml p] e] b]. reflexivity.
  - intros NF. apply units_back; [exact S|apply ST|exact NF].
  - apply find_ML_back, S.
Qed.
Lemma nodup_dset {V} k (v : V) d : NoDup (map fst d) -> NoDup (map fst (Outcome.dset k v d)).
Proof.
  induction d as [|[k' v'] d IH]; intros H; [repeat constructor; intros []|]. cbn. inversion H as [|? ? N1 N2]; subst.
  destruct (String.eqb_spec k k') as [->|N]; [constructor; assumption|]. cbn. constructor; [|apply IH, N2].
  intros I. apply N1. clear -I N. induction d as [|[k2 v2] d IH]; cbn in *; [destruct I as [I|[]]; congruence|].
  destruct (String.eqb_spec k k2) as [->|M]; cbn in *; [exact I|]. destruct I as [I|I]; [left; exact I|right; apply IH, I].
Qed.
(** A reloaded run can be saved and reloaded in turn, without further change *)
Theorem C166_again : forall f n r clobber g m clobber2, storable r -> kept r -> NoDup (map fst (r_info r)) -> good_suffix n = true -> (f n = None \/ clobber = true) ->
  good_suffix m = true -> (g m = None \/ clobber2 = true) ->
  exists r' r'', reload (fst (save_run f n r clobber)) n = Ok r' /\ reload (fst (save_run g m r' clobber2)) m = Ok r'' /\
    r_steps r'' = r_steps r' /\ r_labels r'' = r_labels r' /\ r_acc r'' = r_acc r' /\ r_data r'' = r_data r'.
Proof.
  intros f n r clobber g m clobber2 ST K ND SUF CL SUF2 CL2.
  destruct (C166_reload f n r clobber ST K ND SUF CL) as (r' & E & S & L & A & D). exists r'.
  assert (BB : map (map back_sample) (r_steps r') = r_steps r').
  { rewrite S, map_map. apply map_ext. intros st. rewrite map_map. apply map_ext. intros s. unfold back_sample. cbn. f_equal. rewrite map_map. apply map_ext. intros []; reflexivity. }
  assert (ST' : storable r').
  { destruct ST as ((NE & W & F) & P & b & B1 & B2). split; [split; [|split]|split].
    - rewrite S. intros H. apply NE. destruct (r_steps r); [reflexivity|discriminate].
    - rewrite (nwalkers_back _ _ S). exact W.
    - rewrite (nwalkers_back _ _ S), S, Forall_map. eapply Forall_impl; [|exact F]. intros st Hst. cbv beta. rewrite map_length. exact Hst.
    - rewrite (flat_back _ _ S), Forall_map, L. exact P.
    - exists (map back b). rewrite map_length. split; [exact B1|]. rewrite (flat_back _ _ S), Forall_map. eapply Forall_impl; [|exact B2].
      intros s Hs. cbn [s_blob back_sample]. clear -Hs. induction Hs as [|x y l l' H Hs IH]; cbn [map]; constructor; [|exact IH]. destruct H; cbn [back]; constructor; assumption. }
  assert (K' : kept r').
  { intros s' Hs. rewrite (flat_back _ _ S) in Hs. apply in_map_iff in Hs. destruct Hs as (s & <- & Hs).
    destruct (K s Hs) as (a & b & Ia & Ib & H). exists (back a), (back b). rewrite !shape0_back. cbn [s_blob back_sample].
    split; [apply in_map, Ia|]. split; [apply in_map, Ib|exact H]. }
  assert (ND' : NoDup (map fst (r_info r'))).
  { unfold reload in E. destruct (read_run (fst (save_run f n r clobber)) n) as [r0|] eqn:RR; [|discriminate]. cbn [omap] in E. injection E as E.
    assert (NI : r_info r' = r_info r0) by (rewrite <- E; unfold boxed; destruct (iblock _); reflexivity). rewrite NI. clear - RR CL SUF.
    unfold save_run in RR. rewrite SUF in RR. cbn [negb] in RR.
    assert (X : forall h, to_h5 r = Ok h -> h_attrs h = attrs_of r).
    { intros h H. unfold to_h5 in H. destruct (save_blobs _ _ _); [|discriminate]. cbn [obind] in H. injection H as <-. reflexivity. }
    assert (Y : NoDup (map fst (attrs_of r))).
    { unfold attrs_of.
      assert (Z1 : forall l d, NoDup (map fst d) -> NoDup (map fst (fold_left (fun (d : list (string * attr)) kv => Outcome.dset (fst kv) (snd kv) d) l d))).
      { induction l as [|kv l IH]; intros d H; [exact H|]. cbn [fold_left]. apply IH, nodup_dset, H. }
      assert (Z2 : forall ls i d, NoDup (map fst d) -> NoDup (map fst (set_labels i ls d))).
      { induction ls as [|x ls IH]; intros i d H; [exact H|]. cbn [set_labels]. apply IH, nodup_dset, H. }
      apply Z2, nodup_dset, Z1. constructor. }
    assert (RD : forall h, from_h5 h = Ok r0 -> r_info r0 = h_attrs h).
    { intros h H. unfold from_h5 in H. destruct (dget "acceptance_fraction" (h_attrs h)); [|discriminate]. destruct (read_labels _ _ _); [|discriminate]. cbn [obind] in H. injection H as <-. reflexivity. }
    assert (Q : exists h, to_h5 r = Ok h /\ from_h5 h = Ok r0).
    { destruct (f n) as [h0|] eqn:FN; [destruct CL as [CL|CL]; [discriminate|subst clobber]|];
        (destruct (to_h5 r) as [h|] eqn:T; cbn [fst] in RR; unfold read_run, fset in RR; rewrite String.eqb_refl in RR; [|discriminate]; exists h; auto). }
    destruct Q as (h & T & H). rewrite (RD h H), (X h T). exact Y. }
  destruct (C166_reload g m r' clobber2 ST' K' ND' SUF2 CL2) as (r'' & E2 & S2 & L2 & A2 & D2).
  exists r''. split; [exact E|]. split; [exact E2|]. rewrite S2, BB. auto.
Qed.

(** ** Examples: the run of AnalysisProps2; and why [kept] is asked for (a run with two
    arrays of one length, which emcee itself would have stored without units, C163) *)
Example C166_example : storable ex_run2 /\ kept ex_run2 /\ NoDup (map fst (r_info ex_run2)).
Proof.
  split; [exact ex_run2_storable|]. split; [|repeat constructor; cbn; intuition discriminate].
  intros s Hs. cbn in Hs. destruct Hs as [<-|[<-|[<-|[<-|[]]]]]; (eexists; eexists; split; [left; reflexivity|split; [left; reflexivity|left; reflexivity]]).
Qed.
Example C166_block_example : exists r', reload (fst (save_run (fun _ => None) "r.h5" (one [IArrayQ [1; 2] "eV"; IArrayQ [3; 4] "eV"]) false)) "r.h5" = Ok r' /\
  map s_blob (flat r') = [[IOther; IOther]].
Proof. eexists. split; [reflexivity|reflexivity]. Qed.
Print Assumptions C166_same_results.
