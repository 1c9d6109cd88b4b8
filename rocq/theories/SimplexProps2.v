(** C100: the initial simplex. *)
From Coq Require Import Reals List Bool Arith Lra Lia.
From Verif Require Import SimplexModel SimplexProofs.
Import ListNotations.
Local Open Scope R_scope.

Lemma nth_set_nth v : forall p k i, (k < length p)%nat -> nth i (set_nth k v p) 0 = if Nat.eqb i k then v else nth i p 0.
Proof.
  induction p as [|x p IH]; intros k i H; [simpl in H; lia|]. destruct k as [|k]; destruct i as [|i]; cbn; try reflexivity.
  apply IH. cbn in H. lia.
Qed.
Lemma length_set_nth v : forall p k, length (set_nth k v p) = length p.
Proof. induction p as [|x p IH]; intros [|k]; cbn; auto. Qed.

(** The first points evaluated are x0 and, for every coordinate, x0 with this coordinate
    5 percent larger, or 0.00025 where it is 0: n + 1 points, no two of them equal, that
    do not lie in a plane: any point can be reached from x0 along their differences. *)
Theorem C100_initial_simplex : forall f srt x0,
  let pts := rev (calls (init f id srt x0)) in
  length pts = S (length x0) /\ nth 0 pts [] = x0 /\
  (forall k, (k < length x0)%nat ->
     let p := nth (S k) pts [] in length p = length x0 /\
     (forall i, i <> k -> nth i p 0 = nth i x0 0) /\
     (nth k x0 0 <> 0 -> nth k p 0 = 105 / 100 * nth k x0 0) /\
     (nth k x0 0 = 0 -> nth k p 0 = 25 / 100000)) /\
  NoDup pts /\
  (forall y, length y = length x0 -> exists c : nat -> R, forall i, (i < length x0)%nat ->
     nth i y 0 = nth i x0 0 + c i * (nth i (nth (S i) pts []) 0 - nth i x0 0)).
Proof.
  intros f srt x0 pts. assert (EP : pts = x0 :: map (perturbed id x0) (seq 0 (length x0))).
  { unfold pts, init. cbn [calls]. rewrite rev_involutive. reflexivity. }
  assert (NT : forall k, (k < length x0)%nat -> nth (S k) pts [] = perturbed id x0 k).
  { intros k Hk. rewrite EP. cbn [nth]. rewrite (nth_indep _ [] (perturbed id x0 0)) by (rewrite map_length, seq_length; exact Hk).
    rewrite map_nth, seq_nth by exact Hk. reflexivity. }
  assert (PC : forall k i, (k < length x0)%nat -> nth i (perturbed id x0 k) 0 =
     if Nat.eqb i k then (if Req_EM_T (nth k x0 0) 0 then 25 / 100000 else (1 + 5 / 100) * nth k x0 0) else nth i x0 0).
  { intros k i Hk. unfold perturbed. rewrite nth_set_nth by exact Hk. reflexivity. }
  assert (DF : forall k, (k < length x0)%nat -> nth k (perturbed id x0 k) 0 <> nth k x0 0).
  { intros k Hk. rewrite PC, Nat.eqb_refl by exact Hk. destruct (Req_EM_T (nth k x0 0) 0); lra. }
  split; [rewrite EP; cbn; rewrite map_length, seq_length; reflexivity|].
  split; [rewrite EP; reflexivity|]. split; [|split].
  - intros k Hk p. unfold p. rewrite NT by exact Hk. split; [apply length_set_nth|]. split; [|split].
    + intros i Hi. rewrite PC by exact Hk. destruct (Nat.eqb_spec i k); [contradiction|reflexivity].
    + intros N. rewrite PC, Nat.eqb_refl by exact Hk. destruct (Req_EM_T (nth k x0 0) 0); [contradiction|lra].
    + intros Z. rewrite PC, Nat.eqb_refl by exact Hk. destruct (Req_EM_T (nth k x0 0) 0); [reflexivity|contradiction].
  - rewrite EP. constructor.
    + intros I. apply in_map_iff in I. destruct I as (k & E & Hk). apply in_seq in Hk. apply (DF k); [lia|]. rewrite E. reflexivity.
    + assert (G : forall n s, (s + n <= length x0)%nat -> NoDup (map (perturbed id x0) (seq s n))).
      { induction n as [|n IH]; intros s Hs; [constructor|]. cbn. constructor; [|apply IH; lia].
        intros I. apply in_map_iff in I. destruct I as (k & E & Hk). apply in_seq in Hk. apply (DF s); [lia|]. rewrite <- E.
        rewrite PC by lia. destruct (Nat.eqb_spec s k); [lia|reflexivity]. }
      apply G. lia.
  - intros y Hy. exists (fun i => (nth i y 0 - nth i x0 0) / (nth i (nth (S i) pts []) 0 - nth i x0 0)). intros i Hi.
    rewrite NT by exact Hi. specialize (DF i Hi). field. lra.
Qed.
Print Assumptions C100_initial_simplex.
Example C100_example : exists p, nth 2 (rev (calls (init (fun _ => Fin 0) id (fun l => l) [2; 0]))) [] = p /\ p = [2; 25 / 100000].
Proof. eexists. split; [reflexivity|]. cbn. destruct (Req_EM_T 0 0); [reflexivity|lra]. Qed.
