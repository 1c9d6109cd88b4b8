(** FIFO behaviour, isolation and aliasing. *)
From Coq Require Import String List Arith Bool Lia.
From Verif Require Import Outcome MemoModel MemoSpec MemoProofs.
Import ListNotations.

(** ** FIFO *)
Lemma lastn_le {A} n (l : list A) : length l <= n -> lastn n l = l.
Proof. intros H. unfold lastn. replace (length l - n) with 0 by lia. reflexivity. Qed.

Lemma skipn_S_tl {A} n (l : list A) : skipn (S n) l = tl (skipn n l).
Proof.
  revert l; induction n; intros l; [destruct l; reflexivity|].
  destruct l; [reflexivity|]. exact (IHn l).
Qed.

Lemma lastn_snoc {A} n (l : list A) x :
  lastn (S n) (l ++ [x]) = ((if n <? length (lastn (S n) l) then tl (lastn (S n) l) else lastn (S n) l) ++ [x])%list.
Proof.
  assert (HL : length (lastn (S n) l) = Nat.min (S n) (length l)).
  { unfold lastn. rewrite skipn_length. lia. }
  rewrite HL. unfold lastn at 1. rewrite app_length. simpl (length [x]).
  destruct (Nat.ltb_spec n (Nat.min (S n) (length l))).
  - unfold lastn. replace (length l + 1 - S n) with (S (length l - S n)) by lia.
    rewrite skipn_app. replace (S (length l - S n) - length l) with 0 by lia. 
    rewrite skipn_S_tl. reflexivity.
  - rewrite lastn_le by lia. replace (length l + 1 - S n) with 0 by lia. reflexivity.
Qed.

Section Fifo.
  Variables (pval dist V : Type).
  Variable show_val : pval -> string.
  Variable show_dist : dist -> string.
  Variable show_args : list dist -> string.
  Variable sha : string -> string.
  Variable func : obj pval -> call dist -> outcome V.
  Notation digest := (digest pval dist show_val show_dist show_args sha).
  Notation cache_after := (cache_after pval dist show_val show_dist show_args sha V func).

  Lemma evict_queue (c : cache V) : queue (evict c) = if 16 <? length (queue c) then tl (queue c) else queue c.
  Proof.
    unfold evict. destruct (16 <? length (queue c)); auto. destruct (queue c) eqn:E; auto.
  Qed.

  Lemma fifo_gen h : forall o ca w,
    o_memoize o = Some true -> cache_ok ca -> queue ca = lastn 17 w ->
    queue (cache_after o ca h) =
    lastn 17 (fold_left (fun w kb => window_step w (fst kb) (snd kb))
                (flat_map (fun oc => match digest (fst oc) (snd oc) with
                                     | Ok k => [(k, match func (fst oc) (snd oc) with Ok _ => true | Err _ => false end)]
                                     | Err _ => [] end) (calls_of o h)) w).
  Proof.
    induction h as [|[n v|n v|pd|c] r IH]; intros o ca w HM HO HQ; simpl; auto.
    rewrite fold_left_app. unfold memoized. rewrite HM.
    destruct (digest o c) as [k|e]; simpl; [|apply IH; auto].
    unfold window_step at 2. rewrite <- HQ.
    destruct (dget k (entries ca)) eqn:G.
    - destruct (in_dec string_dec k (queue ca)) as [I|I]; simpl; [apply IH; auto|].
      exfalso. apply I. destruct HO as [<- _]. apply dget_In in G. apply in_map with (f := fst) in G. exact G.
    - destruct (in_dec string_dec k (queue ca)) as [I|I].
      + exfalso. apply dget_None in G. destruct HO as [HK _]. rewrite HK in G. auto.
      + destruct (func o c) as [v|e]; simpl; [|apply IH; auto].
        apply IH; auto using store_ok.
        simpl. rewrite evict_queue, HQ. change 17 with (S 16). rewrite lastn_snoc. reflexivity.
  Qed.
End Fifo.

(** ** Isolation of objects with their own cache *)
Section Iso.
  Variables (pval dist V : Type).
  Variable show_val : pval -> string.
  Variable show_dist : dist -> string.
  Variable show_args : list dist -> string.
  Variable sha : string -> string.
  Variable func : obj pval -> call dist -> outcome V.
  Notation run := (run pval dist show_val show_dist show_args sha V func).
  Notation run2 := (run2 pval dist V show_val show_dist show_args sha func).

  Lemma isolation h : forall o1 o2 c1 c2 b,
    only b (run2 false o1 o2 c1 c2 h) = run (if b then o2 else o1) (if b then c2 else c1) (only b h).
  Proof.
    unfold only. induction h as [|[b' e] r IH]; intros o1 o2 c1 c2 b; [reflexivity|].
    simpl. destruct e as [n v|n v|pd|c]; simpl.
    1-3: destruct b', b; simpl; rewrite IH; reflexivity.
    destruct b'; simpl.
    - destruct (memoized _ _ _ _ c2) as [[? c'] out] eqn:E. simpl.
      destruct b; simpl; [rewrite E|]; simpl; rewrite IH; reflexivity.
    - destruct (memoized _ _ _ _ c1) as [[? c'] out] eqn:E. simpl.
      destruct b; simpl; [|rewrite E]; simpl; rewrite IH; reflexivity.
  Qed.
End Iso.

(** ** Aliasing *)
Section Heap.
  Variable A : Type.
  Variable value : string -> A.

  Lemma nth_error_snoc (l : list A) x : nth_error (l ++ [x]) (length l) = Some x.
  Proof. rewrite nth_error_app2 by lia. rewrite Nat.sub_diag. reflexivity. Qed.

  Lemma hrun_disabled h en : en <> Some true -> forall hp ca rets,
    hrun A value en hp ca rets h = map (fun k => Some (value k)) (hcalls A h).
  Proof.
    intros HE. induction h as [|[k|i a] r IH]; intros; simpl; auto.
    - destruct en as [[|]|]; try congruence; simpl; rewrite nth_error_snoc, IH; reflexivity.
    - destruct (nth_error rets i); apply IH.
  Qed.

  Lemma hrun_nowrites ks : forall hp ca rets en,
    (forall k l, In (k, l) (entries ca) -> nth_error hp l = Some (value k)) ->
    hrun A value en hp ca rets (map HCall ks) = map (fun k => Some (value k)) ks.
  Proof.
    induction ks as [|k r IH]; intros hp ca rets en H; simpl; auto.
    unfold memoized. destruct en as [[|]|]; simpl.
    - destruct (dget k (entries ca)) eqn:G.
      + apply dget_In in G. rewrite (H _ _ G). f_equal. apply IH; auto.
      + rewrite nth_error_snoc. f_equal. apply IH.
        intros k' l' HI. simpl in HI. apply dset_In in HI.
        assert (HM : forall k' l', In (k', l') (entries ca) -> nth_error (hp ++ [value k]) l' = Some (value k')).
        { intros k2 l2 H2. specialize (H _ _ H2). rewrite nth_error_app1; auto. apply nth_error_Some. congruence. }
        destruct HI as [[= -> ->]|HI]; [apply nth_error_snoc|].
        apply HM. unfold evict in HI. destruct (16 <? length (queue ca)); auto.
        destruct (queue ca); auto. simpl in HI. eapply ddel_In; eauto.
    - rewrite nth_error_snoc. f_equal. apply IH.
      intros k' l' HI. specialize (H _ _ HI). rewrite nth_error_app1; auto. apply nth_error_Some. congruence.
    - rewrite nth_error_snoc. f_equal. apply IH.
      intros k' l' HI. specialize (H _ _ HI). rewrite nth_error_app1; auto. apply nth_error_Some. congruence.
  Qed.
End Heap.
