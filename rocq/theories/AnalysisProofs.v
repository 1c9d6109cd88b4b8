(** Proofs about run handling. *)
From Coq Require Import Reals List ZArith Bool String Ascii Arith Permutation Sorted Lra Lia.
From Verif Require Import Outcome SimplexModel AnalysisModel.
Import ListNotations.
Local Open Scope R_scope.

(** ** Sorting *)
Lemma rins_perm x l : Permutation (rins x l) (x :: l).
Proof. induction l as [|y r IH]; cbn; auto. destruct (Rle_dec x y); auto. rewrite IH. apply perm_swap. Qed.
Lemma rsort_perm l : Permutation (rsort l) l.
Proof. induction l as [|x l IH]; cbn [rsort fold_right]; auto. fold (rsort l). rewrite rins_perm, IH. reflexivity. Qed.
Lemma rsort_length l : List.length (rsort l) = List.length l.
Proof. apply Permutation_length, rsort_perm. Qed.
Lemma rins_sorted x l : StronglySorted Rle l -> StronglySorted Rle (rins x l).
Proof.
  induction 1 as [|y r S IH F]; cbn [rins]; [repeat constructor|]. destruct (Rle_dec x y).
  - constructor; [constructor; auto|]. constructor; auto. eapply Forall_impl; [|exact F]. intros b Hb; cbn in Hb. lra.
  - constructor; auto. eapply Permutation_Forall; [apply Permutation_sym, rins_perm|]. constructor; [lra|exact F].
Qed.
Lemma rsort_sorted l : StronglySorted Rle (rsort l).
Proof. induction l as [|x l IH]; cbn [rsort fold_right]; [constructor|]. apply rins_sorted, IH. Qed.
Lemma sorted_nth l : StronglySorted Rle l -> forall i j, (i <= j < List.length l)%nat -> nth i l 0 <= nth j l 0.
Proof.
  induction 1 as [|a l S IH F]; intros i j L; cbn [List.length] in L; [lia|].
  destruct j as [|j]; [replace i with 0%nat by lia; lra|]. destruct i as [|i]; cbn [nth].
  - rewrite Forall_forall in F. apply F, nth_In. lia.
  - apply IH. lia.
Qed.

(** ** Truncation *)
Lemma trunc_spec x : 0 <= x -> INR (trunc x) <= x < INR (trunc x) + 1.
Proof.
  intros H. unfold trunc. destruct (archimed x) as (A & B).
  assert (0 < up x)%Z by (apply lt_IZR; lra).
  rewrite INR_IZR_INZ, Z2Nat.id by lia. rewrite minus_IZR. lra.
Qed.
Lemma trunc_mono x y : 0 <= x -> x <= y -> (trunc x <= trunc y)%nat.
Proof.
  intros H1 H2. pose proof (trunc_spec x H1). pose proof (trunc_spec y ltac:(lra)).
  destruct (le_lt_dec (trunc x) (trunc y)) as [L|L]; auto. exfalso.
  assert (INR (S (trunc y)) <= INR (trunc x)) by (apply le_INR; lia). rewrite S_INR in H3. lra.
Qed.
Lemma trunc_le_nat x n : 0 <= x -> x <= INR n -> (trunc x <= n)%nat.
Proof.
  intros H1 H2. pose proof (trunc_spec x H1). destruct (le_lt_dec (trunc x) n) as [L|L]; auto. exfalso.
  assert (INR (S n) <= INR (trunc x)) by (apply le_INR; lia). rewrite S_INR in H0. lra.
Qed.
Lemma trunc_unique x k : INR k <= x < INR k + 1 -> trunc x = k.
Proof.
  intros (A & B). pose proof (pos_INR k). pose proof (trunc_spec x ltac:(lra)) as (C & D).
  destruct (lt_eq_lt_dec (trunc x) k) as [[L|L]|L]; auto; exfalso.
  - assert (INR (S (trunc x)) <= INR k) by (apply le_INR; lia). rewrite S_INR in H0. lra.
  - assert (INR (S k) <= INR (trunc x)) by (apply le_INR; lia). rewrite S_INR in H0. lra.
Qed.

(** ** Percentiles *)
Lemma percentile_spec l q : (0 < List.length l)%nat -> 0 <= q <= 100 ->
  let s := rsort l in let n := Nat.pred (List.length l) in let h := INR n * (q / 100) in
  let k := trunc h in let k' := Nat.min (S k) n in
  (k <= n)%nat /\ 0 <= h - INR k < 1 /\ nth k s 0 <= percentile l q <= nth k' s 0.
Proof.
  intros L Q. cbv zeta. set (n := Nat.pred (List.length l)). set (h := INR n * (q / 100)).
  assert (Hn : 0 <= INR n) by apply pos_INR.
  assert (H0 : 0 <= h) by (unfold h; apply Rmult_le_pos; lra).
  assert (H1 : h <= INR n) by (unfold h; rewrite <- (Rmult_1_r (INR n)) at 2; apply Rmult_le_compat_l; lra).
  pose proof (trunc_spec h H0) as T. pose proof (trunc_le_nat h n H0 H1) as TN.
  split; [exact TN|]. split; [lra|]. unfold percentile. cbv zeta. fold n. fold h.
  assert (M : nth (trunc h) (rsort l) 0 <= nth (Nat.min (S (trunc h)) n) (rsort l) 0).
  { apply sorted_nth; [apply rsort_sorted|]. rewrite rsort_length. unfold n in *. lia. }
  nra.
Qed.
(** non-decreasing in the level *)
Lemma percentile_mono l p q : (0 < List.length l)%nat -> 0 <= p -> p <= q -> q <= 100 -> percentile l p <= percentile l q.
Proof.
  intros L P PQ Q. pose proof (percentile_spec l p L ltac:(lra)) as (A1 & A2 & A3). pose proof (percentile_spec l q L ltac:(lra)) as (B1 & B2 & B3).
  cbv zeta in *. set (n := Nat.pred (List.length l)) in *. set (hp := INR n * (p / 100)) in *. set (hq := INR n * (q / 100)) in *.
  assert (Hn : 0 <= INR n) by apply pos_INR.
  assert (HH : hp <= hq) by (unfold hp, hq; apply Rmult_le_compat_l; lra).
  assert (H0 : 0 <= hp) by (unfold hp; apply Rmult_le_pos; lra).
  pose proof (trunc_mono hp hq H0 HH) as TM.
  destruct (Nat.eq_dec (trunc hp) (trunc hq)) as [E|NE].
  - unfold percentile. cbv zeta. fold n. fold hp hq. rewrite <- E.
    assert (M : nth (trunc hp) (rsort l) 0 <= nth (Nat.min (S (trunc hp)) n) (rsort l) 0).
    { apply sorted_nth; [apply rsort_sorted|]. rewrite rsort_length. unfold n in *. lia. }
    nra.
  - eapply Rle_trans; [apply A3|]. eapply Rle_trans; [|apply B3]. apply sorted_nth; [apply rsort_sorted|]. rewrite rsort_length. unfold n in *. lia.
Qed.
Lemma percentile_range l q : (0 < List.length l)%nat -> 0 <= q <= 100 ->
  (exists a, In a l /\ a <= percentile l q) /\ (exists b, In b l /\ percentile l q <= b).
Proof.
  intros L Q. pose proof (percentile_spec l q L Q) as (A1 & A2 & A3). cbv zeta in *.
  split; (eexists; split; [|apply A3]); (eapply Permutation_in; [apply rsort_perm|]; apply nth_In; rewrite rsort_length; lia).
Qed.

(** ** argmax *)
Definition ele (a b : ev) : Prop := fle a b = true.
Lemma fle_refl a : isnan a = false -> fle a a = true.
Proof. destruct a; cbn; auto; try discriminate. intros _. destruct (Rle_dec r r); auto. exfalso; lra. Qed.
Lemma fle_trans a b c : fle a b = true -> fle b c = true -> fle a c = true.
Proof.
  destruct a, b, c; cbn; auto; try discriminate.
  repeat match goal with |- context [Rle_dec ?x ?y] => destruct (Rle_dec x y) end; auto; try discriminate. intros; exfalso; lra.
Qed.
Lemma flt_fle a b : flt a b = true -> fle a b = true.
Proof. destruct a, b; cbn; auto; try discriminate. destruct (Rlt_dec r r0), (Rle_dec r r0); auto; try discriminate. intros; exfalso; lra. Qed.
Lemma nflt_fle a b : isnan a = false -> isnan b = false -> flt a b = false -> fle b a = true.
Proof. destruct a, b; cbn; auto; try discriminate. destruct (Rlt_dec r r0), (Rle_dec r0 r); auto; try discriminate. intros; exfalso; lra. Qed.
Lemma flt_irr_fle a b : flt a b = true -> fle b a = false.
Proof. destruct a, b; cbn; auto; try discriminate. destruct (Rlt_dec r r0), (Rle_dec r0 r); auto; try discriminate. exfalso; lra. Qed.

Lemma argmax_from_spec l : forall pre i bi b, List.length pre = i -> (bi < i)%nat -> nth bi pre NaN = b ->
  List.Forall (fun x => isnan x = false) (pre ++ l) ->
  (forall j, (j < i)%nat -> fle (nth j pre NaN) b = true) -> (forall j, (j < bi)%nat -> flt (nth j pre NaN) b = true) ->
  let m := argmax_from l i bi b in
  (m < List.length (pre ++ l))%nat /\ (forall j, (j < List.length (pre ++ l))%nat -> fle (nth j (pre ++ l) NaN) (nth m (pre ++ l) NaN) = true) /\
  (forall j, (j < m)%nat -> flt (nth j (pre ++ l) NaN) (nth m (pre ++ l) NaN) = true).
Proof.
  induction l as [|x l IH]; intros pre i bi b LP LB NB NN H1 H2; cbn [argmax_from].
  - cbv zeta. rewrite app_nil_r in *. rewrite NB. split; [lia|]. split; [intros; apply H1; lia|exact H2].
  - assert (NX : isnan x = false) by (rewrite Forall_forall in NN; apply NN, in_or_app; right; left; reflexivity).
    assert (NBn : isnan b = false) by (rewrite Forall_forall in NN; apply NN, in_or_app; left; rewrite <- NB; apply nth_In; lia).
    replace (pre ++ x :: l) with ((pre ++ [x]) ++ l) in * by (rewrite <- app_assoc; reflexivity).
    assert (N2 : forall j, nth j (pre ++ [x]) NaN = if Nat.ltb j i then nth j pre NaN else if Nat.eqb j i then x else NaN).
    { intros j. destruct (Nat.ltb_spec j i); [apply app_nth1; lia|]. rewrite app_nth2 by lia. rewrite LP.
      destruct (Nat.eqb_spec j i); [subst; rewrite Nat.sub_diag; reflexivity|]. destruct (j - i)%nat as [|[|k]] eqn:E; try lia; reflexivity. }
    unfold amax_gt. rewrite NBn, NX. cbn [negb andb orb]. destruct (flt b x) eqn:E.
    + apply IH; auto.
      * rewrite app_length; cbn; lia.
      * rewrite N2, Nat.ltb_irrefl, Nat.eqb_refl. reflexivity.
      * intros j Hj. rewrite N2. destruct (Nat.ltb_spec j i).
        -- eapply fle_trans; [apply H1; lia|]. apply flt_fle, E.
        -- replace j with i by lia. rewrite Nat.eqb_refl. apply fle_refl, NX.
      * intros j Hj. rewrite N2. destruct (Nat.ltb_spec j i); [|lia].
        destruct (flt (nth j pre NaN) x) eqn:F; auto. exfalso.
        assert (Q : fle x (nth j pre NaN) = true).
        { apply nflt_fle; auto. rewrite Forall_forall in NN. apply NN, in_or_app; left. apply in_or_app; left. apply nth_In; lia. }
        pose proof (fle_trans _ _ _ Q (H1 j ltac:(lia))) as Q2. rewrite (flt_irr_fle _ _ E) in Q2. discriminate.
    + apply IH; auto.
      * rewrite app_length; cbn; lia.
      * rewrite N2. destruct (Nat.ltb_spec bi i); [exact NB|lia].
      * intros j Hj. rewrite N2. destruct (Nat.ltb_spec j i); [apply H1; lia|].
        replace j with i by lia. rewrite Nat.eqb_refl. apply nflt_fle; auto.
      * intros j Hj. rewrite N2. destruct (Nat.ltb_spec j i); [apply H2; lia|lia].
Qed.
Lemma argmax_spec l : l <> [] -> List.Forall (fun x => isnan x = false) l ->
  (argmax l < List.length l)%nat /\ (forall j, (j < List.length l)%nat -> fle (nth j l NaN) (nth (argmax l) l NaN) = true) /\
  (forall j, (j < argmax l)%nat -> flt (nth j l NaN) (nth (argmax l) l NaN) = true).
Proof.
  intros NE NN. destruct l as [|x l]; [congruence|]. cbn [argmax].
  apply (argmax_from_spec l [x] 1 0 x); auto.
  - intros j Hj. replace j with 0%nat by lia. cbn. apply fle_refl. inversion NN; auto.
  - intros j Hj. lia.
Qed.

(** ** Flattening *)
Lemma concat_nth {A} (d : A) W (l : list (list A)) : List.Forall (fun s => List.length s = W) l ->
  forall st wk, (wk < W)%nat -> nth (st * W + wk) (List.concat l) d = nth wk (nth st l []) d.
Proof.
  induction 1 as [|s l Hs F IH]; intros st wk H.
  - cbn. destruct st, wk; cbn; try reflexivity; destruct (_ + _)%nat; reflexivity.
  - cbn [List.concat]. destruct st as [|st].
    + cbn [Nat.mul Nat.add nth]. apply app_nth1. lia.
    + rewrite app_nth2 by (cbn; lia). cbn [nth]. rewrite <- IH by exact H. f_equal. cbn [Nat.mul]. lia.
Qed.
Lemma concat_length {A} W (l : list (list A)) : List.Forall (fun s => List.length s = W) l -> List.length (List.concat l) = (List.length l * W)%nat.
Proof. induction 1 as [|s l Hs F IH]; cbn; auto. rewrite app_length, IH. lia. Qed.
Lemma nth_divmod {A} (d : A) W (l : list (list A)) n : List.Forall (fun s => List.length s = W) l -> (n < List.length (List.concat l))%nat ->
  nth (n mod W) (nth (n / W) l []) d = nth n (List.concat l) d.
Proof.
  intros F H. assert (W <> 0)%nat by (intros ->; rewrite (concat_length _ _ F) in H; lia).
  rewrite <- (concat_nth d W l F (n / W) (n mod W)) by (apply Nat.mod_upper_bound; auto).
  f_equal. rewrite Nat.mul_comm. symmetry. apply Nat.div_mod. auto.
Qed.
