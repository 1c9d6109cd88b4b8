(** Properties C46-C48: the simplex minimiser. *)
From Coq Require Import Reals List Bool Arith Permutation Sorted Lra Lia ZArith.
From Verif Require Import SimplexModel SimplexProofs.
Import ListNotations.
Local Open Scope R_scope.

(** A sort meeting the contract, for the examples: insertion. *)
Definition sleb (a b : ev) : bool := isnan b || fle a b.
Fixpoint insv (v : vertex) (l : list vertex) : list vertex :=
  match l with [] => [v] | w :: r => if sleb (snd v) (snd w) then v :: w :: r else w :: insv v r end.
Definition isort (l : list vertex) : list vertex := fold_right insv [] l.
Lemma sleb_spec a b : sleb a b = true <-> sle a b.
Proof.
  unfold sleb, sle. destruct b; simpl; rewrite ?orb_true_iff; split; intros H; auto;
    try (destruct H as [H|H]; auto; discriminate); destruct a; simpl in *; auto; try discriminate.
Qed.
Lemma sle_total a b : sle a b \/ sle b a.
Proof. destruct a, b; unfold sle; simpl; auto; ev_cases; auto. right. right. exfalso. lra. Qed.
Lemma isort_sorts : sorts isort.
Proof.
  intros l. induction l as [|v l [P S]]; simpl; [split; constructor|]. split.
  - assert (Q : forall w m, Permutation (w :: m) (insv w m)).
    { intros w m. induction m as [|a m IH]; simpl; auto. destruct (sleb _ _); auto.
      apply perm_trans with (a :: w :: m); [apply perm_swap|]. constructor; auto. }
    apply perm_trans with (v :: isort l); auto.
  - assert (G : forall m, StronglySorted (fun a b => sle (snd a) (snd b)) m ->
       StronglySorted (fun a b => sle (snd a) (snd b)) (insv v m)).
    { clear. induction m as [|a m IH]; intros H; simpl; [repeat constructor|].
      inversion H as [|? ? H1 H2]; subst. destruct (sleb _ _) eqn:E.
      - apply sleb_spec in E. constructor; auto. constructor; auto. rewrite Forall_forall in *.
        intros w Hw. eapply sle_trans; eauto.
      - constructor; auto. assert (sle (snd a) (snd v)).
        { destruct (sle_total (snd v) (snd a)) as [C|]; auto. apply sleb_spec in C. congruence. }
        assert (Q : forall w, In w (insv v m) -> w = v \/ In w m).
        { clear. induction m as [|b m IH]; simpl; intros w Hw; [destruct Hw as [<-|[]]; auto|].
          destruct (sleb _ _); simpl in Hw; destruct Hw as [<-|Hw]; auto. destruct (IH w Hw); auto. }
        rewrite Forall_forall in *. intros w Hw. destruct (Q w Hw) as [->|]; auto. }
    apply G, S.
Qed.

(** ** C46 *)
Section Float.
  Variable srt : list vertex -> list vertex.
  Hypothesis HS : sorts srt.
  Variables (xtol ftol : R) (maxfun maxiter : nat).
  Definition min_float f := minimize f id srt xtol ftol maxfun maxiter.
  Definition evaluated f x0 := calls (final f id srt xtol ftol maxfun maxiter x0).

  (** For any objective, even with nan values: the point returned has been
      evaluated, and is at least as good as x0 and as every starting vertex. *)
  Theorem C46_never_worse_partial : forall f x0, x0 <> [] ->
    In (x_ (min_float f x0)) (evaluated f x0) /\
    forall p, In p (start_points id x0) -> sle (f (x_ (min_float f x0))) (f p).
  Proof.
    intros f x0 NE. unfold min_float, evaluated, minimize, final.
    set (x := loop _ _ _ _ _ _ _ _ _).
    assert (L : length (sim x) = S (length x0)) by apply (loop_len f id srt xtol ftol maxfun maxiter HS).
    assert (HH := loop_honest f srt xtol ftol maxfun maxiter HS maxiter x0). fold x in HH.
    destruct (HH (hd zero (sim x))) as [H1 H2]; [destruct (sim x); [discriminate|simpl; auto]|].
    split; [exact H2|]. intros p Hp. unfold finish. cbn [x_]. rewrite <- H1.
    apply (loop_best f srt xtol ftol maxfun maxiter HS); auto.
  Qed.

  (** Without nan values: the reported value is the objective at the returned
      point, the least over all points ever evaluated. *)
  Theorem C46_best_evaluated_partial : forall f x0, x0 <> [] -> (forall p, f p <> NaN) ->
    fun_ (min_float f x0) = f (x_ (min_float f x0)) /\
    forall p, In p (evaluated f x0) -> fle (f (x_ (min_float f x0))) (f p) = true.
  Proof.
    intros f x0 NE NN. unfold min_float, evaluated, minimize, final.
    assert (K : (fun x => ((2 <= length (sim x))%nat /\ honest f (calls x) (sim x)) /\
       (forall v, In v (sim x) -> sle (snd (hd zero (sim x))) (snd v)) /\
       (forall p, In p (calls x) -> sle (snd (hd zero (sim x))) (f p)))
       (loop f id srt xtol ftol maxfun maxiter maxiter (init f id srt x0))).
    { apply loop_inv.
      - intros x ((H1 & H2) & H3 & H4) _ _ _. cbn [sim calls].
        assert (HD : forall v, In v (srt (fst (step f id (sim x)))) -> sle (snd (hd zero (srt (fst (step f id (sim x)))))) (snd v)).
        { intros v Hv. apply (srt_hd srt HS). rewrite (srt_in srt HS) in Hv. auto. }
        repeat split; auto.
        + rewrite (srt_len srt HS), step_len; auto. intros E. rewrite E in H1. simpl in H1. lia.
        + apply (step_honest f (calls x) (sim x) H2 v). rewrite <- (srt_in srt HS). auto.
        + apply (step_honest f (calls x) (sim x) H2 v). rewrite <- (srt_in srt HS). auto.
        + intros p Hp. apply in_app_or in Hp. destruct Hp as [Hp|Hp].
          * destruct (step_best_ever f (sim x) p NN) as (v & V1 & V2); auto.
            { intros w Hw. split; [apply (H2 w Hw)|apply in_map; auto]. }
            apply sle_trans with (snd v); auto. apply (srt_hd srt HS). auto.
          * apply sle_trans with (snd (hd zero (sim x))); auto. apply (srt_hd srt HS). apply step_keeps_best; auto.
      - assert (HI := init_honest f srt HS x0). repeat split.
        + rewrite (init_len f id srt HS). destruct x0; [congruence|simpl; lia].
        + apply (HI v); auto.
        + apply (HI v); auto.
        + intros v Hv. unfold init in *. cbn [sim] in *. apply (srt_hd srt HS). rewrite (srt_in srt HS) in Hv. auto.
        + intros p Hp. unfold init in *. cbn [sim calls] in *. rewrite <- in_rev in Hp.
          change (f p) with (snd (p, f p)). apply (srt_hd srt HS). apply (in_map (fun q => (q, f q))) in Hp. exact Hp. }
    set (x := loop _ _ _ _ _ _ _ _ _) in *. cbv beta in K. destruct K as ((H1 & H2) & H3 & H4).
    destruct (sim x) as [|v0 r] eqn:EQ; [simpl in H1; lia|].
    assert (V0 : snd v0 = f (fst v0)) by (apply (H2 v0); simpl; auto).
    unfold finish. cbn [x_ fun_]. rewrite EQ. cbn [hd map] in *. split.
    - rewrite <- V0. unfold emin_list. cbn [map]. 
      assert (A : forall v, In v (map snd r) -> v <> NaN /\ fle (snd v0) v = true).
      { intros v Hv. apply in_map_iff in Hv. destruct Hv as (w & <- & Hw).
        assert (snd w <> NaN). { destruct (H2 w) as [E _]; [simpl; auto|]. rewrite E. apply NN. }
        split; auto. apply sle_fle; auto; [rewrite V0; apply NN|]. apply H3. simpl. auto. }
      assert (N0 : snd v0 <> NaN) by (rewrite V0; apply NN). clear - A N0.
      induction (map snd r) as [|b m IH]; simpl; auto.
      assert (E : emin (snd v0) b = snd v0).
      { destruct (A b) as [B1 B2]; [simpl; auto|]. unfold emin. rewrite B2. destruct (snd v0), b; simpl; congruence. }
      rewrite E. apply IH. intros v Hv. apply A. simpl. auto.
    - intros p Hp. rewrite <- V0. apply sle_fle; auto. rewrite V0. apply NN.
  Qed.

  (** Refuted with nan values: the objective is finite at x0 and nan elsewhere
      (a model function that overflows); whatever the options, x0 is returned but
      the reported value is nan. *)
  Theorem C46_nan_refuted : forall a v, a <> 0 ->
    exists f, f [a] = Fin v /\ x_ (min_float f [a]) = [a] /\ fun_ (min_float f [a]) = NaN.
  Proof.
    intros a v NA. set (f := fun p : point => match p with b :: _ => if Req_EM_T b a then Fin v else NaN | [] => NaN end).
    exists f. assert (FA : f [a] = Fin v) by (unfold f; destruct (Req_EM_T a a); congruence).
    assert (FB : forall b, b <> a -> f [b] = NaN) by (intros b Hb; unfold f; destruct (Req_EM_T b a); congruence).
    split; auto.
    assert (S2 : forall b, b <> a -> srt [([a], Fin v); ([b], NaN)] = [([a], Fin v); ([b], NaN)]).
    { intros b Hb. destruct (HS [([a], Fin v); ([b], NaN)]) as [P S].
      apply Permutation_length_2_inv in P. destruct P as [P|P]; auto. rewrite P in *.
      inversion S as [|? ? _ F]; subst. inversion F as [|? ? G _]; subst. destruct G; discriminate. }
    assert (K : (fun x => exists b, b <> a /\ sim x = [([a], Fin v); ([b], NaN)])
       (loop f id srt xtol ftol maxfun maxiter maxiter (init f id srt [a]))).
    { apply loop_inv.
      - intros x (b & Hb & E) _ _ _. rewrite E. clear E.
        assert (E : step f id [([a], Fin v); ([b], NaN)] =
          ([([a], Fin v); ([a + 1 / 2 * (b + -1 * a)], NaN)],
           [[a + 1 / 2 * (b + -1 * a)]; [1 / 2 * (/ 1 * a) + 1 / 2 * b]; [2 * (/ 1 * a) + -1 * b]])).
        { unfold step, shrink. cbn [length Nat.sub last_v last removelast map fst snd vsum vscale vadd combine hd nth rev app put].
          change (INR 1) with 1. unfold id. rewrite !FB by lra. cbn [flt]. reflexivity. }
        rewrite E. cbn [fst sim]. exists (a + 1 / 2 * (b + -1 * a)). split; [lra|]. apply S2. lra.
      - exists ((1 + 5 / 100) * a). split; [lra|]. unfold init. cbn [sim start_points seq length map perturbed nth set_nth].
        unfold perturbed. cbn [nth set_nth]. destruct (Req_EM_T a 0); [contradiction|]. unfold id. rewrite FA, FB by lra. apply S2. lra. }
    destruct K as (b & Hb & E). unfold min_float, minimize, finish, final. cbn [x_ fun_]. rewrite E. split; reflexivity.
  Qed.
End Float.
Print Assumptions C46_never_worse_partial.
Print Assumptions C46_best_evaluated_partial.
Print Assumptions C46_nan_refuted.

(** a case for the hypotheses: a parabola from 1, insertion sort *)
Example C46_example : sorts isort /\ [1] <> [] /\
  (forall p, (fun p : point => Fin ((nth 0 p 0 - 3) ^ 2)) p <> NaN).
Proof. split; [apply isort_sorts|]. split; intros; discriminate. Qed.

(** ** C47 *)
(** The tolerances: relative distance of every vertex and value to the best one. *)
Definition tolerances_met (xtol ftol : R) (s : list vertex) : Prop :=
  match s with
  | [] => False
  | (p0, f0) :: r => forall p v, In (p, v) r ->
      (forall i, (i < length p0)%nat -> nth i p0 0 <> 0 /\ Rabs (nth i p 0 - nth i p0 0) <= xtol * Rabs (nth i p0 0)) /\
      exists a b, f0 = Fin a /\ v = Fin b /\ a <> 0 /\ Rabs (a - b) <= ftol * Rabs a
  end.
Lemma rel_spec tol ref v : ref <> 0 -> (Rabs ((v - ref) / ref) <= tol <-> Rabs (v - ref) <= tol * Rabs ref).
Proof.
  intros H. assert (P : 0 < Rabs ref) by (apply Rabs_pos_lt; auto). unfold Rdiv. rewrite Rabs_mult, Rabs_inv.
  split; intros Q.
  - apply Rmult_le_compat_r with (r := Rabs ref) in Q; [|lra]. rewrite Rmult_assoc, Rinv_l in Q by lra. lra.
  - apply Rmult_le_reg_r with (Rabs ref); auto. rewrite Rmult_assoc, Rinv_l by lra. lra.
Qed.
Lemma converged_spec xtol ftol s n : dimP n s -> s <> [] -> (converged xtol ftol s = true <-> tolerances_met xtol ftol s).
Proof.
  intros D NE. destruct s as [|[p0 f0] r]; [congruence|]. cbn [converged tolerances_met]. rewrite andb_true_iff, !forallb_forall.
  assert (D0 : length p0 = n) by (apply (D (p0, f0)); simpl; auto).
  assert (CP : forall p, length p = n -> (close_points xtol p0 p = true <->
    forall i, (i < length p0)%nat -> nth i p0 0 <> 0 /\ Rabs (nth i p 0 - nth i p0 0) <= xtol * Rabs (nth i p0 0))).
  { intros p LP. unfold close_points. rewrite forallb_forall. split.
    - intros H i Hi. specialize (H (nth i p0 0, nth i p 0)). cbn [fst snd] in H.
      assert (I : In (nth i p0 0, nth i p 0) (combine p0 p)).
      { rewrite <- combine_nth by lia. apply nth_In. rewrite combine_length. lia. }
      specialize (H I). unfold rel_close in H. destruct (Req_EM_T _ _); [discriminate|]. split; auto.
      apply rel_spec; auto. destruct (Rle_dec _ _); [auto|discriminate].
    - intros H [u w] I. destruct (In_nth _ _ (0, 0) I) as (i & Hi & E). rewrite combine_length in Hi. rewrite combine_nth in E by lia.
      injection E as <- <-. cbn [fst snd]. destruct (H i ltac:(lia)) as [A B]. unfold rel_close. destruct (Req_EM_T _ _); [contradiction|].
      destruct (Rle_dec _ _) as [|C]; auto. exfalso. apply C. apply rel_spec; auto. }
  assert (CV : forall v, close_values ftol f0 v = true <-> exists a b, f0 = Fin a /\ v = Fin b /\ a <> 0 /\ Rabs (a - b) <= ftol * Rabs a).
  { intros v. split.
    - intros H. destruct f0 as [a| | |]; try discriminate. destruct v as [b| | |]; try discriminate. simpl in H.
      destruct (Req_EM_T a 0); [discriminate|]. exists a, b. repeat split; auto. destruct (Rle_dec _ _) as [C|]; [|discriminate].
      rewrite Rabs_minus_sym. apply (rel_spec ftol a b); auto. rewrite <- Rabs_Ropp. replace (- ((b - a) / a)) with ((a - b) / a); auto. field. auto.
    - intros (a & b & -> & -> & N & Q). simpl. destruct (Req_EM_T a 0); [contradiction|]. destruct (Rle_dec _ _) as [|C]; auto. exfalso. apply C.
      rewrite <- Rabs_Ropp. replace (- ((a - b) / a)) with ((b - a) / a) by (field; auto). apply rel_spec; auto. rewrite Rabs_minus_sym. auto. }
  split.
  - intros [A B] p v I. split; [apply CP, (A (p, v) I); apply (D (p, v)); simpl; auto|apply CV, (B (p, v) I)].
  - intros H. split; intros [p v] I; destruct (H p v I) as [A B]; [apply CP; auto; apply (D (p, v)); simpl; auto|apply CV; auto].
Qed.

Section Budget.
  Variable f : point -> ev.
  Variable store : R -> R.
  Variable srt : list vertex -> list vertex.
  Hypothesis HS : sorts srt.
  Variables (xtol ftol : R) (maxfun maxiter : nat).
  Notation run := (loop f store srt xtol ftol maxfun maxiter).
  Notation start := (init f store srt).
  Notation result x0 := (minimize f store srt xtol ftol maxfun maxiter x0).
  (** the simplex after at most [k] passes of the loop *)
  Definition after (k : nat) (x0 : point) : st := run k (start x0).
  Definition in_budget (x : st) : Prop := (length (calls x) < maxfun)%nat /\ (iter x < maxiter)%nat.

  (** Iterations never exceed maxiter; evaluations never exceed maxfev - 1 plus the
      most expensive iteration (a reflection, a contraction, N shrunk vertices);
      and the loop ends by itself. *)
  Theorem C47_budget : forall x0, x0 <> [] ->
    (nit (result x0) <= Nat.max 1 maxiter)%nat /\
    (nfev (result x0) <= Nat.max (length x0 + 1) (maxfun - 1 + (length x0 + 2)))%nat /\
    (forall k, (maxiter <= k)%nat -> after k x0 = after maxiter x0).
  Proof.
    intros x0 NE.
    assert (K : (fun x => length (sim x) = S (length x0) /\ (1 <= iter x <= Nat.max 1 maxiter)%nat /\
       (length (calls x) <= Nat.max (length x0 + 1) (maxfun - 1 + (length x0 + 2)))%nat) (run maxiter (start x0))).
    { apply loop_inv.
      - intros x (H1 & H2 & H3) L1 L2 _. cbn [sim calls iter].
        assert (N : sim x <> []) by (intros E; rewrite E in H1; discriminate).
        pose proof (step_calls f store (sim x) N) as SC. pose proof (step_len f store (sim x) N) as SL.
        rewrite (srt_len srt HS), SL, app_length. split; [auto|]. split; lia.
      - split; [apply (init_len f store srt HS)|]. split; [cbn [init iter]; lia|].
        unfold init. cbn [calls]. rewrite rev_length. unfold start_points. cbn [length]. rewrite map_length, seq_length. lia. }
    destruct K as (_ & K2 & K3). split; [|split]; try (unfold minimize, finish, final; cbn [nit nfev]; lia).
    intros k Hk. unfold after. replace k with (maxiter + (k - maxiter))%nat by lia. apply loop_enough. simpl. lia.
  Qed.

  (** Status 0 exactly when the loop stopped within its budget, and then the
      tolerances are met by the final simplex; otherwise they were not met by
      any simplex reached within the budget. *)
  Theorem C47_status : forall x0, x0 <> [] ->
    (status (result x0) <= 2)%nat /\
    (status (result x0) = 0%nat -> tolerances_met xtol ftol (sim (after maxiter x0))) /\
    (status (result x0) <> 0%nat -> forall k, in_budget (after k x0) -> ~ tolerances_met xtol ftol (sim (after k x0))) /\
    (status (result x0) = 1%nat -> (maxfun <= nfev (result x0))%nat) /\
    (status (result x0) = 2%nat -> (maxiter <= nit (result x0))%nat).
  Proof.
    intros x0 NE. unfold minimize, final, finish, after. cbn [status nfev nit].
    assert (DS : forall k, converged xtol ftol (sim (run k (start x0))) = true <-> tolerances_met xtol ftol (sim (run k (start x0)))).
    { intros k. apply (converged_spec _ _ _ (length x0)); [apply loop_dim; auto|].
      pose proof (loop_len f store srt xtol ftol maxfun maxiter HS k x0) as L. intros E. rewrite E in L. discriminate. }
    assert (GD : going xtol ftol maxfun maxiter (run maxiter (start x0)) = false) by (apply loop_done; simpl; lia).
    split; [repeat destruct (Nat.leb _ _); lia|]. split; [|split].
    - intros H. apply DS. unfold going in GD. destruct (Nat.leb maxfun _) eqn:E1; [discriminate|]. destruct (Nat.leb maxiter _) eqn:E2; [discriminate|].
      apply Nat.leb_gt in E1, E2. apply Nat.ltb_lt in E1, E2. rewrite E1, E2 in GD. simpl in GD. apply negb_false_iff in GD. auto.
    - intros H k [B1 B2] T. apply H. apply DS in T.
      assert (G0 : going xtol ftol maxfun maxiter (run k (start x0)) = false) by (unfold going; rewrite T, andb_false_r; reflexivity).
      assert (E : run maxiter (start x0) = run k (start x0)).
      { destruct (le_lt_dec k maxiter) as [L|L]; [apply loop_first; auto|].
        symmetry. apply loop_first; [lia|auto]. }
      rewrite E. apply Nat.leb_gt in B1, B2. rewrite B1, B2. reflexivity.
    - split; destruct (Nat.leb maxfun _) eqn:E1; try discriminate.
      + intros _. apply Nat.leb_le; auto.
      + destruct (Nat.leb maxiter _); discriminate.
      + destruct (Nat.leb maxiter _) eqn:E2; try discriminate. intros _. apply Nat.leb_le; auto.
  Qed.
End Budget.
Print Assumptions C47_budget.
Print Assumptions C47_status.

(** ** C48 *)
(** Truncation towards zero, what storing a float in an integer array does. *)
Definition trunc (x : R) : R := if Rle_dec 0 x then IZR (Int_part x) else - IZR (Int_part (- x)).
Lemma Int_part_is r z : IZR z <= r < IZR z + 1 -> Int_part r = z.
Proof.
  intros [A B]. destruct (base_Int_part r) as [C D].
  assert (IZR z < IZR (Int_part r + 1)) by (rewrite plus_IZR; lra). assert (IZR (Int_part r) < IZR (z + 1)) by (rewrite plus_IZR; lra).
  apply lt_IZR in H, H0. lia.
Qed.
Lemma trunc_small a : (1 <= a <= 19)%Z -> trunc ((1 + 5 / 100) * IZR a) = IZR a.
Proof.
  intros H. assert (1 <= IZR a <= 19) by (split; apply IZR_le; lia). unfold trunc. destruct (Rle_dec _ _); [|lra].
  f_equal. apply Int_part_is. lra.
Qed.
Lemma trunc_small_neg a : (-19 <= a <= -1)%Z -> trunc ((1 + 5 / 100) * IZR a) = IZR a.
Proof.
  intros H. assert (-19 <= IZR a <= -1) by (split; apply IZR_le; lia). unfold trunc. destruct (Rle_dec _ _); [lra|].
  replace (IZR a) with (- IZR (- a)) at 2 by (rewrite opp_IZR; lra). f_equal. f_equal. apply Int_part_is.
  rewrite opp_IZR. lra.
Qed.
Lemma set_nth_same k : forall p, set_nth k (nth k p 0) p = p.
Proof. induction k; intros [|a p]; simpl; auto. f_equal. auto. Qed.

(** Refuted: from any integer vector with entries of size 1..19 the minimiser
    reports success at once and returns the start, whatever the objective (finite and
    non-zero at the start), because the starting simplex collapses. *)
Theorem C48_integer_start_refuted : forall srt xtol ftol maxfun maxiter f (z : list Z) v,
  sorts srt -> 0 <= xtol -> 0 <= ftol -> z <> [] -> (length z + 1 < maxfun)%nat -> (1 < maxiter)%nat ->
  Forall (fun a => (1 <= a <= 19)%Z \/ (-19 <= a <= -1)%Z) z ->
  f (map IZR z) = Fin v -> v <> 0 ->
  let r := minimize f trunc srt xtol ftol maxfun maxiter (map IZR z) in
  x_ r = map IZR z /\ status r = 0%nat /\ nit r = 1%nat.
Proof.
  intros srt xtol ftol maxfun maxiter f z v HS HX HF NE HM HI HZ FV NV. cbv zeta.
  set (x0 := map IZR z) in *. assert (LX : length x0 = length z) by apply map_length.
  assert (SP : forall p, In p (start_points trunc x0) -> p = x0).
  { intros p [<-|Hp]; auto. apply in_map_iff in Hp. destruct Hp as (k & <- & Hk). apply in_seq in Hk.
    unfold perturbed. set (a := nth k x0 0).
    assert (A : trunc ((1 + 5 / 100) * a) = a /\ a <> 0).
    { unfold a, x0. rewrite (map_nth IZR z 0%Z k). rewrite Forall_forall in HZ.
      destruct (HZ (nth k z 0%Z)) as [Q|Q]; [apply nth_In; lia| |].
      - split; [apply trunc_small; auto|]. intros E. apply eq_IZR in E. lia.
      - split; [apply trunc_small_neg; auto|]. intros E. apply eq_IZR in E. lia. }
    destruct A as [A1 A2]. destruct (Req_EM_T a 0); [contradiction|]. rewrite A1. apply set_nth_same. }
  assert (VS : forall w, In w (sim (init f trunc srt x0)) -> w = (x0, Fin v)).
  { intros w Hw. unfold init in Hw. cbn [sim] in Hw. rewrite (srt_in srt HS) in Hw. apply (in_map_iff (fun p => (p, f p))) in Hw.
    destruct Hw as (p & <- & Hp). rewrite (SP p Hp), FV. reflexivity. }
  pose proof (init_len f trunc srt HS x0) as L.
  assert (D0 : Forall (fun a => a <> 0) x0).
  { unfold x0. rewrite Forall_map. eapply Forall_impl; [|apply HZ]. intros a Ha E. cbv beta in Ha. apply (eq_IZR a 0) in E. lia. }
  assert (CC : close_points xtol x0 x0 = true).
  { unfold close_points. apply forallb_forall. intros [u w] I. destruct (In_nth _ _ (0, 0) I) as (i & Hi & E). rewrite combine_length in Hi.
    rewrite combine_nth in E by auto. injection E as <- <-. cbn [fst snd]. unfold rel_close. rewrite Forall_forall in D0.
    assert (N : nth i x0 0 <> 0) by (apply D0, nth_In; lia). destruct (Req_EM_T _ _); [contradiction|].
    destruct (Rle_dec _ _) as [|C]; auto. exfalso. apply C. unfold Rdiv. rewrite Rminus_diag_eq, Rmult_0_l, Rabs_R0; auto. }
  assert (CO : converged xtol ftol (sim (init f trunc srt x0)) = true).
  { destruct (sim (init f trunc srt x0)) as [|[p0 f0] r]; [discriminate|].
    assert (E := VS (p0, f0) (or_introl eq_refl)). injection E as -> ->. cbn [converged]. apply andb_true_iff. split; apply forallb_forall; intros w Hw;
    rewrite (VS w (or_intror Hw)); cbn [fst snd]; auto.
    simpl. destruct (Req_EM_T v 0); [contradiction|]. destruct (Rle_dec _ _) as [|C]; auto. exfalso. apply C. unfold Rdiv.
    rewrite Rminus_diag_eq, Rmult_0_l, Rabs_R0; auto. }
  assert (FI : final f trunc srt xtol ftol maxfun maxiter x0 = init f trunc srt x0).
  { apply loop_stop. unfold going. rewrite CO. apply andb_false_r. }
  unfold minimize, finish. rewrite FI. cbn [x_ status nit].
  assert (C : length (calls (init f trunc srt x0)) = S (length z)).
  { unfold init. cbn [calls]. rewrite rev_length. unfold start_points. cbn [length]. now rewrite map_length, seq_length, LX. }
  rewrite C. split; [|split].
  - destruct (sim (init f trunc srt x0)) as [|w r]; [discriminate|]. rewrite (VS w (or_introl eq_refl)). reflexivity.
  - destruct (Nat.leb_spec maxfun (S (length z))); [lia|]. simpl. destruct (Nat.leb_spec maxiter 1); [lia|]. reflexivity.
  - reflexivity.
Qed.
Print Assumptions C48_integer_start_refuted.

(** The same start as a float moves: the two differ for the parabola with minimum 3. *)
Theorem C48_dtype_refuted : forall srt xtol ftol maxfun maxiter, sorts srt -> 0 <= xtol -> 0 <= ftol ->
  (2 < maxfun)%nat -> (1 < maxiter)%nat ->
  let f := fun p : point => Fin ((nth 0 p 0 - 3) ^ 2) in
  x_ (minimize f trunc srt xtol ftol maxfun maxiter [1]) <> x_ (minimize f id srt xtol ftol maxfun maxiter [1]).
Proof.
  intros srt xtol ftol maxfun maxiter HS HX HF HM HI f E.
  destruct (C48_integer_start_refuted srt xtol ftol maxfun maxiter f [1%Z] ((1 - 3) ^ 2)) as (A & _); auto; try discriminate; try (simpl; lia); try lra.
  - constructor; [left; lia|constructor].
  - cbn [map] in A. rewrite A in E. destruct (C46_never_worse_partial srt HS xtol ftol maxfun maxiter f [1]) as [_ B]; [discriminate|].
    unfold min_float in B. rewrite <- E in B. specialize (B [(1 + 5 / 100) * 1]). destruct B as [B|B].
    + right. left. unfold perturbed. cbn. destruct (Req_EM_T 1 0); [lra|]. reflexivity.
    + discriminate.
    + simpl in B. destruct (Rle_dec _ _) as [C|]; [lra|discriminate].
Qed.
Print Assumptions C48_dtype_refuted.

(** Floats: storing changes nothing, so the result only depends on the values
    of x0. *)
Theorem C48_exact_storage_partial : forall f store srt xtol ftol maxfun maxiter x0, (forall r, store r = r) ->
  minimize f store srt xtol ftol maxfun maxiter x0 = minimize f id srt xtol ftol maxfun maxiter x0.
Proof.
  intros f store srt xtol ftol maxfun maxiter x0 H. assert (PU : forall p, put store p = put id p) by (intros; apply map_ext; auto).
  assert (ST : forall s, step f store s = step f id s).
  { intros s. unfold step. rewrite !PU. assert (SH : shrink f store s = shrink f id s); [|rewrite !SH; reflexivity].
    destruct s as [|v0 r]; auto. cbn [shrink]. assert (M : forall l : list vertex,
      map (fun v => put store (vadd (fst v0) (vscale (1 / 2) (vadd (fst v) (vscale (-1) (fst v0)))))) l =
      map (fun v => put id (vadd (fst v0) (vscale (1 / 2) (vadd (fst v) (vscale (-1) (fst v0)))))) l) by (intros; apply map_ext; auto).
    rewrite M. reflexivity. }
  assert (LO : forall k x, loop f store srt xtol ftol maxfun maxiter k x = loop f id srt xtol ftol maxfun maxiter k x).
  { induction k; intros x; simpl; auto. rewrite ST. destruct (_ && _)%bool; auto. destruct (converged _ _ _); auto. destruct (step f id (sim x)); auto. }
  unfold minimize, final. rewrite LO. f_equal. f_equal. unfold init.
  assert (SP : start_points store x0 = start_points id x0); [|rewrite SP; reflexivity].
  unfold start_points. f_equal. apply map_ext. intros k. unfold perturbed. rewrite H. reflexivity.
Qed.
Print Assumptions C48_exact_storage_partial.
