(** Lemmas on the simplex minimiser. *)
From Coq Require Import Reals List Bool Arith Permutation Sorted Lra Lia.
From Verif Require Import SimplexModel.
Import ListNotations.
Local Open Scope R_scope.

(** Contract of argsort + take: a permutation in increasing order, nan last. *)
Definition sorts (srt : list vertex -> list vertex) : Prop := forall l,
  Permutation l (srt l) /\ StronglySorted (fun a b => sle (snd a) (snd b)) (srt l).

Ltac ev_cases := repeat match goal with
  | |- context [Rle_dec ?a ?b] => destruct (Rle_dec a b)
  | H : context [Rle_dec ?a ?b] |- _ => destruct (Rle_dec a b)
  | |- context [Rlt_dec ?a ?b] => destruct (Rlt_dec a b)
  | H : context [Rlt_dec ?a ?b] |- _ => destruct (Rlt_dec a b)
  end.

Lemma sle_refl a : sle a a.
Proof. destruct a; unfold sle, fle; auto; ev_cases; auto; lra. Qed.
Lemma sle_trans a b c : sle a b -> sle b c -> sle a c.
Proof.
  intros [->|H1] [->|H2]; try (left; reflexivity); [unfold fle in H2; destruct c; discriminate|].
  destruct a, b, c; simpl in *; try discriminate; unfold sle; simpl; auto; ev_cases; auto; lra.
Qed.
Lemma not_flt_sle a b : b <> NaN -> flt a b = false -> sle b a.
Proof. intros N H. destruct a, b; simpl in H; try discriminate; unfold sle; simpl; try tauto; auto; ev_cases; try discriminate; auto; try tauto; lra. Qed.
Lemma flt_sle a b : flt a b = true -> sle a b.
Proof. intros H. destruct a, b; simpl in H; try discriminate; unfold sle; simpl; auto; ev_cases; try discriminate; auto; lra. Qed.
Lemma not_fle_sle a b : b <> NaN -> fle a b = false -> sle b a.
Proof. intros N H. destruct a, b; simpl in H; try discriminate; unfold sle; simpl; auto; try congruence; ev_cases; try discriminate; auto; lra. Qed.
Lemma fle_sle a b : fle a b = true -> sle a b.
Proof. right; auto. Qed.
Lemma sle_fle a b : a <> NaN -> b <> NaN -> sle a b -> fle a b = true.
Proof. intros A B [->|H]; auto; congruence. Qed.
Lemma sle_not_nan a b : sle a b -> b <> NaN -> a <> NaN.
Proof. intros [->|H] N; [congruence|]. intros ->. discriminate. Qed.

Section P.
  Variable f : point -> ev.
  Variable store : R -> R.
  Variable srt : list vertex -> list vertex.
  Variables (xtol ftol : R) (maxfun maxiter : nat).
  Hypothesis HS : sorts srt.
  Notation step := (step f store).
  Notation loop := (loop f store srt xtol ftol maxfun maxiter).
  Notation init := (init f store srt).

  Lemma srt_len l : length (srt l) = length l.
  Proof. symmetry. apply Permutation_length, HS. Qed.
  Lemma srt_in l v : In v (srt l) <-> In v l.
  Proof. destruct (HS l) as [P _]. split; intros H; eapply Permutation_in; try eassumption. apply Permutation_sym; auto. Qed.
  Lemma srt_hd l v : In v l -> sle (snd (hd zero (srt l))) (snd v).
  Proof.
    intros H. rewrite <- srt_in in H. destruct (HS l) as [_ S]. destruct (srt l) as [|h r]; [destruct H|].
    inversion S as [|? ? S1 S2]; subst. simpl. destruct H as [->|H]; [apply sle_refl|]. rewrite Forall_forall in S2. auto.
  Qed.
  Lemma srt_hd_in l : l <> [] -> In (hd zero (srt l)) l.
  Proof.
    intros H. rewrite <- srt_in. assert (L := srt_len l). destruct (srt l); simpl; auto. destruct l; simpl in *; congruence.
  Qed.

  (** *** shape of one iteration *)
  Lemma replace_last_len s v : s <> [] -> length (replace_last s v) = length s.
  Proof.
    intros H. unfold replace_last. rewrite app_length. simpl. rewrite (app_removelast_last zero H) at 2. rewrite app_length. simpl. reflexivity.
  Qed.
  Lemma shrink_len s : length (fst (shrink f store s)) = length s.
  Proof. destruct s as [|v r]; simpl; auto. now rewrite !map_length. Qed.
  Lemma shrink_calls s : (length (snd (shrink f store s)) <= length s - 1)%nat.
  Proof. destruct s as [|v r]; cbn [shrink fst snd length]; auto. rewrite rev_length, map_length. simpl. rewrite Nat.sub_0_r. reflexivity. Qed.
  Lemma step_len s : s <> [] -> length (fst (step s)) = length s.
  Proof.
    intros H. unfold step. destruct (flt _ _). { cbn [fst]. destruct (flt _ _); apply replace_last_len; auto. }
    destruct (flt _ _); [apply replace_last_len; auto|].
    destruct (flt _ _).
    - destruct (fle _ _); [apply replace_last_len; auto|]. pose proof (shrink_len s) as SL. destruct (shrink f store s). exact SL.
    - destruct (flt _ _); [apply replace_last_len; auto|]. pose proof (shrink_len s) as SL. destruct (shrink f store s). exact SL.
  Qed.
  Lemma step_calls s : s <> [] -> (1 <= length (snd (step s)) <= length s + 1)%nat.
  Proof.
    intros H. assert (1 <= length s)%nat by (destruct s; simpl; [congruence|lia]). unfold step.
    destruct (flt _ _). { cbn [snd length]. lia. }
    destruct (flt _ _); [cbn [snd length]; lia|].
    pose proof (shrink_calls s) as SC. revert SC.
    destruct (flt _ _).
    - destruct (fle _ _); [cbn [snd length]; lia|]. destruct (shrink f store s). cbn [snd]. rewrite app_length. cbn [length]. lia.
    - destruct (flt _ _); [cbn [snd length]; lia|]. destruct (shrink f store s). cbn [snd]. rewrite app_length. cbn [length]. lia.
  Qed.
  Lemma removelast_hd s v : (2 <= length s)%nat -> In (hd zero s) (removelast s ++ [v]).
  Proof. destruct s as [|a [|b r]]; simpl; try lia. auto. Qed.
  (** the best vertex is kept *)
  Lemma step_keeps_best s : (2 <= length s)%nat -> In (hd zero s) (fst (step s)).
  Proof.
    intros H. assert (SH : In (hd zero s) (fst (shrink f store s))) by (destruct s; simpl in *; [lia|auto]).
    unfold step. destruct (flt _ _). { cbn [fst]. destruct (flt _ _); apply removelast_hd; auto. }
    destruct (flt _ _); [apply removelast_hd; auto|].
    destruct (flt _ _).
    - destruct (fle _ _); [apply removelast_hd; auto|]. destruct (shrink f store s); auto.
    - destruct (flt _ _); [apply removelast_hd; auto|]. destruct (shrink f store s); auto.
  Qed.

  (** *** an induction principle for the loop *)
  Lemma loop_inv (P : st -> Prop) :
    (forall x, P x -> (length (calls x) < maxfun)%nat -> (iter x < maxiter)%nat -> converged xtol ftol (sim x) = false ->
       P (mkSt (srt (fst (step (sim x)))) (snd (step (sim x)) ++ calls x) (S (iter x)))) ->
    forall fuel x, P x -> P (loop fuel x).
  Proof.
    intros HI. induction fuel as [|k IH]; intros x Hx; simpl; auto.
    destruct (Nat.ltb _ maxfun) eqn:E1; simpl; auto. destruct (Nat.ltb _ maxiter) eqn:E2; auto.
    apply Nat.ltb_lt in E1, E2. destruct (converged _ _ _) eqn:E3; auto.
    specialize (HI x Hx E1 E2 E3). destruct (step (sim x)) as [s' l]. apply IH. exact HI.
  Qed.

  Lemma init_len x0 : length (sim (init x0)) = S (length x0).
  Proof. unfold SimplexModel.init. cbn [sim]. rewrite srt_len, map_length. unfold start_points. cbn [length]. now rewrite map_length, seq_length. Qed.
  Lemma loop_len fuel x0 : length (sim (loop fuel (init x0))) = S (length x0).
  Proof.
    apply (loop_inv (fun x => length (sim x) = S (length x0))); [|apply init_len].
    intros x H _ _ _. cbn [sim]. rewrite srt_len, step_len; auto. intros E. rewrite E in H. discriminate.
  Qed.
End P.

(** *** with float storage every stored value is the objective at the stored point *)
Section F.
  Variable f : point -> ev.
  Variable srt : list vertex -> list vertex.
  Variables (xtol ftol : R) (maxfun maxiter : nat).
  Hypothesis HS : sorts srt.
  Notation step := (step f id).
  Notation loop := (loop f id srt xtol ftol maxfun maxiter).
  Notation init := (init f id srt).

  Lemma put_id p : put id p = p.
  Proof. apply map_id. Qed.

  Definition honest (known : list point) (s : list vertex) : Prop := forall v, In v s -> snd v = f (fst v) /\ In (fst v) known.

  Lemma honest_replace known s p : honest known s -> In p known -> honest known (replace_last s (put id p, f p)).
  Proof.
    intros H HP v Hv. unfold replace_last in Hv. apply in_app_or in Hv. destruct Hv as [Hv|[<-|[]]].
    - apply H. destruct s as [|a r]; [destruct Hv|]. rewrite (app_removelast_last zero) by discriminate. apply in_or_app. auto.
    - simpl. rewrite put_id. auto.
  Qed.
  Lemma honest_more k k' s : honest k s -> (forall p, In p k -> In p k') -> honest k' s.
  Proof. intros H I v Hv. destruct (H v Hv). split; auto. Qed.
  Lemma honest_shrink known s : honest known s -> honest (snd (shrink f id s) ++ known) (fst (shrink f id s)).
  Proof.
    intros H. destruct s as [|v0 r]; simpl; [intros v []|]. intros v [<-|Hv].
    - destruct (H v0) as [A B]; [simpl; auto|]. split; auto. apply in_or_app; auto.
    - apply in_map_iff in Hv. destruct Hv as (p & <- & Hp). simpl. split; auto. apply in_or_app. left. rewrite <- in_rev. auto.
  Qed.
  Lemma step_honest known s : honest known s -> honest (snd (step s) ++ known) (fst (step s)).
  Proof.
    intros H. unfold step. destruct (flt _ _).
    { cbn [fst snd]. destruct (flt _ _); apply honest_replace; try (apply (honest_more known); auto; intros; simpl; auto); simpl; auto. }
    destruct (flt _ _).
    { apply honest_replace; try (apply (honest_more known); auto; intros; simpl; auto); simpl; auto. }
    pose proof (honest_shrink known s H) as SH.
    destruct (flt _ _).
    - destruct (fle _ _).
      + apply honest_replace; try (apply (honest_more known); auto; intros; simpl; auto); simpl; auto.
      + destruct (shrink f id s) as [s' l]. cbn [fst snd] in *. apply (honest_more (l ++ known)); auto.
        intros p Hp. apply in_app_or in Hp. rewrite <- app_assoc. apply in_or_app. destruct Hp; auto. right. simpl. auto.
    - destruct (flt _ _).
      + apply honest_replace; try (apply (honest_more known); auto; intros; simpl; auto); simpl; auto.
      + destruct (shrink f id s) as [s' l]. cbn [fst snd] in *. apply (honest_more (l ++ known)); auto.
        intros p Hp. apply in_app_or in Hp. rewrite <- app_assoc. apply in_or_app. destruct Hp; auto. right. simpl. auto.
  Qed.

  Lemma init_honest x0 : honest (calls (init x0)) (sim (init x0)).
  Proof.
    intros v Hv. unfold SimplexModel.init in Hv; cbn [sim] in Hv. rewrite (srt_in srt HS) in Hv.
    apply (in_map_iff (fun p => (p, f p))) in Hv. destruct Hv as (p & <- & Hp). split; auto. cbn [fst init calls].
    rewrite <- in_rev. auto.
  Qed.
  Lemma loop_honest fuel x0 : honest (calls (loop fuel (init x0))) (sim (loop fuel (init x0))).
  Proof.
    apply (loop_inv f id srt xtol ftol maxfun maxiter (fun x => honest (calls x) (sim x))); [|apply init_honest].
    intros x H _ _ _. cbn [sim calls]. intros v Hv. rewrite (srt_in srt HS) in Hv. apply (step_honest (calls x) (sim x) H v Hv).
  Qed.

  (** the best value never gets worse *)
  Lemma loop_best fuel x0 p : x0 <> [] -> In p (start_points id x0) -> sle (snd (hd zero (sim (loop fuel (init x0))))) (f p).
  Proof.
    intros N Hp.
    assert (K : (fun x => (2 <= length (sim x))%nat /\ sle (snd (hd zero (sim x))) (f p)) (loop fuel (init x0))); [|apply K].
    apply loop_inv.
    - intros x [H1 H2] _ _ _. cbn [sim]. split.
      + rewrite (srt_len srt HS), step_len; auto. intros E. rewrite E in H1. simpl in H1. lia.
      + apply sle_trans with (snd (hd zero (sim x))); auto. apply (srt_hd srt HS). apply step_keeps_best; auto.
    - split.
      + rewrite (init_len f id srt HS). destruct x0; [congruence|simpl; lia].
      + change (f p) with (snd (p, f p)). unfold SimplexModel.init. cbn [sim]. apply (srt_hd srt HS). apply (in_map (fun p => (p, f p))) in Hp. exact Hp.
  Qed.

  (** without nan the simplex contains the best point ever evaluated *)
  Lemma in_replace s v : In v (replace_last s v).
  Proof. unfold replace_last. apply in_or_app. right. simpl. auto. Qed.
  Lemma step_best_ever (s : list vertex) p : (forall q, f q <> NaN) -> honest (map fst s) s -> (2 <= length s)%nat ->
    (forall v, In v s -> sle (snd (hd zero s)) (snd v)) -> In p (snd (step s)) ->
    exists v, In v (fst (step s)) /\ sle (snd v) (f p).
  Proof.
    intros NN HO HL HSo HP. pose proof (step_keeps_best f id s HL) as KB.
    assert (H0 : snd (hd zero s) <> NaN).
    { destruct s as [|v r]; [simpl in HL; lia|]. destruct (HO v (or_introl eq_refl)) as [E _]. simpl. rewrite E. auto. }
    assert (IN : In (last_v s) s).
    { unfold last_v. assert (s <> []) by (destruct s; simpl in HL; [lia|discriminate]).
      rewrite (app_removelast_last zero H) at 2. apply in_or_app. simpl. auto. }
    assert (HN : snd (last_v s) <> NaN) by (destruct (HO _ IN) as [E _]; rewrite E; auto).
    assert (SH : forall q, In q (snd (shrink f id s)) -> exists v, In v (fst (shrink f id s)) /\ sle (snd v) (f q)).
    { destruct s as [|v0 r]; simpl; [tauto|]. intros q Hq. rewrite <- in_rev in Hq. exists (q, f q). split; [|apply sle_refl].
      right. apply (in_map (fun p => (p, f p))) in Hq. exact Hq. }
    revert HP KB. unfold SimplexModel.step. cbv zeta.
    set (vN := last_v s) in *.
    set (xr := vadd (vscale 2 _) (vscale (-1) _)).
    destruct (flt (f xr) (snd (hd zero s))) eqn:E1.
    { cbn [fst snd]. set (xe := vadd (vscale 3 _) _). intros HP _. destruct (flt (f xe) (f xr)) eqn:E2.
      - exists (put id xe, f xe). split; [apply in_replace|]. destruct HP as [<-|[<-|[]]]; [apply sle_refl|apply flt_sle; auto].
      - exists (put id xr, f xr). split; [apply in_replace|]. destruct HP as [<-|[<-|[]]]; [apply not_flt_sle; cbn [snd]; auto|apply sle_refl]. }
    match goal with |- context [flt (f xr) (snd (nth ?k s zero))] => destruct (flt (f xr) (snd (nth k s zero))) eqn:E2 end.
    { cbn [fst snd]. intros HP _. destruct HP as [<-|[]]. exists (put id xr, f xr). split; [apply in_replace|apply sle_refl]. }
    assert (B : sle (snd (hd zero s)) (f xr)) by (apply not_flt_sle; auto).
    destruct (flt (f xr) (snd vN)) eqn:E3.
    - set (xc := vadd (vscale (3 / 2) _) _). destruct (fle (f xc) (f xr)) eqn:E4.
      + cbn [fst snd]. intros HP _. exists (put id xc, f xc). split; [apply in_replace|].
        destruct HP as [<-|[<-|[]]]; [apply sle_refl|apply fle_sle; auto].
      + destruct (shrink f id s) as [s' l]. cbn [fst snd] in *. intros HP KB. apply in_app_or in HP.
        destruct HP as [HP|[<-|[<-|[]]]]; auto; exists (hd zero s); split; auto.
        apply sle_trans with (f xr); auto. apply not_fle_sle; auto.
    - set (xc := vadd (vscale (1 / 2) _) (vscale (1 / 2) (fst vN))). destruct (flt (f xc) (snd vN)) eqn:E4.
      + cbn [fst snd]. intros HP KB. destruct HP as [<-|[<-|[]]].
        * exists (put id xc, f xc). split; [apply in_replace|apply sle_refl].
        * exists (hd zero s). split; auto.
      + destruct (shrink f id s) as [s' l]. cbn [fst snd] in *. intros HP KB. apply in_app_or in HP.
        destruct HP as [HP|[<-|[<-|[]]]]; auto; exists (hd zero s); split; auto.
        apply sle_trans with (snd vN); [apply HSo; auto|apply not_flt_sle; auto].
  Qed.
End F.

(** *** dimensions *)
Section D.
  Variable f : point -> ev.
  Variable store : R -> R.
  Variable srt : list vertex -> list vertex.
  Variables (xtol ftol : R) (maxfun maxiter : nat).
  Hypothesis HS : sorts srt.
  Variable n : nat.
  Definition dimP (s : list vertex) : Prop := forall v, In v s -> length (fst v) = n.

  Lemma vadd_len (a b : point) : length a = n -> length b = n -> length (vadd a b) = n.
  Proof. intros A B. unfold vadd. rewrite map_length, combine_length, A, B. apply Nat.min_id. Qed.
  Lemma vscale_len c (a : point) : length (vscale c a) = length a.
  Proof. apply map_length. Qed.
  Lemma put_len (a : point) : length (put store a) = length a.
  Proof. apply map_length. Qed.
  Lemma vsum_len l : l <> [] -> (forall p, In p l -> length p = n) -> length (vsum l) = n.
  Proof.
    induction l as [|p l IH]; intros N H; [congruence|]. destruct l as [|q l]; [apply H; simpl; auto|].
    change (length (vadd p (vsum (q :: l))) = n). apply vadd_len; [apply H; simpl; auto|].
    apply IH; [discriminate|]. intros r Hr. apply H. simpl in *. auto.
  Qed.
  Lemma dim_replace s v : dimP s -> length (fst v) = n -> dimP (replace_last s v).
  Proof.
    intros H Hv w Hw. unfold replace_last in Hw. apply in_app_or in Hw. destruct Hw as [Hw|[<-|[]]]; auto.
    apply H. destruct s as [|a r]; [destruct Hw|]. rewrite (app_removelast_last zero) by discriminate. apply in_or_app. auto.
  Qed.
  Lemma dim_shrink s : dimP s -> dimP (fst (shrink f store s)).
  Proof.
    intros H. destruct s as [|v0 r]; cbn [shrink fst]; auto. intros v [<-|Hv]; [apply H; simpl; auto|].
    apply in_map_iff in Hv. destruct Hv as (p & <- & Hp). apply in_map_iff in Hp. destruct Hp as (w & <- & Hw).
    cbn [fst]. rewrite put_len. assert (length (fst v0) = n) by (apply H; simpl; auto). assert (length (fst w) = n) by (apply H; simpl; auto).
    repeat (first [apply vadd_len | rewrite vscale_len]; auto).
  Qed.
  Lemma step_dim s : (2 <= length s)%nat -> dimP s -> dimP (fst (step f store s)).
  Proof.
    intros HL H.
    assert (NE : s <> []) by (destruct s; simpl in HL; [lia|discriminate]).
    assert (LV : length (fst (last_v s)) = n).
    { apply H. unfold last_v. rewrite (app_removelast_last zero NE) at 2. apply in_or_app. simpl. auto. }
    assert (XB : length (vscale (/ INR (length s - 1)) (vsum (map fst (removelast s)))) = n).
    { rewrite vscale_len. apply vsum_len.
      - destruct s as [|a [|b r]]; simpl in HL; try lia. discriminate.
      - intros p Hp. apply in_map_iff in Hp. destruct Hp as (w & <- & Hw). apply H. rewrite (app_removelast_last zero NE). apply in_or_app. auto. }
    pose proof (dim_shrink s H) as SH.
    assert (G : forall c d, length (vadd (vscale c (vscale (/ INR (length s - 1)) (vsum (map fst (removelast s))))) (vscale d (fst (last_v s)))) = n).
    { intros. apply vadd_len; rewrite vscale_len; auto. }
    unfold step. destruct (flt _ _).
    { cbn [fst]. destruct (flt _ _); apply dim_replace; auto; cbn [fst]; rewrite put_len; apply G. }
    destruct (flt _ _); [apply dim_replace; auto; cbn [fst]; rewrite put_len; apply G|].
    destruct (flt _ _).
    - destruct (fle _ _); [apply dim_replace; auto; cbn [fst]; rewrite put_len; apply G|]. destruct (shrink f store s); auto.
    - destruct (flt _ _); [apply dim_replace; auto; cbn [fst]; rewrite put_len; apply G|]. destruct (shrink f store s); auto.
  Qed.
End D.

Lemma set_nth_len k v : forall p, length (set_nth k v p) = length p.
Proof. induction k; intros [|a p]; simpl; auto. Qed.

Lemma loop_dim f store srt xtol ftol maxfun maxiter fuel x0 : sorts srt -> x0 <> [] ->
  dimP (length x0) (sim (loop f store srt xtol ftol maxfun maxiter fuel (init f store srt x0))).
Proof.
  intros HS NE.
  assert (K : (fun x => (2 <= length (sim x))%nat /\ dimP (length x0) (sim x)) (loop f store srt xtol ftol maxfun maxiter fuel (init f store srt x0))); [|apply K].
  apply loop_inv.
  - intros x [H1 H2] _ _ _. cbn [sim]. split.
    + rewrite (srt_len srt HS), step_len; auto. intros E. rewrite E in H1. simpl in H1. lia.
    + intros v Hv. rewrite (srt_in srt HS) in Hv. eapply step_dim; eauto.
  - split; [rewrite (init_len f store srt HS); destruct x0; [congruence|simpl; lia]|].
    intros v Hv. unfold init in Hv. cbn [sim] in Hv. rewrite (srt_in srt HS) in Hv.
    apply (in_map_iff (fun p => (p, f p))) in Hv. destruct Hv as (p & <- & Hp). cbn [fst].
    destruct Hp as [<-|Hp]; auto. apply in_map_iff in Hp. destruct Hp as (k & <- & _). apply set_nth_len.
Qed.

(** *** budget *)
Section B.
  Variable f : point -> ev.
  Variable store : R -> R.
  Variable srt : list vertex -> list vertex.
  Variables (xtol ftol : R) (maxfun maxiter : nat).
  Hypothesis HS : sorts srt.
  Notation loop := (loop f store srt xtol ftol maxfun maxiter).
  Notation init := (init f store srt).

  Definition going (x : st) : bool := Nat.ltb (length (calls x)) maxfun && Nat.ltb (iter x) maxiter && negb (converged xtol ftol (sim x)).
  Definition next (x : st) : st :=
    mkSt (srt (fst (step f store (sim x)))) (snd (step f store (sim x)) ++ calls x) (S (iter x)).
  Lemma loop_S k x : loop (S k) x = if going x then loop k (next x) else x.
  Proof.
    simpl. unfold going, next. destruct (Nat.ltb _ _ && Nat.ltb _ _)%bool; simpl; auto. destruct (converged _ _ _); simpl; auto.
    destruct (step f store (sim x)); reflexivity.
  Qed.
  Lemma loop_stop k : forall x, going x = false -> loop k x = x.
  Proof. intros x H. destruct k; auto. rewrite loop_S, H. reflexivity. Qed.
  Lemma loop_done k : forall x, (maxiter - iter x <= k)%nat -> going (loop k x) = false.
  Proof.
    induction k as [|k IH]; intros x H.
    - simpl. unfold going. replace (Nat.ltb (iter x) maxiter) with false; [now rewrite andb_false_r|].
      symmetry. apply Nat.ltb_ge. lia.
    - rewrite loop_S. destruct (going x) eqn:E; auto. apply IH. simpl. lia.
  Qed.
  Lemma loop_enough k : forall x j, (maxiter - iter x <= k)%nat -> loop (k + j) x = loop k x.
  Proof.
    induction k as [|k IH]; intros x j H.
    - simpl (0 + j)%nat. simpl (loop 0 x). apply loop_stop. apply (loop_done 0 x H).
    - simpl (S k + j)%nat. rewrite !loop_S. destruct (going x); auto. apply IH. simpl. lia.
  Qed.
  (** the first state at which the loop can stop is where it stops *)
  Lemma loop_first k : forall x j, (k <= j)%nat -> going (loop k x) = false -> loop j x = loop k x.
  Proof.
    induction k as [|k IH]; intros x j H E.
    - apply loop_stop. exact E.
    - destruct j as [|j]; [lia|]. rewrite !loop_S in *. destruct (going x); auto. apply IH; auto. lia.
  Qed.
End B.
