(** Proofs about the array model. *)
From Coq Require Import Reals List Bool Arith String Lia Lra.
From Verif Require Import Outcome TrapzModel EnergyModel ElectronModel BremsModel ShapeModel VecModel.
Import ListNotations.
Local Open Scope R_scope.

(** [i] is an index into an array of shape [s]. *)
Definition inb (i : list nat) (s : shape) : Prop := Forall2 lt i s.

(* ------------------------------------------------------------------ *)
(** * Broadcasting *)

(** [s] can be broadcast to [t] (both reversed). *)
Fixpoint sub_rev (s t : list nat) : Prop :=
  match s, t with
  | [], _ => True
  | _, [] => False
  | a :: s', b :: t' => (a = 1%nat \/ a = b) /\ sub_rev s' t'
  end.
Definition sub (s t : shape) : Prop := sub_rev (rev s) (rev t).

Lemma sub_rev_refl s : sub_rev s s.
Proof. induction s; cbn; auto. Qed.
Lemma sub_refl s : sub s s.
Proof. apply sub_rev_refl. Qed.

Lemma bidx_rev_idem s i : bidx_rev s (bidx_rev s i) = bidx_rev s i.
Proof. revert i; induction s as [|d s IH]; intros [|k i]; cbn; try reflexivity. rewrite IH. destruct (d =? 1)%nat; reflexivity. Qed.

Lemma bidx_rev_full u i : Forall2 lt i u -> bidx_rev u i = i.
Proof.
  induction 1 as [|k d i u H _ IH]; cbn; [reflexivity|].
  rewrite IH. destruct (Nat.eqb_spec d 1); [f_equal; lia|reflexivity].
Qed.

Lemma brev_sub s : forall t u, sub_rev s u -> sub_rev t u ->
  exists r, brev s t = Ok r /\ sub_rev r u /\
    (forall i, Forall2 lt i u -> bidx_rev s (bidx_rev r i) = bidx_rev s i /\ bidx_rev t (bidx_rev r i) = bidx_rev t i).
Proof.
  induction s as [|a s IH]; intros t u Hs Ht.
  - exists t. cbn. split; [reflexivity|]. split; [exact Ht|]. intros i Hi. split; [reflexivity|]. apply bidx_rev_idem.
  - destruct t as [|b t].
    + exists (a :: s). cbn [brev]. split; [reflexivity|]. split; [exact Hs|]. intros i Hi. split; [apply bidx_rev_idem|reflexivity].
    + destruct u as [|c u]; [destruct Hs|]. cbn in Hs, Ht. destruct Hs as [Ha Hs], Ht as [Hb Ht].
      destruct (IH t u Hs Ht) as (r & Er & Hr & Hi).
      assert (exists d, bdim a b = Ok d /\ (d = 1%nat \/ d = c) /\ (a <> 1%nat -> d = a) /\ (b <> 1%nat -> d = b)) as (d & Ed & Hd & Hda & Hdb).
      { unfold bdim. destruct (Nat.eqb_spec a b); [exists a; split; [reflexivity|]; lia|].
        destruct (Nat.eqb_spec a 1); [exists b; split; [reflexivity|]; lia|].
        destruct (Nat.eqb_spec b 1); [exists a; split; [reflexivity|]; lia|]. lia. }
      exists (d :: r). cbn [brev]. rewrite Ed. cbn. rewrite Er. cbn. split; [reflexivity|]. split; [auto|].
      intros i H. inversion H as [|k ? i' ? Hk Hi']; subst. destruct (Hi i' Hi') as [H1 H2]. cbn. rewrite H1, H2.
      destruct (Nat.eqb_spec a 1), (Nat.eqb_spec b 1), (Nat.eqb_spec d 1); split; try reflexivity; f_equal; lia.
Qed.

Lemma brev_full_l s : forall t, sub_rev t s -> brev s t = Ok s.
Proof.
  induction s as [|a s IH]; intros [|b t] H; try reflexivity; try (destruct H).
  cbn [brev]. rewrite (IH t H0). cbn. unfold bdim.
  destruct (Nat.eqb_spec a b); [reflexivity|]. destruct (Nat.eqb_spec a 1); destruct (Nat.eqb_spec b 1); try reflexivity; try lia.
Qed.
Lemma brev_full_r s : forall t, sub_rev t s -> brev t s = Ok s.
Proof.
  induction s as [|a s IH]; intros [|b t] H; try reflexivity; try (destruct H).
  cbn [brev]. rewrite (IH t H0). cbn. unfold bdim.
  destruct (Nat.eqb_spec b a); [subst; reflexivity|]. destruct (Nat.eqb_spec b 1); [reflexivity|lia].
Qed.

Lemma inb_rev i s : inb i s -> Forall2 lt (rev i) (rev s).
Proof. unfold inb. induction 1; cbn; [constructor|]. apply Forall2_app; [assumption|]. constructor; [assumption|constructor]. Qed.

Lemma inb_length i s : inb i s -> List.length i = List.length s.
Proof. unfold inb. induction 1; cbn; auto. Qed.

Lemma bidx_full s i : inb i s -> bidx s i = i.
Proof. intro H. unfold bidx. rewrite bidx_rev_full by (apply inb_rev; exact H). apply rev_involutive. Qed.

(** [a] shows [f] when it is broadcast to shape [s]. *)
Definition shows {A} (s : shape) (f : list nat -> A) (a : arr A) : Prop :=
  sub (ash a) s /\ forall i, inb i s -> aval a (bidx (ash a) i) = f i.
(** [a] has shape [s] and elements [f]. *)
Definition is_arr {A} (s : shape) (f : list nat -> A) (a : arr A) : Prop :=
  ash a = s /\ forall i, inb i s -> aval a i = f i.

Lemma is_shows {A} s (f : list nat -> A) a : is_arr s f a -> shows s f a.
Proof. intros [H1 H2]. split; [rewrite H1; apply sub_refl|]. intros i Hi. rewrite H1, bidx_full by exact Hi. apply H2, Hi. Qed.

Lemma shows_amap {A B} (g : A -> B) s f a : shows s f a -> shows s (fun i => g (f i)) (amap g a).
Proof. intros [H1 H2]. split; [exact H1|]. intros i Hi. cbn. f_equal. apply H2, Hi. Qed.
Lemma is_amap {A B} (g : A -> B) s f a : is_arr s f a -> is_arr s (fun i => g (f i)) (amap g a).
Proof. intros [H1 H2]. split; [exact H1|]. intros i Hi. cbn. f_equal. apply H2, Hi. Qed.

Lemma lift2_shows {A B C} (op : A -> B -> C) s f g a b : shows s f a -> shows s g b ->
  exists c, lift2 op a b = Ok c /\ shows s (fun i => op (f i) (g i)) c.
Proof.
  intros [Ha Va] [Hb Vb]. unfold lift2, broadcast.
  destruct (brev_sub (rev (ash a)) (rev (ash b)) (rev s) Ha Hb) as (r & E & Hr & Hi). rewrite E. cbn.
  eexists. split; [reflexivity|]. unfold shows, sub. cbn [ash aval]. rewrite rev_involutive. split; [exact Hr|].
  intros i H. rewrite <- (Va i H), <- (Vb i H).
  destruct (Hi (rev i) (inb_rev i s H)) as [H1 H2]. unfold bidx. rewrite !rev_involutive, H1, H2. reflexivity.
Qed.

Lemma lift2_is_l {A B C} (op : A -> B -> C) s f g a b : is_arr s f a -> shows s g b ->
  exists c, lift2 op a b = Ok c /\ is_arr s (fun i => op (f i) (g i)) c.
Proof.
  intros [Ha Va] [Hb Vb]. unfold lift2, broadcast. rewrite Ha, brev_full_l by exact Hb. cbn.
  eexists. split; [reflexivity|]. split; cbn [ash aval]; [apply rev_involutive|].
  intros i H. rewrite (bidx_full s i H), (Va i H), (Vb i H). reflexivity.
Qed.
Lemma lift2_is_r {A B C} (op : A -> B -> C) s f g a b : shows s f a -> is_arr s g b ->
  exists c, lift2 op a b = Ok c /\ is_arr s (fun i => op (f i) (g i)) c.
Proof.
  intros [Ha Va] [Hb Vb]. unfold lift2, broadcast. rewrite Hb, brev_full_r by exact Ha. cbn.
  eexists. split; [reflexivity|]. split; cbn [ash aval]; [apply rev_involutive|].
  intros i H. rewrite (bidx_full s i H), (Va i H), (Vb i H). reflexivity.
Qed.
Lemma lift2_is {A B C} (op : A -> B -> C) s f g a b : is_arr s f a -> is_arr s g b ->
  exists c, lift2 op a b = Ok c /\ is_arr s (fun i => op (f i) (g i)) c.
Proof. intros Ha Hb. apply lift2_is_l; [exact Ha|apply is_shows, Hb]. Qed.

(** Two arrays whose shapes broadcast to exactly [s]. *)
Lemma lift2_join {A B C} (op : A -> B -> C) s f g a b : shows s f a -> shows s g b ->
  broadcast (ash a) (ash b) = Ok s ->
  exists c, lift2 op a b = Ok c /\ is_arr s (fun i => op (f i) (g i)) c.
Proof.
  intros [Ha Va] [Hb Vb] E. unfold lift2. rewrite E. cbn.
  eexists. split; [reflexivity|]. split; cbn [ash aval]; [reflexivity|].
  intros i H. rewrite (Va i H), (Vb i H). reflexivity.
Qed.

Lemma shows_ext {A} s (f g : list nat -> A) a : shows s f a -> (forall i, inb i s -> f i = g i) -> shows s g a.
Proof. intros [H1 H2] H. split; [exact H1|]. intros i Hi. rewrite (H2 i Hi). apply H, Hi. Qed.
Lemma is_ext {A} s (f g : list nat -> A) a : is_arr s f a -> (forall i, inb i s -> f i = g i) -> is_arr s g a.
Proof. intros [H1 H2] H. split; [exact H1|]. intros i Hi. rewrite (H2 i Hi). apply H, Hi. Qed.

Lemma awhere_is s fm fa fb m a b : shows s fm m -> is_arr s fa a -> shows s fb b ->
  exists c, awhere m a b = Ok c /\ is_arr s (fun i => if fm i then fa i else fb i) c.
Proof.
  intros Hm Ha Hb. unfold awhere. destruct (lift2_is_l (fun x y : R => (x, y)) s _ _ a b Ha Hb) as (ab & E & Hab).
  rewrite E. cbn [obind]. destruct (lift2_is_r (fun (m0 : bool) (p : R * R) => if m0 then fst p else snd p) s _ _ m ab Hm Hab) as (c & Ec & Hc).
  exists c. split; [exact Ec|]. apply (is_ext _ _ _ _ Hc). intros i _. cbn. destruct (fm i); reflexivity.
Qed.

(* ------------------------------------------------------------------ *)
(** * Shapes of the same length *)

Lemma bidx_rev_app s i s' i' : List.length s = List.length i -> bidx_rev (s ++ s') (i ++ i') = bidx_rev s i ++ bidx_rev s' i'.
Proof. revert i. induction s as [|d s IH]; intros [|k i] H; cbn in *; try discriminate; [reflexivity|]. rewrite IH by lia. reflexivity. Qed.

Lemma bidx_rev_rev s : forall i, List.length s = List.length i -> bidx_rev (rev s) (rev i) = rev (bidx_rev s i).
Proof.
  induction s as [|d s IH]; intros [|k i] H; cbn in *; try discriminate; [reflexivity|].
  rewrite bidx_rev_app by (rewrite !rev_length; lia). rewrite IH by lia. reflexivity.
Qed.
Lemma bidx_same s i : List.length s = List.length i -> bidx s i = bidx_rev s i.
Proof. intro H. unfold bidx. rewrite bidx_rev_rev by exact H. apply rev_involutive. Qed.

Definition sub1 (s t : shape) : Prop := Forall2 (fun a b => a = 1%nat \/ a = b) s t.
Lemma sub_rev_app s t s' t' : sub1 s t -> sub_rev s' t' -> sub_rev (s ++ s') (t ++ t').
Proof. unfold sub1. induction 1; cbn; auto. Qed.
Lemma sub1_rev s t : sub1 s t -> sub1 (rev s) (rev t).
Proof. unfold sub1. induction 1; cbn; [constructor|]. apply Forall2_app; [assumption|]. constructor; [assumption|constructor]. Qed.
Lemma sub1_sub s t : sub1 s t -> sub s t.
Proof. intro H. unfold sub. rewrite <- (app_nil_r (rev s)), <- (app_nil_r (rev t)). apply sub_rev_app; [apply sub1_rev, H|exact I]. Qed.

Lemma upd_length {A} ax (f : A -> A) : forall l, List.length (upd ax f l) = List.length l.
Proof. induction ax; intros [|x l]; cbn; auto. Qed.
Lemma sub1_length s t : sub1 s t -> List.length s = List.length t.
Proof. unfold sub1. induction 1; cbn; auto. Qed.
Lemma sub1_upd ax s t : sub1 s t -> nth ax s O = nth ax t O -> sub1 (upd ax pred s) (upd ax pred t).
Proof.
  unfold sub1. intro H. revert ax. induction H as [|a b s t Hab H IH]; intros [|ax] E; cbn in *; try constructor; auto.
Qed.

Lemma slice1_shows ax s x : sub1 (ash x) s -> nth ax (ash x) O = nth ax s O ->
  shows (upd ax pred s) (fun i => aval x (bidx (ash x) i)) (slice1 ax x).
Proof.
  intros Hs E. split; [apply sub1_sub; cbn; apply sub1_upd; assumption|]. intros i Hi. cbn [slice1 slice2 aval ash]. f_equal.
  pose proof (inb_length _ _ Hi) as L. rewrite upd_length in L. pose proof (sub1_length _ _ Hs) as L2.
  rewrite (bidx_same (upd ax pred (ash x)) i) by (rewrite upd_length; congruence).
  rewrite (bidx_same (ash x) i) by congruence.
  clear L L2. revert ax E i Hi. induction Hs as [|a b sx s Hab H IH]; intros ax E i Hi.
  - destruct ax; reflexivity.
  - destruct ax as [|ax]; cbn in *; inversion Hi as [|k d i' s' Hk Hi']; cbn; f_equal.
    + subst a. destruct b as [|[|[|b]]]; cbn in *; lia.
    + apply IH; assumption.
Qed.
Lemma slice2_shows ax s x : sub1 (ash x) s -> nth ax (ash x) O = nth ax s O ->
  shows (upd ax pred s) (fun i => aval x (bidx (ash x) (upd ax S i))) (slice2 ax x).
Proof.
  intros Hs E. split; [apply sub1_sub; cbn; apply sub1_upd; assumption|]. intros i Hi. cbn [slice1 slice2 aval ash]. f_equal.
  pose proof (inb_length _ _ Hi) as L. rewrite upd_length in L. pose proof (sub1_length _ _ Hs) as L2.
  rewrite (bidx_same (upd ax pred (ash x)) i) by (rewrite upd_length; congruence).
  rewrite (bidx_same (ash x) (upd ax S i)) by (rewrite upd_length; congruence).
  clear L L2. revert ax E i Hi. induction Hs as [|a b sx s Hab H IH]; intros ax E i Hi.
  - destruct ax; reflexivity.
  - destruct ax as [|ax]; cbn in *; inversion Hi as [|k d i' s' Hk Hi']; cbn; f_equal.
    + subst a. destruct b as [|[|[|b]]]; cbn in *; lia.
    + apply IH; assumption.
Qed.
Lemma inb_upd_S ax s i : inb i (upd ax pred s) -> inb (upd ax S i) s.
Proof.
  unfold inb. revert s i. induction ax as [|ax IH]; intros [|d s] i Hi; cbn in *; inversion Hi as [|k d' i' s' Hk Hi']; subst; cbn; constructor; auto. lia.
Qed.
Lemma slice1_is ax s y : ash y = s -> is_arr (upd ax pred s) (aval y) (slice1 ax y).
Proof. intro H. split; [cbn; rewrite H; reflexivity|]. reflexivity. Qed.
Lemma slice2_is ax s y : ash y = s -> is_arr (upd ax pred s) (fun i => aval y (upd ax S i)) (slice2 ax y).
Proof. intro H. split; [cbn; rewrite H; reflexivity|]. reflexivity. Qed.

Lemma reshape_sub1 s ax x : (ax < List.length s)%nat -> ash x = [nth ax s O] ->
  sub1 (ash (reshape_axis (List.length s) ax x)) s /\ nth ax (ash (reshape_axis (List.length s) ax x)) O = nth ax s O.
Proof.
  intros H E. cbn. rewrite E. cbn [hd]. clear E. revert ax H. induction s as [|d s IH]; intros ax H; cbn in H; [lia|].
  destruct ax as [|ax]; cbn.
  - split; [|reflexivity]. constructor; [auto|]. clear. induction s; cbn; constructor; auto.
  - destruct (IH ax) as [H1 H2]; [lia|]. split; [constructor; auto|exact H2].
Qed.

(* ------------------------------------------------------------------ *)
(** * trapz_loglog along an axis *)

Definition sum_list (l : list R) : R := fold_right Rplus 0 l.
Lemma strapz_seq (g h : nat -> R) n : forall a,
  strapz (map g (seq a n)) (map h (seq a n))
  = sum_list (map (fun k => sinterval (h k) (h (S k)) (g k) (g (S k))) (seq a (pred n))).
Proof.
  induction n as [|[|n] IH]; intro a; try reflexivity.
  change (strapz (map g (seq a (S (S n)))) (map h (seq a (S (S n)))))
    with (sinterval (h a) (h (S a)) (g a) (g (S a)) + strapz (map g (seq (S a) (S n))) (map h (seq (S a) (S n)))).
  rewrite IH. reflexivity.
Qed.

(** One bin of the vectorised expression. *)
Lemma bin_is x1 x2 y1 y2 :
  (if (Reqb y1 0 || Reqb y2 0) || Reqb x1 x2 then 0
   else if ngt (option_map (fun z => z + 1) (ndiv (nlog10 (y2 / y1)) (log10 (x2 / x1)))) window_eps
        then nquot (y1 * (x2 * npow (x2 / x1) (ndiv (nlog10 (y2 / y1)) (log10 (x2 / x1))) - x1))
                   (option_map (fun z => z + 1) (ndiv (nlog10 (y2 / y1)) (log10 (x2 / x1))))
        else x1 * y1 * ln (x2 / x1))
  = sinterval x1 x2 y1 y2.
Proof.
  unfold Reqb, sinterval. destruct (Req_EM_T y1 0) as [|N1]; [reflexivity|].
  destruct (Req_EM_T y2 0) as [|N2]; [reflexivity|]. cbn [orb].
  destruct (Req_EM_T x1 x2); [reflexivity|].
  assert (S : y2 / y1 = (y1 * y2) / (y1 * y1)) by (field; exact N1).
  assert (P : 0 < / (y1 * y1)) by (apply Rinv_0_lt_compat; destruct (Rdichotomy _ _ N1); nra).
  unfold nlog10. destruct (Rlt_dec (y1 * y2) 0) as [L|L]; destruct (Rlt_dec (y2 / y1) 0) as [L'|L'].
  - reflexivity.
  - exfalso. apply L'. rewrite S. unfold Rdiv. nra.
  - exfalso. apply L. rewrite S in L'. unfold Rdiv in L'. nra.
  - cbn. unfold Rgtb, raw_interval, local_index. cbv zeta. destruct (Rlt_dec (y1 * y2) 0); [contradiction|]. destruct (Rlt_dec window_eps _); reflexivity.
Qed.

Lemma ins_upd_S ax : forall k i, (ax <= List.length i)%nat -> upd ax S (ins ax k i) = ins ax (S k) i.
Proof. induction ax; intros k [|j i] H; cbn in *; try reflexivity; [lia|]. f_equal. apply IHax. lia. Qed.
Lemma inb_ins ax s : forall i k, (ax < List.length s)%nat -> inb i (del ax s) -> (k < nth ax s O)%nat -> inb (ins ax k i) s.
Proof.
  unfold inb. revert s. induction ax as [|ax IH]; intros [|d s] i k H Hi Hk; cbn in *; try lia.
  - constructor; assumption.
  - inversion Hi as [|j d' i' s' Hj Hi']; subst. cbn. constructor; [assumption|]. apply IH; [lia|assumption|assumption].
Qed.
Lemma del_length {A} ax (s : list A) : (ax < List.length s)%nat -> List.length (del ax s) = pred (List.length s).
Proof. revert s. induction ax as [|ax IH]; intros [|d s] H; cbn in *; try lia. rewrite IH by lia. lia. Qed.
Lemma del_upd {A} ax (f : A -> A) s : del ax (upd ax f s) = del ax s.
Proof. revert s. induction ax as [|ax IH]; intros [|d s]; cbn; try reflexivity. rewrite IH. reflexivity. Qed.
Lemma nth_upd ax (f : nat -> nat) s : (ax < List.length s)%nat -> nth ax (upd ax f s) O = f (nth ax s O).
Proof. revert s. induction ax as [|ax IH]; intros [|d s] H; cbn in *; try lia. apply IH. lia. Qed.

Definition on_axis (y x : arr R) (ax : nat) : arr R :=
  if (List.length (ash x) =? 1)%nat then reshape_axis (List.length (ash y)) ax x else x.

Lemma atrapz_core y x ax :
  (ax < List.length (ash y))%nat ->
  sub1 (ash (on_axis y x ax)) (ash y) -> nth ax (ash (on_axis y x ax)) O = nth ax (ash y) O ->
  exists r, atrapz y x ax = Ok r /\
    is_arr (del ax (ash y))
      (fun i => strapz (map (fun k => aval y (ins ax k i)) (seq 0 (nth ax (ash y) O)))
                       (map (fun k => aval (on_axis y x ax) (bidx (ash (on_axis y x ax)) (ins ax k i))) (seq 0 (nth ax (ash y) O)))) r.
Proof.
  intros Hax Hs Hn. unfold atrapz, atrapz_intervals. fold (on_axis y x ax).
  apply Nat.ltb_lt in Hax as Hb. rewrite Hb. cbv zeta.
  set (X := on_axis y x ax) in *. set (s := ash y) in *. set (s' := upd ax pred s).
  pose proof (slice1_is ax s y eq_refl) as Y1. pose proof (slice2_is ax s y eq_refl) as Y2.
  pose proof (slice1_shows ax s X Hs Hn) as X1. pose proof (slice2_shows ax s X Hs Hn) as X2.
  fold s' in Y1, Y2, X1, X2.
  set (x1 := slice1 ax X) in *. set (x2 := slice2 ax X) in *. set (y1 := slice1 ax y) in *. set (y2 := slice2 ax y) in *.
  destruct (lift2_is Rdiv s' _ _ y2 y1 Y2 Y1) as (ry & E & RY). rewrite E; cbn [obind]; clear E.
  destruct (lift2_shows Rdiv s' _ _ x2 x1 X2 X1) as (rx & E & RX). rewrite E; cbn [obind]; clear E.
  destruct (lift2_is_l ndiv s' _ _ _ _ (is_amap nlog10 _ _ _ RY) (shows_amap log10 _ _ _ RX)) as (b & E & HB). rewrite E; cbn [obind]; clear E.
  destruct (lift2_is_r npow s' _ _ rx b RX HB) as (p & E & HP). rewrite E; cbn [obind]; clear E.
  destruct (lift2_is_r Rmult s' _ _ x2 p X2 HP) as (q & E & HQ). rewrite E; cbn [obind]; clear E.
  destruct (lift2_is_l Rminus s' _ _ q x1 HQ X1) as (q' & E & HQ'). rewrite E; cbn [obind]; clear E.
  destruct (lift2_is Rmult s' _ _ y1 q' Y1 HQ') as (num & E & HN). rewrite E; cbn [obind]; clear E.
  pose proof (is_amap (option_map (fun z => z + 1)) _ _ _ HB) as HB1.
  set (b1 := amap (option_map (fun z => z + 1)) b) in *.
  destruct (lift2_is nquot s' _ _ num b1 HN HB1) as (t1 & E & HT1). rewrite E; cbn [obind]; clear E.
  destruct (lift2_is_r Rmult s' _ _ x1 y1 X1 Y1) as (xy & E & HXY). rewrite E; cbn [obind]; clear E.
  destruct (lift2_is_l Rmult s' _ _ xy (amap ln rx) HXY (shows_amap ln _ _ _ RX)) as (t2 & E & HT2). rewrite E; cbn [obind]; clear E.
  destruct (awhere_is s' _ _ _ _ t1 t2 (is_shows _ _ _ (is_amap (fun o => ngt o window_eps) _ _ _ HB1)) HT1 (is_shows _ _ _ HT2)) as (tr & E & HTR).
  rewrite E; cbn [obind]; clear E.
  destruct (lift2_is orb s' _ _ _ _ (is_amap (fun v => Reqb v 0) _ _ _ Y1) (is_amap (fun v => Reqb v 0) _ _ _ Y2)) as (z12 & E & HZ).
  rewrite E; cbn [obind]; clear E.
  destruct (lift2_shows Reqb s' _ _ x1 x2 X1 X2) as (zx & E & HZX). rewrite E; cbn [obind]; clear E.
  destruct (lift2_is_l orb s' _ _ z12 zx HZ HZX) as (tz & E & HTZ). rewrite E; cbn [obind]; clear E.
  destruct HTR as [Str Vtr], HTZ as [Stz Vtz].
  unfold assign_scalar. rewrite Str, Stz. destruct (list_eq_dec Nat.eq_dec s' s') as [_|N]; [|congruence].
  cbn [omap]. eexists. split; [reflexivity|].
  split; cbn [ash aval reduce]; [unfold s'; apply del_upd|].
  intros i Hi. rewrite strapz_seq. unfold s' at 1. rewrite nth_upd by exact Hax. unfold sum_list. f_equal.
  apply map_ext_in. intros k Hk. apply in_seq in Hk.
  assert (inb (ins ax k i) s') as Hin.
  { apply inb_ins; [unfold s'; rewrite upd_length; exact Hax| unfold s'; rewrite del_upd; exact Hi |].
    unfold s'. rewrite nth_upd by exact Hax. lia. }
  rewrite (Vtr _ Hin), (Vtz _ Hin). cbv beta.
  assert ((ax <= List.length i)%nat) as L by (rewrite (inb_length _ _ Hi), del_length by exact Hax; lia).
  rewrite (ins_upd_S ax k i L). apply bin_is.
Qed.
