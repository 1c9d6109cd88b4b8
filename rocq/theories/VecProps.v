(** C115: what the code computes with arrays is what the same formulas give
    photon energy by photon energy. *)
From Coq Require Import Reals List Bool Arith String Lia Lra.
From Verif Require Import Outcome TrapzModel TrapzSpec TrapzProofs EnergyModel ElectronModel ElectronProofs BremsModel ShapeModel VecModel VecProofs.
Import ListNotations.
Local Open Scope R_scope.

(* ------------------------------------------------------------------ *)
(** * Specification *)

(** The samples of [y] along axis [ax], the other indices being [i]. *)
Definition line (y : arr R) (ax : nat) (i : list nat) : list R :=
  map (fun k => aval y (ins ax k i)) (seq 0 (nth ax (ash y) O)).

(** The array [a] is one-dimensional with elements [l]. *)
Definition holds_list (a : arr R) (l : list R) : Prop := ash a = [List.length l] /\ to_list a = l.

(* ------------------------------------------------------------------ *)
(** * Lemmas *)

Lemma strapz_trapz ys : forall xs, List.Forall (fun y => 0 <= y) ys -> strapz ys xs = trapz_loglog ys xs.
Proof.
  induction ys as [|y1 [|y2 ys] IH]; intros [|x1 [|x2 xs]] H; try reflexivity.
  rewrite trapz_cons2. change (sinterval x1 x2 y1 y2 + strapz (y2 :: ys) (x2 :: xs) = interval x1 x2 y1 y2 + trapz_loglog (y2 :: ys) (x2 :: xs)).
  inversion H as [|? ? H1 H']; subst. inversion H' as [|? ? H2 H'']; subst. rewrite (IH (x2 :: xs) H'). f_equal.
  unfold sinterval, interval. destruct (Req_EM_T y1 0); [reflexivity|]. destruct (Req_EM_T y2 0); [reflexivity|].
  destruct (Req_EM_T x1 x2); [reflexivity|]. destruct (Rlt_dec (y1 * y2) 0); [nra|reflexivity].
Qed.

Lemma nth_ins ax : forall k i, (ax <= List.length i)%nat -> nth ax (ins ax k i) O = k.
Proof. induction ax; intros k [|j i] H; cbn in *; try reflexivity; [lia|]. apply IHax. lia. Qed.
Lemma ins_length {A} ax (k : A) : forall i, List.length (ins ax k i) = S (List.length i).
Proof. induction ax; intros [|j i]; cbn; auto. Qed.
Lemma map_nth_seq {A} (l : list A) d : map (fun k => nth k l d) (seq 0 (List.length l)) = l.
Proof.
  induction l as [|x l IH]; [reflexivity|]. cbn [List.length seq map]. rewrite <- seq_shift, map_map. cbn [nth]. f_equal. exact IH.
Qed.
Lemma nth_bidx_rev ax : forall s i, (ax < List.length s)%nat -> List.length i = List.length s -> (nth ax i O < nth ax s O)%nat ->
  nth ax (bidx_rev s i) O = nth ax i O.
Proof.
  induction ax; intros [|d s] [|k i] H L K; cbn in *; try lia.
  - destruct (Nat.eqb_spec d 1); lia.
  - apply IHax; lia.
Qed.

Lemma vec_axis y xs ax i k : (ax < List.length (ash y))%nat -> nth ax (ash y) O = List.length xs ->
  inb i (del ax (ash y)) -> (k < nth ax (ash y) O)%nat ->
  aval (on_axis y (vec xs) ax) (bidx (ash (on_axis y (vec xs) ax)) (ins ax k i)) = nth k xs 0.
Proof.
  intros Hax Hn Hi Hk. unfold on_axis. change (List.length (ash (vec xs)) =? 1)%nat with true. cbv iota.
  cbn [reshape_axis aval ash vec hd].
  assert (L : List.length (ins ax k i) = List.length (ash y)).
  { rewrite ins_length, (inb_length _ _ Hi), del_length by exact Hax. lia. }
  assert (Lr : List.length (upd ax (fun _ : nat => List.length xs) (repeat 1%nat (List.length (ash y)))) = List.length (ash y))
    by (rewrite upd_length, repeat_length; reflexivity).
  assert (Ki : nth ax (ins ax k i) O = k) by (apply nth_ins; rewrite (inb_length _ _ Hi), del_length by exact Hax; lia).
  rewrite bidx_same by congruence. rewrite nth_bidx_rev; [rewrite Ki; reflexivity| rewrite Lr; exact Hax | congruence |].
  rewrite Ki, nth_upd by (rewrite repeat_length; exact Hax). lia.
Qed.

(* ------------------------------------------------------------------ *)
(** * The integral *)

(** trapz_loglog of an array of any number of dimensions along any of its axes,
    against a one-dimensional array of abscissae: succeeds, drops that axis, and
    every element of the result is the integral of the corresponding line. *)
Theorem C115_axis : forall (y : arr R) xs ax,
  (ax < List.length (ash y))%nat -> nth ax (ash y) O = List.length xs ->
  exists r, atrapz y (vec xs) ax = Ok r /\ ash r = del ax (ash y) /\
    forall i, inb i (del ax (ash y)) -> aval r i = strapz (line y ax i) xs.
Proof.
  intros y xs ax Hax Hn.
  assert (Hs : sub1 (ash (on_axis y (vec xs) ax)) (ash y) /\ nth ax (ash (on_axis y (vec xs) ax)) O = nth ax (ash y) O).
  { unfold on_axis. change (List.length (ash (vec xs)) =? 1)%nat with true. cbv iota. apply reshape_sub1; [exact Hax|]. cbn. rewrite Hn. reflexivity. }
  destruct (atrapz_core y (vec xs) ax Hax (proj1 Hs) (proj2 Hs)) as (r & E & Hr & V).
  exists r. split; [exact E|]. split; [exact Hr|]. intros i Hi. rewrite (V i Hi). f_equal.
  transitivity (map (fun k => nth k xs 0) (seq 0 (List.length xs))); [|apply map_nth_seq].
  rewrite <- Hn. apply map_ext_in. intros k Hk. apply in_seq in Hk. apply vec_axis; auto. lia.
Qed.

(** ... and for samples that are not negative it is the integral of the other
    theorems (C10-C16). *)
Corollary C115_axis_nonneg : forall (y : arr R) xs ax,
  (ax < List.length (ash y))%nat -> nth ax (ash y) O = List.length xs -> (forall i, 0 <= aval y i) ->
  exists r, atrapz y (vec xs) ax = Ok r /\ ash r = del ax (ash y) /\
    forall i, inb i (del ax (ash y)) -> aval r i = trapz_loglog (line y ax i) xs.
Proof.
  intros y xs ax Hax Hn P. destruct (C115_axis y xs ax Hax Hn) as (r & E & Hr & V). exists r. split; [exact E|]. split; [exact Hr|].
  intros i Hi. rewrite (V i Hi). apply strapz_trapz. apply Forall_forall. intros v Hv. apply in_map_iff in Hv. destruct Hv as (k & <- & _). apply P.
Qed.

(** A length that does not fit is refused. *)
Theorem C115_axis_mismatch : forall (y : arr R) xs,
  List.length (ash y) = 1%nat -> (3 <= nth 0 (ash y) O)%nat -> (3 <= List.length xs)%nat -> nth 0 (ash y) O <> List.length xs ->
  exists e, atrapz y (vec xs) 0 = Err e.
Proof.
  intros [[|d [|d' s]] v] xs H H1 H2 H3; cbn in H; try lia; cbn in H1, H3.
  unfold atrapz, atrapz_intervals. cbn [ash List.length Nat.ltb Nat.leb vec Nat.eqb]. cbv zeta.
  unfold slice1, slice2, reshape_axis. cbn [upd ash aval hd vec repeat].
  assert (B : forall a b, lift2 (A:=R) (B:=R) (C:=R) Rdiv (mkA [pred d] a) (mkA [pred d] b) = Ok (mkA [pred d] (fun i => a (bidx [pred d] i) / b (bidx [pred d] i)))).
  { intros a b. unfold lift2, broadcast. cbn [ash rev app brev]. unfold bdim. rewrite Nat.eqb_refl. reflexivity. }
  assert (B' : forall a b, lift2 (A:=R) (B:=R) (C:=R) Rdiv (mkA [pred (List.length xs)] a) (mkA [pred (List.length xs)] b) = Ok (mkA [pred (List.length xs)] (fun i => a (bidx [pred (List.length xs)] i) / b (bidx [pred (List.length xs)] i)))).
  { intros a b. unfold lift2, broadcast. cbn [ash rev app brev]. unfold bdim. rewrite Nat.eqb_refl. reflexivity. }
  change (Nat.pred d) with (pred d) in *.
  rewrite B. cbn [obind]. rewrite B'. cbn [obind]. unfold amap. cbn [ash aval].
  unfold lift2 at 1, broadcast. cbn [ash rev app brev]. unfold bdim.
  destruct (Nat.eqb_spec (pred d) (pred (List.length xs))); [lia|].
  destruct (Nat.eqb_spec (pred d) 1); [lia|]. destruct (Nat.eqb_spec (pred (List.length xs)) 1); [lia|].
  cbn. eexists. reflexivity.
Qed.

(* ------------------------------------------------------------------ *)
(** * Columns, rows, planes *)

Definition col (l : list R) : arr R := mkA [List.length l; 1]%nat (fun i => nth (hd O i) l 0).
Lemma avstack_vec l : l <> [] -> avstack (vec l) = Ok (col l).
Proof. destruct l; [congruence|]. reflexivity. Qed.
Lemma anewaxis_vec l : anewaxis (vec l) = Ok (col l).
Proof. reflexivity. Qed.

Lemma inb2 i n m : inb i [n; m] -> exists a b, i = [a; b] /\ (a < n)%nat /\ (b < m)%nat.
Proof.
  intro H. inversion H as [|a ? i' ? H1 H2]; subst. inversion H2 as [|b ? i'' ? H3 H4]; subst. inversion H4; subst.
  exists a, b. auto.
Qed.
Lemma inb1 i n : inb i [n] -> exists a, i = [a] /\ (a < n)%nat.
Proof. intro H. inversion H as [|a ? i' ? H1 H2]; subst. inversion H2; subst. exists a. auto. Qed.

Lemma one_idx d k : (k < d)%nat -> (if (d =? 1)%nat then O else k) = k.
Proof. intro. destruct (Nat.eqb_spec d 1); lia. Qed.

Lemma vec_row n l : shows [n; List.length l] (fun i => nth (nth 1 i O) l 0) (vec l).
Proof.
  split; [cbn; auto|]. intros i Hi. apply inb2 in Hi. destruct Hi as (a & b & -> & Ha & Hb).
  cbn. rewrite one_idx by exact Hb. reflexivity.
Qed.
Lemma col_col l m : shows [List.length l; m] (fun i => nth (nth 0 i O) l 0) (col l).
Proof.
  split; [cbn; auto|]. intros i Hi. apply inb2 in Hi. destruct Hi as (a & b & -> & Ha & Hb).
  cbn. rewrite one_idx by exact Ha. reflexivity.
Qed.
Lemma broadcast_row_col n m : broadcast [m] [n; 1]%nat = Ok [n; m].
Proof. unfold broadcast, bdim. cbn. unfold bdim. destruct (Nat.eqb_spec m 1); [subst; reflexivity|]. reflexivity. Qed.
Lemma broadcast_col_row n m : broadcast [n; 1]%nat [m] = Ok [n; m].
Proof. unfold broadcast, bdim. cbn. unfold bdim. destruct m as [|[|m]]; reflexivity. Qed.

Lemma amap_vec (f : R -> R) l : amap f (vec l) = mkA [List.length l] (fun i => f (nth (hd O i) l 0)).
Proof. reflexivity. Qed.
Lemma amap_row (f : R -> R) n l : shows [n; List.length l] (fun i => f (nth (nth 1 i O) l 0)) (amap f (vec l)).
Proof. apply shows_amap. apply vec_row. Qed.

Lemma holds_from a l : ash a = [List.length l] -> (forall k, (k < List.length l)%nat -> aval a [k] = nth k l 0) -> holds_list a l.
Proof.
  intros H V. split; [exact H|]. unfold to_list. rewrite H. cbn [hd].
  transitivity (map (fun k => nth k l 0) (seq 0 (List.length l))); [|apply map_nth_seq].
  apply map_ext_in. intros k Hk. apply in_seq in Hk. apply V. lia.
Qed.

Lemma mul2_nth ns ks k : (k < List.length ns)%nat -> (k < List.length ks)%nat -> nth k (mul2 ns ks) 0 = nth k ns 0 * nth k ks 0.
Proof.
  unfold mul2. revert ks k. induction ns as [|n ns IH]; intros [|x ks] k H1 H2; cbn in *; try lia.
  destruct k; cbn; [reflexivity|]. apply IH; lia.
Qed.
Lemma mul2_length ns ks : List.length ns = List.length ks -> List.length (mul2 ns ks) = List.length ks.
Proof. intro H. unfold mul2. rewrite map_length, combine_length. lia. Qed.
Lemma list_from (g : nat -> R) (l : list R) n : List.length l = n -> (forall k, (k < n)%nat -> g k = nth k l 0) -> map g (seq 0 n) = l.
Proof.
  intros <- H. transitivity (map (fun k => nth k l 0) (seq 0 (List.length l))); [|apply map_nth_seq].
  apply map_ext_in. intros k Hk. apply in_seq in Hk. apply H. lia.
Qed.
Lemma nth_map_R (f : R -> R) l k : (k < List.length l)%nat -> nth k (map f l) 0 = f (nth k l 0).
Proof. intro H. rewrite (nth_indep (map f l) 0 (f 0)) by (rewrite map_length; exact H). apply map_nth. Qed.


(** Integrals of two- and one-dimensional arrays. *)
Lemma axis0_2 y gs n m f : is_arr [n; m] f y -> List.length gs = n ->
  exists r, atrapz y (vec gs) 0 = Ok r /\ is_arr [m] (fun i => strapz (map (fun g => f [g; hd O i]) (seq 0 n)) gs) r.
Proof.
  intros [Sy Vy] L. destruct (C115_axis y gs 0) as (r & Er & Sr & Vr); [rewrite Sy; cbn; lia|rewrite Sy; cbn; congruence|].
  exists r. split; [exact Er|]. rewrite Sy in Sr, Vr. cbn [del] in Sr, Vr. split; [exact Sr|].
  intros i Hi. rewrite (Vr i Hi). f_equal. unfold line. rewrite Sy. cbn [nth]. apply map_ext_in. intros g Hg. apply in_seq in Hg.
  apply inb1 in Hi. destruct Hi as (a & -> & Ha). cbn [ins hd]. apply Vy. repeat constructor; lia.
Qed.
Lemma axis1_2 y gs n m f : is_arr [m; n] f y -> List.length gs = n ->
  exists r, atrapz y (vec gs) 1 = Ok r /\ is_arr [m] (fun i => strapz (map (fun g => f [hd O i; g]) (seq 0 n)) gs) r.
Proof.
  intros [Sy Vy] L. destruct (C115_axis y gs 1) as (r & Er & Sr & Vr); [rewrite Sy; cbn; lia|rewrite Sy; cbn; congruence|].
  exists r. split; [exact Er|]. rewrite Sy in Sr, Vr. cbn [del] in Sr, Vr. split; [exact Sr|].
  intros i Hi. rewrite (Vr i Hi). f_equal. unfold line. rewrite Sy. cbn [nth]. apply map_ext_in. intros g Hg. apply in_seq in Hg.
  apply inb1 in Hi. destruct Hi as (a & -> & Ha). cbn [ins hd]. apply Vy. repeat constructor; lia.
Qed.
Lemma axis0_1 y gs n f : is_arr [n] f y -> List.length gs = n ->
  exists r, atrapz y (vec gs) 0 = Ok r /\ is_arr [] (fun i => strapz (map (fun g => f [g]) (seq 0 n)) gs) r.
Proof.
  intros [Sy Vy] L. destruct (C115_axis y gs 0) as (r & Er & Sr & Vr); [rewrite Sy; cbn; lia|rewrite Sy; cbn; congruence|].
  exists r. split; [exact Er|]. rewrite Sy in Sr, Vr. cbn [del] in Sr, Vr. split; [exact Sr|].
  intros i Hi. rewrite (Vr i Hi). f_equal. unfold line. rewrite Sy. cbn [nth]. apply map_ext_in. intros g Hg. apply in_seq in Hg.
  inversion Hi; subst. cbn [ins]. apply Vy. repeat constructor; lia.
Qed.

(** The samples of an electron integral: nelec times a kernel. *)
Lemma samples_are mec2 pd gs (kern : R -> R) f : 0 < mec2 -> grid gs -> (forall E, 0 < E -> 0 <= pd E) ->
  (forall g, 0 < g -> 0 <= kern g) ->
  (forall g, (g < List.length gs)%nat -> f g = nth g (nelec mec2 pd gs) 0 * kern (nth g gs 0)) ->
  strapz (map f (seq 0 (List.length gs))) gs = trapz_loglog (mul2 (nelec mec2 pd gs) (map kern gs)) gs.
Proof.
  intros Hm Hg Hp Hk Hf.
  assert (P : forall g, (g < List.length gs)%nat -> 0 < nth g gs 0).
  { intros g H. destruct Hg as [F _]. rewrite Forall_forall in F. apply F, nth_In, H. }
  rewrite strapz_trapz.
  - f_equal. apply list_from.
    + rewrite mul2_length; unfold nelec; rewrite !map_length; reflexivity.
    + intros g H. rewrite (Hf g H), mul2_nth by (unfold nelec; rewrite map_length; exact H). rewrite (nth_map_R kern) by exact H. reflexivity.
  - apply Forall_forall. intros v Hv. apply in_map_iff in Hv. destruct Hv as (g & <- & H). apply in_seq in H.
    assert (g < List.length gs)%nat as Hl by lia. rewrite (Hf g Hl). unfold nelec. rewrite nth_map_R by exact Hl. specialize (P g Hl).
    apply Rmult_le_pos; [apply Rmult_le_pos; [apply Hp; nra|lra]|apply Hk, P].
Qed.

(* ------------------------------------------------------------------ *)
(** * Synchrotron *)

(** The array [_spectrum] of Synchrotron computes for a one-dimensional array of
    photon energies holds, energy by energy, the integral of the model used in
    the other properties. *)
Theorem C115_synchrotron : forall k B mec2 pd gs Es,
  sy_ok k -> 0 < B -> 0 < mec2 -> (forall E, 0 < E -> 0 <= pd E) -> gs <> [] -> grid gs ->
  List.Forall (fun E => 0 < E) Es ->
  exists r, sy_array (nelec mec2 pd gs) gs k B (vec Es) = Ok r /\ holds_list r (sy_spectrum k B mec2 pd gs Es).
Proof.
  intros k B mec2 pd gs Es Hk HB Hm Hp Hne Hg HEs. unfold sy_array. set (n := List.length gs). set (m := List.length Es).
  rewrite avstack_vec by (destruct gs; [congruence|discriminate]). cbn [obind].
  pose proof (vec_row n Es) as HE. fold m in HE.
  pose proof (col_col (map (Ecrit k B) gs) m) as HC. rewrite map_length in HC. fold n in HC.
  destruct (lift2_join Rdiv [n; m] _ _ (vec Es) (col (map (Ecrit k B) gs)) HE HC) as (eg & E1 & H1).
  { cbn [ash vec col]. rewrite map_length. fold n m. apply broadcast_row_col. }
  rewrite E1. cbn [obind]. clear E1.
  pose proof (amap_row (fun e => CS1 k B e) n Es) as HCS. fold m in HCS.
  destruct (lift2_is_r Rmult [n; m] _ _ _ _ HCS (is_amap Gtilde _ _ _ H1)) as (dn & E2 & H2). rewrite E2. cbn [obind]. clear E2.
  rewrite avstack_vec by (unfold nelec; destruct gs; [congruence|discriminate]). cbn [obind].
  pose proof (col_col (nelec mec2 pd gs) m) as HN. replace (List.length (nelec mec2 pd gs)) with n in HN by (unfold nelec; rewrite map_length; reflexivity).
  destruct (lift2_is_r Rmult [n; m] _ _ _ _ HN H2) as (y & E3 & Hy). rewrite E3. cbn [obind]. clear E3 H2 H1 HCS HE HC HN.
  destruct (axis0_2 y gs n m _ Hy eq_refl) as (r & Er & Sr & Vr).
  exists r. split; [exact Er|].
  apply holds_from; unfold sy_spectrum; rewrite map_length; [exact Sr|].
  fold m. intros j Hj. rewrite Vr by (repeat constructor; exact Hj). cbn [hd].
  rewrite (nth_map_R (fun E => trapz_loglog _ gs)) by exact Hj.
  assert (0 < nth j Es 0) by (rewrite Forall_forall in HEs; apply HEs, nth_In, Hj).
  apply samples_are; auto.
  - intros g Pg. apply Rlt_le, sy_kernel_pos; auto.
  - intros g Hgn. cbn [nth]. rewrite nth_map_R by exact Hgn. reflexivity.
Qed.
