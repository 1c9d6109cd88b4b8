(** Property C158: what the logarithmic integration does with ordinates that are not
    numbers. [None] is nan; the model of utils.py 333-355 on such lists is
    PionModel.ntrapz. *)
From Coq Require Import Reals List Bool Arith Lra Lia Sorted.
From Verif Require Import Outcome TrapzModel PionModel.
Import ListNotations.
Local Open Scope R_scope.

Lemma zero_dec y : is_zero y = true <-> y = Some 0.
Proof.
  destruct y as [v|]; cbn [is_zero]; [|split; discriminate]. destruct (Req_EM_T v 0) as [->|N]; split; auto; try discriminate.
  intros H. injection H as ->. contradiction.
Qed.
Lemma ninterval_nan x1 x2 y1 y2 : ninterval x1 x2 y1 y2 = None <-> y1 = None /\ y2 <> Some 0 /\ x1 <> x2.
Proof.
  unfold ninterval. destruct (is_zero y1) eqn:Z1; cbn [orb].
  { apply zero_dec in Z1. subst y1. split; [discriminate|]. intros (H & _). discriminate H. }
  destruct (is_zero y2) eqn:Z2.
  { apply zero_dec in Z2. subst y2. split; [discriminate|]. intros (_ & H & _). exfalso; apply H; auto. }
  assert (N2 : y2 <> Some 0) by (intros E; apply zero_dec in E; congruence).
  destruct (Req_EM_T x1 x2); [split; [discriminate|tauto]|].
  destruct y1; cbn [nmap]; [split; [discriminate|intros (H & _); discriminate H]|tauto].
Qed.

(** ** C158 *)
(** The integral is nan exactly if some ordinate that is nan is followed by another
    one, which is not zero, at another abscissa. *)
Theorem C158_nan_partial : forall ys xs, List.length ys = List.length xs ->
  (ntrapz ys xs = None <->
   exists i, nth_error ys i = Some None /\ (S i < List.length ys)%nat /\
     nth_error ys (S i) <> Some (Some 0) /\ nth i xs 0 <> nth (S i) xs 0).
Proof.
  induction ys as [|y1 ys IH]; intros [|x1 xs] L; cbn [List.length] in L; try lia.
  { cbn [ntrapz]. split; [discriminate|]. intros (i & H & _). destruct i; discriminate H. }
  destruct ys as [|y2 ys], xs as [|x2 xs]; cbn [List.length] in L; try lia.
  { cbn [ntrapz]. split; [discriminate|]. intros (i & _ & H & _). cbn in H. lia. }
  change (ntrapz (y1 :: y2 :: ys) (x1 :: x2 :: xs)) with
    (nbind (ninterval x1 x2 y1 y2) (fun v => nmap (Rplus v) (ntrapz (y2 :: ys) (x2 :: xs)))).
  assert (ST : (exists i, nth_error (y1 :: y2 :: ys) i = Some None /\ (S i < List.length (y1 :: y2 :: ys))%nat /\
     nth_error (y1 :: y2 :: ys) (S i) <> Some (Some 0) /\ nth i (x1 :: x2 :: xs) 0 <> nth (S i) (x1 :: x2 :: xs) 0) <->
     ninterval x1 x2 y1 y2 = None \/ ntrapz (y2 :: ys) (x2 :: xs) = None).
  { rewrite ninterval_nan, IH by (cbn; lia). split.
    - intros (i & A & B & C & D). destruct i as [|i].
      + left. cbn in A, C, D. injection A as ->. repeat split; auto. intros ->. apply C. reflexivity.
      + right. exists i. cbn [nth_error List.length nth] in A, B, C, D |- *. repeat split; auto. lia.
    - intros [(-> & B & C)|(i & A & B & C & D)].
      + exists 0%nat. cbn. repeat split; auto; try lia. intros E. apply B. injection E as ->. reflexivity.
      + exists (S i). cbn [nth_error List.length nth] in A, B, C, D |- *. repeat split; auto. lia. }
  rewrite ST. destruct (ninterval x1 x2 y1 y2); cbn [nbind]; [|tauto].
  destruct (ntrapz (y2 :: ys) (x2 :: xs)); cbn [nmap]; split; auto; try discriminate. intros [H|H]; discriminate H.
Qed.
Print Assumptions C158_nan_partial.

(** The last ordinate of an integral being nan is not noticed: its bin is integrated as
    if the function fell like 1/x there. *)
Theorem C158_last_refuted : forall ys y1 xs x1 x2, List.length ys = List.length xs -> y1 <> 0 -> x1 <> x2 ->
  ntrapz (map Some (ys ++ [y1]) ++ [None]) (xs ++ [x1; x2]) =
  nmap (fun v => v + x1 * y1 * ln (x2 / x1)) (ntrapz (map Some (ys ++ [y1])) (xs ++ [x1])) /\
  ntrapz (map Some (ys ++ [y1])) (xs ++ [x1]) <> None.
Proof.
  intros ys y1 xs x1 x2 L N1 N2.
  assert (FIN : forall a b, List.length a = List.length b -> ntrapz (map Some a) b <> None).
  { intros a b Lab E. apply C158_nan_partial in E; [|rewrite map_length; auto]. destruct E as (i & A & _). rewrite nth_error_map in A. destruct (nth_error a i); discriminate A. }
  split; [|apply FIN; rewrite !app_length, L; reflexivity].
  revert xs L. induction ys as [|y ys IH]; intros [|x xs] L; cbn [List.length] in L; try lia.
  - cbn [app map ntrapz]. unfold ninterval. cbn [is_zero orb]. destruct (Req_EM_T y1 0); [contradiction|]. destruct (Req_EM_T x1 x2); [contradiction|].
    cbn [orb nmap nbind]. f_equal. ring.
  - specialize (IH xs ltac:(lia)).
    assert (C1 : exists y' ty x' tx, ys ++ [y1] = y' :: ty /\ xs ++ [x1] = x' :: tx /\ xs ++ [x1; x2] = x' :: (tx ++ [x2])).
    { destruct ys, xs; cbn in L; try lia; cbn [app]; do 4 eexists; repeat split; auto. cbn [app]. rewrite <- app_assoc. reflexivity. }
    destruct C1 as (y' & ty & x' & tx & E1 & E2 & E3).
    cbn [app map]. rewrite E1, E2, E3 in *. cbn [map app] in *.
    change (ntrapz (Some y :: Some y' :: map Some ty ++ [None]) (x :: x' :: tx ++ [x2])) with
      (nbind (ninterval x x' (Some y) (Some y')) (fun v => nmap (Rplus v) (ntrapz (Some y' :: map Some ty ++ [None]) (x' :: tx ++ [x2])))).
    change (ntrapz (Some y :: Some y' :: map Some ty) (x :: x' :: tx)) with
      (nbind (ninterval x x' (Some y) (Some y')) (fun v => nmap (Rplus v) (ntrapz (Some y' :: map Some ty) (x' :: tx)))).
    rewrite IH. destruct (ninterval x x' (Some y) (Some y')) as [v|]; cbn [nbind]; [|reflexivity].
    destruct (ntrapz (Some y' :: map Some ty) (x' :: tx)) as [t|]; cbn [nmap]; [|reflexivity]. f_equal. ring.
Qed.
Print Assumptions C158_last_refuted.
Example C158_example : ntrapz [Some 1; None; Some 1] [1; 2; 3] = None /\ ntrapz [Some 1; None; Some 0] [1; 2; 3] <> None /\
  ntrapz [Some 2; None] [1; exp 1] = Some 2.
Proof.
  split; [|split].
  - apply C158_nan_partial; [reflexivity|]. exists 1%nat. cbn. repeat split; auto; [|lra]. intros E. injection E as E. lra.
  - intros E. apply C158_nan_partial in E; [|reflexivity]. destruct E as (i & A & B & C & _). cbn in B.
    destruct i as [|[|[|i]]]; cbn in A, C; try discriminate A; try lia. apply C. reflexivity.
  - destruct (C158_last_refuted [] 2 [] 1 (exp 1) eq_refl ltac:(lra)) as (H & _). { pose proof (exp_ineq1 1 ltac:(lra)). lra. }
    cbn [app map] in H. rewrite H. cbn [ntrapz nmap]. f_equal. replace (exp 1 / 1) with (exp 1) by field. rewrite ln_exp. ring.
Qed.
