(** Further properties of get_sampler and run_sampler (C73, C74). *)
From Coq Require Import Reals List Bool String Arith Lra Lia ZArith.
From Verif Require Import Outcome SimplexModel UnitsModel CoreModel.
Import ListNotations.
Local Open Scope R_scope.

(** Generated labels are "par" and the number of the parameter they label, so no two of
    them are equal (the numbers rendered in decimal). *)
Theorem C73_generated_labels : forall dec labels n i,
  let given := match labels with Some l => List.length l | None => 1%nat end in
  (given <= i < n)%nat -> nth_error (fill_labels dec labels n) i = Some ("par" ++ dec i)%string.
Proof.
  intros dec labels n i given H. unfold given in H. unfold fill_labels. destruct labels as [l|].
  - destruct (Nat.ltb_spec (List.length l) n); [|lia]. rewrite nth_error_app2 by lia. rewrite nth_error_map.
    rewrite (nth_error_nth' _ 0%nat) by (rewrite seq_length; lia). rewrite seq_nth by lia. cbn. repeat f_equal. lia.
  - destruct i as [|i]; [lia|]. cbn [nth_error]. rewrite nth_error_map. rewrite (nth_error_nth' _ 0%nat) by (rewrite seq_length; lia).
    rewrite seq_nth by lia. cbn. repeat f_equal.
Qed.
Print Assumptions C73_generated_labels.
Theorem C73_generated_distinct : forall dec labels n i j, (forall a b, dec a = dec b -> a = b) ->
  let given := match labels with Some l => List.length l | None => 1%nat end in
  (given <= i < n)%nat -> (given <= j < n)%nat ->
  nth_error (fill_labels dec labels n) i = nth_error (fill_labels dec labels n) j -> i = j.
Proof.
  intros dec labels n i j HD given Hi Hj E. rewrite !C73_generated_labels in E by assumption. injection E as E. apply HD, E.
Qed.
Print Assumptions C73_generated_distinct.
Example C73_generated_example : nth_error (fill_labels (fun n => if Nat.eqb n 2 then "2" else "?")%string (Some ["index"; "B"]%string) 3) 2 = Some "par2"%string.
Proof. reflexivity. Qed.

(** C74 refuted (code defect): a run of zero steps raises UnboundLocalError, with and
    without a pool, after any history of earlier successful runs. *)
Theorem C74_zero_steps_refuted : forall ns s s', runs ns s = Ok s' -> (s_pool s' = true -> s_open s' = true) ->
  runs (ns ++ [0%nat]) s = Err "UnboundLocalError".
Proof.
  induction ns as [|n ns IH]; intros s s' H O.
  - cbn in H. injection H as <-. cbn. unfold run_sampler, sample. cbn [s_pool s_open].
    destruct (s_pool s); cbn [andb]; [rewrite (O eq_refl); reflexivity|reflexivity].
  - cbn [app runs] in *. destruct (run_sampler n s) as [x|]; cbn [obind] in *; [|discriminate]. apply (IH x s'); assumption.
Qed.
Print Assumptions C74_zero_steps_refuted.
Example C74_zero_example : runs [0%nat] (new_sampler 1) = Err "UnboundLocalError".
Proof. reflexivity. Qed.
