(** C57, C58, C79, C80, C82: further theorems about results tables and run files. *)
From Coq Require Import Reals List ZArith Bool String Ascii Arith Permutation Sorted Lra Lia.
From Verif Require Import Outcome SimplexModel AnalysisModel AnalysisProofs AnalysisProps AnalysisProps2.
Import ListNotations.
Local Open Scope R_scope.

(** ** Specification of the percentile: with the n values in increasing order
    s0 <= s1 <= ..., the value at the fractional position (n-1) q/100, linear in between. *)
Definition is_percentile (d : list R) (q v : R) : Prop :=
  exists s k, Permutation s d /\ StronglySorted Rle s /\
    INR k <= (INR (List.length d) - 1) * (q / 100) < INR k + 1 /\
    v = nth k s 0 + ((INR (List.length d) - 1) * (q / 100) - INR k) * (nth (S k) s 0 - nth k s 0).

Lemma sorted_perm_eq (a : list R) : forall b, Permutation a b -> StronglySorted Rle a -> StronglySorted Rle b -> a = b.
Proof.
  induction a as [|x a IH]; intros b P SA SB; [apply Permutation_nil in P; subst; reflexivity|].
  destruct b as [|y b]; [apply Permutation_sym, Permutation_nil in P; discriminate|].
  inversion SA as [|? ? A1 A2]; subst. inversion SB as [|? ? B1 B2]; subst. rewrite List.Forall_forall in A2, B2.
  assert (XY : x = y).
  { assert (I1 : In x (y :: b)) by (apply (Permutation_in _ P); left; reflexivity).
    assert (I2 : In y (x :: a)) by (apply (Permutation_in _ (Permutation_sym P)); left; reflexivity).
    destruct I1 as [I1|I1]; [auto|]. destruct I2 as [I2|I2]; [auto|]. specialize (A2 _ I2). specialize (B2 _ I1). lra. }
  subst y. f_equal. apply IH; auto. eapply Permutation_cons_inv; exact P.
Qed.
Lemma last_gap n k q : (0 < n)%nat -> 0 <= q <= 100 -> INR k <= (INR n - 1) * (q / 100) < INR k + 1 ->
  (S k < n)%nat \/ (INR n - 1) * (q / 100) - INR k = 0.
Proof.
  intros Hn Hq H. destruct (le_lt_dec n (S k)) as [L|L]; [right|left; exact L].
  assert (INR n <= INR (S k)) by (apply le_INR; exact L). rewrite S_INR in *.
  assert (1 <= INR n) by (change 1 with (INR 1); apply le_INR; lia).
  assert ((INR n - 1) * (q / 100) <= (INR n - 1) * 1) by (apply Rmult_le_compat_l; lra). lra.
Qed.
Theorem C80_percentiles : forall d q v, d <> [] -> 0 <= q <= 100 -> (percentile d q = v <-> is_percentile d q v).
Proof.
  intros d q v ND HQ.
  assert (L : (0 < List.length d)%nat) by (destruct d; [congruence|cbn; lia]).
  assert (PI1 : INR (Nat.pred (List.length d)) = INR (List.length d) - 1).
  { replace (List.length d) with (S (Nat.pred (List.length d))) at 2 by lia. rewrite S_INR. lra. }
  assert (H0 : 0 <= (INR (List.length d) - 1) * (q / 100)).
  { rewrite <- PI1. apply Rmult_le_pos; [apply pos_INR|lra]. }
  assert (M : forall k s, INR k <= (INR (List.length d) - 1) * (q / 100) < INR k + 1 ->
    nth k s 0 + ((INR (List.length d) - 1) * (q / 100) - INR k) * (nth (Nat.min (S k) (Nat.pred (List.length d))) s 0 - nth k s 0) =
    nth k s 0 + ((INR (List.length d) - 1) * (q / 100) - INR k) * (nth (S k) s 0 - nth k s 0)).
  { intros k s H. destruct (last_gap _ _ _ L HQ H) as [G|G]; [rewrite Nat.min_l by lia; reflexivity|rewrite G; ring]. }
  unfold percentile. cbv zeta. rewrite PI1. split.
  - intros <-. pose proof (trunc_spec _ H0) as T. exists (rsort d), (trunc ((INR (List.length d) - 1) * (q / 100))).
    split; [apply rsort_perm|]. split; [apply rsort_sorted|]. split; [exact T|]. apply M, T.
  - intros (s & k & P & S & K & ->). rewrite (trunc_unique _ k K).
    rewrite (sorted_perm_eq (rsort d) s); [apply M, K| |apply rsort_sorted|exact S].
    eapply Permutation_trans; [apply rsort_perm|apply Permutation_sym, P].
Qed.
Print Assumptions C80_percentiles.
Example C80_percentile_example : is_percentile [3; 1; 2] 84 (268 / 100).
Proof.
  exists [1; 2; 3], 1%nat. split; [apply Permutation_sym, (Permutation_cons_append [1; 2] 3)|].
  split; [repeat constructor; lra|]. cbn. lra.
Qed.

(** ** C57: the uncertainties reported with the best fit *)
Theorem C57_errors : forall r p, (p < List.length (let '(_, ps, _, _) := find_ML r in ps))%nat -> flat r <> [] ->
  let '(_, ps, errs, _) := find_ML r in
  List.length errs = List.length ps /\
  exists lo hi, is_percentile (map (fun s => nth p (s_par s) 0) (flat r)) 16 lo /\
    is_percentile (map (fun s => nth p (s_par s) 0) (flat r)) 84 hi /\ nth p errs 0 = (hi - lo) / 2 /\ 0 <= nth p errs 0.
Proof.
  intros r p H NE. unfold find_ML in *. cbv zeta in *. rewrite map_length, seq_length. split; [reflexivity|].
  set (d := map (fun s => nth p (s_par s) 0) (flat r)).
  assert (ND : d <> []) by (unfold d; destruct (flat r); [congruence|discriminate]).
  exists (percentile d 16), (percentile d 84). split; [apply C80_percentiles; auto; lra|]. split; [apply C80_percentiles; auto; lra|].
  set (f := fun p => (percentile (map (fun s => nth p (s_par s) 0) (flat r)) 84 - percentile (map (fun s => nth p (s_par s) 0) (flat r)) 16) / 2).
  assert (E : forall n, (p < n)%nat -> nth p (map f (seq 0 n)) 0 = (percentile d 84 - percentile d 16) / 2).
  { intros n Hn. rewrite (nth_indep _ 0 (f 0%nat)) by (rewrite map_length, seq_length; exact Hn). rewrite map_nth, seq_nth by exact Hn. reflexivity. }
  rewrite E by exact H. split; [reflexivity|].
  assert (L : (0 < List.length d)%nat) by (destruct d; [congruence|cbn; lia]).
  pose proof (percentile_mono d 16 84 L ltac:(lra) ltac:(lra) ltac:(lra)). lra.
Qed.
Print Assumptions C57_errors.

(** ** C58: scalar blobs. What the blob [i] of a sample holds, if it is a single number *)
Definition scalar_of (i : item) : option R :=
  match i with IScalarQ v _ => Some v | IFloat v => Some v | IArrayQ [v] _ => Some v | _ => None end.
(** the indices, in order, of the blobs that are single numbers *)
Definition scalar_blobs (b : list item) : list nat :=
  filter (fun k => match scalar_of (nth k b IOther) with Some _ => true | None => false end) (seq 0 (List.length b)).
Definition blob_number (s : sample) (k : nat) : R := match scalar_of (nth k (s_blob s) IOther) with Some v => v | None => 0 end.
Lemma item_value_scalar i : item_value i = match scalar_of i with Some v => v | None => 0 end.
Proof. destruct i as [| [|? [|? ?]] | | | |]; reflexivity. Qed.
Theorem C58_blob_rows : forall r conv last_step rows, save_results_table r conv last_step false = Ok rows ->
  save_results_table r conv last_step true =
  Ok (rows ++ map (fun k => summary ("blob" ++ nat_str k)
                      (map (fun s => blob_number s k) (if last_step then last (r_steps r) [] else List.concat (r_steps r))))
                  (scalar_blobs (s_blob (hd empty_sample (last (r_steps r) []))))).
Proof.
  intros r conv ls rows H. unfold save_results_table in *. cbv zeta in *. destruct (label_rows _ _ _ _ _ _) as [rs|e]; cbn [obind] in *; [|discriminate].
  rewrite app_nil_r in H. inversion H; subst. do 2 f_equal. unfold blob_rows, scalar_blobs.
  assert (HD : hd empty_sample (last (r_steps r) []) = nth 0 (last (r_steps r) []) empty_sample) by (destruct (last (r_steps r) []); reflexivity).
  rewrite HD. set (b0 := s_blob (nth 0 (last (r_steps r) []) empty_sample)). fold (flat r).
  induction (seq 0 (List.length b0)) as [|k ks IH]; [reflexivity|].
  cbn [flat_map filter]. rewrite IH.
  assert (V : map (fun s => item_value (nth k (s_blob s) IOther)) (if ls then last (r_steps r) [] else flat r) =
              map (fun s => blob_number s k) (if ls then last (r_steps r) [] else flat r)).
  { apply map_ext. intros s. unfold blob_number. apply item_value_scalar. }
  destruct (nth k b0 IOther) as [| [|? [|? ?]] | | | |] eqn:E; cbn [scalar_of]; try reflexivity; cbn [app map]; rewrite V; reflexivity.
Qed.
Print Assumptions C58_blob_rows.
Example C58_blob_example : scalar_blobs [IArrayQ [1; 2] "eV"; IScalarQ 3 "erg"; IOther; IFloat 4] = [1; 3]%nat.
Proof. reflexivity. Qed.

(** ** C57: the BIC reported is that of the best sample of the chain *)
Theorem C57_BIC : forall r ndata, rectangular r -> List.Forall (fun s => exists l, s_lp s = Fin l) (flat r) ->
  exists s l, In s (flat r) /\ s_lp s = Fin l /\
    (forall s' l', In s' (flat r) -> s_lp s' = Fin l' -> l' <= l) /\
    BIC r ndata = Fin (INR (List.length (s_par s)) * ln (INR ndata) - 2 * l).
Proof.
  intros r nd RC FIN.
  assert (NN : List.Forall (fun s => isnan (s_lp s) = false) (flat r)).
  { eapply Forall_impl; [|exact FIN]. intros s (l & ->). reflexivity. }
  destruct (C57_find_ML r RC NN) as (n & s & IN & ML & MX & _). apply nth_error_In in IN.
  rewrite List.Forall_forall in FIN. destruct (FIN s IN) as (l & EL). exists s, l. split; [exact IN|]. split; [exact EL|]. split.
  - intros s' l' I E. specialize (MX s' I). rewrite E, EL in MX. cbn in MX. destruct (Rle_dec l' l); [assumption|discriminate].
  - unfold BIC. destruct (find_ML r) as [[[ml p] e] b]. destruct ML as (-> & -> & _). rewrite EL. reflexivity.
Qed.
Print Assumptions C57_BIC.
Example C57_BIC_example : let r := mkRun [[mkS [1] (Fin (-2)) []; mkS [2] (Fin (-1)) []]] ["x"%string] [] 0 0 in
  rectangular r /\ List.Forall (fun s => exists l, s_lp s = Fin l) (flat r).
Proof. split; [split; [discriminate|split; [cbn; lia|repeat constructor]]|]. repeat constructor; eexists; reflexivity. Qed.

(** ** C79: what is refused leaves every file as it was, and a missing file is reported
    as missing. *)
Theorem C79_refused_save_partial : forall f n r clobber,
  ((forall stem, n <> (stem ++ ".hdf5")%string) /\ (forall stem, n <> (stem ++ ".h5")%string)) \/ (f n <> None /\ clobber = false) ->
  fst (save_run f n r clobber) = f.
Proof.
  intros f n r clobber [(A & B)|(A & ->)]; [rewrite C56_bad_suffix_refused by auto; reflexivity|].
  destruct (C56_save_touches_one_file f n r false) as (_ & X & _). apply X; auto.
Qed.
Print Assumptions C79_refused_save_partial.
Theorem C79_missing_file_partial : forall f n, f n = None -> read_run f n = Err "FileNotFoundError".
Proof. intros f n H. unfold read_run. rewrite H. reflexivity. Qed.
Print Assumptions C79_missing_file_partial.

(** ** C82: enough samples are computed whenever no more than 99 are needed *)
Theorem C82_enough_samples_partial : forall cdf c, 1 / 99 <= cdf (- c) -> cdf (- c) <= 1 ->
  1 <= INR (fst (ci_samples cdf c)) * cdf (- c).
Proof.
  intros cdf c A B. unfold ci_samples. cbv zeta. set (x := cdf (- c)) in *.
  assert (P : 0 < x) by lra. assert (I : 1 <= 1 / x <= 99).
  { split; (apply Rmult_le_reg_r with x; [exact P|]); (replace (1 / x * x) with 1 by (field; lra)); lra. }
  pose proof (trunc_spec (1 / x + 1) ltac:(lra)) as T.
  assert (T1 : (trunc (1 / x + 1) <= 100)%nat).
  { apply trunc_le_nat; [lra|]. replace (INR 100) with 100 by (rewrite INR_IZR_INZ; reflexivity). lra. }
  rewrite Nat.min_r by exact T1. destruct (Nat.ltb_spec 1000 (trunc (1 / x + 1))); [lia|]. cbn [fst].
  assert (1 / x <= INR (trunc (1 / x + 1))) by lra.
  apply Rle_trans with (1 / x * x); [right; field; lra|]. apply Rmult_le_compat_r; lra.
Qed.
Print Assumptions C82_enough_samples_partial.
