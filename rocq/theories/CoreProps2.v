(** Properties C43-C45, C72-C74: sampler set-up and life cycle. *)
From Coq Require Import Reals List ZArith Bool String Ascii Arith Lra Lia Permutation Sorted.
From Verif Require Import Outcome SimplexModel SimplexProofs SimplexProps UnitsModel CoreModel.
Import ListNotations.
Local Open Scope R_scope.

Lemma nth_set_other i : forall j v p, j <> i -> nth j (set_nth i v p) 0 = nth j p 0.
Proof. induction i; intros [|j] v [|a p] H; simpl; auto; try congruence. Qed.
Lemma nth_set_same i : forall v p, (i < List.length p)%nat -> nth i (set_nth i v p) 0 = v.
Proof. induction i; intros v [|a p] H; simpl in *; try lia; auto. apply IHi. lia. Qed.

(** ** C43 *)
(** Specification: a label looks like a normalisation when, in lower case, it
    starts with one of the documented names, possibly inside log( or log10(. *)
Definition looks_like_norm (l : string) : Prop :=
  exists n, In n ["norm"; "ampl"; "we"; "wp"]%string /\
  exists pre, In pre [""; "log("; "log10("]%string /\ String.prefix (String.append pre n) (lower l) = true.


(** [lower] is what Python's str.lower is on ASCII text. *)
Lemma C43_lower : lower "ABCDEFGHIJKLMNOPQRSTUVWXYZ" = "abcdefghijklmnopqrstuvwxyz"%string /\
  (forall s r, lower (String.append s r) = String.append (lower s) (lower r)) /\
  (forall a, ~ (65 <= nat_of_ascii a <= 90)%nat -> lower (String a "") = String a "").
Proof.
  split; [reflexivity|]. split.
  - induction s as [|a s IH]; intros r; [reflexivity|]. cbn. rewrite IH. reflexivity.
  - intros a H. cbn. unfold lower_ascii. destruct (Nat.leb_spec 65 (nat_of_ascii a)); [|reflexivity]. destruct (Nat.leb_spec (nat_of_ascii a) 90); [lia|reflexivity].
Qed.
Lemma index_of_lt s l : In s l -> (index_of s l < List.length l)%nat /\ nth (index_of s l) l ""%string = s.
Proof.
  induction l as [|a l IH]; intros H; [destruct H|]. simpl. destruct (String.eqb_spec s a) as [->|N]; [split; [lia|auto]|].
  destruct H as [->|H]; [congruence|]. destruct (IH H). split; [lia|auto].
Qed.
Lemma norm_idxs_spec labels i : In i (norm_idxs labels) -> (i < List.length labels)%nat /\ looks_like_norm (nth i labels ""%string).
Proof.
  unfold norm_idxs. intros H. apply in_flat_map in H. destruct H as (n & Hn & H). apply in_map_iff in H. destruct H as (l & <- & H).
  apply filter_In in H. destruct H as [Hl HP]. destruct (index_of_lt l labels Hl) as [A B]. split; auto. rewrite B.
  unfold looks_like_norm. unfold norm_names in Hn. rewrite !in_app_iff, !in_map_iff in Hn.
  destruct Hn as [Hn|[(m & <- & Hn)|(m & <- & Hn)]].
  - exists n. split; auto. exists ""%string. simpl. auto.
  - exists m. split; auto. exists "log("%string. simpl. auto.
  - exists m. split; auto. exists "log10("%string. simpl. auto.
Qed.
Lemma norm_idxs_complete labels l : In l labels -> looks_like_norm l -> In (index_of l labels) (norm_idxs labels).
Proof.
  intros HL (n & Hn & pre & Hp & H). unfold norm_idxs. apply in_flat_map. exists (String.append pre n). split.
  - unfold norm_names. rewrite !in_app_iff, !in_map_iff. simpl in Hp. destruct Hp as [<-|[<-|[<-|[]]]]; simpl String.append; eauto.
  - apply (in_map (fun l => index_of l labels)). apply filter_In. auto.
Qed.

(** At most one parameter changes, and it carries a normalisation label; with no
    normalisation label nothing changes. *)
Theorem C43_only_normalisation_partial : forall labels energy spec dflux p0,
  let p1 := norm_guess labels energy spec dflux p0 in
  List.length p1 = List.length p0 /\
  (forall j, nth j p1 0 <> nth j p0 0 ->
     norm_idxs labels = [j] /\ (j < List.length labels)%nat /\ looks_like_norm (nth j labels ""%string)) /\
  ((forall l, In l labels -> ~ looks_like_norm l) -> p1 = p0).
Proof.
  intros labels energy spec dflux p0. cbv zeta. unfold norm_guess. split; [|split].
  - destruct (norm_idxs labels) as [|i [|k r]]; auto. unfold set_par. destruct (startswith _ _); [apply set_nth_len|]. destruct (startswith _ _); apply set_nth_len.
  - intros j H. destruct (norm_idxs labels) as [|i [|k r]] eqn:E; try congruence.
    assert (j = i).
    { destruct (Nat.eq_dec j i) as [|N]; auto. exfalso. apply H. unfold set_par. destruct (startswith _ _); [apply nth_set_other; auto|].
      destruct (startswith _ _); apply nth_set_other; auto. }
    subst j. split; auto. apply norm_idxs_spec. rewrite E. simpl. auto.
  - intros H. destruct (norm_idxs labels) as [|i [|k r]] eqn:E; auto. exfalso.
    destruct (norm_idxs_spec labels i) as [A B]; [rewrite E; simpl; auto|]. eapply H; [|exact B]. apply nth_In. auto.
Qed.
Print Assumptions C43_only_normalisation_partial.

(** The energy flux is linear in the spectrum *)
Lemma trap_scale c ys : forall xs, trap (map (Rmult c) ys) xs = c * trap ys xs.
Proof.
  induction ys as [|y1 ys IH]; intros xs; [simpl; lra|]. destruct ys as [|y2 ys]; [destruct xs as [|? [|]]; simpl; lra|].
  destruct xs as [|x1 [|x2 xs]]; try (simpl; lra). specialize (IH (x2 :: xs)). cbn [map] in *.
  change (trap (c * y1 :: c * y2 :: map (Rmult c) ys) (x1 :: x2 :: xs)) with ((x2 - x1) * (c * y1 + c * y2) / 2 + trap (c * y2 :: map (Rmult c) ys) (x2 :: xs)).
  change (trap (y1 :: y2 :: ys) (x1 :: x2 :: xs)) with ((x2 - x1) * (y1 + y2) / 2 + trap (y2 :: ys) (x2 :: xs)).
  rewrite IH. field.
Qed.
Lemma energy_flux_scale c e s : energy_flux e (map (Rmult c) s) = c * energy_flux e s.
Proof.
  unfold energy_flux. rewrite <- trap_scale. f_equal. unfold zipw. rewrite map_map.
  revert s. induction e as [|a e IH]; intros [|b s]; simpl; auto. f_equal; [ring|apply IH].
Qed.

Lemma log10_not_log s : startswith "log10(" s = true -> startswith "log(" s = false.
Proof.
  unfold startswith. intros H.
  do 3 (destruct s as [|? s]; [reflexivity|]; cbn [prefix] in *; destruct (ascii_dec _ _); [|reflexivity || discriminate]).
  destruct s as [|b s]; [reflexivity|]. cbn [prefix] in *. destruct (ascii_dec "(" b) as [<-|]; [|reflexivity]. cbn in H. discriminate.
Qed.
(** The model's energy flux equals that of the data after the guess, for a model
    proportional to its normalisation parameter, given linearly, as a natural or as a
    decimal logarithm according to its label. *)
Theorem C43_flux_matches_partial : forall labels energy dflux p0 i (model : list R -> list R),
  norm_idxs labels = [i] -> energy_flux energy (model p0) <> 0 ->
  let v := nth i p0 0 in
  let label := nth i labels ""%string in
  let ratio := energy_flux energy dflux / energy_flux energy (model p0) in
  (startswith "log(" label = false -> startswith "log10(" label = false ->
     (forall c, model (set_par i (v * c) p0) = map (Rmult c) (model p0)) ->
     energy_flux energy (model (norm_guess labels energy (model p0) dflux p0)) = energy_flux energy dflux) /\
  (startswith "log(" label = true -> 0 < ratio ->
     (forall c, 0 < c -> model (set_par i (v + ln c) p0) = map (Rmult c) (model p0)) ->
     energy_flux energy (model (norm_guess labels energy (model p0) dflux p0)) = energy_flux energy dflux) /\
  (startswith "log10(" label = true -> 0 < ratio ->
     (forall c, 0 < c -> model (set_par i (v + ln c / ln 10) p0) = map (Rmult c) (model p0)) ->
     energy_flux energy (model (norm_guess labels energy (model p0) dflux p0)) = energy_flux energy dflux).
Proof.
  intros labels energy dflux p0 i model HI HF. cbv zeta. unfold norm_guess. rewrite HI.
  set (r := energy_flux energy dflux / energy_flux energy (model p0)).
  assert (E : r * energy_flux energy (model p0) = energy_flux energy dflux) by (unfold r; field; auto).
  split; [|split].
  - intros L1 L2 HM. rewrite L1, L2, HM, energy_flux_scale. auto.
  - intros L1 HR HM. rewrite L1, HM, energy_flux_scale by auto. auto.
  - intros L2 HR HM. assert (L1 : startswith "log(" (nth i labels ""%string) = false).
    { apply log10_not_log; auto. }
    rewrite L1, L2. unfold log10. rewrite HM, energy_flux_scale by auto. auto.
Qed.
Print Assumptions C43_flux_matches_partial.
(** the default labels, and a model proportional to its first parameter *)
Example C43_example : norm_idxs (fill_labels (fun _ => "1"%string) None 2) = [0%nat] /\
  (forall c, (fun p => [nth 0 p 0; 2 * nth 0 p 0]) (set_par 0 (3 * c) [3; 2]) = map (Rmult c) [3; 2 * 3]).
Proof. split; [reflexivity|]. intros. simpl. f_equal; [ring|f_equal; ring]. Qed.

(** Refuted: the label is recognised in any case but the logarithm only in lower
    case, so a parameter labelled Log(norm) is multiplied. *)
Theorem C43_label_case_refuted : exists labels energy dflux p0 (model : list R -> list R),
  norm_idxs labels = [0%nat] /\
  (forall c v, 0 < c -> model [v + ln c] = map (Rmult c) (model [v])) /\
  0 < energy_flux energy dflux / energy_flux energy (model p0) /\
  energy_flux energy (model (norm_guess labels energy (model p0) dflux p0)) <> energy_flux energy dflux.
Proof.
  set (model := fun p => map (Rmult (exp (nth 0 p 0))) [1; 1]).
  exists ["Log(norm)"%string], [1; 2], (map (Rmult (exp 2)) [1; 1]), [1], model.
  assert (EF : energy_flux [1; 2] [1; 1] = 3 / 2) by (unfold energy_flux; simpl; lra).
  split; [reflexivity|]. split.
  - intros c v Hc. unfold model. rewrite map_map. apply map_ext. intros a. cbn [nth]. rewrite exp_plus, exp_ln by auto. ring.
  - assert (R1 : energy_flux [1; 2] (map (Rmult (exp 2)) [1; 1]) / energy_flux [1; 2] (model [1]) = exp 1).
    { unfold model. cbn [nth]. rewrite !energy_flux_scale, EF. replace 2 with (1 + 1) at 1 by lra. rewrite exp_plus. pose proof (exp_pos 1). field. lra. }
    split; [rewrite R1; apply exp_pos|].
    unfold norm_guess. change (norm_idxs ["Log(norm)"%string]) with [0%nat]. cbv iota. rewrite R1.
    change (startswith "log(" (nth 0 ["Log(norm)"%string] ""%string)) with false.
    change (startswith "log10(" (nth 0 ["Log(norm)"%string] ""%string)) with false. cbv iota.
    unfold set_par, model. cbn [nth set_nth]. rewrite !energy_flux_scale, EF. intros C.
    assert (exp 2 < exp (1 * exp 1)); [|lra]. apply exp_increasing. assert (H := exp_ineq1 1 ltac:(lra)). lra.
Qed.
Print Assumptions C43_label_case_refuted.

(** ** C44 *)
Definition coord (i : nat) (w : list R) : R := nth i w 0.
Lemma zip_nth (f : R -> R -> R) i : forall a b, (i < List.length a)%nat -> (i < List.length b)%nat ->
  nth i (zipw f a b) 0 = f (nth i a 0) (nth i b 0).
Proof. induction i; intros [|x a] [|y b] A B; simpl in *; try lia; auto. apply IHi; lia. Qed.
Lemma zip_length (f : R -> R -> R) a b : List.length (zipw f a b) = Nat.min (List.length a) (List.length b).
Proof. unfold zipw. rewrite map_length, combine_length. reflexivity. Qed.
(** Every coordinate of every walker is p0 times one plus the relative offset
    drawn for it (10 percent, or 0.5 percent after a maximum-likelihood fit). *)
Theorem C44_relative_offset_partial : forall ml p0 draws k g, nth_error draws k = Some g -> List.length g = List.length p0 ->
  exists w, nth_error (walkers ml p0 draws) k = Some w /\ List.length w = List.length p0 /\
  forall i, (i < List.length p0)%nat -> coord i w = coord i p0 * (1 + (if ml then 5 / 1000 else 1 / 10) * coord i g).
Proof.
  intros ml p0 draws k g HK HL. unfold walkers. cbv zeta. set (sp := if ml then 5 / 1000 else 1 / 10). erewrite map_nth_error by eauto. eexists. split; [reflexivity|].
  rewrite zip_length, zip_length, map_length, HL, !Nat.min_id. split; auto. intros i Hi. unfold coord.
  rewrite !zip_nth; rewrite ?zip_length, ?map_length, ?HL, ?Nat.min_id; auto.
  rewrite (nth_indep (map (Rmult sp) p0) 0 (Rmult sp 0)) by (rewrite map_length; auto). rewrite map_nth. ring.
Qed.
(** Distinct draws give distinct walkers where p0 is non-zero. *)
Theorem C44_distinct_partial : forall (ml : bool) a g h, a <> 0 ->
  (a * (1 + (if ml then 5 / 1000 else 1 / 10) * g) = a * (1 + (if ml then 5 / 1000 else 1 / 10) * h) <-> g = h).
Proof.
  intros ml a g h Ha. split; [|intros ->; auto]. intros E. apply Rmult_eq_reg_l in E; auto. destruct ml; lra.
Qed.
(** Refuted where p0 is 0: every walker has coordinate 0, whatever was drawn. *)
Theorem C44_zero_parameter_refuted : forall ml p0 draws i, (i < List.length p0)%nat -> coord i p0 = 0 ->
  Forall (fun g => List.length g = List.length p0) draws -> Forall (fun w => coord i w = 0) (walkers ml p0 draws).
Proof.
  intros ml p0 draws i Hi H0 HF. apply Forall_forall. intros w Hw. destruct (In_nth_error _ _ Hw) as (k & Hk).
  assert (exists g, nth_error draws k = Some g) as (g & Hg).
  { unfold walkers in Hk. destruct (nth_error draws k) eqn:E; eauto. exfalso.
    assert (nth_error (walkers ml p0 draws) k = None); [|unfold walkers in *; congruence].
    apply nth_error_None. unfold walkers. rewrite map_length. apply nth_error_None; auto. }
  rewrite Forall_forall in HF. destruct (C44_relative_offset_partial ml p0 draws k g Hg (HF g (nth_error_In _ _ Hg))) as (w' & W1 & _ & W2).
  assert (w' = w) by congruence. subst w'. rewrite W2, H0 by auto. ring.
Qed.
Print Assumptions C44_relative_offset_partial.
Print Assumptions C44_distinct_partial.
Print Assumptions C44_zero_parameter_refuted.

(** ** C45 *)
(** The likelihood of the point returned is not below that of p0 (nan counts as
    worst). *)
Theorem C45_likelihood_not_worse_partial : forall nll full srt p0, sorts srt -> p0 <> [] ->
  sle (nll (fst (prefit nll full id srt p0))) (nll p0).
Proof.
  intros nll full srt p0 HS NE. unfold prefit. destruct (_ && _)%bool; cbn [fst]; [|apply sle_refl].
  destruct (C46_never_worse_partial srt HS (1 / 10) (1 / 1000) 500 (List.length p0 * 200) nll p0 NE) as [_ B]. apply B. left. reflexivity.
Qed.
(** A result forbidden by the prior is discarded; a result that ran out of
    iterations too; and the maximum-likelihood flag is set only on convergence. *)
Theorem C45_forbidden_discarded_partial : forall nll full store srt p0,
  let r := minimize nll store srt (1 / 10) (1 / 1000) 500 (List.length p0 * 200) p0 in
  (isinf (full (x_ r)) = true -> prefit nll full store srt p0 = (p0, false)) /\
  (isinf (full p0) = false -> isinf (full (fst (prefit nll full store srt p0))) = false) /\
  (snd (prefit nll full store srt p0) = true -> status r = 0%nat /\ fst (prefit nll full store srt p0) = x_ r).
Proof.
  intros nll full store srt p0. cbv zeta. unfold prefit. set (r := minimize _ _ _ _ _ _ _ _). split; [|split].
  - intros ->. rewrite andb_false_r. reflexivity.
  - intros H. destruct (_ && _)%bool eqn:E; cbn [fst]; auto. apply andb_true_iff in E. destruct E as [_ E]. apply negb_true_iff in E. auto.
  - destruct (_ && _)%bool; cbn [fst snd]; [|discriminate]. intros E. apply Nat.eqb_eq in E. auto.
Qed.
Print Assumptions C45_likelihood_not_worse_partial.
Print Assumptions C45_forbidden_discarded_partial.

(** Refuted for the log-probability including the prior: the fit ignores the
    prior, so the point returned can be far less probable than p0. *)
Theorem C45_with_prior_refuted : forall srt, sorts srt -> exists (like : point -> R) (prior : point -> R) p0,
  let nll := fun p => Fin (- like p) in
  let full := fun p => Fin (like p + prior p) in
  let p1 := fst (prefit nll full id srt p0) in
  like p1 + prior p1 < like p0 + prior p0 - 900.
Proof.
  intros srt HS.
  set (like := fun p : point => match p with b :: _ => if Req_EM_T b 1 then -2 else -1 | [] => -1 end).
  set (prior := fun p : point => match p with b :: _ => if Req_EM_T b 1 then 0 else -1000 | [] => -1000 end).
  exists like, prior, [1]. cbv zeta. set (nll := fun p => Fin (- like p)). set (full := fun p => Fin (like p + prior p)).
  assert (N1 : nll [1] = Fin (- -2)) by (unfold nll, like; destruct (Req_EM_T 1 1); [auto|lra]).
  assert (NB : forall b, b <> 1 -> nll [b] = Fin (- -1)) by (intros b Hb; unfold nll, like; destruct (Req_EM_T b 1); [lra|auto]).
  assert (K : exists b, b <> 1 /\ x_ (minimize nll id srt (1 / 10) (1 / 1000) 500 200 [1]) = [b] /\ status (minimize nll id srt (1 / 10) (1 / 1000) 500 200 [1]) = 0%nat).
  { set (x0 := init nll id srt [1]).
    assert (S0 : sim x0 = [([105 / 100], Fin (- -1)); ([1], Fin (- -2))] /\ calls x0 = [[105 / 100]; [1]] /\ iter x0 = 1%nat).
    { unfold x0, init. cbn [sim calls iter start_points seq List.length map rev app]. unfold perturbed. cbn [nth set_nth].
      destruct (Req_EM_T 1 0); [lra|]. unfold id. replace ((1 + 5 / 100) * 1) with (105 / 100) by lra. rewrite N1, (NB (105 / 100)) by lra.
      split; [|auto]. destruct (HS [([1], Fin (- -2)); ([105 / 100], Fin (- -1))]) as [P S]. apply Permutation_length_2_inv in P.
      destruct P as [P|P]; auto. rewrite P in S. inversion S as [|? ? _ F]; subst. inversion F as [|? ? G _]; subst.
      destruct G as [G|G]; [discriminate|]. simpl in G. destruct (Rle_dec _ _); [lra|discriminate]. }
    destruct S0 as (S1 & S2 & S3).
    assert (G0 : going (1 / 10) (1 / 1000) 500 200 x0 = true).
    { unfold going. rewrite S1, S2, S3. cbn [List.length]. change (Nat.ltb 2 500) with true. change (Nat.ltb 1 200) with true. cbn [andb].
      cbn [converged forallb fst snd close_values]. destruct (Req_EM_T (- -1) 0); [lra|]. destruct (Rle_dec _ _) as [C|]; [|rewrite andb_false_r; reflexivity].
      exfalso. replace ((- -1 - - -2) / - -1) with (-1) in C by field. unfold Rabs in C; destruct (Rcase_abs _); lra. }
    set (x1 := next nll id srt x0).
    assert (ST : step nll id (sim x0) = ([([105 / 100], Fin (- -1)); ([1075 / 1000], Fin (- -1))], [[1075 / 1000]; [110 / 100]])).
    { rewrite S1. unfold step, shrink. cbn [List.length Nat.sub last_v last removelast map fst snd vsum vscale vadd combine hd nth rev app put].
      change (INR 1) with 1. unfold id.
      replace (2 * (/ 1 * (105 / 100)) + -1 * 1) with (110 / 100) by lra.
      replace (3 / 2 * (/ 1 * (105 / 100)) + - (1 / 2) * 1) with (1075 / 1000) by lra.
      rewrite !NB by lra. cbn [flt]. destruct (Rlt_dec (- -1) (- -1)); [lra|]. destruct (Rlt_dec (- -1) (- -2)); [|lra].
      cbn [fle]. destruct (Rle_dec (- -1) (- -1)); [|lra]. reflexivity. }
    assert (X1 : calls x1 = [[1075 / 1000]; [110 / 100]; [105 / 100]; [1]] /\ iter x1 = 2%nat).
    { unfold x1, next. cbn [calls iter]. rewrite ST, S2, S3. auto. }
    assert (CL : forall a b, 105 / 100 <= a <= 1075 / 1000 -> 105 / 100 <= b <= 1075 / 1000 -> rel_close (1 / 10) a b = true).
    { intros a b Ha Hb. unfold rel_close. destruct (Req_EM_T a 0); [lra|]. destruct (Rle_dec _ _) as [|C]; auto. exfalso. apply C.
      unfold Rdiv. rewrite Rabs_mult, Rabs_inv. rewrite (Rabs_right a) by lra.
      assert (Rabs (b - a) <= 1 / 10) by (apply Rabs_le; lra). assert (0 < / a <= 1).
      { split; [apply Rinv_0_lt_compat; lra|]. rewrite <- Rinv_1. apply Rinv_le_contravar; lra. }
      pose proof (Rabs_pos (b - a)). nra. }
    assert (CV : close_values (1 / 1000) (Fin (- -1)) (Fin (- -1)) = true).
    { cbn [close_values]. destruct (Req_EM_T (- -1) 0); [lra|]. destruct (Rle_dec _ _) as [|C]; auto. exfalso. apply C.
      replace ((- -1 - - -1) / - -1) with 0 by field. rewrite Rabs_R0. lra. }
    assert (P1 : sim x1 = [([105 / 100], Fin (- -1)); ([1075 / 1000], Fin (- -1))] \/ sim x1 = [([1075 / 1000], Fin (- -1)); ([105 / 100], Fin (- -1))]).
    { unfold x1, next. cbn [sim]. rewrite ST. cbn [fst]. destruct (HS [([105 / 100], Fin (- -1)); ([1075 / 1000], Fin (- -1))]) as [P _].
      apply Permutation_length_2_inv in P. tauto. }
    assert (CO : converged (1 / 10) (1 / 1000) (sim x1) = true).
    { destruct P1 as [-> | ->]; cbn [converged forallb fst snd close_points combine]; rewrite CV, CL by lra; reflexivity. }
    assert (FI : final nll id srt (1 / 10) (1 / 1000) 500 200 [1] = x1).
    { unfold final. change 200%nat with (S 199) at 2. rewrite loop_S. fold x0. rewrite G0. fold x1. apply loop_stop. unfold going. rewrite CO, andb_false_r. reflexivity. }
    unfold minimize. rewrite FI. unfold finish. cbn [x_ status]. destruct X1 as [X1 X2]. rewrite X1, X2.
    destruct P1 as [-> | ->]; eexists; (split; [|split; reflexivity]); lra. }
  destruct K as (b & Hb & K1 & K2). unfold prefit. cbn [List.length]. change (1 * 200)%nat with 200%nat. rewrite K2, K1.
  assert (IF : isinf (full [b]) = false) by reflexivity. rewrite IF. cbn [negb Nat.eqb orb andb fst].
  unfold like, prior. destruct (Req_EM_T b 1); [contradiction|]. destruct (Req_EM_T 1 1); [lra|congruence].
Qed.
Print Assumptions C45_with_prior_refuted.

(** ** C72: the caller's objects *)
Theorem C72_inputs_modified_refuted : exists dec energy spec dflux c,
  c_p0 (get_sampler_effect dec true energy spec dflux c) <> c_p0 c /\
  c_labels (get_sampler_effect dec true energy spec dflux c) <> c_labels c.
Proof.
  exists (fun _ => "1"%string), [1; 2], [1; 1], [2; 2], (mkCaller [1; 5] (Some ["norm"%string])).
  assert (E : norm_idxs ["norm"; "par1"]%string = [0%nat]) by reflexivity.
  unfold get_sampler_effect. cbn [c_p0 c_labels fill_labels List.length Nat.ltb Nat.leb Nat.sub seq map app String.append].
  split; [|discriminate]. unfold norm_guess. rewrite E. cbn [nth]. change (startswith "log(" "norm") with false. change (startswith "log10(" "norm") with false. cbv iota.
  unfold set_par. cbn [set_nth]. unfold energy_flux. cbn [zipw combine map fst snd trap]. intros C. injection C as C.
  replace ((2 - 1) * (1 * 2 + 2 * 2) / 2 + 0) with 3 in C by lra. replace ((2 - 1) * (1 * 1 + 2 * 1) / 2 + 0) with (3 / 2) in C by lra. lra.
Qed.
Theorem C72_unmodified_partial : forall dec energy spec dflux c ls, c_labels c = Some ls ->
  (List.length (c_p0 c) <= List.length ls)%nat -> get_sampler_effect dec false energy spec dflux c = c.
Proof.
  intros dec energy spec dflux [p0 l] ls E H. cbn in *. subst l. unfold get_sampler_effect. cbn [c_p0 c_labels fill_labels].
  destruct (Nat.ltb_spec (List.length ls) (List.length p0)); [lia|]. reflexivity.
Qed.
Print Assumptions C72_inputs_modified_refuted.
Print Assumptions C72_unmodified_partial.

(** ** C73: default labels: one per parameter, the user's first and unchanged, and every label of the
    result can be looked up by the guess *)
Theorem C73_labels : forall dec labels n, (1 <= n)%nat ->
  (n <= List.length (fill_labels dec labels n))%nat /\
  (forall l, labels = Some l -> firstn (List.length l) (fill_labels dec labels n) = l) /\
  ((forall l, labels = Some l -> (List.length l <= n)%nat) -> List.length (fill_labels dec labels n) = n) /\
  (labels = None -> norm_idxs (fill_labels dec labels n) = [0%nat]).
Proof.
  intros dec labels n Hn. unfold fill_labels. destruct labels as [l|].
  - destruct (Nat.ltb_spec (List.length l) n) as [H|H].
    + rewrite app_length, map_length, seq_length. repeat split; try lia; try discriminate.
      intros l' [= <-]. rewrite firstn_app, Nat.sub_diag, firstn_all. simpl. apply app_nil_r.
    + repeat split; try lia; try discriminate.
      * intros l' [= <-]. apply firstn_all.
      * intros H2. specialize (H2 l eq_refl). lia.
  - cbn [List.length]. rewrite map_length, seq_length. repeat split; try lia; try discriminate. intros _.
    assert (F : forall nm, In nm norm_names -> filter (fun l => startswith nm (lower l)) (map (fun i => ("par" ++ dec i)%string) (seq 1 (n - 1))) = []).
    { intros nm Hnm. assert (G : forall ix, filter (fun l => startswith nm (lower l)) (map (fun i => ("par" ++ dec i)%string) ix) = []); [|apply G].
      induction ix as [|i ix IH]; auto. cbn [map filter]. rewrite IH. clear IH.
      assert (E : startswith nm (lower ("par" ++ dec i)) = false); [|rewrite E; reflexivity].
      unfold norm_names in Hnm. simpl in Hnm. unfold startswith.
      repeat (destruct Hnm as [<-|Hnm]; [reflexivity|]). destruct Hnm. }
    unfold norm_idxs. 
    assert (S : forall nm, In nm norm_names -> filter (fun l => startswith nm (lower l)) ("norm"%string :: map (fun i => ("par" ++ dec i)%string) (seq 1 (n - 1)))
      = if startswith nm "norm" then ["norm"%string] else []).
    { intros nm Hnm. cbn [filter]. rewrite (F nm Hnm). reflexivity. }
    rewrite (flat_map_concat_map), (map_ext_in _ (fun nm => map (fun l => index_of l ("norm"%string :: map (fun i => ("par" ++ dec i)%string) (seq 1 (n - 1)))) (if startswith nm "norm" then ["norm"%string] else []))).
    + reflexivity.
    + intros nm Hnm. rewrite (S nm Hnm). reflexivity.
Qed.
Print Assumptions C73_labels.

(** ** C74: repeated runs *)
(** Without a pool any number of runs works and the chain holds exactly the
    steps of the last one. *)
Theorem C74_serial_partial : forall nburn ns n, Forall (fun k => (0 < k)%nat) (ns ++ [n]) ->
  exists s s', get_sampler 1 nburn = Ok s /\ runs (ns ++ [n]) s = Ok s' /\ s_steps s' = n.
Proof.
  intros nburn ns n HF.
  assert (G : forall s, s_pool s = false -> s_owned s = false -> exists s', runs (ns ++ [n]) s = Ok s' /\ s_steps s' = n).
  { clear nburn. induction ns as [|k ns IH]; intros s P O; inversion HF as [|? ? H1 H2]; subst.
    - cbn [app runs]. unfold run_sampler, sample. cbn [s_pool s_open s_owned s_steps]. rewrite P. cbn [andb].
      destruct (Nat.eqb_spec n 0); [lia|]. cbn [obind s_owned]. rewrite O. eexists. split; [reflexivity|]. reflexivity.
    - cbn [app runs]. unfold run_sampler, sample. cbn [s_pool s_open s_owned s_steps]. rewrite P. cbn [andb].
      destruct (Nat.eqb_spec k 0); [lia|]. cbn [obind s_owned]. rewrite O. apply IH; auto. }
  unfold get_sampler. destruct (Nat.eqb_spec nburn 0).
  - destruct (G (new_sampler 1) eq_refl eq_refl) as (s' & A & B). eauto.
  - unfold sample. cbn [new_sampler s_pool s_open s_owned s_steps Nat.ltb Nat.leb andb]. destruct (Nat.eqb_spec nburn 0); [lia|].
    destruct (G (mkSampler false true false nburn) eq_refl eq_refl) as (s' & A & B). eauto.
Qed.
(** Refuted with a pool (more than one thread, the default on any multi-core
    machine): the second run always fails, the pool having been closed by the first. *)
Theorem C74_second_run_refuted : forall threads nburn n m, (1 < threads)%nat -> (0 < n)%nat ->
  exists s s', get_sampler threads nburn = Ok s /\ run_sampler n s = Ok s' /\ s_steps s' = n /\ run_sampler m s' = Err "ValueError".
Proof.
  intros threads nburn n m HT Hn.
  assert (T : Nat.ltb 1 threads = true) by (apply Nat.ltb_lt; auto).
  assert (G : forall st, run_sampler n (mkSampler true true true st) = Ok (mkSampler true false false n)).
  { intros. unfold run_sampler, sample. cbn [s_pool s_open s_owned s_steps andb negb]. destruct (Nat.eqb_spec n 0); [lia|]. reflexivity. }
  unfold get_sampler, sample, new_sampler. cbn [s_pool s_open s_owned s_steps andb negb]. rewrite T. cbn [andb].
  destruct (Nat.eqb_spec nburn 0); do 2 eexists; (split; [reflexivity|]); (split; [apply G|]); split; reflexivity.
Qed.
Print Assumptions C74_serial_partial.
Print Assumptions C74_second_run_refuted.
