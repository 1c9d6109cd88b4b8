(** Lemmas about the spectral functions. *)
From Coq Require Import Reals List Lra Lia String.
From Coquelicot Require Import Coquelicot.
From Verif Require Import Outcome SpectralModel.
Import ListNotations.
Local Open Scope R_scope.

Lemma ln10_pos : 0 < ln 10.
Proof. rewrite <- ln_1. apply ln_increasing; lra. Qed.

Lemma div_pos a b : 0 < a -> 0 < b -> 0 < a / b.
Proof. intros. apply Rdiv_lt_0_compat; auto. Qed.

Lemma Rpower_pos x b : 0 < Rpower x b.
Proof. apply exp_pos. Qed.

Lemma ln_div a b : 0 < a -> 0 < b -> ln (a / b) = ln a - ln b.
Proof. intros. unfold Rdiv. rewrite ln_mult, ln_Rinv; auto using Rinv_0_lt_compat. Qed.

Lemma Rpower_base1 b : Rpower 1 b = 1.
Proof. unfold Rpower. now rewrite ln_1, Rmult_0_r, exp_0. Qed.

Lemma scale_ratio k a b : k <> 0 -> b <> 0 -> k * a / (k * b) = a / b.
Proof. intros. field. auto. Qed.

(** The upper branch is the power law of index alpha_2 hinged at the break. *)
Lemma upper_branch A e0 eb a1 a2 e : 0 < e0 -> 0 < eb -> 0 < e ->
  A * Rpower (eb / e0) (a2 - a1) * Rpower (e / e0) (- a2)
  = A * Rpower (eb / e0) (- a1) * Rpower (e / eb) (- a2).
Proof.
  intros. unfold Rpower. rewrite !Rmult_assoc, <- !exp_plus. f_equal. f_equal.
  rewrite !ln_div by auto. ring.
Qed.

Lemma bpl_lower e A e0 eb a1 a2 : e < eb -> broken_power_law e A e0 eb a1 a2 = power_law e A e0 a1.
Proof. intros H. unfold broken_power_law, power_law. destruct (Rlt_dec e eb); [ring|lra]. Qed.

Lemma bpl_upper e A e0 eb a1 a2 : 0 < e0 -> 0 < eb -> eb <= e ->
  broken_power_law e A e0 eb a1 a2 = power_law eb A e0 a1 * Rpower (e / eb) (- a2).
Proof.
  intros H0 H1 H2. unfold broken_power_law, power_law. destruct (Rlt_dec e eb); [lra|].
  apply upper_branch; lra.
Qed.

Lemma ecbpl_factor e A e0 eb a1 a2 ec b :
  cutoff_broken_power_law e A e0 eb a1 a2 ec b = broken_power_law e A e0 eb a1 a2 * exp (- Rpower (e / ec) b).
Proof. reflexivity. Qed.

Lemma ecpl_factor e A e0 a ec b :
  cutoff_power_law e A e0 a ec b = power_law e A e0 a * exp (- Rpower (e / ec) b).
Proof. reflexivity. Qed.

Lemma cont_ratio_power x0 b e : 0 < x0 -> 0 < e -> continuous (fun x => Rpower (x / x0) b) e.
Proof.
  intros. apply (ex_derive_continuous (fun x => Rpower (x / x0) b)).
  unfold Rpower. auto_derive. apply div_pos; auto.
Qed.

Lemma cont_cutoff ec b e : 0 < ec -> 0 < e -> continuous (fun x => exp (- Rpower (x / ec) b)) e.
Proof.
  intros. apply (ex_derive_continuous (fun x => exp (- Rpower (x / ec) b))).
  unfold Rpower. auto_derive. apply div_pos; auto.
Qed.

Lemma cont_pl A e0 a e : 0 < e0 -> 0 < e -> continuous (fun x => power_law x A e0 a) e.
Proof.
  intros. unfold power_law. apply (continuous_scal_r A (fun x => Rpower (x / e0) (- a))). apply cont_ratio_power; auto.
Qed.

(** Gluing two continuous functions that agree at the joint. *)
Lemma cont_glue (f g h : R -> R) (b x : R) :
  continuous f x -> continuous g x -> f b = g b ->
  (forall y, y < b -> h y = f y) -> (forall y, b <= y -> h y = g y) -> continuous h x.
Proof.
  intros Cf Cg E Hl Hr. destruct (Rtotal_order x b) as [L|[L|L]].
  - apply (continuous_ext_loc _ f); auto.
    exists (mkposreal (b - x) ltac:(lra)). intros y Hy. symmetry. apply Hl.
    unfold ball in Hy; simpl in Hy; unfold AbsRing_ball, abs, minus, plus, opp in Hy; simpl in Hy.
    apply Rabs_def2 in Hy. lra.
  - subst x. apply filterlim_locally. intros eps.
    pose proof (proj1 (filterlim_locally _ _) Cf eps) as F. pose proof (proj1 (filterlim_locally _ _) Cg eps) as G.
    destruct F as [d1 F]. destruct G as [d2 G].
    exists (mkposreal (Rmin d1 d2) (Rmin_stable_in_posreal d1 d2)). intros y Hy.
    assert (Y1 : ball b d1 y) by (eapply ball_le; [|exact Hy]; apply Rmin_l).
    assert (Y2 : ball b d2 y) by (eapply ball_le; [|exact Hy]; apply Rmin_r).
    rewrite (Hr b) by lra. destruct (Rlt_le_dec y b) as [L|L].
    + rewrite (Hl y L), <- E. apply F; auto.
    + rewrite (Hr y L). apply G; auto.
  - apply (continuous_ext_loc _ g); auto.
    exists (mkposreal (x - b) ltac:(lra)). intros y Hy. symmetry. apply Hr.
    unfold ball in Hy; simpl in Hy; unfold AbsRing_ball, abs, minus, plus, opp in Hy; simpl in Hy.
    apply Rabs_def2 in Hy. lra.
Qed.

Lemma cont_bpl A e0 eb a1 a2 e : 0 < e0 -> 0 < eb -> 0 < e ->
  continuous (fun x => broken_power_law x A e0 eb a1 a2) e.
Proof.
  intros H0 Hb He.
  apply (cont_glue (fun x => power_law x A e0 a1) (fun x => power_law eb A e0 a1 * Rpower (x / eb) (- a2)) _ eb).
  - apply cont_pl; auto.
  - apply (continuous_scal_r (power_law eb A e0 a1) (fun x => Rpower (x / eb) (- a2))). apply cont_ratio_power; auto.
  - replace (eb / eb) with 1 by (field; lra). rewrite Rpower_base1. ring.
  - intros y Hy. apply bpl_lower; auto.
  - intros y Hy. apply bpl_upper; auto.
Qed.

Lemma cont_ecbpl A e0 eb a1 a2 ec b e : 0 < e0 -> 0 < eb -> 0 < ec -> 0 < e ->
  continuous (fun x => cutoff_broken_power_law x A e0 eb a1 a2 ec b) e.
Proof.
  intros. apply (continuous_mult (fun x => broken_power_law x A e0 eb a1 a2) (fun x => exp (- Rpower (x / ec) b))).
  - apply cont_bpl; auto.
  - apply cont_cutoff; auto.
Qed.

(** ** Scaling *)
Lemma pl_scale k e A e0 a : 0 < k -> 0 < e0 -> power_law (k * e) A (k * e0) a = power_law e A e0 a.
Proof. intros. unfold power_law. now rewrite scale_ratio by lra. Qed.
Lemma ecpl_scale k e A e0 a ec b : 0 < k -> 0 < e0 -> 0 < ec ->
  cutoff_power_law (k * e) A (k * e0) a (k * ec) b = cutoff_power_law e A e0 a ec b.
Proof. intros. unfold cutoff_power_law. now rewrite !scale_ratio by lra. Qed.
Lemma bpl_scale k e A e0 eb a1 a2 : 0 < k -> 0 < e0 ->
  broken_power_law (k * e) A (k * e0) (k * eb) a1 a2 = broken_power_law e A e0 eb a1 a2.
Proof.
  intros. unfold broken_power_law. rewrite !scale_ratio by lra.
  destruct (Rlt_dec (k * e) (k * eb)), (Rlt_dec e eb); auto; exfalso; nra.
Qed.
Lemma ecbpl_scale k e A e0 eb a1 a2 ec b : 0 < k -> 0 < e0 -> 0 < ec ->
  cutoff_broken_power_law (k * e) A (k * e0) (k * eb) a1 a2 (k * ec) b
  = cutoff_broken_power_law e A e0 eb a1 a2 ec b.
Proof. intros. rewrite !ecbpl_factor, bpl_scale, scale_ratio by lra. reflexivity. Qed.
Lemma lp_scale k e A e0 a b : 0 < k -> 0 < e0 -> log_parabola (k * e) A (k * e0) a b = log_parabola e A e0 a b.
Proof. intros. unfold log_parabola. now rewrite !scale_ratio by lra. Qed.

(** ** Derivative of ln f with respect to ln e *)
Lemma pl_pos e A e0 a : 0 < A -> 0 < power_law e A e0 a.
Proof. intros. apply Rmult_lt_0_compat; auto using Rpower_pos. Qed.

Lemma bpl_pos e A e0 eb a1 a2 : 0 < A -> 0 < broken_power_law e A e0 eb a1 a2.
Proof.
  intros. unfold broken_power_law.
  destruct (Rlt_dec e eb); repeat apply Rmult_lt_0_compat; auto using Rpower_pos; lra.
Qed.

Lemma lp_pos e A e0 a b : 0 < A -> 0 < log_parabola e A e0 a b.
Proof. intros. apply Rmult_lt_0_compat; auto using Rpower_pos. Qed.

Lemma cut_bounds x b : 0 < exp (- Rpower x b) < 1.
Proof.
  split; [apply exp_pos|]. rewrite <- exp_0. apply exp_increasing. pose proof (Rpower_pos x b). lra.
Qed.

Lemma pl_log A e0 a l : 0 < A -> 0 < e0 -> ln (power_law (exp l) A e0 a) = ln A - a * (l - ln e0).
Proof.
  intros. unfold power_law. rewrite ln_mult by auto using Rpower_pos. unfold Rpower at 1.
  rewrite ln_exp, ln_div, ln_exp by auto using exp_pos. ring.
Qed.

Lemma lp_log A e0 a b l : 0 < A -> 0 < e0 ->
  ln (log_parabola (exp l) A e0 a b) = ln A - a * (l - ln e0) - b * (l - ln e0) ^ 2.
Proof.
  intros. unfold log_parabola. rewrite ln_mult by auto using Rpower_pos. unfold Rpower at 1.
  rewrite ln_exp, ln_div, ln_exp by auto using exp_pos. ring.
Qed.

Lemma pl_index A e0 a l : 0 < A -> 0 < e0 ->
  is_derive (fun l => ln (power_law (exp l) A e0 a)) l (- a).
Proof.
  intros. apply (is_derive_ext (fun l => ln A - a * (l - ln e0))).
  - intros. symmetry. apply pl_log; auto.
  - auto_derive; auto. ring.
Qed.

Lemma lp_index A e0 a b l : 0 < A -> 0 < e0 ->
  is_derive (fun l => ln (log_parabola (exp l) A e0 a b)) l (- a - 2 * b * (l - ln e0)).
Proof.
  intros. apply (is_derive_ext (fun l => ln A - a * (l - ln e0) - b * (l - ln e0) ^ 2)).
  - intros. symmetry. apply lp_log; auto.
  - auto_derive; auto. ring.
Qed.

(** ** Tables *)
Lemma pow10_log10 y : 0 < y -> pow10 (log10 y) = y.
Proof.
  intros. unfold pow10, log10, Rpower. pose proof ln10_pos.
  replace (ln y / ln 10 * ln 10) with (ln y) by (field; lra). apply exp_ln; auto.
Qed.

Lemma log10_pow10 y : log10 (pow10 y) = y.
Proof. unfold pow10, log10, Rpower. rewrite ln_exp. pose proof ln10_pos. field. lra. Qed.

Lemma log10_lt a b : 0 < a -> a < b -> log10 a < log10 b.
Proof.
  intros. unfold log10. pose proof ln10_pos. apply Rmult_lt_compat_r; [apply Rinv_0_lt_compat; auto|].
  apply ln_increasing; auto.
Qed.
Lemma log10_le a b : 0 < a -> a <= b -> log10 a <= log10 b.
Proof. intros H [L| ->]; [apply Rlt_le, log10_lt; auto|lra]. Qed.

Lemma fold_min_le x0 r x : In x (x0 :: r) -> fold_right Rmin x0 r <= x.
Proof.
  revert x. induction r as [|a r IH]; intros x Hx; simpl in *.
  - destruct Hx as [<-|[]]. lra.
  - destruct Hx as [H|[H|H]].
    + apply Rle_trans with (fold_right Rmin x0 r); [apply Rmin_r|]. apply IH; auto.
    + subst. apply Rmin_l.
    + apply Rle_trans with (fold_right Rmin x0 r); [apply Rmin_r|]. apply IH; auto.
Qed.
Lemma fold_max_ge x0 r x : In x (x0 :: r) -> x <= fold_right Rmax x0 r.
Proof.
  revert x. induction r as [|a r IH]; intros x Hx; simpl in *.
  - destruct Hx as [<-|[]]. lra.
  - destruct Hx as [H|[H|H]].
    + apply Rle_trans with (fold_right Rmax x0 r); [|apply Rmax_r]. apply IH; auto.
    + subst. apply Rmax_l.
    + apply Rle_trans with (fold_right Rmax x0 r); [|apply Rmax_r]. apply IH; auto.
Qed.
Lemma fold_min_in x0 r : In (fold_right Rmin x0 r) (x0 :: r).
Proof.
  induction r as [|a r IH]; simpl; auto.
  destruct (Rle_dec a (fold_right Rmin x0 r)) as [E|E]; [rewrite Rmin_left by lra|rewrite Rmin_right by lra]; simpl in IH; tauto.
Qed.
Lemma fold_max_in x0 r : In (fold_right Rmax x0 r) (x0 :: r).
Proof.
  induction r as [|a r IH]; simpl; auto.
  destruct (Rle_dec a (fold_right Rmax x0 r)) as [E|E]; [rewrite Rmax_right by lra|rewrite Rmax_left by lra]; simpl in IH; tauto.
Qed.

Lemma nodes_fst energy values : List.length energy = List.length values ->
  map fst (table_nodes energy values) = map log10 energy.
Proof.
  unfold table_nodes. revert values. induction energy as [|e energy IH]; intros [|v values] H; simpl in *; try discriminate; auto.
  f_equal. apply IH. lia.
Qed.

Lemma interp_inside cubic nodes x :
  (exists a, In a (map fst nodes) /\ a <= x) -> (exists b, In b (map fst nodes) /\ x <= b) ->
  interplogy cubic nodes x = Some (cubic nodes x).
Proof.
  intros [a [Ha La]] [b [Hb Lb]]. unfold interplogy. destruct (map fst nodes) as [|x0 r]; [destruct Ha|].
  destruct (Rlt_dec x (fold_right Rmin x0 r)) as [C|C].
  { pose proof (fold_min_le x0 r a Ha). lra. }
  destruct (Rlt_dec (fold_right Rmax x0 r) x) as [D|D]; auto.
  pose proof (fold_max_ge x0 r b Hb). lra.
Qed.

Lemma interp_outside cubic nodes x :
  (forall a, In a (map fst nodes) -> x < a) \/ (forall a, In a (map fst nodes) -> a < x) ->
  interplogy cubic nodes x = None.
Proof.
  intros H. unfold interplogy. destruct (map fst nodes) as [|x0 r]; auto.
  destruct H as [H|H].
  - destruct (Rlt_dec x (fold_right Rmin x0 r)) as [C|C]; auto. exfalso. apply C, H, fold_min_in.
  - destruct (Rlt_dec x (fold_right Rmin x0 r)) as [C|C]; auto.
    destruct (Rlt_dec (fold_right Rmax x0 r) x) as [D|D]; auto. exfalso. apply D, H, fold_max_in.
Qed.

Lemma table_inside cubic energy values A e :
  List.length energy = List.length values -> List.Forall (fun x => 0 < x) energy -> 0 < e ->
  (exists a, In a energy /\ a <= e) -> (exists b, In b energy /\ e <= b) ->
  table_call cubic energy values A e = A * pow10 (cubic (table_nodes energy values) (log10 e)).
Proof.
  intros HL HP He [a [Ha La]] [b [Hb Lb]]. unfold table_call. rewrite interp_inside; auto.
  - exists (log10 a). rewrite nodes_fst by auto. split; [apply in_map; auto|].
    apply log10_le; auto. rewrite List.Forall_forall in HP. auto.
  - exists (log10 b). rewrite nodes_fst by auto. split; [apply in_map; auto|]. apply log10_le; auto.
Qed.

Lemma table_outside cubic energy values A e :
  List.length energy = List.length values -> List.Forall (fun x => 0 < x) energy -> 0 < e ->
  (forall a, In a energy -> e < a) \/ (forall a, In a energy -> a < e) ->
  table_call cubic energy values A e = 0.
Proof.
  intros HL HP He H. rewrite List.Forall_forall in HP. unfold table_call. rewrite interp_outside; [simpl; ring|].
  rewrite nodes_fst by auto. destruct H as [H|H]; [left|right]; intros a Ha; apply in_map_iff in Ha;
    destruct Ha as (x & <- & Hx); apply log10_lt; auto.
Qed.

Lemma combine_nth_in {A B} (l : list A) (l' : list B) i a b :
  nth_error l i = Some a -> nth_error l' i = Some b -> In (a, b) (combine l l').
Proof.
  revert l' i. induction l as [|x l IH]; intros [|y l'] [|i]; simpl; try discriminate.
  - intros [= ->] [= ->]. auto.
  - intros H1 H2. right. eapply IH; eauto.
Qed.

Lemma table_node cubic energy values A i e v :
  (forall x y, In (x, y) (table_nodes energy values) -> cubic (table_nodes energy values) x = y) ->
  List.length energy = List.length values -> List.Forall (fun x => 0 < x) energy ->
  nth_error energy i = Some e -> nth_error values i = Some v -> 0 < v ->
  table_call cubic energy values A e = A * v.
Proof.
  intros HC HL HP He Hv Pv.
  assert (Ie : In e energy) by (eapply nth_error_In; eauto).
  pose proof HP as HP'. rewrite List.Forall_forall in HP.
  rewrite table_inside; auto; try (exists e; split; auto; lra).
  rewrite (HC (log10 e) (log10 v)).
  - now rewrite pow10_log10.
  - unfold table_nodes. apply combine_nth_in with i.
    + rewrite nth_error_map, He. reflexivity.
    + rewrite nth_error_map, Hv. reflexivity.
Qed.

Lemma pow10_pos x : 0 < pow10 x. Proof. apply exp_pos. Qed.
