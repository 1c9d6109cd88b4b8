(** C102, C104-C107, C109: bands, axis limits, decisions of plot_fit, plot_corner, overlays. *)
From Coq Require Import Reals List ZArith Bool String Ascii Arith Permutation Sorted Lra Lia.
From Verif Require Import Outcome SimplexModel UnitsModel DataModel AnalysisModel AnalysisProofs AnalysisProps AnalysisProps2 AnalysisProps3 PlotModel PlotProps2 PlotModel2 PlotProps3.
Import ListNotations.
Local Open Scope R_scope.

(** ** C102. Confidence bands *)
Lemma ln20_pos : 0 < ln 20. Proof. rewrite <- ln_1. apply ln_increasing; lra. Qed.
Lemma ln_pow5 x : 0 < x -> ln (x ^ 5) = 5 * ln x.
Proof. intros H. rewrite ln_pow by exact H. cbn [INR]. ring. Qed.
Lemma grey_ok c : 1 / 3 <= c <= 6 -> 0 <= grey c <= 1.
Proof.
  intros H. unfold grey. pose proof ln20_pos as L20.
  assert (A : 5 * ln c >= - 2 * ln 20).
  { rewrite <- ln_pow5 by lra. assert (E : ln ((/ 20) ^ 2) = - 2 * ln 20) by (rewrite ln_pow by lra; rewrite ln_Rinv by lra; cbn [INR]; ring).
    rewrite <- E. apply Rle_ge. left. apply ln_increasing; [cbn; lra|].
    apply Rlt_le_trans with ((1 / 3) ^ 5); [cbn; lra|]. apply pow_incr. lra. }
  assert (B : 5 * ln c <= 3 * ln 20).
  { rewrite <- ln_pow5 by lra. assert (E : ln (20 ^ 3) = 3 * ln 20) by (rewrite ln_pow by lra; cbn [INR]; ring). rewrite <- E.
    left. apply ln_increasing; [apply pow_lt; lra|]. apply Rle_lt_trans with (6 ^ 5); [apply pow_incr; lra|cbn; lra]. }
  split.
  - assert (- (4 / 10) <= ln c / ln 20); [|lra]. apply Rmult_le_reg_r with (ln 20); [exact L20|]. unfold Rdiv. rewrite (Rmult_assoc (ln c)), Rinv_l, Rmult_1_r by lra. lra.
  - assert (ln c / ln 20 <= 6 / 10); [|lra]. apply Rmult_le_reg_r with (ln 20); [exact L20|]. unfold Rdiv. rewrite (Rmult_assoc (ln c)), Rinv_l, Rmult_1_r by lra. lra.
Qed.
Lemma grey_bad c : 0 < c -> c <= 3 / 10 \/ 61 / 10 <= c -> ~ (0 <= grey c <= 1).
Proof.
  intros P H G. unfold grey in G. pose proof ln20_pos as L20. set (q := ln c / ln 20) in *.
  assert (E : ln c = q * ln 20) by (unfold q; field; lra). assert (Q : - (4 / 10) <= q <= 6 / 10) by lra.
  assert (E5 : ln (c ^ 5) = 5 * q * ln 20) by (rewrite ln_pow5 by exact P; rewrite E; ring).
  assert (E2 : ln ((/ 20) ^ 2) = - 2 * ln 20) by (rewrite ln_pow by lra; rewrite ln_Rinv by lra; cbn [INR]; ring).
  assert (E3 : ln (20 ^ 3) = 3 * ln 20) by (rewrite ln_pow by lra; cbn [INR]; ring).
  destruct H as [H|H].
  - assert (ln (c ^ 5) < ln ((/ 20) ^ 2)).
    { apply ln_increasing; [apply pow_lt, P|]. apply Rle_lt_trans with ((3 / 10) ^ 5); [apply pow_incr; lra|cbn; lra]. }
    nra.
  - assert (ln (20 ^ 3) < ln (c ^ 5)).
    { apply ln_increasing; [cbn; lra|]. apply Rlt_le_trans with ((61 / 10) ^ 5); [cbn; lra|apply pow_incr; lra]. }
    nra.
Qed.
Lemma sort_desc_perm l : Permutation (sort_desc l) l.
Proof. unfold sort_desc. eapply Permutation_trans; [apply Permutation_sym, Permutation_rev|apply rsort_perm]. Qed.
Lemma rev_desc l : StronglySorted Rle l -> StronglySorted Rge (rev l).
Proof.
  induction 1 as [|x l S IH F]; cbn; [constructor|].
  revert IH. rewrite List.Forall_forall in F. assert (G : forall y, In y (rev l) -> y >= x) by (intros y I; apply in_rev in I; specialize (F _ I); lra).
  revert G. generalize (rev l) as m. induction m as [|y m IHm]; intros G SM; cbn; [repeat constructor|].
  inversion SM as [|? ? S1 F1]; subst. constructor; [apply IHm; [intros z I; apply G; right; exact I|exact S1]|].
  rewrite List.Forall_forall in *. intros z I. apply in_app_or in I. destruct I as [I|[<-|[]]]; [apply F1, I|apply G; left; reflexivity].
Qed.
Lemma draw_bands_ok cdf nx model cs : List.Forall (fun c => 0 <= grey c <= 1) cs -> draw_bands cdf cs nx model = Ok (map (fun c => (c, band cdf c nx model)) cs).
Proof.
  induction 1 as [|c cs H F IH]; cbn [draw_bands map]; [reflexivity|].
  destruct (Rle_dec 0 (grey c)); [|lra]. destruct (Rle_dec (grey c) 1); [|lra]. rewrite IH. reflexivity.
Qed.
(** One band for every requested level between 1/3 and 6 sigma; the bands are drawn
    from the widest to the narrowest, and a band lies inside those drawn before it: none
    hides another. *)
Definition inside (nx : nat) (b w : list (R * R)) : Prop :=
  forall i, (i < nx)%nat -> fst (nth i w (0, 0)) <= fst (nth i b (0, 0)) /\ fst (nth i b (0, 0)) <= snd (nth i b (0, 0)) /\ snd (nth i b (0, 0)) <= snd (nth i w (0, 0)).
Theorem C102_bands_partial : forall cdf confs nx model, is_cdf cdf -> model <> [] -> confs <> [] -> List.Forall (fun c => 1 / 3 <= c <= 6) confs ->
  exists bands, snd (plot_CI cdf confs nx model) = Ok bands /\ Permutation (map fst bands) confs /\
    StronglySorted (fun w b => fst w >= fst b /\ inside nx (snd b) (snd w)) bands.
Proof.
  intros cdf confs nx model CDF M NE F. unfold plot_CI. cbv zeta. cbn [snd].
  assert (NE' : sort_desc confs <> []).
  { intros E. pose proof (sort_desc_perm confs) as P. rewrite E in P. apply Permutation_nil in P. congruence. }
  assert (FG : List.Forall (fun c => 1 / 3 <= c <= 6) (sort_desc confs)).
  { rewrite List.Forall_forall in *. intros c I. apply F. eapply Permutation_in; [apply sort_desc_perm|exact I]. }
  exists (map (fun c => (c, band cdf c nx model)) (sort_desc confs)). split; [|split].
  - rewrite <- draw_bands_ok; [destruct (sort_desc confs); [congruence|reflexivity]|].
    eapply List.Forall_impl; [|exact FG]. intros c. apply grey_ok.
  - rewrite map_map. cbn [fst]. rewrite map_id. apply sort_desc_perm.
  - assert (S : StronglySorted Rge (sort_desc confs)) by (apply rev_desc, rsort_sorted).
    clear NE'. revert FG. induction S as [|c l S IH H]; intros FG; cbn [map]; [constructor|]. inversion FG; subst. constructor; [apply IH; assumption|].
    rewrite List.Forall_forall in *. intros b I. apply in_map_iff in I. destruct I as (c' & <- & I). cbn [fst snd]. specialize (H _ I). split; [exact H|].
    intros i Hi. destruct (C59_bands_nested cdf c' c nx model i CDF) as (A & B & C & _); auto; [|lra].
    match goal with FF : forall x, In x l -> _ |- _ => specialize (FF _ I); lra end.
Qed.
Print Assumptions C102_bands_partial.
Example C102_example : exists bands, snd (plot_CI ex_cdf [1; 3; 1 / 2] 1 [[1]; [2]; [3]]) = Ok bands /\ Permutation (map fst bands) [1; 3; 1 / 2] /\
    StronglySorted (fun w b => fst w >= fst b /\ inside 1 (snd b) (snd w)) bands.
Proof. apply C102_bands_partial; [apply ex_cdf_ok|discriminate|discriminate|repeat constructor; lra]. Qed.
(** ** Refuted: a level below 0.3 or above 6.1 sigma is an error (the shade of grey is
    out of range), and the list given is reordered in place. *)
Theorem C102_levels_refuted : forall cdf nx model,
  (forall confs c, List.Forall (fun c => 0 < c) confs -> In c confs -> c <= 3 / 10 \/ 61 / 10 <= c -> snd (plot_CI cdf confs nx model) = Err "ValueError") /\
  (forall a b, a < b -> fst (plot_CI cdf [a; b] nx model) = [b; a]).
Proof.
  intros cdf nx model. split.
  - intros confs c F I H. unfold plot_CI. cbv zeta. cbn [snd].
    assert (I' : In c (sort_desc confs)) by (eapply Permutation_in; [apply Permutation_sym, sort_desc_perm|exact I]).
    assert (P : 0 < c) by (rewrite List.Forall_forall in F; auto).
    assert (D : draw_bands cdf (sort_desc confs) nx model = Err "ValueError").
    { revert I'. generalize (sort_desc confs). induction l as [|x l IH]; [intros []|]. intros I'. cbn [draw_bands].
      destruct (if Rle_dec 0 (grey x) then if Rle_dec (grey x) 1 then true else false else false) eqn:G; [|reflexivity].
      destruct I' as [->|I']; [|rewrite (IH I'); reflexivity]. exfalso. apply (grey_bad c P H).
      destruct (Rle_dec 0 (grey c)); [|discriminate]. destruct (Rle_dec (grey c) 1); [|discriminate]. lra. }
    destruct (sort_desc confs); [destruct I'|exact D].
  - intros a b H. unfold plot_CI, sort_desc. cbv zeta. cbn [fst rsort fold_right rins]. destruct (Rle_dec a b); [reflexivity|lra].
Qed.
Print Assumptions C102_levels_refuted.
(** An empty list of levels is an IndexError *)
Theorem C102_empty_refuted : forall cdf nx model, snd (plot_CI cdf [] nx model) = Err "IndexError".
Proof. reflexivity. Qed.
Print Assumptions C102_empty_refuted.

(** ** C104. Energy axis *)
Lemma lmin_spec l : forall d, lmin l d <= d /\ (forall x, In x l -> lmin l d <= x) /\ (lmin l d = d \/ In (lmin l d) l).
Proof.
  induction l as [|x l IH]; intros d; cbn [lmin]; [split; [lra|split; [intros x []|auto]]|].
  destruct (IH (Rmin d x)) as (A & B & C). pose proof (Rmin_l d x). pose proof (Rmin_r d x). split; [lra|]. split.
  - intros y [<-|I]; [lra|auto].
  - destruct C as [C|C]; [|right; right; exact C]. rewrite C. unfold Rmin. destruct (Rle_dec d x); [left; reflexivity|right; left; reflexivity].
Qed.
Lemma lmax_spec l : forall d, d <= lmax l d /\ (forall x, In x l -> x <= lmax l d) /\ (lmax l d = d \/ In (lmax l d) l).
Proof.
  induction l as [|x l IH]; intros d; cbn [lmax]; [split; [lra|split; [intros x []|auto]]|].
  destruct (IH (Rmax d x)) as (A & B & C). pose proof (Rmax_l d x). pose proof (Rmax_r d x). split; [lra|]. split.
  - intros y [<-|I]; [lra|auto].
  - destruct C as [C|C]; [|right; right; exact C]. rewrite C. unfold Rmax. destruct (Rle_dec d x); [right; left; reflexivity|left; reflexivity].
Qed.
Lemma exp_le a b : a <= b -> exp a <= exp b.
Proof. intros [H| ->]; [left; apply exp_increasing, H|lra]. Qed.
Lemma decade_floor_ok x : 0 < x -> exists m, decade_floor x = Ok (Some (p10 m)) /\ p10 m <= x < 10 * p10 m.
Proof.
  intros H. unfold decade_floor. destruct (Rlt_dec x 0) as [?|_]; [lra|]. destruct (Req_EM_T x 0) as [?|_]; [lra|].
  eexists. split; [reflexivity|]. pose proof (floorZ_spec (log10 x)) as F. pose proof ln10_pos. rewrite <- (exp_log10 x H) at 2 3. split.
  - rewrite p10_exp. apply exp_le. nra.
  - assert (T : 10 * p10 (floorZ (log10 x)) = p10 (1 + floorZ (log10 x))) by (rewrite p10_add, p10_1; reflexivity).
    rewrite T, p10_exp. apply exp_increasing. rewrite plus_IZR. nra.
Qed.
Lemma decade_ceil_ok x : 0 < x -> exists m, decade_ceil x = Ok (Some (p10 m)) /\ x <= p10 m < 10 * x.
Proof.
  intros H. unfold decade_ceil. destruct (Rlt_dec x 0) as [?|_]; [lra|]. destruct (Req_EM_T x 0) as [?|_]; [lra|].
  eexists. split; [reflexivity|]. pose proof (floorZ_spec (- log10 x)) as F. pose proof ln10_pos. split.
  - rewrite <- (exp_log10 x H) at 1. rewrite p10_exp, opp_IZR. apply exp_le. nra.
  - assert (T : 10 * x = exp (ln 10 + log10 x * ln 10)) by (rewrite exp_plus, exp_ln, exp_log10 by lra; reflexivity).
    rewrite T, p10_exp, opp_IZR. apply exp_increasing. nra.
Qed.
(** The axis runs between powers of ten, contains every energy bin of the data, is not
    more than one decade wider than needed at either end, and contains the requested
    range of energies. *)
Lemma limits_ok : forall rows cur e_range, rows <> [] -> List.Forall (fun r => 0 < lower r /\ 0 < upper r) rows ->
  exists x0 x1 m n, data_limits rows = Ok (Some x0, Some x1) /\ x0 = p10 m /\ x1 = p10 n /\
    (forall r, In r rows -> x0 <= lower r /\ upper r <= x1) /\
    (exists r, In r rows /\ lower r < 10 * x0) /\ (exists r, In r rows /\ x1 < 10 * upper r) /\
    let '(y0, y1) := extend cur (Some x0, Some x1) e_range in
    (forall r, In r rows -> y0 <= lower r /\ upper r <= y1) /\ (forall a b, e_range = Some (a, b) -> y0 <= a /\ b <= y1).
Proof.
  intros rows cur e_range NE F. destruct rows as [|r rest]; [congruence|]. unfold data_limits.
  destruct (lmin_spec (map lower rest) (lower r)) as (A & B & C). destruct (lmax_spec (map upper rest) (upper r)) as (A' & B' & C').
  set (lo := lmin _ _) in *. set (hi := lmax _ _) in *.
  assert (IL : exists q, In q (r :: rest) /\ lower q = lo).
  { destruct C as [C|C]; [exists r; split; [left; reflexivity|auto]|]. apply in_map_iff in C. destruct C as (q & E & I). exists q. split; [right; exact I|exact E]. }
  assert (IH : exists q, In q (r :: rest) /\ upper q = hi).
  { destruct C' as [C'|C']; [exists r; split; [left; reflexivity|auto]|]. apply in_map_iff in C'. destruct C' as (q & E & I). exists q. split; [right; exact I|exact E]. }
  rewrite List.Forall_forall in F.
  assert (PL : 0 < lo) by (destruct IL as (q & I & <-); apply F, I). assert (PH : 0 < hi) by (destruct IH as (q & I & <-); apply F, I).
  destruct (decade_floor_ok lo PL) as (m & -> & M1 & M2). destruct (decade_ceil_ok hi PH) as (n & -> & N1 & N2). cbn [obind].
  assert (ALL : forall q, In q (r :: rest) -> p10 m <= lower q /\ upper q <= p10 n).
  { intros q [<-|I]; [lra|]. specialize (B _ (in_map lower _ _ I)). specialize (B' _ (in_map upper _ _ I)). lra. }
  exists (p10 m), (p10 n), m, n. split; [reflexivity|]. split; [reflexivity|]. split; [reflexivity|]. split; [exact ALL|].
  split; [destruct IL as (q & I & E); exists q; split; [exact I|lra]|]. split; [destruct IH as (q & I & E); exists q; split; [exact I|lra]|].
  unfold extend. cbn [fst snd]. destruct e_range as [[a b]|].
  - pose proof (Rmin_l (p10 m) a). pose proof (Rmin_r (p10 m) a). pose proof (Rmax_l (p10 n) b). pose proof (Rmax_r (p10 n) b). split.
    + intros q I. specialize (ALL q I). lra.
    + intros a' b' E. inversion E; subst. lra.
  - split; [exact ALL|discriminate].
Qed.
Theorem C104_limits_partial : forall rows cur e_range, let lo r := r_e r - r_elo r in let hi r := r_e r + r_ehi r in
  rows <> [] -> List.Forall (fun r => 0 < lo r /\ 0 < hi r) rows ->
  exists x0 x1 m n, data_limits rows = Ok (Some x0, Some x1) /\ x0 = powerRZ 10 m /\ x1 = powerRZ 10 n /\
    (forall r, In r rows -> x0 <= lo r /\ hi r <= x1) /\
    (exists r, In r rows /\ lo r < 10 * x0) /\ (exists r, In r rows /\ x1 < 10 * hi r) /\
    let '(y0, y1) := extend cur (Some x0, Some x1) e_range in
    (forall r, In r rows -> y0 <= lo r /\ hi r <= y1) /\ (forall a b, e_range = Some (a, b) -> y0 <= a /\ b <= y1).
Proof. exact limits_ok. Qed.
Print Assumptions C104_limits_partial.
Definition ex_row (e lo hi : R) : vrow := mkR e 1 (1 / 10) (1 / 10) 0 lo hi false (Fin 0).
Example C104_example : List.Forall (fun r => 0 < lower r /\ 0 < upper r) [ex_row 3 1 1; ex_row 50 10 20].
Proof. unfold lower, upper, ex_row. constructor; [cbn [r_e r_elo r_ehi]; lra|]. constructor; [cbn [r_e r_elo r_ehi]; lra|constructor]. Qed.
(** An energy bin that starts at zero: the lower end of the axis stays as it is, or goes
    down to the requested energy *)
Theorem C104_zero_edge_partial : forall rows r cur e_range, let lo r := r_e r - r_elo r in let hi r := r_e r + r_ehi r in
  In r rows -> lo r = 0 -> (forall q, In q rows -> 0 <= lo q /\ 0 < hi q) ->
  exists x1, data_limits rows = Ok (None, Some x1) /\ (forall q, In q rows -> hi q <= x1) /\
    (e_range = None -> extend cur (None, Some x1) e_range = (fst cur, x1)) /\
    (forall a b, e_range = Some (a, b) -> extend cur (None, Some x1) e_range = (Rmin (fst cur) a, Rmax x1 b)).
Proof.
  intros rows r cur e_range lo hi I Z NN. destruct rows as [|r0 rest]; [destruct I|]. unfold data_limits.
  destruct (lmin_spec (map lower rest) (lower r0)) as (A & B & C). destruct (lmax_spec (map upper rest) (upper r0)) as (A' & B' & C').
  assert (L0 : lmin (map lower rest) (lower r0) = 0).
  { apply Rle_antisym.
    - destruct I as [->|I]; [change (lower r) with (lo r) in *; lra|]. specialize (B _ (in_map lower _ _ I)). change (lower r) with (lo r) in B. lra.
    - destruct C as [->|C]; [apply (NN r0); left; reflexivity|]. apply in_map_iff in C. destruct C as (q & <- & Iq). apply (NN q). right; exact Iq. }
  assert (H0 : 0 < lmax (map upper rest) (upper r0)).
  { pose proof (proj2 (NN r0 (or_introl eq_refl))). change (hi r0) with (upper r0) in H. lra. }
  rewrite L0. unfold decade_floor at 1. destruct (Rlt_dec 0 0); [lra|]. destruct (Req_EM_T 0 0); [|lra]. cbn [obind].
  destruct (decade_ceil_ok _ H0) as (k & -> & N1 & N2). cbn [obind]. exists (p10 k). split; [reflexivity|]. split; [|split].
  - intros q [<-|Iq]; [change (hi r0) with (upper r0); lra|]. specialize (B' _ (in_map upper _ _ Iq)). change (hi q) with (upper q). lra.
  - intros ->. reflexivity.
  - intros a b ->. reflexivity.
Qed.
Print Assumptions C104_zero_edge_partial.
(** ** Refuted: an energy bin reaching below zero (which the data table may have) makes
    the plot fail. *)
Theorem C104_negative_edge_refuted : forall rows r, In r rows -> r_e r - r_elo r < 0 -> data_limits rows = Err "ValueError".
Proof.
  intros [|r0 rest] r I H; change (lower r < 0) in H; [destruct I|]. unfold data_limits. destruct (lmin_spec (map lower rest) (lower r0)) as (A & B & _).
  assert (L : lmin (map lower rest) (lower r0) < 0) by (destruct I as [<-|I]; [lra|specialize (B _ (in_map lower _ _ I)); lra]).
  unfold decade_floor. destruct (Rlt_dec _ 0); [reflexivity|contradiction].
Qed.
Print Assumptions C104_negative_edge_refuted.
Example C104_negative_example : lower (ex_row 1 (3 / 2) (3 / 2)) < 0. Proof. unfold lower, ex_row. cbn [r_e r_elo]. lra. Qed.
(** The energies at which models are recomputed: from the first to the second bound of
    e_range, increasing, equally spaced in logarithm *)
Theorem C104_grid : forall a b n, 0 < a -> a < b -> (2 <= n)%nat ->
  List.length (logspace a b n) = n /\ nth 0 (logspace a b n) 0 = a /\ nth (Nat.pred n) (logspace a b n) 0 = b /\
  (forall i, (S i < n)%nat -> nth i (logspace a b n) 0 < nth (S i) (logspace a b n) 0) /\
  (exists q, forall i, (S i < n)%nat -> nth (S i) (logspace a b n) 0 = q * nth i (logspace a b n) 0).
Proof.
  intros a b n A AB Hn. pose proof ln10_pos as L10. unfold logspace. rewrite map_length, seq_length.
  set (h := (log10 b - log10 a) / INR (Nat.pred n)).
  assert (PN : 0 < INR (Nat.pred n)) by (apply lt_0_INR; lia).
  assert (LAB : log10 a < log10 b).
  { unfold log10. apply Rmult_lt_compat_r; [apply Rinv_0_lt_compat, L10|]. apply ln_increasing; lra. }
  assert (PH : 0 < h) by (apply Rdiv_lt_0_compat; lra).
  assert (E : forall i, (i < n)%nat -> nth i (map (fun i => exp (ln 10 * (log10 a + INR i * h))) (seq 0 n)) 0 = exp (ln 10 * (log10 a + INR i * h))).
  { intros i Hi. rewrite (nth_indep _ 0 ((fun i => exp (ln 10 * (log10 a + INR i * h))) 0%nat)) by (rewrite map_length, seq_length; exact Hi).
    rewrite (map_nth (fun i => exp (ln 10 * (log10 a + INR i * h)))), seq_nth by exact Hi. reflexivity. }
  split; [reflexivity|]. split; [|split; [|split]].
  - rewrite E by lia. cbn [INR]. transitivity (exp (log10 a * ln 10)); [|apply exp_log10, A]. apply (f_equal exp). ring.
  - rewrite E by lia. transitivity (exp (log10 b * ln 10)); [|apply exp_log10; lra]. apply (f_equal exp). unfold h. field. lra.
  - intros i Hi. rewrite !E by lia. apply exp_increasing. rewrite S_INR. nra.
  - exists (exp (ln 10 * h)). intros i Hi. rewrite !E by lia. rewrite <- exp_plus. apply (f_equal exp). rewrite S_INR. ring.
Qed.
Print Assumptions C104_grid.

(** ** C107. What plot_fit draws *)
(** Spec: the documented meaning of the options *)
Definition wants_curve (o : options) : Prop := o_confs o <> None \/ (exists n, o_nsamples o = Some (S n)).
Theorem C107_decisions_partial : forall s o n_data n_model equivalent fl f, plot_fit s o n_data n_model equivalent fl = Ok f ->
  (* confidence bands when levels are given, else samples when a number is given *)
  (forall l, o_confs o = Some l -> fg_curve f = Some (CBands l)) /\
  (forall n, o_confs o = None -> o_nsamples o = Some (S n) -> fg_curve f = Some (CSamples (S n))) /\
  (* the data are drawn as asked; by default when model and data can be compared *)
  (forall b, o_plotdata o = Some b -> fg_data f = b) /\
  (o_plotdata o = None -> (fg_data f = true <-> n_model = n_data /\ equivalent = true)) /\
  (* residuals need data; they are drawn as asked, by default when a curve is asked for *)
  (fg_residuals f = true -> fg_data f = true) /\
  (forall b, o_residuals o = Some b -> fg_data f = true -> fg_residuals f = b) /\
  (o_residuals o = None -> fg_data f = true -> (fg_residuals f = true <-> wants_curve o)) /\
  (* without data, something is drawn anyway *)
  (fg_data f = false -> fg_curve f <> None) /\
  (* models are recomputed when a range of energies is given, for that range *)
  (fg_curve f <> None -> o_erange o <> None -> fg_range f = o_erange o) /\
  (has_attr s = true -> o_erange o = None -> fg_range f = None).
Proof.
  intros [ha hf] [co ns pd rs er] nd nm eq fl f. unfold plot_fit, wants_curve. cbn [has_attr has_fn o_confs o_nsamples o_plotdata o_residuals o_erange].
  assert (EQ : (Nat.eqb nm nd && eq)%bool = true <-> nm = nd /\ eq = true) by (rewrite andb_true_iff, Nat.eqb_eq; reflexivity).
  intros H.
  destruct co as [l|]; destruct ns as [[|n]|]; destruct pd as [[]|]; destruct rs as [[]|]; destruct er as [e|]; destruct ha; destruct hf;
    try (destruct (Nat.eqb nm nd && eq)%bool eqn:Q); cbn in H; try discriminate H; inversion H; subst f; clear H;
    cbn [fg_curve fg_data fg_residuals fg_range];
    repeat split; intros; try discriminate; try congruence; try (apply EQ; assumption); try (apply EQ; reflexivity); try tauto;
    try (left; congruence); try (right; eexists; reflexivity);
    try match goal with X : _ \/ _ |- _ => destruct X as [X|(? & X)]; congruence end.
Qed.
Print Assumptions C107_decisions_partial.
Definition default_options : options := mkO None (Some 100%nat) None None None.
Example C107_example : plot_fit (mkSam true true) default_options 30 30 true (1, 2) = Ok (mkFig (Some (CSamples 100)) true true None).
Proof. reflexivity. Qed.
(** ** Refuted: "if n_samples is None, confidence bands will be plotted": never. *)
Theorem C107_no_samples_refuted : forall s o n_data n_model equivalent fl f, o_confs o = None -> o_nsamples o = None ->
  plot_fit s o n_data n_model equivalent fl = Ok f -> forall l, fg_curve f <> Some (CBands l).
Proof.
  intros s [co ns pd rs er] nd nm eq fl f C S H l. cbn in C, S. subst. unfold plot_fit in H. cbn [o_confs o_nsamples o_plotdata o_residuals o_erange] in H. cbv zeta in H.
  destruct (negb false && _ && _ && _)%bool; [inversion H; discriminate|].
  destruct (match er with Some e => Some e | None => _ end); [destruct (has_fn s); [|discriminate]|]; inversion H; discriminate.
Qed.
Print Assumptions C107_no_samples_refuted.
Example C107_no_samples_example : plot_fit (mkSam true true) (mkO None None None None None) 30 30 true (1, 2) = Ok (mkFig None true false None).
Proof. reflexivity. Qed.

(** ** C105. A saved and reloaded run *)
(** The options with which a run in memory is plotted from the stored models, without
    calling the model function *)
Definition stored_only (o : options) : Prop := o_erange o = None.
(** With the model function given to read_run, every plot succeeds, but the models are
    always recomputed, by default from a third of the first to three times the last energy. *)
Theorem C105_with_function_partial : forall o n_data n_model equivalent fl, exists f,
  plot_fit (mkSam false true) o n_data n_model equivalent fl = Ok f /\ 
  (fg_curve f <> None -> fg_range f = Some (match o_erange o with Some e => e | None => (fst fl / 3, 3 * snd fl) end)) /\
  exists f', plot_fit (mkSam true true) o n_data n_model equivalent fl = Ok f' /\
    fg_curve f = fg_curve f' /\ fg_data f = fg_data f' /\ fg_residuals f = fg_residuals f'.
Proof.
  intros [co ns pd rs er] nd nm eq fl. unfold plot_fit. cbn [has_attr has_fn o_confs o_nsamples o_plotdata o_residuals o_erange]. cbv zeta.
  destruct (negb _ && negb _ && _ && negb _)%bool.
  - eexists. split; [reflexivity|]. cbn. split; [congruence|]. eexists. split; [reflexivity|]. auto.
  - destruct er; eexists; (split; [reflexivity|]); cbn [fg_curve fg_data fg_residuals fg_range]; (split; [intros _; cbn [fst snd]; try rewrite (Rmult_comm 3); reflexivity|]); eexists; (split; [reflexivity|]); auto.
Qed.
Print Assumptions C105_with_function_partial.
(** ** Refuted: without the model function (documented as needed only with e_range) a
    reloaded run cannot be plotted with default options, although the run in memory can,
    from the stored models alone. *)
Theorem C105_without_function_refuted : forall o n_data n_model equivalent fl f, stored_only o ->
  plot_fit (mkSam true false) o n_data n_model equivalent fl = Ok f -> fg_curve f <> None ->
  plot_fit (mkSam false false) o n_data n_model equivalent fl = Err "TypeError".
Proof.
  intros [co ns pd rs er] nd nm eq fl f E H NC. cbn in E. unfold stored_only in E. cbn in E. subst er.
  unfold plot_fit in *. cbn [has_attr has_fn o_confs o_nsamples o_plotdata o_residuals o_erange] in *. cbv zeta in *.
  destruct (negb _ && negb _ && _ && negb _)%bool; [|reflexivity]. inversion H; subst. cbn in NC. congruence.
Qed.
Print Assumptions C105_without_function_refuted.
Example C105_example : exists f, stored_only default_options /\ plot_fit (mkSam true false) default_options 30 30 true (1, 2) = Ok f /\ fg_curve f <> None.
Proof. eexists. split; [reflexivity|]. split; [reflexivity|]. discriminate. Qed.

(** ** C106. The global line width after any sequence of corner plots *)
(** a call ends in an exception *)
Definition fails (c : corner_call) : Prop := forall lw, exists e, snd (plot_corner lw c) = Err e.
Lemma corner_cases c : (forall lw, fst (plot_corner lw c) = lw /\ exists o, snd (plot_corner lw c) = Ok o) \/
  ((forall lw, fst (plot_corner lw c) = 7 / 10) /\ fails c).
Proof.
  unfold fails, plot_corner. cbv zeta. destruct (if negb (cc_installed c) then _ else _) as [f|e]; cbn.
  - left. intros lw. eauto.
  - destruct (String.eqb e "ImportError"); [left|right; split]; cbn; eauto.
Qed.
Lemma corner_not_failing c : ~ fails c -> forall lw, fst (plot_corner lw c) = lw.
Proof. intros H. destruct (corner_cases c) as [A|(_ & A)]; [apply A|contradiction]. Qed.
Theorem C106_restored_partial : forall cs lw, List.Forall (fun c => ~ fails c) cs -> plot_corners lw cs = lw.
Proof. induction cs as [|c cs IH]; intros lw F; cbn; [reflexivity|]. inversion F; subst. rewrite corner_not_failing by assumption. auto. Qed.
Print Assumptions C106_restored_partial.
Example C106_example : List.Forall (fun c => ~ fails c) [mkCC true true (Ok tt) (Ok tt); mkCC false true (Ok tt) (Err "TypeError")].
Proof.
  assert (G : forall c o, snd (plot_corner 1 c) = Ok o -> ~ fails c) by (intros c o E H; destruct (H 1) as (e & H1); congruence).
  constructor; [apply (G _ (Some tt)); reflexivity|]. constructor; [apply (G _ None); reflexivity|constructor].
Qed.
(** ** Refuted: once a call has failed, every later line in the session is drawn with
    width 0.7, however many corner plots succeed afterwards. *)
Theorem C106_failure_refuted : forall cs lw, (exists c, In c cs /\ fails c) -> plot_corners lw cs = 7 / 10.
Proof.
  assert (STAY : forall cs, plot_corners (7 / 10) cs = 7 / 10).
  { induction cs as [|c cs IH]; cbn; [reflexivity|]. destruct (corner_cases c) as [A|(A & _)]; [destruct (A (7 / 10)) as (-> & _)|rewrite A]; exact IH. }
  induction cs as [|c cs IH]; intros lw (c' & I & F); [destruct I|]. cbn [plot_corners].
  destruct (corner_cases c) as [A|(A & _)]; [|rewrite A; apply STAY].
  destruct I as [->|I]; [|apply IH; exists c'; auto]. exfalso. destruct (F lw) as (e & E). destruct (A lw) as (_ & o & E2). congruence.
Qed.
Print Assumptions C106_failure_refuted.
Example C106_failing : fails (mkCC true true (Ok tt) (Err "TypeError")).
Proof. intros lw. eexists. reflexivity. Qed.

(** ** C109. Data drawn over an existing plot *)
Definition no_bracket (s : string) : Prop := String.index 0 "[" s = None /\ String.index 0 "]" s = None.
Lemma label_text_latex l : no_bracket l -> label_text ("$\mathrm{Energy}$ [" ++ l ++ "]") = l.
Proof.
  intros (A & B). unfold label_text.
  change ("$\mathrm{Energy}$ [" ++ l ++ "]")%string with ("$\mathrm{Energy}$ " ++ String "[" (l ++ "]"))%string.
  rewrite (after_last_once "[" "$\mathrm{Energy}$ " (l ++ "]") eq_refl); [apply (before_first_none "]" l "" B)|].
  apply index_app. split; [exact A|reflexivity].
Qed.
(** energies in joules (say) of points drawn on an axis labelled in unit [u] *)
Definition meaning (u : unit_) (x : R) : R := x * scale u.
Definition energies_of (q : qty) : list R := map (fun x => x * scale (qunit q)) (vals q).
Definition energy_qty (q : qty) : Prop := dim (qunit q) = d_energy /\ 0 < scale (qunit q).
Lemma qto_energy u q : dim u = d_energy -> 0 < scale u -> energy_qty q -> exists q', qto u q = Ok q' /\ map (meaning u) (vals q') = energies_of q.
Proof.
  intros D S (DQ & SQ). unfold qto. rewrite D, DQ. change (dims_eqb d_energy d_energy) with true. cbv iota. eexists. split; [reflexivity|].
  cbn [vals]. rewrite map_map. unfold energies_of. apply map_ext. intros x. unfold meaning. field. lra.
Qed.
(** All data sets drawn with the same explicit unit are placed at their energies *)
Theorem C109_explicit_unit_partial : forall parse latex u q1 q2, dim u = d_energy -> 0 < scale u -> energy_qty q1 -> energy_qty q2 ->
  exists ax1 ax2, plot_data parse latex (mkAx "" []) (Some u) q1 = Ok ax1 /\ plot_data parse latex ax1 (Some u) q2 = Ok ax2 /\
    ax_label ax2 = ("$\mathrm{Energy}$ [" ++ latex u ++ "]")%string /\ map (meaning u) (ax_points ax2) = energies_of q1 ++ energies_of q2.
Proof.
  intros parse latex u q1 q2 D S E1 E2. destruct (qto_energy u q1 D S E1) as (p1 & Q1 & M1). destruct (qto_energy u q2 D S E2) as (p2 & Q2 & M2).
  unfold plot_data, chosen_unit. rewrite Q1, Q2. cbn [obind ax_label ax_points String.eqb app]. do 2 eexists. split; [reflexivity|].
  cbn [ax_label ax_points]. split; [reflexivity|]. split; [reflexivity|]. cbn [ax_points]. rewrite map_app, M1, M2. reflexivity.
Qed.
Print Assumptions C109_explicit_unit_partial.
(** If the unit in the label of the axis can be read back, the second data set is drawn
    in it *)
Theorem C109_readable_label_partial : forall parse latex u q1 q2, qunit q1 = u -> parse (latex u) = Some u -> no_bracket (latex u) ->
  parse ""%string = None \/ (exists v, parse ""%string = Some v /\ dim v = d_none) -> energy_qty q1 -> energy_qty q2 ->
  exists ax1 ax2, plot_data parse latex (mkAx "" []) None q1 = Ok ax1 /\ plot_data parse latex ax1 None q2 = Ok ax2 /\
    map (meaning u) (ax_points ax2) = energies_of q1 ++ energies_of q2.
Proof.
  intros parse latex u q1 q2 <- P NB P0 E1 E2.
  assert (C1 : chosen_unit parse (mkAx "" []) None (qunit q1) = qunit q1).
  { unfold chosen_unit. change (label_text (ax_label (mkAx "" []))) with ""%string. destruct P0 as [->|(v & -> & DV)]; [reflexivity|].
    unfold is_energy. rewrite DV. reflexivity. }
  destruct E1 as (D1 & S1). destruct (qto_energy (qunit q1) q1 D1 S1 (conj D1 S1)) as (p1 & Q1 & M1). destruct (qto_energy (qunit q1) q2 D1 S1 E2) as (p2 & Q2 & M2).
  unfold plot_data at 1. rewrite C1, Q1. cbn [obind ax_label ax_points String.eqb app]. do 2 eexists. split; [reflexivity|].
  unfold plot_data. unfold chosen_unit. cbn [ax_label ax_points]. rewrite (label_text_latex _ NB), P. unfold is_energy. rewrite D1. change (dims_eqb d_energy d_energy) with true. cbv iota.
  rewrite Q2. cbn [obind]. split; [reflexivity|]. cbn [ax_points]. rewrite map_app, M1, M2. reflexivity.
Qed.
Print Assumptions C109_readable_label_partial.
(** ** Refuted: the labels plot_data writes are LaTeX, which is not a unit: a second data
    set in another energy unit is drawn at its own numbers on the axis of the first. *)
Theorem C109_overlay_refuted : forall parse latex q1 q2, parse (latex (qunit q1)) = None -> no_bracket (latex (qunit q1)) -> parse ""%string = None ->
  energy_qty q1 -> energy_qty q2 -> scale (qunit q1) <> scale (qunit q2) -> (exists x, In x (vals q2) /\ x <> 0) ->
  exists ax1 ax2, plot_data parse latex (mkAx "" []) None q1 = Ok ax1 /\ plot_data parse latex ax1 None q2 = Ok ax2 /\
    ax_label ax2 = ("$\mathrm{Energy}$ [" ++ latex (qunit q1) ++ "]")%string /\
    map (meaning (qunit q1)) (ax_points ax2) <> energies_of q1 ++ energies_of q2.
Proof.
  intros parse latex q1 q2 P NB P0 E1 E2 NS (x & I & X0).
  assert (C1 : chosen_unit parse (mkAx "" []) None (qunit q1) = qunit q1).
  { unfold chosen_unit. change (label_text (ax_label (mkAx "" []))) with ""%string. rewrite P0. reflexivity. }
  destruct E1 as (D1 & S1). destruct (qto_energy (qunit q1) q1 D1 S1 (conj D1 S1)) as (p1 & Q1 & M1).
  destruct E2 as (D2 & S2). destruct (qto_energy (qunit q2) q2 D2 S2 (conj D2 S2)) as (p2 & Q2 & M2).
  unfold plot_data at 1. rewrite C1, Q1. cbn [obind ax_label ax_points String.eqb app]. do 2 eexists. split; [reflexivity|].
  unfold plot_data. unfold chosen_unit. cbn [ax_label ax_points]. rewrite (label_text_latex _ NB), P. rewrite Q2. cbn [obind]. split; [reflexivity|].
  split; [reflexivity|]. cbn [ax_points]. rewrite map_app, M1. intros H. apply app_inv_head in H.
  assert (V2 : vals p2 = vals q2).
  { unfold qto in Q2. destruct (dims_eqb _ _); [|discriminate]. inversion Q2. cbn. rewrite <- (map_id (vals q2)) at 2. apply map_ext. intros y. field. lra. }
  rewrite V2 in H. unfold energies_of in H. clear - H I X0 NS. induction (vals q2) as [|y l IH]; [destruct I|]. cbn [map] in H. inversion H as [[H1 H2]].
  destruct I as [->|I]; [|apply IH; auto]. unfold meaning in H1. apply NS. apply Rmult_eq_reg_l with x; assumption.
Qed.
Print Assumptions C109_overlay_refuted.
Definition TeV : unit_ := mkU 1 d_energy.
Definition keV : unit_ := mkU (/ 10 ^ 9) d_energy.
Definition ex_parse (s : string) : option unit_ := if String.eqb s "TeV" then Some TeV else if String.eqb s "keV" then Some keV else None.
Example C109_example : ex_parse "$\mathrm{TeV}$" = None /\ no_bracket "$\mathrm{TeV}$" /\ ex_parse "" = None /\
  energy_qty (mkQ [1; 2] TeV) /\ energy_qty (mkQ [3; 4] keV) /\ scale TeV <> scale keV.
Proof.
  assert (1 < 10 ^ 9) by (apply Rlt_pow_R1; [lra|lia]).
  assert (0 < / 10 ^ 9) by (apply Rinv_0_lt_compat; lra).
  assert (/ 10 ^ 9 < 1) by (rewrite <- Rinv_1; apply Rinv_lt_contravar; lra).
  split; [reflexivity|]. split; [split; reflexivity|]. split; [reflexivity|]. split; [split; [reflexivity|cbn; lra]|].
  split; [split; [reflexivity|exact H0]|]. cbn [scale TeV keV]. lra.
Qed.
