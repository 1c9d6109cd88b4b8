(** Properties C89-C94: data points, option dictionaries, diagnostic files, samples. *)
From Coq Require Import Reals List ZArith Bool String Ascii Arith Permutation Lra Lia.
From Verif Require Import Outcome SimplexModel UnitsModel DataModel AnalysisModel AnalysisProps2 PlotModel PlotProps.
Import ListNotations.
Local Open Scope R_scope.

(** ** C89: the error bars drawn *)
(** Spec: the bar of a detection in log axes: the errors of the table, except that a
    lower error reaching zero ends at 1e-7 of the flux *)
Definition bar_of (k : R -> R) (r : vrow) : bar :=
  mkBar (r_e r) (r_f r * k (r_e r))
        (if Rlt_dec (r_flo r) (r_f r) then (r_f r - r_flo r) * k (r_e r) else r_f r * k (r_e r) / 10 ^ 7)
        ((r_f r + r_fhi r) * k (r_e r)).
Definition detections (rows : list vrow) : list vrow := filter (fun r => negb (r_ul r)) rows.

Lemma shown k r : 0 < k (r_e r) -> r_f r * k (r_e r) - shown_err (r_f r) (r_flo r) * k (r_e r) = b_lo (bar_of k r).
Proof.
  intros K. unfold shown_err, bar_of. cbn [b_lo]. destruct (Rle_dec _ 0), (Rlt_dec _ _); try lra; field.
Qed.
Lemma errorbar_ok k rs : (forall e, 0 < k e) -> (forall r, In r rs -> 0 < r_f r /\ 0 <= r_flo r /\ 0 <= r_fhi r /\ 0 <= r_elo r /\ 0 <= r_ehi r) ->
  errorbar k rs = Ok (map (bar_of k) rs).
Proof.
  intros K H. unfold errorbar. rewrite (proj2 (forallb_forall _ rs)).
  - f_equal. apply map_ext. intros r. rewrite shown by apply K. unfold bar_of. cbn [b_lo]. f_equal. ring.
  - intros r Hr. destruct (H r Hr) as (A & B & C & D & E). pose proof (K (r_e r)) as KP.
    destruct (Rle_dec 0 (shown_err _ _ * _)) as [|N].
    + destruct (Rle_dec 0 (r_fhi r * _)) as [|N]; [|exfalso; apply N, Rmult_le_pos; lra].
      destruct (Rle_dec 0 (r_elo r)); [|contradiction]. destruct (Rle_dec 0 (r_ehi r)); [|contradiction]. reflexivity.
    + exfalso. apply N. apply Rmult_le_pos; [|lra]. unfold shown_err. destruct (Rle_dec _ 0); [|exact B].
      apply Rmult_le_pos; [lra|]. assert (/ 10 ^ 7 <= 1) by lra. lra.
Qed.
Lemma zgroups {A} (f : A -> Z) (l : list A) :
  Permutation (flat_map (fun g => filter (fun x => Z.eqb (f x) g) l) (nodup Z.eq_dec (map f l))) l.
Proof. apply groups_partition; [apply NoDup_nodup|]. intros x Hx. apply nodup_In, in_map, Hx. Qed.
Lemma filter_and {A} (p q : A -> bool) l : filter (fun x => (p x && q x)%bool) l = filter p (filter q l).
Proof. induction l as [|a l IH]; [reflexivity|]. cbn. destruct (q a); cbn; rewrite ?andb_true_r, ?andb_false_r; [destruct (p a); rewrite IH; reflexivity|exact IH]. Qed.
Lemma flat_map_map {A B C} (f : A -> list B) (h : B -> C) l : List.concat (map (fun a => map h (f a)) l) = map h (flat_map f l).
Proof. induction l as [|a l IH]; [reflexivity|]. cbn. rewrite IH, map_app. reflexivity. Qed.
Lemma concat_ok {A} (l : list (list A)) : concat_all (map Ok l) = Ok (List.concat l).
Proof. induction l as [|a l IH]; [reflexivity|]. cbn. rewrite IH. reflexivity. Qed.

Theorem C89_points_partial : forall k rows,
  (forall e, 0 < k e) ->
  (forall r, In r (detections rows) -> 0 < r_f r /\ 0 <= r_flo r /\ 0 <= r_fhi r /\ 0 <= r_elo r /\ 0 <= r_ehi r) ->
  (detections rows = [] \/ exists r, In r (detections rows) /\ r_flo r < r_f r) ->
  exists bars, draw_data k rows = Ok bars /\ Permutation bars (map (bar_of k) (detections rows)) /\
    forall b, In b bars -> 0 < b_lo b <= b_y b /\ b_y b <= b_hi b.
Proof.
  intros k rows K H L. unfold draw_data.
  set (gs := nodup Z.eq_dec (map r_grp rows)).
  assert (E : map (fun g => errorbar k (filter (fun r => (in_grp g r && negb (r_ul r))%bool) rows)) gs
            = map Ok (map (fun g => map (bar_of k) (filter (in_grp g) (detections rows))) gs)).
  { rewrite map_map. apply map_ext. intros g. rewrite filter_and. fold (detections rows). apply errorbar_ok; [exact K|].
    intros r Hr. apply filter_In in Hr. apply H, Hr. }
  rewrite E, concat_ok. cbn [obind].
  assert (Y : ylim rows = Ok tt).
  { unfold ylim. fold (detections rows). destruct L as [ -> | (r & Hr & Lt) ]; [reflexivity|].
    destruct (existsb (fun r => if Rle_dec _ _ then true else false) _); [|reflexivity].
    rewrite (proj2 (existsb_exists _ _)); [reflexivity|]. exists r. split; [exact Hr|]. destruct (Rlt_dec _ _); [reflexivity|contradiction]. }
  rewrite Y. cbn [obind]. eexists. split; [reflexivity|].
  assert (P : Permutation (List.concat (map (fun g => map (bar_of k) (filter (in_grp g) (detections rows))) gs)) (map (bar_of k) (detections rows))).
  { rewrite flat_map_map. apply Permutation_map. apply (groups_partition r_grp); [apply NoDup_nodup|].
    intros r Hr. apply nodup_In, in_map. unfold detections in Hr. apply filter_In in Hr. apply Hr. }
  split; [exact P|]. intros b Hb. apply (Permutation_in _ P) in Hb. apply in_map_iff in Hb. destruct Hb as (r & <- & Hr).
  destruct (H r Hr) as (A & B & C & D & E'). pose proof (K (r_e r)) as KP. pose proof (Rmult_lt_0_compat _ _ A KP) as PP.
  unfold bar_of. cbn [b_lo b_y b_hi]. destruct (Rlt_dec _ _) as [Lt|Ge].
  - repeat split.
    + apply Rmult_lt_0_compat; lra.
    + apply Rmult_le_compat_r; lra.
    + apply Rmult_le_compat_r; lra.
  - repeat split.
    + lra.
    + lra.
    + apply Rmult_le_compat_r; lra.
Qed.
Print Assumptions C89_points_partial.

Example C89_hypotheses_met : let rows := [mkR 1 2 1 1 0 0 0 false NaN; mkR 2 2 3 1 1 0 0 false NaN; mkR 3 1 0 0 1 0 0 true NaN] in
  (forall e, 0 < (fun _ : R => 1) e) /\
  (forall r, In r (detections rows) -> 0 < r_f r /\ 0 <= r_flo r /\ 0 <= r_fhi r /\ 0 <= r_elo r /\ 0 <= r_ehi r) /\
  (exists r, In r (detections rows) /\ r_flo r < r_f r).
Proof.
  cbn. split; [intros; lra|]. split.
  - intros r [<-|[<-|[]]]; cbn; lra.
  - eexists. split; [left; reflexivity|]. cbn. lra.
Qed.

Lemma concat_err {A} e (l : list (outcome (list A))) : (forall x, In x l -> is_ok x \/ x = Err e) -> In (Err e) l -> concat_all l = Err e.
Proof.
  induction l as [|x l IH]; intros H I; [destruct I|]. cbn.
  destruct (H x (or_introl eq_refl)) as [ (a & -> ) | -> ]; [|reflexivity]. cbn.
  destruct I as [I|I]; [discriminate|]. rewrite IH; auto. intros y Hy. apply H. right. exact Hy.
Qed.
(** ** Refuted: a negative flux (a point statistically compatible with zero, valid for
    fitting) makes the whole plot fail. *)
Theorem C89_negative_flux_refuted : forall k rows r,
  (forall e, 0 < k e) -> In r (detections rows) -> r_f r < 0 -> 0 <= r_flo r -> draw_data k rows = Err "ValueError".
Proof.
  intros k rows r K Hr N F. unfold draw_data. rewrite (concat_err "ValueError"); [reflexivity| |].
  - intros x Hx. apply in_map_iff in Hx. destruct Hx as (g & <- & _). unfold errorbar, is_ok. destruct (forallb _ _); [left; eauto|right; reflexivity].
  - unfold detections in Hr. apply filter_In in Hr. destruct Hr as [Hr U]. apply in_map_iff. exists (r_grp r). split.
    + unfold errorbar. destruct (forallb _ _) eqn:E; [|reflexivity]. exfalso. rewrite forallb_forall in E.
      assert (I : In r (filter (fun x => (in_grp (r_grp r) x && negb (r_ul x))%bool) rows)).
      { apply filter_In. split; [exact Hr|]. unfold in_grp. rewrite Z.eqb_refl, U. reflexivity. }
      specialize (E r I). rewrite !andb_true_iff in E. destruct E as [[[E _] _] _].
      destruct (Rle_dec 0 _) as [P|]; [|discriminate]. pose proof (K (r_e r)) as KP. unfold shown_err in P. destruct (Rle_dec _ 0) as [_|X]; [|lra].
      assert (NN : 0 < (1 - / 10 ^ 7) * k (r_e r)) by (apply Rmult_lt_0_compat; [lra|exact KP]).
      rewrite Rmult_assoc in P. apply Rmult_lt_compat_r with (r := (1 - / 10 ^ 7) * k (r_e r)) in N; [|exact NN]. lra.
    + apply nodup_In, in_map, Hr.
Qed.
Print Assumptions C89_negative_flux_refuted.
(** ** Refuted: so does an energy bin that does not contain its energy, which is valid for
    fitting too. *)
Theorem C89_bin_refuted : forall k rows r,
  (forall e, 0 < k e) -> In r (detections rows) -> r_elo r < 0 \/ r_ehi r < 0 -> draw_data k rows = Err "ValueError".
Proof.
  intros k rows r K Hr N. unfold draw_data. rewrite (concat_err "ValueError"); [reflexivity| |].
  - intros x Hx. apply in_map_iff in Hx. destruct Hx as (g & <- & _). unfold errorbar, is_ok. destruct (forallb _ _); [left; eauto|right; reflexivity].
  - unfold detections in Hr. apply filter_In in Hr. destruct Hr as [Hr U]. apply in_map_iff. exists (r_grp r). split.
    + unfold errorbar. destruct (forallb _ _) eqn:E; [|reflexivity]. exfalso. rewrite forallb_forall in E.
      assert (I : In r (filter (fun x => (in_grp (r_grp r) x && negb (r_ul x))%bool) rows)).
      { apply filter_In. split; [exact Hr|]. unfold in_grp. rewrite Z.eqb_refl, U. reflexivity. }
      specialize (E r I). rewrite !andb_true_iff in E. destruct E as [[_ E1] E2].
      destruct (Rle_dec 0 (r_elo r)); [|discriminate]. destruct (Rle_dec 0 (r_ehi r)); [|discriminate]. lra.
    + apply nodup_In, in_map, Hr.
Qed.
Print Assumptions C89_bin_refuted.
Example C89_bin_example : In (mkR 1 2 1 1 0 (- (1 / 2)) 2 false NaN) (detections [mkR 1 2 1 1 0 (- (1 / 2)) 2 false NaN]). Proof. left. reflexivity. Qed.
(** ** Refuted: if every detection is compatible with zero the plot fails too. *)
Theorem C89_all_compatible_with_zero_refuted : forall k rows,
  (forall e, 0 < k e) -> detections rows <> [] -> (forall r, In r (detections rows) -> r_f r <= r_flo r) -> exists e, draw_data k rows = Err e.
Proof.
  intros k rows K NE H. unfold draw_data. destruct (concat_all _) as [bars|e]; [|eexists; reflexivity]. cbn [obind].
  unfold ylim. fold (detections rows).
  assert (A : existsb (fun r => if Rlt_dec (r_flo r) (r_f r) then true else false) (detections rows) = false).
  { destruct (existsb _ _) eqn:E; [|reflexivity]. apply existsb_exists in E. destruct E as (r & Hr & E). specialize (H r Hr). destruct (Rlt_dec _ _); [lra|discriminate]. }
  rewrite A. destruct (detections rows) as [|r l] eqn:D; [contradiction|]. cbn [existsb].
  destruct (Rle_dec _ _) as [|N]; [eexists; reflexivity|]. exfalso. apply N, H. left. reflexivity.
Qed.
Print Assumptions C89_all_compatible_with_zero_refuted.

(** ** C90: options of one call do not depend on other calls *)
(** Spec: the upper-limit options of a call made on its own *)
Definition own_options (d : defaults) (c : pcall) : option (list (string * R)) :=
  if c_has_ul c then Some (match c_ulim c with Some o => o | None => get_def (c_fn c) d end) else None.
Theorem C90_options_partial : forall d cs,
  (forall c, In c cs -> dget "elinewidth" (c_errorbar c) = None) ->
  plot_calls d cs = map (own_options d) cs /\
  (forall c, In c cs -> snd (fst (plot_call d c)) = c_ulim c).
Proof.
  intros d cs H. assert (ONE : forall c, In c cs -> plot_call d c = (d, c_ulim c, own_options d c)).
  { intros c Hc. unfold plot_call, own_options. rewrite (H c Hc). destruct (c_has_ul c); [|reflexivity].
    destruct (c_ulim c) as [o|]; [reflexivity|]. destruct d, (c_fn c); reflexivity. }
  split; [|intros c Hc; rewrite (ONE c Hc); reflexivity].
  clear H. induction cs as [|c cs IH]; [reflexivity|]. cbn [plot_calls map]. rewrite (ONE c (or_introl eq_refl)). f_equal.
  apply IH. intros c' Hc'. apply ONE. right. exact Hc'.
Qed.
Print Assumptions C90_options_partial.
Example C90_hypotheses_met : forall c, In c [mkCall PlotFit [("capsize"%string, 3)] None true; mkCall PlotData [] (Some []) true] -> dget "elinewidth" (c_errorbar c) = None.
Proof. intros c [<-|[<-|[]]]; reflexivity. Qed.
(** ** Refuted: the line width given for the error bars of one plot is stored in the
    default options, and is used by every later plot of upper limits; an options
    dictionary of the caller is changed. *)
Theorem C90_leak_refuted : forall f w,
  plot_calls (mkDef [] []) [mkCall f [("elinewidth"%string, w)] None true; mkCall f [] None true]
    = [Some [("elinewidth"%string, w)]; Some [("elinewidth"%string, w)]] /\
  plot_calls (mkDef [] []) [mkCall f [] None true] = [Some []] /\
  snd (fst (plot_call (mkDef [] []) (mkCall f [("elinewidth"%string, w)] (Some []) true))) = Some [("elinewidth"%string, w)].
Proof. intros [|] w; repeat split. Qed.
Print Assumptions C90_leak_refuted.

(** ** C91: the files of save_diagnostic_plots *)
Lemma slen (a b : string) : String.length (a ++ b) = (String.length a + String.length b)%nat.
Proof. induction a as [|x a IH]; cbn; [reflexivity|]. rewrite IH. reflexivity. Qed.
Lemma app_inj_suffix p : forall a b, (a ++ p)%string = (b ++ p)%string -> a = b.
Proof.
  intros a b H. assert (L : String.length a = String.length b).
  { apply (f_equal String.length) in H. rewrite !slen in H. lia. }
  revert b H L. induction a as [|x a IH]; intros [|y b] H L; cbn in *; try discriminate; [reflexivity|].
  injection H as -> H. f_equal. apply IH; [exact H|lia].
Qed.
Lemma chain_file_inj out a b : chain_file out a = chain_file out b -> file_label a = file_label b.
Proof. unfold chain_file. intros H. apply append_inj in H. cbn [String.append] in H. injection H as H. apply (app_inj_suffix ".png"), H. Qed.
Lemma model_file_inj out i j : model_file out i = model_file out j -> i = j.
Proof. unfold model_file. intros H. apply append_inj in H. cbn [String.append] in H. injection H as H. apply nat_str_inj, (app_inj_suffix ".png"), H. Qed.
Lemma chain_not_corner out l : chain_file out l <> corner_file out.
Proof. unfold chain_file, corner_file. intros H. apply append_inj in H. cbn in H. discriminate H. Qed.
Lemma chain_not_model out l i : chain_file out l <> model_file out i.
Proof. unfold chain_file, model_file. intros H. apply append_inj in H. cbn in H. discriminate H. Qed.
Lemma corner_not_model out i : corner_file out <> model_file out i.
Proof. unfold corner_file, model_file. intros H. apply append_inj in H. cbn in H. discriminate H. Qed.

Lemma write_chains_other ok out : forall labels p fl k, (forall l, In l labels -> k <> chain_file out l) ->
  dget k (write_chains ok out p labels fl) = dget k fl.
Proof.
  induction labels as [|l labels IH]; intros p fl k H; cbn [write_chains]; [reflexivity|].
  rewrite IH by (intros; apply H; right; assumption). destruct (ok p); [|reflexivity]. apply dget_dset_other, H. left. reflexivity.
Qed.
Lemma write_chains_get ok out : forall labels p fl q, NoDup (map file_label labels) -> (q < List.length labels)%nat -> ok (p + q)%nat = true ->
  dget (chain_file out (nth q labels ""%string)) (write_chains ok out p labels fl) = Some (CChain (p + q)).
Proof.
  induction labels as [|l labels IH]; intros p fl q ND Hq OK; cbn in Hq; [lia|]. cbn [map] in ND. inversion ND as [|? ? N1 N2]; subst.
  cbn [write_chains]. destruct q as [|q]; cbn [nth].
  - rewrite write_chains_other.
    + rewrite Nat.add_0_r in *. rewrite OK. apply dget_dset_same.
    + intros l' Hl' E. apply chain_file_inj in E. apply N1. rewrite E. apply in_map, Hl'.
  - rewrite <- Nat.add_succ_comm in *. apply IH; auto. lia.
Qed.
Lemma write_models_other ok out : forall l fl k, (forall x, In x l -> k <> model_file out (fst (fst x))) ->
  dget k (write_models ok out l fl) = dget k fl.
Proof.
  induction l as [|[[i s] t] l IH]; intros fl k H; cbn [write_models]; [reflexivity|].
  rewrite IH by (intros; apply H; right; assumption). destruct (ok i); [|reflexivity]. apply dget_dset_other, (H (i, s, t)). left. reflexivity.
Qed.
Lemma write_models_get ok out : forall l fl i s t, NoDup (map (fun x => fst (fst x)) l) -> In (i, s, t) l -> ok i = true ->
  dget (model_file out i) (write_models ok out l fl) = Some (CModel i s t).
Proof.
  induction l as [|[[i' s'] t'] l IH]; intros fl i s t ND HI OK; [destruct HI|]. cbn [map fst] in ND. inversion ND as [|? ? N1 N2]; subst.
  cbn [write_models]. destruct HI as [E|HI].
  - injection E as -> -> ->. rewrite write_models_other.
    + rewrite OK. apply dget_dset_same.
    + intros x Hx E. apply model_file_inj in E. apply N1. rewrite E. apply (in_map (fun x => fst (fst x))), Hx.
  - apply IH; auto.
Qed.

(** Spec: the title of the plot of model [j] of the list *)
Definition wanted_title (b : blabels) (idxs : list nat) (j : nat) : string :=
  match b with
  | BStr s => s
  | BNone => title (nth j idxs 0%nat)
  | BList l => if Nat.ltb j (List.length l) then nth j l ""%string else title (nth j idxs 0%nat)
  end.
Definition wanted_sed (sed : bool + list bool) (j : nat) : bool := match sed with inl s => s | inr l => nth j l false end.
(** arguments as documented: one sed flag per model if a list, a string label only
    with a single model *)
Definition documented (idxs : list nat) (sed : bool + list bool) (b : blabels) : Prop :=
  NoDup idxs /\ (forall l, sed = inr l -> List.length l = List.length idxs) /\ (forall s, b = BStr s -> List.length idxs = 1%nat).

Lemma use_labels_ok b idxs : (forall s, b = BStr s -> List.length idxs = 1%nat) ->
  exists ttl b', use_labels b idxs = Ok (ttl, b') /\ (List.length idxs <= List.length ttl)%nat /\
    forall j, (j < List.length idxs)%nat -> nth j ttl ""%string = wanted_title b idxs j.
Proof.
  intros H. assert (MT : forall l j, (j < List.length l)%nat -> nth j (map title l) ""%string = title (nth j l 0%nat)).
  { intros l j Hj. rewrite (nth_indep _ ""%string (title 0)) by (rewrite map_length; exact Hj). apply map_nth. }
  destruct b as [|s|l]; cbn [use_labels wanted_title].
  - eexists _, _. split; [reflexivity|]. rewrite map_length. split; [lia|]. intros j Hj. apply MT, Hj.
  - specialize (H s eq_refl). rewrite H. cbn. eexists _, _. split; [reflexivity|]. split; [cbn; lia|]. intros [|j] Hj; [reflexivity|lia].
  - destruct (Nat.ltb_spec (List.length l) (List.length idxs)) as [Lt|Ge].
    + eexists _, _. split; [reflexivity|]. rewrite app_length, map_length, skipn_length. split; [lia|]. intros j Hj.
      destruct (Nat.ltb_spec j (List.length l)) as [L|G].
      * apply app_nth1, L.
      * rewrite app_nth2 by exact G. rewrite MT by (rewrite skipn_length; lia). f_equal.
        rewrite <- (firstn_skipn (List.length l) idxs) at 2. rewrite app_nth2; rewrite firstn_length; [|lia]. f_equal. lia.
    + eexists _, _. split; [reflexivity|]. split; [lia|]. intros j Hj. destruct (Nat.ltb_spec j (List.length l)); [reflexivity|lia].
Qed.
Lemma zip3_ok a b c : (List.length a <= List.length b)%nat -> (List.length a <= List.length c)%nat ->
  map (fun x => fst (fst x)) (zip3 a b c) = a /\ forall j, (j < List.length a)%nat -> In (nth j a 0%nat, nth j b false, nth j c ""%string) (zip3 a b c).
Proof.
  revert b c. induction a as [|x a IH]; intros [|y b] [|z c] L1 L2; cbn in *; try lia; try (split; [reflexivity|intros; lia]).
  destruct (IH b c) as [I1 I2]; [lia|lia|]. split; [f_equal; exact I1|]. intros [|j] Hj; [left; reflexivity|right; apply I2; lia].
Qed.

Theorem C91_files : forall chain_ok blob_ok out labels interactive idxs sed b,
  NoDup (map file_label labels) -> documented idxs sed b ->
  let d := diagnostic_plots chain_ok None blob_ok out (List.length labels) labels interactive idxs sed b in
  g_exc d = None /\
  (* a plot of every chain *)
  (forall p, (p < List.length labels)%nat -> chain_ok p = true -> dget (chain_file out (nth p labels ""%string)) (g_files d) = Some (CChain p)) /\
  (* the corner plot *)
  dget (corner_file out) (g_files d) = Some CCorner /\
  (* and one of every model, with its title and kind *)
  (forall j, (j < List.length idxs)%nat -> blob_ok (nth j idxs 0%nat) = true ->
     dget (model_file out (nth j idxs 0%nat)) (g_files d) = Some (CModel (nth j idxs 0%nat) (wanted_sed sed j) (wanted_title b idxs j))).
Proof.
  intros chain_ok blob_ok out labels interactive idxs sed b ND (NI & HS & HB). cbv zeta. unfold diagnostic_plots. rewrite firstn_all.
  destruct (use_labels_ok b idxs HB) as (ttl & b' & E & L & T). rewrite E. cbn [g_exc g_files].
  set (seds := match sed with inl s => map (fun _ => s) idxs | inr l => l end).
  assert (LS : List.length seds = List.length idxs) by (unfold seds; destruct sed as [s|l]; [apply map_length|apply HS; reflexivity]).
  assert (SV : forall j, (j < List.length idxs)%nat -> nth j seds false = wanted_sed sed j).
  { intros j Hj. unfold seds, wanted_sed. destruct sed as [s|l]; [|reflexivity]. rewrite (nth_indep _ false s) by (rewrite map_length; exact Hj). rewrite (map_nth (fun _ : nat => s) idxs 0%nat j). reflexivity. }
  destruct (zip3_ok idxs seds ttl) as [Z1 Z2]; [lia|lia|]. repeat split.
  - intros p Hp OK. rewrite write_models_other by (intros; apply chain_not_model). unfold write. rewrite dget_dset_other by apply chain_not_corner.
    rewrite (write_chains_get chain_ok out labels 0 [] p ND Hp OK). reflexivity.
  - rewrite write_models_other by (intros; apply corner_not_model). apply dget_dset_same.
  - intros j Hj OK. rewrite <- (SV j Hj), <- (T j Hj). apply write_models_get; [rewrite Z1; exact NI|apply Z2, Hj|exact OK].
Qed.
Print Assumptions C91_files.
Example C91_hypotheses_met : NoDup (map file_label ["log10(norm)"; "index"; "log10(cutoff)"]%string) /\ documented [0; 2]%nat (inr [true; false]) (BList ["Spectrum"%string]).
Proof.
  split; [cbn; repeat constructor; cbn; intuition discriminate|]. split; [repeat constructor; cbn; intuition discriminate|].
  split; [intros l E; injection E as <-; reflexivity|intros s E; discriminate].
Qed.

(** ** Refuted: parameters "log10(B)" and "B" share a file: one plot is lost, silently. *)
Theorem C137_collision_refuted : forall out blob_ok interactive,
  let d := diagnostic_plots (fun _ => true) None blob_ok out 2 ["log10(B)"; "B"]%string interactive [] (inl true) BNone in
  g_exc d = None /\ ~ In (CChain 0) (map snd (g_files d)) /\ dget (out ++ "_chain_B.png") (g_files d) = Some (CChain 1).
Proof.
  intros out blob_ok interactive. cbv zeta. unfold diagnostic_plots. cbn [firstn use_labels map zip3 combine write_models g_exc g_files].
  split; [reflexivity|]. cbn [write_chains]. unfold write.
  change (chain_file out "log10(B)") with (out ++ "_chain_B.png")%string. change (chain_file out "B") with (out ++ "_chain_B.png")%string.
  cbn [Outcome.dset]. rewrite String.eqb_refl. assert (N : String.eqb (corner_file out) (out ++ "_chain_B.png") = false).
  { apply String.eqb_neq. intros E. exact (chain_not_corner out "B" (eq_sym E)). }
  cbn [Outcome.dset]. rewrite N. cbn [map snd dget]. rewrite String.eqb_refl. split; [|reflexivity]. intros [E|[E|[]]]; discriminate.
Qed.
Print Assumptions C137_collision_refuted.
(** ** Refuted: with a list of sed flags shorter than the list of models the other
    models are not plotted, and no error is raised; a single string for several models
    gives every plot one of its characters as title, or raises TypeError if it is
    shorter than the number of models. *)
Theorem C137_arguments_refuted :
  (forall chain_ok blob_ok out npar labels interactive idxs b,
     (exists x, use_labels b idxs = Ok x) ->
     let d := diagnostic_plots chain_ok None blob_ok out npar labels interactive idxs (inr []) b in
     g_exc d = None /\ forall i, dget (model_file out i) (g_files d) = None) /\
  (forall chain_ok blob_ok out npar labels interactive, blob_ok 0%nat = true ->
     let d := diagnostic_plots chain_ok None blob_ok out npar labels interactive [0; 1]%nat (inl true) (BStr "SED") in
     g_exc d = None /\ dget (model_file out 0) (g_files d) = Some (CModel 0 true "S")) /\
  (forall chain_ok blob_ok out npar labels interactive s idxs sed, (2 <= List.length idxs)%nat -> (String.length s < List.length idxs)%nat ->
     g_exc (diagnostic_plots chain_ok None blob_ok out npar labels interactive idxs sed (BStr s)) = Some "TypeError"%string).
Proof.
  split; [|split].
  - intros. destruct H as [[ttl b'] E]. unfold d, diagnostic_plots. rewrite E. cbn [g_exc g_files]. split; [reflexivity|]. intros i.
    assert (Z : zip3 idxs [] ttl = []) by (unfold zip3; destruct idxs; reflexivity). rewrite Z. cbn [write_models].
    unfold write. rewrite dget_dset_other by (intros X; exact (corner_not_model out i (eq_sym X))).
    rewrite write_chains_other; [reflexivity|]. intros l _ X. exact (chain_not_model out l i (eq_sym X)).
  - intros. unfold d, diagnostic_plots. cbn [use_labels List.length Nat.eqb String.length Nat.ltb Nat.leb g_exc g_files]. split; [reflexivity|].
    cbn [map zip3 combine chars write_models]. rewrite H. destruct (blob_ok 1%nat); unfold write.
    + rewrite dget_dset_other by (intros X; apply model_file_inj in X; discriminate). apply dget_dset_same.
    + apply dget_dset_same.
  - intros. unfold diagnostic_plots. cbn [use_labels]. destruct (Nat.eqb_spec (List.length idxs) 1); [lia|].
    destruct (Nat.ltb_spec (String.length s) (List.length idxs)); [reflexivity|lia].
Qed.
Print Assumptions C137_arguments_refuted.
(** ** Refuted: the caller's list of labels is extended in place, with the titles of
    this run. *)
Theorem C137_labels_mutated_refuted : forall chain_ok blob_ok out npar labels interactive idxs sed l,
  (List.length l < List.length idxs)%nat ->
  g_labels (diagnostic_plots chain_ok None blob_ok out npar labels interactive idxs sed (BList l)) = BList (l ++ map title (skipn (List.length l) idxs)).
Proof.
  intros. unfold diagnostic_plots. cbn [use_labels]. destruct (Nat.ltb_spec (List.length l) (List.length idxs)); [reflexivity|lia].
Qed.
Print Assumptions C137_labels_mutated_refuted.

(** ** C92: the interactive setting of matplotlib is the one the user had *)
Theorem C92_interactive_partial : forall chain_ok corner_ok blob_ok out npar labels interactive idxs sed b,
  let d := diagnostic_plots chain_ok corner_ok blob_ok out npar labels interactive idxs sed b in
  g_exc d = None -> g_interactive d = interactive.
Proof.
  intros. unfold d, diagnostic_plots in *. destruct corner_ok; [discriminate|]. destruct (use_labels b idxs) as [[t b']|e]; [reflexivity|discriminate].
Qed.
Print Assumptions C92_interactive_partial.
Example C92_hypothesis_met : g_exc (diagnostic_plots (fun _ => true) None (fun _ => false) "o" 1 ["a"%string] true [0%nat] (inl true) BNone) = None.
Proof. reflexivity. Qed.
(** ** Refuted when the function raises: interactive mode stays off. *)
Theorem C92_exception_refuted : forall chain_ok corner_ok blob_ok out npar labels idxs sed b,
  let d := diagnostic_plots chain_ok corner_ok blob_ok out npar labels true idxs sed b in
  g_exc d <> None -> g_interactive d = false.
Proof.
  intros. unfold d, diagnostic_plots in *. destruct corner_ok; [reflexivity|]. destruct (use_labels b idxs) as [[t b']|e]; [elim H|]; reflexivity.
Qed.
Print Assumptions C92_exception_refuted.
Example C92_exception_happens : g_exc (diagnostic_plots (fun _ => true) (Some "ValueError"%string) (fun _ => true) "o" 1 ["a"%string] true [0%nat] (inl true) BNone) <> None.
Proof. discriminate. Qed.

(** ** C93: curves of plot_samples *)
(** a drawing of n indices below k *)
Definition drawing (draw : nat -> nat -> list nat) : Prop := forall n k, (0 < k)%nat -> List.length (draw n k) = n /\ List.Forall (fun i => (i < k)%nat) (draw n k).
Theorem C93_samples_partial : forall draw f r last_step n,
  drawing draw -> chain_of r last_step <> [] ->
  let curves := plotted_samples draw f r last_step n in
  List.length curves = n /\ forall c, In c curves -> exists p, In p (chain_of r last_step) /\ c = f p.
Proof.
  intros draw f r last_step n D NE curves. unfold curves, plotted_samples, calc_samples. set (chain := chain_of r last_step) in *.
  assert (LC : (0 < List.length chain)%nat) by (destruct chain; [contradiction|cbn; lia]).
  destruct (D 100%nat _ LC) as [L1 F1]. rewrite !map_length, L1. destruct (D n 100%nat) as [L2 F2]; [lia|]. split; [exact L2|].
  intros c Hc. apply in_map_iff in Hc. destruct Hc as (i & <- & Hi). rewrite Forall_forall in F2. specialize (F2 i Hi).
  set (g := fun i0 => f (nth i0 chain [])). change [] with (nil : list R). rewrite (nth_indep _ [] (g 0%nat)) by (rewrite map_length, L1; exact F2).
  rewrite (map_nth g). unfold g. eexists. split; [|reflexivity]. apply nth_In. rewrite Forall_forall in F1. apply F1, nth_In. rewrite L1. exact F2.
Qed.
Print Assumptions C93_samples_partial.
Definition draw0 (n k : nat) : list nat := repeat 0%nat n.
Example C93_hypotheses_met : drawing draw0 /\ chain_of (mkRun [[mkS [1] (Fin 0) []]] [] [] 0 0) false <> [].
Proof.
  split; [|discriminate]. intros n k H. unfold draw0. rewrite repeat_length. split; [reflexivity|].
  apply Forall_forall. intros i Hi. apply repeat_spec in Hi. lia.
Qed.
(** ** Refuted: more than 100 samples asked for show at most 100 curves: n_samples is
    not passed to the function that computes them. *)
Theorem C93_at_most_100_refuted : forall draw f r last_step n,
  drawing draw -> chain_of r last_step <> [] ->
  exists few, List.length few = 100%nat /\ incl (plotted_samples draw f r last_step n) few.
Proof.
  intros draw f r last_step n D NE. exists (calc_samples draw f r last_step 100).
  assert (LC : (0 < List.length (chain_of r last_step))%nat) by (destruct (chain_of r last_step); [contradiction|cbn; lia]).
  assert (L1 : List.length (calc_samples draw f r last_step 100) = 100%nat) by (unfold calc_samples; rewrite map_length; apply (D 100%nat _ LC)).
  split; [exact L1|].
  intros c Hc. unfold plotted_samples in Hc. apply in_map_iff in Hc. destruct Hc as (i & <- & Hi). apply nth_In. rewrite L1 in *.
  destruct (D n 100%nat) as [_ F]; [lia|]. rewrite Forall_forall in F. apply F, Hi.
Qed.
Print Assumptions C93_at_most_100_refuted.

(** ** C94: the samples of a blob *)
(** Spec: entry [idx] of the blob of a sample, and its values *)
Definition entry (idx : nat) (s : sample) : item := nth idx (s_blob s) IOther.
Definition used (r : run) (last_step : bool) : list sample := if last_step then last (r_steps r) [] else flat r.
(** the first walker of the last step *)
Definition first_sample (r : run) : sample := nth 0 (last (r_steps r) []) empty_sample.
Theorem C94_blob_samples_partial : forall r energies idx last_step,
  (* one value per energy of the data: a spectrum at these energies *)
  (forall v u, entry idx (first_sample r) = IArrayQ v u -> List.length v = List.length energies ->
     process_blob r energies idx last_step = Ok (Some energies, map (fun s => item_vals (entry idx s)) (used r last_step))) /\
  (* a scalar, with or without unit: a derived quantity *)
  (forall x u, entry idx (first_sample r) = IScalarQ x u -> List.length energies <> 1%nat ->
     process_blob r energies idx last_step = Ok (None, map (fun s => item_vals (entry idx s)) (used r last_step))) /\
  (forall x, entry idx (first_sample r) = IFloat x ->
     process_blob r energies idx last_step = Ok (None, map (fun s => item_vals (entry idx s)) (used r last_step))) /\
  (* energies and values: a spectrum at its own energies *)
  (forall x ux y uy, entry idx (first_sample r) = ITuple [(x, ux); (y, uy)] ->
     (forall s, In s (used r last_step) -> exists ys us, entry idx s = ITuple [(x, ux); (ys, us)]) ->
     exists ys, process_blob r energies idx last_step = Ok (Some x, ys) /\
       Forall2 (fun s y => exists us, entry idx s = ITuple [(x, ux); (y, us)]) (used r last_step) ys).
Proof.
  intros r energies idx last_step. unfold process_blob, entry, first_sample, used. repeat split.
  - intros v u E L. cbv zeta. rewrite E, L, Nat.eqb_refl, map_map. reflexivity.
  - intros x u E L. cbv zeta. rewrite E. destruct (Nat.eqb_spec (List.length energies) 1); [contradiction|]. rewrite map_map. reflexivity.
  - intros x E. cbv zeta. rewrite E, map_map. reflexivity.
  - intros x ux y uy E H. cbv zeta. rewrite E. eexists. split; [reflexivity|]. rewrite map_map.
    revert H. generalize (if last_step then last (r_steps r) [] else flat r). induction l as [|s l IH]; intros H; cbn [map]; constructor.
    + destruct (H s) as (ys & us & E2); [left; reflexivity|]. rewrite E2. eauto.
    + apply IH. intros s' Hs'. apply H. right. exact Hs'.
Qed.
Print Assumptions C94_blob_samples_partial.
(** ** Refuted: an array that has neither one value per energy nor a single one (a
    spectrum at other energies) is reported as UnboundLocalError rather than as a
    wrong blob format; with a single data point a derived scalar is taken for a
    spectrum. *)
Theorem C94_format_refuted : forall r energies idx last_step,
  (forall v u, entry idx (first_sample r) = IArrayQ v u -> List.length v <> List.length energies -> List.length v <> 1%nat ->
     process_blob r energies idx last_step = Err "UnboundLocalError") /\
  (forall x u e, entry idx (first_sample r) = IScalarQ x u -> energies = [e] ->
     exists ys, process_blob r energies idx last_step = Ok (Some [e], ys)).
Proof.
  intros r energies idx last_step. unfold process_blob, entry, first_sample. split.
  - intros v u E L1 L2. cbv zeta. rewrite E. destruct (Nat.eqb_spec (List.length v) (List.length energies)); [contradiction|].
    destruct (Nat.eqb_spec (List.length v) 1); [contradiction|reflexivity].
  - intros x u e E ->. cbv zeta. rewrite E. cbn. eauto.
Qed.
Print Assumptions C94_format_refuted.
Example C94_hypotheses_met : let r := mkRun [[mkS [1] (Fin 0) [IArrayQ [1; 2] "u"; IScalarQ 3 "erg"; ITuple [([1], "eV"%string); ([2], "erg"%string)]]]] [] [] 0 0 in
  entry 0 (first_sample r) = IArrayQ [1; 2] "u" /\ entry 1 (first_sample r) = IScalarQ 3 "erg" /\ entry 2 (first_sample r) = ITuple [([1], "eV"%string); ([2], "erg"%string)].
Proof. repeat split. Qed.
