(** C118: the lookup table and the direct computation. *)
From Coq Require Import Reals List String Bool Sorted Lra Lia Arith FunctionalExtensionality.
From Verif Require Import Outcome TrapzModel TrapzProofs PionModel PionProofs PionProps LutModel.
Import ListNotations.
Local Open Scope R_scope.

(** ** Specification *)
(** An energy grid that scipy accepts for a cubic spline *)
Definition nodes (l : list R) : Prop := List.Forall (fun x => 0 < x) l /\ StronglySorted Rlt l /\ (4 <= List.length l)%nat.
(** What is assumed of scipy's spline: it passes through the data *)
Definition interpolates (spline : list R -> list R -> list (list R) -> R -> R -> R) : Prop :=
  forall X Y Z i j, StronglySorted Rlt X -> StronglySorted Rlt Y ->
    List.length Z = List.length X -> List.Forall (fun r => List.length r = List.length Y) Z ->
    (i < List.length X)%nat -> (j < List.length Y)%nat ->
    spline X Y Z (nth i X 0) (nth j Y 0) = nth j (nth i Z []) 0.

(** ** Lemmas *)
Lemma log10_lt a b : 0 < a -> a < b -> log10 a < log10 b.
Proof. intros. unfold log10. pose proof ln10_pos. apply Rmult_lt_compat_r; [apply Rinv_0_lt_compat; assumption|]. apply ln_increasing; assumption. Qed.
Lemma log10_le a b : 0 < a -> a <= b -> log10 a <= log10 b.
Proof. intros H [K | ->]; [left; apply log10_lt; assumption|lra]. Qed.
Lemma pow10_log10 a : 0 < a -> Rpower 10 (log10 a) = a.
Proof. intros H. unfold Rpower, log10. pose proof ln10_pos. replace (ln a / ln 10 * ln 10) with (ln a) by (field; lra). apply exp_ln. assumption. Qed.
Lemma entry_round_trip z : 0 <= z -> pow10_entry (log10_entry (Some z)) = Some z.
Proof.
  intros H. unfold log10_entry. destruct (Req_EM_T z 0) as [-> | N]; [reflexivity|]. destruct (Rlt_dec 0 z); [|lra].
  cbn. rewrite pow10_log10 by assumption. reflexivity.
Qed.
Lemma sorted_log10 l : List.Forall (fun x => 0 < x) l -> StronglySorted Rlt l -> StronglySorted Rlt (map log10 l).
Proof.
  intros P S. induction S as [|a l S IH F]; cbn; [constructor|]. inversion P; subst. constructor; [apply IH; assumption|].
  rewrite List.Forall_forall in *. intros y Hy. apply in_map_iff in Hy. destruct Hy as (x & <- & Hx). apply log10_lt; auto.
Qed.
Lemma increasing_sorted l : StronglySorted Rlt l -> increasing l = true.
Proof.
  induction 1 as [|a l S IH F]; [reflexivity|]. destruct l as [|b l]; [reflexivity|]. cbn [increasing].
  inversion F; subst. destruct (Rlt_dec a b); [assumption|contradiction].
Qed.
Lemma load_ok f : StronglySorted Rlt (f_X f) -> StronglySorted Rlt (f_Y f) -> (4 <= List.length (f_X f))%nat -> (4 <= List.length (f_Y f))%nat ->
  load_table f = Ok (mkLUT (f_X f) (f_Y f) (all_rows (map (map pow10_entry) (f_lut f)))).
Proof.
  intros A B C D. unfold load_table. rewrite (increasing_sorted _ A), (increasing_sorted _ B).
  apply Nat.leb_le in C, D. rewrite C, D. reflexivity.
Qed.
Lemma all_some_map {A} (f : A -> option R) g l : (forall a, In a l -> f a = Some (g a)) -> all_some (map f l) = Some (map g l).
Proof.
  induction l as [|a l IH]; intros H; [reflexivity|]. cbn. rewrite (H a (or_introl eq_refl)), IH; [reflexivity|]. intros. apply H. right. assumption.
Qed.
Lemma all_rows_map {A} (f : A -> list (option R)) g l : (forall a, In a l -> all_some (f a) = Some (g a)) -> all_rows (map f l) = Some (map g l).
Proof.
  induction l as [|a l IH]; intros H; [reflexivity|]. cbn. rewrite (H a (or_introl eq_refl)), IH; [reflexivity|]. intros. apply H. right. assumption.
Qed.
Lemma nth_map_in {A B} (f : A -> B) l i d d' : (i < List.length l)%nat -> nth i (map f l) d' = f (nth i l d).
Proof. intros. rewrite (nth_indep _ d' (f d)) by (rewrite map_length; assumption). apply map_nth. Qed.
(** rows of the generated table: proton energy i, photon energy j *)
Lemma generate_rows sig Ep Eg : f_lut (generate sig Ep Eg) =
  map (fun i => map (fun eg => log10_entry (nth i (map (fun ep => sig ep eg) Ep) None)) Eg) (seq 0 (List.length Ep)).
Proof. unfold generate, transpose. cbn. rewrite !map_map. apply map_ext. intros i. rewrite !map_map. reflexivity. Qed.
Lemma table_values sig (val : R -> R -> R) Ep Eg : (forall ep eg, In ep Ep -> In eg Eg -> sig ep eg = Some (val ep eg) /\ 0 <= val ep eg) ->
  all_rows (map (map pow10_entry) (f_lut (generate sig Ep Eg)))
  = Some (map (fun i => map (fun eg => val (nth i Ep 0) eg) Eg) (seq 0 (List.length Ep))).
Proof.
  intros H. rewrite generate_rows, map_map. apply all_rows_map. intros i Hi. apply in_seq in Hi. rewrite map_map. apply all_some_map.
  intros eg Heg. rewrite (nth_map_in (fun ep => sig ep eg) Ep i 0 None) by lia. destruct (H (nth i Ep 0) eg) as (E & P); [apply nth_In; lia|assumption|].
  rewrite E. apply entry_round_trip. assumption.
Qed.

Lemma sorted_hd_le d : forall l x, StronglySorted Rlt l -> In x l -> hd d l <= x.
Proof. intros l x S H. inversion S as [|a l' S' F]; subst; [destruct H|]. cbn. destruct H as [-> | H]; [lra|]. rewrite List.Forall_forall in F. left. auto. Qed.
Lemma last_In {A} (d : A) l : l <> [] -> In (last l d) l.
Proof. induction l as [|a l IH]; intros H; [contradiction|]. destruct l as [|b l]; [left; reflexivity|]. right. apply IH. discriminate. Qed.
Lemma sorted_le_last d : forall l x, StronglySorted Rlt l -> In x l -> x <= last l d.
Proof.
  intros l x S. induction S as [|a l S IH F]; intros H; [destruct H|]. destruct l as [|b l]; [destruct H as [-> | []]; cbn; lra|].
  change (last (a :: b :: l) d) with (last (b :: l) d). destruct H as [-> | H]; [|auto].
  rewrite List.Forall_forall in F. left. apply F. apply last_In. discriminate.
Qed.
Lemma clamp_in l x : StronglySorted Rlt l -> In x l -> clamp l x = x.
Proof.
  intros S H. unfold clamp. pose proof (sorted_hd_le 0 l x S H). pose proof (sorted_le_last 0 l x S H).
  rewrite Rmin_right by lra. rewrite Rmax_right; lra.
Qed.
Lemma clamp_above l x : l <> [] -> StronglySorted Rlt l -> last l 0 <= x -> clamp l x = last l 0.
Proof.
  intros N S H. unfold clamp. rewrite Rmin_left by lra. apply Rmax_right. apply sorted_hd_le; [assumption|]. apply last_In. assumption.
Qed.
Lemma clamp_below l x : l <> [] -> StronglySorted Rlt l -> x <= hd 0 l -> clamp l x = hd 0 l.
Proof.
  intros N S H. unfold clamp. assert (hd 0 l <= last l 0) by (apply sorted_hd_le; [assumption|apply last_In; assumption]).
  apply Rmax_left. eapply Rle_trans; [apply Rmin_r|assumption].
Qed.

(** ** Theorems *)
(** A generated table is accepted, and at the tabulated energies it returns the
    tabulated cross section, zeros included, although it stores logarithms. *)
Theorem C118_nodes : forall spline sig val Ep Eg,
  interpolates spline -> nodes Ep -> nodes Eg ->
  (forall ep eg, In ep Ep -> In eg Eg -> sig ep eg = Some (val ep eg) /\ 0 <= val ep eg) ->
  exists T, load_table (generate sig Ep Eg) = Ok T /\
    forall ep eg, In ep Ep -> In eg Eg -> look spline T ep eg = sig ep eg.
Proof.
  intros spline sig val Ep Eg HI (P1 & S1 & L1) (P2 & S2 & L2) HV. eexists. split.
  - apply load_ok; cbn; try (rewrite map_length; assumption); apply sorted_log10; assumption.
  - intros ep eg He Hg. unfold look. cbn [l_Z l_X l_Y generate f_X f_Y]. rewrite (table_values sig val Ep Eg HV). cbn [nmap].
    rewrite !clamp_in by (try (apply sorted_log10; assumption); apply in_map; assumption).
    destruct (In_nth Ep ep 0 He) as (i & Hi & Ei). destruct (In_nth Eg eg 0 Hg) as (j & Hj & Ej).
    rewrite <- Ei, <- Ej at 1. rewrite <- (nth_map_in log10 Ep i 0 0 Hi), <- (nth_map_in log10 Eg j 0 0 Hj).
    rewrite (HI (map log10 Ep) (map log10 Eg)); try (apply sorted_log10; assumption); try (rewrite !map_length; try rewrite seq_length; auto; fail).
    + rewrite (nth_map_in _ (seq 0 (List.length Ep)) i 0%nat []) by (rewrite seq_length; assumption). rewrite seq_nth by assumption. cbn [plus].
      rewrite (nth_map_in _ Eg j 0 0 Hj), Ei, Ej. symmetry. apply HV; assumption.
    + apply List.Forall_forall. intros r Hr. apply in_map_iff in Hr. destruct Hr as (k & <- & _). rewrite !map_length. reflexivity.
Qed.

(** An array of proton energies in non-decreasing order - repeated ones included - is
    looked up point by point; scipy refuses any other order. *)
Lemma log10_le_iff x y : 0 < x -> 0 < y -> (x <= y <-> log10 x <= log10 y).
Proof.
  intros X Y. unfold log10. assert (L : 0 < ln 10) by (rewrite <- ln_1; apply ln_increasing; lra).
  split; intros H.
  - apply Rmult_le_compat_r; [left; apply Rinv_0_lt_compat; exact L|]. destruct H as [H| ->]; [left; apply ln_increasing; assumption|right; reflexivity].
  - apply Rmult_le_reg_r in H; [|apply Rinv_0_lt_compat; exact L]. destruct (Rle_lt_dec x y) as [|N]; [assumption|]. exfalso. pose proof (ln_increasing _ _ Y N). lra.
Qed.
(** A table is accepted only with at least four energies in increasing order on either axis. *)
Theorem C118_nodes_needed : forall f T, load_table f = Ok T ->
  StronglySorted Rlt (f_X f) /\ StronglySorted Rlt (f_Y f) /\ (4 <= List.length (f_X f))%nat /\ (4 <= List.length (f_Y f))%nat.
Proof.
  intros f T H. unfold load_table in H.
  assert (K : forall l, increasing l = true -> StronglySorted Rlt l).
  { intros l Hl. apply Sorted_StronglySorted; [intros x y z; apply Rlt_trans|].
    induction l as [|a l IH]; [constructor|]. destruct l as [|b l]; [repeat constructor|]. cbn [increasing] in Hl.
    destruct (Rlt_dec a b); [|discriminate]. constructor; [apply IH, Hl|constructor; assumption]. }
  destruct (increasing (f_X f)) eqn:E1; [|discriminate]. destruct (increasing (f_Y f)) eqn:E2; [|discriminate].
  destruct (Nat.leb 4 (List.length (f_X f))) eqn:E3; [|discriminate]. destruct (Nat.leb 4 (List.length (f_Y f))) eqn:E4; [|discriminate].
  apply Nat.leb_le in E3, E4. auto.
Qed.
Theorem C118_array : forall spline T xs y, List.Forall (fun x => 0 < x) xs ->
  (Sorted.Sorted Rle xs -> look_array spline T xs y = Ok (map (fun x => look spline T x y) xs)) /\
  (~ Sorted.Sorted Rle xs -> look_array spline T xs y = Err "ValueError"%string).
Proof.
  intros spline T xs y P.
  assert (N : nondecreasing (map log10 xs) = true <-> Sorted.Sorted Rle xs).
  { induction P as [|a l Pa Pl IH]; [cbn; split; auto|]. destruct l as [|b l]; [cbn; split; auto|].
    inversion Pl as [|? ? Pb _]; subst. cbn [map nondecreasing] in *. destruct (Rle_dec (log10 a) (log10 b)) as [L|L].
    - rewrite IH. apply log10_le_iff in L; auto. split; intros H; [constructor; [exact H|constructor; exact L]|inversion H; assumption].
    - split; [discriminate|]. intros H. inversion H as [|? ? _ H2]; subst. inversion H2; subst. exfalso. apply L. apply (proj1 (log10_le_iff a b Pa Pb)). assumption. }
  unfold look_array. destruct (nondecreasing (map log10 xs)) eqn:E; split; intros H; auto.
  - exfalso. apply H, N. reflexivity.
  - apply N in H. discriminate H.
Qed.
Print Assumptions C118_array.
Example C118_array_example : Sorted.Sorted Rle [1; 2; 2; 5] /\ List.Forall (fun x => 0 < x) [1; 2; 2; 5] /\ ~ Sorted.Sorted Rle [2; 1].
Proof.
  split; [repeat constructor; lra|]. split; [repeat constructor; lra|]. intros H. inversion H as [|? ? _ H2]; subst. inversion H2; subst. lra.
Qed.

(** Therefore the spectrum with a table made for the proton grid is the direct one at
    the tabulated photon energies. *)
Theorem C118_spectrum : forall spline m_p hi nuclear Ep Eg nhc GeV pd es Es,
  proton m_p -> interpolates spline -> nodes Ep -> nodes Eg -> List.Forall (fun e => m_p + Tth <= e) Ep ->
  incl es Ep -> incl Es Eg ->
  exists T, load_table (generate (diffsigma m_p hi nuclear) Ep Eg) = Ok T /\
    lut_spectrum spline T nhc GeV pd es Es = pion_spectrum (diffsigma m_p hi nuclear) nhc GeV pd es Es.
Proof.
  intros spline m_p hi nuclear Ep Eg nhc GeV pd es Es Hm HI HP HG HT Ie Ig.
  assert (HV: forall ep eg, In ep Ep -> In eg Eg -> diffsigma m_p hi nuclear ep eg = Some (match diffsigma m_p hi nuclear ep eg with Some v => v | None => 0 end)
     /\ 0 <= match diffsigma m_p hi nuclear ep eg with Some v => v | None => 0 end).
  { intros ep eg He Hg. rewrite List.Forall_forall in HT. specialize (HT ep He). destruct HG as (P & _). rewrite List.Forall_forall in P.
    destruct (diffsigma_some m_p Hm hi nuclear ep eg) as (v & -> & Hv); [lra|apply P; assumption|]. split; [reflexivity|assumption]. }
  destruct (C118_nodes spline _ _ Ep Eg HI HP HG HV) as (T & ET & HL). exists T. split; [assumption|].
  unfold lut_spectrum, pion_spectrum. apply map_ext_in. intros E HE. f_equal. f_equal. apply map_ext_in. intros p Hp.
  f_equal. apply HL; [|apply Ig; assumption]. apply Ie. destruct p as [a b]. apply in_combine_l in Hp. assumption.
Qed.

(** Above the highest tabulated photon energy (1 PeV in the table that comes with
    naima) the spectrum is the one at that energy, for ever: a photon may have more
    energy than any proton. *)
Theorem C142_above_table_refuted : forall spline T f nhc GeV pd es top E,
  load_table f = Ok T -> StronglySorted Rlt (f_Y f) -> last (f_Y f) 0 = log10 top -> 0 < top -> top <= E ->
  lut_spectrum spline T nhc GeV pd es [E] = lut_spectrum spline T nhc GeV pd es [top].
Proof.
  intros spline T f nhc GeV pd es top E HL S Ht Ptop HE.
  assert (ET: l_Y T = f_Y f /\ f_Y f <> []).
  { unfold load_table in HL. destruct (_ && _ && _ && _)%bool eqn:B; [|discriminate]. injection HL as <-. split; [reflexivity|].
    apply andb_prop in B. destruct B as (_ & B). apply Nat.leb_le in B. destruct (f_Y f); [cbn in B; lia|discriminate]. }
  destruct ET as (EY & NE). unfold lut_spectrum, pion_spectrum. cbn [map]. do 3 f_equal. apply map_ext. intros p. f_equal. unfold look. rewrite EY.
  rewrite (clamp_above (f_Y f) (log10 E) NE S) by (rewrite Ht; apply log10_le; assumption).
  rewrite (clamp_above (f_Y f) (log10 top) NE S) by (rewrite Ht; lra). reflexivity.
Qed.

(** ... although the direct computation gives nothing there: for every table and proton
    energy the looked-up cross section at arbitrarily high photon energies equals the one
    at the edge, which is positive as soon as that proton energy can produce photons of
    the edge energy; the direct one is zero. *)
Theorem C142_kinematic_limit_refuted : forall spline m_p hi nuclear Ep Eg ep top,
  proton m_p -> interpolates spline -> nodes Ep -> nodes Eg -> List.Forall (fun e => m_p + Tth <= e) Ep ->
  In ep Ep -> last Eg 0 = top ->
  (exists v, diffsigma m_p hi nuclear ep top = Some v /\ 0 < v) ->
  exists T, load_table (generate (diffsigma m_p hi nuclear) Ep Eg) = Ok T /\
    forall E, top <= E -> exists v, look spline T ep E = Some v /\ 0 < v.
Proof.
  intros spline m_p hi nuclear Ep Eg ep top Hm HI HP HG HT He Htop (v & Hv & Pv).
  assert (HV: forall ep eg, In ep Ep -> In eg Eg -> diffsigma m_p hi nuclear ep eg = Some (match diffsigma m_p hi nuclear ep eg with Some v => v | None => 0 end)
     /\ 0 <= match diffsigma m_p hi nuclear ep eg with Some v => v | None => 0 end).
  { intros ep' eg He' Hg. rewrite List.Forall_forall in HT. specialize (HT ep' He'). destruct HG as (P & _). rewrite List.Forall_forall in P.
    destruct (diffsigma_some m_p Hm hi nuclear ep' eg) as (w & -> & Hw); [lra|apply P; assumption|]. split; [reflexivity|assumption]. }
  destruct (C118_nodes spline _ _ Ep Eg HI HP HG HV) as (T & ET & HL). exists T. split; [assumption|]. intros E HE. exists v. split; [|assumption].
  assert (NE: Eg <> []) by (destruct HG as (_ & _ & L); destruct Eg; [cbn in L; lia|discriminate]).
  assert (Hin: In top Eg) by (rewrite <- Htop; apply last_In; assumption).
  rewrite <- Hv, <- (HL ep top He Hin). unfold look. f_equal.
  assert (EY: l_Y T = map log10 Eg).
  { unfold load_table in ET. destruct (_ && _ && _ && _)%bool in ET; [|discriminate]. injection ET as <-. reflexivity. }
  destruct HG as (P & S & _). rewrite EY. assert (S' := sorted_log10 Eg P S). assert (Ptop: 0 < top) by (rewrite List.Forall_forall in P; auto).
  assert (LL: last (map log10 Eg) 0 = log10 top).
  { rewrite <- Htop. clear - NE. induction Eg as [|a [|b l] IH]; [contradiction|reflexivity|]. cbn [map] in *. apply IH. discriminate. }
  assert (NE': map log10 Eg <> []) by (destruct Eg; [contradiction|discriminate]).
  apply functional_extensionality. intros Z. f_equal.
  rewrite (clamp_above _ (log10 E) NE' S') by (rewrite LL; apply log10_le; assumption).
  rewrite (clamp_above _ (log10 top) NE' S') by (rewrite LL; lra). reflexivity.
Qed.

(** The lower end: photons below the lowest tabulated energy (10 MeV) get its value, and
    protons below the lowest tabulated energy the cross section of that energy. *)
Theorem C142_below_table_refuted : forall spline T f x y,
  load_table f = Ok T -> StronglySorted Rlt (f_X f) -> StronglySorted Rlt (f_Y f) ->
  (forall y0, 0 < y0 -> hd 0 (f_Y f) = log10 y0 -> 0 < y -> y <= y0 -> look spline T x y = look spline T x y0) /\
  (forall x0, 0 < x0 -> hd 0 (f_X f) = log10 x0 -> 0 < x -> x <= x0 -> look spline T x y = look spline T x0 y).
Proof.
  intros spline T f x y HL SX SY.
  assert (ET: l_X T = f_X f /\ l_Y T = f_Y f /\ f_X f <> [] /\ f_Y f <> []).
  { unfold load_table in HL. destruct (_ && _ && _ && _)%bool eqn:B; [|discriminate]. injection HL as <-. split; [reflexivity|]. split; [reflexivity|].
    apply andb_prop in B. destruct B as (B' & B). apply andb_prop in B'. destruct B' as (_ & B'). apply Nat.leb_le in B, B'.
    split; intros C; rewrite C in *; cbn in *; lia. }
  destruct ET as (EX & EY & NX & NY). split.
  - intros y0 P0 H0 Py Hy. unfold look. rewrite EX, EY. f_equal. apply functional_extensionality. intros Z. f_equal.
    rewrite (clamp_below (f_Y f) (log10 y) NY SY) by (rewrite H0; apply log10_le; assumption).
    rewrite (clamp_below (f_Y f) (log10 y0) NY SY) by (rewrite H0; lra). reflexivity.
  - intros x0 P0 H0 Px Hx. unfold look. rewrite EX, EY. f_equal. apply functional_extensionality. intros Z. f_equal.
    rewrite (clamp_below (f_X f) (log10 x) NX SX) by (rewrite H0; apply log10_le; assumption).
    rewrite (clamp_below (f_X f) (log10 x0) NX SX) by (rewrite H0; lra). reflexivity.
Qed.

(** One tabulated proton energy between the proton mass and the pion threshold makes
    every value of the table nan. *)
Lemma all_some_none l : In None l -> all_some l = None.
Proof. induction l as [|[a|] l IH]; intros H; [destruct H| |reflexivity]. destruct H as [H | H]; [discriminate|]. cbn. rewrite IH by assumption. reflexivity. Qed.
Lemma all_rows_none l r : In r l -> In None r -> all_rows l = None.
Proof.
  induction l as [|a l IH]; intros H K; [destruct H|]. cbn. destruct H as [-> | H]; [rewrite all_some_none by assumption; reflexivity|].
  rewrite (IH H K). destruct (all_some a); reflexivity.
Qed.
Theorem C142_threshold_refuted : forall spline m_p hi nuclear Ep Eg e,
  proton m_p -> nodes Ep -> nodes Eg -> In e Ep -> m_p < e -> e <= m_p + 27966 / 100000 ->
  exists T, load_table (generate (diffsigma m_p hi nuclear) Ep Eg) = Ok T /\ forall x y, look spline T x y = None.
Proof.
  intros spline m_p hi nuclear Ep Eg e Hm (P1 & S1 & L1) (P2 & S2 & L2) He He1 He2. eexists. split.
  - apply load_ok; cbn; try (rewrite map_length; assumption); apply sorted_log10; assumption.
  - intros x y. unfold look. cbn [l_Z]. destruct (In_nth Ep e 0 He) as (i & Hi & Ei). rewrite generate_rows, map_map.
    erewrite all_rows_none; [reflexivity| |].
    + apply in_map_iff. exists i. split; [reflexivity|]. apply in_seq. lia.
    + rewrite map_map. apply in_map_iff. destruct Eg as [|eg Eg]; [cbn in L2; lia|]. exists eg. split; [|left; reflexivity].
      rewrite (nth_map_in (fun ep => diffsigma m_p hi nuclear ep eg) Ep i 0 None Hi), Ei, diffsigma_below by assumption. reflexivity.
Qed.

(** ** Non-vacuity *)
Fixpoint pos (l : list R) (x : R) : nat := match l with [] => O | a :: r => if Req_EM_T a x then O else S (pos r x) end.
Lemma pos_nth l : StronglySorted Rlt l -> forall i, (i < List.length l)%nat -> pos l (nth i l 0) = i.
Proof.
  induction 1 as [|a l S IH F]; intros i Hi; [cbn in Hi; lia|]. destruct i as [|i]; cbn.
  - destruct (Req_EM_T a a); [reflexivity|contradiction].
  - cbn in Hi. destruct (Req_EM_T a (nth i l 0)) as [E|_]; [|rewrite IH by lia; reflexivity].
    rewrite List.Forall_forall in F. specialize (F (nth i l 0)). assert (In (nth i l 0) l) by (apply nth_In; lia). specialize (F H). lra.
Qed.
Definition node_spline (X Y : list R) (Z : list (list R)) (x y : R) : R := nth (pos Y y) (nth (pos X x) Z []) 0.
Example C118_spline : interpolates node_spline.
Proof. intros X Y Z i j SX SY _ _ Hi Hj. unfold node_spline. rewrite !pos_nth by assumption. reflexivity. Qed.
Definition ex_Ep : list R := [2; 3; 4; 5].
Definition ex_Eg : list R := [m_pi / 16; m_pi / 8; m_pi / 4; m_pi / 2].
Example C118_example : forall m_p hi nuclear, proton m_p ->
  nodes ex_Ep /\ nodes ex_Eg /\ List.Forall (fun e => m_p + Tth <= e) ex_Ep /\ In 5 ex_Ep /\ last ex_Eg 0 = m_pi / 2 /\
  exists v, diffsigma m_p hi nuclear 5 (m_pi / 2) = Some v /\ 0 < v.
Proof.
  intros m_p hi nuclear Hm. assert (Hm' := Hm). unfold proton in Hm'. pose proof m_pi_pos as PM.
  split; [repeat split; repeat constructor; lra|]. split; [repeat split; repeat constructor; unfold m_pi; lra|].
  split; [unfold Tth; repeat constructor; lra|]. split; [cbn; tauto|]. split; [reflexivity|].
  destruct (C26_photon_limit m_p hi nuclear 5 (m_pi / 2) Hm) as (A & _ & _ & B); [lra|unfold Tth; lra|].
  match type of A with _ < ?M => set (m := M) in * end. apply B. split; [|exact A].
  assert (0 < m) by lra. apply Rmult_lt_reg_r with (4 * m); [lra|]. unfold Rdiv at 1. rewrite Rmult_assoc, Rinv_l by lra. nra.
Qed.
(** a grid that starts below the threshold *)
Example C118_example_threshold : exists m_p, proton m_p /\ nodes [12 / 10; 2; 3; 4] /\ m_p < 12 / 10 <= m_p + 27966 / 100000.
Proof. exists (9382725 / 10000000). split; [unfold proton; lra|]. split; [repeat split; repeat constructor; lra|lra]. Qed.
Print Assumptions C142_kinematic_limit_refuted.
Print Assumptions C118_spectrum.
