(** C163: the outputs of the model function are stored with the chain. *)
From Coq Require Import Reals List ZArith Bool String Arith Lra Lia.
From Verif Require Import Outcome SimplexModel UnitsModel AnalysisModel PlotModel2 CurveModel CurveProps StoreModel.
Import ListNotations.
Local Open Scope R_scope.

(** ** Specification *)
(** the sample comes from a batch of evaluations (of any number of walkers): its blob is
    what was stored for it *)
Definition evaluated {C} (r : crun C) (s : csample) : Prop :=
  exists ps ms k, Forall2 (fun p m => c_fn r p (c_data r) = Ok m) ps ms /\
    nth_error ps k = Some (c_par s) /\ nth_error (store (map stored ms)) k = Some (c_blob s).
(** size of an output: number of values of an array, two for a pair, none for a scalar *)
Definition size_of (b : bitem) (n : nat) : Prop :=
  match b with BQ q => List.length (vals q) = n | BSeq l => List.length l = n | _ => False end.
(** a Quantity array of [n] values *)
Definition array (n : nat) (b : bitem) : Prop := exists q, b = BQ q /\ List.length (vals q) = n.
(** outputs of different sizes, or one that is a scalar *)
Definition mixed (m : mout) : Prop := forall n, ~ (forall b, In b (stored m) -> size_of b n).

(** ** Lemmas *)
Lemma block_all batch J n : block batch = Some (J, n) -> forall bl, In bl batch -> List.length bl = J /\ forall b, In b bl -> size_of b n.
Proof.
  unfold block. destruct batch as [|[|b r] rest]; try discriminate.
  destruct (first_dim b) as [n'|] eqn:D; [|discriminate].
  destruct (forallb _ _) eqn:F; [|discriminate]. intros H. injection H as <- <-.
  intros bl I. rewrite forallb_forall in F. specialize (F bl I). apply andb_true_iff in F. destruct F as (L & A). apply Nat.eqb_eq in L.
  split; [exact L|]. intros x X. rewrite forallb_forall in A. specialize (A x X).
  destruct x; cbn in *; try discriminate; apply Nat.eqb_eq in A; exact A.
Qed.
Lemma block_arrays batch J n : (1 <= J)%nat -> batch <> [] -> (forall bl, In bl batch -> List.length bl = J /\ forall b, In b bl -> array n b) -> block batch = Some (J, n).
Proof.
  intros HJ NE H. unfold block. destruct batch as [|[|b r] rest]; [congruence| |].
  - destruct (H [] (or_introl eq_refl)) as (L & _). cbn in L. lia.
  - destruct (H (b :: r) (or_introl eq_refl)) as (L & A). cbn in L. destruct (A b (or_introl eq_refl)) as (q & -> & Lq). cbn [first_dim].
    rewrite Lq, L.
    replace (forallb _ _) with true; [reflexivity|]. symmetry. apply forallb_forall. intros bl I. destruct (H bl I) as (L' & A').
    apply andb_true_iff. split; [apply Nat.eqb_eq; exact L'|]. apply forallb_forall. intros x X. destruct (A' x X) as (q' & -> & Lq'). cbn. apply Nat.eqb_eq. exact Lq'.
Qed.
Lemma nth_map_const {A B} (x : B) (l : list A) k y : nth_error (map (fun _ => x) l) k = Some y -> y = x.
Proof. revert k. induction l; intros [|k]; cbn; try discriminate; [congruence|apply IHl]. Qed.
Lemma store_block batch J n k b : block batch = Some (J, n) -> nth_error (store batch) k = Some b -> b = squeezed J n.
Proof. intros B. unfold store. rewrite B. apply nth_map_const. Qed.
Lemma forall2_in {A B} (P : A -> B -> Prop) l l' : Forall2 P l l' -> forall y, In y l' -> exists x, In x l /\ P x y.
Proof. induction 1; cbn; [tauto|]. intros z [<-|I]; [eauto|]. destruct (IHForall2 z I) as (w & ? & ?). eauto. Qed.
Lemma forall2_nth {A B} (P : A -> B -> Prop) l l' : Forall2 P l l' -> forall k x, nth_error l k = Some x -> exists y, nth_error l' k = Some y /\ P x y.
Proof. induction 1; intros [|k] z; cbn; try discriminate; [intros E; injection E as <-; eauto|apply IHForall2]. Qed.

(** all outputs of an evaluation are arrays of one length: what is stored *)
Lemma lost_blob {C} (r : crun C) J n s : (1 <= J)%nat ->
  (forall p m, c_fn r p (c_data r) = Ok m -> exists l, m = MTuple l /\ List.length l = J /\ forall b, In b l -> array n b) ->
  evaluated r s -> c_blob s = squeezed J n.
Proof.
  intros HJ F (ps & ms & k & F2 & P & B). apply (store_block (map stored ms) J n k); [|exact B].
  apply block_arrays; [exact HJ| |].
  - destruct ms; [|discriminate]. destruct k; discriminate B.
  - intros bl I. apply in_map_iff in I. destruct I as (m & <- & Im). destruct (forall2_in _ _ _ F2 m Im) as (p & _ & Hp). destruct (F p m Hp) as (l & -> & L & A). split; assumption.
Qed.
Lemma nth_repeat_some {A} (x : A) n k y : nth_error (repeat x n) k = Some y -> y = x.
Proof. intros H. apply nth_error_In, repeat_spec in H. exact H. Qed.
Lemma unreadable E J n idx : exists e, read_blob E (nth_error (squeezed J n) idx) = Err e.
Proof.
  assert (H : forall x, nth_error (squeezed J n) idx = Some x -> x = BNum \/ x = BOther).
  { intros x. unfold squeezed. destruct J as [|[|J]]; destruct n as [|[|n]]; try (intros I; apply nth_repeat_some in I; auto; fail); destruct idx; discriminate. }
  destruct (nth_error _ _) as [x|]; [|eexists; reflexivity]. destruct (H x eq_refl) as [-> | ->]; eexists; reflexivity.
Qed.

(** ** Theorems *)
(** Outputs of different sizes, outputs with a scalar among them, and a single array
    returned as such are stored as returned: for these the theorems C124 and C147 apply. *)
Theorem C163_kept_partial : forall C (r : crun C),
  (forall s, In s (cflat r) -> evaluated r s) ->
  (forall p m, c_fn r p (c_data r) = Ok m -> (exists q, m = MQ q) \/ mixed m) ->
  fitted r.
Proof.
  intros C r EV MX s Hs. destruct (EV s Hs) as (ps & ms & k & F2 & P & B).
  destruct (forall2_nth _ _ _ F2 k _ P) as (m & Nm & Hm). exists m. split; [exact Hm|].
  assert (NB : block (map stored ms) = None).
  { destruct (block (map stored ms)) as [[J n]|] eqn:E; [|reflexivity]. exfalso.
    destruct (block_all _ _ _ E (stored m)) as (_ & A); [apply in_map, (nth_error_In _ _ Nm)|].
    destruct (MX _ _ Hm) as [(q & ->)|M]; [|exact (M n A)]. apply (A BNum). cbn. auto. }
  unfold store in B. rewrite NB in B. rewrite (map_nth_error stored k ms Nm) in B. congruence.
Qed.

(** Several arrays of the length of the spectrum (a documented format), and nothing else:
    they lose their units, and none of them can be plotted. *)
Theorem C163_arrays_refuted : forall C nu (r : crun C) J n, (2 <= J)%nat -> (2 <= n)%nat ->
  crect r -> List.Forall (fun s => isnan (c_lp s) = false) (cflat r) ->
  (forall s, In s (cflat r) -> evaluated r s) ->
  (forall p m, c_fn r p (c_data r) = Ok m -> exists l, m = MTuple l /\ List.length l = J /\ forall b, In b l -> array n b) ->
  forall idx,
    (forall s, In s (cflat r) -> forall q, ~ In (BQ q) (c_blob s)) /\
    (forall er m eu sed, exists e, plot_ML nu r idx er m eu sed = Err e) /\
    (forall last_step, exists e, plot_blob r idx last_step = Err e) /\
    (forall draw draw2 sed ns last_step m eu, exists e, plot_samples nu draw draw2 r idx sed ns last_step None m eu = Err e).
Proof.
  intros C nu r J n HJ Hn CR NN EV FN idx.
  assert (LB : forall s, In s (cflat r) -> c_blob s = repeat BOther J).
  { intros s Hs. rewrite (lost_blob r J n s) by (auto; lia). unfold squeezed. destruct J as [|[|J]]; destruct n as [|[|n]]; try lia. reflexivity. }
  assert (PR : forall E blobs, exists e, process E (option_map c_blob (nth_error (last (c_steps r) []) 0)) blobs idx = Err e).
  { intros E blobs. unfold process. destruct (nth_error (last (c_steps r) []) 0) as [s|] eqn:N; cbn [option_map]; [|eexists; reflexivity].
    rewrite LB by (apply (used_flat C r true); apply nth_error_In in N; exact N).
    destruct (nth_error (repeat BOther J) idx) as [x|] eqn:X; [|eexists; reflexivity]. apply nth_repeat_some in X. subst x. eexists; reflexivity. }
  split; [|split; [|split]].
  - intros s Hs q I. rewrite LB in I by exact Hs. apply repeat_spec in I. discriminate.
  - intros er m eu sed. unfold plot_ML, calc_ML. destruct (best_is r CR NN) as (I & _).
    rewrite (lost_blob r J n (best r)) by (auto; lia). destruct (unreadable (v_energy (c_data r)) J n idx) as (e & ->). eexists; reflexivity.
  - intros ls. unfold plot_blob. destruct (PR (v_energy (c_data r)) (map c_blob (used r ls))) as (e & ->). eexists; reflexivity.
  - intros draw draw2 sed ns ls m eu. unfold plot_samples, samples. destruct (PR (v_energy (c_data r)) (map c_blob (used r ls))) as (e & ->). eexists; reflexivity.
Qed.

(** A tuple with a single array: no fit can be drawn. *)
Theorem C163_single_refuted : forall C nu (r : crun C) n,
  crect r -> List.Forall (fun s => isnan (c_lp s) = false) (cflat r) ->
  (forall s, In s (cflat r) -> evaluated r s) ->
  (forall p m, c_fn r p (c_data r) = Ok m -> exists q, m = MTuple [BQ q] /\ List.length (vals q) = n) ->
  (forall s, In s (cflat r) -> forall q, ~ In (BQ q) (c_blob s)) /\
  forall idx er m eu sed, exists e, plot_ML nu r idx er m eu sed = Err e.
Proof.
  intros C nu r n CR NN EV FN.
  assert (LB : forall s, In s (cflat r) -> c_blob s = squeezed 1 n).
  { intros s Hs. apply (lost_blob r); [lia| |auto]. intros p m H. destruct (FN p m H) as (q & -> & L). eexists. split; [reflexivity|]. split; [reflexivity|]. intros b [<-|[]]. exists q. auto. }
  split.
  - intros s Hs q I. rewrite LB in I by exact Hs. unfold squeezed in I. destruct n as [|[|n]]; [destruct I|destruct I|]. apply repeat_spec in I. discriminate.
  - intros idx er m eu sed. unfold plot_ML, calc_ML. destruct (best_is r CR NN) as (I & _). rewrite LB by exact I.
    destruct (unreadable (v_energy (c_data r)) 1 n idx) as (e & ->). eexists; reflexivity.
Qed.

(** Several outputs of one value each (one data point), or one array in a tuple: only bare numbers
    remain with the chain, one for each value, without the units. *)
Theorem C163_numbers_refuted : forall C (r : crun C) J n, ((2 <= J)%nat /\ n = 1%nat) \/ (J = 1%nat /\ (2 <= n)%nat) ->
  (forall s, In s (cflat r) -> evaluated r s) ->
  (forall p m, c_fn r p (c_data r) = Ok m -> exists l, m = MTuple l /\ List.length l = J /\ forall b, In b l -> array n b) ->
  forall s, In s (cflat r) -> List.length (c_blob s) = (J * n)%nat /\ List.Forall (fun b => b = BNum) (c_blob s).
Proof.
  intros C r J n JN EV FN s Hs.
  assert (E : c_blob s = repeat BNum (J * n)).
  { rewrite (lost_blob r J n s) by (auto; lia). unfold squeezed. destruct JN as [(A & ->)|(-> & A)].
    - rewrite Nat.mul_1_r. destruct J as [|[|J]]; try lia; reflexivity.
    - rewrite Nat.mul_1_l. destruct n as [|[|n]]; try lia; reflexivity. }
  rewrite E. split; [apply repeat_length|]. apply List.Forall_forall. intros b Hb. apply repeat_spec in Hb. exact Hb.
Qed.
(** one walker pair, one data point, the flux and a second quantity *)
Definition one_q : qty := mkQ [1] (mkU 1 d_energy).
Definition one_run : crun unit :=
  mkR [map (fun p => mkC [p] (Fin p) [BNum; BNum]) [0; 1]] (fun _ _ => Ok (MTuple [BQ one_q; BQ one_q])) (mkV one_q one_q (Some tt)).
Example C163_numbers_case : (forall s, In s (cflat one_run) -> evaluated one_run s) /\
  (forall p m, c_fn one_run p (c_data one_run) = Ok m -> exists l, m = MTuple l /\ List.length l = 2%nat /\ forall b, In b l -> array 1 b).
Proof.
  split.
  - intros s Hs. exists [[0]; [1]], [MTuple [BQ one_q; BQ one_q]; MTuple [BQ one_q; BQ one_q]].
    destruct Hs as [<-|[<-|[]]]; [exists 0%nat|exists 1%nat]; (split; [repeat constructor|]); split; reflexivity.
  - intros p m H. injection H as <-. eexists. split; [reflexivity|]. split; [reflexivity|]. intros b [<-|[<-|[]]]; exists one_q; auto.
Qed.

(** ** The hypotheses can be met *)
Definition two_q : qty := mkQ [1; 2] (mkU 1 d_energy).
(** two walkers, one step; the model returns the flux and a second array *)
Definition pair_fn : modelfn unit := fun _ _ => Ok (MTuple [BQ two_q; BQ two_q]).
Definition pair_run : crun unit :=
  mkR [map (fun p => mkC [p] (Fin p) [BOther; BOther]) [0; 1]] pair_fn (mkV two_q two_q (Some tt)).
Example C163_arrays_case : crect pair_run /\ List.Forall (fun s => isnan (c_lp s) = false) (cflat pair_run) /\
  (forall s, In s (cflat pair_run) -> evaluated pair_run s) /\
  (forall p m, c_fn pair_run p (c_data pair_run) = Ok m -> exists l, m = MTuple l /\ List.length l = 2%nat /\ forall b, In b l -> array 2 b).
Proof.
  split; [|split; [|split]].
  - split; [discriminate|]. split; [cbn; lia|]. repeat constructor.
  - repeat constructor.
  - intros s Hs. exists [[0]; [1]], [MTuple [BQ two_q; BQ two_q]; MTuple [BQ two_q; BQ two_q]].
    destruct Hs as [<-|[<-|[]]]; [exists 0%nat|exists 1%nat]; (split; [repeat constructor|]); split; reflexivity.
  - intros p m H. injection H as <-. eexists. split; [reflexivity|]. split; [reflexivity|]. intros b [<-|[<-|[]]]; exists two_q; auto.
Qed.
(** the flux, a pair and a scalar *)
Definition mixed_out : mout := MTuple [BQ (mkQ [1; 2; 3] (mkU 1 d_energy)); BSeq [two_q; two_q]; BScalar 1 (mkU 1 d_energy)].
Example C163_mixed_case : mixed mixed_out /\ store [stored mixed_out; stored mixed_out] = [stored mixed_out; stored mixed_out].
Proof. split; [|reflexivity]. intros n H. apply (H (BScalar 1 (mkU 1 d_energy))). cbn. tauto. Qed.
Print Assumptions C163_numbers_refuted.
