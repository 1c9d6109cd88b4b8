(** Lemmas about the cache model. *)
From Coq Require Import String List Arith Bool Lia.
From Verif Require Import Outcome MemoModel.
Import ListNotations.

(** ** Dictionaries *)
Lemma dget_In {V} k (v : V) d : dget k d = Some v -> In (k, v) d.
Proof.
  induction d as [|[k' v'] r IH]; simpl; [discriminate|].
  destruct (String.eqb_spec k k'); [intros [= ->]; subst; auto | auto].
Qed.

Lemma dget_None {V} k (d : list (string * V)) : dget k d = None <-> ~ In k (dkeys d).
Proof.
  induction d as [|[k' v'] r IH]; simpl; [tauto|].
  destruct (String.eqb_spec k k'); [subst; split; [discriminate|tauto]|].
  rewrite IH. intuition congruence.
Qed.

Lemma dset_new {V} k (v : V) d : ~ In k (dkeys d) -> dset k v d = (d ++ [(k, v)])%list.
Proof.
  induction d as [|[k' v'] r IH]; simpl; [reflexivity|].
  intros H. destruct (String.eqb_spec k k'); [subst; tauto|].
  rewrite IH; tauto.
Qed.

Lemma dset_In {V} k (v : V) d x : In x (dset k v d) -> x = (k, v) \/ In x d.
Proof.
  induction d as [|[k' v'] r IH]; simpl; [intuition|].
  destruct (String.eqb_spec k k'); simpl; subst; intuition.
Qed.

Lemma ddel_In {V} k (d : list (string * V)) x : In x (ddel k d) -> In x d.
Proof.
  induction d as [|[k' v'] r IH]; simpl; [intuition|].
  destruct (String.eqb_spec k k'); simpl; intuition.
Qed.

Lemma dget_dset_same {V} k (v : V) d : dget k (dset k v d) = Some v.
Proof.
  induction d as [|[k' v'] r IH]; simpl; [now rewrite String.eqb_refl|].
  destruct (String.eqb k k') eqn:E; simpl; rewrite E; auto.
Qed.

Lemma dget_dset_other {V} k k' (v : V) d : k <> k' -> dget k (dset k' v d) = dget k d.
Proof.
  intros N. induction d as [|[k2 v'] r IH]; simpl.
  - destruct (String.eqb_spec k k'); congruence.
  - destruct (String.eqb_spec k' k2); simpl; destruct (String.eqb_spec k k2); subst; auto; congruence.
Qed.

(** ** Cache invariant *)
Definition cache_ok {V} (c : cache V) : Prop :=
  dkeys (entries c) = queue c /\ NoDup (queue c) /\ length (queue c) <= 17.

Lemma empty_ok {V} : cache_ok (@empty_cache V).
Proof. repeat split; simpl; auto using NoDup_nil; lia. Qed.

Lemma evict_ok {V} (c : cache V) : cache_ok c -> 
  dkeys (entries (evict c)) = queue (evict c) /\ NoDup (queue (evict c)) /\
  length (queue (evict c)) <= 16 /\ incl (queue (evict c)) (queue c).
Proof.
  intros (HK & HN & HL). unfold evict.
  destruct (Nat.ltb_spec 16 (length (queue c))).
  - destruct c as [es q]; simpl in *. destruct es as [|[k v] es]; destruct q as [|k' q]; simpl in *; try discriminate.
    + lia.
    + injection HK as -> HK. inversion HN; subst. rewrite String.eqb_refl. repeat split; auto; try lia. intros x Hx; simpl; auto.
  - repeat split; auto using incl_refl.
Qed.

Lemma store_ok {V} k (v : V) c : cache_ok c -> dget k (entries c) = None -> cache_ok (store k v c).
Proof.
  intros Hc Hk. pose proof (evict_ok c Hc) as (HK & HN & HL & HI).
  apply dget_None in Hk. destruct Hc as (HKc & _). rewrite HKc in Hk.
  assert (Hk' : ~ In k (queue (evict c))) by (intro; apply Hk; apply HI; auto).
  unfold store, cache_ok; simpl. rewrite dset_new by (rewrite HK; auto).
  unfold dkeys in *. rewrite map_app, HK, app_length. simpl.
  repeat split; [|lia].
  apply NoDup_rev in HN. rewrite <- (rev_involutive (_ ++ _)). apply NoDup_rev.
  rewrite rev_app_distr; simpl. constructor; auto. rewrite <- in_rev; auto.
Qed.

Lemma memoized_ok {V S} en dg (f : S -> S * outcome V) st c st' c' r :
  memoized en dg f st c = ((st', c'), r) -> cache_ok c -> cache_ok c'.
Proof.
  unfold memoized. intros H Hc.
  destruct en as [[|]|]; [|destruct (f st); now injection H as <- <- <-..].
  destruct dg as [k|]; [|now injection H as <- <- <-].
  destruct (dget k (entries c)) eqn:E; [now injection H as <- <- <-|].
  destruct (f st) as [s2 [v|e]]; injection H as <- <- <-; auto using store_ok.
Qed.

(** ** Strings *)
Local Open Scope string_scope.

Lemma sapp_assoc a b c : (a ++ b) ++ c = a ++ (b ++ c).
Proof. induction a; simpl; congruence. Qed.
Lemma sapp_nil a : a ++ "" = a.
Proof. induction a; simpl; congruence. Qed.
Lemma sapp_inv a b c : a ++ b = a ++ c -> b = c.
Proof. induction a; simpl; intros H; [auto|injection H; auto]. Qed.
Lemma slen_app a b : String.length (a ++ b) = (String.length a + String.length b)%nat.
Proof. induction a; simpl; auto. Qed.
Lemma sapp_inv_r a b c : a ++ c = b ++ c -> a = b.
Proof.
  revert b. induction a; destruct b; simpl; intros H; auto.
  - apply (f_equal String.length) in H. rewrite ?slen_app in H. simpl in H. rewrite slen_app in H. lia.
  - apply (f_equal String.length) in H. simpl in H. rewrite slen_app in H. lia.
  - injection H as -> H. f_equal; auto.
Qed.

Lemma sapp_split a b x y : a ++ x = b ++ y ->
  (exists c, b = a ++ c /\ x = c ++ y) \/ (exists c, a = b ++ c /\ y = c ++ x).
Proof.
  revert b. induction a as [|ch a IH]; intros b H.
  - left. exists b; auto.
  - destruct b as [|ch' b].
    + right. exists (String ch a). auto.
    + simpl in H. injection H as -> H. destruct (IH _ H) as [(c & -> & ->)|(c & -> & ->)]; [left|right]; exists c; auto.
Qed.

Fixpoint sconcat (l : list string) : string :=
  match l with [] => "" | s :: r => s ++ sconcat r end.

Lemma sconcat_concat l : String.concat "" l = sconcat l.
Proof.
  induction l as [|a r IH]; simpl; auto.
  destruct r; [simpl; now rewrite sapp_nil|]. now rewrite IH.
Qed.

Lemma sconcat_app l m : sconcat (l ++ m) = sconcat l ++ sconcat m.
Proof. induction l; simpl; auto. now rewrite IHl, sapp_assoc. Qed.

From Verif Require Import MemoSpec.

Lemma prefix_free_strip a b x y : prefix_free a b -> a ++ x = b ++ y -> a = b /\ x = y.
Proof.
  intros H E. destruct (sapp_split _ _ _ _ E) as [(c & -> & ->)|(c & -> & ->)].
  - rewrite (H c) by auto. rewrite sapp_nil. auto.
  - rewrite (H c) by auto. rewrite sapp_nil. auto.
Qed.

Lemma suffix_free_strip a b x y : suffix_free a b -> x ++ a = y ++ b -> a = b /\ x = y.
Proof.
  intros H E. destruct (sapp_split _ _ _ _ E) as [(c & -> & ->)|(c & -> & ->)].
  - rewrite (H c) by auto. simpl. rewrite sapp_nil. auto.
  - rewrite (H c) by auto. simpl. rewrite sapp_nil. auto.
Qed.

Lemma Forall2_rev {A} (R : A -> A -> Prop) l m : Forall2 R l m -> Forall2 R (rev l) (rev m).
Proof. induction 1; simpl; auto. apply Forall2_app; auto. Qed.

Lemma prefix_strip_list p p' x y : Forall2 prefix_free p p' ->
  sconcat p ++ x = sconcat p' ++ y -> p = p' /\ x = y.
Proof.
  induction 1; simpl; intros E; auto.
  rewrite !sapp_assoc in E. destruct (prefix_free_strip _ _ _ _ H E) as [-> E'].
  destruct (IHForall2 E') as [-> ->]; auto.
Qed.

Lemma suffix_strip_list s s' : Forall2 suffix_free s s' -> forall x y,
  x ++ sconcat s = y ++ sconcat s' -> s = s' /\ x = y.
Proof.
  intros H. apply Forall2_rev in H. rewrite <- (rev_involutive s), <- (rev_involutive s').
  remember (rev s) as t. remember (rev s') as t'. clear Heqt Heqt'.
  induction H; simpl; intros x0 y0 E.
  - rewrite !sapp_nil in E; auto.
  - rewrite !sconcat_app in E; simpl in E. rewrite !sapp_nil, <- !sapp_assoc in E.
    destruct (suffix_free_strip _ _ _ _ H E) as [-> E'].
    destruct (IHForall2 _ _ E') as [-> ->]; auto.
Qed.

Lemma delimited_inj l m : delimited l m -> sconcat l = sconcat m -> l = m.
Proof.
  intros (p & a & s & p' & a' & s' & -> & -> & HP & HS). rewrite !sconcat_app. simpl.
  intros E. destruct (prefix_strip_list _ _ _ _ HP E) as [-> E2].
  destruct (suffix_strip_list _ _ HS _ _ E2) as [-> ->]. auto.
Qed.

Section Runs.
  Variables (pval dist V : Type).
  Variable show_val : pval -> string.
  Variable show_dist : dist -> string.
  Variable show_args : list dist -> string.
  Variable sha : string -> string.
  Variable func : obj pval -> call dist -> outcome V.
  Notation digest := (digest pval dist show_val show_dist show_args sha).
  Notation token := (token pval dist show_val show_dist show_args sha).
  Notation parts := (parts pval dist show_val show_dist show_args sha).
  Notation run := (run pval dist show_val show_dist show_args sha V func).
  Notation cache_after := (cache_after pval dist show_val show_dist show_args sha V func).

  (** Every cached result was computed by some earlier call with this digest. *)
  Definition backed (past : list (obj pval * call dist)) (c : cache V) : Prop :=
    forall k v, In (k, v) (entries c) ->
      exists o cl, In (o, cl) past /\ digest o cl = Ok k /\ func o cl = Ok v.

  Lemma backed_mono p q c : incl p q -> backed p c -> backed q c.
  Proof. intros I B k v H. destruct (B k v H) as (o & cl & ? & ?). exists o, cl; auto. Qed.

  Lemma backed_store past c k v o cl : backed past c -> In (o, cl) past ->
    digest o cl = Ok k -> func o cl = Ok v -> backed past (store k v c).
  Proof.
    intros B HI HD HF k' v' H. unfold store in H; simpl in H.
    apply dset_In in H. destruct H as [[= -> ->]|H]; [eauto|].
    apply B. unfold evict in H. destruct (16 <? length (queue c))%nat; auto.
    destruct (queue c); auto. simpl in H. eapply ddel_In; eauto.
  Qed.

  Lemma run_correct h : forall o ca past,
    backed past ca ->
    (forall o1 c1 o2 c2 k, In (o1, c1) (past ++ calls_of o h) -> In (o2, c2) (past ++ calls_of o h) ->
       digest o1 c1 = Ok k -> digest o2 c2 = Ok k -> func o1 c1 = func o2 c2) ->
    (forall o1 c1, In (o1, c1) (calls_of o h) -> is_ok (digest o1 c1)) ->
    run o ca h = uncached func o h.
  Proof.
    induction h as [|[n v|n v|pd|c] r IH]; intros o ca past HB HC HD; simpl in *; auto.
    - eapply IH; eauto.
    - eapply IH; eauto.
    - eapply IH; eauto.
    - destruct (memoized (o_memoize o) (digest o c) (fun _ : unit => (tt, func o c)) tt ca)
        as [[? ca'] out] eqn:E.
      unfold uncached; simpl.
      assert (Hout : out = func o c /\ backed (past ++ [(o, c)]) ca').
      { unfold memoized in E.
        assert (HB' : backed (past ++ [(o, c)]) ca).
        { eapply backed_mono; [|exact HB]. intros x; rewrite in_app_iff; auto. }
        destruct (o_memoize o) as [[|]|]; [|injection E as <- <- <-; auto..].
        destruct (HD o c) as [k Hk]; auto. rewrite Hk in E.
        destruct (dget k (entries ca)) eqn:G.
        - injection E as <- <- <-. split; auto.
          apply dget_In in G. destruct (HB _ _ G) as (o' & cl & HI & Hk' & HF).
          rewrite <- HF. eapply HC; eauto; rewrite in_app_iff; simpl; auto.
        - destruct (func o c) eqn:HF; injection E as <- <- <-; split; auto.
          eapply backed_store; eauto. rewrite in_app_iff; simpl; auto. }
      destruct Hout as [-> HB']. simpl. f_equal.
      eapply IH with (past := (past ++ [(o, c)])%list); eauto.
      intros o1 c1 o2 c2 k; rewrite <- !app_assoc; simpl; eauto.
  Qed.

  Lemma cache_after_ok h : forall o ca, cache_ok ca -> cache_ok (cache_after o ca h).
  Proof.
    induction h as [|[n v|n v|pd|c] r IH]; intros o ca H; simpl; auto.
    destruct (memoized (o_memoize o) (digest o c) (fun _ : unit => (tt, func o c)) tt ca)
      as [[? ca'] out] eqn:E. apply IH. eapply memoized_ok; eauto.
  Qed.

  Lemma run_disabled h : forall o ca, o_memoize o <> Some true -> run o ca h = uncached func o h.
  Proof.
    induction h as [|[n v|n v|pd|c] r IH]; intros o ca H; simpl; auto.
    1-3: apply IH; exact H.
    unfold memoized. destruct (o_memoize o) as [[|]|] eqn:E; try congruence;
      unfold uncached; simpl; f_equal; apply IH; rewrite E; discriminate.
  Qed.

  (** ** Decoding the key *)
  Lemma mapM_show ns attrs l :
    mapM (show_attr pval show_val attrs) ns = Ok l ->
    map (fun n => option_map show_val (dget n attrs)) ns = map Some l.
  Proof.
    revert l. induction ns as [|n ns IH]; simpl; intros l; [intros [= <-]; auto|].
    unfold show_attr at 1. destruct (dget n attrs) eqn:E; simpl; [|discriminate].
    destruct (mapM _ ns) eqn:M; simpl; [|discriminate].
    intros [= <-]. simpl. f_equal. auto.
  Qed.

  Lemma map_app_None {A} (l m : list (option A)) : ~ In None (l ++ m) -> ~ In None l /\ ~ In None m.
  Proof. rewrite in_app_iff. tauto. Qed.

  Lemma mapM_present ns attrs : ~ In None (map (fun n => dget n attrs) ns) ->
    is_ok (mapM (show_attr pval show_val attrs) ns).
  Proof.
    induction ns as [|n ns IH]; simpl; intros H; [now exists []|].
    unfold show_attr at 1. destruct (dget n attrs) eqn:E; [|tauto]. simpl.
    destruct IH as [l ->]; auto. simpl. eexists; reflexivity.
  Qed.

  Lemma present_ok o c : declared_present o -> is_ok (digest o c).
  Proof.
    unfold declared_present, declared_values, digest, token, parts, obj_parts. intros H.
    apply map_app_None in H. destruct H as [H1 H2].
    assert (E1 : is_ok (show_params pval show_val (o_param_names o) (o_attrs o))).
    { unfold show_params. destruct (o_param_names o); [apply mapM_present; auto| now exists []]. }
    destruct E1 as [l ->]. simpl.
    destruct (o_pdist o) as [pd|]; simpl; [|eexists; reflexivity].
    assert (E2 : is_ok (show_params pval show_val (pd_param_names pd) (pd_attrs pd))).
    { unfold show_params. destruct (pd_param_names pd); [apply mapM_present; auto| now exists []]. }
    destruct E2 as [m ->]. simpl. eexists; reflexivity.
  Qed.

  Lemma obj_parts_values o l : obj_parts pval show_val o = Ok l ->
    map (option_map show_val) (declared_values o) = map Some l.
  Proof.
    unfold obj_parts, declared_values. rewrite map_app.
    assert (HS : forall names attrs l, show_params pval show_val names attrs = Ok l ->
       map (option_map show_val) (match names with None => [] | Some ns => map (fun n => dget n attrs) ns end)
       = map Some l).
    { intros [ns|] attrs l0 H; simpl in H; [|injection H as <-; auto].
      rewrite map_map. apply mapM_show; auto. }
    destruct (show_params pval show_val (o_param_names o) (o_attrs o)) eqn:E1; simpl; [|discriminate].
    destruct (o_pdist o) as [pd|]; simpl.
    - destruct (show_params pval show_val (pd_param_names pd) (pd_attrs pd)) eqn:E2; simpl; [|discriminate].
      intros [= <-]. rewrite map_app. f_equal; auto.
    - intros [= <-]. rewrite map_app. simpl. f_equal; auto.
  Qed.

  Lemma map_show_inj (l m : list (option pval)) :
    (forall a b, show_val a = show_val b -> a = b) ->
    map (option_map show_val) l = map (option_map show_val) m -> l = m.
  Proof.
    intros HI. revert m. induction l as [|a l IH]; destruct m as [|b m]; simpl; try discriminate; auto.
    intros [= H1 H2]. f_equal; auto. destruct a, b; simpl in H1; try discriminate; auto.
    injection H1 as H1. f_equal; auto.
  Qed.

  Lemma omap_ok {A B} (f : A -> B) x y : omap f x = Ok y -> exists a, x = Ok a /\ y = f a.
  Proof. destruct x; simpl; [intros [= <-]; eauto|discriminate]. Qed.

  (** All strings handed to sha256 by the calls of a history. *)
  Definition hashed (o : obj pval) (h : list (event pval dist)) : list string :=
    flat_map (fun oc => c_bytes (snd oc) ::
                        match token (fst oc) (snd oc) with Ok t => [t] | Err _ => [] end)
             (calls_of o h).

  Theorem memo_transparent o h :
    depends_only_on_declared func ->
    (forall a b, show_val a = show_val b -> a = b) ->
    (forall a b, show_dist a = show_dist b -> a = b) ->
    injective_on show_args (map (fun oc => c_args (snd oc)) (calls_of o h)) ->
    injective_on sha (hashed o h) ->
    (forall o1 c1, In (o1, c1) (calls_of o h) -> declared_present o1) ->
    (forall o1 c1 d, In (o1, c1) (calls_of o h) -> c_distance c1 = Some d -> show_dist d <> "0") ->
    (forall o1 c1 o2 c2 l1 l2, In (o1, c1) (calls_of o h) -> In (o2, c2) (calls_of o h) ->
       parts o1 c1 = Ok l1 -> parts o2 c2 = Ok l2 ->
       length (declared_values o1) = length (declared_values o2) /\ delimited l1 l2) ->
    run o empty_cache h = uncached func o h.
  Proof.
    intros HF SV SD SA HS HP HZ HDl.
    apply run_correct with (past := []).
    - intros k v [].
    - simpl. intros o1 c1 o2 c2 k I1 I2 D1 D2.
      unfold MemoModel.digest in D1, D2.
      destruct (omap_ok _ _ _ D1) as (t1 & T1 & ->).
      destruct (omap_ok _ _ _ D2) as (t2 & T2 & E).
      assert (t1 = t2).
      { apply HS; auto.
        - unfold hashed. apply in_flat_map. exists (o1, c1). split; auto. simpl. rewrite T1. simpl; auto.
        - unfold hashed. apply in_flat_map. exists (o2, c2). split; auto. simpl. rewrite T2. simpl; auto. }
      subst t2. unfold MemoModel.token in T1, T2.
      destruct (omap_ok _ _ _ T1) as (l1 & P1 & E1).
      destruct (omap_ok _ _ _ T2) as (l2 & P2 & E2).
      rewrite sconcat_concat in E1, E2. subst t1.
      destruct (HDl _ _ _ _ _ _ I1 I2 P1 P2) as [HL HDe].
      assert (l1 = l2) by (apply delimited_inj; auto). subst l2.
      unfold MemoModel.parts in P1, P2.
      destruct (omap_ok _ _ _ P1) as (q1 & Q1 & ->).
      destruct (omap_ok _ _ _ P2) as (q2 & Q2 & EQ).
      pose proof (obj_parts_values _ _ Q1) as V1. pose proof (obj_parts_values _ _ Q2) as V2.
      assert (LQ : length q1 = length q2).
      { apply (f_equal (@length _)) in V1, V2. rewrite !map_length in V1, V2. congruence. }
      assert (EC : call_parts dist show_dist show_args sha c1 = call_parts dist show_dist show_args sha c2 /\ q1 = q2).
      { assert (forall (A:Type) (a b c d : list A), length b = length d -> (a ++ b = c ++ d)%list -> a = c /\ b = d) as HA.
        { intros A a. induction a; destruct c; simpl; intros; subst; auto.
          - simpl in H. rewrite app_length in H. lia.
          - simpl in H. rewrite app_length in H. lia.
          - injection H0 as -> H0. destruct (IHa _ _ _ H H0); subst; auto. }
        apply HA; auto. }
      destruct EC as [EC ->].
      assert (c1 = c2).
      { unfold call_parts in EC. simpl in EC. injection EC as EA EB ED EE.
        destruct c1 as [b1 u1 d1 a1], c2 as [b2 u2 d2 a2]; simpl in *.
        assert (b1 = b2).
        { apply HS; auto; unfold hashed; apply in_flat_map;
            [exists (o1, mkCall b1 u1 d1 a1) | exists (o2, mkCall b2 u2 d2 a2)]; split; auto; simpl; auto. }
        assert (d1 = d2).
        { destruct d1 as [d1|], d2 as [d2|]; auto.
          - f_equal; auto.
          - exfalso. eapply (HZ _ _ d1 I1); eauto.
          - exfalso. eapply (HZ _ _ d2 I2); eauto. }
        assert (a1 = a2).
        { destruct a1, a2; auto; try discriminate. injection EE as EE. apply SA; auto.
          - exact (in_map (fun oc => c_args (snd oc)) _ _ I1).
          - exact (in_map (fun oc => c_args (snd oc)) _ _ I2). }
        congruence. }
      subst c2. apply HF. apply map_show_inj with (1 := SV). congruence.
    - intros o1 c1 I. apply present_ok. eapply HP; eauto.
  Qed.

  (** ** Histories that vary a single declared parameter *)
  Definition one_diff (l m : list string) : Prop :=
    exists p a b s, l = (p ++ a :: s)%list /\ m = (p ++ b :: s)%list.

  Lemma Forall2_refl {A} (R : A -> A -> Prop) l : (forall x, R x x) -> Forall2 R l l.
  Proof. intros H; induction l; auto. Qed.

  Lemma prefix_free_refl a : prefix_free a a.
  Proof. intros c [H|H]; rewrite <- (sapp_nil a) in H at 1; apply sapp_inv in H; auto. Qed.
  Lemma suffix_free_refl a : suffix_free a a.
  Proof.
    intros c [H|H]; change a with ("" ++ a) in H at 1; apply sapp_inv_r in H; auto.
  Qed.

  Lemma one_diff_delimited l m : one_diff l m -> delimited l m.
  Proof.
    intros (p & a & b & s & -> & ->). exists p, a, s, p, b, s.
    repeat split; auto using Forall2_refl, prefix_free_refl, suffix_free_refl.
  Qed.

  Lemma mapM_app {A B} (f : A -> outcome B) l m :
    mapM f (l ++ m) = obind (mapM f l) (fun x => obind (mapM f m) (fun y => Ok (x ++ y)%list)).
  Proof.
    induction l; simpl; [destruct (mapM f m); auto|].
    destruct (f a); simpl; auto. rewrite IHl. destruct (mapM f l); simpl; auto.
    destruct (mapM f m); simpl; auto.
  Qed.

  Lemma mapM_ext {A B} (f g : A -> outcome B) l : (forall x, In x l -> f x = g x) -> mapM f l = mapM g l.
  Proof.
    induction l; simpl; intros H; auto. rewrite (H a) by auto. rewrite IHl by auto. auto.
  Qed.

  Lemma mapM_one_diff ns n at1 at2 l1 l2 : NoDup ns -> In n ns ->
    (forall m, m <> n -> dget m at1 = dget m at2) ->
    mapM (show_attr pval show_val at1) ns = Ok l1 ->
    mapM (show_attr pval show_val at2) ns = Ok l2 -> one_diff l1 l2.
  Proof.
    intros ND HI HE. apply in_split in HI. destruct HI as (n1 & n2 & ->).
    rewrite !mapM_app.
    apply NoDup_remove_2 in ND. rewrite in_app_iff in ND.
    rewrite (mapM_ext (show_attr pval show_val at1) (show_attr pval show_val at2) n1)
      by (intros x Hx; unfold show_attr; rewrite HE; auto; intros ->; tauto).
    simpl.
    rewrite (mapM_ext (show_attr pval show_val at1) (show_attr pval show_val at2) n2)
      by (intros x Hx; unfold show_attr; rewrite HE; auto; intros ->; tauto).
    destruct (mapM _ n1) as [p|]; simpl; [|discriminate].
    destruct (mapM _ n2) as [s|]; simpl.
    - destruct (show_attr _ _ at1 n) as [a|]; simpl; [|discriminate].
      destruct (show_attr _ _ at2 n) as [b|]; simpl; [|discriminate].
      intros [= <-] [= <-]. exists p, a, b, s; auto.
    - destruct (show_attr _ _ at1 n) as [a|]; simpl; discriminate.
  Qed.

  Lemma scan_correct o h (same : obj pval -> Prop) c :
    depends_only_on_declared func ->
    (forall a b, show_val a = show_val b -> a = b) ->
    injective_on sha (hashed o h) ->
    (forall o1 c1, In (o1, c1) (calls_of o h) -> c1 = c /\ declared_present o1 /\ same o1) ->
    (forall o1 o2 l1 l2, same o1 -> same o2 ->
        obj_parts pval show_val o1 = Ok l1 -> obj_parts pval show_val o2 = Ok l2 -> one_diff l1 l2) ->
    run o empty_cache h = uncached func o h.
  Proof.
    intros HF SV HS HC HO. apply run_correct with (past := []).
    - intros k v [].
    - simpl. intros o1 c1 o2 c2 k I1 I2 D1 D2.
      unfold MemoModel.digest in D1, D2.
      destruct (omap_ok _ _ _ D1) as (t1 & T1 & ->).
      destruct (omap_ok _ _ _ D2) as (t2 & T2 & E).
      assert (t1 = t2).
      { apply HS; auto.
        - unfold hashed. apply in_flat_map. exists (o1, c1). split; auto. simpl. rewrite T1. simpl; auto.
        - unfold hashed. apply in_flat_map. exists (o2, c2). split; auto. simpl. rewrite T2. simpl; auto. }
      subst t2. unfold MemoModel.token in T1, T2.
      destruct (omap_ok _ _ _ T1) as (l1 & P1 & E1).
      destruct (omap_ok _ _ _ T2) as (l2 & P2 & E2).
      rewrite sconcat_concat in E1, E2. subst t1.
      unfold MemoModel.parts in P1, P2.
      destruct (omap_ok _ _ _ P1) as (q1 & Q1 & ->).
      destruct (omap_ok _ _ _ P2) as (q2 & Q2 & ->).
      destruct (HC _ _ I1) as (-> & _ & S1). destruct (HC _ _ I2) as (-> & _ & S2).
      rewrite !sconcat_app in E2. apply sapp_inv in E2.
      assert (q1 = q2).
      { apply delimited_inj; auto. apply one_diff_delimited. exact (HO _ _ _ _ S1 S2 Q1 Q2). }
      subst q2.
      apply HF. apply map_show_inj with (1 := SV).
      rewrite (obj_parts_values _ _ Q1), (obj_parts_values _ _ Q2); auto.
    - intros o1 c1 I. apply present_ok. eapply HC; eauto.
  Qed.

  Lemma scan_own_calls n (c : call dist) (h : list (event pval dist)) : Forall (fun e => (exists v, e = SetAttr n v) \/ e = Call c) h ->
    forall o o1 c1, In (o1, c1) (calls_of o h) ->
      c1 = c /\ o_param_names o1 = o_param_names o /\ o_pdist o1 = o_pdist o /\
      (forall m, m <> n -> dget m (o_attrs o1) = dget m (o_attrs o)) /\
      (dget n (o_attrs o) <> None -> dget n (o_attrs o1) <> None).
  Proof.
    induction 1 as [|e h He Hh IH]; simpl; intros o o1 c1 HI; [tauto|].
    destruct He as [[v ->]| -> ].
    - destruct (IH _ _ _ HI) as (A & B & C & D & F). simpl in *.
      repeat split; auto.
      + intros m Hm. rewrite D by auto. apply dget_dset_other; auto.
      + intros _. apply F. rewrite dget_dset_same. discriminate.
    - destruct HI as [[= <- <-]|HI]; auto.
  Qed.

  Lemma scan_pd_calls n (c : call dist) (h : list (event pval dist)) : Forall (fun e => (exists v, e = SetPdAttr n v) \/ e = Call c) h ->
    forall o o1 c1 pd, o_pdist o = Some pd -> In (o1, c1) (calls_of o h) ->
      c1 = c /\ o_param_names o1 = o_param_names o /\ o_attrs o1 = o_attrs o /\
      exists pd1, o_pdist o1 = Some pd1 /\ pd_param_names pd1 = pd_param_names pd /\
      (forall m, m <> n -> dget m (pd_attrs pd1) = dget m (pd_attrs pd)) /\
      (dget n (pd_attrs pd) <> None -> dget n (pd_attrs pd1) <> None).
  Proof.
    induction 1 as [|e h He Hh IH]; simpl; intros o o1 c1 pd HPD HI; [tauto|].
    destruct He as [[v ->]| -> ].
    - assert (HPD2 : o_pdist (set_pd_attr n v o) = Some (mkPd (pd_param_names pd) (dset n v (pd_attrs pd)))).
      { unfold set_pd_attr; simpl. now rewrite HPD. }
      destruct (IH _ _ _ _ HPD2 HI) as (A & B & C & pd1 & D & F & G & K). simpl in *.
      repeat split; auto. exists pd1. repeat split; auto.
      + intros m Hm. rewrite G by auto. apply dget_dset_other; auto.
      + intros _. apply K. rewrite dget_dset_same. discriminate.
    - destruct HI as [[= <- <-]|HI].
      + repeat split; auto. exists pd; auto.
      + eapply IH; eauto.
  Qed.

  Lemma Forall_notNone {A} (l : list (option A)) : ~ In None l <-> Forall (fun x => x <> None) l.
  Proof.
    rewrite Forall_forall. split; [intros H x Hx ->; auto | intros H Hx; exact (H _ Hx eq_refl)].
  Qed.

  Lemma present_change n (at1 at0 : list (string * pval)) ns :
    (forall m, m <> n -> dget m at1 = dget m at0) ->
    (dget n at0 <> None -> dget n at1 <> None) ->
    ~ In None (map (fun m => dget m at0) ns) -> ~ In None (map (fun m => dget m at1) ns).
  Proof.
    intros H1 H2 H3 HI. apply H3. apply in_map_iff in HI. destruct HI as (m & Hm & Hin).
    apply in_map_iff. exists m. split; auto.
    destruct (string_dec m n) as [->|N]; [|rewrite <- H1; auto].
    destruct (dget n at0) eqn:E; auto. exfalso. apply H2; [discriminate|auto].
  Qed.

  Theorem scan_own o h n c ns :
    depends_only_on_declared func ->
    (forall a b, show_val a = show_val b -> a = b) ->
    injective_on sha (hashed o h) ->
    o_param_names o = Some ns -> NoDup ns -> In n ns -> declared_present o ->
    Forall (fun e => (exists v, e = SetAttr n v) \/ e = Call c) h ->
    run o empty_cache h = uncached func o h.
  Proof.
    intros HF SV HS HN ND HI HP HA.
    apply scan_correct with (c := c)
      (same := fun o1 => o_param_names o1 = o_param_names o /\ o_pdist o1 = o_pdist o /\
                 (forall m, m <> n -> dget m (o_attrs o1) = dget m (o_attrs o))); auto.
    - intros o1 c1 H1. destruct (scan_own_calls _ _ _ HA _ _ _ H1) as (A & B & C & D & E).
      repeat split; auto.
      revert HP. unfold declared_present, declared_values. rewrite B, C, HN.
      intros HP. apply map_app_None in HP. destruct HP as [HP1 HP2].
      rewrite in_app_iff. intros [H|H]; [|apply HP2; exact H].
      exact (present_change n (o_attrs o1) (o_attrs o) ns D E HP1 H).
    - intros o1 o2 l1 l2 (N1 & P1 & G1) (N2 & P2 & G2). unfold obj_parts.
      rewrite N1, N2, P1, P2, HN. simpl.
      destruct (mapM (show_attr pval show_val (o_attrs o1)) ns) as [m1|] eqn:M1; simpl; [|discriminate].
      destruct (mapM (show_attr pval show_val (o_attrs o2)) ns) as [m2|] eqn:M2; simpl; [|discriminate].
      destruct (match o_pdist o with None => _ | Some _ => _ end) as [q|]; simpl; [|discriminate].
      intros [= <-] [= <-].
      destruct (mapM_one_diff ns n _ _ _ _ ND HI (fun m Hm => eq_trans (G1 m Hm) (eq_sym (G2 m Hm))) M1 M2)
        as (p & a & b & s & -> & ->).
      exists p, a, b, (s ++ q)%list. rewrite <- !app_assoc; auto.
  Qed.

  Theorem scan_pd o h n c pd ns :
    depends_only_on_declared func ->
    (forall a b, show_val a = show_val b -> a = b) ->
    injective_on sha (hashed o h) ->
    o_pdist o = Some pd -> pd_param_names pd = Some ns -> NoDup ns -> In n ns -> declared_present o ->
    Forall (fun e => (exists v, e = SetPdAttr n v) \/ e = Call c) h ->
    run o empty_cache h = uncached func o h.
  Proof.
    intros HF SV HS HPD HN ND HI HP HA.
    apply scan_correct with (c := c)
      (same := fun o1 => o_param_names o1 = o_param_names o /\ o_attrs o1 = o_attrs o /\
                 exists pd1, o_pdist o1 = Some pd1 /\ pd_param_names pd1 = Some ns /\
                 (forall m, m <> n -> dget m (pd_attrs pd1) = dget m (pd_attrs pd))); auto.
    - intros o1 c1 H1. destruct (scan_pd_calls _ _ _ HA _ _ _ _ HPD H1) as (A & B & C & pd1 & D & E & F & G).
      split; auto. split.
      + revert HP. unfold declared_present, declared_values. rewrite B, C, D, E, HPD, HN.
        intros HP. apply map_app_None in HP. destruct HP as [HP1 HP2].
        rewrite in_app_iff. intros [H|H]; [apply HP1; exact H|].
        exact (present_change n (pd_attrs pd1) (pd_attrs pd) ns F G HP2 H).
      + repeat split; auto. exists pd1. repeat split; auto. congruence.
    - intros o1 o2 l1 l2 (N1 & A1 & q1 & Q1 & R1 & G1) (N2 & A2 & q2 & Q2 & R2 & G2). unfold obj_parts.
      rewrite N1, N2, A1, A2, Q1, Q2, R1, R2.
      destruct (show_params pval show_val (o_param_names o) (o_attrs o)) as [q|]; simpl; [|discriminate].
      destruct (mapM (show_attr pval show_val (pd_attrs q1)) ns) as [m1|] eqn:M1; simpl; [|discriminate].
      destruct (mapM (show_attr pval show_val (pd_attrs q2)) ns) as [m2|] eqn:M2; simpl; [|discriminate].
      intros [= <-] [= <-].
      destruct (mapM_one_diff ns n _ _ _ _ ND HI (fun m Hm => eq_trans (G1 m Hm) (eq_sym (G2 m Hm))) M1 M2)
        as (p & a & b & s & -> & ->).
      exists (q ++ p)%list, a, b, s. rewrite <- !app_assoc; auto.
  Qed.

  Lemma digest_sconcat o c l : obj_parts pval show_val o = Ok l ->
    digest o c = Ok (sha (sconcat (call_parts dist show_dist show_args sha c) ++ sconcat l)).
  Proof.
    intros H. unfold MemoModel.digest, MemoModel.token, MemoModel.parts. rewrite H.
    unfold omap. rewrite sconcat_concat, sconcat_app. reflexivity.
  Qed.
End Runs.
