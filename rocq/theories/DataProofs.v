(** Proofs about data-table validation. *)
From Coq Require Import Reals List ZArith Bool String Arith Permutation Sorted Lra Lia.
From Verif Require Import Outcome TrapzModel SimplexModel UnitsModel DataModel DataSpec.
Import ListNotations.
Local Open Scope R_scope.

(** ** Generic *)
Lemma obind_ok {A B} (x : outcome A) (f : A -> outcome B) b : obind x f = Ok b -> exists a, x = Ok a /\ f a = Ok b.
Proof. destruct x; cbn; [eauto|discriminate]. Qed.
Lemma omap_ok {A B} (f : A -> B) (x : outcome A) b : omap f x = Ok b -> exists a, x = Ok a /\ f a = b.
Proof. destruct x; cbn; [intros H; inversion H; eauto|discriminate]. Qed.
Ltac ob H := let a := fresh "a" in let E := fresh "E" in apply obind_ok in H; destruct H as (a & E & H).
Tactic Notation "obn" hyp(H) ident(a) ident(E) := apply obind_ok in H; destruct H as (a & E & H).
Ltac inv H := inversion H; subst; clear H.

Lemma dims_eqb_eq a b : dims_eqb a b = true <-> a = b.
Proof.
  destruct a as [[e l] t], b as [[e' l'] t']. unfold dims_eqb. rewrite !andb_true_iff, !Z.eqb_eq.
  split; [intros [[-> ->] ->]; reflexivity|intros H; inversion H; auto].
Qed.
Lemma dims_eqb_refl a : dims_eqb a a = true.
Proof. apply dims_eqb_eq; reflexivity. Qed.

Lemma nth_map0 {A} (f : A -> R) l i (d : A) : (i < List.length l)%nat -> nth i (map f l) 0 = f (nth i l d).
Proof. intros H. rewrite (nth_indep _ 0 (f d)) by (rewrite map_length; exact H). apply map_nth. Qed.
Lemma nth_map_gen {A B} (f : A -> B) l i (d : A) e : (i < List.length l)%nat -> nth i (map f l) e = f (nth i l d).
Proof. intros H. rewrite (nth_indep _ e (f d)) by (rewrite map_length; exact H). apply map_nth. Qed.
Lemma zipw_length (f : R -> R -> R) a b : List.length a = List.length b -> List.length (zipw f a b) = List.length a.
Proof. intros H. unfold zipw. rewrite map_length, combine_length, H. lia. Qed.
Lemma nth_zipw (f : R -> R -> R) a b i : List.length a = List.length b -> (i < List.length a)%nat ->
  nth i (zipw f a b) 0 = f (nth i a 0) (nth i b 0).
Proof.
  intros H L. unfold zipw. rewrite (nth_map_gen _ _ _ (0, 0)) by (rewrite combine_length; lia).
  rewrite combine_nth by exact H. reflexivity.
Qed.
Lemma nth_repeat_lt {A} (a d : A) n i : (i < n)%nat -> nth i (repeat a n) d = a.
Proof. revert i. induction n; intros [|i] H; cbn; try lia; auto. apply IHn. lia. Qed.

(** ** Units *)
Lemma qto_ok u q r : qto u q = Ok r -> dim (qunit q) = dim u /\ qunit r = u /\ List.length (vals r) = List.length (vals q) /\
  (0 < scale u -> forall i, phys r i = phys q i).
Proof.
  unfold qto. destruct (dims_eqb (dim (qunit q)) (dim u)) eqn:E; [|discriminate]. intros H; inv H.
  cbn [qunit vals]. apply dims_eqb_eq in E. repeat split; auto.
  - apply map_length.
  - intros P i. unfold phys; cbn [vals qunit].
    destruct (lt_dec i (List.length (vals q))) as [L|L].
    + rewrite (nth_map0 _ _ _ 0) by exact L. field. lra.
    + rewrite !nth_overflow; try rewrite map_length; try lia. ring.
Qed.
Lemma qto_is_ok u q : is_ok (qto u q) <-> dim (qunit q) = dim u.
Proof.
  unfold qto, is_ok. destruct (dims_eqb (dim (qunit q)) (dim u)) eqn:E.
  - apply dims_eqb_eq in E. split; eauto.
  - split; [intros (a & H); discriminate|]. intros H. apply dims_eqb_eq in H. congruence.
Qed.
Lemma phys_qmul a b i : List.length (vals a) = List.length (vals b) -> (i < List.length (vals a))%nat ->
  phys (qmul a b) i = phys a i * phys b i.
Proof. intros H L. unfold phys, qmul. cbn [vals qunit umul scale]. rewrite nth_zipw by auto. ring. Qed.

Section P.
Variable nu : naima_units.
Hypothesis NU : positive_units nu.

(** dimensions of the target unit: the energy exponent asked for, and the same
    length and time exponents (for the four supported flux types) *)
Definition target_dims (sed : bool) (d : dims) : dims := (if sed then 1 else -1, length_exp d, -1)%Z.

Lemma sed_conversion_spec e mu sed : flux_like (dim mu) -> dim (qunit e) = d_energy ->
  exists fu sf, sed_conversion nu e mu sed = Ok (fu, sf) /\ 0 < scale fu /\ dim fu = target_dims sed (dim mu) /\
    List.length (vals sf) = List.length (vals e) /\
    dmul (dim mu) (dim (qunit sf)) = dim fu /\
    (forall i, (i < List.length (vals e))%nat -> phys sf i = sed_factor sed (dim mu) (phys e i)).
Proof.
  intros HF HE. destruct NU as (P1 & P2 & P3 & P4).
  assert (Q1 : 0 < u_erg nu / u_s nu) by (apply Rdiv_lt_0_compat; auto).
  assert (Q2 : 0 < u_erg nu / u_s nu / u_cm nu ^ 2) by (apply Rdiv_lt_0_compat; auto; apply pow_lt; auto).
  assert (Q3 : 0 < / (u_s nu * u_TeV nu)) by (apply Rinv_0_lt_compat, Rmult_lt_0_compat; auto).
  assert (Q4 : 0 < / (u_s nu * u_TeV nu * u_cm nu ^ 2)) by (apply Rinv_0_lt_compat, Rmult_lt_0_compat; [apply Rmult_lt_0_compat; auto|apply pow_lt; auto]).
  unfold flux_like in HF. destruct mu as [ms md]; cbn [dim] in HF.
  destruct e as [ev [es ed]]; cbn [dim qunit] in HE; subst ed.
  destruct sed; destruct HF as [ -> | [ -> | [ -> | -> ] ] ];
  (match goal with |- exists fu sf, ?s = _ /\ _ => let s' := eval cbv [sed_conversion dim qunit scale vals is_integral is_differential dims_eqb d_flux d_diff_flux d_power d_diff_power d_energy d_diff_energy d_diff_density Z.eqb Pos.eqb andb orb negb obind snd dpow Z.mul Pos.mul] in s in change s with s' end;
   do 2 eexists; (split; [reflexivity|]); (split; [assumption|]); (split; [reflexivity|]); cbn [vals qunit dim dmul];
   (split; [apply map_length|]); (split; [reflexivity|]);
   intros i L; unfold phys; cbn [vals qunit scale]; rewrite (nth_map0 _ _ _ 0) by exact L; unfold sed_factor; cbn [energy_exp fst dim d_flux d_diff_flux d_power d_diff_power Z.eqb Pos.eqb];
   try ring; rewrite ?Rpow_mult_distr, ?Rinv_mult; ring).
Qed.

(** ** Conversion of a validated table *)
Definition vwf (v : vtab) (n : nat) : Prop :=
  List.length (vals (v_e v)) = n /\ List.length (vals (v_f v)) = n /\ List.length (vals (v_flo v)) = n /\ List.length (vals (v_fhi v)) = n /\
  dim (qunit (v_e v)) = d_energy /\ flux_like (dim (qunit (v_f v))) /\
  dim (qunit (v_elo v)) = d_energy /\ dim (qunit (v_ehi v)) = d_energy /\
  0 < scale (qunit (v_e v)) /\ 0 < scale (qunit (v_elo v)) /\ 0 < scale (qunit (v_ehi v)).

Lemma conv_col fu sf q n : List.length (vals q) = n -> List.length (vals sf) = n -> 0 < scale fu ->
  forall r, qto fu (qmul q sf) = Ok r -> qunit r = fu /\ List.length (vals r) = n /\ dmul (dim (qunit q)) (dim (qunit sf)) = dim fu /\
  forall i, (i < n)%nat -> phys r i = phys q i * phys sf i.
Proof.
  intros L1 L2 P r H. apply qto_ok in H. destruct H as (A & B & C & D).
  split; [exact B|]. split; [rewrite C; unfold qmul; cbn [vals]; rewrite zipw_length; congruence|].
  split; [exact A|]. intros i L. rewrite D by exact P. apply phys_qmul; [congruence|lia].
Qed.

Lemma dt_sed_spec v sed n v' : vwf v n -> dt_sed_conversion nu v sed = Ok v' ->
  v_e v' = v_e v /\ v_grp v' = v_grp v /\ v_elo v' = v_elo v /\ v_ehi v' = v_ehi v /\ v_ul v' = v_ul v /\ v_cl v' = v_cl v /\
  (exists fu, qunit (v_f v') = fu /\ qunit (v_flo v') = fu /\ qunit (v_fhi v') = fu /\ 0 < scale fu /\ dim fu = target_dims sed (dim (qunit (v_f v)))) /\
  List.length (vals (v_f v')) = n /\ List.length (vals (v_flo v')) = n /\ List.length (vals (v_fhi v')) = n /\
  (dim (qunit (v_flo v)) = dim (qunit (v_f v)) /\ dim (qunit (v_fhi v)) = dim (qunit (v_f v))) /\
  forall i, (i < n)%nat -> let k := sed_factor sed (dim (qunit (v_f v))) (phys (v_e v) i) in
    phys (v_f v') i = k * phys (v_f v) i /\ phys (v_flo v') i = k * phys (v_flo v) i /\ phys (v_fhi v') i = k * phys (v_fhi v) i.
Proof.
  intros (L1 & L2 & L3 & L4 & DE & DF & _) H. unfold dt_sed_conversion in H.
  destruct (sed_conversion_spec (v_e v) (qunit (v_f v)) sed DF DE) as (fu & sf & S & P & D & L & DM & F).
  rewrite S in H. cbn [obind fst snd] in H. ob H. ob H. ob H. inv H. cbn [v_e v_f v_flo v_fhi v_grp v_elo v_ehi v_ul v_cl].
  destruct (conv_col fu sf (v_f v) (List.length (vals (v_e v))) L2 L P _ E) as (A1 & A2 & A3 & A4).
  destruct (conv_col fu sf (v_flo v) (List.length (vals (v_e v))) L3 L P _ E0) as (B1 & B2 & B3 & B4).
  destruct (conv_col fu sf (v_fhi v) (List.length (vals (v_e v))) L4 L P _ E1) as (C1 & C2 & C3 & C4).
  repeat (split; [reflexivity|]).
  split; [exists fu; auto|]. repeat (split; [assumption|]).
  assert (CANC : forall a b c : dims, dmul a c = dmul b c -> a = b).
  { intros [[e l] t] [[e' l'] t'] [[e'' l''] t'']. cbn [dmul]. intros EQ. inversion EQ. repeat f_equal; lia. }
  split. { split; eapply CANC; rewrite ?B3, ?C3; symmetry; exact DM. }
  intros i Li. cbv zeta. rewrite A4, B4, C4, !F by exact Li. repeat split; ring.
Qed.

Lemma dt_sed_ok v sed n : vwf v n -> dim (qunit (v_flo v)) = dim (qunit (v_f v)) -> dim (qunit (v_fhi v)) = dim (qunit (v_f v)) ->
  is_ok (dt_sed_conversion nu v sed).
Proof.
  intros (L1 & L2 & L3 & L4 & DE & DF & _) EL EH. unfold dt_sed_conversion.
  destruct (sed_conversion_spec (v_e v) (qunit (v_f v)) sed DF DE) as (fu & sf & S & P & D & L & DM & F).
  rewrite S. cbn [obind fst snd].
  assert (G : forall q, dim (qunit q) = dim (qunit (v_f v)) -> is_ok (qto fu (qmul q sf))).
  { intros q Hq. apply qto_is_ok. cbn [qmul qunit umul dim]. rewrite Hq. exact DM. }
  destruct (G (v_f v) eq_refl) as (a & Ea). destruct (G (v_flo v) EL) as (b & Eb). destruct (G (v_fhi v) EH) as (c & Ec).
  rewrite Ea. cbn [obind]. rewrite Eb. cbn [obind]. rewrite Ec. cbn [obind]. eexists; reflexivity.
Qed.
End P.
