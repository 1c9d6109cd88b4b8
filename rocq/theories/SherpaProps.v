(** Properties of the Sherpa wrappers and of keyword arguments: C61, C85, C86. *)
From Coq Require Import Reals List Bool String Arith Lra Lia Sorted.
From Coquelicot Require Import Coquelicot.
From Verif Require Import Outcome TrapzModel TrapzSpec TrapzProofs TrapzProps SpectralModel SherpaModel.
Import ListNotations.
Local Open Scope R_scope.

(** ** C61 *)
(** bins [xlo_i, xhi_i], each starting where the one before ends, of positive energy *)
Definition contiguous (xlo xhi : list R) : Prop :=
  xlo <> [] /\ List.length xhi = List.length xlo /\
  (forall i, (i < List.length xlo)%nat -> 0 < nth i xlo 0 < nth i xhi 0) /\
  (forall i, (S i < List.length xlo)%nat -> nth (S i) xlo 0 = nth i xhi 0).

Lemma last_nth (l : list R) : last l 0 = nth (Nat.pred (List.length l)) l 0.
Proof. induction l as [|a [|b l] IH]; [reflexivity|reflexivity|].
  change (last (a :: b :: l) 0) with (last (b :: l) 0). rewrite IH. reflexivity. Qed.
Lemma merged_bin xlo xhi i : contiguous xlo xhi -> (i < List.length xlo)%nat ->
  nth i (mergex xlo xhi) 0 = nth i xlo 0 /\ nth (S i) (mergex xlo xhi) 0 = nth i xhi 0.
Proof.
  intros (NE & LH & _ & CT) Hi. unfold mergex. split; [apply app_nth1; exact Hi|].
  destruct (Nat.eq_dec (S i) (List.length xlo)) as [E|N].
  - rewrite app_nth2 by lia. replace (S i - List.length xlo)%nat with 0%nat by lia. cbn [nth]. rewrite last_nth, LH, <- E. reflexivity.
  - rewrite app_nth1 by lia. apply CT. lia.
Qed.
Lemma calc_nth flux xlo xhi i : contiguous xlo xhi -> (i < List.length xlo)%nat ->
  nth i (calc flux xlo (Some xhi)) 0 = trapz_loglog [flux (nth i xlo 0); flux (nth i xhi 0)] [nth i xlo 0; nth i xhi 0].
Proof.
  intros C Hi. unfold calc. cbv zeta. destruct (merged_bin _ _ i C Hi) as (A & B).
  assert (LM : List.length (mergex xlo xhi) = S (List.length xlo)) by (unfold mergex; rewrite app_length; cbn; lia).
  rewrite intervals_nth by (rewrite ?map_length; lia).
  assert (M : forall j, (j < List.length (mergex xlo xhi))%nat -> nth j (map flux (mergex xlo xhi)) 0 = flux (nth j (mergex xlo xhi) 0))
    by (intros j Hj; rewrite (nth_indep _ 0 (flux 0)) by (rewrite map_length; exact Hj); apply map_nth).
  rewrite !M, A, B by lia. unfold trapz_loglog. cbn [trapz_intervals fold_right]. ring.
Qed.
(** One value per bin, which depends on the model only through its values at the two ends
    of this bin, ... *)
Theorem C61_one_value_per_bin : forall flux xlo xhi, contiguous xlo xhi ->
  List.length (calc flux xlo (Some xhi)) = List.length xlo /\
  (forall i, (i < List.length xlo)%nat ->
     nth i (calc flux xlo (Some xhi)) 0 = trapz_loglog [flux (nth i xlo 0); flux (nth i xhi 0)] [nth i xlo 0; nth i xhi 0]).
Proof.
  intros flux xlo xhi C. split; [|intros i Hi; apply calc_nth; assumption].
  unfold calc. cbv zeta. rewrite intervals_length by (rewrite map_length; reflexivity). rewrite map_length. unfold mergex. rewrite app_length. cbn. lia.
Qed.
(** ... and is the integral of the power law through the two values, ... *)
Theorem C61_bin_is_integral : forall flux xlo xhi i, contiguous xlo xhi -> (i < List.length xlo)%nat ->
  let lo := nth i xlo 0 in let hi := nth i xhi 0 in 0 < flux lo -> 0 < flux hi -> good_index (ln (flux hi / flux lo) / ln (hi / lo)) ->
  exists f, f lo = flux lo /\ f hi = flux hi /\ (forall x, 0 < x -> f x = flux lo * Rpower (x / lo) (ln (flux hi / flux lo) / ln (hi / lo))) /\
    is_RInt f lo hi (nth i (calc flux xlo (Some xhi)) 0).
Proof.
  intros flux xlo xhi i C Hi lo hi PL PH G. pose proof C as (NE & LH & PO & CT). specialize (PO i Hi).
  destruct (C11_bin_is_loglog_interpolant lo hi (flux lo) (flux hi) (proj1 PO) (proj2 PO) PL PH G) as (A & B & D).
  exists (through lo hi (flux lo) (flux hi)). split; [exact A|]. split; [exact B|]. split.
  - intros x _. reflexivity.
  - rewrite (calc_nth flux xlo xhi i C Hi). exact D.
Qed.
(** ... so exactly the integral of a model that is a power law within the bin. *)
Theorem C61_power_law_exact : forall flux xlo xhi i K b, contiguous xlo xhi -> (i < List.length xlo)%nat -> 0 < K -> good_index b ->
  let lo := nth i xlo 0 in let hi := nth i xhi 0 in (forall e, lo <= e <= hi -> flux e = K * Rpower e b) ->
  is_RInt flux lo hi (nth i (calc flux xlo (Some xhi)) 0).
Proof.
  intros flux xlo xhi i K b C Hi PK G lo hi F. rewrite calc_nth by assumption. fold lo. fold hi.
  destruct C as (_ & _ & PO & _). specialize (PO i Hi). fold lo in PO. fold hi in PO.
  assert (GR : grid [lo; hi]) by (split; repeat constructor; lra).
  pose proof (C11_trapz_exact_power_law K b lo [hi] PK G GR) as I. cbn [last map] in I. rewrite <- !F in I by lra.
  apply (is_RInt_ext (fun x => K * Rpower x b)); [|exact I].
  rewrite Rmin_left, Rmax_right by lra. intros x Hx. symmetry. apply F. lra.
Qed.
Lemma ex_bins : contiguous [1; 2; 4] [2; 4; 5].
Proof.
  split; [discriminate|]. split; [reflexivity|]. split.
  - intros [|[|[|i]]] H; cbn in *; try lra; lia.
  - intros [|[|i]] H; cbn in *; try lra; lia.
Qed.
Example C61_example : is_RInt (fun e => 3 * Rpower e (-2)) 2 4 (nth 1 (calc (fun e => 3 * Rpower e (-2)) [1; 2; 4] (Some [2; 4; 5])) 0).
Proof.
  apply (C61_power_law_exact _ [1; 2; 4] [2; 4; 5] 1 3 (-2) ex_bins); [cbn; lia|lra| |reflexivity].
  right. replace (-2 + 1) with (-1) by lra. rewrite Rabs_left by lra.
  assert (1 <= 10 ^ 9) by (apply pow_R1_Rle; lra). apply Rlt_le_trans with (/ 1); [|lra].
  apply Rinv_lt_contravar; [|]; change (10 ^ 10) with (10 * 10 ^ 9); nra.
Qed.
(** Refuted (code defect): where there is a gap between two bins, the upper edge of the
    lower one is ignored, and the flux of the gap is added to its flux. *)
Theorem C135_gap_refuted : forall flux a b c d, calc flux [a; c] (Some [b; d]) = calc flux [a; c] (Some [c; d]) /\
  (0 < a -> a < b -> b < c -> c < d -> (forall e, flux e = 1 * Rpower e 0) ->
   nth 0 (calc flux [a; c] (Some [b; d])) 0 = c - a /\ nth 0 (calc flux [a; c] (Some [b; d])) 0 <> b - a).
Proof.
  intros flux a b c d. split; [reflexivity|]. intros A AB BC CD F.
  assert (G0 : good_index 0).
  { right. rewrite Rplus_0_l, Rabs_R1. assert (1 <= 10 ^ 9) by (apply pow_R1_Rle; lra). apply Rlt_le_trans with (/ 1); [apply Rinv_lt_contravar; change (10 ^ 10) with (10 * 10 ^ 9); nra|lra]. }
  assert (CB : contiguous [a; c] [c; d]).
  { split; [discriminate|]. split; [reflexivity|]. split; [intros [|[|i]] H; cbn in *; try lra; lia|intros [|i] H; cbn in *; [reflexivity|lia]]. }
  assert (E : nth 0 (calc flux [a; c] (Some [c; d])) 0 = c - a).
  { pose proof (C61_power_law_exact flux [a; c] [c; d] 0 1 0 CB ltac:(cbn; lia) ltac:(lra) G0 (fun e _ => F e)) as I. cbn [nth] in I.
    assert (I2 : is_RInt (fun _ => 1) a c (scal (c - a) 1)) by apply (is_RInt_const a c 1).
    assert (I3 : is_RInt flux a c (scal (c - a) 1)).
    { apply (is_RInt_ext (fun _ => 1)); [|exact I2]. intros x Hx. rewrite Rmin_left, Rmax_right in Hx by lra. rewrite F, Rpower_O, Rmult_1_r by lra. reflexivity. }
    rewrite <- (@is_RInt_unique R_CompleteNormedModule _ _ _ _ I), (@is_RInt_unique R_CompleteNormedModule _ _ _ _ I3).
    unfold scal; cbn. unfold mult; cbn. ring. }
  change (calc flux [a; c] (Some [b; d])) with (calc flux [a; c] (Some [c; d])). rewrite E. split; [reflexivity|lra].
Qed.
(** Refuted (code defect): point evaluation gives the model times the energy. *)
Theorem C135_point_refuted : forall flux x i, (i < List.length x)%nat ->
  nth i (calc flux x None) 0 = nth i x 0 * flux (nth i x 0) /\
  (flux (nth i x 0) <> 0 -> nth i x 0 <> 1 -> nth i (calc flux x None) 0 <> flux (nth i x 0)).
Proof.
  intros flux x i Hi.
  assert (E : nth i (calc flux x None) 0 = flux (nth i x 0) * nth i x 0).
  { unfold calc. rewrite (nth_indep _ 0 ((fun e => flux e * e) 0)) by (rewrite map_length; exact Hi). rewrite (map_nth (fun e => flux e * e)). reflexivity. }
  rewrite E. split; [ring|]. intros NZ N1 H. apply N1. apply (Rmult_eq_reg_l (flux (nth i x 0))); [|exact NZ]. lra.
Qed.

(** ** C86. guess makes the integral of the model that of the data, for a model
    proportional to its amplitude *)
Theorem C86_guess : forall (shape : list R) ampl dep xlo, 0 < ampl ->
  let calc_at a := map (Rmult a) shape in
  0 < trapz_loglog dep xlo -> 0 < trapz_loglog shape xlo ->
  trapz_loglog (calc_at (guess calc_at ampl dep xlo)) xlo = trapz_loglog dep xlo.
Proof.
  intros shape ampl dep xlo PA calc_at PD PS. unfold guess, calc_at.
  rewrite (trapz_scale_y ampl shape xlo PA).
  set (S := trapz_loglog shape xlo) in *. set (D := trapz_loglog dep xlo) in *.
  assert (PG : 0 < ampl * D / (ampl * S)).
  { apply Rdiv_lt_0_compat; [apply Rmult_lt_0_compat; assumption|apply Rmult_lt_0_compat; assumption]. }
  rewrite trapz_scale_y by exact PG. fold S. field. lra.
Qed.
Example C86_example : 0 < trapz_loglog [3; 1; 2] [1; 2; 4].
Proof. apply C14_positive; [apply grid_124|lra|lra|repeat constructor; lra]. Qed.
(** cutoff = 0 stands for no cutoff, and is not the limit of small cutoffs: those
    suppress everything *)
Theorem C86_cutoff_zero : forall index ref ampl beta e, 0 < ampl -> 0 < ref -> 0 < e ->
  pdist index ref ampl 0 beta e = ampl * Rpower (e / ref) (- index) /\
  (forall cutoff, 0 < cutoff -> pdist index ref ampl cutoff beta e = pdist index ref ampl 0 beta e * exp (- Rpower (e / cutoff) beta)).
Proof.
  intros index ref ampl beta e A R0 E. unfold pdist. destruct (Req_EM_T 0 0) as [_|N]; [|contradiction]. split; [reflexivity|].
  intros cutoff C. destruct (Req_EM_T cutoff 0); [lra|]. reflexivity.
Qed.

(** ** C85 (refuted, code defect). Keyword arguments a model does not know are accepted
    and have no effect: the options it uses stay at their defaults. *)
Theorem C85_unknown_keyword_refuted : forall (V : Type) attrs k (v : V), dget k attrs = None ->
  exists o, construct attrs [(k, v)] = Ok o /\ forall a, a <> k -> dget a o = dget a attrs.
Proof.
  intros V attrs k v _. eexists. split; [reflexivity|]. intros a N. cbn [fold_left fst snd].
  induction attrs as [|[k2 v2] d IH]; cbn.
  - destruct (String.eqb_spec a k); [congruence|reflexivity].
  - destruct (String.eqb_spec k k2); cbn.
    + subst. destruct (String.eqb_spec a k2); [congruence|reflexivity].
    + destruct (String.eqb_spec a k2); [reflexivity|exact IH].
Qed.
(** the inverse Compton wrapper itself asks for Eed instead of nEed *)
Example C85_example : exists o, construct [("Eemin"%string, 1); ("nEed"%string, 100)] [("Eed"%string, 20)] = Ok o /\ dget "nEed" o = Some 100.
Proof. eexists. split; reflexivity. Qed.
(** A known keyword takes effect *)
Theorem C85_known_keyword_partial : forall (V : Type) attrs k (v : V), exists o, construct attrs [(k, v)] = Ok o /\ dget k o = Some v.
Proof.
  intros V attrs k v. eexists. split; [reflexivity|]. cbn [fold_left fst snd].
  induction attrs as [|[k2 v2] d IH]; cbn; [rewrite String.eqb_refl; reflexivity|].
  destruct (String.eqb_spec k k2); cbn; [subst; rewrite String.eqb_refl; reflexivity|].
  destruct (String.eqb_spec k k2); [congruence|exact IH].
Qed.
Print Assumptions C61_one_value_per_bin.
Print Assumptions C61_bin_is_integral.
Print Assumptions C61_power_law_exact.
Print Assumptions C135_gap_refuted.
Print Assumptions C135_point_refuted.
Print Assumptions C86_guess.
Print Assumptions C86_cutoff_zero.
Print Assumptions C85_unknown_keyword_refuted.
Print Assumptions C85_known_keyword_partial.
