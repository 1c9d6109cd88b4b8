(** Proofs about data-table validation, part 2: bins, validated columns, rows. *)
From Coq Require Import Reals List ZArith Bool String Arith Permutation Sorted Lra Lia.
From Verif Require Import Outcome TrapzModel SimplexModel UnitsModel DataModel DataSpec DataProofs.
Import ListNotations.
Local Open Scope R_scope.

Lemma ok_inj {A} (a b : A) : Ok a = Ok b -> a = b.
Proof. congruence. Qed.

(** ** Energy bins do not depend on the unit *)
Definition psc (k : R) (p : R * R) : R * R := (k * fst p, k * snd p).
Lemma mids_length e : List.length (mids e) = Nat.pred (List.length e).
Proof. induction e as [|a [|b r] IH]; cbn [mids List.length] in *; auto. rewrite IH. reflexivity. Qed.
Lemma mids_nth e : forall i, (S i < List.length e)%nat -> nth i (mids e) 0 = sqrt (nth (S i) e 0 * nth i e 0).
Proof.
  induction e as [|a [|b r] IH]; intros i H; cbn [List.length] in H; try lia.
  destruct i as [|i]; [reflexivity|]. change (nth i (mids (b :: r)) 0 = sqrt (nth (S i) (b :: r) 0 * nth i (b :: r) 0)).
  apply IH. cbn [List.length]. lia.
Qed.
Lemma nth_scale k e i : nth i (map (Rmult k) e) 0 = k * nth i e 0.
Proof. rewrite <- (map_nth (Rmult k)). rewrite Rmult_0_r. reflexivity. Qed.
Lemma sqrt_scale k a b : 0 < k -> sqrt (k * a * (k * b)) = k * sqrt (a * b).
Proof.
  intros K. replace (k * a * (k * b)) with (k * k * (a * b)) by ring.
  destruct (Rle_dec 0 (a * b)) as [H|H].
  - rewrite sqrt_mult by nra. rewrite sqrt_square by lra. reflexivity.
  - rewrite !sqrt_neg_0 by nra. ring.
Qed.
Lemma mids_scale k e i : 0 < k -> nth i (mids (map (Rmult k) e)) 0 = k * nth i (mids e) 0.
Proof.
  intros K. destruct (lt_dec (S i) (List.length e)) as [L|L].
  - rewrite !mids_nth by (rewrite ?map_length; exact L). rewrite !nth_scale. apply sqrt_scale, K.
  - rewrite !nth_overflow; rewrite ?mids_length, ?map_length; try lia. ring.
Qed.
Lemma div_scale k a b : 0 < k -> (k * a) / (k * b) = a / b.
Proof.
  intros K. unfold Rdiv. rewrite Rinv_mult. replace (k * a * (/ k * / b)) with (k * / k * (a * / b)) by ring.
  rewrite Rinv_r by lra. ring.
Qed.
Lemma edges_single_scale k e : 0 < k -> edges_single (map (Rmult k) e) = map (psc k) (edges_single e).
Proof.
  intros K. unfold edges_single. cbv zeta. rewrite map_length, map_map. apply map_ext_in. intros i Hi. apply in_seq in Hi.
  unfold psc; cbn [fst snd].
  assert (H : forall j, (if Nat.eqb (S j) (List.length e) then 0 else nth j (mids (map (Rmult k) e)) 0 - nth j (map (Rmult k) e) 0)
    = k * (if Nat.eqb (S j) (List.length e) then 0 else nth j (mids e) 0 - nth j e 0)).
  { intros j. destruct (Nat.eqb (S j) (List.length e)); [ring|]. rewrite mids_scale, nth_scale by exact K. ring. }
  assert (H0 : nth 0 (map (Rmult k) e) 0 * (1 - nth 0 (map (Rmult k) e) 0 / (nth 0 (map (Rmult k) e) 0 + (if Nat.eqb 1 (List.length e) then 0 else nth 0 (mids (map (Rmult k) e)) 0 - nth 0 (map (Rmult k) e) 0)))
    = k * (nth 0 e 0 * (1 - nth 0 e 0 / (nth 0 e 0 + (if Nat.eqb 1 (List.length e) then 0 else nth 0 (mids e) 0 - nth 0 e 0))))).
  { rewrite H, !nth_scale. rewrite <- Rmult_plus_distr_l, div_scale by exact K. ring. }
  assert (G : forall j, match j with O => nth 0 (map (Rmult k) e) 0 * (1 - nth 0 (map (Rmult k) e) 0 / (nth 0 (map (Rmult k) e) 0 + (if Nat.eqb 1 (List.length e) then 0 else nth 0 (mids (map (Rmult k) e)) 0 - nth 0 (map (Rmult k) e) 0))) | S j' => nth j (map (Rmult k) e) 0 - nth j' (mids (map (Rmult k) e)) 0 end
    = k * match j with O => nth 0 e 0 * (1 - nth 0 e 0 / (nth 0 e 0 + (if Nat.eqb 1 (List.length e) then 0 else nth 0 (mids e) 0 - nth 0 e 0))) | S j' => nth j e 0 - nth j' (mids e) 0 end).
  { intros [|j]; [exact H0|]. rewrite nth_scale, mids_scale by exact K. ring. }
  f_equal; [apply G|].
  destruct (Nat.eqb (S i) (List.length e)) eqn:E; [apply G|]. pose proof (H i) as Hi'. rewrite E in Hi'. exact Hi'.
Qed.
Lemma scatter_map k g gr : forall new old, scatter g gr (map (psc k) new) (map (psc k) old) = map (psc k) (scatter g gr new old).
Proof.
  induction gr as [|h gr IH]; intros new [|o old]; cbn [scatter map]; auto.
  destruct (Z.eqb h g).
  - destruct new as [|x new]; cbn [map]; f_equal; [apply (IH [] old)|apply IH].
  - cbn [map]. f_equal. apply IH.
Qed.
Lemma group_sel_scale k g e : forall gs, map fst (filter (in_group g) (combine (map (Rmult k) e) gs)) = map (Rmult k) (map fst (filter (in_group g) (combine e gs))).
Proof.
  induction e as [|a e IH]; intros [|h gs]; cbn [map combine filter]; auto.
  change (in_group g (k * a, h)) with (Z.eqb h g). change (in_group g (a, h)) with (Z.eqb h g). destruct (Z.eqb h g); cbn [map fst]; rewrite IH; reflexivity.
Qed.
Lemma generate_edges_scale k e gs : 0 < k -> generate_energy_edges (map (Rmult k) e) gs = map (psc k) (generate_energy_edges e gs).
Proof.
  intros K. destruct gs as [gs|]; cbn [generate_energy_edges]; [|apply edges_single_scale, K].
  rewrite map_length. destruct (Nat.eqb _ _); [|apply edges_single_scale, K].
  assert (Z0 : map (fun _ : R => (0, 0)) (map (Rmult k) e) = map (psc k) (map (fun _ : R => (0, 0)) e)).
  { rewrite !map_map. apply map_ext. intros. unfold psc; cbn. f_equal; ring. }
  rewrite Z0. generalize (map (fun _ : R => (0, 0)) e). generalize (nodup Z.eq_dec gs).
  induction l as [|g l IH]; intros acc; cbn [fold_left]; [reflexivity|].
  rewrite <- IH. f_equal. unfold edges_step. rewrite group_sel_scale, edges_single_scale by exact K. apply scatter_map.
Qed.
Lemma scatter_length g gr : forall new old, List.length (scatter g gr new old) = List.length old.
Proof. induction gr as [|h gr IH]; intros new [|o old]; cbn [scatter]; auto. destruct (Z.eqb h g); [destruct new|]; cbn [List.length]; rewrite IH; reflexivity. Qed.
Lemma edges_single_length e : List.length (edges_single e) = List.length e.
Proof. unfold edges_single. cbv zeta. rewrite map_length, seq_length. reflexivity. Qed.
Lemma generate_edges_length e gs : List.length (generate_energy_edges e gs) = List.length e.
Proof.
  destruct gs as [gs|]; cbn [generate_energy_edges]; [|apply edges_single_length].
  destruct (Nat.eqb _ _); [|apply edges_single_length].
  assert (Z0 : List.length (map (fun _ : R => (0, 0)) e) = List.length e) by apply map_length.
  revert Z0. generalize (map (fun _ : R => (0, 0)) e). generalize (nodup Z.eq_dec gs).
  induction l as [|g l IH]; intros acc Z0; cbn [fold_left]; [exact Z0|]. apply IH. unfold edges_step. rewrite scatter_length. exact Z0.
Qed.

(** ** The columns of a validated table *)
Lemma dget_in {V} k (d : list (string * V)) v : dget k d = Some v -> In (k, v) d.
Proof.
  induction d as [|[k' v'] r IH]; cbn; [discriminate|]. destruct (String.eqb_spec k k').
  - intros H; inv H. auto.
  - auto.
Qed.
Lemma rect_col t key q : rect t -> dget key (cols t) = Some q -> List.length (vals q) = nrows t /\ 0 < scale (qunit q).
Proof. intros (H & _) D. apply dget_in in D. rewrite Forall_forall in H. apply (H _ D). Qed.
Lemma validate_column_ok t key pts q : validate_column t key pts = Ok q -> dget key (cols t) = Some q /\ In (dim (qunit q)) pts.
Proof.
  unfold validate_column, validate_array, validate_physical_type. destruct (dget key (cols t)) as [q'|]; [|discriminate].
  destruct (existsb _ pts) eqn:E; [|discriminate]. intros H; inv H. split; auto.
  apply existsb_exists in E. destruct E as (d & I & E). apply dims_eqb_eq in E. congruence.
Qed.
Lemma validate_column_intro t key pts q : dget key (cols t) = Some q -> In (dim (qunit q)) pts -> validate_column t key pts = Ok q.
Proof.
  intros D I. unfold validate_column, validate_array, validate_physical_type. rewrite D.
  replace (existsb _ pts) with true; auto. symmetry. apply existsb_exists. exists (dim (qunit q)). split; auto. apply dims_eqb_refl.
Qed.
Lemma in_energy d : In d [d_energy] <-> d = d_energy.
Proof. cbn. split; [intros [ -> |[]]; auto|auto]. Qed.
Lemma in_flux d : In d flux_types <-> flux_like d.
Proof. unfold flux_types, flux_like. cbn. intuition auto. Qed.
Lemma has_present t key : has t key = present t key.
Proof. reflexivity. Qed.
Lemma present_some t key q : dget key (cols t) = Some q -> present t key = true.
Proof. unfold present. intros ->. reflexivity. Qed.

Lemma parse_ul_spec t u : rect t -> parse_ul (nrows t) (i_ul t) = Ok u ->
  List.length u = nrows t /\ forall i, (i < nrows t)%nat -> nth i u false = row_is_ul t i.
Proof.
  intros (_ & _ & HU) H. unfold parse_ul, row_is_ul in *. destruct (i_ul t) as [c|]; [|inv H; split; [apply repeat_length|]; intros; apply nth_repeat_lt; auto].
  destruct c as [l|l|l|]; [inv H| |destruct (forallb _ l) eqn:E; [inv H|discriminate]|discriminate].
  - assert (L := HU _ _ eq_refl eq_refl). cbn in L. rewrite map_length. split; auto. intros i Hi.
    rewrite (nth_map_gen _ _ _ 0%Z) by lia. reflexivity.
  - assert (L := HU _ _ eq_refl eq_refl). cbn in L. inv H. split; auto.
  - assert (L := HU _ _ eq_refl eq_refl). cbn in L. rewrite map_length. split; auto. intros i Hi.
    rewrite (nth_map_gen _ _ _ ""%string) by lia. reflexivity.
Qed.

Lemma qsub_spec a b r : qsub a b = Ok r -> List.length (vals a) = List.length (vals b) -> 0 < scale (qunit a) ->
  qunit r = qunit a /\ (forall i, (i < List.length (vals a))%nat -> phys r i = phys a i - phys b i).
Proof.
  intros H L P. unfold qsub in H. ob H. inv H. cbn [qunit]. split; auto. intros i Hi.
  apply qto_ok in E. destruct E as (_ & U & LL & PP). rewrite <- (PP P). unfold phys; cbn [vals qunit].
  rewrite nth_zipw by lia. rewrite U. ring.
Qed.
Lemma phys_qhalf q i : phys (qhalf q) i = phys q i / 2.
Proof.
  unfold phys, qhalf; cbn [vals qunit]. destruct (lt_dec i (List.length (vals q))) as [L|L].
  - rewrite (nth_map0 _ _ _ 0) by exact L. field.
  - rewrite !nth_overflow; try rewrite map_length; try lia. field.
Qed.
Lemma apply_flux_ul_spec f u t f' : rect t -> List.length (vals f) = nrows t -> List.length u = nrows t -> 0 < scale (qunit f) ->
  apply_flux_ul f u t = Ok f' ->
  qunit f' = qunit f /\ List.length (vals f') = nrows t /\
  (present t "flux_ul" = true -> col_has t "flux_ul" (dim (qunit f))) /\
  forall i, (i < nrows t)%nat -> phys f' i = if (nth i u false && present t "flux_ul")%bool then pcol t "flux_ul" i else phys f i.
Proof.
  intros R L1 L2 P H. unfold apply_flux_ul, present, col_has, pcol in *. destruct (dget "flux_ul" (cols t)) as [q|] eqn:D.
  - ob H. inv H. destruct (rect_col _ _ _ R D) as (LQ & _). apply qto_ok in E. destruct E as (A & B & C & DD).
    cbn [qunit vals]. split; auto. split. { rewrite map_length, !combine_length. lia. } split. { eauto. }
    intros i Hi. unfold phys at 1; cbn [vals qunit].
    rewrite (nth_map0 _ _ _ (0, 0, false)) by (rewrite !combine_length; lia).
    rewrite combine_nth by (rewrite combine_length; lia). rewrite combine_nth by lia. cbn [fst snd].
    rewrite andb_true_r. destruct (nth i u false); auto. rewrite <- DD by exact P. unfold phys. rewrite B. reflexivity.
  - inv H. repeat split; auto; try discriminate. intros i Hi. rewrite andb_false_r. reflexivity.
Qed.

Lemma energies_vals t e : dget "energy" (cols t) = Some e -> energies t = map (Rmult (scale (qunit e))) (vals e).
Proof.
  intros D. unfold energies, nrows, pcol. rewrite D. unfold phys. apply nth_ext with 0 0; rewrite !map_length, ?seq_length; auto.
  intros i Hi. rewrite (nth_map0 _ _ _ 0%nat) by (rewrite seq_length; exact Hi). rewrite seq_nth by exact Hi. cbn [Nat.add].
  rewrite nth_scale. ring.
Qed.

Lemma validate_single_spec t g v : rect t -> validate_single t g = Ok v ->
  let n := nrows t in
  vwf v n /\ dim (qunit (v_f v)) = flux_dims t /\ dget "energy" (cols t) = Some (v_e v) /\
  List.length (v_grp v) = n /\ List.length (v_ul v) = n /\
  forall i, (i < n)%nat ->
    phys (v_e v) i = pcol t "energy" i /\
    phys (v_f v) i = (if (row_is_ul t i && present t "flux_ul")%bool then pcol t "flux_ul" i else pcol t "flux" i) /\
    phys (v_flo v) i = pcol t (if present t "flux_error" then "flux_error" else "flux_error_lo") i /\
    phys (v_fhi v) i = pcol t (if present t "flux_error" then "flux_error" else "flux_error_hi") i /\
    phys (v_elo v) i = half_width t g true i /\ phys (v_ehi v) i = half_width t g false i /\
    nth i (v_ul v) false = row_is_ul t i /\ nth i (v_grp v) 0%Z = nth i (groups t g) 0%Z /\
    nth i (v_cl v) NaN = (match i_cl t with Some c => c | None => SimplexModel.Fin (9 / 10) end).
Proof.
  intros R H. cbv zeta. unfold validate_single in H.
  ob H. apply validate_column_ok in E. destruct E as (De & Ie). apply in_energy in Ie.
  ob H. apply validate_column_ok in E. destruct E as (Df & If). apply in_flux in If.
  ob H. ob H. ob H. ob H. ob H. inv H. cbn [v_e v_f v_flo v_fhi v_grp v_elo v_ehi v_ul v_cl].
  destruct (rect_col _ _ _ R De) as (Le & Pe). destruct (rect_col _ _ _ R Df) as (Lf & Pf).
  rewrite Le in *.
  destruct (parse_ul_spec _ _ R E1) as (Lu & Hu).
  destruct (apply_flux_ul_spec _ _ _ _ R Lf Lu Pf E2) as (U1 & U2 & U3 & U4).
  assert (ERR : exists lo hi, a1 = (lo, hi) /\ List.length (vals lo) = nrows t /\ List.length (vals hi) = nrows t /\
     (forall i, phys lo i = pcol t (if present t "flux_error" then "flux_error" else "flux_error_lo") i) /\
     (forall i, phys hi i = pcol t (if present t "flux_error" then "flux_error" else "flux_error_hi") i)).
  { unfold pcol. change (has t) with (present t) in E. destruct (present t "flux_error") eqn:PF.
    - apply omap_ok in E. destruct E as (d & E & <-). apply validate_column_ok in E. destruct E as (D & _).
      destruct (rect_col _ _ _ R D) as (LD & _). exists d, d. rewrite D. repeat split; auto.
    - destruct (present t "flux_error_lo" && present t "flux_error_hi")%bool; [|discriminate].
      obn E x1 F1. obn E x2 F2. inv E. apply validate_column_ok in F1, F2. destruct F1 as (D1 & _), F2 as (D2 & _).
      exists x1, x2. rewrite D1, D2. destruct (rect_col _ _ _ R D1), (rect_col _ _ _ R D2). repeat split; auto. }
  destruct ERR as (lo & hi & -> & Llo & Lhi & Plo & Phi). cbn [fst snd].
  assert (WID : exists lo hi, a2 = (lo, hi) /\ dim (qunit lo) = d_energy /\ dim (qunit hi) = d_energy /\ 0 < scale (qunit lo) /\ 0 < scale (qunit hi) /\
     (forall i, (i < nrows t)%nat -> phys lo i = half_width t g true i) /\ (forall i, (i < nrows t)%nat -> phys hi i = half_width t g false i)).
  { unfold half_width. change (has t) with (present t) in E0. destruct (present t "energy_width") eqn:P1.
    - apply omap_ok in E0. destruct E0 as (w & E0 & <-). apply validate_column_ok in E0. destruct E0 as (D & I). apply in_energy in I.
      destruct (rect_col _ _ _ R D) as (LD & PD). exists (qhalf w), (qhalf w). unfold pcol. rewrite D. repeat split; auto; intros; apply phys_qhalf.
    - destruct (present t "energy_error") eqn:P2.
      + apply omap_ok in E0. destruct E0 as (w & E0 & <-). apply validate_column_ok in E0. destruct E0 as (D & I). apply in_energy in I.
        destruct (rect_col _ _ _ R D) as (LD & PD). exists w, w. unfold pcol. rewrite D. repeat split; auto.
      + destruct (present t "energy_error_lo" && present t "energy_error_hi")%bool.
        * obn E0 x1 F1. obn E0 x2 F2. inv E0. apply validate_column_ok in F1, F2. destruct F1 as (D1 & I1), F2 as (D2 & I2). apply in_energy in I1, I2.
          destruct (rect_col _ _ _ R D1), (rect_col _ _ _ R D2). exists x1, x2. unfold pcol. rewrite D1, D2. repeat split; auto.
        * destruct (present t "energy_lo" && present t "energy_hi")%bool.
          -- obn E0 x1 F1. obn E0 x2 F2. obn E0 x3 F3. obn E0 x4 F4. inv E0. apply validate_column_ok in F1, F3. destruct F1 as (D1 & I1), F3 as (D2 & I2). apply in_energy in I1, I2.
             destruct (rect_col _ _ _ R D1), (rect_col _ _ _ R D2). exists x2, x4. unfold pcol. rewrite De, D1, D2.
             apply qsub_spec in F2; try congruence. apply qsub_spec in F4; try congruence. destruct F2 as (Q1 & Q2), F4 as (Q3 & Q4).
             rewrite Q1, Q3. repeat split; auto; intros i Hi; [apply Q2|apply Q4]; congruence.
          -- apply ok_inj in E0. subst a2. do 2 eexists. split; [reflexivity|]. cbn [qunit]. repeat split; auto.
             all: intros i Hi; rewrite (energies_vals _ _ De), generate_edges_scale by exact Pe;
               rewrite (nth_map_gen _ _ _ (0, 0)) by (rewrite generate_edges_length; congruence);
               unfold psc, phys; cbn [vals qunit fst snd]; rewrite (nth_map0 _ _ _ (0, 0)) by (rewrite generate_edges_length; congruence);
               unfold groups; apply Rmult_comm. }
  destruct WID as (wl & wh & -> & Dwl & Dwh & Pwl & Pwh & Hwl & Hwh). cbn [fst snd].
  split. { unfold vwf. cbn [v_e v_f v_flo v_fhi v_elo v_ehi]. rewrite U1. repeat split; auto. }
  split. { rewrite U1. unfold flux_dims. rewrite Df. reflexivity. }
  split; [exact De|].
  split. { destruct R as (_ & RG & _). destruct (i_group t) eqn:EG; [auto|apply repeat_length]. }
  split; [exact Lu|].
  intros i Hi. split. { unfold pcol. rewrite De. reflexivity. }
  split. { rewrite U4, Hu by exact Hi. unfold pcol at 3. rewrite Df. reflexivity. }
  repeat (split; [auto|]).
  rewrite nth_repeat_lt by exact Hi. destruct (i_cl t); [|inv E3; reflexivity].
  unfold validate_scalar in E3. inv E3. reflexivity.
Qed.
