(** Further properties of the spectral functions: validation (C95), tabulated optical
    depths (C37), and the domain on which C63 and C64 hold. *)
From Coq Require Import Reals List Bool String Arith Lra Lia.
From Verif Require Import Outcome SpectralModel SpectralProofs SpectralProps.
Import ListNotations.
Local Open Scope R_scope.

(** ** C95: energy parameters are energies, and not negative *)
Theorem C95_validation : forall m,
  (construct m = Ok m <-> forall q, In q (energies m) -> q_unit q <> None /\ 0 <= q_value q) /\
  (construct m <> Ok m -> construct m = Err "TypeError" \/ construct m = Err "ValueError") /\
  (forall e, construct m = Ok m -> q_unit e <> None -> exists y, call m e = Ok y).
Proof.
  intros m.
  assert (V : forall q, (validate_positive q = Ok q /\ q_unit q <> None /\ 0 <= q_value q) \/
                        (validate_positive q = Err "TypeError" /\ q_unit q = None) \/
                        (validate_positive q = Err "ValueError" /\ q_value q < 0)).
  { intros [v [s|]]; unfold validate_positive, validate_ene; cbn; [|right; left; auto].
    destruct (Rlt_dec v 0); [right; right; auto|left]. repeat split; [discriminate|lra]. }
  assert (C : construct m = obind (mapM validate_positive (energies m)) (fun _ => Ok m)) by (destruct m; reflexivity).
  assert (A : forall l, (exists l', mapM validate_positive l = Ok l' /\ forall q, In q l -> q_unit q <> None /\ 0 <= q_value q) \/
                        ((mapM validate_positive l = Err "TypeError" \/ mapM validate_positive l = Err "ValueError") /\
                         exists q, In q l /\ (q_unit q = None \/ q_value q < 0))).
  { induction l as [|q l IH]; cbn; [left; eexists; split; [reflexivity|intros ? []]|].
    destruct (V q) as [(-> & U & P)|[(-> & U)|(-> & P)]]; cbn.
    - destruct IH as [(l' & -> & H)|[[ -> | -> ] (x & Hx & K)]]; cbn.
      + left. eexists. split; [reflexivity|]. intros x [<-|Hx]; auto.
      + right. split; [auto|]. exists x. auto.
      + right. split; [auto|]. exists x. auto.
    - right. split; [auto|]. exists q. auto.
    - right. split; [auto|]. exists q. auto. }
  rewrite C. destruct (A (energies m)) as [(l' & -> & H)|[E (x & Hx & K)]].
  - cbn. split; [split; auto|]. split; [intros X; elim X; reflexivity|]. intros [v [s|]] _ U; [|elim U; reflexivity]. cbn in U |- *.
    unfold call, to_eV. cbn. destruct m; cbn in H |- *;
    repeat match goal with |- context [q_unit ?q] => let h := fresh in assert (h : q_unit q <> None) by (apply H; auto 6); destruct (q_unit q) eqn:?; [clear h|congruence] end; cbn; eauto.
  - split; [|split].
    + split; [destruct E as [ -> | -> ]; discriminate|]. intros H. destruct (H x Hx) as [U P]. destruct K as [K|K]; [congruence|lra].
    + intros _. destruct E as [ -> | -> ]; cbn; auto.
    + intros e F. destruct E as [E|E]; rewrite E in F; discriminate.
Qed.
Print Assumptions C95_validation.
Example C95_example : construct (ExponentialCutoffPowerLaw 1 (mkQ 1 (Some 1)) 2 (mkQ (-1) (Some 1)) 1) = Err "ValueError" /\
  construct (ExponentialCutoffPowerLaw 1 (mkQ 1 (Some 1)) 2 (mkQ 3 (Some 1)) 1) = Ok (ExponentialCutoffPowerLaw 1 (mkQ 1 (Some 1)) 2 (mkQ 3 (Some 1)) 1).
Proof. split; unfold construct, validate_positive; cbn; repeat (destruct (Rlt_dec _ _); try lra); reflexivity. Qed.

(** ** C37: at tabulated energies the transmission is that of the optical depth of the
    tabulated redshift closest to the one asked for, limited to 150. *)
(** tabulated redshifts 0.01, 0.02, ..., 3.99 *)
Definition nearest_column (z : R) (i : nat) : Prop :=
  (i < 399)%nat /\ forall j, (j < 399)%nat -> Rabs (INR (i + 1) / 100 - z) <= Rabs (INR (j + 1) / 100 - z).
Lemma argmin_from_spec : forall l pre i best bv, i = List.length pre -> (best < i)%nat -> nth best pre 0 = bv -> (forall v, In v pre -> bv <= v) ->
  let k := argmin_from i best bv l in (k < List.length (pre ++ l))%nat /\ forall v, In v (pre ++ l) -> nth k (pre ++ l) 0 <= v.
Proof.
  induction l as [|v l IH]; intros pre i best bv Ei Hb Hn Hm; cbn [argmin_from].
  - cbv zeta. rewrite app_nil_r. split; [lia|]. rewrite Hn. exact Hm.
  - cbv zeta. replace (pre ++ v :: l) with ((pre ++ [v]) ++ l) by (rewrite <- app_assoc; reflexivity).
    destruct (Rlt_dec v bv) as [L|G].
    + apply IH.
      * rewrite app_length. cbn. lia.
      * lia.
      * rewrite app_nth2 by lia. rewrite Ei, Nat.sub_diag. reflexivity.
      * intros w Hw. apply in_app_iff in Hw. destruct Hw as [Hw|[<-|[]]]; [apply Hm in Hw; lra|lra].
    + apply IH.
      * rewrite app_length. cbn. lia.
      * lia.
      * rewrite app_nth1 by lia. exact Hn.
      * intros w Hw. apply in_app_iff in Hw. destruct Hw as [Hw|[<-|[]]]; [apply Hm, Hw|lra].
Qed.
Lemma argmin_nearest z : nearest_column z (argmin (map (fun y => Rabs (y - z)) (redshift_list 399))).
Proof.
  set (l := map (fun y => Rabs (y - z)) (redshift_list 399)).
  assert (LL : List.length l = 399%nat) by (unfold l, redshift_list; rewrite !map_length, seq_length; reflexivity).
  assert (N : forall j, (j < 399)%nat -> nth j l 0 = Rabs (INR (j + 1) / 100 - z)).
  { intros j Hj. unfold l, redshift_list. rewrite map_map.
    rewrite (nth_indep _ 0 (Rabs (INR 1 / 100 - z))) by (rewrite map_length, seq_length; exact Hj).
    rewrite (map_nth (fun i => Rabs (INR (S i) / 100 - z)) (seq 0 399) 0%nat j), seq_nth by exact Hj. rewrite Nat.add_1_r. reflexivity. }
  assert (S : (argmin l < List.length l)%nat /\ forall v, In v l -> nth (argmin l) l 0 <= v).
  { clear N. destruct l as [|v r]; [discriminate|]. unfold argmin. apply (argmin_from_spec r [v] 1 0 v); auto.
    intros w [<-|[]]; lra. }
  clearbody l. destruct S as [S1 S2]. rewrite LL in S1. split; [exact S1|]. intros j Hj. rewrite <- !N by assumption. apply S2, nth_In. lia.
Qed.
Theorem C37_tabulated : forall cubic energy columns z,
  List.Forall (fun x => 0 < x) energy -> List.length columns = 399%nat ->
  (forall c, In c columns -> List.length c = List.length energy) ->
  (let nodes := table_nodes energy (ebl_taus columns z (List.length energy)) in forall x y, In (x, y) nodes -> cubic nodes x = y) -> 1 / 100 <= z ->
  exists i, nearest_column z i /\
    forall j e tau, nth_error energy j = Some e -> 10 ^ 9 <= e <= 10 ^ 14 -> nth_error (nth i columns []) j = Some tau ->
      ebl_transmission cubic energy columns z e = Some (exp (- Rmin tau 150)).
Proof.
  intros cubic energy columns z HP LC HC HN Hz. exists (argmin (map (fun y => Rabs (y - z)) (redshift_list 399))).
  pose proof (argmin_nearest z) as NC. split; [exact NC|]. set (i := argmin _) in *. intros j e tau He R Ht.
  unfold ebl_transmission. destruct (Rlt_dec e (10 ^ 9)); [lra|]. destruct (Rlt_dec (10 ^ 14) e); [lra|].
  set (taus := ebl_taus columns z (List.length energy)).
  assert (ET : taus = map pow10 (map (fun t => if Rlt_dec 150 t then 150 else t) (nth i columns []))).
  { unfold taus, ebl_taus. destruct (Rle_dec (1 / 100) z); [reflexivity|contradiction]. }
  assert (MT : nth_error taus j = Some (pow10 (Rmin tau 150))).
  { rewrite ET, !nth_error_map, Ht. cbn. f_equal. f_equal. unfold Rmin. destruct (Rlt_dec 150 tau), (Rle_dec tau 150); lra. }
  rewrite (table_node cubic energy taus 1 j e (pow10 (Rmin tau 150))); auto using pow10_pos.
  - rewrite Rmult_1_l. destruct (Req_EM_T _ 0) as [E0|]; [pose proof (pow10_pos (Rmin tau 150)); lra|]. rewrite log10_pow10. reflexivity.
  - rewrite ET, !map_length. symmetry. apply HC, nth_In. rewrite LC. apply NC.
Qed.
Print Assumptions C37_tabulated.
Example C37_hypotheses_met : let energy := [10 ^ 9; 10 ^ 12; 10 ^ 14] in let columns := repeat [1; 2; 200] 399 in
  List.Forall (fun x => 0 < x) energy /\ List.length columns = 399%nat /\ (forall c, In c columns -> List.length c = List.length energy) /\
  nth_error energy 2 = Some (10 ^ 14) /\ 10 ^ 9 <= 10 ^ 14 <= 10 ^ 14.
Proof.
  cbv zeta. repeat split; try lra.
  - repeat constructor; apply pow_lt; lra.
  - intros c H. apply repeat_spec in H. subst. reflexivity.
Qed.

(** ** C63: above 100 TeV the transmission does not depend on the energy, and it is not
    higher than at 100 TeV exactly if the optical depth there is at most log10(6000). *)
Theorem C63_iff_partial : forall cubic energy columns z e t,
  10 ^ 14 < e -> ebl_transmission cubic energy columns z (10 ^ 14) = Some (exp (- t)) ->
  exists t', ebl_transmission cubic energy columns z e = Some t' /\ (t' <= exp (- t) <-> t <= ln 6000 / ln 10).
Proof.
  intros cubic energy columns z e t He H. exists (exp (- log10 6000)). unfold ebl_transmission.
  destruct (Rlt_dec e (10 ^ 9)) as [C|_]; [simpl in *; lra|]. destruct (Rlt_dec (10 ^ 14) e) as [_|C]; [|lra]. split; [reflexivity|].
  change (ln 6000 / ln 10) with (log10 6000). split; intros L.
  - destruct (Rle_or_lt t (log10 6000)) as [G|G]; [exact G|]. exfalso. assert (exp (- t) < exp (- log10 6000)) by (apply exp_increasing; lra). lra.
  - destruct L as [L|L]; [apply Rlt_le, exp_increasing; lra|rewrite L; lra].
Qed.
Print Assumptions C63_iff_partial.

(** ** C64 for a table that follows a power law: the model is that power law between
    all tabulated energies, so it lies between any two tabulated values. *)
Definition straight_lines (cubic : list (R * R) -> R -> R) : Prop :=
  forall nodes p q, (exists x1 y1 x2 y2, In (x1, y1) nodes /\ In (x2, y2) nodes /\ x1 <> x2) ->
    (forall x y, In (x, y) nodes -> y = p + q * x) -> forall x, cubic nodes x = p + q * x.
Theorem C64_power_law_partial : forall cubic energy A n g e a b,
  (* the interpolation reproduces straight lines *)
  straight_lines cubic ->
  List.Forall (fun x => 0 < x) energy -> 0 < n -> In a energy -> In b energy -> a < b -> a <= e <= b ->
  let law x := n * Rpower x g in
  let y := table_call cubic energy (map law energy) A e in
  y = A * law e /\ (0 <= A -> (law a <= law b -> A * law a <= y <= A * law b) /\ (law b <= law a -> A * law b <= y <= A * law a)).
Proof.
  intros cubic energy A n g e a b HC HP Hn Ha Hb Hab He law y. rewrite List.Forall_forall in HP.
  pose proof (HP a Ha) as Pa. pose proof (HP b Hb) as Pb. pose proof ln10_pos as P10.
  assert (LG : forall x, 0 < x -> log10 (law x) = log10 n + g * log10 x).
  { intros x Px. unfold law, log10, Rpower. rewrite ln_mult by (auto; apply exp_pos). rewrite ln_exp. field. lra. }
  assert (Y : y = A * law e).
  { unfold y. rewrite table_inside.
    - f_equal. rewrite (HC _ (log10 n) g).
      + rewrite <- LG by lra. unfold pow10, log10, Rpower. replace (ln (law e) / ln 10 * ln 10) with (ln (law e)) by (field; lra).
        apply exp_ln. unfold law. apply Rmult_lt_0_compat; [exact Hn|apply exp_pos].
      + assert (CB : table_nodes energy (map law energy) = map (fun x => (log10 x, log10 (law x))) energy).
        { unfold table_nodes. rewrite map_map. clear. induction energy as [|x l IH]; [reflexivity|]. cbn. f_equal. exact IH. }
        rewrite CB. exists (log10 a), (log10 (law a)), (log10 b), (log10 (law b)).
        split; [apply (in_map (fun x => (log10 x, log10 (law x)))), Ha|]. split; [apply (in_map (fun x => (log10 x, log10 (law x)))), Hb|].
        unfold log10. intros E. assert (L : ln a < ln b) by (apply ln_increasing; lra).
        apply (Rmult_eq_compat_r (ln 10)) in E. unfold Rdiv in E. rewrite !Rmult_assoc, Rinv_l in E by lra. lra.
      + intros u v I. unfold table_nodes in I. rewrite map_map in I. apply In_nth_error in I. destruct I as (k & I).
        assert (CB : combine (map log10 energy) (map (fun x => log10 (law x)) energy) = map (fun x => (log10 x, log10 (law x))) energy).
        { clear. induction energy as [|x l IH]; [reflexivity|]. cbn. f_equal. exact IH. }
        rewrite CB, nth_error_map in I. destruct (nth_error energy k) as [x|] eqn:Ek; [|discriminate]. injection I as <- <-.
        apply LG, HP. eapply nth_error_In; eauto.
    - rewrite map_length. reflexivity.
    - apply List.Forall_forall. exact HP.
    - lra.
    - exists a. split; [exact Ha|lra].
    - exists b. split; [exact Hb|lra]. }
  split; [exact Y|]. intros PA. rewrite Y. assert (MON : forall u v, 0 < u -> u <= v -> (0 <= g -> law u <= law v) /\ (g <= 0 -> law v <= law u)).
  { intros u v Pu Huv. unfold law. assert (L : ln u <= ln v) by (destruct Huv as [Huv|Huv]; [apply Rlt_le, ln_increasing; auto|rewrite Huv; lra]).
    split; intros G; apply Rmult_le_compat_l; try lra; unfold Rpower.
    - assert (g * ln u <= g * ln v) by (apply Rmult_le_compat_l; lra). destruct H as [H|H]; [apply Rlt_le, exp_increasing, H|rewrite H; lra].
    - assert (g * ln v <= g * ln u) by (apply Rmult_le_compat_neg_l; lra). destruct H as [H|H]; [apply Rlt_le, exp_increasing, H|rewrite H; lra]. }
  destruct (MON a e) as [M1 M2]; [lra|lra|]. destruct (MON e b) as [M3 M4]; [lra|lra|].
  destruct (Rle_or_lt 0 g) as [G|G].
  - specialize (M1 G). specialize (M3 G). split; intros L; split; apply Rmult_le_compat_l; lra.
  - assert (g <= 0) as G' by lra. specialize (M2 G'). specialize (M4 G'). split; intros L; split; apply Rmult_le_compat_l; lra.
Qed.
Print Assumptions C64_power_law_partial.
(** an interpolation of this kind: the line through two different nodes *)
Example C64_interpolation_exists : exists cubic, straight_lines cubic.
Proof.
  exists (fun nodes x => match nodes with
    | (x1, y1) :: r => match find (fun n => if Req_EM_T (fst n) x1 then false else true) r with
                       | Some (x2, y2) => y1 + (y2 - y1) / (x2 - x1) * (x - x1) | None => 0 end
    | [] => 0 end).
  intros nodes p q (x1 & y1 & x2 & y2 & I1 & I2 & N) H x. destruct nodes as [|[u v] r]; [destruct I1|].
  destruct (find _ r) as [[u2 v2]|] eqn:F.
  - apply find_some in F. destruct F as [F1 F2]. cbn in F2. destruct (Req_EM_T u2 u); [discriminate|].
    rewrite (H u v), (H u2 v2) by (cbn; auto). field. lra.
  - exfalso. assert (A : forall a b, In (a, b) ((u, v) :: r) -> a = u).
    { intros a b [E|I]; [congruence|]. pose proof (find_none _ _ F _ I) as G. cbn in G. destruct (Req_EM_T a u); [assumption|discriminate]. }
    apply N. rewrite (A _ _ I1), (A _ _ I2). reflexivity.
Qed.
