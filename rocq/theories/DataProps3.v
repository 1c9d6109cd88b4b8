(** Properties of data tables: C53 (magnetic field estimate), C77, C78 (build_data_table). *)
From Coq Require Import Reals List ZArith Bool String Arith Permutation Sorted Lra Lia.
From Verif Require Import BremsModel.
From Verif Require Import Outcome TrapzModel TrapzSpec TrapzProofs SimplexModel UnitsModel DataModel DataSpec DataProofs DataProofs2 DataProps DataProps2.
Import ListNotations.
Local Open Scope R_scope.

(** ** Scaling the fluxes of a table *)
Definition qsc (k : R) (q : qty) : qty := mkQ (map (Rmult k) (vals q)) (qunit q).
Definition flux_column (name : string) : bool :=
  existsb (String.eqb name) ["flux"; "flux_error"; "flux_error_lo"; "flux_error_hi"; "flux_ul"]%string.
(** the same table with all fluxes, flux errors and flux limits multiplied by [k] *)
Definition scale_table (k : R) (t : itab) : itab :=
  mkI (map (fun c : string * qty => if flux_column (fst c) then (fst c, qsc k (snd c)) else c) (cols t)) (i_group t) (i_ul t) (i_cl t).

Definition vsc (k : R) (v : vtab) : vtab :=
  mkV (v_e v) (qsc k (v_f v)) (qsc k (v_flo v)) (qsc k (v_fhi v)) (v_grp v) (v_elo v) (v_ehi v) (v_ul v) (v_cl v).
Definition rsc (k : R) (r : vrow) : vrow :=
  mkR (r_e r) (k * r_f r) (k * r_flo r) (k * r_fhi r) (r_grp r) (r_elo r) (r_ehi r) (r_ul r) (r_cl r).

Lemma dget_scale k t key : dget key (cols (scale_table k t)) =
  match dget key (cols t) with Some q => Some (if flux_column key then qsc k q else q) | None => None end.
Proof.
  unfold scale_table; cbn [cols]. induction (cols t) as [|[n q] r IH]; cbn [map dget fst snd]; [reflexivity|].
  destruct (String.eqb_spec key n) as [ <- |N].
  - destruct (flux_column key) eqn:E; cbn [dget]; rewrite String.eqb_refl; reflexivity.
  - destruct (flux_column n); cbn [dget fst snd]; rewrite (proj2 (String.eqb_neq key n) N); exact IH.
Qed.
Lemma validate_column_scale k t key pts : validate_column (scale_table k t) key pts =
  omap (fun q => if flux_column key then qsc k q else q) (validate_column t key pts).
Proof.
  unfold validate_column. rewrite dget_scale. destruct (dget key (cols t)) as [q|]; [|reflexivity].
  unfold validate_array, validate_physical_type. destruct (flux_column key) eqn:E; cbn [qsc qunit]; destruct (existsb _ pts); cbn [omap]; reflexivity.
Qed.
Lemma has_scale k t key : has (scale_table k t) key = has t key.
Proof. unfold has. rewrite dget_scale. destruct (dget key (cols t)); reflexivity. Qed.
Lemma qto_qsc k u q : qto u (qsc k q) = omap (qsc k) (qto u q).
Proof.
  unfold qto, qsc. cbn [qunit]. destruct (dims_eqb _ _); [|reflexivity]. cbn [omap vals qunit]. do 2 f_equal.
  rewrite !map_map. apply map_ext. intros; ring.
Qed.
Lemma apply_flux_ul_scale k f u t : apply_flux_ul (qsc k f) u (scale_table k t) = omap (qsc k) (apply_flux_ul f u t).
Proof.
  unfold apply_flux_ul. rewrite dget_scale. destruct (dget "flux_ul" (cols t)) as [q|]; [|reflexivity].
  change (flux_column "flux_ul") with true. cbv iota. change (qunit (qsc k f)) with (qunit f). rewrite qto_qsc.
  destruct (qto (qunit f) q) as [q'|]; [|reflexivity]. cbn [omap obind qsc vals qunit]. f_equal. unfold qsc. cbn [vals qunit]. f_equal.
  generalize (vals f) (vals q') u. clear. induction l as [|a l IH]; intros [|b l'] [|c u]; cbn [map combine]; auto.
  f_equal; [cbn [fst snd]; destruct c; reflexivity|apply IH].
Qed.
Lemma omap_id {A} (x : outcome A) : omap (fun q => q) x = x.
Proof. destruct x; reflexivity. Qed.
Lemma validate_single_scale k t g : validate_single (scale_table k t) g = omap (vsc k) (validate_single t g).
Proof.
  unfold validate_single. rewrite !validate_column_scale, !has_scale.
  change (flux_column "energy") with false. change (flux_column "flux") with true. change (flux_column "flux_error") with true.
  change (flux_column "flux_error_lo") with true. change (flux_column "flux_error_hi") with true.
  change (flux_column "energy_width") with false. change (flux_column "energy_error") with false.
  change (flux_column "energy_error_lo") with false. change (flux_column "energy_error_hi") with false.
  change (flux_column "energy_lo") with false. change (flux_column "energy_hi") with false. cbv iota.
  rewrite !omap_id. change (i_group (scale_table k t)) with (i_group t). change (i_ul (scale_table k t)) with (i_ul t). change (i_cl (scale_table k t)) with (i_cl t).
  destruct (validate_column t "energy" _) as [e|]; [|reflexivity]. cbn [obind].
  destruct (validate_column t "flux" _) as [f|]; [|reflexivity]. cbn [obind omap].
  assert (FE : forall (F G : qty * qty -> outcome vtab), (forall lo hi, F (qsc k lo, qsc k hi) = omap (vsc k) (G (lo, hi))) ->
    obind (if has t "flux_error" then omap (fun d => (d, d)) (omap (fun q => qsc k q) (validate_column t "flux_error" flux_types))
       else if (has t "flux_error_lo" && has t "flux_error_hi")%bool
        then obind (omap (fun q => qsc k q) (validate_column t "flux_error_lo" flux_types)) (fun lo =>
              obind (omap (fun q => qsc k q) (validate_column t "flux_error_hi" flux_types)) (fun hi => Ok (lo, hi)))
        else Err "TypeError") F
    = omap (vsc k) (obind (if has t "flux_error" then omap (fun d => (d, d)) (validate_column t "flux_error" flux_types)
       else if (has t "flux_error_lo" && has t "flux_error_hi")%bool
        then obind (validate_column t "flux_error_lo" flux_types) (fun lo =>
              obind (validate_column t "flux_error_hi" flux_types) (fun hi => Ok (lo, hi)))
        else Err "TypeError") G)).
  { intros F G H. destruct (has t "flux_error").
    - destruct (validate_column t "flux_error" flux_types); [apply H|reflexivity].
    - destruct (has t "flux_error_lo" && has t "flux_error_hi")%bool; [|reflexivity].
      destruct (validate_column t "flux_error_lo" flux_types); [|reflexivity]. cbn [omap obind].
      destruct (validate_column t "flux_error_hi" flux_types); [apply H|reflexivity]. }
  apply FE. intros lo hi.
  set (WID := if has t "energy_width" then _ else _). destruct WID as [[wl wh]|]; [|reflexivity]. cbn [obind fst snd].
  destruct (parse_ul _ _) as [u|]; [|reflexivity]. cbn [obind].
  rewrite apply_flux_ul_scale. destruct (apply_flux_ul f u t) as [f'|]; [|reflexivity]. cbn [omap obind].
  destruct (i_cl t) as [c|]; cbn [validate_scalar obind]; reflexivity.
Qed.
Lemma zipw_scale k a : forall b, zipw Rmult (map (Rmult k) a) b = map (Rmult k) (zipw Rmult a b).
Proof. unfold zipw. induction a as [|x a IH]; intros [|y b]; cbn [map combine]; auto. f_equal; [cbn; ring|apply IH]. Qed.
Lemma qmul_scale k a b : qmul (qsc k a) b = qsc k (qmul a b).
Proof. unfold qmul, qsc. cbn [vals qunit]. rewrite zipw_scale. reflexivity. Qed.

Section N.
Variable nu : naima_units.
Lemma dt_sed_scale k v sed : dt_sed_conversion nu (vsc k v) sed = omap (vsc k) (dt_sed_conversion nu v sed).
Proof.
  unfold dt_sed_conversion. cbn [vsc v_e v_f v_flo v_fhi v_grp v_elo v_ehi v_ul v_cl]. change (qunit (qsc k (v_f v))) with (qunit (v_f v)).
  destruct (sed_conversion _ _ _ _) as [us|]; [|reflexivity]. cbn [obind]. rewrite !qmul_scale, !qto_qsc.
  destruct (qto _ (qmul (v_f v) _)); [|reflexivity]. destruct (qto _ (qmul (v_flo v) _)); [|reflexivity].
  destruct (qto _ (qmul (v_fhi v) _)); reflexivity.
Qed.
Lemma rows_scale k v : rows_of (vsc k v) = map (rsc k) (rows_of v).
Proof.
  unfold rows_of. rewrite map_map. apply map_ext. intros i. cbn [vsc v_e v_f v_flo v_fhi v_grp v_elo v_ehi v_ul v_cl qsc vals].
  rewrite !nth_scale. reflexivity.
Qed.
Lemma conv_rows_scale k a b rs : conv_rows a b (map (rsc k) rs) = omap (map (rsc k)) (conv_rows a b rs).
Proof.
  unfold conv_rows. destruct rs as [|r rs]; [reflexivity|]. cbn [map].
  destruct (conv1 (ue a) (ue b)); [|reflexivity]. destruct (conv1 (uf a) (uf b)); [|reflexivity]. destruct (conv1 (uflo a) (uflo b)); [|reflexivity].
  destruct (conv1 (ufhi a) (ufhi b)); [|reflexivity]. destruct (conv1 (uelo a) (uelo b)); [|reflexivity]. destruct (conv1 (uehi a) (uehi b)); [|reflexivity].
  cbn [obind omap]. f_equal. cbn [map]. f_equal; [unfold rsc; cbn; f_equal; ring|].
  rewrite !map_map. apply map_ext. intros x. unfold rsc; cbn; f_equal; ring.
Qed.
Lemma append_scale k cu pt sed vs : append_tables nu cu pt sed (map (vsc k) vs) = omap (map (rsc k)) (append_tables nu cu pt sed vs).
Proof.
  induction vs as [|v vs IH]; cbn [map append_tables]; [reflexivity|]. change (qunit (v_f (vsc k v))) with (qunit (v_f v)).
  destruct (_ || _)%bool; [reflexivity|]. rewrite dt_sed_scale. destruct (dt_sed_conversion nu v sed) as [v'|]; [|reflexivity]. cbn [omap obind].
  change (units_of (vsc k v')) with (units_of v'). rewrite rows_scale, conv_rows_scale. destruct (conv_rows _ _ _) as [rs|]; [|reflexivity]. cbn [omap obind].
  rewrite IH. destruct (append_tables nu cu pt sed vs); [|reflexivity]. cbn [omap obind]. rewrite map_app. reflexivity.
Qed.
Lemma validate_all_scale k ts : forall g, validate_all (map (scale_table k) ts) g = omap (map (vsc k)) (validate_all ts g).
Proof.
  induction ts as [|t ts IH]; intros g; cbn [map validate_all]; [reflexivity|]. rewrite validate_single_scale, IH.
  destruct (validate_single t g); [|reflexivity]. cbn [omap obind]. destruct (validate_all ts (S g)); reflexivity.
Qed.
Variable argsort : list R -> list nat.
Lemma sort_rows_scale k rs : sort_rows argsort (map (rsc k) rs) = map (rsc k) (sort_rows argsort rs).
Proof.
  unfold sort_rows. rewrite !map_map. change (fun x => r_e (rsc k x)) with r_e. apply map_ext. intros i.
  replace row0 with (rsc k row0) at 1 by (unfold rsc, row0; cbn; f_equal; ring). apply map_nth.
Qed.
Lemma validate_table_scale k ts sed : validate_data_table nu argsort (map (scale_table k) ts) sed =
  omap (fun d => (fst d, map (rsc k) (snd d))) (validate_data_table nu argsort ts sed).
Proof.
  unfold validate_data_table. rewrite validate_all_scale. destruct (validate_all ts 0) as [vs|]; [|reflexivity]. cbn [omap obind].
  destruct vs as [|v vs]; cbn [map]; [reflexivity|]. change (qunit (v_f (vsc k v))) with (qunit (v_f v)).
  rewrite dt_sed_scale. destruct (dt_sed_conversion _ _ _) as [v0|]; [|reflexivity]. cbn [omap obind].
  change (units_of (vsc k v0)) with (units_of v0). rewrite append_scale. destruct (append_tables _ _ _ _ _) as [rest|]; [|reflexivity]. cbn [omap obind fst snd].
  rewrite rows_scale, <- map_app, sort_rows_scale. reflexivity.
Qed.
Lemma sinterval_scale_y c x1 x2 y1 y2 : 0 < c -> sinterval x1 x2 (c * y1) (c * y2) = c * sinterval x1 x2 y1 y2.
Proof.
  intros C. pose proof (interval_scale_y c x1 x2 y1 y2 C) as H. unfold interval in H. unfold sinterval.
  destruct (Req_EM_T y1 0) as [ -> |N1]; [destruct (Req_EM_T (c * 0) 0); lra|]. destruct (Req_EM_T (c * y1) 0) as [E|_]; [exfalso; apply N1; nra|].
  destruct (Req_EM_T y2 0) as [ -> |N2]; [destruct (Req_EM_T (c * 0) 0); lra|]. destruct (Req_EM_T (c * y2) 0) as [E|_]; [exfalso; apply N2; nra|].
  destruct (Req_EM_T x1 x2); [lra|]. replace (c * y1 * (c * y2)) with (c * c * (y1 * y2)) by ring. assert (0 < c * c) by nra.
  destruct (Rlt_dec (y1 * y2) 0), (Rlt_dec (c * c * (y1 * y2)) 0); auto; try ring; exfalso; nra.
Qed.
Lemma sinterval_scale_x k x1 x2 y1 y2 : 0 < k -> x1 <> 0 -> sinterval (k * x1) (k * x2) y1 y2 = k * sinterval x1 x2 y1 y2.
Proof.
  intros K N. pose proof (interval_scale_x k x1 x2 y1 y2 K N) as H. unfold interval in H. unfold sinterval.
  destruct (Req_EM_T y1 0); [lra|]. destruct (Req_EM_T y2 0); [lra|].
  destruct (Req_EM_T x1 x2) as [ -> |NE]; [destruct (Req_EM_T (k * x2) (k * x2)); lra|].
  destruct (Req_EM_T (k * x1) (k * x2)) as [E|_]; [exfalso; apply NE; nra|].
  destruct (Rlt_dec (y1 * y2) 0); auto. replace (k * x2 / (k * x1)) with (x2 / x1) by (field; lra). ring.
Qed.
Lemma strapz_cons y1 y2 ys x1 x2 xs : strapz (y1 :: y2 :: ys) (x1 :: x2 :: xs) = sinterval x1 x2 y1 y2 + strapz (y2 :: ys) (x2 :: xs).
Proof. reflexivity. Qed.
Lemma strapz_scale_y c ys : forall xs, 0 < c -> strapz (map (Rmult c) ys) xs = c * strapz ys xs.
Proof.
  induction ys as [|y1 ys IH]; intros xs C; [cbn; ring|]. destruct ys as [|y2 ys]; [destruct xs as [|? [|]]; cbn; ring|].
  destruct xs as [|x1 [|x2 xs]]; [cbn; ring..|]. cbn [map] in *. rewrite !strapz_cons, IH, sinterval_scale_y by exact C. ring.
Qed.
Lemma strapz_scale_x k ys : forall xs, 0 < k -> List.Forall (fun x => x <> 0) xs -> strapz ys (map (Rmult k) xs) = k * strapz ys xs.
Proof.
  induction ys as [|y1 ys IH]; intros xs K F; [cbn; ring|]. destruct ys as [|y2 ys]; [destruct xs as [|? [|]]; cbn; ring|].
  destruct xs as [|x1 [|x2 xs]]; [cbn; ring..|]. inversion F as [|? ? F1 F2]; subst. cbn [map] in *. rewrite !strapz_cons.
  specialize (IH (x2 :: xs) K F2). cbn [map] in IH. rewrite IH, sinterval_scale_x by assumption. ring.
Qed.
Lemma strapz_nonneg_eq ys : forall xs, List.Forall (fun y => 0 <= y) ys -> strapz ys xs = trapz_loglog ys xs.
Proof.
  induction ys as [|y1 ys IH]; intros xs F; [reflexivity|]. destruct ys as [|y2 ys]; [destruct xs as [|? [|]]; reflexivity|].
  destruct xs as [|x1 [|x2 xs]]; [reflexivity..|]. inversion F as [|? ? F1 F2]; subst. inversion F2; subst. rewrite strapz_cons, trapz_cons2, IH by assumption. f_equal.
  unfold sinterval, interval. destruct (Req_EM_T y1 0); auto. destruct (Req_EM_T y2 0); auto. destruct (Req_EM_T x1 x2); auto. destruct (Rlt_dec (y1 * y2) 0); auto. exfalso; nra.
Qed.
Lemma lum_scale k (d : cunits * list vrow) : 0 < k -> lum (fst d, map (rsc k) (snd d)) = k * lum d.
Proof.
  intros K. unfold lum. cbn [fst snd]. rewrite !map_map. change (fun x => r_e (rsc k x)) with r_e.
  replace (map (fun x => r_f (rsc k x) * r_e (rsc k x)) (snd d)) with (map (Rmult k) (map (fun r => r_f r * r_e r) (snd d))).
  - rewrite strapz_scale_y by exact K. ring.
  - rewrite map_map. apply map_ext. intros; unfold rsc; cbn; ring.
Qed.
Definition esc (k : R) (a : ev) : ev := match a with Fin x => Fin (k * x) | _ => a end.
Lemma sqrt_mult_pos k x : 0 < k -> sqrt (k * x) = sqrt k * sqrt x.
Proof.
  intros K. destruct (Rle_dec 0 x) as [H|H]; [apply sqrt_mult; lra|].
  rewrite (sqrt_neg_0 x) by lra. rewrite sqrt_neg_0 by nra. ring.
Qed.

(** ** C53. Multiplying the X-ray fluxes by kx, the VHE fluxes by kv and the photon
    energy density by ku multiplies the estimate by sqrt (kx ku / kv) *)
Theorem C53_scaling : forall xray vhe uph kx kv ku, 0 < kx -> 0 < kv -> 0 < ku ->
  estimate_B nu argsort (map (scale_table kx) xray) (map (scale_table kv) vhe) (ku * uph) =
  omap (esc (sqrt (kx * ku / kv))) (estimate_B nu argsort xray vhe uph).
Proof.
  intros xray vhe uph kx kv ku X V U. unfold estimate_B. rewrite !validate_table_scale.
  destruct (validate_data_table nu argsort xray (Some false)) as [x|]; [|reflexivity].
  destruct (validate_data_table nu argsort vhe (Some false)) as [v|]; [|reflexivity]. cbn [omap obind].
  rewrite !lum_scale by assumption. f_equal. unfold field_of. set (Lx := lum x). set (Lv := lum v).
  assert (KP : 0 < kx * ku / kv) by (apply Rdiv_lt_0_compat; [apply Rmult_lt_0_compat|]; assumption).
  destruct (Req_EM_T Lv 0) as [ -> |NV].
  - destruct (Req_EM_T (kv * 0) 0); [|lra]. assert (PK : 0 < kx * ku) by (apply Rmult_lt_0_compat; assumption).
    destruct (Rlt_dec 0 (Lx * uph)) as [Q|Q], (Rlt_dec 0 (kx * Lx * (ku * uph))) as [Q'|Q']; cbn [esc]; auto; exfalso; replace (kx * Lx * (ku * uph)) with (kx * ku * (Lx * uph)) in Q' by ring.
    + apply Q'. apply Rmult_lt_0_compat; assumption.
    + apply Q. apply Rmult_lt_reg_l with (kx * ku); [exact PK|]. rewrite Rmult_0_r. exact Q'.
  - destruct (Req_EM_T (kv * Lv) 0) as [E|_]; [exfalso; apply NV; nra|]. cbv zeta.
    replace (kx * Lx / (kv * Lv) * 8 * PI * (ku * uph)) with (kx * ku / kv * (Lx / Lv * 8 * PI * uph)) by (field; split; lra).
    set (q := Lx / Lv * 8 * PI * uph).
    destruct (Rlt_dec q 0) as [Q|Q], (Rlt_dec (kx * ku / kv * q) 0) as [Q'|Q']; cbn [esc]; auto; try (exfalso; nra).
    f_equal. apply sqrt_mult_pos. exact KP.
Qed.
(** in particular a common scale (a distance, say) is irrelevant *)
Theorem C53_common_scale : forall xray vhe uph k, 0 < k ->
  estimate_B nu argsort (map (scale_table k) xray) (map (scale_table k) vhe) uph = estimate_B nu argsort xray vhe uph.
Proof.
  intros xray vhe uph k K. rewrite <- (Rmult_1_l uph) at 1. rewrite C53_scaling by lra.
  replace (k * 1 / k) with 1 by (field; lra). rewrite sqrt_1.
  destruct (estimate_B nu argsort xray vhe uph) as [a|]; [cbn; f_equal; destruct a; cbn [esc]; auto; f_equal; ring|reflexivity].
Qed.

(** *** The value. Integral of E F over the sorted observations *)
Definition energy_integral (o : list obs) : R := strapz (map (fun p => o_F p * o_E p) o) (map o_E o).
Lemma lum_phys (NU : positive_units nu) cu rows : 0 < scale (ue cu) -> 0 < scale (uf cu) -> List.Forall (fun r => r_e r <> 0) rows ->
  lum (cu, rows) = energy_integral (map (output_row cu) rows).
Proof.
  intros P1 P2 NZ. unfold lum, energy_integral. cbn [fst snd]. rewrite !map_map.
  replace (map (fun x => o_E (output_row cu x)) rows) with (map (Rmult (scale (ue cu))) (map r_e rows)) by (rewrite map_map; apply map_ext; intros; unfold output_row, o_E; ring).
  replace (map (fun x => o_F (output_row cu x) * o_E (output_row cu x)) rows) with (map (Rmult (scale (uf cu) * scale (ue cu))) (map (fun r => r_f r * r_e r) rows))
    by (rewrite map_map; apply map_ext; intros; unfold output_row, o_E, o_F; ring).
  rewrite strapz_scale_y by (apply Rmult_lt_0_compat; assumption). rewrite strapz_scale_x; [ring|exact P1|].
  rewrite Forall_map. exact NZ.
Qed.
Theorem C53_value : forall xray vhe uph B, positive_units nu -> is_argsort argsort ->
  List.Forall rect xray -> List.Forall rect vhe ->
  (forall o, In o (input_rows false xray 0 ++ input_rows false vhe 0) -> 0 < o_E o) ->
  estimate_B nu argsort xray vhe uph = Ok B ->
  exists x v, StronglySorted Rle (map o_E x) /\ Permutation x (input_rows false xray 0) /\
              StronglySorted Rle (map o_E v) /\ Permutation v (input_rows false vhe 0) /\
              (let q := energy_integral x / energy_integral v * (8 * PI * uph) in
               energy_integral v <> 0 -> (0 <= q -> B = Fin (sqrt q)) /\ (q < 0 -> B = NaN)).
Proof.
  intros xray vhe uph B NU A RX RV POS H. unfold estimate_B in H. obn H x F1. obn H v F2. apply ok_inj in H. subst B.
  destruct x as [cx rx], v as [cv rv].
  destruct (C49_rows_sorted_permutation nu NU argsort _ _ _ _ A RX F1) as (S1 & P1 & D1).
  destruct (C49_rows_sorted_permutation nu NU argsort _ _ _ _ A RV F2) as (S2 & P2 & D2).
  cbn [wants_sed] in P1, P2.
  assert (PU : forall ts cu rows, List.Forall rect ts -> validate_data_table nu argsort ts (Some false) = Ok (cu, rows) -> pos_cu cu).
  { intros ts cu rows RT F. unfold validate_data_table in F. obn F vs G. destruct ts as [|t ts]; cbn [validate_all] in G; [inv G; discriminate|].
    obn G v0 G1. obn G vs' G2. inv G. obn F v1 F3. obn F rest F4. inv F. inv RT. eapply units_pos; eauto. }
  assert (NZ : forall cu rows obsl, pos_cu cu -> Permutation (map (output_row cu) rows) obsl -> (forall o, In o obsl -> 0 < o_E o) -> List.Forall (fun r => r_e r <> 0) rows).
  { intros cu rows obsl (Pe & _) P HO. apply Forall_forall. intros r Hr EZ.
    assert (I : In (output_row cu r) obsl) by (eapply Permutation_in; [exact P|apply in_map, Hr]).
    specialize (HO _ I). unfold output_row, o_E in HO. rewrite EZ in HO. lra. }
  exists (map (output_row cx) rx), (map (output_row cv) rv). rewrite !map_map.
  split; [exact S1|]. split; [exact P1|]. split; [exact S2|]. split; [exact P2|].
  pose proof (PU _ _ _ RX F1) as PX. pose proof (PU _ _ _ RV F2) as PV.
  rewrite !lum_phys; [|exact NU|apply PV|apply PV| |exact NU|apply PX|apply PX| ].
  - intros q NV. unfold field_of. destruct (Req_EM_T _ 0); [contradiction|]. cbv zeta.
    replace (_ * 8 * PI * uph) with q by (unfold q; ring). destruct (Rlt_dec q 0); split; intros; auto; lra.
  - eapply NZ; [exact PV|exact P2|]. intros o Ho; apply POS, in_or_app; auto.
  - eapply NZ; [exact PX|exact P1|]. intros o Ho; apply POS, in_or_app; auto.
Qed.
(** so that, with positive luminosities, B^2 / (8 pi) over the photon energy density is
    the ratio of the energy fluxes *)
Theorem C53_energy_density_ratio : forall Lx Lv uph B, 0 < Lx -> 0 < Lv -> 0 < uph -> B = sqrt (Lx / Lv * (8 * PI * uph)) ->
  0 < B /\ B ^ 2 / (8 * PI) / uph = Lx / Lv.
Proof.
  intros Lx Lv uph B H1 H2 H3 ->. pose proof PI_RGT_0.
  assert (P : 0 < Lx / Lv * (8 * PI * uph)) by (apply Rmult_lt_0_compat; [apply Rdiv_lt_0_compat; auto|apply Rmult_lt_0_compat; lra]).
  split; [apply sqrt_lt_R0; exact P|]. cbn [pow]. rewrite Rmult_1_r, sqrt_sqrt by lra. field. repeat split; lra.
Qed.
(** the luminosity of two or more positive measurements at different energies is positive *)
Theorem C53_luminosity_positive : forall o1 o2 o, StronglySorted Rlt (map o_E (o1 :: o2 :: o)) -> List.Forall (fun p => 0 < o_E p /\ 0 < o_F p) (o1 :: o2 :: o) ->
  0 < energy_integral (o1 :: o2 :: o).
Proof.
  intros o1 o2 o S F. unfold energy_integral. cbn [map]. inversion F as [|? ? (A1 & A2) F']; subst. inversion F' as [|? ? (B1 & B2) F'']; subst.
  rewrite strapz_nonneg_eq; [apply trapz_pos|].
  - split; [|exact S]. constructor; [exact A1|constructor; [exact B1|]]. rewrite Forall_map. eapply Forall_impl; [|exact F'']. intros p (Q & _); exact Q.
  - apply Rmult_lt_0_compat; assumption.
  - apply Rmult_lt_0_compat; assumption.
  - rewrite Forall_map. eapply Forall_impl; [|exact F'']. intros p (Q1 & Q2). cbn. apply Rmult_le_pos; lra.
  - constructor; [apply Rmult_le_pos; lra|constructor; [apply Rmult_le_pos; lra|]].
    rewrite Forall_map. eapply Forall_impl; [|exact F'']. intros p (Q1 & Q2). cbn. apply Rmult_le_pos; lra.
Qed.
End N.
(** the hypotheses of C53_value are met by two copies of the example table *)
Example C53_value_example : exists B, estimate_B nu1 isort [ex_tab] [ex_tab] 1 = Ok B /\
  (forall o, In o (input_rows false [ex_tab] 0 ++ input_rows false [ex_tab] 0) -> 0 < o_E o).
Proof.
  destruct (ex_tab_accepted isort (Some false)) as (d & _).
  assert (OK1 : is_ok (validate_data_table nu1 isort [ex_tab] (Some false))).
  { apply (C52_accepted_iff_well_formed nu1 nu1_pos).
    - constructor; [apply ex_tab_rect|constructor].
    - repeat constructor; cbn; lia.
    - split; [discriminate|]. split; [constructor; [apply ex_tab_wf|constructor]|]. intros t t' [ <- |[]] [ <- |[]]; tauto. }
  destruct OK1 as (x & E). unfold estimate_B. rewrite E. cbn [obind]. eexists. split; [reflexivity|].
  intros o Ho. cbn [input_rows app] in Ho. rewrite !app_nil_r in Ho. cbn [nrows ex_tab cols dget String.eqb Ascii.eqb Bool.eqb List.length vals seq map app] in Ho.
  destruct Ho as [ <- |[ <- |[ <- |[ <- |[]]]]]; unfold input_row, o_E, pcol, phys; cbn [ex_tab cols dget String.eqb Ascii.eqb Bool.eqb vals qunit scale nth]; lra.
Qed.

(** ** C77 (refuted, code defect). A flux table and a luminosity table are accepted
    together: the unit of the ratio is dropped, and the "field" then depends on the
    unit system of the reduction - here on the size of the length unit. *)
Theorem C77_mixed_tables_refuted : forall t1 t2 nu argsort uph, positive_units nu -> rect t1 -> rect t2 -> (0 < nrows t1)%nat -> (0 < nrows t2)%nat ->
  well_formed t1 -> well_formed t2 -> per_area t1 -> ~ per_area t2 -> is_ok (estimate_B nu argsort [t1] [t2] uph).
Proof.
  intros t1 t2 nu argsort uph NU R1 R2 N1 N2 W1 W2 _ _. unfold estimate_B.
  assert (OK1 : forall t, rect t -> (0 < nrows t)%nat -> well_formed t -> is_ok (validate_data_table nu argsort [t] (Some false))).
  { intros t R N W. apply (C52_accepted_iff_well_formed nu NU); [constructor; auto|constructor; auto|].
    split; [discriminate|]. split; [constructor; auto|]. intros x x' [ <- |[]] [ <- |[]]; tauto. }
  destruct (OK1 t1 R1 N1 W1) as (x & ->), (OK1 t2 R2 N2 W2) as (v & ->). eexists; reflexivity.
Qed.
Example C77_example : is_ok (estimate_B nu1 isort [ex_tab] [ex_lum] 1).
Proof.
  apply C77_mixed_tables_refuted; try (cbn; lia); [apply nu1_pos|apply ex_tab_rect|apply ex_lum_rect|apply ex_tab_wf| |reflexivity|unfold per_area; cbn; discriminate].
  unfold well_formed, col_has. split; [eexists; split; reflexivity|]. split; [|split; exact I].
  exists d_diff_power. split; [eexists; split; reflexivity|]. split; [right; right; right; reflexivity|].
  split; [eexists; split; reflexivity|intros H; discriminate H].
Qed.

(** ** C78. build_data_table *)
Lemma build_cols_get a cs : build_cols a = Ok cs ->
  dget "energy" cs = Some (b_energy a) /\ dget "flux" cs = Some (b_flux a) /\ dget "flux_ul" cs = None /\
  dget "flux_error" cs = b_ferr a /\
  (b_ferr a = None -> dget "flux_error_lo" cs = b_flo a /\ dget "flux_error_hi" cs = b_fhi a /\ b_flo a <> None /\ b_fhi a <> None) /\
  dget "energy_width" cs = b_width a /\ dget "energy_error" cs = None /\ dget "energy_error_lo" cs = None /\
  (b_width a = None -> match b_elo a, b_ehi a with
                       | Some l, Some h => dget "energy_lo" cs = Some l /\ dget "energy_hi" cs = Some h
                       | _, _ => dget "energy_lo" cs = None /\ dget "energy_hi" cs = None end).
Proof.
  intros H. unfold build_cols in H. cbv zeta in H. obn H fe F. inv H.
  destruct (b_ferr a) as [d|]; [inv F|destruct (b_flo a) as [l|]; [destruct (b_fhi a) as [h|]; [inv F|discriminate]|discriminate]];
  (destruct (b_width a) as [w|]; [|destruct (b_elo a) as [el|]; [destruct (b_ehi a) as [eh|]|]]);
  cbn [app dget String.eqb Ascii.eqb Bool.eqb]; repeat split; intros; try discriminate; auto.
Qed.

(** What it returns holds the arguments, row by row, and is accepted by
    validate_data_table whatever the output format asked for *)
Theorem C78_content_partial : forall nu argsort a t, positive_units nu -> List.Forall (fun c : string * qty => 0 < scale (qunit (snd c))) (cols t) -> (0 < List.length (vals (b_energy a)))%nat ->
  build_data_table nu argsort a = Ok t ->
  dget "energy" (cols t) = Some (b_energy a) /\ dget "flux" (cols t) = Some (b_flux a) /\
  (match b_ferr a with
   | Some d => dget "flux_error" (cols t) = Some d
   | None => dget "flux_error_lo" (cols t) = b_flo a /\ dget "flux_error_hi" (cols t) = b_fhi a /\ b_flo a <> None /\ b_fhi a <> None end) /\
  dget "energy_width" (cols t) = b_width a /\
  (b_width a = None -> b_elo a <> None -> b_ehi a <> None -> dget "energy_lo" (cols t) = b_elo a /\ dget "energy_hi" (cols t) = b_ehi a) /\
  i_cl t = b_cl a /\ (forall i l, b_ul a = Some l -> row_is_ul t i = negb (Z.eqb (nth i l 0%Z) 0)) /\ (forall i, b_ul a = None -> row_is_ul t i = false) /\
  rect t /\ forall sed, is_ok (validate_data_table nu argsort [t] sed).
Proof.
  intros nu argsort a t NU PU NE H. unfold build_data_table in H. obn H cs F. destruct (same_lengths _ _ _) eqn:SL; [|discriminate].
  cbv zeta in H. obn H d V. apply ok_inj in H. subst t. cbn [cols i_cl] in *.
  destruct (build_cols_get _ _ F) as (G1 & G2 & G3 & G4 & G5 & G6 & G7 & G8 & G9).
  assert (R : rect (mkI cs None (option_map UInt (b_ul a)) (b_cl a))).
  { unfold same_lengths in SL. apply andb_true_iff in SL. destruct SL as (S1 & S2). rewrite forallb_forall in S1. rewrite Forall_forall in PU.
    assert (NR : nrows (mkI cs None (option_map UInt (b_ul a)) (b_cl a)) = List.length (vals (b_energy a))) by (unfold nrows; cbn [cols]; rewrite G1; reflexivity).
    split; [|split]; rewrite ?NR; cbn [cols i_group i_ul].
    - apply Forall_forall. intros c Hc. split; [apply Nat.eqb_eq, S1, Hc|apply PU, Hc].
    - discriminate.
    - intros u m Hu Hm. destruct (b_ul a) as [l|]; cbn in Hu; [|discriminate]. inv Hu. cbn in Hm. inv Hm. apply Nat.eqb_eq, S2. }
  split; [exact G1|]. split; [exact G2|]. split. { destruct (b_ferr a); [rewrite G4; reflexivity|apply G5; reflexivity]. }
  split; [exact G6|]. split. { intros W N1 N2. specialize (G9 W). destruct (b_elo a), (b_ehi a); try congruence. }
  split; [reflexivity|]. split. { intros i l Hl. unfold row_is_ul; cbn [i_ul]. rewrite Hl. reflexivity. }
  split. { intros i Hl. unfold row_is_ul; cbn [i_ul]. rewrite Hl. reflexivity. }
  split; [exact R|]. intros sed.
  assert (OKN : is_ok (validate_data_table nu argsort [mkI cs None (option_map UInt (b_ul a)) (b_cl a)] None)) by (exists d; exact V).
  assert (NN : List.Forall (fun t => (0 < nrows t)%nat) [mkI cs None (option_map UInt (b_ul a)) (b_cl a)]).
  { constructor; [|constructor]. unfold nrows; cbn [cols]. rewrite G1. exact NE. }
  apply (C52_accepted_iff_well_formed nu NU); [constructor; auto|exact NN|].
  apply (C52_accepted_iff_well_formed nu NU) in OKN; [exact OKN|constructor; auto|exact NN].
Qed.
(** Missing flux errors are always rejected *)
Theorem C78_errors_required_partial : forall nu argsort a, b_ferr a = None -> (b_flo a = None \/ b_fhi a = None) -> build_data_table nu argsort a = Err "TypeError".
Proof.
  intros nu argsort a H [H1|H1]; unfold build_data_table, build_cols; rewrite H, H1; [reflexivity|]. destruct (b_flo a); reflexivity.
Qed.
(** Refuted (code defect) for "all data given are used or rejected": a lower bin edge
    without the upper one is dropped without any error *)
Theorem C78_one_edge_dropped_refuted : forall nu argsort a l t, b_width a = None -> b_elo a = Some l -> b_ehi a = None ->
  build_data_table nu argsort a = Ok t ->
  present t "energy_lo" = false /\
  build_data_table nu argsort (mkB (b_energy a) (b_flux a) (b_ferr a) (b_flo a) (b_fhi a) None None None (b_ul a) (b_cl a)) = Ok t.
Proof.
  intros nu argsort a l t W L H E.
  assert (EQ : build_data_table nu argsort (mkB (b_energy a) (b_flux a) (b_ferr a) (b_flo a) (b_fhi a) None None None (b_ul a) (b_cl a)) = build_data_table nu argsort a).
  { unfold build_data_table, build_cols. cbn [b_energy b_flux b_ferr b_flo b_fhi b_width b_elo b_ehi b_ul b_cl]. rewrite W, L, H. reflexivity. }
  split; [|rewrite EQ; exact E].
  unfold build_data_table in E. obn E cs F. destruct (same_lengths _ _ _); [|discriminate]. cbv zeta in E. obn E d V. apply ok_inj in E. subst t.
  destruct (build_cols_get _ _ F) as (_ & _ & _ & _ & _ & _ & _ & _ & G). specialize (G W). rewrite L, H in G. unfold present; cbn [cols]. destruct G as (-> & _). reflexivity.
Qed.
(** hypotheses met *)
Definition ex_args : bargs := mkB (mkQ [1; 4] (mkU 2 d_energy)) (mkQ [3; 5] (mkU 7 d_diff_flux)) (Some (mkQ [1; 2] (mkU 7 d_diff_flux))) None None None (Some (mkQ [1; 2] (mkU 2 d_energy))) None None None.
Example C78_example : forall argsort, exists t, build_data_table nu1 argsort ex_args = Ok t.
Proof.
  intros argsort. unfold build_data_table, build_cols, ex_args. cbn [b_energy b_flux b_ferr b_flo b_fhi b_width b_elo b_ehi b_ul b_cl obind app]. cbv zeta.
  match goal with |- exists t, (if ?s then _ else _) = _ => change s with true end. cbv iota.
  match goal with |- exists t, obind (validate_data_table nu1 argsort [?T] None) _ = _ => set (tt := T) end.
  assert (OK1 : is_ok (validate_data_table nu1 argsort [tt] None)).
  { apply (C52_accepted_iff_well_formed nu1 nu1_pos).
    - constructor; [|constructor]. split; [|split]; [|discriminate|discriminate]. cbn [tt cols nrows dget String.eqb Ascii.eqb Bool.eqb]. repeat constructor; cbn; lra.
    - repeat constructor; cbn; lia.
    - split; [discriminate|]. split; [constructor; [|constructor]|intros t t' [ <- |[]] [ <- |[]]; tauto].
      unfold well_formed, col_has. split; [eexists; split; reflexivity|]. split; [|split; exact I].
      exists d_diff_flux. split; [eexists; split; reflexivity|]. split; [right; left; reflexivity|].
      split; [eexists; split; reflexivity|intros H; discriminate H]. }
  destruct OK1 as (d & ->). cbn [obind]. eauto.
Qed.

Print Assumptions C53_scaling.
Print Assumptions C53_value.
Print Assumptions C53_luminosity_positive.
Print Assumptions C77_mixed_tables_refuted.
Print Assumptions C78_content_partial.
Print Assumptions C78_errors_required_partial.
Print Assumptions C78_one_edge_dropped_refuted.
