(** Properties C167, C168: what the interactive fitter shows. *)
From Coq Require Import Reals List ZArith Bool String Arith Permutation Sorted Lra Lia.
From Verif Require Import Outcome SimplexModel UnitsModel DataModel DataSpec DataProofs DataProofs2 DataProps DataProps2 DataProps4 CoreModel CoreProps EndModel EndProps
  AnalysisModel PlotModel2 PlotProps5 CurveModel CurveProps ViewModel.
Import ListNotations.
Local Open Scope R_scope.

(** ** Specification *)
(** [q] is the first output of the model function for the energies [E] *)
Inductive first_output (E : qty) : mout -> qty -> Prop :=
| fo_only q : first_output E (MQ q) q
| fo_tuple q l : first_output E (MTuple (BQ q :: l)) q
| fo_scalar v u l : first_output E (MTuple (BScalar v u :: l)) (mkQ (map (fun _ => v) (vals E)) u).
(** for the parameters [p] the model function computes the SED [S], as a flux or as a
    luminosity, whatever it is given besides the energies *)
Definition computes_at {Cols} (area : bool) (fn : modelfn Cols) (p : list R) (S : R -> R) : Prop := forall v,
  dim (qunit (v_energy v)) = d_energy -> 0 < scale (qunit (v_energy v)) -> List.Forall (fun x => 0 < x) (vals (v_energy v)) ->
  exists m q, fn p v = Ok m /\ first_output (v_energy v) m q /\ 0 < scale (qunit q) /\ List.length (vals q) = List.length (vals (v_energy v)) /\
    (if area then CoreProps.flux_like (dim (qunit q)) else power_like (dim (qunit q))) /\
    forall i, (i < List.length (vals (v_energy v)))%nat ->
      phys_sed (dim (qunit q)) (scale (qunit q)) (nth i (vals q) 0) (phys (v_energy v) i) = S (phys (v_energy v) i).
(** [n] energies from [lo] to [hi], equally spaced in logarithm *)
Definition log_spaced (lo hi : R) (n : nat) (E : list R) : Prop :=
  List.length E = n /\ nth 0 E 0 = lo /\ nth (Nat.pred n) E 0 = hi /\
  exists q, 1 < q /\ forall i, (S i < n)%nat -> nth (S i) E 0 = q * nth i E 0.
(** the energies (in the reference system) at which the user wants to see the model, and the
    unit of the energy axis: e_range if given, else the energies of the data, else 100 MeV - 100 TeV *)
Inductive asked {Cols} (nu : naima_units) : option (vdata Cols) -> option (R * R * unit_) -> nat -> list R -> unit_ -> Prop :=
| asked_data d n : asked nu (Some d) None n (map (fun r => r_e r * scale (ue (d_units d))) (d_rows d)) (ue (d_units d))
| asked_range d a b u n E : log_spaced (a * scale u) (b * scale u) n E -> asked nu (Some d) (Some (a, b, u)) n E (ue (d_units d))
| asked_range_only a b u n E : log_spaced (a * scale u) (b * scale u) n E -> asked nu None (Some (a, b, u)) n E u
| asked_default n E : log_spaced (u_TeV nu / 10000) (100 * u_TeV nu) n E -> asked nu None None n E (mkU (u_TeV nu) d_energy).
(** a table as naima.utils.validate_data_table leaves it, with positive energies *)
Definition proper_table {Cols} (d : vdata Cols) : Prop :=
  dim (ue (d_units d)) = d_energy /\ pos_cu (d_units d) /\ List.Forall (fun r => 0 < r_e r) (d_rows d).
Definition proper_range (e_range : option (R * R * unit_)) : Prop :=
  forall a b u, e_range = Some (a, b, u) -> 0 < a < b /\ dim u = d_energy /\ 0 < scale u.
Definition opt_table {Cols} (data : option (vdata Cols)) : Prop := forall d, data = Some d -> proper_table d.

(** ** Proofs *)
Lemma process_first E m q : process_model E m = Ok q <-> first_output E m q.
Proof.
  split.
  - destruct m as [q'|[|[q'|v u| |l'|] l]]; cbn; intros H; try discriminate; injection H as <-; constructor.
  - intros H. inversion H; subst; reflexivity.
Qed.
Lemma grid_spaced a b u n : 0 < a < b -> 0 < scale u -> (2 <= n)%nat ->
  log_spaced (a * scale u) (b * scale u) n (map (fun v => v * scale u) (logspace a b n)).
Proof.
  intros [A B] U N. destruct (C104_grid a b n A B N) as (G1 & G2 & G3 & G4 & (q & G5)).
  assert (NM : forall i, nth i (map (fun v => v * scale u) (logspace a b n)) 0 = nth i (logspace a b n) 0 * scale u).
  { intros i. rewrite <- (map_nth (fun v => v * scale u)). f_equal. ring. }
  unfold log_spaced. rewrite map_length, !NM, G1, G2, G3. repeat (split; [reflexivity|]). exists q. split.
  - specialize (G4 0%nat ltac:(lia)). specialize (G5 0%nat ltac:(lia)). rewrite G2 in *. nra.
  - intros i Hi. rewrite !NM, (G5 i Hi). ring.
Qed.
Lemma grid_pos a b n : 0 < a < b -> List.Forall (fun x => 0 < x) (logspace a b n).
Proof.
  intros H. apply Forall_forall. intros x Hx. unfold logspace in Hx. apply in_map_iff in Hx. destruct Hx as (i & <- & _). apply exp_pos.
Qed.
Section Th.
  Variables (Cols : Type) (nu : naima_units).
  Hypothesis NU : positive_units nu.
  Lemma energies_asked (data : option (vdata Cols)) e_range n : opt_table data -> proper_range e_range -> (2 <= n)%nat ->
    exists e eu, shown_energies nu data e_range n = Ok (e, eu) /\ dim (qunit e) = d_energy /\ 0 < scale (qunit e) /\
      List.Forall (fun x => 0 < x) (vals e) /\ dim eu = d_energy /\ 0 < scale eu /\
      asked nu data e_range n (map (fun v => v * scale (qunit e)) (vals e)) eu /\
      (e_range = None -> forall d, data = Some d -> e = v_energy (data_view d)).
  Proof.
    intros OT PR N2. unfold shown_energies. destruct NU as (P1 & P2 & P3 & P4).
    destruct e_range as [[[a b] u]|].
    - destruct (PR a b u eq_refl) as (AB & DU & SU). rewrite DU, dims_eqb_refl. cbn [negb].
      destruct data as [d|].
      + destruct (OT d eq_refl) as (DE & PU & PE). destruct PU as (U1 & _).
        unfold qto. cbn [qunit vals]. rewrite DU, DE, dims_eqb_refl. cbn [obind]. do 2 eexists. split; [reflexivity|]. cbn [qunit vals].
        split; [exact DE|]. split; [exact U1|]. split.
        { rewrite Forall_map. eapply Forall_impl; [|apply grid_pos, AB]. cbv beta. intros x Hx. unfold Rdiv. apply Rmult_lt_0_compat; [exact Hx|]. apply Rmult_lt_0_compat; [exact SU|]. apply Rinv_0_lt_compat, U1. }
        split; [exact DE|]. split; [exact U1|]. split; [|discriminate].
        rewrite map_map. erewrite map_ext; [apply asked_range, grid_spaced; assumption|]. intros x. cbv beta. field. lra.
      + do 2 eexists. split; [reflexivity|]. cbn [qunit vals]. split; [exact DU|]. split; [exact SU|]. split; [apply grid_pos, AB|]. split; [exact DU|]. split; [exact SU|].
        split; [|discriminate]. apply asked_range_only, grid_spaced; assumption.
    - destruct data as [d|].
      + destruct (OT d eq_refl) as (DE & PU & PE). destruct PU as (U1 & _). do 2 eexists. split; [reflexivity|]. cbn [qunit vals].
        split; [exact DE|]. split; [exact U1|]. split; [rewrite Forall_map; exact PE|]. split; [exact DE|]. split; [exact U1|].
        split; [rewrite map_map; apply asked_data|]. intros _ d' E. injection E as <-. reflexivity.
      + do 2 eexists. split; [reflexivity|]. cbn [qunit vals dim scale]. split; [reflexivity|]. split; [exact P2|]. split; [apply grid_pos; lra|].
        split; [reflexivity|]. split; [exact P2|]. split; [|discriminate]. apply asked_default.
        pose proof (grid_spaced (1 / 10000) 100 (mkU (u_TeV nu) d_energy) n ltac:(lra) P2 N2) as G. cbn [scale] in G.
        replace (u_TeV nu / 10000) with (1 / 10000 * u_TeV nu) by field. exact G.
  Qed.

  Lemma kind_convertible (area : bool) d : (if area then CoreProps.flux_like d else power_like d) -> convertible d.
  Proof. unfold convertible, DataSpec.flux_like. destruct area; intros [ -> | -> ]; tauto. Qed.
  Lemma kind_documented (area : bool) sed d : (if area then CoreProps.flux_like d else power_like d) ->
    documented nu sed d = documented nu sed (if area then d_flux else d_power).
  Proof. destruct area; intros [ -> | -> ]; reflexivity. Qed.
  Lemma kind_sed (area : bool) (sed : bool) d v E : (if area then CoreProps.flux_like d else power_like d) -> E <> 0 ->
    forall sc, v * sc * sed_factor sed d E = if sed then phys_sed d sc v E else phys_sed d sc v E / E ^ 2.
  Proof. intros K NE sc. unfold sed_factor, phys_sed. destruct area; destruct K as [ -> | -> ]; destruct sed; cbn; field; lra. Qed.

  (** the line drawn by the fitter is the line of plot.py *)
  Lemma curve_is_line eu sed x m fs : sed_conversion nu x (qunit m) sed = Ok fs -> curve_line eu (fst fs) (snd fs) x m = line nu eu sed (x, m).
  Proof.
    intros E. unfold curve_line, line. rewrite E. cbn [obind]. destruct (negb _); reflexivity.
  Qed.

  (** ** C167. The curve *)
  (** The fitter draws the SED of the model (or SED / E^2) at the energies asked for, in the
      documented units, with the energy axis in the unit of the data if there is data. *)
  Theorem C167_curve : forall (area : bool) fn p S (data : option (vdata Cols)) e_range n sed fr,
    computes_at area fn p S -> opt_table data -> proper_range e_range -> (2 <= n)%nat ->
    first_frame nu fn p data e_range n sed = Ok fr ->
    exists E, asked nu data e_range n E (f_eunit fr) /\ List.length (f_points fr) = List.length E /\
      f_unit fr = documented nu sed (if area then d_flux else d_power) /\
      forall i, (i < List.length E)%nat -> let e := nth i E 0 in
        fst (nth i (f_points fr) (0, 0)) * scale (f_eunit fr) = e /\
        snd (nth i (f_points fr) (0, 0)) * scale (f_unit fr) = (if sed then S e else S e / e ^ 2).
  Proof.
    intros area fn p S data e_range n sed fr CA OT PR N2 H.
    destruct (energies_asked data e_range n OT PR N2) as (e & eu & SE & DE & PE & FE & DU & PU & AS & _).
    unfold first_frame, data_for_model in H. rewrite SE in H. cbn [obind fst snd] in H. cbv zeta in H.
    match type of H with context [evaluate nu fn data ?vv p] => set (v := vv) in * end.
    destruct (CA v DE PE FE) as (m & q & FN & FO & SQ & LQ & KD & PS). cbn [v v_energy] in LQ, PS.
    unfold evaluate in H. rewrite FN in H. cbn [obind] in H. apply process_first in FO. rewrite FO in H. cbn [obind v v_energy] in H.
    assert (EV : exists l, obind (A := qty * option R) (match data with None => Ok (q, None) | Some d => obind (if same_energies e (v_energy (data_view d)) then Ok q else obind (fn p (data_view d)) (process_model (v_energy (data_view d)))) (fun m' => obind (lnprobmodel nu m' (fit_table (d_units d, d_rows d))) (fun l => Ok (q, Some l))) end) Ok = Ok (q, l)).
    { destruct data as [d|]; [|eexists; reflexivity].
      destruct (obind _ _) as [[q' l]|] eqn:K in H; cbn [obind] in H; [|discriminate].
      destruct (if same_energies e (v_energy (data_view d)) then _ else _) as [m'|]; cbn [obind] in *; [|discriminate].
      destruct (lnprobmodel nu m' _) as [l'|]; cbn [obind] in *; [|discriminate]. eexists; reflexivity. }
    destruct EV as (l & EV).
    assert (H' : obind (sed_conversion nu e (qunit q) sed) (fun fs => obind (x_limits data e eu) (fun xl => obind (curve_line eu (fst fs) (snd fs) e q) (fun pts => Ok (mkFrame v eu (fst fs) (snd fs) pts l xl)))) = Ok fr).
    { destruct data as [d|]; cbn [obind] in H, EV.
      - destruct (if same_energies e (v_energy (data_view d)) then _ else _) as [m'|]; cbn [obind] in *; [|discriminate].
        destruct (lnprobmodel nu m' _) as [l'|]; cbn [obind] in *; [|discriminate]. injection EV as <-. exact H.
      - injection EV as <-. exact H. }
    clear H EV. destruct (sed_conversion nu e (qunit q) sed) as [fs|] eqn:SC; cbn [obind] in H'; [|discriminate].
    destruct (x_limits data e eu) as [xl|]; cbn [obind] in H'; [|discriminate].
    rewrite (curve_is_line eu sed e q fs SC) in H'.
    destruct (line nu eu sed (e, q)) as [pts|] eqn:LN; cbn [obind] in H'; [|discriminate]. injection H' as <-.
    cbn [f_eunit f_points f_unit].
    pose proof (kind_convertible _ _ KD) as CV.
    assert (PP : proper e q) by (split; assumption).
    destruct (line_shows nu NU eu sed e q pts PU PP LN) as (L1 & L2 & SH).
    destruct (C50_documented_units nu e (qunit q) sed NU CV DE) as (sf & S1 & _). rewrite S1 in SC. injection SC as <-. cbn [fst].
    pose proof (kind_documented area sed _ KD) as KE.
    eexists. split; [exact AS|]. rewrite map_length. split; [exact L1|]. split; [exact KE|].
    intros i Hi. cbv zeta. rewrite (nth_map_gen _ _ _ 0) by exact Hi. specialize (SH i ltac:(lia)). destruct SH as (A & B). rewrite A, B.
    change (nth i (vals e) 0 * scale (qunit e)) with (phys e i). split; [reflexivity|].
    assert (NE : phys e i <> 0).
    { unfold phys. apply Rgt_not_eq. apply Rmult_lt_0_compat; [|exact PE]. rewrite Forall_forall in FE. apply FE, nth_In, Hi. }
    unfold phys at 1. rewrite (kind_sed area sed _ _ _ KD NE). rewrite (PS i Hi). reflexivity.
  Qed.

  (** ** The likelihood shown *)
  (** with the same energies the model of the curve is the model at the energies of the data *)
  Lemma eval_data (area : bool) fn p S (d : vdata Cols) v : computes_at area fn p S -> proper_table d ->
    dim (qunit (v_energy v)) = d_energy -> 0 < scale (qunit (v_energy v)) -> List.Forall (fun x => 0 < x) (vals (v_energy v)) ->
    exists q q', obind (fn p v) (process_model (v_energy v)) = Ok q /\
      (if same_energies (v_energy v) (v_energy (data_view d)) then Ok q else obind (fn p (data_view d)) (process_model (v_energy (data_view d)))) = Ok q' /\
      (if area then CoreProps.flux_like (dim (qunit q)) else power_like (dim (qunit q))) /\ List.length (vals q) = List.length (vals (v_energy v)) /\
      0 < scale (qunit q') /\ List.length (vals q') = List.length (d_rows d) /\
      (if area then CoreProps.flux_like (dim (qunit q')) else power_like (dim (qunit q'))) /\
      forall i, (i < List.length (d_rows d))%nat ->
        phys_sed (dim (qunit q')) (scale (qunit q')) (nth i (vals q') 0) (phys (v_energy (data_view d)) i) = S (phys (v_energy (data_view d)) i).
  Proof.
    intros CA (DE & PU & PE) DV PV FV. destruct (CA v DV PV FV) as (m & q & FN & FO & SQ & LQ & KD & PS).
    rewrite FN. cbn [obind]. apply process_first in FO. rewrite FO. exists q.
    unfold same_energies. destruct (list_eq_dec _ _ _) as [E|E].
    - exists q. do 4 (split; [assumption || reflexivity|]).
      assert (LL : List.length (vals (v_energy v)) = List.length (d_rows d)).
      { apply (f_equal (@List.length R)) in E. rewrite !map_length in E. cbn [data_view v_energy vals] in E. rewrite map_length in E. exact E. }
      split; [exact SQ|]. split; [congruence|]. split; [exact KD|]. intros i Hi.
      assert (PH : phys (v_energy (data_view d)) i = phys (v_energy v) i).
      { apply (f_equal (fun l => nth i l 0)) in E. rewrite !(nth_map_gen _ _ _ 0) in E by (cbn [data_view v_energy vals]; rewrite ?map_length; lia). unfold phys. symmetry. exact E. }
      rewrite PH. apply PS. lia.
    - destruct PU as (U1 & _). destruct (CA (data_view d)) as (m' & q' & FN' & FO' & SQ' & LQ' & KD' & PS').
      + exact DE. + exact U1. + cbn [data_view v_energy vals]. rewrite Forall_map. exact PE.
      + rewrite FN'. cbn [obind]. apply process_first in FO'. rewrite FO'. exists q'. cbn [data_view v_energy vals] in LQ', PS'. rewrite map_length in *. repeat (split; [auto|]).
        exact PS'.
  Qed.

  (** The number shown is the log-likelihood of all the rows of all the tables the user gave
      (as in C156), whatever energies the curve is drawn at; data and curve have the same unit
      on the flux axis. *)
  Theorem C167_likelihood : forall argsort ts (area : bool) (fn : modelfn Cols) p S cols e_range n sed,
    is_argsort argsort -> acceptable area ts -> computes_at area fn p S -> proper_range e_range -> (2 <= n)%nat ->
    ((exists c, forall o, In o (input_rows true ts 0) -> o_cl o = Fin c) \/
     (forall o, In o (input_rows true ts 0) -> ~ violated_limit S o)) ->
    (exists o, In o (input_rows true ts 0) /\ ~ violated_limit S o) ->
    exists cu rows fr, validate_data_table nu argsort ts (Some sed) = Ok (cu, rows) /\
      first_frame nu fn p (Some (mkVD cu rows cols)) e_range n sed = Ok fr /\
      f_lnl fr = Some (sumR (map (fun o => obs_term (S (o_E o)) o) (input_rows true ts 0))) /\
      exists sf, sed_conversion nu (mkQ (map r_e rows) (ue cu)) (uf cu) sed = Ok (f_unit fr, sf).
  Proof.
    intros argsort ts area fn p S cols e_range n sed AS (NE & HR & HN & HW & HA & HP) CA PR N2 HC HV.
    assert (OK : is_ok (validate_data_table nu argsort ts (Some sed))).
    { apply C52_accepted_iff_well_formed; auto. split; auto. split; auto. intros t t' I1 I2. unfold per_area. rewrite (HA t I1), (HA t' I2). tauto. }
    destruct OK as ((cu, rows) & V). exists cu, rows.
    destruct (C49_rows_sorted_permutation nu NU argsort ts (Some sed) cu rows AS HR V) as (_ & PM & DE & DF). cbn [wants_sed] in PM, DF.
    pose proof (pos_units _ _ _ _ _ _ NU HR V) as PU.
    set (d := mkVD cu rows cols).
    destruct ts as [|t0 ts]; [congruence|]. set (tt := t0 :: ts) in *.
    assert (FL : DataSpec.flux_like (flux_dims t0)) by (apply well_formed_flux; inversion HW; auto).
    destruct (target_area sed t0 FL) as (TD & TF & TP).
    assert (KF : if area then CoreProps.flux_like (dim (uf cu)) else power_like (dim (uf cu))).
    { rewrite DF. specialize (HA t0 (or_introl eq_refl)). destruct area; auto. }
    assert (PRW : List.Forall (fun r => 0 < r_e r) rows).
    { apply Forall_forall. intros r Hr. assert (I1 : In (to_sed sed (output_row cu r)) (input_rows true tt 0)).
      { rewrite <- (rows_to_sed sed tt 0 HW) by (intros o Ho; apply (HP o Ho)). apply in_map. eapply Permutation_in; [exact PM|]. apply in_map, Hr. }
      apply HP in I1. destruct I1 as (Q & _). destruct PU as (U1 & _).
      assert (EQ : o_E (to_sed sed (output_row cu r)) = r_e r * scale (ue cu)) by (unfold to_sed, output_row; destruct sed; reflexivity).
      rewrite EQ in Q. apply Rmult_lt_reg_r with (scale (ue cu)); lra. }
    assert (PT : proper_table d) by (split; [exact DE|split; [exact PU|exact PRW]]).
    assert (OT : opt_table (Some d)) by (intros d' E; injection E as <-; exact PT).
    destruct (energies_asked (Some d) e_range n OT PR N2) as (e & eu & SE & DV & PV & FV & DU & PEU & ASK & _).
    unfold first_frame, data_for_model. rewrite SE. cbn [obind fst snd]. cbv zeta.
    match goal with |- context [evaluate nu fn (Some d) ?vv p] => set (v := vv) in * end.
    destruct (eval_data area fn p S d v CA PT DV PV FV) as (q & q' & E1 & E2 & K1 & L1 & S2 & L2 & K2 & F2).
    unfold evaluate. rewrite E1. cbn [obind]. rewrite E2. cbn [obind].
    set (L := sumR (map (fun o => obs_term (S (o_E o)) o) (input_rows true tt 0))).
    assert (LN : lnprobmodel nu q' (fit_table (d_units d, d_rows d)) = Ok L).
    { assert (CM : computes area (fun x => if list_eq_dec Req_EM_T (map (fun y => y * scale (qunit x)) (vals x)) (map (fun y => y * scale (ue cu)) (map r_e rows)) then Ok q'
                                         else obind (fn p (mkV x (mkQ [] (mkU 1 d_none)) None)) (process_model x)) S).
      { intros x X1 X2 X3. destruct (list_eq_dec _ _ _) as [XE|XE].
        - exists q'. assert (LX : List.length (vals x) = List.length rows) by (apply (f_equal (@List.length R)) in XE; rewrite !map_length in XE; exact XE).
          split; [reflexivity|]. split; [exact S2|]. split; [cbn [d d_rows] in L2; lia|]. split; [exact K2|]. intros i Hi.
          assert (PH : phys x i = phys (v_energy (data_view d)) i).
          { apply (f_equal (fun l => nth i l 0)) in XE. rewrite (nth_map_gen _ _ _ 0) in XE by exact Hi. rewrite (nth_map_gen _ _ _ 0) in XE by (rewrite map_length; lia). exact XE. }
          rewrite PH. apply F2. cbn [d d_rows]. lia.
        - destruct (CA (mkV x (mkQ [] (mkU 1 d_none)) None) X1 X2 X3) as (m3 & q3 & FN3 & FO3 & R3). cbn [v_energy] in *. rewrite FN3. cbn [obind].
          apply process_first in FO3. rewrite FO3. exists q3. split; [reflexivity|exact R3]. }
      assert (ACC : acceptable area tt) by (unfold acceptable; tauto).
      pose proof (C156_likelihood_of_tables nu argsort tt (Some sed) area _ S NU AS ACC CM HC HV) as C. fold L in C.
      unfold fit_lnl in C. rewrite V in C. cbn [obind fit_table t_energy fst snd qunit vals] in C.
      destruct (list_eq_dec Req_EM_T _ _) as [|N] in C; [|exfalso; apply N; reflexivity]. cbn [obind] in C. exact C. }
    rewrite LN. cbn [obind].
    pose proof (kind_convertible _ _ K1) as CV. pose proof (kind_documented area sed _ K1) as KD.
    destruct (C50_documented_units nu e (qunit q) sed NU CV DV) as (sf & SC & _). cbn [v v_energy]. rewrite SC. cbn [obind fst snd].
    assert (XL : exists xl, x_limits (Some d) e eu = Ok xl).
    { unfold x_limits. cbn [d d_rows]. destruct rows as [|r0 rows]; [|eexists; reflexivity]. exfalso.
      cbn [map] in PM. apply Permutation_nil in PM. destruct HV as (o & IO & _).
      rewrite <- (rows_to_sed sed tt 0 HW) in IO by (intros o' Ho'; apply (HP o' Ho')). rewrite PM in IO. destruct IO. }
    destruct XL as (xl & XL). rewrite XL. cbn [obind].
    assert (CL : exists pts, curve_line eu (documented nu sed (dim (qunit q))) sf e q = Ok pts).
    { pose proof (curve_is_line eu sed e q _ SC) as CE. cbn [fst snd] in CE. rewrite CE. apply line_works; auto; split; assumption. }
    destruct CL as (pts & CL). rewrite CL. cbn [obind]. eexists. split; [exact V|]. split; [reflexivity|]. cbn [f_lnl f_unit]. split; [reflexivity|].
    destruct (C50_documented_units nu (mkQ (map r_e rows) (ue cu)) (uf cu) sed NU (kind_convertible _ _ KF) DE) as (sf' & SC' & _).
    exists sf'. rewrite SC', (kind_documented area sed _ KF), KD. reflexivity.
  Qed.
  (** without data a curve is drawn and no likelihood is shown *)
  Theorem C167_without_data : forall (area : bool) (fn : modelfn Cols) p S e_range n sed,
    computes_at area fn p S -> proper_range e_range -> (2 <= n)%nat ->
    exists fr, first_frame nu fn p None e_range n sed = Ok fr /\ f_lnl fr = None.
  Proof.
    intros area fn p S e_range n sed CA PR N2.
    assert (OT : opt_table (Cols := Cols) None) by (intros d E; discriminate).
    destruct (energies_asked None e_range n OT PR N2) as (e & eu & SE & DV & PV & FV & DU & PEU & ASK & _).
    unfold first_frame, data_for_model. rewrite SE. cbn [obind fst snd]. cbv zeta.
    match goal with |- context [evaluate nu fn None ?vv p] => set (v := vv) in * end.
    destruct (CA v DV PV FV) as (m & q & FN & FO & SQ & LQ & KD & PS). cbn [v v_energy] in LQ.
    unfold evaluate. rewrite FN. cbn [obind]. apply process_first in FO. rewrite FO. cbn [obind].
    pose proof (kind_convertible _ _ KD) as CV.
    destruct (C50_documented_units nu e (qunit q) sed NU CV DV) as (sf & SC & _). cbn [v v_energy]. rewrite SC. cbn [obind fst snd x_limits].
    pose proof (curve_is_line eu sed e q _ SC) as CE. cbn [fst snd] in CE. rewrite CE.
    destruct (line_works nu NU eu sed e q) as (pts & LW); auto; [split; assumption|]. rewrite LW. cbn [obind]. eexists. split; reflexivity.
  Qed.

  (** ** After a session *)
  Lemma qto_dims u q r : qto u q = Ok r -> dim (qunit q) = dim u.
  Proof. intros H. apply qto_ok in H. tauto. Qed.
  Lemma dmul_cancel a b c : dmul a c = dmul b c -> a = b.
  Proof. destruct a as [[a1 a2] a3], b as [[b1 b2] b3], c as [[c1 c2] c3]. cbn. intros H. injection H as H1 H2 H3. repeat f_equal; lia. Qed.
  Lemma conversion_dims e a b sed : dim a = dim b -> sed_conversion nu e a sed = sed_conversion nu e b sed.
  Proof. intros H. unfold sed_conversion. rewrite H. reflexivity. Qed.
  (** evaluating the model twice *)
  Lemma frame_parts fn p (data : option (vdata Cols)) e_range n sed fr : first_frame nu fn p data e_range n sed = Ok fr ->
    data_for_model nu data e_range n sed = Ok (f_view fr, f_eunit fr) /\
    exists m, evaluate nu fn data (f_view fr) p = Ok (m, f_lnl fr) /\
      sed_conversion nu (v_energy (f_view fr)) (qunit m) sed = Ok (f_unit fr, f_sedf fr) /\
      x_limits data (v_energy (f_view fr)) (f_eunit fr) = Ok (f_xlim fr) /\
      curve_line (f_eunit fr) (f_unit fr) (f_sedf fr) (v_energy (f_view fr)) m = Ok (f_points fr).
  Proof.
    unfold first_frame. destruct (data_for_model nu data e_range n sed) as [[v eu]|]; cbn [obind]; [|discriminate].
    destruct (evaluate nu fn data v p) as [[m l]|] eqn:EV; cbn [obind]; [|discriminate].
    destruct (sed_conversion nu (v_energy v) (qunit m) sed) as [[fu sf]|] eqn:SC; cbn [obind fst snd]; [|discriminate].
    destruct (x_limits data (v_energy v) eu) as [xl|] eqn:XL; cbn [obind]; [|discriminate].
    destruct (curve_line eu fu sf (v_energy v) m) as [pts|] eqn:CL; cbn [obind]; [|discriminate]. intros H. injection H as <-.
    cbn [f_view f_eunit f_unit f_sedf f_points f_lnl f_xlim]. split; [reflexivity|]. exists m. auto.
  Qed.
  Lemma line_dims eu fu sf x m pts : curve_line eu fu sf x m = Ok pts -> dmul (dim (qunit m)) (dim (qunit sf)) = dim fu.
  Proof.
    unfold curve_line. destruct (negb _); [discriminate|]. destruct (qto eu x) as [xs|]; cbn [obind]; [|discriminate].
    destruct (qto fu (qmul m sf)) as [ys|] eqn:Q; cbn [obind]; [|discriminate]. intros _. apply qto_dims in Q. exact Q.
  Qed.
  Lemma next_is_first fn p0 p (data : option (vdata Cols)) e_range n sed fr0 fr :
    first_frame nu fn p0 data e_range n sed = Ok fr0 -> next_frame nu fn data fr0 p = Ok fr -> first_frame nu fn p data e_range n sed = Ok fr.
  Proof.
    intros F0 NF. apply frame_parts in F0. destruct F0 as (DM & m0 & EV0 & SC0 & XL0 & CL0).
    unfold next_frame in NF. destruct (evaluate nu fn data (f_view fr0) p) as [[m l]|] eqn:EV; cbn [obind] in NF; [|discriminate].
    destruct (curve_line _ _ _ _ m) as [pts|] eqn:CL; cbn [obind] in NF; [|discriminate]. injection NF as <-.
    assert (DD : dim (qunit m) = dim (qunit m0)).
    { apply line_dims in CL. apply line_dims in CL0. apply (dmul_cancel _ _ (dim (qunit (f_sedf fr0)))). congruence. }
    unfold first_frame. rewrite DM. cbn [obind]. rewrite EV. cbn [obind]. rewrite (conversion_dims _ (qunit m) (qunit m0) _ DD), SC0. cbn [obind fst snd].
    rewrite XL0. cbn [obind]. rewrite CL. reflexivity.
  Qed.
  (** After any number of updates without exception the window is the one a new fitter
      started with the values of the sliders would show. *)
  Theorem C167_session : forall (fn : modelfn Cols) p0 ps p data e_range n sed fr0 fr,
    first_frame nu fn p0 data e_range n sed = Ok fr0 -> session nu fn data fr0 (ps ++ [p]) = Ok fr ->
    first_frame nu fn p data e_range n sed = Ok fr.
  Proof.
    intros fn p0 ps. revert p0. induction ps as [|p1 ps IH]; intros p0 p data e_range n sed fr0 fr F0 SS; cbn [app session] in SS.
    - destruct (next_frame nu fn data fr0 p) as [fr1|] eqn:NF; cbn [obind] in SS; [|discriminate]. injection SS as <-. eapply next_is_first; eauto.
    - destruct (next_frame nu fn data fr0 p1) as [fr1|] eqn:NF; cbn [obind] in SS; [|discriminate].
      eapply IH; [|exact SS]. eapply next_is_first; eauto.
  Qed.
  (** An update works if a new fitter would, as long as the model keeps giving the same kind of
      quantity. *)
  Theorem C167_updates_work : forall (fn : modelfn Cols) p0 p data e_range n sed fr0 fr,
    (forall v m m' q q', fn p0 v = Ok m -> fn p v = Ok m' -> first_output (v_energy v) m q -> first_output (v_energy v) m' q' -> dim (qunit q) = dim (qunit q')) ->
    first_frame nu fn p0 data e_range n sed = Ok fr0 -> first_frame nu fn p data e_range n sed = Ok fr ->
    next_frame nu fn data fr0 p = Ok fr.
  Proof.
    intros fn p0 p data e_range n sed fr0 fr SK F0 F1. apply frame_parts in F0. apply frame_parts in F1.
    destruct F0 as (DM0 & m0 & EV0 & SC0 & XL0 & CL0), F1 as (DM1 & m1 & EV1 & SC1 & XL1 & CL1).
    rewrite DM0 in DM1. injection DM1 as EA EB. rewrite <- EA, <- EB in *.
    assert (DD : dim (qunit m0) = dim (qunit m1)).
    { assert (G : forall pp m l, evaluate nu fn data (f_view fr0) pp = Ok (m, l) -> exists o, fn pp (f_view fr0) = Ok o /\ first_output (v_energy (f_view fr0)) o m).
      { intros pp m l H. unfold evaluate in H. destruct (fn pp (f_view fr0)) as [o|]; cbn [obind] in H; [|discriminate]. exists o. split; [reflexivity|].
        destruct (process_model (v_energy (f_view fr0)) o) as [q|] eqn:PM; cbn [obind] in H; [|discriminate]. apply process_first in PM.
        destruct data as [d|]; [|injection H as <- _; exact PM].
        destruct (if same_energies _ _ then _ else _) as [m'|]; cbn [obind] in H; [|discriminate].
        destruct (lnprobmodel nu m' _); cbn [obind] in H; [|discriminate]. injection H as <- _. exact PM. }
      destruct (G _ _ _ EV0) as (o0 & O1 & O2). destruct (G _ _ _ EV1) as (o1 & O3 & O4). eapply SK; eauto. }
    rewrite (conversion_dims _ (qunit m0) (qunit m1) _ DD) in SC0. rewrite SC0 in SC1. injection SC1 as EC ED. rewrite <- EC, <- ED in *.
    rewrite XL0 in XL1. injection XL1 as EX.
    unfold next_frame. rewrite EV1. cbn [obind]. rewrite CL1. cbn [obind]. rewrite EA, EB, EC, ED, EX. destruct fr; reflexivity.
  Qed.
End Th.
Print Assumptions C167_curve.
Print Assumptions C167_likelihood.
Print Assumptions C167_without_data.
Print Assumptions C167_session.
Print Assumptions C167_updates_work.

(** the tables of C156 and a model with one parameter, the constant SED, which also returns
    the energies of the electrons it used *)
Definition ex_fn : modelfn unit := fun p v =>
  Ok (MTuple [BQ (mkQ (map (fun x => hd 0 p / (x * scale (qunit (v_energy v))) ^ 2 / 3) (vals (v_energy v))) (mkU 3 d_diff_flux)); BNum]).
Lemma ex_fn_computes A : computes_at true ex_fn [A] (fun _ => A).
Proof.
  intros v DE SE PE. do 2 eexists. split; [reflexivity|]. split; [apply fo_tuple|]. cbn [qunit vals scale dim]. split; [lra|]. split; [apply map_length|].
  split; [right; reflexivity|]. intros i Hi. unfold phys_sed, phys. cbn [is_differential dims_eqb d_diff_flux d_diff_power d_diff_energy d_diff_density Z.eqb Pos.eqb andb orb].
  rewrite (nth_map_gen _ _ _ 0) by exact Hi. cbn [hd].
  assert (0 < nth i (vals (v_energy v)) 0) by (rewrite Forall_forall in PE; apply PE, nth_In, Hi).
  field. split; lra.
Qed.
Example C167_example : forall nu argsort sed, positive_units nu -> is_argsort argsort ->
  proper_range (Some (1 / 2, 40, mkU 2 d_energy)) /\
  exists cu rows fr, validate_data_table nu argsort [tabA; tabB] (Some sed) = Ok (cu, rows) /\
    first_frame nu ex_fn [8] (Some (mkVD cu rows tt)) (Some (1 / 2, 40, mkU 2 d_energy)) 100 sed = Ok fr /\ List.length (f_points fr) = 100%nat /\
    next_frame nu ex_fn (Some (mkVD cu rows tt)) fr [8] = Ok fr.
Proof.
  intros nu argsort sed NU AS. destruct C156_example as (E1 & _ & E3 & E4 & _).
  assert (PR : proper_range (Some (1 / 2, 40, mkU 2 d_energy))). { intros a b u E. injection E as <- <- <-. cbn. split; [lra|split; [reflexivity|lra]]. }
  split; [exact PR|].
  destruct (C167_likelihood unit nu NU argsort [tabA; tabB] true ex_fn [8] (fun _ => 8) tt (Some (1 / 2, 40, mkU 2 d_energy)) 100 sed AS E1 (ex_fn_computes 8) PR ltac:(lia)) as (cu & rows & fr & V & F & L & _); [left; exists (9 / 10); exact E3|exact E4|].
  exists cu, rows, fr. split; [exact V|]. split; [exact F|]. split.
  - pose proof F as F'. apply frame_parts in F'. destruct F' as (DM & m & _ & _ & _ & CL).
    unfold curve_line in CL. destruct (Nat.eqb_spec (List.length (vals (v_energy (f_view fr)))) (List.length (vals m))) as [LE|]; [|discriminate]. cbn [negb] in CL.
    destruct (qto _ (v_energy _)) as [xs|] eqn:Q1; cbn [obind] in CL; [|discriminate]. destruct (qto _ (qmul _ _)) as [ys|] eqn:Q2; cbn [obind] in CL; [|discriminate].
    destruct (C167_curve unit nu NU true ex_fn [8] (fun _ => 8) (Some (mkVD cu rows tt)) (Some (1 / 2, 40, mkU 2 d_energy)) 100 sed fr) as (E & ASK & LEN & _); auto; [apply ex_fn_computes| | |].
    + intros d ED. injection ED as <-. unfold proper_table. cbn [d_units d_rows].
      destruct (C49_rows_sorted_permutation nu NU argsort [tabA; tabB] (Some sed) cu rows AS (proj1 (proj2 E1)) V) as (_ & PM & DE & _).
      pose proof (pos_units _ _ _ _ _ _ NU (proj1 (proj2 E1)) V) as PU. split; [exact DE|]. split; [exact PU|].
      destruct E1 as (_ & _ & _ & _ & _ & HP). apply Forall_forall. intros r Hr. assert (I1 : In (output_row cu r) (input_rows (wants_sed [tabA; tabB] (Some sed)) [tabA; tabB] 0)) by (eapply Permutation_in; [exact PM|]; apply in_map, Hr).
      cbn [wants_sed] in I1. assert (Q : 0 < o_E (output_row cu r)).
      { destruct I1 as [ <- |[ <- |[ <- |[]]]]; unfold input_row, pcol, phys; cbn; lra. }
      destruct PU as (U1 & _). unfold output_row in Q. cbn [o_E] in Q. apply Rmult_lt_reg_r with (scale (ue cu)); lra.
    + lia.
    + rewrite LEN. inversion ASK as [|? ? ? ? ? ? LS| |]; subst. apply LS.
  - apply C167_updates_work with (p0 := [8]) (e_range := Some (1 / 2, 40, mkU 2 d_energy)) (n := 100%nat) (sed := sed); auto.
    intros v m m' q q' H1 H2. unfold ex_fn in H1, H2. injection H1 as <-. injection H2 as <-. intros G1 G2. inversion G1; inversion G2; subst. reflexivity.
Qed.

(** ** C168. The window: axis, labels, columns *)
Lemma last_in {A} (l : list A) d : In (last l d) (d :: l).
Proof. revert d. induction l as [|a l IH]; intros d; cbn; [auto|]. destruct l as [|b l]; [auto|]. specialize (IH d). cbn in IH |- *. tauto. Qed.
Lemma last_dep {A} (l : list A) a : forall b c, last (a :: l) b = last (a :: l) c.
Proof. revert a. induction l as [|x l IH]; intros a b c; [reflexivity|]. change (last (x :: l) b = last (x :: l) c). apply IH. Qed.
Lemma last_cons {A} (l : list A) (a b : A) : last (a :: l) b = last l a.
Proof. revert a b. induction l as [|x l IH]; intros a b; [reflexivity|]. change (last (x :: l) b = last (x :: l) a). apply last_dep. Qed.
Lemma sorted_last rest : forall r0 : R, StronglySorted Rle (r0 :: rest) -> forall x, In x (r0 :: rest) -> r0 <= x <= last rest r0.
Proof.
  induction rest as [|a rest IH]; intros r0 SS x Hx.
  - destruct Hx as [ <- |[]]. cbn. lra.
  - inversion SS as [|? ? SS' F]; subst. rewrite Forall_forall in F. rewrite last_cons.
    assert (A : r0 <= a) by (apply F; left; reflexivity). destruct Hx as [ <- |Hx].
    + specialize (IH a SS' a (or_introl eq_refl)). lra.
    + specialize (IH a SS' x Hx). lra.
Qed.
Lemma last_map {A} (f : A -> R) l a : last (map f l) (f a) = f (last l a).
Proof. revert a. induction l as [|x l IH]; intros a; [reflexivity|]. cbn [map]. rewrite !last_cons. apply IH. Qed.
Definition in_ends (l : list R) : Prop := forall x, In x l -> hd 0 l <= x <= last l 0.
Lemma ends_sorted l : StronglySorted Rle l -> in_ends l.
Proof. destruct l as [|r0 rest]; intros SS x Hx; [destruct Hx|]. rewrite last_cons. cbn [hd]. apply sorted_last; assumption. Qed.
Lemma ends_map l k : 0 <= k -> in_ends l -> in_ends (map (fun v => v * k) l).
Proof.
  intros K IE x Hx. apply in_map_iff in Hx. destruct Hx as (v & <- & Hv). specialize (IE v Hv).
  assert (L : last (map (fun v => v * k) l) 0 = last l 0 * k) by (replace 0 with ((fun v => v * k) 0) at 1 by (cbv beta; ring); apply (last_map (fun v => v * k))).
  assert (H : hd 0 (map (fun v => v * k) l) = hd 0 l * k) by (destruct l; cbn [map hd]; ring). rewrite L, H. split; apply Rmult_le_compat_r; lra.
Qed.
Lemma last_nth_pred (l : list R) : last l 0 = nth (Nat.pred (List.length l)) l 0.
Proof. induction l as [|a l IH]; [reflexivity|]. destruct l as [|b l]; [reflexivity|]. change (last (a :: b :: l) 0) with (last (b :: l) 0). rewrite IH. reflexivity. Qed.
Lemma ends_grid a b n : 0 < a < b -> (2 <= n)%nat -> in_ends (logspace a b n).
Proof.
  intros [A B] N. destruct (C104_grid a b n A B N) as (G1 & G2 & G3 & G4 & _).
  assert (MO : forall j i, (i + j < n)%nat -> nth i (logspace a b n) 0 <= nth (i + j) (logspace a b n) 0).
  { induction j as [|j IH]; intros i Hi; [rewrite Nat.add_0_r; lra|]. specialize (IH i ltac:(lia)). specialize (G4 (i + j)%nat ltac:(lia)).
    replace (i + S j)%nat with (S (i + j)) by lia. lra. }
  intros x Hx. destruct (In_nth _ _ 0 Hx) as (i & Hi & <-). rewrite G1 in Hi. rewrite last_nth_pred, G1.
  assert (HD : hd 0 (logspace a b n) = nth 0 (logspace a b n) 0) by (destruct (logspace a b n); reflexivity). rewrite HD.
  split; [apply (MO i 0%nat); lia|]. replace (Nat.pred n) with (i + (Nat.pred n - i))%nat by lia. apply MO. lia.
Qed.
(** The energy axis: with data in order of energy, whose first bin does not reach zero, it
    contains all the energies of the data with room to spare and all those of the curve. *)
Theorem C168_axis_partial : forall Cols nu (fn : modelfn Cols) p d e_range n sed fr, positive_units nu -> proper_table d -> proper_range e_range -> (2 <= n)%nat ->
  StronglySorted Rle (map r_e (d_rows d)) ->
  List.Forall (fun r => 0 <= r_elo r /\ 0 <= r_ehi r /\ r_elo r * scale (uelo (d_units d)) < r_e r * scale (ue (d_units d))) (d_rows d) ->
  first_frame nu fn p (Some d) e_range n sed = Ok fr ->
  let lo := fst (f_xlim fr) * scale (f_eunit fr) in let hi := snd (f_xlim fr) * scale (f_eunit fr) in
  0 < lo /\ f_eunit fr = ue (d_units d) /\
  (forall r, In r (d_rows d) -> 3 * lo <= r_e r * scale (ue (d_units d)) /\ r_e r * scale (ue (d_units d)) <= hi / 3) /\
  (forall pt, In pt (f_points fr) -> lo <= fst pt * scale (f_eunit fr) <= hi).
Proof.
  intros Cols nu fn p d e_range n sed fr NU PT PR N2 SS WB F. cbv zeta.
  apply frame_parts in F. destruct F as (DM & m & _ & _ & XL & CL).
  destruct PT as (DE & PU & PE). destruct PU as (U1 & _ & _ & _ & U5 & U6).
  assert (EN : exists l, v_energy (f_view fr) = mkQ l (ue (d_units d)) /\ f_eunit fr = ue (d_units d) /\ in_ends l /\ List.Forall (fun x => 0 < x) l).
  { unfold data_for_model, shown_energies in DM. destruct e_range as [[[a b] u]|].
    - destruct (PR a b u eq_refl) as (AB & DU & SU). rewrite DU, dims_eqb_refl in DM. cbn [negb] in DM.
      unfold qto in DM. cbn [qunit vals] in DM. rewrite DU, DE, dims_eqb_refl in DM. cbn [obind fst snd] in DM. cbv zeta in DM. injection DM as DV DU'.
      eexists. split; [rewrite <- DV; reflexivity|]. split; [auto|].
      assert (K : 0 < scale u / scale (ue (d_units d))) by (apply Rdiv_lt_0_compat; assumption).
      split; [apply ends_map; [lra|apply ends_grid; assumption]|]. rewrite Forall_map. eapply Forall_impl; [|apply grid_pos, AB]. cbv beta. intros x Hx. apply Rmult_lt_0_compat; assumption.
    - cbn [obind fst snd] in DM. cbv zeta in DM. injection DM as DV DU'. eexists. split; [rewrite <- DV; reflexivity|]. split; [auto|].
      split; [apply ends_sorted, SS|]. rewrite Forall_map. exact PE. }
  destruct EN as (l & EV & EU & IE & PL). rewrite EU in *. rewrite EV in XL, CL.
  unfold x_limits in XL. cbn [vals qunit] in XL. destruct (d_rows d) as [|r0 rest] eqn:RW; [discriminate|].
  set (su := scale (ue (d_units d))) in *. replace (su / su) with 1 in XL by (field; lra). rewrite !Rmult_1_r in XL.
  set (A := r_e r0 - r_elo r0 * (scale (uelo (d_units d)) / su)) in XL.
  set (B := r_e (last rest r0) + r_ehi (last rest r0) * (scale (uehi (d_units d)) / su)) in XL. injection XL as XL. rewrite <- XL. cbn [fst snd].
  pose proof WB as WB'. rewrite Forall_forall in WB'.
  assert (A0 : 0 < A).
  { destruct (WB' r0 (or_introl eq_refl)) as (_ & _ & W). unfold A. apply Rmult_lt_reg_r with su; [exact U1|]. rewrite Rmult_0_l. rewrite Rmult_minus_distr_r.
    replace (r_elo r0 * (scale (uelo (d_units d)) / su) * su) with (r_elo r0 * scale (uelo (d_units d))) by (field; lra). lra. }
  assert (AE : A <= r_e r0).
  { destruct (WB' r0 (or_introl eq_refl)) as (W & _). unfold A. assert (0 <= r_elo r0 * (scale (uelo (d_units d)) / su)); [|lra]. apply Rmult_le_pos; [exact W|]. apply Rlt_le, Rdiv_lt_0_compat; assumption. }
  assert (BE : r_e (last rest r0) <= B).
  { destruct (WB' (last rest r0) (last_in rest r0)) as (_ & W & _). unfold B. assert (0 <= r_ehi (last rest r0) * (scale (uehi (d_units d)) / su)); [|lra]. apply Rmult_le_pos; [exact W|]. apply Rlt_le, Rdiv_lt_0_compat; assumption. }
  assert (SO : forall r, In r (r0 :: rest) -> r_e r0 <= r_e r <= r_e (last rest r0)).
  { intros r Hr. cbn [map] in SS. pose proof (sorted_last _ _ SS (r_e r)) as Q. rewrite (last_map r_e) in Q. apply Q. apply (in_map r_e (r0 :: rest)), Hr. }
  assert (HL : l <> []).
  { destruct l as [|x l]; [|discriminate]. exfalso. unfold data_for_model, shown_energies in DM. destruct e_range as [[[a b] u]|].
    - destruct (PR a b u eq_refl) as (AB & DU & SU). rewrite DU, dims_eqb_refl in DM. cbn [negb] in DM.
      unfold qto in DM. cbn [qunit vals] in DM. rewrite DU, DE, dims_eqb_refl in DM. cbn [obind fst snd] in DM. cbv zeta in DM. injection DM as DV.
      rewrite <- DV in EV. cbn [v_energy] in EV. injection EV as EV. apply (f_equal (@List.length R)) in EV. rewrite map_length in EV.
      destruct (C104_grid a b n (proj1 AB) (proj2 AB) N2) as (G1 & _). rewrite G1 in EV. cbn in EV. lia.
    - cbn [obind fst snd] in DM. cbv zeta in DM. injection DM as DV. rewrite <- DV in EV. cbn [v_energy] in EV. rewrite RW in EV. discriminate. }
  assert (H0 : 0 < hd 0 l) by (destruct l as [|x l]; [congruence|]; inversion PL; auto).
  split; [apply Rmult_lt_0_compat; [apply Rmin_glb_lt; lra|exact U1]|]. split; [reflexivity|]. split.
  - intros r Hr. specialize (SO r Hr). pose proof (Rmin_l (A / 3) (hd 0 l)). pose proof (Rmax_l (B * 3) (last l 0)). split; [|unfold Rdiv].
    + rewrite <- Rmult_assoc. apply Rmult_le_compat_r; lra.
    + replace (Rmax (B * 3) (last l 0) * su * / 3) with (Rmax (B * 3) (last l 0) / 3 * su) by field. apply Rmult_le_compat_r; lra.
  - intros pt Hp. unfold curve_line in CL. cbn [vals] in CL. destruct (negb _); [discriminate|].
    unfold qto in CL at 1. cbn [qunit vals] in CL. rewrite dims_eqb_refl in CL. cbn [obind] in CL. fold su in CL.
    destruct (qto _ _) as [ys|] in CL; cbn [obind] in CL; [|discriminate]. injection CL as CL. rewrite <- CL in Hp. destruct pt as (x, y). apply in_combine_l in Hp. cbn [fst vals] in Hp |- *.
    apply in_map_iff in Hp. destruct Hp as (v & Ev & Hv). replace (su / su) with 1 in Ev by (field; lra). rewrite Rmult_1_r in Ev. subst v. specialize (IE x Hv).
    pose proof (Rmin_r (A / 3) (hd 0 l)). pose proof (Rmax_r (B * 3) (last l 0)). split; apply Rmult_le_compat_r; lra.
Qed.
Print Assumptions C168_axis_partial.
Definition wide (e lo hi : R) : vrow := DataModel.mkR e 1 1 1 0%Z lo hi false (Fin (9 / 10)).
Definition ex_cu : cunits := mkCU (mkU 1 d_energy) (mkU 1 d_flux) (mkU 1 d_flux) (mkU 1 d_flux) (mkU 1 d_energy) (mkU 1 d_energy).
Definition tab_of (rows : list vrow) : vdata unit := mkVD ex_cu rows tt.
Example C168_axis_example : proper_table (tab_of [wide 1 (1 / 10) (1 / 10); wide 2 1 1]) /\
  StronglySorted Rle (map r_e [wide 1 (1 / 10) (1 / 10); wide 2 1 1]) /\
  List.Forall (fun r => 0 <= r_elo r /\ 0 <= r_ehi r /\ r_elo r * scale (uelo ex_cu) < r_e r * scale (ue ex_cu)) [wide 1 (1 / 10) (1 / 10); wide 2 1 1].
Proof.
  split; [|split].
  - split; [reflexivity|]. split; [unfold pos_cu; cbn; lra|]. cbn [tab_of d_rows]. repeat constructor; cbn; lra.
  - cbn. repeat constructor; lra.
  - repeat constructor; cbn; lra.
Qed.
(** Only the first and the last row count: a later bin that starts below a third of the
    lower edge of the first one is cut by the axis. *)
Theorem C168_bins_refuted : forall nu (fn : modelfn unit) p n sed fr, let d := tab_of [wide 1 (1 / 10) (1 / 10); wide 2 (19 / 10) 1] in
  proper_table d /\ StronglySorted Rle (map r_e (d_rows d)) /\ List.Forall (fun r => 0 <= r_elo r < r_e r) (d_rows d) /\
  (first_frame nu fn p (Some d) None n sed = Ok fr -> exists r, In r (d_rows d) /\ r_e r - r_elo r < fst (f_xlim fr)).
Proof.
  intros nu fn p n sed fr d. split; [|split; [|split]].
  - split; [reflexivity|]. split; [unfold pos_cu; cbn; lra|]. cbn [d tab_of d_rows]. repeat constructor; cbn; lra.
  - cbn. repeat constructor; lra.
  - cbn [d tab_of d_rows]. repeat constructor; cbn; lra.
  - intros F. apply frame_parts in F. destruct F as (DM & m & _ & _ & XL & _).
    unfold data_for_model, shown_energies in DM. cbn [obind fst snd] in DM. cbv zeta in DM. injection DM as DV DU.
    rewrite <- DV, <- DU in XL. cbn in XL. injection XL as XL. exists (wide 2 (19 / 10) 1). split; [right; left; reflexivity|]. rewrite <- XL. cbn [fst wide r_e r_elo].
    apply Rmin_glb_lt; lra.
Qed.
Print Assumptions C168_bins_refuted.
(** Every parameter has a slider with a label: the labels given first, then "par" and the
    position. *)
Theorem C168_labels_partial : forall dec is_list labels npars ls after, fitter_labels dec is_list labels npars = (ls, after) ->
  (npars <= List.length ls)%nat /\
  (forall given, labels = Some given -> forall i, (i < List.length given)%nat -> nth_error ls i = nth_error given i) /\
  (forall i, (match labels with Some given => List.length given | None => 0 end <= i < npars)%nat -> nth_error ls i = Some ("par" ++ dec i)%string) /\
  (is_list = false \/ (forall given, labels = Some given -> (npars <= List.length given)%nat) -> after = labels).
Proof.
  intros dec is_list labels npars ls after H.
  assert (NP : forall a k i, (i < k)%nat -> nth_error (map (fun i => ("par" ++ dec i)%string) (seq a k)) i = Some ("par" ++ dec (a + i)%nat)%string).
  { intros a k i Hi. rewrite nth_error_map. rewrite (nth_error_nth' _ 0%nat) by (rewrite seq_length; exact Hi). rewrite seq_nth by exact Hi. reflexivity. }
  unfold fitter_labels in H. cbv zeta in H. destruct labels as [g|].
  - destruct (Nat.ltb_spec (List.length g) npars) as [L|L]; injection H as <- <-.
    + rewrite app_length, map_length, seq_length. split; [lia|]. split; [|split].
      * intros g' E i Hi. injection E as <-. apply nth_error_app1, Hi.
      * intros i Hi. rewrite nth_error_app2 by lia. rewrite NP by lia. do 3 f_equal. lia.
      * intros [ -> |N]; [reflexivity|]. specialize (N g eq_refl). lia.
    + split; [exact L|]. split; [|split; [intros; lia|reflexivity]]. intros g' E i Hi. injection E as <-. reflexivity.
  - injection H as <- <-. rewrite map_length, seq_length. split; [lia|]. split; [discriminate|]. split; [|reflexivity].
    intros i Hi. rewrite NP by lia. reflexivity.
Qed.
Print Assumptions C168_labels_partial.

(** What a model function that looks at the fluxes sees: those of the data if the curve is drawn at
    the energies of the data; otherwise [n] zeros, in erg/(cm2 s) for an SED and in 1/(TeV cm2 s)
    for a spectrum, also after any number of updates. *)
Theorem C168_fluxes_partial : forall Cols nu (fn : modelfn Cols) p ps data e_range n sed fr0 fr, positive_units nu ->
  first_frame nu fn p data e_range n sed = Ok fr0 -> session nu fn data fr0 ps = Ok fr ->
  (forall d, data = Some d -> e_range = None -> v_flux (f_view fr) = mkQ (map r_f (d_rows d)) (uf (d_units d))) /\
  (data = None \/ e_range <> None ->
     vals (v_flux (f_view fr)) = repeat 0 n /\ 0 < scale (qunit (v_flux (f_view fr))) /\
     (sed = true -> dim (qunit (v_flux (f_view fr))) = d_flux /\ scale (qunit (v_flux (f_view fr))) = u_erg nu / (u_cm nu ^ 2 * u_s nu)) /\
     (sed = false -> dim (qunit (v_flux (f_view fr))) = d_diff_flux /\ scale (qunit (v_flux (f_view fr))) = / (u_TeV nu * u_cm nu ^ 2 * u_s nu))).
Proof.
  intros Cols nu fn p ps data e_range n sed fr0 fr NU H SS.
  assert (V : f_view fr = f_view fr0).
  { clear H. revert fr0 SS. induction ps as [|q ps IH]; intros fr0 SS; cbn [session] in SS; [congruence|].
    destruct (next_frame nu fn data fr0 q) as [fr1|] eqn:N; cbn [obind] in SS; [|discriminate].
    rewrite (IH _ SS). unfold next_frame in N. destruct (evaluate nu fn data (f_view fr0) q) as [[m l]|]; cbn [obind] in N; [|discriminate].
    destruct (curve_line _ _ _ _ _); cbn [obind] in N; [|discriminate]. injection N as <-. reflexivity. }
  rewrite V. apply frame_parts in H. destruct H as (DM & _). unfold data_for_model in DM.
  destruct (shown_energies nu data e_range n) as [eu|]; cbn [obind] in DM; [|discriminate]. cbv zeta in DM. injection DM as DV _. rewrite <- DV. cbn [v_flux].
  destruct NU as (U1 & U2 & U3 & U4). split.
  - intros d -> ->. reflexivity.
  - intros K.
    replace (match data with Some d => match e_range with Some _ => _ | None => _ end | None => _ end)
      with (mkQ (repeat 0 n) (if sed then mkU (u_erg nu / (u_cm nu ^ 2 * u_s nu)) d_flux else mkU (/ (u_TeV nu * u_cm nu ^ 2 * u_s nu)) d_diff_flux)).
    2:{ destruct data, e_range; try reflexivity. destruct K; congruence. }
    cbn [vals qunit]. split; [reflexivity|]. destruct sed; cbn [scale dim]; (split; [|split; intros Q; try discriminate Q; split; reflexivity]).
    + apply Rdiv_lt_0_compat; [assumption|]. apply Rmult_lt_0_compat; [|assumption]. first [apply pow_lt; assumption|nra].
    + apply Rinv_0_lt_compat. apply Rmult_lt_0_compat; [|assumption]. apply Rmult_lt_0_compat; [assumption|]. first [apply pow_lt; assumption|nra].
Qed.
Print Assumptions C168_fluxes_partial.
Example C168_labels_example : fitter_labels (fun _ => "2"%string) true (Some ["norm"; "index"]%string) 3 = (["norm"; "index"; "par2"]%string, Some ["norm"; "index"; "par2"]%string).
Proof. reflexivity. Qed.
(** A list of labels that is too short is extended in place: the caller's object changes. *)
Theorem C168_caller_refuted : forall dec given npars, (List.length given < npars)%nat ->
  exists ls, fitter_labels dec true (Some given) npars = (ls, Some ls) /\ ls <> given.
Proof.
  intros dec given npars L. unfold fitter_labels. destruct (Nat.ltb_spec (List.length given) npars) as [_|N]; [|lia]. cbv zeta. eexists. split; [reflexivity|].
  intros E. apply (f_equal (@List.length string)) in E. rewrite app_length, map_length, seq_length in E. lia.
Qed.
Print Assumptions C168_caller_refuted.
(** A model function that reads more than energy and flux of its data can be fitted, but the
    interactive fitter fails with it: the curve is computed from those two columns only. *)
Theorem C168_columns_refuted : forall Cols nu (fn : modelfn Cols) p err data e_range n sed, opt_table data -> proper_range e_range -> positive_units nu -> (2 <= n)%nat ->
  (forall v, v_cols v = None -> fn p v = Err err) ->
  first_frame nu fn p data e_range n sed = Err err.
Proof.
  intros Cols nu fn p err data e_range n sed OT PR NU N2 H.
  destruct (energies_asked Cols nu NU data e_range n OT PR N2) as (e & eu & SE & _).
  unfold first_frame, data_for_model. rewrite SE. cbn [obind fst snd]. cbv zeta. unfold evaluate. rewrite H by reflexivity. reflexivity.
Qed.
Print Assumptions C168_columns_refuted.
Example C168_columns_example : exists (fn : modelfn unit) q, (forall v, v_cols v = None -> fn [] v = Err "KeyError"%string) /\
  fn [] (data_view (tab_of [wide 1 (1 / 10) (1 / 10)])) = Ok (MQ q).
Proof. exists (fun _ v => match v_cols v with None => Err "KeyError"%string | Some _ => Ok (MQ (v_flux v)) end). eexists. split; [intros v ->; reflexivity|reflexivity]. Qed.
