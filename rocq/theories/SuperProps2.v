(** Property C111, continued: what is false on a finite grid, and examples. *)
From Coq Require Import Reals ZArith List Lra Lia Sorted.
From Coquelicot Require Import Coquelicot.
From Verif Require Import SpectralModel SpectralProofs TrapzModel TrapzSpec TrapzProofs EnergyModel EnergyProofs ElectronModel ElectronProofs RadiativeProps ConvProofs ConvProps ConvProps2 ConvPion ConvProps3 SuperProofs SuperProps.
Import ListNotations.
Local Open Scope R_scope.

(** ** The sum of two power laws *)
Lemma bin_super_strict x1 x2 a b c d : 0 < x1 -> x1 < x2 -> 0 < a -> 0 < b -> 0 < c -> 0 < d -> a * d <> b * c ->
  good_index (ln (b / a) / ln (x2 / x1)) -> good_index (ln (d / c) / ln (x2 / x1)) -> good_index (ln ((b + d) / (a + c)) / ln (x2 / x1)) ->
  interval x1 x2 a b + interval x1 x2 c d < interval x1 x2 (a + c) (b + d).
Proof.
  intros H1 H2 Ha Hb Hc Hd N G1 G2 G3.
  rewrite <- (is_RInt_unique _ _ _ _ (interval_exact x1 x2 a b H1 H2 Ha Hb G1)).
  rewrite <- (is_RInt_unique _ _ _ _ (interval_exact x1 x2 c d H1 H2 Hc Hd G2)).
  rewrite <- (is_RInt_unique _ _ _ _ (interval_exact x1 x2 (a + c) (b + d) H1 H2 ltac:(lra) ltac:(lra) G3)).
  rewrite <- (RInt_sum _ _ _ _ (through_int x1 x2 a b H1 H2) (through_int x1 x2 c d H1 H2)).
  apply RInt_lt; [lra| | |].
  - intros x Hx. apply continuity_pt_filterlim, through_cont; lra.
  - intros x Hx. apply continuity_pt_filterlim. apply cont_plus; apply through_cont; lra.
  - intros x Hx. rewrite !through_geo by lra. apply geo_super_lt; try assumption. apply through_t_lt; assumption.
Qed.

Lemma exp_le_inv u v : exp u <= exp v -> u <= v.
Proof. intros U. destruct (Rle_or_lt u v) as [?|C]; [assumption|]. apply exp_increasing in C. lra. Qed.
Lemma index_steep r q k : 1 < r -> 0 < q -> q <= Rpower r k -> k < -1 - / 10 ^ 10 -> good_index (ln q / ln r).
Proof.
  intros Hr Hq Hk K. right. assert (L : 0 < ln r) by (rewrite <- ln_1; apply ln_increasing; lra).
  assert (Q : ln q <= k * ln r). { apply exp_le_inv. rewrite exp_ln by exact Hq. exact Hk. }
  assert (B : ln q / ln r <= k). { apply (Rmult_le_reg_r (ln r)); [exact L|]. unfold Rdiv. rewrite Rmult_assoc, Rinv_l by lra. lra. }
  rewrite Rabs_left by (pose proof window_pos as W; unfold window_eps in W; lra). lra.
Qed.

Lemma trapz_one y x : trapz_loglog [y] [x] = 0. Proof. reflexivity. Qed.
Section Sum.
  Variables (f g : R -> R) (a b : R).
  Hypothesis Hf : forall x y, 0 < x -> x < y -> f y = f x * Rpower (y / x) (- a) /\ 0 < f x.
  Hypothesis Hg : forall x y, 0 < x -> x < y -> g y = g x * Rpower (y / x) (- b) /\ 0 < g x.
  Hypothesis Ha : 1 + / 10 ^ 10 < a.
  Hypothesis Hab : a < b.
  Lemma sum_strict xs : (2 <= length xs)%nat -> grid xs ->
    trapz_loglog (map f xs) xs + trapz_loglog (map g xs) xs < trapz_loglog (map (fun x => f x + g x) xs) xs.
  Proof.
    induction xs as [|x1 xs IH]; [simpl; lia|]. destruct xs as [|x2 xs]; [simpl; lia|]. intros _ G.
    destruct (grid_cons2 _ _ _ G) as (P1 & P2 & G'). cbn [map]. rewrite !trapz_cons2.
    assert (B : interval x1 x2 (f x1) (f x2) + interval x1 x2 (g x1) (g x2) < interval x1 x2 (f x1 + g x1) (f x2 + g x2)).
    { destruct (Hf x1 x2 P1 P2) as [Ef Pf]. destruct (Hg x1 x2 P1 P2) as [Eg Pg]. set (r := x2 / x1) in *.
      assert (R1 : 1 < r). { unfold r. apply (Rmult_lt_reg_r x1); [exact P1|]. unfold Rdiv. rewrite Rmult_assoc, Rinv_l by lra. lra. }
      assert (Pa : 0 < Rpower r (- a)) by apply exp_pos. assert (Pb : 0 < Rpower r (- b)) by apply exp_pos.
      assert (AB : Rpower r (- b) < Rpower r (- a)) by (apply Rpower_lt; lra).
      assert (P3 : 0 < f x2) by (rewrite Ef; apply Rmult_lt_0_compat; assumption). assert (P4 : 0 < g x2) by (rewrite Eg; apply Rmult_lt_0_compat; assumption).
      apply bin_super_strict; try assumption.
      - rewrite Ef, Eg. intros E. apply Rlt_not_eq in AB. apply AB. apply (Rmult_eq_reg_l (f x1 * g x1)); [lra|]. apply Rgt_not_eq, Rmult_lt_0_compat; assumption.
      - apply (index_steep r _ (- a)); try lra; [apply div_pos; assumption|]. right. rewrite Ef. field. lra.
      - apply (index_steep r _ (- b)); try lra; [apply div_pos; assumption|]. right. rewrite Eg. field. lra.
      - apply (index_steep r _ (- a)); try lra; [apply div_pos; lra|]. rewrite Ef, Eg.
        apply (Rmult_le_reg_r (f x1 + g x1)); [lra|]. unfold Rdiv. rewrite Rmult_assoc, Rinv_l by lra. nra. }
    destruct xs as [|x3 xs]; [cbn [map]; rewrite !trapz_one; lra|].
    specialize (IH ltac:(simpl; lia) G'). cbn [map] in *. lra.
  Qed.
End Sum.

(** Two ordinary power-law populations: on every grid the energy content of the
    sum exceeds the sum of the energy contents. *)
Theorem C139_superposition_refuted : forall unit nd A1 A2 e0 a b lo hi, 0 < unit -> 0 < A1 -> 0 < A2 -> 0 < e0 ->
  2 + / 10 ^ 10 < a -> a < b -> 0 < lo -> lo < hi ->
  let W := fun pd => compute_We unit nd pd lo hi None None in
  W (fun E => power_law E A1 e0 a) + W (fun E => power_law E A2 e0 b) < W (fun E => power_law E A1 e0 a + power_law E A2 e0 b).
Proof.
  intros unit nd A1 A2 e0 a b lo hi Hu HA1 HA2 H0 Ha Hab Hlo Hhi W. unfold W, compute_We. rewrite !energy_eq.
  destruct (Es_facts unit nd lo hi Hu Hlo Hhi) as (G & _). cbv zeta in G.
  set (es := map (fun g => g * unit) (gam unit nd lo hi)) in *.
  assert (L : (2 <= length es)%nat).
  { unfold es, gam. rewrite map_length, logspace_length. pose proof (npoints_ge (nd * (log10 (hi / unit) - log10 (lo / unit)))). lia. }
  assert (X : map (fun E => E * (power_law E A1 e0 a + power_law E A2 e0 b)) es = map (fun E => E * power_law E A1 e0 a + E * power_law E A2 e0 b) es).
  { apply map_ext. intros. ring. }
  rewrite X. apply (sum_strict (fun E => E * power_law E A1 e0 a) (fun E => E * power_law E A2 e0 b) (a - 1) (b - 1)); try lra; try assumption.
  - intros x y Hx Hy. split; [|apply Rmult_lt_0_compat; [lra|apply pl_pos; exact HA1]].
    replace (- (a - 1)) with (1 - a) by ring. apply pl_step; lra.
  - intros x y Hx Hy. split; [|apply Rmult_lt_0_compat; [lra|apply pl_pos; exact HA2]].
    replace (- (b - 1)) with (1 - b) by ring. apply pl_step; lra.
Qed.
Print Assumptions C139_superposition_refuted.

(** ** Exact monotonicity fails: the window round index -1 *)
Lemma cosh_sq c : exp c + exp (- c) - 2 = (exp (c / 2) - exp (- (c / 2))) ^ 2.
Proof.
  assert (E1 : exp c = exp (c / 2) * exp (c / 2)) by (rewrite <- exp_plus; apply (f_equal exp); field).
  assert (E2 : exp (- c) = exp (- (c / 2)) * exp (- (c / 2))) by (rewrite <- exp_plus; apply (f_equal exp); field).
  assert (E3 : exp (c / 2) * exp (- (c / 2)) = 1) by (rewrite <- exp_plus, Rplus_opp_r; apply exp_0).
  rewrite E1, E2. simpl. lra.
Qed.
Lemma cosh_ge c : 0 <= exp c + exp (- c) - 2.
Proof. rewrite cosh_sq. apply pow2_ge_0. Qed.
Lemma cosh_gt c : 0 < c -> 0 < exp c + exp (- c) - 2.
Proof. intros H. rewrite cosh_sq. apply pow_lt. assert (exp (- (c / 2)) < exp (c / 2)) by (apply exp_increasing; lra). lra. Qed.
Lemma sinh_gt s : 0 < s -> s * exp s < (exp (2 * s) - 1) / 2.
Proof.
  intros Hs. assert (E : exp (2 * s) = exp s * exp s) by (rewrite <- exp_plus; apply (f_equal exp); ring). rewrite E.
  pose proof (exp_pos s) as P. assert (K : 2 * s < exp s - exp (- s)).
  { (* x - sinh x is decreasing *)
    destruct (MVT_gen (fun x => exp x - exp (- x) - 2 * x) 0 s (fun x => exp x + exp (- x) - 2)) as (c & Hc & EQ).
    - intros x _. auto_derive; [exact I|ring].
    - intros x _. apply continuity_pt_filterlim. apply (ex_derive_continuous (fun x => exp x - exp (- x) - 2 * x)). auto_derive. exact I.
    - rewrite Rmin_left, Rmax_right in Hc by lra. rewrite Ropp_0, exp_0 in EQ.
      assert (D : 0 <= exp c + exp (- c) - 2).
      { apply cosh_ge. }
      destruct D as [D|D].
      + assert (0 < (exp c + exp (- c) - 2) * (s - 0)) by (apply Rmult_lt_0_compat; lra). lra.
      + (* equality only at c = 0: use a second point *)
        assert (EQ0 : exp s - exp (- s) - 2 * s = 0) by (rewrite <- D in EQ; lra). exfalso.
        destruct (MVT_gen (fun x => exp x - exp (- x) - 2 * x) (s / 2) s (fun x => exp x + exp (- x) - 2)) as (c' & Hc' & EQ').
        { intros x _. auto_derive; [exact I|ring]. }
        { intros x _. apply continuity_pt_filterlim. apply (ex_derive_continuous (fun x => exp x - exp (- x) - 2 * x)). auto_derive. exact I. }
        destruct (MVT_gen (fun x => exp x - exp (- x) - 2 * x) 0 (s / 2) (fun x => exp x + exp (- x) - 2)) as (c'' & Hc'' & EQ'').
        { intros x _. auto_derive; [exact I|ring]. }
        { intros x _. apply continuity_pt_filterlim. apply (ex_derive_continuous (fun x => exp x - exp (- x) - 2 * x)). auto_derive. exact I. }
        rewrite Rmin_left, Rmax_right in Hc' by lra. rewrite Ropp_0, exp_0 in EQ''.
        assert (D' : 0 < exp c' + exp (- c') - 2).
        { apply cosh_gt. lra. }
        assert (D'' : 0 <= exp c'' + exp (- c'') - 2).
        { apply cosh_ge. }
        assert (0 < (exp c' + exp (- c') - 2) * (s - s / 2)) by (apply Rmult_lt_0_compat; lra).
        assert (0 <= (exp c'' + exp (- c'') - 2) * (s / 2 - 0)) by (apply Rmult_le_pos; lra). lra. }
  assert (I1 : exp s * exp (- s) = 1) by (rewrite <- exp_plus, Rplus_opp_r; apply exp_0). nra.
Qed.

(** Populations [pd1 <= pd2], more particles in the second at the lowest energy,
    but less energy. *)
Theorem C139_monotone_refuted : forall unit nd lo hi, 0 < unit -> 0 < lo -> lo < hi ->
  exists pd1 pd2, (forall E, 0 <= pd1 E <= pd2 E) /\
    compute_We unit nd pd2 lo hi None None < compute_We unit nd pd1 lo hi None None.
Proof.
  intros unit nd lo hi Hu Hlo Hhi. unfold compute_We.
  destruct (Es_facts unit nd lo hi Hu Hlo Hhi) as (G & _). cbv zeta in G.
  assert (L : (10 <= length (map (fun g : R => (g * unit)%R) (gam unit nd lo hi)))%nat).
  { unfold gam. rewrite map_length, logspace_length. apply npoints_ge. }
  assert (X : forall pd, electron_energy unit pd (gam unit nd lo hi) = trapz_loglog (map (fun E => E * pd E) (map (fun g => g * unit) (gam unit nd lo hi))) (map (fun g => g * unit) (gam unit nd lo hi))).
  { intros pd. apply energy_eq. }
  set (es := map (fun g => g * unit) (gam unit nd lo hi)) in *. clearbody es.
  destruct es as [|x1 [|x2 es]]; [simpl in L; lia|simpl in L; lia|]. destruct (grid_cons2 _ _ _ G) as (P1 & P2 & G').
  set (r := x2 / x1). assert (R1 : 1 < r). { unfold r. apply (Rmult_lt_reg_r x1); [exact P1|]. unfold Rdiv. rewrite Rmult_assoc, Rinv_l by lra. lra. }
  assert (HL : 0 < ln r) by (rewrite <- ln_1; apply ln_increasing; lra).
  set (w := / 10 ^ 10). assert (W : 0 < w) by apply window_pos.
  (* E pd: (1, r^(-1+2w)) and (r^w, r^(-1+2w)) *)
  set (y := Rpower r (-1 + 2 * w)). assert (Y : 0 < y) by apply exp_pos.
  set (c := Rpower r w). assert (C1 : 1 < c). { unfold c. rewrite <- (Rpower_O r) by lra. apply Rpower_lt; lra. }
  pose (pdv := fun v E => if Req_EM_T E x1 then v / x1 else if Req_EM_T E x2 then y / x2 else 0).
  exists (pdv 1), (pdv c). split.
  { intros E. unfold pdv. destruct (Req_EM_T E x1) as [->|_].
    - split; [apply Rlt_le, div_pos; lra|]. apply Rmult_le_compat_r; [apply Rlt_le, Rinv_0_lt_compat; lra|lra].
    - destruct (Req_EM_T E x2); [|lra]. assert (0 < y / x2) by (apply div_pos; lra). lra. }
  assert (V : forall v, electron_energy unit (pdv v) (gam unit nd lo hi) = interval x1 x2 v y).
  { intros v. rewrite X. cbn [map]. rewrite trapz_cons2.
    assert (E1 : x1 * pdv v x1 = v) by (unfold pdv; destruct (Req_EM_T x1 x1); [field; lra|congruence]).
    assert (E2 : x2 * pdv v x2 = y) by (unfold pdv; destruct (Req_EM_T x2 x1); [lra|]; destruct (Req_EM_T x2 x2); [field; lra|congruence]).
    rewrite E1, E2.
    assert (Z : forall l, (forall e, In e l -> x2 < e) -> map (fun E => E * pdv v E) l = map (fun _ => 0) l).
    { intros l H. apply map_ext_in. intros e He. specialize (H e He). unfold pdv. destruct (Req_EM_T e x1); [lra|]. destruct (Req_EM_T e x2); [lra|]. ring. }
    rewrite Z.
    2:{ destruct G' as [_ S]. inversion_clear S as [|? ? S1 S2]. rewrite List.Forall_forall in S2. exact S2. }
    assert (T0 : forall l, trapz_loglog (map (fun _ => 0) l) l = 0).
    { induction l as [|u [|u' l] IH]; [reflexivity|reflexivity|]. cbn [map] in *. rewrite trapz_cons2, IH. unfold interval. destruct (Req_EM_T 0 0); [lra|congruence]. }
    assert (T1 : trapz_loglog (y :: map (fun _ => 0) es) (x2 :: es) = 0).
    { destruct es as [|x3 es]; [reflexivity|]. cbn [map]. rewrite trapz_cons2. specialize (T0 (x3 :: es)). cbn [map] in T0. rewrite T0.
      unfold interval. destruct (Req_EM_T y 0); [lra|]. destruct (Req_EM_T 0 0); [lra|congruence]. }
    rewrite T1. ring. }
  rewrite !V. rewrite !interval_raw by lra. rewrite !raw_interval_same by nra. cbv zeta. rewrite !local_index_ln by lra. fold r.
  assert (B1 : ln (y / 1) / ln r = -1 + 2 * w). { unfold Rdiv at 2. rewrite Rinv_1, Rmult_1_r. unfold y, Rpower. rewrite ln_exp. field. lra. }
  assert (B2 : ln (y / c) / ln r = -1 + w). { rewrite ln_div by lra. unfold y, c, Rpower. rewrite !ln_exp. field. lra. }
  rewrite B1, B2. replace (-1 + w + 1) with w by ring. replace (-1 + 2 * w + 1) with (2 * w) by ring.
  rewrite !Rabs_pos_eq by lra. fold window_eps in w. change window_eps with w.
  destruct (Rlt_dec w w) as [C|_]; [lra|]. destruct (Rlt_dec w (2 * w)) as [_|C]; [|lra].
  assert (F : x2 * Rpower r (-1 + 2 * w) = x1 * Rpower r (2 * w)).
  { rewrite Rpower_plus. assert (E : Rpower r (-1) = / r) by (replace (-1) with (- (1)) by ring; rewrite Rpower_Ropp, Rpower_1 by lra; reflexivity).
    rewrite E. unfold r at 1. field. lra. }
  rewrite F. pose proof (sinh_gt (w * ln r) ltac:(apply Rmult_lt_0_compat; assumption)) as K.
  assert (E2 : Rpower r (2 * w) = exp (2 * (w * ln r))) by (unfold Rpower; apply (f_equal exp); ring).
  assert (E3 : c = exp (w * ln r)) by reflexivity. rewrite E2, E3.
  replace (1 * (x1 * exp (2 * (w * ln r)) - x1) / (2 * w)) with (x1 * / w * ((exp (2 * (w * ln r)) - 1) / 2)) by (field; lra).
  replace (x1 * exp (w * ln r) * ln r) with (x1 * / w * (w * ln r * exp (w * ln r))) by (field; lra).
  apply Rmult_lt_compat_l; [|exact K]. apply Rmult_lt_0_compat; [exact P1|apply Rinv_0_lt_compat; exact W].
Qed.
Print Assumptions C139_monotone_refuted.

(** ** Examples *)
Example C111_example_contains :
  contains (fun E => power_law E 1 10 2 + power_law E 3 10 3) (fun E => power_law E 1 10 2) (fun E => power_law E 3 10 3) /\
  contains (fun E => power_law E 2 10 2) (fun E => power_law E 1 10 2) (fun _ => 0).
Proof.
  split; intros E HE.
  - assert (0 < power_law E 1 10 2) by (apply pl_pos; lra). assert (0 < power_law E 3 10 3) by (apply pl_pos; lra). lra.
  - assert (0 < power_law E 1 10 2) by (apply pl_pos; lra). unfold power_law in *. lra.
Qed.
Example C111_example_slopes :
  slope_between (fun E => E * power_law E 1 10 2) 1 1000 (-2) (-1) /\ slope_between (fun E => E * power_law E 3 10 3) 1 1000 (-2) (-1).
Proof.
  assert (M : forall x y k k', 0 < x -> x <= y -> k <= k' -> Rpower (y / x) k <= Rpower (y / x) k').
  { intros x y k k' H1 H2 H3. pose proof (ratio_ge1 x y H1 H2) as [Q|<-]; [apply Rle_Rpower; lra|]. rewrite !Rpower_base1. lra. }
  split; intros x y A B C; rewrite (pl_step _ _ _ x y) by lra.
  - assert (P : 0 < x * power_law x 1 10 2) by (apply Rmult_lt_0_compat; [lra|apply pl_pos; lra]). split; apply Rmult_le_compat_l; try lra; apply M; lra.
  - assert (P : 0 < x * power_law x 3 10 3) by (apply Rmult_lt_0_compat; [lra|apply pl_pos; lra]). split; apply Rmult_le_compat_l; try lra; apply M; lra.
Qed.
