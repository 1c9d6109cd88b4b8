(** C116: rounding errors of binary64 arithmetic. *)
From Coq Require Import Reals List ZArith String Permutation Lra Lia.
From Flocq Require Import Core Relative Sterbenz.
From Verif Require Import Outcome CoreModel SpectralModel ElectronModel FloatModel FloatProofs.
Import ListNotations.
Local Open Scope R_scope.

(** ** Specification *)
(** [computed] has relative error at most K * 2^-52 (K units in the last place) *)
Definition within (K exact computed : R) : Prop := Rabs (computed - exact) <= K * (/ 2 ^ 52) * Rabs exact.
(** the C library returns results within one unit in the last place *)
Definition libm_1ulp (L : libm) : Prop :=
  (forall x a, 0 < x -> within 1 (Rpower x a) (lpow L x a)) /\
  (forall x, within 1 (exp x) (lexp L x)) /\
  (forall x, 0 < x -> within 1 (ln x) (llog L x)) /\
  (forall x, 0 < x -> within 1 (cbrt x) (lcbrt L x)).
(** a data row with positive errors and, for its upper limit, a confidence level of
    at least one half *)
Definition good_row (r : row) : Prop :=
  is_double (err_lo r) /\ is_double (err_hi r) /\ 0 < err_lo r /\ 0 < err_hi r /\
  is_double (cl r) /\ 1 / 2 <= cl r < 1.

Lemma two_u : 2 * u = / 2 ^ 52.
Proof. unfold u. replace (2 ^ 52) with 4503599627370496 by ring. lra. Qed.
Lemma near_within k x y : near k x y -> k <= 2 ^ 50 -> within k x y.
Proof.
  intros H K. unfold within. rewrite <- two_u. apply near_dev; [assumption|].
  eapply Rle_trans; [exact K|]. replace (2 ^ 50) with 1125899906842624 by ring. lra.
Qed.
Lemma within_near x y : within 1 x y -> near 3 x y.
Proof. unfold within. rewrite <- two_u, Rmult_1_l. apply near_of_ulp. Qed.
Lemma within_mono k k' x y : within k x y -> k <= k' -> within k' x y.
Proof.
  unfold within. intros H K. eapply Rle_trans; [exact H|]. apply Rmult_le_compat_r; [apply Rabs_pos|].
  apply Rmult_le_compat_r; [|assumption]. rewrite <- two_u. pose proof u_pos. lra.
Qed.

(** ** Likelihood *)
Lemma frow_near m r : good_row r -> near 6 (row_lnl m r) (frow_lnl m r).
Proof.
  intros (D1 & D2 & P1 & P2 & _). unfold row_lnl, frow_lnl. cbv zeta.
  assert (N: near 1 (m - flux r) (fsub m (flux r))) by apply near_fl.
  set (d := m - flux r) in *. set (d' := fsub m (flux r)) in *.
  assert (S: (0 < d <-> 0 < d')) by (eapply near_sign; eassumption).
  assert (N2: near 3 (- d ^ 2) (- fsq d')).
  { apply near_opp. replace 3 with (2 * 1 + 1) by ring. unfold fsq, fmul. apply near_fl_of. apply near_sq. assumption. }
  assert (G: forall e e', e' = e -> near 6 (- d ^ 2 / (2 * e ^ 2)) (fdiv (- fsq d') (fmul 2 (fsq e')))).
  { intros e e' ->. unfold fdiv at 1. replace 6 with ((3 + 2) + 1) by ring. apply near_fl_of. apply near_div; [assumption|].
    unfold fmul. replace 2 with (1 + 1) at 1 by ring. apply near_fl_of.
    replace 1 with (0 + 1) by ring. apply near_mul; [apply near_refl; lra|]. unfold fsq, fmul.
    replace (e ^ 2) with (e * e) by ring. apply near_fl. }
  destruct (Rlt_dec 0 d) as [A | A]; destruct (Rlt_dec 0 d') as [B | B]; try (exfalso; tauto); apply G; unfold fadd, fmul.
  - rewrite !Rmult_0_l, !Rmult_1_l, fl_0, !Rplus_0_l, (fl_double _ D2). apply fl_double. assumption.
  - rewrite !Rmult_0_l, !Rmult_1_l, fl_0, !Rplus_0_r, (fl_double _ D1). apply fl_double. assumption.
Qed.
Lemma row_lnl_np m r : good_row r -> row_lnl m r <= 0.
Proof.
  intros (_ & _ & P1 & P2 & _). unfold row_lnl. cbv zeta. set (d := m - flux r).
  assert (G: forall e, 0 < e -> - d ^ 2 / (2 * e ^ 2) <= 0).
  { intros e He. assert (0 < / (2 * e ^ 2)) by (apply Rinv_0_lt_compat; nra). unfold Rdiv. nra. }
  destruct (Rlt_dec 0 d); apply G; lra.
Qed.
Lemma fsum1_opp l s : fsum1 l s -> fsum1 (map Ropp l) (- s).
Proof.
  induction 1 as [y | ys1 ys2 a b H1 IH1 H2 IH2 | ys1 ys2 a P H1 IH1].
  - apply fs_one.
  - rewrite map_app. unfold fadd. rewrite <- fl_opp, Ropp_plus_distr. apply fs_add; assumption.
  - eapply fs_perm; [apply Permutation_map; exact P|assumption].
Qed.
Lemma sumR_opp l : sumR (map Ropp l) = - sumR l.
Proof. induction l; cbn; lra. Qed.
Lemma total_near (ps : list (R * row)) s : List.Forall (fun p => good_row (snd p)) ps ->
  fsum (map (fun p => frow_lnl (fst p) (snd p)) ps) s ->
  near (INR (List.length ps) + 5) (sumR (map (fun p => row_lnl (fst p) (snd p)) ps)) s /\
  sumR (map (fun p => row_lnl (fst p) (snd p)) ps) <= 0.
Proof.
  intros F H. split.
  2:{ clear H. induction F as [|p ps Hp F IH]; cbn; [lra|]. pose proof (row_lnl_np (fst p) (snd p) Hp). lra. }
  destruct ps as [|p ps]. { cbn in H |- *. subst. apply near_refl. lra. }
  set (qs := p :: ps) in *. assert (H1: fsum1 (map (fun p => frow_lnl (fst p) (snd p)) qs) s) by exact H. clear H.
  apply fsum1_opp in H1.
  assert (N: near (6 + INR (List.length qs) - 1) (sumR (map Ropp (map (fun p => row_lnl (fst p) (snd p)) qs))) (- s)).
  { replace (List.length qs) with (List.length (map Ropp (map (fun p => frow_lnl (fst p) (snd p)) qs))) by (rewrite !map_length; reflexivity).
    apply fsum1_near with (1 := H1). clear - F. induction F as [|q qs Hq F IH]; cbn; constructor; [|assumption].
    pose proof (row_lnl_np (fst q) (snd q) Hq). split; [lra|]. apply near_opp. apply frow_near. assumption. }
  rewrite sumR_opp in N. apply near_opp in N. rewrite !Ropp_involutive in N. eapply near_weaken; [exact N|lra].
Qed.

Lemma sterb c : is_double c -> 1 / 2 <= c < 1 -> fsub 1 c = 1 - c.
Proof.
  intros D H. apply fl_double. assert (VE: Valid_exp (FLX_exp 53)) by (apply FLX_exp_valid; reflexivity).
  apply (sterbenz radix2 (FLX_exp 53)); [exact is_double_1|exact D|lra].
Qed.
Lemma ln_neg x : 0 < x <= 1 -> ln x <= 0.
Proof. intros H. rewrite <- ln_1. apply ln_le; lra. Qed.
Lemma Forall_combine_snd {A} (P : row -> Prop) : forall (m : list A) d, List.Forall P d -> List.Forall (fun p => P (snd p)) (combine m d).
Proof. induction m; intros d H; [constructor|]. destruct H; cbn; constructor; auto. Qed.
Lemma Forall_filter {A} (P : A -> Prop) f l : List.Forall P l -> List.Forall P (filter f l).
Proof. induction 1; cbn; [constructor|]. destruct (f x); [constructor|]; assumption. Qed.
Lemma filter_combine_le {A} f : forall (m : list A) (d : list row), (List.length (filter f (combine m d)) <= List.length d)%nat.
Proof.
  induction m; intros [|r d]; cbn; try lia. destruct (f (a, r)); cbn; specialize (IHm d); lia.
Qed.

(** The log-likelihood that binary64 arithmetic computes, whatever the order in which
    numpy adds up the rows, is the exact one up to n + 6 units in the last place for
    n data rows, and it fails exactly when the exact one does. *)
Theorem C116_likelihood : forall L model data out,
  libm_1ulp L -> List.Forall good_row data -> INR (List.length data) <= 10 ^ 15 ->
  flnl L model data out ->
  match lnl model data with
  | Err e => out = Err e
  | Ok exact => exists computed, out = Ok computed /\ within (INR (List.length data) + 6) exact computed
  end.
Proof.
  intros L model data out (_ & _ & Hlog & _) F Len (total & Hs & ->). unfold lnl. cbv zeta.
  set (ps := filter (fun p => negb (ul (snd p))) (combine model data)) in *.
  assert (Fp: List.Forall (fun p : R * row => good_row (snd p)) ps) by (apply Forall_filter, Forall_combine_snd; assumption).
  destruct (total_near ps total Fp Hs) as (N & NP).
  assert (Lp: INR (List.length ps) <= INR (List.length data)) by (apply le_INR, filter_combine_le).
  assert (B: INR (List.length data) + 6 <= 2 ^ 50).
  { eapply Rle_trans; [apply Rplus_le_compat_r; exact Len|]. replace (10 ^ 15) with 1000000000000000 by ring. replace (2 ^ 50) with 1125899906842624 by ring. lra. }
  destruct (existsb ul data).
  - set (n := List.length _). destruct (nth_error (map cl data) n) as [c|] eqn:E; [|reflexivity].
    eexists. split; [reflexivity|]. apply nth_error_In in E. apply in_map_iff in E. destruct E as (r & <- & Hr).
    rewrite List.Forall_forall in F. destruct (F r Hr) as (_ & _ & _ & _ & D & HC).
    rewrite (sterb _ D HC). apply near_within; [|assumption].
    assert (Nl: near 3 (ln (1 - cl r)) (llog L (1 - cl r))) by (apply within_near, Hlog; lra).
    assert (Np: near 5 (INR n * ln (1 - cl r)) (fmul (fl (INR n)) (llog L (1 - cl r)))).
    { unfold fmul. replace 5 with ((1 + 3) + 1) by ring. apply near_fl_of. apply near_mul; [apply near_fl|assumption]. }
    assert (Pn: INR n * ln (1 - cl r) <= 0).
    { pose proof (pos_INR n). pose proof (ln_neg (1 - cl r)). nra. }
    apply near_weaken with ((INR (List.length data) + 5) + 1); [|lra]. unfold fadd. apply near_fl_of.
    apply near_opp in N, Np. apply near_weaken with (k' := INR (List.length data) + 5) in N; [|lra].
    apply near_weaken with (k' := INR (List.length data) + 5) in Np; [|pose proof (pos_INR (List.length data)); lra].
    assert (Q: near (INR (List.length data) + 5) (- sumR (map (fun p => row_lnl (fst p) (snd p)) ps) + - (INR n * ln (1 - cl r)))
       (- total + - fmul (fl (INR n)) (llog L (1 - cl r)))) by (apply near_add; try assumption; lra).
    apply near_opp in Q. rewrite <- !Ropp_plus_distr, !Ropp_involutive in Q. exact Q.
  - eexists. split; [reflexivity|]. apply near_within; [|assumption]. eapply near_weaken; [exact N|lra].
Qed.

(** One million rows: ten correct digits *)
Theorem C116_likelihood_million : forall L model data out exact,
  libm_1ulp L -> List.Forall good_row data -> INR (List.length data) <= 10 ^ 6 ->
  flnl L model data out -> lnl model data = Ok exact ->
  exists computed, out = Ok computed /\ Rabs (computed - exact) <= / 10 ^ 9 * Rabs exact.
Proof.
  intros L model data out exact HL F Len H E.
  assert (Len': INR (List.length data) <= 10 ^ 15) by (eapply Rle_trans; [exact Len|]; apply Rle_pow; [lra|lia]).
  pose proof (C116_likelihood L model data out HL F Len' H) as T. rewrite E in T. destruct T as (c & -> & W).
  exists c. split; [reflexivity|]. unfold within in W. eapply Rle_trans; [exact W|]. apply Rmult_le_compat_r; [apply Rabs_pos|].
  apply Rle_trans with ((10 ^ 6 + 6) * / 2 ^ 52); [apply Rmult_le_compat_r; [rewrite <- two_u; pose proof u_pos; lra|lra]|].
  replace (2 ^ 52) with 4503599627370496 by ring. lra.
Qed.

(** ** Sums of non-negative terms (np.sum, trapz_loglog) *)
Theorem C116_sum : forall terms s, List.Forall (fun x => 0 <= x) terms -> INR (List.length terms) <= 10 ^ 15 ->
  fsum terms s -> within (INR (List.length terms)) (sumR terms) s.
Proof.
  intros l s F Len H. destruct l as [|x l].
  { cbn in H. subst. apply near_within; [apply near_refl, pos_INR|]. cbn. lra. }
  assert (B: INR (List.length (x :: l)) <= 2 ^ 50).
  { eapply Rle_trans; [exact Len|]. replace (10 ^ 15) with 1000000000000000 by ring. replace (2 ^ 50) with 1125899906842624 by ring. lra. }
  apply near_within; [|assumption].
  assert (N: near (0 + INR (List.length (x :: l)) - 1) (sumR (x :: l)) s).
  { apply fsum1_near with (1 := H). clear - F. induction F; constructor; [split; [assumption|apply near_refl; lra]|assumption]. }
  eapply near_weaken; [exact N|lra].
Qed.

(** ** Flux, SED, SED conversion *)
Lemma near_fsq k x y : near k x y -> near (2 * k + 1) (x ^ 2) (fsq y).
Proof. intros. unfold fsq, fmul. apply near_fl_of, near_sq. assumption. Qed.
Lemma near_fmul k1 k2 x1 y1 x2 y2 : near k1 x1 y1 -> near k2 x2 y2 -> near (k1 + k2 + 1) (x1 * x2) (fmul y1 y2).
Proof. intros. unfold fmul. apply near_fl_of, near_mul; assumption. Qed.
Lemma near_fdiv k1 k2 x1 y1 x2 y2 : near k1 x1 y1 -> near k2 x2 y2 -> near (k1 + k2 + 1) (x1 / x2) (fdiv y1 y2).
Proof. intros. unfold fdiv. apply near_fl_of, near_div; assumption. Qed.
Lemma near_fadd k x1 y1 x2 y2 : 0 <= x1 -> 0 <= x2 -> near k x1 y1 -> near k x2 y2 -> near (k + 1) (x1 + x2) (fadd y1 y2).
Proof. intros. unfold fadd. apply near_fl_of, near_add; assumption. Qed.
Lemma near_0 x : near 0 x x. Proof. apply near_refl. lra. Qed.
Lemma near_flux spec cm : near 5 (spec / (4 * PI * cm ^ 2)) (fflux spec cm).
Proof.
  unfold fflux. eapply near_weaken.
  - apply near_fdiv; [apply near_0|]. apply near_fmul; [apply near_fmul; [apply near_0|apply near_fl]|apply near_fsq, near_0].
  - lra.
Qed.

Theorem C116_flux : forall spec cm, within 5 (spec / (4 * PI * cm ^ 2)) (fflux spec cm).
Proof. intros. apply near_within; [apply near_flux|lra]. Qed.

Theorem C116_sed : forall eV_erg spec cm E,
  within 9 (spec / (4 * PI * cm ^ 2) * E ^ 2 * eV_erg) (fsed eV_erg spec cm E).
Proof.
  intros. apply near_within; [|lra]. unfold fsed. eapply near_weaken.
  - apply near_fmul; [apply near_fmul; [apply near_flux|apply near_fsq, near_0]|apply near_fl].
  - lra.
Qed.

(** a differential flux converted to an SED and back *)
Theorem C116_round_trip : forall E x, E <> 0 -> within 5 x (ffrom_sed E (fto_sed E x)).
Proof.
  intros E x HE. apply near_within; [|lra]. unfold ffrom_sed, fto_sed.
  replace x with (x * E ^ 2 * (1 / E ^ 2)) at 1 by (field; assumption). eapply near_weaken.
  - apply near_fmul; [apply near_fmul; [apply near_0|apply near_fsq, near_0]|apply near_fdiv; [apply near_0|apply near_fsq, near_0]].
  - lra.
Qed.
