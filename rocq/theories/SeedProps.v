(** C161: seed photon energies and densities that make no sense. *)
From Coq Require Import Reals List String Lra Lia.
From Verif Require Import Outcome TrapzModel TrapzSpec TrapzProofs EnergyModel EnergyProofs ElectronModel ElectronProofs
  SeedModel ElectronProps.
Import ListNotations.
Local Open Scope R_scope.

(** what the user writes: [name, T or energy, density] with or without an angle *)
Definition given_seed (name : string) (T : tq) (u : uq) (th : option R) : inseed :=
  match th with None => SIso name T u | Some t => SAni name T u (Angle t) end.

(** Negative temperatures, and negative densities of a black body or line, are
    refused. *)
Theorem C161_refused_partial : forall ar eV name th,
  (forall T u, T < 0 -> process1 ar eV (given_seed name (Temperature T) u th) = Err "ValueError"%string) /\
  (forall T u, 0 <= T -> u < 0 -> process1 ar eV (given_seed name (Temperature T) (EnergyDensity [u]) th) = Err "ValueError"%string) /\
  (forall e u, u < 0 -> process1 ar eV (given_seed name (Energies [e]) (EnergyDensity [u]) th) = Err "ValueError"%string).
Proof.
  intros ar eV name th. repeat split; intros; destruct th; simpl; unfold thermal;
    repeat match goal with |- context [Rlt_dec ?a ?b] => destruct (Rlt_dec a b) | |- context [Req_EM_T ?a ?b] => destruct (Req_EM_T a b) end;
    try lra; reflexivity.
Qed.
Print Assumptions C161_refused_partial.

(** A black body given with a zero density, in whatever unit, is the full one of its temperature. *)
Theorem C161_zero_partial : forall ar eV name th T, 0 <= T ->
  Forall (fun u => process1 ar eV (given_seed name (Temperature T) u th) = Ok (name, Thermal T (ar * (T * T * T * T)) th))
    [Plain 0; EnergyDensity [0]; NumberDensity [0]; OtherU [0]].
Proof.
  intros ar eV name th T H. replace (T * T * T * T) with (T ^ 4) by ring.
  repeat constructor; destruct th; simpl; unfold thermal; destruct (Rlt_dec T 0); try lra; destruct (Req_EM_T 0 0); try congruence; reflexivity.
Qed.
Print Assumptions C161_zero_partial.

(** Any other negative number is accepted: the energy of a line, and energies and
    densities of a spectrum. *)
Theorem C161_accepted_refuted : forall ar eV name th,
  (forall e u, 0 <= u -> process1 ar eV (given_seed name (Energies [e]) (EnergyDensity [u]) th) = Ok (name, Array [e] [u] th)) /\
  (forall es ns, (2 <= List.length es)%nat -> process1 ar eV (given_seed name (Energies es) (NumberDensity ns) th) = Ok (name, Array es ns th)).
Proof.
  intros ar eV name th. split.
  - intros e u Hu. destruct th; simpl; destruct (Rlt_dec u 0); try lra; reflexivity.
  - intros [|e0 [|e1 es]] ns L; simpl in L; try lia. destruct th; reflexivity.
Qed.
Print Assumptions C161_accepted_refuted.

Lemma fic_negative b w q : 1 < w -> 0 < q < 1 -> b * q = w / (1 - w) -> fic b q < 0.
Proof.
  intros Hw Hq E. unfold fic. rewrite E.
  assert (L : ln q <= q - 1).
  { pose proof (exp_ineq1_le (ln q)) as K. rewrite exp_ln in K by lra. lra. }
  assert (A : 1 / 2 * (w / (1 - w)) ^ 2 * (1 - q) / (1 + w / (1 - w)) <= - 2 * (1 - q)).
  { replace (1 / 2 * (w / (1 - w)) ^ 2 * (1 - q) / (1 + w / (1 - w))) with (- (w ^ 2 / (2 * (w - 1))) * (1 - q)) by (field; lra).
    apply Rmult_le_compat_r; [lra|]. assert (2 <= w ^ 2 / (2 * (w - 1))); [|lra].
    apply Rmult_le_reg_r with (2 * (w - 1)); [lra|]. unfold Rdiv. rewrite Rmult_assoc, Rinv_l by lra.
    pose proof (pow2_ge_0 (w - 2)). nra. }
  nra.
Qed.

Section Neg.
  Variables electron eps gamma : R.
  Hypothesis He : 0 < electron.
  Hypothesis Heps : eps < 0.
  Hypothesis Hg : 0 < gamma.
  Let w := gamma / electron.
  Let b := 4 * eps * electron.
  Let q := w / (b * (1 - w)).
  Lemma neg_below : gamma <= electron -> aa_kernel electron eps gamma = 0.
  Proof.
    intros H. unfold aa_kernel. cbv zeta. fold w b q.
    assert (Hw : 0 < w) by (apply div_pos; auto).
    assert (W1 : w <= 1). { unfold w. apply Rmult_le_reg_r with electron; auto. unfold Rdiv. rewrite Rmult_assoc, Rinv_l; lra. }
    destruct (Req_EM_T (b * (1 - w)) 0); auto. destruct (Rlt_dec 0 q) as [P|P]; auto. exfalso.
    assert (D : b * (1 - w) < 0). { assert (b < 0) by (unfold b; nra). assert (b * (1 - w) <= 0) by nra. lra. }
    apply Rinv_lt_0_compat in D. unfold q, Rdiv in P. nra.
  Qed.
  Lemma neg_above : electron < gamma -> aa_kernel electron eps gamma <= 0 /\ (1 / (4 * electron ^ 2) < q < 1 -> aa_kernel electron eps gamma < 0).
  Proof.
    intros H. assert (W1 : 1 < w). { unfold w. apply Rmult_lt_reg_r with electron; auto. unfold Rdiv. rewrite Rmult_assoc, Rinv_l; lra. }
    assert (B : b < 0) by (unfold b; nra). assert (D : 0 < b * (1 - w)) by nra.
    assert (Q : 0 < q) by (apply div_pos; lra).
    assert (E : b * q = w / (1 - w)) by (unfold q; field; lra).
    unfold aa_kernel. cbv zeta. fold w b q. destruct (Req_EM_T (b * (1 - w)) 0); [lra|]. destruct (Rlt_dec 0 q); [|lra].
    split.
    - destruct (Rlt_le_dec q 1) as [L|L].
      + pose proof (fic_negative b w q W1 (conj Q L) E). pose proof (heaviside_nonneg (1 - q)). pose proof (heaviside_nonneg (q - 1 / (4 * electron ^ 2))).
        assert (0 <= heaviside (1 - q) * heaviside (q - 1 / (4 * electron ^ 2))) by (apply Rmult_le_pos; assumption). nra.
      + destruct L as [L|L].
        * rewrite (heaviside_neg (1 - q)) by lra. lra.
        * rewrite <- L. replace (fic b 1) with 0; [lra|]. unfold fic. rewrite ln_1. unfold Rdiv. ring.
    - intros [L1 L2]. unfold heaviside. destruct (Rlt_dec 0 (1 - q)); [|lra]. destruct (Rlt_dec 0 (q - 1 / (4 * electron ^ 2))); [|lra].
      pose proof (fic_negative b w q W1 (conj Q L2) E). lra.
  Qed.
End Neg.

Lemma interval_opp x1 x2 y1 y2 : interval x1 x2 (- y1) (- y2) = - interval x1 x2 y1 y2.
Proof.
  unfold interval. destruct (Req_EM_T (- y1) 0), (Req_EM_T y1 0); try lra.
  destruct (Req_EM_T (- y2) 0), (Req_EM_T y2 0); try lra. destruct (Req_EM_T x1 x2); [lra|].
  apply raw_interval_opp; auto.
Qed.
Lemma trapz_opp ys : forall xs, trapz_loglog (map Ropp ys) xs = - trapz_loglog ys xs.
Proof.
  unfold trapz_loglog. induction ys as [|y1 ys IH]; intros xs; [simpl; lra|].
  destruct ys as [|y2 ys]; [destruct xs as [|? [|]]; simpl; lra|]. destruct xs as [|x1 [|x2 xs]]; [simpl; lra|simpl; lra|].
  change (interval x1 x2 (- y1) (- y2) + fold_right Rplus 0 (trapz_intervals (map Ropp (y2 :: ys)) (x2 :: xs))
          = - (interval x1 x2 y1 y2 + fold_right Rplus 0 (trapz_intervals (y2 :: ys) (x2 :: xs)))).
  rewrite IH, interval_opp. ring.
Qed.

Lemma line_spectrum mec2 ar pd gs e u th E :
  calc_specic mec2 ar pd gs (Array [e] [u] th) [E] =
  [ - (E / mec2 * trapz_loglog (map (fun g => pd (g * mec2) * mec2 * (- aa_kernel g (e / mec2) (E / mec2) * (u / mec2 / (e / mec2) ^ 2) * (3 / 4 * sigt_c / g ^ 2))) gs) gs / E) ].
Proof.
  unfold calc_specic. cbn [map seed_factor to_mec2 seed_kernel iso_ic_on_monochromatic]. rewrite nelec_kernel. f_equal.
  match goal with |- context [trapz_loglog (map ?f gs) gs] => replace (trapz_loglog (map f gs) gs) with (- trapz_loglog (map (fun g => pd (g * mec2) * mec2 * (- aa_kernel g (e / mec2) (E / mec2) * (u / mec2 / (e / mec2) ^ 2) * (3 / 4 * sigt_c / g ^ 2))) gs) gs) end.
  - unfold Rdiv. ring.
  - rewrite <- trapz_opp, map_map. f_equal. apply map_ext. intros g. unfold iso_ic_on_monochromatic. cbv zeta. unfold Rdiv. ring.
Qed.

Lemma gam_bounds mec2 nd Emin Emax g : 0 < mec2 -> 0 < Emin < Emax -> In g (gam mec2 nd Emin Emax) -> Emin / mec2 <= g <= Emax / mec2.
Proof.
  intros Hm HE Hg. destruct (gam_le_max mec2 nd Emin Emax g Hm HE Hg) as [_ U]. split; auto.
  unfold gam in Hg. set (N := npoints _) in Hg. assert (HN : (10 <= N)%nat) by apply npoints_ge.
  destruct (In_nth _ _ 0 Hg) as (i & Hi & E). rewrite logspace_length in Hi. rewrite logspace_nth in E by lia. subst g.
  set (a := log10 (Emin / mec2)) in *. set (c := log10 (Emax / mec2)) in *. assert (a < c) by (apply log10_ratio; lra).
  rewrite <- (pow10_log10 (Emin / mec2)) by (apply div_pos; lra). fold a.
  assert (P : 0 < INR (N - 1)) by (apply lt_0_INR; lia).
  assert (0 <= INR i * ((c - a) / INR (N - 1))).
  { apply Rmult_le_pos; [apply pos_INR|]. apply Rmult_le_pos; [lra|]. apply Rlt_le, Rinv_0_lt_compat; auto. }
  destruct (Req_dec (INR i * ((c - a) / INR (N - 1))) 0) as [Z|Z]; [rewrite Z, Rplus_0_r; lra|]. apply Rlt_le, pow10_lt. lra.
Qed.

(** The spectrum of a line of negative energy: never a positive number of photons, and
    a negative number of them above a certain energy, all of these more energetic than
    every electron. *)
Theorem C161_negative_photons_refuted : forall mec2 ar eV pd nd Emin Emax name eps u E,
  0 < mec2 -> 0 < Emin < Emax -> (forall x, 0 < x -> 0 < pd x) -> eps < 0 -> 0 < u -> 0 < E ->
  exists s, process1 ar eV (SIso name (Energies [eps]) (EnergyDensity [u])) = Ok (name, s) /\
  exists y, ic_spectrum mec2 ar pd (gam mec2 nd Emin Emax) [s] [E] = [y] /\ y <= 0 /\
  let r := 4 * - eps * Emin / mec2 ^ 2 in
  (- eps < Emin -> 1 < r -> Emax * (r / (r - 1)) < E -> Emax < E /\ y < 0).
Proof.
  intros mec2 ar eV pd nd Emin Emax name eps u E Hm HE Hpd Heps Hu HE0. exists (Array [eps] [u] None). split.
  { simpl. destruct (Rlt_dec u 0); [lra|reflexivity]. }
  pose proof (line_spectrum mec2 ar pd (gam mec2 nd Emin Emax) eps u None E) as LS.
  set (f := fun g => pd (g * mec2) * mec2 * (- aa_kernel g (eps / mec2) (E / mec2) * (u / mec2 / (eps / mec2) ^ 2) * (3 / 4 * sigt_c / g ^ 2))) in *.
  set (gs := gam mec2 nd Emin Emax) in *. set (t := trapz_loglog (map f gs) gs) in *.
  exists (- (E / mec2 * t / E)). split.
  { unfold ic_spectrum. cbn [fold_right map]. rewrite LS. cbn [combine map fst snd]. f_equal. ring. }
  assert (G : grid gs) by (apply gam_grid; lra). assert (Em : 0 < E / mec2) by (apply div_pos; auto).
  assert (EP : eps / mec2 < 0). { unfold Rdiv. assert (0 < / mec2) by (apply Rinv_0_lt_compat; auto). nra. }
  assert (C : 0 < u / mec2 / (eps / mec2) ^ 2). { apply div_pos; [apply div_pos; auto|]. nra. }
  assert (FP : forall g, 0 < g -> 0 < pd (g * mec2) * mec2 /\ 0 < (u / mec2 / (eps / mec2) ^ 2) * (3 / 4 * sigt_c / g ^ 2)).
  { intros g Pg. split; [apply Rmult_lt_0_compat; auto; apply Hpd, Rmult_lt_0_compat; auto|]. apply Rmult_lt_0_compat; auto. apply mono_factor_pos; auto. }
  assert (F0 : forall g, 0 < g -> 0 <= f g).
  { intros g Pg. destruct (FP g Pg) as [F1 F2]. unfold f. assert (aa_kernel g (eps / mec2) (E / mec2) <= 0).
    { destruct (Rle_lt_dec (E / mec2) g) as [L|L]; [rewrite neg_below; auto; lra|apply neg_above; auto]. }
    apply Rmult_le_pos; [lra|]. rewrite Rmult_assoc. apply Rmult_le_pos; lra. }
  assert (Fall : List.Forall (fun y => 0 <= y) (map f gs)).
  { apply Forall_map. destruct G as [G _]. eapply Forall_impl; [|exact G]. intros; simpl; auto. }
  assert (T0 : 0 <= t) by (apply trapz_nonneg; auto).
  split. { assert (0 <= E / mec2 * t / E); [|lra]. apply Rmult_le_pos; [apply Rmult_le_pos; lra|]. apply Rlt_le, Rinv_0_lt_compat; auto. }
  intros r R1 R2 R3.
  assert (Emax < E). { apply Rlt_trans with (2 := R3). assert (1 < r / (r - 1)); [|nra]. apply Rmult_lt_reg_r with (r - 1); [lra|]. unfold Rdiv. rewrite Rmult_assoc, Rinv_l by lra. lra. }
  split; auto.
  assert (FS : forall g, In g gs -> 0 < f g).
  { intros g Ig. destruct (gam_bounds mec2 nd Emin Emax g Hm HE Ig) as [B1 B2].
    assert (P1 : 0 < Emin / mec2) by (apply div_pos; lra). assert (Pg : 0 < g) by lra.
    destruct (FP g Pg) as [F1 F2].
    assert (L : g < E / mec2). { apply Rle_lt_trans with (1 := B2). apply Rmult_lt_compat_r; auto. apply Rinv_0_lt_compat; auto. }
    destruct (neg_above g (eps / mec2) (E / mec2) Pg EP L) as [_ K].
    unfold f. apply Rmult_lt_0_compat; auto. rewrite Rmult_assoc. apply Rmult_lt_0_compat; auto.
    assert (aa_kernel g (eps / mec2) (E / mec2) < 0); [|lra]. apply K. clear K.
    set (a := - (eps / mec2)). assert (Pa : 0 < a) by (unfold a; lra).
    set (G' := E / mec2) in *.
    assert (Q : G' / g / (4 * (eps / mec2) * g * (1 - G' / g)) = G' / (4 * a * g * (G' - g))).
    { unfold a. field. repeat split; lra. }
    rewrite Q. assert (D : 0 < 4 * a * g * (G' - g)) by (repeat apply Rmult_lt_0_compat; lra).
    assert (A1 : a < g).
    { apply Rlt_le_trans with (2 := B1). unfold a, Rdiv. apply Rmult_lt_reg_r with mec2; auto. rewrite Ropp_mult_distr_l, !Rmult_assoc, Rinv_l by lra. lra. }
    assert (Er : r = 4 * a * (Emin / mec2)) by (unfold r, a; field; lra).
    assert (A2 : r <= 4 * a * g) by (rewrite Er; apply Rmult_le_compat_l; lra).
    assert (A3 : g * r < G' * (r - 1)).
    { apply Rle_lt_trans with (Emax / mec2 * r); [apply Rmult_le_compat_r; lra|].
      unfold G'. apply Rmult_lt_reg_r with (mec2 / (r - 1)); [apply div_pos; lra|].
      apply Rle_lt_trans with (Emax * (r / (r - 1))); [right; field; lra|]. apply Rlt_le_trans with (1 := R3). right; field; lra. }
    split.
    - apply Rmult_lt_reg_r with (4 * a * g * (G' - g)); auto. unfold Rdiv at 2. rewrite (Rmult_assoc G'), Rinv_l by lra.
      replace (1 / (4 * g ^ 2) * (4 * a * g * (G' - g))) with (a / g * (G' - g)) by (field; lra).
      assert (a / g < 1). { apply Rmult_lt_reg_r with g; auto. unfold Rdiv. rewrite Rmult_assoc, Rinv_l by lra. lra. }
      assert (0 < G' - g) by lra. nra.
    - apply Rmult_lt_reg_r with (4 * a * g * (G' - g)); auto. unfold Rdiv. rewrite Rmult_assoc, Rinv_l by lra.
      assert ((4 * a * g - r) * (G' - g) >= 0) by (apply Rle_ge, Rmult_le_pos; lra). nra. }
  assert (0 < t).
  { assert (LG : (10 <= List.length gs)%nat) by (unfold gs, gam; rewrite logspace_length; apply npoints_ge).
    unfold t. destruct gs as [|g1 [|g2 gl]]; simpl in LG; try lia. cbn [map]. apply trapz_pos; auto.
    - apply FS. left; auto.
    - apply FS. right; left; auto.
    - inversion Fall as [|? ? ? Fa]; subst. inversion Fa; subst. assumption. }
  assert (0 < E / mec2 * t / E); [|lra]. apply div_pos; auto. apply Rmult_lt_0_compat; auto.
Qed.
Print Assumptions C161_negative_photons_refuted.

(** not vacuous: a line of energy -mec2 and electrons from mec2 to 10 mec2 *)
Example C161_example : let mec2 := 1 in let Emin := 1 in let Emax := 10 in let eps := - (9 / 10) in
  0 < mec2 /\ 0 < Emin < Emax /\ eps < 0 /\ - eps < Emin /\ 1 < 4 * - eps * Emin / mec2 ^ 2 /\
  Emax * ((4 * - eps * Emin / mec2 ^ 2) / (4 * - eps * Emin / mec2 ^ 2 - 1)) < 14.
Proof. cbv zeta. replace (4 * - - (9 / 10) * 1 / 1 ^ 2) with (36 / 10) by field. replace (36 / 10 - 1) with (26 / 10) by field. repeat split; lra. Qed.
