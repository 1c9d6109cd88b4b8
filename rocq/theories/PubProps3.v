(** C150-C152: synchrotron and inverse Compton emission follow the published formulas. *)
From Coq Require Import Reals ZArith List Lra Lia Bool Machin.
From Coquelicot Require Import Coquelicot.
From Verif Require Import TrapzModel TrapzSpec TrapzProofs EnergyModel EnergyProofs ElectronModel ElectronProofs ConvProofs ConvProps ConvProps2.
Import ListNotations.
Local Open Scope R_scope.

(** ** C150: synchrotron, Aharonian, Kelner and Prosekin (2010), appendix D *)
(** Eq. D7 with y the cube root of the photon energy over the critical energy *)
Definition G_tangled (y : R) : R :=
  1808 / 1000 * y / sqrt (1 + 34 / 10 * (y * y))
  * ((1 + y * y * (221 / 100 + 347 / 1000 * (y * y))) / (1 + y * y * (1353 / 1000 + 217 / 1000 * (y * y)))) * exp (- (y * y * y)).
(** Photons per time and energy E from one electron of Lorentz factor g in a tangled
    field B: fine structure constant times the cyclotron energy, and the critical energy
    3/2 g^2 times the cyclotron energy. *)
Definition cyclotron (k : sy_consts) (B : R) : R := sy_hbar k * sy_e k * B / (sy_me k * sy_c k).
Definition fine_structure (k : sy_consts) : R := sy_e k ^ 2 / (sy_hbar k * sy_c k).
Definition published_sy (k : sy_consts) (B g E : R) : R :=
  let y := exp (ln (E / (3 / 2 * cyclotron k B * g ^ 2)) / 3) in
  sqrt 3 / (2 * PI) * fine_structure k * (cyclotron k B / (sy_hbar k * E)) * G_tangled y.

Lemma cbrt_exp x : 0 < x -> cbrt x = exp (ln x / 3).
Proof.
  intros H. unfold cbrt. destruct (Rlt_dec x 0); [lra|]. destruct (Req_EM_T x 0); [lra|]. unfold Rpower. f_equal. lra.
Qed.
Lemma exp_third x : 0 < x -> let y := exp (ln x / 3) in y * y * y = x.
Proof.
  intros H y. unfold y. rewrite <- !exp_plus. replace (ln x / 3 + ln x / 3 + ln x / 3) with (ln x) by field. apply exp_ln, H.
Qed.
Lemma Gtilde_pub x : 0 < x -> Gtilde x = G_tangled (exp (ln x / 3)).
Proof.
  intros H. unfold Gtilde, G_tangled. rewrite cbrt_exp by exact H. rewrite (exp_third x H). set (y := exp (ln x / 3)).
  f_equal. f_equal; [do 2 f_equal; ring|]. f_equal; ring.
Qed.

Theorem C150_emission : forall k B g E, sy_ok k -> 0 < B -> 0 < g -> 0 < E -> sy_kernel k B g E = published_sy k B g E.
Proof.
  intros k B g E (K1 & K2 & K3 & K4) HB Hg HE. unfold sy_kernel, published_sy.
  assert (EC : Ecrit k B g = 3 / 2 * cyclotron k B * g ^ 2) by (unfold Ecrit, cyclotron; field; lra).
  assert (PC : 0 < Ecrit k B g) by (apply Ecrit_pos; try assumption; repeat split; assumption).
  rewrite <- EC. rewrite Gtilde_pub by (apply div_pos; assumption). f_equal.
  unfold CS1, cyclotron, fine_structure. pose proof PI_RGT_0. field. repeat split; lra.
Qed.
Print Assumptions C150_emission.

(** The spectrum tends to the integral over the electrons. *)
Theorem C150_spectrum : forall k B mec2 pd lo hi Es i, sy_ok k -> 0 < B -> 0 < mec2 -> 0 < lo -> lo < hi ->
  (i < length Es)%nat -> List.Forall (fun E => 0 < E) Es -> continuous_density pd lo hi ->
  tends (fun nd => nth i (sy_spectrum k B mec2 pd (gam mec2 nd lo hi) Es) 0)
        (RInt (fun g => pd (g * mec2) * mec2 * published_sy k B g (nth i Es 0)) (lo / mec2) (hi / mec2)).
Proof.
  intros k B mec2 pd lo hi Es i K HB Hm Hlo Hhi Hi HE HD.
  replace (RInt (fun g => pd (g * mec2) * mec2 * published_sy k B g (nth i Es 0)) (lo / mec2) (hi / mec2))
    with (RInt (sy_integrand k B mec2 pd (nth i Es 0)) (lo / mec2) (hi / mec2)); [apply C110_synchrotron_continuous; assumption|].
  assert (L0 : 0 < lo / mec2) by (apply div_pos; lra).
  assert (LH : lo / mec2 < hi / mec2) by (apply Rmult_lt_compat_r; [apply Rinv_0_lt_compat|]; lra).
  apply RInt_ext. intros g. rewrite Rmin_left, Rmax_right by lra. intros [A _]. unfold sy_integrand.
  rewrite C150_emission; try assumption; [reflexivity|lra|]. rewrite List.Forall_forall in HE. apply HE, nth_In, Hi.
Qed.
Print Assumptions C150_spectrum.

Lemma PI_bounds : 31415926 / 10 ^ 7 < PI < 31415927 / 10 ^ 7.
Proof.
  pose proof (PI_2_3_7_ineq 4) as [A B].
  cbv [sum_f_R0 tg_alt PI_2_3_7_tg Ratan_seq Nat.mul Nat.add] in A, B. cbn [INR pow] in A, B. lra.
Qed.

(** Far above the critical energy the exact function is pi/2 exp(-x); the one in use
    tends to 1.568 exp(-x), 0.2 per cent less.  Far below it is 1.808 x^(1/3). *)
Theorem C150_asymptotics : exists a, Rabs (a / (PI / 2) - 1) < 2 / 1000 /\
  (forall eps, 0 < eps -> exists X, forall x, X < x -> Rabs (Gtilde x / exp (- x) - a) < eps) /\
  (forall eps, 0 < eps -> exists d, 0 < d /\ forall y, 0 < y < d -> Rabs (Gtilde (y ^ 3) / y - 1808 / 1000) < eps).
Proof.
  set (h := fun u => 1808 / 1000 / sqrt (u * u + 34 / 10) * ((u * u * (u * u + 221 / 100) + 347 / 1000) / (u * u * (u * u + 1353 / 1000) + 217 / 1000))).
  set (l := fun y => 1808 / 1000 / sqrt (1 + 34 / 10 * (y * y)) * ((1 + y * y * (221 / 100 + 347 / 1000 * (y * y))) / (1 + y * y * (1353 / 1000 + 217 / 1000 * (y * y)))) * exp (- (y * y * y))).
  assert (SQ : forall u, 0 <= u * u) by (intros u; apply Rle_0_sqr).
  assert (CH : continuity_pt h 0).
  { apply derivable_continuous_pt. apply ex_derive_Reals_0. unfold h. auto_derive. rewrite !Rmult_0_l, !Rplus_0_l.
    repeat split; try lra. apply Rgt_not_eq, sqrt_lt_R0. lra. }
  assert (CL : continuity_pt l 0).
  { apply derivable_continuous_pt. apply ex_derive_Reals_0. unfold l. auto_derive. rewrite !Rmult_0_l, !Rmult_0_r, !Rplus_0_r.
    repeat split; try lra. rewrite sqrt_1. lra. }
  exists (h 0). split; [|split].
  - unfold h. rewrite !Rmult_0_l, !Rplus_0_l. set (s := sqrt (34 / 10)).
    assert (S2 : s * s = 34 / 10) by (apply sqrt_sqrt; lra). assert (S0 : 0 < s) by (apply sqrt_lt_R0; lra).
    assert (S1 : 18439 / 10000 < s < 18440 / 10000) by (split; nra).
    pose proof PI_bounds as PB.
    assert (E : 1808 / 1000 / s * (347 / 1000 / (217 / 1000)) / (PI / 2) = (2 * 1808 * 347 / 217 / 1000) / (s * PI)) by (field; lra).
    rewrite E. assert (SP : 18439 / 10000 * (31415926 / 10 ^ 7) < s * PI < 18440 / 10000 * (31415927 / 10 ^ 7)) by (split; apply Rmult_le_0_lt_compat; lra).
    set (q := s * PI) in *. assert (P : 0 < q) by lra.
    set (v := 2 * 1808 * 347 / 217 / 1000 / q). assert (V : v * q = 2 * 1808 * 347 / 217 / 1000) by (unfold v; field; lra).
    apply Rabs_def1; nra.
  - intros eps He. destruct (CH eps He) as (d & Hd & HC). exists (1 + / (d * d * d)).
    assert (D3 : 0 < d * d * d) by (repeat apply Rmult_lt_0_compat; assumption).
    assert (ID : 0 < / (d * d * d)) by (apply Rinv_0_lt_compat, D3).
    intros x Hx. assert (X0 : 0 < x) by lra.
    rewrite Gtilde_pub by exact X0. pose proof (exp_third x X0) as Y3. cbv zeta in Y3. set (y := exp (ln x / 3)) in *.
    assert (Y0 : 0 < y) by apply exp_pos.
    assert (YD : / y < d).
    { apply Rnot_le_lt. intros N. assert (y <= / d). { rewrite <- (Rinv_inv y). apply Rinv_le_contravar; assumption. }
      assert (y * y * y <= / d * / d * / d) by (repeat apply Rmult_le_compat; try assumption; try (repeat apply Rmult_le_pos); lra).
      assert (/ d * / d * / d = / (d * d * d)) by (field; lra). lra. }
    assert (E : G_tangled y / exp (- x) = h (/ y)).
    { unfold G_tangled, h. rewrite Y3. pose proof (exp_pos (- x)).
      replace (/ y * / y + 34 / 10) with ((1 + 34 / 10 * (y * y)) / (y * y)) by (field; lra).
      rewrite sqrt_div_alt by (apply Rmult_lt_0_compat; assumption).
      replace (sqrt (y * y)) with y by (rewrite sqrt_square; lra). pose proof (SQ y).
      assert (0 < sqrt (1 + 34 / 10 * (y * y))) by (apply sqrt_lt_R0; lra). field. pose proof (SQ (y * y)).
      assert (0 < y * y) by (apply Rmult_lt_0_compat; assumption). assert (0 < y * y * y * y) by (repeat apply Rmult_lt_0_compat; assumption).
      repeat split; try lra; try nra. }
    rewrite E. assert (0 < / y) by (apply Rinv_0_lt_compat, Y0).
    specialize (HC (/ y)). simpl in HC. unfold R_dist in HC. apply HC. split; [split; [exact I|lra]|]. rewrite Rminus_0_r, Rabs_pos_eq; lra.
  - intros eps He. destruct (CL eps He) as (d & Hd & HC). exists d. split; [exact Hd|]. intros y [Y0 Y1].
    assert (Y3 : 0 < y ^ 3) by (apply pow_lt, Y0).
    assert (EY : exp (ln (y ^ 3) / 3) = y).
    { replace (ln (y ^ 3)) with (3 * ln y). { replace (3 * ln y / 3) with (ln y) by field. apply exp_ln, Y0. }
      rewrite <- Rpower_pow by exact Y0. unfold Rpower. rewrite ln_exp. simpl. ring. }
    rewrite Gtilde_pub, EY by exact Y3.
    replace (G_tangled y / y) with (l y).
    2:{ unfold G_tangled, l. pose proof (SQ y). assert (0 < sqrt (1 + 34 / 10 * (y * y))) by (apply sqrt_lt_R0; lra). field.
        assert (0 < y * y) by (apply Rmult_lt_0_compat; assumption). repeat split; nra. }
    replace (1808 / 1000) with (l 0).
    2:{ unfold l. rewrite !Rmult_0_l, !Rmult_0_r, !Rplus_0_r, sqrt_1, Ropp_0, exp_0. field. }
    specialize (HC y). simpl in HC. unfold R_dist in HC. apply HC. split; [split; [exact I|lra]|]. rewrite Rminus_0_r, Rabs_pos_eq; lra.
Qed.
Print Assumptions C150_asymptotics.
Example C150_example : sy_ok (mkSy 1 1 1 1) /\ continuous_density (fun _ => 1) 1 2.
Proof. split; [repeat split; simpl; lra|]. intros x _. split; [|lra]. apply continuity_pt_const. intros ? ?. reflexivity. Qed.
