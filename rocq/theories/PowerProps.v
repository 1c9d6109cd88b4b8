(** Property C170: synchrotron electrons radiate at the classical rate. *)
From Coq Require Import Reals ZArith List Lra Lia.
From Coquelicot Require Import Coquelicot.
From Flocq Require Import Raux.
From Verif Require Import TrapzProofs ElectronModel ElectronProofs ConvProofs ErrProofs PubProps3 PowerProofs.
Local Open Scope R_scope.

(** ** The physics: Thomson cross section, energy density of the field, and the power
    4/3 sigma_T c gamma^2 U_B radiated by an electron in a randomly oriented field
    (Gaussian units). *)
Definition sigma_T (e me c : R) : R := 8 * PI / 3 * (e ^ 2 / (me * c ^ 2)) ^ 2.
Definition U_B (B : R) : R := B ^ 2 / (8 * PI).
Definition synchrotron_power (e me c B gamma : R) : R := 4 / 3 * sigma_T e me c * c * gamma ^ 2 * U_B B.

(** ** Continuity of the synchrotron function *)
Lemma cbrt_cont x : 0 <= x -> continuity_pt cbrt x.
Proof.
  intros Hx. destruct (Req_dec x 0) as [->|NZ].
  - intros eps He. exists (eps ^ 3). split; [apply pow_lt; assumption|]. intros y ((_ & NY) & Hy). cbn in *. unfold R_dist in *. rewrite Rminus_0_r in Hy.
    assert (C0: cbrt 0 = 0). { unfold cbrt. destruct (Rlt_dec 0 0); [lra|]. destruct (Req_EM_T 0 0); [reflexivity|lra]. }
    rewrite C0, Rminus_0_r.
    assert (K: forall z, 0 < z -> z < eps ^ 3 -> Rpower z (1 / 3) < eps).
    { intros z Hz Hl. replace eps with (Rpower (eps ^ 3) (1 / 3)).
      - apply Rlt_Rpower_l; [lra|]. split; assumption.
      - rewrite <- (Rpower_pow 3 eps He), Rpower_mult. replace (INR 3 * (1 / 3)) with 1 by (simpl; field). apply Rpower_1. assumption. }
    unfold cbrt. destruct (Rlt_dec y 0).
    + rewrite Rabs_left in Hy by assumption. rewrite Rabs_Ropp, Rabs_pos_eq by (left; apply exp_pos). apply K; lra.
    + destruct (Req_EM_T y 0) as [E|E]; [rewrite Rabs_R0; assumption|]. rewrite Rabs_pos_eq in Hy by lra. rewrite Rabs_pos_eq by (left; apply exp_pos). apply K; lra.
  - assert (P: 0 < x) by lra. apply (continuity_pt_ext_loc (fun x => Rpower x (1 / 3))).
    + exists (mkposreal x P). intros y Hy. change (Rabs (y - x) < x) in Hy. apply Rabs_def2 in Hy. unfold cbrt. destruct (Rlt_dec y 0); [lra|]. destruct (Req_EM_T y 0); [lra|reflexivity].
    + apply continuity_pt_filterlim. apply (@ex_derive_continuous R_AbsRing R_NormedModule (fun x => Rpower x (1 / 3)) x). unfold Rpower. auto_derive. assumption.
Qed.
Lemma Gtilde_cont x : 0 <= x -> continuity_pt Gtilde x.
Proof.
  intros Hx. pose proof (cbrt_cont x Hx) as C.
  apply (continuity_pt_ext (fun x => (fun b => 1808 / 1000 * b / sqrt (1 + 34 / 10 * b ^ 2) * ((1 + 221 / 100 * b ^ 2 + 347 / 1000 * b ^ 4) / (1 + 1353 / 1000 * b ^ 2 + 217 / 1000 * b ^ 4))) (cbrt x) * exp (- x))); [reflexivity|].
  apply (continuity_pt_mult (fun x => (fun b => 1808 / 1000 * b / sqrt (1 + 34 / 10 * b ^ 2) * ((1 + 221 / 100 * b ^ 2 + 347 / 1000 * b ^ 4) / (1 + 1353 / 1000 * b ^ 2 + 217 / 1000 * b ^ 4))) (cbrt x)) (fun x => exp (- x))).
  - apply (continuity_pt_comp cbrt (fun b => 1808 / 1000 * b / sqrt (1 + 34 / 10 * b ^ 2) * ((1 + 221 / 100 * b ^ 2 + 347 / 1000 * b ^ 4) / (1 + 1353 / 1000 * b ^ 2 + 217 / 1000 * b ^ 4)))); [exact C|]. apply continuity_pt_filterlim.
    match goal with |- filterlim ?f _ _ => apply (@ex_derive_continuous R_AbsRing R_NormedModule f (cbrt x)) end.
    destruct (pos_all (cbrt x)) as (S & N & D). unfold Sq, Nn, Dn in *. assert (0 < sqrt (1 + 34 / 10 * cbrt x ^ 2)) by (apply sqrt_lt_R0; lra).
    auto_derive. repeat split; cbn [pow] in *; lra.
  - apply continuity_pt_filterlim. apply (@ex_derive_continuous R_AbsRing R_NormedModule (fun x => exp (- x)) x). auto_derive. exact Logic.I.
Qed.
Lemma Gtilde_exp x : 0 < x -> 0 <= Gtilde x <= 17 / 10 * exp (- x).
Proof.
  intros Hx. split; [left; apply Gtilde_pos; assumption|].
  set (c := Rpower x (1 / 3)). assert (Hc: 0 < c) by apply exp_pos.
  assert (E: x = c ^ 3). { unfold c. rewrite <- Rpower_pow by apply exp_pos. rewrite Rpower_mult. replace (1 / 3 * INR 3) with 1 by (simpl; field). symmetry. apply Rpower_1. assumption. }
  pose proof (G_of_cube c (Rlt_le _ _ Hc)) as G. rewrite <- E in G. destruct (cew_le c (Rlt_le _ _ Hc)) as (_ & U). rewrite <- E in U.
  assert (FE: F c = c ^ 2 * (c * ew c)) by (unfold F, ew; ring). rewrite FE in G.
  assert (C2: 0 < c ^ 2) by (apply pow_lt; assumption). assert (K: 3 * Gtilde x = c * ew c) by (apply Rmult_eq_reg_l with (c ^ 2); lra).
  pose proof (exp_pos (- x)). lra.
Qed.

(** ** The integral of the synchrotron function *)
Lemma G_integral_cube : RInt Gtilde 0 (125 / 8) = RInt F 0 (5 / 2).
Proof.
  pose proof (RInt_comp Gtilde (fun c => c ^ 3) (fun c => 3 * c ^ 2) 0 (5 / 2)) as X. cbv beta in X.
  replace ((5 / 2) ^ 3) with (125 / 8) in X by field. replace (0 ^ 3) with 0 in X by ring. rewrite <- X.
  - apply RInt_ext. intros c Hc. rewrite Rmin_left, Rmax_right in Hc by lra. apply G_of_cube. lra.
  - intros c Hc. rewrite Rmin_left, Rmax_right in Hc by lra. apply continuity_pt_filterlim. apply Gtilde_cont. apply pow_le. lra.
  - intros c _. split; [auto_derive; [exact Logic.I|ring]|]. apply (@ex_derive_continuous R_AbsRing R_NormedModule (fun c => 3 * c ^ 2) c). auto_derive. exact Logic.I.
Qed.
Lemma exp_m15 : exp (- (125 / 8)) <= / 32768.
Proof.
  rewrite exp_Ropp. apply Rinv_le_contravar; [lra|]. apply Rle_trans with (exp (INR 15 * 1)).
  - rewrite <- exp_pow. apply Rle_trans with (2 ^ 15); [lra|]. apply pow_incr. pose proof (exp_ge_1p 1). lra.
  - apply exp_le. simpl. lra.
Qed.
Lemma G_integral X : 16 <= X -> 10718 / 10000 <= RInt Gtilde 0 X <= 10771 / 10000.
Proof.
  intros HX. rewrite <- (RInt_Chasles Gtilde 0 (125 / 8) X).
  2:{ apply ex_RInt_cont; [lra|]. intros; apply Gtilde_cont; lra. }
  2:{ apply ex_RInt_cont; [lra|]. intros; apply Gtilde_cont; lra. }
  match goal with |- context [plus ?u ?v] => change (plus u v) with (u + v) end.
  rewrite G_integral_cube. pose proof F_integral as FI.
  assert (EX: ex_RInt Gtilde (125 / 8) X). { apply ex_RInt_cont; [lra|]. intros; apply Gtilde_cont; lra. }
  assert (T: is_RInt (fun x => 17 / 10 * exp (- x)) (125 / 8) X (17 / 10 * exp (- (125 / 8)) - 17 / 10 * exp (- X))).
  { replace (17 / 10 * exp (- (125 / 8)) - 17 / 10 * exp (- X)) with (minus ((fun x => - (17 / 10 * exp (- x))) X) ((fun x => - (17 / 10 * exp (- x))) (125 / 8))) by (unfold minus, plus, opp; cbn; ring).
    apply (is_RInt_derive (fun x => - (17 / 10 * exp (- x)))).
    - intros x _. auto_derive; [exact Logic.I|ring].
    - intros x _. apply (@ex_derive_continuous R_AbsRing R_NormedModule (fun x => 17 / 10 * exp (- x)) x). auto_derive. exact Logic.I. }
  assert (A: 0 <= RInt Gtilde (125 / 8) X). { apply RInt_ge_0; [lra|exact EX|]. intros x Hx. apply Gtilde_exp. lra. }
  assert (B: RInt Gtilde (125 / 8) X <= 17 / 10 * exp (- (125 / 8)) - 17 / 10 * exp (- X)).
  { rewrite <- (is_RInt_unique _ _ _ _ T). apply RInt_le; [lra|exact EX|eexists; exact T|]. intros x Hx. apply Gtilde_exp. lra. }
  pose proof (exp_pos (- X)). pose proof exp_m15. lra.
Qed.
(** the exact value is 16 pi / (27 sqrt 3) *)
Lemma sqrt3_bounds : 17320508 / 10 ^ 7 < sqrt 3 < 17320509 / 10 ^ 7.
Proof.
  split.
  - rewrite <- (sqrt_square (17320508 / 10 ^ 7)) by lra. apply sqrt_lt_1; lra.
  - rewrite <- (sqrt_square (17320509 / 10 ^ 7)) by lra. apply sqrt_lt_1; lra.
Qed.
Lemma G_value X : 16 <= X -> Rabs (RInt Gtilde 0 X * (27 * sqrt 3 / (16 * PI)) - 1) <= 1 / 300.
Proof.
  intros HX. pose proof (G_integral X HX) as G. pose proof PI_bounds as P. pose proof sqrt3_bounds as S. set (g := RInt Gtilde 0 X) in *.
  assert (E: g * (27 * sqrt 3 / (16 * PI)) - 1 = (g * (27 * sqrt 3) - 16 * PI) / (16 * PI)) by (field; lra).
  rewrite E. unfold Rdiv. rewrite Rabs_mult, (Rabs_pos_eq (/ (16 * PI))) by (left; apply Rinv_0_lt_compat; lra).
  apply Rmult_le_reg_r with (16 * PI); [lra|]. rewrite Rmult_assoc, Rinv_l, Rmult_1_r by lra.
  assert (L: 10718 / 10000 * (27 * (17320508 / 10 ^ 7)) <= g * (27 * sqrt 3)) by (apply Rmult_le_compat; lra).
  assert (U: g * (27 * sqrt 3) <= 10771 / 10000 * (27 * (17320509 / 10 ^ 7))) by (apply Rmult_le_compat; lra).
  apply Rabs_le. lra.
Qed.

(** ** Theorem *)
(** The energy an electron of any Lorentz factor radiates in any field, integrated over
    all photon energies up to any energy beyond 16 critical energies, is the classical
    synchrotron power to one part in 300. *)
Theorem C170_power : forall k B gamma Emax, sy_ok k -> 0 < B -> 0 < gamma ->
  16 * (3 * sy_e k * sy_hbar k * B * gamma ^ 2 / (2 * sy_me k * sy_c k)) <= Emax ->
  let radiated := RInt (fun E => E * sy_kernel k B gamma E) 0 Emax in
  let P := synchrotron_power (sy_e k) (sy_me k) (sy_c k) B gamma in
  Rabs (radiated - P) <= P / 300.
Proof.
  intros k B g Emax K HB Hg HE radiated P. pose proof (Ecrit_pos k B g K HB Hg) as EC. pose proof K as (K1 & K2 & K3 & K4).
  assert (HE': 16 * Ecrit k B g <= Emax). { unfold Ecrit. replace (2 * (sy_me k * sy_c k)) with (2 * sy_me k * sy_c k) by ring. exact HE. }
  clear HE. set (Ec := Ecrit k B g) in *. set (A := sqrt 3 * sy_e k ^ 3 * B / (2 * PI * sy_me k * sy_c k ^ 2 * sy_hbar k)).
  assert (E0: 0 < Emax) by lra. pose proof PI_RGT_0 as PP.
  assert (X16: 16 <= Emax / Ec). { apply Rmult_le_reg_r with Ec; [assumption|]. unfold Rdiv. rewrite Rmult_assoc, Rinv_l by lra. lra. }
  assert (EX: ex_RInt Gtilde (/ Ec * 0 + 0) (/ Ec * Emax + 0)).
  { replace (/ Ec * 0 + 0) with 0 by ring. replace (/ Ec * Emax + 0) with (Emax / Ec) by (field; lra). apply ex_RInt_cont; [lra|]. intros; apply Gtilde_cont; lra. }
  assert (R: radiated = A * Ec * RInt Gtilde 0 (Emax / Ec)).
  { pose proof (RInt_comp_lin Gtilde (/ Ec) 0 0 Emax EX) as L. replace (/ Ec * 0 + 0) with 0 in L by ring. replace (/ Ec * Emax + 0) with (Emax / Ec) in L by (field; lra).
    rewrite <- L. unfold radiated.
    assert (EX2: ex_RInt (fun y => scal (/ Ec) (Gtilde (/ Ec * y + 0))) 0 Emax) by (apply (ex_RInt_comp_lin Gtilde); exact EX).
    rewrite (RInt_ext (fun E => E * sy_kernel k B g E) (fun y => scal (A * Ec) (scal (/ Ec) (Gtilde (/ Ec * y + 0))))).
    - exact (RInt_scal (fun y => scal (/ Ec) (Gtilde (/ Ec * y + 0))) 0 Emax (A * Ec) EX2).
    - intros E HE. rewrite Rmin_left, Rmax_right in HE by lra. unfold sy_kernel. fold Ec. unfold scal; cbn. unfold mult; cbn.
      replace (/ Ec * E + 0) with (E / Ec) by (field; lra). unfold CS1, A. cbn [pow]. field. repeat split; lra. }
  assert (PV: A * Ec = P * (27 * sqrt 3 / (16 * PI))).
  { unfold A, Ec, Ecrit, P, synchrotron_power, sigma_T, U_B. field. repeat split; lra. }
  assert (PPos: 0 < P).
  { unfold P, synchrotron_power, sigma_T, U_B. assert (Q: 0 < sy_e k ^ 2 / (sy_me k * sy_c k ^ 2)). { apply div_pos; [apply pow_lt; assumption|]. apply Rmult_lt_0_compat; [assumption|apply pow_lt; assumption]. }
    assert (0 < (sy_e k ^ 2 / (sy_me k * sy_c k ^ 2)) ^ 2) by (apply pow_lt; assumption). assert (0 < g ^ 2) by (apply pow_lt; assumption). assert (0 < B ^ 2) by (apply pow_lt; assumption).
    assert (0 < B ^ 2 / (8 * PI)) by (apply div_pos; lra).
    apply Rmult_lt_0_compat; [|assumption]. apply Rmult_lt_0_compat; [|assumption]. apply Rmult_lt_0_compat; [|assumption]. apply Rmult_lt_0_compat; [lra|]. apply Rmult_lt_0_compat; [lra|assumption]. }
  pose proof (G_value (Emax / Ec) X16) as G. rewrite R, PV.
  replace (P * (27 * sqrt 3 / (16 * PI)) * RInt Gtilde 0 (Emax / Ec) - P) with (P * (RInt Gtilde 0 (Emax / Ec) * (27 * sqrt 3 / (16 * PI)) - 1)) by ring.
  rewrite Rabs_mult, (Rabs_pos_eq P) by lra. replace (P / 300) with (P * (1 / 300)) by field. apply Rmult_le_compat_l; lra.
Qed.

(** Non-vacuity: unit constants, unit field, Lorentz factor 2: the critical energy is 6,
    the classical power 16/9. *)
Example C170_case : sy_ok (mkSy 1 1 1 1) /\
  16 * (3 * sy_e (mkSy 1 1 1 1) * sy_hbar (mkSy 1 1 1 1) * 1 * 2 ^ 2 / (2 * sy_me (mkSy 1 1 1 1) * sy_c (mkSy 1 1 1 1))) <= 96 /\
  synchrotron_power 1 1 1 1 2 = 16 / 9.
Proof.
  split; [|split].
  - unfold sy_ok. cbn. repeat split; lra.
  - cbn. lra.
  - unfold synchrotron_power, sigma_T, U_B. field. pose proof PI_RGT_0. lra.
Qed.
