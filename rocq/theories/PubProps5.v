(** C153: bremsstrahlung follows the published formulas. *)
From Coq Require Import Reals ZArith List Lra Lia Bool.
From Coquelicot Require Import Coquelicot.
From Verif Require Import Outcome TrapzModel TrapzSpec TrapzProofs EnergyModel EnergyProofs ElectronModel ElectronProofs ConvProofs ConvProps ConvProps2 ConvProps3 BremsModel BremsProps BremsProps2.
Import ListNotations.
Local Open Scope R_scope.

(** Energies in units of the electron rest energy; k is the fine structure constant
    times the square of the classical electron radius. *)
Section Published.
  Variable k : R.
  (** Bethe and Heitler on an unscreened charge: an electron of energy E goes to E' = E - eps
      emitting a photon of energy eps *)
  Definition bethe_heitler (E eps : R) : R :=
    let E' := E - eps in
    4 * k / eps * (1 + (E' / E) ^ 2 - 2 / 3 * (E' / E)) * (ln (2 * E * E' / eps) - 1 / 2).
  (** Baring et al. (1999), Eq. A3: emission by the target electron *)
  Definition recoil_soft (E eps : R) : R :=
    k / (3 * eps) * (16 * (1 - eps + eps ^ 2) * ln (E / eps) - / eps ^ 2 + 3 / eps - 4 - 4 * eps - 8 * eps ^ 2
      - 2 * (1 - 2 * eps) * (/ (4 * eps ^ 3) - / (2 * eps ^ 2) + 3 / eps - 2 + 4 * eps) * ln (1 - 2 * eps)).
  Definition recoil_hard (E eps : R) : R :=
    2 * k / (3 * eps ^ 2) * ((4 - / eps + / (4 * eps ^ 2)) * (ln 2 + ln E) - 2 + 2 / eps - 5 / (8 * eps ^ 2)).
  (** Eq. A4: correction at mildly relativistic energies *)
  Definition mild (E eps : R) : R := 1 - 8 / (3 * (E + 1)) * exp (ln (E - 1) / 5) * exp (ln (eps / E) / 3).
  (** Eqs. A5-A7 (Haug): non-relativistic electron-electron bremsstrahlung; p = beta gamma is
      the momentum, the photon takes the fraction x of the maximum (E^2 - 1)/4 *)
  Definition haug (E eps : R) : R :=
    let p := sqrt (E ^ 2 - 1) in
    let x := eps / ((E ^ 2 - 1) / 4) in
    let B := (E ^ 2 + 1) / 2 in
    let C := 10 * x * p * (2 + p) / (1 + (x * p) ^ 2) in
    4 * k / (15 * eps) *
    (B * (17 - 3 * (x / (2 - x)) ^ 2 - C) * sqrt (1 - x)
     + (12 * (2 - x) - 7 * x ^ 2 / (2 - x) - 3 * x * (x / (2 - x)) ^ 3) * (ln (1 + sqrt (1 - x)) - ln x / 2)).

  (** electron-proton, and electron-electron with the change of regime at Lorentz factor gt *)
  Definition published_ep (E eps : R) : R := if Rlt_dec eps E then bethe_heitler E eps else 0.
  Definition published_ee (gt E eps : R) : R :=
    if Rlt_dec gt E then
      if Rlt_dec eps E then (bethe_heitler E eps + (if Rlt_dec (1 / 2) eps then recoil_hard E eps else recoil_soft E eps)) * mild E eps else 0
    else if Rlt_dec eps ((E ^ 2 - 1) / 4) then haug E eps else 0.
End Published.

Lemma sigma_1_pub k E eps : 0 < eps < E -> sigma_1 k E eps = bethe_heitler k E eps.
Proof.
  intros [H1 H2]. unfold sigma_1, bethe_heitler. destruct (Rlt_dec E eps); [lra|].
  replace (1 + (1 / 3 - eps / E) * (1 - eps / E)) with (1 + ((E - eps) / E) ^ 2 - 2 / 3 * ((E - eps) / E)) by (field; lra). reflexivity.
Qed.
Lemma sigma_1_above k E eps : E < eps -> sigma_1 k E eps = 0.
Proof. intros H. unfold sigma_1. destruct (Rlt_dec E eps); [ring|lra]. Qed.
Lemma sigma_2_pub k E eps : 0 < eps < E -> 0 < E ->
  sigma_2 k E eps = if Rlt_dec (1 / 2) eps then recoil_hard k E eps else recoil_soft k E eps.
Proof.
  intros [H1 H2] HE. unfold sigma_2, heaviside. destruct (Rlt_dec 0 (E - eps)); [|lra].
  destruct (Rle_dec eps (1 / 2)), (Rlt_dec (1 / 2) eps); try lra.
  - unfold recoil_soft. set (a := ln (E / eps)). set (b := ln (1 - 2 * eps)). field. lra.
  - unfold recoil_hard. rewrite ln_mult by lra. set (a := ln E). set (b := ln 2). field. lra.
Qed.
Lemma sigma_2_above k E eps : E < eps -> sigma_2 k E eps = 0.
Proof. intros H. unfold sigma_2, heaviside. destruct (Rlt_dec 0 (E - eps)); [lra|]. destruct (Req_EM_T (E - eps) 0); [lra|]. ring. Qed.

(** Every photon energy but that of the electron itself (where the code gives -inf). *)
Theorem C153_cross_sections : forall k gt E eps, 0 < eps -> 1 < gt -> 1 < E -> eps <> E ->
  sigma_ep k E eps = published_ep k E eps /\ sigma_ee k gt E eps = published_ee k gt E eps.
Proof.
  intros k gt E eps He Hg HE HN. split.
  - unfold sigma_ep, published_ep. destruct (Rlt_dec eps E); [apply sigma_1_pub; lra|apply sigma_1_above; lra].
  - unfold sigma_ee, published_ee. destruct (Rle_dec E gt) as [A|A], (Rlt_dec gt E) as [B|B]; try lra.
    + unfold sigma_ee_nonrel. destruct (Rlt_dec E 1); [lra|].
      destruct (Rle_dec (1 / 4 * (E ^ 2 - 1)) eps), (Rlt_dec eps ((E ^ 2 - 1) / 4)) as [X|X]; try lra.
      unfold haug, F_nr. assert (P2 : 0 < E ^ 2 - 1) by nra.
      assert (EX : eps / ((E ^ 2 - 1) / 4) = 4 * eps / (E ^ 2 - 1)) by (field; lra). rewrite EX. set (x := 4 * eps / (E ^ 2 - 1)).
      assert (X0 : 0 < x < 1).
      { unfold x. split; [apply div_pos; lra|]. apply (Rmult_lt_reg_r (E ^ 2 - 1)); [lra|]. unfold Rdiv. rewrite Rmult_assoc, Rinv_l by lra. lra. }
      assert (EP : sqrt (1 - / E ^ 2) = sqrt (E ^ 2 - 1) / E).
      { replace (1 - / E ^ 2) with ((E ^ 2 - 1) / E ^ 2) by (field; lra). rewrite sqrt_div_alt by nra. rewrite sqrt_pow2 by lra. reflexivity. }
      rewrite EP. set (p := sqrt (E ^ 2 - 1)). assert (PP : p * p = E ^ 2 - 1) by (apply sqrt_sqrt; lra).
      assert (P0 : 0 < p) by (apply sqrt_lt_R0; lra).
      rewrite ln_div; [|pose proof (sqrt_pos (1 - x)); lra|apply sqrt_lt_R0; lra].
      replace (ln (sqrt x)) with (ln x / 2) by (rewrite <- Rpower_sqrt by lra; unfold Rpower; rewrite ln_exp; field).
      replace (E ^ 2 - 1) with (p * p). set (s := sqrt (1 - x)). set (l := ln (1 + s)). set (m := ln x).
      replace (E ^ 2) with (p * p + 1) by lra. field. assert (0 < (x * p) ^ 2) by (apply pow_lt, Rmult_lt_0_compat; lra). repeat split; nra.
    + unfold sigma_ee_rel. destruct (Rlt_dec eps E) as [L|L].
      * rewrite sigma_1_pub, sigma_2_pub by lra. f_equal. unfold mild, Rpower.
        replace (2 / 10 * ln (E - 1)) with (ln (E - 1) / 5) by field. replace (1 / 3 * ln (eps / E)) with (ln (eps / E) / 3) by field. field. lra.
      * rewrite sigma_1_above, sigma_2_above by lra. ring.
Qed.
Print Assumptions C153_cross_sections.

Lemma strapz_is_trapz ys : forall xs, List.Forall (fun y => 0 <= y) ys -> strapz ys xs = trapz_loglog ys xs.
Proof.
  induction ys as [|y1 ys IH]; intros xs H; [reflexivity|]. destruct ys as [|y2 ys]; [destruct xs as [|? [|]]; reflexivity|].
  destruct xs as [|x1 [|x2 xs]]; [reflexivity..|]. inversion_clear H as [|? ? H1 H2].
  rewrite strapz_cons2, trapz_cons2. rewrite IH by exact H2. f_equal. inversion_clear H2 as [|? ? H3 H4].
  unfold sinterval, interval. destruct (Req_EM_T y1 0); [reflexivity|]. destruct (Req_EM_T y2 0); [reflexivity|]. destruct (Req_EM_T x1 x2); [reflexivity|].
  destruct (Rlt_dec (y1 * y2) 0) as [L|L]; [|reflexivity]. exfalso. assert (0 <= y1 * y2) by (apply Rmult_le_pos; assumption). lra.
Qed.

Lemma ee_cont k gt eps g : 1 < gt < g -> 0 < eps < g -> eps <> 1 / 2 -> continuity_pt (fun g => sigma_ee k gt g eps) g.
Proof.
  intros [G0 G1] He Hn. set (d := Rmin (g - gt) (g - eps)). assert (D : 0 < d) by (apply Rmin_pos; lra).
  apply (cont_locally (fun g => published_ee k gt g eps) _ g d D).
  { intros y Hy. apply Rabs_def2 in Hy. pose proof (Rmin_l (g - gt) (g - eps)). pose proof (Rmin_r (g - gt) (g - eps)). fold d in H, H0.
    apply C153_cross_sections; lra. }
  apply (cont_locally (fun g => (bethe_heitler k g eps + (if Rlt_dec (1 / 2) eps then recoil_hard k g eps else recoil_soft k g eps)) * mild g eps) _ g d D).
  { intros y Hy. apply Rabs_def2 in Hy. pose proof (Rmin_l (g - gt) (g - eps)). pose proof (Rmin_r (g - gt) (g - eps)). fold d in H, H0.
    unfold published_ee. destruct (Rlt_dec gt y); [|lra]. destruct (Rlt_dec eps y); [reflexivity|lra]. }
  assert (P1 : 0 < 2 * g * (g - eps) * / eps) by (apply div_pos; [apply Rmult_lt_0_compat|]; lra).
  assert (P2 : 0 < g * / eps) by (apply div_pos; lra). assert (P3 : 0 < eps * / g) by (apply div_pos; lra).
  apply derivable_continuous_pt, ex_derive_Reals_0. unfold bethe_heitler, mild.
  destruct (Rlt_dec (1 / 2) eps); [unfold recoil_hard|unfold recoil_soft]; auto_derive; repeat split; lra.
Qed.
Lemma ep_cont k eps g : 0 < eps < g -> continuity_pt (fun g => sigma_ep k g eps) g.
Proof.
  intros He. assert (D : 0 < g - eps) by lra.
  apply (cont_locally (fun g => bethe_heitler k g eps) _ g (g - eps) D).
  { intros y Hy. apply Rabs_def2 in Hy. unfold sigma_ep. apply sigma_1_pub. lra. }
  assert (P1 : 0 < 2 * g * (g - eps) * / eps) by (apply div_pos; [apply Rmult_lt_0_compat|]; lra).
  apply derivable_continuous_pt, ex_derive_Reals_0. unfold bethe_heitler. auto_derive; repeat split; lra.
Qed.

(** The spectrum of electrons above 2 MeV, at photon energies of at most half the lowest
    electron energy (where no cross section is negative): the density times c times the
    integral over the electrons, the two processes with their weights. *)
Theorem C153_spectrum : forall k gt mec2 c pd lo hi n0 w_ee w_ep Eph i, 0 < k -> 9 / 7 <= gt -> 0 < mec2 -> w_ee <> 0 -> w_ep <> 0 ->
  gt * mec2 < lo -> lo < hi -> continuous_density pd lo hi -> (i < length Eph)%nat ->
  let eps := nth i Eph 0 in 0 < eps <= lo / mec2 / 2 -> eps <> 1 / 2 ->
  exists v, (forall nd, exists l, brems_luminosity k gt mec2 c pd (gam mec2 nd lo hi) n0 w_ee w_ep Eph = Ok l /\ nth i l 0 = v nd) /\
    tends v (n0 * c * RInt (fun g => pd (g * mec2) * mec2 * (w_ee * published_ee k gt g eps + w_ep * published_ep k g eps)) (lo / mec2) (hi / mec2)).
Proof.
  intros k gt mec2 c pd lo hi n0 w1 w2 Eph i Hk Hgt Hm H1 H2 Hlo Hhi HD Hi eps He Hn. assert (PLO : 0 < lo) by nra.
  assert (LG : gt < lo / mec2) by (apply Rmult_lt_reg_r with mec2; auto; unfold Rdiv; rewrite Rmult_assoc, Rinv_l by lra; lra).
  assert (LH : lo / mec2 < hi / mec2) by (apply Rmult_lt_compat_r; [apply Rinv_0_lt_compat|]; lra).
  set (I1 := fun nd => trapz_loglog (mul2 (nelec mec2 pd (gam mec2 nd lo hi)) (map (fun g => sigma_ee k gt g eps) (gam mec2 nd lo hi))) (gam mec2 nd lo hi)).
  set (I2 := fun nd => trapz_loglog (mul2 (nelec mec2 pd (gam mec2 nd lo hi)) (map (fun g => sigma_ep k g eps) (gam mec2 nd lo hi))) (gam mec2 nd lo hi)).
  exists (fun nd => n0 * c * (w1 * I1 nd + w2 * I2 nd)).
  assert (Q : forall g, lo / mec2 <= g -> 0 < eps < g /\ exp (1 / 2) < 2 * g * (g - eps) / eps).
  { intros g HG. split; [lra|]. apply Rlt_le_trans with (2 * g).
    - pose proof exp_le_3. assert (X : exp (1 / 2) < 2); [|lra].
      apply Rsqr_incrst_0; [|apply Rlt_le, exp_pos|lra]. unfold Rsqr. rewrite <- exp_plus. replace (1 / 2 + 1 / 2) with 1 by field. lra.
    - unfold Rdiv. rewrite Rmult_assoc. rewrite <- (Rmult_1_r (2 * g)) at 1. apply Rmult_le_compat_l; [lra|].
      apply Rmult_le_reg_r with eps; [lra|]. rewrite Rmult_assoc, Rinv_l by lra. lra. }
  assert (N1 : forall g, lo / mec2 <= g -> 0 <= sigma_ee k gt g eps).
  { intros g HG. destruct (Q g HG) as [Q1 Q2]. apply Rlt_le, C31_ee_positive_partial; lra. }
  assert (N2 : forall g, lo / mec2 <= g -> 0 <= sigma_ep k g eps).
  { intros g HG. destruct (Q g HG) as [Q1 Q2]. apply Rlt_le. apply (C31_ep_sign_partial k g eps); lra. }
  assert (D1 : density (fun g => pd (g * mec2) * mec2 * sigma_ee k gt g eps) (lo / mec2) (hi / mec2)).
  { apply kernel_density; try assumption. intros g HG. split; [apply ee_cont; try assumption; lra|apply N1, HG]. }
  assert (D2 : density (fun g => pd (g * mec2) * mec2 * sigma_ep k g eps) (lo / mec2) (hi / mec2)).
  { apply kernel_density; try assumption. intros g HG. split; [apply ep_cont; lra|apply N2, HG]. }
  split.
  - intros nd. destruct (gam_facts mec2 nd lo hi Hm PLO Hhi) as (G & E1 & E2 & _ & _ & F).
    assert (HG : forall g, In g (gam mec2 nd lo hi) -> lo / mec2 <= g <= hi / mec2).
    { intros g IN. split; [rewrite <- E1; apply (fun l G => grid_ge_hd l G); assumption|]. destruct (In_nth _ _ 0 IN) as (j & Hj & <-). apply F, Hj. }
    assert (Z : forall s : R -> R, (forall g, lo / mec2 <= g -> 0 <= s g) ->
       strapz (mul2 (nelec mec2 pd (gam mec2 nd lo hi)) (map s (gam mec2 nd lo hi))) (gam mec2 nd lo hi)
       = trapz_loglog (mul2 (nelec mec2 pd (gam mec2 nd lo hi)) (map s (gam mec2 nd lo hi))) (gam mec2 nd lo hi)).
    { intros s Hs. apply strapz_is_trapz. rewrite nelec_kernel. apply List.Forall_forall. intros y Hy. apply in_map_iff in Hy.
      destruct Hy as (g & <- & IN). destruct (HG g IN) as [B1 B2]. apply Rmult_le_pos; [|apply Hs, B1]. apply Rmult_le_pos; [|lra].
      apply HD. split.
      - apply (Rmult_le_compat_r mec2) in B1; [|lra]. unfold Rdiv in B1. rewrite Rmult_assoc, Rinv_l in B1 by lra. lra.
      - apply (Rmult_le_compat_r mec2) in B2; [|lra]. unfold Rdiv in B2. rewrite Rmult_assoc, Rinv_l in B2 by lra. lra. }
    eexists. split.
    + unfold brems_luminosity, brems_spectrum, emiss. destruct (Req_EM_T w1 0); [contradiction|]. destruct (Req_EM_T w2 0); [contradiction|].
      cbn [qscale qadd omap obind]. unfold add2. rewrite !map_map, combine_map, !map_map. reflexivity.
    + cbn [fst snd]. rewrite nth_map_lt by exact Hi. fold eps. rewrite !Z by assumption. fold (I1 nd). fold (I2 nd). ring.
  - assert (E : RInt (fun g => pd (g * mec2) * mec2 * (w1 * published_ee k gt g eps + w2 * published_ep k g eps)) (lo / mec2) (hi / mec2)
      = w1 * RInt (fun g => pd (g * mec2) * mec2 * sigma_ee k gt g eps) (lo / mec2) (hi / mec2)
        + w2 * RInt (fun g => pd (g * mec2) * mec2 * sigma_ep k g eps) (lo / mec2) (hi / mec2)).
    { apply is_RInt_unique. apply (is_RInt_ext (fun g => plus (scal w1 (pd (g * mec2) * mec2 * sigma_ee k gt g eps)) (scal w2 (pd (g * mec2) * mec2 * sigma_ep k g eps)))).
      - intros g. rewrite Rmin_left, Rmax_right by lra. intros [A _]. destruct (C153_cross_sections k gt g eps) as [X1 X2]; try lra.
        rewrite X1, X2. unfold plus, scal; simpl; unfold mult; simpl. ring.
      - apply (is_RInt_plus (V := R_NormedModule)); apply (is_RInt_scal (V := R_NormedModule)); apply (RInt_correct (V := R_CompleteNormedModule)); [apply D1|apply D2]. }
    rewrite E. apply (tends_scale (n0 * c)).
    apply tends_plus; apply tends_scale; [apply (kernel_tends mec2 pd lo hi (fun g => sigma_ee k gt g eps))|apply (kernel_tends mec2 pd lo hi (fun g => sigma_ep k g eps))]; assumption.
Qed.
Print Assumptions C153_spectrum.
Example C153_example : 9 / 7 <= 4 /\ 4 * 1 < 200 /\ 0 < 90 <= 200 / 1 / 2 /\ 90 <> 1 / 2 /\ 1 < 4 /\ 1 < 2.
Proof. lra. Qed.
