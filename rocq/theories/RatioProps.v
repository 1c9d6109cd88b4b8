(** Property C175: inverse Compton and synchrotron luminosities of the same electrons are in the ratio of the energy densities of
    photons and field. *)
From Coq Require Import Reals List Lra Lia.
From Coquelicot Require Import Coquelicot.
From Flocq Require Import Raux.
From Verif Require Import EnergyModel TrapzModel TrapzProofs ElectronModel ElectronProofs ConvProofs ConvProps2 PubProps4 PowerProps LumProps PlanckProps LumProps2.
Import ListNotations.
Local Open Scope R_scope.

(** [y] and [x] are the two luminosities, [k] the constants of the synchrotron part (consistent with the others: speed of light and
    classical electron radius). The energy of the synchrotron photons is counted up to [Emax], beyond 16 critical energies; that of the scattered
    photons from [E1] to [E2], the range of C173. *)
Theorem C175_ratio : forall k B pd lo hi T u Emax E1 E2, sy_ok k -> sy_c k = light -> sy_e k ^ 2 / (sy_me k * sy_c k ^ 2) = r_e ->
  0 < B -> 0 < T -> 0 < u -> m_e_c2 < lo -> lo < hi -> continuous_density pd lo hi ->
  let b := 4 * (hi / m_e_c2) * k_B * T / m_e_c2 in
  16 * (3 * sy_e k * sy_hbar k * B * (hi / m_e_c2) ^ 2 / (2 * sy_me k * sy_c k)) <= Emax ->
  0 < E1 -> E1 <= lo * (4 * (lo / m_e_c2) * k_B * T / m_e_c2) / 100 -> 18 * (hi * b) <= E2 ->
  exists sy ic : R -> R,
  (forall E, 0 < E -> tends (fun nd => nth 0 (sy_spectrum k B m_e_c2 pd (gam m_e_c2 nd lo hi) [E]) 0) (sy E)) /\
  (forall E, 0 < E -> tends (fun nd => nth 0 (ic_spectrum m_e_c2 (u_black_body 1) pd (gam m_e_c2 nd lo hi) [Thermal T u None] [E]) 0) (ic E)) /\
  let x := RInt (fun E => E * sy E) 0 Emax in let y := RInt (fun E => E * ic E) E1 E2 in
  (1 - 14 / 1000 - 19 * b) * (u * x) <= U_B B * y <= (1 + 14 / 1000) * (u * x).
Proof.
  intros k B pd lo hi T u Emax E1 E2 K KC KR HB HT Hu Hlo Hhi CD b HE H1 H2 H3. assert (M0: 0 < m_e_c2) by (unfold m_e_c2; lra).
  assert (B0: 0 < b). { unfold b, k_B. apply div_pos; [|exact M0]. assert (0 < hi / m_e_c2) by (apply div_pos; lra). apply Rmult_lt_0_compat; [|exact HT]. lra. }
  assert (H12: E1 < E2).
  { assert (L: lo * (4 * (lo / m_e_c2) * k_B * T / m_e_c2) <= hi * b). { unfold b. assert (lo / m_e_c2 <= hi / m_e_c2) by (unfold Rdiv; apply Rmult_le_compat_r; [left; apply Rinv_0_lt_compat; exact M0|lra]). assert (0 < lo / m_e_c2) by (apply div_pos; lra).
      apply Rmult_le_compat; try lra; [unfold k_B; apply Rmult_le_pos; [|left; apply Rinv_0_lt_compat; exact M0]; apply Rmult_le_pos; lra|]. unfold Rdiv at 1 3. apply Rmult_le_compat_r; [left; apply Rinv_0_lt_compat; exact M0|]. apply Rmult_le_compat_r; [lra|]. apply Rmult_le_compat_r; [unfold k_B; lra|lra]. }
    assert (0 < hi * b) by (apply Rmult_lt_0_compat; lra). lra. }
  destruct (C173_synchrotron k B m_e_c2 pd lo hi Emax K HB M0 ltac:(lra) Hhi CD HE) as (sy & S1 & _ & S3).
  destruct (C173_inverse_compton pd lo hi T u E1 E2 HT Hu Hlo Hhi CD H1 H12) as (ic & I1 & _ & (I2 & I3) & I4). cbv beta zeta in I4. fold b in I4.
  exists sy, ic. split; [exact S1|]. split; [exact I1|]. cbv zeta in S3 |- *. specialize (I4 H2 H3).
  set (x := RInt (fun E => E * sy E) 0 Emax) in *. set (y := RInt (fun E => E * ic E) E1 E2) in *.
  set (Ls := RInt (fun g => pd (g * m_e_c2) * m_e_c2 * synchrotron_power (sy_e k) (sy_me k) (sy_c k) B g) (lo / m_e_c2) (hi / m_e_c2)) in *.
  set (Li := RInt (fun g => pd (g * m_e_c2) * m_e_c2 * (4 / 3 * thomson * light * g ^ 2 * u)) (lo / m_e_c2) (hi / m_e_c2)) in *.
  assert (UB: 0 < U_B B). { unfold U_B. pose proof PI_RGT_0. apply div_pos; [apply pow_lt; exact HB|lra]. }
  assert (XI: ex_RInt (fun g => pd (g * m_e_c2) * m_e_c2 * (4 / 3 * thomson * light * g ^ 2 * u)) (lo / m_e_c2) (hi / m_e_c2)).
  { apply ex_RInt_cont; [unfold Rdiv; apply Rmult_le_compat_r; [left; apply Rinv_0_lt_compat; exact M0|lra]|]. intros g Hg.
    assert (GR: lo <= g * m_e_c2 <= hi). { split; apply Rmult_le_reg_r with (/ m_e_c2); try (apply Rinv_0_lt_compat; exact M0); rewrite Rmult_assoc, Rinv_r by lra; unfold Rdiv in Hg; lra. }
    apply (continuity_pt_mult (fun g => pd (g * m_e_c2) * m_e_c2) (fun g => 4 / 3 * thomson * light * g ^ 2 * u)).
    - apply (continuity_pt_mult (fun g => pd (g * m_e_c2)) (fun _ => m_e_c2)); [|apply derivable_continuous_pt, derivable_pt_const].
      apply (continuity_pt_comp (fun g => g * m_e_c2) pd); [apply derivable_continuous_pt; apply (derivable_pt_mult (fun g => g) (fun _ => m_e_c2)); [apply derivable_pt_id|apply derivable_pt_const]|]. apply CD, GR.
    - apply continuity_pt_filterlim. apply (@ex_derive_continuous R_AbsRing R_NormedModule (fun g => 4 / 3 * thomson * light * g ^ 2 * u) g). auto_derive. exact Logic.I. }
  assert (RA: u * Ls = U_B B * Li).
  { unfold Ls. transitivity (u * RInt (fun g => (U_B B / u) * (pd (g * m_e_c2) * m_e_c2 * (4 / 3 * thomson * light * g ^ 2 * u))) (lo / m_e_c2) (hi / m_e_c2)).
    - f_equal. apply RInt_ext. intros g _. unfold synchrotron_power, sigma_T, thomson. rewrite KR, KC. match goal with |- ?a = ?b => change (@eq R a b) end. generalize (U_B B) (pd (g * m_e_c2)) m_e_c2 r_e light. intros. field. lra.
    - assert (Q: RInt (fun g => (U_B B / u) * (pd (g * m_e_c2) * m_e_c2 * (4 / 3 * thomson * light * g ^ 2 * u))) (lo / m_e_c2) (hi / m_e_c2) = U_B B / u * Li)
        by (exact (RInt_scal (fun g => pd (g * m_e_c2) * m_e_c2 * (4 / 3 * thomson * light * g ^ 2 * u)) (lo / m_e_c2) (hi / m_e_c2) (U_B B / u) XI)).
      rewrite Q. clearbody Li. field. lra. }
  assert (L0: 0 <= Li) by (change (0 <= y) in I2; change (y <= Li * (1 + 1 / 100)) in I3; lra).
  clearbody x y Ls Li. change (Rabs (x - Ls) <= Ls / 300) in S3. apply Rabs_le_inv in S3.
  assert (S4: u * x <= u * (Ls * (301 / 300))) by (apply Rmult_le_compat_l; lra). assert (S5: u * (Ls * (299 / 300)) <= u * x) by (apply Rmult_le_compat_l; lra).
  assert (I5: U_B B * y <= U_B B * (Li * (1 + 1 / 100))) by (apply Rmult_le_compat_l; [lra|exact I3]). assert (I6: U_B B * (Li * (1 - 1 / 100 - 18 * b)) <= U_B B * y) by (apply Rmult_le_compat_l; [lra|exact I4]).
  set (q := U_B B * Li) in *. assert (q0: 0 <= q) by (apply Rmult_le_pos; lra).
  replace (U_B B * (Li * (1 + 1 / 100))) with (q * (101 / 100)) in I5 by (unfold q; field). replace (U_B B * (Li * (1 - 1 / 100 - 18 * b))) with (q * (99 / 100 - 18 * b)) in I6 by (unfold q; field).
  replace (u * (Ls * (301 / 300))) with (q * (301 / 300)) in S4 by (rewrite <- RA; field). replace (u * (Ls * (299 / 300))) with (q * (299 / 300)) in S5 by (rewrite <- RA; field).
  assert (Y0: 0 <= U_B B * y) by (apply Rmult_le_pos; [lra|exact I2]). set (X := u * x) in *. set (Y := U_B B * y) in *. clearbody X Y q. split.
  - destruct (Rle_lt_dec (1 - 14 / 1000 - 19 * b) 0) as [N|N].
    + apply Rle_trans with 0.
      * assert (0 <= X) by (eapply Rle_trans; [|exact S5]; apply Rmult_le_pos; lra). assert (0 <= (- (1 - 14 / 1000 - 19 * b)) * X) by (apply Rmult_le_pos; lra). lra.
      * exact Y0.
    + apply Rle_trans with ((1 - 14 / 1000 - 19 * b) * (q * (301 / 300))); [apply Rmult_le_compat_l; lra|]. eapply Rle_trans; [|exact I6].
      replace ((1 - 14 / 1000 - 19 * b) * (q * (301 / 300))) with (q * ((1 - 14 / 1000 - 19 * b) * (301 / 300))) by ring. apply Rmult_le_compat_l; lra.
  - eapply Rle_trans; [exact I5|]. apply Rle_trans with ((1 + 14 / 1000) * (q * (299 / 300))); [|apply Rmult_le_compat_l; lra]. lra.
Qed.
Print Assumptions C175_ratio.

(** Non-vacuity: the constants of nature, the electrons and photons of C173_ic_case: the two sides agree to 5 per cent. *)
Example C175_case : let k := mkSy (sqrt (r_e * m_e_c2)) (m_e_c2 / light ^ 2) light (lambda_C * m_e_c2 / light) in
  let lo := 10 ^ 5 * m_e_c2 in let hi := 10 ^ 6 * m_e_c2 in let T := 27 / 10 in let b := 4 * (hi / m_e_c2) * k_B * T / m_e_c2 in
  sy_ok k /\ sy_c k = light /\ sy_e k ^ 2 / (sy_me k * sy_c k ^ 2) = r_e /\ continuous_density (fun _ => 1) lo hi /\
  m_e_c2 / 10 <= lo * (4 * (lo / m_e_c2) * k_B * T / m_e_c2) / 100 /\ 18 * (hi * b) <= 4 * 10 ^ 4 * m_e_c2 /\ 14 / 1000 + 19 * b <= 5 / 100.
Proof.
  cbv zeta. cbn [sy_e sy_me sy_c sy_hbar]. assert (RE: 0 < r_e) by (unfold r_e; lra). assert (LI: 0 < light) by (unfold light; lra). assert (ME: 0 < m_e_c2) by (unfold m_e_c2; lra). assert (LC: 0 < lambda_C) by (unfold lambda_C; lra).
  assert (0 < r_e * m_e_c2) by (apply Rmult_lt_0_compat; assumption). split; [|split; [reflexivity|split; [|split]]].
  - unfold sy_ok; cbn. repeat split; [apply sqrt_lt_R0; assumption|apply div_pos; [assumption|nra]|exact LI|apply div_pos; [apply Rmult_lt_0_compat; assumption|exact LI]].
  - rewrite pow2_sqrt by lra. field. repeat split; lra.
  - intros x _; split; [apply derivable_continuous_pt, derivable_pt_const|lra].
  - unfold k_B, m_e_c2. repeat split; lra.
Qed.
