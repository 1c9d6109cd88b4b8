(** Property C171: inverse Compton electrons scatter at the Thomson rate and lose energy
    at the classical rate, less what recoil takes away. *)
From Coq Require Import Reals List Lra Lia.
From Coquelicot Require Import Coquelicot.
From Verif Require Import TrapzModel TrapzProofs ElectronModel ElectronProofs ConvProofs ErrProofs PubProps4 ThomsonProofs.
Import ListNotations.
Local Open Scope R_scope.

Lemma bg_Fkn G q : blumenthal_gould G q = Fkn G q.
Proof. unfold blumenthal_gould, Fkn, F0. ring. Qed.
Lemma Fkn_cont G q : 0 < G -> 0 < q -> continuity_pt (Fkn G) q.
Proof.
  intros HG Hq. apply continuity_pt_filterlim. apply (@ex_derive_continuous R_AbsRing R_NormedModule (Fkn G) q). unfold Fkn, F0.
  assert (0 < G * q) by (apply Rmult_lt_0_compat; assumption). auto_derive. repeat split; lra.
Qed.
(** comparison of integrals *)
Lemma between (f lo hi : R -> R) d x L H : 0 < d < 1 -> is_RInt f d 1 x -> is_RInt lo d 1 L -> is_RInt hi d 1 H ->
  (forall q, d < q < 1 -> lo q <= f q <= hi q) -> L <= x <= H.
Proof.
  intros Hd I IL IH B. split; [apply (is_RInt_le lo f d 1)|apply (is_RInt_le f hi d 1)]; try assumption; try lra; intros q Hq; apply B; exact Hq.
Qed.
Lemma is_RInt_scal_R (f : R -> R) a b k v : is_RInt f a b v -> is_RInt (fun x => k * f x) a b (k * v).
Proof. intros H. exact (is_RInt_scal f a b k v H). Qed.
Lemma is_RInt_minus_R (f g : R -> R) a b v w : is_RInt f a b v -> is_RInt g a b w -> is_RInt (fun x => f x - g x) a b (v - w).
Proof. intros H K. exact (is_RInt_minus f g a b v w H K). Qed.

(** An electron of Lorentz factor [gamma] among photons of energy [eps] (erg) and energy
    density [u] (erg/cm3).  The function integrated is what the library computes: photons per
    second and photon energy, energies in units of the rest energy of the electron. *)
Theorem C171_line : exists sigma_T, close sigma_T (8 * PI / 3 * r_e ^ 2) /\
  forall mec2 eps u theta gamma, 0 < mec2 -> 0 < eps -> 0 <= u -> 1 <= gamma ->
  let rate := seed_kernel (to_mec2 mec2 (Array [eps] [u] theta)) gamma in
  let scatterings := RInt rate 0 gamma in
  let power := RInt (fun E => E * mec2 * rate E) 0 gamma in
  let n := u / eps in
  let S := sigma_T * light * n in
  let P := 4 / 3 * sigma_T * light * gamma ^ 2 * u in
  let x := gamma * eps / mec2 in
  ex_RInt rate 0 gamma /\ ex_RInt (fun E => E * mec2 * rate E) 0 gamma /\
  S * (1 - 8 / 3 * x - 3 / (4 * gamma ^ 2)) <= scatterings <= S /\
  P * (1 - 63 / 10 * x - 1 / (3 * gamma ^ 4)) <= power <= P.
Proof.
  destruct C152_line as (sT & CL & LINE). exists sT. split; [exact CL|].
  assert (SP: 0 < sT). { unfold close in CL. pose proof PI_RGT_0. assert (PP: 0 < 8 * PI / 3 * r_e ^ 2) by (unfold r_e; apply Rmult_lt_0_compat; lra).
    apply Rabs_def2 in CL. destruct (Rlt_dec 0 sT) as [C|C]; [exact C|]. exfalso. assert (sT / (8 * PI / 3 * r_e ^ 2) <= 0); [|lra].
    unfold Rdiv at 1. assert (0 < / (8 * PI / 3 * r_e ^ 2)) by (apply Rinv_0_lt_compat; exact PP). assert (0 <= - sT * / (8 * PI / 3 * r_e ^ 2)) by (apply Rmult_le_pos; lra). lra. }
  clear CL. intros mec2 eps u th g Hm He Hu Hg rate scatterings power n S P x.
  set (e' := eps / mec2). assert (He': 0 < e') by (apply div_pos; assumption). set (G := 4 * e' * g). assert (HG: 0 < G) by (unfold G; apply Rmult_lt_0_compat; lra).
  set (d := 1 / (4 * g ^ 2)). assert (G2: 1 <= g ^ 2) by nra.
  assert (Hd: 0 < d <= 1 / 4). { unfold d. split; [apply div_pos; lra|]. unfold Rdiv. rewrite !Rmult_1_l. apply Rinv_le_contravar; lra. }
  assert (Hd1: 0 < d < 1) by lra.
  set (K0 := 3 / 4 * sT * light * n / (e' * g ^ 2)).
  assert (Hn: 0 <= n). { unfold n. apply Rmult_le_pos; [assumption|]. left. apply Rinv_0_lt_compat. assumption. }
  assert (LP: 0 < light) by (unfold light; lra). assert (SL: 0 < sT * light) by (apply Rmult_lt_0_compat; assumption).
  assert (IN: forall E, 0 < E < g -> d < E / (G * (g - E)) < 1 -> rate E = K0 * Fkn G (E / (G * (g - E)))).
  { intros E HE HQ. destruct (LINE mec2 eps u th g E Hm He ltac:(lra) ltac:(lra)) as (L & _). rewrite <- bg_Fkn. apply L; [lra|exact HQ]. }
  assert (OUT: forall E, 0 < E < g -> E / (G * (g - E)) < d \/ 1 < E / (G * (g - E)) -> rate E = 0).
  { intros E HE HQ. destruct (LINE mec2 eps u th g E Hm He ltac:(lra) ltac:(lra)) as (_ & L). apply L. right. exact HQ. }
  assert (gpos: 0 < g) by lra.
  (* scatterings *)
  pose proof (change_of_variable g G d (fun q => K0 * Fkn G q) rate gpos HG Hd1) as CV0.
  specialize (CV0 ltac:(intros q Hq; apply (continuity_pt_scal (Fkn G) K0); apply Fkn_cont; lra) IN OUT).
  pose proof (change_of_variable g G d (fun q => g * (G * q) / (1 + G * q) * mec2 * (K0 * Fkn G q)) (fun E => E * mec2 * rate E) gpos HG Hd1) as CV1.
  assert (CC: forall q, d <= q <= 1 -> continuity_pt (fun q => g * (G * q) / (1 + G * q) * mec2 * (K0 * Fkn G q)) q).
  { intros q Hq. assert (0 < G * q) by (apply Rmult_lt_0_compat; lra). apply (continuity_pt_mult (fun q => g * (G * q) / (1 + G * q) * mec2) (fun q => K0 * Fkn G q)).
    - apply continuity_pt_filterlim. apply (@ex_derive_continuous R_AbsRing R_NormedModule (fun q => g * (G * q) / (1 + G * q) * mec2) q). auto_derive. lra.
    - apply (continuity_pt_scal (Fkn G) K0). apply Fkn_cont; lra. }
  specialize (CV1 CC).
  assert (IN1: forall E, 0 < E < g -> d < E / (G * (g - E)) < 1 -> E * mec2 * rate E = g * (G * (E / (G * (g - E)))) / (1 + G * (E / (G * (g - E)))) * mec2 * (K0 * Fkn G (E / (G * (g - E))))).
  { intros E HE HQ. rewrite (IN E HE HQ). f_equal. f_equal. field. repeat split; lra. }
  specialize (CV1 IN1 ltac:(intros E HE HQ; cbv beta; rewrite (OUT E HE HQ); ring)).
  split; [eexists; exact CV0|]. split; [eexists; exact CV1|].
  destruct (ends d Hd) as ((A0l & A0u) & (A1l & A1u) & A2l).
  assert (CI: forall q, d <= q <= 1 -> 0 < 1 + G * q). { intros q Hq. assert (0 < G * q) by (apply Rmult_lt_0_compat; lra). lra. }
  assert (CF: forall q, d <= q <= 1 -> ex_derive (Fkn G) q). { intros q Hq. pose proof (CI q Hq). unfold Fkn, F0. auto_derive. repeat split; lra. }
  assert (CQ: forall k, ex_RInt (fun q => q ^ k * (Fkn G q / (1 + G * q) ^ (2 + k))) d 1).
  { intros k. apply ex_RInt_cont; [lra|]. intros q Hq. pose proof (CI q Hq). apply continuity_pt_filterlim.
    apply (@ex_derive_continuous R_AbsRing R_NormedModule (fun q => q ^ k * (Fkn G q / (1 + G * q) ^ (2 + k))) q).
    assert (0 < (1 + G * q) ^ (2 + k)) by (apply pow_lt; lra).
    apply ex_derive_mult; [auto_derive; exact Logic.I|]. apply ex_derive_div; [apply CF; exact Hq| |lra]. apply (ex_derive_pow (fun q => 1 + G * q)). auto_derive. exact Logic.I. }
  assert (CQ0: ex_RInt (fun q => q ^ 0 * (Fkn G q / (1 + G * q) ^ 2)) d 1) by exact (CQ 0%nat).
  assert (CQ1: ex_RInt (fun q => q ^ 1 * (Fkn G q / (1 + G * q) ^ 3)) d 1) by exact (CQ 1%nat). clear CQ.
  (* values as integrals over q *)
  assert (V0: scatterings = 3 * (sT * light * n) * RInt (fun q => q ^ 0 * (Fkn G q / (1 + G * q) ^ 2)) d 1).
  { unfold scatterings. rewrite (is_RInt_unique _ _ _ _ CV0).
    rewrite <- (is_RInt_unique _ _ _ _ (is_RInt_scal_R _ _ _ (3 * (sT * light * n)) _ (RInt_correct _ _ _ CQ0))).
    apply RInt_ext. intros q. rewrite Rmin_left, Rmax_right by lra. intros Hq. pose proof (CI q ltac:(lra)). unfold K0, G in *. cbn [pow Nat.add]. match goal with |- ?a = ?b => change (@eq R a b) end. field. repeat split; lra. }
  assert (V1: power = 12 * (sT * light * g ^ 2 * u) * RInt (fun q => q ^ 1 * (Fkn G q / (1 + G * q) ^ 3)) d 1).
  { unfold power. rewrite (is_RInt_unique _ _ _ _ CV1).
    rewrite <- (is_RInt_unique _ _ _ _ (is_RInt_scal_R _ _ _ (12 * (sT * light * g ^ 2 * u)) _ (RInt_correct _ _ _ CQ1))).
    apply RInt_ext. intros q. rewrite Rmin_left, Rmax_right by lra. intros Hq. pose proof (CI q ltac:(lra)) as CP. set (F := Fkn G q). unfold K0, n, G, e' in *. cbn [pow Nat.add]. match goal with |- ?a = ?b => change (@eq R a b) end.
    field. repeat split; try lra. intros Z. apply (Rmult_lt_compat_r mec2) in CP; [|lra]. replace ((1 + 4 * (eps / mec2) * g * q) * mec2) with (mec2 + 4 * eps * g * q) in CP by (field; lra). lra. }
  assert (B0: 1 / 3 - A0 d - 2 * G * (1 / 9 - A1 d) <= RInt (fun q => q ^ 0 * (Fkn G q / (1 + G * q) ^ 2)) d 1 <= 1 / 3 - A0 d).
  { apply (between (fun q => q ^ 0 * (Fkn G q / (1 + G * q) ^ 2)) (fun q => F0 q - 2 * G * (q * F0 q)) F0 d); [exact Hd1|exact (RInt_correct _ _ _ CQ0)| |apply int0; exact Hd1|].
    - apply is_RInt_minus_R; [apply int0; exact Hd1|]. apply is_RInt_scal_R. apply int1. exact Hd1.
    - intros q Hq. cbn [pow]. rewrite Rmult_1_l. split; [apply lower2|apply upper2]; lra. }
  assert (B1: 1 / 9 - A1 d - 3 * G * (7 / 120 - A2 d) <= RInt (fun q => q ^ 1 * (Fkn G q / (1 + G * q) ^ 3)) d 1 <= 1 / 9 - A1 d).
  { apply (between (fun q => q ^ 1 * (Fkn G q / (1 + G * q) ^ 3)) (fun q => q * F0 q - 3 * G * (q * (q * F0 q))) (fun q => q * F0 q) d); [exact Hd1|exact (RInt_correct _ _ _ CQ1)| |apply int1; exact Hd1|].
    - apply is_RInt_minus_R; [apply int1; exact Hd1|]. apply is_RInt_scal_R. apply int2. exact Hd1.
    - intros q Hq. rewrite pow_1. pose proof (lower3 G q HG ltac:(lra)). pose proof (upper3 G q HG ltac:(lra)). split.
      + replace (q * F0 q - 3 * G * (q * (q * F0 q))) with (q * (F0 q - 3 * G * (q * F0 q))) by ring. apply Rmult_le_compat_l; lra.
      + apply Rmult_le_compat_l; lra. }
  set (J0 := RInt (fun q => q ^ 0 * (Fkn G q / (1 + G * q) ^ 2)) d 1) in *. set (J1 := RInt (fun q => q ^ 1 * (Fkn G q / (1 + G * q) ^ 3)) d 1) in *.
  assert (GX: G = 4 * x) by (unfold G, e', x; field; lra).
  assert (GA1: 0 <= G * A1 d) by (apply Rmult_le_pos; lra). assert (GA2: 0 <= G * A2 d) by (apply Rmult_le_pos; lra).
  assert (S0: 0 <= S) by (unfold S; apply Rmult_le_pos; lra).
  assert (P0: 0 <= sT * light * g ^ 2 * u) by (apply Rmult_le_pos; [|assumption]; apply Rmult_le_pos; lra).
  rewrite V0, V1. split.
  - fold S. assert (D1: 3 / (4 * g ^ 2) = 3 * d) by (unfold d; field; lra). rewrite D1. split.
    + replace (3 * S * J0) with (S * (3 * J0)) by ring. apply Rmult_le_compat_l; lra.
    + replace (3 * S * J0) with (S * (3 * J0)) by ring. rewrite <- (Rmult_1_r S) at 2. apply Rmult_le_compat_l; lra.
  - unfold P. set (W := sT * light * g ^ 2 * u) in *. replace (4 / 3 * sT * light * g ^ 2 * u) with (4 / 3 * W) by (unfold W; ring).
    assert (D2: 1 / (3 * g ^ 4) = 16 / 3 * d ^ 2) by (unfold d; field; lra). rewrite D2. assert (0 < d ^ 2) by (apply pow_lt; lra). split.
    + replace (4 / 3 * W * (1 - 63 / 10 * x - 16 / 3 * d ^ 2)) with (W * (4 / 3 * (1 - 63 / 10 * x - 16 / 3 * d ^ 2))) by ring. replace (12 * W * J1) with (W * (12 * J1)) by ring. apply Rmult_le_compat_l; [exact P0|]. lra.
    + replace (12 * W * J1) with (W * (12 * J1)) by ring. rewrite (Rmult_comm (4 / 3)). apply Rmult_le_compat_l; [exact P0|]. lra.
Qed.
Print Assumptions C171_line.

(** Non-vacuity: a GeV electron (gamma = 2000) on photons of 10 eV (rest energy 511 keV):
    the bounds leave a third; with 1 meV photons they agree to one part in 30000. *)
Example C171_case : 0 < 511000 /\ 0 < 10 /\ 0 <= 1 /\ 1 <= 2000 /\ 2 / 3 <= 1 - 63 / 10 * (2000 * 10 / 511000) - 1 / (3 * 2000 ^ 4) /\
  1 - 1 / 30000 <= 1 - 63 / 10 * (2000 * (1 / 1000) / 511000) - 1 / (3 * 2000 ^ 4).
Proof. lra. Qed.
