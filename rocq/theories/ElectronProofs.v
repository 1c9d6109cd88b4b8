(** Lemmas about the synchrotron and inverse Compton spectra. *)
From Coq Require Import Reals List Lra Lia Sorted Psatz.
From Verif Require Import TrapzModel TrapzSpec TrapzProofs EnergyModel EnergyProofs ElectronModel.
Import ListNotations.
Local Open Scope R_scope.

Ltac pos := match goal with
  | |- 0 < _ * _ => apply Rmult_lt_0_compat; pos
  | |- 0 < _ / _ => apply div_pos; pos
  | |- 0 < _ ^ _ => apply pow_lt; pos
  | |- 0 < sqrt _ => apply sqrt_lt_R0; pos
  | |- 0 < exp _ => apply exp_pos
  | |- 0 < PI => exact PI_RGT_0
  | |- _ => first [assumption | lra]
  end.

(** ** Synchrotron *)
Lemma Gtilde_pos x : 0 < x -> 0 < Gtilde x.
Proof.
  intros Hx. unfold Gtilde. set (cb := cbrt x).
  assert (0 < cb).
  { unfold cb, cbrt. destruct (Rlt_dec x 0); [lra|]. destruct (Req_EM_T x 0); [lra|]. apply exp_pos. }
  assert (0 < cb ^ 2) by (apply pow_lt; auto). assert (0 < cb ^ 4) by (apply pow_lt; auto).
  apply Rmult_lt_0_compat; [|apply exp_pos]. apply Rmult_lt_0_compat.
  - apply div_pos; [lra|]. apply sqrt_lt_R0. lra.
  - apply div_pos; lra.
Qed.

Definition sy_ok (k : sy_consts) : Prop := 0 < sy_e k /\ 0 < sy_me k /\ 0 < sy_c k /\ 0 < sy_hbar k.

Lemma CS1_pos k B E : sy_ok k -> 0 < B -> 0 < E -> 0 < CS1 k B E.
Proof.
  intros (K1 & K2 & K3 & K4) HB HE. pose proof PI_RGT_0. unfold CS1. pos.
Qed.

Lemma Ecrit_pos k B g : sy_ok k -> 0 < B -> 0 < g -> 0 < Ecrit k B g.
Proof.
  intros (K1 & K2 & K3 & K4) HB HE. unfold Ecrit. pos.
Qed.

Lemma sy_kernel_pos k B g E : sy_ok k -> 0 < B -> 0 < g -> 0 < E -> 0 < sy_kernel k B g E.
Proof.
  intros. unfold sy_kernel. apply Rmult_lt_0_compat; [apply CS1_pos; auto|].
  apply Gtilde_pos. apply div_pos; auto. apply Ecrit_pos; auto.
Qed.

Lemma cbrt_opp x : cbrt (- x) = - cbrt x.
Proof.
  unfold cbrt. destruct (Rtotal_order x 0) as [H|[H|H]].
  - destruct (Rlt_dec (- x) 0); [lra|]. destruct (Req_EM_T (- x) 0); [lra|]. destruct (Rlt_dec x 0); [|lra]. ring.
  - subst. rewrite Ropp_0. destruct (Rlt_dec 0 0); [lra|]. destruct (Req_EM_T 0 0); lra.
  - destruct (Rlt_dec (- x) 0); [|lra]. destruct (Rlt_dec x 0); [lra|]. destruct (Req_EM_T x 0); [lra|].
    now rewrite Ropp_involutive.
Qed.

Lemma Gtilde_opp x : Gtilde (- x) = - (Gtilde x * exp (2 * x)).
Proof.
  unfold Gtilde. rewrite cbrt_opp. set (cb := cbrt x).
  replace ((- cb) ^ 2) with (cb ^ 2) by ring. replace ((- cb) ^ 4) with (cb ^ 4) by ring.
  replace (exp (- - x)) with (exp (- x) * exp (2 * x)) by (rewrite <- exp_plus; f_equal; ring).
  unfold Rdiv. ring.
Qed.

Lemma sy_kernel_negB k B g E : sy_ok k -> 0 < B -> 0 < g -> 0 < E ->
  sy_kernel k (- B) g E = sy_kernel k B g E * exp (2 * (E / Ecrit k B g)).
Proof.
  intros Hk HB Hg HE. unfold sy_kernel.
  assert (P := Ecrit_pos k B g Hk HB Hg).
  assert (E1 : Ecrit k (- B) g = - Ecrit k B g) by (unfold Ecrit, Rdiv; ring).
  assert (E2 : CS1 k (- B) E = - CS1 k B E) by (unfold CS1, Rdiv; ring).
  rewrite E1, E2. replace (E / - Ecrit k B g) with (- (E / Ecrit k B g)) by (field; lra).
  rewrite Gtilde_opp. ring.
Qed.

(** ** Inverse Compton kernels *)
Lemma pi26_pos : 0 < PI ^ 2 / 6.
Proof. pose proof PI_RGT_0. apply div_pos; [apply pow_lt; auto|lra]. Qed.

Lemma g_pos a x alpha b beta : 0 < a -> 0 < b -> 0 < 1 / (a * Rpower x alpha / (1 + b * Rpower x beta) + 1).
Proof.
  intros. pose proof (Rpower_pos x alpha). pose proof (Rpower_pos x beta).
  assert (0 < a * Rpower x alpha) by (apply Rmult_lt_0_compat; auto).
  assert (0 < b * Rpower x beta) by (apply Rmult_lt_0_compat; auto).
  assert (0 < a * Rpower x alpha / (1 + b * Rpower x beta)) by (apply div_pos; lra).
  apply div_pos; lra.
Qed.

Lemma G34_pos x alpha a beta b c : 0 < x -> 0 < a -> 0 < b -> 0 < c -> 0 < G34 x alpha a beta b c.
Proof.
  intros Hx Ha Hb Hc. unfold G34. pose proof pi26_pos.
  apply Rmult_lt_0_compat; [|apply g_pos; auto].
  apply Rmult_lt_0_compat; [|apply exp_pos]. apply Rmult_lt_0_compat; auto.
  apply div_pos; [nra|]. assert (0 < PI ^ 2 / 6 * c * x) by (pos). lra.
Qed.

Lemma G12_pos x alpha a beta b : 0 < x -> 0 < a -> 0 < b -> 0 < G12 x alpha a beta b.
Proof.
  intros Hx Ha Hb. unfold G12. pose proof pi26_pos.
  apply Rmult_lt_0_compat; [|apply g_pos; auto].
  apply Rmult_lt_0_compat; [lra|apply exp_pos].
Qed.

Lemma Ktomec2_pos : 0 < Ktomec2.
Proof. unfold Ktomec2. apply div_pos; [lra|apply pow_lt; lra]. Qed.
Lemma planck_const_pos : 0 < planck_const.
Proof. unfold planck_const. apply Rmult_lt_0_compat; [lra|apply pow_lt; lra]. Qed.

Lemma in_range_true g e : in_range g e = true -> g < e /\ 1 < e.
Proof. unfold in_range. destruct (Rlt_dec g e), (Rlt_dec 1 e); simpl; try discriminate; auto. Qed.
Lemma in_range_iff g e : g < e -> 1 < e -> in_range g e = true.
Proof. intros. unfold in_range. destruct (Rlt_dec g e), (Rlt_dec 1 e); simpl; auto; lra. Qed.
Lemma in_range_false g e : e <= g \/ e <= 1 -> in_range g e = false.
Proof. intros H. unfold in_range. destruct (Rlt_dec g e), (Rlt_dec 1 e); simpl; auto. lra. Qed.

Lemma z_range gamma e : 0 < gamma -> gamma < e -> 0 < gamma / e < 1.
Proof.
  intros H1 H2. split; [apply div_pos; lra|]. apply Rmult_lt_reg_r with e; [lra|].
  unfold Rdiv. rewrite Rmult_assoc, Rinv_l by lra. lra.
Qed.

Lemma iso_pos e T gamma : 0 < T -> 0 < gamma -> gamma < e -> 1 < e -> 0 < iso_ic_on_planck e T gamma.
Proof.
  intros HT Hg Hlt He. unfold iso_ic_on_planck. rewrite in_range_iff by auto.
  destruct (z_range gamma e Hg Hlt) as [Z1 Z2]. pose proof Ktomec2_pos. pose proof planck_const_pos.
  set (z := gamma / e) in *. set (T' := T * Ktomec2). assert (0 < T') by (unfold T'; apply Rmult_lt_0_compat; auto).
  set (x := z / (1 - z) / (4 * e * T')).
  assert (0 < x).
  { unfold x. apply div_pos; [apply div_pos; lra|]. pos. }
  apply Rmult_lt_0_compat.
  - apply Rmult_lt_0_compat; auto. apply pow_lt, div_pos; lra.
  - apply Rplus_lt_0_compat; [|apply G34_pos; lra].
    apply Rmult_lt_0_compat; [|apply G34_pos; lra]. apply div_pos; [apply pow_lt|]; lra.
Qed.

Lemma iso_zero e T gamma : e <= gamma \/ e <= 1 -> iso_ic_on_planck e T gamma = 0.
Proof. intros H. unfold iso_ic_on_planck. now rewrite in_range_false. Qed.

Lemma ani_pos e T gamma th : 0 < T -> 0 < gamma -> gamma < e -> 1 < e -> cos th < 1 -> 0 < ani_ic_on_planck e T gamma th.
Proof.
  intros HT Hg Hlt He Hth. unfold ani_ic_on_planck. rewrite in_range_iff by auto.
  destruct (z_range gamma e Hg Hlt) as [Z1 Z2]. pose proof Ktomec2_pos. pose proof planck_const_pos.
  set (z := gamma / e) in *. set (T' := T * Ktomec2). assert (0 < T') by (unfold T'; apply Rmult_lt_0_compat; auto).
  set (x := z / (1 - z) / (2 * e * T' * (1 - cos th))).
  assert (0 < x).
  { unfold x. apply div_pos; [apply div_pos; lra|]. pos. }
  apply Rmult_lt_0_compat.
  - apply Rmult_lt_0_compat; auto. apply pow_lt, div_pos; lra.
  - apply Rplus_lt_0_compat; [|apply G12_pos; lra].
    apply Rmult_lt_0_compat; [|apply G12_pos; lra]. apply div_pos; [apply pow_lt|]; lra.
Qed.

Lemma ani_zero e T gamma th : e <= gamma \/ e <= 1 -> ani_ic_on_planck e T gamma th = 0.
Proof. intros H. unfold ani_ic_on_planck. now rewrite in_range_false. Qed.

(** ** The Aharonian-Atoyan kernel *)
Lemma ln_ge_1_minus_inv s : 0 < s -> 1 - / s <= ln s.
Proof.
  intros H. pose proof (ln_le_minus1 (/ s) (Rinv_0_lt_compat _ H)) as L. rewrite ln_Rinv in L by auto. lra.
Qed.

Lemma fic_core q : 0 < q <= 1 -> 0 <= 2 * q * ln q + (1 + 2 * q) * (1 - q).
Proof.
  intros [H0 H1]. set (s := sqrt q). assert (Hs : 0 < s) by (apply sqrt_lt_R0; auto).
  assert (Eq : q = s * s) by (unfold s; now rewrite sqrt_sqrt by lra).
  assert (Hs1 : s <= 1) by nra.
  assert (L : ln q = 2 * ln s).
  { rewrite Eq, ln_mult by auto. ring. }
  pose proof (ln_ge_1_minus_inv s Hs) as G.
  assert (I : s * / s = 1) by (field; lra).
  rewrite L, Eq.
  assert (B : 2 * (s * s) * (2 * (1 - / s)) <= 2 * (s * s) * (2 * ln s)).
  { apply Rmult_le_compat_l; nra. }
  assert (C : 2 * (s * s) * (2 * (1 - / s)) = 4 * (s * s) - 4 * s).
  { replace (2 * (s * s) * (2 * (1 - / s))) with (4 * (s * s) - 4 * s * (s * / s)) by ring. rewrite I. ring. }
  assert (P : 0 <= (1 - s) * (2 * s ^ 3 + 2 * s ^ 2 - 3 * s + 1)).
  { apply Rmult_le_pos; [lra|]. assert (0 <= s ^ 3) by (apply pow_le; lra). simpl in *.
    assert (0 <= Rsqr (s - 45 / 100) * (2 * s + 38 / 10)) by (apply Rmult_le_pos; [apply Rle_0_sqr|lra]).
    unfold Rsqr in *. nra. }
  simpl in P. nra.
Qed.

Lemma fic_nonneg b q : 0 < b -> 0 < q <= 1 -> 0 <= fic b q.
Proof.
  intros Hb Hq. unfold fic. pose proof (fic_core q Hq).
  assert (0 <= 1 / 2 * (b * q) ^ 2 * (1 - q) / (1 + b * q)); [|lra].
  assert (0 < b * q) by nra. apply Rmult_le_pos; [|apply Rlt_le, Rinv_0_lt_compat; lra].
  apply Rmult_le_pos; [|lra]. apply Rmult_le_pos; [lra|]. apply pow_le; lra.
Qed.

Lemma heaviside_nonneg x : 0 <= heaviside x.
Proof. unfold heaviside. destruct (Rlt_dec 0 x); [lra|]. destruct (Req_EM_T x 0); lra. Qed.
Lemma heaviside_neg x : x < 0 -> heaviside x = 0.
Proof. intros. unfold heaviside. destruct (Rlt_dec 0 x); [lra|]. destruct (Req_EM_T x 0); lra. Qed.

(** For positive seed and photon energies: below the electron energy only. *)
Lemma aa_positive e eps gamma : 0 < e -> 0 < eps -> 0 < gamma ->
  aa_kernel e eps gamma =
  (let b := 4 * eps * e in
   let w := gamma / e in
   if Rlt_dec w 1 then
     let q := w / (b * (1 - w)) in
     fic b q * heaviside (1 - q) * heaviside (q - 1 / (4 * e ^ 2))
   else 0).
Proof.
  intros He Hp Hg. unfold aa_kernel. cbv zeta.
  assert (Hw : 0 < gamma / e) by (apply div_pos; auto). set (w := gamma / e) in *.
  assert (Hb : 0 < 4 * eps * e) by (pos). set (b := 4 * eps * e) in *.
  destruct (Rlt_dec w 1) as [C|C].
  - assert (D : 0 < b * (1 - w)) by (apply Rmult_lt_0_compat; lra).
    destruct (Req_EM_T (b * (1 - w)) 0); [lra|]. destruct (Rlt_dec 0 (w / (b * (1 - w)))) as [P|P]; auto.
    exfalso. apply P, div_pos; auto.
  - destruct (Req_EM_T (b * (1 - w)) 0) as [Z|Z]; auto. destruct (Rlt_dec 0 (w / (b * (1 - w)))) as [P|P]; auto. exfalso.
    assert (D : b * (1 - w) < 0). { assert (b * (1 - w) <= 0) by (assert (0 <= b * (w - 1)) by (apply Rmult_le_pos; lra); lra). lra. }
    assert (w * (/ (b * (1 - w))) < 0); [|unfold Rdiv in P; lra].
    apply Rinv_lt_0_compat in D. nra.
Qed.

Lemma aa_nonneg e eps gamma : 0 < e -> 0 < eps -> 0 < gamma -> 0 <= aa_kernel e eps gamma.
Proof.
  intros He Hp Hg. rewrite aa_positive by auto. cbv zeta. destruct (Rlt_dec (gamma / e) 1) as [C|C]; [|lra].
  assert (Hw : 0 < gamma / e) by (apply div_pos; auto). set (w := gamma / e) in *.
  assert (Hb : 0 < 4 * eps * e) by (pos). set (b := 4 * eps * e) in *.
  assert (Hq : 0 < w / (b * (1 - w))) by (apply div_pos; auto; apply Rmult_lt_0_compat; lra).
  set (q := w / (b * (1 - w))) in *.
  destruct (Rle_lt_dec q 1) as [L|L].
  - apply Rmult_le_pos; [|apply heaviside_nonneg]. apply Rmult_le_pos; [|apply heaviside_nonneg].
    apply fic_nonneg; auto.
  - rewrite (heaviside_neg (1 - q)) by lra. rewrite Rmult_0_r, Rmult_0_l. lra.
Qed.

(** maximum energy of a photon scattered by an electron e off a photon eps *)
Lemma aa_zero_above e eps gamma : 0 < e -> 0 < eps ->
  e * (4 * eps * e) / (1 + 4 * eps * e) < gamma -> aa_kernel e eps gamma = 0.
Proof.
  intros He Hp H. assert (Hb : 0 < 4 * eps * e) by (pos).
  assert (Hg : 0 < gamma). { eapply Rlt_trans; [|exact H]. apply div_pos; [apply Rmult_lt_0_compat; auto|lra]. }
  rewrite aa_positive by auto. cbv zeta. destruct (Rlt_dec (gamma / e) 1) as [C|C]; auto.
  set (b := 4 * eps * e) in *.
  assert (Hw : b / (1 + b) < gamma / e).
  { apply Rmult_lt_reg_r with e; auto. apply Rle_lt_trans with (e * b / (1 + b)); [right; field; lra|].
    apply Rlt_le_trans with gamma; auto. right. field. lra. }
  set (w := gamma / e) in *.
  assert (b < w * (1 + b)).
  { apply Rmult_lt_reg_r with (/ (1 + b)); [apply Rinv_0_lt_compat; lra|].
    apply Rlt_le_trans with w; [exact Hw|]. right. field. lra. }
  assert (D : 0 < b * (1 - w)) by (apply Rmult_lt_0_compat; lra).
  assert (1 < w / (b * (1 - w))).
  { apply Rmult_lt_reg_r with (b * (1 - w)); auto. unfold Rdiv. rewrite Rmult_assoc, Rinv_l by lra. nra. }
  rewrite (heaviside_neg (1 - _)) by lra. ring.
Qed.

Lemma aa_zero_below e eps gamma : 1 / 2 < e -> 0 < eps -> 0 < gamma ->
  gamma < eps * e / (e + eps) -> aa_kernel e eps gamma = 0.
Proof.
  intros He Hp Hg H. rewrite aa_positive by (auto; lra). cbv zeta. destruct (Rlt_dec (gamma / e) 1) as [C|C]; auto.
  assert (Hb : 0 < 4 * eps * e) by (pos).
  assert (Hw : 0 < gamma / e) by (apply div_pos; lra).
  assert (K : gamma * (e + eps) < eps * e).
  { apply Rmult_lt_reg_r with (/ (e + eps)); [apply Rinv_0_lt_compat; lra|].
    apply Rle_lt_trans with gamma; [right; field; lra|exact H]. }
  assert (E : gamma / e * e = gamma) by (field; lra). set (w := gamma / e) in *.
  assert (gamma < e) by (rewrite <- E; nra).
  assert (Q : w / (4 * eps * e * (1 - w)) < 1 / (4 * e ^ 2)).
  { replace (w / (4 * eps * e * (1 - w))) with (gamma / (4 * eps * e * (e - gamma))).
    2:{ rewrite <- E. field. repeat split; try lra; try (rewrite E; lra). }
    assert (0 < 4 * eps * e * (e - gamma)) by (apply Rmult_lt_0_compat; lra).
    apply Rmult_lt_reg_r with (4 * eps * e * (e - gamma)); auto.
    unfold Rdiv at 1. rewrite Rmult_assoc, Rinv_l by lra.
    replace (1 / (4 * e ^ 2) * (4 * eps * e * (e - gamma))) with (eps * (e - gamma) / e) by (field; lra).
    rewrite Rmult_1_r. apply Rmult_lt_reg_r with e; [lra|]. unfold Rdiv. rewrite Rmult_assoc, Rinv_l by lra. nra. }
  rewrite (heaviside_neg (_ - 1 / (4 * e ^ 2))) by lra. ring.
Qed.

Lemma sigt_c_pos : 0 < sigt_c.
Proof. unfold sigt_c. apply Rmult_lt_0_compat; [|lra]. apply div_pos; [lra|apply pow_lt; lra]. Qed.

Lemma mono_factor_pos e : 0 < e -> 0 < 3 / 4 * sigt_c / e ^ 2.
Proof. intros. pose proof sigt_c_pos. apply div_pos; [lra|apply pow_lt; auto]. Qed.

Definition seed_ok (s : seed) : Prop :=
  match s with
  | Thermal T u th => 0 < T /\ 0 <= u /\ (forall t, th = Some t -> cos t < 1)
  | Array eps phn _ => grid eps /\ Forall (fun n => 0 <= n) phn
  end.

Lemma mono_nonneg e eps phn gamma : 0 < e -> 0 < gamma -> grid eps -> Forall (fun n => 0 <= n) phn ->
  0 <= iso_ic_on_monochromatic e eps phn gamma.
Proof.
  intros He Hg HE HN. unfold iso_ic_on_monochromatic.
  apply Rmult_le_pos; [|apply Rlt_le, mono_factor_pos; auto].
  assert (K : 0 <= trapz_loglog (map (fun p => aa_kernel e (fst p) gamma * snd p / fst p) (combine eps phn)) eps).
  { apply trapz_nonneg; auto. apply Forall_forall. intros y Hy. apply in_map_iff in Hy.
    destruct Hy as ([x n] & <- & Hp). simpl. pose proof (in_combine_l _ _ _ _ Hp) as I1. pose proof (in_combine_r _ _ _ _ Hp) as I2.
    destruct HE as [HE _]. rewrite Forall_forall in HE, HN. specialize (HE x I1). specialize (HN n I2).
    apply Rmult_le_pos; [|apply Rlt_le, Rinv_0_lt_compat; auto]. apply Rmult_le_pos; auto. apply aa_nonneg; auto. }
  destruct eps as [|e0 [|e1 eps]]; auto. destruct phn as [|n0 [|n1 phn]]; auto.
  destruct HE as [HE _]. inversion HE; subst. inversion HN; subst.
  apply Rmult_le_pos; [apply aa_nonneg; auto|]. apply Rmult_le_pos; auto.
  apply Rlt_le, Rinv_0_lt_compat, pow_lt; auto.
Qed.

Lemma seed_kernel_nonneg s g gamma : seed_ok s -> 0 < g -> 0 < gamma -> 0 <= seed_kernel s g gamma.
Proof.
  intros Hs Hg HG. destruct s as [T u [th|]|eps phn th]; simpl in *.
  - destruct Hs as (HT & _ & Hc).
    destruct (Rlt_dec gamma g) as [L|L]; [|rewrite ani_zero; lra].
    destruct (Rlt_dec 1 g) as [L'|L']; [|rewrite ani_zero; lra].
    apply Rlt_le, ani_pos; auto.
  - destruct Hs as (HT & _ & Hc).
    destruct (Rlt_dec gamma g) as [L|L]; [|rewrite iso_zero; lra].
    destruct (Rlt_dec 1 g) as [L'|L']; [|rewrite iso_zero; lra].
    apply Rlt_le, iso_pos; auto.
  - destruct Hs. apply mono_nonneg; auto.
Qed.

Lemma grid_div k l : 0 < k -> grid l -> grid (map (fun e => e / k) l).
Proof. intros. apply (grid_scale (/ k)); auto. apply Rinv_0_lt_compat; auto. Qed.

Lemma to_mec2_ok mec2 s : 0 < mec2 -> seed_ok s -> seed_ok (to_mec2 mec2 s).
Proof.
  intros Hm Hs. destruct s as [T u th|eps phn th]; auto. simpl in Hs. destruct Hs as [HG HN].
  assert (HN1 : Forall (fun n => 0 <= n) (map (fun n => n * mec2) phn)).
  { apply Forall_forall. intros y Hy. apply in_map_iff in Hy. destruct Hy as (n & <- & Hn).
    rewrite Forall_forall in HN. apply Rmult_le_pos; [auto|lra]. }
  assert (HG1 := grid_div mec2 eps Hm HG).
  destruct eps as [|e0 [|e1 eps]]; try (split; auto; fail).
  destruct phn as [|n0 [|n1 phn]]; try (split; auto; fail).
  split; auto. inversion HN; subst. constructor; auto. apply Rmult_le_pos; auto. apply Rlt_le, Rinv_0_lt_compat; auto.
Qed.

(** No scattered photon at or above the electron energy, if the seed photons
    have positive energies. *)
Definition positive_seed (s : seed) : Prop :=
  match s with Thermal _ _ _ => True | Array eps _ _ => Forall (fun x => 0 < x) eps end.

Lemma aa_zero_ge e x gamma : 0 < e -> 0 < x -> e <= gamma -> aa_kernel e x gamma = 0.
Proof.
  intros He Hx Hge. rewrite aa_positive by lra. cbv zeta. destruct (Rlt_dec (gamma / e) 1) as [C|C]; auto. exfalso.
  apply (Rmult_lt_compat_r e) in C; auto. unfold Rdiv in C. rewrite Rmult_assoc, Rinv_l in C by lra. lra.
Qed.

Lemma mono_zero e eps phn gamma : 0 < e -> Forall (fun x => 0 < x) eps -> e <= gamma -> iso_ic_on_monochromatic e eps phn gamma = 0.
Proof.
  intros He HP Hge. unfold iso_ic_on_monochromatic.
  assert (Z : forall x, In x eps -> aa_kernel e x gamma = 0).
  { intros x Hx. rewrite Forall_forall in HP. apply aa_zero_ge; auto. }
  assert (K : trapz_loglog (map (fun p => aa_kernel e (fst p) gamma * snd p / fst p) (combine eps phn)) eps = 0).
  { rewrite (map_ext_in _ (fun _ => 0)).
    - apply trapz_zeros.
    - intros [x n] Hp. simpl. rewrite Z by (eapply in_combine_l; eauto). unfold Rdiv. ring. }
  destruct eps as [|e0 [|e1 eps]], phn as [|n0 [|n1 phn]]; rewrite ?K, ?Z by (left; reflexivity); ring.
Qed.

Lemma seed_kernel_zero s e gamma : 0 < e -> positive_seed s -> e <= gamma -> seed_kernel s e gamma = 0.
Proof.
  intros. destruct s as [T u [th|]|eps phn th]; simpl.
  - apply ani_zero; auto.
  - apply iso_zero; auto.
  - apply mono_zero; auto.
Qed.

Lemma to_mec2_positive mec2 s : 0 < mec2 -> positive_seed s -> positive_seed (to_mec2 mec2 s).
Proof.
  intros Hm H. destruct s as [T u th|eps phn th]; auto. simpl in H.
  assert (K : Forall (fun x => 0 < x) (map (fun e => e / mec2) eps)).
  { apply Forall_map. eapply Forall_impl; [|exact H]. intros; simpl. apply div_pos; auto. }
  destruct eps as [|e0 [|e1 eps]]; auto. destruct phn as [|n0 [|n1 phn]]; auto.
Qed.

(** ** Spectra *)
Lemma nelec_kernel mec2 pd gs (K : R -> R) :
  mul2 (nelec mec2 pd gs) (map K gs) = map (fun g => pd (g * mec2) * mec2 * K g) gs.
Proof. unfold nelec. apply mul2_map. Qed.

Lemma kernel_integral_scale c mec2 pd gs K : 0 <= c ->
  trapz_loglog (mul2 (nelec mec2 (fun E => c * pd E) gs) (map K gs)) gs
  = c * trapz_loglog (mul2 (nelec mec2 pd gs) (map K gs)) gs.
Proof.
  intros. rewrite !nelec_kernel, <- trapz_map_scale0 by auto. f_equal. apply map_ext. intros; ring.
Qed.

Lemma kernel_integral_nonneg mec2 pd gs K : 0 < mec2 -> grid gs ->
  (forall E, 0 < E -> 0 <= pd E) -> (forall g, In g gs -> 0 <= K g) ->
  0 <= trapz_loglog (mul2 (nelec mec2 pd gs) (map K gs)) gs.
Proof.
  intros Hm HG HP HK. rewrite nelec_kernel. apply trapz_nonneg; auto.
  apply Forall_forall. intros y Hy. apply in_map_iff in Hy. destruct Hy as (g & <- & Hg).
  destruct HG as [HG _]. rewrite Forall_forall in HG. specialize (HG g Hg).
  apply Rmult_le_pos; [|auto]. apply Rmult_le_pos; [|lra]. apply HP. apply Rmult_lt_0_compat; auto.
Qed.

Lemma kernel_integral_zero mec2 pd gs K xs : (forall g, In g gs -> K g = 0) ->
  trapz_loglog (mul2 (nelec mec2 pd gs) (map K gs)) xs = 0.
Proof.
  intros HK. rewrite nelec_kernel. rewrite (map_ext_in _ (fun _ => 0)).
  - apply trapz_zeros.
  - intros g Hg. rewrite HK by auto. ring.
Qed.

Lemma combine_map {A B C} (f : A -> B) (g : A -> C) l : combine (map f l) (map g l) = map (fun x => (f x, g x)) l.
Proof. induction l; simpl; congruence. Qed.

(** The sum over seeds, photon energy by photon energy. *)
Definition specic1 mec2 ar pd gs s E : R :=
  seed_factor ar s * (E / mec2) *
  trapz_loglog (mul2 (nelec mec2 pd gs) (map (fun g => seed_kernel (to_mec2 mec2 s) g (E / mec2)) gs)) gs / E.

Lemma ic_spectrum_map mec2 ar pd gs seeds Es :
  ic_spectrum mec2 ar pd gs seeds Es
  = map (fun E => fold_right Rplus 0 (map (fun s => specic1 mec2 ar pd gs s E) seeds)) Es.
Proof.
  unfold ic_spectrum. induction seeds as [|s seeds IH]; simpl; auto.
  rewrite IH. unfold calc_specic. rewrite combine_map, map_map. reflexivity.
Qed.

Lemma specic1_scale c mec2 ar pd gs s E : 0 <= c ->
  specic1 mec2 ar (fun x => c * pd x) gs s E = c * specic1 mec2 ar pd gs s E.
Proof. intros. unfold specic1. rewrite kernel_integral_scale by auto. unfold Rdiv. ring. Qed.

Lemma sum_scale c l : fold_right Rplus 0 (map (Rmult c) l) = c * fold_right Rplus 0 l.
Proof. induction l; simpl; [ring|]. rewrite IHl. ring. Qed.

Lemma specic1_nonneg mec2 ar pd gs s E : 0 < mec2 -> 0 < ar -> grid gs -> seed_ok s ->
  (forall E, 0 < E -> 0 <= pd E) -> 0 < E -> 0 <= specic1 mec2 ar pd gs s E.
Proof.
  intros Hm Ha HG Hs HP HE. unfold specic1.
  assert (0 < E / mec2) by (apply div_pos; auto).
  apply Rmult_le_pos; [|apply Rlt_le, Rinv_0_lt_compat; auto].
  apply Rmult_le_pos.
  - apply Rmult_le_pos; [|lra]. destruct s as [T u th|eps phn th]; simpl in *; [|lra].
    destruct Hs as (HT & Hu & _). apply Rmult_le_pos; auto. apply Rlt_le, Rinv_0_lt_compat.
    apply Rmult_lt_0_compat; auto. pos.
  - apply kernel_integral_nonneg; auto. intros g Hg. destruct HG as [HG _]. rewrite Forall_forall in HG.
    apply seed_kernel_nonneg; auto. apply to_mec2_ok; auto.
Qed.

Lemma sum_nonneg l : Forall (fun x => 0 <= x) l -> 0 <= fold_right Rplus 0 l.
Proof. induction 1; simpl; lra. Qed.

Lemma interval_reversed_nonpos x1 x2 y1 y2 : 0 < x2 -> x2 < x1 -> 0 <= y1 -> 0 <= y2 -> interval x1 x2 y1 y2 <= 0.
Proof.
  intros H1 H2 H3 H4. destruct (Req_dec y1 0) as [->|N1].
  { unfold interval. destruct (Req_EM_T 0 0); lra. }
  destruct (Req_dec y2 0) as [->|N2].
  { unfold interval. destruct (Req_EM_T y1 0); [lra|]. destruct (Req_EM_T 0 0); lra. }
  apply Rlt_le, interval_reversed_neg; lra.
Qed.

Lemma trapz_reversed_nonpos ys : forall xs,
  Forall (fun x => 0 < x) xs -> StronglySorted Rgt xs -> Forall (fun y => 0 <= y) ys -> trapz_loglog ys xs <= 0.
Proof.
  induction ys as [|y1 ys IH]; intros xs HX HS HY; [unfold trapz_loglog; simpl; lra|].
  destruct ys as [|y2 ys]; [destruct xs as [|? [|]]; unfold trapz_loglog; simpl; lra|].
  destruct xs as [|x1 xs]; [unfold trapz_loglog; simpl; lra|]. destruct xs as [|x2 xs]; [unfold trapz_loglog; simpl; lra|].
  rewrite trapz_cons2. inversion HX as [|? ? X1 X2]; subst. inversion HS as [|? ? S1 S2]; subst. inversion HY as [|? ? Y1 Y2]; subst.
  inversion X2; subst. inversion S2; subst. inversion Y2; subst.
  assert (interval x1 x2 y1 y2 <= 0) by (apply interval_reversed_nonpos; auto).
  assert (trapz_loglog (y2 :: ys) (x2 :: xs) <= 0) by (apply IH; auto). lra.
Qed.
