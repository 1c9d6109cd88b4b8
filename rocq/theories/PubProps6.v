(** C152, continued: photon fields given as a table, and the spectrum of electrons on
    any number of lines. *)
From Coq Require Import Reals ZArith List Lra Lia Bool.
From Coquelicot Require Import Coquelicot.
From Verif Require Import TrapzModel TrapzSpec TrapzProofs EnergyModel EnergyProofs ElectronModel ElectronProofs
  RadiativeProps ConvProofs ConvProps ConvProps2 PubSpec PubProps3 PubProps4.
Import ListNotations.
Local Open Scope R_scope.

(** Rate per unit photon energy E from one electron of energy e, per photon of energy
    [eps] in the unit volume (E and e in units of mec2, eps in erg), as in [C152_line]. *)
Definition jones (sigma_T mec2 e E eps : R) : R :=
  let eps' := eps / mec2 in
  let Gamma := 4 * eps' * e in
  let q := E / (Gamma * (e - E)) in
  if Rlt_dec E e then
    if Rlt_dec (1 / (4 * e ^ 2)) q then
      if Rlt_dec q 1 then 3 / 4 * sigma_T * light / (eps' * e ^ 2) * blumenthal_gould Gamma q else 0
    else 0
  else 0.

Lemma is_RInt_zero f a b : a <= b -> (forall x, a < x < b -> f x = 0) -> is_RInt f a b 0.
Proof.
  intros H Z. apply (is_RInt_ext (fun _ => 0)).
  - intros x. rewrite Rmin_left, Rmax_right by lra. intros X. symmetry. apply Z. exact X.
  - pose proof (is_RInt_const (V := R_NormedModule) a b 0) as X. replace (scal (b - a) (0 : R_NormedModule)) with 0 in X by (unfold scal; simpl; unfold mult; simpl; ring). exact X.
Qed.
Lemma pieces f g a c1 c2 b : a <= c1 -> c1 <= c2 -> c2 <= b ->
  (forall x, a < x < c1 -> f x = 0) -> (forall x, c1 < x < c2 -> f x = g x) -> (forall x, c2 < x < b -> f x = 0) ->
  (c1 < c2 -> forall x, c1 <= x <= c2 -> continuity_pt g x) -> is_RInt f a b (RInt g c1 c2).
Proof.
  intros H1 H2 H3 Z1 E Z2 C.
  assert (M : is_RInt f c1 c2 (RInt g c1 c2)).
  { destruct (Req_dec c1 c2) as [->|N].
    - rewrite RInt_point. apply (is_RInt_point (V := R_NormedModule)).
    - apply (is_RInt_ext g).
      + intros x. rewrite Rmin_left, Rmax_right by lra. intros X. symmetry. apply E. exact X.
      + apply (RInt_correct (V := R_CompleteNormedModule)). apply ex_RInt_cont; [lra|]. apply C. lra. }
  replace (RInt g c1 c2) with (plus 0 (plus (RInt g c1 c2) 0)) by (unfold plus; simpl; ring).
  apply (is_RInt_Chasles (V := R_NormedModule)) with (b := c1); [apply is_RInt_zero; assumption|].
  apply (is_RInt_Chasles (V := R_NormedModule)) with (b := c2); [exact M|]. apply is_RInt_zero; assumption.
Qed.

Definition clamp (a b x : R) : R := Rmax a (Rmin b x).
Lemma clamp_le a b x y : x <= y -> clamp a b x <= clamp a b y.
Proof. intros H. unfold clamp. apply Rle_max_compat_l. apply Rle_min_compat_l. exact H. Qed.
Lemma below_clamp a b L x : a < x -> x < clamp a b L -> x < L.
Proof.
  intros H1 H2. unfold clamp in H2. destruct (Rle_dec a (Rmin b L)) as [A|A].
  - rewrite Rmax_right in H2 by exact A. eapply Rlt_le_trans; [exact H2|apply Rmin_r].
  - rewrite Rmax_left in H2 by lra. lra.
Qed.
Lemma above_clamp a b U x : clamp a b U < x -> x < b -> U < x.
Proof.
  intros H1 H2. unfold clamp in H1. assert (M : Rmin b U < x) by (eapply Rle_lt_trans; [apply Rmax_r|exact H1]).
  destruct (Rle_dec b U) as [A|A]; [rewrite Rmin_left in M by exact A; lra|]. rewrite Rmin_right in M by lra. exact M.
Qed.
Section One.
Variables (mec2 e E : R).
Hypothesis Hm : 0 < mec2.
Hypothesis He : 1 / 2 < e.
Hypothesis HE : 0 < E.
Let K := E / (4 * e * (e - E)).
Let sT := sigt_c / light.
Let smooth (n : R -> R) (x : R) := 3 / 4 * sT * light / (x / mec2 * e ^ 2) * blumenthal_gould (4 * (x / mec2) * e) (E / (4 * (x / mec2) * e * (e - E))) * n x.
Let code (n : R -> R) (x : R) := aa_kernel e (x / mec2) E / (x / mec2) * (3 / 4 * sigt_c / e ^ 2) * n x.

Lemma light_pos : 0 < light. Proof. unfold light. lra. Qed.
Lemma q_K x : 0 < x -> E < e -> E / (4 * (x / mec2) * e * (e - E)) = K * mec2 / x.
Proof. intros Hx HL. unfold K. field. repeat split; lra. Qed.
Lemma K_pos : E < e -> 0 < K.
Proof. intros HL. unfold K. apply div_pos; [exact HE|]. apply Rmult_lt_0_compat; lra. Qed.
Lemma w_iff : E < e <-> E / e < 1.
Proof.
  split; intros L.
  - apply (Rmult_lt_reg_r e); [lra|]. unfold Rdiv. rewrite Rmult_assoc, Rinv_l by lra. lra.
  - apply (Rmult_lt_compat_r e) in L; [|lra]. unfold Rdiv in L. rewrite Rmult_assoc, Rinv_l in L by lra. lra.
Qed.
Lemma aa_at x : 0 < x -> E < e -> aa_kernel e (x / mec2) E =
  fic (4 * (x / mec2) * e) (K * mec2 / x) * heaviside (1 - K * mec2 / x) * heaviside (K * mec2 / x - 1 / (4 * e ^ 2)).
Proof.
  intros Hx HL. rewrite aa_positive by (try (apply div_pos; lra); try assumption; lra). cbv zeta. destruct (Rlt_dec (E / e) 1) as [A|A]; [|exfalso; apply A, w_iff, HL]. cbv zeta.
  replace (E / e / (4 * (x / mec2) * e * (1 - E / e))) with (K * mec2 / x); [reflexivity|]. unfold K. field. repeat split; lra.
Qed.
Lemma q_lt1 x : 0 < x -> (K * mec2 / x < 1 <-> K * mec2 < x).
Proof. intros Hx. split; intros H; [apply (Rmult_lt_compat_r x) in H; [|exact Hx]; unfold Rdiv in H; rewrite Rmult_assoc, Rinv_l in H by lra; lra|].
  apply (Rmult_lt_reg_r x); [exact Hx|]. unfold Rdiv. rewrite Rmult_assoc, Rinv_l by lra. lra. Qed.
Lemma q_gt x : 0 < x -> (1 / (4 * e ^ 2) < K * mec2 / x <-> x < 4 * e ^ 2 * (K * mec2)).
Proof.
  intros Hx. assert (P : 0 < 4 * e ^ 2) by nra. split; intros H.
  - apply (Rmult_lt_compat_r (4 * e ^ 2 * x)) in H; [|apply Rmult_lt_0_compat; assumption].
    replace (1 / (4 * e ^ 2) * (4 * e ^ 2 * x)) with x in H by (field; lra).
    replace (K * mec2 / x * (4 * e ^ 2 * x)) with (4 * e ^ 2 * (K * mec2)) in H by (field; lra). exact H.
  - apply (Rmult_lt_reg_r (4 * e ^ 2 * x)); [apply Rmult_lt_0_compat; assumption|].
    replace (1 / (4 * e ^ 2) * (4 * e ^ 2 * x)) with x by (field; lra).
    replace (K * mec2 / x * (4 * e ^ 2 * x)) with (4 * e ^ 2 * (K * mec2)) by (field; lra). exact H.
Qed.
Lemma fic_bg b q : 0 < b -> 0 < q -> fic b q = blumenthal_gould b q.
Proof. intros Hb Hq. assert (0 < b * q) by (apply Rmult_lt_0_compat; assumption). unfold fic, blumenthal_gould. field. lra. Qed.

Lemma smooth_cont n x : 0 < x -> E < e -> continuity_pt n x -> continuity_pt (smooth n) x.
Proof.
  intros Hx HL Cn. pose proof (K_pos HL) as PK. apply (continuity_pt_mult (fun x => 3 / 4 * sT * light / (x / mec2 * e ^ 2) * blumenthal_gould (4 * (x / mec2) * e) (E / (4 * (x / mec2) * e * (e - E)))) n); [|exact Cn].
  apply continuity_pt_filterlim. unfold blumenthal_gould.
  assert (0 < / mec2) by (apply Rinv_0_lt_compat; exact Hm).
  assert (X1 : 0 < x * / mec2) by (apply Rmult_lt_0_compat; lra).
  assert (X2 : 0 < e * e) by nra.
  assert (X3 : 0 < 4 * (x * / mec2) * e * (e - E)) by (repeat apply Rmult_lt_0_compat; lra).
  assert (X4 : 0 < E * / (4 * (x * / mec2) * e * (e - E))) by (apply Rmult_lt_0_compat; [exact HE|apply Rinv_0_lt_compat; exact X3]).
  assert (X5 : 0 < 4 * (x * / mec2) * e) by (repeat apply Rmult_lt_0_compat; lra).
  assert (X6 : 0 < 4 * (x * / mec2) * e * (E * / (4 * (x * / mec2) * e * (e - E)))) by (apply Rmult_lt_0_compat; assumption).
  apply (ex_derive_continuous (fun x => 3 / 4 * sT * light / (x / mec2 * e ^ 2) *
    (2 * (E / (4 * (x / mec2) * e * (e - E))) * ln (E / (4 * (x / mec2) * e * (e - E))) + (1 + 2 * (E / (4 * (x / mec2) * e * (e - E)))) * (1 - E / (4 * (x / mec2) * e * (e - E))) +
     (4 * (x / mec2) * e * (E / (4 * (x / mec2) * e * (e - E)))) ^ 2 / (2 * (1 + 4 * (x / mec2) * e * (E / (4 * (x / mec2) * e * (e - E))))) * (1 - E / (4 * (x / mec2) * e * (e - E)))))).
  auto_derive. unfold Rdiv in *. repeat split; try apply Rgt_not_eq; unfold Rgt; try lra; try nra.
Qed.

Lemma code_RInt n a b : 0 < a -> a < b -> continuous_density n a b ->
  exists v, is_RInt (code n) a b v /\ is_RInt (fun x => jones sT mec2 e E x * n x) a b v.
Proof.
  intros Ha Hab Hn. destruct (Rlt_dec E e) as [HL|HL].
  2:{ exists 0. split; apply is_RInt_zero; try lra; intros x Hx.
      - unfold code. rewrite aa_positive by (try (apply div_pos; lra); lra). cbv zeta. destruct (Rlt_dec (E / e) 1) as [A|A]; [exfalso; apply HL, w_iff, A|]. unfold Rdiv. ring.
      - unfold jones. destruct (Rlt_dec E e); [lra|]. ring. }
  pose proof (K_pos HL) as PK. set (L := K * mec2). assert (PL : 0 < L) by (apply Rmult_lt_0_compat; assumption).
  set (U := 4 * e ^ 2 * L). assert (LU : L < U). { assert (1 < 4 * e ^ 2) by nra. unfold U. nra. }
  set (c1 := clamp a b L). set (c2 := clamp a b U).
  assert (D1 : a <= c1 /\ c1 <= b). { unfold c1, clamp. split; [apply Rmax_l|]. apply Rmax_lub; [lra|apply Rmin_l]. }
  assert (D2 : a <= c2 /\ c2 <= b). { unfold c2, clamp. split; [apply Rmax_l|]. apply Rmax_lub; [lra|apply Rmin_l]. }
  assert (D3 : c1 <= c2) by (apply clamp_le; lra).
  assert (P1 : forall x, a < x < c1 -> x < L). { intros x [X1 X2]. apply (below_clamp a b L x); assumption. }
  assert (P2 : forall x, c2 < x < b -> U < x). { intros x [X1 X2]. apply (above_clamp a b U x); assumption. }
  assert (P3 : forall x, c1 < x < c2 -> L < x < U). { intros x [X1 X2]. split; [apply (above_clamp a b L x); [exact X1|lra]|apply (below_clamp a b U x); [lra|exact X2]]. }
  exists (RInt (smooth n) c1 c2).
  assert (SC : c1 < c2 -> forall x, c1 <= x <= c2 -> continuity_pt (smooth n) x).
  { intros _ x Hx. apply smooth_cont; [lra|exact HL|]. apply Hn. lra. }
  split; apply pieces; try lra; try exact SC.
  - intros x Hx. specialize (P1 x Hx). unfold code. rewrite aa_at by lra.
    assert (Q : 1 < K * mec2 / x). { apply (Rmult_lt_reg_r x); [lra|]. unfold Rdiv. rewrite Rmult_assoc, Rinv_l by lra. fold L. lra. }
    unfold heaviside at 1. destruct (Rlt_dec 0 (1 - K * mec2 / x)); [lra|]. destruct (Req_EM_T (1 - K * mec2 / x) 0); [lra|]. unfold Rdiv. ring.
  - intros x Hx. destruct (P3 x Hx) as [A B]. unfold code, smooth. rewrite aa_at by lra. rewrite q_K by lra.
    assert (Q1 : K * mec2 / x < 1) by (apply q_lt1; [lra|exact A]). assert (Q2 : 1 / (4 * e ^ 2) < K * mec2 / x) by (apply q_gt; [lra|exact B]).
    assert (PX : 0 < x / mec2) by (apply div_pos; lra). assert (PQ : 0 < K * mec2 / x) by (apply div_pos; [exact PL|lra]).
    rewrite fic_bg; [|apply Rmult_lt_0_compat; lra|exact PQ].
    unfold heaviside. destruct (Rlt_dec 0 (1 - K * mec2 / x)); [|lra]. destruct (Rlt_dec 0 (K * mec2 / x - 1 / (4 * e ^ 2))); [|lra].
    set (bg := blumenthal_gould _ _). unfold sT. pose proof light_pos. field. repeat split; lra.
  - intros x Hx. specialize (P2 x Hx). unfold code. rewrite aa_at by lra.
    assert (Q : K * mec2 / x < 1 / (4 * e ^ 2)).
    { assert (P : 0 < 4 * e ^ 2) by nra. apply (Rmult_lt_reg_r (4 * e ^ 2 * x)); [apply Rmult_lt_0_compat; lra|].
      replace (1 / (4 * e ^ 2) * (4 * e ^ 2 * x)) with x by (field; lra).
      replace (K * mec2 / x * (4 * e ^ 2 * x)) with (4 * e ^ 2 * (K * mec2)) by (field; lra). exact P2. }
    unfold heaviside at 2. destruct (Rlt_dec 0 (K * mec2 / x - 1 / (4 * e ^ 2))); [lra|]. destruct (Req_EM_T (K * mec2 / x - 1 / (4 * e ^ 2)) 0); [lra|]. unfold Rdiv. ring.
  - intros x Hx. specialize (P1 x Hx). unfold jones. cbv zeta. rewrite q_K by lra.
    assert (Q : 1 < K * mec2 / x). { apply (Rmult_lt_reg_r x); [lra|]. unfold Rdiv. rewrite Rmult_assoc, Rinv_l by lra. fold L. lra. }
    destruct (Rlt_dec E e); [|lra]. destruct (Rlt_dec (1 / (4 * e ^ 2)) (K * mec2 / x)); [|ring]. destruct (Rlt_dec (K * mec2 / x) 1); [lra|ring].
  - intros x Hx. destruct (P3 x Hx) as [A B]. unfold jones, smooth. cbv zeta. rewrite q_K by lra.
    assert (Q1 : K * mec2 / x < 1) by (apply q_lt1; [lra|exact A]). assert (Q2 : 1 / (4 * e ^ 2) < K * mec2 / x) by (apply q_gt; [lra|exact B]).
    destruct (Rlt_dec E e); [|lra]. destruct (Rlt_dec (1 / (4 * e ^ 2)) (K * mec2 / x)); [|lra]. destruct (Rlt_dec (K * mec2 / x) 1); [|lra]. ring.
  - intros x Hx. specialize (P2 x Hx). unfold jones. cbv zeta. rewrite q_K by lra.
    destruct (Rlt_dec E e); [|lra]. destruct (Rlt_dec (1 / (4 * e ^ 2)) (K * mec2 / x)) as [A|A]; [|ring]. apply q_gt in A; [|lra]. fold L U in A. lra.
Qed.
End One.

(** A photon field given as a table of energies (at least two) and photon numbers per
    volume and energy: the rate tends, as the table is refined, to the integral of the
    field times the rate per photon. *)
Theorem C152_table : exists sigma_T, close sigma_T (8 * PI / 3 * r_e ^ 2) /\
  forall mec2 n a b th e E, 0 < mec2 -> 0 < a -> a < b -> continuous_density n a b -> 1 / 2 < e -> 0 < E ->
  ex_RInt (fun eps => n eps * jones sigma_T mec2 e E eps) a b /\
  forall err, 0 < err -> exists d, 0 < d /\ forall xs, grid xs -> hd 0 xs = a -> last xs 0 = b ->
    (forall i, (S i < length xs)%nat -> nth (S i) xs 0 - nth i xs 0 < d) ->
    Rabs (seed_kernel (to_mec2 mec2 (Array xs (map n xs) th)) e E - RInt (fun eps => n eps * jones sigma_T mec2 e E eps) a b) <= err.
Proof.
  exists (sigt_c / light). split.
  { pose proof PI_bounds as PB. unfold close, sigt_c, light, r_e.
    match goal with |- Rabs (?a / (8 * PI / 3 * ?b) - 1) < _ => replace (a / (8 * PI / 3 * b) - 1) with (a * 3 / 8 / b / PI - 1) by (field; lra) end.
    assert (B : / (31415927 / 10 ^ 7) < / PI < / (31415926 / 10 ^ 7)) by (split; (apply Rinv_lt_contravar; [|lra]); apply (Rmult_lt_0_compat); lra).
    unfold Rdiv at 1. apply Rabs_def1; lra. }
  intros mec2 n a b th e E Hm Ha Hab Hn He HE.
  destruct (code_RInt mec2 e E Hm He HE n a b Ha Hab Hn) as (v & C1 & C2).
  assert (C3 : is_RInt (fun eps => n eps * jones (sigt_c / light) mec2 e E eps) a b v).
  { eapply is_RInt_ext; [|exact C2]. intros x _. simpl. ring. }
  split; [exists v; exact C3|]. rewrite (is_RInt_unique _ _ _ _ C3). intros err Herr.
  set (k := 3 / 4 * sigt_c / e ^ 2). assert (Pk : 0 < k). { unfold k, sigt_c. apply div_pos; [lra|nra]. }
  set (f := fun y => aa_kernel e y E * (n (y * mec2) * mec2) / y).
  assert (LA : 0 < a / mec2) by (apply div_pos; lra).
  assert (LAB : a / mec2 < b / mec2) by (apply Rmult_lt_compat_r; [apply Rinv_0_lt_compat|]; lra).
  assert (I1 : is_RInt f (a / mec2) (b / mec2) (v / k)).
  { pose proof (is_RInt_scal (V := R_NormedModule) _ a b (/ k) v C1) as S.
    assert (S2 : is_RInt (fun y => scal mec2 (scal (/ k) (aa_kernel e ((mec2 * y + 0) / mec2) E / ((mec2 * y + 0) / mec2) * (3 / 4 * sigt_c / e ^ 2) * n (mec2 * y + 0)))) (a / mec2) (b / mec2) (scal (/ k) v)).
    { apply (is_RInt_comp_lin (V := R_NormedModule) (fun x => scal (/ k) (aa_kernel e (x / mec2) E / (x / mec2) * (3 / 4 * sigt_c / e ^ 2) * n x)) mec2 0 (a / mec2) (b / mec2)).
      replace (mec2 * (a / mec2) + 0) with a by (field; lra). replace (mec2 * (b / mec2) + 0) with b by (field; lra). exact S. }
    replace (v / k) with (/ k * v) by (field; lra).
    eapply is_RInt_ext; [|exact S2]. intros y. rewrite Rmin_left, Rmax_right by lra. intros [Y _].
    replace ((mec2 * y + 0) / mec2) with y by (field; lra). replace (mec2 * y + 0) with (y * mec2) by ring.
    unfold f. fold k. set (A := aa_kernel e y E). set (N := n (y * mec2)).
    change (mec2 * (/ k * (A / y * k * N)) = A * (N * mec2) / y). field. split; lra. }
  assert (DF : density f (a / mec2) (b / mec2)).
  { split; [eexists; exact I1|]. intros y [Y1 Y2]. unfold f. unfold Rdiv. apply Rmult_le_pos; [|apply Rlt_le, Rinv_0_lt_compat; lra].
    apply Rmult_le_pos; [apply aa_nonneg; lra|]. apply Rmult_le_pos; [|lra]. apply Hn.
    apply (Rmult_le_compat_r mec2) in Y1; [|lra]. apply (Rmult_le_compat_r mec2) in Y2; [|lra]. unfold Rdiv in Y1, Y2. rewrite Rmult_assoc, Rinv_l in Y1, Y2 by lra. lra. }
  destruct (C110_converges f (a / mec2) (b / mec2) LA LAB DF (err / k)) as (d & Hd & X); [apply div_pos; assumption|].
  exists (d * mec2). split; [apply Rmult_lt_0_compat; assumption|]. intros xs G H1 H2 HF.
  assert (PI2 : 0 < / mec2) by (apply Rinv_0_lt_compat; exact Hm).
  set (ys := map (fun x => x / mec2) xs).
  assert (LEN : (2 <= length xs)%nat). { destruct xs as [|x1 [|x2 r]]; simpl in *; try lia; lra. }
  assert (KE : seed_kernel (to_mec2 mec2 (Array xs (map n xs) th)) e E = trapz_loglog (map f ys) ys * k).
  { assert (T : trapz_loglog (map (fun p => aa_kernel e (fst p) E * snd p / fst p) (combine ys (map (fun m => m * mec2) (map n xs)))) ys = trapz_loglog (map f ys) ys).
    { f_equal. unfold ys. clear -Hm. induction xs as [|x r IH]; [reflexivity|]. cbn [map combine]. rewrite IH. f_equal. cbn [fst snd]. unfold f.
      replace (x / mec2 * mec2) with x by (field; lra). reflexivity. }
    destruct xs as [|x1 [|x2 r]]; [simpl in LEN; lia|simpl in LEN; lia|].
    cbn [seed_kernel to_mec2 map]. unfold iso_ic_on_monochromatic. fold k. f_equal. exact T. }
  rewrite KE. specialize (X ys).
  assert (GY : grid ys).
  { destruct G as [G1 G2]. split; unfold ys.
    - rewrite List.Forall_map. eapply List.Forall_impl; [|exact G1]. intros x Hx. apply div_pos; assumption.
    - clear -G2 PI2. induction G2 as [|x r S IH F]; cbn [map]; constructor; [exact IH|]. rewrite List.Forall_map. eapply List.Forall_impl; [|exact F].
      intros y Hy. apply Rmult_lt_compat_r; assumption. }
  assert (Y1 : hd 0 ys = a / mec2). { unfold ys. destruct xs; [simpl in LEN; lia|]. simpl in *. rewrite H1. reflexivity. }
  assert (Y2 : last ys 0 = b / mec2).
  { unfold ys. rewrite <- H2. clear -LEN. destruct xs as [|x r]; [simpl in LEN; lia|]. clear LEN. revert x. induction r as [|y r IH]; intros x; [reflexivity|]. apply (IH y). }
  assert (Y3 : forall i, (S i < length ys)%nat -> nth (S i) ys 0 - nth i ys 0 < d).
  { intros i Hi. unfold ys in *. rewrite map_length in Hi. specialize (HF i Hi).
    assert (MN : forall j, (j < length xs)%nat -> nth j (map (fun x => x / mec2) xs) 0 = nth j xs 0 / mec2).
    { intros j Hj. rewrite (nth_indep _ 0 (0 / mec2)) by (rewrite map_length; exact Hj). apply (map_nth (fun x => x / mec2)). }
    rewrite !MN by lia. apply (Rmult_lt_reg_r mec2); [exact Hm|]. unfold Rdiv. rewrite Rmult_minus_distr_r, !Rmult_assoc, Rinv_l by lra. lra. }
  specialize (X GY Y1 Y2 Y3). rewrite (is_RInt_unique _ _ _ _ I1) in X.
  replace (trapz_loglog (map f ys) ys * k - v) with ((trapz_loglog (map f ys) ys - v / k) * k) by (field; lra).
  rewrite Rabs_mult, (Rabs_pos_eq k) by lra. replace err with (err / k * k) by (field; lra). apply Rmult_le_compat_r; [lra|exact X].
Qed.
Print Assumptions C152_table.

(** ** The spectrum of electrons on lines *)
Lemma div_pos_inv a b : 0 < b -> 0 < a / b -> 0 < a.
Proof. intros Hb H. replace a with (a / b * b) by (field; lra). apply Rmult_lt_0_compat; assumption. Qed.
Lemma div_lt a b c : 0 < b -> (a / b < c <-> a < c * b).
Proof.
  intros Hb. split; intros H.
  - replace a with (a / b * b) by (field; lra). apply Rmult_lt_compat_r; assumption.
  - apply (Rmult_lt_reg_r b); [exact Hb|]. replace (a / b * b) with a by (field; lra). exact H.
Qed.
Lemma lt_div a b c : 0 < b -> (c < a / b <-> c * b < a).
Proof.
  intros Hb. split; intros H.
  - replace a with (a / b * b) by (field; lra). apply Rmult_lt_compat_r; assumption.
  - apply (Rmult_lt_reg_r b); [exact Hb|]. replace (a / b * b) with a by (field; lra). exact H.
Qed.
Section Electrons.
Variables (mec2 eps u E : R) (th : option R) (pd : R -> R).
Hypothesis Hm : 0 < mec2.
Hypothesis Heps : 0 < eps.
Hypothesis HE : 0 < E.
Let p := eps / mec2.
Let sT := sigt_c / light.
Let q e := E / (4 * p * e * (e - E)).
Let smooth e := pd (e * mec2) * mec2 * (u / eps * (3 / 4 * sT * light / (p * e ^ 2) * blumenthal_gould (4 * p * e) (q e))).
Let code e := pd (e * mec2) * mec2 * seed_kernel (to_mec2 mec2 (Array [eps] [u] th)) e E.
Let spec e := pd (e * mec2) * mec2 * (u / eps * jones sT mec2 e E eps).

Lemma p_pos : 0 < p. Proof. apply div_pos; assumption. Qed.
Lemma q_lt1' e : E < e -> (q e < 1 <-> (E + sqrt (E ^ 2 + E / p)) / 2 < e).
Proof.
  intros HL. pose proof p_pos as PP. assert (PR : 0 < E / p) by (apply div_pos; assumption).
  set (s := sqrt (E ^ 2 + E / p)). assert (S2 : s ^ 2 = E ^ 2 + E / p) by (unfold s; rewrite <- Rsqr_pow2; apply Rsqr_sqrt; nra).
  assert (S0 : 0 <= s) by apply sqrt_pos. assert (PD : 0 < 4 * p * e * (e - E)) by (apply Rmult_lt_0_compat; [apply Rmult_lt_0_compat|]; lra).
  assert (EQ : E = p * s ^ 2 - p * E ^ 2) by (rewrite S2; field; lra).
  split; intros H.
  - unfold q in H. apply div_lt in H; [|exact PD].
    assert (s ^ 2 < (2 * e - E) ^ 2) by (apply (Rmult_lt_reg_l p); [exact PP|]; nra). nra.
  - unfold q. apply div_lt; [exact PD|].
    assert (s ^ 2 < (2 * e - E) ^ 2) by nra. assert (p * s ^ 2 < p * (2 * e - E) ^ 2) by (apply Rmult_lt_compat_l; assumption). nra.
Qed.
Lemma q_cmp e : 0 < e -> E < e -> q e - 1 / (4 * e ^ 2) = (p * E - e * (p - E)) / (4 * p * e ^ 2 * (e - E)).
Proof. intros H0 HL. pose proof p_pos. unfold q. field. repeat split; lra. Qed.
Lemma q_gt' e : 0 < e -> E < e -> (1 / (4 * e ^ 2) < q e <-> e * (p - E) < p * E).
Proof.
  intros H0 HL. pose proof p_pos as PP. pose proof (q_cmp e H0 HL) as C.
  assert (PD : 0 < 4 * p * e ^ 2 * (e - E)) by (apply Rmult_lt_0_compat; [apply Rmult_lt_0_compat; [lra|nra]|lra]).
  split; intros H.
  - assert (X : 0 < (p * E - e * (p - E)) / (4 * p * e ^ 2 * (e - E))) by lra.
    apply div_pos_inv in X; [|exact PD]. lra.
  - assert (X : 0 < (p * E - e * (p - E)) / (4 * p * e ^ 2 * (e - E))) by (apply div_pos; lra). lra.
Qed.
Lemma code_at e : 1 / 2 < e ->
  (E < e -> 1 / (4 * e ^ 2) < q e < 1 -> code e = smooth e) /\ (e <= E \/ q e < 1 / (4 * e ^ 2) \/ 1 < q e -> code e = 0).
Proof.
  intros He. pose proof p_pos as PP.
  assert (ER : code e = pd (e * mec2) * mec2 * (aa_kernel e p E * (u / mec2 / p ^ 2) * (3 / 4 * sigt_c / e ^ 2))) by reflexivity.
  assert (NE : u / mec2 / p ^ 2 = u / eps / p) by (unfold p; field; lra).
  assert (QE : E < e -> E / e / (4 * p * e * (1 - E / e)) = q e). { intros L. unfold q. field. repeat split; lra. }
  rewrite ER. split.
  - intros HL [Q1 Q2]. rewrite aa_positive by (try (apply div_pos; lra); try assumption; lra). cbv zeta. destruct (Rlt_dec (E / e) 1) as [A|A]; [|exfalso; apply A, (w_iff e E); assumption].
    cbv zeta. rewrite (QE HL), NE. unfold heaviside. destruct (Rlt_dec 0 (1 - q e)); [|lra]. destruct (Rlt_dec 0 (q e - 1 / (4 * e ^ 2))); [|lra].
    assert (PQ : 0 < q e) by (unfold q; apply div_pos; [exact HE|]; apply Rmult_lt_0_compat; [apply Rmult_lt_0_compat|]; lra).
    rewrite fic_bg; [|apply Rmult_lt_0_compat; lra|exact PQ]. unfold smooth. set (bg := blumenthal_gould _ _). unfold sT. pose proof light_pos. field. repeat split; lra.
  - intros H. rewrite aa_positive by (try (apply div_pos; lra); try assumption; lra). cbv zeta. destruct (Rlt_dec (E / e) 1) as [A|A]; [|ring].
    apply (w_iff e E He) in A. cbv zeta. rewrite (QE A). unfold heaviside. destruct H as [H|[H|H]]; [lra| |].
    + destruct (Rlt_dec 0 (q e - 1 / (4 * e ^ 2))); [lra|]. destruct (Req_EM_T (q e - 1 / (4 * e ^ 2)) 0); [lra|]. ring.
    + destruct (Rlt_dec 0 (1 - q e)); [lra|]. destruct (Req_EM_T (1 - q e) 0); [lra|]. ring.
Qed.
Lemma spec_at e : 1 / 2 < e ->
  (E < e -> 1 / (4 * e ^ 2) < q e < 1 -> spec e = smooth e) /\ (e <= E \/ q e < 1 / (4 * e ^ 2) \/ 1 < q e -> spec e = 0).
Proof.
  intros He. unfold spec, jones. cbv zeta. fold p. fold (q e). split.
  - intros HL [Q1 Q2]. destruct (Rlt_dec E e); [|lra]. destruct (Rlt_dec (1 / (4 * e ^ 2)) (q e)); [|lra]. destruct (Rlt_dec (q e) 1); [|lra]. reflexivity.
  - intros H. destruct (Rlt_dec E e); [|ring]. destruct (Rlt_dec (1 / (4 * e ^ 2)) (q e)); [|ring]. destruct (Rlt_dec (q e) 1); [|ring]. lra.
Qed.
Lemma smooth_cont' e : 0 < e -> E < e -> continuity_pt pd (e * mec2) -> continuity_pt smooth e.
Proof.
  intros H0 HL C. pose proof p_pos as PP.
  apply (continuity_pt_mult (fun e => pd (e * mec2) * mec2) (fun e => u / eps * (3 / 4 * sT * light / (p * e ^ 2) * blumenthal_gould (4 * p * e) (q e)))).
  - apply (continuity_pt_mult (fun g => pd (g * mec2)) (fun _ => mec2)); [|apply continuity_pt_const; intros ? ?; reflexivity].
    apply (continuity_pt_comp (fun g => g * mec2) pd); [|exact C]. apply derivable_continuous_pt. apply derivable_pt_mult; [apply derivable_pt_id|apply derivable_pt_const].
  - apply continuity_pt_filterlim. unfold blumenthal_gould, q.
    assert (X2 : 0 < e * e) by nra.
    assert (X5 : 0 < 4 * p * e) by (apply Rmult_lt_0_compat; lra).
    assert (X3 : 0 < 4 * p * e * (e - E)) by (apply Rmult_lt_0_compat; lra).
    assert (X4 : 0 < E * / (4 * p * e * (e - E))) by (apply Rmult_lt_0_compat; [exact HE|apply Rinv_0_lt_compat; exact X3]).
    assert (X6 : 0 < 4 * p * e * (E * / (4 * p * e * (e - E)))) by (apply Rmult_lt_0_compat; assumption).
    apply (ex_derive_continuous (fun e => u / eps * (3 / 4 * sT * light / (p * e ^ 2) *
      (2 * (E / (4 * p * e * (e - E))) * ln (E / (4 * p * e * (e - E))) + (1 + 2 * (E / (4 * p * e * (e - E)))) * (1 - E / (4 * p * e * (e - E))) +
       (4 * p * e * (E / (4 * p * e * (e - E)))) ^ 2 / (2 * (1 + 4 * p * e * (E / (4 * p * e * (e - E))))) * (1 - E / (4 * p * e * (e - E))))))).
    auto_derive. unfold Rdiv, Rminus in *. repeat split; try apply Rgt_not_eq; unfold Rgt; try lra; try nra.
Qed.
Lemma electrons_RInt lo hi : 1 / 2 < lo -> lo < hi -> (forall e, lo <= e <= hi -> continuity_pt pd (e * mec2)) ->
  exists v, is_RInt code lo hi v /\ is_RInt spec lo hi v.
Proof.
  intros Hlo Hhi Hpd. pose proof p_pos as PP. set (L := (E + sqrt (E ^ 2 + E / p)) / 2).
  assert (PR : 0 < E / p) by (apply div_pos; assumption).
  assert (LE : E < L). { unfold L. assert (E < sqrt (E ^ 2 + E / p)); [|lra]. rewrite <- (sqrt_pow2 E) at 1 by lra. apply sqrt_lt_1_alt. nra. }
  set (U := if Rlt_dec E p then p * E / (p - E) else hi).
  assert (QU : forall e, E < e -> e < hi -> (1 / (4 * e ^ 2) < q e <-> e < U)).
  { intros e H1 H2. rewrite q_gt' by lra. unfold U. destruct (Rlt_dec E p) as [A|A].
    - split; intros H.
      + apply lt_div; lra.
      + apply lt_div in H; lra.
    - split; intros H; [exact H2|]. assert (0 < p * E) by (apply Rmult_lt_0_compat; assumption). nra. }
  set (c1 := clamp lo hi L). set (c2 := Rmax c1 (clamp lo hi U)).
  assert (D1 : lo <= c1 /\ c1 <= hi). { unfold c1, clamp. split; [apply Rmax_l|]. apply Rmax_lub; [lra|apply Rmin_l]. }
  assert (D2 : c1 <= c2 /\ c2 <= hi). { unfold c2. split; [apply Rmax_l|]. apply Rmax_lub; [lra|]. unfold clamp. apply Rmax_lub; [lra|apply Rmin_l]. }
  assert (Z1' : forall e, lo < e < c1 -> e <= E \/ q e < 1 / (4 * e ^ 2) \/ 1 < q e).
  { intros e [A B]. apply below_clamp in B; [|exact A]. destruct (Rle_dec e E) as [C|C]; [left; exact C|]. right. right.
    (* q is decreasing and at least 1 between e and L *)
    assert (M : q ((e + L) / 2) < q e).
    { unfold q. unfold Rdiv at 1 3. apply Rmult_lt_compat_l; [exact HE|]. apply Rinv_lt_contravar.
      - apply Rmult_lt_0_compat; (apply Rmult_lt_0_compat; [apply Rmult_lt_0_compat; lra|lra]).
      - apply Rmult_gt_0_lt_compat; try lra; [|apply Rmult_lt_compat_l; lra]. apply Rmult_lt_0_compat; lra. }
    assert (M2 : ~ q ((e + L) / 2) < 1); [|lra]. rewrite q_lt1' by lra. fold L. lra. }
  assert (Z2 : forall e, c2 < e < hi -> e <= E \/ q e < 1 / (4 * e ^ 2) \/ 1 < q e).
  { intros e [A B]. assert (A1 : c1 < e) by (eapply Rle_lt_trans; [apply Rmax_l|exact A]). assert (A2 : clamp lo hi U < e) by (eapply Rle_lt_trans; [apply Rmax_r|exact A]).
    apply (above_clamp lo hi L) in A1; [|exact B]. apply (above_clamp lo hi U) in A2; [|exact B]. right. left.
    pose proof (q_cmp e ltac:(lra) ltac:(lra)) as C. unfold U in A2. destruct (Rlt_dec E p) as [X|X]; [|lra].
    assert (Y : p * E < e * (p - E)). { apply div_lt in A2; lra. }
    assert (PD : 0 < 4 * p * e ^ 2 * (e - E)) by (apply Rmult_lt_0_compat; [apply Rmult_lt_0_compat; [lra|nra]|lra]).
    assert (0 < (e * (p - E) - p * E) / (4 * p * e ^ 2 * (e - E))) by (apply div_pos; lra).
    replace ((p * E - e * (p - E)) / (4 * p * e ^ 2 * (e - E))) with (- ((e * (p - E) - p * E) / (4 * p * e ^ 2 * (e - E)))) in C by (field; repeat split; lra). lra. }
  assert (M : forall e, c1 < e < c2 -> E < e /\ 1 / (4 * e ^ 2) < q e < 1).
  { intros e [A B]. assert (A1 : L < e) by (apply (above_clamp lo hi L); [exact A|lra]). split; [lra|].
    assert (B1 : e < clamp lo hi U). { unfold c2 in B. destruct (Rle_dec c1 (clamp lo hi U)); [rewrite Rmax_right in B by assumption; exact B|rewrite Rmax_left in B by lra; lra]. }
    assert (B2 : e < U) by (apply (below_clamp lo hi U); [lra|exact B1]).
    split; [apply QU; lra|apply q_lt1'; [lra|exact A1]]. }
  assert (SC : c1 < c2 -> forall e, c1 <= e <= c2 -> continuity_pt smooth e).
  { intros HC e He. assert (L <= c1). { unfold c1, clamp. apply Rle_trans with (Rmin hi L); [|apply Rmax_r]. apply Rmin_glb; [|lra].
      destruct (Rle_dec L hi); [assumption|]. exfalso. assert (c1 = hi); [|lra]. unfold c1, clamp. rewrite Rmin_left by lra. apply Rmax_right. lra. }
    apply smooth_cont'; [lra|lra|]. apply Hpd. lra. }
  exists (RInt smooth c1 c2). split; apply pieces; try lra; try exact SC; intros e He.
  - apply code_at; [lra|]. apply Z1'. exact He.
  - destruct (M e He) as [M1 M2]. apply code_at; [lra|exact M1|exact M2].
  - apply code_at; [lra|]. apply Z2. exact He.
  - apply spec_at; [lra|]. apply Z1'. exact He.
  - destruct (M e He) as [M1 M2]. apply spec_at; [lra|exact M1|exact M2].
  - apply spec_at; [lra|]. apply Z2. exact He.
Qed.
End Electrons.

(** Lines of energy eps and energy density u (both cgs); E in erg. *)
Definition on_line (sigma_T mec2 : R) (pd : R -> R) (lo hi E : R) (l : R * R) : R :=
  let '(eps, u) := l in
  RInt (fun g => pd (g * mec2) * mec2 * (u / eps * jones sigma_T mec2 g (E / mec2) eps)) (lo / mec2) (hi / mec2) / mec2.
Theorem C152_spectrum : exists sigma_T, close sigma_T (8 * PI / 3 * r_e ^ 2) /\
  forall mec2 ar pd lo hi lines th Es i, 0 < mec2 -> mec2 / 2 < lo -> lo < hi -> (i < length Es)%nat ->
  List.Forall (fun E => 0 < E) Es -> continuous_density pd lo hi ->
  List.Forall (fun l => 0 < fst l /\ 0 <= snd l) lines ->
  tends (fun nd => nth i (ic_spectrum mec2 ar pd (gam mec2 nd lo hi) (map (fun l => Array [fst l] [snd l] th) lines) Es) 0)
        (fold_right Rplus 0 (map (on_line sigma_T mec2 pd lo hi (nth i Es 0)) lines)).
Proof.
  exists (sigt_c / light). split.
  { pose proof PI_bounds as PB. unfold close, sigt_c, light, r_e.
    match goal with |- Rabs (?a / (8 * PI / 3 * ?b) - 1) < _ => replace (a / (8 * PI / 3 * b) - 1) with (a * 3 / 8 / b / PI - 1) by (field; lra) end.
    assert (B : / (31415927 / 10 ^ 7) < / PI < / (31415926 / 10 ^ 7)) by (split; (apply Rinv_lt_contravar; [|lra]); apply (Rmult_lt_0_compat); lra).
    unfold Rdiv at 1. apply Rabs_def1; lra. }
  intros mec2 ar pd lo hi lines th Es i Hm Hlo Hhi Hi HE HD HL.
  assert (PE : 0 < nth i Es 0) by (rewrite List.Forall_forall in HE; apply HE, nth_In; exact Hi). set (E := nth i Es 0) in *.
  assert (PE2 : 0 < E / mec2) by (apply div_pos; assumption).
  assert (L1 : 1 / 2 < lo / mec2). { apply (Rmult_lt_reg_r mec2); [lra|]. unfold Rdiv. rewrite (Rmult_assoc lo), Rinv_l by lra. lra. }
  assert (LH : lo / mec2 < hi / mec2) by (apply Rmult_lt_compat_r; [apply Rinv_0_lt_compat|]; lra).
  assert (CP : forall e, lo / mec2 <= e <= hi / mec2 -> continuity_pt pd (e * mec2) /\ 0 <= pd (e * mec2)).
  { intros e [Y1 Y2]. apply HD. apply (Rmult_le_compat_r mec2) in Y1; [|lra]. apply (Rmult_le_compat_r mec2) in Y2; [|lra].
    unfold Rdiv in Y1, Y2. rewrite Rmult_assoc, Rinv_l in Y1, Y2 by lra. lra. }
  assert (I2 : forall l, In l lines -> exists v,
    is_RInt (ic_integrand mec2 pd (Array [fst l] [snd l] th) E) (lo / mec2) (hi / mec2) v /\
    is_RInt (fun g => pd (g * mec2) * mec2 * (snd l / fst l * jones (sigt_c / light) mec2 g (E / mec2) (fst l))) (lo / mec2) (hi / mec2) v).
  { intros l IN. rewrite List.Forall_forall in HL. destruct (HL l IN) as [P1 P2].
    destruct (electrons_RInt mec2 (fst l) (snd l) (E / mec2) th pd Hm P1 PE2 (lo / mec2) (hi / mec2) L1 LH) as (v & V1 & V2).
    - intros e He. apply CP. exact He.
    - exists v. split; [exact V1|exact V2]. }
  replace (fold_right Rplus 0 (map (on_line (sigt_c / light) mec2 pd lo hi E) lines))
    with (fold_right Rplus 0 (map (ic_exact mec2 ar pd lo hi E) (map (fun l => Array [fst l] [snd l] th) lines))).
  - apply C110_inverse_compton; try assumption; try lra. rewrite List.Forall_map. rewrite List.Forall_forall. intros l IN.
    destruct (I2 l IN) as (v & V1 & _). split; [exists v; exact V1|]. intros g Hg. unfold ic_integrand. rewrite List.Forall_forall in HL. destruct (HL l IN) as [P1 P2].
    apply Rmult_le_pos; [apply Rmult_le_pos; [apply CP; exact Hg|lra]|].
    cbn [to_mec2 seed_kernel iso_ic_on_monochromatic]. assert (0 < fst l / mec2) by (apply div_pos; assumption).
    apply Rmult_le_pos; [|apply Rlt_le, div_pos; [unfold sigt_c; lra|apply pow_lt; lra]].
    apply Rmult_le_pos; [apply aa_nonneg; [lra|assumption|exact PE2]|]. unfold Rdiv. apply Rmult_le_pos; [apply Rmult_le_pos; [exact P2|apply Rlt_le, Rinv_0_lt_compat; exact Hm]|].
    apply Rlt_le, Rinv_0_lt_compat. apply pow_lt. exact H.
  - rewrite map_map. f_equal. apply map_ext_in. intros l IN. destruct (I2 l IN) as (v & V1 & V2).
    unfold ic_exact, on_line. destruct l as [eps u]. cbn [fst snd] in *. rewrite (is_RInt_unique _ _ _ _ V1), (is_RInt_unique _ _ _ _ V2).
    cbn [seed_factor]. field. split; lra.
Qed.
Print Assumptions C152_spectrum.
Example C152_example2 : (forall x, 1 <= x <= 2 -> continuity_pt (fun _ : R => 3) x /\ 0 <= 3) /\ 0 < jones 1 1 10 1 1.
Proof.
  split; [intros x _; split; [apply continuity_pt_const; intros ? ?; reflexivity|lra]|].
  unfold jones. cbv zeta. destruct (Rlt_dec 1 10); [|lra].
  destruct (Rlt_dec (1 / (4 * 10 ^ 2)) (1 / (4 * (1 / 1) * 10 * (10 - 1)))); [|exfalso; apply n; lra].
  destruct (Rlt_dec (1 / (4 * (1 / 1) * 10 * (10 - 1))) 1); [|exfalso; apply n; lra].
  apply Rmult_lt_0_compat; [unfold light; lra|]. unfold blumenthal_gould.
  replace (1 / (4 * (1 / 1) * 10 * (10 - 1))) with (/ 360) by field. rewrite ln_Rinv by lra.
  assert (ln 360 < 6 * (ln 3)). { replace (6 * ln 3) with (ln 3 * INR 6) by (simpl; ring). rewrite Rmult_comm, <- ln_pow by lra. apply ln_increasing; simpl; lra. }
  assert (ln 3 < 2). { rewrite <- (ln_exp 2). apply ln_increasing; [lra|]. pose proof (exp_ineq1 2). lra. }
  lra.
Qed.
