(** The pion-decay cross section is piecewise continuous in the proton energy,
    hence Riemann integrable against every continuous proton distribution. *)
From Coq Require Import Reals ZArith List Lra Lia Bool.
From Coquelicot Require Import Coquelicot.
From Verif Require Import TrapzModel TrapzSpec TrapzProofs EnergyModel EnergyProofs ElectronModel ElectronProofs PionModel PionProofs ConvProofs ConvProps ConvProps2.
Import ListNotations.
Local Open Scope R_scope.

(** ** Piecewise continuity *)
Definition cont_on (g : R -> R) (a b : R) : Prop := forall x, a <= x <= b -> continuity_pt g x.
Definition pc (f : R -> R) (a b : R) : Prop := exists g, cont_on g a b /\ forall x, a < x < b -> f x = g x.
Lemma pc_mult f g a b : pc f a b -> pc g a b -> pc (fun x => f x * g x) a b.
Proof.
  intros (f' & Cf & Ef) (g' & Cg & Eg). exists (fun x => f' x * g' x). split.
  - intros x Hx. apply (continuity_pt_mult f' g'); [apply Cf|apply Cg]; exact Hx.
  - intros x Hx. rewrite Ef, Eg by exact Hx. reflexivity.
Qed.
Lemma pc_cont f a b : cont_on f a b -> pc f a b.
Proof. intros C. exists f. split; [exact C|reflexivity]. Qed.
Lemma pc_ext f g a b : (forall x, a < x < b -> f x = g x) -> pc g a b -> pc f a b.
Proof. intros E (h & C & H). exists h. split; [exact C|]. intros x Hx. rewrite E by exact Hx. apply H. exact Hx. Qed.
Lemma pc_integrable f a b : a <= b -> pc f a b -> ex_RInt f a b.
Proof.
  intros H (g & C & E). apply (ex_RInt_ext g).
  - intros x Hx. rewrite Rmin_left, Rmax_right in Hx by lra. symmetry. apply E. exact Hx.
  - apply ex_RInt_cont; [exact H|]. exact C.
Qed.
Lemma glue (f : R -> R) bps : forall L H, L <= H ->
  (forall a b, L <= a -> a < b -> b <= H -> (forall c, In c bps -> c <= a \/ b <= c) -> ex_RInt f a b) -> ex_RInt f L H.
Proof.
  induction bps as [|c bps IH]; intros L H HL X.
  - destruct HL as [HL| ->]; [|apply ex_RInt_point]. apply X; try lra. intros c [].
  - assert (S : forall l h, L <= l -> l <= h -> h <= H -> c <= l \/ h <= c -> ex_RInt f l h).
    { intros l h A B C D. apply IH; [exact B|]. intros a b A1 A2 A3 A4. apply X; try lra. intros c' [<-|I]; [lra|apply A4; exact I]. }
    destruct (Rle_or_lt c L) as [C1|C1]; [apply S; lra|]. destruct (Rle_or_lt H c) as [C2|C2]; [apply S; lra|].
    apply (ex_RInt_Chasles f L c H); apply S; lra.
Qed.

(** ** Continuity of the building blocks *)
Lemma cont_const c x : continuity_pt (fun _ => c) x.
Proof. apply continuity_pt_const. intros ? ?. reflexivity. Qed.
Lemma cont_id x : continuity_pt (fun y => y) x.
Proof. apply derivable_continuous_pt, derivable_pt_id. Qed.
Lemma cont_plus f g x : continuity_pt f x -> continuity_pt g x -> continuity_pt (fun y => f y + g y) x.
Proof. apply (continuity_pt_plus f g). Qed.
Lemma cont_minus f g x : continuity_pt f x -> continuity_pt g x -> continuity_pt (fun y => f y - g y) x.
Proof. apply (continuity_pt_minus f g). Qed.
Lemma cont_mult f g x : continuity_pt f x -> continuity_pt g x -> continuity_pt (fun y => f y * g y) x.
Proof. apply (continuity_pt_mult f g). Qed.
Lemma cont_div f g x : continuity_pt f x -> continuity_pt g x -> g x <> 0 -> continuity_pt (fun y => f y / g y) x.
Proof. intros. apply (continuity_pt_div f g); assumption. Qed.
Lemma cont_inv g x : continuity_pt g x -> g x <> 0 -> continuity_pt (fun y => / g y) x.
Proof. intros. apply (continuity_pt_inv g); assumption. Qed.
Lemma cont_exp f x : continuity_pt f x -> continuity_pt (fun y => exp (f y)) x.
Proof. intros. apply (continuity_pt_comp f exp); [assumption|]. apply derivable_continuous_pt, derivable_pt_exp. Qed.
Lemma cont_ln f x : continuity_pt f x -> 0 < f x -> continuity_pt (fun y => ln (f y)) x.
Proof. intros. apply (continuity_pt_comp f ln); [assumption|]. apply cont_of_derive. auto_derive. assumption. Qed.
Lemma cont_sqrt f x : continuity_pt f x -> 0 <= f x -> continuity_pt (fun y => sqrt (f y)) x.
Proof. intros. apply (continuity_pt_comp f sqrt); [assumption|]. apply continuity_pt_sqrt. assumption. Qed.
Lemma cont_Rpower f g x : continuity_pt f x -> 0 < f x -> continuity_pt g x -> continuity_pt (fun y => Rpower (f y) (g y)) x.
Proof. intros. unfold Rpower. apply cont_exp, cont_mult; [assumption|]. apply cont_ln; assumption. Qed.
Lemma cont_pow f n x : continuity_pt f x -> continuity_pt (fun y => f y ^ n) x.
Proof. intros H. induction n as [|n IH]; [exact (cont_const 1 x)|]. apply (cont_mult f (fun y => f y ^ n)); assumption. Qed.
Lemma cont_Rmin1 f x : continuity_pt f x -> continuity_pt (fun y => Rmin 1 (f y)) x.
Proof.
  intros H. apply (cont_locally (fun y => (1 + f y - Rabs (1 - f y)) / 2) _ x 1); [lra| |].
  - intros y _. unfold Rmin. destruct (Rle_dec 1 (f y)); [rewrite Rabs_left1 by lra|rewrite Rabs_pos_eq by lra]; field.
  - apply cont_div; [|apply cont_const|lra]. apply cont_minus; [apply cont_plus; [apply cont_const|exact H]|].
    apply (continuity_pt_comp (fun y => 1 - f y) Rabs); [apply cont_minus; [apply cont_const|exact H]|apply Rcontinuity_abs].
Qed.
Lemma cont_Rmax0 f x : continuity_pt f x -> continuity_pt (fun y => Rmax 0 (f y)) x.
Proof.
  intros H. apply (cont_locally (fun y => (f y + Rabs (f y)) / 2) _ x 1); [lra| |].
  - intros y _. unfold Rmax. destruct (Rle_dec 0 (f y)); [rewrite Rabs_pos_eq by lra|rewrite Rabs_left1 by lra]; field.
  - apply cont_div; [|apply cont_const|lra]. apply cont_plus; [exact H|]. apply (continuity_pt_comp f Rabs); [exact H|apply Rcontinuity_abs].
Qed.
Lemma cont_Rmax1 f x : continuity_pt f x -> continuity_pt (fun y => Rmax 1 (f y)) x.
Proof.
  intros H. apply (cont_locally (fun y => 1 + Rmax 0 (f y - 1)) _ x 1); [lra| |].
  - intros y _. unfold Rmax. destruct (Rle_dec 1 (f y)), (Rle_dec 0 (f y - 1)); lra.
  - apply cont_plus; [apply cont_const|]. apply cont_Rmax0. apply cont_minus; [exact H|apply cont_const].
Qed.
(** powers with a base that may vanish *)
Lemma cont_npow u beta x : continuity_pt u x -> continuity_pt beta x -> (forall y, 0 <= u y) -> 0 < beta x ->
  continuity_pt (fun y => npow (u y) (beta y)) x.
Proof.
  intros Cu Cb U B. destruct (Req_EM_T (u x) 0) as [Z|NZ].
  - intros eps He. set (b0 := beta x / 2). assert (B0 : 0 < b0) by (unfold b0; lra).
    destruct (Cb b0 ltac:(lra)) as (d1 & D1 & H1). destruct (Cu (Rmin 1 (Rpower eps (/ b0)))) as (d2 & D2 & H2).
    { apply Rmin_glb_lt; [lra|apply exp_pos]. }
    exists (Rmin d1 d2). split; [apply Rmin_glb_lt; assumption|]. intros y [Dy Hy]. simpl in *. unfold R_dist in *.
    assert (Y1 : Rabs (beta y - beta x) < b0) by (apply H1; split; [exact Dy|]; apply Rlt_le_trans with (1 := Hy); apply Rmin_l).
    assert (Y2 : Rabs (u y - u x) < Rmin 1 (Rpower eps (/ b0))) by (apply H2; split; [exact Dy|]; apply Rlt_le_trans with (1 := Hy); apply Rmin_r).
    assert (Bx : npow (u x) (beta x) = 0) by (rewrite Z; apply npow_0; lra). rewrite Bx, Rminus_0_r.
    apply Rabs_def2 in Y1. rewrite Z, Rminus_0_r in Y2. rewrite Rabs_pos_eq in Y2 by apply U.
    assert (BY : b0 < beta y) by (unfold b0 in *; lra).
    rewrite Rabs_pos_eq by (apply npow_nonneg; apply U). unfold npow. destruct (Req_EM_T (u y) 0) as [Zy|Ny].
    { destruct (Req_EM_T (beta y) 0); lra. }
    assert (Uy : 0 < u y) by (specialize (U y); lra).
    assert (M1 : u y < 1) by (apply Rlt_le_trans with (1 := Y2); apply Rmin_l).
    assert (M2 : u y < Rpower eps (/ b0)) by (apply Rlt_le_trans with (1 := Y2); apply Rmin_r).
    assert (L1 : ln (u y) < 0) by (rewrite <- ln_1; apply ln_increasing; lra).
    assert (L2 : ln (u y) < / b0 * ln eps).
    { unfold Rpower in M2. rewrite <- (ln_exp (/ b0 * ln eps)). apply ln_increasing; lra. }
    unfold Rpower. rewrite <- (exp_ln eps He). apply exp_increasing. apply Rle_lt_trans with (b0 * ln (u y)); [nra|].
    replace (ln eps) with (b0 * (/ b0 * ln eps)) by (field; lra). apply Rmult_lt_compat_l; lra.
  - assert (P : 0 < u x) by (specialize (U x); lra).
    destruct (Cu (u x) P) as (d & D & H).
    apply (cont_locally (fun y => Rpower (u y) (beta y)) _ x d); [exact D| |apply cont_Rpower; assumption].
    intros y Hy. unfold npow. destruct (Req_EM_T (u y) 0) as [E|_]; [|reflexivity]. exfalso.
    destruct (Req_dec x y) as [->|NE]; [lra|]. assert (Q : Rabs (u y - u x) < u x).
    { apply (H y). simpl. unfold R_dist. split; [split; [exact I|exact NE]|exact Hy]. }
    rewrite E in Q. apply Rabs_def2 in Q. lra.
Qed.

Section P.
  Variable m_p : R.
  Hypothesis Hmp : proton m_p.
  Let PM : 0 < m_p := mp_pos m_p Hmp.

  Lemma cont_s T : continuity_pt (s_cm m_p) T.
  Proof. unfold s_cm. apply cont_mult; [apply cont_const|]. apply cont_plus; [apply cont_id|apply cont_const]. Qed.
  Lemma cont_sqrt_s T : Tth <= T -> continuity_pt (fun T => sqrt (s_cm m_p T)) T.
  Proof. intros H. pose proof Tth_pos. apply cont_sqrt; [apply cont_s|]. apply Rlt_le, s_pos; [exact Hmp|lra]. Qed.
  Lemma sqrt_s_pos T : Tth <= T -> 0 < sqrt (s_cm m_p T).
  Proof. intros H. pose proof Tth_pos. apply sqrt_lt_R0, s_pos; [exact Hmp|lra]. Qed.
  Lemma cont_EpiCM T : Tth <= T -> continuity_pt (EpiCM m_p) T.
  Proof.
    intros H. pose proof (sqrt_s_pos T H). unfold EpiCM. apply cont_div; [| |lra].
    - apply cont_plus; [|apply cont_const]. apply cont_minus; [apply cont_s|apply cont_const].
    - apply cont_mult; [apply cont_const|apply cont_sqrt_s; exact H].
  Qed.
  Lemma cont_gCM T : Tth <= T -> continuity_pt (gCM m_p) T.
  Proof.
    intros H. pose proof (sqrt_s_pos T H). unfold gCM. apply cont_div; [|apply cont_sqrt_s; exact H|lra].
    apply cont_plus; [apply cont_id|apply cont_const].
  Qed.
  Lemma cont_Epi T : Tth <= T -> continuity_pt (Epi m_p) T.
  Proof.
    intros H. pose proof (EpiCM_gt m_p Hmp T H) as E. pose proof Tth_pos. pose proof m_pi_pos.
    pose proof (gCM_gt m_p Hmp T ltac:(lra)) as G. pose proof (inv_sq_lt1 _ G) as IG.
    unfold Epi. apply cont_mult; [apply cont_gCM; exact H|]. apply cont_plus; [apply cont_EpiCM; exact H|]. apply cont_mult.
    - apply cont_sqrt; [|nra]. apply cont_minus; [apply cont_pow, cont_EpiCM; exact H|apply cont_const].
    - apply cont_sqrt; [|lra]. apply cont_minus; [apply cont_const|]. apply cont_inv; [apply cont_pow, cont_gCM; exact H|]. nra.
  Qed.
  Lemma Epi_gt T : Tth <= T -> m_pi < Epi m_p T.
  Proof. intros H. apply (EpimaxLAB_some m_p Hmp T H). Qed.

  (** *** inclusive cross section *)
  Lemma fBW_pos T : 0 < fBW m_p T.
  Proof.
    unfold fBW. apply div_pos; [apply Rmult_lt_0_compat; [exact PM|apply K_res_pos]|].
    assert (0 < Mres ^ 2 * Gres ^ 2) by (unfold Mres, Gres; lra).
    pose proof (pow2_ge_0 ((sqrt (s_cm m_p T) - m_p) ^ 2 - Mres ^ 2)). lra.
  Qed.
  Lemma cont_fBW T : Tth <= T -> continuity_pt (fBW m_p) T.
  Proof.
    intros H. unfold fBW. apply cont_div; [apply cont_const| |].
    - apply cont_plus; [|apply cont_const]. apply cont_pow. apply cont_minus; [|apply cont_const]. apply cont_pow.
      apply cont_minus; [apply cont_sqrt_s; exact H|apply cont_const].
    - assert (0 < Mres ^ 2 * Gres ^ 2) by (unfold Mres, Gres; lra).
      pose proof (pow2_ge_0 ((sqrt (s_cm m_p T) - m_p) ^ 2 - Mres ^ 2)). lra.
  Qed.
  Definition lo_mu (T : R) : R := sqrt (mu_rad m_p T) / (2 * m_pi * sqrt (s_cm m_p T)).
  Lemma cont_lo_mu T : Tth <= T -> continuity_pt lo_mu T.
  Proof.
    intros H. pose proof (sqrt_s_pos T H). pose proof m_pi_pos. unfold lo_mu. apply cont_div.
    - apply cont_sqrt; [|apply Rlt_le, mu_rad_pos; assumption]. unfold mu_rad. apply cont_minus; [|apply cont_const]. apply cont_pow.
      apply cont_minus; [apply cont_minus; [apply cont_s|apply cont_const]|apply cont_const].
    - apply cont_mult; [apply cont_const|apply cont_sqrt_s; exact H].
    - apply Rgt_not_eq. unfold Rgt. repeat apply Rmult_lt_0_compat; lra.
  Qed.
  Lemma lo_mu_pos T : Tth <= T -> 0 < lo_mu T.
  Proof.
    intros H. pose proof (sqrt_s_pos T H). pose proof m_pi_pos. unfold lo_mu. apply div_pos; [apply sqrt_lt_R0, mu_rad_pos; assumption|].
    repeat apply Rmult_lt_0_compat; lra.
  Qed.
  Definition lo_main (T : R) : R := 766 / 100000 * npow (lo_mu T) (195 / 100) * (1 + lo_mu T + lo_mu T ^ 5) * Rpower (fBW m_p T) (186 / 100).
  Lemma cont_lo_main T : Tth <= T -> continuity_pt lo_main T.
  Proof.
    intros H. unfold lo_main. pose proof (cont_lo_mu T H) as C. apply cont_mult; [apply cont_mult; [apply cont_mult|]|].
    - apply cont_const.
    - pose proof (lo_mu_pos T H) as P. destruct (C (lo_mu T) P) as (d & D & HC).
      apply (cont_locally (fun y => Rpower (lo_mu y) (195 / 100)) _ T d); [exact D| |apply cont_Rpower; [exact C|exact P|apply cont_const]].
      intros y Hy. unfold npow. destruct (Req_EM_T (lo_mu y) 0) as [E|_]; [|reflexivity]. exfalso.
      destruct (Req_dec T y) as [->|NE]; [lra|]. assert (Q : Rabs (lo_mu y - lo_mu T) < lo_mu T).
      { apply (HC y). simpl. unfold R_dist. split; [split; [exact I|exact NE]|exact Hy]. }
      rewrite E in Q. apply Rabs_def2 in Q. lra.
    - apply cont_plus; [apply cont_plus; [apply cont_const|exact C]|apply cont_pow; exact C].
    - apply cont_Rpower; [apply cont_fBW; exact H|apply fBW_pos|apply cont_const].
  Qed.
  Lemma cont_inel T : 0 < T -> continuity_pt sigma_inel T.
  Proof.
    intros H. pose proof Tth_pos. unfold sigma_inel.
    assert (CL : continuity_pt (fun T => ln (T / Tth)) T).
    { apply cont_ln; [apply cont_div; [apply cont_id|apply cont_const|lra]|apply div_pos; lra]. }
    apply cont_mult; [|apply cont_const]. apply cont_mult.
    - apply cont_plus; [|apply cont_mult; [apply cont_const|apply cont_pow; exact CL]].
      apply cont_minus; [apply cont_const|apply cont_mult; [apply cont_const|exact CL]].
    - apply cont_pow. apply cont_minus; [apply cont_const|]. apply cont_Rpower; [|apply div_pos; lra|apply cont_const].
      apply cont_div; [apply cont_const|apply cont_id|lra].
  Qed.
  Lemma cont_mid T : 0 < T -> continuity_pt (sigma_pi_midE m_p) T.
  Proof.
    intros H. unfold sigma_pi_midE. apply cont_mult; [apply cont_inel; exact H|].
    assert (CQ : continuity_pt (fun T => (T - Tth) / m_p) T).
    { apply cont_div; [|apply cont_const|lra]. apply cont_minus; [apply cont_id|apply cont_const]. }
    apply cont_minus; [apply cont_plus; [apply cont_const|]|]; apply cont_mult; try apply cont_const; [exact CQ|apply cont_pow; exact CQ].
  Qed.
  Lemma cont_hi T h : 3 < T -> continuity_pt (fun T => sigma_pi_hiE m_p T (tab_a h)) T.
  Proof.
    intros H. assert (K : forall a0 a1 a2 a3 a4, continuity_pt (fun T => sigma_pi_hiE m_p T (a0, a1, a2, a3, a4)) T).
    { intros. unfold sigma_pi_hiE. apply cont_mult; [apply cont_inel; lra|].
      assert (CQ : continuity_pt (fun T => (T - 3) / m_p) T).
      { apply cont_div; [|apply cont_const|lra]. apply cont_minus; [apply cont_id|apply cont_const]. }
      assert (P : 0 < (T - 3) / m_p) by (apply div_pos; lra).
      assert (CP : forall k, continuity_pt (fun T => Rpower ((T - 3) / m_p) k) T).
      { intros k. apply cont_Rpower; [exact CQ|exact P|apply cont_const]. }
      apply cont_mult.
      - apply cont_mult; [apply cont_mult; [apply cont_const|apply CP]|]. apply cont_plus; [apply cont_const|]. apply cont_exp, cont_mult; [apply cont_const|apply CP].
      - apply cont_minus; [apply cont_const|]. apply cont_exp, cont_mult; [apply cont_const|apply CP]. }
    destruct h; apply K.
  Qed.

  Variable hi : hiE.
  (** energies at which a formula changes *)
  Definition breaks : list R := [56 / 100; 1; 2; 4; 5; 20; Etrans hi].
  Definition no_break (a b : R) : Prop := forall c, In c breaks -> c <= a \/ b <= c.

  Definition val (o : option R) : R := match o with Some v => v | None => 0 end.
  Lemma pc_sigma a b : Tth <= a -> no_break a b -> pc (fun T => val (sigma_pi m_p hi T)) a b.
  Proof.
    intros Ha NB. pose proof Tth_pos.
    assert (B1 := NB (56 / 100) ltac:(simpl; auto)). assert (B2 := NB 2 ltac:(simpl; auto 9)).
    assert (B5 := NB 5 ltac:(simpl; auto 9)). assert (Bt := NB (Etrans hi) ltac:(simpl; auto 9)).
    destruct B2 as [B2|B2].
    - destruct B5 as [B5|B5].
      + destruct Bt as [Bt|Bt].
        * exists (fun T => sigma_pi_hiE m_p T (tab_a hi)). split; [intros x Hx; apply cont_hi; lra|].
          intros x Hx. unfold sigma_pi. destruct (Rlt_dec x 2); [lra|]. destruct (Rlt_dec x 5); [lra|]. destruct (Rlt_dec x (Etrans hi)); [lra|reflexivity].
        * exists (fun T => sigma_pi_hiE m_p T (tab_a Geant4)). split; [intros x Hx; apply cont_hi; lra|].
          intros x Hx. unfold sigma_pi. destruct (Rlt_dec x 2); [lra|]. destruct (Rlt_dec x 5); [lra|]. destruct (Rlt_dec x (Etrans hi)); [reflexivity|lra].
      + exists (sigma_pi_midE m_p). split; [intros x Hx; apply cont_mid; lra|].
        intros x Hx. unfold sigma_pi. destruct (Rlt_dec x 2); [lra|]. destruct (Rlt_dec x 5); [reflexivity|lra].
    - assert (LO : forall x, a < x < b -> val (sigma_pi m_p hi x) = (lo_main x + sigma2pi x) * mbarn).
      { intros x Hx. unfold sigma_pi. destruct (Rlt_dec x 2); [|lra]. unfold sigma_pi_loE.
        pose proof (mu_rad_pos m_p Hmp x ltac:(lra)). rewrite nsqrt_some by lra. reflexivity. }
      destruct B1 as [B1|B1].
      + exists (fun x => (lo_main x + 57 / 10 / (1 + exp (- (93 / 10) * (x - 14 / 10)))) * mbarn). split.
        * intros x Hx. apply cont_mult; [|apply cont_const]. apply cont_plus; [apply cont_lo_main; lra|].
          pose proof (exp_pos (- (93 / 10) * (x - 14 / 10))). apply cont_div; [apply cont_const| |lra].
          apply cont_plus; [apply cont_const|]. apply cont_exp, cont_mult; [apply cont_const|]. apply cont_minus; [apply cont_id|apply cont_const].
        * intros x Hx. rewrite LO by exact Hx. unfold sigma2pi. destruct (Rlt_dec x (56 / 100)); [lra|reflexivity].
      + exists (fun x => (lo_main x + 0) * mbarn). split.
        * intros x Hx. apply cont_mult; [|apply cont_const]. apply cont_plus; [apply cont_lo_main; lra|apply cont_const].
        * intros x Hx. rewrite LO by exact Hx. unfold sigma2pi. destruct (Rlt_dec x (56 / 100)); [reflexivity|lra].
  Qed.

  Lemma pc_Amax a b : Tth <= a -> no_break a b -> pc (fun T => val (Amax m_p hi T)) a b.
  Proof.
    intros Ha NB. pose proof Tth_pos. pose proof m_pi_pos. pose proof (pc_sigma a b Ha NB) as PS.
    assert (B1 := NB 1 ltac:(simpl; auto)). assert (B5 := NB 5 ltac:(simpl; auto 9)). assert (Bt := NB (Etrans hi) ltac:(simpl; auto 9)).
    destruct B1 as [B1|B1].
    - assert (HB : exists b1 b2 b3, forall x, a < x < b -> b_params hi x = (b1, b2, b3)).
      { destruct (tab_b hi) as [[t1 t2] t3] eqn:TB. destruct (tab_b Geant4) as [[g1 g2] g3] eqn:TG.
        destruct Bt as [Bt|Bt]; [exists t1, t2, t3|destruct B5 as [B5|B5]; [exists g1, g2, g3|exists (953 / 100), (52 / 100), (54 / 1000)]]; intros x Hx; unfold b_params.
        - destruct (Rle_dec (Etrans hi) x); [exact TB|lra].
        - destruct (Rle_dec (Etrans hi) x); [lra|]. destruct (Rle_dec 5 x); [exact TG|lra].
        - destruct (Rle_dec (Etrans hi) x); [lra|]. destruct (Rle_dec 5 x); [lra|reflexivity]. }
      destruct HB as (b1 & b2 & b3 & HB).
      apply pc_ext with (fun T => (b1 * Rpower (T / m_p) (- b2) * exp (b3 * ln (T / m_p) ^ 2) / m_p) * val (sigma_pi m_p hi T)).
      + intros x Hx. unfold Amax. destruct (Rlt_dec x 1); [lra|]. rewrite HB by exact Hx.
        destruct (sigma_pi m_p hi x); cbn [nmap val]; unfold Rdiv; ring.
      + apply pc_mult; [|exact PS]. apply pc_cont. intros x Hx.
        assert (CQ : continuity_pt (fun T => T / m_p) x) by (apply cont_div; [apply cont_id|apply cont_const|lra]).
        assert (0 < x / m_p) by (apply div_pos; lra).
        apply cont_div; [|apply cont_const|lra]. apply cont_mult.
        * apply cont_mult; [apply cont_const|apply cont_Rpower; [exact CQ|assumption|apply cont_const]].
        * apply cont_exp, cont_mult; [apply cont_const|]. apply cont_pow, cont_ln; assumption.
    - apply pc_ext with (fun T => (59 / 10 / Epi m_p T) * val (sigma_pi m_p hi T)).
      + intros x Hx. unfold Amax. destruct (Rlt_dec x 1); [|lra]. destruct (EpimaxLAB_some m_p Hmp x ltac:(lra)) as [-> _].
        destruct (sigma_pi m_p hi x); cbn [nbind nmap val]; unfold Rdiv; ring.
      + apply pc_mult; [|exact PS]. apply pc_cont. intros x Hx. pose proof (Epi_gt x ltac:(lra)).
        apply cont_div; [apply cont_const|apply cont_Epi; lra|lra].
  Qed.

  (** *** shape of the photon spectrum *)
  Lemma cont_Xg T Eg : Tth <= T -> continuity_pt (fun T => Xg m_p T Eg) T.
  Proof.
    intros H. pose proof (Epi_gt T H). unfold Xg. apply cont_div; [apply cont_const| |lra]. apply cont_minus; [apply cont_Epi; exact H|apply cont_const].
  Qed.
  Lemma npow_le1 x y : 0 <= x <= 1 -> 0 < y -> npow x y <= 1.
  Proof. intros [A [B|B]] Hy; [apply Rlt_le, npow_lt1; lra|]. subst x. rewrite npow_1. lra. Qed.
  Definition clamp (x : R) : R := Rmax 0 (Rmin 1 x).
  Lemma clamp_range x : 0 <= clamp x <= 1.
  Proof. unfold clamp, Rmax, Rmin. destruct (Rle_dec 1 x); destruct (Rle_dec 0 _); lra. Qed.
  Lemma cont_clamp f x : continuity_pt f x -> continuity_pt (fun y => clamp (f y)) x.
  Proof. intros H. unfold clamp. apply cont_Rmax0, cont_Rmin1, H. Qed.
  Definition Fform (lamb alpha : R) (beta gamma : R -> R) (Eg T : R) : R :=
    npow (1 - npow (clamp (Xg m_p T Eg)) alpha) (beta T) / Rpower (1 + clamp (Xg m_p T Eg) / (lamb * m_pi / Epi m_p T)) (gamma T).
  Lemma cont_Fform lamb alpha beta gamma Eg T : Tth <= T -> 0 < Eg -> 0 < lamb -> 0 < alpha -> 0 < beta T ->
    continuity_pt beta T -> continuity_pt gamma T -> continuity_pt (Fform lamb alpha beta gamma Eg) T.
  Proof.
    intros H HE HL HA HB Cb Cg. pose proof m_pi_pos. pose proof (Epi_gt T H) as E.
    assert (CX : continuity_pt (fun T => clamp (Xg m_p T Eg)) T) by (apply cont_clamp, cont_Xg; exact H).
    pose proof (clamp_range (Xg m_p T Eg)) as CR.
    assert (0 < lamb * m_pi / Epi m_p T) by (apply div_pos; [apply Rmult_lt_0_compat|]; lra).
    assert (D : 0 < 1 + clamp (Xg m_p T Eg) / (lamb * m_pi / Epi m_p T)).
    { assert (0 <= clamp (Xg m_p T Eg) / (lamb * m_pi / Epi m_p T)); [|lra]. apply Rmult_le_pos; [lra|apply Rlt_le, Rinv_0_lt_compat; lra]. }
    unfold Fform. apply cont_div.
    - apply cont_npow; [| exact Cb| |exact HB].
      + apply cont_minus; [apply cont_const|]. apply cont_npow; [exact CX|apply cont_const| |exact HA]. intros y. apply clamp_range.
      + intros y. pose proof (npow_le1 _ alpha (clamp_range (Xg m_p y Eg)) HA). lra.
    - apply cont_Rpower; [|exact D|exact Cg]. apply cont_plus; [apply cont_const|]. apply cont_div; [exact CX| |lra].
      apply cont_div; [apply cont_const|apply cont_Epi; exact H|lra].
    - apply Rgt_not_eq. unfold Rgt. apply exp_pos.
  Qed.
  Lemma Fval_form T Eg lamb alpha beta gamma : Tth <= T -> 0 < Eg ->
    Fval m_p T Eg (lamb, alpha, beta T, gamma T) = Fform lamb alpha beta gamma Eg T.
  Proof.
    intros H HE. pose proof (Epi_gt T H). pose proof (Yg_nonneg Eg HE) as Y.
    assert (X0 : 0 <= Xg m_p T Eg) by (unfold Xg; apply Rmult_le_pos; [exact Y|apply Rlt_le, Rinv_0_lt_compat; lra]).
    assert (C : clamp (Xg m_p T Eg) = Rmin 1 (Xg m_p T Eg)).
    { unfold clamp. apply Rmax_right. apply Rmin_glb; lra. }
    unfold Fval, Fform. rewrite C. reflexivity.
  Qed.
  (** mu_F with the limit 0 at T = 1 *)
  Definition mu_F' (T : R) : R := 5 / 4 * npow (Rmax 0 ((T - 1) / m_p)) (5 / 4) * exp (- (5 / 4) * ((T - 1) / m_p)).
  Lemma mu_F'_eq T : 1 < T -> mu_F m_p T = mu_F' T.
  Proof.
    intros H. assert (0 < (T - 1) / m_p) by (apply div_pos; lra). unfold mu_F, mu_F'. rewrite Rmax_right by lra.
    unfold npow. destruct (Req_EM_T ((T - 1) / m_p) 0); [lra|reflexivity].
  Qed.
  Lemma cont_mu_F' T : continuity_pt mu_F' T.
  Proof.
    assert (CQ : continuity_pt (fun T => (T - 1) / m_p) T).
    { apply cont_div; [|apply cont_const|lra]. apply cont_minus; [apply cont_id|apply cont_const]. }
    unfold mu_F'. apply cont_mult; [apply cont_mult; [apply cont_const|]|apply cont_exp, cont_mult; [apply cont_const|exact CQ]].
    apply cont_npow; [apply cont_Rmax0; exact CQ|apply cont_const|intros; apply Rmax_l|lra].
  Qed.
  Lemma mu_F'_nonneg T : 0 <= mu_F' T.
  Proof.
    unfold mu_F'. pose proof (exp_pos (- (5 / 4) * ((T - 1) / m_p))). pose proof (npow_nonneg (Rmax 0 ((T - 1) / m_p)) (5 / 4) (Rmax_l _ _)). nra.
  Qed.
  Lemma cont_kappa T : 0 < T -> continuity_pt (kappa m_p) T.
  Proof.
    intros H. unfold kappa. apply cont_minus; [apply cont_const|]. apply cont_div; [|apply cont_const|lra].
    apply cont_Rpower; [apply cont_div; [apply cont_id|apply cont_const|lra]|apply div_pos; lra|apply cont_const].
  Qed.

  Lemma pc_F_of a b Eg lamb alpha beta gamma : Tth <= a -> 0 < Eg -> 0 < lamb -> 0 < alpha ->
    (forall x, a <= x <= b -> 0 < beta x /\ continuity_pt beta x /\ continuity_pt gamma x) ->
    (forall x, a < x < b -> F_params m_p hi x = Some (lamb, alpha, beta x, gamma x)) ->
    pc (fun T => val (F m_p hi T Eg)) a b.
  Proof.
    intros Ha HE HL HA HC HP. exists (Fform lamb alpha beta gamma Eg). split.
    - intros x Hx. destruct (HC x Hx) as (A & B & C). apply cont_Fform; try assumption. lra.
    - intros x Hx. unfold F. rewrite HP by exact Hx. rewrite (F_func_some m_p Hmp) by lra. cbn [val]. apply Fval_form; lra.
  Qed.
  Lemma Et_ge : 50 <= Etrans hi. Proof. destruct hi; simpl; lra. Qed.
  Lemma pc_F a b Eg : Tth <= a -> 0 < Eg -> no_break a b -> pc (fun T => val (F m_p hi T Eg)) a b.
  Proof.
    intros Ha HE NB. pose proof Tth_pos. pose proof Et_ge.
    assert (B1 := NB 1 ltac:(simpl; auto)). assert (B4 := NB 4 ltac:(simpl; auto 9)).
    assert (B20 := NB 20 ltac:(simpl; auto 9)). assert (Bt := NB (Etrans hi) ltac:(simpl; auto 9)).
    destruct Bt as [Bt|Bt].
    { destruct (tab_F hi) as [[[l al] be] ga] eqn:TF.
      assert (G : 0 < l /\ 0 < al /\ 0 < be) by (destruct hi; simpl in TF; injection TF as <- <- <- <-; lra). destruct G as (G1 & G2 & G3).
      apply (pc_F_of a b Eg l al (fun _ => be) (fun _ => ga)); try assumption.
      - intros x Hx. repeat split; try assumption; apply cont_const.
      - intros x Hx. unfold F_params. destruct (Rlt_dec (Etrans hi) x); [rewrite TF; reflexivity|lra]. }
    destruct B20 as [B20|B20].
    { apply (pc_F_of a b Eg 3 (1 / 2) (fun _ => 42 / 10) (fun _ => 1)); try lra.
      - intros x Hx. repeat split; try lra; apply cont_const.
      - intros x Hx. unfold F_params. destruct (Rlt_dec (Etrans hi) x); [lra|]. destruct (Rlt_dec 20 x); [reflexivity|lra]. }
    destruct B4 as [B4|B4].
    { apply (pc_F_of a b Eg 3 1 (fun T => 3 / 2 * mu_F' T + 495 / 100) (fun T => mu_F' T + 150 / 100)); try lra.
      - intros x Hx. pose proof (mu_F'_nonneg x). repeat split; try lra.
        + apply cont_plus; [apply cont_mult; [apply cont_const|apply cont_mu_F']|apply cont_const].
        + apply cont_plus; [apply cont_mu_F'|apply cont_const].
      - intros x Hx. unfold F_params. destruct (Rlt_dec (Etrans hi) x); [lra|]. destruct (Rlt_dec 20 x); [lra|]. destruct (Rlt_dec 4 x); [|lra].
        rewrite mu_F'_eq by lra. reflexivity. }
    destruct B1 as [B1|B1].
    { apply (pc_F_of a b Eg 3 1 (fun T => mu_F' T + 245 / 100) (fun T => mu_F' T + 145 / 100)); try lra.
      - intros x Hx. pose proof (mu_F'_nonneg x). repeat split; try lra; (apply cont_plus; [apply cont_mu_F'|apply cont_const]).
      - intros x Hx. unfold F_params. destruct (Rlt_dec (Etrans hi) x); [lra|]. destruct (Rlt_dec 20 x); [lra|]. destruct (Rlt_dec 4 x); [lra|]. destruct (Rlt_dec 1 x); [|lra].
        rewrite mu_F'_eq by lra. reflexivity. }
    apply (pc_F_of a b Eg 1 1 (kappa m_p) (fun _ => 0)); try lra.
    - intros x Hx. split; [apply kappa_pos; [exact Hmp|lra]|]. split; [apply cont_kappa; lra|apply cont_const].
    - intros x Hx. unfold F_params. destruct (Rlt_dec (Etrans hi) x); [lra|]. destruct (Rlt_dec 20 x); [lra|]. destruct (Rlt_dec 4 x); [lra|]. destruct (Rlt_dec 1 x); [lra|].
      destruct (Rle_dec Tth x); [reflexivity|lra].
  Qed.

  Lemma pc_nuclear a b : Tth <= a -> no_break a b -> pc nuclear_factor a b.
  Proof.
    intros Ha NB. assert (B1 := NB 1 ltac:(simpl; auto)). unfold Tth in Ha. pose proof mbarn_pos. pose proof PI_RGT_0.
    destruct B1 as [B1|B1].
    - exists (fun x => 137 / 100 + (29 / 100 + 1 / 10) * (10 * PI * mbarn) * (1 + ln (Rmax 1 (sigma_inel x / sigma_inel 1000))) / sigma_inel x). split.
      + intros x Hx. assert (PI1 : 0 < sigma_inel x) by (apply sigma_inel_pos; unfold Tth; lra).
        assert (PI2 : 0 < sigma_inel 1000) by (apply sigma_inel_pos; unfold Tth; lra).
        assert (CI : continuity_pt sigma_inel x) by (apply cont_inel; lra).
        apply cont_plus; [apply cont_const|]. apply cont_div; [|exact CI|lra]. apply cont_mult; [apply cont_const|].
        apply cont_plus; [apply cont_const|]. apply cont_ln; [|apply Rlt_le_trans with 1; [lra|apply Rmax_l]].
        apply cont_Rmax1. apply cont_div; [exact CI|apply cont_const|lra].
      + intros x Hx. unfold nuclear_factor. destruct (Rlt_dec Tth x) as [_|N]; [|unfold Tth in N; lra]. destruct (Rlt_dec x 1); [lra|]. cbv zeta.
        assert (M : (if Rlt_dec 1 (sigma_inel x / sigma_inel 1000) then sigma_inel x / sigma_inel 1000 else 1) = Rmax 1 (sigma_inel x / sigma_inel 1000)).
        { unfold Rmax. destruct (Rlt_dec 1 _), (Rle_dec 1 _); lra. }
        rewrite M. reflexivity.
    - exists (fun _ => 19141 / 10000). split; [intros x Hx; apply cont_const|].
      intros x Hx. unfold nuclear_factor. destruct (Rlt_dec Tth x) as [_|N]; [|unfold Tth in N; lra]. destruct (Rlt_dec x 1); [reflexivity|lra].
  Qed.

  Lemma pc_diffsigma nuclear a b Eg : Tth <= a -> 0 < Eg -> no_break a b ->
    pc (fun T => val (diffsigma m_p hi nuclear (T + m_p) Eg)) a b.
  Proof.
    intros Ha HE NB. pose proof (pc_Amax a b Ha NB) as PA. pose proof (pc_F a b Eg Ha HE NB) as PF. pose proof (pc_nuclear a b Ha NB) as PN.
    assert (E : forall T, a < T < b -> nmul (Amax m_p hi T) (F m_p hi T Eg) = Some (val (Amax m_p hi T) * val (F m_p hi T Eg))).
    { intros T HT. destruct (Amax_pos m_p Hmp hi T ltac:(lra)) as (v & -> & _). destruct (F_params_good m_p Hmp hi T ltac:(lra)) as (p & EP & _).
      unfold F. rewrite EP. rewrite (F_func_some m_p Hmp) by lra. reflexivity. }
    destruct nuclear.
    - apply pc_ext with (fun T => val (Amax m_p hi T) * val (F m_p hi T Eg) * nuclear_factor T); [|apply pc_mult; [apply pc_mult|]; assumption].
      intros T HT. unfold diffsigma. replace (T + m_p - m_p) with T by ring. cbv zeta. rewrite E by exact HT. reflexivity.
    - apply pc_ext with (fun T => val (Amax m_p hi T) * val (F m_p hi T Eg)); [|apply pc_mult; assumption].
      intros T HT. unfold diffsigma. replace (T + m_p - m_p) with T by ring. cbv zeta. rewrite E by exact HT. reflexivity.
  Qed.

  Lemma diffsigma_integrable nuclear Eg (j : R -> R) lo hi' : m_p + Tth <= lo -> lo <= hi' -> 0 < Eg -> cont_on j lo hi' ->
    ex_RInt (fun E => val (diffsigma m_p hi nuclear E Eg) * j E) lo hi'.
  Proof.
    intros Hlo Hhi HE HJ. apply (glue _ (map (fun c => c + m_p) breaks)); [exact Hhi|]. intros a b A1 A2 A3 NB.
    apply pc_integrable; [lra|]. apply pc_mult; [|apply pc_cont; intros x Hx; apply HJ; lra].
    destruct (pc_diffsigma nuclear (a - m_p) (b - m_p) Eg ltac:(lra) HE) as (g & Cg & Hg).
    { intros c Hc. assert (Q := NB (c + m_p) (in_map (fun c => c + m_p) _ c Hc)). lra. }
    exists (fun E => g (E - m_p)). split.
    - intros x Hx. apply (continuity_pt_comp (fun E => E - m_p) g); [apply cont_minus; [apply cont_id|apply cont_const]|apply Cg; lra].
    - intros x Hx. rewrite <- Hg by lra. replace (x - m_p + m_p) with x by ring. reflexivity.
  Qed.
End P.
