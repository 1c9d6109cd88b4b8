(** Lemmas for C172: integrals over photon energies of the inverse Compton kernel on black-body
    photons, enclosed by interval arithmetic. *)
From Coq Require Import Reals ZArith List Lra Lia Bool.
From Coquelicot Require Import Coquelicot.
From Verif Require Import TrapzProofs ElectronModel ElectronProofs ConvProofs ErrProofs PubProps3 FloatTrapzProofs IntervalProofs.
Local Open Scope R_scope.

(** the function of radiative.py 564-570 that survives in the Thomson limit *)
Definition G4 (x : R) : R := G34 x (461 / 1000) (726 / 1000) (1457 / 1000) (382 / 1000) (662 / 100).
Definition wpi : R := 6 / PI ^ 2.
Lemma wpi_bounds : 6079270 / 10 ^ 7 < wpi < 6079272 / 10 ^ 7.
Proof.
  pose proof PI_bounds as P. unfold wpi. assert (Q: (31415926 / 10 ^ 7) ^ 2 < PI ^ 2 < (31415927 / 10 ^ 7) ^ 2) by (split; nra).
  split.
  - apply Rmult_lt_reg_r with (PI ^ 2); [lra|]. unfold Rdiv at 2. rewrite Rmult_assoc, Rinv_l by lra. lra.
  - apply Rmult_lt_reg_r with (PI ^ 2); [lra|]. unfold Rdiv at 1. rewrite Rmult_assoc, Rinv_l by lra. lra.
Qed.
Lemma G34_form x al a be b c : 0 < x -> 0 < a -> 0 < b -> 0 < c ->
  G34 x al a be b c = (1 + (1 - wpi) / (wpi + c * x)) * exp (- x) / (1 + a * Rpower x al / (1 + b * Rpower x be)).
Proof.
  intros Hx Ha Hb Hc. pose proof wpi_bounds as W. pose proof PI_RGT_0 as PP. unfold G34. cbv zeta. replace (PI ^ 2 / 6) with (/ wpi) by (unfold wpi; field; apply Rgt_not_eq; lra).
  assert (P1: 0 < Rpower x al) by apply exp_pos. assert (P2: 0 < Rpower x be) by apply exp_pos. set (u := Rpower x al) in *. set (v := Rpower x be) in *. set (E := exp (- x)).
  assert (0 < b * v) by (apply Rmult_lt_0_compat; assumption). assert (0 < a * u) by (apply Rmult_lt_0_compat; assumption). assert (0 < c * x) by (apply Rmult_lt_0_compat; assumption).
  field. repeat split; lra.
Qed.
Lemma G4_form x : 0 < x -> G4 x = (1 + (1 - wpi) / (wpi + 662 / 100 * x)) * exp (- x) / (1 + 726 / 1000 * Rpower x (461 / 1000) / (1 + 382 / 1000 * Rpower x (1457 / 1000))).
Proof. intros Hx. apply G34_form; lra. Qed.
Lemma G34_cont x al a be b c : 0 < x -> 0 < a -> 0 < b -> 0 < c -> continuity_pt (fun x => G34 x al a be b c) x.
Proof.
  intros Hx Ha Hb Hc. apply continuity_pt_filterlim. apply (@ex_derive_continuous R_AbsRing R_NormedModule (fun x => G34 x al a be b c) x).
  unfold G34, Rpower. pose proof PI_RGT_0. assert (0 < PI ^ 2) by (apply pow_lt; assumption).
  assert (0 < PI ^ 2 / 6 * c * x). { apply Rmult_lt_0_compat; [|assumption]. apply Rmult_lt_0_compat; lra. }
  assert (0 < b * exp (be * ln x)) by (apply Rmult_lt_0_compat; [assumption|apply exp_pos]). assert (0 < a * exp (al * ln x)) by (apply Rmult_lt_0_compat; [assumption|apply exp_pos]).
  assert (0 < a * exp (al * ln x) * / (1 + b * exp (be * ln x))) by (apply Rmult_lt_0_compat; [assumption|apply Rinv_0_lt_compat; lra]).
  auto_derive. cbn [pow] in *. repeat split; lra.
Qed.

(** ** The grid: powers of (1 + 5 10^-6)^1000 *)
Definition q1 : R := 200001 / 200000.
Definition rho : R := q1 ^ 1000.
Definition mm : nat := 782.
Definition xn (k : nat) : R := / rho ^ mm * rho ^ k.
Lemma q1_pow_pos k : 0 < q1 ^ k. Proof. apply pow_lt. unfold q1. lra. Qed.
Lemma rho_gt1 : 1 < rho.
Proof. unfold rho. apply Rlt_pow_R1; [unfold q1; lra|]. apply Nat.lt_0_succ. Qed.
Lemma xn_pos k : 0 < xn k.
Proof. unfold xn. pose proof rho_gt1. apply Rmult_lt_0_compat; [apply Rinv_0_lt_compat|]; apply pow_lt; lra. Qed.
Lemma xn_S k : xn (S k) = xn k * rho. Proof. unfold xn. cbn [pow]. ring. Qed.
Lemma xn_lt k : xn k < xn (S k). Proof. rewrite xn_S. pose proof (xn_pos k). pose proof rho_gt1. nra. Qed.
Lemma Rpower_rho (a : R) (p : nat) : a = INR p / 1000 -> Rpower rho a = q1 ^ p.
Proof.
  intros ->. unfold rho. rewrite <- !Rpower_pow by (unfold q1; lra). rewrite Rpower_mult. f_equal. assert (T: INR 1000 = 1000) by (rewrite INR_IZR_INZ; reflexivity). rewrite T. field.
Qed.
Lemma Rpower_prod_pow a x n : 0 < x -> Rpower (x ^ n) a = (Rpower x a) ^ n.
Proof. intros Hx. rewrite <- !Rpower_pow; [|apply exp_pos|assumption]. rewrite !Rpower_mult. f_equal. ring. Qed.
Lemma Rpower_inv_l x a : 0 < x -> Rpower (/ x) a = / Rpower x a.
Proof. intros Hx. unfold Rpower. rewrite ln_Rinv by assumption. rewrite <- exp_Ropp. f_equal. ring. Qed.

(** ** Intervals *)
Definition qI : itv := icst 200001 200000.
Definition rI : itv := ipow qI 1000.
Definition raI : itv := ipow qI 461.
Definition rbI : itv := ipow qI 1457.
Definition one : itv := (SC, SC).
Definition wI : itv := (fst (icst 6079270 (10 ^ 7)), snd (icst 6079272 (10 ^ 7))).
Definition w1I : itv := (SC - snd wI, SC - fst wI)%Z.
Definition minus1 (r : itv) : itv := (fst r - SC, snd r - SC)%Z.
Definition half2 (r : itv) : itv := imul (minus1 r) (idiv (iadd r one) (icst 2 1)).
Definition cI : itv := icst 662 100.
Definition aI : itv := icst 726 1000.
Definition bI : itv := icst 382 1000.

Record state := mkst { sX : itv; sA : itv; sB : itv; sE : itv; s1 : itv }.
Definition cellI (Xc Ac Bc Ec : itv) : itv :=
  idiv (imul (iadd one (idiv w1I (iadd wI (imul cI Xc)))) Ec) (iadd one (idiv (imul aI Ac) (iadd one (imul bI Bc)))).
Definition step (r ra rb rm1 k2 : itv) (s : state) : state :=
  let X' := imul (sX s) r in let A' := imul (sA s) ra in let B' := imul (sB s) rb in
  let E' := imul (sE s) (iexpm (imul (sX s) rm1)) in
  let V := cellI (ihull (sX s) X') (ihull (sA s) A') (ihull (sB s) B') (ihull E' (sE s)) in
  mkst X' A' B' E' (iadd (s1 s) (imul V (imul (imul (sX s) (sX s)) k2))).
Definition okstep (rm1 : itv) (s : state) : bool := let D := imul (sX s) rm1 in (Z.leb (snd D) SC && Z.leb 0 (fst (iexpm D)))%bool.
Fixpoint loop (r ra rb rm1 k2 : itv) (n : nat) (s : state) : bool * state :=
  match n with
  | O => (true, s)
  | S n => let '(b, t) := loop r ra rb rm1 k2 n s in ((b && okstep rm1 t)%bool, step r ra rb rm1 k2 t)
  end.
Definition start (r ra rb : itv) : bool * state :=
  let R := ipow r mm in let A := ipow ra mm in let B := ipow rb mm in let X := idiv one R in let E := iexpm X in
  ((Z.ltb 0 (fst R) && Z.ltb 0 (fst A) && Z.ltb 0 (fst B) && Z.leb (snd X) SC && Z.leb 0 (fst E) && Z.leb SC (fst r))%bool,
   mkst X (idiv one A) (idiv one B) E (0, 0)%Z).
Definition steps : nat := 1338.

Definition check (st : bool * state) (lp : state -> bool * state) : bool :=
  let '(b0, s0) := st in let '(b, t) := lp s0 in
  (b0 && b && Z.leb 49270000000 (fst (s1 t)) && Z.leb (snd (s1 t)) 49890000000 && Z.leb (16 * SC) (fst (sX t)) && Z.leb (snd (sX t)) (17 * SC)
   && Z.leb (SC / 50) (fst (sX s0)) && Z.leb (snd (sX s0)) (201 * SC / 10000))%bool.
Definition verdict (r ra rb : itv) : bool := check (start r ra rb) (loop r ra rb (minus1 r) (half2 r) steps).
Lemma verdict_ok : verdict rI raI rbI = true.
Proof. vm_compute. reflexivity. Qed.

(** ** What the computation means *)
Definition holds (k : nat) (s : state) : Prop :=
  has (sX s) (xn k) /\ has (sA s) (Rpower (xn k) (461 / 1000)) /\ has (sB s) (Rpower (xn k) (1457 / 1000)) /\ has (sE s) (exp (- xn k)) /\
  has (s1 s) (RInt (fun x => G4 x * x) (xn 0) (xn k)).
Lemma q1_has : has qI q1. Proof. exact (has_cst 200001 200000 ltac:(discriminate) eq_refl). Qed.
Lemma r_has : has rI rho. Proof. apply has_pow. exact q1_has. Qed.
Lemma ra_has : has raI (Rpower rho (461 / 1000)).
Proof. rewrite (Rpower_rho (461 / 1000) 461). - apply has_pow. exact q1_has. - f_equal. rewrite INR_IZR_INZ. reflexivity. Qed.
Lemma rb_has : has rbI (Rpower rho (1457 / 1000)).
Proof. rewrite (Rpower_rho (1457 / 1000) 1457). - apply has_pow. exact q1_has. - f_equal. rewrite INR_IZR_INZ. reflexivity. Qed.
Lemma one_has : has one 1. Proof. exact has_one. Qed.
Lemma w_has : has wI wpi.
Proof.
  pose proof wpi_bounds as W. destruct (has_cst 6079270 (10 ^ 7) ltac:(discriminate) eq_refl) as (A & B & _). destruct (has_cst 6079272 (10 ^ 7) ltac:(discriminate) eq_refl) as (_ & _ & C).
  pose proof SC_pos as S. change (IZR (10 ^ 7)) with 10000000 in *. split; [exact A|]. split.
  - eapply Rle_trans; [exact B|]. apply Rmult_le_compat_r; lra.
  - eapply Rle_trans; [|exact C]. apply Rmult_le_compat_r; lra.
Qed.
Lemma w1_has : has w1I (1 - wpi).
Proof.
  destruct w_has as (A & B & C). unfold has, w1I; cbn [fst snd]. rewrite !minus_IZR. split; [vm_compute; discriminate|]. split; lra.
Qed.
Lemma c_has : has cI (662 / 100). Proof. exact (has_cst 662 100 ltac:(discriminate) eq_refl). Qed.
Lemma a_has : has aI (726 / 1000). Proof. exact (has_cst 726 1000 ltac:(discriminate) eq_refl). Qed.
Lemma b_has : has bI (382 / 1000). Proof. exact (has_cst 382 1000 ltac:(discriminate) eq_refl). Qed.
Lemma one_plus_pos i v : has i v -> (0 < fst (iadd one i))%Z.
Proof. intros (H & _). unfold iadd, one. cbn [fst]. assert (0 < SC)%Z by reflexivity. lia. Qed.
Lemma cell_has Xc Ac Bc Ec x : 0 < x -> has Xc x -> has Ac (Rpower x (461 / 1000)) -> has Bc (Rpower x (1457 / 1000)) -> has Ec (exp (- x)) -> has (cellI Xc Ac Bc Ec) (G4 x).
Proof.
  intros Hx HX HA HB HE. rewrite G4_form by exact Hx. unfold cellI.
  pose proof (has_mul _ _ _ _ c_has HX) as CX. pose proof (has_mul _ _ _ _ a_has HA) as AX. pose proof (has_mul _ _ _ _ b_has HB) as BX.
  apply has_div.
  - apply has_mul; [|exact HE]. apply has_add; [exact one_has|]. apply has_div; [exact w1_has|apply has_add; [exact w_has|exact CX]|].
    destruct CX as (C0 & _). unfold iadd; cbn [fst]. assert (0 < fst wI)%Z by reflexivity. unfold imul in *; cbn [fst] in *. lia.
  - apply has_add; [exact one_has|]. apply has_div; [exact AX|apply has_add; [exact one_has|exact BX]|apply (one_plus_pos _ _ BX)].
  - eapply one_plus_pos. apply has_div; [exact AX|apply has_add; [exact one_has|exact BX]|apply (one_plus_pos _ _ BX)].
Qed.
Lemma m1_has r v : has r v -> (SC <= fst r)%Z -> has (minus1 r) (v - 1).
Proof. intros (A & B & C) D. unfold has, minus1; cbn [fst snd]. rewrite !minus_IZR. split; [lia|]. split; lra. Qed.
Lemma h2_has r v : has r v -> (SC <= fst r)%Z -> has (half2 r) ((v - 1) * ((v + 1) / (2 / 1))).
Proof.
  intros H D. unfold half2. apply has_mul; [apply m1_has; assumption|]. apply has_div; [apply has_add; [exact H|exact one_has]|exact (has_cst 2 1 ltac:(discriminate) eq_refl)|reflexivity].
Qed.
Lemma G4x_cont x : 0 < x -> continuity_pt (fun x => G4 x * x) x.
Proof. intros Hx. apply (continuity_pt_mult G4 (fun x => x)); [apply G34_cont; lra|]. apply derivable_continuous_pt, derivable_pt_id. Qed.
Lemma Rpower_mono x y a : 0 < x -> x <= y -> 0 <= a -> Rpower x a <= Rpower y a.
Proof. intros Hx Hy Ha. apply Rle_Rpower_l; [exact Ha|]. split; assumption. Qed.
Lemma wfield x r : minus ((x * r) ^ 2 / 2) (x ^ 2 / 2) = x * x * ((r - 1) * ((r + 1) / (2 / 1))).
Proof. unfold minus, plus, opp; cbn. field. Qed.
Lemma step_holds k s r ra rb : has r rho -> (SC <= fst r)%Z -> has ra (Rpower rho (461 / 1000)) -> has rb (Rpower rho (1457 / 1000)) ->
  holds k s -> okstep (minus1 r) s = true -> holds (S k) (step r ra rb (minus1 r) (half2 r) s).
Proof.
  intros HR HR1 HRA HRB (HX & HA & HB & HE & HI) OK. apply andb_true_iff in OK. destruct OK as (O1 & O2). apply Z.leb_le in O1, O2.
  pose proof (xn_pos k) as XP. pose proof (xn_lt k) as XL. pose proof rho_gt1 as RG. assert (RP: 0 < rho) by lra.
  pose proof (m1_has r rho HR HR1) as HM. pose proof (h2_has r rho HR HR1) as HH. pose proof (has_mul _ _ _ _ HX HM) as HD.
  assert (X': has (imul (sX s) r) (xn (S k))) by (rewrite xn_S; apply has_mul; assumption).
  assert (A': has (imul (sA s) ra) (Rpower (xn (S k)) (461 / 1000))). { rewrite xn_S, <- Rpower_mult_distr by assumption. apply has_mul; assumption. }
  assert (B': has (imul (sB s) rb) (Rpower (xn (S k)) (1457 / 1000))). { rewrite xn_S, <- Rpower_mult_distr by assumption. apply has_mul; assumption. }
  assert (E': has (imul (sE s) (iexpm (imul (sX s) (minus1 r)))) (exp (- xn (S k)))).
  { replace (- xn (S k)) with (- xn k + - (xn k * (rho - 1))) by (rewrite xn_S; ring). rewrite exp_plus. apply has_mul; [exact HE|]. apply has_expm; assumption. }
  unfold holds, step. cbn [sX sA sB sE s1]. split; [exact X'|]. split; [exact A'|]. split; [exact B'|]. split; [exact E'|].
  rewrite <- (RInt_Chasles (fun x => G4 x * x) (xn 0) (xn k) (xn (S k))).
  2:{ assert (XM: xn 0 <= xn k). { clear - k. induction k as [|k IH]; [lra|]. pose proof (xn_lt k). lra. } apply ex_RInt_cont; [exact XM|]. intros x Hx. apply G4x_cont. pose proof (xn_pos 0). lra. }
  2:{ apply ex_RInt_cont; [lra|]. intros x Hx. apply G4x_cont. lra. }
  match goal with |- context [plus ?u ?v] => change (plus u v) with (u + v) end. apply has_add; [exact HI|].
  set (V := cellI _ _ _ _).
  set (W := xn k * xn k * ((rho - 1) * ((rho + 1) / (2 / 1)))).
  assert (IW: is_RInt (fun x => x) (xn k) (xn (S k)) W).
  { replace W with (minus ((fun x => x ^ 2 / 2) (xn (S k))) ((fun x => x ^ 2 / 2) (xn k))) by (rewrite xn_S; unfold W; exact (wfield (xn k) rho)).
    apply (is_RInt_derive (fun x => x ^ 2 / 2)).
    - intros x _. auto_derive; [exact Logic.I|field].
    - intros x _. apply (@ex_derive_continuous R_AbsRing R_NormedModule (fun x => x) x). auto_derive. exact Logic.I. }
  assert (WP: 0 < W). { unfold W. apply Rmult_lt_0_compat; [apply Rmult_lt_0_compat; assumption|]. apply Rmult_lt_0_compat; lra. }
  destruct (mean G4 (fun x => x) (xn k) (xn (S k)) W V XL WP IW) as (m & Hm & EQ).
  - intros; lra.
  - intros x Hx. assert (x0: 0 < x) by lra. apply cell_has; [exact x0|apply (has_hull _ _ _ _ _ HX X'); exact Hx| | |].
    + apply (has_hull _ _ _ _ _ HA A'). split; apply Rpower_mono; lra.
    + apply (has_hull _ _ _ _ _ HB B'). split; apply Rpower_mono; lra.
    + apply (has_hull _ _ _ _ _ E' HE). split; apply exp_le; lra.
  - apply ex_RInt_cont; [lra|]. intros x Hx. apply G4x_cont. lra.
  - rewrite EQ. apply has_mul; [exact Hm|]. unfold W. apply has_mul; [apply has_mul; exact HX|exact HH].
Qed.
Lemma loop_holds r ra rb s : has r rho -> (SC <= fst r)%Z -> has ra (Rpower rho (461 / 1000)) -> has rb (Rpower rho (1457 / 1000)) ->
  holds 0 s -> forall n, fst (loop r ra rb (minus1 r) (half2 r) n s) = true -> holds n (snd (loop r ra rb (minus1 r) (half2 r) n s)).
Proof.
  intros HR HR1 HRA HRB H0. induction n as [|n IH]; cbn [loop]; [intros _; exact H0|].
  destruct (loop r ra rb (minus1 r) (half2 r) n s) as (b & t). cbn [fst snd] in *. intros OK. apply andb_true_iff in OK. destruct OK as (O1 & O2).
  apply step_holds; auto.
Qed.
Lemma xn_0 : xn 0 = / rho ^ mm. Proof. unfold xn. cbn [pow]. ring. Qed.
Lemma div_inv i v : has (idiv one i) (1 / v) -> has (idiv one i) (/ v).
Proof. unfold Rdiv. rewrite Rmult_1_l. auto. Qed.
Lemma start_holds r ra rb : has r rho -> has ra (Rpower rho (461 / 1000)) -> has rb (Rpower rho (1457 / 1000)) ->
  fst (start r ra rb) = true -> (SC <= fst r)%Z /\ holds 0 (snd (start r ra rb)).
Proof.
  intros HR HRA HRB OK. unfold start in *. cbn [fst snd] in *. rewrite !andb_true_iff in OK. destruct OK as (((((O1 & O2) & O3) & O4) & O5) & O6).
  apply Z.ltb_lt in O1, O2, O3. apply Z.leb_le in O4, O5, O6. split; [exact O6|]. pose proof rho_gt1 as RG. assert (RP: 0 < rho) by lra.
  assert (RM: 0 < rho ^ mm) by (apply pow_lt; exact RP).
  pose proof (div_inv _ _ (has_div _ _ _ _ one_has (has_pow r rho mm HR) O1)) as X.
  pose proof (div_inv _ _ (has_div _ _ _ _ one_has (has_pow ra _ mm HRA) O2)) as A.
  pose proof (div_inv _ _ (has_div _ _ _ _ one_has (has_pow rb _ mm HRB) O3)) as B.
  unfold holds. cbn [sX sA sB sE s1]. rewrite xn_0. rewrite !Rpower_inv_l, !Rpower_prod_pow by assumption.
  split; [exact X|]. split; [exact A|]. split; [exact B|]. split; [apply has_expm; assumption|].
  rewrite RInt_point. unfold zero; cbn. split; [discriminate|]. cbn [fst snd]. lra.
Qed.
Lemma planck_gen r ra rb : has r rho -> has ra (Rpower rho (461 / 1000)) -> has rb (Rpower rho (1457 / 1000)) -> verdict r ra rb = true ->
  exists l h, 199 / 10000 <= l <= 201 / 10000 /\ 16 <= h <= 17 /\ 7169 / 10000 <= RInt (fun x => G4 x * x) l h <= 7260 / 10000.
Proof.
  intros HR HRA HRB V. unfold verdict in V.
  pose proof (start_holds r ra rb HR HRA HRB) as ST. pose proof (fun s P => loop_holds r ra rb s HR P HRA HRB) as LP.
  revert V ST LP. generalize (start r ra rb) as st. generalize (loop r ra rb (minus1 r) (half2 r)) as lp. intros lp (b0, s0) V ST LP. cbn [fst snd] in ST. unfold check in V.
  specialize (fun P Q => LP s0 P Q steps). revert V LP. generalize steps. intros n V LP. destruct (lp n s0) as (b & t). cbn [fst snd] in LP.
  rewrite !andb_true_iff in V. destruct V as (((((((V0 & V1) & V2) & V3) & V4) & V5) & V6) & V7). destruct (ST V0) as (R1 & H0). specialize (LP R1 H0 V1).
  apply Z.leb_le in V2, V3, V4, V5, V6, V7. apply IZR_le in V2, V3, V4, V5, V6, V7.
  exists (xn 0), (xn n). destruct H0 as ((_ & A1 & A2) & _). destruct LP as ((_ & B1 & B2) & _ & _ & _ & (_ & C1 & C2)).
  change (IZR (SC / 50)) with 1374389534 in V6. change (IZR (201 * SC / 10000)) with 1381261482 in V7. change (IZR (16 * SC)) with 1099511627776 in V4. change (IZR (17 * SC)) with 1168231104512 in V5.
  change (IZR SC) with 68719476736 in *. set (v := RInt (fun x => G4 x * x) (xn 0) (xn n)) in *. clearbody v. set (p := xn 0) in *. set (q := xn n) in *. clearbody p q. repeat split; lra.
Qed.
Lemma planck_integral : exists l h, 199 / 10000 <= l <= 201 / 10000 /\ 16 <= h <= 17 /\ 7169 / 10000 <= RInt (fun x => G4 x * x) l h <= 7260 / 10000.
Proof. exact (planck_gen rI raI rbI r_has ra_has rb_has verdict_ok). Qed.
