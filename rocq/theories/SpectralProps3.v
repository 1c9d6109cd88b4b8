(** C164: the amplitude of the broken power laws. *)
From Coq Require Import Reals List Bool String Lra.
From Verif Require Import Outcome SpectralModel.
Local Open Scope R_scope.

(** an energy of [x] eV *)
Definition eV (x : R) : quantity := mkQ x (Some 1).
Lemma eV_to x : to_eV (eV x) = Ok x. Proof. unfold to_eV, eV. cbn. f_equal. ring. Qed.

Lemma bpl_at_break A e0 eb a1 a2 : 0 < e0 -> 0 < eb -> broken_power_law eb A e0 eb a1 a2 = A * Rpower (eb / e0) (- a1).
Proof.
  intros H0 H1. unfold broken_power_law. destruct (Rlt_dec eb eb) as [H|_]; [lra|].
  rewrite Rmult_assoc. rewrite <- Rpower_plus. do 2 f_equal. lra.
Qed.
Lemma rpower_one x y : 0 < x -> (Rpower x (- y) = 1 <-> x = 1 \/ y = 0).
Proof.
  intros H. split.
  - intros E. unfold Rpower in E. rewrite <- exp_0 in E. apply exp_inv in E.
    apply Rmult_integral in E. destruct E as [E|E]; [right; lra|left].
    rewrite <- (exp_ln x) by exact H. rewrite E. apply exp_0.
  - intros [-> | ->]; [unfold Rpower; rewrite ln_1, Rmult_0_r; apply exp_0|rewrite Ropp_0; apply Rpower_O; exact H].
Qed.

(** The documentation calls the amplitude that at the break. At the break the model is the
    amplitude exactly if the break is the reference energy or the first index is zero. *)
Theorem C164_amplitude_at_break_refuted : forall A e0 eb a1 a2, 0 < A -> 0 < e0 -> 0 < eb ->
  call (BrokenPowerLaw A (eV e0) (eV eb) a1 a2) (eV eb) = Ok (A * Rpower (eb / e0) (- a1)) /\
  (call (BrokenPowerLaw A (eV e0) (eV eb) a1 a2) (eV eb) = Ok A <-> eb = e0 \/ a1 = 0).
Proof.
  intros A e0 eb a1 a2 HA H0 H1.
  assert (C : call (BrokenPowerLaw A (eV e0) (eV eb) a1 a2) (eV eb) = Ok (A * Rpower (eb / e0) (- a1))).
  { unfold call. cbn [validate_ene eV q_unit obind]. fold (eV eb). fold (eV e0). rewrite !eV_to. cbn [obind omap]. f_equal. apply bpl_at_break; assumption. }
  split; [exact C|]. rewrite C.
  assert (D : 0 < eb / e0) by (apply Rdiv_lt_0_compat; assumption).
  split.
  - intros E. injection E as E.
    assert (E1 : Rpower (eb / e0) (- a1) = 1) by (apply (Rmult_eq_reg_l A); lra).
    apply rpower_one in E1; [|exact D]. destruct E1 as [E1|E1]; [left|right; exact E1].
    apply (Rmult_eq_reg_r (/ e0)); [|apply Rinv_neq_0_compat; lra]. unfold Rdiv in E1. rewrite E1. symmetry. apply Rinv_r. lra.
  - intros H. f_equal. replace (Rpower (eb / e0) (- a1)) with 1; [ring|]. symmetry. apply rpower_one; [exact D|].
    destruct H as [-> | ->]; [left; apply Rinv_r; lra|right; reflexivity].
Qed.
(** the same with a cutoff: the value at the break, never the amplitude when the break is
    the reference energy *)
Theorem C164_cutoff_refuted : forall A e0 eb a1 a2 ec b, 0 < A -> 0 < e0 -> 0 < eb -> 0 < ec ->
  exists y, call (ExponentialCutoffBrokenPowerLaw A (eV e0) (eV eb) a1 a2 (eV ec) b) (eV eb) = Ok y /\
    y = A * Rpower (eb / e0) (- a1) * exp (- Rpower (eb / ec) b) /\ (eb = e0 \/ a1 = 0 -> y < A).
Proof.
  intros A e0 eb a1 a2 ec b HA H0 H1 H2. eexists. split.
  { unfold call. cbn [validate_ene eV q_unit obind]. fold (eV eb). fold (eV e0). fold (eV ec). rewrite !eV_to. cbn [obind omap]. reflexivity. }
  assert (E : cutoff_broken_power_law eb A e0 eb a1 a2 ec b = A * Rpower (eb / e0) (- a1) * exp (- Rpower (eb / ec) b)).
  { rewrite <- (bpl_at_break A e0 eb a1 a2) by assumption. reflexivity. }
  split; [exact E|]. rewrite E. intros H.
  assert (D : 0 < eb / e0) by (apply Rdiv_lt_0_compat; assumption).
  replace (Rpower (eb / e0) (- a1)) with 1.
  - rewrite Rmult_1_r. assert (X : exp (- Rpower (eb / ec) b) < 1). { rewrite <- exp_0. apply exp_increasing. assert (0 < Rpower (eb / ec) b) by (unfold Rpower; apply exp_pos). lra. } 
    rewrite <- (Rmult_1_r A) at 2. apply Rmult_lt_compat_l; assumption.
  - symmetry. apply rpower_one; [exact D|]. destruct H as [-> | ->]; [left; apply Rinv_r; lra|right; reflexivity].
Qed.
(** what does hold: it is the value at the reference energy, below the break *)
Theorem C164_amplitude_at_reference_partial : forall A e0 eb a1 a2, 0 < e0 < eb ->
  call (BrokenPowerLaw A (eV e0) (eV eb) a1 a2) (eV e0) = Ok A.
Proof.
  intros A e0 eb a1 a2 H. unfold call. cbn [validate_ene eV q_unit obind]. fold (eV eb). fold (eV e0). rewrite !eV_to. cbn [obind omap]. f_equal.
  unfold broken_power_law. destruct (Rlt_dec e0 eb); [|lra]. unfold Rdiv. rewrite Rinv_r by lra. unfold Rpower. rewrite ln_1, Rmult_0_r, exp_0. ring.
Qed.
Example C164_case : call (BrokenPowerLaw 1 (eV 1) (eV 2) 1 3) (eV 2) = Ok (1 * Rpower (2 / 1) (- 1)) /\ call (BrokenPowerLaw 1 (eV 1) (eV 2) 1 3) (eV 2) <> Ok 1.
Proof.
  destruct (C164_amplitude_at_break_refuted 1 1 2 1 3) as (C & D); try lra. split; [exact C|]. intros H. apply D in H. lra.
Qed.
