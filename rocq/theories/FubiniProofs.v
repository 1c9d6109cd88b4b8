(** Exchange of the order of integration for continuous functions of two variables. *)
From Coq Require Import Reals Lra.
From Coquelicot Require Import Coquelicot.
From Verif Require Import ConvProofs.
Local Open Scope R_scope.

Section Fubini.
  Context (f : R -> R -> R) (C : forall u v, continuity_2d_pt f u v).
  Lemma slice_u v u : continuity_pt (fun u => f u v) u.
  Proof.
    intros eps He. destruct (C u v (mkposreal eps He)) as (d & D). exists d. split; [apply cond_pos|].
    intros y ((_ & _) & Hy). cbn in *. unfold R_dist in *. apply D; [exact Hy|]. rewrite Rminus_eq_0, Rabs_R0. apply cond_pos.
  Qed.
  Lemma slice_v u v : continuity_pt (f u) v.
  Proof.
    intros eps He. destruct (C u v (mkposreal eps He)) as (d & D). exists d. split; [apply cond_pos|].
    intros y ((_ & _) & Hy). cbn in *. unfold R_dist in *. apply D; [|exact Hy]. rewrite Rminus_eq_0, Rabs_R0. apply cond_pos.
  Qed.
  Lemma ex_slice_u v a b : ex_RInt (fun u => f u v) a b.
  Proof. apply (@ex_RInt_continuous R_CompleteNormedModule). intros u _. apply continuity_pt_filterlim, slice_u. Qed.
  Lemma ex_slice_v u a b : ex_RInt (f u) a b.
  Proof. apply (@ex_RInt_continuous R_CompleteNormedModule). intros v _. apply continuity_pt_filterlim, slice_v. Qed.
  (** the inner integral is continuous in the parameter *)
  Lemma param_cont_aux a b v : a <= b -> continuity_pt (fun v => RInt (fun u => f u v) a b) v.
  Proof.
    intros AB eps He. set (e := eps / (b - a + 1)). assert (E0: 0 < e) by (apply Rmult_lt_0_compat; [lra|apply Rinv_0_lt_compat; lra]).
    destruct (uniform_continuity_2d_1d f a b v (fun x _ => C x v) (mkposreal e E0)) as (d & D). exists d. split; [apply cond_pos|].
    intros w ((_ & _) & Hw). cbn in *. unfold R_dist in *. pose proof (cond_pos d) as DP. apply Rabs_def2 in Hw.
    assert (M: RInt (fun u => f u w) a b - RInt (fun u => f u v) a b = RInt (fun u => f u w - f u v) a b).
    { symmetry. exact (RInt_minus (fun u => f u w) (fun u => f u v) a b (ex_slice_u w a b) (ex_slice_u v a b)). }
    change (Rabs (RInt (fun u => f u w) a b - RInt (fun u => f u v) a b) < eps). rewrite M. assert (EX: ex_RInt (fun u => f u w - f u v) a b) by exact (ex_RInt_minus _ _ _ _ (ex_slice_u w a b) (ex_slice_u v a b)).
    apply Rle_lt_trans with ((b - a) * e).
    - apply Rle_trans with (RInt (fun u => Rabs (f u w - f u v)) a b); [apply abs_RInt_le; assumption|].
      assert (EA: ex_RInt (fun u => Rabs (f u w - f u v)) a b).
      { apply (@ex_RInt_continuous R_CompleteNormedModule). intros u _. apply continuity_pt_filterlim. apply (continuity_pt_comp (fun u => f u w - f u v) Rabs); [|apply Rcontinuity_abs]. apply continuity_pt_minus; apply slice_u. }
      replace ((b - a) * e) with (RInt (fun _ => e) a b) by (rewrite RInt_const; reflexivity).
      apply RInt_le; [exact AB|exact EA|apply ex_RInt_const|]. intros u Hu. left. apply D; try lra. rewrite Rminus_eq_0, Rabs_R0. exact DP.
    - replace eps with ((b - a + 1) * e) by (unfold e; field; lra). apply Rmult_lt_compat_r; lra.
  Qed.
  Lemma param_cont a b v : continuity_pt (fun v => RInt (fun u => f u v) a b) v.
  Proof.
    destruct (Rle_lt_dec a b) as [AB|AB]; [apply param_cont_aux; exact AB|].
    apply (continuity_pt_ext (fun v => - RInt (fun u => f u v) b a)).
    - intros w. exact (opp_RInt_swap (fun u => f u w) b a (ex_slice_u w b a)).
    - apply continuity_pt_opp, param_cont_aux. lra.
  Qed.
End Fubini.
Lemma swap_cont (f : R -> R -> R) : (forall u v, continuity_2d_pt f u v) -> forall u v, continuity_2d_pt (fun u v => f v u) u v.
Proof. intros C u v eps. destruct (C v u eps) as (d & D). exists d. intros x y Hx Hy. apply D; assumption. Qed.
Lemma fubini (f : R -> R -> R) a b c d : (forall u v, continuity_2d_pt f u v) ->
  ex_RInt (fun u => RInt (f u) c d) a b /\ ex_RInt (fun v => RInt (fun u => f u v) a b) c d /\
  RInt (fun u => RInt (f u) c d) a b = RInt (fun v => RInt (fun u => f u v) a b) c d.
Proof.
  intros C. pose proof (swap_cont f C) as C'.
  assert (GC: forall u, continuous (fun u => RInt (f u) c d) u) by (intros u; apply continuity_pt_filterlim; exact (param_cont (fun u v => f v u) C' c d u)).
  assert (HC: forall x v, continuous (fun v => RInt (fun u => f u v) a x) v) by (intros x v; apply continuity_pt_filterlim; exact (param_cont f C a x v)).
  split; [apply (@ex_RInt_continuous R_CompleteNormedModule); intros u _; apply GC|]. split; [apply (@ex_RInt_continuous R_CompleteNormedModule); intros v _; apply HC|].
  assert (DI: forall v u, is_derive (fun x => RInt (fun u => f u v) a x) u (f u v)).
  { intros v u. apply (is_derive_RInt (fun u => f u v) (fun x => RInt (fun u => f u v) a x) a u).
    - apply filter_forall. intros x. apply (@RInt_correct R_CompleteNormedModule), ex_slice_u, C.
    - apply continuity_pt_filterlim, slice_u, C. }
  assert (DK: forall x, is_derive (fun x => RInt (fun v => RInt (fun u => f u v) a x) c d) x (RInt (f x) c d)).
  { intros x. assert (E: RInt (f x) c d = RInt (fun t => Derive (fun u => RInt (fun w => f w t) a u) x) c d).
    { apply RInt_ext. intros t _. symmetry. apply is_derive_unique, DI. }
    rewrite E. apply (is_derive_RInt_param (fun x v => RInt (fun u => f u v) a x) c d x).
    - apply filter_forall. intros y t _. exists (f y t). apply DI.
    - intros t _. apply (continuity_2d_pt_ext f); [|apply C]. intros u v. symmetry. apply is_derive_unique, DI.
    - apply filter_forall. intros y. apply (@ex_RInt_continuous R_CompleteNormedModule). intros v _. apply HC. }
  pose proof (is_RInt_derive (fun x => RInt (fun v => RInt (fun u => f u v) a x) c d) (fun u => RInt (f u) c d) a b (fun x _ => DK x) (fun x _ => GC x)) as I.
  apply is_RInt_unique in I. rewrite I.
  assert (Z: RInt (fun v => RInt (fun u => f u v) a a) c d = 0).
  { rewrite (RInt_ext _ (fun _ => 0)). - rewrite RInt_const. unfold scal; cbn. unfold mult; cbn. ring. - intros v _. exact (RInt_point a (fun u => f u v)). }
  change (RInt (fun v => RInt (fun u => f u v) a b) c d + - RInt (fun v => RInt (fun u => f u v) a a) c d = RInt (fun v => RInt (fun u => f u v) a b) c d). rewrite Z.
  match goal with |- ?x + - 0 = _ => generalize x end. intros x. change (@eq R (x + - 0) x). ring.
Qed.
