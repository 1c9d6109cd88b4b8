(** Property C169: the sign of the integration error of curved spectra. *)
From Coq Require Import Reals ZArith List Lra Lia Sorted.
From Coquelicot Require Import Coquelicot.
From Flocq Require Import Raux.
From Verif Require Import TrapzModel TrapzSpec TrapzProofs CoreModel SpectralModel SpectralProofs EnergyModel EnergyProofs ElectronModel ElectronProofs RadiativeProps
  ConvProofs ConvProps ConvProps2 ConvProps3 FloatTrapzProofs ErrProofs ErrProps ErrProps2 SignProofs.
Import ListNotations.
Local Open Scope R_scope.

(** ** Vocabulary *)
(** [f] is positive and continuous on [a, b]. *)
Definition spectrum_on (f : R -> R) (a b : R) : Prop := forall x, a <= x <= b -> continuity_pt f x /\ 0 < f x.
(** On logarithmic axes the graph of [f] lies above (below) its chords: at a weighted
    geometric mean of two abscissae, [f] is at least (at most) the same mean of the
    ordinates. *)
Definition bends_down (f : R -> R) (a b : R) : Prop := forall x z lam, a <= x <= b -> a <= z <= b -> 0 <= lam <= 1 ->
  Rpower (f x) (1 - lam) * Rpower (f z) lam <= f (Rpower x (1 - lam) * Rpower z lam).
Definition bends_up (f : R -> R) (a b : R) : Prop := forall x z lam, a <= x <= b -> a <= z <= b -> 0 <= lam <= 1 ->
  f (Rpower x (1 - lam) * Rpower z lam) <= Rpower (f x) (1 - lam) * Rpower (f z) lam.

Lemma mean_exp x z lam : Rpower x (1 - lam) * Rpower z lam = exp ((1 - lam) * ln x + lam * ln z).
Proof. unfold Rpower. rewrite exp_plus. reflexivity. Qed.
Lemma ln_range a b x : 0 < a -> a <= x <= b -> ln a <= ln x <= ln b.
Proof. intros. split; apply ln_le'; lra. Qed.
Lemma exp_range a b t : 0 < a -> a <= b -> ln a <= t <= ln b -> a <= exp t <= b.
Proof. intros. rewrite <- (exp_ln a), <- (exp_ln b) by lra. split; apply exp_le; lra. Qed.
Lemma mean_range s t u v lam : s <= u <= t -> s <= v <= t -> 0 <= lam <= 1 -> s <= (1 - lam) * u + lam * v <= t.
Proof.
  intros. assert (0 <= lam * (v - s)) by (apply Rmult_le_pos; lra). assert (0 <= lam * (t - v)) by (apply Rmult_le_pos; lra).
  assert (0 <= (1 - lam) * (u - s)) by (apply Rmult_le_pos; lra). assert (0 <= (1 - lam) * (t - u)) by (apply Rmult_le_pos; lra). lra.
Qed.
Lemma down_lconc f a b : 0 < a -> a <= b -> (forall x, a <= x <= b -> 0 < f x) -> (bends_down f a b <-> lconc f a b).
Proof.
  intros Ha Hab P. split.
  - intros D u v lam U V L. pose proof (exp_range a b u Ha Hab U) as EU. pose proof (exp_range a b v Ha Hab V) as EV.
    pose proof (D (exp u) (exp v) lam EU EV L) as X. rewrite !mean_exp, !ln_exp in X.
    apply exp_le_inv. rewrite (exp_ln (f (exp ((1 - lam) * u + lam * v)))); [exact X|]. apply P. apply exp_range; try assumption. apply mean_range; assumption.
  - intros C x z lam Hx Hz L. pose proof (C (ln x) (ln z) lam (ln_range a b x Ha Hx) (ln_range a b z Ha Hz) L) as X. cbv beta in X.
    rewrite !(exp_ln x), !(exp_ln z) in X by lra. rewrite !mean_exp. apply exp_le in X. rewrite exp_ln in X; [exact X|].
    apply P. apply exp_range; try assumption. apply mean_range; try assumption; apply ln_range; assumption.
Qed.
Lemma up_lconv f a b : 0 < a -> a <= b -> (forall x, a <= x <= b -> 0 < f x) -> (bends_up f a b <-> lconv f a b).
Proof.
  intros Ha Hab P. split.
  - intros D u v lam U V L. pose proof (exp_range a b u Ha Hab U) as EU. pose proof (exp_range a b v Ha Hab V) as EV.
    pose proof (D (exp u) (exp v) lam EU EV L) as X. rewrite !mean_exp, !ln_exp in X.
    cut (ln (f (exp ((1 - lam) * u + lam * v))) <= (1 - lam) * ln (f (exp u)) + lam * ln (f (exp v))); [lra|].
    apply exp_le_inv. rewrite (exp_ln (f (exp ((1 - lam) * u + lam * v)))); [exact X|]. apply P. apply exp_range; try assumption. apply mean_range; assumption.
  - intros C x z lam Hx Hz L. pose proof (C (ln x) (ln z) lam (ln_range a b x Ha Hx) (ln_range a b z Ha Hz) L) as X. cbv beta in X.
    rewrite !(exp_ln x), !(exp_ln z) in X by lra. rewrite !mean_exp.
    rewrite <- (exp_ln (f (exp ((1 - lam) * ln x + lam * ln z)))); [apply exp_le; lra|].
    apply P. apply exp_range; try assumption. apply mean_range; try assumption; apply ln_range; assumption.
Qed.

(** ** Any spectrum, any grid *)
(** The computed integral of a spectrum that bends down never exceeds the exact one
    (but for r^1e-10, where r bounds the ratio of neighbouring grid points); that of a
    spectrum that bends up never falls below it. *)
Theorem C169_integral : forall f a b r xs, 0 < a -> a < b -> spectrum_on f a b ->
  grid xs -> hd 0 xs = a -> last xs 0 = b -> (forall i, (S i < List.length xs)%nat -> nth (S i) xs 0 / nth i xs 0 <= r) ->
  (bends_down f a b -> trapz_loglog (map f xs) xs <= Rpower r (/ 10 ^ 10) * RInt f a b) /\
  (bends_up f a b -> RInt f a b <= Rpower r (/ 10 ^ 10) * trapz_loglog (map f xs) xs).
Proof.
  intros f a b r xs Ha Hab S G E1 E2 F. apply ratio_le_nth in F. destruct (trapz_signs' f r xs a b Hab G F E1 E2 S) as (A & B).
  assert (P: forall x, a <= x <= b -> 0 < f x) by (intros x Hx; apply S; assumption).
  split; intros X; [apply A, down_lconc|apply B, up_lconv]; try assumption; lra.
Qed.

(** ** Energy contents *)
Lemma lconc_mult_E f a b : 0 < a -> a <= b -> (forall x, a <= x <= b -> 0 < f x) -> lconc f a b -> lconc (fun E => E * f E) a b.
Proof.
  intros Ha Hab P C. unfold lconc. apply (conc_ext (fun t => (1 * t + 0) + ln (f (exp t)))).
  - apply ln_le'; lra.
  - intros u U. rewrite ln_mult; [rewrite ln_exp; ring|apply exp_pos|apply P, exp_range; assumption].
  - apply conc_plus; [apply conc_lin|exact C].
Qed.
Lemma lconv_mult_E f a b : 0 < a -> a <= b -> (forall x, a <= x <= b -> 0 < f x) -> lconv f a b -> lconv (fun E => E * f E) a b.
Proof.
  intros Ha Hab P C. unfold lconv. apply (conc_ext (fun t => (-1 * t + 0) + - ln (f (exp t)))).
  - apply ln_le'; lra.
  - intros u U. rewrite ln_mult; [rewrite ln_exp; ring|apply exp_pos|apply P, exp_range; assumption].
  - apply conc_plus; [apply conc_lin|exact C].
Qed.
Lemma cont_mult_E f x : continuity_pt f x -> continuity_pt (fun E => E * f E) x.
Proof. intros C. apply (continuity_pt_mult (fun E => E) f); [apply derivable_continuous_pt, derivable_pt_id|exact C]. Qed.

(** What compute_We and compute_Wp return, for every distribution. *)
Theorem C169_energy_content : forall unit nd pd smin smax Emin Emax, 0 < unit ->
  let lo := bound Emin smin in let hi := bound Emax smax in
  0 < lo -> lo < hi -> spectrum_on pd lo hi ->
  let exact := RInt (fun E => E * pd E) lo hi in
  let n := Z.to_nat (Z.max 10 (Int_part (nd * (ln (hi / lo) / ln 10)))) in
  let err := Rpower (Rpower (hi / lo) (/ INR (n - 1))) (/ 10 ^ 10) in
  (bends_down pd lo hi -> compute_We unit nd pd smin smax Emin Emax <= err * exact /\ compute_Wp unit nd pd smin smax Emin Emax <= err * exact) /\
  (bends_up pd lo hi -> exact <= err * compute_We unit nd pd smin smax Emin Emax /\ exact <= err * compute_Wp unit nd pd smin smax Emin Emax).
Proof.
  intros unit nd pd smin smax Emin Emax Hu lo hi Hlo Hhi S exact n err.
  rewrite We_bound, Wp_bound by (assumption || (fold lo hi; lra)). fold lo hi. rewrite energy_eq.
  destruct (Es_facts unit nd lo hi Hu Hlo Hhi) as (G & E1 & E2 & RL & _). cbv zeta in G, E1, E2, RL.
  assert (P: forall x, lo <= x <= hi -> 0 < pd x) by (intros x Hx; apply S; assumption).
  destruct (trapz_signs' (fun E => E * pd E) (step nd lo hi) _ lo hi Hhi G RL E1 E2) as (A & B).
  { intros x Hx. destruct (S x Hx) as (C & Q). split; [apply cont_mult_E; assumption|apply Rmult_lt_0_compat; lra]. }
  split; intros X.
  - apply down_lconc in X; try assumption; [|lra]. apply lconc_mult_E in X; try assumption; [|lra]. specialize (A X). split; exact A.
  - apply up_lconv in X; try assumption; [|lra]. apply lconv_mult_E in X; try assumption; [|lra]. specialize (B X). split; exact B.
Qed.

(** ** The built-in distributions *)
Lemma spectrum_lconc f a b (g : R -> R) : 0 < a -> a <= b -> (forall x, 0 < x -> f x = exp (g (ln x))) -> conc g (ln a) (ln b) ->
  (forall t, continuity_pt g t) -> spectrum_on f a b /\ bends_down f a b.
Proof.
  intros Ha Hab E C K.
  assert (P: forall x, a <= x <= b -> 0 < f x) by (intros; rewrite E by lra; apply exp_pos).
  assert (CT: forall x, a <= x <= b -> continuity_pt f x).
  { intros x Hx. apply (continuity_pt_ext_loc (fun x => exp (g (ln x)))).
    - exists (mkposreal x ltac:(lra)). intros y Hy. change (Rabs (y - x) < x) in Hy. apply Rabs_def2 in Hy. symmetry. apply E. lra.
    - apply (continuity_pt_comp (fun x => g (ln x)) exp); [|apply derivable_continuous_pt, derivable_pt_exp].
      apply (continuity_pt_comp ln g); [|apply K]. apply continuity_pt_filterlim, (@ex_derive_continuous R_AbsRing R_NormedModule ln x). exists (/ x). apply is_derive_ln. lra. }
  split; [intros x Hx; split; auto|]. apply down_lconc; try assumption. unfold lconc.
  apply (conc_ext g); [apply ln_le'; lra| |assumption]. intros u _. rewrite E by apply exp_pos. rewrite ln_exp, ln_exp. reflexivity.
Qed.
Lemma spectrum_lconv f a b (g : R -> R) : 0 < a -> a <= b -> (forall x, 0 < x -> f x = exp (- g (ln x))) -> conc g (ln a) (ln b) ->
  (forall t, continuity_pt g t) -> spectrum_on f a b /\ bends_up f a b.
Proof.
  intros Ha Hab E C K.
  assert (P: forall x, a <= x <= b -> 0 < f x) by (intros; rewrite E by lra; apply exp_pos).
  assert (CT: forall x, a <= x <= b -> continuity_pt f x).
  { intros x Hx. apply (continuity_pt_ext_loc (fun x => exp (- g (ln x)))).
    - exists (mkposreal x ltac:(lra)). intros y Hy. change (Rabs (y - x) < x) in Hy. apply Rabs_def2 in Hy. symmetry. apply E. lra.
    - apply (continuity_pt_comp (fun x => - g (ln x)) exp); [|apply derivable_continuous_pt, derivable_pt_exp].
      apply (continuity_pt_opp (fun x => g (ln x))).
      apply (continuity_pt_comp ln g); [|apply K]. apply continuity_pt_filterlim, (@ex_derive_continuous R_AbsRing R_NormedModule ln x). exists (/ x). apply is_derive_ln. lra. }
  split; [intros x Hx; split; auto|]. apply up_lconv; try assumption. unfold lconv.
  apply (conc_ext g); [apply ln_le'; lra| |assumption]. intros u _. rewrite E by apply exp_pos. rewrite ln_exp, ln_exp. ring.
Qed.

Lemma derive_cont (g : R -> R) t d : is_derive g t d -> continuity_pt g t.
Proof. intros H. apply continuity_pt_filterlim, (@ex_derive_continuous R_AbsRing R_NormedModule g t). exists d. exact H. Qed.
Lemma cont_min g h t : continuity_pt g t -> continuity_pt h t -> continuity_pt (fun x => Rmin (g x) (h x)) t.
Proof.
  intros G H. apply (continuity_pt_ext (fun x => / 2 * (g x + h x - Rabs (g x - h x)))).
  - intros x. unfold Rmin. destruct (Rle_dec (g x) (h x)); [rewrite Rabs_left1 by lra; field|rewrite Rabs_pos_eq by lra; field].
  - apply (continuity_pt_scal (fun x => g x + h x - Rabs (g x - h x))). apply (continuity_pt_minus (fun x => g x + h x) (fun x => Rabs (g x - h x))).
    + apply (continuity_pt_plus g h); assumption.
    + apply (continuity_pt_comp (fun x => g x - h x) Rabs); [apply (continuity_pt_minus g h); assumption|apply Rcontinuity_abs].
Qed.
Lemma conc_cutoff ec be s t : conc (fun u => - exp (be * u + - be * ln ec)) s t.
Proof.
  apply (conc_derive _ (fun u => - (be * exp (be * u + - be * ln ec))) (fun u => - (be ^ 2 * exp (be * u + - be * ln ec)))).
  intros u _. split; [|split].
  - auto_derive; [exact Logic.I|]. ring.
  - auto_derive; [exact Logic.I|]. ring.
  - assert (0 <= be ^ 2 * exp (be * u + - be * ln ec)) by (apply Rmult_le_pos; [apply pow2_ge_0|left; apply exp_pos]). lra.
Qed.
Lemma conc_quad q k c s t : 0 <= q -> conc (fun u => - q * (u * u) + k * u + c) s t.
Proof.
  intros Q. apply (conc_derive _ (fun u => - 2 * q * u + k) (fun u => - 2 * q)). intros u _. split; [|split].
  - auto_derive; [exact Logic.I|]. ring.
  - auto_derive; [exact Logic.I|]. ring.
  - lra.
Qed.
Lemma A_exp A u : 0 < A -> A * exp u = exp (ln A + u).
Proof. intros. rewrite exp_plus, exp_ln by assumption. reflexivity. Qed.
Lemma cutoff_exp e ec be : 0 < e -> 0 < ec -> Rpower (e / ec) be = exp (be * ln e + - be * ln ec).
Proof. intros. unfold Rpower. rewrite ln_div by assumption. f_equal. ring. Qed.

(** the two branches of a broken power law: the smaller of the two when it steepens *)
Definition br1 (A e0 a1 t : R) : R := - a1 * t + (ln A + a1 * ln e0).
Definition br2 (A e0 eb a1 a2 t : R) : R := - a2 * t + (ln A + (a2 - a1) * (ln eb - ln e0) + a2 * ln e0).
Lemma broken_branches e A e0 eb a1 a2 : 0 < A -> 0 < e0 -> 0 < eb -> 0 < e ->
  broken_power_law e A e0 eb a1 a2 = exp (if Rlt_dec e eb then br1 A e0 a1 (ln e) else br2 A e0 eb a1 a2 (ln e)).
Proof.
  intros HA H0 Hb He. unfold broken_power_law, br1, br2, Rpower. cbv zeta. rewrite (ln_div e e0), (ln_div eb e0) by assumption. destruct (Rlt_dec e eb).
  - rewrite Rmult_1_r, (A_exp A) by assumption. f_equal. ring.
  - rewrite (A_exp A), <- exp_plus by assumption. f_equal. ring.
Qed.
Lemma branch_diff A e0 eb a1 a2 t : br2 A e0 eb a1 a2 t - br1 A e0 a1 t = (a1 - a2) * (t - ln eb).
Proof. unfold br1, br2. ring. Qed.
Lemma broken_min e A e0 eb a1 a2 : 0 < A -> 0 < e0 -> 0 < eb -> a1 <= a2 -> 0 < e ->
  broken_power_law e A e0 eb a1 a2 = exp (Rmin (br1 A e0 a1 (ln e)) (br2 A e0 eb a1 a2 (ln e))).
Proof.
  intros HA H0 Hb Ha He. rewrite broken_branches by assumption. f_equal. pose proof (branch_diff A e0 eb a1 a2 (ln e)) as D.
  destruct (Rlt_dec e eb) as [C|C].
  - pose proof (ln_increasing e eb He C). rewrite Rmin_left; [reflexivity|]. nra.
  - assert (ln eb <= ln e) by (apply ln_le'; lra). rewrite Rmin_right; [reflexivity|]. nra.
Qed.
Lemma broken_max e A e0 eb a1 a2 : 0 < A -> 0 < e0 -> 0 < eb -> a2 <= a1 -> 0 < e ->
  broken_power_law e A e0 eb a1 a2 = exp (- Rmin (- br1 A e0 a1 (ln e)) (- br2 A e0 eb a1 a2 (ln e))).
Proof.
  intros HA H0 Hb Ha He. rewrite broken_branches by assumption. f_equal. pose proof (branch_diff A e0 eb a1 a2 (ln e)) as D.
  destruct (Rlt_dec e eb) as [C|C].
  - pose proof (ln_increasing e eb He C). rewrite Rmin_left; [ring|]. nra.
  - assert (ln eb <= ln e) by (apply ln_le'; lra). rewrite Rmin_right; [ring|]. nra.
Qed.
Lemma cutoff_broken_factor e A e0 eb a1 a2 ec be :
  cutoff_broken_power_law e A e0 eb a1 a2 ec be = broken_power_law e A e0 eb a1 a2 * exp (- Rpower (e / ec) be).
Proof. reflexivity. Qed.
Lemma br1_conc A e0 a1 s t : conc (br1 A e0 a1) s t.
Proof. apply (conc_lin (- a1)). Qed.
Lemma br2_conc A e0 eb a1 a2 s t : conc (br2 A e0 eb a1 a2) s t.
Proof. apply (conc_lin (- a2)). Qed.
Lemma br1_cont A e0 a1 t : continuity_pt (br1 A e0 a1) t.
Proof. apply (derive_cont _ _ (- a1)). unfold br1. auto_derive; [exact Logic.I|]. ring. Qed.
Lemma br2_cont A e0 eb a1 a2 t : continuity_pt (br2 A e0 eb a1 a2) t.
Proof. apply (derive_cont _ _ (- a2)). unfold br2. auto_derive; [exact Logic.I|]. ring. Qed.
Lemma cutoff_cont ec be t : continuity_pt (fun u => - exp (be * u + - be * ln ec)) t.
Proof. apply (derive_cont _ _ (- (be * exp (be * t + - be * ln ec)))). auto_derive; [exact Logic.I|]. ring. Qed.

(** Cutoffs (of any sharpness) bend down, log-parabolas bend the way of the sign of
    beta, broken power laws bend down when they steepen and up when they harden; a
    power law does both. *)
Theorem C169_distributions : forall A e0 a b, 0 < A -> 0 < e0 -> 0 < a -> a < b ->
  (forall alpha, let f := fun E => power_law E A e0 alpha in spectrum_on f a b /\ bends_down f a b /\ bends_up f a b) /\
  (forall alpha ec beta, 0 < ec -> let f := fun E => cutoff_power_law E A e0 alpha ec beta in spectrum_on f a b /\ bends_down f a b) /\
  (forall alpha beta, let f := fun E => log_parabola E A e0 alpha beta in
     spectrum_on f a b /\ (0 <= beta -> bends_down f a b) /\ (beta <= 0 -> bends_up f a b)) /\
  (forall eb alpha_1 alpha_2, 0 < eb -> let f := fun E => broken_power_law E A e0 eb alpha_1 alpha_2 in
     spectrum_on f a b /\ (alpha_1 <= alpha_2 -> bends_down f a b) /\ (alpha_2 <= alpha_1 -> bends_up f a b)) /\
  (forall eb alpha_1 alpha_2 ec beta, 0 < eb -> 0 < ec -> alpha_1 <= alpha_2 ->
     let f := fun E => cutoff_broken_power_law E A e0 eb alpha_1 alpha_2 ec beta in spectrum_on f a b /\ bends_down f a b).
Proof.
  intros A e0 a b HA H0 Ha Hab. assert (Hab': a <= b) by lra.
  split; [|split; [|split; [|split]]].
  - intros al f.
    assert (E1: forall x, 0 < x -> f x = exp (br1 A e0 al (ln x))). { intros x Hx. unfold f, power_law, br1, Rpower. cbv zeta. rewrite ln_div by assumption. rewrite (A_exp A) by assumption. f_equal. ring. }
    destruct (spectrum_lconc f a b (br1 A e0 al) Ha Hab' E1 (br1_conc _ _ _ _ _) (br1_cont _ _ _)) as (S & D).
    destruct (spectrum_lconv f a b (fun t => - br1 A e0 al t) Ha Hab') as (_ & U).
    { intros x Hx. rewrite E1 by assumption. f_equal. ring. }
    { apply (conc_ext (fun t => al * t + - (ln A + al * ln e0))); [apply ln_le'; lra| |apply conc_lin]. intros u _. unfold br1. ring. }
    { intros t. apply (continuity_pt_opp (br1 A e0 al)). apply br1_cont. }
    auto.
  - intros al ec be Hc f. apply (spectrum_lconc f a b (fun t => br1 A e0 al t + - exp (be * t + - be * ln ec))); try assumption.
    + intros x Hx. unfold f, cutoff_power_law. cbv zeta. rewrite (cutoff_exp x ec be) by assumption. rewrite (exp_plus (br1 A e0 al (ln x))). f_equal.
      unfold br1, Rpower. rewrite ln_div by assumption. rewrite (A_exp A) by assumption. f_equal. ring.
    + apply conc_plus; [apply br1_conc|apply conc_cutoff].
    + intros t. apply (continuity_pt_plus (br1 A e0 al)); [apply br1_cont|apply cutoff_cont].
  - intros al be f.
    assert (E1: forall x, 0 < x -> f x = exp (- be * (ln x * ln x) + (- al + 2 * be * ln e0) * ln x + (ln A + al * ln e0 - be * (ln e0) ^ 2))).
    { intros x Hx. unfold f, log_parabola, Rpower. cbv zeta. rewrite ln_div by assumption. rewrite (A_exp A) by assumption. f_equal. ring. }
    assert (K: forall q k c t, continuity_pt (fun u => - q * (u * u) + k * u + c) t).
    { intros q k c t. apply (derive_cont _ _ (- 2 * q * t + k)). auto_derive; [exact Logic.I|]. ring. }
    destruct (Rle_or_lt 0 be) as [B|B].
    + destruct (spectrum_lconc f a b _ Ha Hab' E1 (conc_quad be _ _ _ _ B) (K _ _ _)) as (S & D).
      split; [exact S|]. split; [intros; exact D|]. intros B'. assert (be = 0) by lra. subst be.
      apply (fun e => proj2 (spectrum_lconv f a b (fun u => - (0) * (u * u) + al * u + - (ln A + al * ln e0)) Ha Hab' e (conc_quad 0 _ _ _ _ (Rle_refl 0)) (K _ _ _))).
      intros x Hx. rewrite E1 by assumption. f_equal. ring.
    + destruct (spectrum_lconv f a b (fun u => - (- be) * (u * u) + (al - 2 * be * ln e0) * u + - (ln A + al * ln e0 - be * ln e0 ^ 2)) Ha Hab') as (S & U).
      { intros x Hx. rewrite E1 by assumption. f_equal. ring. }
      { apply conc_quad. lra. }
      { apply K. }
      split; [exact S|]. split; [intros; lra|]. intros _. exact U.
  - intros eb a1 a2 Hb f. destruct (Rle_or_lt a1 a2) as [B|B].
    + destruct (spectrum_lconc f a b (fun t => Rmin (br1 A e0 a1 t) (br2 A e0 eb a1 a2 t)) Ha Hab') as (S & D).
      { intros x Hx. apply broken_min; assumption. }
      { apply conc_min; [apply br1_conc|apply br2_conc]. }
      { intros t. apply cont_min; [apply br1_cont|apply br2_cont]. }
      split; [exact S|]. split; [intros; exact D|]. intros B'.
      apply (spectrum_lconv f a b (fun t => Rmin (- br1 A e0 a1 t) (- br2 A e0 eb a1 a2 t)) Ha Hab').
      * intros x Hx. apply broken_max; assumption.
      * apply conc_min; [apply (conc_ext (fun t => a1 * t + - (ln A + a1 * ln e0)))|apply (conc_ext (fun t => a2 * t + - (ln A + (a2 - a1) * (ln eb - ln e0) + a2 * ln e0)))];
          try (apply ln_le'; lra); try apply conc_lin; intros u _; unfold br1, br2; ring.
      * intros t. apply cont_min; [apply (continuity_pt_opp (br1 A e0 a1)); apply br1_cont|apply (continuity_pt_opp (br2 A e0 eb a1 a2)); apply br2_cont].
    + destruct (spectrum_lconv f a b (fun t => Rmin (- br1 A e0 a1 t) (- br2 A e0 eb a1 a2 t)) Ha Hab') as (S & U).
      { intros x Hx. apply broken_max; try assumption. lra. }
      { apply conc_min; [apply (conc_ext (fun t => a1 * t + - (ln A + a1 * ln e0)))|apply (conc_ext (fun t => a2 * t + - (ln A + (a2 - a1) * (ln eb - ln e0) + a2 * ln e0)))];
          try (apply ln_le'; lra); try apply conc_lin; intros u _; unfold br1, br2; ring. }
      { intros t. apply cont_min; [apply (continuity_pt_opp (br1 A e0 a1)); apply br1_cont|apply (continuity_pt_opp (br2 A e0 eb a1 a2)); apply br2_cont]. }
      split; [exact S|]. split; [intros; lra|]. intros _. exact U.
  - intros eb a1 a2 ec be Hb Hc B f.
    apply (spectrum_lconc f a b (fun t => Rmin (br1 A e0 a1 t) (br2 A e0 eb a1 a2 t) + - exp (be * t + - be * ln ec))); try assumption.
    + intros x Hx. unfold f. rewrite cutoff_broken_factor, (broken_min x A e0 eb a1 a2), (cutoff_exp x ec be) by assumption. rewrite (exp_plus (Rmin (br1 A e0 a1 (ln x)) (br2 A e0 eb a1 a2 (ln x)))). reflexivity.
    + apply conc_plus; [|apply conc_cutoff]. apply conc_min; [apply br1_conc|apply br2_conc].
    + intros t. apply (continuity_pt_plus (fun t => Rmin (br1 A e0 a1 t) (br2 A e0 eb a1 a2 t))); [|apply cutoff_cont]. apply cont_min; [apply br1_cont|apply br2_cont].
Qed.

(** Energy contents of the built-in distributions that bend down are lower bounds. *)
Theorem C169_lower_bounds : forall unit nd A e0 Emin Emax smin smax pd, 0 < unit -> 0 < A -> 0 < e0 ->
  let lo := bound Emin smin in let hi := bound Emax smax in 0 < lo -> lo < hi ->
  ((exists alpha ec beta, 0 < ec /\ pd = fun E => cutoff_power_law E A e0 alpha ec beta) \/
   (exists alpha beta, 0 <= beta /\ pd = fun E => log_parabola E A e0 alpha beta) \/
   (exists eb alpha_1 alpha_2, 0 < eb /\ alpha_1 <= alpha_2 /\ pd = fun E => broken_power_law E A e0 eb alpha_1 alpha_2) \/
   (exists eb alpha_1 alpha_2 ec beta, 0 < eb /\ 0 < ec /\ alpha_1 <= alpha_2 /\ pd = fun E => cutoff_broken_power_law E A e0 eb alpha_1 alpha_2 ec beta)) ->
  let exact := RInt (fun E => E * pd E) lo hi in
  let n := Z.to_nat (Z.max 10 (Int_part (nd * (ln (hi / lo) / ln 10)))) in
  let err := Rpower (Rpower (hi / lo) (/ INR (n - 1))) (/ 10 ^ 10) in
  compute_We unit nd pd smin smax Emin Emax <= err * exact /\ compute_Wp unit nd pd smin smax Emin Emax <= err * exact.
Proof.
  intros unit nd A e0 Emin Emax smin smax pd Hu HA H0 lo hi Hlo Hhi D exact n err.
  destruct (C169_distributions A e0 lo hi HA H0 Hlo Hhi) as (_ & D1 & D2 & D3 & D4).
  assert (X: spectrum_on pd lo hi /\ bends_down pd lo hi).
  { destruct D as [(al & ec & be & Hc & ->)|[(al & be & Hb & ->)|[(eb & a1 & a2 & Hb & H12 & ->)|(eb & a1 & a2 & ec & be & Hb & Hc & H12 & ->)]]].
    - apply (D1 al ec be Hc).
    - destruct (D2 al be) as (S & B & _). split; [exact S|apply B; assumption].
    - destruct (D3 eb a1 a2 Hb) as (S & B & _). split; [exact S|apply B; assumption].
    - apply (D4 eb a1 a2 ec be Hb Hc H12). }
  destruct X as (S & B). destruct (C169_energy_content unit nd pd smin smax Emin Emax Hu Hlo Hhi S) as (C & _). apply C. exact B.
Qed.

(** set_We / set_Wp rescale by W over the computed content: for a spectrum that bends
    down the exact content is afterwards at least the one asked for. *)
Theorem C169_set_energy : forall unit nd pd smin smax Emin Emax W, 0 < unit -> 0 < W ->
  let lo := bound Emin smin in let hi := bound Emax smax in
  0 < lo -> lo < hi -> spectrum_on pd lo hi -> bends_down pd lo hi ->
  let n := Z.to_nat (Z.max 10 (Int_part (nd * (ln (hi / lo) / ln 10)))) in
  let err := Rpower (Rpower (hi / lo) (/ INR (n - 1))) (/ 10 ^ 10) in
  W <= err * RInt (fun E => E * (W / compute_We unit nd pd smin smax Emin Emax * pd E)) lo hi /\
  W <= err * RInt (fun E => E * (W / compute_Wp unit nd pd smin smax Emin Emax * pd E)) lo hi.
Proof.
  intros unit nd pd smin smax Emin Emax W Hu HW lo hi Hlo Hhi S B n err.
  destruct (C169_energy_content unit nd pd smin smax Emin Emax Hu Hlo Hhi S) as (X & _). specialize (X B). fold lo hi n err in X. destruct X as (X1 & X2).
  assert (EX: ex_RInt (fun E => E * pd E) lo hi). { apply ex_RInt_cont; [lra|]. intros x Hx. apply cont_mult_E. apply S. assumption. }
  assert (RS: forall c, RInt (fun E => E * (c * pd E)) lo hi = c * RInt (fun E => E * pd E) lo hi).
  { intros c. assert (Q: RInt (fun E => c * (E * pd E)) lo hi = c * RInt (fun E => E * pd E) lo hi) by exact (RInt_scal (fun E => E * pd E) lo hi c EX).
    rewrite <- Q. apply RInt_ext. intros x _. cbv beta. lra. }
  rewrite !RS. set (I0 := RInt (fun E => E * pd E) lo hi) in *.
  assert (TP: 0 < compute_We unit nd pd smin smax Emin Emax /\ 0 < compute_Wp unit nd pd smin smax Emin Emax).
  { rewrite We_bound, Wp_bound by (assumption || (fold lo hi; lra)). fold lo hi. rewrite energy_eq.
    destruct (Es_facts unit nd lo hi Hu Hlo Hhi) as (G & E1 & E2 & RL & _). cbv zeta in G, E1, E2, RL.
    set (es := map (fun g => g * unit) (gam unit nd lo hi)) in *.
    assert (Q: 0 < trapz_loglog (map (fun E => E * pd E) es) es); [|split; exact Q].
    destruct es as [|x0 [|x1 es]]; [simpl in E1; lra|simpl in E1, E2; lra|].
    assert (BD: forall x, In x (x0 :: x1 :: es) -> lo <= x <= hi).
    { intros x Hx. rewrite <- E1, <- E2. cbn [hd]. destruct G as (_ & SS). clear - Hx SS. revert Hx SS. generalize (x1 :: es). intros l. revert x0 x.
      induction l as [|y l IH]; intros x0 x Hx SS. { destruct Hx as [<-|[]]. cbn. lra. }
      inversion_clear SS as [|? ? S1 S2]. assert (XY: x0 < y) by (inversion S2; assumption).
      change (last (x0 :: y :: l) 0) with (last (y :: l) 0). destruct Hx as [<-|Hx].
      - pose proof (IH y y (or_introl eq_refl) S1). lra.
      - pose proof (IH y x Hx S1). lra. }
    assert (PP: forall x, In x (x0 :: x1 :: es) -> 0 < x * pd x). { intros x Hx. pose proof (BD x Hx). apply Rmult_lt_0_compat; [lra|]. apply S. assumption. }
    cbn [map]. apply trapz_pos; [exact G|apply PP; left; reflexivity|apply PP; right; left; reflexivity|].
    apply List.Forall_forall. intros y Hy. apply in_map_iff in Hy. destruct Hy as (x & <- & Hx). left. apply PP. right; right. exact Hx. }
  destruct TP as (T1 & T2).
  assert (Q: forall T, 0 < T -> T <= err * I0 -> W <= err * (W / T * I0)).
  { intros T HT H. apply Rmult_le_reg_r with T; [assumption|]. replace (err * (W / T * I0) * T) with (W * (err * I0)) by (field; lra). apply Rmult_le_compat_l; lra. }
  split; apply Q; assumption.
Qed.

(** ** Synchrotron *)
Lemma poly_neg y : 0 < y ->
  - / 2 * ((34 / 10 * y + 4 * 0 * y ^ 2 + 34 / 10 * 0 * y ^ 3) / (1 + 34 / 10 * y + 0 * y ^ 2) ^ 2)
  + (221 / 100 * y + 4 * (347 / 1000) * y ^ 2 + 221 / 100 * (347 / 1000) * y ^ 3) / (1 + 221 / 100 * y + 347 / 1000 * y ^ 2) ^ 2
  - (1353 / 1000 * y + 4 * (217 / 1000) * y ^ 2 + 1353 / 1000 * (217 / 1000) * y ^ 3) / (1 + 1353 / 1000 * y + 217 / 1000 * y ^ 2) ^ 2 <= 0.
Proof.
  intros Hy. set (s := 1 + 34 / 10 * y + 0 * y ^ 2). set (n := 1 + 221 / 100 * y + 347 / 1000 * y ^ 2). set (d := 1 + 1353 / 1000 * y + 217 / 1000 * y ^ 2).
  assert (P: forall k, 0 < y ^ k) by (intros; apply pow_lt; assumption).
  assert (S: 0 < s) by (unfold s; lra). assert (N: 0 < n) by (unfold n; pose proof (P 2%nat); lra). assert (D: 0 < d) by (unfold d; pose proof (P 2%nat); lra).
  apply Rmult_le_reg_r with (s ^ 2 * n ^ 2 * d ^ 2). { apply Rmult_lt_0_compat; [apply Rmult_lt_0_compat|]; apply pow_lt; assumption. }
  rewrite Rmult_0_l. match goal with |- ?l <= 0 => replace l with (- / 2 * (34 / 10 * y + 4 * 0 * y ^ 2 + 34 / 10 * 0 * y ^ 3) * (n ^ 2 * d ^ 2)
    + (221 / 100 * y + 4 * (347 / 1000) * y ^ 2 + 221 / 100 * (347 / 1000) * y ^ 3) * (s ^ 2 * d ^ 2)
    - (1353 / 1000 * y + 4 * (217 / 1000) * y ^ 2 + 1353 / 1000 * (217 / 1000) * y ^ 3) * (s ^ 2 * n ^ 2)) by (field; repeat split; lra) end.
  unfold s, n, d. pose proof (P 2%nat). pose proof (P 3%nat). pose proof (P 4%nat). pose proof (P 5%nat). pose proof (P 6%nat). pose proof (P 7%nat). pose proof (P 8%nat). pose proof (P 9%nat).
  ring_simplify. lra.
Qed.
Lemma Gtilde_conc s t : conc (fun u => ln (Gtilde (exp u))) s t.
Proof.
  apply (conc_derive _ (fun t => / 3 - / 2 * L1 (34 / 10) 0 (2 / 3) 0 t + L1 (221 / 100) (347 / 1000) (2 / 3) 0 t - L1 (1353 / 1000) (217 / 1000) (2 / 3) 0 t - exp t)
    (fun t => - / 2 * L2 (34 / 10) 0 (2 / 3) 0 t + L2 (221 / 100) (347 / 1000) (2 / 3) 0 t - L2 (1353 / 1000) (217 / 1000) (2 / 3) 0 t - exp t)).
  intros w _. clear s t. rename w into t.
  destruct (L_derive (34 / 10) 0 (2 / 3) 0 t) as (A1 & A2 & _); [lra|lra|].
  destruct (L_derive (221 / 100) (347 / 1000) (2 / 3) 0 t) as (B1 & B2 & _); [lra|lra|].
  destruct (L_derive (1353 / 1000) (217 / 1000) (2 / 3) 0 t) as (C1 & C2 & _); [lra|lra|].
  split; [|split].
  - apply (is_derive_ext (fun t => ln (1808 / 1000) + t / 3 - / 2 * L (34 / 10) 0 (2 / 3) 0 t + L (221 / 100) (347 / 1000) (2 / 3) 0 t - L (1353 / 1000) (217 / 1000) (2 / 3) 0 t - exp t)).
    { intros s. symmetry. apply ln_Gtilde. }
    auto_derive; [repeat split; eexists; eassumption|].
    assert (DA: Derive (fun x => L (34 / 10) 0 (2 / 3) 0 x) t = L1 (34 / 10) 0 (2 / 3) 0 t) by (apply is_derive_unique; exact A1).
    assert (DB: Derive (fun x => L (221 / 100) (347 / 1000) (2 / 3) 0 x) t = L1 (221 / 100) (347 / 1000) (2 / 3) 0 t) by (apply is_derive_unique; exact B1).
    assert (DC: Derive (fun x => L (1353 / 1000) (217 / 1000) (2 / 3) 0 x) t = L1 (1353 / 1000) (217 / 1000) (2 / 3) 0 t) by (apply is_derive_unique; exact C1).
    rewrite DA, DB, DC. field.
  - auto_derive; [repeat split; eexists; eassumption|].
    assert (DA: Derive (fun x => L1 (34 / 10) 0 (2 / 3) 0 x) t = L2 (34 / 10) 0 (2 / 3) 0 t) by (apply is_derive_unique; exact A2).
    assert (DB: Derive (fun x => L1 (221 / 100) (347 / 1000) (2 / 3) 0 x) t = L2 (221 / 100) (347 / 1000) (2 / 3) 0 t) by (apply is_derive_unique; exact B2).
    assert (DC: Derive (fun x => L1 (1353 / 1000) (217 / 1000) (2 / 3) 0 x) t = L2 (1353 / 1000) (217 / 1000) (2 / 3) 0 t) by (apply is_derive_unique; exact C2).
    rewrite DA, DB, DC. field.
  - pose proof (exp_pos t) as P. pose proof (poly_neg (exp (2 / 3 * t + 0)) (exp_pos _)) as X. unfold L2. cbv zeta. unfold Rdiv in *. nra.
Qed.
Theorem C169_synchrotron : forall k B mec2 pd lo hi Es i nd, sy_ok k -> 0 < B -> 0 < mec2 -> 0 < lo -> lo < hi ->
  (i < List.length Es)%nat -> 0 < nth i Es 0 -> spectrum_on pd lo hi -> bends_down pd lo hi ->
  let exact := RInt (sy_integrand k B mec2 pd (nth i Es 0)) (lo / mec2) (hi / mec2) in
  let computed := nth i (sy_spectrum k B mec2 pd (gam mec2 nd lo hi) Es) 0 in
  let n := Z.to_nat (Z.max 10 (Int_part (nd * (ln (hi / lo) / ln 10)))) in
  computed <= Rpower (Rpower (hi / lo) (/ INR (n - 1))) (/ 10 ^ 10) * exact.
Proof.
  intros k B mec2 pd lo hi Es i nd K HB Hm Hlo Hhi Hi PE SP BD exact computed n.
  set (E := nth i Es 0) in *.
  assert (La: 0 < lo / mec2) by (apply div_pos; assumption).
  assert (Lb: lo / mec2 < hi / mec2) by (apply Rmult_lt_compat_r; [apply Rinv_0_lt_compat; assumption|assumption]).
  assert (MR: forall g, lo / mec2 <= g <= hi / mec2 -> lo <= g * mec2 <= hi).
  { intros g (G1 & G2). apply (Rmult_le_compat_r mec2) in G1; [|lra]. apply (Rmult_le_compat_r mec2) in G2; [|lra].
    replace (lo / mec2 * mec2) with lo in G1 by (field; lra). replace (hi / mec2 * mec2) with hi in G2 by (field; lra). lra. }
  pose proof (CS1_pos k B E K HB PE) as PC. pose proof (Ecrit_pos k B 1 K HB ltac:(lra)) as P1.
  assert (EC: forall g, 0 < g -> E / Ecrit k B g = (E / Ecrit k B 1) / g ^ 2).
  { intros g Hg. destruct K as (K1 & K2 & K3 & K4). unfold Ecrit. field. repeat split; lra. }
  set (c := E / Ecrit k B 1) in *. assert (Hc: 0 < c) by (apply div_pos; assumption).
  assert (PG: forall g, 0 < g -> 0 < Gtilde (c / g ^ 2)). { intros g Hg. apply Gtilde_pos. apply div_pos; [assumption|apply pow_lt; assumption]. }
  set (f := sy_integrand k B mec2 pd E).
  assert (EF: forall g, 0 < g -> f g = pd (g * mec2) * mec2 * (CS1 k B E * Gtilde (c / g ^ 2))). { intros g Hg. unfold f, sy_integrand, sy_kernel. rewrite EC by assumption. reflexivity. }
  assert (PP: forall g, lo / mec2 <= g <= hi / mec2 -> 0 < pd (g * mec2)) by (intros; apply SP, MR; assumption).
  assert (PF: forall g, lo / mec2 <= g <= hi / mec2 -> 0 < f g).
  { intros g Hg. rewrite EF by lra. apply Rmult_lt_0_compat; apply Rmult_lt_0_compat; try assumption; [apply PP; assumption|apply PG; lra]. }
  assert (LC: lconc f (lo / mec2) (hi / mec2)).
  { unfold lconc. apply (conc_ext (fun t => (0 * t + (ln mec2 + ln (CS1 k B E))) + ((fun u => ln (pd (exp u))) (1 * t + ln mec2) + (fun u => ln (Gtilde (exp u))) (-2 * t + ln c)))).
    - apply ln_le'; lra.
    - intros u U. cbv beta. pose proof (exp_range _ _ u La (Rlt_le _ _ Lb) U) as EU. pose proof (exp_pos u) as Eu. rewrite EF by assumption.
      assert (Q1: 0 < pd (exp u * mec2)) by (apply PP; assumption). assert (Q2: 0 < Gtilde (c / exp u ^ 2)) by (apply PG; assumption).
      rewrite (ln_mult (pd (exp u * mec2) * mec2)), (ln_mult (pd (exp u * mec2))), (ln_mult (CS1 k B E)) by (assumption || (apply Rmult_lt_0_compat; assumption)).
      replace (exp (1 * u + ln mec2)) with (exp u * mec2) by (rewrite Rmult_1_l, exp_plus, exp_ln by assumption; reflexivity).
      replace (exp (-2 * u + ln c)) with (c / exp u ^ 2). { ring. }
      rewrite exp_plus, exp_ln by assumption. replace (-2 * u) with (- u + - u) by ring. rewrite exp_plus, exp_Ropp. field. lra.
    - apply conc_plus; [apply conc_lin|]. apply conc_plus.
      + apply (conc_affine (fun u => ln (pd (exp u))) 1 (ln mec2) (ln lo) (ln hi)).
        * intros u U. rewrite !ln_div in U by lra. lra.
        * apply down_lconc; try assumption; [lra|]. intros x Hx. apply SP. assumption.
      + apply (conc_affine (fun u => ln (Gtilde (exp u))) (-2) (ln c) (-2 * ln (hi / mec2) + ln c) (-2 * ln (lo / mec2) + ln c)); [intros; lra|apply Gtilde_conc]. }
  assert (CF: forall g, lo / mec2 <= g <= hi / mec2 -> continuity_pt f g).
  { intros g Hg. assert (CK: continuity_pt (fun g => sy_kernel k B g E) g).
    { destruct (smooth_sy_kernel k B E (g / 2) (g * 2) K HB PE ltac:(lra) ltac:(lra)) as (_ & S). assert (G2: 0 < g / 2) by lra. destruct (smooth_cont _ _ _ _ G2 S g ltac:(lra)) as (_ & X). apply X. lra. }
    unfold f, sy_integrand. apply (continuity_pt_mult (fun g => pd (g * mec2) * mec2)); [|exact CK].
    apply (continuity_pt_mult (fun g => pd (g * mec2)) (fun _ => mec2)); [|apply derivable_continuous_pt, derivable_pt_const].
    apply (continuity_pt_comp (fun g => g * mec2) pd); [|apply SP, MR; assumption].
    apply (continuity_pt_mult (fun g => g) (fun _ => mec2)); [apply derivable_continuous_pt, derivable_pt_id|apply derivable_continuous_pt, derivable_pt_const]. }
  destruct (gam_facts mec2 nd lo hi Hm Hlo Hhi) as (G & E1 & E2 & RL & _).
  destruct (trapz_signs' f (step nd lo hi) _ _ _ Lb G RL E1 E2) as (X & _). { intros g Hg. split; [apply CF|apply PF]; assumption. }
  specialize (X LC). unfold computed, sy_spectrum. rewrite nth_map_lt by assumption. fold E. rewrite nelec_kernel. exact X.
Qed.

(** ** Cases *)
(** a power law that steepens from flat to E^-2 at E = 2, sampled at 1 and 4 only: the
    rule takes it for E^-1 and finds ln 4 instead of 2 *)
Example C169_example_strict : let f := fun E => broken_power_law E 1 2 2 0 2 in
  spectrum_on f 1 4 /\ bends_down f 1 4 /\ f 1 = 1 /\ f 4 = / 4 /\ trapz_loglog (map f [1; 4]) [1; 4] = ln 4 /\ ln 4 < 2.
Proof.
  intros f. destruct (C169_distributions 1 2 1 4 ltac:(lra) ltac:(lra) ltac:(lra) ltac:(lra)) as (_ & _ & _ & D & _).
  destruct (D 2 0 2 ltac:(lra)) as (S & B & _). fold f in S, B. split; [exact S|]. split; [apply B; lra|].
  assert (F1: f 1 = 1). { unfold f, broken_power_law. cbv zeta. destruct (Rlt_dec 1 2); [|lra]. rewrite Ropp_0, Rpower_O by lra. ring. }
  assert (F4: f 4 = / 4).
  { unfold f, broken_power_law. cbv zeta. destruct (Rlt_dec 4 2); [lra|]. replace (2 / 2) with 1 by field. replace (4 / 2) with 2 by field.
    unfold Rpower at 1. rewrite ln_1, Rmult_0_r, exp_0. rewrite Rpower_Ropp. replace 2 with (INR 2) at 2 by (simpl; ring). rewrite Rpower_pow by lra. simpl. field. }
  split; [exact F1|]. split; [exact F4|]. split.
  - cbn [map]. rewrite F1, F4. pose proof (interval_powerlaw 1 (-1) 1 4 ltac:(lra) (or_introl eq_refl) ltac:(lra) ltac:(lra)) as X.
    unfold powerlaw in X.
    assert (R1: 1 * Rpower 1 (-1) = 1) by (unfold Rpower; rewrite ln_1, Rmult_0_r, exp_0; ring).
    assert (R4: 1 * Rpower 4 (-1) = / 4). { replace (-1) with (- (1)) by ring. rewrite Rpower_Ropp, Rpower_1 by lra. ring. }
    rewrite R1, R4 in X. unfold trapz_loglog. cbn [trapz_intervals fold_right]. rewrite Rplus_0_r.
    pose proof (is_RInt_power_m1 1 4 1 ltac:(lra) ltac:(lra)) as Y.
    assert (Z: is_RInt (fun x => 1 * Rpower x (-1)) 1 4 (1 * 1 * ln (4 / 1))).
    { apply (is_RInt_ext (fun x => 1 * Rpower (x / 1) (-1))); [|exact Y]. intros x _. replace (x / 1) with x by field. reflexivity. }
    pose proof (is_RInt_unique _ _ _ _ X) as U1. pose proof (is_RInt_unique _ _ _ _ Z) as U2. rewrite U1 in U2. rewrite U2. replace (4 / 1) with 4 by field. ring.
  - apply exp_lt_inv. rewrite exp_ln by lra. pose proof (exp_ge_1p (/ 2)) as H. assert (E: exp 2 = exp (/ 2) * exp (/ 2) * (exp (/ 2) * exp (/ 2))) by (rewrite <- !exp_plus; f_equal; lra).
    rewrite E. set (q := exp (/ 2)) in *. assert (9 / 4 <= q * q) by nra. nra.
Qed.
Example C169_example_energy : let pd := fun E => cutoff_power_law E 1 1 2 10 1 in
  compute_We (/ 2) 20 pd 1 100 None None <= Rpower (Rpower (100 / 1) (/ INR (Z.to_nat (Z.max 10 (Int_part (20 * (ln (100 / 1) / ln 10)))) - 1))) (/ 10 ^ 10) * RInt (fun E => E * pd E) 1 100.
Proof.
  intros pd. apply (C169_lower_bounds (/ 2) 20 1 1 None None 1 100 pd); cbn [bound]; try lra. left. exists 2, 10, 1. split; [lra|reflexivity].
Qed.
