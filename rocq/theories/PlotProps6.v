(** C88, C91: which energies count as equal in a residual plot; names of the files. *)
From Coq Require Import Reals List ZArith Bool String Ascii Arith Permutation Lra Lia.
From Verif Require Import Outcome SimplexModel UnitsModel DataModel AnalysisModel AnalysisProofs AnalysisProps PlotModel PlotProps.
Import ListNotations.
Local Open Scope R_scope.

(** ** C88: a model at an energy E' is compared as such with a detection at E when the
    two agree to 1e-5 (plus 1e-8 in the unit of the table), and interpolated otherwise *)
Theorem C88_tolerance_partial : forall interp E E' F M,
  let r x := residuals (mkNU 1 1 1 1) interp cu1 [mkR E F 1 1 0 0 0 false NaN] (mkQ [E'] (u1 d_energy)) (mkQ [M] (u1 d_diff_flux)) (u1 d_energy) false = Ok [(E, x)] in
  (Rabs (E - E') <= 1 / 10 ^ 8 + Rabs E' / 10 ^ 5 -> r (Some (F - M))) /\
  (1 / 10 ^ 8 + Rabs E' / 10 ^ 5 < Rabs (E - E') -> r (option_map (fun y => F - y) (interp [E'] [M] E))).
Proof.
  intros interp E E' F M. cbv beta zeta. assert (Q8 : 0 < 10 ^ 8) by (apply pow_lt; lra). assert (Q5 : 0 < 10 ^ 5) by (apply pow_lt; lra).
  unfold residuals, sed_conversion, qto, obind. cbn -[pow]. cbv zeta. unfold allclose. cbn -[pow].
  replace (E' * (1 / 1)) with E' by field.
  destruct (Rle_dec _ _) as [H|H]; cbn -[pow]; unfold residual_group, sed_conversion, qto, obind, qsum; cbn -[pow]; split; intros G.
  - f_equal. f_equal. f_equal; [field|]. f_equal. field.
  - exfalso. lra.
  - exfalso. lra.
  - match goal with |- context [interp [?a] [?b] ?c] => replace a with E' by field; replace b with M by field; replace c with E by field end.
    f_equal. f_equal. f_equal. destruct (interp [E'] [M] E); cbn; [f_equal; field|reflexivity].
Qed.
Print Assumptions C88_tolerance_partial.
Example C88_tolerance_example : Rabs (100 - 1000001 / 10000) <= 1 / 10 ^ 8 + Rabs (1000001 / 10000) / 10 ^ 5 /\ 1 / 10 ^ 8 + Rabs 101 / 10 ^ 5 < Rabs (100 - 101).
Proof.
  rewrite !(Rabs_left (_ - _)) by lra. rewrite !Rabs_pos_eq by lra. cbn. lra.
Qed.

(** ** C91: the file of a parameter carries its name, without the logarithm *)
Theorem C91_names : forall out label k, is_kind label k ->
  chain_file out label = (out ++ "_chain_" ++ match k with Plain => label | Log10 name | Log name => name end ++ ".png")%string.
Proof.
  intros out label k K. unfold chain_file, file_label. destruct k as [|name|name]; cbn [is_kind] in K.
  - destruct K as (-> & ->). reflexivity.
  - destruct K as (-> & NP). destruct (name_of_log "log10" name eq_refl NP) as (E1 & _).
    change ("log10(" ++ name ++ ")")%string with ("log10" ++ "(" ++ name ++ ")")%string. rewrite E1.
    replace (contains "log10(" ("log10" ++ "(" ++ name ++ ")")) with true by (symmetry; apply (contains_prefix "log10(" (name ++ ")"))).
    rewrite orb_true_r. reflexivity.
  - destruct K as (-> & NP). destruct (name_of_log "log" name eq_refl NP) as (E1 & _).
    change ("log(" ++ name ++ ")")%string with ("log" ++ "(" ++ name ++ ")")%string. rewrite E1.
    replace (contains "log(" ("log" ++ "(" ++ name ++ ")")) with true by (symmetry; apply (contains_prefix "log(" (name ++ ")"))).
    reflexivity.
Qed.
Print Assumptions C91_names.
Example C91_names_example : is_kind "log(E0)" (Log "E0") /\ is_kind "index" Plain. Proof. repeat split. Qed.
