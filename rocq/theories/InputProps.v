(** Property C174: the documented forms of the data to be plotted. *)
From Coq Require Import Reals List ZArith Bool String Lia.
From Verif Require Import Outcome UnitsModel DataModel DataProps InputModel.
Import ListNotations.
Local Open Scope R_scope.

Section Forms.
Variable nu : naima_units.
Variable argsort : list R -> list nat.

(** A table, a list of tables, and a sampler with data: a table is taken exactly if it is accepted by
    validate_data_table, which is also what get_sampler does with it; a list in the same way; a sampler
    gives the table it was fitted to. *)
Theorem C174_tables_partial : forall ts t cu rows,
  plot_source nu argsort (OList (map OTable ts)) = match validate_data_table nu argsort ts None with Ok (a, b) => Ok (STable a b) | Err e => Err e end /\
  plot_source nu argsort (OTable t) = plot_source nu argsort (OList [OTable t]) /\
  plot_source nu argsort (OSampler cu rows) = Ok (STable cu rows).
Proof.
  intros ts t cu rows. assert (A: all_tables (map OTable ts) = Some ts). { induction ts as [|a l IH]; [reflexivity|]. cbn. rewrite IH. reflexivity. }
  split; [|split; reflexivity]. unfold plot_source, validate_obj. rewrite A. destruct (validate_data_table nu argsort ts None) as [[a b]|e]; [reflexivity|].
  destruct (String.eqb e "TypeError"); reflexivity.
Qed.

(** Anything that is not one of these (no energy in a dict, a list with something else in it, another
    object) is refused with TypeError. *)
Theorem C174_refused_partial : forall l o,
  (~ List.Forall (fun o => exists t, o = OTable t) l -> plot_source nu argsort (OList l) = Err "TypeError"%string) /\
  (o = OOther \/ (exists d, o = ODict d /\ dd_energy d = None /\ dlen d <> 0%nat) -> plot_source nu argsort o = Err "TypeError"%string).
Proof.
  intros l o. split.
  - intros H. unfold plot_source, validate_obj. assert (N: all_tables l = None).
    { induction l as [|a l IH]; [exfalso; apply H; constructor|]. cbn. destruct a as [t| | | | |]; try reflexivity. cbn. rewrite IH; [reflexivity|]. intros F. apply H. constructor; [exists t; reflexivity|exact F]. }
    rewrite N. reflexivity.
  - intros [->|(d & -> & E & L)]; [reflexivity|]. unfold plot_source, validate_obj, dempty. destruct (Nat.eqb_spec (dlen d) 0) as [Z|Z]; [contradiction|]. cbn. rewrite E. reflexivity.
Qed.

(** The dict the documentation allows is accepted as data and then nothing is ever drawn from it: an exception
    is raised whatever it holds, and the dict of the caller has got a new entry "group" if it had the right
    columns and none. *)
Theorem C174_dict_refuted : forall d sed, dd_energy d <> None ->
  plot_source nu argsort (ODict d) = Ok (SDict d) /\
  (exists e, snd (draw_dict nu d sed) = Err e) /\
  (forall e f, dd_energy d = Some e -> dd_flux d = Some f -> (exists x, sed_conversion nu e (qunit f) sed = Ok x) -> dd_group d = None ->
     snd (draw_dict nu d sed) = Err "TypeError"%string /\ exists g, dd_group (fst (draw_dict nu d sed)) = Some g /\ List.length g = (2 + dd_more d)%nat /\ List.Forall (fun z => z = 0%Z) g).
Proof.
  intros d sed HE. destruct (dd_energy d) as [e|] eqn:E; [|congruence]. split; [|split].
  - unfold plot_source, validate_obj, dempty, dlen. rewrite E. cbn. reflexivity.
  - unfold draw_dict. rewrite E. destruct (dd_flux d); [|eexists; reflexivity]. destruct (sed_conversion nu e (qunit q) sed); [|eexists; reflexivity].
    destruct (match dd_group d with Some g => g | None => _ end); eexists; reflexivity.
  - intros e' f Q F (x & SC) G. inversion Q; subst e'. assert (L: dlen d = S (S (dd_more d))) by (unfold dlen; rewrite E, F, G; reflexivity).
    unfold draw_dict. rewrite E, F, SC, G, L. cbn [repeat fst snd]. split; [reflexivity|]. exists (repeat 0%Z (S (S (dd_more d)))). split; [reflexivity|]. split; [apply repeat_length|].
    apply List.Forall_forall. intros z Hz. apply repeat_spec in Hz. exact Hz.
Qed.

(** An iterator over tables passes the check and is then empty: IndexError, whatever the tables. *)
Theorem C174_iterator_refuted : forall ts sed, validate_obj nu argsort (OIter (map OTable ts)) sed = Err "IndexError"%string.
Proof.
  intros ts sed. assert (A: all_tables (map OTable ts) = Some ts). { induction ts as [|a l IH]; [reflexivity|]. cbn. rewrite IH. reflexivity. }
  unfold validate_obj. rewrite A. reflexivity.
Qed.
End Forms.

(** Non-vacuity: the example tables of C52 are accepted in a list; a dict with their columns is not drawn. *)
Example C174_case : forall argsort,
  (exists cu rows, plot_source nu1 argsort (OList [OTable ex_tab; OTable ex_tab]) = Ok (STable cu rows)) /\
  snd (draw_dict nu1 (mkDD (Some (mkQ [1; 2] (mkU 1 d_energy))) (Some (mkQ [3; 4] (mkU 1 d_diff_flux))) None 4) true) = Err "TypeError"%string.
Proof.
  intros argsort. split; [|reflexivity]. destruct (ex_tab_accepted argsort None) as ((cu & rows) & H). exists cu, rows.
  destruct (C174_tables_partial nu1 argsort [ex_tab; ex_tab] ex_tab cu rows) as (Q & _). cbn [map] in Q. rewrite Q, H. reflexivity.
Qed.
