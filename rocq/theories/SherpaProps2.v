(** C101: what the Sherpa models pass on. *)
From Coq Require Import Reals List Bool String Arith Lra Lia.
From Verif Require Import Outcome TrapzModel SpectralModel ElectronModel SeedModel SherpaModel.
Import ListNotations.
Local Open Scope R_scope.

(** The inverse Compton model has the CMB, and FIR and NIR exactly if their energy
    density is not 0, with the temperatures and densities of the parameters. *)
Theorem C101_seed_fields_partial : forall ar eV TFIR uFIR TNIR uNIR, 0 < eV -> 0 <= TFIR -> 0 <= TNIR -> 0 <= uFIR -> 0 <= uNIR ->
  exists fields, mapM (process1 ar eV) (seedspec eV TFIR uFIR TNIR uNIR) = Ok fields /\ NoDup (map fst fields) /\
    (forall s, In ("CMB"%string, s) fields <-> s = Thermal (272548 / 100000) (ar * (272548 / 100000) ^ 4) None) /\
    (forall s, In ("FIR"%string, s) fields <-> uFIR <> 0 /\ s = Thermal TFIR (uFIR * eV) None) /\
    (forall s, In ("NIR"%string, s) fields <-> uNIR <> 0 /\ s = Thermal TNIR (uNIR * eV) None) /\
    (forall n s, In (n, s) fields -> n = "CMB"%string \/ n = "FIR"%string \/ n = "NIR"%string).
Proof.
  intros ar eV TFIR uFIR TNIR uNIR HE HT1 HT2 HF HN. unfold seedspec.
  assert (K : forall name T u, 0 <= T -> 0 < u -> process1 ar eV (SIso name (Temperature T) (EnergyDensity [u * eV])) = Ok (name, Thermal T (u * eV) None)).
  { intros name T u H1 H2. assert (0 < u * eV) by (apply Rmult_lt_0_compat; lra).
    cbn. unfold thermal. destruct (Rlt_dec T 0); [lra|]. destruct (Req_EM_T (u * eV) 0); [lra|]. destruct (Rlt_dec (u * eV) 0); [lra|]. reflexivity. }
  destruct (Rlt_dec 0 uFIR) as [F|F], (Rlt_dec 0 uNIR) as [N|N]; cbn [app mapM]; rewrite ?K by assumption; cbn;
    (eexists; split; [reflexivity|]; cbn; split; [repeat constructor; cbn; intuition discriminate|]; repeat split;
     intros; repeat match goal with
       | H : _ \/ _ |- _ => destruct H as [H|H]
       | H : False |- _ => destruct H
       | H : _ /\ _ |- _ => destruct H
       | H : (_, _) = (_, _) |- _ => first [discriminate H | injection H as ?; subst]
       end; subst; auto 6; try lra; try (exfalso; lra)).
Qed.
Print Assumptions C101_seed_fields_partial.

(** The flux is the luminosity over 4 pi d^2 for every positive distance. *)
Theorem C101_distance_partial : forall lum d e, 0 < d -> exists f, sherpa_flux lum d e = Ok f /\ f * (4 * PI * d ^ 2) = lum e.
Proof.
  intros lum d e H. unfold sherpa_flux. destruct (Req_EM_T d 0); [lra|]. eexists. split; [reflexivity|]. pose proof PI_RGT_0. field. lra.
Qed.
Print Assumptions C101_distance_partial.
(** Refuted (code defect): the distance parameter may be 0 (min=0), for which every model
    raises UnitConversionError. *)
Theorem C101_distance_zero_refuted : forall lum e, sherpa_flux lum 0 e = Err "UnitConversionError".
Proof. intros. unfold sherpa_flux. destruct (Req_EM_T 0 0); [reflexivity|lra]. Qed.
Print Assumptions C101_distance_zero_refuted.
Example C101_example : exists fields, mapM (process1 1 1) (seedspec 1 30 (2 / 10) 3000 0) = Ok fields /\ map fst fields = ["CMB"; "FIR"]%string.
Proof.
  unfold seedspec. destruct (Rlt_dec 0 (2 / 10)); [|lra]. destruct (Rlt_dec 0 0); [lra|]. cbn. unfold thermal.
  destruct (Rlt_dec 30 0); [lra|]. destruct (Req_EM_T (2 / 10 * 1) 0); [lra|]. destruct (Rlt_dec (2 / 10 * 1) 0); [lra|]. eexists. split; reflexivity.
Qed.
