(** The two models of plot._latex_value_error (ReportModel for C87, PlotModel2 for
    C103 and C108) are the same function. *)
From Coq Require Import Reals List ZArith Bool String.
From Verif Require Import Outcome.
From Verif Require ReportModel PlotModel2.
Local Open Scope R_scope.

Definition as_plot (s : ReportModel.shown) : PlotModel2.shown :=
  match ReportModel.s_err s with
  | ReportModel.Sym e => PlotModel2.Symmetric (ReportModel.s_order s) (ReportModel.s_val s) e
  | ReportModel.Asym hi lo => PlotModel2.Asymmetric (ReportModel.s_order s) (ReportModel.s_val s) hi lo
  end.
Theorem C87_models_agree : forall rnd val elo ehi,
  PlotModel2.latex_value_error rnd val elo ehi (1 / 4) = obind (ReportModel.value_error rnd val elo ehi) (fun s => Ok (as_plot s)).
Proof.
  intros rnd val elo ehi. unfold PlotModel2.latex_value_error, ReportModel.value_error.
  destruct (Req_EM_T val 0); [reflexivity|]. cbv zeta.
  change PlotModel2.log10 with ReportModel.log10. change PlotModel2.p10 with ReportModel.ten. change PlotModel2.intZ with ReportModel.trunc.
  set (o := if (_ || _)%bool then _ else _). clearbody o.
  change PlotModel2.decimals with ReportModel.decimals. change PlotModel2.round2 with ReportModel.round2.
  destruct (ReportModel.decimals (elo / ReportModel.ten o)) as [nlo|]; [|reflexivity]. cbn [obind].
  destruct (Req_EM_T (ehi / ReportModel.ten o) 0); [reflexivity|].
  destruct (ReportModel.decimals (ehi / ReportModel.ten o)) as [nhi|]; [|reflexivity]. cbn [obind].
  destruct (Rlt_dec _ _); [reflexivity|].
  destruct (ReportModel.decimals ((elo / ReportModel.ten o + ehi / ReportModel.ten o) / 2)); reflexivity.
Qed.
Print Assumptions C87_models_agree.
