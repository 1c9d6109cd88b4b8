(** Model of the numbers printed on the diagnostic plots
    (src/naima/plot.py:65-108). Strings are represented by the decimal numbers they
    show. *)
From Coq Require Import Reals ZArith List String Bool.
From Verif Require Import Outcome.
Local Open Scope R_scope.

(** np.log10, plot.py 76 *)
Definition log10 (x : R) : R := ln x / ln 10.
(** 10**n, plot.py 78 *)
Definition ten (n : Z) : R := powerRZ 10 n.
(** int(): truncation towards zero *)
(** int(), plot.py 76 *)
Definition trunc (x : R) : Z := if Rle_dec 0 x then Int_part x else (- Int_part (- x))%Z.

(** What one label shows: (value, errors) times 10^order; [sy]: one symmetric error *)
Inductive errors := Sym (e : R) | Asym (hi lo : R).
(** the text of plot.py 94-108 *)
Record shown := mkShown { s_val : R; s_err : errors; s_order : Z }.

Section Report.
  (** the nearest integer, as round() and "{:.nf}".format compute it: a parameter
      with the contract |x - rnd x| <= 1/2 *)
  Variable rnd : R -> Z.

  (** round2, 65-72: the number shown with n decimals; for n < 1 an integer that is a
      multiple of 10^-n *)
  Definition round2 (x : R) (n : Z) : R := IZR (rnd (x * ten n)) * ten (- n).

  (** 83-85, 88-90, 101-103: number of decimals that leaves one digit, or two if the
      first is 1. For x = 0 the logarithm is -inf and int() raises OverflowError, for
      x < 0 it is nan and int() raises ValueError. *)
  Definition decimals (x : R) : outcome Z :=
    if Req_EM_T x 0 then Err "OverflowError"
    else if Rlt_dec x 0 then Err "ValueError"
    else let n := (- Int_part (log10 x))%Z in Ok (if Rlt_dec (x * ten n) 2 then (n + 1)%Z else n).

  (** _latex_value_error, 75-108 *)
  Definition value_error (val elo ehi : R) : outcome shown :=
    if Req_EM_T val 0 then Err "OverflowError"
    else
      let order0 := trunc (log10 (Rabs val)) in
      let order := if (Z.ltb 2 order0 || Z.ltb order0 (-2))%bool then order0 else 0%Z in
      let val := val / ten order in
      let elo := elo / ten order in
      let ehi := ehi / ten order in
      obind (decimals elo) (fun nlo =>
      if Req_EM_T ehi 0 then Ok (mkShown (round2 val nlo) (Sym (round2 elo nlo)) order)
      else
        obind (decimals ehi) (fun nhi =>
        if Rlt_dec (1 / 4) (Rabs (elo - ehi) / ((elo + ehi) / 2)) then
          Ok (mkShown (round2 val (Z.max nlo nhi)) (Asym (round2 ehi nhi) (round2 elo nlo)) order)
        else
          let e := (elo + ehi) / 2 in
          obind (decimals e) (fun n => Ok (mkShown (round2 val n) (Sym (round2 e n)) order)))).
End Report.
