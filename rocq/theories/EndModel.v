(** From the data tables given by the user to the log-likelihood of a model: the
    table made by utils.validate_data_table (core.py 336-339) is what the model
    function and lnprobmodel read (core.py 64-121). *)
From Coq Require Import Reals List ZArith Bool String Arith.
From Verif Require Import Outcome SimplexModel UnitsModel DataModel CoreModel.
Import ListNotations.
Local Open Scope R_scope.

(** core.py 92: the number of data["cl"] (utils.py 205-213). Levels that are not numbers are not
    followed further: the theorems that use the value ask for a number. *)
Definition level_of (c : ev) : R := match c with Fin x => x | _ => 0 end.
(** core.py 73-92: the columns read by lnprobmodel; astropy converts the errors to the unit
    of the difference when the quotient of line 79-85 is formed *)
Definition fit_row (cu : cunits) (r : vrow) : row :=
  mkRow (r_f r) (r_flo r * (scale (uflo cu) / scale (uf cu))) (r_fhi r * (scale (ufhi cu) / scale (uf cu))) (r_ul r) (level_of (r_cl r)).
(** core.py 64-94 reading the table of utils.py 38-112 *)
Definition fit_table (d : cunits * list vrow) : table :=
  mkT (mkQ (map r_e (snd d)) (ue (fst d))) (map (fit_row (fst d)) (snd d)) (uf (fst d)).
(** core.py 336-339 and 97-119 with a flat prior: validate, evaluate the model at the
    energies of the table, compare *)
Definition fit_lnl (nu : naima_units) (argsort : list R -> list nat) (ts : list itab) (sed : option bool)
    (model : qty -> outcome qty) : outcome R :=
  obind (validate_data_table nu argsort ts sed) (fun d =>
  obind (model (t_energy (fit_table d))) (fun m => lnprobmodel nu m (fit_table d))).
