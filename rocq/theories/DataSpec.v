(** Specification vocabulary for data tables: what a table means physically,
    independently of how utils.py represents it. *)
From Coq Require Import Reals List ZArith Bool String Arith Permutation Sorted.
From Verif Require Import Outcome SimplexModel UnitsModel DataModel.
Import ListNotations.
Local Open Scope R_scope.

(** Value of entry [i] of an array in the reference system of units *)
Definition phys (q : qty) (i : nat) : R := nth i (vals q) 0 * scale (qunit q).
(** Value of column [key] in row [i] of an input table *)
Definition pcol (t : itab) (key : string) (i : nat) : R :=
  match dget key (cols t) with Some q => phys q i | None => 0 end.
Definition present (t : itab) (key : string) : bool := match dget key (cols t) with Some _ => true | None => false end.
Definition nrows (t : itab) : nat := match dget "energy" (cols t) with Some q => List.length (vals q) | None => 0%nat end.
Definition row_is_ul (t : itab) (i : nat) : bool :=
  match i_ul t with
  | None | Some UOther => false
  | Some (UInt l) => negb (Z.eqb (nth i l 0%Z) 0)
  | Some (UBool l) => nth i l false
  | Some (UStr l) => String.eqb (nth i l ""%string) "True"
  end.
Definition ul_length (u : ulcol) : option nat :=
  match u with UInt l => Some (List.length l) | UBool l => Some (List.length l) | UStr l => Some (List.length l) | UOther => None end.

(** astropy's invariant: all columns have the length of the table; units have
    positive size *)
Definition rect (t : itab) : Prop :=
  List.Forall (fun c : string * qty => List.length (vals (snd c)) = nrows t /\ 0 < scale (qunit (snd c))) (cols t) /\
  (forall g, i_group t = Some g -> List.length g = nrows t) /\
  (forall u m, i_ul t = Some u -> ul_length u = Some m -> m = nrows t).

(** Exponents of energy and length in a unit *)
Definition energy_exp (d : dims) : Z := fst (fst d).
Definition length_exp (d : dims) : Z := snd (fst d).

(** Conversion factor of the fluxes of a row of energy [E] whose unit has
    dimensions [d]: to an SED (E^2 dN/dE) or to a differential flux *)
Definition sed_factor (sed : bool) (d : dims) (E : R) : R :=
  if sed then (if Z.eqb (energy_exp d) (-1) then E ^ 2 else 1)
  else (if Z.eqb (energy_exp d) 1 then / E ^ 2 else 1).

(** An observation: energy, flux, flux errors, bin half-widths (all in the
    reference system), upper-limit flag, group and confidence level *)
Record obs := mkO { o_E : R; o_F : R; o_lo : R; o_hi : R; o_wlo : R; o_whi : R; o_ul : bool; o_grp : Z; o_cl : ev }.

Definition flux_dims (t : itab) : dims := match dget "flux" (cols t) with Some q => dim (qunit q) | None => d_none end.
Definition energies (t : itab) : list R := map (pcol t "energy") (seq 0 (nrows t)).
Definition groups (t : itab) (g : nat) : list Z := match i_group t with Some l => l | None => repeat (Z.of_nat g) (nrows t) end.

(** Half-widths of the energy bin of row [i], below ([true]) or above the energy *)
Definition half_width (t : itab) (g : nat) (below : bool) (i : nat) : R :=
  let E := pcol t "energy" i in
  if present t "energy_width" then pcol t "energy_width" i / 2
  else if present t "energy_error" then pcol t "energy_error" i
  else if (present t "energy_error_lo" && present t "energy_error_hi")%bool then pcol t (if below then "energy_error_lo" else "energy_error_hi") i
  else if (present t "energy_lo" && present t "energy_hi")%bool then (if below then E - pcol t "energy_lo" i else pcol t "energy_hi" i - E)
  else (if below then fst else snd) (nth i (generate_energy_edges (energies t) (Some (groups t g))) (0, 0)).

(** Row [i] of the [g]-th input table as an observation *)
Definition input_row (sed : bool) (t : itab) (g : nat) (i : nat) : obs :=
  let E := pcol t "energy" i in
  let k := sed_factor sed (flux_dims t) E in
  mkO E
      (k * (if (row_is_ul t i && present t "flux_ul")%bool then pcol t "flux_ul" i else pcol t "flux" i))
      (k * pcol t (if present t "flux_error" then "flux_error" else "flux_error_lo") i)
      (k * pcol t (if present t "flux_error" then "flux_error" else "flux_error_hi") i)
      (half_width t g true i) (half_width t g false i)
      (row_is_ul t i) (nth i (groups t g) 0%Z)
      (match i_cl t with Some c => c | None => SimplexModel.Fin (9 / 10) end).
Fixpoint input_rows (sed : bool) (ts : list itab) (g : nat) : list obs :=
  match ts with [] => [] | t :: r => map (input_row sed t g) (seq 0 (nrows t)) ++ input_rows sed r (S g) end.
(** A row of the result, whose columns have units [cu], as an observation *)
Definition output_row (cu : cunits) (r : vrow) : obs :=
  mkO (r_e r * scale (ue cu)) (r_f r * scale (uf cu)) (r_flo r * scale (uflo cu)) (r_fhi r * scale (ufhi cu))
      (r_elo r * scale (uelo cu)) (r_ehi r * scale (uehi cu)) (r_ul r) (r_grp r) (r_cl r).

(** The output is an SED if asked for, and by default if the first table is *)
Definition wants_sed (ts : list itab) (sed : option bool) : bool :=
  match sed, ts with
  | Some b, _ => b
  | None, t :: _ => Z.eqb (energy_exp (flux_dims t)) 1
  | None, [] => false
  end.

(** numpy.argsort: the indices of the entries in non-decreasing order *)
Definition is_argsort (argsort : list R -> list nat) : Prop := forall l,
  Permutation (argsort l) (seq 0 (List.length l)) /\ StronglySorted Rle (map (fun i => nth i l 0) (argsort l)).
Definition positive_units (nu : naima_units) : Prop := 0 < u_erg nu /\ 0 < u_TeV nu /\ 0 < u_s nu /\ 0 < u_cm nu.

(** ** Well-formed tables *)
(** Column [key] is present and its unit has dimensions [d] *)
Definition col_has (t : itab) (key : string) (d : dims) : Prop := exists q, dget key (cols t) = Some q /\ dim (qunit q) = d.
Definition flux_like (d : dims) : Prop := d = d_flux \/ d = d_diff_flux \/ d = d_power \/ d = d_diff_power.
Definition well_formed (t : itab) : Prop :=
  col_has t "energy" d_energy /\
  (exists d, col_has t "flux" d /\ flux_like d /\
     (if present t "flux_error" then col_has t "flux_error" d
      else col_has t "flux_error_lo" d /\ col_has t "flux_error_hi" d) /\
     (present t "flux_ul" = true -> col_has t "flux_ul" d)) /\
  (if present t "energy_width" then col_has t "energy_width" d_energy
   else if present t "energy_error" then col_has t "energy_error" d_energy
   else if (present t "energy_error_lo" && present t "energy_error_hi")%bool then
     col_has t "energy_error_lo" d_energy /\ col_has t "energy_error_hi" d_energy
   else if (present t "energy_lo" && present t "energy_hi")%bool then
     col_has t "energy_lo" d_energy /\ col_has t "energy_hi" d_energy
   else True) /\
  match i_ul t with
  | None | Some (UInt _) | Some (UBool _) => True
  | Some (UStr l) => List.Forall (fun s => s = "True"%string \/ s = "False"%string) l
  | Some UOther => False
  end.
(** flux (per area) or luminosity *)
Definition per_area (t : itab) : Prop := length_exp (flux_dims t) = (-2)%Z.
