(** Model of the spectral functions (src/naima/models.py). *)
From Coq Require Import Reals List Bool String.
From Verif Require Import Outcome.
Import ListNotations.
Local Open Scope R_scope.

(** An energy-like Quantity: a value together with the size of its unit in eV,
    or a non-energy unit ([None]).  `q.to("eV").value` is [to_eV]; astropy
    raises UnitConversionError for other dimensions. *)
(** astropy Quantity, models.py 97-99, 449-454 *)
Record quantity := mkQ { q_value : R; q_unit : option R (* eV per unit *) }.
(** models.py 97-99, 454 *)
Definition to_eV (q : quantity) : outcome R :=
  match q_unit q with Some s => Ok (q_value q * s) | None => Err "UnitConversionError" end.

(** models.py:33-48 - _validate_ene on a Quantity (the dict/Table forms only
    extract the "energy" column first). *)
Definition validate_ene (q : quantity) : outcome quantity :=
  match q_unit q with Some _ => Ok q | None => Err "TypeError" end.

(** validator.py:27-54 with domain="positive": rejects values < 0 only. *)
Definition validate_positive (q : quantity) : outcome quantity :=
  obind (validate_ene q) (fun q => if Rlt_dec (q_value q) 0 then Err "ValueError" else Ok q).

(** models.py:88-92 *)
Definition power_law (e amplitude e_0 alpha : R) : R :=
  let xx := e / e_0 in amplitude * Rpower xx (- alpha).

(** models.py:157-161 *)
Definition cutoff_power_law (e amplitude e_0 alpha e_cutoff beta : R) : R :=
  let xx := e / e_0 in
  amplitude * Rpower xx (- alpha) * exp (- Rpower (e / e_cutoff) beta).

(** models.py:234-238 *)
Definition broken_power_law (e amplitude e_0 e_break alpha_1 alpha_2 : R) : R :=
  let K := if Rlt_dec e e_break then 1 else Rpower (e_break / e_0) (alpha_2 - alpha_1) in
  let alpha := if Rlt_dec e e_break then alpha_1 else alpha_2 in
  amplitude * K * Rpower (e / e_0) (- alpha).

(** models.py:330-335 *)
Definition cutoff_broken_power_law (e amplitude e_0 e_break alpha_1 alpha_2 e_cutoff beta : R) : R :=
  let K := if Rlt_dec e e_break then 1 else Rpower (e_break / e_0) (alpha_2 - alpha_1) in
  let alpha := if Rlt_dec e e_break then alpha_1 else alpha_2 in
  let ee2 := e / e_cutoff in
  amplitude * K * Rpower (e / e_0) (- alpha) * exp (- Rpower ee2 beta).

(** models.py:402-407 *)
Definition log_parabola (e amplitude e_0 alpha beta : R) : R :=
  let ee := e / e_0 in
  let eeponent := - alpha - beta * ln ee in
  amplitude * Rpower ee eeponent.

(** The objects: models.py 49-422.  Constructor arguments in the order of
    __init__; energies are quantities, the other parameters numbers (the unit
    of the amplitude passes through unchanged). *)
Inductive spectral :=
| PowerLaw (amplitude : R) (e_0 : quantity) (alpha : R)
| ExponentialCutoffPowerLaw (amplitude : R) (e_0 : quantity) (alpha : R) (e_cutoff : quantity) (beta : R)
| BrokenPowerLaw (amplitude : R) (e_0 e_break : quantity) (alpha_1 alpha_2 : R)
| ExponentialCutoffBrokenPowerLaw (amplitude : R) (e_0 e_break : quantity) (alpha_1 alpha_2 : R) (e_cutoff : quantity) (beta : R)
| LogParabola (amplitude : R) (e_0 : quantity) (alpha beta : R).

(** The validation done by each __init__ (80-86, 145-155, 222-232, 310-328,
    393-400). *)
Definition construct (m : spectral) : outcome spectral :=
  let all qs := obind (mapM validate_positive qs) (fun _ => Ok m) in
  match m with
  | PowerLaw _ e0 _ | LogParabola _ e0 _ _ => all [e0]
  | ExponentialCutoffPowerLaw _ e0 _ ec _ => all [e0; ec]
  | BrokenPowerLaw _ e0 eb _ _ => all [e0; eb]
  | ExponentialCutoffBrokenPowerLaw _ e0 eb _ _ ec _ => all [e0; eb; ec]
  end.

(** __call__ and _calc for one energy (94-106, 163-177, 240-254, 337-354,
    409-422); numpy applies it to every element of an array.  Caching is the
    subject of MemoModel. *)
Definition call (m : spectral) (e : quantity) : outcome R :=
  obind (validate_ene e) (fun e =>
  obind (to_eV e) (fun e =>
  match m with
  | PowerLaw A e0 a => omap (fun e0 => power_law e A e0 a) (to_eV e0)
  | ExponentialCutoffPowerLaw A e0 a ec b =>
      obind (to_eV e0) (fun e0 => omap (fun ec => cutoff_power_law e A e0 a ec b) (to_eV ec))
  | BrokenPowerLaw A e0 eb a1 a2 =>
      obind (to_eV e0) (fun e0 => omap (fun eb => broken_power_law e A e0 eb a1 a2) (to_eV eb))
  | ExponentialCutoffBrokenPowerLaw A e0 eb a1 a2 ec b =>
      obind (to_eV e0) (fun e0 => obind (to_eV eb) (fun eb =>
      omap (fun ec => cutoff_broken_power_law e A e0 eb a1 a2 ec b) (to_eV ec)))
  | LogParabola A e0 a b => omap (fun e0 => log_parabola e A e0 a b) (to_eV e0)
  end)).

(** ** TableModel, models.py:425-469 *)
Section Table.
  (** scipy's interp1d(kind="cubic") inside the tabulated range: an external
      function of the nodes (log10 E, log10 y) and of the abscissa. *)
  Variable cubic : list (R * R) -> R -> R.

  (** np.log10, models.py 454-468 *)
  Definition log10 (x : R) : R := ln x / ln 10.
  (** np.power(10, .), models.py 468 *)
  Definition pow10 (x : R) : R := Rpower 10 x.

  (** 449-463: the nodes handed to interp1d; energies already in eV. *)
  Definition table_nodes (energy values : list R) : list (R * R) :=
    combine (map log10 energy) (map log10 values).

  (** interp1d(bounds_error=False, fill_value=-inf): [None] stands for -inf,
      returned strictly outside [min loge, max loge]. *)
  Definition interplogy (nodes : list (R * R)) (x : R) : option R :=
    let xs := map fst nodes in
    match xs with
    | [] => None
    | x0 :: r =>
        let lo := fold_right Rmin x0 r in
        let hi := fold_right Rmax x0 r in
        if Rlt_dec x lo then None else if Rlt_dec hi x then None else Some (cubic nodes x)
    end.

  (** np.power(10, .) with 10^-inf = 0 *)
  Definition xpow10 (o : option R) : R := match o with Some v => pow10 v | None => 0 end.

  (** 465-469 *)
  Definition table_call (energy values : list R) (amplitude e : R) : R :=
    amplitude * xpow10 (interplogy (table_nodes energy values) (log10 e)).

  (** ** EblAbsorptionModel, models.py:472-552
      The table: tabulated energies (eV) and, for a redshift, its column of
      optical depths (the columns are tau, the comment in the code says
      log(tau)).  1 GeV = 1e9 eV, 100 TeV = 1e14 eV. *)
  (** 516-522: np.arange(0.01, 4, 0.01), nearest entry, first one on ties *)
  Fixpoint argmin_from (i : nat) (best : nat) (bv : R) (l : list R) : nat :=
    match l with
    | [] => best
    | v :: r => if Rlt_dec v bv then argmin_from (S i) i v r else argmin_from (S i) best bv r
    end.
  (** models.py 525-527 *)
  Definition argmin (l : list R) : nat :=
    match l with [] => O | v :: r => argmin_from 1 0 v r end.
  (** models.py 522 *)
  Definition redshift_list (n : nat) : list R := map (fun i => INR (S i) / 100) (seq 0 n).

  (** 520-533: the values 10^tau given to TableModel *)
  Definition ebl_taus (columns : list (list R)) (redshift : R) (nenergy : nat) : list R :=
    if Rle_dec (1 / 100) redshift then
      let i := argmin (map (fun z => Rabs (z - redshift)) (redshift_list 399)) in
      map pow10 (map (fun t => if Rlt_dec 150 t then 150 else t) (nth i columns []))
    else map pow10 (repeat 0 nenergy).

  (** 542-552, one energy in eV.  np.log10 of a zero (outside the table) is
      -inf; [None] in the result stands for the infinite exp(+inf). *)
  Definition ebl_transmission (energy : list R) (columns : list (list R)) (redshift e : R) : option R :=
    let taus := ebl_taus columns redshift (List.length energy) in
    if Rlt_dec e (10 ^ 9) then Some (exp (- 0))
    else if Rlt_dec (10 ^ 14) e then Some (exp (- log10 6000))
    else
      let v := table_call energy taus 1 e in
      if Req_EM_T v 0 then None else Some (exp (- log10 v)).
End Table.

(** For exactly four nodes the cubic spline of interp1d is the cubic polynomial
    through them (not-a-knot end conditions leave a single polynomial piece). *)
Definition lagrange4 (nodes : list (R * R)) (x : R) : R :=
  match nodes with
  | [(a, p); (b, q); (c, r); (d, s)] =>
      p * ((x - b) * (x - c) * (x - d)) / ((a - b) * (a - c) * (a - d)) +
      q * ((x - a) * (x - c) * (x - d)) / ((b - a) * (b - c) * (b - d)) +
      r * ((x - a) * (x - b) * (x - d)) / ((c - a) * (c - b) * (c - d)) +
      s * ((x - a) * (x - b) * (x - c)) / ((d - a) * (d - b) * (d - c))
  | _ => 0
  end.
