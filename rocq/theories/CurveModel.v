(** Model of the curves drawn for a fit: plot.find_ML (676-684), _process_blob (273-343),
    _read_or_calc_samples (346-393), _calc_ML (396-435), _plot_MLmodel (506-518),
    plot_samples (594-664), plot_blob (705-744) and the axes of plot_fit without data
    (946-962), of src/naima/plot.py, with units, and of what core.lnprob stores (97-120).
    The run without blobs (find_ML 685-693) is not modelled: core.lnprob always stores some. *)
From Coq Require Import Reals List ZArith Bool String Arith.
From Verif Require Import Outcome SimplexModel UnitsModel AnalysisModel PlotModel2.
Import ListNotations.
Local Open Scope R_scope.

(** what a blob may hold: a Quantity array, a Quantity scalar, a number, a tuple or list of
    Quantity arrays, anything else. plot.py 296-341, 677-684 *)
Inductive bitem := BQ (q : qty) | BScalar (v : R) (u : unit_) | BNum | BSeq (l : list qty) | BOther.
(** what a model function returns: a Quantity array, or a tuple. core.py 105-112 *)
Inductive mout := MQ (q : qty) | MTuple (l : list bitem).
(** core.py 104-112, 120: what is stored with the sample *)
Definition stored (m : mout) : list bitem := match m with MQ q => [BQ q; BNum] | MTuple l => l end.

Section Curve.
  (** [Cols]: the columns of the data other than energy and flux *)
  Variables (Cols : Type) (nu : naima_units).
  (** what a model function sees of the data: a table in the fit (core.py 103), and a dict
      of two entries in plot.py 372-375, 413-416 *)
  Record view := mkV { v_energy : qty; v_flux : qty; v_cols : option Cols }.
  (** the model function, core.py 103, plot.py 383, 417 *)
  Definition modelfn := list R -> view -> outcome mout.
  (** a sample of the chain: core.py 120, plot.py 671-677 *)
  Record csample := mkC { c_par : list R; c_lp : ev; c_blob : list bitem }.
  (** the sampler, plot.py 671-677 *)
  Record crun := mkR { c_steps : list (list csample); c_fn : modelfn; c_data : view }.
  (** get_chain(flat=True), plot.py 377 *)
  Definition cflat (r : crun) : list csample := List.concat (c_steps r).
  (** out-of-range indices, which do not occur in plot.py 673-677 *)
  Definition cnone : csample := mkC [] NInf [].
  (** second dimension of the chain, plot.py 673 *)
  Definition cwalkers (r : crun) : nat := match c_steps r with [] => 0%nat | s :: _ => List.length s end.
  (** 672-674 *)
  Definition best (r : crun) : csample :=
    let n := argmax (map c_lp (cflat r)) in
    nth (n mod cwalkers r) (nth (n / cwalkers r) (c_steps r) []) cnone.

  (** 677-684 and 424-431: energies and values. A scalar Quantity is later multiplied by
      the array of conversion factors (511, 514). *)
  Definition read_blob (energy : qty) (b : option bitem) : outcome (qty * qty) :=
    match b with
    | None => Err "IndexError"
    | Some (BQ q) => Ok (energy, q)
    | Some (BScalar v u) => Ok (energy, mkQ (map (fun _ => v) (vals energy)) u)
    | Some (BSeq [x; y]) => Ok (x, y)
    | Some _ => Err "TypeError"
    end.
  (** plot.py 400-416: energies for which the model is recomputed and the data passed *)
  Definition new_view (r : crun) (a b : R) (eu : unit_) (n : nat) : outcome view :=
    if dims_eqb (dim eu) d_energy
    then Ok (mkV (mkQ (logspace a b n) eu) (mkQ (repeat 0 n) (qunit (v_flux (c_data r)))) None)
    else Err "TypeError".
  (** 396-435 _calc_ML *)
  Definition calc_ML (r : crun) (idx : nat) (e_range : option (R * R * unit_)) (n : nat) : outcome (qty * qty) :=
    obind (read_blob (v_energy (c_data r)) (nth_error (c_blob (best r)) idx)) (fun ml =>                  (* 399 *)
    match e_range with
    | None => Ok ml
    | Some (a, b, eu) =>
        obind (new_view r a b eu n) (fun v =>
        obind (c_fn r (c_par (best r)) v) (fun out =>                                                    (* 417 *)
        read_blob (v_energy v) (match out with MQ q => Some (BQ q) | MTuple l => nth_error l idx end)))  (* 419-431 *)
    end).
  (** 511-518, 648-659: the points of a line; matplotlib refuses columns of different lengths *)
  Definition line (e_unit : unit_) (sed : bool) (xy : qty * qty) : outcome (list (R * R)) :=
    let '(x, y) := xy in
    if negb (Nat.eqb (List.length (vals x)) (List.length (vals y))) then Err "ValueError" else
    obind (sed_conversion nu x (qunit y) sed) (fun fs =>
    obind (qto e_unit x) (fun xs =>
    obind (qto (fst fs) (qmul y (snd fs))) (fun ys => Ok (combine (vals xs) (vals ys))))).
  (** 506-518 _plot_MLmodel *)
  Definition plot_ML (r : crun) (idx : nat) (e_range : option (R * R * unit_)) (n : nat) (e_unit : unit_) (sed : bool) : outcome (list (R * R)) :=
    obind (calc_ML r idx e_range n) (line e_unit sed).

  (** u.Quantity(list of Quantities), 306, 331: all in the unit of the first; arrays of
      different lengths are refused *)
  Fixpoint same_unit (u : unit_) (len : nat) (l : list qty) : outcome (list qty) :=
    match l with
    | [] => Ok []
    | q :: rest => if Nat.eqb (List.length (vals q)) len then obind (qto u q) (fun q' => obind (same_unit u len rest) (fun r => Ok (q' :: r)))
                   else Err "ValueError"
    end.
  (** plot.py 306, 331 *)
  Definition as_quantity (l : list qty) : outcome (list qty) :=
    match l with [] => Ok [] | q :: _ => same_unit (qunit q) (List.length (vals q)) l end.
  (** plot.py 303-313, 328-338: the values of entry [idx] of every blob *)
  Fixpoint gather (get : bitem -> outcome qty) (idx : nat) (blobs : list (list bitem)) : outcome (list qty) :=
    match blobs with
    | [] => Ok []
    | b :: rest => match nth_error b idx with
                   | None => Err "IndexError"
                   | Some i => obind (get i) (fun q => obind (gather get idx rest) (fun r => Ok (q :: r)))
                   end
    end.
  (** a Quantity, plot.py 303-313; other entries make u.Quantity fail *)
  Definition get_q (i : bitem) : outcome qty := match i with BQ q => Ok q | BScalar v u => Ok (mkQ [v] u) | _ => Err "TypeError" end.
  (** m[modelidx][1], plot.py 331 *)
  Definition get_2 (i : bitem) : outcome qty := match i with BSeq (_ :: y :: _) => Ok y | _ => Err "TypeError" end.
  (** 273-343 _process_blob: [b0] the blob looked at, [blobs] those used. [None] instead of
      energies: a distribution of scalars. Numbers without unit are not modelled in detail. *)
  Definition process (energy : qty) (b0 : option (list bitem)) (blobs : list (list bitem)) (idx : nat) : outcome (option qty * list qty) :=
    match b0 with None => Err "IndexError" | Some b0 =>
    match nth_error b0 idx with
    | None => Err "IndexError"
    | Some (BQ q) =>
        if Nat.eqb (List.length (vals q)) (List.length (vals energy)) then
          obind (obind (gather get_q idx blobs) as_quantity) (fun l => Ok (Some energy, l))
        else if Nat.eqb (List.length (vals q)) 1 then
          obind (obind (gather get_q idx blobs) as_quantity) (fun l => Ok (None, l))
        else Err "UnboundLocalError"
    | Some (BScalar v u) =>
        obind (obind (gather get_q idx blobs) as_quantity) (fun l => Ok (if Nat.eqb (List.length (vals energy)) 1 then Some energy else None, l))
    | Some BNum => Ok (None, [])
    | Some (BSeq [x; y]) => obind (obind (gather get_2 idx blobs) as_quantity) (fun l => Ok (Some x, l))
    | Some _ => Err "TypeError"
    end end.
  (** calls of the model function by Pool.starmap (382-383): the first exception counts *)
  Fixpoint call_all (fn : modelfn) (v : view) (ps : list (list R)) : outcome (list (list bitem)) :=
    match ps with
    | [] => Ok []
    | p :: rest => obind (fn p v) (fun m => obind (call_all fn v rest) (fun l => Ok (match m with MQ q => [BQ q] | MTuple b => b end :: l)))   (* 385-389 *)
    end.
  (** the samples of the last step or all, plot.py 303-313, 377 *)
  Definition used (r : crun) (last_step : bool) : list csample := if last_step then last (c_steps r) [] else cflat r.
  (** 346-393; [draw n k]: n random indices below k, called with the state of the generator *)
  Definition samples (draw : nat -> nat -> list nat) (r : crun) (idx : nat) (last_step : bool) (e_range : option (R * R * unit_)) (n : nat) : outcome (option qty * list qty) :=
    match e_range with
    | None => process (v_energy (c_data r)) (option_map c_blob (nth_error (last (c_steps r) []) 0)) (map c_blob (used r last_step)) idx
    | Some (a, b, eu) =>
        obind (new_view r a b eu n) (fun v =>
        let chain := used r last_step in
        let pars := map (fun i => c_par (nth i chain cnone)) (draw 100%nat (List.length chain)) in
        obind (call_all (c_fn r) v pars) (fun blobs => process (v_energy v) (nth_error blobs 0) blobs idx))
    end.
  (** the lines of several samples *)
  (** plot.py 652-659 *)
  Fixpoint lines (e_unit : unit_) (sed : bool) (x : qty) (ys : list qty) : outcome (list (list (R * R))) :=
    match ys with [] => Ok [] | y :: r => obind (line e_unit sed (x, y)) (fun l => obind (lines e_unit sed x r) (fun ls => Ok (l :: ls))) end.
  (** 640-663 plot_samples: the lines drawn, the best fit last. Without energies (scalars)
      the conversion of units fails. *)
  Definition plot_samples (draw draw2 : nat -> nat -> list nat) (r : crun) (idx : nat) (sed : bool) (n_samples : nat) (last_step : bool)
      (e_range : option (R * R * unit_)) (n : nat) (e_unit : unit_) : outcome (list (list (R * R)) * list (R * R)) :=
    obind (samples draw r idx last_step e_range n) (fun xm =>
    match xm with
    | (None, _) => Err "AttributeError"
    | (Some x, model) =>
        obind (lines e_unit sed x (map (fun i => nth i model (mkQ [] (mkU 1 d_none))) (draw2 n_samples (List.length model)))) (fun ls =>
        obind (plot_ML r idx e_range n e_unit sed) (fun ml => Ok (ls, ml)))
    end).
  (** 705-744 plot_blob: a distribution of the values given, or a fit *)
  Inductive shown := Distribution (l : list qty) | Fit.
  (** plot.py 727-744 *)
  Definition plot_blob (r : crun) (idx : nat) (last_step : bool) : outcome shown :=
    obind (process (v_energy (c_data r)) (option_map c_blob (nth_error (last (c_steps r) []) 0)) (map c_blob (used r last_step)) idx) (fun xm =>
    match fst xm with None => Ok (Distribution (snd xm)) | Some _ => Ok Fit end).

  (** 946-962: axes without data. [axis]: bottom and top of the y axis matplotlib has;
      [pts]: the curve of the best fit in the units of the axes. The new bottom, and the
      new right end of the energy axis ([None]: a limit that matplotlib ignores). *)
  Definition bare_axes (sed : bool) (axis : R * R) (pts : list (R * R)) : outcome (R * option R) :=
    let ymin := Rmax (fst axis) (snd axis / 10 ^ (if sed then 10 else 20)) in
    match filter (fun p => if Rlt_dec ymin (snd p) then true else false) pts with
    | [] => Err "ValueError"                                                       (* np.max of nothing *)
    | p :: rest => obind (decade_ceil (lmax (map fst rest) (fst p))) (fun x => Ok (ymin, x))
    end.
End Curve.
Arguments mkV {Cols}. Arguments v_energy {Cols}. Arguments v_flux {Cols}. Arguments v_cols {Cols}.
Arguments mkR {Cols}. Arguments c_steps {Cols}. Arguments c_fn {Cols}. Arguments c_data {Cols}.
Arguments cflat {Cols}. Arguments cwalkers {Cols}. Arguments best {Cols}. Arguments used {Cols}. Arguments new_view {Cols}.
Arguments calc_ML {Cols}. Arguments plot_ML {Cols}. Arguments samples {Cols}. Arguments plot_samples {Cols}. Arguments plot_blob {Cols}.
Arguments call_all {Cols}.
