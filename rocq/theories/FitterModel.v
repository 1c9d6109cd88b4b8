(** Model of src/naima/model_fitter.py: the interactive fitter as a machine driven by
    user events, and the choice of the starting point in core.get_sampler. *)
From Coq Require Import Reals List Bool String Arith.
From Verif Require Import Outcome SimplexModel AnalysisModel.
Import ListNotations.
Local Open Scope R_scope.

(** ** Sliders *)
(** model_fitter.py 187-204: range of the slider of a parameter, from its label and
    initial value *)
Definition slider_range (label : string) (v : R) : R * R :=
  if contains "log" label then
    let span := if (contains "norm" label || contains "amplitude" label)%bool then 4 else 2 in (v - span, v + span)
  else if (contains "index" label || contains "alpha" label)%bool then
    if Rlt_dec 0 v then (0, 5) else (-5, 0)
  else if (contains "norm" label || contains "amplitude" label)%bool then (v / 100, v * 100)
  else (v / 10, v * 3).
(** matplotlib (>= 3.10 required by pyproject.toml) Slider._value_in_bounds with the
    default closedmin, closedmax and no step: used for valinit and for the mouse
    position *)
Definition in_bounds (r : R * R) (v : R) : R :=
  if Rle_dec v (fst r) then fst r else if Rle_dec (snd r) v then snd r else v.

Section Fitter.
  (** [curve p]: the line drawn for parameters p (modelfn on the display energies,
      converted); [like p]: the text with the log-likelihood (modelfn on the data);
      [fit p]: core._prefit(p, data, modelfn, None). Err is an exception. *)
  Variables (C T : Type) (curve : list R -> outcome C) (like : list R -> outcome T) (fit : list R -> outcome (list R * bool)).
  Variable hasdata : bool.

  (** the attributes of InteractiveModelFitter, model_fitter.py 57-230 *)
  Record st := mkSt { ranges : list (R * R); vals : list R; pars : list R; auto : bool; is_ml : bool; line : C; text : option T }.
  (** the callbacks registered at model_fitter.py 187-230 *)
  Inductive event := Move (i : nat) (v : R) | Toggle | Update | Fit.

  (** 239-256 update; returns the exception raised, if any *)
  Definition update (s : st) : st * option string :=
    let s1 := mkSt (ranges s) (vals s) (vals s) (auto s) false (line s) (text s) in
    match curve (vals s) with
    | Err e => (s1, Some e)
    | Ok c =>
        let s2 := mkSt (ranges s) (vals s) (vals s) (auto s) false c (text s) in
        if hasdata then
          match like (vals s) with
          | Err e => (s2, Some e)
          | Ok t => (mkSt (ranges s) (vals s) (vals s) (auto s) false c (Some t), None)
          end
        else (s2, None)
    end.
  (** for slider, val in zip(parsliders, pars): slider.set_val(val) *)
  (** model_fitter.py 258-268 *)
  Fixpoint set_vals (vs ps : list R) : list R :=
    match vs, ps with v :: vr, p :: pr => p :: set_vals vr pr | _, _ => vs end.
  (** 258-268 do_fit *)
  Definition do_fit (s : st) : st * option string :=
    match fit (vals s) with
    | Err e => (mkSt (ranges s) (vals s) (vals s) (auto s) (is_ml s) (line s) (text s), Some e)
    | Ok (p, ok) =>
        if ok then
          let (s1, e) := update (mkSt (ranges s) (set_vals (vals s) p) p false (is_ml s) (line s) (text s)) in
          match e with
          | Some e => (s1, Some e)                                                (* autoupdate not restored *)
          | None => (mkSt (ranges s1) (vals s1) (pars s1) (auto s) true (line s1) (text s1), None)
          end
        else (mkSt (ranges s) (vals s) p (auto s) false (line s) (text s), None)
    end.
  (** the value of slider i becomes v: matplotlib Slider._update sets it only if it
      changed, then on_changed calls update_if_auto (235-237) *)
  Definition step (s : st) (e : event) : st * option string :=
    match e with
    | Move i v =>
        let v' := in_bounds (nth i (ranges s) (0, 0)) v in
        if (Nat.ltb i (List.length (vals s)) && if Req_EM_T v' (nth i (vals s) 0) then false else true)%bool then
          let s1 := mkSt (ranges s) (set_nth i v' (vals s)) (pars s) (auto s) (is_ml s) (line s) (text s) in
          if auto s then update s1 else (s1, None)
        else (s, None)
    | Toggle => (mkSt (ranges s) (vals s) (pars s) (negb (auto s)) (is_ml s) (line s) (text s), None)   (* 232-233 *)
    | Update => update s
    | Fit => if hasdata then do_fit s else (s, None)                                (* 217-220 *)
    end.
  (** exceptions in callbacks are printed by matplotlib; the window stays open *)
  (** a session: the callbacks of model_fitter.py 232-268 in the order of the user's actions *)
  Definition run_events (s : st) (es : list event) : st := fold_left (fun s e => fst (step s e)) es s.

  (** 57-227 __init__ *)
  Definition init (p0 : list R) (labels : list string) (auto_update : bool) : outcome st :=
    obind (curve p0) (fun c =>
    obind (if hasdata then obind (like p0) (fun t => Ok (Some t)) else Ok None) (fun t =>
    let rs := map (fun lv => slider_range (fst lv) (snd lv)) (combine labels p0) in
    Ok (mkSt rs (map (fun rv => in_bounds (fst rv) (snd rv)) (combine rs p0)) p0 auto_update false c t))).
End Fitter.
Arguments mkSt {C T}. Arguments ranges {C T}. Arguments vals {C T}. Arguments pars {C T}. Arguments auto {C T}. Arguments is_ml {C T}. Arguments line {C T}. Arguments text {C T}.

(** ** core.get_sampler 421-444: the point the walkers start from.
    [imf]: parameters and P0_IS_ML of the closed interactive fitter; [fitp] the pre-fit
    with the prior *)
Definition start_point (imf : option (list R * bool)) (prefit : bool) (fitp : list R -> list R * bool) (p0 : list R) : list R * bool :=
  let '(p, ml) := match imf with Some x => x | None => (p0, false) end in
  if (prefit && negb ml)%bool then fitp p else (p, ml).
