(** Model of more of src/naima/plot.py: the numbers printed by plot_chain and
    plot_distribution, the bands of plot_CI, the axis limits and the decisions of
    plot_fit, overlays made with plot_data, and plot_corner. Only what is handed to
    matplotlib is modelled. *)
From Coq Require Import Reals List ZArith Bool String Ascii Arith.
From Verif Require Import Outcome SimplexModel UnitsModel DataModel AnalysisModel PlotModel.
Import ListNotations.
Local Open Scope R_scope.

(** ** _latex_value_error and round2, plot.py:65-108 *)
(** np.floor, int() of a float *)
(** np.floor, plot.py 83, 88, 99 *)
Definition floorZ (x : R) : Z := (up x - 1)%Z.
(** int(), plot.py 76, 83 *)
Definition intZ (x : R) : Z := if Rle_dec 0 x then floorZ x else (- floorZ (- x))%Z.
(** np.log10, plot.py 76, 83 *)
Definition log10 (x : R) : R := ln x / ln 10.
(** 10**n, plot.py 78, 84 *)
Definition p10 (n : Z) : R := powerRZ 10 n.
(** 81-83: decimals shown for an error e; int() of log10 of zero raises
    OverflowError, of a negative number (nan) ValueError *)
Definition decimals (e : R) : outcome Z :=
  if Req_EM_T e 0 then Err "OverflowError" else if Rlt_dec e 0 then Err "ValueError" else
  let n := (- floorZ (log10 e))%Z in
  Ok (if Rlt_dec (e * p10 n) 2 then (n + 1)%Z else n).
(** the text shown, as the numbers it reads: value and errors, times a power of ten *)
(** the text of plot.py 94-108 *)
Inductive shown :=
| Symmetric (order : Z) (v e : R)
| Asymmetric (order : Z) (v hi lo : R).
Section Latex.
  (** rounding to the nearest integer, as done by round() and the format "f" *)
  Variable rnd : R -> Z.
  (** 65-72: the number shown with n decimals *)
  Definition round2 (x : R) (n : Z) : R := IZR (rnd (x * p10 n)) * p10 (- n).
  (** 75-108. [if ehi] is a test for non-zero. *)
  Definition latex_value_error (val elo ehi tol : R) : outcome shown :=
    if Req_EM_T val 0 then Err "OverflowError" else
    let order := intZ (log10 (Rabs val)) in
    let order := if (Z.ltb 2 order || Z.ltb order (-2))%bool then order else 0%Z in
    let val := val / p10 order in let elo := elo / p10 order in let ehi := ehi / p10 order in
    obind (decimals elo) (fun nlo =>
    if Req_EM_T ehi 0 then Ok (Symmetric order (round2 val nlo) (round2 elo nlo)) else
    obind (decimals ehi) (fun nhi =>
    if Rlt_dec tol (Rabs (elo - ehi) / ((elo + ehi) / 2))
    then Ok (Asymmetric order (round2 val (Z.max nlo nhi)) (round2 ehi nhi) (round2 elo nlo))
    else let e := (elo + ehi) / 2 in
         obind (decimals e) (fun n => Ok (Symmetric order (round2 val n) (round2 e n))))).

  (** ** _plot_chain_func, plot.py:111-270: the distribution and the lines printed *)
  (** 120-126: traces, one per walker; the distribution *)
  Definition traces (r : run) (p : nat) : list (list R) :=
    map (fun w => map (fun st => nth p (s_par (nth w st empty_sample)) 0) (r_steps r)) (seq 0 (nwalkers r)).
  (** plot.py 121-126 *)
  Definition chain_dist (r : run) (p : nat) (last_step : bool) : list R :=
    if last_step then map (fun t => last t 0) (traces r p) else List.concat (traces r p).
  (** 170: scipy.stats.gaussian_kde needs two values, not all equal *)
  Definition kde_ok (d : list R) : outcome unit :=
    match d with
    | [] | [_] => Err "ValueError"
    | x :: rest => if forallb (fun y => if Req_EM_T x y then true else false) rest then Err "LinAlgError" else Ok tt
    end.
  (** 231-240, 252-262: a line with the default tolerance *)
  Definition printed (w : row) : outcome (string * shown) :=
    let '(label, med, lo, hi) := w in obind (latex_value_error med lo hi (1 / 4)) (fun s => Ok (label, s)).
  (** 160-267; the autocorrelation time and the mean acceptance fraction are left out *)
  Definition chain_lines (r : run) (p : nat) (last_step : bool) : outcome (list (string * shown)) :=
    let label := nth p (r_labels r) ""%string in
    let dist := chain_dist r p last_step in
    obind (kde_ok dist) (fun _ =>
    obind (printed (summary label dist)) (fun l1 =>
    if (contains "log10(" label || contains "log(" label)%bool then
      let ltype := before_first "(" label in
      let nd := if String.eqb ltype "log10" then Some (map (fun x => exp (x * ln 10)) dist)
                else if String.eqb ltype "log" then Some (map exp dist) else None in
      match nd with
      | None => Err "UnboundLocalError"
      | Some d => obind (printed (summary (before_first ")" (after_last "(" label)) d)) (fun l2 => Ok [l1; l2])
      end
    else Ok [l1])).
  (** plot_distribution, plot.py:1303-1334: the line printed for a derived quantity *)
  Definition distribution_line (label : string) (samples : list R) : outcome (string * shown) :=
    obind (printed (summary label samples)) (fun l => obind (kde_ok samples) (fun _ => Ok l)).
End Latex.
(** 160, 1346: number of histogram bins *)
Definition hist_bins (n : nat) : nat := Nat.min (Nat.max 25 (n / 100)) 100.

(** ** plot_CI, plot.py:521-591 *)
(** confs.sort(reverse=True), in place *)
(** plot.py 562 *)
Definition sort_desc (l : list R) : list R := rev (rsort l).
(** 577: grey level; matplotlib refuses levels outside [0, 1] *)
Definition grey (conf : R) : R := ln conf / ln 20 + 4 / 10.
(** the list of the caller after the call, and the bands drawn, first drawn first *)
Section Bands.
  Variable cdf : R -> R.
  (** plot.py 576-586 *)
  Fixpoint draw_bands (confs : list R) (nx : nat) (model : list (list R)) : outcome (list (R * list (R * R))) :=
    match confs with
    | [] => Ok []
    | c :: rest =>
        if (if Rle_dec 0 (grey c) then (if Rle_dec (grey c) 1 then true else false) else false) then
          obind (draw_bands rest nx model) (fun bs => Ok ((c, band cdf c nx model) :: bs))
        else Err "ValueError"
    end.
  (** CI[0] of an empty list (574) raises IndexError *)
  Definition plot_CI (confs : list R) (nx : nat) (model : list (list R)) : list R * outcome (list (R * list (R * R))) :=
    let confs := sort_desc confs in
    (confs, match confs with [] => Err "IndexError" | _ => draw_bands confs nx model end).
End Bands.

(** ** np.logspace(log10(a), log10(b), n), plot.py:364-371, 405-412: the energies at which
    models are recomputed *)
Definition logspace (a b : R) (n : nat) : list R :=
  map (fun i => exp (ln 10 * (log10 a + INR i * ((log10 b - log10 a) / INR (Nat.pred n))))) (seq 0 n).

(** ** Limits of the energy axis, plot.py:940-946 and 965-970. Edges in the unit of the
    axis. On a logarithmic axis matplotlib refuses nan and ignores a limit that is not
    positive ([None]: unchanged). *)
Fixpoint lmin (l : list R) (d : R) : R := match l with [] => d | x :: r => lmin r (Rmin d x) end.
(** np.max, plot.py 944 *)
Fixpoint lmax (l : list R) (d : R) : R := match l with [] => d | x :: r => lmax r (Rmax d x) end.
(** plot.py 940-942 *)
Definition decade_floor (x : R) : outcome (option R) :=
  if Rlt_dec x 0 then Err "ValueError" else if Req_EM_T x 0 then Ok None else Ok (Some (p10 (floorZ (log10 x)))).
(** plot.py 943-945 *)
Definition decade_ceil (x : R) : outcome (option R) :=
  if Rlt_dec x 0 then Err "ValueError" else if Req_EM_T x 0 then Ok None else Ok (Some (p10 (- floorZ (- log10 x)))).
(** plot.py 941 *)
Definition lower (r : vrow) : R := r_e r - r_elo r.
(** plot.py 944 *)
Definition upper (r : vrow) : R := r_e r + r_ehi r.
(** plot.py 940-946 *)
Definition data_limits (rows : list vrow) : outcome (option R * option R) :=
  match rows with
  | [] => Err "ValueError"
  | r :: rest =>
      obind (decade_floor (lmin (map lower rest) (lower r))) (fun lo =>
      obind (decade_ceil (lmax (map upper rest) (upper r))) (fun hi => Ok (lo, hi)))
  end.
(** 965-970: extended to contain e_range; [cur] the limits matplotlib has otherwise *)
Definition extend (cur : R * R) (l : option R * option R) (e_range : option (R * R)) : R * R :=
  let x0 := match fst l with Some x => x | None => fst cur end in
  let x1 := match snd l with Some x => x | None => snd cur end in
  match e_range with None => (x0, x1) | Some (a, b) => (Rmin x0 a, Rmax x1 b) end.

(** ** plot_fit, plot.py:831-937: what is drawn *)
Inductive curve := CBands (confs : list R) | CSamples (n : nat) | CML.
(** [fg_range]: the range of energies for which the models are recomputed, if they are *)
(** what plot_fit draws, plot.py 874-937 *)
Record figure := mkFig { fg_curve : option curve; fg_data : bool; fg_residuals : bool; fg_range : option (R * R) }.
(** arguments of plot_fit, plot.py 747-767 *)
Record options := mkO { o_confs : option (list R); o_nsamples : option nat; o_plotdata : option bool; o_residuals : option bool; o_erange : option (R * R) }.
(** how the sampler was obtained: [has_attr]: it has an attribute "blobs" (emcee's
    sampler has, the result of read_run has not, analysis.py:474-495, 571);
    [has_fn]: its model function is set *)
Record sampler := mkSam { has_attr : bool; has_fn : bool }.
(** the curve of the best fit: number of energies; whether its flux unit is equivalent
    to that of the data *)
Definition plot_fit (s : sampler) (o : options) (n_data n_model : nat) (equivalent : bool) (first_last : R * R) : outcome figure :=
  let e_range := match o_erange o with
                 | Some e => Some e
                 | None => if has_attr s then None else Some (fst first_last / 3, snd first_last * 3)   (* 826-827 *)
                 end in
  let plotdata := match o_plotdata o with
                  | Some b => b
                  | None => Nat.eqb n_model n_data && equivalent                      (* 829-834 *)
                  end in
  let some_samples := match o_nsamples o with Some (S _) => true | _ => false end in
  let some_confs := match o_confs o with Some _ => true | None => false end in
  let residuals := match o_residuals o with
                   | Some b => b
                   | None => plotdata && (some_confs || some_samples)                 (* 836-837 *)
                   end in
  if (negb some_confs && negb some_samples && plotdata && negb residuals)%bool
  then Ok (mkFig None true false None)                                               (* 839-850 *)
  else
    let c := match o_confs o with
             | Some l => CBands l
             | None => match o_nsamples o with Some (S n) => CSamples (S n) | _ => CML end
             end in
    (* with e_range the curves are recomputed: calling None is a TypeError *)
    match e_range with
    | Some _ => if has_fn s then Ok (mkFig (Some c) plotdata (plotdata && residuals) e_range) else Err "TypeError"
    | None => Ok (mkFig (Some c) plotdata (plotdata && residuals) None)
    end.

(** ** plot_data on an existing figure, plot.py:1260-1296. Text between the last "["
    and the next "]" of the label of the axis is parsed as a unit. *)
Section Overlay.
  (** u.Unit(text): None is ValueError *)
  Variable parse : string -> option unit_.
  (** unit.to_string("latex_inline") *)
  Variable latex : unit_ -> string.
  (** plot.py 1272 *)
  Definition label_text (s : string) : string := before_first "]" (after_last "[" s).
  (** state of the axes: the label and the points drawn so far (abscissae) *)
  (** ax1 of plot.py 1265-1268 *)
  Record axes := mkAx { ax_label : string; ax_points : list R }.
  (** plot.py 1276 *)
  Definition is_energy (u : unit_) : bool := dims_eqb (dim u) d_energy.
  (** plot.py 1270-1279 *)
  Definition chosen_unit (ax : axes) (e_unit : option unit_) (data_unit : unit_) : unit_ :=
    match e_unit with
    | Some u => u
    | None => match parse (label_text (ax_label ax)) with
              | Some u => if is_energy u then u else data_unit
              | None => data_unit
              end
    end.
  (** plot.py 1260-1296 *)
  Definition plot_data (ax : axes) (e_unit : option unit_) (energies : qty) : outcome axes :=
    let u := chosen_unit ax e_unit (qunit energies) in
    obind (qto u energies) (fun q =>
    let label := if String.eqb (ax_label ax) "" then ("$\mathrm{Energy}$ [" ++ latex u ++ "]")%string else ax_label ax in
    Ok (mkAx label (ax_points ax ++ vals q))).
End Overlay.

(** ** plot_corner, plot.py:1410-1439: the global line width (rcParams["lines.linewidth"])
    after the call and the result. [find]: outcome of find_ML(sampler, 0); [draw]:
    outcome of corner(...) *)
Record corner_call := mkCC { cc_installed : bool; cc_show_ML : bool; cc_find : outcome unit; cc_draw : outcome unit }.
Definition plot_corner (lw : R) (c : corner_call) : R * outcome (option unit) :=
  let body := if negb (cc_installed c) then Err "ImportError"%string
              else obind (if cc_show_ML c then cc_find c else Ok tt) (fun _ => cc_draw c) in
  match body with
  | Ok f => (lw, Ok (Some f))                                        (* 1437 *)
  | Err e => if String.eqb e "ImportError" then (lw, Ok None)        (* 1433-1435 *)
             else (7 / 10, Err e)                                    (* 1437 is not reached: not restored *)
  end.
(** several calls of plot.py 1393-1439 *)
Fixpoint plot_corners (lw : R) (cs : list corner_call) : R :=
  match cs with [] => lw | c :: r => plot_corners (fst (plot_corner lw c)) r end.
