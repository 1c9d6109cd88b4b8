(** Model of what src/naima/plot.py draws: residuals, data points, option
    dictionaries, samples; and of the files save_diagnostic_plots
    (src/naima/analysis.py:29-162) writes. Only the numbers handed to matplotlib are
    modelled. *)
From Coq Require Import Reals List ZArith Bool String Ascii Arith.
From Verif Require Import Outcome SimplexModel UnitsModel DataModel AnalysisModel.
Import ListNotations.
Local Open Scope R_scope.

(** ** _plot_residuals_to_ax, plot.py:1130-1197 *)
(** entries of an array picked by index *)
(** data_all[groupidx], [notul]: plot.py 1157, 1165-1170 *)
Definition pick (q : qty) (idx : list nat) : qty := mkQ (map (fun i => nth i (vals q) 0) idx) (qunit q).
(** a + b in the unit of a *)
(** plot.py 1164 *)
Definition qsum (a b : qty) : outcome qty :=
  obind (qto (qunit a) b) (fun b' => Ok (mkQ (zipw Rplus (vals a) (vals b')) (qunit a))).
(** np.allclose(a, b) for arrays of the same size: rtol=1e-5, atol=1e-8 *)
Definition allclose (a b : list R) : bool :=
  forallb (fun p => if Rle_dec (Rabs (fst p - snd p)) (/ 10 ^ 8 + / 10 ^ 5 * Rabs (snd p)) then true else false) (combine a b).

Section Residuals.
  Variable nu : naima_units.
  (** scipy.interpolate.interp1d(xs, ys, bounds_error=False): None is nan *)
  Variable interp : list R -> list R -> R -> option R.

  (** the table: its columns *)
  (** a column of the table, plot.py 1160-1164 *)
  Definition col (f : vrow -> R) (u : unit_) (rows : list vrow) : qty := mkQ (map f rows) u.

  (** 1154-1191 for the rows [idx] of one group; [mx], [my]: energies and fluxes of
      the maximum-likelihood model after conversion (1141-1142) *)
  Definition residual_group (cu : cunits) (rows : list vrow) (mx my : qty) (use_interp sed : bool) (e_unit : unit_) (idx : list nat)
      : outcome (list (R * option R)) :=
    let e := pick (col r_e (ue cu) rows) idx in
    obind (sed_conversion nu e (uf cu) sed) (fun us =>
    obind (qto e_unit e) (fun ene =>
    obind (qto (fst us) (qmul (pick (col r_f (uf cu) rows) idx) (snd us))) (fun flux =>
    obind (qsum (pick (col r_flo (uflo cu) rows) idx) (pick (col r_fhi (ufhi cu) rows) idx)) (fun s =>
    obind (qto (fst us) (qmul (qhalf s) (snd us))) (fun dflux =>
    obind (if use_interp then Ok (map (interp (vals mx) (vals my)) (vals ene))               (* the unit is taken to be that of the data, 1179 *)
           else omap (fun q => map Some (vals q)) (qto (fst us) (pick my idx))) (fun m =>
    Ok (flat_map (fun j =>
          if r_ul (nth (nth j idx 0%nat) rows row0) then []
          else [(nth j (vals ene) 0, option_map (fun y => (nth j (vals flux) 0 - y) / nth j (vals dflux) 0) (nth j m None))])
        (seq 0 (List.length idx)))))))))
  .
  (** the loop over groups, plot.py 1041, 1154 *)
  Fixpoint concat_all {A} (l : list (outcome (list A))) : outcome (list A) :=
    match l with [] => Ok [] | x :: r => obind x (fun a => obind (concat_all r) (fun b => Ok (a ++ b))) end.
  (** plot.py 1155 *)
  Definition group_idx (rows : list vrow) (g : Z) : list nat :=
    filter (fun i => Z.eqb (r_grp (nth i rows row0)) g) (seq 0 (List.length rows)).
  (** 1130-1197: the points drawn: energy in [e_unit] and residual. The groups are
      taken in the order of first appearance (sorted in the code: only the order of
      drawing differs). *)
  Definition residuals (cu : cunits) (rows : list vrow) (MLx MLy : qty) (e_unit : unit_) (sed : bool) : outcome (list (R * option R)) :=
    obind (sed_conversion nu MLx (qunit MLy) sed) (fun us =>
    obind (qto e_unit MLx) (fun mx =>
    obind (qto (fst us) (qmul MLy (snd us))) (fun my =>
    let use_interp := negb (Nat.eqb (List.length rows) (List.length (vals mx)) && allclose (map r_e rows) (vals mx)) in
    concat_all (map (fun g => residual_group cu rows mx my use_interp sed e_unit (group_idx rows g)) (nodup Z.eq_dec (map r_grp rows)))))).
End Residuals.

(** ** _plot_data_to_ax, plot.py:1017-1111: the error bars. Columns in common units
    (as validate_data_table leaves them); [k]: the positive conversion factor of the row. *)
Record bar := mkBar { b_x : R; b_y : R; b_lo : R; b_hi : R }.        (* centre and ends of the vertical bar *)
(** 1052-1056: lower error of a detection *)
Definition shown_err (y e : R) : R := if Rle_dec (y - e) 0 then y * (1 - / 10 ^ 7) else e.
(** matplotlib's errorbar refuses negative errors *)
(** plot.py 1052-1079 *)
Definition errorbar (k : R -> R) (rs : list vrow) : outcome (list bar) :=
  if forallb (fun r => (if Rle_dec 0 (shown_err (r_f r) (r_flo r) * k (r_e r)) then true else false) &&
                       (if Rle_dec 0 (r_fhi r * k (r_e r)) then true else false) &&
                       (if Rle_dec 0 (r_elo r) then true else false) && (if Rle_dec 0 (r_ehi r) then true else false)) rs
  then Ok (map (fun r => let c := k (r_e r) in
                         mkBar (r_e r) (r_f r * c) (r_f r * c - shown_err (r_f r) (r_flo r) * c) (r_f r * c + r_fhi r * c)) rs)
  else Err "ValueError".
(** plot.py 1042 *)
Definition in_grp (g : Z) (r : vrow) : bool := Z.eqb (r_grp r) g.
(** 1103-1111: np.min of an empty selection raises ValueError *)
Definition ylim (rs : list vrow) : outcome unit :=
  let det := filter (fun r => negb (r_ul r)) rs in
  if existsb (fun r => if Rle_dec (r_f r) (r_flo r) then true else false) det
  then (if existsb (fun r => if Rlt_dec (r_flo r) (r_f r) then true else false) det then Ok tt else Err "ValueError")
  else Ok tt.
(** plot.py 1017-1111 *)
Definition draw_data (k : R -> R) (rows : list vrow) : outcome (list bar) :=
  obind (concat_all (map (fun g => errorbar k (filter (fun r => (in_grp g r && negb (r_ul r))%bool) rows)) (nodup Z.eq_dec (map r_grp rows))))
    (fun bars => obind (ylim rows) (fun _ => Ok bars)).

(** ** Option dictionaries, plot.py:747-767, 1017-1025, 1060-1092, 1207-1216. An
    argument left out is the dictionary object created with the function. *)
Inductive fn := PlotFit | PlotData.
(** a call of plot_fit (plot.py 747-767) or plot_data (plot.py 1207-1216) *)
Record pcall := mkCall { c_fn : fn; c_errorbar : list (string * R); c_ulim : option (list (string * R)); c_has_ul : bool }.
(** contents of the two default ulim_opts objects *)
(** the two default dictionaries of plot.py 765 and 1214 *)
Record defaults := mkDef { d_fit : list (string * R); d_data : list (string * R) }.
(** plot.py 765, 1214 *)
Definition get_def (f : fn) (d : defaults) := match f with PlotFit => d_fit d | PlotData => d_data d end.
(** plot.py 1083 when ulim_opts is a default *)
Definition set_def (f : fn) (v : list (string * R)) (d : defaults) :=
  match f with PlotFit => mkDef v (d_data d) | PlotData => mkDef (d_fit d) v end.
(** one call: the new defaults, the caller's dictionary afterwards, and the options of
    the upper limits drawn, if any *)
(** plot.py 1081-1092 *)
Definition plot_call (d : defaults) (c : pcall) : defaults * option (list (string * R)) * option (list (string * R)) :=
  let cur := match c_ulim c with Some o => o | None => get_def (c_fn c) d end in
  if c_has_ul c then
    let new := match dget "elinewidth" (c_errorbar c) with Some w => Outcome.dset "elinewidth" w cur | None => cur end in
    match c_ulim c with
    | Some _ => (d, Some new, Some new)
    | None => (set_def (c_fn c) new d, None, Some new)
    end
  else (d, c_ulim c, None).
(** several calls, plot.py 1081-1092 *)
Fixpoint plot_calls (d : defaults) (cs : list pcall) : list (option (list (string * R))) :=
  match cs with [] => [] | c :: r => let '(d', _, o) := plot_call d c in o :: plot_calls d' r end.

(** ** _process_blob, plot.py:273-343, on a sampler: energies and one array per sample *)
Definition process_blob (r : run) (energies : list R) (idx : nat) (last_step : bool) : outcome (option (list R) * list (list R)) :=
  let lst := last (r_steps r) [] in
  let ss := if last_step then lst else flat r in
  let its := map (fun s => nth idx (s_blob s) IOther) ss in
  match nth idx (s_blob (nth 0 lst empty_sample)) IOther with
  | IArrayQ v _ =>
      if Nat.eqb (List.length v) (List.length energies) then Ok (Some energies, map item_vals its)
      else if Nat.eqb (List.length v) 1 then Ok (None, map item_vals its)
      else Err "UnboundLocalError"
  | IScalarQ _ _ =>
      if Nat.eqb (List.length energies) 1 then Ok (Some energies, map item_vals its) else Ok (None, map item_vals its)
  | IFloat _ => Ok (None, map item_vals its)
  | ITuple [(x, _); (_, _)] =>
      Ok (Some x, map (fun i => match i with ITuple [_; (y, _)] => y | _ => [] end) its)
  | _ => Err "TypeError"
  end.

(** ** plot_samples with e_range, plot.py:346-393, 594-664. [draw n k]: n random
    indices below k; [f p]: the model curve for parameters p *)
Section Samples.
  Variable draw : nat -> nat -> list nat.
  Variable f : list R -> list R.
  (** plot.py 377 *)
  Definition chain_of (r : run) (last_step : bool) : list (list R) :=
    map s_par (if last_step then last (r_steps r) [] else flat r).
  (** 346-393 with the default n_samples=100 *)
  Definition calc_samples (r : run) (last_step : bool) (n : nat) : list (list R) :=
    let chain := chain_of r last_step in
    map (fun i => f (nth i chain [])) (draw n (List.length chain)).
  (** 640-659: n_samples is not passed on *)
  Definition plotted_samples (r : run) (last_step : bool) (n_samples : nat) : list (list R) :=
    let model := calc_samples r last_step 100 in
    map (fun i => nth i model []) (draw n_samples (List.length model)).
End Samples.

(** ** save_diagnostic_plots, analysis.py:29-162, without pdf: files in the order they
    are written; a later file of the same name replaces the earlier. *)
(** 97-99 *)
Definition file_label (label : string) : string :=
  if (contains "log(" label || contains "log10(" label)%bool then before_first ")" (after_last "(" label) else label.
(** analysis.py 97-99 *)
Definition chain_file (out label : string) : string := (out ++ "_chain_" ++ file_label label ++ ".png")%string.
(** analysis.py 116 *)
Definition corner_file (out : string) : string := (out ++ "_corner.png")%string.
(** analysis.py 152 *)
Definition model_file (out : string) (i : nat) : string := (out ++ "_model" ++ nat_str i ++ ".png")%string.
(** blob_labels: None, a string, or a list of the caller (129-136) *)
Inductive blabels := BNone | BStr (s : string) | BList (l : list string).
(** analysis.py 130, 136 *)
Definition title (i : nat) : string := ("Model output " ++ nat_str i)%string.
(** zip over a string, analysis.py 138 *)
Fixpoint chars (s : string) : list string := match s with EmptyString => [] | String c r => String c EmptyString :: chars r end.
(** titles used, and the caller's list afterwards *)
(** analysis.py 129-136 *)
Definition use_labels (b : blabels) (idxs : list nat) : outcome (list string * blabels) :=
  match b with
  | BNone => Ok (map title idxs, BNone)
  | BStr s =>
      if Nat.eqb (List.length idxs) 1 then Ok ([s], b)
      else if Nat.ltb (String.length s) (List.length idxs) then Err "TypeError"         (* str += list *)
      else Ok (chars s, b)
  | BList l =>
      if Nat.ltb (List.length l) (List.length idxs)
      then let l' := l ++ map title (skipn (List.length l) idxs) in Ok (l', BList l') else Ok (l, b)
  end.
(** rcParams["interactive"] before and after, the caller's labels after, the exception
    if any, and the files written with what they show: the chain of a parameter, the
    corner plot, or a blob with its title. [chain_ok p], [corner_ok], [blob_ok i]
    say whether the plotting function succeeds. *)
(** what is saved at analysis.py 99, 116, 152 *)
Inductive content := CChain (par : nat) | CCorner | CModel (idx : nat) (sed : bool) (ttl : string).
(** effects of analysis.py 73-162 *)
Record diag := mkDiag { g_interactive : bool; g_labels : blabels; g_exc : option string; g_files : list (string * content) }.
(** savefig, analysis.py 99, 116, 152 *)
Definition write (n : string) (c : content) (fl : list (string * content)) := Outcome.dset n c fl.
Section Diag.
  Variables (chain_ok : nat -> bool) (corner_ok : option string) (blob_ok : nat -> bool).
  (** analysis.py 90-105 *)
  Fixpoint write_chains (out : string) (p : nat) (labels : list string) (fl : list (string * content)) :=
    match labels with
    | [] => fl
    | l :: r => write_chains out (S p) r (if chain_ok p then write (chain_file out l) (CChain p) fl else fl)
    end.
  (** analysis.py 138-156 *)
  Fixpoint write_models (out : string) (l : list (nat * bool * string)) (fl : list (string * content)) :=
    match l with
    | [] => fl
    | (i, s, t) :: r => write_models out r (if blob_ok i then write (model_file out i) (CModel i s t) fl else fl)
    end.
  (** analysis.py 138 *)
  Definition zip3 (a : list nat) (b : list bool) (c : list string) : list (nat * bool * string) := combine (combine a b) c.
  (** [sed]: a boolean or a list *)
  (** analysis.py 73-162 *)
  Definition diagnostic_plots (out : string) (npar : nat) (labels : list string) (interactive : bool)
      (modelidxs : list nat) (sed : bool + list bool) (b : blabels) : diag :=
    let f1 := write_chains out 0 (firstn npar labels) [] in
    match corner_ok with
    | Some e => mkDiag false b (Some e) f1                                            (* rcParams not restored *)
    | None =>
        let f2 := write (corner_file out) CCorner f1 in
        let seds := match sed with inl s => map (fun _ => s) modelidxs | inr l => l end in
        match use_labels b modelidxs with
        | Err e => mkDiag false b (Some e) f2
        | Ok (ttl, b') => mkDiag interactive b' None (write_models out (zip3 modelidxs seds ttl) f2)
        end
    end.
End Diag.
