(** Model of what the interactive fitter shows: InteractiveModelFitter.__init__ and update
    of src/naima/model_fitter.py (57-186, 239-256): the energies of the curve, the points of
    the line, the text with the likelihood and the limits of the energy axis. The points of
    the data are those of plot._plot_data_to_ax (PlotModel). *)
From Coq Require Import Reals List ZArith Bool String Arith.
From Verif Require Import Outcome SimplexModel UnitsModel DataModel CoreModel EndModel AnalysisModel PlotModel2 CurveModel.
Import ListNotations.
Local Open Scope R_scope.

(** model_fitter.py 13-19 _process_model; the attribute .unit of what it gives is read at 154. A scalar
    Quantity is multiplied by the array of conversion factors at 180; that numpy refuses to index it
    with the upper limits of the data (core.py 91) is not followed. *)
Definition process_model (energy : qty) (m : mout) : outcome qty :=
  match m with
  | MQ q => Ok q
  | MTuple [] => Err "IndexError"
  | MTuple (BQ q :: _) => Ok q
  | MTuple (BScalar v u :: _) => Ok (mkQ (map (fun _ => v) (vals energy)) u)
  | MTuple (_ :: _) => Err "AttributeError"
  end.
(** model_fitter.py 74-77: the labels used, and the list of the caller afterwards ([+=] extends
    a list in place; labels given as a tuple are not changed) *)
Definition fitter_labels (dec : nat -> string) (is_list : bool) (labels : option (list string)) (npars : nat) : list string * option (list string) :=
  let par i := ("par" ++ dec i)%string in
  match labels with
  | None => (map par (seq 0 npars), None)
  | Some l =>
      if Nat.ltb (List.length l) npars then
        let l' := (l ++ map par (seq (List.length l) (npars - List.length l)))%list in (l', Some (if is_list then l' else l))
      else (l, Some l)
  end.

Section View.
  (** [Cols]: the columns of the data other than energy and flux *)
  Variables (Cols : Type) (nu : naima_units).
  (** the validated data, model_fitter.py 80-82 *)
  Record vdata := mkVD { d_units : cunits; d_rows : list vrow; d_cols : Cols }.
  (** the data table as the model function sees it, model_fitter.py 138 *)
  Definition data_view (d : vdata) : view Cols :=
    mkV (mkQ (map r_e (d_rows d)) (ue (d_units d))) (mkQ (map r_f (d_rows d)) (uf (d_units d))) (Some (d_cols d)).
  (** model_fitter.py 88-126: energies of the curve and their unit on the axis *)
  Definition shown_energies (data : option vdata) (e_range : option (R * R * unit_)) (n : nat) : outcome (qty * unit_) :=
    match e_range with
    | Some (a, b, eu) =>
        if negb (dims_eqb (dim eu) d_energy) then Err "TypeError" else
        let e := mkQ (logspace a b n) eu in
        match data with
        | None => Ok (e, eu)
        | Some d => obind (qto (ue (d_units d)) e) (fun e' => Ok (e', ue (d_units d)))
        end
    | None =>
        match data with
        | None => Ok (mkQ (logspace (1 / 10000) 100 n) (mkU (u_TeV nu) d_energy), mkU (u_TeV nu) d_energy)
        | Some d => Ok (mkQ (map r_e (d_rows d)) (ue (d_units d)), ue (d_units d))
        end
    end.
  (** model_fitter.py 111-128: the dictionary given to the model function for the curve *)
  Definition data_for_model (data : option vdata) (e_range : option (R * R * unit_)) (n : nat) (sed : bool) : outcome (view Cols * unit_) :=
    obind (shown_energies data e_range n) (fun eu =>
    let bogus := mkQ (repeat 0 n) (if sed then mkU (u_erg nu / (u_cm nu ^ 2 * u_s nu)) d_flux else mkU (/ (u_TeV nu * u_cm nu ^ 2 * u_s nu)) d_diff_flux) in
    let flux := match data, e_range with
                | Some d, None => mkQ (map r_f (d_rows d)) (uf (d_units d))
                | _, _ => bogus
                end in
    Ok (mkV (fst eu) flux None, snd eu)).
  (** np.array_equal of the energies in eV, model_fitter.py 133-136, 247-250 *)
  Definition same_energies (a b : qty) : bool :=
    if list_eq_dec Req_EM_T (map (fun v => v * scale (qunit a)) (vals a)) (map (fun v => v * scale (qunit b)) (vals b)) then true else false.
  (** model_fitter.py 130-144, 246-254: the model of the curve, and the likelihood of the data *)
  Definition evaluate (fn : modelfn Cols) (data : option vdata) (v : view Cols) (p : list R) : outcome (qty * option R) :=
    obind (obind (fn p v) (process_model (v_energy v))) (fun m =>
    match data with
    | None => Ok (m, None)
    | Some d =>
        obind (if same_energies (v_energy v) (v_energy (data_view d)) then Ok m else obind (fn p (data_view d)) (process_model (v_energy (data_view d)))) (fun m' =>
        obind (lnprobmodel nu m' (fit_table (d_units d, d_rows d))) (fun l => Ok (m, Some l)))
    end).
  (** what is shown, and what is kept for update: 128, 154, 178-184 *)
  Record frame := mkFrame { f_view : view Cols; f_eunit : unit_; f_unit : unit_; f_sedf : qty; f_points : list (R * R);
                            f_lnl : option R; f_xlim : R * R }.
  (** model_fitter.py 178-184 and 244: the line; matplotlib refuses columns of different lengths *)
  Definition curve_line (e_unit f_unit : unit_) (sedf x y : qty) : outcome (list (R * R)) :=
    if negb (Nat.eqb (List.length (vals x)) (List.length (vals y))) then Err "ValueError" else
    obind (qto e_unit x) (fun xs => obind (qto f_unit (qmul y sedf)) (fun ys => Ok (combine (vals xs) (vals ys)))).
  (** model_fitter.py 156-176. The widths of the bins are energies (utils.py 161-203). *)
  Definition x_limits (data : option vdata) (e : qty) (e_unit : unit_) : outcome (R * R) :=
    let first := hd 0 (vals e) * (scale (qunit e) / scale e_unit) in
    let last_ := last (vals e) 0 * (scale (qunit e) / scale e_unit) in
    match data with
    | None => Ok (hd 0 (vals e), last (vals e) 0)
    | Some d =>
        match d_rows d with
        | [] => Err "IndexError"
        | r0 :: rest =>
            let r1 := last rest r0 in
            let cu := d_units d in
            Ok (Rmin ((r_e r0 - r_elo r0 * (scale (uelo cu) / scale (ue cu))) / 3) first,
                Rmax ((r_e r1 + r_ehi r1 * (scale (uehi cu) / scale (ue cu))) * 3) last_)
        end
    end.
  (** model_fitter.py 57-186 *)
  Definition first_frame (fn : modelfn Cols) (p0 : list R) (data : option vdata) (e_range : option (R * R * unit_)) (n : nat) (sed : bool) : outcome frame :=
    obind (data_for_model data e_range n sed) (fun ve => let '(v, e_unit) := ve in
    obind (evaluate fn data v p0) (fun ml => let '(m, l) := ml in
    obind (sed_conversion nu (v_energy v) (qunit m) sed) (fun fs =>
    obind (x_limits data (v_energy v) e_unit) (fun xl =>
    obind (curve_line e_unit (fst fs) (snd fs) (v_energy v) m) (fun pts =>
    Ok (mkFrame v e_unit (fst fs) (snd fs) pts l xl)))))).
  (** model_fitter.py 239-256 update with the values [p] of the sliders *)
  Definition next_frame (fn : modelfn Cols) (data : option vdata) (fr : frame) (p : list R) : outcome frame :=
    obind (evaluate fn data (f_view fr) p) (fun ml => let '(m, l) := ml in
    obind (curve_line (f_eunit fr) (f_unit fr) (f_sedf fr) (v_energy (f_view fr)) m) (fun pts =>
    Ok (mkFrame (f_view fr) (f_eunit fr) (f_unit fr) (f_sedf fr) pts l (f_xlim fr)))).
  (** model_fitter.py 239-256: a session, updated with each of the parameter vectors; [Err] at the first exception *)
  Fixpoint session (fn : modelfn Cols) (data : option vdata) (fr : frame) (ps : list (list R)) : outcome frame :=
    match ps with [] => Ok fr | p :: r => obind (next_frame fn data fr p) (fun fr' => session fn data fr' r) end.
End View.
Arguments mkVD {Cols}. Arguments d_units {Cols}. Arguments d_rows {Cols}. Arguments d_cols {Cols}.
Arguments mkFrame {Cols}. Arguments f_view {Cols}. Arguments f_eunit {Cols}. Arguments f_unit {Cols}. Arguments f_sedf {Cols}.
Arguments f_points {Cols}. Arguments f_lnl {Cols}. Arguments f_xlim {Cols}.
Arguments data_view {Cols}. Arguments shown_energies {Cols}. Arguments data_for_model {Cols}. Arguments evaluate {Cols}.
Arguments x_limits {Cols}. Arguments first_frame {Cols}. Arguments next_frame {Cols}. Arguments session {Cols}.
