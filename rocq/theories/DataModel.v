(** Model of the data-table handling of src/naima/utils.py and of
    src/naima/extern/validator.py. Columns of numbers are quantities (UnitsModel);
    all columns of a table have the same length, as astropy guarantees. *)
From Coq Require Import Reals List ZArith Bool String Arith Permutation Sorted.
From Verif Require BremsModel.
From Verif Require Import Outcome TrapzModel SimplexModel UnitsModel.
Import ListNotations.
Local Open Scope R_scope.

(** ** validator.py *)
(** extern/validator.py 31-63: the domain argument *)
Inductive domain := Positive | StrictlyPositive | Negative | StrictlyNegative | Range (a b : R) | NoDomain.
(** validate_scalar (31-63), the value being a float (with nan) that already has the right
    physical type: comparisons with nan are false *)
Definition validate_scalar (v : ev) (d : domain) : outcome ev :=
  let bad := match d with
             | Positive => flt v (Fin 0)
             | StrictlyPositive => fle v (Fin 0)
             | Negative => flt (Fin 0) v
             | StrictlyNegative => fle (Fin 0) v
             | Range a b => (flt v (Fin a) || flt (Fin b) v)%bool
             | NoDomain => false
             end in
  if bad then Err "ValueError" else Ok v.
(** validate_physical_type (8-28) *)
Definition validate_physical_type (q : qty) (pts : list dims) : outcome qty :=
  if existsb (dims_eqb (dim (qunit q))) pts then Ok q else Err "TypeError".
(** validate_array (66-95) for a 1-d quantity: [d] is accepted and not used *)
Definition validate_array (q : qty) (d : domain) (pts : list dims) : outcome qty := validate_physical_type q pts.

(** ** utils.py *)
(** utils.py 174-191: the dtypes distinguished *)
Inductive ulcol := UInt (l : list Z) | UBool (l : list bool) | UStr (l : list string) | UOther.
(** An input table: numeric columns by name, and the columns and keyword treated
    specially. *)
(** utils.py 115-213: what is read of data_table *)
Record itab := mkI { cols : list (string * qty); i_group : option (list Z); i_ul : option ulcol; i_cl : option ev }.

(** validate_column 23-35 *)
Definition validate_column (t : itab) (key : string) (pts : list dims) : outcome qty :=
  match dget key (cols t) with
  | None => Err "TypeError"
  | Some q => validate_array q Positive pts
  end.
(** utils.py 125, 129, 146-162 *)
Definition has (t : itab) (key : string) : bool := match dget key (cols t) with Some _ => true | None => false end.

(** _generate_energy_edges_single 358-366: lower and upper half-widths *)
(** utils.py 360 *)
Fixpoint mids (e : list R) : list R :=
  match e with a :: ((b :: _) as r) => sqrt (b * a) :: mids r | _ => [] end.
(** utils.py 358-366 *)
Definition edges_single (e : list R) : list (R * R) :=
  let n := List.length e in
  let m := mids e in
  let ehi' i := if Nat.eqb (S i) n then 0 else nth i m 0 - nth i e 0 in        (* before the last two assignments *)
  let elo0 := nth 0 e 0 * (1 - nth 0 e 0 / (nth 0 e 0 + ehi' 0%nat)) in
  let elo i := match i with O => elo0 | S j => nth i e 0 - nth j m 0 end in
  let ehi i := if Nat.eqb (S i) n then elo i else ehi' i in
  map (fun i => (elo i, ehi i)) (seq 0 n).
(** generate_energy_edges 369-395: scatter the bins of every group into place *)
(** utils.py 392: groups == g *)
Definition in_group (g : Z) (p : R * Z) : bool := Z.eqb (snd p) g.
(** utils.py 393 *)
Fixpoint scatter (g : Z) (groups : list Z) (new old : list (R * R)) : list (R * R) :=
  match groups, old with
  | h :: gr, o :: os => if Z.eqb h g then match new with n :: ns => n :: scatter g gr ns os | [] => o :: scatter g gr [] os end
                        else o :: scatter g gr new os
  | _, _ => old
  end.
(** utils.py 391-393 *)
Definition edges_step (e : list R) (groups : list Z) (acc : list (R * R)) (g : Z) : list (R * R) :=
  scatter g groups (edges_single (map fst (filter (in_group g) (combine e groups)))) acc.
(** utils.py 387-395 *)
Definition generate_energy_edges (e : list R) (groups : option (list Z)) : list (R * R) :=
  match groups with
  | Some gs =>
      if Nat.eqb (List.length e) (List.length gs)
      then fold_left (edges_step e gs) (nodup Z.eq_dec gs) (map (fun _ => (0, 0)) e)
      else edges_single e
  | None => edges_single e
  end.

(** A validated table (columns, 115-213) *)
Record vtab := mkV { v_e : qty; v_f : qty; v_flo : qty; v_fhi : qty; v_grp : list Z;
                     v_elo : qty; v_ehi : qty; v_ul : list bool; v_cl : list ev }.

(** utils.py 118 *)
Definition flux_types : list dims := [d_flux; d_diff_flux; d_power; d_diff_power].
(** utils.py 148-149 *)
Definition qhalf (q : qty) : qty := mkQ (map (fun v => v / 2) (vals q)) (qunit q).
(** a - b in the unit of a *)
(** utils.py 164, 166 *)
Definition qsub (a b : qty) : outcome qty :=
  obind (qto (qunit a) b) (fun b' => Ok (mkQ (zipw Rminus (vals a) (vals b')) (qunit a))).

(** utils.py 173-193 *)
Definition parse_ul (n : nat) (u : option ulcol) : outcome (list bool) :=
  match u with
  | None => Ok (repeat false n)
  | Some (UInt l) => Ok (map (fun z => negb (Z.eqb z 0)) l)
  | Some (UBool l) => Ok l
  | Some (UStr l) =>
      if forallb (fun s : string => (String.eqb s "True" || String.eqb s "False")%bool) l
      then Ok (map (fun s : string => String.eqb s "True") l) else Err "TypeError"
  | Some UOther => Err "TypeError"
  end.

(** 190-191: flux[ul] = flux_ul[ul] *)
(** utils.py 195-196 *)
Definition apply_flux_ul (f : qty) (u : list bool) (t : itab) : outcome qty :=
  match dget "flux_ul" (cols t) with
  | None => Ok f
  | Some q => obind (qto (qunit f) q) (fun q' =>
      Ok (mkQ (map (fun p : R * R * bool => if snd p then snd (fst p) else fst (fst p)) (combine (combine (vals f) (vals q')) u)) (qunit f)))
  end.

(** 115-213 *)
(** utils.py 115-213 *)
Definition validate_single (t : itab) (group : nat) : outcome vtab :=
  obind (validate_column t "energy" [d_energy]) (fun e =>
  obind (validate_column t "flux" flux_types) (fun f =>
  obind (if has t "flux_error" then omap (fun d => (d, d)) (validate_column t "flux_error" flux_types)
         else if (has t "flux_error_lo" && has t "flux_error_hi")%bool then
           obind (validate_column t "flux_error_lo" flux_types) (fun lo =>
           obind (validate_column t "flux_error_hi" flux_types) (fun hi => Ok (lo, hi)))
         else Err "TypeError") (fun ferr =>
  let n := List.length (vals e) in
  let grp := match i_group t with Some g => g | None => repeat (Z.of_nat group) n end in
  obind (if has t "energy_width" then omap (fun w => (qhalf w, qhalf w)) (validate_column t "energy_width" [d_energy])
         else if has t "energy_error" then omap (fun w => (w, w)) (validate_column t "energy_error" [d_energy])
         else if (has t "energy_error_lo" && has t "energy_error_hi")%bool then
           obind (validate_column t "energy_error_lo" [d_energy]) (fun lo =>
           obind (validate_column t "energy_error_hi" [d_energy]) (fun hi => Ok (lo, hi)))
         else if (has t "energy_lo" && has t "energy_hi")%bool then
           obind (validate_column t "energy_lo" [d_energy]) (fun lo =>
           obind (qsub e lo) (fun elo =>
           obind (validate_column t "energy_hi" [d_energy]) (fun hi =>
           obind (qsub hi e) (fun ehi => Ok (elo, ehi)))))
         else let ed := generate_energy_edges (vals e) (Some grp) in
              Ok (mkQ (map fst ed) (qunit e), mkQ (map snd ed) (qunit e))) (fun eerr =>
  obind (parse_ul n (i_ul t)) (fun u =>
  obind (apply_flux_ul f u t) (fun f' =>
  obind (match i_cl t with Some c => validate_scalar c NoDomain | None => Ok (Fin (9 / 10)) end) (fun c =>
  Ok (mkV e f' (fst ferr) (snd ferr) grp (fst eerr) (snd eerr) u (repeat c n))))))))).

(** ** Rows of a validated table *)
(** a row of the table of utils.py 116-213 *)
Record vrow := mkR { r_e : R; r_f : R; r_flo : R; r_fhi : R; r_grp : Z; r_elo : R; r_ehi : R; r_ul : bool; r_cl : ev }.
(** the units of its columns *)
(** the units of the columns of the table of utils.py 116-213 *)
Record cunits := mkCU { ue : unit_; uf : unit_; uflo : unit_; ufhi : unit_; uelo : unit_; uehi : unit_ }.
(** the units of the columns of the table of utils.py 116-213 *)
Definition units_of (v : vtab) : cunits :=
  mkCU (qunit (v_e v)) (qunit (v_f v)) (qunit (v_flo v)) (qunit (v_fhi v)) (qunit (v_elo v)) (qunit (v_ehi v)).
(** the rows of the table of utils.py 116-213 *)
Definition rows_of (v : vtab) : list vrow :=
  map (fun i => mkR (nth i (vals (v_e v)) 0) (nth i (vals (v_f v)) 0) (nth i (vals (v_flo v)) 0) (nth i (vals (v_fhi v)) 0)
                    (nth i (v_grp v) 0%Z) (nth i (vals (v_elo v)) 0) (nth i (vals (v_ehi v)) 0) (nth i (v_ul v) false) (nth i (v_cl v) NaN))
      (seq 0 (List.length (vals (v_e v)))).

Section Tables.
  Variable nu : naima_units.
  (** dt_sed_conversion 64-77 *)
  Definition dt_sed_conversion (v : vtab) (sed : bool) : outcome vtab :=
    obind (sed_conversion nu (v_e v) (qunit (v_f v)) sed) (fun us =>
    obind (qto (fst us) (qmul (v_f v) (snd us))) (fun f =>
    obind (qto (fst us) (qmul (v_flo v) (snd us))) (fun lo =>
    obind (qto (fst us) (qmul (v_fhi v) (snd us))) (fun hi =>
    Ok (mkV (v_e v) f lo hi (v_grp v) (v_elo v) (v_ehi v) (v_ul v) (v_cl v)))))).

  (** QTable.add_row: every value is converted to the unit of the column *)
  (** utils.py 105-106 (astropy add_row) *)
  Definition conv1 (a b : unit_) : outcome R := if dims_eqb (dim a) (dim b) then Ok (scale a / scale b) else Err "ValueError".
  (** utils.py 105-106 (astropy add_row) *)
  Definition conv_rows (a b : cunits) (rs : list vrow) : outcome (list vrow) :=
    match rs with [] => Ok [] | _ =>
    obind (conv1 (ue a) (ue b)) (fun k1 => obind (conv1 (uf a) (uf b)) (fun k2 => obind (conv1 (uflo a) (uflo b)) (fun k3 =>
    obind (conv1 (ufhi a) (ufhi b)) (fun k4 => obind (conv1 (uelo a) (uelo b)) (fun k5 => obind (conv1 (uehi a) (uehi b)) (fun k6 =>
    Ok (map (fun r => mkR (r_e r * k1) (r_f r * k2) (r_flo r * k3) (r_fhi r * k4) (r_grp r) (r_elo r * k5) (r_ehi r * k6) (r_ul r) (r_cl r)) rs))))))) end.

  (** 85-105: the rows of the other tables appended to the first *)
  Fixpoint append_tables (cu : cunits) (first_pt : dims) (sed : bool) (ts : list vtab) : outcome (list vrow) :=
    match ts with
    | [] => Ok []
    | v :: r =>
        let pt := dim (qunit (v_f v)) in
        if (dims_eqb pt d_flux && dims_eqb first_pt d_power || dims_eqb pt d_power && dims_eqb first_pt d_flux)%bool then Err "TypeError"
        else obind (dt_sed_conversion v sed) (fun v' =>
             obind (conv_rows (units_of v') cu (rows_of v')) (fun rs =>
             obind (append_tables cu first_pt sed r) (fun rest => Ok (rs ++ rest))))
    end.

  (** utils.py 80-83 *)
  Fixpoint validate_all (ts : list itab) (group : nat) : outcome (list vtab) :=
    match ts with
    | [] => Ok []
    | t :: r => obind (validate_single t group) (fun v => obind (validate_all r (S group)) (fun vs => Ok (v :: vs)))
    end.

  (** numpy.argsort on the energies (108-109) *)
  Variable argsort : list R -> list nat.
  (** default row for out-of-range indices, which do not occur in utils.py 109-110 *)
  Definition row0 : vrow := mkR 0 0 0 0 0%Z 0 0 false NaN.
  (** utils.py 108-110 *)
  Definition sort_rows (rs : list vrow) : list vrow := map (fun i => nth i rs row0) (argsort (map r_e rs)).

  (** validate_data_table 38-112. [ts] is the list of tables (a single table is
      wrapped into a list, 53-54); arguments that are not tables are not modelled. *)
  Definition validate_data_table (ts : list itab) (sed : option bool) : outcome (cunits * list vrow) :=
    obind (validate_all ts 0) (fun vs =>
    match vs with
    | [] => Err "IndexError"
    | v :: r =>
        let pt := dim (qunit (v_f v)) in
        let sed' := match sed with Some b => b | None => (dims_eqb pt d_flux || dims_eqb pt d_power)%bool end in
        obind (dt_sed_conversion v sed') (fun v0 =>
        obind (append_tables (units_of v0) pt sed' r) (fun rest =>
        Ok (units_of v0, sort_rows (rows_of v0 ++ rest))))
    end).

  (** build_data_table 398-481: assigning a column of another length raises
      ValueError; the table is validated and returned unchanged *)
  Record bargs := mkB { b_energy : qty; b_flux : qty; b_ferr : option qty; b_flo : option qty; b_fhi : option qty;
                        b_width : option qty; b_elo : option qty; b_ehi : option qty; b_ul : option (list Z); b_cl : option ev }.
  (** utils.py 454-470 *)
  Definition build_cols (a : bargs) : outcome (list (string * qty)) :=
    let wid := match b_width a, b_elo a, b_ehi a with
               | Some w, _, _ => [("energy_width", w)%string]
               | None, Some l, Some h => [("energy_lo", l); ("energy_hi", h)]%string
               | _, _, _ => []
               end in
    obind (match b_ferr a, b_flo a, b_fhi a with
           | Some d, _, _ => Ok [("flux_error", d)%string]
           | None, Some l, Some h => Ok [("flux_error_lo", l); ("flux_error_hi", h)]%string
           | _, _, _ => Err "TypeError"
           end) (fun fe =>
    Ok ([("energy", b_energy a)%string] ++ wid ++ [("flux", b_flux a)%string] ++ fe)).
  (** astropy raises for columns of different length, utils.py 454-474 *)
  Definition same_lengths (n : nat) (cs : list (string * qty)) (u : option (list Z)) : bool :=
    (forallb (fun c : string * qty => Nat.eqb (List.length (vals (snd c))) n) cs &&
     match u with Some l => Nat.eqb (List.length l) n | None => true end)%bool.
  (** utils.py 448-481 *)
  Definition build_data_table (a : bargs) : outcome itab :=
    obind (build_cols a) (fun cs =>
    if same_lengths (List.length (vals (b_energy a))) cs (b_ul a) then
      let t := mkI cs None (option_map UInt (b_ul a)) (b_cl a) in
      obind (validate_data_table [t] None) (fun _ => Ok t)
    else Err "ValueError").

  (** estimate_B 528-540: the field in gauss ([uph] in erg/cm3). The quotient of
      the two integrals is reduced to base units and its unit dropped. *)
  (** utils.py 533-534; data fluxes may be negative *)
  Definition lum (d : cunits * list vrow) : R :=
    BremsModel.strapz (map (fun r => r_f r * r_e r) (snd d)) (map r_e (snd d)) * (scale (uf (fst d)) * scale (ue (fst d)) * scale (ue (fst d))).
  (** utils.py 538-540: quotient and square root of doubles (zeros without sign) *)
  Definition field_of (Lx Lv uph : R) : ev :=
    if Req_EM_T Lv 0 then
      (if Rlt_dec 0 (Lx * uph) then PInf else NaN)
    else
      let q := Lx / Lv * 8 * PI * uph in if Rlt_dec q 0 then NaN else Fin (sqrt q).
  (** utils.py 530-542 *)
  Definition estimate_B (xray vhe : list itab) (uph : R) : outcome ev :=
    obind (validate_data_table xray (Some false)) (fun x =>
    obind (validate_data_table vhe (Some false)) (fun v =>
    Ok (field_of (lum x) (lum v) uph))).
End Tables.
