(** Model of src/naima/analysis.py and of the sample handling in
    src/naima/plot.py. A run is what emcee stores: steps of walkers, every sample
    with its parameters, log-probability and blobs. *)
From Coq Require Import Reals List ZArith Bool String Ascii Arith Permutation Sorted DecimalString.
From Verif Require Import Outcome SimplexModel.
Import ListNotations.
Local Open Scope R_scope.

(** ** numpy *)
(** np.sort (no nan) *)
(** insertion in numpy.sort, called in plot.py:_calc_CI 497 *)
Fixpoint rins (x : R) (l : list R) : list R :=
  match l with [] => [x] | y :: r => if Rle_dec x y then x :: l else y :: rins x r end.
(** numpy.sort, called in plot.py:_calc_CI 497 and inside numpy.percentile (analysis.py 281, 296, 331) *)
Definition rsort (l : list R) : list R := fold_right rins [] l.
(** int() of a non-negative number *)
(** int() of plot.py:_calc_CI 458-474 and 488-501 *)
Definition trunc (x : R) : nat := Z.to_nat (up x - 1).
(** np.percentile, linear interpolation between order statistics *)
(** numpy.percentile as called in analysis.py 281, 296, 331 and plot.py:find_ML 696-699 *)
Definition percentile (l : list R) (q : R) : R :=
  let s := rsort l in
  let h := INR (Nat.pred (List.length l)) * (q / 100) in
  let k := trunc h in
  let a := nth k s 0 in
  let b := nth (Nat.min (S k) (Nat.pred (List.length l))) s 0 in
  a + (h - INR k) * (b - a).
(** np.argmax: index of the first maximal entry; a nan counts as larger than
    everything *)
(** comparison of numpy.argmax, called in plot.py:find_ML 672 *)
Definition amax_gt (a b : ev) : bool := negb (isnan b) && (isnan a || flt b a).     (* a replaces the current maximum b *)
(** loop of numpy.argmax, called in plot.py:find_ML 672 *)
Fixpoint argmax_from (l : list ev) (i : nat) (bi : nat) (b : ev) : nat :=
  match l with [] => bi | x :: r => if amax_gt x b then argmax_from r (S i) i x else argmax_from r (S i) bi b end.
(** numpy.argmax, called in plot.py:find_ML 672 *)
Definition argmax (l : list ev) : nat := match l with [] => 0%nat | x :: r => argmax_from r 1 0 x end.

(** "{0}".format(n) *)
Definition nat_str (n : nat) : string := NilZero.string_of_uint (Nat.to_uint n).

(** ** The sampler *)
(** one entry of a blob *)
(** the kinds of blob entries distinguished in analysis.py:save_run 411-430 and save_results_table 308-315 *)
Inductive item :=
| IScalarQ (v : R) (u : string)                 (* scalar Quantity *)
| IArrayQ (v : list R) (u : string)             (* array Quantity *)
| IFloat (v : R)
| ITuple (xs : list (list R * string))          (* tuple or list of 1-d arrays; "" when without unit *)
| IScalars (xs : list (R * string))             (* tuple or list of 0-d Quantities *)
| IOther.                                       (* int, plain ndarray, string, ... *)
(** sampler.get_chain(), get_log_prob(), get_blobs() at one step and walker (analysis.py 401-404, 435-437) *)
Record sample := mkS { s_par : list R; s_lp : ev; s_blob : list item }.
(** an attribute value: a string (or anything stored as one), or a number *)
(** values of run_info as written at analysis.py 458-467 *)
Inductive attr := AStr (v : string) | ANum (x : R).
(** the sampler, or the _result container of analysis.py 474-494, as used by analysis.py and plot.py *)
Record run := mkRun { r_steps : list (list sample); r_labels : list string; r_info : list (string * attr); r_acc : R; r_data : nat }.
(** [r_data] stands for the data table, written and read by astropy *)
(** default for out-of-range indices, which do not occur in analysis.py 409, 435-437 *)
Definition empty_sample : sample := mkS [] NInf [].
(** second dimension of sampler.get_chain(), analysis.py 537 *)
Definition nwalkers (r : run) : nat := match r_steps r with [] => 0%nat | s :: _ => List.length s end.
(** get_chain(flat=True) and the loops of analysis.py 322-324, 435-437 (step by step, walker by walker); _result.get_value 479-485 *)
Definition flat (r : run) : list sample := List.concat (r_steps r).
(** indexing with the tuple from unravel_index *)
(** plot.py:find_ML 674-676, analysis.py 566 *)
Definition at_ (r : run) (st wk : nat) : sample := nth wk (nth st (r_steps r) []) empty_sample.

(** ** plot.find_ML 667-702 (blob indexing only) *)
Definition find_ML (r : run) : ev * list R * list R * list item :=
  let n := argmax (map s_lp (flat r)) in
  let st := (n / nwalkers r)%nat in let wk := (n mod nwalkers r)%nat in          (* 673 *)
  let s := at_ r st wk in
  let npar := List.length (s_par s) in
  let err p := let d := map (fun x => nth p (s_par x) 0) (flat r) in (percentile d 84 - percentile d 16) / 2 in   (* 696-699 *)
  (s_lp s, s_par s, map err (seq 0 npar), s_blob s).

(** ** analysis.save_results_table 165-363 *)
(** substring test, label.split("(")[0], label.split("(")[-1].split(")")[0] *)
(** "log10(" in label, analysis.py 288 *)
Definition contains (sub s : string) : bool := match String.index 0 sub s with Some _ => true | None => false end.
(** str.split(c)[0], analysis.py 289-290 *)
Fixpoint before_first (c : ascii) (s : string) : string :=
  match s with EmptyString => EmptyString | String a r => if Ascii.eqb a c then EmptyString else String a (before_first c r) end.
(** str.split(c)[-1], analysis.py 289 *)
Fixpoint after_last (c : ascii) (s : string) : string :=
  match s with
  | EmptyString => EmptyString
  | String a r => if match String.index 0 (String c EmptyString) r with Some _ => true | None => false end then after_last c r
                  else if Ascii.eqb a c then r else s
  end.
(** a row of the results table, analysis.py 248-251 *)
Definition row := (string * R * R * R)%type.
Definition summary (label : string) (d : list R) : row :=                        (* 281-286 *)
  let med := percentile d 50 in (label, med, med - percentile d 16, percentile d 84 - med).
(** 279-300: [stale] is the local variable new_dist, unbound at first *)
Fixpoint label_rows (conv : bool) (w : nat) (dists : list (list R)) (p : nat) (labels : list string) (stale : option (list R)) : outcome (list row) :=
  match labels with
  | [] => Ok []
  | label :: rest =>
      if negb (Nat.ltb p w) then Err "IndexError" else                         (* 280: dists has w columns *)
      let dist := map (fun x => nth p x 0) dists in
      if (conv && (contains "log10(" label || contains "log(" label))%bool then
        let ltype := before_first "(" label in
        let nd := if String.eqb ltype "log10" then Some (map (fun x => exp (x * ln 10)) dist)
                  else if String.eqb ltype "log" then Some (map exp dist) else stale in
        match nd with
        | None => Err "UnboundLocalError"
        | Some d => obind (label_rows conv w dists (S p) rest (Some d))
                          (fun rs => Ok (summary label dist :: summary (before_first ")" (after_last "(" label)) d :: rs))
        end
      else obind (label_rows conv w dists (S p) rest stale) (fun rs => Ok (summary label dist :: rs))
  end.
(** 241-244: [chain[:, -1, :]] is indexed (step, walker, parameter) *)
Definition used_dists (r : run) (last_step : bool) : list (list R) :=
  if last_step then map (fun st => s_par (last st empty_sample)) (r_steps r) else map s_par (flat r).
(** 302-335: scalar blobs: scalar Quantities, Quantity arrays of one element, floats.
    Other scalars (int, str), also summarised by the code, are IOther and left out. *)
(** analysis.py 325-329: the number of a scalar blob *)
Definition item_value (i : item) : R := match i with IScalarQ v _ | IFloat v | IArrayQ [v] _ => v | _ => 0 end.
(** analysis.py 302-335 *)
Definition blob_rows (r : run) (last_step : bool) : list row :=
  let lst := last (r_steps r) [] in
  let b0 := s_blob (nth 0 lst empty_sample) in
  flat_map (fun idx =>
    match nth idx b0 IOther with
    | IScalarQ _ _ | IFloat _ | IArrayQ [_] _ =>
        let ss := if last_step then lst else flat r in
        [summary ("blob" ++ nat_str idx)%string (map (fun s => item_value (nth idx (s_blob s) IOther)) ss)]
    | _ => []
    end) (seq 0 (List.length b0)).
(** analysis.py 239-335: the rows of the table (its metadata are in MetaModel); writing the file is astropy *)
Definition save_results_table (r : run) (convert_log last_step include_blobs : bool) : outcome (list row) :=
  let d := used_dists r last_step in
  obind (label_rows convert_log (List.length (hd [] d)) d 0 (r_labels r) None) (fun rs =>
  Ok (rs ++ if include_blobs then blob_rows r last_step else [])).
(** 267-273 *)
Definition BIC (r : run) (ndata : nat) : ev :=
  let '(ml, p, _, _) := find_ML r in
  match ml with Fin l => Fin (INR (List.length p) * ln (INR ndata) - 2 * l) | NInf => PInf | PInf => NInf | NaN => NaN end.

(** ** analysis.save_run 366-471 and read_run 497-588 *)
(** A dataset: the shape after the sample axis, the values of every sample in
    C order, and the attributes *)
(** HDF5 dataset with attributes, analysis.py 440-447 *)
Record dset := mkD { d_inner : list nat; d_vals : list (list R); d_attrs : list (string * string) }.
(** the group "mcmc" *)
(** contents written at analysis.py 399-471 *)
Record h5 := mkH { h_chain : list (list (list R)); h_lp : list (list ev); h_blobs : list (nat * dset);
                   h_attrs : list (string * attr); h_data : nat }.

(** 411-430: units of an item, None if it cannot be saved *)
Definition item_units (i : item) : option (list string) :=
  match i with
  | IScalarQ _ u | IArrayQ _ u => Some [u]
  | IFloat _ => Some [""%string]
  | ITuple xs => Some (map snd xs)
  | IScalars xs => Some (map snd xs)
  | IOther => None
  end.
(** analysis.py 434-438: the numbers of a blob entry *)
Definition item_vals (i : item) : list R :=
  match i with IScalarQ v _ | IFloat v => [v] | IArrayQ v _ => v | ITuple xs => List.concat (map fst xs) | IScalars xs => map fst xs | IOther => [] end.
(** analysis.py 434-438: their shape *)
Definition item_shape (i : item) : list nat :=
  match i with
  | IScalarQ _ _ | IFloat _ | IOther => []
  | IArrayQ v _ => [List.length v]
  | ITuple xs => [List.length xs; match xs with [] => 0%nat | x :: _ => List.length (fst x) end]
  | IScalars xs => [List.length xs]
  end.
(** u.Quantity(list).value succeeds if the items have the same shape. Conversion
    between units of different samples is not modelled: see [uniform] in the
    specification. *)
(** analysis.py 438: an entry whose arrays differ in length *)
Definition ragged (i : item) : bool :=
  match i with ITuple ((x, _) :: r) => existsb (fun y => negb (Nat.eqb (List.length (fst y)) (List.length x))) r | _ => false end.
(** analysis.py 438: u.Quantity(blob) of entries of one shape *)
Definition same_shape (a b : item) : bool :=
  (negb (ragged b) && (if list_eq_dec Nat.eq_dec (item_shape a) (item_shape b) then true else false))%bool.
(** analysis.py 443-447 *)
Definition unit_attrs (us : list string) : list (string * string) :=
  match us with
  | [u] => [("unit"%string, u)]
  | _ => map (fun p => (("unit" ++ nat_str (fst p))%string, snd p)) (combine (seq 0 (List.length us)) us)
  end.
(** analysis.py 408-447 *)
Fixpoint save_blobs (r : run) (b0 : list item) (idx : nat) : outcome (list (nat * dset)) :=
  match b0 with
  | [] => Ok []
  | i :: rest =>
      match item_units i with
      | None => save_blobs r rest (S idx)
      | Some us =>
          let its := map (fun s => nth idx (s_blob s) IOther) (flat r) in
          if forallb (same_shape i) its then
            match us with [] => Err "IndexError" | _ :: _ =>                          (* 447: units[0] *)
            obind (save_blobs r rest (S idx)) (fun ds => Ok ((idx, mkD (item_shape i) (map item_vals its) (unit_attrs us)) :: ds)) end
          else Err "ValueError"
      end
  end.
(** 457-471: the attributes of the group: run_info, acceptance fraction, labels; a
    later one replaces an earlier one of the same name *)
Definition label_key (i : nat) : string := ("label" ++ nat_str i)%string.
(** analysis.py 469-471 *)
Fixpoint set_labels (i : nat) (ls : list string) (d : list (string * attr)) : list (string * attr) :=
  match ls with [] => d | l :: r => set_labels (S i) r (Outcome.dset (label_key i) (AStr l) d) end.
(** analysis.py 457-471 *)
Definition attrs_of (r : run) : list (string * attr) :=
  let d := fold_left (fun d kv => Outcome.dset (fst kv) (snd kv) d) (r_info r) [] in
  set_labels 0 (r_labels r) (Outcome.dset "acceptance_fraction"%string (ANum (r_acc r)) d).
(** analysis.py 399-471 *)
Definition to_h5 (r : run) : outcome h5 :=
  obind (save_blobs r (s_blob (nth 0 (last (r_steps r) []) empty_sample)) 0) (fun bs =>
  Ok (mkH (map (map s_par) (r_steps r)) (map (map s_lp) (r_steps r)) bs (attrs_of r) (r_data r))).

(** the file system: what every name holds; None in a file is a file left
    incomplete by an exception *)
(** the file system seen by analysis.py 395-399, 530 *)
Definition fs := string -> option (option h5).
(** h5py.File(filename, "w"), analysis.py 399 *)
Definition fset (f : fs) (n : string) (v : option h5) : fs := fun m => if String.eqb m n then Some v else f m.
(** Path.suffix, analysis.py 391-392 *)
Fixpoint ends_with (suf s : string) : bool :=
  if String.eqb s suf then true else match s with EmptyString => false | String _ r => ends_with suf r end.
(** 391-393: Path.suffix, for names with a non-empty stem *)
Definition good_suffix (n : string) : bool := (ends_with ".hdf5" n || ends_with ".h5" n)%bool.
(** save_run: the new file system, and the exception raised, if any *)
Definition save_run (f : fs) (n : string) (r : run) (clobber : bool) : fs * option string :=
  if negb (good_suffix n) then (f, Some "ValueError"%string)
  else match f n, clobber with
       | Some _, false => (f, None)                                             (* 395-397: warn and return *)
       | _, _ => match to_h5 r with
                 | Ok h => (fset f n (Some h), None)
                 | Err e => (fset f n None, Some e)                             (* opened with "w" at 399 *)
                 end
       end.

(** read_run *)
(** f["mcmc/blob{i}"], analysis.py 543 *)
Fixpoint assoc {A} (k : nat) (l : list (nat * A)) : option A :=
  match l with [] => None | (j, a) :: r => if Nat.eqb k j then Some a else assoc k r end.
(** what read_run holds of one blob: one array per sample, or two *)
(** analysis.py 546-554 *)
Inductive rblob := ROne (vs : list (list R)) (scalar : bool) (u : string) | RTwo (vs1 vs2 : list (list R)) (u1 u2 : string).
(** analysis.py 542-557 *)
Definition read_dset (d : dset) : option rblob :=
  match d_inner d with
  | [] => option_map (ROne (d_vals d) true) (dget "unit" (d_attrs d))
  | [_] => option_map (ROne (d_vals d) false) (dget "unit" (d_attrs d))
  | [_; l] =>
      match dget "unit0" (d_attrs d), dget "unit1" (d_attrs d) with
      | Some u0, Some u1 => Some (RTwo (map (firstn l) (d_vals d)) (map (fun v => firstn l (skipn l v)) (d_vals d)) u0 u1)
      | _, _ => None
      end
  | _ => None
  end.
(** 536-557: blob0, blob1, ... until one cannot be read; at most 100 *)
Fixpoint read_blobs (bs : list (nat * dset)) (i : nat) (fuel : nat) : list rblob :=
  match fuel with
  | O => []
  | S fu => match assoc i bs with
            | None => []
            | Some d => match read_dset d with None => [] | Some b => b :: read_blobs bs (S i) fu end
            end
  end.
(** analysis.py 564-571 *)
Definition pick_blob (b : rblob) (n : nat) : item :=
  match b with
  | ROne vs true u => IScalarQ (nth 0 (nth n vs []) 0) u
  | ROne vs false u => IArrayQ (nth n vs []) u
  | RTwo v1 v2 u1 u2 => ITuple [(nth n v1 [], u1); (nth n v2 [], u2)]
  end.
(** 580-583: label0, label1, ... *)
Fixpoint read_labels (d : list (string * attr)) (i n : nat) : outcome (list string) :=
  match n with
  | O => Ok []
  | S m => match dget (label_key i) d with
           | None => Err "KeyError"
           | Some a => obind (read_labels d (S i) m) (fun r => Ok ((match a with AStr l => l | ANum _ => ""%string end) :: r))
           end
  end.
(** 530-588. [r_info] of the result is the dictionary of all attributes. The object
    array numpy makes of the list of lists of blobs (575) is not modelled: a blob is
    the list put in. *)
Definition from_h5 (h : h5) : outcome run :=
  let bl := read_blobs (h_blobs h) 0 100 in
  let nw := match h_chain h with [] => 0%nat | s :: _ => List.length s end in
  let ndim := match h_chain h with (p :: _) :: _ => List.length p | _ => 0%nat end in
  match dget "acceptance_fraction" (h_attrs h) with
  | None => Err "KeyError"
  | Some acc =>
    obind (read_labels (h_attrs h) 0 ndim) (fun ls =>
    Ok (mkRun (map (fun st => map (fun wk => mkS (nth wk (nth st (h_chain h) []) []) (nth wk (nth st (h_lp h) []) NaN)
                                           (map (fun b => pick_blob b (st * nw + wk)) bl))
                            (seq 0 nw)) (seq 0 (List.length (h_chain h))))
        ls (h_attrs h) (match acc with ANum x => x | AStr _ => 0 end) (h_data h)))
  end.
(** analysis.py 525-588 *)
Definition read_run (f : fs) (n : string) : outcome run :=
  match f n with
  | Some (Some h) => from_h5 h
  | Some None => Err "KeyError"
  | None => Err "FileNotFoundError"
  end.

(** ** plot._calc_CI 438-501; [cdf] is scipy.stats.norm.cdf. [model] holds the model
    values of every sample. *)
Section CI.
  Variable cdf : R -> R.
  (** plot.py:_calc_CI 488-501 *)
  Definition order_stat (fr : R) (l : list R) : R := nth (trunc (fr * INR (Nat.pred (List.length l)))) (rsort l) 0.
  (** plot.py:_calc_CI 488-501 *)
  Definition band (conf : R) (nx : nat) (model : list (list R)) : list (R * R) :=
    map (fun i => let col := map (fun m => nth i m 0) model in (order_stat (cdf (- conf)) col, order_stat (cdf conf) col)) (seq 0 nx).
  (** plot.py:_calc_CI 488-503 *)
  Definition calc_CI (confs : list R) (nx : nat) (model : list (list R)) : list (list (R * R)) := map (fun c => band c nx model) confs.
  (** 458-474: number of samples computed when e_range is given, and whether a
      warning is issued *)
  Definition ci_samples (maxconf : R) : nat * bool :=
    let n := Nat.min 100 (trunc (1 / cdf (- maxconf) + 1)) in
    if Nat.ltb 1000 n then (1000%nat, true) else (n, false).
End CI.
