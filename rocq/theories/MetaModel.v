(** The metadata of the results table and the file it is written to:
    src/naima/analysis.py:save_results_table 219-237, 263-277, 302-363. *)
From Coq Require Import Reals List Bool String Arith.
From Verif Require Import Outcome SimplexModel AnalysisModel.
Import ListNotations.
Local Open Scope R_scope.

(** Values of run_info and of the metadata (analysis.py 263-277, 346-353): plain Python
    values, and numpy values, recognised by the module of their type. [NArr2]: an array
    of two dimensions, given by its rows. *)
Inductive mval :=
| PStr (s : string) | PNum (x : ev) | PList (l : list ev)
| NNum (x : ev) | NArr (l : list ev) | NArr2 (rows : list (list ev)) | NStr (s : string).
(** type(v).__module__ == np.__name__, analysis.py 347 *)
Definition from_numpy (v : mval) : bool :=
  match v with PStr _ | PNum _ | PList _ => false | NNum _ | NArr _ | NArr2 _ | NStr _ => true end.
(** a.item() of a row of an array: only for rows of one element, analysis.py 350 *)
Fixpoint row_items (rows : list (list ev)) : outcome (list ev) :=
  match rows with
  | [] => Ok []
  | [x] :: r => omap (cons x) (row_items r)
  | _ :: _ => Err "ValueError"
  end.
(** analysis.py 347-353. A numpy scalar is not iterable (TypeError, caught); the
    characters of a numpy string are Python strings without item() (AttributeError,
    not caught). *)
Definition to_plain (v : mval) : outcome mval :=
  match v with
  | NNum x => Ok (PNum x)
  | NArr l => Ok (PList l)
  | NArr2 rows => omap PList (row_items rows)
  | NStr EmptyString => Ok (PList [])
  | NStr _ => Err "AttributeError"
  | _ => Ok v
  end.

(** metadata.update(d), analysis.py 277, 355 *)
Definition update {V} (d e : list (string * V)) : list (string * V) :=
  fold_left (fun acc kv => Outcome.dset (fst kv) (snd kv) acc) e d.

(** format argument, analysis.py 168, 219-237 *)
Inductive format := Ecsv | Ipac | OtherFormat (name : string).
(** analysis.py 219-225: [yaml]: PyYAML can be imported *)
Definition used_format (yaml : bool) (f : format) : format :=
  match f with Ecsv => if yaml then Ecsv else Ipac | _ => f end.
(** analysis.py 233-237, 357-358 *)
Definition file_name (out : string) (f : format) : string :=
  (out ++ "_results." ++ match f with Ecsv => "ecsv" | _ => "dat" end)%string.

(** analysis.py 263-273; [ndata]: len(sampler.data) *)
Definition own_meta (r : run) (ndata : nat) (last_step : bool) : list (string * mval) :=
  let '(ml, p, _, _) := find_ML r in
  [("n_samples"%string, PNum (Fin (INR (List.length (used_dists r last_step)))));
   ("ML_pars"%string, PList (map Fin p));
   ("MaxLogLikelihood"%string, PNum ml);
   ("BIC"%string, NNum (BIC r ndata))].
(** analysis.py 303-327: units of the scalar blobs *)
Definition blob_units (r : run) : list (string * mval) :=
  let b0 := s_blob (nth 0 (last (r_steps r) []) empty_sample) in
  flat_map (fun idx =>
    match nth idx b0 IOther with
    | IScalarQ _ u | IArrayQ [_] u => [(("blob" ++ nat_str idx ++ "_unit")%string, PStr u)]
    | _ => []
    end) (seq 0 (List.length b0)).
(** analysis.py 263-335; [info]: run_info, if the sampler has one *)
Definition metadata (r : run) (ndata : nat) (info : option (list (string * mval))) (last_step include_blobs : bool)
  : list (string * mval) :=
  let m := update (own_meta r ndata last_step) (match info with Some i => i | None => [] end) in
  if include_blobs then update m (blob_units r) else m.

(** What a table file holds: the rows, and the metadata as IPAC keywords or as the
    dictionary t.meta. Whether a format other than these two keeps the metadata is up to
    astropy. analysis.py 337-355 *)
Inductive tmeta := Keywords (m : list (string * mval)) | Meta (m : list (string * mval)).
(** analysis.py 337-355 *)
Definition table_meta (f : format) (m : list (string * mval)) : outcome tmeta :=
  match f with
  | Ipac => Ok (Keywords m)
  | Ecsv => omap Meta (mapM (fun kv => omap (pair (fst kv)) (to_plain (snd kv))) m)
  | OtherFormat _ => Ok (Meta m)
  end.
(** a table, analysis.py 248-355 *)
Record table := mkTable { t_format : format; t_rows : list row; t_meta : tmeta }.
(** the files of the directory, analysis.py 357-361 *)
Definition files := string -> option table.
(** analysis.py 165-363: the table returned, and the files afterwards. Table.write
    refuses to replace a file unless overwrite is set (357-361). *)
Definition save_table (yaml : bool) (fs : files) (out : string) (f0 : format) (r : run) (ndata : nat)
    (info : option (list (string * mval))) (convert_log last_step include_blobs overwrite : bool)
  : outcome table * files :=
  let f := used_format yaml f0 in
  match obind (save_results_table r convert_log last_step include_blobs) (fun rows =>
        omap (mkTable f rows) (table_meta f (metadata r ndata info last_step include_blobs))) with
  | Err e => (Err e, fs)
  | Ok t =>
      let n := file_name out f in
      match fs n, overwrite with
      | Some _, false => (Err "OSError", fs)
      | _, _ => (Ok t, fun k => if String.eqb k n then Some t else fs k)
      end
  end.
(** run_info as made by core.py 467-473, 489-491, 526 *)
Definition fit_info (nwalkers nburn nrun : nat) (p0 med : list R) (guess : bool) : list (string * mval) :=
  [("n_walkers"%string, PNum (Fin (INR nwalkers))); ("n_burn"%string, PNum (Fin (INR nburn)));
   ("p0"%string, PList (map Fin p0)); ("guess"%string, PNum (Fin (if guess then 1 else 0)));
   ("p0_burn_median"%string, PList (map Fin med)); ("n_run"%string, PNum (Fin (INR nrun)))].
