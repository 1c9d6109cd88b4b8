(** Model of src/naima/core.py: priors, likelihood, pre-fit, normalisation guess,
    walker initialisation and sampler life cycle. *)
From Coq Require Import Reals List ZArith Bool String Ascii Arith.
From Verif Require Import Outcome SimplexModel UnitsModel.
Import ListNotations.
Local Open Scope R_scope.

(** ** Priors (34-57) *)
(** core.py 34-39 *)
Definition uniform_prior (value umin umax : R) : ev :=
  if Rle_dec umin value then (if Rle_dec value umax then Fin 0 else NInf) else NInf.
(** core.py 42-44 *)
Definition normal_prior (value mean sigma : R) : ev :=
  Fin (- (1 / 2) * (2 * PI * sigma) - (value - mean) ^ 2 / (2 * sigma)).
(** core.py 47-58 *)
Definition log_uniform_prior (value umin : R) (umax : option R) : ev :=
  if Rlt_dec 0 value then
    if Rle_dec umin value then
      match umax with
      | Some m => if Rle_dec value m then Fin (1 / value) else NInf
      | None => Fin (1 / value)
      end
    else NInf
  else NInf.

(** ** Likelihood (64-94) *)
(** One row of the validated data table; flux and errors in the unit of the flux
    column. Errors are non-zero in all theorems (numpy would give inf/nan). *)
(** a row of the table used at core.py 73-92 *)
Record row := mkRow { flux : R; err_lo : R; err_hi : R; ul : bool; cl : R }.

(** np.sum, core.py 87 *)
Fixpoint sumR (l : list R) : R := match l with [] => 0 | a :: r => a + sumR r end.

(** 78-85 *)
(** core.py 76-85 *)
Definition row_lnl (m : R) (r : row) : R :=
  let difference := m - flux r in
  let lo := if Rlt_dec 0 difference then 0 else 1 in
  let hi := if Rlt_dec 0 difference then 1 else 0 in
  - difference ^ 2 / (2 * (lo * err_lo r + hi * err_hi r) ^ 2).
(** core.py 91 *)
Definition violated (m : R) (r : row) : bool := if Rlt_dec (flux r) m then true else false.

(** 72-95, model already in the unit of the data *)
(** core.py 73-94 *)
Definition lnl (model : list R) (data : list row) : outcome R :=
  let pairs := combine model data in
  let total := sumR (map (fun p => row_lnl (fst p) (snd p)) (filter (fun p => negb (ul (snd p))) pairs)) in
  if existsb ul data then
    let n := List.length (filter (fun p => ul (snd p) && violated (fst p) (snd p))%bool pairs) in
    match nth_error (map cl data) n with
    | None => Err "IndexError"
    | Some c => Ok (total + INR n * ln (1 - c))
    end
  else Ok total.

(** The data table with its units *)
(** the data argument of core.py 64-94, 336-404 *)
Record table := mkT { t_energy : qty; t_rows : list row; t_unit : unit_ }.

(** 62-95 with units. When no SED conversion is needed the difference of line 75
    converts to common units or raises. *)
(** core.py 64-94 *)
Definition lnprobmodel (nu : naima_units) (model : qty) (data : table) : outcome R :=
  let data_is_sed := is_sed_type (dim (t_unit data)) in
  obind
    (if Bool.eqb (is_sed_type (dim (qunit model))) data_is_sed then qto (t_unit data) model
     else obind (sed_conversion nu (t_energy data) (qunit model) data_is_sed) (fun us => qto (t_unit data) (qmul model (snd us))))
    (fun m => lnl (vals m) (t_rows data)).

(** ** Probability (97-120) *)
(** np.isinf, core.py 115, 207 *)
Definition isinf (a : ev) : bool := match a with PInf | NInf => true | _ => false end.
(** core.py 117 *)
Definition ev_addR (r : R) (a : ev) : ev := match a with Fin x => Fin (r + x) | _ => a end.

(** Returns the calls made to the model function and the log-probability. *)
(** core.py 97-121 *)
Definition lnprob {pars mout : Type} (like : mout -> outcome R) (modelfunc : pars -> outcome mout)
    (prior : option (pars -> ev)) (p : pars) : list pars * outcome ev :=
  let lp := match prior with None => Fin 0 | Some g => g p end in
  ([p], obind (modelfunc p) (fun m =>
    if negb (isinf lp) then obind (like m) (fun l => Ok (ev_addR l lp)) else Ok lp)).

(** ** Pre-fit (163-217): [nll] is minus the log-probability with the flat prior,
    [full] the log-probability with the prior. *)
(** core.py 163-217 *)
Definition prefit (nll full : point -> ev) (store : R -> R) (srt : list vertex -> list vertex) (p0 : point) : point * bool :=
  let r := minimize nll store srt (1 / 10) (1 / 1000) 500 (List.length p0 * 200) p0 in
  if ((Nat.eqb (status r) 0 || Nat.eqb (status r) 1) && negb (isinf (full (x_ r))))%bool
  then (x_ r, Nat.eqb (status r) 0) else (p0, false).

(** ** Labels and normalisation guess (344-349, 379-419) *)
(** str.lower, core.py 388 *)
Definition lower_ascii (a : ascii) : ascii :=
  let n := nat_of_ascii a in if (Nat.leb 65 n && Nat.leb n 90)%bool then ascii_of_nat (n + 32) else a.
(** str.lower, core.py 388 *)
Fixpoint lower (s : string) : string :=
  match s with EmptyString => EmptyString | String a r => String (lower_ascii a) (lower r) end.
(** str.startswith, core.py 388, 406-408 *)
Definition startswith (p s : string) : bool := String.prefix p s.

(** core.py 380-383 *)
Definition norm_names : list string :=
  let base := ["norm"; "ampl"; "we"; "wp"]%string in
  (base ++ map (String.append "log(") base ++ map (String.append "log10(") base)%list.
(** list.index, core.py 391 *)
Fixpoint index_of (s : string) (l : list string) : nat :=
  match l with [] => 0 | a :: r => if String.eqb s a then 0 else S (index_of s r) end.
(** core.py 384-391 *)
Definition norm_idxs (labels : list string) : list nat :=
  flat_map (fun n => map (fun l => index_of l labels) (filter (fun l => startswith n (lower l)) labels)) norm_names.

(** numpy.trapezoid *)
(** np.trapezoid, core.py 395-404 *)
Fixpoint trap (ys xs : list R) : R :=
  match ys, xs with
  | y1 :: ((y2 :: _) as yr), x1 :: ((x2 :: _) as xr) => (x2 - x1) * (y1 + y2) / 2 + trap yr xr
  | _, _ => 0
  end.
(** energy flux of a differential spectrum over the data energies (393-404) *)
Definition energy_flux (energy spec : list R) : R := trap (zipw Rmult energy spec) energy.

(** p0[i] = ..., core.py 406-411 *)
Definition set_par (i : nat) (v : R) (p : list R) : list R := set_nth i v p.
(** np.log10, core.py 409 *)
Definition log10 (x : R) : R := ln x / ln 10.
(** 379-419; [spec] and [dflux] are the model at p0 and the data as differential
    spectra at the data energies. Returns the new value of the p0 object. *)
Definition norm_guess (labels : list string) (energy spec dflux : list R) (p0 : list R) : list R :=
  match norm_idxs labels with
  | [i] =>
      let ratio := energy_flux energy dflux / energy_flux energy spec in
      let label := nth i labels ""%string in
      let v := nth i p0 0 in
      if startswith "log(" label then set_par i (v + ln ratio) p0
      else if startswith "log10(" label then set_par i (v + log10 ratio) p0
      else set_par i (v * ratio) p0
  | _ => p0
  end.

(** 344-349: decimal rendering of the index is a parameter *)
Definition fill_labels (dec : nat -> string) (labels : option (list string)) (n : nat) : list string :=
  let par i := ("par" ++ dec i)%string in
  match labels with
  | None => "norm"%string :: map par (seq 1 (n - 1))
  | Some l => if Nat.ltb (List.length l) n then l ++ map par (seq (List.length l) (n - List.length l)) else l
  end.

(** ** Walkers (475-481): [draws] are the standard normal numbers, one row per walker *)
Definition walkers (is_ml : bool) (p0 : list R) (draws : list (list R)) : list (list R) :=
  let spread := if is_ml then 5 / 1000 else 1 / 10 in
  map (fun g => zipw Rplus p0 (zipw Rmult (map (Rmult spread) p0) g)) draws.

(** ** What get_sampler does to the objects of the caller (344-419): [labels +=]
    extends and [p0[i] =] assigns in place. *)
Record caller := mkCaller { c_p0 : list R; c_labels : option (list string) }.
(** core.py 344-349, 379-411 *)
Definition get_sampler_effect (dec : nat -> string) (guess : bool) (energy spec dflux : list R) (c : caller) : caller :=
  let ls := fill_labels dec (c_labels c) (List.length (c_p0 c)) in
  mkCaller (if guess then norm_guess ls energy spec dflux (c_p0 c) else c_p0 c)
           (match c_labels c with None => None | Some _ => Some ls end).

(** ** Sampler life cycle (446-458, 496-538). The sampler keeps a reference to its
    pool; steps are computed through it (emcee). *)
(** core.py 446-458, 523-538 *)
Record sampler := mkSampler { s_pool : bool;       (* has a pool: threads > 1 *)
                              s_open : bool;       (* the pool accepts work *)
                              s_owned : bool;      (* _naima_pool is not None *)
                              s_steps : nat }.     (* stored chain length *)
(** core.py 446-458 *)
Definition new_sampler (threads : nat) : sampler := mkSampler (Nat.ltb 1 threads) true (Nat.ltb 1 threads) 0.
(** _run_mcmc (127-160): with no step the loop variable is never bound *)
(** core.py 127-160 *)
Definition sample (n : nat) (s : sampler) : outcome sampler :=
  if (s_pool s && negb (s_open s))%bool then Err "ValueError"
  else if Nat.eqb n 0 then Err "UnboundLocalError"
  else Ok (mkSampler (s_pool s) (s_open s) (s_owned s) (s_steps s + n)).
(** core.py 483-487 *)
Definition get_sampler (threads nburn : nat) : outcome sampler :=
  if Nat.eqb nburn 0 then Ok (new_sampler threads) else sample nburn (new_sampler threads).
(** core.py 523-538 *)
Definition run_sampler (nrun : nat) (s : sampler) : outcome sampler :=
  obind (sample nrun (mkSampler (s_pool s) (s_open s) (s_owned s) 0)) (fun s' =>
  Ok (if s_owned s' then mkSampler (s_pool s') false false (s_steps s') else s')).
(** a history of run_sampler calls on one sampler *)
(** calls of core.py 496-538 one after another *)
Fixpoint runs (ns : list nat) (s : sampler) : outcome sampler :=
  match ns with [] => Ok s | n :: r => obind (run_sampler n s) (runs r) end.
