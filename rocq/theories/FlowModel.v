(** Model of a fit from start to finish: core.get_sampler (220-493), core._run_mcmc
    (127-160) and core.run_sampler (496-538) as one program, with the ensemble sampler
    of emcee as an unknown move of the whole ensemble. *)
From Coq Require Import Reals List ZArith Bool String Arith.
From Verif Require Import Outcome SimplexModel UnitsModel CoreModel AnalysisModel FitterModel.
Import ListNotations.
Local Open Scope R_scope.

(** np.median (489-491): the middle of the sorted values, or the mean of the two middle
    ones *)
Definition median (l : list R) : R :=
  let s := rsort l in let n := List.length l in
  if Nat.odd n then nth (n / 2) s 0 else (nth (n / 2 - 1) s 0 + nth (n / 2) s 0) / 2.
(** np.median(coords, axis=0): parameter by parameter *)
Definition medians (dim : nat) (e : list (list R)) : list R :=
  map (fun k => median (map (fun w => nth k w 0) e)) (seq 0 dim).

Section Flow.
  (** [Tab]: what the user passes as data_table. [W]: the state of the random number
      generators. [validate]: utils.validate_data_table (modelled in DataModel). A model
      function maps parameters and validated data to a spectrum (its blobs are modelled in
      AnalysisModel) or raises. *)
  Variables (Tab W : Type) (nu : naima_units) (dec : nat -> string).
  Variable validate : Tab -> option bool -> outcome table.
  (** the model argument of core.py 220-233, called at 352 *)
  Definition modelfn := list R -> table -> outcome qty.
  (** the positions of the walkers, core.py 479-481 *)
  Definition ensemble := list (list R).
  (** one iteration of emcee's EnsembleSampler.sample for a given log-probability: the
      new ensemble, or the exception raised by the log-probability or by emcee itself *)
  Variable move : (list R -> outcome ev) -> W -> ensemble -> outcome (ensemble * W).
  (** np.random.normal(size=dim) called nwalkers times (479-481) *)
  Variable normals : W -> nat -> nat -> list (list R) * W.
  (** core._prefit (163-217, modelled in CoreModel.prefit) on the validated data; the
      model function may raise *)
  Variable fit : table -> modelfn -> option (list R -> ev) -> list R -> outcome (list R * bool).

  (** the arguments of get_sampler (220-233). [a_window]: interactive=True with the
      user's session, from the parameters and labels shown to the parameters and flag
      read when the window is closed; an ImportError there is only a warning (435-439). *)
  Record args := mkArgs { a_table : option Tab; a_sed : option bool; a_p0 : option (list R); a_model : option modelfn;
    a_prior : option (list R -> ev); a_nwalkers : nat; a_nburn : nat; a_guess : bool;
    a_window : option (list R -> list string -> outcome (list R * bool)); a_prefit : bool;
    a_labels : option (list string); a_threads : nat }.

  (** sampler.run_info (467-473, 489, 526) *)
  Record info := mkInfo { i_walkers : nat; i_burn : nat; i_p0 : list R; i_guess : bool; i_median : option (list R); i_run : option nat }.
  (** the sampler object: what it samples (args of lines 450-457), its labels, run_info,
      stored chain and pool *)
  Record samp := mkSamp { f_data : table; f_model : modelfn; f_prior : option (list R -> ev); f_labels : list string;
    f_info : info; f_chain : list ensemble; f_pool : bool; f_open : bool; f_owned : bool }.

  (** lnprob with args=[data, model, prior] (97-120) *)
  Definition target (data : table) (m : modelfn) (prior : option (list R -> ev)) (p : list R) : outcome ev :=
    snd (lnprob (fun out => lnprobmodel nu out data) (fun q => m q data) prior p).

  (** 360-377: both the model and the data must convert to differential spectra *)
  Definition check_units (data : table) (spec : qty) : outcome (unit_ * qty * (unit_ * qty)) :=
    match sed_conversion nu (t_energy data) (qunit spec) false, sed_conversion nu (t_energy data) (t_unit data) false with
    | Ok a, Ok b => Ok (a, b)
    | _, _ => Err "UnitsError"
    end.
  (** 379-419. The ratio of a flux and a luminosity has a dimension and neither its
      logarithm nor its product with a parameter is a number. *)
  Definition guess_p0 (data : table) (spec : qty) (labels : list string) (p0 : list R) : outcome (list R) :=
    obind (check_units data spec) (fun ab =>
    match norm_idxs labels with
    | [_] =>
        obind (qto (fst (fst ab)) (qmul spec (snd (fst ab)))) (fun s =>
        obind (qto (fst (snd ab)) (qmul (mkQ (map flux (t_rows data)) (t_unit data)) (snd (snd ab)))) (fun d =>
        if dims_eqb (dim (qunit s)) (dim (qunit d)) then
          Ok (norm_guess labels (UnitsModel.vals (t_energy data)) (UnitsModel.vals s) (UnitsModel.vals d) p0)
        else Err "TypeError"))
    | _ => Ok p0
    end).

  (** 421-444: start_point of FitterModel with the exceptions of the window and of the
      pre-fit *)
  Definition start (a : args) (data : table) (m : modelfn) (labels : list string) (p0 : list R) : outcome (list R * bool) :=
    obind (match a_window a with
           | None => Ok (p0, false)
           | Some session => match session p0 labels with
                             | Err e => if String.eqb e "ImportError" then Ok (p0, false) else Err e
                             | Ok r => Ok r end
           end) (fun r =>
    if (a_prefit a && negb (snd r))%bool then fit data m (a_prior a) (fst r) else Ok r).

  (** EnsembleSampler.sample: successive ensembles *)
  (** emcee, called at core.py 128 *)
  Fixpoint path (tg : list R -> outcome ev) (n : nat) (w : W) (e : ensemble) : outcome (list ensemble * W) :=
    match n with
    | O => Ok ([], w)
    | S k => obind (move tg w e) (fun ew => obind (path tg k (snd ew) (fst ew)) (fun cw => Ok (fst ew :: fst cw, snd cw)))
    end.
  (** _run_mcmc 127-160: the steps are added to the chain; the state returned is the last
      one; with no step the loop variable is unbound. A sampler holding a closed pool
      cannot evaluate anything. If a step raises, the steps made before it stay in the
      chain; the first component is the chain left behind. *)
  Fixpoint steps_done (tg : list R -> outcome ev) (n : nat) (w : W) (e : ensemble) : list ensemble :=
    match n with
    | O => []
    | S k => match move tg w e with Ok (e', w') => e' :: steps_done tg k w' e' | Err _ => [] end
    end.
  (** core.py 127-160 *)
  Definition run_mcmc (s : samp) (w : W) (pos : ensemble) (n : nat) : samp * outcome (ensemble * W) :=
    let tg := target (f_data s) (f_model s) (f_prior s) in
    let keep c := mkSamp (f_data s) (f_model s) (f_prior s) (f_labels s) (f_info s) (f_chain s ++ c) (f_pool s) (f_open s) (f_owned s) in
    if Nat.eqb n 0 then (s, Err "UnboundLocalError")
    else if (f_pool s && negb (f_open s))%bool then (s, Err "ValueError")
    else match path tg n w pos with
         | Ok (c, w') => (keep c, Ok (last c pos, w'))
         | Err e => (keep (steps_done tg n w pos), Err e)
         end.

  (** 336-493 get_sampler *)
  Definition get_sampler (a : args) (w : W) : outcome (samp * ensemble * W) :=
    match a_table a with None => Err "TypeError" | Some tab =>                                     (* 336-337 *)
    obind (validate tab (a_sed a)) (fun data =>                                                    (* 339 *)
    match a_model a with None => Err "TypeError" | Some m =>                                       (* 341-342 *)
    match a_p0 a with None => Err "TypeError" | Some p0 =>                                         (* len(None) *)
    let labels := fill_labels dec (a_labels a) (List.length p0) in                                 (* 345-349 *)
    obind (m p0 data) (fun spec =>                                                                 (* 352-358 *)
    obind (check_units data spec) (fun _ =>                                                        (* 360-377 *)
    obind (if a_guess a then guess_p0 data spec labels p0 else Ok p0) (fun p1 =>                   (* 379-419 *)
    obind (start a data m labels p1) (fun pm =>                                                    (* 421-444 *)
    let p2 := fst pm in
    let inf := mkInfo (a_nwalkers a) (a_nburn a) p2 (a_guess a) None None in
    let s := mkSamp data m (a_prior a) labels inf [] (Nat.ltb 1 (a_threads a)) true (Nat.ltb 1 (a_threads a)) in
    let gw := normals w (a_nwalkers a) (List.length p2) in
    let e0 := walkers (snd pm) p2 (fst gw) in                                                      (* 475-481 *)
    obind (if Nat.ltb 0 (a_nburn a) then
             let r := run_mcmc s (snd gw) e0 (a_nburn a) in obind (snd r) (fun ew => Ok (fst r, fst ew, snd ew))
           else Ok (s, e0, snd gw)) (fun sew =>                                                    (* 483-487 *)
    let '(s1, e1, w1) := sew in
    let i := f_info s1 in
    let i1 := mkInfo (i_walkers i) (i_burn i) (i_p0 i) (i_guess i) (Some (medians (List.length p2) e1)) (i_run i) in
    Ok (mkSamp (f_data s1) (f_model s1) (f_prior s1) (f_labels s1) i1 (f_chain s1) (f_pool s1) (f_open s1) (f_owned s1), e1, w1))))))
    end end)
    end.

  (** 526-538: run_sampler on a sampler. The sampler object after the call (also if it
      raises) and the state returned. *)
  Definition continue_ (s : samp) (w : W) (pos : ensemble) (nrun : nat) : samp * outcome (ensemble * W) :=
    let i := f_info s in
    let s0 := mkSamp (f_data s) (f_model s) (f_prior s) (f_labels s)
                (mkInfo (i_walkers i) (i_burn i) (i_p0 i) (i_guess i) (i_median i) (Some nrun)) [] (f_pool s) (f_open s) (f_owned s) in
    let '(s1, r) := run_mcmc s0 w pos nrun in
    match r with
    | Err e => (s1, Err e)
    | Ok ew => (if f_owned s1 then mkSamp (f_data s1) (f_model s1) (f_prior s1) (f_labels s1) (f_info s1) (f_chain s1) (f_pool s1) false false
                else s1, Ok ew)
    end.
  (** 496-538 *)
  Definition run_sampler (nrun : nat) (s : option samp) (pos : option ensemble) (a : args) (w : W) : outcome (samp * ensemble * W) :=
    obind (match s, pos with Some s, Some e => Ok (s, e, w) | _, _ => get_sampler a w end) (fun sew =>
    let '(s, e, w) := sew in
    let r := continue_ s w e nrun in obind (snd r) (fun ew => Ok (fst r, fst ew, snd ew))).
End Flow.
Arguments mkArgs {Tab}. Arguments a_table {Tab}. Arguments a_sed {Tab}. Arguments a_p0 {Tab}. Arguments a_model {Tab}.
Arguments a_prior {Tab}. Arguments a_nwalkers {Tab}. Arguments a_nburn {Tab}. Arguments a_guess {Tab}. Arguments a_window {Tab}.
Arguments a_prefit {Tab}. Arguments a_labels {Tab}. Arguments a_threads {Tab}.
