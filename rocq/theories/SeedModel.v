(** Model of InverseCompton._process_input_seed
    (src/naima/radiative.py:432-545). *)
From Coq Require Import Reals List String Ascii Bool.
From Verif Require Import Outcome ElectronModel.
Import ListNotations.
Local Open Scope R_scope.

(** The second item of a seed list: a Quantity with its dimension (temperature
    in K, energies in erg, anything else). *)
(** radiative.py 478, 482-510 *)
Inductive tq := Temperature (K : R) | Energies (erg : list R) | OtherT.
(** The third item: a plain number, an energy density (erg/cm3; "pressure" in
    astropy), a differential number density (1/(erg cm3)), anything else: radiative.py
    491-539. *)
Inductive uq := Plain (x : R) | EnergyDensity (l : list R) | NumberDensity (l : list R) | OtherU (l : list R).
(** The fourth item: an angle in rad or anything else. *)
(** radiative.py 481-495 *)
Inductive aq := Angle (rad : R) | OtherA.

(** an element of seed_photon_fields, radiative.py 451-545 *)
Inductive inseed :=
| SName (s : string)
| SIso (name : string) (T : tq) (u : uq)
| SAni (name : string) (T : tq) (u : uq) (theta : aq)
| SBad.                                   (* wrong type or wrong list length *)

(** str.split("-") *)
(** radiative.py 446-447 *)
Fixpoint split_dash (s : string) : list string :=
  match s with
  | EmptyString => [EmptyString]
  | String c r =>
      if Ascii.eqb c "-"%char then EmptyString :: split_dash r
      else match split_dash r with
           | w :: ws => String c w :: ws
           | [] => [String c EmptyString]
           end
  end.

Section Process.
  Variable ar : R.     (* radiation constant, erg/(cm3 K4) *)
  Variable eV : R.     (* erg *)

  (** radiative.py 438 *)
  Definition Tcmb : R := 272548 / 100000.

  (** 453-476 *)
  Definition named (s : string) : outcome seed :=
    if String.eqb s "CMB" then Ok (Thermal Tcmb (ar * Tcmb ^ 4) None)
    else if String.eqb s "FIR" then Ok (Thermal 30 (1 / 2 * eV) None)
    else if String.eqb s "NIR" then Ok (Thermal 3000 (1 * eV) None)
    else Err "TypeError".

  (** 491-510 *)
  Definition thermal (T : R) (uu : uq) (theta : option R) : outcome seed :=
    if Rlt_dec T 0 then Err "ValueError"
    else match uu with
         | Plain x => if Req_EM_T x 0 then Ok (Thermal T (ar * T ^ 4) theta) else Err "TypeError"
         | EnergyDensity [x] =>
             if Req_EM_T x 0 then Ok (Thermal T (ar * T ^ 4) theta)
             else if Rlt_dec x 0 then Err "ValueError" else Ok (Thermal T x theta)
         | EnergyDensity _ => Err "ValueError"      (* ambiguous truth value *)
         (* a zero compares equal to 0 whatever its unit *)
         | NumberDensity [x] | OtherU [x] =>
             if Req_EM_T x 0 then Ok (Thermal T (ar * T ^ 4) theta) else Err "TypeError"
         | NumberDensity _ | OtherU _ => Err "ValueError"
         end.

  (** 512-539; validate_array does not look at its domain argument *)
  Definition array (T : tq) (uu : uq) (theta : option R) : outcome seed :=
    match T with
    | Energies [e0] =>
        match uu with
        | EnergyDensity [x] => if Rlt_dec x 0 then Err "ValueError" else Ok (Array [e0] [x] theta)
        | EnergyDensity _ => Err "ValueError"
        | _ => Err "TypeError"
        end
    | Energies es =>
        match uu with
        | EnergyDensity us =>
            if Nat.eqb (List.length us) (List.length es)
            then Ok (Array es (map (fun p => fst p / snd p ^ 2) (combine us es)) theta)
            else Err "ValueError"                   (* shapes do not broadcast *)
        | NumberDensity ns => Ok (Array es ns theta)
        | _ => Err "TypeError"
        end
    | _ => Err "TypeError"
    end.

  (** 477-543: one entry of the loop, with the name it is stored under *)
  Definition process1 (i : inseed) : outcome (string * seed) :=
    match i with
    | SName s => omap (fun r => (s, r)) (named s)
    | SIso name T uu =>
        omap (fun r => (name, r)) (match T with Temperature K => thermal K uu None | _ => array T uu None end)
    | SAni name T uu a =>
        match a with
        | OtherA => Err "TypeError"
        | Angle th =>
            omap (fun r => (name, r))
                 (match T with Temperature K => thermal K uu (Some th) | _ => array T uu (Some th) end)
        end
    | SBad => Err "TypeError"
    end.

  (** 450-545: result[name] = seed, later entries overwrite earlier ones *)
  Definition process_list (l : list inseed) : outcome (list (string * seed)) :=
    fold_left (fun acc i => obind acc (fun d => obind (process1 i) (fun p => Ok (dset (fst p) (snd p) d))))
              l (Ok []).

  (** 446-448: a string is split at the dashes *)
  Definition process_string (s : string) : outcome (list (string * seed)) :=
    process_list (map SName (split_dash s)).
End Process.
