(** Model of BaseRadiative.flux and BaseRadiative.sed
    (src/naima/radiative.py:88-134) without the cache (see MemoModel). *)
From Coq Require Import Reals List String.
From Verif Require Import Outcome.
Import ListNotations.
Local Open Scope R_scope.

(** The distance argument: a plain number, a length Quantity (in cm), or a
    Quantity of some other dimension.  [distance != 0] is false for the plain
    number 0 and, in astropy, for a zero Quantity of any dimension. *)
Inductive distance := Number (x : R) | Length (cm : R) | Other (x : R).
(** distance != 0, radiative.py 104, 126 *)
Definition nonzero (d : distance) : bool :=
  match d with Number x | Length x | Other x => if Req_EM_T x 0 then false else true end.
(** validate_scalar(..., physical_type="length"), validator.py:8-24 *)
Definition validate_length (d : distance) : outcome R :=
  match d with Length cm => Ok cm | _ => Err "TypeError"%string end.

Section Flux.
  (** The intrinsic differential spectrum of the radiative model, 1/(s eV), for
      photon energies in eV: external here; see the process models. *)
  Variable spectrum : list R -> outcome (list R).
  (** erg per eV *)
  Variable eV_erg : R.

  (** radiative.py:101-111; numbers are 1/(s cm2 eV), or 1/(s eV) for distance 0 *)
  Definition flux (energies : list R) (d : distance) : outcome (list R) :=
    obind (spectrum energies) (fun spec =>
    if nonzero d then
      obind (validate_length d) (fun cm => Ok (map (fun s => s / (4 * PI * cm ^ 2)) spec))
    else Ok spec).

  (** radiative.py:125-134; numbers are erg/(cm2 s) or erg/s *)
  Definition sed (energies : list R) (d : distance) : outcome (list R) :=
    obind (flux energies d) (fun f =>
    Ok (map (fun p => fst p * (snd p) ^ 2 * eV_erg) (combine f energies))).
End Flux.
