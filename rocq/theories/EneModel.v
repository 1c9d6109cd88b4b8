(** What may be given as photon energies, and what the methods make of it:
    radiative.py:43-58, models.py:33-46 ([_validate_ene]), model_utils.py:24-44
    (the beginning of the cache wrapper), radiative.py:89-134, 753-792. *)
From Coq Require Import String List Bool.
From Verif Require Import Outcome.
Import ListNotations.
Local Open Scope string_scope.

Section Ene.
  (** Numbers with a unit; [data] stands for the numbers and the unit. *)
  Variable data : Type.
  (** extern/validator.py 66-75: number of dimensions of an array *)
  Inductive ndim := Scalar | OneD | MoreD.
  (** astropy Quantity as seen by radiative.py 43-58 and extern/validator.py 8-28 *)
  Record quantity := mkQt { q_ndim : ndim; q_is_energy : bool; q_data : data }.

  (** The argument of flux, sed or a spectral model. *)
  Inductive ene :=
  | EQuantity (q : quantity)
  | EMap (col : option quantity)      (* dict or Table; u.Quantity(ene["energy"]) if there is such a column *)
  | EOther (q : outcome quantity).    (* anything else, with the outcome of u.Quantity(ene): a
                                         number, a list, an array, a string *)

  (** extern/validator.py:8-24 with physical_type="energy" *)
  Definition check_energy (q : quantity) : outcome quantity :=
    if q_is_energy q then Ok q else Err "TypeError".
  (** extern/validator.py:54-82 with ndim=1, no shape *)
  Definition validate_array (q : quantity) : outcome quantity :=
    obind (check_energy q) (fun q => match q_ndim q with OneD => Ok q | _ => Err "TypeError" end).

  (** radiative.py:43-58; models.py:33-46 is the same *)
  Definition validate_ene (e : ene) : outcome quantity :=
    match e with
    | EMap (Some q) => validate_array q
    | EMap None => Err "TypeError"
    | EQuantity q => check_energy q
    | EOther o => obind o check_energy
    end.

  (** model_utils.py:24-44 with the cache on.  energy["energy"]: a Quantity
      raises IndexError or TypeError, caught; a missing column raises KeyError,
      not caught; anything else raises TypeError or IndexError, caught, and then
      has no attribute [value], twice. *)
  Definition memo_energy (e : ene) : outcome quantity :=
    match e with
    | EQuantity q => Ok q
    | EMap (Some q) => Ok q
    | EMap None => Err "KeyError"
    | EOther _ => Err "AttributeError"
    end.

  Variable V : Type.
  (** _spectrum and the division by the distance (C19), for validated energies *)
  Variable compute : quantity -> outcome V.
  (** multiplication of the flux by photon_energy**2 *)
  Variable times_E2 : V -> quantity -> V.

  (** radiative.py:89-113 behind @memoize ([enabled]: the attribute _memoize).
      What the cache returns is C01-C06; here every request computes. *)
  Definition flux (enabled : bool) (e : ene) : outcome V :=
    if enabled then obind (memo_energy e) (fun q => obind (validate_ene (EQuantity q)) compute)
    else obind (validate_ene e) compute.

  (** radiative.py:115-134 *)
  Definition sed (enabled : bool) (e : ene) : outcome V :=
    obind (validate_ene e) (fun q => omap (fun f => times_E2 f q) (flux enabled (EQuantity q))).

  (** photon_energy**2.0 on the argument itself *)
  Definition raw_power (e : ene) : outcome quantity :=
    match e with
    | EQuantity q => Ok q
    | EMap _ | EOther _ => Err "TypeError"
    end.

  (** radiative.py:716-792 [InverseCompton.sed]: [seed_part] replaces the flux by
      that of one seed (C08) *)
  Variable seed_part : V -> outcome V.
  (** radiative.py 712-759 *)
  Definition ic_flux (enabled : bool) (seed : bool) (e : ene) : outcome V :=
    obind (flux enabled e) (fun f => if seed then seed_part f else Ok f).
  (** the plain sed calls self.flux, i.e. InverseCompton.flux with seed=None *)
  (** radiative.py 761-791 *)
  Definition ic_sed (enabled : bool) (seed : bool) (e : ene) : outcome V :=
    obind (sed enabled e) (fun s =>
    if seed then
      obind (ic_flux enabled true e) (fun f => obind (raw_power e) (fun q => Ok (times_E2 f q)))
    else Ok s).

  (** models.py:103-107 and its likes: __call__ validates, then evaluates *)
  Variable eval : quantity -> V.
  (** models.py 95-107 and the __call__ of the other models *)
  Definition call (e : ene) : outcome V := omap eval (validate_ene e).
End Ene.
Arguments mkQt {data}.
Arguments q_ndim {data}.
Arguments q_is_energy {data}.
Arguments q_data {data}.
Arguments EQuantity {data}.
Arguments EMap {data}.
Arguments EOther {data}.
Arguments flux {data V}.
Arguments sed {data V}.
Arguments ic_flux {data V}.
Arguments ic_sed {data V}.
Arguments call {data V}.
