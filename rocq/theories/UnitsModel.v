(** Units, quantities and SED conversion (src/naima/utils.py:219-282 and the
    parts of astropy.units used there). A unit is a positive scale (its size in
    a fixed reference system) and exponents of energy, length and time; the
    physical types of core.py:24-29 are identified by their exponents. *)
From Coq Require Import Reals List ZArith Bool String.
From Verif Require Import Outcome.
Import ListNotations.
Local Open Scope R_scope.

(** astropy units as used by utils.py 219-282: powers of energy, length and time *)
Definition dims : Type := (Z * Z * Z)%type.
(** astropy units as used by utils.py 219-282: is_equivalent *)
Definition dims_eqb (a b : dims) : bool :=
  let '(e, l, t) := a in let '(e', l', t') := b in (Z.eqb e e' && Z.eqb l l' && Z.eqb t t')%bool.
(** astropy units as used by utils.py 219-282: dimension of a product *)
Definition dmul (a b : dims) : dims :=
  let '(e, l, t) := a in let '(e', l', t') := b in ((e + e')%Z, (l + l')%Z, (t + t')%Z).
(** astropy units as used by utils.py 219-282: dimension of a power *)
Definition dpow (a : dims) (n : Z) : dims := let '(e, l, t) := a in ((n * e)%Z, (n * l)%Z, (n * t)%Z).

(** astropy units as used by utils.py 219-282: dimensionless *)
Definition d_none : dims := (0, 0, 0)%Z.
(** astropy units as used by utils.py 219-282: energy *)
Definition d_energy : dims := (1, 0, 0)%Z.
Definition d_flux : dims := (1, -2, -1)%Z.                 (* erg / (cm2 s), astropy "energy flux" *)
Definition d_diff_flux : dims := (-1, -2, -1)%Z.           (* 1 / (erg cm2 s) *)
Definition d_power : dims := (1, 0, -1)%Z.
(** astropy units as used by utils.py 219-282: differential power, 232 *)
Definition d_diff_power : dims := (-1, 0, -1)%Z.
(** astropy units as used by utils.py 219-282: differential energy, 233 *)
Definition d_diff_energy : dims := (-1, 0, 0)%Z.
(** astropy units as used by utils.py 219-282: differential number density, 234 *)
Definition d_diff_density : dims := (-1, -3, 0)%Z.

(** astropy units as used by utils.py 219-282: Unit *)
Record unit_ := mkU { scale : R; dim : dims }.
(** an array with a unit *)
(** astropy units as used by utils.py 219-282: Quantity *)
Record qty := mkQ { vals : list R; qunit : unit_ }.

(** astropy units as used by utils.py 219-282: elementwise operation *)
Definition zipw {A} (f : R -> A -> R) (a : list R) (b : list A) : list R := map (fun p => f (fst p) (snd p)) (combine a b).
(** astropy units as used by utils.py 219-282: product of units, 237-274 *)
Definition umul (a b : unit_) : unit_ := mkU (scale a * scale b) (dmul (dim a) (dim b)).
(** astropy units as used by utils.py 219-282: product of Quantities, 237-274 *)
Definition qmul (a b : qty) : qty := mkQ (zipw Rmult (vals a) (vals b)) (umul (qunit a) (qunit b)).
(** Quantity.to *)
(** astropy units as used by utils.py 219-282: Quantity.to, 219-282 *)
Definition qto (u : unit_) (q : qty) : outcome qty :=
  if dims_eqb (dim (qunit q)) (dim u) then Ok (mkQ (map (fun v => v * (scale (qunit q) / scale u)) (vals q)) u)
  else Err "UnitConversionError".

(** The units naima converts to (262-274); their scales are parameters. *)
Record naima_units := mkNU { u_erg : R; u_TeV : R; u_s : R; u_cm : R }.

Definition is_sed_type (d : dims) : bool := (dims_eqb d d_power || dims_eqb d d_flux)%bool.     (* core.py:64-65 *)
Definition is_integral (d : dims) : bool := (dims_eqb d d_power || dims_eqb d d_energy || dims_eqb d d_flux)%bool.   (* 225-229 *)
Definition is_differential (d : dims) : bool :=
  (dims_eqb d d_diff_flux || dims_eqb d d_diff_power || dims_eqb d d_diff_energy || dims_eqb d d_diff_density)%bool. (* 230-235 *)

(** utils.py:219-282: target unit and conversion factor *)
Definition sed_conversion (nu : naima_units) (energy : qty) (mu : unit_) (sed : bool) : outcome (unit_ * qty) :=
  let d := dim mu in
  let one := mkU 1 d_none in
  let e2 := mkU (scale (qunit energy) ^ 2) (dpow (dim (qunit energy)) 2) in
  let e2i := mkU (/ scale (qunit energy) ^ 2) (dpow (dim (qunit energy)) (-2)) in
  obind
    (if (sed && is_integral d || negb sed && is_differential d)%bool then Ok (mkQ (map (fun _ => 1) (vals energy)) one)
     else if (sed && is_differential d)%bool then Ok (mkQ (map (fun e => e ^ 2) (vals energy)) e2)
     else if (negb sed && is_integral d)%bool then Ok (mkQ (map (fun e => / e ^ 2) (vals energy)) e2i)
     else Err "UnitsError")
    (fun sedf =>
     let is_energy := (dims_eqb d d_energy || dims_eqb d d_diff_energy)%bool in
     let is_flux := (dims_eqb d d_flux || dims_eqb d d_diff_flux)%bool in
     let f_unit :=
       if sed then (if is_energy then mkU (u_erg nu) d_energy
                    else if is_flux then mkU (u_erg nu / u_s nu / u_cm nu ^ 2) d_flux
                    else mkU (u_erg nu / u_s nu) d_power)
       else (if is_energy then mkU (/ u_TeV nu) d_diff_energy
             else if is_flux then mkU (/ (u_s nu * u_TeV nu * u_cm nu ^ 2)) d_diff_flux
             else mkU (/ (u_s nu * u_TeV nu)) d_diff_power) in
     Ok (f_unit, sedf)).
