(** Array shapes of the radiative spectra: which shape goes in, which comes out.

    A shape is the list of the lengths along each axis; a scalar has shape [].
    Only shapes are modelled here; the values are the subject of the other
    files. *)
From Coq Require Import String List Arith Bool.
From Verif Require Import Outcome MemoModel.
Import ListNotations.
Local Open Scope string_scope.

(** a.shape of the arrays of radiative.py and utils.py 285-355 *)
Definition shape := list nat.

(* ------------------------------------------------------------------ *)
(** * numpy *)

(** numpy broadcasting of one pair of lengths. *)
(** numpy broadcasting, as in radiative.py 333, utils.py 336-344 *)
Definition bdim (a b : nat) : outcome nat :=
  if (a =? b)%nat then Ok a
  else if (a =? 1)%nat then Ok b
  else if (b =? 1)%nat then Ok a
  else Err "ValueError".

(** Broadcasting with the last axis first. *)
(** numpy broadcasting, as in radiative.py 333, utils.py 336-344 *)
Fixpoint brev (s t : shape) : outcome shape :=
  match s, t with
  | [], _ => Ok t
  | _, [] => Ok s
  | a :: s', b :: t' => obind (bdim a b) (fun d => obind (brev s' t') (fun r => Ok (d :: r)))
  end.

(** Shape of the result of an elementwise operation (numpy manual,
    "Broadcasting"): the shapes are aligned at their last axis. *)
(** numpy broadcasting, as in radiative.py 333, utils.py 336-344 *)
Definition broadcast (s t : shape) : outcome shape := omap (@rev nat) (brev (rev s) (rev t)).

(** [np.vstack(a)] of one array: the rows of [a], each made at least
    two-dimensional, stacked along the first axis. *)
Definition vstack (s : shape) : outcome shape :=
  match s with
  | [] => Err "TypeError"          (* a 0-d array cannot be iterated *)
  | 0 :: _ => Err "ValueError"     (* need at least one array to concatenate *)
  | [m] => Ok [m; 1]
  | [m; k] => Ok [m; k]
  | m :: k :: r => Ok ((m * k)%nat :: r)
  end.

(** [a[:, None]] *)
(** radiative.py 592, 622-624 *)
Definition newaxis1 (s : shape) : outcome shape :=
  match s with
  | [] => Err "IndexError"         (* invalid index to scalar variable *)
  | m :: r => Ok (m :: 1 :: r)
  end.

(** [a.squeeze()] *)
(** radiative.py 644 *)
Definition squeeze (s : shape) : shape := filter (fun d => negb (d =? 1)%nat) s.

(** utils.py:285-355 [trapz_loglog(y, x, axis=0)] for [x] of shape
    [nx :: 1 :: ... :: 1] (a one-dimensional [x] is reshaped to that, 328-331):
    both are cut into [slice(None,-1)]/[slice(1,None)] along the axis, combined
    elementwise, and summed over the axis. *)
Definition trapz0 (nx : nat) (y : shape) : outcome shape :=
  match y with
  | [] => Err "IndexError"         (* 322: slice1[axis] of an empty list *)
  | d :: r => obind (bdim (d - 1) (nx - 1)) (fun _ => Ok r)
  end.

(** The same with [axis=-1]. *)
Definition trapz_last (nx : nat) (y : shape) : outcome shape :=
  match rev y with
  | [] => Err "IndexError"
  | d :: r => obind (bdim (d - 1) (nx - 1)) (fun _ => Ok (rev r))
  end.

(* ------------------------------------------------------------------ *)
(** * The spectra.  [n] is the number of points of the particle energy grid,
      [s] the shape of the photon energies after [_validate_ene]
      (radiative.py:43-58, which keeps the shape). *)

(** radiative.py:282-342 [Synchrotron._spectrum]: CS1 has the shape of the
    energies (line 322), EgEc broadcasts them against the column Ec (331),
    dNdE multiplies the two (332), and the integral is along axis 0 (335). *)
Definition sy_shape (n : nat) (s : shape) : outcome shape :=
  obind (vstack [n]) (fun col =>
  obind (broadcast s col) (fun egec =>
  obind (broadcast s egec) (fun dnde =>
  obind (broadcast col dnde) (fun y => trapz0 n y)))).

(** radiative.py:544-574 [_iso_ic_on_planck]: gamma_energy = np.vstack(...),
    z = gamma_energy / electron_energy. *)
Definition iso_shape (n : nat) (s : shape) : outcome shape :=
  obind (vstack s) (fun g => broadcast g [n]).

(** radiative.py:576-606 [_ani_ic_on_planck]: gamma_energy[:, None]. *)
Definition ani_shape (n : nat) (s : shape) : outcome shape :=
  obind (newaxis1 s) (fun g => broadcast g [n]).

(** radiative.py:608-655 [_iso_ic_on_monochromatic] with [p] seed energies:
    photE0[:, None, None], gamma_energy[:, None]; b = 4 photE0 electron_energy,
    w = gamma_energy / electron_energy, q = w / (b (1 - w)); more than one seed
    energy: integral along axis 0, otherwise squeeze; the final factor has the
    shape of the grid and is multiplied in place. *)
Definition mono_shape (p n : nat) (s : shape) : outcome shape :=
  obind (newaxis1 s) (fun g =>
  obind (broadcast [p; 1; 1] [n]) (fun b =>
  obind (broadcast g [n]) (fun w =>
  obind (broadcast w b) (fun q =>
  obind (if (1 <? p)%nat then trapz0 p q else Ok (squeeze q)) (fun r =>
  broadcast r [n]))))).

(** radiative.py 657-687: the kinds of seed *)
Inductive seed_kind := ThermalIso | ThermalAni | Array (p : nat).

(** radiative.py:657-687 [_calc_specic]: the kernel, then
    [uf * Eph * trapz_loglog(nelec * gamint, gam)], divided by the energies. *)
Definition specic_shape (n : nat) (sd : seed_kind) (s : shape) : outcome shape :=
  obind (match sd with
         | ThermalIso => iso_shape n s
         | ThermalAni => ani_shape n s
         | Array p => mono_shape p n s
         end) (fun gamint =>
  obind (broadcast [n] gamint) (fun y =>
  obind (trapz_last n y) (fun t =>
  obind (broadcast s t) (fun lum => broadcast lum s)))).

(** radiative.py:689-714 [InverseCompton._spectrum]: u.Quantity(list of the
    spectra of the seeds) needs equal shapes; the sum is over the new axis. *)
Definition ic_shape (n : nat) (seeds : list seed_kind) (s : shape) : outcome shape :=
  obind (mapM (fun sd => specic_shape n sd s) seeds) (fun l =>
  match l with
  | [] => Ok []
  | t :: r => if forallb (fun t' => if list_eq_dec Nat.eq_dec t t' then true else false) r
              then Ok t else Err "TypeError"
  end).

(** radiative.py:942-998 [Bremsstrahlung._emiss_ee], [_emiss_ep] (non-zero
    weights) and [_spectrum]: the cross sections broadcast the column of
    electron energies against the photon energies. *)
Definition brems_shape (n : nat) (s : shape) : outcome shape :=
  obind (vstack [n]) (fun col =>
  obind (broadcast col s) (fun sigma =>
  obind (broadcast col sigma) (fun y =>
  obind (trapz0 n y) (fun e => broadcast e e)))).

(** radiative.py:1497-1537 [PionDecay._spectrum]: a loop over the energies; each
    item gives one integral; u.Quantity([]) is dimensionless, which the final
    conversion rejects.  An item that is itself an array reaches
    [diffsigma(Ep.value, Eg.value)], which is not modelled here: requests of two or
    more dimensions are outside this definition ([None]). *)
Definition pion_shape (s : shape) : option (outcome shape) :=
  match s with
  | [] => Some (Err "TypeError")            (* scalar Quantity is not iterable *)
  | [0] => Some (Err "UnitConversionError")
  | [m] => Some (Ok [m])
  | _ => None
  end.

(** radiative.py:1732-1768 [PionDecayKelner06._spectrum]: np.zeros(len(...))
    filled by a loop.  Two or more dimensions: outside, as above. *)
Definition kelner_shape (s : shape) : option (outcome shape) :=
  match s with
  | [] => Some (Err "TypeError")            (* len() of a scalar Quantity *)
  | [m] => Some (Ok [m])
  | _ => None
  end.

(* ------------------------------------------------------------------ *)
(** * The methods *)

(** the radiative classes, radiative.py 239-1767 *)
Inductive rmodel :=
| Synchrotron (n : nat)
| InverseCompton (n : nat) (seeds : list seed_kind)
| Bremsstrahlung (n : nat)
| PionDecay
| PionDecayKelner06.

(** _spectrum of each class, e.g. radiative.py 288-346, 689-710 *)
Definition spectrum_shape (m : rmodel) (s : shape) : option (outcome shape) :=
  match m with
  | Synchrotron n => Some (sy_shape n s)
  | InverseCompton n seeds => Some (ic_shape n seeds s)
  | Bremsstrahlung n => Some (brems_shape n s)
  | PionDecay => pion_shape s
  | PionDecayKelner06 => kelner_shape s
  end.

(** radiative.py:89-113 [flux] without the cache: division by a scalar and a unit
    conversion keep the shape. *)
Definition flux_shape (m : rmodel) (s : shape) : option (outcome shape) := spectrum_shape m s.

(** radiative.py:115-134 [sed]: flux times photon_energy**2. *)
Definition sed_shape (m : rmodel) (s : shape) : option (outcome shape) :=
  option_map (fun o => obind o (fun f => broadcast f s)) (flux_shape m s).

(* ------------------------------------------------------------------ *)
(** * The cache (model_utils.py:12-75) in front of [flux].  Of the energies only
      the bytes of the values, in C order, and the unit enter the digest (37-44):
      the shape does not.  [key] stands for lines 37-58 with everything but the
      bytes of the energies fixed. *)
Definition cached_flux_shape (key : string -> string) (m : rmodel)
    (c : cache shape) (bytes : string) (s : shape) : cache shape * outcome shape :=
  match flux_shape m s with
  | None => (c, Err "unmodelled")
  | Some r =>
      let '((_, c'), o) := memoized (Some true) (Ok (key bytes)) (fun st : unit => (st, r)) tt c in
      (c', o)
  end.
