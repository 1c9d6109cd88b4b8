(** Model of the particle energy grids and of the energy content
    (src/naima/radiative.py, BaseElectron 137-236 and BaseProton 992-1096).

    All energies are numbers of erg and particle distributions return numbers
    of particles per erg; [mec2] and [GeV] are the sizes of those units in erg. *)
From Coq Require Import Reals ZArith List.
From Verif Require Import TrapzModel.
Import ListNotations.
Local Open Scope R_scope.

(** [10 ** x] *)
Definition pow10 (x : R) : R := Rpower 10 x.

(** np.linspace(a, b, n): a + i*step, the last point set to b. *)
(** numpy.linspace, inside np.logspace of radiative.py 152-154 *)
Definition linspace (a b : R) (n : nat) : list R :=
  map (fun i => if Nat.eqb (S i) n then b else a + INR i * ((b - a) / INR (n - 1))) (seq 0 n).
(** np.logspace(a, b, n) *)
(** numpy.logspace, radiative.py 152-154, 189-191 *)
Definition logspace (a b : R) (n : nat) : list R := map pow10 (linspace a b n).

(** max(10, int(x)); int() truncates, which differs from the floor only for
    negative x where the maximum is 10 anyway. *)
Definition npoints (x : R) : nat := Z.to_nat (Z.max 10 (Int_part x)).

(** radiative.py:150-154 and 183-187 *)
Definition gam (mec2 nEed Eemin Eemax : R) : list R :=
  let log10gmin := log10 (Eemin / mec2) in
  let log10gmax := log10 (Eemax / mec2) in
  logspace log10gmin log10gmax (npoints (nEed * (log10gmax - log10gmin))).

(** radiative.py:159-160: .to(1/mec2) multiplies the value per erg by mec2 *)
Definition nelec (mec2 : R) (pd : R -> R) (gs : list R) : list R :=
  map (fun g => pd (g * mec2) * mec2) gs.

(** elementwise product, radiative.py 165, 193 *)
Definition mul2 (xs ys : list R) : list R := map (fun p => fst p * snd p) (combine xs ys).

(** radiative.py:162-166 / 188-189, in erg *)
Definition electron_energy (mec2 : R) (pd : R -> R) (gs : list R) : R :=
  trapz_loglog (mul2 gs (nelec mec2 pd gs)) (map (fun g => g * mec2) gs).

(** radiative.py:168-195; [None] is an omitted bound *)
Definition compute_We (mec2 nEed : R) (pd : R -> R) (selfmin selfmax : R) (Eemin Eemax : option R) : R :=
  match Eemin, Eemax with
  | None, None => electron_energy mec2 pd (gam mec2 nEed selfmin selfmax)
  | _, _ =>
      let hi := match Eemax with Some x => x | None => selfmax end in
      let lo := match Eemin with Some x => x | None => selfmin end in
      electron_energy mec2 pd (gam mec2 nEed lo hi)
  end.

(** radiative.py:1002-1009 (number of points from log10(Epmax/Epmin)) *)
Definition Ep (GeV nEpd Epmin Epmax : R) : list R :=
  logspace (log10 (Epmin / GeV)) (log10 (Epmax / GeV)) (npoints (nEpd * log10 (Epmax / Epmin))).
(** radiative.py:1040-1051 (number of points from the difference of the logs) *)
Definition Ep_explicit (GeV nEpd Epmin Epmax : R) : list R :=
  logspace (log10 (Epmin / GeV)) (log10 (Epmax / GeV))
           (npoints (nEpd * (log10 (Epmax / GeV) - log10 (Epmin / GeV)))).
(** radiative.py:1011-1015 *)
Definition J (GeV : R) (pd : R -> R) (es : list R) : list R := map (fun x => pd (x * GeV) * GeV) es.
(** radiative.py:1017-1021 *)
Definition Wp (GeV nEpd : R) (pd : R -> R) (Epmin Epmax : R) : R :=
  let es := Ep GeV nEpd Epmin Epmax in
  trapz_loglog (mul2 es (J GeV pd es)) es * GeV.
(** radiative.py:1023-1055; the explicit branch integrates Ep * pdist over Ep
    in the distribution's own units (here per erg; C13) *)
Definition compute_Wp (GeV nEpd : R) (pd : R -> R) (selfmin selfmax : R) (Epmin Epmax : option R) : R :=
  match Epmin, Epmax with
  | None, None => Wp GeV nEpd pd selfmin selfmax
  | _, _ =>
      let hi := match Epmax with Some x => x | None => selfmax end in
      let lo := match Epmin with Some x => x | None => selfmin end in
      let es := map (fun x => x * GeV) (Ep_explicit GeV nEpd lo hi) in
      trapz_loglog (mul2 es (map pd es)) es
  end.

(** ** set_We / set_Wp: radiative.py:197-236, 1057-1096

    Quantities are mutable cells of a heap (address -> value).  A particle
    distribution is an address holding its amplitude and the function of
    (amplitude, energy) it computes.  With [amplitude_name=None] the code runs
    `amplitude *= factor`, which updates the array in place (astropy Quantity
    __imul__); with a name it stores a freshly allocated product. *)
Definition heap := nat -> R.
(** assignment to an attribute, radiative.py 223, 232-236 *)
Definition hset (h : heap) (a : nat) (v : R) : heap := fun b => if Nat.eqb a b then v else h b.
(** the particle distribution as used at radiative.py 159, 223 *)
Record dist := mkDist { amplitude : nat; eval : R -> R -> R }.
(** radiative.py 159, 192: self.particle_distribution(...) *)
Definition as_function (h : heap) (d : dist) : R -> R := eval d (h (amplitude d)).

(** [old] is the method computing the energy content of a distribution
    function: compute_We or compute_Wp with all other arguments applied.
    [fresh] is an address not in use. *)
(** radiative.py 218-236, 1018-1060 *)
Definition set_energy (old : (R -> R) -> R) (named : bool) (fresh : nat) (h : heap) (d : dist) (W : R)
  : heap * dist :=
  let factor := W / old (as_function h d) in
  if named
  then (hset h fresh (h (amplitude d) * factor), mkDist fresh (eval d))
  else (hset h (amplitude d) (h (amplitude d) * factor), d).
