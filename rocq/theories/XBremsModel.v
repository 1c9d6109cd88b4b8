(** Bremsstrahlung on extended values (src/naima/radiative.py:838-989): the same
    formulas as BremsModel, with the infinities and nan that double precision
    arithmetic yields where a logarithm is taken of 0 or of a negative number.
    Rounding is not modelled, zeros are unsigned (no expression here divides by a
    zero of either sign except through the logarithm of y2/y1, which is -inf for
    both zeros). [k] is r0^2 * alpha; energies in units of the electron rest energy. *)
From Coq Require Import Reals List Bool.
From Verif Require Import TrapzModel EnergyModel ElectronModel BremsModel.
Import ListNotations.
Local Open Scope R_scope.

Section XBrems.
  Variable k : R.
  Variable gam_trans : R.

  (** radiative.py:838-849 *)
  Definition xsigma_1 (gam eps : R) : xr :=
    let s1 := Fin (4 * k / eps) in
    let s2 := Fin (1 + (1 / 3 - eps / gam) * (1 - eps / gam)) in
    let s3 := if Rlt_dec gam eps then Fin 0
              else xadd (xln (Fin (2 * gam * (gam - eps) / eps))) (Fin (- (1 / 2))) in
    xmul (xmul s1 s2) s3.

  (** radiative.py:851-871; np.where evaluates both branches and picks one *)
  Definition xsigma_2 (gam eps : R) : xr :=
    let s0 := Fin (k / (3 * eps)) in
    let s1_1 := xmul (Fin (16 * (1 - eps + eps ^ 2))) (xln (Fin (gam / eps))) in
    let s1_2 := Fin (- (1) / eps ^ 2 + 3 / eps - 4 - 4 * eps - 8 * eps ^ 2) in
    let s1_3 := xmul (Fin (- (2) * (1 - 2 * eps))) (xln (Fin (1 - 2 * eps))) in
    let s1_4 := Fin (1 / (4 * eps ^ 3) - 1 / (2 * eps ^ 2) + 3 / eps - 2 + 4 * eps) in
    let s1 := xadd (xadd s1_1 s1_2) (xmul s1_3 s1_4) in
    let s2_1 := Fin (2 / eps) in
    let s2_2 := xmul (Fin (4 - 1 / eps + 1 / (4 * eps ^ 2))) (xln (Fin (2 * gam))) in
    let s2_3 := Fin (- (2) + 2 / eps - 5 / (8 * eps ^ 2)) in
    let s2 := xmul s2_1 (xadd s2_2 s2_3) in
    xmul (xmul s0 (if Rle_dec eps (1 / 2) then s1 else s2)) (Fin (heaviside (gam - eps))).

  (** radiative.py:873-880, used for gam > gam_trans > 1 *)
  Definition xsigma_ee_rel (gam eps : R) : xr :=
    let A := 1 - 8 / 3 * Rpower (gam - 1) (2 / 10) / (gam + 1) * Rpower (eps / gam) (1 / 3) in
    xmul (xadd (xsigma_1 gam eps) (xsigma_2 gam eps)) (Fin A).

  (** radiative.py:910-928; below 2 MeV every value that is not a number is masked
      (lines 905-906), see BremsModel *)
  Definition xsigma_ee (gam eps : R) : xr :=
    if Rle_dec gam gam_trans then Fin (sigma_ee_nonrel k gam eps) else xsigma_ee_rel gam eps.
  (** radiative.py:930-938 *)
  Definition xsigma_ep (gam eps : R) : xr := xsigma_1 gam eps.

  (** utils.py:347-348: ordinates equal to 0 *)
  Definition xis_zero (y : xr) : bool := match y with Fin v => if Req_EM_T v 0 then true else false | _ => false end.
  (** utils.py:335-348: one bin with extended ordinates *)
  Definition xbin (x1 x2 : R) (y1 y2 : xr) : xr :=
    let b := xdiv (xlog10 (xdiv y2 y1)) (xlog10 (xdiv (Fin x2) (Fin x1))) in
    let b1 := xadd b (Fin 1) in
    let v := if xgt (xabs b1) window_eps
             then xdiv (xmul y1 (xadd (xmul (Fin x2) (xpow (xdiv (Fin x2) (Fin x1)) b)) (xopp (Fin x1)))) b1
             else xmul (xmul (Fin x1) y1) (xln (xdiv (Fin x2) (Fin x1))) in
    if xis_zero y1 then Fin 0
    else if xis_zero y2 then Fin 0
    else if Req_EM_T x1 x2 then Fin 0
    else v.
  (** utils.py:353-355 *)
  Fixpoint xtrapz (ys : list xr) (xs : list R) : xr :=
    match ys, xs with
    | y1 :: ((y2 :: _) as yr), x1 :: ((x2 :: _) as xr) => xadd (xbin x1 x2 y1 y2) (xtrapz yr xr)
    | _, _ => Fin 0
    end.

  Variable mec2 : R.
  Variable c_cgs : R.
  Variable pd : R -> R.
  Variable gs : list R.

  (** radiative.py:946-953, 965-971 (weights other than 0) for one photon energy *)
  Definition xemiss (sigma : R -> R -> xr) (eps : R) : xr :=
    xmul (Fin c_cgs) (xtrapz (map (fun g => xmul (Fin (pd (g * mec2) * mec2)) (sigma g eps)) gs) gs).
  (** radiative.py:984-989 for weights other than 0 *)
  Definition xbrems (n0 w_ee w_ep eps : R) : xr :=
    xmul (Fin n0) (xadd (xmul (Fin w_ee) (xemiss xsigma_ee eps)) (xmul (Fin w_ep) (xemiss xsigma_ep eps))).
End XBrems.
