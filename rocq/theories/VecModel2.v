(** Masked array computations: Bremsstrahlung (src/naima/radiative.py:836-971)
    and the pion-decay cross section (1235-1482). *)
From Coq Require Import Reals List Bool Arith String.
From Verif Require Import Outcome TrapzModel EnergyModel ElectronModel BremsModel ShapeModel VecModel PionModel.
Import ListNotations.
Local Open Scope R_scope.

(** < of doubles, radiative.py 838-930, 1288-1480 *)
Definition Rltb (x y : R) : bool := if Rlt_dec x y then true else false.
(** <= of doubles, radiative.py 838-930, 1288-1480 *)
Definition Rleb (x y : R) : bool := if Rle_dec x y then true else false.

(* ------------------------------------------------------------------ *)
(** * Bremsstrahlung *)

Section BremsArrays.
  Variables k gam_trans c_cgs : R.
  Variable nelec gs : list R.

  (** [np.ones_like(a)] *)
  (** numpy ones_like of the arrays of radiative.py 838-930 *)
  Definition aones (a : arr R) : arr R := amap (fun _ => 1) a.
  (** [np.zeros_like(a)] *)
  (** numpy zeros_like of the arrays of radiative.py 838-930 *)
  Definition azeros (a : arr R) : arr R := amap (fun _ => 0) a.
  (** [np.any(l)] *)
  (** radiative.py 1476 *)
  Definition any (p : R -> bool) (l : list R) : bool := existsb p l.

  (** 836-849 *)
  Definition sigma_1_array (gam eps : arr R) : outcome (arr R) :=
    let s1 := amap (fun e => 4 * k / e) eps in
    obind (lift2 (fun g e => 1 + (1 / 3 - e / g) * (1 - e / g)) gam eps) (fun s2 =>
    obind (lift2 (fun g e => ln (2 * g * (g - e) / e) - 1 / 2) gam eps) (fun s3 =>
    obind (lift2 Rltb gam eps) (fun mask =>
    obind (assign_scalar s3 mask 0) (fun s3 =>
    obind (lift2 Rmult s1 s2) (fun a => lift2 Rmult a s3))))).

  (** 851-871 *)
  Definition sigma_2_array (gam eps : arr R) : outcome (arr R) :=
    let s0 := amap (fun e => k / (3 * e)) eps in
    obind (lift2 (fun g e => 16 * (1 - e + e ^ 2) * ln (g / e)) gam eps) (fun s1_1 =>
    let s1_2 := amap (fun e => - (1) / e ^ 2 + 3 / e - 4 - 4 * e - 8 * e ^ 2) eps in
    let s1_34 := amap (fun e => (- (2) * (1 - 2 * e) * ln (1 - 2 * e)) * (1 / (4 * e ^ 3) - 1 / (2 * e ^ 2) + 3 / e - 2 + 4 * e)) eps in
    obind (lift2 Rplus s1_1 s1_2) (fun s1 =>
    obind (lift2 Rplus s1 s1_34) (fun s1 =>
    obind (lift2 Rmult (amap (fun e => 4 - 1 / e + 1 / (4 * e ^ 2)) eps) (amap (fun g => ln (2 * g)) gam)) (fun s2_2 =>
    obind (lift2 Rplus s2_2 (amap (fun e => - (2) + 2 / e - 5 / (8 * e ^ 2)) eps)) (fun s2 =>
    obind (lift2 Rmult (amap (fun e => 2 / e) eps) s2) (fun s2 =>
    obind (awhere (amap (fun e => Rleb e (1 / 2)) eps) s1 s2) (fun w =>
    obind (lift2 Rmult s0 w) (fun a =>
    obind (lift2 (fun g e => heaviside (g - e)) gam eps) (fun h => lift2 Rmult a h))))))))).

  (** 873-880 *)
  Definition sigma_ee_rel_array (gam eps : arr R) : outcome (arr R) :=
    obind (lift2 (fun g e => 1 - 8 / 3 * Rpower (g - 1) (2 / 10) / (g + 1) * Rpower (e / g) (1 / 3)) gam eps) (fun A =>
    obind (sigma_1_array gam eps) (fun a =>
    obind (sigma_2_array gam eps) (fun b =>
    obind (lift2 Rplus a b) (fun ab => lift2 Rmult ab A)))).

  (** 898-908 *)
  Definition sigma_ee_nonrel_array (gam eps : arr R) : outcome (arr R) :=
    let s0 := amap (fun e => 4 * k / (15 * e)) eps in
    obind (lift2 (fun g e => 4 * e / (g ^ 2 - 1)) gam eps) (fun x =>
    obind (lift2 F_nr x gam) (fun F =>
    obind (lift2 Rmult s0 F) (fun sigma =>
    obind (lift2 (fun e g => Rleb (1 / 4 * (g ^ 2 - 1)) e) eps gam) (fun m1 =>
    obind (assign_scalar sigma m1 0) (fun sigma =>
    obind (lift2 Rmult gam (aones eps)) (fun go =>
    assign_scalar sigma (amap (fun v => Rltb v 1) go) 0)))))).

  (** 910-928 *)
  Definition sigma_ee_array (gam eps : arr R) : outcome (arr R) :=
    obind (omap azeros (lift2 Rmult gam eps)) (fun sigma =>
    obind (lift2 Rmult gam eps) (fun ge =>
    obind (lift2 Rmult gam (aones ge)) (fun go =>
    obind (if any (fun g => Rleb g gam_trans) gs then
             obind (sigma_ee_nonrel_array gam eps) (fun s => assign_where sigma (amap (fun v => Rleb v gam_trans) go) s)
           else Ok sigma) (fun sigma =>
    if any (fun g => Rltb gam_trans g) gs then
      obind (sigma_ee_rel_array gam eps) (fun s => assign_where sigma (amap (fun v => Rltb gam_trans v) go) s)
    else Ok sigma)))).

  (** 940-971 for a weight other than 0, photon energies in units of mec2 *)
  Definition emiss_array (sigma : arr R -> arr R -> outcome (arr R)) (eps : arr R) : outcome (arr R) :=
    obind (avstack (vec gs)) (fun gam =>
    obind (avstack (vec nelec)) (fun n =>
    obind (sigma gam eps) (fun s =>
    obind (lift2 Rmult n s) (fun y =>
    omap (amap (Rmult c_cgs)) (atrapz y (vec gs) 0))))).

  (** 973-989: n0 * (weight_ee * emiss_ee + weight_ep * emiss_ep), both weights
      other than 0 *)
  Definition brems_array (n0 w_ee w_ep : R) (eps : arr R) : outcome (arr R) :=
    obind (emiss_array sigma_ee_array eps) (fun ee =>
    obind (emiss_array sigma_1_array eps) (fun ep =>
    omap (amap (Rmult n0)) (lift2 Rplus (amap (Rmult w_ee) ee) (amap (Rmult w_ep) ep)))).
End BremsArrays.

(* ------------------------------------------------------------------ *)
(** * Compressed arrays: a[idx] and a[idx] = v with idx = np.where(mask) *)

(** [a[idx]] *)
(** Tp[idx], radiative.py 1293-1302, 1403-1436 *)
Fixpoint take {A} (mask : list bool) (l : list A) : list A :=
  match mask, l with
  | b :: mask', x :: l' => if b then x :: take mask' l' else take mask' l'
  | _, _ => []
  end.
(** [a[idx] = v]: as many values as the mask selects, else ValueError *)
(** sigma[idx] = ..., radiative.py 1293-1302, 1406-1436 *)
Fixpoint put {A} (mask : list bool) (v : list A) (a : list A) : outcome (list A) :=
  match mask, a with
  | b :: mask', x :: a' =>
      if b then match v with
                | y :: v' => obind (put mask' v' a') (fun r => Ok (y :: r))
                | [] => Err "ValueError"
                end
      else obind (put mask' v a') (fun r => Ok (x :: r))
  | _, _ => match v with [] => Ok a | _ => Err "ValueError" end
  end.
(** [a[idx] = c] for a scalar *)
(** radiative.py 1315-1321, 1480 *)
Fixpoint put1 {A} (mask : list bool) (c : A) (a : list A) : list A :=
  match mask, a with
  | b :: mask', x :: a' => (if b then c else x) :: put1 mask' c a'
  | _, _ => a
  end.
(** an elementwise operation on two arrays of the same length *)
(** elementwise operations, radiative.py 1281-1302, 1357-1365 *)
Fixpoint zip2 {A B C} (f : A -> B -> C) (l : list A) (r : list B) : outcome (list C) :=
  match l, r with
  | x :: l', y :: r' => obind (zip2 f l' r') (fun t => Ok (f x y :: t))
  | [], [] => Ok []
  | _, _ => Err "ValueError"
  end.

Section PionArrays.
  Variable m_p : R.
  Variable hi : hiE.

  (** 1260-1266: two-pion cross section, zeroed below its threshold *)
  Definition sigma2pi_v (Tp : list R) : list R :=
    put1 (map (fun t => Rltb t (56 / 100)) Tp) 0
         (map (fun t => 57 / 10 / (1 + exp (- (93 / 10) * (t - 14 / 10)))) Tp).
  (** 1235-1266 *)
  Definition sigma_pi_loE_v (Tp : list R) : outcome (list (option R)) :=
    let sigma1pi := map (fun t =>
      nmap (fun q => let mu := q / (2 * m_pi * sqrt (s_cm m_p t)) in
                     766 / 100000 * PionModel.npow mu (195 / 100) * (1 + mu + mu ^ 5) * Rpower (fBW m_p t) (186 / 100))
           (nsqrt (mu_rad m_p t))) Tp in
    omap (map (nmap (fun v => v * mbarn)))
         (zip2 (fun a b => nmap (fun v => v + b) a) sigma1pi (sigma2pi_v Tp)).

  (** 1288-1304 *)
  Definition sigma_pi_v (Tp : list R) : outcome (list (option R)) :=
    let sigma := map (fun _ => Some 0) Tp in
    let m1 := map (fun t => Rltb t 2) Tp in
    obind (sigma_pi_loE_v (take m1 Tp)) (fun v =>
    obind (put m1 v sigma) (fun sigma =>
    let m2 := map (fun t => Rleb 2 t && Rltb t 5) Tp in
    obind (put m2 (map (fun t => Some (sigma_pi_midE m_p t)) (take m2 Tp)) sigma) (fun sigma =>
    let m3 := map (fun t => Rleb 5 t && Rltb t (Etrans hi)) Tp in
    obind (put m3 (map (fun t => Some (sigma_pi_hiE m_p t (tab_a Geant4))) (take m3 Tp)) sigma) (fun sigma =>
    let m4 := map (fun t => Rleb (Etrans hi) t) Tp in
    put m4 (map (fun t => Some (sigma_pi_hiE m_p t (tab_a hi))) (take m4 Tp)) sigma)))).

  (** 1306-1323: b1, b2, b3 over the energies >= 1 only *)
  Definition b_params_v (Tp : list R) : list R * list R * list R :=
    let TphiE := take (map (fun t => Rleb 1 t) Tp) Tp in
    let z := map (fun _ => 0) TphiE in
    let m1 := map (fun t => Rltb t 5) TphiE in
    let m2 := map (fun t => Rleb 5 t) TphiE in
    let m3 := map (fun t => Rleb (Etrans hi) t) TphiE in
    let fill (a b c : R) := put1 m3 c (put1 m2 b (put1 m1 a z)) in
    let '(g1, g2, g3) := tab_b Geant4 in
    let '(h1, h2, h3) := tab_b hi in
    (fill (953 / 100) g1 h1, fill (52 / 100) g2 h2, fill (54 / 1000) g3 h3).

  (** 1347-1367 *)
  Definition Amax_v (Tp : list R) : outcome (list (option R)) :=
    let loE := map (fun t => Rltb t 1) Tp in
    let hiE := map (fun t => Rleb 1 t) Tp in
    let Amax := map (fun _ => Some 0) Tp in
    let '(b1, b2, b3) := b_params_v Tp in
    let E := map (EpimaxLAB m_p) Tp in
    obind (sigma_pi_v (take loE Tp)) (fun slo =>
    obind (zip2 (fun s e => nbind s (fun s => nmap (fun e => 59 / 10 * s / e) e)) slo (take loE E)) (fun vlo =>
    obind (put loE vlo Amax) (fun Amax =>
    let thetap := map (fun t => t / m_p) Tp in
    let th := take hiE thetap in
    obind (zip2 (fun b x => Rpower x (- b)) b2 th) (fun p2 =>
    obind (zip2 (fun b x => exp (b * ln x ^ 2)) b3 th) (fun p3 =>
    obind (zip2 Rmult b1 p2) (fun q =>
    obind (zip2 Rmult q p3) (fun q =>
    obind (sigma_pi_v (take hiE Tp)) (fun shi =>
    obind (zip2 (fun q s => nmap (fun s => q * s / m_p) s) q shi) (fun vhi =>
    put hiE vhi Amax))))))))).

  (** 1369-1384 on arrays of energies and of parameters beta and gamma *)
  Definition F_func_v (Tp : list R) (Eg lamb alpha : R) (beta gamma : list R) : outcome (list (option R)) :=
    obind (zip2 (fun b g => (b, g)) beta gamma) (fun bg =>
    zip2 (fun t p => F_func m_p t Eg (lamb, alpha, fst p, snd p)) Tp bg).

  (** one block of 1395-1438: [mp] gives the parameters for the selected energies *)
  Definition F_block (mask : list bool) (Tp : list R) (Eg : R) (mp : list R -> R * R * list R * list R)
      (F : list (option R)) : outcome (list (option R)) :=
    let sel := take mask Tp in
    match sel with
    | [] => Ok F                                                   (* idx[0].size = 0 *)
    | _ => let '(l, a, b, g) := mp sel in
           obind (F_func_v sel Eg l a b g) (fun v => put mask v F)
    end.

  (** 1395-1438 *)
  Definition F_v (Tp : list R) (Eg : R) : outcome (list (option R)) :=
    let F := put1 (map (fun t => Rltb t Tth) Tp) (Some 0) (map (fun _ => Some 0) Tp) in
    obind (F_block (map (fun t => Rleb Tth t && Rleb t 1) Tp) Tp Eg
             (fun s => (1, 1, map (kappa m_p) s, map (fun _ => 0) s)) F) (fun F =>
    obind (F_block (map (fun t => Rltb 1 t && Rleb t 4) Tp) Tp Eg
             (fun s => (3, 1, map (fun t => mu_F m_p t + 245 / 100) s, map (fun t => mu_F m_p t + 145 / 100) s)) F) (fun F =>
    obind (F_block (map (fun t => Rltb 4 t && Rleb t 20) Tp) Tp Eg
             (fun s => (3, 1, map (fun t => 3 / 2 * mu_F m_p t + 495 / 100) s, map (fun t => mu_F m_p t + 150 / 100) s)) F) (fun F =>
    obind (F_block (map (fun t => Rltb 20 t && Rleb t 100) Tp) Tp Eg
             (fun s => (3, 1 / 2, map (fun _ => 42 / 10) s, map (fun _ => 1) s)) F) (fun F =>
    F_block (map (fun t => Rltb (Etrans hi) t) Tp) Tp Eg
             (fun s => let '(l, a, b, g) := tab_F hi in (l, a, map (fun _ => b) s, map (fun _ => g) s)) F)))).

  (** 1455-1482 *)
  Definition nuclear_factor_v (Tp : list R) : list R :=
    let epstotal := map (fun t =>
      if Rlt_dec Tth t then
        let sigmaRpp := 10 * PI * mbarn in
        let f := sigma_inel t / sigma_inel 1000 in
        let f2 := if Rlt_dec 1 f then f else 1 in
        let G := 1 + ln f2 in
        137 / 100 + (29 / 100 + 1 / 10) * sigmaRpp * G / sigma_inel t
      else 0) Tp in
    if existsb (fun t => Rltb t 1) Tp
    then put1 (map (fun t => Rltb Tth t && Rltb t 1) Tp) (19141 / 10000) epstotal
    else epstotal.

  (** 1440-1453 *)
  Definition diffsigma_v (nuclear : bool) (Ep : list R) (Eg : R) : outcome (list (option R)) :=
    let Tp := map (fun e => e - m_p) Ep in
    obind (Amax_v Tp) (fun A =>
    obind (F_v Tp Eg) (fun F =>
    obind (zip2 nmul A F) (fun d =>
    if nuclear then zip2 (fun x f => nmap (fun x => x * f) x) d (nuclear_factor_v Tp) else Ok d))).
End PionArrays.
