(** Model of PionDecay (src/naima/radiative.py:1099-1536), PionDecayKelner06
    (1543-1767) and of the lookup-table bookkeeping.

    Energies are numbers of GeV, cross sections numbers of cm2.  The code works
    on arrays of proton energies with masks; every expression is elementwise, so
    the model is given for one proton energy (masks become tests, a later
    masked assignment overriding an earlier one).  [None] is IEEE nan, produced
    by np.sqrt of a negative number and propagated by arithmetic. *)
From Coq Require Import Reals List Bool.
From Verif Require Import TrapzModel EnergyModel ElectronModel.
Import ListNotations.
Local Open Scope R_scope.

(** Arithmetic with nan *)
(** numpy arithmetic on a possible nan, as in radiative.py 1252-1266 *)
Definition nbind {A B} (x : option A) (f : A -> option B) : option B :=
  match x with Some a => f a | None => None end.
(** numpy arithmetic on a possible nan, as in radiative.py 1252-1266 *)
Definition nmap {A B} (f : A -> B) (x : option A) : option B :=
  match x with Some a => Some (f a) | None => None end.
(** product of possible nans, radiative.py 1266 *)
Definition nmul (x y : option R) : option R := nbind x (fun a => nmap (Rmult a) y).
(** np.sqrt *)
(** np.sqrt of a negative number is nan, radiative.py 1252, 1331-1333 *)
Definition nsqrt (x : R) : option R := if Rle_dec 0 x then Some (sqrt x) else None.
(** [x ** y] for x >= 0 *)
Definition npow (x y : R) : R :=
  if Req_EM_T x 0 then (if Req_EM_T y 0 then 1 else 0) else Rpower x y.

(** radiative.py:1206-1213 *)
Inductive hiE := Geant4 | Pythia8 | SIBYLL | QGSJET.
(** radiative.py 1209 *)
Definition Etrans (h : hiE) : R := match h with Pythia8 => 50 | _ => 100 end.
(** radiative.py 1212 *)
Definition m_pi : R := 1349766 / 10000000.
(** radiative.py 1213 *)
Definition Tth : R := 27966184 / 100000000.
(** cm2 per mbarn, radiative.py 1233, 1266 *)
Definition mbarn : R := / 10 ^ 27.

(** Table IV, 1179-1184 *)
Definition tab_a (h : hiE) : R * R * R * R * R :=
  match h with
  | Geant4 => (728 / 1000, 596 / 1000, 491 / 1000, 2503 / 10000, 117 / 1000)
  | Pythia8 => (652 / 1000, 16 / 10000, 488 / 1000, 1928 / 10000, 483 / 1000)
  | SIBYLL => (5436 / 1000, 254 / 1000, 72 / 1000, 75 / 1000, 166 / 1000)
  | QGSJET => (908 / 1000, 9 / 10000, 6089 / 1000, 176 / 1000, 448 / 1000)
  end.
(** Table V, 1185-1197: (lambda, alpha, beta, gamma) of the high-energy models *)
Definition tab_F (h : hiE) : R * R * R * R :=
  match h with
  | Geant4 => (3, 1 / 2, 49 / 10, 1)
  | Pythia8 => (35 / 10, 1 / 2, 4, 1)
  | SIBYLL => (355 / 100, 1 / 2, 36 / 10, 1)
  | QGSJET => (355 / 100, 1 / 2, 45 / 10, 1)
  end.
(** Table VII, 1199-1204 *)
Definition tab_b (h : hiE) : R * R * R :=
  match h with
  | Geant4 => (913 / 100, 35 / 100, 97 / 10000)
  | Pythia8 => (906 / 100, 3795 / 10000, 1105 / 100000)
  | SIBYLL => (1077 / 100, 412 / 1000, 1264 / 100000)
  | QGSJET => (1316 / 100, 4419 / 10000, 1439 / 100000)
  end.

(** 1215-1233, for Tp > 0 *)
Definition sigma_inel (Tp : R) : R :=
  let L := ln (Tp / Tth) in
  (307 / 10 - 96 / 100 * L + 18 / 100 * L ^ 2) * (1 - Rpower (Tth / Tp) (19 / 10)) ^ 3 * mbarn.

Section Pion.
  Variable m_p : R.       (* proton rest energy, GeV (from astropy, line 1211) *)
  Variable hi : hiE.

  (** centre of mass energy squared, e.g. line 1245 *)
  Definition s_cm (Tp : R) : R := 2 * m_p * (Tp + 2 * m_p).

  (** 1235-1266 *)
  Definition Mres : R := 11883 / 10000.
  (** radiative.py 1243 *)
  Definition Gres : R := 2264 / 10000.
  (** radiative.py 1245 *)
  Definition gamma_res : R := sqrt (Mres ^ 2 * (Mres ^ 2 + Gres ^ 2)).
  (** radiative.py 1246-1247 *)
  Definition K_res : R := sqrt 8 * Mres * Gres * gamma_res / (PI * sqrt (Mres ^ 2 + gamma_res)).
  (** radiative.py 1249-1250 *)
  Definition fBW (Tp : R) : R :=
    m_p * K_res / (((sqrt (s_cm Tp) - m_p) ^ 2 - Mres ^ 2) ^ 2 + Mres ^ 2 * Gres ^ 2).
  (** the radicand of radiative.py 1252 *)
  Definition mu_rad (Tp : R) : R :=
    (s_cm Tp - m_pi ^ 2 - 4 * m_p ^ 2) ^ 2 - 16 * m_pi ^ 2 * m_p ^ 2.
  (** radiative.py 1260-1264 *)
  Definition sigma2pi (Tp : R) : R :=
    if Rlt_dec Tp (56 / 100) then 0 else 57 / 10 / (1 + exp (- (93 / 10) * (Tp - 14 / 10))).
  (** radiative.py 1235-1266 *)
  Definition sigma_pi_loE (Tp : R) : option R :=
    nmap (fun q =>
      let mu := q / (2 * m_pi * sqrt (s_cm Tp)) in
      (766 / 100000 * npow mu (195 / 100) * (1 + mu + mu ^ 5) * Rpower (fBW Tp) (186 / 100) + sigma2pi Tp) * mbarn)
      (nsqrt (mu_rad Tp)).

  (** 1268-1275 *)
  Definition sigma_pi_midE (Tp : R) : R :=
    let Qp := (Tp - Tth) / m_p in
    sigma_inel Tp * (- (6 / 1000) + 237 / 1000 * Qp - 23 / 1000 * Qp ^ 2).

  (** 1277-1286 *)
  Definition sigma_pi_hiE (Tp : R) (a : R * R * R * R * R) : R :=
    let '(a0, a1, a2, a3, a4) := a in
    let csip := (Tp - 3) / m_p in
    let m1 := a0 * Rpower csip a3 * (1 + exp (- a1 * Rpower csip a4)) in
    let m2 := 1 - exp (- a2 * Rpower csip (1 / 4)) in
    sigma_inel Tp * (m1 * m2).

  (** 1288-1304 *)
  Definition sigma_pi (Tp : R) : option R :=
    if Rlt_dec Tp 2 then sigma_pi_loE Tp
    else if Rlt_dec Tp 5 then Some (sigma_pi_midE Tp)
    else if Rlt_dec Tp (Etrans hi) then Some (sigma_pi_hiE Tp (tab_a Geant4))
    else Some (sigma_pi_hiE Tp (tab_a hi)).

  (** 1306-1323 for Tp >= 1 *)
  Definition b_params (Tp : R) : R * R * R :=
    if Rle_dec (Etrans hi) Tp then tab_b hi
    else if Rle_dec 5 Tp then tab_b Geant4
    else (953 / 100, 52 / 100, 54 / 1000).

  (** 1325-1336 *)
  Definition EpiCM (Tp : R) : R := (s_cm Tp - 4 * m_p ^ 2 + m_pi ^ 2) / (2 * sqrt (s_cm Tp)).
  (** radiative.py 1332 *)
  Definition gCM (Tp : R) : R := (Tp + 2 * m_p) / sqrt (s_cm Tp).
  (** radiative.py 1325-1336 *)
  Definition EpimaxLAB (Tp : R) : option R :=
    nbind (nsqrt (EpiCM Tp ^ 2 - m_pi ^ 2)) (fun PpiCM =>
    nmap (fun betaCM => gCM Tp * (EpiCM Tp + PpiCM * betaCM)) (nsqrt (1 - / gCM Tp ^ 2))).

  (** 1338-1345 *)
  Definition Egmax (Tp : R) : option R :=
    nbind (EpimaxLAB Tp) (fun E =>
    let g := E / m_pi in
    nmap (fun beta => m_pi / 2 * g * (1 + beta)) (nsqrt (1 - / g ^ 2))).

  (** 1347-1367 *)
  Definition Amax (Tp : R) : option R :=
    if Rlt_dec Tp 1 then
      nbind (sigma_pi Tp) (fun s => nmap (fun E => 59 / 10 * s / E) (EpimaxLAB Tp))
    else
      let '(b1, b2, b3) := b_params Tp in
      let thetap := Tp / m_p in
      nmap (fun s => b1 * Rpower thetap (- b2) * exp (b3 * ln thetap ^ 2) * s / m_p) (sigma_pi Tp).

  (** 1369-1384 *)
  Definition F_func (Tp Eg : R) (p : R * R * R * R) : option R :=
    let '(lamb, alpha, beta, gamma) := p in
    nmap (fun Egmax =>
      let Yg := Eg + m_pi ^ 2 / (4 * Eg) in
      let Ygmax := Egmax + m_pi ^ 2 / (4 * Egmax) in
      let Xg := (Yg - m_pi) / (Ygmax - m_pi) in
      let Xg := if Rlt_dec 1 Xg then 1 else Xg in
      let C := lamb * m_pi / Ygmax in
      npow (1 - npow Xg alpha) beta / Rpower (1 + Xg / C) gamma) (Egmax Tp).

  (** 1386-1393 *)
  Definition kappa (Tp : R) : R := 329 / 100 - Rpower (Tp / m_p) (- (3 / 2)) / 5.
  (** radiative.py 1390-1393 *)
  Definition mu_F (Tp : R) : R :=
    let q := (Tp - 1) / m_p in 5 / 4 * Rpower q (5 / 4) * exp (- (5 / 4) * q).

  (** 1395-1438 *)
  Definition F_params (Tp : R) : option (R * R * R * R) :=
    if Rlt_dec (Etrans hi) Tp then Some (tab_F hi)
    else if Rlt_dec 20 Tp then Some (3, 1 / 2, 42 / 10, 1)
    else if Rlt_dec 4 Tp then Some (3, 1, 3 / 2 * mu_F Tp + 495 / 100, mu_F Tp + 150 / 100)
    else if Rlt_dec 1 Tp then Some (3, 1, mu_F Tp + 245 / 100, mu_F Tp + 145 / 100)
    else if Rle_dec Tth Tp then Some (1, 1, kappa Tp, 0)
    else None.
  (** radiative.py 1395-1438 *)
  Definition F (Tp Eg : R) : option R :=
    match F_params Tp with Some p => F_func Tp Eg p | None => Some 0 end.

  (** 1455-1482 *)
  Definition nuclear_factor (Tp : R) : R :=
    if Rlt_dec Tth Tp then
      if Rlt_dec Tp 1 then 19141 / 10000
      else
        let sigmaRpp := 10 * PI * mbarn in
        let f := sigma_inel Tp / sigma_inel 1000 in
        let f2 := if Rlt_dec 1 f then f else 1 in
        let G := 1 + ln f2 in
        137 / 100 + (29 / 100 + 1 / 10) * sigmaRpp * G / sigma_inel Tp
    else 0.

  (** 1440-1453 *)
  Definition diffsigma (nuclear : bool) (Ep Eg : R) : option R :=
    let Tp := Ep - m_p in
    let d := nmul (Amax Tp) (F Tp Eg) in
    if nuclear then nmap (fun x => x * nuclear_factor Tp) d else d.

  (** Log-log integration with nan samples (utils.py:335-355): a bin with a zero
      ordinate is set to 0 even if the other ordinate is nan; if only the right
      ordinate is nan the local index is nan, [nan > 1e-10] is false and the
      logarithmic branch is taken. *)
  Definition is_zero (y : option R) : bool :=
    match y with Some v => if Req_EM_T v 0 then true else false | None => false end.
  (** utils.py 333-348 on possible nans *)
  Definition ninterval (x1 x2 : R) (y1 y2 : option R) : option R :=
    if is_zero y1 || is_zero y2 then Some 0
    else if Req_EM_T x1 x2 then Some 0
    else nmap (fun a => match y2 with
                        | Some b => raw_interval x1 x2 a b
                        | None => x1 * a * ln (x2 / x1)
                        end) y1.
  (** utils.py 333-355 on possible nans *)
  Fixpoint ntrapz (ys : list (option R)) (xs : list R) : option R :=
    match ys, xs with
    | y1 :: ((y2 :: _) as yr), x1 :: ((x2 :: _) as xr) =>
        nbind (ninterval x1 x2 y1 y2) (fun v => nmap (Rplus v) (ntrapz yr xr))
    | _, _ => Some 0
    end.

  (** 1521-1536: [sig] is the differential cross section in use (direct or from
      the lookup table); the result is in 1/(s GeV); nhc = nh * c *)
  Definition pion_spectrum (sig : R -> R -> option R) (nhc GeV : R) (pd : R -> R) (es Egs : list R) : list (option R) :=
    map (fun Eg =>
      nmap (fun x => nhc * x)
        (ntrapz (map (fun p => nmul (sig (fst p) Eg) (Some (snd p))) (combine es (J GeV pd es))) es)) Egs.
End Pion.

(** ** PionDecayKelner06 (energies in TeV) *)
Section Kelner.
  Variable m_pT : R.          (* proton rest energy, TeV *)
  (** radiative.py 1692 *)
  Definition m_piT : R := 1349766 / 10 ^ 10.
  (** radiative.py 1690 *)
  Definition Kpi : R := 17 / 100.
  (** radiative.py 1642 *)
  Definition EthT : R := 122 / 100000.

  (** 1589-1621 *)
  Definition B_K (L : R) : R := 130 / 100 + 14 / 100 * L + 11 / 1000 * L ^ 2.
  (** radiative.py 1609 *)
  Definition beta_K (L : R) : R := / (179 / 100 + 11 / 100 * L + 8 / 1000 * L ^ 2).
  (** radiative.py 1610 *)
  Definition k_K (L : R) : R := / (801 / 1000 + 49 / 1000 * L + 14 / 1000 * L ^ 2).
  (** radiative.py 1594-1620 *)
  Definition Fgamma (x Ep : R) : R :=
    let L := ln Ep in
    let xb := Rpower x (beta_K L) in
    let F1 := B_K L * (ln x / x) * ((1 - xb) / (1 + k_K L * xb * (1 - xb))) ^ 4 in
    let F2 := 1 / ln x - 4 * beta_K L * xb / (1 - xb)
              - 4 * k_K L * beta_K L * xb * (1 - 2 * xb) / (1 + k_K L * xb * (1 - xb)) in
    F1 * F2.

  (** 1623-1646 *)
  Definition sigma_inel_K (Ep : R) : R :=
    let L := ln Ep in
    let sigma := 343 / 10 + 188 / 100 * L + 25 / 100 * L ^ 2 in
    (if Rle_dec Ep (1 / 10)
     then sigma * ((1 - (EthT / Ep) ^ 4) ^ 2 * heaviside (Ep - EthT))
     else sigma) * mbarn.

  Variable pd : R -> R.       (* particles per TeV at an energy in TeV *)
  Variable c_cgs : R.

  (** 1648-1660 *)
  Definition photon_integrand (Egamma x : R) : R :=
    sigma_inel_K (Egamma / x) * pd (Egamma / x) * Fgamma x (Egamma / x) / x.

  (** 1696-1704; Epi > m_piT *)
  Definition delta_integrand (nhat Epi : R) : R :=
    let Ep0 := m_pT + Epi / Kpi in
    c_cgs * (nhat / Kpi) * sigma_inel_K Ep0 * pd Ep0 / sqrt (Epi ^ 2 - m_piT ^ 2).

  (** scipy.integrate.quad over (a, b) and over (a, infinity): external *)
  Variable quad01 : (R -> R) -> R.
  Variable quad_inf : R -> (R -> R) -> R.

  (** 1662-1688 *)
  Definition specpp_hiE (Egamma : R) : R := c_cgs * quad01 (photon_integrand Egamma).
  (** 1706-1718 *)
  Definition specpp_loE (nhat Egamma : R) : R :=
    2 * quad_inf (Egamma + m_piT ^ 2 / (4 * Egamma)) (delta_integrand nhat).

  (** 1745-1755: the matching factor depends on the whole request *)
  Definition nhat_of (Etr : R) (Es : list R) : R :=
    if existsb (fun E => if Rlt_dec E Etr then true else false) Es
       && existsb (fun E => if Rle_dec Etr E then true else false) Es
    then 1 * (specpp_hiE Etr / specpp_loE 1 Etr)
    else 1.
  (** 1732-1767; the result in 1/(s TeV), nh in 1/cm3 *)
  Definition kelner_spectrum (nh Etr : R) (Es : list R) : list R :=
    let nhat := nhat_of Etr Es in
    map (fun E => nh * (if Rle_dec Etr E then specpp_hiE E else specpp_loE nhat E)) Es.
End Kelner.

(** ** Lookup table bookkeeping, 1484-1519 *)
(** What [self.diffsigma] is: not set, the table read from a file, or the bound
    method _diffsigma. *)
(** self.diffsigma, radiative.py 1484-1521 *)
Inductive source := Unset | Table (fname : hiE * bool) | Direct.
(** the attributes useLUT, nuclear_enhancement, hiEmodel and diffsigma, radiative.py 1484-1521 *)
Record lut_state := mkLut { use_lut : bool; nuc : bool; himodel : hiE; src : source }.
(** The file name is determined by hiEmodel and nuclear_enhancement (1508-1512);
    [avail] says whether the file can be read. *)
Definition hiE_eqb (a b : hiE) : bool :=
  match a, b with Geant4, Geant4 | Pythia8, Pythia8 | SIBYLL, SIBYLL | QGSJET, QGSJET => true | _, _ => false end.
(** equality of file names, radiative.py 1516 *)
Definition fname_eqb (a b : hiE * bool) : bool := hiE_eqb (fst a) (fst b) && Bool.eqb (snd a) (snd b).
(** radiative.py 1484-1493 *)
Definition load (avail : hiE * bool -> bool) (f : hiE * bool) (st : lut_state) : lut_state :=
  if avail f then mkLut (use_lut st) (nuc st) (himodel st) (Table f)
  else mkLut false (nuc st) (himodel st) Direct.
(** 1507-1521: the beginning of _spectrum; afterwards [src] is what is used *)
Definition prepare (avail : hiE * bool -> bool) (st : lut_state) : lut_state :=
  if use_lut st then
    let f := (himodel st, nuc st) in
    match src st with
    | Table g => if fname_eqb g f then st else load avail f st
    | _ => load avail f st
    end
  else mkLut (use_lut st) (nuc st) (himodel st) Direct.
(** Operations of a user *)
(** assignments to the attributes and calls of radiative.py 1495-1536 *)
Inductive lut_op := SetUse (b : bool) | SetNuc (b : bool) | SetModel (h : hiE) | Spectrum.
(** radiative.py 1508-1521 *)
Definition lut_step (avail : hiE * bool -> bool) (st : lut_state) (o : lut_op) : lut_state :=
  match o with
  | SetUse b => mkLut b (nuc st) (himodel st) (src st)
  | SetNuc b => mkLut (use_lut st) b (himodel st) (src st)
  | SetModel h => mkLut (use_lut st) (nuc st) h (src st)
  | Spectrum => prepare avail st
  end.
(** 1155-1166 *)
Definition lut_init : lut_state := mkLut true true Pythia8 Unset.
