(** Model of the pion-decay lookup table: generate_lut_pp and _calc_lut_pp
    (src/naima/radiative.py:1800-1841), LookupTable (1770-1797) and its use in
    PionDecay._spectrum (1507-1536). *)
From Coq Require Import Reals List String Bool.
From Verif Require Import Outcome TrapzModel PionModel.
Import ListNotations.
Local Open Scope R_scope.

(** Entries of the stored table: np.log10 gives -inf at 0 and nan at nan (and at
    negative numbers). *)
Inductive lentry := LNaN | LNInf | LFin (x : R).
(** np.log10(diffsigma), radiative.py 1840 *)
Definition log10_entry (z : option R) : lentry :=
  match z with
  | None => LNaN
  | Some v => if Req_EM_T v 0 then LNInf else if Rlt_dec 0 v then LFin (log10 v) else LNaN
  end.
(** [10 ** lut] *)
Definition pow10_entry (l : lentry) : option R :=
  match l with LNaN => None | LNInf => Some 0 | LFin x => Some (Rpower 10 x) end.

(** The npz file *)
(** the file of radiative.py 1836-1841, read at 1789-1792 *)
Record lut_file := mkFile { f_X : list R; f_Y : list R; f_lut : list (list lentry) }.

(** np.array(rows).T for rows of length n *)
(** radiative.py 1834 *)
Definition transpose {A} (d : A) (n : nat) (rows : list (list A)) : list (list A) :=
  map (fun i => map (fun r => nth i r d) rows) (seq 0 n).

(** 1800-1841, one high-energy model: [sig] is PionDecay._diffsigma of a proton and a
    photon energy in GeV. One task per photon energy (1830-1832), each returning the
    array over proton energies (1807). *)
Definition generate (sig : R -> R -> option R) (Ep Eg : list R) : lut_file :=
  let diffsigma_list := map (fun eg => map (fun ep => sig ep eg) Ep) Eg in
  let diffsigma := transpose None (List.length Ep) diffsigma_list in
  mkFile (map log10 Ep) (map log10 Eg) (map (map log10_entry) diffsigma).

(** check of the nodes by RectBivariateSpline, radiative.py 1793 *)
Fixpoint increasing (l : list R) : bool :=
  match l with
  | a :: ((b :: _) as r) => if Rlt_dec a b then increasing r else false
  | _ => true
  end.
(** check of the evaluation points by RectBivariateSpline, radiative.py 1797 *)
Fixpoint nondecreasing (l : list R) : bool :=
  match l with
  | a :: ((b :: _) as r) => if Rle_dec a b then nondecreasing r else false
  | _ => true
  end.
(** a row of 10**lut without nan, radiative.py 1793 *)
Fixpoint all_some (l : list (option R)) : option (list R) :=
  match l with
  | [] => Some []
  | Some a :: r => match all_some r with Some t => Some (a :: t) | None => None end
  | None :: _ => None
  end.
(** all rows of 10**lut without nan, radiative.py 1793 *)
Fixpoint all_rows (l : list (list (option R))) : option (list (list R)) :=
  match l with
  | [] => Some []
  | a :: r => match all_some a, all_rows r with Some x, Some t => Some (x :: t) | _, _ => None end
  end.

(** A loaded table: nodes and, unless a nan in the data makes every spline coefficient
    nan, the values *)
(** self.int_lut, radiative.py 1793 *)
Record lut := mkLUT { l_X : list R; l_Y : list R; l_Z : option (list (list R)) }.

(** 1788-1794: scipy's RectBivariateSpline refuses nodes that do not increase and, for
    cubic splines, fewer than four nodes *)
Definition load_table (f : lut_file) : outcome lut :=
  if increasing (f_X f) && increasing (f_Y f) && Nat.leb 4 (List.length (f_X f)) && Nat.leb 4 (List.length (f_Y f))
  then Ok (mkLUT (f_X f) (f_Y f) (all_rows (map (map pow10_entry) (f_lut f))))
  else Err "ValueError"%string.

(** FITPACK moves arguments outside the nodes to the nearest end *)
(** evaluation outside the nodes, radiative.py 1797 *)
Definition clamp (l : list R) (x : R) : R := Rmax (hd 0 l) (Rmin (last l 0) x).

Section Spline.
  (** scipy's spline through the values Z on the nodes X, Y: external *)
  Variable spline : list R -> list R -> list (list R) -> R -> R -> R.

  (** one point of 1796-1797 *)
  Definition look (T : lut) (x y : R) : option R :=
    nmap (fun Z => spline (l_X T) (l_Y T) Z (clamp (l_X T) (log10 x)) (clamp (l_Y T) (log10 y))) (l_Z T).
  (** 1796-1797: an array of proton energies and one photon energy; scipy refuses
      arguments that are not sorted *)
  Definition look_array (T : lut) (xs : list R) (y : R) : outcome (list (option R)) :=
    if nondecreasing (map log10 xs) then Ok (map (fun x => look T x y) xs) else Err "ValueError"%string.

  (** 1525-1536 with a table: proton energies sorted, as PionDecay._Ep *)
  Definition lut_spectrum (T : lut) (nhc GeV : R) (pd : R -> R) (es Egs : list R) : list (option R) :=
    pion_spectrum (look T) nhc GeV pd es Egs.
End Spline.
