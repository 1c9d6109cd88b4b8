(** The array computations of the code as array computations: numpy arrays of
    any number of dimensions, broadcasting, slices, masks, sums along an axis
    (src/naima/utils.py:285-355, src/naima/radiative.py).  The other files work
    photon energy by photon energy; this one shows what they stand for. *)
From Coq Require Import Reals List Bool Arith String.
From Verif Require Import Outcome TrapzModel EnergyModel ElectronModel BremsModel ShapeModel.
Import ListNotations.
Local Open Scope R_scope.

(* ------------------------------------------------------------------ *)
(** * Arrays *)

(** An array of numbers (or of booleans, for masks): its shape and the element
    at each multi-index. *)
(** numpy arrays as in utils.py 315-355 *)
Record arr (A : Type) := mkA { ash : shape; aval : list nat -> A }.
Arguments mkA {A}. Arguments ash {A}. Arguments aval {A}.

(** A one-dimensional array and its content. *)
(** a one-dimensional array, utils.py 322 *)
Definition vec (l : list R) : arr R := mkA [List.length l] (fun i => nth (hd O i) l 0).
(** a one-dimensional array, utils.py 355 *)
Definition to_list (a : arr R) : list R := map (fun k => aval a [k]) (seq 0 (hd O (ash a))).

(** Broadcasting: which element of an array of shape [s] goes into element [i] of
    the result.  Missing leading axes are dropped, axes of length 1 repeat. *)
Fixpoint bidx_rev (s i : list nat) : list nat :=
  match s, i with
  | d :: s', k :: i' => (if (d =? 1)%nat then O else k) :: bidx_rev s' i'
  | _, _ => []
  end.
(** broadcasting, as in utils.py 336-344 *)
Definition bidx (s : shape) (i : list nat) : list nat := rev (bidx_rev (rev s) (rev i)).

(** An elementwise operation on one array and on two. *)
(** a ufunc of one array, as in utils.py 336, 341 *)
Definition amap {A B} (f : A -> B) (a : arr A) : arr B := mkA (ash a) (fun i => f (aval a i)).
(** a ufunc of two arrays, as in utils.py 336-344 *)
Definition lift2 {A B C} (f : A -> B -> C) (a : arr A) (b : arr B) : outcome (arr C) :=
  omap (fun s => mkA s (fun i => f (aval a (bidx (ash a) i)) (aval b (bidx (ash b) i))))
       (broadcast (ash a) (ash b)).

(** [a[mask] = v], the mask having the shape of [a] (else IndexError). *)
(** utils.py 347-348; radiative.py 636, 848 *)
Definition assign_scalar (a : arr R) (mask : arr bool) (v : R) : outcome (arr R) :=
  if list_eq_dec Nat.eq_dec (ash a) (ash mask)
  then Ok (mkA (ash a) (fun i => if aval mask i then v else aval a i))
  else Err "IndexError".
(** [a[np.where(mask)] = b[np.where(mask)]] *)
(** radiative.py 1292-1302 *)
Definition assign_where (a : arr R) (mask : arr bool) (b : arr R) : outcome (arr R) :=
  if list_eq_dec Nat.eq_dec (ash a) (ash mask)
  then if list_eq_dec Nat.eq_dec (ash b) (ash mask)
       then Ok (mkA (ash a) (fun i => if aval mask i then aval b i else aval a i))
       else Err "IndexError"
  else Err "IndexError".
(** [np.where(mask, a, b)] *)
(** utils.py 340-345; radiative.py 574 *)
Definition awhere (mask : arr bool) (a b : arr R) : outcome (arr R) :=
  obind (lift2 (fun x y => (x, y)) a b) (fun ab =>
  lift2 (fun (m : bool) p => if m then fst p else snd p) mask ab).

(** Replace, insert and remove the entry at position [ax]. *)
(** slices along one axis, utils.py 320-326 *)
Fixpoint upd {A} (ax : nat) (f : A -> A) (l : list A) : list A :=
  match ax, l with
  | O, x :: r => f x :: r
  | S a, x :: r => x :: upd a f r
  | _, [] => []
  end.
(** np.add.reduce along one axis, utils.py 353 *)
Fixpoint ins {A} (ax : nat) (v : A) (l : list A) : list A :=
  match ax, l with
  | O, l => v :: l
  | S a, x :: r => x :: ins a v r
  | S a, [] => [v]
  end.
(** np.add.reduce along one axis, utils.py 353 *)
Fixpoint del {A} (ax : nat) (l : list A) : list A :=
  match ax, l with
  | O, _ :: r => r
  | S a, x :: r => x :: del a r
  | _, [] => []
  end.

(** [a[..., :-1, ...]] and [a[..., 1:, ...]] along axis [ax]. *)
Definition slice1 (ax : nat) (a : arr R) : arr R := mkA (upd ax pred (ash a)) (aval a).
(** utils.py 323, 326 *)
Definition slice2 (ax : nat) (a : arr R) : arr R := mkA (upd ax pred (ash a)) (fun i => aval a (upd ax S i)).

(** [x.reshape(shape)] for one-dimensional x and a shape of ones but for axis
    [ax]. *)
(** utils.py 328-331 *)
Definition reshape_axis (nd ax : nat) (x : arr R) : arr R :=
  mkA (upd ax (fun _ => hd O (ash x)) (repeat 1%nat nd)) (fun i => aval x [nth ax i O]).

(** [np.add.reduce(a, axis)] *)
(** utils.py 353 *)
Definition reduce (ax : nat) (a : arr R) : arr R :=
  mkA (del ax (ash a))
      (fun i => fold_right Rplus 0 (map (fun k => aval a (ins ax k i)) (seq 0 (nth ax (ash a) O)))).

(* ------------------------------------------------------------------ *)
(** * trapz_loglog, utils.py:317-355, [ax] counted from 0, without units *)

Definition Rgtb (x y : R) : bool := if Rlt_dec y x then true else false.
(** == of doubles, utils.py 347 *)
Definition Reqb (x y : R) : bool := if Req_EM_T x y then true else false.

(** np.log10 of a ratio of ordinates: nan ([None]) when they differ in sign. *)
Definition nlog10 (r : R) : option R := if Rlt_dec r 0 then None else Some (log10 r).
(** nan propagates; comparisons with nan are false; what is computed from nan
    ([0] here) is then discarded by np.where.  Abscissae are positive. *)
Definition ndiv (n : option R) (d : R) : option R := option_map (fun z => z / d) n.
(** utils.py 341 *)
Definition ngt (o : option R) (y : R) : bool := match o with Some z => Rgtb (Rabs z) y | None => false end.
(** utils.py 342 *)
Definition npow (r : R) (o : option R) : R := match o with Some b => Rpower r b | None => 0 end.
(** utils.py 342-343 *)
Definition nquot (n : R) (o : option R) : R := match o with Some z => n / z | None => 0 end.

Definition atrapz_intervals (y x : arr R) (ax : nat) : outcome (arr R) :=
  if (ax <? List.length (ash y))%nat then
    let x := if (List.length (ash x) =? 1)%nat then reshape_axis (List.length (ash y)) ax x else x in  (* 328-331 *)
    let y1 := slice1 ax y in let y2 := slice2 ax y in
    let x1 := slice1 ax x in let x2 := slice2 ax x in
    obind (lift2 Rdiv y2 y1) (fun ry =>
    obind (lift2 Rdiv x2 x1) (fun rx =>
    obind (lift2 ndiv (amap nlog10 ry) (amap log10 rx)) (fun b =>                       (* 336 *)
    let b1 := amap (option_map (fun z => z + 1)) b in
    let cond := amap (fun o => ngt o window_eps) b1 in                       (* 341 *)
    obind (lift2 npow rx b) (fun p =>
    obind (lift2 Rmult x2 p) (fun q =>
    obind (lift2 Rminus q x1) (fun q' =>
    obind (lift2 Rmult y1 q') (fun num =>
    obind (lift2 nquot num b1) (fun t1 =>                                             (* 342-343 *)
    obind (lift2 Rmult x1 y1) (fun xy =>
    obind (lift2 Rmult xy (amap ln rx)) (fun t2 =>                                   (* 344 *)
    obind (awhere cond t1 t2) (fun trapzs =>
    let z1 := amap (fun v => Reqb v 0) y1 in
    let z2 := amap (fun v => Reqb v 0) y2 in
    obind (lift2 orb z1 z2) (fun z12 =>
    obind (lift2 Reqb x1 x2) (fun zx =>
    obind (lift2 orb z12 zx) (fun tozero =>                                          (* 347 *)
    assign_scalar trapzs tozero 0))))))))))))))                                      (* 348 *)
  else Err "IndexError".

Definition atrapz (y x : arr R) (ax : nat) : outcome (arr R) :=
  omap (reduce ax) (atrapz_intervals y x ax).                                        (* 353 *)

(* ------------------------------------------------------------------ *)
(** * Spectra *)

(** [np.vstack(v)] of a one-dimensional array with at least one element *)
(** radiative.py 560 *)
Definition avstack (a : arr R) : outcome (arr R) :=
  match ash a with
  | [S m] => Ok (mkA [S m; 1]%nat (fun i => aval a [hd O i]))
  | [O] => Err "ValueError"
  | [] => Err "TypeError"
  | _ => Err "unmodelled"
  end.
(** [v[:, None]] of a one-dimensional array *)
(** radiative.py 592, 622 *)
Definition anewaxis (a : arr R) : outcome (arr R) :=
  match ash a with
  | [m] => Ok (mkA [m; 1]%nat (fun i => aval a [hd O i]))
  | [] => Err "IndexError"
  | _ => Err "unmodelled"
  end.
(** [v[:, None, None]] *)
(** radiative.py 623-624 *)
Definition anewaxis2 (a : arr R) : outcome (arr R) :=
  match ash a with
  | [m] => Ok (mkA [m; 1; 1]%nat (fun i => aval a [hd O i]))
  | [] => Err "IndexError"
  | _ => Err "unmodelled"
  end.
(** [a.squeeze()] of a three-dimensional array (lengths of 1 are dropped) *)
Fixpoint unsqueeze (s : shape) (i : list nat) : list nat :=
  match s with
  | [] => []
  | d :: r => if (d =? 1)%nat then O :: unsqueeze r i
              else match i with k :: i' => k :: unsqueeze r i' | [] => [] end
  end.
(** radiative.py 644 *)
Definition asqueeze (a : arr R) : arr R := mkA (squeeze (ash a)) (fun i => aval a (unsqueeze (ash a) i)).

Section Electrons.
  Variable mec2 : R.
  Variable nelec : list R.
  Variable gs : list R.

  (** radiative.py:319-338 *)
  Definition sy_array (k : sy_consts) (B : R) (E : arr R) : outcome (arr R) :=
    let cs1 := amap (fun e => CS1 k B e) E in
    obind (avstack (vec (map (Ecrit k B) gs))) (fun Ec =>
    obind (lift2 Rdiv E Ec) (fun EgEc =>
    obind (lift2 Rmult cs1 (amap Gtilde EgEc)) (fun dNdE =>
    obind (avstack (vec nelec)) (fun ncol =>
    obind (lift2 Rmult ncol dNdE) (fun y => atrapz y (vec gs) 0))))).

  (** radiative.py:547-574 and 576-607: everything in between is elementwise on
      the broadcast of the column of photon energies and the row of electron
      energies *)
  Definition iso_array (T : R) (Eph : arr R) : outcome (arr R) :=
    obind (avstack Eph) (fun g => lift2 (fun ga el => iso_ic_on_planck el T ga) g (vec gs)).
  (** radiative.py 577-607 *)
  Definition ani_array (T theta : R) (Eph : arr R) : outcome (arr R) :=
    obind (anewaxis Eph) (fun g => lift2 (fun ga el => ani_ic_on_planck el T ga theta) g (vec gs)).

  (** radiative.py:608-655: [aa_kernel] of ElectronModel collects the elementwise
      operations 625-637 on photE0 (p,1,1), gamma (m,1), electron (n) *)
  Definition mono_array (eps phn : list R) (Eph : arr R) : outcome (arr R) :=
    obind (anewaxis Eph) (fun g =>
    obind (anewaxis2 (vec eps)) (fun photE0 =>
    obind (anewaxis2 (vec phn)) (fun ph =>
    obind (lift2 (fun ep el => (ep, el)) photE0 (vec gs)) (fun pe =>
    obind (lift2 (fun ga p => aa_kernel (snd p) (fst p) ga) g pe) (fun gamint =>
    obind (if (1 <? List.length phn)%nat then
             obind (lift2 Rmult gamint ph) (fun a =>
             obind (lift2 Rdiv a photE0) (fun b => atrapz b photE0 0))
           else
             obind (lift2 (fun n e => n / e ^ 2) ph photE0) (fun r =>
             omap asqueeze (lift2 Rmult gamint r))) (fun gamint =>
    lift2 (fun v el => v * (3 / 4 * sigt_c / el ^ 2)) gamint (vec gs))))))).

  (** radiative.py:657-687, photon energies E in erg *)
  Definition specic_array (ar : R) (s : seed) (E : arr R) : outcome (arr R) :=
    let Eph := amap (fun e => e / mec2) E in
    obind (match to_mec2 mec2 s with
           | Thermal T _ None => iso_array T Eph
           | Thermal T _ (Some th) => ani_array T th Eph
           | ElectronModel.Array eps phn _ => mono_array eps phn Eph
           end) (fun gamint =>
    obind (lift2 Rmult (vec nelec) gamint) (fun y =>
    obind (atrapz y (vec gs) (List.length (ash y) - 1)) (fun t =>
    obind (lift2 (fun e i => seed_factor ar s * e * i) Eph t) (fun lum =>
    lift2 Rdiv lum E)))).

  (** radiative.py:706-714: np.sum(u.Quantity([...]), axis=0) *)
  Definition ic_array (ar : R) (seeds : list seed) (E : arr R) : outcome (arr R) :=
    obind (mapM (fun s => specic_array ar s E) seeds) (fun l =>
    match l with
    | [] => Ok (mkA [] (fun _ => 0))
    | a :: r =>
        if forallb (fun b => if list_eq_dec Nat.eq_dec (ash a) (ash b) then true else false) r
        then Ok (mkA (ash a) (fun i => fold_right (fun b acc => aval b i + acc) 0 l))
        else Err "TypeError"
    end).
End Electrons.
