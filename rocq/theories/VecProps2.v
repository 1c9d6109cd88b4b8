(** C115, continued: inverse Compton. *)
From Coq Require Import Reals List Bool Arith String Lia Lra.
From Verif Require Import Outcome TrapzModel TrapzSpec TrapzProofs EnergyModel ElectronModel ElectronProofs BremsModel ShapeModel VecModel VecProofs VecProps.
Import ListNotations.
Local Open Scope R_scope.

(* ------------------------------------------------------------------ *)
(** * Three-dimensional arrays *)

Lemma inb3 i p m n : inb i [p; m; n] -> exists a b c, i = [a; b; c] /\ (a < p)%nat /\ (b < m)%nat /\ (c < n)%nat.
Proof.
  intro H. inversion H as [|a ? i' ? H1 H2]; subst. apply inb2 in H2. destruct H2 as (b & c & -> & Hb & Hc).
  exists a, b, c. auto.
Qed.
Definition plane (l : list R) : arr R := mkA [List.length l; 1; 1]%nat (fun i => nth (hd O i) l 0).
Lemma anewaxis2_vec l : anewaxis2 (vec l) = Ok (plane l).
Proof. reflexivity. Qed.
Lemma vec_3 p m l : shows [p; m; List.length l] (fun i => nth (nth 2 i O) l 0) (vec l).
Proof.
  split; [cbn; auto|]. intros i Hi. apply inb3 in Hi. destruct Hi as (a & b & c & -> & Ha & Hb & Hc).
  cbn. rewrite one_idx by exact Hc. reflexivity.
Qed.
Lemma col_3 p n l : shows [p; List.length l; n] (fun i => nth (nth 1 i O) l 0) (col l).
Proof.
  split; [cbn; auto|]. intros i Hi. apply inb3 in Hi. destruct Hi as (a & b & c & -> & Ha & Hb & Hc).
  cbn. rewrite one_idx by exact Hb. reflexivity.
Qed.
Lemma plane_3 l m n : shows [List.length l; m; n] (fun i => nth (nth 0 i O) l 0) (plane l).
Proof.
  split; [cbn; auto|]. intros i Hi. apply inb3 in Hi. destruct Hi as (a & b & c & -> & Ha & Hb & Hc).
  cbn. rewrite one_idx by exact Ha. reflexivity.
Qed.

Lemma plane_axis0 y l m n f : is_arr [List.length l; m; n] f y ->
  exists r, atrapz y (plane l) 0 = Ok r /\
    is_arr [m; n] (fun i => strapz (map (fun k => f (k :: i)) (seq 0 (List.length l))) l) r.
Proof.
  intros [Sy Vy].
  assert (OA : on_axis y (plane l) 0 = plane l) by reflexivity.
  assert (H1 : sub1 (ash (on_axis y (plane l) 0)) (ash y)) by (rewrite OA, Sy; cbn; repeat constructor; auto).
  assert (H2 : nth 0 (ash (on_axis y (plane l) 0)) O = nth 0 (ash y) O) by (rewrite OA, Sy; reflexivity).
  assert (H3 : (0 < List.length (ash y))%nat) by (rewrite Sy; cbn; lia).
  destruct (atrapz_core y (plane l) 0 H3 H1 H2) as (r & E & Sr & Vr). rewrite OA, Sy in Vr. rewrite Sy in Sr. cbn [del nth] in Sr, Vr.
  exists r. split; [exact E|]. split; [exact Sr|]. intros i Hi. rewrite (Vr i Hi).
  apply inb2 in Hi. destruct Hi as (b & c & -> & Hb & Hc). cbn [ins]. f_equal.
  - apply map_ext_in. intros k Hk. apply in_seq in Hk. apply Vy. repeat constructor; lia.
  - transitivity (map (fun k => nth k l 0) (seq 0 (List.length l))); [|apply map_nth_seq].
    apply map_ext_in. intros k Hk. apply in_seq in Hk. cbn. rewrite one_idx by lia. reflexivity.
Qed.

(* ------------------------------------------------------------------ *)
(** * The kernels *)

(** An array that can stand for the [m]x[n] table [f] in what follows: either
    it has that shape, or (one photon energy, after [squeeze]) the shape [n]. *)
Definition table (m n : nat) (f : nat -> nat -> R) (a : arr R) : Prop :=
  is_arr [m; n] (fun i => f (nth 0 i O) (nth 1 i O)) a
  \/ (m = 1%nat /\ is_arr [n] (fun i => f O (nth 0 i O)) a).

Lemma iso_table gs T l : l <> [] ->
  exists a, iso_array gs T (vec l) = Ok a /\
    table (List.length l) (List.length gs) (fun j g => iso_ic_on_planck (nth g gs 0) T (nth j l 0)) a.
Proof.
  intro H. unfold iso_array. rewrite avstack_vec by exact H. cbn [obind].
  destruct (lift2_join (fun ga el => iso_ic_on_planck el T ga) _ _ _ _ _ (col_col l (List.length gs)) (vec_row (List.length l) gs)) as (a & E & Ha);
    [apply broadcast_col_row|].
  exists a. split; [exact E|]. left. exact Ha.
Qed.
Lemma ani_table gs T th l :
  exists a, ani_array gs T th (vec l) = Ok a /\
    table (List.length l) (List.length gs) (fun j g => ani_ic_on_planck (nth g gs 0) T (nth j l 0) th) a.
Proof.
  unfold ani_array. rewrite anewaxis_vec. cbn [obind].
  destruct (lift2_join (fun ga el => ani_ic_on_planck el T ga th) _ _ _ _ _ (col_col l (List.length gs)) (vec_row (List.length l) gs)) as (a & E & Ha);
    [apply broadcast_col_row|].
  exists a. split; [exact E|]. left. exact Ha.
Qed.

Lemma bdim_1_l d : bdim 1 d = Ok d.
Proof. destruct d as [|[|d]]; reflexivity. Qed.
Lemma bdim_1_r d : bdim d 1 = Ok d.
Proof. unfold bdim. destruct (Nat.eqb_spec d 1); [subst; reflexivity|]. reflexivity. Qed.

Lemma broadcast_plane_vec p n : broadcast [p; 1; 1]%nat [n] = Ok [p; 1; n]%nat.
Proof. unfold broadcast. cbn [rev app brev]. rewrite bdim_1_l. reflexivity. Qed.
Lemma broadcast_col_box p m n : broadcast [m; 1]%nat [p; 1; n]%nat = Ok [p; m; n].
Proof. unfold broadcast. cbn [rev app brev]. rewrite bdim_1_l, bdim_1_r. reflexivity. Qed.

Lemma box_shows (a : arr (R * R)) (f : list nat -> R * R) p m n : is_arr [p; 1; n]%nat f a ->
  shows [p; m; n] (fun i => f [nth 0 i O; O; nth 2 i O]) a.
Proof.
  intros [Sa Va]. split; [rewrite Sa; cbn; auto|]. intros i Hi. apply inb3 in Hi. destruct Hi as (x & y & z & -> & Hx & Hy & Hz).
  rewrite Sa. unfold bidx. cbn [rev app bidx_rev Nat.eqb]. rewrite !one_idx by assumption. cbn [rev app nth].
  apply Va. repeat constructor; lia.
Qed.

Lemma plane_small l n : shows [List.length l; 1; n]%nat (fun i => nth (nth 0 i O) l 0) (plane l).
Proof. apply plane_3. Qed.

(** The kernel on a whole array of seed photons, before the integral over them. *)
Lemma gamint_box gs eps l :
  exists pe gi, lift2 (fun ep el => (ep, el)) (plane eps) (vec gs) = Ok pe /\
    lift2 (fun ga p => aa_kernel (snd p) (fst p) ga) (col l) pe = Ok gi /\
    is_arr [List.length eps; List.length l; List.length gs]
      (fun i => aa_kernel (nth (nth 2 i O) gs 0) (nth (nth 0 i O) eps 0) (nth (nth 1 i O) l 0)) gi.
Proof.
  set (p := List.length eps). set (m := List.length l). set (n := List.length gs).
  pose proof (plane_3 eps 1 n) as H1. pose proof (vec_3 p 1 gs) as H2. fold p in H1. fold n in H2.
  destruct (lift2_join (fun ep el : R => (ep, el)) [p; 1; n]%nat _ _ (plane eps) (vec gs) H1 H2) as (pe & E & Hpe).
  { cbn [ash plane vec]. fold p n. apply broadcast_plane_vec. }
  exists pe. pose proof (box_shows pe _ p m n Hpe) as H3.
  pose proof (col_3 p n l) as H4. fold m in H4.
  destruct (lift2_join (fun ga (q : R * R) => aa_kernel (snd q) (fst q) ga) [p; m; n] _ _ (col l) pe H4 H3) as (gi & E' & Hgi).
  { destruct Hpe as [-> _]. cbn [ash col]. fold m. apply broadcast_col_box. }
  exists gi. split; [exact E|]. split; [exact E'|]. exact Hgi.
Qed.

Lemma combine_nth_R (a b : list R) k : List.length a = List.length b -> nth k (combine a b) (0, 0) = (nth k a 0, nth k b 0).
Proof. intro H. apply combine_nth, H. Qed.

Lemma nth_map_combine (F : R * R -> R) a b k : List.length a = List.length b -> (k < List.length a)%nat ->
  nth k (map F (combine a b)) 0 = F (nth k a 0, nth k b 0).
Proof.
  intros L H. rewrite (nth_indep _ 0 (F (0, 0))) by (rewrite map_length, combine_length; lia).
  rewrite map_nth, combine_nth_R by exact L. reflexivity.
Qed.

Lemma mono_table gs eps phn l : grid gs -> (2 <= List.length gs)%nat -> grid eps -> List.Forall (fun v => 0 <= v) phn ->
  List.length eps = List.length phn -> (1 <= List.length eps)%nat -> l <> [] -> List.Forall (fun e => 0 < e) l ->
  exists a, mono_array gs eps phn (vec l) = Ok a /\
    table (List.length l) (List.length gs) (fun j g => iso_ic_on_monochromatic (nth g gs 0) eps phn (nth j l 0)) a.
Proof.
  intros Hg Hn He Hph L L1 Hl HEl. set (m := List.length l). set (n := List.length gs). set (p := List.length eps).
  assert (Pg : forall g, (g < n)%nat -> 0 < nth g gs 0).
  { intros g H. destruct Hg as [F _]. rewrite Forall_forall in F. apply F, nth_In, H. }
  assert (Pe : forall k, (k < p)%nat -> 0 < nth k eps 0).
  { intros k H. destruct He as [F _]. rewrite Forall_forall in F. apply F, nth_In, H. }
  assert (Pn : forall k, (k < p)%nat -> 0 <= nth k phn 0).
  { intros k H. rewrite Forall_forall in Hph. apply Hph, nth_In. lia. }
  assert (Pl : forall j, (j < m)%nat -> 0 < nth j l 0).
  { intros j H. rewrite Forall_forall in HEl. apply HEl, nth_In, H. }
  unfold mono_array. rewrite anewaxis_vec, !anewaxis2_vec. cbn [obind].
  destruct (gamint_box gs eps l) as (pe & gi & E1 & E2 & Hgi). rewrite E1. cbn [obind]. rewrite E2. cbn [obind]. clear E1 E2 pe.
  fold m n p in Hgi.
  pose proof (plane_3 phn m n) as HP. rewrite <- L in HP. fold p in HP.
  pose proof (plane_3 eps m n) as HE. fold p in HE.
  destruct (Nat.ltb_spec 1 (List.length phn)) as [Hlt|Hle].
  - destruct (lift2_is_l Rmult [p; m; n] _ _ gi (plane phn) Hgi HP) as (b & E & Hb). rewrite E. cbn [obind]. clear E.
    destruct (lift2_is_l Rdiv [p; m; n] _ _ b (plane eps) Hb HE) as (c & E & Hc). rewrite E. cbn [obind]. clear E.
    destruct (plane_axis0 c eps m n _ Hc) as (t & E & Ht). rewrite E. cbn [obind]. clear E.
    pose proof (vec_row m gs) as Hv. fold n in Hv.
    destruct (lift2_is_l (fun v el => v * (3 / 4 * sigt_c / el ^ 2)) [m; n] _ _ t (vec gs) Ht Hv) as (a & E & Ha). rewrite E.
    exists a. split; [reflexivity|]. left. apply (is_ext _ _ _ _ Ha). intros i Hi. cbv beta.
    apply inb2 in Hi. destruct Hi as (j & g & -> & Hj & Hgn). cbn [nth]. unfold iso_ic_on_monochromatic.
    f_equal.
    assert (M : forall (A : Type) (x y : A), match eps, phn with [e0], [n0] => x | _, _ => y end = y).
    { intros A x y. destruct eps as [|e0 [|e1 eps']]; try reflexivity. destruct phn as [|n0 [|n1 phn']]; try reflexivity. cbn in Hlt. lia. }
    transitivity (trapz_loglog (map (fun q => aa_kernel (nth g gs 0) (fst q) (nth j l 0) * snd q / fst q) (combine eps phn)) eps).
    2:{ destruct eps as [|e0 [|e1 eps']]; try reflexivity. destruct phn as [|n0 [|n1 phn']]; try reflexivity. cbn in Hlt. lia. }
    fold p. rewrite strapz_trapz.
    + apply (f_equal (fun z => trapz_loglog z eps)). apply list_from.
      * rewrite map_length, combine_length. unfold p. lia.
      * intros k Hk. cbv beta. cbn [nth].
        rewrite nth_map_combine by (exact L || exact Hk). reflexivity.
    + apply Forall_forall. intros v Hv'. apply in_map_iff in Hv'. destruct Hv' as (k & <- & Hk). apply in_seq in Hk. cbv beta. cbn [nth].
      assert (k < p)%nat as Hkp by lia. specialize (Pe k Hkp). specialize (Pn k Hkp).
      apply Rmult_le_pos; [|apply Rlt_le, Rinv_0_lt_compat, Pe]. apply Rmult_le_pos; [|exact Pn]. apply aa_nonneg; auto.
  - assert (p = 1%nat) as P1 by (unfold p; lia).
    destruct eps as [|e0 [|e1 eps']]; cbn in p; try (unfold p in P1; discriminate).
    destruct phn as [|n0 [|n1 phn']]; cbn in L; try discriminate.
    assert (Hr : exists r, lift2 (fun n1 e : R => n1 / e ^ 2) (plane [n0]) (plane [e0]) = Ok r /\ shows [1%nat; m; n] (fun _ => n0 / e0 ^ 2) r).
    { destruct (lift2_shows (fun n1 e : R => n1 / e ^ 2) [1%nat; m; n] _ _ _ _ HP HE) as (r & E & Hr). exists r. split; [exact E|].
      apply (shows_ext _ _ _ _ Hr). intros i Hi. apply inb3 in Hi. destruct Hi as (a & b & c & -> & Ha & _ & _). cbn [nth].
      destruct a; [reflexivity|]. lia. }
    destruct Hr as (r & E & Hr). rewrite E. cbn [obind]. clear E.
    rewrite P1 in Hgi.
    destruct (lift2_is_l Rmult [1%nat; m; n] _ _ gi r Hgi Hr) as (b & E & Sb & Vb). rewrite E. cbn [obind omap]. clear E.
    assert (n =? 1 = false)%nat as N1 by (apply Nat.eqb_neq; unfold n; lia).
    assert (1 <= m)%nat as M1 by (unfold m; destruct l; [congruence|cbn; lia]).
    pose proof (vec_row m gs) as Hv. fold n in Hv.
    destruct (Nat.eq_dec m 1) as [Hm|Hm].
    + assert (Sq : is_arr [n] (fun i => aa_kernel (nth (nth 0 i O) gs 0) e0 (nth 0 l 0) * (n0 / e0 ^ 2)) (asqueeze b)).
      { unfold asqueeze. split; cbn [ash aval]; rewrite Sb; unfold squeeze; cbn [filter Nat.eqb negb].
        - rewrite Hm. cbn. rewrite N1. reflexivity.
        - intros i Hi. apply inb1 in Hi. destruct Hi as (g & -> & Hgn). rewrite Hm. cbn [unsqueeze Nat.eqb]. rewrite N1.
          rewrite Vb by (rewrite Hm; repeat constructor; lia). reflexivity. }
      pose proof (vec_row n gs) as _.
      assert (Hv1 : shows [n] (fun i => nth (nth 0 i O) gs 0) (vec gs)).
      { split; [cbn; auto|]. intros i Hi. apply inb1 in Hi. destruct Hi as (g & -> & Hgn). cbn. rewrite one_idx by exact Hgn. reflexivity. }
      destruct (lift2_is_l (fun v el => v * (3 / 4 * sigt_c / el ^ 2)) [n] _ _ _ (vec gs) Sq Hv1) as (a & E & Ha). rewrite E.
      exists a. split; [reflexivity|]. right. split; [exact Hm|]. exact Ha.
    + assert (Sq : is_arr [m; n] (fun i => aa_kernel (nth (nth 1 i O) gs 0) e0 (nth (nth 0 i O) l 0) * (n0 / e0 ^ 2)) (asqueeze b)).
      { assert (m =? 1 = false)%nat as M2 by (apply Nat.eqb_neq; exact Hm).
        unfold asqueeze. split; cbn [ash aval]; rewrite Sb; unfold squeeze; cbn [filter Nat.eqb negb].
        - rewrite M2, N1. reflexivity.
        - intros i Hi. apply inb2 in Hi. destruct Hi as (j & g & -> & Hj & Hgn). cbn [unsqueeze Nat.eqb]. rewrite M2, N1.
          rewrite Vb by (repeat constructor; lia). reflexivity. }
      destruct (lift2_is_l (fun v el => v * (3 / 4 * sigt_c / el ^ 2)) [m; n] _ _ _ (vec gs) Sq Hv) as (a & E & Ha). rewrite E.
      exists a. split; [reflexivity|]. left. exact Ha.
Qed.

(* ------------------------------------------------------------------ *)
(** * The spectrum of one seed and of all *)

(** A seed photon field the constructor can produce (C28-C35): positive
    temperature or increasing energies, as many densities as energies. *)
Definition seed_good (s : seed) : Prop :=
  seed_ok s /\
  match s with
  | Thermal _ _ _ => True
  | ElectronModel.Array eps phn _ => List.length eps = List.length phn /\ (1 <= List.length eps)%nat
  end.

Lemma amap_vec_scale (c : R) l : amap (fun e => e / c) (vec l) = vec (map (fun e => e / c) l).
Proof.
  unfold amap, vec. cbn [ash aval]. rewrite map_length. f_equal. apply FunctionalExtensionality.functional_extensionality. intro i.
  replace 0 with (0 / c) at 2 by (unfold Rdiv; ring). rewrite (map_nth (fun e => e / c)). reflexivity.
Qed.

Lemma to_mec2_lengths mec2 s : seed_good s ->
  match to_mec2 mec2 s with
  | Thermal _ _ _ => True
  | ElectronModel.Array eps phn _ => List.length eps = List.length phn /\ (1 <= List.length eps)%nat
  end.
Proof.
  intros [_ H]. destruct s as [|[|e0 [|e1 eps]] [|n0 [|n1 phn]] th]; cbn in *; try lia; auto. rewrite !map_length. lia.
Qed.

Lemma nth_in_pos l k : List.Forall (fun E => 0 < E) l -> (k < List.length l)%nat -> 0 < nth k l 0.
Proof. intros F H. rewrite Forall_forall in F. apply F, nth_In, H. Qed.

Theorem C115_inverse_compton_seed : forall mec2 ar pd gs s Es,
  0 < mec2 -> (forall E, 0 < E -> 0 <= pd E) -> grid gs -> (2 <= List.length gs)%nat -> seed_good s ->
  Es <> [] -> List.Forall (fun E => 0 < E) Es ->
  exists r, specic_array mec2 (nelec mec2 pd gs) gs ar s (vec Es) = Ok r /\ holds_list r (calc_specic mec2 ar pd gs s Es).
Proof.
  intros mec2 ar pd gs s Es Hm Hp Hg Hn Hs Hne HEs. set (n := List.length gs). set (m := List.length Es).
  unfold specic_array. rewrite amap_vec_scale. set (Eph := map (fun e => e / mec2) Es).
  assert (Lm : List.length Eph = m) by (unfold Eph; rewrite map_length; reflexivity).
  assert (HEph : List.Forall (fun E => 0 < E) Eph).
  { apply Forall_forall. intros v Hv. unfold Eph in Hv. apply in_map_iff in Hv. destruct Hv as (e & <- & He). rewrite Forall_forall in HEs. apply div_pos; auto. }
  assert (Hnph : Eph <> []) by (unfold Eph; destruct Es; [congruence|discriminate]).
  pose proof (to_mec2_ok mec2 s Hm (proj1 Hs)) as Hok. pose proof (to_mec2_lengths mec2 s Hs) as Hlen.
  assert (K : exists a, match to_mec2 mec2 s with
           | Thermal T _ None => iso_array gs T (vec Eph)
           | Thermal T _ (Some th) => ani_array gs T th (vec Eph)
           | ElectronModel.Array eps phn _ => mono_array gs eps phn (vec Eph)
           end = Ok a /\ table m n (fun j g => seed_kernel (to_mec2 mec2 s) (nth g gs 0) (nth j Eph 0)) a).
  { rewrite <- Lm. unfold n. destruct (to_mec2 mec2 s) as [T u [th|]|eps phn th]; cbn [seed_kernel].
    - apply ani_table.
    - apply iso_table. exact Hnph.
    - destruct Hok as [O1 O2], Hlen as [O3 O4]. apply mono_table; auto. }
  destruct K as (gi & E & Hgi). rewrite E. cbn [obind]. clear E.
  assert (Ln : List.length (nelec mec2 pd gs) = n) by (unfold nelec; rewrite map_length; reflexivity).
  assert (T : exists y t, lift2 Rmult (vec (nelec mec2 pd gs)) gi = Ok y /\ atrapz y (vec gs) (List.length (ash y) - 1) = Ok t /\
            shows [m] (fun i => trapz_loglog (mul2 (nelec mec2 pd gs) (map (fun g => seed_kernel (to_mec2 mec2 s) g (nth (nth 0 i O) Eph 0)) gs)) gs) t).
  { assert (SK : forall j f, (j < m)%nat -> (forall g, (g < n)%nat -> f g = nth g (nelec mec2 pd gs) 0 * seed_kernel (to_mec2 mec2 s) (nth g gs 0) (nth j Eph 0)) ->
        strapz (map f (seq 0 n)) gs = trapz_loglog (mul2 (nelec mec2 pd gs) (map (fun g => seed_kernel (to_mec2 mec2 s) g (nth j Eph 0)) gs)) gs).
    { intros j f Hj Hf. unfold n. apply (samples_are mec2 pd gs (fun g => seed_kernel (to_mec2 mec2 s) g (nth j Eph 0))); auto.
      intros g Pg. apply seed_kernel_nonneg; auto. apply nth_in_pos; [exact HEph|lia]. }
    destruct Hgi as [Hgi|[M1 Hgi]].
    - pose proof (vec_row m (nelec mec2 pd gs)) as Hv. rewrite Ln in Hv.
      destruct (lift2_is_r Rmult [m; n] _ _ _ _ Hv Hgi) as (y & E & Hy). exists y.
      destruct (axis1_2 y gs n m _ Hy eq_refl) as (t & Et & Ht). exists t. split; [exact E|].
      destruct Hy as [Sy _]. rewrite Sy. cbn [List.length Nat.sub]. split; [exact Et|].
      apply is_shows. apply (is_ext _ _ _ _ Ht). intros i Hi. apply inb1 in Hi. destruct Hi as (j & -> & Hj). cbn [hd nth].
      apply (SK j (fun g => _) Hj). intros g _. reflexivity.
    - assert (Hv : shows [n] (fun i => nth (nth 0 i O) (nelec mec2 pd gs) 0) (vec (nelec mec2 pd gs))).
      { split; [cbn; rewrite Ln; auto|]. intros i Hi. apply inb1 in Hi. destruct Hi as (g & -> & Hgn). cbn. rewrite Ln, one_idx by exact Hgn. reflexivity. }
      destruct (lift2_is_r Rmult [n] _ _ _ _ Hv Hgi) as (y & E & Hy). exists y.
      destruct (axis0_1 y gs n _ Hy eq_refl) as (t & Et & St & Vt). exists t. split; [exact E|].
      destruct Hy as [Sy _]. rewrite Sy. cbn [List.length Nat.sub]. split; [exact Et|].
      split; [rewrite St; exact I|]. intros i Hi. apply inb1 in Hi. destruct Hi as (j & -> & Hj). rewrite St. change (bidx [] [j]) with (@nil nat).
      rewrite Vt by constructor. assert (j = 0)%nat by lia. subst j. cbn [nth].
      apply (SK 0%nat (fun g => _)); [lia|]. intros g _. reflexivity. }
  destruct T as (y & t & E1 & E2 & Ht). rewrite E1. cbn [obind]. rewrite E2. cbn [obind]. clear E1 E2 y Hgi gi.
  assert (Hvec : forall l, List.length l = m -> is_arr [m] (fun i => nth (nth 0 i O) l 0) (vec l)).
  { intros l <-. split; [reflexivity|]. intros i Hi. apply inb1 in Hi. destruct Hi as (g & -> & _). reflexivity. }
  destruct (lift2_is_l (fun e i => seed_factor ar s * e * i) [m] _ _ _ t (Hvec Eph Lm) Ht) as (lum & E & Hlum). rewrite E. cbn [obind]. clear E.
  destruct (lift2_is Rdiv [m] _ _ _ _ Hlum (Hvec Es eq_refl)) as (r & E & Sr & Vr). rewrite E. exists r. split; [reflexivity|].
  apply holds_from; unfold calc_specic; rewrite map_length; [exact Sr|].
  intros j Hj. rewrite Vr by (repeat constructor; exact Hj). cbn [nth].
  match goal with |- _ = nth j (map ?F Es) 0 => rewrite (nth_map_R F) by exact Hj end. cbv beta zeta.
  unfold Eph. rewrite (nth_map_R (fun e => e / mec2)) by exact Hj. reflexivity.
Qed.

Lemma fold_aval (l : list (arr R)) i : fold_right (fun b acc => aval b i + acc) 0 l = fold_right Rplus 0 (map (fun b => aval b i) l).
Proof. induction l; cbn; [reflexivity|]. rewrite IHl. reflexivity. Qed.

(** All seeds: the sum over the seeds, element by element. *)
Theorem C115_inverse_compton : forall mec2 ar pd gs seeds Es,
  0 < mec2 -> (forall E, 0 < E -> 0 <= pd E) -> grid gs -> (2 <= List.length gs)%nat ->
  seeds <> [] -> List.Forall seed_good seeds -> Es <> [] -> List.Forall (fun E => 0 < E) Es ->
  exists r, ic_array mec2 (nelec mec2 pd gs) gs ar seeds (vec Es) = Ok r /\ holds_list r (ic_spectrum mec2 ar pd gs seeds Es).
Proof.
  intros mec2 ar pd gs seeds Es Hm Hp Hg Hn Hss Hs Hne HEs. unfold ic_array. set (m := List.length Es).
  assert (K : exists l, mapM (fun s => specic_array mec2 (nelec mec2 pd gs) gs ar s (vec Es)) seeds = Ok l /\
     List.length l = List.length seeds /\ List.Forall (fun a => ash a = [m]) l /\
     List.length (ic_spectrum mec2 ar pd gs seeds Es) = m /\
     forall j, (j < m)%nat -> fold_right Rplus 0 (map (fun b => aval b [j]) l) = nth j (ic_spectrum mec2 ar pd gs seeds Es) 0).
  { clear Hss. induction Hs as [|s seeds Hs1 Hs IH].
    - exists []. cbn. repeat split; auto; [apply map_length|]. intros j Hj. change (map (fun _ : R => 0) Es) with (map (fun _ : R => 0) Es).
      rewrite (nth_map_R (fun _ => 0)) by exact Hj. reflexivity.
    - destruct IH as (l & E & L & F & L2 & V).
      destruct (C115_inverse_compton_seed mec2 ar pd gs s Es Hm Hp Hg Hn Hs1 Hne HEs) as (r & Er & Sr & Vr).
      exists (r :: l). cbn [mapM]. rewrite Er. cbn [obind]. rewrite E. cbn [obind]. split; [reflexivity|].
      assert (Lc : List.length (calc_specic mec2 ar pd gs s Es) = m) by (unfold calc_specic; apply map_length).
      split; [cbn; congruence|]. split; [constructor; [congruence|exact F]|].
      cbn [ic_spectrum fold_right]. fold (ic_spectrum mec2 ar pd gs seeds Es). split; [rewrite map_length, combine_length; lia|].
      intros j Hj. cbn [map fold_right]. rewrite (V j Hj).
      rewrite (nth_map_combine (fun p => fst p + snd p)) by lia. cbn [fst snd]. f_equal.
      rewrite <- Vr. unfold to_list. rewrite Sr, Lc. cbn [hd].
      rewrite (nth_indep _ 0 (aval r [0%nat])) by (rewrite map_length, seq_length; exact Hj).
      rewrite (map_nth (fun k => aval r [k])), seq_nth by exact Hj. reflexivity. }
  destruct K as (l & E & L & F & L2 & V). rewrite E. cbn [obind].
  destruct l as [|a l]; [destruct seeds; [congruence|discriminate]|].
  inversion F as [|? ? Fa Fl]; subst.
  assert (B : forallb (fun b => if list_eq_dec Nat.eq_dec (ash a) (ash b) then true else false) l = true).
  { apply forallb_forall. intros b Hb. rewrite Forall_forall in Fl. rewrite Fa, (Fl b Hb). destruct (list_eq_dec _ _ _); congruence. }
  rewrite B. eexists. split; [reflexivity|]. apply holds_from; cbn [ash aval]; [rewrite L2; exact Fa|].
  intros j Hj. rewrite L2 in Hj. rewrite <- (V j Hj). apply (fold_aval (a :: l) [j]).
Qed.

(** An empty array of photon energies is refused by the isotropic kernel
    (np.vstack of nothing), in contrast with the angle-dependent one. *)
Theorem C115_empty : forall mec2 nel gs ar T u,
  specic_array mec2 nel gs ar (Thermal T u None) (vec []) = Err "ValueError" /\
  forall th, exists a, ani_array gs T th (vec []) = Ok a /\ ash a = [O; List.length gs].
Proof.
  intros. split; [reflexivity|]. intro th. unfold ani_array. rewrite anewaxis_vec. cbn [obind]. unfold lift2. cbn [ash col vec List.length].
  rewrite broadcast_col_row. eexists. split; reflexivity.
Qed.

(** The hypotheses are met by a thermal field, a line and a tabulated field on a
    grid of three electron energies. *)
Example C115_example : seed_good (Thermal 3 1 None) /\ seed_good (Thermal 30 2 (Some PI)) /\
  seed_good (ElectronModel.Array [2] [5] None) /\ seed_good (ElectronModel.Array [1; 2; 4] [3; 0; 1] None) /\
  grid [10; 20; 40] /\ (2 <= List.length [10; 20; 40])%nat.
Proof.
  assert (grid [1; 2; 4] /\ grid [2] /\ grid [10; 20; 40]) as (G1 & G2 & G3).
  { unfold grid. repeat split; repeat constructor; lra. }
  repeat split; cbn; auto; try lra; try lia; try (intros t H; injection H as <-; rewrite cos_PI; lra); try discriminate;
    try (repeat constructor; lra); try apply G1; try apply G2; try apply G3.
Qed.
