(** C115, continued: Bremsstrahlung and the pion-decay cross section. *)
From Coq Require Import Reals List Bool Arith String Lia Lra.
From Verif Require Import Outcome TrapzModel TrapzSpec TrapzProofs EnergyModel ElectronModel ElectronProofs BremsModel ShapeModel PionModel VecModel VecModel2 VecProofs VecProps VecProps2.
Import ListNotations.
Local Open Scope R_scope.

(* ------------------------------------------------------------------ *)
(** * Compressed arrays *)

Lemma take_map {A B} (f : A -> B) (m : A -> bool) l : take (map m l) (map f l) = map f (take (map m l) l).
Proof. induction l as [|x l IH]; [reflexivity|]. cbn [map take]. destruct (m x); rewrite IH; reflexivity. Qed.
Lemma put_map {A B} (m : A -> bool) (f g : A -> B) l :
  put (map m l) (map f (take (map m l) l)) (map g l) = Ok (map (fun x => if m x then f x else g x) l).
Proof.
  induction l as [|x l IH]; [reflexivity|]. cbn [map take put]. destruct (m x); cbn [map]; rewrite IH; reflexivity.
Qed.
Lemma put1_map {A B} (m : A -> bool) (c : B) (g : A -> B) l :
  put1 (map m l) c (map g l) = map (fun x => if m x then c else g x) l.
Proof. induction l as [|x l IH]; [reflexivity|]. cbn [map put1]. rewrite IH. reflexivity. Qed.
Lemma zip2_map {A B C D} (f : A -> B -> C) (g : D -> A) (h : D -> B) l :
  zip2 f (map g l) (map h l) = Ok (map (fun x => f (g x) (h x)) l).
Proof. induction l as [|x l IH]; [reflexivity|]. cbn [map zip2]. rewrite IH. reflexivity. Qed.
Lemma take_all {A} (m : A -> bool) l x : In x (take (map m l) l) -> m x = true.
Proof.
  induction l as [|y l IH]; cbn; [tauto|]. destruct (m y) eqn:E; [intros [<-|H]; [exact E|auto]|auto].
Qed.
Lemma existsb_false_map {A B} (p m : A -> bool) (c : B) (g : A -> B) l :
  (forall x, m x = true -> p x = true) -> existsb p l = false -> map (fun x => if m x then c else g x) l = map g l.
Proof.
  intros H E. apply map_ext_in. intros x Hx. destruct (m x) eqn:M; [|reflexivity].
  specialize (H x M). assert (existsb p l = true) by (apply existsb_exists; exists x; auto). congruence.
Qed.

Ltac tests := unfold Rltb, Rleb in *;
  repeat match goal with
         | |- context [Rlt_dec ?a ?b] => destruct (Rlt_dec a b)
         | |- context [Rle_dec ?a ?b] => destruct (Rle_dec a b)
         end; cbn [andb]; try reflexivity; try (exfalso; lra).

Section PionArrayProofs.
  Variable m_p : R.
  Variable hi : hiE.

  Lemma sigma_pi_loE_v_is Tp : sigma_pi_loE_v m_p Tp = Ok (map (sigma_pi_loE m_p) Tp).
  Proof.
    unfold sigma_pi_loE_v, sigma2pi_v. rewrite put1_map, zip2_map. cbn [omap]. rewrite map_map. f_equal.
    apply map_ext. intro t. unfold sigma_pi_loE, sigma2pi. destruct (nsqrt (mu_rad m_p t)); [|reflexivity]. cbn [nmap]. tests.
  Qed.

  Lemma Etrans_range : 50 <= Etrans hi <= 100.
  Proof. destruct hi; cbn; lra. Qed.

  (** The total pion cross section. *)
  Lemma sigma_pi_v_is Tp : sigma_pi_v m_p hi Tp = Ok (map (sigma_pi m_p hi) Tp).
  Proof.
    unfold sigma_pi_v. rewrite sigma_pi_loE_v_is. cbn [obind]. rewrite put_map. cbn [obind]. rewrite put_map. cbn [obind].
    rewrite put_map. cbn [obind]. rewrite put_map. f_equal. apply map_ext. intro t. pose proof Etrans_range. unfold sigma_pi. tests.
  Qed.

  Lemma b_params_v_is Tp : b_params_v hi Tp =
    let s := take (map (fun t => Rleb 1 t) Tp) Tp in
    (map (fun t => fst (fst (b_params hi t))) s, map (fun t => snd (fst (b_params hi t))) s, map (fun t => snd (b_params hi t)) s).
  Proof.
    unfold b_params_v. set (s := take _ Tp). cbn [tab_b]. destruct (tab_b hi) as [[h1 h2] h3] eqn:E. cbv zeta.
    rewrite !put1_map. f_equal; [f_equal|]; apply map_ext; intro t; unfold b_params; rewrite E; pose proof Etrans_range; tests.
  Qed.

  Lemma Amax_v_is Tp : Amax_v m_p hi Tp = Ok (map (Amax m_p hi) Tp).
  Proof.
    unfold Amax_v. rewrite b_params_v_is. cbv zeta.
    rewrite sigma_pi_v_is. cbn [obind]. rewrite take_map, zip2_map. cbn [obind].
    rewrite put_map. cbn [obind]. rewrite take_map, !zip2_map. cbn [obind]. rewrite zip2_map. cbn [obind]. rewrite zip2_map. cbn [obind].
    rewrite sigma_pi_v_is. cbn [obind]. rewrite zip2_map. cbn [obind]. rewrite put_map. f_equal. apply map_ext. intro t.
    unfold Amax. destruct (b_params hi t) as [[b1 b2] b3]. cbn [fst snd]. tests.
  Qed.

  Lemma F_block_is m Tp Eg mp (l a : R) (b g : R -> R) (F : R -> option R) :
    (forall s, mp s = (l, a, map b s, map g s)) ->
    F_block m_p (map m Tp) Tp Eg mp (map F Tp) = Ok (map (fun t => if m t then F_func m_p t Eg (l, a, b t, g t) else F t) Tp).
  Proof.
    intro H. unfold F_block. rewrite <- put_map. destruct (take (map m Tp) Tp) eqn:E.
    - assert (forall t, In t Tp -> m t = false) as N.
      { intros t Ht. destruct (m t) eqn:M; [|reflexivity]. assert (In t (take (map m Tp) Tp)) as I; [|rewrite E in I; destruct I].
        clear E. induction Tp as [|x Tp IH]; [destruct Ht|]. cbn [map take]. destruct Ht as [->|Ht]; [rewrite M; left; reflexivity|].
        destruct (m x); [right|]; apply IH; exact Ht. }
      pose proof (put_map m (fun _ => None) F Tp) as P. rewrite E in P. cbn [map] in *. rewrite P. f_equal.
      apply map_ext_in. intros t Ht. rewrite (N t Ht). reflexivity.
    - rewrite <- E, H. unfold F_func_v. rewrite zip2_map. cbn [obind].
      set (s := take (map m Tp) Tp).
      pose proof (zip2_map (fun t p => F_func m_p t Eg (l, a, fst p, snd p)) (fun t => t) (fun t => (b t, g t)) s) as Z.
      rewrite map_id in Z. rewrite Z. cbn [obind fst snd]. reflexivity.
  Qed.

  Lemma F_v_is Tp Eg : F_v m_p hi Tp Eg = Ok (map (fun t => F m_p hi t Eg) Tp).
  Proof.
    unfold F_v. rewrite put1_map.
    erewrite F_block_is by (intro; reflexivity). cbn [obind].
    erewrite F_block_is by (intro; reflexivity). cbn [obind].
    erewrite F_block_is by (intro; reflexivity). cbn [obind].
    erewrite F_block_is by (intro; reflexivity). cbn [obind].
    destruct (tab_F hi) as [[[l a] b] g] eqn:E.
    erewrite (F_block_is _ _ _ _ l a (fun _ => b) (fun _ => g)) by (intro; reflexivity). f_equal. apply map_ext. intro t.
    unfold F, F_params. rewrite E. pose proof Etrans_range. tests.
  Qed.

  Lemma nuclear_factor_v_is Tp : nuclear_factor_v Tp = map nuclear_factor Tp.
  Proof.
    unfold nuclear_factor_v. rewrite put1_map.
    destruct (existsb (fun t => Rltb t 1) Tp) eqn:E.
    - apply map_ext. intro t. unfold nuclear_factor. tests.
    - apply map_ext_in. intros t Ht. assert (Rltb t 1 = false) as N.
      { destruct (Rltb t 1) eqn:X; [|reflexivity]. assert (existsb (fun t => Rltb t 1) Tp = true) by (apply existsb_exists; exists t; auto). congruence. }
      unfold nuclear_factor. tests.
  Qed.
End PionArrayProofs.

(** ** Pion decay: the masked evaluation on a whole array of proton energies never
    raises, and gives at each energy what the formulas give there, whatever the
    other energies in the array; nan (None) included. *)
Theorem C115_pion_cross_section : forall m_p hi nuclear Eps Eg,
  diffsigma_v m_p hi nuclear Eps Eg = Ok (map (fun Ep => diffsigma m_p hi nuclear Ep Eg) Eps).
Proof.
  intros. unfold diffsigma_v. rewrite Amax_v_is. cbn [obind]. rewrite F_v_is. cbn [obind]. rewrite zip2_map. cbn [obind].
  rewrite nuclear_factor_v_is. destruct nuclear; [rewrite zip2_map|]; rewrite map_map; reflexivity.
Qed.

(* ------------------------------------------------------------------ *)
(** * Bremsstrahlung *)

Lemma assign_scalar_is s f fm a m v : is_arr s f a -> is_arr s fm m ->
  exists c, assign_scalar a m v = Ok c /\ is_arr s (fun i => if fm i then v else f i) c.
Proof.
  intros [Sa Va] [Sm Vm]. unfold assign_scalar. rewrite Sa, Sm. destruct (list_eq_dec Nat.eq_dec s s); [|congruence].
  eexists. split; [reflexivity|]. split; [reflexivity|]. intros i Hi. cbn [aval]. rewrite (Va i Hi), (Vm i Hi). reflexivity.
Qed.
Lemma assign_where_is s f fm g a m b : is_arr s f a -> is_arr s fm m -> is_arr s g b ->
  exists c, assign_where a m b = Ok c /\ is_arr s (fun i => if fm i then g i else f i) c.
Proof.
  intros [Sa Va] [Sm Vm] [Sb Vb]. unfold assign_where. rewrite Sa, Sm, Sb. destruct (list_eq_dec Nat.eq_dec s s); [|congruence].
  eexists. split; [reflexivity|]. split; [reflexivity|]. intros i Hi. cbn [aval]. rewrite (Va i Hi), (Vb i Hi), (Vm i Hi). reflexivity.
Qed.

Section BremsArrayProofs.
  Variables k gam_trans c_cgs mec2 : R.
  Variable pd : R -> R.
  Variable gs Es : list R.       (* electron and photon energies in units of mec2 *)
  Hypothesis gs_ne : gs <> [].
  Let n := List.length gs.
  Let m := List.length Es.
  Let G (i : list nat) : R := nth (nth 0 i O) gs 0.
  Let E (i : list nat) : R := nth (nth 1 i O) Es 0.

  Let HG : shows [n; m] G (col gs) := col_col gs m.
  Let HE : shows [n; m] E (vec Es) := vec_row n Es.

  Lemma join_ge {C} (op : R -> R -> C) : exists c, lift2 op (col gs) (vec Es) = Ok c /\ is_arr [n; m] (fun i => op (G i) (E i)) c.
  Proof. apply lift2_join; [exact HG|exact HE|apply broadcast_col_row]. Qed.
  Lemma join_eg {C} (op : R -> R -> C) : exists c, lift2 op (vec Es) (col gs) = Ok c /\ is_arr [n; m] (fun i => op (E i) (G i)) c.
  Proof. apply lift2_join; [exact HE|exact HG|apply broadcast_row_col]. Qed.
  Let HEm (f : R -> R) : shows [n; m] (fun i => f (E i)) (amap f (vec Es)) := shows_amap f _ _ _ HE.
  Let HGm (f : R -> R) : shows [n; m] (fun i => f (G i)) (amap f (col gs)) := shows_amap f _ _ _ HG.

  Ltac step H := let c := fresh "c" in let X := fresh "X" in let P := fresh "P" in
    destruct H as (c & X & P); rewrite X; cbn [obind]; clear X.

  Lemma sigma_1_array_is : exists a, sigma_1_array k (col gs) (vec Es) = Ok a /\ is_arr [n; m] (fun i => sigma_1 k (G i) (E i)) a.
  Proof.
    unfold sigma_1_array.
    step (join_ge (fun g e => 1 + (1 / 3 - e / g) * (1 - e / g))).
    step (join_ge (fun g e => ln (2 * g * (g - e) / e) - 1 / 2)).
    step (join_ge Rltb).
    step (assign_scalar_is _ _ _ _ _ 0 P0 P1).
    step (lift2_is_r Rmult _ _ _ _ _ (HEm (fun e => 4 * k / e)) P).
    destruct (lift2_is Rmult _ _ _ _ _ P3 P2) as (a & X & Ha). exists a. split; [exact X|].
    apply (is_ext _ _ _ _ Ha). intros i _. unfold sigma_1, Rltb. destruct (Rlt_dec (G i) (E i)); reflexivity.
  Qed.

  Lemma sigma_2_array_is : exists a, sigma_2_array k (col gs) (vec Es) = Ok a /\ is_arr [n; m] (fun i => sigma_2 k (G i) (E i)) a.
  Proof.
    unfold sigma_2_array.
    step (join_ge (fun g e => 16 * (1 - e + e ^ 2) * ln (g / e))).
    match goal with |- context [lift2 Rplus c (amap ?f (vec Es))] => step (lift2_is_l Rplus _ _ _ _ _ P (HEm f)) end.
    match goal with |- context [lift2 Rplus c0 (amap ?f (vec Es))] => step (lift2_is_l Rplus _ _ _ _ _ P0 (HEm f)) end.
    match goal with |- context [lift2 Rmult (amap ?f (vec Es)) (amap ?h (col gs))] =>
      step (lift2_join Rmult [n; m] _ _ _ _ (HEm f) (HGm h) (broadcast_row_col n m)) end.
    match goal with |- context [lift2 Rplus c2 (amap ?f (vec Es))] => step (lift2_is_l Rplus _ _ _ _ _ P2 (HEm f)) end.
    step (lift2_is_r Rmult _ _ _ _ _ (HEm (fun e => 2 / e)) P3).
    step (awhere_is [n; m] _ _ _ _ _ _ (shows_amap (fun e => Rleb e (1 / 2)) _ _ _ HE) P1 (is_shows _ _ _ P4)).
    step (lift2_is_r Rmult _ _ _ _ _ (HEm (fun e => k / (3 * e))) P5).
    step (join_ge (fun g e => heaviside (g - e))).
    destruct (lift2_is Rmult _ _ _ _ _ P6 P7) as (a & X & Ha). exists a. split; [exact X|].
    apply (is_ext _ _ _ _ Ha). intros i _. unfold sigma_2, Rleb. destruct (Rle_dec (E i) (1 / 2)); f_equal; f_equal; ring.
  Qed.

  Lemma sigma_ee_rel_array_is : exists a, sigma_ee_rel_array k (col gs) (vec Es) = Ok a /\ is_arr [n; m] (fun i => sigma_ee_rel k (G i) (E i)) a.
  Proof.
    unfold sigma_ee_rel_array.
    step (join_ge (fun g e => 1 - 8 / 3 * Rpower (g - 1) (2 / 10) / (g + 1) * Rpower (e / g) (1 / 3))).
    step sigma_1_array_is. step sigma_2_array_is. step (lift2_is Rplus _ _ _ _ _ P0 P1).
    destruct (lift2_is Rmult _ _ _ _ _ P2 P) as (a & X & Ha). exists a. split; [exact X|exact Ha].
  Qed.

  Lemma sigma_ee_nonrel_array_is : exists a, sigma_ee_nonrel_array k (col gs) (vec Es) = Ok a /\ is_arr [n; m] (fun i => sigma_ee_nonrel k (G i) (E i)) a.
  Proof.
    unfold sigma_ee_nonrel_array, aones.
    step (join_ge (fun g e => 4 * e / (g ^ 2 - 1))).
    step (lift2_is_l F_nr _ _ _ _ _ P HG).
    step (lift2_is_r Rmult _ _ _ _ _ (HEm (fun e => 4 * k / (15 * e))) P0).
    step (join_eg (fun e g => Rleb (1 / 4 * (g ^ 2 - 1)) e)).
    step (assign_scalar_is _ _ _ _ _ 0 P1 P2).
    step (lift2_join Rmult [n; m] _ _ _ _ HG (HEm (fun _ => 1)) (broadcast_col_row n m)).
    destruct (assign_scalar_is _ _ _ _ _ 0 P3 (is_amap (fun v => Rltb v 1) _ _ _ P4)) as (a & X & Ha). exists a. split; [exact X|].
    apply (is_ext _ _ _ _ Ha). intros i _. unfold sigma_ee_nonrel, Rltb, Rleb. rewrite Rmult_1_r.
    destruct (Rlt_dec (G i) 1); [reflexivity|]. destruct (Rle_dec (1 / 4 * (G i ^ 2 - 1)) (E i)); reflexivity.
  Qed.

  Lemma any_false p g : any p gs = false -> (g < n)%nat -> p (nth g gs 0) = false.
  Proof.
    intros H Hg. destruct (p (nth g gs 0)) eqn:X; [|reflexivity].
    assert (existsb p gs = true) by (apply existsb_exists; exists (nth g gs 0); split; [apply nth_In, Hg|exact X]). unfold any in H. congruence.
  Qed.

  Lemma sigma_ee_array_is : exists a, sigma_ee_array k gam_trans gs (col gs) (vec Es) = Ok a /\ is_arr [n; m] (fun i => sigma_ee k gam_trans (G i) (E i)) a.
  Proof.
    unfold sigma_ee_array. destruct (join_ge Rmult) as (z & X & Pz). rewrite X. cbn [omap obind]. clear X.
    pose proof (is_amap (fun _ => 0) _ _ _ Pz) as Z0. pose proof (is_amap (fun _ => 1) _ _ _ Pz) as Z1. fold (azeros z) in Z0. fold (aones z) in Z1.
    step (lift2_is_r Rmult _ _ _ _ _ HG Z1).
    assert (N : exists s, (if any (fun g => Rleb g gam_trans) gs then
             obind (sigma_ee_nonrel_array k (col gs) (vec Es)) (fun s => assign_where (azeros z) (amap (fun v => Rleb v gam_trans) c) s)
           else Ok (azeros z)) = Ok s /\ is_arr [n; m] (fun i => if Rleb (G i) gam_trans then sigma_ee_nonrel k (G i) (E i) else 0) s).
    { destruct (any (fun g => Rleb g gam_trans) gs) eqn:A.
      - step sigma_ee_nonrel_array_is.
        destruct (assign_where_is _ _ _ _ _ _ _ Z0 (is_amap (fun v => Rleb v gam_trans) _ _ _ P) P0) as (a & X & Ha).
        exists a. split; [exact X|]. apply (is_ext _ _ _ _ Ha). intros i _. rewrite Rmult_1_r. reflexivity.
      - exists (azeros z). split; [reflexivity|]. apply (is_ext _ _ _ _ Z0). intros i Hi. apply inb2 in Hi. destruct Hi as (g & j & -> & Hg & _).
        unfold G. cbn [nth]. rewrite (any_false (fun g => Rleb g gam_trans) g A Hg). reflexivity. }
    step N.
    destruct (any (fun g => Rltb gam_trans g) gs) eqn:A.
    - step sigma_ee_rel_array_is.
      destruct (assign_where_is _ _ _ _ _ _ _ P0 (is_amap (fun v => Rltb gam_trans v) _ _ _ P) P1) as (a & X & Ha).
      exists a. split; [exact X|]. apply (is_ext _ _ _ _ Ha). intros i _. rewrite Rmult_1_r. unfold sigma_ee. tests.
    - exists c0. split; [reflexivity|]. apply (is_ext _ _ _ _ P0). intros i Hi. apply inb2 in Hi. destruct Hi as (g & j & -> & Hg & _).
      pose proof (any_false (fun g => Rltb gam_trans g) g A Hg) as Q. unfold sigma_ee, G in *. cbn [nth] in *. revert Q. tests; discriminate.
  Qed.

  Lemma emiss_array_is sigma f : (exists a, sigma (col gs) (vec Es) = Ok a /\ is_arr [n; m] (fun i => f (G i) (E i)) a) ->
    exists r, emiss_array c_cgs (nelec mec2 pd gs) gs sigma (vec Es) = Ok r /\
      is_arr [m] (fun i => c_cgs * strapz (mul2 (nelec mec2 pd gs) (map (fun g => f g (nth (nth 0 i O) Es 0)) gs)) gs) r.
  Proof.
    intros Hs. unfold emiss_array. rewrite avstack_vec by exact gs_ne. cbn [obind].
    rewrite avstack_vec by (unfold nelec; destruct gs; [congruence|discriminate]). cbn [obind].
    step Hs. assert (Ln : List.length (nelec mec2 pd gs) = n) by (unfold nelec; rewrite map_length; reflexivity).
    pose proof (col_col (nelec mec2 pd gs) m) as HN. rewrite Ln in HN.
    step (lift2_is_r Rmult _ _ _ _ _ HN P).
    destruct (axis0_2 c0 gs n m _ P0 eq_refl) as (r & X & Hr). rewrite X. cbn [omap].
    exists (amap (Rmult c_cgs) r). split; [reflexivity|].
    apply (is_ext _ _ _ _ (is_amap (Rmult c_cgs) _ _ _ Hr)). intros i Hi. apply inb1 in Hi. destruct Hi as (j & -> & Hj).
    cbn [hd nth]. do 2 f_equal. unfold G, E. cbn [nth]. apply list_from.
    - rewrite mul2_length; unfold nelec; rewrite !map_length; reflexivity.
    - intros g Hg. rewrite mul2_nth by (rewrite ?Ln, ?map_length; exact Hg).
      match goal with |- _ = _ * nth g (map ?F gs) 0 => rewrite (nth_map_R F) by exact Hg end. reflexivity.
  Qed.

  Lemma brems_array_is n0 w_ee w_ep : w_ee <> 0 -> w_ep <> 0 ->
    exists r l, brems_array k gam_trans c_cgs (nelec mec2 pd gs) gs n0 w_ee w_ep (vec Es) = Ok r /\
      brems_spectrum k gam_trans mec2 c_cgs pd gs n0 w_ee w_ep Es = Ok (Emissivity l) /\ holds_list r l.
  Proof.
    intros W1 W2. unfold brems_array.
    step (emiss_array_is (sigma_ee_array k gam_trans gs) (sigma_ee k gam_trans) sigma_ee_array_is).
    step (emiss_array_is (sigma_1_array k) (sigma_1 k) sigma_1_array_is).
    step (lift2_is Rplus _ _ _ _ _ (is_amap (Rmult w_ee) _ _ _ P) (is_amap (Rmult w_ep) _ _ _ P0)). cbn [omap].
    eexists. eexists. split; [reflexivity|]. unfold brems_spectrum, emiss.
    destruct (Req_EM_T w_ee 0); [contradiction|]. destruct (Req_EM_T w_ep 0); [contradiction|]. cbn [qscale qadd omap]. split; [reflexivity|].
    destruct P1 as [S1 V1]. apply holds_from; cbn [amap ash aval].
    - rewrite S1, map_length. unfold add2. rewrite map_length, combine_length, !map_length. fold m. f_equal. lia.
    - intros j Hj. rewrite map_length in Hj. unfold add2 in *. rewrite map_length, combine_length, !map_length in Hj. fold m in Hj.
      assert (j < m)%nat as Hj' by lia. rewrite V1 by (repeat constructor; exact Hj'). cbn [nth].
      rewrite (nth_map_R (Rmult n0)) by (rewrite map_length, combine_length, !map_length; fold m; lia). f_equal.
      rewrite (nth_map_combine (fun p => fst p + snd p)) by (rewrite !map_length; solve [reflexivity | fold m; lia]). cbn [fst snd].
      rewrite !map_map. unfold sigma_ep.
      do 2 match goal with |- context [nth j (map ?F Es) 0] => rewrite (nth_map_R F) by exact Hj' end. reflexivity.
  Qed.
End BremsArrayProofs.

(** The array Bremsstrahlung computes: at each photon energy the value of the
    model used in the other properties (both weights different from 0). *)
Theorem C115_bremsstrahlung : forall k gam_trans c_cgs mec2 pd gs n0 w_ee w_ep Es,
  gs <> [] -> w_ee <> 0 -> w_ep <> 0 ->
  exists r l, brems_array k gam_trans c_cgs (nelec mec2 pd gs) gs n0 w_ee w_ep (vec Es) = Ok r /\
    brems_spectrum k gam_trans mec2 c_cgs pd gs n0 w_ee w_ep Es = Ok (Emissivity l) /\ holds_list r l.
Proof. intros. apply brems_array_is; assumption. Qed.
