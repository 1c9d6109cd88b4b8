(** C112: the result has the shape of the request. *)
From Coq Require Import String List Arith Bool Lia.
From Verif Require Import Outcome MemoModel ShapeModel.
Import ListNotations.
Local Open Scope string_scope.

Lemma bdim_same : forall a, bdim a a = Ok a.
Proof. intro a. unfold bdim. now rewrite Nat.eqb_refl. Qed.
Lemma bdim_1l : forall a, bdim 1 a = Ok a.
Proof. intro a. unfold bdim. destruct (Nat.eqb_spec 1 a); [now subst|reflexivity]. Qed.
Lemma bdim_1r : forall a, bdim a 1 = Ok a.
Proof.
  intro a. unfold bdim. destruct (Nat.eqb_spec a 1); [now subst|reflexivity].
Qed.

Lemma brev_same : forall s, brev s s = Ok s.
Proof.
  induction s as [|a s IH]; cbn; [reflexivity|].
  rewrite bdim_same. cbn. rewrite IH. reflexivity.
Qed.
Lemma broadcast_same : forall s, broadcast s s = Ok s.
Proof. intro s. unfold broadcast. rewrite brev_same. cbn. now rewrite rev_involutive. Qed.

Lemma vstack_1 : forall m, (1 <= m)%nat -> vstack [m] = Ok [m; 1].
Proof. intros [|m] H; [lia|reflexivity]. Qed.

Ltac bc := unfold broadcast; cbn [rev app brev obind omap];
  rewrite ?bdim_same, ?bdim_1l, ?bdim_1r; cbn [rev app brev obind omap];
  rewrite ?bdim_same, ?bdim_1l, ?bdim_1r; cbn [rev app brev obind omap];
  rewrite ?bdim_same, ?bdim_1l, ?bdim_1r; cbn [rev app brev obind omap]; try reflexivity.

Lemma b_m_n1 : forall m n, broadcast [m] [n; 1] = Ok [n; m].
Proof. intros. bc. Qed.
Lemma b_n1_m : forall m n, broadcast [n; 1] [m] = Ok [n; m].
Proof. intros. bc. Qed.
Lemma b_m_nm : forall m n, broadcast [m] [n; m] = Ok [n; m].
Proof. intros. bc. Qed.
Lemma b_n1_nm : forall m n, broadcast [n; 1] [n; m] = Ok [n; m].
Proof. intros. bc. Qed.
Lemma b_nm_m : forall m n, broadcast [n; m] [m] = Ok [n; m].
Proof. intros. bc. Qed.
Lemma b_m1_n : forall m n, broadcast [m; 1] [n] = Ok [m; n].
Proof. intros. bc. Qed.

Lemma trapz0_ok : forall n r, trapz0 n (n :: r) = Ok r.
Proof. intros. cbn. now rewrite bdim_same. Qed.
Lemma trapz_last_2 : forall m n, trapz_last n [m; n] = Ok [m].
Proof. intros. unfold trapz_last. cbn. now rewrite bdim_same. Qed.
Lemma trapz_last_1 : forall n, trapz_last n [n] = Ok [].
Proof. intros. unfold trapz_last. cbn. now rewrite bdim_same. Qed.

Lemma sy_1d : forall n m, (1 <= n)%nat -> sy_shape n [m] = Ok [m].
Proof.
  intros n m H. unfold sy_shape. rewrite vstack_1 by assumption. cbn [obind].
  rewrite b_m_n1. cbn [obind]. rewrite b_m_nm. cbn [obind]. rewrite b_n1_nm. cbn [obind].
  apply trapz0_ok.
Qed.

Lemma brems_1d : forall n m, (1 <= n)%nat -> brems_shape n [m] = Ok [m].
Proof.
  intros n m H. unfold brems_shape. rewrite vstack_1 by assumption. cbn [obind].
  rewrite b_n1_m. cbn [obind]. rewrite b_n1_nm. cbn [obind]. rewrite trapz0_ok. cbn [obind].
  apply broadcast_same.
Qed.

Definition seed_ok (sd : seed_kind) : Prop :=
  match sd with Array p => (1 <= p)%nat | _ => True end.

Lemma specic_tail : forall m n gam,
  gam = [m; n] \/ (gam = [n] /\ m = 1%nat) ->
  obind (broadcast [n] gam) (fun y =>
  obind (trapz_last n y) (fun t =>
  obind (broadcast [m] t) (fun lum => broadcast lum [m]))) = Ok [m].
Proof.
  intros m n gam [->|[-> ->]].
  - rewrite b_m_nm. cbn [obind]. rewrite trapz_last_2. cbn [obind].
    rewrite broadcast_same. cbn [obind]. apply broadcast_same.
  - rewrite broadcast_same. cbn [obind]. rewrite trapz_last_1. cbn [obind].
    reflexivity.
Qed.

Lemma squeeze_1mn : forall m n, (2 <= n)%nat ->
  squeeze [1; m; n] = if (m =? 1)%nat then [n] else [m; n].
Proof.
  intros m n Hn. unfold squeeze. cbn [filter negb Nat.eqb].
  assert (E : (n =? 1)%nat = false) by (apply Nat.eqb_neq; lia).
  rewrite E. cbn [negb]. destruct (m =? 1)%nat; reflexivity.
Qed.

Lemma b_w_b : forall m n p, broadcast [m; n] [p; 1; n] = Ok [p; m; n].
Proof. intros. bc. Qed.
Lemma b_p11_n : forall n p, broadcast [p; 1; 1] [n] = Ok [p; 1; n].
Proof. intros. bc. Qed.

Lemma mono_1d : forall p n m, (1 <= p)%nat -> (2 <= n)%nat ->
  exists g, mono_shape p n [m] = Ok g /\ (g = [m; n] \/ (g = [n] /\ m = 1%nat)).
Proof.
  intros p n m Hp Hn. unfold mono_shape. cbn [newaxis1 obind].
  rewrite b_p11_n. cbn [obind]. rewrite b_m1_n. cbn [obind]. rewrite b_w_b. cbn [obind].
  destruct (Nat.ltb_spec 1 p).
  - rewrite trapz0_ok. cbn [obind]. rewrite b_nm_m. exists [m; n]. split; [reflexivity|now left].
  - assert (p = 1%nat) by lia. subst p. rewrite squeeze_1mn by assumption. cbn [obind].
    destruct (Nat.eqb_spec m 1).
    + subst m. rewrite broadcast_same. eexists; split; [reflexivity|right; now split].
    + rewrite b_nm_m. eexists; split; [reflexivity|now left].
Qed.

Lemma specic_1d : forall n sd m, (2 <= n)%nat -> (1 <= m)%nat -> seed_ok sd ->
  specic_shape n sd [m] = Ok [m].
Proof.
  intros n sd m Hn Hm Hsd. unfold specic_shape. destruct sd as [| |p].
  - unfold iso_shape. rewrite vstack_1 by assumption. cbn [obind]. rewrite b_m1_n. cbn [obind].
    apply specic_tail. now left.
  - unfold ani_shape. cbn [newaxis1 obind]. rewrite b_m1_n. cbn [obind].
    apply specic_tail. now left.
  - destruct (mono_1d p n m Hsd Hn) as [g [E Hg]]. rewrite E. cbn [obind].
    now apply specic_tail.
Qed.

Lemma ic_1d : forall n seeds m, (2 <= n)%nat -> (1 <= m)%nat -> seeds <> [] ->
  List.Forall seed_ok seeds -> ic_shape n seeds [m] = Ok [m].
Proof.
  intros n seeds m Hn Hm Hne Hs. unfold ic_shape.
  assert (E : mapM (fun sd => specic_shape n sd [m]) seeds = Ok (map (fun _ => [m]) seeds)).
  { clear Hne. induction Hs as [|sd r H Hr IH]; cbn; [reflexivity|].
    rewrite (specic_1d n sd m) by assumption. cbn. rewrite IH. reflexivity. }
  rewrite E. cbn [obind]. destruct seeds as [|sd r]; [congruence|]. cbn [map].
  replace (forallb _ _) with true; [reflexivity|].
  symmetry. apply forallb_forall. intros t Ht. apply in_map_iff in Ht.
  destruct Ht as [x [<- _]]. destruct (list_eq_dec Nat.eq_dec [m] [m]); congruence.
Qed.

(** A model as a user can set it up: a particle energy grid of at least two
    points (the code uses at least ten), at least one seed photon field, and no empty
    array of seed energies. *)
Definition usable (m : rmodel) : Prop :=
  match m with
  | Synchrotron n | Bremsstrahlung n => (2 <= n)%nat
  | InverseCompton n seeds => (2 <= n)%nat /\ seeds <> [] /\ List.Forall seed_ok seeds
  | PionDecay | PionDecayKelner06 => True
  end.

(** A one-dimensional array of one or more energies gives an array of the same
    length, for every model, both for the flux and for the spectral energy
    distribution. *)
Theorem C112_array : forall m k, usable m -> (1 <= k)%nat ->
  flux_shape m [k] = Some (Ok [k]) /\ sed_shape m [k] = Some (Ok [k]).
Proof.
  intros m k Hm Hk.
  assert (F : flux_shape m [k] = Some (Ok [k])).
  { destruct m; cbn [usable] in Hm; unfold flux_shape; cbn [spectrum_shape].
    - rewrite sy_1d by lia. reflexivity.
    - destruct Hm as [Hn [Hne Hs]]. rewrite ic_1d by assumption. reflexivity.
    - rewrite brems_1d by lia. reflexivity.
    - destruct k; [lia|reflexivity].
    - reflexivity. }
  split; [exact F|]. unfold sed_shape. rewrite F. cbn [option_map obind].
  now rewrite broadcast_same.
Qed.

Example C112_example :
  flux_shape (InverseCompton 602 [ThermalIso; Array 1; ThermalAni; Array 50]) [1] = Some (Ok [1]) /\
  sed_shape (Synchrotron 602) [25] = Some (Ok [25]).
Proof. vm_compute. now split. Qed.

(** Documented: "Quantity float or array".  A float photon energy makes inverse
    Compton and both pion-decay models fail, whatever their set-up; synchrotron
    and bremsstrahlung return an array of one element in place of a float. *)
Theorem C140_float_refuted : forall n, (2 <= n)%nat ->
  (forall seeds, seeds <> [] -> exists e,
     flux_shape (InverseCompton n seeds) [] = Some (Err e) /\
     sed_shape (InverseCompton n seeds) [] = Some (Err e)) /\
  flux_shape PionDecay [] = Some (Err "TypeError") /\
  sed_shape PionDecay [] = Some (Err "TypeError") /\
  flux_shape PionDecayKelner06 [] = Some (Err "TypeError") /\
  sed_shape PionDecayKelner06 [] = Some (Err "TypeError") /\
  flux_shape (Synchrotron n) [] = Some (Ok [1]) /\ sed_shape (Synchrotron n) [] = Some (Ok [1]) /\
  flux_shape (Bremsstrahlung n) [] = Some (Ok [1]) /\ sed_shape (Bremsstrahlung n) [] = Some (Ok [1]).
Proof.
  intros n Hn. split; [|split; [|split; [|split; [|split; [|split; [|split; [|split]]]]]]];
    try reflexivity.
  - intros seeds Hne. destruct seeds as [|sd r]; [congruence|].
    unfold sed_shape, flux_shape. cbn [spectrum_shape]. unfold ic_shape. cbn [mapM].
    destruct sd; cbn; eexists; split; reflexivity.
  - unfold flux_shape. cbn [spectrum_shape]. unfold sy_shape. rewrite vstack_1 by lia. cbn [obind].
    change (broadcast [] [n; 1]) with (@Ok shape [n; 1]). cbn [obind].
    change (broadcast [] [n; 1]) with (@Ok shape [n; 1]). cbn [obind].
    rewrite broadcast_same. cbn [obind]. now rewrite trapz0_ok.
  - unfold sed_shape, flux_shape. cbn [spectrum_shape]. unfold sy_shape. rewrite vstack_1 by lia. cbn [obind].
    change (broadcast [] [n; 1]) with (@Ok shape [n; 1]). cbn [obind].
    change (broadcast [] [n; 1]) with (@Ok shape [n; 1]). cbn [obind].
    rewrite broadcast_same. cbn [obind]. now rewrite trapz0_ok.
  - unfold flux_shape. cbn [spectrum_shape]. unfold brems_shape. rewrite vstack_1 by lia. cbn [obind].
    change (broadcast [n; 1] []) with (@Ok shape [n; 1]). cbn [obind].
    rewrite broadcast_same. cbn [obind]. rewrite trapz0_ok. reflexivity.
  - unfold sed_shape, flux_shape. cbn [spectrum_shape]. unfold brems_shape. rewrite vstack_1 by lia. cbn [obind].
    change (broadcast [n; 1] []) with (@Ok shape [n; 1]). cbn [obind].
    rewrite broadcast_same. cbn [obind]. rewrite trapz0_ok. reflexivity.
Qed.

(** An empty array of energies gives an empty result for synchrotron,
    bremsstrahlung and the Kelner model, and an error for isotropic thermal
    seeds and for PionDecay. *)
Theorem C140_empty_partial : forall n, (2 <= n)%nat ->
  flux_shape (Synchrotron n) [0] = Some (Ok [0]) /\
  flux_shape (Bremsstrahlung n) [0] = Some (Ok [0]) /\
  flux_shape PionDecayKelner06 [0] = Some (Ok [0]).
Proof.
  intros n Hn. unfold flux_shape. cbn [spectrum_shape].
  rewrite sy_1d, brems_1d by lia. now repeat split.
Qed.
Theorem C140_empty_refuted : forall n seeds, In ThermalIso seeds ->
  (exists e, flux_shape (InverseCompton n seeds) [0] = Some (Err e)) /\
  flux_shape PionDecay [0] = Some (Err "UnitConversionError").
Proof.
  intros n seeds Hin. split; [|reflexivity].
  unfold flux_shape. cbn [spectrum_shape]. unfold ic_shape.
  assert (E : exists e, mapM (fun sd => specic_shape n sd [0]) seeds = Err e).
  { induction seeds as [|sd r IH]; [destruct Hin|]. cbn [mapM].
    destruct Hin as [->|Hin].
    - cbn. eexists; reflexivity.
    - destruct (specic_shape n sd [0]); cbn [obind]; [|eexists; reflexivity].
      destruct (IH Hin) as [e He]. rewrite He. cbn. eexists; reflexivity. }
  destruct E as [e He]. exists e. rewrite He. reflexivity.
Qed.

(** Two-dimensional arrays are not treated elementwise.  Synchrotron, shape
    (a, b): with a = 1 the leading axis is lost; with a equal to the number of
    grid points the rows are mixed with the electron energies and an array of b
    numbers comes back; every other a fails. *)
Theorem C140_two_dimensional_refuted : forall n a b, (2 <= n)%nat ->
  (a = 1%nat \/ a = n -> flux_shape (Synchrotron n) [a; b] = Some (Ok [b])) /\
  (a <> 1%nat -> a <> n -> flux_shape (Synchrotron n) [a; b] = Some (Err "ValueError")).
Proof.
  intros n a b Hn. unfold flux_shape. cbn [spectrum_shape]. unfold sy_shape.
  rewrite vstack_1 by lia. cbn [obind]. split.
  - intros [->| ->].
    + replace (broadcast [1; b] [n; 1]) with (@Ok shape [n; b]) by (symmetry; bc). cbn [obind].
      replace (broadcast [1; b] [n; b]) with (@Ok shape [n; b]) by (symmetry; bc). cbn [obind].
      rewrite b_n1_nm. cbn [obind]. now rewrite trapz0_ok.
    + replace (broadcast [n; b] [n; 1]) with (@Ok shape [n; b]) by (symmetry; bc). cbn [obind].
      rewrite broadcast_same. cbn [obind]. rewrite b_n1_nm. cbn [obind]. now rewrite trapz0_ok.
  - intros Ha1 Han. unfold broadcast at 1. cbn [rev app brev obind omap]. rewrite bdim_1r.
    cbn [obind]. unfold bdim.
    assert (E1 : (a =? n)%nat = false) by now apply Nat.eqb_neq.
    assert (E2 : (a =? 1)%nat = false) by now apply Nat.eqb_neq.
    assert (E3 : (n =? 1)%nat = false) by (apply Nat.eqb_neq; lia).
    rewrite E1, E2, E3. reflexivity.
Qed.

(** Inverse Compton scattering of isotropic thermal photons, requested for a column of
    energies (or a block of columns): one copy of all values for every energy. *)
Theorem C140_column_refuted : forall n a b, (2 <= n)%nat -> (1 <= a)%nat -> (1 <= b)%nat ->
  flux_shape (InverseCompton n [ThermalIso]) [a; 1] = Some (Ok [a; a]) /\
  flux_shape (InverseCompton n [ThermalIso]) [a; b; 1] = Some (Ok [a; b; a * b])%nat.
Proof.
  intros n a b Hn Ha Hb. unfold flux_shape. cbn [spectrum_shape]. unfold ic_shape. cbn [mapM obind]. unfold specic_shape, iso_shape.
  destruct a as [|a]; [lia|]. cbn [vstack obind]. generalize (S a) as a'. intros a'. split.
  - rewrite b_m1_n. cbn [obind]. replace (broadcast [n] [a'; n]) with (@Ok shape [a'; n]) by (symmetry; bc). cbn [obind].
    rewrite trapz_last_2. cbn [obind]. rewrite b_n1_m. cbn [obind].
    replace (broadcast [a'; a'] [a'; 1]) with (@Ok shape [a'; a']) by (symmetry; bc). reflexivity.
  - generalize (a' * b)%nat as m. intros m. rewrite b_m1_n. cbn [obind]. replace (broadcast [n] [m; n]) with (@Ok shape [m; n]) by (symmetry; bc). cbn [obind].
    rewrite trapz_last_2. cbn [obind]. replace (broadcast [a'; b; 1] [m]) with (@Ok shape [a'; b; m]) by (symmetry; bc). cbn [obind].
    replace (broadcast [a'; b; m] [a'; b; 1]) with (@Ok shape [a'; b; m]) by (symmetry; bc). reflexivity.
Qed.

(** From a given direction the shape is right, and so the two kinds of seed photons
    together fail. *)
Theorem C140_column_seeds_refuted : forall n a, (2 <= n)%nat -> (2 <= a)%nat ->
  flux_shape (InverseCompton n [ThermalAni]) [a; 1] = Some (Ok [a; 1]) /\
  exists e, flux_shape (InverseCompton n [ThermalIso; ThermalAni]) [a; 1] = Some (Err e).
Proof.
  intros n a Hn Ha.
  assert (I : specic_shape n ThermalIso [a; 1] = Ok [a; a]).
  { unfold specic_shape, iso_shape. destruct a as [|a]; [lia|]. cbn [vstack obind]. generalize (S a). intros a'.
    rewrite b_m1_n. cbn [obind]. replace (broadcast [n] [a'; n]) with (@Ok shape [a'; n]) by (symmetry; bc). cbn [obind].
    rewrite trapz_last_2. cbn [obind]. rewrite b_n1_m. cbn [obind]. bc. }
  assert (D : specic_shape n ThermalAni [a; 1] = Ok [a; 1]).
  { unfold specic_shape, ani_shape. cbn [newaxis1 obind].
    replace (broadcast [a; 1; 1] [n]) with (@Ok shape [a; 1; n]) by (symmetry; bc). cbn [obind].
    replace (broadcast [n] [a; 1; n]) with (@Ok shape [a; 1; n]) by (symmetry; bc). cbn [obind].
    unfold trapz_last. cbn [rev app]. rewrite bdim_same. cbn [obind rev app]. rewrite broadcast_same. cbn [obind]. apply broadcast_same. }
  unfold flux_shape. cbn [spectrum_shape]. unfold ic_shape. cbn [mapM obind]. rewrite I, D. cbn [obind mapM forallb]. split; [reflexivity|].
  destruct (list_eq_dec Nat.eq_dec [a; a] [a; 1]) as [E|E]; [injection E; lia|]. eexists. reflexivity.
Qed.

(** The shape returned depends on the history: a pion-decay request for a float
    fails on a fresh object, but succeeds, with an array of one element, when the
    same energy was asked as an array of one element just before (the two have
    the same bytes, hence the same cache entry). *)
Theorem C140_cache_refuted : forall key bytes,
  snd (cached_flux_shape key PionDecay empty_cache bytes []) = Err "TypeError" /\
  let c := fst (cached_flux_shape key PionDecay empty_cache bytes [1]) in
  snd (cached_flux_shape key PionDecay c bytes []) = Ok [1].
Proof.
  intros key bytes. split; [reflexivity|].
  unfold cached_flux_shape. cbn. rewrite String.eqb_refl. reflexivity.
Qed.

(** In general, for every model and every two shapes the request for the second
    shape, right after a successful one of the first shape with the same bytes,
    returns an array of the first shape. *)
Theorem C112_cached_shape_wins : forall key m bytes s1 s2 r1 r2,
  flux_shape m s1 = Some (Ok r1) -> flux_shape m s2 = Some r2 ->
  let c := fst (cached_flux_shape key m empty_cache bytes s1) in
  snd (cached_flux_shape key m c bytes s2) = Ok r1.
Proof.
  intros key m bytes s1 s2 r1 r2 H1 H2. unfold cached_flux_shape. rewrite H1, H2. cbn.
  rewrite String.eqb_refl. reflexivity.
Qed.

(** With requests of one or more energies in one-dimensional arrays only, what
    the cache returns has the shape of the request whatever happened before, as
    long as arrays of different lengths have different keys (they have different
    numbers of bytes). *)
Theorem C112_cache_array : forall key m (reqs : list (string * nat)),
  usable m ->
  List.Forall (fun q => (1 <= snd q)%nat) reqs ->
  (forall q q', In q reqs -> In q' reqs -> key (fst q) = key (fst q') -> snd q = snd q') ->
  let step := fun acc q =>
    let '(c, out) := acc in
    let '(c', o) := cached_flux_shape key m c (fst q) [snd q] in (c', (out ++ [o])%list) in
  snd (fold_left step reqs (empty_cache, [])) = map (fun q => Ok [snd q]) reqs.
Proof.
  intros key m reqs Hm Hpos Hkey step.
  (* invariant: the entries are keys of earlier requests with their shapes *)
  assert (G : forall done todo c out,
    (forall q q', In q (done ++ todo)%list -> In q' (done ++ todo)%list ->
        key (fst q) = key (fst q') -> snd q = snd q') ->
    List.Forall (fun q => (1 <= snd q)%nat) todo ->
    (forall k v, In (k, v) (entries c) -> exists q, In q done /\ key (fst q) = k /\ v = [snd q]) ->
    snd (fold_left step todo (c, out)) = (out ++ map (fun q => Ok [snd q]) todo)%list).
  { intros done todo. revert done. induction todo as [|q todo IH]; intros done c out Hk Hp Hinv.
    - cbn. now rewrite app_nil_r.
    - inversion_clear Hp as [|? ? Hq Hp'].
      cbn [fold_left map].
      pose proof (proj1 (C112_array m (snd q) Hm Hq)) as HF.
      assert (S : exists c', step (c, out) q = (c', (out ++ [Ok [snd q]])%list) /\
        (forall k v, In (k, v) (entries c') ->
           exists q', In q' (done ++ [q])%list /\ key (fst q') = k /\ v = [snd q'])).
      { unfold step, cached_flux_shape. rewrite HF. unfold memoized. unfold shape in *.
        destruct (dget (key (fst q)) (entries c)) as [v|] eqn:Ed.
        - exists c. split.
          + assert (Hin : In (key (fst q), v) (entries c)).
            { clear -Ed. induction (entries c) as [|[k' v'] l IHl]; cbn in *; [discriminate|].
              destruct (String.eqb_spec (key (fst q)) k').
              - inversion Ed. subst. now left.
              - right. now apply IHl. }
            destruct (Hinv _ _ Hin) as [q' [Hq' [Hk' ->]]].
            assert (Es : snd q' = snd q).
            { apply Hk; [| |exact Hk'].
              * apply in_or_app. now left.
              * apply in_or_app. right. now left. }
            cbn. now rewrite Es.
          + intros k w Hw. destruct (Hinv _ _ Hw) as [q' [H1 H2]]. exists q'.
            split; [apply in_or_app; now left|exact H2].
        - exists (store (key (fst q)) [snd q] c). split; [reflexivity|].
          intros k w Hw. unfold store in Hw. cbn [entries] in Hw.
          assert (Hset : forall l, In (k, w) (dset (key (fst q)) [snd q] l) ->
                    In (k, w) l \/ (k = key (fst q) /\ w = [snd q])).
          { induction l as [|[k' v'] l IHl]; cbn.
            - intros [E|[]]. inversion E. now right.
            - destruct (String.eqb_spec (key (fst q)) k').
              + intros [E|E]; [inversion E; subst; now right|left; now right].
              + intros [E|E]; [left; now left|]. destruct (IHl E); [left; now right|now right]. }
          destruct (Hset _ Hw) as [Hin|[-> ->]].
          + assert (Hc : In (k, w) (entries c)).
            { unfold evict in Hin. destruct (16 <? _)%nat; [|exact Hin].
              destruct (queue c) as [|k0 qq]; [exact Hin|]. cbn [entries] in Hin.
              clear -Hin. induction (entries c) as [|[k' v'] l IHl]; cbn in *; [exact Hin|].
              destruct (String.eqb k0 k'); [now right|].
              destruct Hin as [H|H]; [now left|right; now apply IHl]. }
            destruct (Hinv _ _ Hc) as [q' [H1 H2]]. exists q'.
            split; [apply in_or_app; now left|exact H2].
          + exists q. split; [apply in_or_app; right; now left|]. now split. }
      destruct S as [c' [-> Hinv']].
      rewrite (IH (done ++ [q])%list c').
      + now rewrite <- app_assoc.
      + rewrite <- app_assoc. exact Hk.
      + exact Hp'.
      + exact Hinv'. }
  apply (G [] reqs empty_cache []).
  - exact Hkey.
  - exact Hpos.
  - intros k v [].
Qed.

Example C112_cache_example :
  usable (Synchrotron 602) /\
  (forall q q', In q [("ab", 2%nat); ("a", 1%nat); ("ab", 2%nat)] ->
     In q' [("ab", 2%nat); ("a", 1%nat); ("ab", 2%nat)] -> fst q = fst q' -> snd q = snd q').
Proof.
  split; [cbn; lia|].
  intros q q' [<-|[<-|[<-|[]]]] [<-|[<-|[<-|[]]]]; cbn; congruence.
Qed.
