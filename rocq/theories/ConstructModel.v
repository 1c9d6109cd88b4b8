(** Construction of the radiative models: src/naima/radiative.py 61-86 (BaseRadiative),
    139-145 (BaseElectron), 273-280 (Synchrotron), 423-430 (InverseCompton), 821-836
    (Bremsstrahlung), 995-1000 (BaseProton), 1155-1173 (PionDecay), 1573-1592
    (PionDecayKelner06); extern/validator.py 8-52; models.py 445-469 (TableModel as a
    particle distribution). *)
From Coq Require Import Reals List Bool String ZArith.
From Verif Require Import Outcome ElectronModel SeedModel.
Import ListNotations.
Local Open Scope R_scope.

(** Physical type of a unit, as exponents of energy, length, time and magnetic flux
    density (core.py 24-29, validator.py 12). *)
Definition pdim : Type := (Z * Z * Z * Z)%type.
(** comparison of physical types, validator.py 13 *)
Definition pdim_eqb (a b : pdim) : bool :=
  let '(e, l, t, m) := a in let '(e', l', t', m') := b in (Z.eqb e e' && Z.eqb l l' && Z.eqb t t' && Z.eqb m m')%bool.
(** product of units, models.py 469 *)
Definition pdim_mul (a b : pdim) : pdim :=
  let '(e, l, t, m) := a in let '(e', l', t', m') := b in ((e + e')%Z, (l + l')%Z, (t + t')%Z, (m + m')%Z).
(** "energy", radiative.py 1586 *)
Definition p_energy : pdim := (1, 0, 0, 0)%Z.
(** "differential energy", core.py 27 *)
Definition p_diff_energy : pdim := (-1, 0, 0, 0)%Z.
(** "number density", core.py 28 *)
Definition p_density : pdim := (0, -3, 0, 0)%Z.
(** "magnetic flux density", radiative.py 275 *)
Definition p_magnetic : pdim := (0, 0, 0, 1)%Z.

(** Numbers of a value: one, or an array (numpy; validator.py 26-52 accepts both) *)
Inductive payload := PS (x : R) | PA (l : list R).
(** A Python value as validator.py 8-16 sees it: an astropy Quantity of some physical
    type, its numbers in erg, cm, s and G, or something else. *)
Inductive value := VQ (d : pdim) (p : payload) | VBare (p : payload) | VObject.

(** extern/validator.py 8-16 with a string as physical_type *)
Definition validate_physical_type (v : value) (d : pdim) : outcome value :=
  match v with
  | VQ d' _ => if pdim_eqb d' d then Ok v else Err "TypeError"
  | _ => Err "TypeError"
  end.
(** value < 0.0 used as a condition, extern/validator.py 34: an array of several
    elements has no truth value *)
Definition below_zero (p : payload) : outcome bool :=
  match p with
  | PS x | PA [x] => Ok (if Rlt_dec x 0 then true else false)
  | PA [] => Ok false
  | PA _ => Err "ValueError"
  end.
(** extern/validator.py 26-52 with a physical type; [positive]: domain="positive",
    otherwise no domain *)
Definition validate_scalar (v : value) (positive : bool) (d : pdim) : outcome value :=
  obind (validate_physical_type v d) (fun v =>
    if positive then
      match v with
      | VQ _ p => obind (below_zero p) (fun b => if b then Err "ValueError" else Ok v)
      | _ => Err "TypeError"
      end
    else Ok v).

(** A particle distribution: its attribute amplitude (an exception if there is none) and
    what calling it with energies (in erg) does (an exception if it cannot be called).
    radiative.py 68-86 *)
Record pdist := mkPd { pd_amp : outcome value; pd_call : list R -> outcome value }.

(** What an attribute of a radiative model may hold, radiative.py 139-145, 273-280,
    423-430, 821-836, 1163-1173. [ACache]: an empty cache, its order of arrival. *)
Inductive attr :=
| ADist (pd : pdist) | AVal (v : value) | ANum (x : R) | ABool (b : bool) | AStr (s : string)
| ANames (l : list string) | ASeeds (s : list (string * seed)) | ACache.
(** self.__dict__ *)
(** radiative.py 280 *)
Definition obj := list (string * attr).
(** self.__dict__.update(kwargs), radiative.py 280, 430, 836, 1173, 1589 *)
Definition set_all (o : obj) (kw : obj) : obj := fold_left (fun acc kv => dset (fst kv) (snd kv) acc) kw o.

Section Constants.
  (** 1 TeV in erg, m_e c^2 in erg, m_p c^2 in GeV, radiation constant and 1 eV in erg *)
  Variables (TeV mec2 m_p ar eV : R).

  (** validate_physical_type of the output at 0.1, 1 and 10 TeV, radiative.py 80-86 *)
  Definition check_output (pd : pdist) : outcome value :=
    obind (pd_call pd [1 / 10 * TeV; 1 * TeV; 10 * TeV]) (fun v => validate_physical_type v p_diff_energy).
  (** radiative.py 68-86 *)
  Definition check_dist (pd : pdist) : outcome value :=
    match obind (pd_amp pd) (fun v => validate_physical_type v p_diff_energy) with
    | Ok v => Ok v
    | Err e => if (String.eqb e "AttributeError" || String.eqb e "TypeError")%bool then check_output pd else Err e
    end.

  (** radiative.py 139-145 *)
  Definition base_electron (pd : pdist) : outcome obj :=
    omap (fun _ => [("particle_distribution", ADist pd); ("param_names", ANames ["Eemin"; "Eemax"; "nEed"]);
                    ("_memoize", ABool true); ("_cache", ACache); ("_queue", ACache)]%string) (check_dist pd).
  (** radiative.py 995-1000 *)
  Definition base_proton (pd : pdist) : outcome obj :=
    omap (fun _ => [("particle_distribution", ADist pd); ("param_names", ANames ["Epmin"; "Epmax"; "nEpd"]);
                    ("_memoize", ABool true); ("_cache", ACache); ("_queue", ACache)]%string) (check_dist pd).
  (** self.param_names += l, radiative.py 279, 429, 835, 1172 *)
  Definition add_names (l : list string) (o : obj) : obj :=
    match dget "param_names" o with Some (ANames n) => dset "param_names" (ANames (n ++ l)) o | _ => o end.

  (** The class, with its own arguments. radiative.py 273, 423, 821, 1155-1161, 1580-1582 *)
  Inductive spec :=
  | CSynchrotron (B : value)
  | CInverseCompton (seeds : string + list inseed)
  | CBremsstrahlung (n0 : value)
  | CPionDecay (nh : value) (nuclear_enhancement : bool)
  | CKelner06 (nh Etrans : value).

  (** radiative.py 273-280 *)
  Definition new_synchrotron (pd : pdist) (B : value) (kw : obj) : outcome obj :=
    obind (base_electron pd) (fun o =>
    obind (validate_scalar B false p_magnetic) (fun B =>
    Ok (set_all (add_names ["B"%string]
         (o ++ [("B", AVal B); ("Eemin", AVal (VQ p_energy (PS (TeV / 1000))));
                ("Eemax", AVal (VQ p_energy (PS (10 ^ 9 * mec2)))); ("nEed", ANum 100)]%string)) kw))).
  (** radiative.py 423-430 *)
  Definition new_ic (pd : pdist) (seeds : string + list inseed) (kw : obj) : outcome obj :=
    obind (base_electron pd) (fun o =>
    obind (match seeds with inl s => process_string ar eV s | inr l => process_list ar eV l end) (fun ss =>
    Ok (set_all (add_names ["seed_photon_fields"%string]
         (o ++ [("seed_photon_fields", ASeeds ss); ("Eemin", AVal (VQ p_energy (PS (TeV / 1000))));
                ("Eemax", AVal (VQ p_energy (PS (10 ^ 9 * mec2)))); ("nEed", ANum 100)]%string)) kw))).
  (** abundances of H and He, radiative.py 828-833 *)
  Definition abundances : list R := let N := 1 + 959 / 10000 in [1 / N; 959 / 10000 / N].
  (** np.sum(Z * X), np.sum(Z**2 * X), radiative.py 829-834 *)
  Definition weight (p : nat) : R := fold_right Rplus 0 (map (fun zx => fst zx ^ p * snd zx) (combine [1; 2] abundances)).
  (** radiative.py 821-836 *)
  Definition new_bremsstrahlung (pd : pdist) (n0 : value) (kw : obj) : outcome obj :=
    obind (base_electron pd) (fun o =>
    Ok (set_all (add_names ["n0"; "weight_ee"; "weight_ep"]%string
         (o ++ [("n0", AVal n0); ("Eemin", AVal (VQ p_energy (PS (TeV / 10000))));
                ("Eemax", AVal (VQ p_energy (PS (10 ^ 9 * mec2)))); ("nEed", ANum 300);
                ("weight_ee", ANum (weight 1)); ("weight_ep", ANum (weight 2))]%string)) kw)).
  (** radiative.py 1155-1173, 1213 *)
  Definition new_pion (pd : pdist) (nh : value) (ne : bool) (kw : obj) : outcome obj :=
    obind (base_proton pd) (fun o =>
    obind (validate_scalar nh false p_density) (fun nh =>
    Ok (set_all (add_names ["nh"; "nuclear_enhancement"; "useLUT"; "hiEmodel"]%string
         (o ++ [("nh", AVal nh); ("nuclear_enhancement", ABool ne); ("useLUT", ABool true); ("hiEmodel", AStr "Pythia8");
                ("Epmin", AVal (VQ p_energy (PS ((m_p + 27966184 / 10 ^ 8 + 1 / 10 ^ 4) * (TeV / 1000)))));
                ("Epmax", AVal (VQ p_energy (PS (10 * (1000 * TeV))))); ("nEpd", ANum 100)]%string)) kw))).
  (** radiative.py 1580-1589: no check of the distribution; param_names and the cache are
      those of the class (1574-1578) *)
  Definition new_kelner (pd : pdist) (nh Etrans : value) (kw : obj) : outcome obj :=
    obind (validate_scalar nh false p_density) (fun nh =>
    obind (validate_scalar Etrans true p_energy) (fun Etrans =>
    Ok (set_all [("particle_distribution", ADist pd); ("nh", AVal nh); ("Etrans", AVal Etrans)]%string kw))).

  (** Class(particle_distribution, ...), radiative.py 273-280, 423-430, 821-836,
      1155-1173, 1580-1589. [kw]: the keyword arguments that are not named in the
      signature. *)
  Definition new (pd : pdist) (c : spec) (kw : obj) : outcome obj :=
    match c with
    | CSynchrotron B => new_synchrotron pd B kw
    | CInverseCompton s => new_ic pd s kw
    | CBremsstrahlung n0 => new_bremsstrahlung pd n0 kw
    | CPionDecay nh ne => new_pion pd nh ne kw
    | CKelner06 nh Etrans => new_kelner pd nh Etrans kw
    end.
End Constants.

(** self.param_names: the object's, or that of the class PionDecayKelner06; radiative.py
    141, 279, 429, 835, 997, 1172, 1574 *)
Definition names_of (c : spec) (o : obj) : list string :=
  match dget "param_names" o with
  | Some (ANames l) => l
  | Some _ => []
  | None => match c with CKelner06 _ _ => ["nh"; "Etrans"]%string | _ => [] end
  end.
(** [getattr(self, p) for p in param_names], model_utils.py 46-54 *)
Definition key_values (c : spec) (o : obj) : outcome (list attr) :=
  mapM (fun p => match dget p o with Some a => Ok a | None => Err "AttributeError" end) (names_of c o).

(** pd(energies).to(1/energy).value: radiative.py 156-160, 1011-1015, 1050-1051,
    1591-1592 *)
Definition particle_numbers (o : obj) (es : list R) : outcome payload :=
  match dget "particle_distribution" o with
  | Some (ADist pd) =>
      obind (pd_call pd es) (fun v =>
        match v with
        | VQ d p => if pdim_eqb d p_diff_energy then Ok p else Err "UnitConversionError"
        | _ => Err "AttributeError"
        end)
  | Some _ => Err "TypeError"
  | None => Err "AttributeError"
  end.

(** models.py 445-469: TableModel(energy, values, amplitude) with values in units [du];
    [interp]: the interpolated numbers *)
Definition scale_payload (x : R) (l : list R) : payload := PA (map (Rmult x) l).
(** models.py 466-469 *)
Definition table_dist (interp : list R -> list R) (du : pdim) (ad : option pdim) (a : R) : pdist :=
  mkPd (Ok (match ad with Some d => VQ d (PS a) | None => VBare (PS a) end))
       (fun es => Ok (VQ (match ad with Some d => pdim_mul d du | None => du end) (scale_payload a (interp es)))).
