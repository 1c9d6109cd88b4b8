# Formal model of zblz/naima in Rocq (Coq 8.16.1)

All files are in `rocq/theories/` (logical name `Verif`). For each area `X` there is

* `XModel.v`  - total Gallina functions transcribed from the Python, each with a
  comment citing file and lines in /repo and every simplification made;
* `XSpec.v` (where needed) - the independent vocabulary used by statements;
* `XProofs.v` - lemmas;
* `XProps*.v`  - the theorems named `Cnn_...` (nn = id in properties.jsonl), an
  `Example` next to each showing its hypotheses are met by a concrete
  non-trivial case, and `Print Assumptions`.

Suffixes: `_partial` - a restricted form of the property (the full statement stays in
properties.jsonl, what is missing is in MANIFEST.json); `_refuted` - the model of the code
violates the property: a concrete history or input, or a whole class of them.

## Trusted base

* The kernel of Coq 8.16.1 (`coqc`; no `vm_compute`/`native_compute` bypass, no plugin, no
  kernel check switched off).
* Axioms: only those of the standard library's real numbers and logic. `Print Assumptions`
  of every theorem in MANIFEST.json is listed in `ASSUMPTIONS.md` (generated by
  `tools/assumptions.py` from the compiled files). Every theorem uses a subset of
  - `ClassicalDedekindReals.sig_forall_dec`, `ClassicalDedekindReals.sig_not_dec`
    (construction of R in the standard library),
  - `FunctionalExtensionality.functional_extensionality_dep`,
  - `Classical_Prop.classic` (through Coquelicot / Flocq-free parts of Reals: derivatives,
    integrals, `Rpower` lemmas).
  Theorems about the cache, tables of files, options and histories use none. No axiom, no
  section-less `Variable`/`Hypothesis`, no `Admitted`, no module type or functor is ours.
* The transcription. That a Gallina definition says what the cited Python lines do is by
  reading; nothing was executed. Comments next to each definition cite file and lines and
  every simplification. `seeded/LOG.jsonl` records the edits of the model (realistic bugs)
  tried against the theorems.
* Contracts of external code, always explicit hypotheses of the theorem that uses them and
  shown to be satisfiable by an `Example`: `numpy.argsort` sorts, `scipy` interpolation
  passes through its nodes, `scipy.integrate.quad` of a non-negative function is
  non-negative, `scipy.stats.norm.cdf` is monotone, `round` is to nearest, sha256 is
  injective on the tokens of the history considered, `str()` of numbers as stated.

## Modelling decisions

* Numbers. Numeric code is modelled over the real numbers `R`; IEEE rounding is
  modelled only in FloatModel (C116), overflow and NaN are not, except where the code's behaviour on
  inf/NaN is the subject (log-prior, simplex ordering, trapz zero handling, pion
  threshold), where the exceptional values are explicit constructors. `a ** b` for real
  exponents is `Rpower` (meaningful for a > 0).
* Discrete code (cache, tables, saved files, fitter, seed parsing, minimiser, plots)
  is modelled as executable functions on lists, strings, option/outcome types;
  Python exceptions are values (`Err "ValueError"`).
* External functions (sha256, str(), argsort, user model functions, special
  functions, file readers) are universally quantified parameters with their
  contract as an explicit hypothesis.
* Units: a unit is (positive scale, dimension exponents in Z); a quantity is
  value x unit; `to` multiplies by the ratio of scales or fails.
* When the code violates a property a user would rely on we prove `_refuted`
  together with the strongest restricted theorem we could find; the manifest
  status is then `partial` and the note starts with "Refuted" or says so. Where the
  violated clause can be stated by itself, it is a property of its own (C125 and later),
  so that the remaining one is exactly what holds, with its domain in its statement.

## Plan per property (what is modelled / how proved)

| ids | code modelled | files | method |
|---|---|---|---|
| C01-C07 | `model_utils.memoize` as a state machine over (cache, queue, object attributes); token = concatenation of rendered parts | Memo* | invariants by induction on histories; refutations by concrete histories |
| C08-C10 | `InverseCompton.flux/sed` with the `specic` attribute and cache | ICFlux* | state machine; induction on seeds |
| C11-C16 | `utils.trapz_loglog` on lists of R | Trapz* | induction on the grid, `is_RInt` (Coquelicot) for the exact integral |
| C17-C20, C32, C62, C65 | `BaseRadiative.flux/sed`, `BaseElectron`/`BaseProton` grids and energy content | Energy*, FluxModel, Radiative* | algebra over R using C13 |
| C21-C24, C66-C68, C96 | synchrotron and inverse Compton spectra as trapz integrals of kernels | Electron* | positivity of kernels + C14; case analysis; scaling algebra |
| C25, C97 | `InverseCompton._process_input_seed` | SeedModel, ElectronProps* | insertion-ordered dict; induction on the seed list |
| C26-C29, C69, C70, C99 | `PionDecay` (Kafexhiu et al) cross sections, LUT state, class-level list; `PionDecayKelner06` | Pion*, BremsProps (C70) | real inequalities, state machines, interleavings |
| C30, C31, C71, C98 | `Bremsstrahlung` | Brems* | units-aware addition, real inequalities |
| C33-C37, C63, C64, C95 | `models.py` | Spectral* | Rpower algebra, limits, interpolation contract |
| C38-C45, C72-C74, C84 | `core.py` | Core*, FitterProps | sums over rows, ordered extended reals, sampler life cycle |
| C46-C48, C100 | `extern/minimize.py` Nelder-Mead | Simplex* | loop invariants over any objective |
| C49-C54, C75-C78 | `utils.py`, `extern/validator.py` | Units*, Data* | list permutations/sortedness, real inequalities |
| C55-C59, C79-C82 | `analysis.py`, sampling part of `plot.py` | Analysis* | record/file-system models, list lemmas, percentiles |
| C60, C83 | `model_fitter.py` | Fitter* | event state machine invariants |
| C61, C85, C86, C101 | `sherpa_models.py` | Sherpa* | list model on top of trapz |
| C87, C108 | `plot._latex_value_error` | Report*, PlotModel2, PlotProps3 | real inequalities on powers of ten |
| C88-C94 | residuals, data points, option dictionaries, diagnostic files, samples, blob formats of `plot.py`/`analysis.py` | PlotModel, PlotProps, 2, 6 | list and dictionary lemmas |
| C102-C107, C109 | bands, printed lines, axis limits, decisions of `plot_fit`, `plot_corner`, `plot_data` | PlotModel2, PlotProps4, 5 | case analysis, list lemmas |
| C110 | log-log trapezoid, grids, kernels as already modelled | ConvProofs, ConvProps, ConvProps2, ConvPion, ConvProps3 | Riemann sums (Coquelicot), piecewise continuity of the kernels, log-slope bounds |
| C111 | as C110 | SuperProofs, SuperProps, SuperProps2 | weighted AM-GM: the power law through two points is super-additive in its ordinates |
| C112 | array shapes, numpy broadcasting, the shape side of every spectrum and of the cache | ShapeModel, ShapeProps | computation on symbolic lengths; invariant over request histories |
| C113 | all unit conversions of the radiative models on (value, unit size) pairs | UnitFluxModel, UnitFluxProps | refinement to the cgs models, homogeneity of the log-log rule |
| C114 | `_validate_ene`, start of the cache wrapper, flux/sed/__call__ on all forms of argument | EneModel, EneProps | case analysis |
| C115 | the array expressions themselves: broadcasting, slices, masks, axis sums, compress/scatter; every spectrum on a 1-d array, `trapz_loglog` in any dimension | VecModel, VecModel2, VecProofs, VecProps, VecProps2, VecProps3 | refinement: array result = map of the pointwise model |
| C116 | binary64 operations (Flocq) in the likelihood, flux/SED assembly, SED conversion, spectral models, synchrotron function; np.sum in any order | FloatModel, FloatProofs, FloatProps, FloatProps2 | relative errors on a log scale: products, powers and same-sign sums |
| C117 | utils.trapz_loglog in binary64, both branches, sum in any order | FloatTrapzModel, FloatTrapzProofs, FloatTrapzProps | backward/forward error analysis against the Riemann integral |
| C118 | lookup-table generation, file, loading (node checks, clamping, nan), use in the pion spectrum | LutModel, LutProps | node-wise equality through log10/10**; clamping refutes the edges |
| C119 | discretisation error of trapz_loglog, compute_We, compute_Wp and the synchrotron spectrum, alone and with rounding | ErrProofs, ErrProps, ErrProps2 | chord estimate for ln f in ln x (mean value theorem), curvature of the built-in distributions and of the synchrotron function |
| C120 | get_sampler, _run_mcmc, run_sampler as one program with emcee as an arbitrary move | FlowModel, FlowProps | inversion of the program, induction over the steps (trajectory as an inductive relation) |
| C121 | metadata dictionary as an association list, numpy/plain values as an inductive type, directory as a partial function, composed with save_results_table | MetaModel, MetaProps | invariants of dictionary update, case analysis of failures, negative theorems for the defects |
| C122 | the constructors as programs over attribute dictionaries; a particle distribution is an arbitrary amplitude attribute and an arbitrary call | ConstructModel, ConstructProps | inversion of the programs, dictionary lemmas, exact arithmetic for the defaults |
| C123 | the four Sherpa models: declared parameters, particle distribution, flux through the radiative models, photons per bin, guess | SherpaFluxModel, SherpaFluxProps | unfolding to the radiative spectra; linearity and locality lemmas of C18, C21, C23, C61; defects as refutations |
| C124 | blobs, best fit, samples, recomputed curves, lines and axes of the plots of a fit, with units | CurveModel, CurveProps | argmax lemma of C40, unit conversion of C50, induction over samples; defects as refutations |
| C125 (C22), C126 (C25), C127 (C26), C128 (C37), C129 (C41), C130 (C50), C131 (C54), C132 (C55), C133 (C58), C134 (C60), C135 (C61), C136 (C87, C108), C137 (C91), C138 (C103), C139 (C111), C140 (C112), C141 (C114), C142 (C118), C143 (C120), C144 (C121), C145 (C122), C146 (C123), C147 (C124) | the clause of the property in brackets that the code does not keep, as a property of its own | as for the property in brackets | counterexample theorems (whole classes of inputs where possible), restricted positive theorems where there are any |
| C148, C149, C150, C151, C152, C153 | the five emission processes against the published formulas, written a second time from the physics | PubSpec, PubProps to PubProps6, on PionModel, SyncModel, ICModel, BremsModel | algebraic equality of the two forms, derivatives, the convergence theorems of C110 |
| C154, C155 | evaluation in a pool of processes with their own memory, any schedule; model functions that keep or build their objects | ParModel, ParProps | invariant of the memories reached, induction over schedule and steps; C03 confusion as refutation |
| C156, C157 | tables to likelihood: output of validate_data_table read by the model function and lnprobmodel | EndModel, EndProps | composition of C49, C52, C42, C39; sums over permutations |
| C158 | nan samples in the logarithmic integration | PionModel (ntrapz), NanProps | induction over the samples, exact condition |
| C159, C160 | samples of either sign; upper limits and negative fluxes in estimate_B (values are doubles with nan and inf) | BremsModel (strapz), DataModel, DataProps3, DataProps5 | bin-wise bounds, induction over the tables |
| C161 | seed fields of negative energy: what the constructor accepts and what the spectrum is then | SeedModel, ElectronModel (aa_kernel with the nan mask), SeedProps | sign of the kernel for negative seed energies, integrated over the grid |
| C162 | is the bremsstrahlung flux a number: formulas on reals extended by infinities and nan | XBremsModel, XBremsProps | equality with the real model away from the singular energies, propagation of nan at them |
| C163 | storage of the outputs with the chain (object arrays of emcee) and what the plots read of it | StoreModel, StoreProps | case analysis on the sizes of the outputs of a batch; composition with C124 |
| C164 | value of the broken power laws at the break | SpectralModel, SpectralProps3 | exact condition for equality with the amplitude |
| C165 | FitRadModel: the model function of a fit as a sum of sed/flux of radiative models in any units. FitRadProps: composition of C113, C156 and C157; specification `emits` and `SED` in cgs amounts. |
| C166 | ReadModel: the object array made by read_run. ReadProps: composition of save_run, read_run, find_ML and save_results_table for every storable run; idempotence of saving and reading. |
| C167 | ViewModel: model_fitter.py 57-186 and 239-256 with units. ViewProps: the line of plot.py (C124) and the likelihood of tables (C156) composed; induction over the updates. |
| C168 | ViewModel: x limits, labels, columns passed. ViewProps: bounds for sorted data; fluxes passed to the model; refuted for wide inner bins, the caller's list and further columns. |
| C169 | SignProofs: concave functions of ln x, chords, integrals. SignProps: trapz_loglog against RInt for spectra above or below their log-log chords; concavity of each distribution and of the synchrotron function (second derivative: a polynomial with positive coefficients). |
| C170 | PowerProofs: substitution x = c^3, derivatives and bounds, midpoint sums in fixed-point arithmetic by vm_compute. PowerProps: the integral of the kernel over photon energies against the classical power. |
| C171 | ThomsonProofs: the kernel in the variable q, its primitives, elementary bounds. ThomsonProps: number and energy integrals over scattered photon energies against the Thomson rate. |
| C172 | IntervalProofs: verified fixed-point interval arithmetic. PlanckProofs: a loop over a geometric grid enclosing the integral of x G34(x), its invariant, and the computed verdict. PlanckProps: bounds for the tails, change of variable, constants; the power against the classical rate. |
| C173 | FubiniProofs: exchange of two Riemann integrals of a continuous function of two variables. LumProps: limit spectrum of C150 summed over photon energies, exchanged with the sum over electrons, and C170 for each electron. LumProps2: the same for thermal inverse Compton: joint continuity of the kernel, C172 extended to all photon energies. |
| C174 | InputModel: kinds of Python objects as far as validate_data_table and plot_data distinguish them. InputProps: cases; refutations for dicts and iterators. |
| C175 | RatioProps: from the two parts of C173. |
| C176 | SlopeProps: slope of the emissivity function by its derivative, compared kernel by kernel, and the monotonicity up to slack of the integration rule (SuperProofs). |
| C177 | AccProps: split of the code's grid where the integrand is negligible and increasing; C119 beyond, rectangle bounds below; numerical constants for the default grid. |
| C178 | HeatProps: the fitted functions of the black-body kernels decrease, the kernels compare electron by electron, and the integration rule is monotone up to slack (SuperProofs). |
| C179 | KnProps: kernel bounded below next to the photon energy (logarithmic integral), above by that of infinitely hot photons. ThomProps: second derivative of the logarithm of the kernel, split of the grid where the integrand is negligible, as for C177. |

## Not modelled

* floating point overflow and underflow, and rounding outside C116 and C117 (except the inf/nan cases named above);
* matplotlib rendering and widget internals (only what is handed to matplotlib), emcee's
  proposal and acceptance (a run is any array of samples), the autocorrelation time;
* the bytes of HDF5/ECSV files (a file is the record of what h5py stores), the numpy object
  array assembled in `read_run` line 575;
* multiprocessing scheduling (only the pool's open/closed state and, for C70, interleavings
  of evaluations);
* the numbers in the shipped tables (EBL, pion lookup tables) and the values of spline interpolants between their nodes;
* logging and warning texts, `_latex_float`, doc strings, `setup_package.py`, `__init__.py`.
