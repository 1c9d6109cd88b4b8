notes={
'C01':('partial', 'Transparency of the cache for any history, under the hypothesis that the rendered parts form a prefix/suffix-delimited injective token (not true of the real rendering, see C03); unconditional when the cache is disabled; C01_memo_transparent_refuted: as stated it fails whenever the method tells apart the parameter sets of C03.'),
'C02':('partial', 'Refuted (code defect): distance=0 and an omitted distance render to the same cache key parts, so a cached answer for one is served for the other; proved for explicit distances.'),
'C03':('partial', 'Refuted (code defect): two ExponentialCutoffPowerLaw parameter sets concatenate to the same cache token; proved when rendered parts are delimited.'),
'C04':('proved', 'Any history: at most the bound of entries, first-in first-out.'),
'C05':('partial', 'Refuted (code defect): particle-distribution attributes outside param_names do not enter the key; proved for declared parameters.'),
'C06':('partial', 'Refuted (code defect): the cached array is returned by reference, so in-place modification by the caller corrupts later answers; proved for callers that never modify results.'),
'C07':('partial', 'Instance-level caches are isolated (proved); refuted for classes with a class-level cache (spectral models, PionDecayKelner06).'),
'C08':('partial', 'Refuted (code defect): flux(seed=i) served from specic left over by another call; proved when the preceding computation is for the same energies.'),
'C09':('proved', 'For every list of seeds and energies.'),
'C10':('partial', 'Refuted (code defect): negative seed indices are accepted; proved for non-negative indices and names.'),
'C11':('proved', 'Riemann integral (Coquelicot is_RInt) on every grid; index -1 or outside the 1e-10 window (C12 covers the window).'),
'C12':('proved', ''),
'C13':('proved', ''),
'C14':('proved', 'Bounds also inside the index window, for abscissa ratios below exp(1e9), which every pair of doubles satisfies.'),
'C15':('proved', ''),
'C16':('proved', 'IEEE special values modelled explicitly; rounding is not.'),
'C17':('proved', 'For electrons and protons, bounds given or omitted, and for every distribution positive on the range and proportional to its amplitude (proved of all naima spectral models).'),
'C18':('proved', 'Synchrotron, Inverse Compton, pion decay (Kafexhiu), bremsstrahlung and energy content.'),
'C19':('proved', 'All radiative models; for inverse Compton the total and each seed.'),
'C20':('proved', 'Including Inverse Compton with a selected seed.'),
'C21':('proved', 'Synchrotron, IC, pion decay from the kinematic threshold on (below it see C26), Kelner pion decay. For positive B, positive temperatures and anisotropic angles with cos<1, increasing seed arrays; what happens otherwise is C66-C68. Bremsstrahlung is C71.'),
'C22':('proved', 'Bremsstrahlung for weights other than zero (C30). PionDecayKelner06 is C125.'),
'C23':('proved', ''),
'C24':('proved', ''),
'C25':('proved', 'Two fields of the same name are C126.'),
'C26':('proved', 'What a proton grid that starts below the threshold does is C127.'),
'C27':('proved', 'For every proton energy and photon energy, and for the spectrum.'),
'C28':('proved', ''),
'C29':('proved', 'After any history of settings and calls.'),
'C30':('partial', 'Refuted (code defect): a zero weight, documented as the way to switch a component off, always raises a unit conversion error; proved for non-zero weights.'),
'C31':('partial', 'Proved away from the endpoint: electron-electron cross section positive if 2 gamma (gamma-eps)/eps >= sqrt(e). Refuted near the endpoint (code defect): it is negative there; the sign of the electron-ion cross section is characterised.'),
'C32':('proved', ''),
'C33':('proved', ''),
'C34':('proved', ''),
'C35':('proved', ''),
'C36':('proved', 'Interpolation by an external function satisfying the interpolation property (SciPy cubic or linear).'),
'C37':('proved', 'The cubic interpolation is external: assumed to pass through its nodes (C37_tabulated) and to be 0 for zero nodes (C37_nearby). Beyond 100 TeV see C128 and C63.'),
'C38':('proved', 'Non-zero errors.'),
'C39':('partial', 'Refuted (code defect): the confidence level is indexed by the number of violated limits, so limits of different level are charged with the level of an unrelated row, and a table of only violated limits raises IndexError; proved for a common level.'),
'C40':('partial', 'The value is proved. Refuted (code defect): the model function is called for excluded parameters as well, and its exception escapes.'),
'C41':('proved', 'The values of normal_prior and log_uniform_prior are C129.'),
'C42':('proved', 'Model and data in any units of matching physical type; everything else is an error.'),
'C43':('partial', 'Only a normalisation parameter changes, and the flux matches afterwards (proved). Refuted (code defect) for labels such as Log(norm): recognised in any case, but treated as linear.'),
'C44':('partial', 'Relative offsets proved; refuted (code defect) for parameters starting at 0: all walkers share coordinate 0.'),
'C45':('partial', 'Likelihood never worse and forbidden results discarded (proved); refuted for the log-probability including the prior.'),
'C46':('partial', 'Any objective including nan: never worse than any starting vertex; without nan the least of all evaluations and fun=f(x). Refuted (code defect): with a nan vertex the reported fun is nan.'),
'C47':('proved', 'Termination, iteration and evaluation budgets, status characterised by the tolerances.'),
'C48':('partial', 'Refuted (code defect): from integer arrays with entries below 20 the simplex collapses and success is reported at once whatever the objective; proved for exact storage.'),
'C49':('proved', 'numpy.argsort is a parameter with its contract (index permutation, sorted). All columns, all units; rows stay together.'),
'C50':('proved', 'The differential number density is C130.'),
'C51':('proved', 'Common edges are geometric means; groups independent. At least two energies per group (one energy gives a bin of zero width).'),
'C52':('proved', 'Exact characterisation for any list of non-empty tables.'),
'C53':('proved', 'Value, scaling laws, common-scale invariance, for data fluxes of either sign; a negative ratio gives nan, a zero luminosity inf or nan.'),
'C54':('proved', 'nan and the domain of arrays are C131.'),
'C55':('proved', 'run_info entries named like the attributes naima stores itself are excluded. Other blobs are C132. Not modelled: unit conversion between samples, the HDF5 and table formats; the numpy object array of read_run is added in C166.'),
'C56':('proved', 'File names with a non-empty stem.'),
'C57':('proved', 'Log-probabilities without nan (emcee rejects nan). Includes the uncertainties and the BIC reported.'),
'C58':('proved', 'For at most one label per parameter, each plain or log(x) or log10(x); the rest is C133.'),
'C59':('proved', 'For any monotone distribution function in place of scipy.stats.norm.cdf.'),
'C60':('proved', 'Exceptions, fits that stop at the limit of evaluations and moves with auto-update off are C134.'),
'C61':('proved', 'Bins with gaps and evaluation at points are C135.'),
'C62':('partial', 'Refuted (code defect): amplitudes are rescaled in place, so distributions sharing the Quantity change too; proved for unshared amplitudes and for an explicit amplitude name.'),
'C63':('partial', 'Characterised: above 100 TeV the transmission is not higher than at 100 TeV exactly if the optical depth there is at most log10(6000). Refuted in general (code defect).'),
'C64':('partial', 'Proved for tables that follow a power law (interpolation assumed to reproduce straight lines). Refuted in general: the cubic spline in log-log overshoots.'),
'C65':('partial', 'Proved for bounds in increasing order. Refuted (code defect): reversed bounds give a negative energy content and set_We makes the amplitude negative.'),
'C66':('partial', 'Proved for thermal seeds: the angle given is the one in the kernel. Refuted (code defect): the angle of a non-thermal seed is accepted and ignored.'),
'C67':('partial', 'Proved for increasing seed energies. Refuted (code defect): decreasing seed energies are accepted and give a non-positive spectrum for every particle distribution.'),
'C68':('partial', 'Proved for positive B: exponential cutoff at the critical energy. Refuted (code defect): negative B is accepted and gives a spectrum with exp(+E/Ec) instead of exp(-E/Ec).'),
'C69':('partial', 'Refuted (code defect): a missing table switches useLUT off for good, also for models whose table exists; proved when all tables exist.'),
'C70':('partial', 'Refuted (code defect): _F_mp is a class-level list mutated during the evaluation, an interleaving mixes the parameters of two evaluations; proved for any number of evaluations one after the other in any order.'),
'C71':('partial', 'Proved at every photon energy with no electron energy of the grid in the 0.45 MeV just above it (in particular below half the lowest electron energy). Refuted in general (code defect): electrons just above the photon energy give a negative flux.'),
'C72':('partial', 'Refuted (code defect): p0 is rescaled in place and labels extended in place.'),
'C73':('proved', 'Given labels and generated ones.'),
'C74':('partial', 'Refuted (code defects): the first run closes the pool the sampler keeps using, so a second run fails whenever more than one thread is used; zero steps raise UnboundLocalError. Proved for one thread.'),
'C75':('partial', 'Proved for tables listed by increasing energy. Refuted (code defect): edges are generated before sorting; rows listed by decreasing energy get negative widths.'),
'C76':('partial', 'Valid levels are accepted and used. Refuted (code defect): any number including nan is, too.'),
'C77':('partial', 'Tables of the same kind: C53. Refuted (code defect): .decompose().value drops the unit.'),
'C78':('partial', 'Content and acceptance proved. Refuted (code defect): one-sided energy edges are dropped silently.'),
'C79':('partial', 'What is refused leaves all files unchanged. Refuted (code defect): the file is truncated before the blobs are checked.'),
'C80':('proved', ''),
'C81':('proved', ''),
'C82':('partial', 'Proved when at most 99 samples are needed. Refuted in general (code defect): min(100, ...) caps the number at 100 and makes the warning unreachable.'),
'C83':('partial', 'Proved for log labels, non-negative plain parameters and indices within [-5,5]. Refuted (code defect) otherwise: reversed ranges and clipping move the slider.'),
'C84':('partial', 'Proved without the interactive window. Refuted (code defect) with it: its fit ignores the prior and is not repeated.'),
'C85':('partial', 'Refuted (code defect): unknown keywords are stored and ignored (the Sherpa inverse Compton wrapper itself passes Eed for nEed). Known keywords proved.'),
'C86':('proved', 'Positive amplitude and integrals.'),
'C87':('proved', 'Zeros are C136.'),
'C88':('partial', 'Model at the energies of the table; which energies count as equal; a model at other energies is interpolated at all detections (C88_interpolated_partial). Refuted (code defect): the absolute tolerance of np.allclose compares X-ray energies given in TeV as if equal.'),
'C89':('partial', 'Proved for positive fluxes with at least one detection not compatible with zero. Refuted (code defects): a negative flux, an energy bin that does not contain its energy, or all detections compatible with zero, raise ValueError.'),
'C90':('partial', 'Proved without elinewidth in errorbar_opts. Refuted (code defect): elinewidth is stored in the mutable default ulim_opts, and in the dictionary of the caller.'),
'C91':('proved', 'Colliding names and other arguments are C137.'),
'C92':('partial', 'Proved when no exception is raised; refuted (code defect) otherwise.'),
'C93':('partial', 'Count and origin of the curves proved. Refuted (code defect): at most 100 different ones with e_range.'),
'C94':('partial', 'Refuted (code defects): arrays of other sizes give UnboundLocalError; a scalar is taken for a spectrum with a single data point. The rest proved.'),
'C95':('proved', 'All seven spectral models with energy parameters.'),
'C96':('proved', "The electron grid is scaled along (the code's grid is the same function of the bounds)."),
'C97':('proved', 'Seed lists entry by entry; the splitting of strings is C25.'),
'C98':('proved', 'Photon energies above 4 m_e c^2 for the whole spectrum; the cross sections separately for all.'),
'C99':('proved', ''),
'C100':('proved', ''),
'C101':('partial', 'Seed fields, and the distance for d > 0 proved. Refuted (code defect): distance 0 lies within the declared limits (min=0) and raises UnitConversionError.'),
'C102':('partial', 'Levels between 1/3 and 6 sigma proved. Refuted (code defects): a level below 0.3 or above 6.1 is a ValueError (grey level out of range); the list of the caller is sorted in place.'),
'C103':('proved', 'With last_step the results table itself is wrong (C133).'),
'C104':('partial', 'Bins with positive edges proved, and the grid of recomputed models. Refuted: a bin reaching below zero, which data tables may have, makes the plot fail.'),
'C105':('partial', 'With the model function. Refuted (code defect): without it every plot of a model raises TypeError, because the reloaded run has no attribute blobs and plot_fit recomputes.'),
'C106':('partial', 'Successful calls and missing package. Refuted (code defect): any other exception leaves the line width at 0.7 for good.'),
'C107':('partial', 'All decisions proved; external drawing not modelled. Refuted: the documented meaning of n_samples=None.'),
'C108':('proved', 'Zeros are C136.'),
'C109':('partial', 'Explicit unit, or labels that can be read back. Refuted (code defect), given that astropy does not parse LaTeX: the second set is drawn at its own numbers.'),
'C110':('proved', 'Convergence for any Riemann-integrable non-negative integrand and any refinement; for continuous distributions the integrability of the synchrotron, thermal IC and pion-decay integrands is proved; explicit relative error for energy contents, instantiated for power laws and cutoff power laws. Bremsstrahlung not covered (its cross sections can be negative, C31); monochromatic seeds under the integrability hypothesis only.'),
'C111':('proved', 'Exact additivity on a finite grid is C139.'),
'C112':('proved', 'Other shapes are C140. Through the cache: provided that the keys of requests of different lengths differ.'),
'C113':('proved', 'Every conversion of the code is modelled where it happens; the results equal those of the cgs models of the other files for the amounts given (agreement theorems), bremsstrahlung for non-zero weights (see C30). Quadrature of the Kelner model is external.'),
'C114':('proved', 'The remaining combinations are C141.'),
'C115':('proved', 'The numpy expressions (broadcasting, slices, masks, axis sums, vstack, squeeze) are modelled on arrays and shown equal to the pointwise models used everywhere else; so this is also the justification of those models. Non-empty arrays for the isotropic kernel (np.vstack of nothing raises, C115_empty); bremsstrahlung with weights other than 0 (C30). Long runs of operations that are all elementwise on the same broadcast are lifted together.'),
'C116':('proved', 'Doubles are Flocq FLX reals (53 bits, nearest even): no overflow or underflow, C116_underflow relates them to IEEE binary64. pow, exp, log, cbrt within 1 ulp is a hypothesis, satisfiable (C116_libm). The upper-limit penalty needs confidence levels of at least 1/2 (then 1 - cl is exact). trapz_loglog is C117. The IC and pion kernels, which subtract nearly equal numbers, are not bounded.'),
'C117':('proved', 'Binary64 as in C116 (no overflow or underflow). The exact value compared with is the Riemann integral of the power law through the two samples. The bound next to index -1 is about 4e-3 for 100 points per decade: the subtraction x2 (x2/x1)^b - x1 loses up to ten digits there.'),
'C118':('proved', 'The spline is external and assumed only to pass through its nodes: nothing is said about its values between them (it can overshoot below zero). Energies outside the table are C142.'),
'C119':('proved', 'Strengthens C110 (first order / convergence). Kinks (broken power laws) are not twice differentiable: C110 applies to them. The synchrotron coefficient grows with E/Ec(Emin): for photons far above the critical energy of the least energetic electrons the bound is weak although the part of the integral concerned is negligible.'),
'C120':('proved', 'emcee is an unknown move of the whole ensemble (universally quantified). Samplers without position, failing runs and the guess flag are C143.'),
'C121':('proved', 'astropy Table.write is an atomic write of one file. What does not hold is C144.'),
'C122':('proved', 'What is not checked is C145. The defaults are those of the docstrings except the points per decade of InverseCompton (C145).'),
'C123':('proved', "For distances other than 0; bremsstrahlung can be negative by itself (C31, C71). Sherpa's own cache, its parameter limits in guess and the printout of verbose are not modelled. Parameters at their limits are C146."),
'C124':('proved', 'The run without blobs (find_ML 685-693) is not modelled, because core.lnprob always stores some; matplotlib is its input and output. Which outputs are stored as returned (the hypothesis [fitted]) is C163. What does not hold is C147.'),
'C125':('partial', 'Proved for requests on one side of the transition energy. Refuted (code defect): a request that spans the transition energy rescales the low-energy part by a matching factor that a separate request of the low energy does not apply.'),
'C126':('partial', 'Refuted (code defect): the second silently replaces the first.'),
'C127':('partial', 'Refuted (code defect): the whole spectrum is nan.'),
'C128':('partial', 'Proved up to 100 TeV (C37_nearby). Refuted (code defect): above 100 TeV the transmission of a source at redshift 0 is below 1/8.'),
'C129':('partial', 'Refuted (code defects): normal_prior is a Gaussian only for sigma=1, and never normalised; log_uniform_prior returns 1/value instead of its logarithm.'),
'C130':('partial', 'Refuted (code defect): the announced unit is inconsistent and the conversion always fails.'),
'C131':('partial', 'Refuted (code defects): nan passes every domain; validate_array ignores the domain, so tables with negative energies are accepted.'),
'C132':('partial', 'Refuted (code defects): a blob of another kind hides all later ones; tuples of three arrays lose the third, tuples of one array or of scalars never come back; blobs beyond the hundredth are lost.'),
'C133':('partial', 'Refuted (code defects): last_step takes the history of the last walker instead of the last step; a label containing log( elsewhere than at the start fails or repeats an earlier distribution; more labels than parameters raise IndexError.'),
'C134':('partial', 'Refuted (code defects): a fit stopped at the evaluation limit changes the parameters but neither sliders nor display; moves made with auto-update off stay undisplayed after it is switched on; an exception in the model after a fit leaves auto-update off, and a failing fit keeps an old flag for slider positions never fitted.'),
'C135':('partial', 'Refuted (code defects): gaps between bins are integrated too; point evaluation returns the model times the energy.'),
'C136':('partial', 'Refuted (code defects): an upper error of zero prints the lower one for both; a zero median or lower error raises OverflowError.'),
'C137':('partial', "Refuted (code defects): log10(B) and B share a file; too few sed flags drop models silently; a string label for several models is taken letter by letter or raises; the caller's label list is extended."),
'C138':('partial', 'Refuted (code defect): a chain whose median is 0 or equals the 16th percentile raises OverflowError; C103 has the exact condition.'),
'C139':('partial', 'Refuted: the log-log rule makes the content of the sum of two power laws strictly larger than the sum of contents, and inside the 1e-10 window round index -1 more particles can mean (by 1e-10) less energy.'),
'C140':('partial', 'Refuted (code defects): a float, documented, makes inverse Compton and pion decay raise and gives a one-element array for synchrotron and bremsstrahlung; an empty array makes isotropic inverse Compton and PionDecay raise (proved for the others); two-dimensional arrays lose an axis, gain one or raise; through the cache the shape returned can be that of an earlier request with the same values.'),
'C141':('partial', 'Refuted (code defects): flux with its default cache raises KeyError for a missing column and AttributeError for anything that is not a Quantity or table, including lists of quantities that sed accepts; InverseCompton.sed of one seed raises TypeError for a table; a dict with a scalar energy is accepted or not depending on the cache setting.'),
'C142':('partial', 'Refuted (code defects): above the highest tabulated photon energy (1 PeV in the shipped table, which is used by default) the spectrum is constant for ever and so violates the kinematic limit; below the lowest photon or proton node values are likewise those of the edge; one tabulated proton energy between the proton mass and the pion threshold turns the whole table into nan.'),
'C143':('partial', 'Refuted (code defects): run_sampler(sampler=s) without pos ignores s; a run that raises (second run with several threads because the pool is closed, or nrun=0) has already erased the chain and set run_info["n_run"]; run_info["guess"] is True when no normalisation was guessed. With sampler and position: C120_given_sampler.'),
'C144':('partial', "Refuted (code defects), each of the five: a run_info entry named like one of the table's own replaces it; one numpy string in run_info makes saving in the default format fail; with last_step n_samples is the number of steps, not of walkers; the default file is outname_results.ecsv; blobs in different units are mixed under the unit of one."),
'C145':('partial', 'Refuted (code defects), each: a distribution with an amplitude per unit energy is accepted whatever it returns (a TableModel with units on values and amplitude: every calculation fails later); PionDecayKelner06 checks no distribution; Bremsstrahlung checks no density; negative or array magnetic fields and densities are accepted; keyword settings are not checked; InverseCompton uses 100 points per decade where 300 are documented.'),
'C146':('partial', 'Refuted (code defects): a distance of 0 and a bremsstrahlung weight of 0 are within the declared limits and raise; the inverse Compton model has no photon at or above 100 TeV because electrons above are ignored, whatever the cutoff.'),
'C147':('partial', 'Refuted (code defects): the samples are drawn at the energies of the first walker of the last step; a model function that uses any other column of the data works in the fit but raises with e_range; without a point above the bottom of the axis, plot_fit raises.'),
'C148':('proved', 'PubSpec.v writes the cross section from the kinematics (energy, momentum and invariant mass) and the published tables, independently of the model; equality above threshold, limit of the trapezoid for the spectrum. The lookup table is C05/C34.'),
'C149':('proved', 'The photons per collision are stated as the derivative of the published potential. quad is any rule that looks only inside its interval (scipy is not modelled).'),
'C150':('proved', 'Fine-structure and cyclotron constants from the electron charge, mass, c and hbar; the asymptotic coefficient is 0.2 per cent below pi/2.'),
'C151':('proved', 'The two hard-coded constants are within 1e-6 of 2 r_e^2 c/(pi lambda_C^3) and k_B/(m_e c^2).'),
'C152':('proved', 'The hard-coded sigma_T c is within 1e-6 of the value from r_e.'),
'C153':('proved', 'At eps equal to the electron energy the code gives -inf (excluded). The limit is for electrons above 2 MeV and photons of at most half the lowest electron energy, where no cross section is negative (the log-log rule skips negative ones).'),
'C154':('proved', 'Induction over schedules (any interleaving of any assignment of tasks to workers) and over the steps of the chain. emcee is any function of the random state and of the values; an evaluation that raises ends the run and is not considered.'),
'C155':('partial', 'Proved when no two calls share a cache entry without having the same value (C01-C05 say when) and when caching is off. Refuted (code defect): parameter sets that C03 confuses give other values on two processes than on one.'),
'C156':('proved', 'Composition of validation (C49, C52), unit handling (C42) and likelihood (C38, C39). Restricted as in the quantifier: mixed confidence levels and tables of violated limits only are the defect recorded as C39.'),
'C157':('proved', 'Corollary of C156 for permuted measurements.'),
'C158':('partial', 'The exact condition is proved. Refuted (code defect): a nan at the last sample, or before a zero, is not noticed; its bin is integrated as if the function fell like 1/x.'),
'C159':('partial', 'Bounds and sign proved for all signs (abscissa ratios below exp(1e9)). Refuted (code defect): between samples of opposite sign the second one is not used.'),
'C160':('partial', 'Refuted (code defect): estimate_B never looks at the upper-limit flags, the estimate is the same with and without them.'),
'C161':('partial', 'Refused: negative temperatures and densities of black bodies and lines; a zero density in any unit means a full black body (C161_zero_partial). Refuted (code defect): validate_array ignores its domain, so negative line energies, and negative energies and densities of spectra, are accepted; a line of negative energy gives no photons below the electron energies and a negative number above them.'),
'C162':('partial', 'A number, and the value of the real model, for photon energies other than half the electron rest energy and the electron energies of the grid. Refuted (code defect) at those: at exactly m_e c^2/2 the e-e cross section is 0*log(0)=nan, and at a photon energy equal to a grid electron energy (other than the last) the e-p cross section is -inf and the integral nan.'),
'C163':('partial', 'Proved for a single array and for outputs of different sizes or with a scalar among them. Refuted (code defect): several arrays of one length and nothing else, or a tuple of one array, become a block of numbers without unit (numpy object array made by emcee) that no plot accepts (of one value each: one bare number per value, C163_numbers_refuted); core.py 110-112 guards only the single array. numpy and emcee are modelled from their documentation.'),
'C164':('partial', 'Refuted (documentation and code disagree): at the break the value is the amplitude exactly if the break is the reference energy or the first index is zero, and never for the model with cutoff in these cases. It is the value at the reference energy when that lies below the break.'),
'C165':('proved', "C165_likelihood, C165_same_physics and C165_same_parameters compose C113 (radiative models in any units), C156/C157 (tables to likelihood) and the model function of a fit (FitRadModel). `emits m L` says that L(E) is the number of photons per erg and second computed from the cgs amounts; for PionDecay it asks that the spectrum be a number (not nan) at positive energies. Limits of several confidence levels are violated only as in C156 (the code's treatment is C50's)."),
'C166':('proved', 'C166_reload adds the numpy object array of read_run (line 575) to C55; hypothesis `kept`: not all blobs are sequences of one length (emcee keeps units only then, C163). C166_same_results, C166_again. A float blob comes back as a dimensionless Quantity, hence with an entry for its unit in the metadata: same units claimed without float blobs. The run_info of a reloaded run also has the entries naima stored itself (acceptance_fraction, labels), so the metadata copied from run_info are more; which of them are kept is C55.'),
'C167':('proved', "C167_curve, C167_likelihood (equal to the sum of C156), C167_without_data, C167_session (no hypothesis on the model function beyond the updates not raising), C167_updates_work. Modelled: model_fitter.py 13-19, 57-186, 239-256; the drawing itself is matplotlib's, the rounding of the text to one decimal is not modelled. Equality of energies is of reals."),
'C168':('partial', 'Proved: all energies of data and curve are on the axis with a factor 3 to spare for data in order of energy (as validate_data_table leaves them) with bins that do not reach zero (C168_axis_partial); what a model function reading the fluxes sees is the data, or zeros in the documented units (C168_fluxes_partial); labels given are kept and the missing ones are par<i> (C168_labels_partial). Refuted: a wide bin of a row other than the first can extend left of the axis (C168_bins_refuted); a list of labels that is too short is extended in place (C168_caller_refuted); a model function that reads other columns of the data raises in the fitter although it can be fitted (C168_columns_refuted).'),
'C169':('proved', 'C169_integral (any spectrum and grid), C169_energy_content, C169_distributions (curvature of the built-in distributions), C169_lower_bounds, C169_set_energy, C169_synchrotron (the synchrotron function of radiative.py 300-311 itself bends down). In exact arithmetic; the factor step^1e-10 is the window round index -1. C169_example_strict: the error is really one-sided (ln 4 against 2 on a two-point grid).'),
'C170':('proved', 'C170_power: the exact integral over photon energies of energy times the kernel of radiative.py 296-327 (normalisation CS1 and the function Gtilde with the coefficients of the source). The integral of Gtilde is enclosed by midpoint sums evaluated by the kernel in fixed-point arithmetic with proved rounding and discretisation errors. Kernel level and exact arithmetic; the sum over electrons is C110, C119 and C169. Wrong coefficients in Gtilde or the constants break it.'),
'C171':('proved', "C171_line: the exact integrals over scattered photon energies of the kernel of radiative.py (iso_ic_on_monochromatic), with the constant of the source, against the Thomson cross section (the source's r_e to its stated digits): scatterings between S(1 - 8/3 x - 3/(4 gamma^2)) and S, power between P(1 - 63/10 x - 1/(3 gamma^4)) and P, x = gamma eps/mec2. Kernel level and exact arithmetic; the sum over electrons is C110, C119 and C169."),
'C172':('proved', 'C172_black_body: the exact integral over photon energies of energy times the kernel of radiative.py 547-574 with the constants of the source, against the classical power with CODATA constants (written in the statement file). The integral of the fitted function over a range of its argument is enclosed by interval arithmetic (IntervalProofs, PlanckProofs: 1338 cells, verified by computation in the kernel); the tails, the change of variable, the recoil and the constants are bounded by proof. Kernel level and exact arithmetic; a field of energy density u is scaled by u/(a T^4) (C151_spectrum), and the sum over electrons is C110, C119 and C169.'),
'C173':('proved', "C173_synchrotron, C173_inverse_compton: the limits of the spectra are C150 and C110, the power of one electron C170 and C172 (extended to photon energies beyond that of the electron in LumProps2); the exchange of the integrals over electrons and photons is Fubini's theorem for continuous functions (FubiniProofs), and the thermal kernel is shown continuous in both arguments also at the kinematic limit. Exact arithmetic; differences at a given finite grid are bounded by C110 and C119. Thermal photons isotropic, one field (fields add: C09)."),
'C174':('partial', 'Tables, lists and samplers, and what is refused, proved (C49-C53 and C89 say what becomes of the rows). Refuted (code defects): a dict, documented, always raises and gains an entry group; an iterator over tables is used up by the type check and raises IndexError.'),
'C175':('proved', 'C175_ratio, for the limit of fine grids and exact arithmetic, constants of the synchrotron part consistent with those of the inverse Compton part (speed of light, classical electron radius).'),
'C176':('proved', 'C176_energy, C176_field: the logarithmic derivative of the emissivity times e^x lies between 0 and 1/3 at every x (H1_range, Gtilde_slopes), and the integration rule is monotone up to the slack of C111, so the bounds hold on the grid the code uses, not only in a limit. Exact arithmetic; C176_example shows an instance.'),
'C177':('proved', 'C177_synchrotron (general), C177_default, C177_power_law, C177_cutoff. Removes the limitation of C119_synchrotron, whose bound grows with the photon energy over the critical energy of the least energetic electrons: the grid is split at a grid point some D above, where the integrand is shown to increase and to be negligible against the rest (tail_small, by the slopes of C176). Exact arithmetic; the exact integral is that of the published emissivity (C150).'),
'C178':('proved', 'C178_temperature, C178_black_body, C178_angle: the fitted functions G12 and G34 decrease (G12_decreasing, G34_decreasing), so the kernels compare electron by electron (iso_heat, ani_heat), and the integration rule is monotone up to the slack of C111. Exact arithmetic; C178_example shows an instance.'),
'C179':('partial', 'C179_hot_fields_refuted (KnProps): deep in the Klein-Nishina regime no multiple of the computed flux bounds the exact one: the integrand grows like 1/(gamma - e) next to the photon energy and the grid misses it; C179_hot_fields_example. C179_thomson_partial, C179_power_law_partial (ThomProps): two per cent in the Thomson regime, on the grid of the code; C179_example. Convergence of the computed flux to the exact one: C110. Missing: bounds between the two regimes.'),
}
