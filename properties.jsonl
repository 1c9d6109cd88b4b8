{"id": "C01", "title": "Memoization is transparent", "statement": "For every history of flux/sed/model calls and attribute assignments on one model object with caching on, each call returns exactly the value an uncached evaluation would return for the attributes and arguments in force at that call.", "quantifier": "every finite history of calls and parameter changes on an object; every parameter value; every energy array and distance", "why_tests_cant": "the cache key must distinguish every pair of different states that a history can reach; tests try a few histories", "anchors": ["src/naima/model_utils.py:memoize"]}
{"id": "C02", "title": "Default distance and distance=0 are never confused", "statement": "flux(E) (distance omitted, i.e. 1 kpc) and flux(E, distance=0) (intrinsic luminosity) return different quantities whatever was called before.", "quantifier": "every earlier call history on a Synchrotron/Bremsstrahlung/PionDecay object", "why_tests_cant": "depends on call order and cache content", "anchors": ["src/naima/model_utils.py:memoize", "src/naima/radiative.py:BaseRadiative.flux"]}
{"id": "C03", "title": "Different parameter values never share a cache entry", "statement": "Two evaluations of one object whose parameter values (as printed) differ never return each other's cached result.", "quantifier": "every pair of parameter assignments", "why_tests_cant": "needs injectivity of the key over the whole parameter space", "anchors": ["src/naima/model_utils.py:memoize"]}
{"id": "C04", "title": "The cache is bounded and first-in first-out", "statement": "After any history of calls the cache holds at most 17 results, its keys are exactly the queue entries without repetition, and the evicted entry is always the oldest inserted one.", "quantifier": "every finite history of calls", "why_tests_cant": "unbounded histories", "anchors": ["src/naima/model_utils.py:memoize"]}
{"id": "C05", "title": "Changing the particle distribution is always seen", "statement": "After the particle distribution of a radiative model is replaced or its normalisation changed (including tabulated and plain-function distributions), the next flux call reflects the new distribution.", "quantifier": "every kind of particle distribution, every history", "why_tests_cant": "depends on history and on which attributes a distribution declares", "anchors": ["src/naima/model_utils.py:memoize", "src/naima/models.py:TableModel", "src/naima/radiative.py:BaseElectron.set_We"]}
{"id": "C06", "title": "Results are private to the caller", "statement": "Modifying in place an array returned by a model call never changes the result of a later call.", "quantifier": "every history of calls interleaved with caller-side in-place writes", "why_tests_cant": "aliasing needs histories with caller writes", "anchors": ["src/naima/model_utils.py:memoize"]}
{"id": "C07", "title": "Model objects are isolated", "statement": "Calls on one radiative model object never influence the results of calls on another object, whatever their particle distributions.", "quantifier": "every interleaving of calls on two objects of one class", "why_tests_cant": "interleavings and shared state", "anchors": ["src/naima/model_utils.py:memoize", "src/naima/radiative.py:PionDecayKelner06.__init__"]}
{"id": "C08", "title": "Inverse Compton flux for one seed refers to the requested energies", "statement": "flux(E, seed=s) returns the contribution of seed s at the energies E of this call, whatever calls preceded it.", "quantifier": "every history of flux calls on an InverseCompton object", "why_tests_cant": "depends on the state left by earlier calls and on cache hits", "anchors": ["src/naima/radiative.py:InverseCompton.flux", "src/naima/model_utils.py:memoize"]}
{"id": "C09", "title": "Inverse Compton total is the sum of its seeds", "statement": "The total Inverse Compton flux at every energy equals the sum over the seed photon fields of the flux returned for that seed.", "quantifier": "every list of seed photon fields, every energy array, every distance", "why_tests_cant": "holds for any number and kind of seeds", "anchors": ["src/naima/radiative.py:InverseCompton._spectrum", "src/naima/radiative.py:InverseCompton.flux", "src/naima/radiative.py:InverseCompton.sed"]}
{"id": "C10", "title": "Seed selection is validated", "statement": "flux/sed(seed=...) accepts exactly the existing seed names and the indices 0..n-1 and raises ValueError for anything else.", "quantifier": "every integer index, every name, every number of seeds", "why_tests_cant": "boundary over all n", "anchors": ["src/naima/radiative.py:InverseCompton.flux", "src/naima/radiative.py:InverseCompton.sed"]}
{"id": "C11", "title": "Log-log integration is exact for power laws", "statement": "trapz_loglog of samples of K x^b over any increasing positive grid is the exact integral of K x^b between the first and last abscissa.", "quantifier": "every K, real index b (outside the 1e-10 window round -1 or exactly -1), every increasing positive grid of any length", "why_tests_cant": "real-valued identity for all grids and indices", "anchors": ["src/naima/utils.py:trapz_loglog"]}
{"id": "C12", "title": "Log-log integration error in the index -1 window", "statement": "For local indices within 1e-10 of -1 the logarithmic formula differs from the exact power-law integral by a relative error no larger than |(b+1) ln(x2/x1)| e^{|(b+1) ln(x2/x1)|}.", "quantifier": "every positive interval and index within the window", "why_tests_cant": "continuum of inputs", "anchors": ["src/naima/utils.py:trapz_loglog"]}
{"id": "C13", "title": "Log-log integration is linear under scaling and unit independent", "statement": "Scaling all ordinates by c>0 scales the result by c, rescaling the abscissae by k>0 scales it by k; hence the result does not depend on the units in which energy and flux are expressed.", "quantifier": "every positive grid, ordinates, factors", "why_tests_cant": "all inputs", "anchors": ["src/naima/utils.py:trapz_loglog"]}
{"id": "C14", "title": "Log-log integration is bounded by the rectangle rules and non-negative", "statement": "Outside the index window each interval lies between min(y1,y2)(x2-x1) and max(y1,y2)(x2-x1), and every integral of non-negative samples over an increasing grid is >= 0.", "quantifier": "every non-negative ordinates and increasing positive grid", "why_tests_cant": "all inputs", "anchors": ["src/naima/utils.py:trapz_loglog"]}
{"id": "C15", "title": "Log-log integration is additive and intervals=True is its decomposition", "statement": "The integral over a grid split at any node is the sum of both parts, and the intervals=True output has one entry per bin and sums to the total.", "quantifier": "every grid and split point", "why_tests_cant": "all lengths and split points", "anchors": ["src/naima/utils.py:trapz_loglog"]}
{"id": "C16", "title": "Zero samples and repeated abscissae contribute nothing", "statement": "An interval with a zero ordinate at either end, or of zero width, contributes exactly 0 and never NaN.", "quantifier": "every grid", "why_tests_cant": "special-case handling must cover all positions", "anchors": ["src/naima/utils.py:trapz_loglog"]}
{"id": "C17", "title": "set_We fixes the total particle energy", "statement": "After set_We(W, Emin, Emax) with W>0 on a distribution with an amplitude, compute_We(Emin, Emax) equals W; the same holds for set_Wp.", "quantifier": "every distribution linear in its amplitude, every W, Emin, Emax, nEed, amplitude", "why_tests_cant": "all spectral shapes and grids", "anchors": ["src/naima/radiative.py:BaseElectron.set_We", "src/naima/radiative.py:BaseElectron.compute_We", "src/naima/radiative.py:BaseProton.set_Wp", "src/naima/radiative.py:BaseProton.compute_Wp"]}
{"id": "C18", "title": "Flux is proportional to the particle amplitude", "statement": "Multiplying the amplitude of the particle distribution by c multiplies flux and sed by c, and We/Wp by c, for Synchrotron, Inverse Compton and pion decay.", "quantifier": "every c>0, every shape, every energy", "why_tests_cant": "all inputs", "anchors": ["src/naima/radiative.py:Synchrotron._spectrum", "src/naima/radiative.py:InverseCompton._spectrum", "src/naima/radiative.py:PionDecay._spectrum"]}
{"id": "C19", "title": "Inverse-square law and intrinsic luminosity", "statement": "flux(E,d) * 4 pi d^2 equals flux(E,distance=0) for every d>0, so flux(d1) d1^2 = flux(d2) d2^2.", "quantifier": "every distance and energy", "why_tests_cant": "all inputs", "anchors": ["src/naima/radiative.py:BaseRadiative.flux"]}
{"id": "C20", "title": "SED is E^2 times flux", "statement": "sed(E,d) equals E^2 * flux(E,d) at each energy, for every distance including 0 and for a selected seed.", "quantifier": "every energy array and distance", "why_tests_cant": "all inputs", "anchors": ["src/naima/radiative.py:BaseRadiative.sed", "src/naima/radiative.py:InverseCompton.sed"]}
{"id": "C21", "title": "Radiative spectra are non-negative", "statement": "Synchrotron, Inverse Compton (isotropic, thermal) and pion-decay fluxes are >= 0 for every non-negative particle distribution.", "quantifier": "every non-negative particle distribution, energy, magnetic field, seed", "why_tests_cant": "real-valued inequality over a continuum", "anchors": ["src/naima/radiative.py:Synchrotron._spectrum", "src/naima/radiative.py:InverseCompton._calc_specic", "src/naima/radiative.py:PionDecay._calc_specpp_hiE"]}
{"id": "C22", "title": "Flux at an energy does not depend on the other energies requested", "statement": "For Synchrotron, InverseCompton, Bremsstrahlung and PionDecay the flux returned for one photon energy is the same whatever other energies are in the same request, and permuting the request permutes the result.", "quantifier": "every energy array and every position", "why_tests_cant": "all batches; for pion decay the regime switch looks at the whole array", "anchors": ["src/naima/radiative.py:PionDecay._spectrum", "src/naima/radiative.py:PionDecayKelner06._spectrum", "src/naima/radiative.py:Synchrotron._spectrum"]}
{"id": "C23", "title": "Inverse Compton kinematic cutoff", "statement": "No photon of energy at or above the electron energy is produced: the scattering kernel vanishes whenever the photon energy is not below the electron energy, and for monochromatic seeds above the maximum kinematically allowed energy.", "quantifier": "every electron and photon energy, every thermal seed, every line or spectrum of positive energies", "why_tests_cant": "continuum", "anchors": ["src/naima/radiative.py:InverseCompton._iso_ic_on_planck", "src/naima/radiative.py:InverseCompton._iso_ic_on_monochromatic"]}
{"id": "C24", "title": "Thermal seed density scales the spectrum linearly", "statement": "The Inverse Compton spectrum on a grey body is the blackbody spectrum times u/(4 sigma T^4/c); giving energy density 0 is the pure blackbody.", "quantifier": "every temperature, energy density", "why_tests_cant": "continuum", "anchors": ["src/naima/radiative.py:InverseCompton._calc_specic", "src/naima/radiative.py:InverseCompton._process_input_seed"]}
{"id": "C25", "title": "Every requested seed photon field contributes", "statement": "For seed photon fields of different names the stored seeds are exactly those requested, one entry per requested field, in order; a string of names joined by dashes means the list of the names, and an unknown name is an error.", "quantifier": "every list of seed specifications", "why_tests_cant": "all lists including repeated names", "anchors": ["src/naima/radiative.py:InverseCompton._process_input_seed"]}
{"id": "C26", "title": "Pion-decay photons respect the kinematic limit", "statement": "For every proton energy above the pion threshold the differential cross section is zero above the maximum photon energy the kinematics allow and below the corresponding minimum, and positive between; the inclusive cross section is a number exactly from the kinematic threshold on; the inelastic cross section of PionDecayKelner06 is zero below its threshold and positive above.", "quantifier": "every proton and photon energy", "why_tests_cant": "continuum", "anchors": ["src/naima/radiative.py:PionDecay._F", "src/naima/radiative.py:PionDecay._sigma_pi", "src/naima/radiative.py:PionDecay._calc_specpp_hiE"]}
{"id": "C27", "title": "Pion-decay spectrum is symmetric about half the pion mass", "statement": "For every proton energy the differential cross section takes equal values at E and (m_pi/2)^2/E.", "quantifier": "all proton and photon energies", "why_tests_cant": "all pairs of energies over the reals", "anchors": ["src/naima/radiative.py:PionDecay._F", "src/naima/radiative.py:PionDecay._diffsigma"]}
{"id": "C28", "title": "Inelastic cross section and nuclear enhancement are positive", "statement": "sigma_inel(T)>0 for every T above threshold and the nuclear enhancement factor is at least 1.", "quantifier": "every proton kinetic energy above threshold", "why_tests_cant": "continuum", "anchors": ["src/naima/radiative.py:PionDecay._sigma_inel", "src/naima/radiative.py:PionDecay._nuclear_factor"]}
{"id": "C29", "title": "Lookup-table fallback is safe", "statement": "If the lookup table file is missing the model computes without it and never uses a table loaded for another high-energy model.", "quantifier": "every history of hiEmodel changes and calls", "why_tests_cant": "history dependent", "anchors": ["src/naima/radiative.py:PionDecay._loadLUT", "src/naima/radiative.py:PionDecay._diffsigma"]}
{"id": "C30", "title": "Bremsstrahlung weights combine linearly", "statement": "The Bremsstrahlung spectrum equals weight_ee times the electron-electron part plus weight_ep times the electron-ion part for all weights >= 0, including 0.", "quantifier": "every pair of weights", "why_tests_cant": "boundary value 0", "anchors": ["src/naima/radiative.py:Bremsstrahlung._spectrum"]}
{"id": "C31", "title": "Bremsstrahlung electron-electron cross section is non-negative", "statement": "The electron-electron bremsstrahlung cross section is >= 0 for every photon energy below the electron energy.", "quantifier": "every electron and photon energy", "why_tests_cant": "continuum", "anchors": ["src/naima/radiative.py:Bremsstrahlung._sigma_ee", "src/naima/radiative.py:Bremsstrahlung._sigma_1"]}
{"id": "C32", "title": "Particle energy grids are sane", "statement": "Integration grids always have at least 10 points, start and end exactly at the requested minimum and maximum energy and are strictly increasing.", "quantifier": "every Emin<Emax and nEed", "why_tests_cant": "all inputs", "anchors": ["src/naima/radiative.py:BaseElectron._gam", "src/naima/radiative.py:BaseProton._Ep"]}
{"id": "C33", "title": "Broken power laws are continuous", "statement": "BrokenPowerLaw and ExponentialCutoffBrokenPowerLaw take, at the break energy, the common limit of both branches; each branch is the power law with the given index.", "quantifier": "every parameter vector with positive energies", "why_tests_cant": "continuum limit", "anchors": ["src/naima/models.py:BrokenPowerLaw", "src/naima/models.py:ExponentialCutoffBrokenPowerLaw"]}
{"id": "C34", "title": "Spectral model limits and normalisation", "statement": "Every analytic spectral model equals its amplitude at the reference energy (times the cutoff factor; for broken power laws if that is below the break), LogParabola with beta=0 is the power law, a cutoff never increases the flux and beta=0 cutoff is a constant e^-1.", "quantifier": "every parameter vector", "why_tests_cant": "continuum", "anchors": ["src/naima/models.py:PowerLaw", "src/naima/models.py:LogParabola", "src/naima/models.py:ExponentialCutoffPowerLaw"]}
{"id": "C35", "title": "Spectral models are unit invariant", "statement": "Evaluating a spectral model after expressing all energies in another unit gives the same flux.", "quantifier": "every unit conversion factor, parameters and energies", "why_tests_cant": "continuum", "anchors": ["src/naima/models.py:PowerLaw", "src/naima/models.py:_validate_ene"]}
{"id": "C36", "title": "Tabulated model reproduces its nodes and vanishes outside", "statement": "TableModel takes at every tabulated energy the tabulated value times the amplitude, is positive inside the tabulated range, 0 outside it, and proportional to the amplitude.", "quantifier": "every increasing positive table and every energy", "why_tests_cant": "all tables and energies", "anchors": ["src/naima/models.py:TableModel"]}
{"id": "C37", "title": "EBL transmission is a probability", "statement": "The EBL absorption factor is positive and at most 1 wherever the interpolated optical depth is not negative; it is exp(-tau) of that depth from 1 GeV to 100 TeV, 1 below 1 GeV, at tabulated energies exp(-min(tau,150)) of the closest tabulated redshift, and 1 up to 100 TeV for redshifts below 0.01.", "quantifier": "every redshift, energy and non-negative tabulated opacity", "why_tests_cant": "continuum", "anchors": ["src/naima/models.py:EblAbsorptionModel"]}
{"id": "C38", "title": "Likelihood follows the asymmetric Gaussian definition", "statement": "Without upper limits lnprobmodel is -1/2 sum ((model-data)/err)^2 with the upper error where the model is above the data and the lower error below; it is <=0 and 0 exactly when the model equals the data.", "quantifier": "every model vector and data table", "why_tests_cant": "all data tables", "anchors": ["src/naima/core.py:lnprobmodel"]}
{"id": "C39", "title": "Upper limits are penalised by their own confidence level", "statement": "Each violated upper limit adds log(1-cl) of that row to the log-likelihood and non-violated upper limits add nothing.", "quantifier": "every data table with upper limits and every model", "why_tests_cant": "needs all mixes of flags and confidence levels", "anchors": ["src/naima/core.py:lnprobmodel"]}
{"id": "C40", "title": "Excluded parameters are never evaluated", "statement": "A parameter vector with infinite negative log-prior has log-probability -inf, and the model function is never called for it; otherwise the log-probability is prior plus likelihood.", "quantifier": "every prior, model function and parameter vector", "why_tests_cant": "all functions", "anchors": ["src/naima/core.py:lnprob"]}
{"id": "C41", "title": "Supports of the priors", "statement": "uniform_prior is 0 inside the closed interval and -inf outside; log_uniform_prior is -inf exactly for values that are not positive or outside its interval.", "quantifier": "every value and hyper-parameters", "why_tests_cant": "real identities", "anchors": ["src/naima/core.py:uniform_prior", "src/naima/core.py:normal_prior", "src/naima/core.py:log_uniform_prior"]}
{"id": "C42", "title": "Likelihood does not depend on the units used", "statement": "Comparing a model in any flux-type unit with the data gives the same log-likelihood as converting both to a common unit; a dimensionally incompatible model raises.", "quantifier": "every pair of compatible units", "why_tests_cant": "all units", "anchors": ["src/naima/core.py:lnprobmodel", "src/naima/utils.py:sed_conversion"]}
{"id": "C43", "title": "Normalisation guess touches only the normalisation", "statement": "get_sampler's guess rescales exactly one parameter, only when exactly one label looks like a normalisation, so that the model's total flux matches the data; other parameters keep their value.", "quantifier": "every label list and starting vector", "why_tests_cant": "all label lists", "anchors": ["src/naima/core.py:get_sampler"]}
{"id": "C44", "title": "Starting walkers are centred and distinct", "statement": "The walkers start at p0 (1+spread*gaussian) so every walker differs from p0 only by the drawn relative offset.", "quantifier": "every p0, number of walkers and draws", "why_tests_cant": "all draws; parameters equal to 0", "anchors": ["src/naima/core.py:get_sampler"]}
{"id": "C45", "title": "Maximum-likelihood pre-fit never worsens", "statement": "The pre-fit result has log-probability not lower than the start, and is discarded for the original p0 when it has infinite prior.", "quantifier": "every objective function and start", "why_tests_cant": "all functions", "anchors": ["src/naima/core.py:_prefit"]}
{"id": "C46", "title": "Simplex minimiser never returns a worse point", "statement": "minimize returns (x, fun) with fun = f(x) <= f(x0).", "quantifier": "every objective function, start vector, tolerance and budget", "why_tests_cant": "all objective functions and all iteration histories", "anchors": ["src/naima/extern/minimize.py:_minimize_neldermead"]}
{"id": "C47", "title": "Simplex minimiser respects its budget", "statement": "The iteration count never exceeds maxiter, evaluations never exceed maxfev by more than one shrink step, and the status is 0 exactly if the tolerances were met first.", "quantifier": "every objective, budgets", "why_tests_cant": "all histories", "anchors": ["src/naima/extern/minimize.py:_minimize_neldermead"]}
{"id": "C48", "title": "Simplex minimiser is independent of the dtype of x0", "statement": "Starting from integer-valued integers or floats gives the same result.", "quantifier": "every start vector", "why_tests_cant": "all starts", "anchors": ["src/naima/extern/minimize.py:_minimize_neldermead"]}
{"id": "C49", "title": "Validated data are the input rows sorted by energy", "statement": "validate_data_table returns all rows of all input tables, each exactly once, ordered by non-decreasing energy.", "quantifier": "every list of valid tables", "why_tests_cant": "all tables and orders", "anchors": ["src/naima/utils.py:validate_data_table"]}
{"id": "C50", "title": "SED conversion round trips and scales by E^2", "statement": "For fluxes, luminosities and particle energy distributions, converting to SED multiplies by E^2 (and back divides by it), the result is in the documented unit, converting back restores it, and it only depends on the physical quantity, not its unit. Every other physical type, except the differential number density, is refused.", "quantifier": "every supported unit and energy", "why_tests_cant": "all units and energies", "anchors": ["src/naima/utils.py:sed_conversion", "src/naima/utils.py:validate_data_table"]}
{"id": "C51", "title": "Generated energy edges are contiguous and positive", "statement": "For increasing energies the generated bins are contiguous, contain their energy, have positive lower edges, and groups are treated independently.", "quantifier": "every increasing energy array, every grouping", "why_tests_cant": "all arrays", "anchors": ["src/naima/utils.py:generate_energy_edges"]}
{"id": "C52", "title": "Malformed tables are rejected", "statement": "A table lacking energy, flux or flux errors, with wrong physical types or a malformed ul column is always rejected with an error, and no other table is.", "quantifier": "every combination of present columns, types and ul formats", "why_tests_cant": "combinatorial", "anchors": ["src/naima/utils.py:validate_data_table", "src/naima/utils.py:build_data_table"]}
{"id": "C53", "title": "Magnetic field estimate scales correctly", "statement": "estimate_B scales as the square root of the X-ray/VHE luminosity ratio and of the photon energy density and does not depend on a common flux scale.", "quantifier": "every pair of tables", "why_tests_cant": "all tables", "anchors": ["src/naima/utils.py:estimate_B"]}
{"id": "C54", "title": "Scalars are checked against their domain, arrays against their type", "statement": "validate_scalar accepts a number exactly if it is in the declared domain and raises ValueError otherwise; validate_array accepts exactly the declared physical types and raises TypeError otherwise.", "quantifier": "every value, domain and type", "why_tests_cant": "all values", "anchors": ["src/naima/extern/validator.py:validate_scalar", "src/naima/extern/validator.py:validate_array"]}
{"id": "C55", "title": "Saved runs round trip", "statement": "read_run(save_run(sampler)) reproduces the chain, log-probabilities, blobs with units, labels, acceptance fraction, run_info and data of every run whose samples have the same kinds of blobs (scalar or array quantities, floats, pairs of arrays; at most 100) in the same units.", "quantifier": "every chain, blob structure and metadata", "why_tests_cant": "all shapes and blob types", "anchors": ["src/naima/analysis.py:save_run", "src/naima/analysis.py:read_run"]}
{"id": "C56", "title": "Saved runs are not overwritten", "statement": "save_run never modifies an existing file unless clobber is set.", "quantifier": "every file name and file-system state", "why_tests_cant": "all names", "anchors": ["src/naima/analysis.py:save_run"]}
{"id": "C57", "title": "Maximum-likelihood extraction is the chain maximum", "statement": "find_ML returns the first sample attaining the maximal log-probability in the chain together with its parameters and blob.", "quantifier": "every chain", "why_tests_cant": "all chains", "anchors": ["src/naima/plot.py:find_ML"]}
{"id": "C58", "title": "Results table summarises the requested samples", "statement": "For the whole chain save_results_table reports for each parameter the median and the distances to the 16th and 84th percentiles of all samples, followed by those of the delogged samples for labels log(x) and log10(x), or without conversion just the former; rows of scalar blobs follow, over the samples of the last step or the whole chain.", "quantifier": "every chain and label list", "why_tests_cant": "all chains", "anchors": ["src/naima/analysis.py:save_results_table"]}
{"id": "C59", "title": "Confidence bands are nested", "statement": "The band computed for a larger confidence level contains the band for a smaller one at every energy and both consist of sampled model values.", "quantifier": "every set of model samples and levels", "why_tests_cant": "all samples", "anchors": ["src/naima/plot.py:_calc_CI", "src/naima/plot.py:_plot_MLmodel"]}
{"id": "C60", "title": "Interactive fitter state is consistent", "statement": "For model and fit functions that do not raise: after every sequence of slider moves, updates, toggles and fits without a move while auto-update is off, the displayed line and log-likelihood are those of the slider positions; parameters flagged as maximum likelihood are the result of a successful fit and are the ones displayed; auto-update is on exactly according to the number of toggles and the ranges of the sliders never change. At the start the window shows the starting point.", "quantifier": "every sequence of user events, model and fit outcome", "why_tests_cant": "all event histories", "anchors": ["src/naima/model_fitter.py:InteractiveModelFitter"]}
{"id": "C61", "title": "Sherpa bin integration", "statement": "For contiguous bins of positive energies the Sherpa wrappers return one value per bin: the integral over that bin of the power law through the values of the model at its two edges, hence the exact integral of a model that is a power law within the bin.", "quantifier": "every set of contiguous bins", "why_tests_cant": "all bin sets", "anchors": ["src/naima/sherpa_models.py:SherpaModelECPL", "src/naima/sherpa_models.py:_mergex"]}
{"id": "C62", "title": "Setting the energy content touches only its own distribution", "statement": "set_We and set_Wp change the amplitude of the particle distribution of the model they are called on and nothing else: other model objects and other variables keep their values.", "quantifier": "all pairs of distributions and all ways their amplitudes were built", "why_tests_cant": "depends on aliasing of mutable quantities between arbitrary objects", "anchors": ["src/naima/radiative.py:BaseElectron.set_We", "src/naima/radiative.py:BaseProton.set_Wp"]}
{"id": "C63", "title": "EBL absorption does not drop above the tabulated range", "statement": "At energies above 100 TeV the EBL transmission is not higher than at 100 TeV.", "quantifier": "every energy above the tabulated maximum and every redshift", "why_tests_cant": "unbounded range outside the table", "anchors": ["src/naima/models.py:EblAbsorptionModel"]}
{"id": "C64", "title": "Tabulated model stays between neighbouring nodes", "statement": "Between two tabulated energies TableModel lies between the two tabulated values times the amplitude.", "quantifier": "all tables and energies", "why_tests_cant": "all tables; spline overshoot depends on the data", "anchors": ["src/naima/models.py:TableModel"]}
{"id": "C65", "title": "Reversed energy bounds are rejected", "statement": "set_We/set_Wp and compute_We/compute_Wp given a maximum energy below the minimum energy raise an error rather than return a negative energy.", "quantifier": "all bounds with max < min", "why_tests_cant": "all distributions and bounds", "anchors": ["src/naima/radiative.py:BaseElectron.compute_We", "src/naima/radiative.py:BaseProton.compute_Wp"]}
{"id": "C66", "title": "Seed angle is honoured", "statement": "The interaction angle given with a seed photon field changes the spectrum to the anisotropic one or is rejected.", "quantifier": "all seed definitions with an angle", "why_tests_cant": "every seed definition and every angle", "anchors": ["src/naima/radiative.py:InverseCompton._process_input_seed", "src/naima/radiative.py:InverseCompton._calc_specic"]}
{"id": "C67", "title": "Seed photon arrays in any order", "statement": "A seed photon field given as arrays of energies and densities yields a non-negative spectrum whatever the order of the energies, or is rejected.", "quantifier": "all seed arrays and particle distributions", "why_tests_cant": "all arrays", "anchors": ["src/naima/radiative.py:InverseCompton._process_input_seed", "src/naima/radiative.py:InverseCompton._iso_ic_on_monochromatic"]}
{"id": "C68", "title": "Unphysical magnetic fields are rejected", "statement": "Synchrotron accepts only positive magnetic field strengths, or its spectrum depends only on the strength |B|.", "quantifier": "all magnetic field values", "why_tests_cant": "all fields and energies", "anchors": ["src/naima/radiative.py:Synchrotron.__init__", "src/naima/radiative.py:Synchrotron._spectrum"]}
{"id": "C69", "title": "The lookup-table setting stays as the user set it", "statement": "useLUT keeps the value given by the user: whether tables are used in a later call depends only on the setting and the table files, not on an earlier call that could not find a table.", "quantifier": "all histories of calls, settings and file availability", "why_tests_cant": "all histories", "anchors": ["src/naima/radiative.py:PionDecay._spectrum"]}
{"id": "C70", "title": "Concurrent pion-decay evaluations do not interfere", "statement": "Evaluating several PionDecay models in one process, in any interleaving, each evaluation uses the parameters of its own proton energies.", "quantifier": "all numbers of evaluations and all interleavings", "why_tests_cant": "all schedules", "anchors": ["src/naima/radiative.py:PionDecay._F_mp", "src/naima/radiative.py:PionDecay._calc_fmax"]}
{"id": "C71", "title": "Bremsstrahlung flux is non-negative", "statement": "The bremsstrahlung flux is >= 0 for every non-negative electron distribution and positive weights.", "quantifier": "all electron distributions, photon energies and weights", "why_tests_cant": "all distributions", "anchors": ["src/naima/radiative.py:Bremsstrahlung"]}
{"id": "C72", "title": "Inputs of get_sampler are not modified", "statement": "get_sampler leaves the p0 array and the labels list passed by the caller unchanged.", "quantifier": "all starting vectors, labels, data and models", "why_tests_cant": "depends on aliasing for arbitrary inputs", "anchors": ["src/naima/core.py:get_sampler"]}
{"id": "C73", "title": "Every parameter has a label", "statement": "get_sampler extends or generates labels so that every parameter has one, keeps the user's labels first and unchanged, and with default labels the first parameter is taken as the only normalisation.", "quantifier": "all numbers of parameters and label lists", "why_tests_cant": "all label lists", "anchors": ["src/naima/core.py:get_sampler"]}
{"id": "C74", "title": "Runs can be continued", "statement": "run_sampler can be called any number of times on the same sampler and afterwards the chain holds exactly the steps of the last run.", "quantifier": "all histories of run_sampler calls, all thread counts", "why_tests_cant": "unbounded histories and process pools", "anchors": ["src/naima/core.py:get_sampler", "src/naima/core.py:run_sampler"]}
{"id": "C75", "title": "Bins do not depend on row order", "statement": "The energy bins given to the rows of a table do not depend on the order in which its rows are listed: every bin contains its energy.", "quantifier": "every table without bin columns, in any row order", "why_tests_cant": "all orders of all tables", "anchors": ["src/naima/utils.py:_validate_single_data_table", "src/naima/utils.py:generate_energy_edges"]}
{"id": "C76", "title": "Confidence levels are probabilities", "statement": "A confidence level outside (0,1) is rejected.", "quantifier": "every confidence level", "why_tests_cant": "all values including nan", "anchors": ["src/naima/utils.py:_validate_single_data_table", "src/naima/extern/validator.py:validate_scalar"]}
{"id": "C77", "title": "Flux and luminosity are not mixed", "statement": "estimate_B rejects a pair of tables one of which is in flux and the other in luminosity units.", "quantifier": "every pair of tables", "why_tests_cant": "all unit combinations", "anchors": ["src/naima/utils.py:estimate_B"]}
{"id": "C78", "title": "build_data_table holds the data given", "statement": "build_data_table returns a table with exactly the data given, accepted by validate_data_table for any output format; missing flux errors are rejected, and nothing given is dropped silently.", "quantifier": "every combination of arguments", "why_tests_cant": "all combinations of optional arguments and units", "anchors": ["src/naima/utils.py:build_data_table"]}
{"id": "C79", "title": "A failed save changes nothing", "statement": "When save_run raises an exception the files are as before the call.", "quantifier": "every run, file name and file-system state", "why_tests_cant": "all runs whose blobs cannot be stored, with and without an existing file", "anchors": ["src/naima/analysis.py:save_run"]}
{"id": "C80", "title": "Reported quantities lie within the samples", "statement": "In the results table median - unc_lo and median + unc_hi lie within the range of the samples, and both uncertainties are non-negative; the median of an odd number of samples is the middle one.", "quantifier": "every non-empty list of samples", "why_tests_cant": "all sample lists of any length", "anchors": ["src/naima/analysis.py:save_results_table"]}
{"id": "C81", "title": "Confidence bands contain the fraction they stand for", "statement": "At every energy more than (cdf(n)-cdf(-n))*(N-1) of the N model samples lie within the n sigma band.", "quantifier": "every list of model samples and confidence level", "why_tests_cant": "all sample lists of any length", "anchors": ["src/naima/plot.py:_calc_CI"]}
{"id": "C82", "title": "Enough samples for the band", "statement": "When the model is recomputed for an energy range, at least 1/cdf(-n) samples (at most 1000, with a warning) are drawn for the largest confidence level n.", "quantifier": "every confidence level", "why_tests_cant": "all levels", "anchors": ["src/naima/plot.py:_calc_CI"]}
{"id": "C83", "title": "Sliders start at the initial parameters", "statement": "Every slider of the interactive fitter starts at the value of its parameter in p0.", "quantifier": "every label and initial value", "why_tests_cant": "all labels and values", "anchors": ["src/naima/model_fitter.py:InteractiveModelFitter"]}
{"id": "C84", "title": "Walkers start where the prior allows", "statement": "If the parameters given are allowed by the prior, the point the walkers are drawn around is too.", "quantifier": "every prior, fit outcome and choice of options", "why_tests_cant": "all priors and fits", "anchors": ["src/naima/core.py:get_sampler", "src/naima/core.py:_prefit", "src/naima/model_fitter.py:InteractiveModelFitter"]}
{"id": "C85", "title": "Unknown keyword arguments are rejected", "statement": "A radiative model rejects keyword arguments it does not know; known ones take effect.", "quantifier": "every keyword", "why_tests_cant": "all keywords", "anchors": ["src/naima/radiative.py:Synchrotron.__init__", "src/naima/radiative.py:InverseCompton.__init__", "src/naima/sherpa_models.py:InverseCompton.flux"]}
{"id": "C86", "title": "Sherpa guess matches the data", "statement": "After guess the integral of a model proportional to its amplitude equals that of the data; cutoff=0 means a power law without cutoff.", "quantifier": "every data set and model shape", "why_tests_cant": "all shapes and data", "anchors": ["src/naima/sherpa_models.py:SherpaModel.guess", "src/naima/sherpa_models.py:SherpaModelECPL._pdist"]}
{"id": "C87", "title": "Printed values keep the precision of the errors", "statement": "The value and errors printed for a parameter whose median is not 0 and whose errors are positive differ from the median and the percentile errors by at most a quarter of the error, with one or two digits, and the printed power of ten is that of the value.", "quantifier": "every median and pair of errors", "why_tests_cant": "all real values and errors", "anchors": ["src/naima/plot.py:_latex_value_error"]}
{"id": "C88", "title": "Residuals are in units of the error", "statement": "plot_fit draws one residual per detection, at its energy: (data - model) / mean error, independent of the units of table, model and plot and of whether an SED is shown.", "quantifier": "every data table, model, unit and sed flag", "why_tests_cant": "all tables, units and models", "anchors": ["src/naima/plot.py:_plot_residuals_to_ax"]}
{"id": "C89", "title": "Every detection is drawn", "statement": "Every detection of a data table is drawn with its flux and errors, in log axes, whatever its error.", "quantifier": "every data table", "why_tests_cant": "all fluxes and errors", "anchors": ["src/naima/plot.py:_plot_data_to_ax"]}
{"id": "C90", "title": "Plot options of one call do not affect others", "statement": "The options a plot uses are those given in the call; dictionaries passed in are not changed.", "quantifier": "every sequence of plot calls", "why_tests_cant": "all call histories", "anchors": ["src/naima/plot.py:plot_fit", "src/naima/plot.py:plot_data", "src/naima/plot.py:_plot_data_to_ax"]}
{"id": "C91", "title": "Diagnostic plots are complete", "statement": "For labels with different file names and arguments as documented save_diagnostic_plots writes one file per parameter whose chain can be drawn, the corner plot and one file per model asked for that can be drawn, each with its own title and kind; the file of a chain is named after the parameter without log or log10.", "quantifier": "every list of labels, models, sed flags and blob labels", "why_tests_cant": "all labels and argument combinations", "anchors": ["src/naima/analysis.py:save_diagnostic_plots"]}
{"id": "C92", "title": "Interactive mode is restored", "statement": "After save_diagnostic_plots the interactive setting of matplotlib is the one before, however the function ends.", "quantifier": "every run, argument and exception", "why_tests_cant": "all exceptions at all points", "anchors": ["src/naima/analysis.py:save_diagnostic_plots"]}
{"id": "C93", "title": "plot_samples shows n_samples samples", "statement": "plot_samples draws n_samples curves, each the model at parameters of the chain.", "quantifier": "every chain, model and number of samples", "why_tests_cant": "all chains and random draws", "anchors": ["src/naima/plot.py:plot_samples", "src/naima/plot.py:_calc_samples"]}
{"id": "C94", "title": "Blob formats", "statement": "A blob with one value per data energy is a spectrum at these energies, a pair a spectrum at its own energies, a scalar a derived quantity; every sample of the chain (or of the last step) is used; anything else is a TypeError.", "quantifier": "every run, blob and last_step", "why_tests_cant": "all blob shapes and runs", "anchors": ["src/naima/plot.py:_process_blob"]}
{"id": "C95", "title": "Energy parameters of spectral models are validated", "statement": "A spectral model can be constructed exactly if every energy parameter carries an energy unit and is not negative; otherwise TypeError or ValueError is raised. A model that was constructed can be evaluated at every energy with a unit.", "quantifier": "every model and parameter values", "why_tests_cant": "all parameter values", "anchors": ["src/naima/models.py:PowerLaw", "src/naima/models.py:ExponentialCutoffPowerLaw", "src/naima/models.py:BrokenPowerLaw", "src/naima/models.py:LogParabola", "src/naima/extern/validator.py:validate_scalar"]}
{"id": "C96", "title": "Scaling laws of electron spectra", "statement": "A magnetic field m times stronger shifts the synchrotron spectrum to m times higher energies; electrons l times more energetic shift it by l^2, so a power law of index p gives one of index (p+1)/2. Inverse Compton on a thermal field is invariant under electrons l times more energetic and seed photons l times less energetic, up to the factor l^-4 of the field.", "quantifier": "every field, grid, particle distribution, factor", "why_tests_cant": "all scale factors, grids and distributions", "anchors": ["src/naima/radiative.py:Synchrotron", "src/naima/radiative.py:InverseCompton"]}
{"id": "C97", "title": "Seed photon fields mean what was given", "statement": "CMB, FIR and NIR are isotropic thermal fields of fixed temperature and density, any other name is a TypeError; for fields given by the user temperature, energy density (0: black body), angle, line energy and spectrum are used as given, negative temperatures, and negative densities of black bodies and lines, are refused (other negative numbers: C161).", "quantifier": "every seed photon specification", "why_tests_cant": "all seed specifications", "anchors": ["src/naima/radiative.py:InverseCompton._process_input_seed"]}
{"id": "C98", "title": "Kinematic limits of bremsstrahlung", "statement": "An electron emits no photon of more than its own total energy: the electron-proton cross section and the relativistic electron-electron one vanish above it, the non-relativistic one vanishes above (gamma^2-1)/4 and for gamma below 1. Photon energies above all electrons of the grid therefore get luminosity exactly 0.", "quantifier": "every electron Lorentz factor, photon energy, particle distribution and grid", "why_tests_cant": "all electron and photon energies", "anchors": ["src/naima/radiative.py:Bremsstrahlung._sigma_1", "src/naima/radiative.py:Bremsstrahlung._sigma_ee", "src/naima/radiative.py:Bremsstrahlung._spectrum"]}
{"id": "C99", "title": "Interaction model used at each proton energy", "statement": "PionDecay uses, above its own transition energy, the published high-energy parameters of the model named by hiEmodel for cross section, maximum and shape alike; below 50 GeV the choice of hiEmodel makes no difference; nuclear enhancement multiplies the spectrum of each proton energy by a factor independent of the photon energy, 0 below threshold and at least 1.37 above.", "quantifier": "every proton and photon energy and every hiEmodel", "why_tests_cant": "all proton and photon energies", "anchors": ["src/naima/radiative.py:PionDecay._diffsigma", "src/naima/radiative.py:PionDecay._Amax", "src/naima/radiative.py:PionDecay._F"]}
{"id": "C100", "title": "Initial simplex is non-degenerate", "statement": "The prefit starts from the n+1 points x0 and x0 with one coordinate enlarged by 5 % (set to 0.00025 if it is 0); the points are distinct and span the whole parameter space.", "quantifier": "every starting vector of every dimension", "why_tests_cant": "all starting vectors and dimensions", "anchors": ["src/naima/extern/minimize.py:_minimize_neldermead"]}
{"id": "C101", "title": "Sherpa models pass their parameters on", "statement": "The Sherpa inverse Compton model uses the CMB, and FIR and NIR with the temperatures and densities given exactly when their density is not 0; the flux is the luminosity over 4 pi d^2 for every distance the model accepts.", "quantifier": "every parameter vector within the declared limits", "why_tests_cant": "all parameter values", "anchors": ["src/naima/sherpa_models.py:SherpaModelECPL", "src/naima/sherpa_models.py:InverseCompton", "src/naima/sherpa_models.py:_mergex"]}
{"id": "C102", "title": "Confidence bands of a plot", "statement": "plot_CI draws one band for every requested confidence level, from the widest to the narrowest, each inside those drawn before it, and leaves the list of levels given by the caller as it was.", "quantifier": "every list of confidence levels and every set of model samples", "why_tests_cant": "all lists of levels and all samples", "anchors": ["src/naima/plot.py:plot_CI", "src/naima/plot.py:_calc_CI"]}
{"id": "C103", "title": "Numbers printed with a chain or distribution plot", "statement": "plot_chain prints for a parameter its median and the distances to the 16th and 84th percentiles over the samples of the last step or of the whole chain, and for a logarithm the same for the delogged samples; with the whole chain these are the numbers of the results table. plot_blob prints the same for a derived scalar. There is a plot exactly if the samples are not all equal and no median is 0 or equal to its 16th percentile (so that the numbers can be printed).", "quantifier": "every chain, parameter, label and choice of last_step", "why_tests_cant": "all chains, including those that stay at one value", "anchors": ["src/naima/plot.py:_plot_chain_func", "src/naima/plot.py:plot_distribution", "src/naima/analysis.py:save_results_table"]}
{"id": "C104", "title": "Energy axis of plot_fit contains the data", "statement": "The energy axis of plot_fit runs between powers of ten, contains every energy bin of the data and the requested e_range, and exceeds the data by less than a decade at either end; recomputed models are evaluated from the first to the second bound of e_range, at increasing, logarithmically spaced energies.", "quantifier": "every valid data table, energy unit and e_range", "why_tests_cant": "all tables", "anchors": ["src/naima/plot.py:plot_fit", "src/naima/plot.py:_calc_ML", "src/naima/plot.py:_read_or_calc_samples"]}
{"id": "C105", "title": "A reloaded run can be plotted", "statement": "The object returned by read_run can be passed to plot_fit as the original sampler; the model function is needed only with e_range.", "quantifier": "every stored run and every set of plot options", "why_tests_cant": "all options and runs", "anchors": ["src/naima/analysis.py:read_run", "src/naima/analysis.py:_result", "src/naima/plot.py:plot_fit"]}
{"id": "C106", "title": "plot_corner leaves the global plot settings alone", "statement": "After any sequence of plot_corner calls, successful or not, the global line width is what it was before.", "quantifier": "every history of calls, with the package corner installed or not", "why_tests_cant": "all histories, including failing calls", "anchors": ["src/naima/plot.py:plot_corner"]}
{"id": "C107", "title": "What plot_fit draws", "statement": "plot_fit draws confidence bands when levels are given, otherwise n_samples samples, and (documented) confidence bands when n_samples is None; data by default when the model has the energies and a flux type of the data; residuals only with data, by default when a curve is asked for; models are recomputed when e_range is given.", "quantifier": "every combination of options, run and model", "why_tests_cant": "all combinations of options", "anchors": ["src/naima/plot.py:plot_fit"]}
{"id": "C108", "title": "Printed value and errors are a fair account", "statement": "The text 'value +upper -lower' made for a value other than 0 and two positive errors reads as the value within 2/7 of the smaller error and as errors within 3/7 of the true ones, errors having one or two significant digits and the value the same last decimal; the power of ten is that of the value from 1000 on and from 1/1000 down; a negative lower error is an error.", "quantifier": "every value and pair of errors", "why_tests_cant": "all real values", "anchors": ["src/naima/plot.py:_latex_value_error", "src/naima/plot.py:round2"]}
{"id": "C109", "title": "Data sets overlaid in one plot share the energy axis", "statement": "A second data set drawn with plot_data into an existing figure is placed at its energies on the axis of the first, also if given in another energy unit.", "quantifier": "every pair of data sets and units", "why_tests_cant": "all pairs of units", "anchors": ["src/naima/plot.py:plot_data"]}
{"id": "C110", "title": "Finer energy grids converge to the exact integral", "statement": "As the number of grid points per decade (nEed, nEpd) grows, the energy content, the synchrotron, inverse Compton and pion-decay spectra tend to the exact integrals over the particle distribution between the bounds of the grid; for the energy content the relative error is at most step^(k2-k1+1e-10) where step is the ratio of neighbouring grid points and k1, k2 bound the logarithmic slope of E dN/dE (so power laws are exact up to step^1e-10).", "quantifier": "every non-negative particle distribution (continuous, or with an integrable integrand), all bounds, photon energies, thermal seed fields, fields, pion-decay models, and every tolerance", "why_tests_cant": "a limit: all tolerances, all sufficiently fine grids, all distributions", "anchors": ["src/naima/radiative.py:BaseElectron._gam", "src/naima/radiative.py:BaseProton._Ep", "src/naima/radiative.py:Synchrotron._spectrum", "src/naima/radiative.py:InverseCompton._calc_specic", "src/naima/radiative.py:PionDecay._spectrum", "src/naima/utils.py:trapz_loglog"]}
{"id": "C111", "title": "Several particle populations; more particles", "statement": "On every grid the energy contents, and synchrotron, inverse Compton and pion-decay spectra, of two non-negative populations add up to at most (step of the grid)^(2e-10) times those of any distribution that contains both (so more particles never mean less, up to that factor); for energy contents of populations with bounded slopes the excess over the sum is at most a power of the step of the grid that tends to 1 with it; in the limit of fine grids synchrotron emission is additive.", "quantifier": "all pairs of non-negative particle distributions, grids, photon energies, seed fields and pion-decay models", "why_tests_cant": "all functions of energy", "anchors": ["src/naima/radiative.py:Synchrotron._spectrum", "src/naima/radiative.py:InverseCompton._calc_specic", "src/naima/radiative.py:PionDecay._spectrum", "src/naima/radiative.py:BaseElectron.compute_We", "src/naima/radiative.py:BaseProton.compute_Wp", "src/naima/utils.py:trapz_loglog"]}
{"id": "C112", "title": "Results for an array have its length", "statement": "For a one-dimensional array of one or more photon energies flux and sed of every radiative model return an array of the same length, also through the cache after any history of requests of different values; a request with the bytes of an earlier one gets the shape of the earlier answer.", "quantifier": "all array shapes, all radiative models, numbers of seed fields and grid points, and all histories of requests", "why_tests_cant": "all shapes and histories", "anchors": ["src/naima/radiative.py:BaseRadiative.flux", "src/naima/radiative.py:BaseRadiative.sed", "src/naima/radiative.py:Synchrotron._spectrum", "src/naima/radiative.py:InverseCompton._calc_specic", "src/naima/radiative.py:Bremsstrahlung._spectrum", "src/naima/radiative.py:PionDecay._spectrum", "src/naima/radiative.py:PionDecayKelner06._spectrum", "src/naima/utils.py:trapz_loglog", "src/naima/model_utils.py:memoize"]}
{"id": "C113", "title": "Radiation does not depend on the units of the inputs", "statement": "Magnetic field, particle energy bounds, densities, seed temperatures, angles, energies and densities, photon energies, distance and the particle distribution can be given in any units of the right kind: fluxes, spectral energy distributions and particle energy contents come out the same.", "quantifier": "all quantities, all units, all particle distributions that respect units, all radiative models", "why_tests_cant": "all units and functions", "anchors": ["src/naima/radiative.py:BaseElectron._gam", "src/naima/radiative.py:BaseElectron._nelec", "src/naima/radiative.py:BaseElectron.compute_We", "src/naima/radiative.py:Synchrotron._spectrum", "src/naima/radiative.py:InverseCompton._calc_specic", "src/naima/radiative.py:InverseCompton._iso_ic_on_monochromatic", "src/naima/radiative.py:InverseCompton._process_input_seed", "src/naima/radiative.py:Bremsstrahlung._spectrum", "src/naima/radiative.py:BaseProton._Ep", "src/naima/radiative.py:BaseProton.compute_Wp", "src/naima/radiative.py:PionDecay._spectrum", "src/naima/radiative.py:PionDecayKelner06._spectrum", "src/naima/radiative.py:BaseRadiative.flux", "src/naima/radiative.py:BaseRadiative.sed"]}
{"id": "C114", "title": "Forms of the photon energies", "statement": "flux, sed and the spectral models give for a table or dict with a one-dimensional energy column the result for the column itself; a quantity or column that is no energy is refused with TypeError; sed and the spectral models also take what can be converted to an energy and refuse the rest, and tables without energy column, with TypeError.", "quantifier": "all arguments, cache on and off, with and without selecting a seed", "why_tests_cant": "all arguments and settings", "anchors": ["src/naima/radiative.py:_validate_ene", "src/naima/radiative.py:BaseRadiative.flux", "src/naima/radiative.py:BaseRadiative.sed", "src/naima/radiative.py:InverseCompton.sed", "src/naima/models.py:_validate_ene", "src/naima/model_utils.py:memoize", "src/naima/extern/validator.py:validate_array"]}
{"id": "C115", "title": "Arrays are evaluated element by element", "statement": "Evaluating a radiative model on an array of photon energies gives at every energy what the formulas give for that energy alone, whatever the other energies are; trapz_loglog along any axis of an array of any number of dimensions integrates each line on its own.", "quantifier": "all arrays, all numbers of dimensions and axes, all grids, seeds and particle distributions", "why_tests_cant": "all arrays, shapes and masks", "anchors": ["src/naima/utils.py:trapz_loglog", "src/naima/radiative.py:Synchrotron._spectrum", "src/naima/radiative.py:InverseCompton._iso_ic_on_planck", "src/naima/radiative.py:InverseCompton._ani_ic_on_planck", "src/naima/radiative.py:InverseCompton._iso_ic_on_monochromatic", "src/naima/radiative.py:InverseCompton._calc_specic", "src/naima/radiative.py:InverseCompton._spectrum", "src/naima/radiative.py:Bremsstrahlung._sigma_ee", "src/naima/radiative.py:Bremsstrahlung._emiss_ee", "src/naima/radiative.py:PionDecay._diffsigma", "src/naima/radiative.py:PionDecay._Amax", "src/naima/radiative.py:PionDecay._F", "src/naima/radiative.py:PionDecay._sigma_pi", "src/naima/radiative.py:PionDecay._b_params", "src/naima/radiative.py:PionDecay._nuclear_factor"]}
{"id": "C116", "title": "Rounding errors stay in the last digits", "statement": "In double precision arithmetic the log-likelihood of n points differs from its exact value by at most n + 6 units in the last place, in whatever order numpy adds the points; sums of non-negative terms by at most n; flux and SED at a distance, and conversion to SED and back, by at most 9; the spectral models and the synchrotron function by an explicit bound that depends only on their indices and on how far the energy is from the reference, break and cutoff energies.", "quantifier": "all double inputs without overflow or underflow, all data tables, all summation orders, every C library accurate to one unit in the last place", "why_tests_cant": "all inputs and all summation orders", "anchors": ["src/naima/core.py:lnprobmodel", "src/naima/radiative.py:BaseRadiative.flux", "src/naima/radiative.py:BaseRadiative.sed", "src/naima/utils.py:sed_conversion", "src/naima/models.py:PowerLaw.eval", "src/naima/models.py:ExponentialCutoffPowerLaw.eval", "src/naima/models.py:BrokenPowerLaw.eval", "src/naima/models.py:ExponentialCutoffBrokenPowerLaw.eval", "src/naima/models.py:LogParabola.eval", "src/naima/radiative.py:Synchrotron._spectrum"]}
{"id": "C117", "title": "Log-log integration survives rounding", "statement": "In double precision trapz_loglog returns, on increasing positive abscissae, the exact integral of the power laws through the samples up to an explicit relative error: 43 * 2^-53 * (1+|b|)(1+w)(1 + 1/(|b+1| w)) for a bin of logarithmic width w and index b at least 1e-6 away from -1 (eight digits on ordinary grids), and for every index, also next to the switch at |b+1| = 1e-10, at most 5e-5 (1+|b|)(1+1/w) + 3e-10 (1+|b|)(1+w); adding n bins in any order costs one more unit in the last place each.", "quantifier": "all samples and grids with (1+|b|)(1+w) and (1+|b|)(1+1/w) at most 1e7, all summation orders, every C library accurate to one unit in the last place", "why_tests_cant": "all inputs; cancellation near index -1 happens on a set tests never hit", "anchors": ["src/naima/utils.py:trapz_loglog"]}
{"id": "C118", "title": "The lookup table agrees with the direct computation at its nodes", "statement": "The cross section read from a lookup table made by the generator equals the direct one at all tabulated proton and photon energies, zeros included, and so does a pion-decay spectrum over tabulated energies above the threshold.", "quantifier": "all grids of at least four increasing positive energies, all high-energy models, all proton distributions, all photon energies inside and outside the table, every interpolating spline", "why_tests_cant": "the table is a second implementation; agreement has to hold at every pair of energies, including outside the table where no test evaluates it", "anchors": ["src/naima/radiative.py:LookupTable", "src/naima/radiative.py:generate_lut_pp", "src/naima/radiative.py:_calc_lut_pp", "src/naima/radiative.py:PionDecay._spectrum"]}
{"id": "C119", "title": "The numerical integrals are second-order accurate", "statement": "If the logarithmic slope of the integrand changes by at most M per unit of ln x, the log-log integral over any grid of logarithmic step h is the exact integral within a factor exp(M h^2/8 + 1e-10 h). For the energy content of electrons and protons this holds on the code's own grid with M = 2|beta| for log parabolas and beta^2 (Emax/Ecut)^beta for cutoffs; at the default 100 points per decade the energy content is right to one per cent whenever M <= 100 and to 1e-4 whenever M <= 1. The synchrotron flux at photon energy E has the coefficient M + 2 + 4 E/Ec(Emin). In double precision, with samples accurate to K units in the last place, rounding adds an explicit amount.", "quantifier": "all positive integrands twice differentiable in log-log, all grids, all particle distributions, magnetic fields, photon energies, numbers of points per decade, every rounding of the samples, bins and sums", "why_tests_cant": "an error bound has to hold for every distribution and grid", "anchors": ["src/naima/utils.py:trapz_loglog", "src/naima/radiative.py:BaseElectron.compute_We", "src/naima/radiative.py:BaseProton.compute_Wp", "src/naima/radiative.py:Synchrotron._spectrum"]}
{"id": "C120", "title": "A fit from start to finish", "statement": "A call of get_sampler either raises before any sampling step (missing data, invalid data, missing model or starting point, an exception of the model, incompatible units) or makes a sampler of the posterior of the validated data, the model and the prior given. A successful run_sampler returns a chain of exactly nrun successive ensembles continuing the nburn burn-in steps from the walkers drawn around the starting point; the last one is the position returned; every ensemble has nwalkers rows of all the parameters; run_info records the number of walkers and of burn-in and production steps, the actual starting point, whether guess was asked for and the median of the burnt-in walkers. A sampler passed together with a position is the one that is run, from that position; guess without a single normalisation parameter changes nothing.", "quantifier": "all data, models, priors, starting points, numbers of walkers, steps and threads, guess, interactive sessions and pre-fits, all ensemble samplers and random numbers", "why_tests_cant": "the sampler is random and the number of steps unbounded", "anchors": ["src/naima/core.py:get_sampler", "src/naima/core.py:run_sampler", "src/naima/core.py:_run_mcmc"]}
{"id": "C121", "title": "What the saved results table records", "statement": "A successful save_results_table writes exactly one file, named after outname and the format, holding the table returned; a call that fails, for whatever reason, writes nothing, and an existing file is replaced only with overwrite. For the whole chain and a run_info without entries of the same names the metadata hold the number of samples, a sample of maximal log-probability, that log-probability and the BIC; they hold the unit of every scalar blob (of the first walker of the last step) and every entry of run_info (numbers, strings, lists, numpy numbers and arrays) with its value, in the default format all as plain Python values. Saving succeeds for the run_info of every fit whenever the rows can be computed and the file does not exist.", "quantifier": "all runs, run_info dictionaries, formats, file systems, with or without PyYAML, all flags", "why_tests_cant": "run_info is an open dictionary and the values depend on the whole chain; only a handful of dictionaries and directories can be tried", "anchors": ["src/naima/analysis.py:save_results_table"]}
{"id": "C122", "title": "Constructing a radiative model", "statement": "A radiative model other than PionDecayKelner06 is made only of a particle distribution whose amplitude, or whose result at three energies, is per unit energy, and of a magnetic field, density (of the pion-decay models), transition energy and seed fields of the right units; a magnetic field or density of other units is rejected with an exception. Every distribution that keeps its contract is accepted, be it a function, a spectral model or a class of the user. The object records the distribution and the arguments as given, settings not given have fixed defaults (the proton threshold and the bremsstrahlung weights with the documented values), settings given as keywords have the value given, and every setting exists and takes part in the identification of cached results. Whatever distribution the object is given later, it computes exactly with what that returns, and raises if that is not per unit energy.", "quantifier": "all particle distributions (any amplitude attribute, any behaviour when called), all arguments and keyword settings, all five classes, any later reassignment of the distribution", "why_tests_cant": "distributions are arbitrary Python callables and settings are open keywords", "anchors": ["src/naima/radiative.py:BaseRadiative.__init__", "src/naima/radiative.py:Synchrotron.__init__", "src/naima/radiative.py:InverseCompton.__init__", "src/naima/radiative.py:Bremsstrahlung.__init__", "src/naima/radiative.py:PionDecay.__init__", "src/naima/radiative.py:PionDecayKelner06.__init__", "src/naima/extern/validator.py:validate_physical_type"]}
{"id": "C123", "title": "Sherpa models from their parameters to the photons per bin", "statement": "Each parameter of the four Sherpa models does what its name says: the particles are a power law of the given index and amplitude at the reference energy, cut off unless the cutoff is 0; temperatures and energy densities of the photon fields, the magnetic field, the densities and the bremsstrahlung weights reach the radiative model in the documented units; the photons of a bin are proportional to the amplitude, fall with the square of the distance, depend on that bin only and, except for bremsstrahlung, are not negative. The defaults are within the limits, parameter names are distinct and only index and amplitude are thawed. guess changes the amplitude only, so that the model has the integral of the data.", "quantifier": "all parameter values, all energies and bins, all four models, all physical constants satisfying a few inequalities", "why_tests_cant": "parameters, energies and bins are continuous", "anchors": ["src/naima/sherpa_models.py:SherpaModel.guess", "src/naima/sherpa_models.py:SherpaModel.calc", "src/naima/sherpa_models.py:SherpaModelECPL", "src/naima/sherpa_models.py:InverseCompton", "src/naima/sherpa_models.py:Synchrotron", "src/naima/sherpa_models.py:Bremsstrahlung", "src/naima/sherpa_models.py:PionDecay"]}
{"id": "C124", "title": "The curves drawn for a fit", "statement": "In the plots of a fit (for outputs stored as returned, see C163) the best-fit line shows, in the documented units, what the model function returned for a most probable sample of the chain, or with e_range what it returns for the parameters of such a sample over the given range; the lines of the samples, for outputs whose energies do not depend on the parameters, show what it returned (or returns) for samples of the last step or of the whole chain, as many lines as asked for; scalar outputs become a distribution of all the values in one unit, and outputs that are curves a fit plot. An output that is no curve is an error. Without data the axes keep at most ten (SED) or twenty decades below the top and the energy axis ends at or above the last visible point, if there is one.", "quantifier": "all chains, model functions, outputs, units, energy ranges and random draws", "why_tests_cant": "chains, model functions and units range over unbounded sets", "anchors": ["src/naima/plot.py:_process_blob", "src/naima/plot.py:_read_or_calc_samples", "src/naima/plot.py:_calc_ML", "src/naima/plot.py:find_ML", "src/naima/plot.py:_plot_MLmodel", "src/naima/plot.py:plot_samples", "src/naima/plot.py:plot_blob", "src/naima/plot.py:plot_fit", "src/naima/core.py:lnprob"]}
{"id": "C125", "title": "PionDecayKelner06: flux at an energy does not depend on the other energies requested", "statement": "The flux PionDecayKelner06 returns for one photon energy is the same whatever other energies are in the same request.", "quantifier": "every energy array and every position", "why_tests_cant": "all batches; for pion decay the regime switch looks at the whole array", "anchors": ["src/naima/radiative.py:PionDecay._spectrum", "src/naima/radiative.py:PionDecayKelner06._spectrum", "src/naima/radiative.py:Synchrotron._spectrum"]}
{"id": "C126", "title": "Seed photon fields of the same name", "statement": "If two seed photon fields of the same name are requested, both contribute.", "quantifier": "every list of seed specifications", "why_tests_cant": "all lists including repeated names", "anchors": ["src/naima/radiative.py:InverseCompton._process_input_seed"]}
{"id": "C127", "title": "Protons below the pion threshold do not contribute", "statement": "A proton grid that starts below the pion threshold gives the spectrum of the protons above it.", "quantifier": "every proton and photon energy", "why_tests_cant": "continuum", "anchors": ["src/naima/radiative.py:PionDecay._F", "src/naima/radiative.py:PionDecay._sigma_pi", "src/naima/radiative.py:PionDecay._calc_specpp_hiE"]}
{"id": "C128", "title": "Nearby sources are not absorbed", "statement": "A source at a redshift below 0.01 is not absorbed at any energy.", "quantifier": "every redshift, energy and non-negative tabulated opacity", "why_tests_cant": "continuum", "anchors": ["src/naima/models.py:EblAbsorptionModel"]}
{"id": "C129", "title": "normal_prior and log_uniform_prior are log densities", "statement": "normal_prior is the logarithm of a Gaussian density and log_uniform_prior that of a log-uniform density, up to constants.", "quantifier": "every value and hyper-parameters", "why_tests_cant": "real identities", "anchors": ["src/naima/core.py:uniform_prior", "src/naima/core.py:normal_prior", "src/naima/core.py:log_uniform_prior"]}
{"id": "C130", "title": "SED conversion of number densities", "statement": "sed_conversion converts the differential number density it lists among its types.", "quantifier": "every supported unit and energy", "why_tests_cant": "all units and energies", "anchors": ["src/naima/utils.py:sed_conversion", "src/naima/utils.py:validate_data_table"]}
{"id": "C131", "title": "Validation of nan and of arrays", "statement": "validate_scalar and validate_array reject every value outside the declared domain, be it nan or an entry of an array.", "quantifier": "every value, domain and type", "why_tests_cant": "all values", "anchors": ["src/naima/extern/validator.py:validate_scalar", "src/naima/extern/validator.py:validate_array"]}
{"id": "C132", "title": "Saved runs keep all blobs", "statement": "read_run(save_run(sampler)) reproduces blobs of every kind and number.", "quantifier": "every chain, blob structure and metadata", "why_tests_cant": "all shapes and blob types", "anchors": ["src/naima/analysis.py:save_run", "src/naima/analysis.py:read_run"]}
{"id": "C133", "title": "Results table: last step and other labels", "statement": "With last_step the results table summarises the last step of every walker, and every list of labels gives a table with one row per label.", "quantifier": "every chain and label list", "why_tests_cant": "all chains", "anchors": ["src/naima/analysis.py:save_results_table"]}
{"id": "C134", "title": "Interactive fitter after failures", "statement": "Also after a fit that stops at the limit of evaluations, after an exception and after auto-update is switched on again, the window displays the slider positions and the flag and settings are right.", "quantifier": "every sequence of user events, model and fit outcome", "why_tests_cant": "all event histories", "anchors": ["src/naima/model_fitter.py:InteractiveModelFitter"]}
{"id": "C135", "title": "Sherpa models for separate bins and points", "statement": "The Sherpa wrappers return for bins with gaps between them the integral over each bin, and for points the value of the model.", "quantifier": "every set of contiguous bins", "why_tests_cant": "all bin sets", "anchors": ["src/naima/sherpa_models.py:SherpaModelECPL", "src/naima/sherpa_models.py:_mergex"]}
{"id": "C136", "title": "Values and errors of zero are printed", "statement": "A value of 0 and errors of 0 are printed as such.", "quantifier": "every median and pair of errors", "why_tests_cant": "all real values and errors", "anchors": ["src/naima/plot.py:_latex_value_error"]}
{"id": "C137", "title": "Diagnostic plots: all labels and arguments", "statement": "save_diagnostic_plots writes one file per parameter and per model for every list of labels, sed flags and blob labels, and does not change its arguments.", "quantifier": "every list of labels, models, sed flags and blob labels", "why_tests_cant": "all labels and argument combinations", "anchors": ["src/naima/analysis.py:save_diagnostic_plots"]}
{"id": "C138", "title": "Every chain can be plotted", "statement": "plot_chain draws every chain whose samples are not all equal.", "quantifier": "every chain, parameter, label and choice of last_step", "why_tests_cant": "all chains, including those that stay at one value", "anchors": ["src/naima/plot.py:_plot_chain_func", "src/naima/plot.py:plot_distribution", "src/naima/analysis.py:save_results_table"]}
{"id": "C139", "title": "Exact superposition on a finite grid", "statement": "On every grid the energy content of the sum of two populations is the sum of their contents, and adding particles never lowers it.", "quantifier": "all pairs of non-negative particle distributions, grids, photon energies, seed fields and pion-decay models", "why_tests_cant": "all functions of energy", "anchors": ["src/naima/radiative.py:Synchrotron._spectrum", "src/naima/radiative.py:InverseCompton._calc_specic", "src/naima/radiative.py:PionDecay._spectrum", "src/naima/radiative.py:BaseElectron.compute_We", "src/naima/radiative.py:BaseProton.compute_Wp", "src/naima/utils.py:trapz_loglog"]}
{"id": "C140", "title": "Results for floats, empty and two-dimensional arrays have the shape of the request", "statement": "flux and sed return a float for a float, an empty array for an empty one, and an array of the same shape for a two-dimensional one, whatever was requested before.", "quantifier": "all array shapes, all radiative models, numbers of seed fields and grid points, and all histories of requests", "why_tests_cant": "all shapes and histories", "anchors": ["src/naima/radiative.py:BaseRadiative.flux", "src/naima/radiative.py:BaseRadiative.sed", "src/naima/radiative.py:Synchrotron._spectrum", "src/naima/radiative.py:InverseCompton._calc_specic", "src/naima/radiative.py:Bremsstrahlung._spectrum", "src/naima/radiative.py:PionDecay._spectrum", "src/naima/radiative.py:PionDecayKelner06._spectrum", "src/naima/utils.py:trapz_loglog", "src/naima/model_utils.py:memoize"]}
{"id": "C141", "title": "Forms of the photon energies: flux, seeds and scalars", "statement": "flux takes the same forms of photon energies as sed, with and without the cache and for one seed, and refuses everything else with TypeError.", "quantifier": "all arguments, cache on and off, with and without selecting a seed", "why_tests_cant": "all arguments and settings", "anchors": ["src/naima/radiative.py:_validate_ene", "src/naima/radiative.py:BaseRadiative.flux", "src/naima/radiative.py:BaseRadiative.sed", "src/naima/radiative.py:InverseCompton.sed", "src/naima/models.py:_validate_ene", "src/naima/model_utils.py:memoize", "src/naima/extern/validator.py:validate_array"]}
{"id": "C142", "title": "The lookup table outside its range", "statement": "With a lookup table there is never emission where the direct computation has none, in particular outside the table, and no tabulated energy spoils the rest of the table.", "quantifier": "all grids of at least four increasing positive energies, all high-energy models, all proton distributions, all photon energies inside and outside the table, every interpolating spline", "why_tests_cant": "the table is a second implementation; agreement has to hold at every pair of energies, including outside the table where no test evaluates it", "anchors": ["src/naima/radiative.py:LookupTable", "src/naima/radiative.py:generate_lut_pp", "src/naima/radiative.py:_calc_lut_pp", "src/naima/radiative.py:PionDecay._spectrum"]}
{"id": "C143", "title": "Continuing a fit", "statement": "The sampler passed to run_sampler is the one that is run, a run that fails leaves the results of the previous one, and run_info tells whether the normalisation was guessed.", "quantifier": "all data, models, priors, starting points, numbers of walkers, steps and threads, guess, interactive sessions and pre-fits, all ensemble samplers and random numbers", "why_tests_cant": "the sampler is random and the number of steps unbounded", "anchors": ["src/naima/core.py:get_sampler", "src/naima/core.py:run_sampler", "src/naima/core.py:_run_mcmc"]}
{"id": "C144", "title": "Results table: clashing entries, numpy strings, last step, mixed units", "statement": "run_info never replaces the results, every run_info can be saved, n_samples is the number of samples also with last_step, the default file is the documented outname_results.dat, and blobs in different units are converted to the unit recorded.", "quantifier": "all runs, run_info dictionaries, formats, file systems, with or without PyYAML, all flags", "why_tests_cant": "run_info is an open dictionary and the values depend on the whole chain; only a handful of dictionaries and directories can be tried", "anchors": ["src/naima/analysis.py:save_results_table"]}
{"id": "C145", "title": "Constructing a radiative model: everything wrong is rejected", "statement": "A radiative model of a distribution that does not return particles per unit energy, of a density of other units, of a negative or array-valued field or density, or with settings of the wrong kind is rejected when it is made, and the documented defaults are the ones used.", "quantifier": "all particle distributions (any amplitude attribute, any behaviour when called), all arguments and keyword settings, all five classes, any later reassignment of the distribution", "why_tests_cant": "distributions are arbitrary Python callables and settings are open keywords", "anchors": ["src/naima/radiative.py:BaseRadiative.__init__", "src/naima/radiative.py:Synchrotron.__init__", "src/naima/radiative.py:InverseCompton.__init__", "src/naima/radiative.py:Bremsstrahlung.__init__", "src/naima/radiative.py:PionDecay.__init__", "src/naima/radiative.py:PionDecayKelner06.__init__", "src/naima/extern/validator.py:validate_physical_type"]}
{"id": "C146", "title": "Sherpa models: parameters within the declared limits", "statement": "Every choice of parameters within the declared limits gives a spectrum, and the inverse Compton model emits at all energies at which its electrons can.", "quantifier": "all parameter values, all energies and bins, all four models, all physical constants satisfying a few inequalities", "why_tests_cant": "parameters, energies and bins are continuous", "anchors": ["src/naima/sherpa_models.py:SherpaModel.guess", "src/naima/sherpa_models.py:SherpaModel.calc", "src/naima/sherpa_models.py:SherpaModelECPL", "src/naima/sherpa_models.py:InverseCompton", "src/naima/sherpa_models.py:Synchrotron", "src/naima/sherpa_models.py:Bremsstrahlung", "src/naima/sherpa_models.py:PionDecay"]}
{"id": "C147", "title": "The curves drawn for a fit: every model function", "statement": "Also for outputs whose energies depend on the parameters every line of plot_samples shows what the model returned for a sample; a model function that the fit accepts can be drawn over another range; plot_fit draws every curve.", "quantifier": "all chains, model functions, outputs, units, energy ranges and random draws", "why_tests_cant": "chains, model functions and units range over unbounded sets", "anchors": ["src/naima/plot.py:_process_blob", "src/naima/plot.py:_read_or_calc_samples", "src/naima/plot.py:_calc_ML", "src/naima/plot.py:find_ML", "src/naima/plot.py:_plot_MLmodel", "src/naima/plot.py:plot_samples", "src/naima/plot.py:plot_blob", "src/naima/plot.py:plot_fit", "src/naima/core.py:lnprob"]}
{"id": "C148", "title": "PionDecay is the published cross section", "statement": "Evaluated directly, PionDecay uses exactly the differential gamma-ray production cross section of proton-proton collisions published by Kafexhiu et al. (2014), for each of its four high-energy models and with or without nuclear enhancement, and its spectrum tends, as the points per decade grow, to n_H c times the integral of the proton number times that cross section.", "quantifier": "all proton and photon energies above threshold, all proton spectra, all four high-energy models, any position on the grid", "why_tests_cant": "energies and particle spectra are continuous; a test compares a few numbers with stored numbers of the same code", "anchors": ["src/naima/radiative.py:PionDecay._sigma_inel", "src/naima/radiative.py:PionDecay._sigma_pi_loE", "src/naima/radiative.py:PionDecay._sigma_pi", "src/naima/radiative.py:PionDecay._Amax", "src/naima/radiative.py:PionDecay._F", "src/naima/radiative.py:PionDecay._diffsigma", "src/naima/radiative.py:PionDecay._nuclear_factor", "src/naima/radiative.py:PionDecay._spectrum"]}
{"id": "C149", "title": "PionDecayKelner06 is the published parametrisation", "statement": "PionDecayKelner06 uses the photons per collision, the inelastic cross section and the delta-function pion spectrum of Kelner, Aharonian and Bugayov (2006): the integral over x above the transition energy, twice the pion integral below, scaled to agree at the transition energy when a spectrum straddles it.", "quantifier": "all photon energies, proton spectra, densities, transition energies and quadrature rules", "why_tests_cant": "energies and particle spectra are continuous; a test compares a few numbers with stored numbers of the same code", "anchors": ["src/naima/radiative.py:PionDecayKelner06._Fgamma", "src/naima/radiative.py:PionDecayKelner06._sigma_inel", "src/naima/radiative.py:PionDecayKelner06._photon_integrand", "src/naima/radiative.py:PionDecayKelner06._calc_specpp_hiE", "src/naima/radiative.py:PionDecayKelner06._delta_integrand", "src/naima/radiative.py:PionDecayKelner06._calc_specpp_loE", "src/naima/radiative.py:PionDecayKelner06._spectrum"]}
{"id": "C150", "title": "Synchrotron is the published emissivity", "statement": "Synchrotron emits, per electron, sqrt(3)/(2 pi) (fine structure constant) (cyclotron energy)/(hbar E) times the approximation of Aharonian, Kelner and Prosekin (2010) to the emissivity in a random field, at the critical energy 3/2 (cyclotron energy) gamma^2; the spectrum tends to the integral over the electrons, and the approximation has the limiting behaviour it should far above and below the critical energy.", "quantifier": "all fields, electron spectra, Lorentz factors and photon energies", "why_tests_cant": "energies and particle spectra are continuous; a test compares a few numbers with stored numbers of the same code", "anchors": ["src/naima/radiative.py:Synchrotron._spectrum"]}
{"id": "C151", "title": "Inverse Compton on black bodies is the published approximation", "statement": "InverseCompton on thermal fields, isotropic or seen at an angle, emits per electron what Khangulyan, Aharonian and Kelner (2014) give for a black body, scaled by the field's energy density over that of the black body; the constants agree with the physical ones, electrons below the photon energy contribute nothing, and the spectrum tends to the sum over fields of the integrals over the electrons.", "quantifier": "all temperatures, densities, scattering angles, electron spectra and photon energies, any number of fields", "why_tests_cant": "energies and particle spectra are continuous; a test compares a few numbers with stored numbers of the same code", "anchors": ["src/naima/radiative.py:G12", "src/naima/radiative.py:G34", "src/naima/radiative.py:InverseCompton._iso_ic_on_planck", "src/naima/radiative.py:InverseCompton._ani_ic_on_planck", "src/naima/radiative.py:InverseCompton._calc_specic", "src/naima/radiative.py:InverseCompton._spectrum"]}
{"id": "C152", "title": "Inverse Compton on photons of given energies is the Jones formula", "statement": "InverseCompton on a monochromatic photon field emits per electron the Jones / Blumenthal-Gould rate with the Thomson cross section, and nothing outside the kinematic limits; in the Thomson limit that is one scattering per sigma_T c n into photons of mean energy 4/3 gamma^2 epsilon. On a field given as a table it tends, with a refined table, to the integral of that rate over the field.", "quantifier": "all photon energies, photon densities, electron energies and photon fields", "why_tests_cant": "energies and particle spectra are continuous; a test compares a few numbers with stored numbers of the same code", "anchors": ["src/naima/radiative.py:InverseCompton._iso_ic_on_monochromatic", "src/naima/radiative.py:InverseCompton._calc_specic"]}
{"id": "C153", "title": "Bremsstrahlung is the published cross section", "statement": "Bremsstrahlung uses the electron-proton and electron-electron cross sections of Baring et al. (1999), with the non-relativistic formula of Haug up to 2 MeV, and its spectrum tends to n0 c times the integral over the electrons of the two, weighted as documented.", "quantifier": "all photon and electron energies, electron spectra, densities and weights", "why_tests_cant": "energies and particle spectra are continuous; a test compares a few numbers with stored numbers of the same code", "anchors": ["src/naima/radiative.py:Bremsstrahlung._sigma_1", "src/naima/radiative.py:Bremsstrahlung._sigma_2", "src/naima/radiative.py:Bremsstrahlung._sigma_ee_rel", "src/naima/radiative.py:Bremsstrahlung._F", "src/naima/radiative.py:Bremsstrahlung._sigma_ee_nonrel", "src/naima/radiative.py:Bremsstrahlung._sigma_ee", "src/naima/radiative.py:Bremsstrahlung._sigma_ep", "src/naima/radiative.py:Bremsstrahlung._spectrum"]}
{"id": "C154", "title": "The chain does not depend on the number of threads", "statement": "With the same random numbers a run gives the same chain and blobs whatever the number of threads and however the evaluations are spread over the processes, if the model function's value at given parameters does not depend on earlier evaluations; model functions that build their naima objects from the parameters, as in the documentation, are such functions whatever they call.", "quantifier": "all numbers of threads, schedules, chains, samplers that use the log-probability only through its values, model functions and calls", "why_tests_cant": "schedules of a process pool and chains range over unbounded sets, and a test sees one schedule", "anchors": ["src/naima/core.py:get_sampler", "src/naima/core.py:_run_mcmc", "src/naima/core.py:lnprob", "src/naima/model_utils.py:memoize", "src/naima/radiative.py:BaseElectron"]}
{"id": "C155", "title": "Threads: model functions that keep their objects", "statement": "The chain does not depend on the number of threads either for model functions that keep naima objects between evaluations and set all parameters they use.", "quantifier": "all numbers of threads, schedules, chains, model functions, objects with their caches and calls", "why_tests_cant": "schedules of a process pool and chains range over unbounded sets, and a test sees one schedule", "anchors": ["src/naima/core.py:get_sampler", "src/naima/core.py:_run_mcmc", "src/naima/core.py:lnprob", "src/naima/model_utils.py:memoize", "src/naima/radiative.py:BaseElectron"]}
{"id": "C156", "title": "From tables to likelihood", "statement": "The log-likelihood used in a fit is the sum, over every row of every table given, of that row's own contribution in physical units as an SED: for a detection the Gaussian misfit with the error of the side on which the model lies, for a violated upper limit the log of the tail probability of its level, for a respected one nothing - whatever units, kinds of flux, order of rows, number of tables and data_sed are used for the data and whatever unit and kind of flux the model returns.", "quantifier": "all lists of acceptable tables (any number, units, row order, flux or luminosity, SED or differential), data_sed options, models returning any compatible unit; upper limits of one confidence level, not all rows violated limits (C39 has the rest)", "why_tests_cant": "tables, units, row orders, splits and model functions range over unbounded sets; a test compares a few", "anchors": ["src/naima/core.py:get_sampler", "src/naima/core.py:lnprobmodel", "src/naima/utils.py:validate_data_table", "src/naima/utils.py:sed_conversion"]}
{"id": "C157", "title": "Same data, same fit", "statement": "Giving the same measurements in another row order, in other units, as SED or differential flux, split over other tables, with other energy bins or groups, with another data_sed, and the same spectrum in another unit, gives the same log-likelihood.", "quantifier": "all pairs of acceptable lists of tables with the same measurements, all pairs of model functions computing the same spectrum", "why_tests_cant": "tables, units, row orders, splits and model functions range over unbounded sets; a test compares a few", "anchors": ["src/naima/core.py:get_sampler", "src/naima/core.py:lnprobmodel", "src/naima/utils.py:validate_data_table", "src/naima/utils.py:sed_conversion"]}
{"id": "C158", "title": "A sample that is not a number makes the integral not a number", "statement": "trapz_loglog of samples of which some are nan is nan, so that a failed evaluation is never silently dropped from a flux.", "quantifier": "all positions of nan samples, all other samples and grids", "why_tests_cant": "positions, samples and grids are unbounded", "anchors": ["src/naima/utils.py:trapz_loglog"]}
{"id": "C159", "title": "Integration of samples of either sign", "statement": "For samples of either sign trapz_loglog lies between the lower and the upper rectangle rule, changes sign with the samples and uses every sample that is not next to a zero.", "quantifier": "all samples of either sign on all increasing positive grids", "why_tests_cant": "all samples and grids", "anchors": ["src/naima/utils.py:trapz_loglog"]}
{"id": "C160", "title": "Upper limits do not enter the field estimate as measurements", "statement": "estimate_B uses the measured fluxes only: rows marked as upper limits do not count as fluxes.", "quantifier": "all pairs of tables with upper limits", "why_tests_cant": "all tables", "anchors": ["src/naima/utils.py:estimate_B", "src/naima/utils.py:validate_data_table"]}
{"id": "C161", "title": "Seed photon fields of negative energy or density are refused", "statement": "A seed photon field with a negative temperature, photon energy or density is refused; so every accepted field yields a non-negative number of photons, none of them above the electron energies.", "quantifier": "every seed field, particle distribution and energy grid", "why_tests_cant": "continuum of fields, energies and distributions", "anchors": ["src/naima/radiative.py:InverseCompton._process_input_seed", "src/naima/extern/validator.py:validate_array", "src/naima/radiative.py:InverseCompton._iso_ic_on_monochromatic"]}
{"id": "C162", "title": "The bremsstrahlung flux is a number", "statement": "For every positive photon energy the bremsstrahlung flux of positive electrons on a positive energy range is a number, not nan or infinite.", "quantifier": "every distribution, electron energy range, target density, weights and photon energy", "why_tests_cant": "continuum of photon and electron energies; the failing energies are isolated points", "anchors": ["src/naima/radiative.py:Bremsstrahlung._sigma_1", "src/naima/radiative.py:Bremsstrahlung._sigma_2", "src/naima/radiative.py:Bremsstrahlung._spectrum", "src/naima/utils.py:trapz_loglog"]}
{"id": "C163", "title": "Outputs of the documented formats are kept with the chain", "statement": "Whatever the model function returns in the documented formats (a Quantity array for the energies of the data, a scalar Quantity, a pair of arrays, or several of these) is stored with its unit for every sample of the chain and can be plotted.", "quantifier": "every model function, chain and batch of evaluations", "why_tests_cant": "all combinations of outputs; the failing ones depend on the lengths of all of them", "anchors": ["src/naima/core.py:lnprob", "src/naima/core.py:get_sampler", "src/naima/plot.py:find_ML", "src/naima/plot.py:_process_blob"]}
{"id": "C164", "title": "Documented amplitude of broken power laws", "statement": "The amplitude of BrokenPowerLaw and ExponentialCutoffBrokenPowerLaw is, as documented, the value of the model at the break energy.", "quantifier": "all parameters", "why_tests_cant": "continuum of parameters", "anchors": ["src/naima/models.py:BrokenPowerLaw", "src/naima/models.py:ExponentialCutoffBrokenPowerLaw"]}
{"id": "C165", "title": "A fit with a sum of radiative models computes the likelihood of the physical spectrum", "statement": "For a fit whose model function returns the sum of sed(...) or of flux(...) of several of naima's radiative models (Synchrotron, InverseCompton, Bremsstrahlung, PionDecay) for a distance, and for any list of acceptable data tables, the log-likelihood that the fit computes is the sum over all measurements of the term of that measurement against the SED E^2 * (sum of the models' photons per energy and time) / (4 pi d^2) at its energy; and it is the same number when tables, model parameters, seed photon fields, distance, particle distributions or the choice between sed and flux are replaced by others that stand for the same physical quantities in other units.", "quantifier": "every list of tables, every non-empty list of radiative models with any parameters in any units of positive size, any particle distribution that treats units consistently, every distance including 0", "why_tests_cant": "a test fits one or two tables with one model in one set of units; here the whole chain from the tables to the likelihood is followed for any units and any number of models", "anchors": ["src/naima/radiative.py:BaseRadiative.flux", "src/naima/radiative.py:BaseRadiative.sed", "src/naima/core.py:lnprobmodel", "src/naima/core.py:lnprob", "src/naima/utils.py:validate_data_table"]}
{"id": "C166", "title": "A reloaded run gives the results of the original", "statement": "save_results_table on a run that was saved with save_run and read with read_run gives the rows (values and errors of parameters, delogged parameters and scalar blobs), number of samples, best parameters, largest log-probability and BIC of the table made from the original run, with the units of scalar blobs; the maximum-likelihood parameters, errors and model found in it are those of the original; and a reloaded run saved and read again is unchanged.", "quantifier": "every chain, labels, run_info without repeated names and blobs of the kinds that are stored, for whole chain or last step, with or without conversion of logarithms and blobs", "why_tests_cant": "a test compares one saved chain; here the results follow for every run and every combination of options", "anchors": ["src/naima/analysis.py:read_run", "src/naima/analysis.py:save_run", "src/naima/analysis.py:save_results_table", "src/naima/plot.py:find_ML"]}
{"id": "C167", "title": "What the interactive fitter shows is the model and its likelihood", "statement": "InteractiveModelFitter draws the first output of the model function as SED (or differential spectrum with sed=False) in the documented units at the energies asked for (e_range if given, else the energies of the data, else 100 MeV to 100 TeV), the curve and the data in the same flux unit; the log-likelihood written in the window is that of all rows of all tables, whatever energies the curve is drawn at; and after any sequence of updates the window is the one a fitter newly started with the current slider values would show.", "quantifier": "every set of acceptable data tables, model function, energy range, number of points, unit, sed flag and sequence of slider values", "why_tests_cant": "tests do not open the window; a wrong unit, energy or stale conversion shows only for some combination of data, range, model unit and history", "anchors": ["src/naima/model_fitter.py:InteractiveModelFitter.__init__", "src/naima/model_fitter.py:InteractiveModelFitter.update", "src/naima/model_fitter.py:_process_model"]}
{"id": "C168", "title": "Axis, labels and columns in the interactive fitter", "statement": "The energy axis of the interactive fitter contains the data and the curve, every parameter has a labelled slider without changing the caller's labels, and any model function that can be fitted can be shown.", "quantifier": "every data table, energy range, list of labels and model function", "why_tests_cant": "depends on the widths of bins other than the first and last, on the type of the labels argument and on which columns a model function reads", "anchors": ["src/naima/model_fitter.py:InteractiveModelFitter.__init__"]}
{"id": "C169", "title": "Curved spectra: the integration error has a known sign", "statement": "On every grid, the integral the library computes for a spectrum that bends downwards on logarithmic axes (cutoff power laws, log-parabolas with beta >= 0, broken power laws that steepen, with or without cutoff) is never above the exact one, and that of a spectrum that bends upwards is never below it, apart from the 1e-10 window round index -1. So compute_We and compute_Wp give lower bounds for these distributions, set_We and set_Wp leave at least the energy asked for, and the synchrotron flux of such electrons is not overestimated.", "quantifier": "every positive continuous spectrum of either curvature, every energy range, number of points per decade and grid, every parameter of the built-in distributions, every photon energy and magnetic field", "why_tests_cant": "a statement about the sign of an error for all spectra and grids; a test compares a few values within a tolerance and cannot see a sign", "anchors": ["src/naima/utils.py:trapz_loglog", "src/naima/radiative.py:BaseElectron.compute_We", "src/naima/radiative.py:BaseProton.compute_Wp", "src/naima/radiative.py:Synchrotron._spectrum", "src/naima/models.py:ExponentialCutoffPowerLaw", "src/naima/models.py:LogParabola", "src/naima/models.py:BrokenPowerLaw"]}
{"id": "C170", "title": "Synchrotron electrons radiate at the classical rate", "statement": "The energy an electron is taken to radiate as synchrotron emission, added up over all photon energies, is the classical power 4/3 sigma_T c gamma^2 B^2/(8 pi) of an electron in a randomly oriented field, to one part in 300, for every Lorentz factor and every field strength.", "quantifier": "every Lorentz factor, magnetic field, set of positive physical constants and every upper photon energy beyond 16 critical energies", "why_tests_cant": "a statement about an integral of a transcendental function over all photon energies, for all gamma and B; a test can only integrate numerically at a few values", "anchors": ["src/naima/radiative.py:Synchrotron._spectrum"]}
{"id": "C171", "title": "Inverse Compton electrons scatter and lose energy at the Thomson rate, less recoil", "statement": "An electron scattering photons of one energy (a seed field given as a photon line) is taken to scatter at most sigma_T c n photons per unit time and to radiate at most 4/3 sigma_T c gamma^2 u, sigma_T being the Thomson cross section and u the energy density of the line; and as the Klein-Nishina parameter gamma eps/(m_e c^2) goes to zero and gamma grows it reaches both, with explicit bounds on what is missing.", "quantifier": "every electron Lorentz factor at least 1, line energy, energy density and every constants value; all scattered photon energies", "why_tests_cant": "a statement about the integral of the Jones kernel over all scattered energies and its limits; a test can only integrate numerically at a few values", "anchors": ["src/naima/radiative.py:InverseCompton._iso_ic_on_monochromatic", "src/naima/radiative.py:InverseCompton._calc_specic"]}
{"id": "C172", "title": "Inverse Compton electrons in thermal photons lose energy at the classical rate, less recoil", "statement": "In isotropic black-body photons of any temperature T an electron of any Lorentz factor is taken to radiate at most 1.01 times the classical power 4/3 sigma_T c gamma^2 u(T), u(T) being the energy density of black-body radiation; and at least (1 - 0.01 - 14 b) times that power, with b = 4 gamma k T/(m_e c^2), once the photon energies counted reach from a hundredth of the typical scattered energy 4 gamma^2 k T to eighteen times it.", "quantifier": "every temperature, Lorentz factor above 1 and range of photon energies below the electron energy", "why_tests_cant": "a statement about the integral of the analytic approximation over all scattered energies, uniformly in T and gamma; a test can only integrate numerically at a few values", "anchors": ["src/naima/radiative.py:G34", "src/naima/radiative.py:InverseCompton._iso_ic_on_planck"]}
{"id": "C173", "title": "The luminosity of a population is the sum of the powers of its members", "statement": "For any continuous electron spectrum between two energies: the synchrotron spectrum the library computes tends, as the energy grid is refined, to a spectrum whose total energy output, counted up to any photon energy beyond 16 critical energies of the most energetic electrons, equals to one part in 300 the sum over the electrons of the classical power 4/3 sigma_T c gamma^2 B^2/(8 pi). Likewise the inverse Compton spectrum on isotropic thermal photons of temperature T and energy density u: its energy between any two photon energies is at most 1.01 times the sum over the electrons of 4/3 sigma_T c gamma^2 u, and at least 1 - 0.01 - 18 b times that if the range covers a hundredth to eighteen times the typical scattered energies, b = 4 gamma k T/(m_e c^2) for the most energetic electrons.", "quantifier": "every electron spectrum, energy range, field, temperature, energy density and range of photon energies", "why_tests_cant": "an exchange of two integrals and a uniform bound for each electron; a test can only compare two numerical integrals for a few spectra", "anchors": ["src/naima/radiative.py:Synchrotron._spectrum", "src/naima/radiative.py:InverseCompton._spectrum", "src/naima/radiative.py:InverseCompton._calc_specic"]}
{"id": "C174", "title": "Forms in which data may be given to be plotted", "statement": "plot_data draws the data given as a table, a list (or other collection) of tables, a sampler with data, or a dict with the columns; it refuses anything else with TypeError, and leaves what it was given unchanged.", "quantifier": "every object given as data and every content of it", "why_tests_cant": "ranges over all objects and contents; the tests plot one table and one sampler", "anchors": ["src/naima/plot.py:plot_data", "src/naima/plot.py:_plot_data_to_ax", "src/naima/utils.py:validate_data_table"]}
{"id": "C175", "title": "Inverse Compton and synchrotron luminosities are in the ratio of the energy densities", "statement": "For the same electrons, whatever their spectrum, the inverse Compton luminosity in isotropic thermal photons of energy density u and the synchrotron luminosity in a field B are in the ratio u : B^2/(8 pi), to 1.4 per cent from above and 1.4 per cent plus 19 b from below, b = 4 gamma k T/(m_e c^2) at the highest electron energy, if the photon energies counted cover both spectra.", "quantifier": "every continuous electron spectrum, energy range, field, temperature and energy density, and all sufficient ranges of photon energies", "why_tests_cant": "relates two different calculations for all spectra at once; a test can only compare numbers for a few", "anchors": ["src/naima/radiative.py:Synchrotron._spectrum", "src/naima/radiative.py:InverseCompton._spectrum"]}
{"id": "C176", "title": "A synchrotron spectrum responds to photon energy and field as the theory says", "statement": "Whatever the electrons, at every two photon energies E1 <= E2 the computed synchrotron photon spectrum falls at least like E^(-2/3), so that the SED rises at most like E^(4/3), and beyond the critical energy of the most energetic electrons at least exponentially; it falls at most like 1/E, up to an exponential on the scale of the critical energy of the least energetic ones. The same electrons in a stronger field emit more at every energy: by at least the factor (B2/B1)^(2/3), and at most B2/B1 up to such an exponential. On every grid, up to a factor of 1.0000000005.", "quantifier": "every electron spectrum and energy range, every grid, all pairs of photon energies and all pairs of field strengths", "why_tests_cant": "inequalities for all spectra, energies and fields; a test can only try a few, and the lower bound of the emissivity's slope holds with a margin of 9 per cent", "anchors": ["src/naima/radiative.py:Synchrotron._spectrum", "src/naima/utils.py:trapz_loglog"]}
{"id": "C177", "title": "The synchrotron flux is right to one per cent on the default grid", "statement": "At the default 100 points per decade, for photon energies up to the critical energy of the most energetic electrons, and whatever the lowest electron energy, the computed synchrotron flux equals the exact integral over the electrons to one per cent, for every electron spectrum that, among the electrons with critical energy below the photon energy, falls no faster than E^-6 and whose logarithmic slope changes by at most 10 per unit of ln E: in particular for power laws of index 0 to 6, and for power laws with cutoff of which this holds. In general, for any grid, photon energy and steepness, the error is bounded by an explicit expression that does not depend on the lowest electron energy.", "quantifier": "every electron spectrum with the stated bounds on slope and curvature, every range of electron energies of at least a decade, field and photon energy", "why_tests_cant": "an error bound for all spectra and ranges; the exact integral has no closed form to compare with in a test", "anchors": ["src/naima/radiative.py:Synchrotron._spectrum", "src/naima/radiative.py:BaseElectron._gam", "src/naima/utils.py:trapz_loglog"]}
{"id": "C178", "title": "Hotter photon fields and larger scattering angles give more inverse Compton emission", "statement": "Whatever the electrons, a black body heated from T1 to T2 >= T1 gives at every photon energy an inverse Compton emission at least (T2/T1)^2 times larger; more generally the emission on a thermal field, divided by its energy density over the square of its temperature, never decreases with the temperature. On an anisotropic field the emission never decreases as the angle of interaction grows, up to head-on collisions. On every grid, up to a factor of 1.0000000005.", "quantifier": "every electron spectrum and energy range, every grid, photon energy, pair of temperatures, energy densities and angles", "why_tests_cant": "inequalities for all spectra, energies, temperatures and angles; a test can only try a few, and the kernels are fitted formulas whose monotonicity is not evident", "anchors": ["src/naima/radiative.py:InverseCompton._iso_ic_on_planck", "src/naima/radiative.py:InverseCompton._ani_ic_on_planck", "src/naima/radiative.py:InverseCompton._calc_specic", "src/naima/radiative.py:G12", "src/naima/radiative.py:G34"]}
{"id": "C179", "title": "The inverse Compton flux on black bodies is right to two per cent on the default grid", "statement": "At the default 100 points per decade the computed inverse Compton flux on an isotropic thermal photon field equals, to two per cent, the exact integral over the electrons (the limit of infinitely fine grids), whatever the lowest electron energy: in the Thomson regime (photon energy times photon temperature below (m_e c^2)^2/1920, e.g. up to half a TeV on the microwave background) and up to the photon energy given by the most energetic electrons, for every electron spectrum that, among the electrons too slow to reach the photon energy with photons of energy kT, falls no faster than E^-6 and whose logarithmic slope changes by at most 10 per unit of ln E. The claim for every temperature and photon energy is false: in the Klein-Nishina regime the exact flux exceeds any multiple of the computed one if the photons are hot enough.", "quantifier": "every electron spectrum with the stated bounds, range of electron energies, photon energy, temperature and energy density of the photons", "why_tests_cant": "an error bound for all spectra, energies and temperatures; a test compares a few spectra at a few energies with a finer grid", "anchors": ["src/naima/radiative.py:InverseCompton._calc_specic", "src/naima/radiative.py:InverseCompton._iso_ic_on_planck", "src/naima/radiative.py:BaseElectron._gam", "src/naima/utils.py:trapz_loglog"]}
