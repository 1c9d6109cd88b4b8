{
 "claims": [
  {
   "property": "C01",
   "status": "partial",
   "theorems": [
    "C01_memo_transparent_partial",
    "C01_scan_transparent_partial",
    "C01_disabled_transparent_partial",
    "C01_memo_transparent_refuted"
   ],
   "note": "Transparency of the cache for any history, under the hypothesis that the rendered parts form a prefix/suffix-delimited injective token (not true of the real rendering, see C03); unconditional when the cache is disabled; C01_memo_transparent_refuted: as stated it fails whenever the method tells apart the parameter sets of C03."
  },
  {
   "property": "C02",
   "status": "partial",
   "theorems": [
    "C02_default_distance_refuted",
    "C02_explicit_distance_partial"
   ],
   "note": "Refuted (code defect): distance=0 and an omitted distance render to the same cache key parts, so a cached answer for one is served for the other; proved for explicit distances."
  },
  {
   "property": "C03",
   "status": "partial",
   "theorems": [
    "C03_parameter_confusion_refuted",
    "C03_delimited_partial"
   ],
   "note": "Refuted (code defect): two ExponentialCutoffPowerLaw parameter sets concatenate to the same cache token; proved when rendered parts are delimited."
  },
  {
   "property": "C04",
   "status": "proved",
   "theorems": [
    "C04_cache_bounded_fifo"
   ],
   "note": "Any history: at most the bound of entries, first-in first-out."
  },
  {
   "property": "C05",
   "status": "partial",
   "theorems": [
    "C05_undeclared_distribution_refuted",
    "C05_declared_parameter_seen_partial"
   ],
   "note": "Refuted (code defect): particle-distribution attributes outside param_names do not enter the key; proved for declared parameters."
  },
  {
   "property": "C06",
   "status": "partial",
   "theorems": [
    "C06_aliasing_refuted",
    "C06_private_results_partial"
   ],
   "note": "Refuted (code defect): the cached array is returned by reference, so in-place modification by the caller corrupts later answers; proved for callers that never modify results."
  },
  {
   "property": "C07",
   "status": "partial",
   "theorems": [
    "C07_instances_isolated_partial",
    "C07_class_cache_refuted"
   ],
   "note": "Instance-level caches are isolated (proved); refuted for classes with a class-level cache (spectral models, PionDecayKelner06)."
  },
  {
   "property": "C08",
   "status": "partial",
   "theorems": [
    "C08_stale_seed_refuted",
    "C08_seed_flux_partial"
   ],
   "note": "Refuted (code defect): flux(seed=i) served from specic left over by another call; proved when the preceding computation is for the same energies."
  },
  {
   "property": "C09",
   "status": "proved",
   "theorems": [
    "C09_total_is_sum_of_seeds"
   ],
   "note": "For every list of seeds and energies."
  },
  {
   "property": "C10",
   "status": "partial",
   "theorems": [
    "C10_seed_index_refuted",
    "C10_seed_validation_partial"
   ],
   "note": "Refuted (code defect): negative seed indices are accepted; proved for non-negative indices and names."
  },
  {
   "property": "C11",
   "status": "proved",
   "theorems": [
    "C11_trapz_exact_power_law",
    "C11_bin_is_loglog_interpolant"
   ],
   "note": "Riemann integral (Coquelicot is_RInt) on every grid; index -1 or outside the 1e-10 window (C12 covers the window)."
  },
  {
   "property": "C12",
   "status": "proved",
   "theorems": [
    "C12_window_error"
   ],
   "note": ""
  },
  {
   "property": "C13",
   "status": "proved",
   "theorems": [
    "C13_scaling_and_units",
    "C13_unit_independent"
   ],
   "note": ""
  },
  {
   "property": "C14",
   "status": "proved",
   "theorems": [
    "C14_rectangle_bounds",
    "C14_nonnegative",
    "C14_positive"
   ],
   "note": "Bounds also inside the index window, for abscissa ratios below exp(1e9), which every pair of doubles satisfies."
  },
  {
   "property": "C15",
   "status": "proved",
   "theorems": [
    "C15_additive",
    "C15_intervals"
   ],
   "note": ""
  },
  {
   "property": "C16",
   "status": "proved",
   "theorems": [
    "C16_no_nan"
   ],
   "note": "IEEE special values modelled explicitly; rounding is not."
  },
  {
   "property": "C17",
   "status": "proved",
   "theorems": [
    "C17_set_energy",
    "C17_models_proportional",
    "C17_default_bounds"
   ],
   "note": "For electrons and protons, bounds given or omitted, and for every distribution positive on the range and proportional to its amplitude (proved of all naima spectral models)."
  },
  {
   "property": "C18",
   "status": "proved",
   "theorems": [
    "C18_brems_linear",
    "C18_amplitude_linear",
    "C18_pion_linear"
   ],
   "note": "Synchrotron, Inverse Compton, pion decay (Kafexhiu), bremsstrahlung and energy content."
  },
  {
   "property": "C19",
   "status": "proved",
   "theorems": [
    "C19_ic_inverse_square",
    "C19_inverse_square",
    "C19_distance_validation"
   ],
   "note": "All radiative models; for inverse Compton the total and each seed."
  },
  {
   "property": "C20",
   "status": "proved",
   "theorems": [
    "C20_ic_sed_is_E2_flux",
    "C20_sed_is_E2_flux",
    "C20_sed_fails_like_flux"
   ],
   "note": "Including Inverse Compton with a selected seed."
  },
  {
   "property": "C21",
   "status": "proved",
   "theorems": [
    "C21_nonnegative",
    "C21_synchrotron_positive",
    "C21_pion_nonnegative",
    "C21_kelner_nonnegative"
   ],
   "note": "Synchrotron, IC, pion decay from the kinematic threshold on (below it see C26), Kelner pion decay. For positive B, positive temperatures and anisotropic angles with cos<1, increasing seed arrays; what happens otherwise is C66-C68. Bremsstrahlung is C71."
  },
  {
   "property": "C22",
   "status": "proved",
   "theorems": [
    "C22_brems_pointwise",
    "C22_brems_permutation",
    "C22_pointwise",
    "C22_permutation",
    "C22_pion_pointwise",
    "C22_pion_permutation"
   ],
   "note": "Bremsstrahlung for weights other than zero (C30). PionDecayKelner06 is C125."
  },
  {
   "property": "C23",
   "status": "proved",
   "theorems": [
    "C23_photon_below_electron",
    "C23_line_kinematics",
    "C23_thermal_positive"
   ],
   "note": ""
  },
  {
   "property": "C24",
   "status": "proved",
   "theorems": [
    "C24_grey_body",
    "C24_zero_is_blackbody"
   ],
   "note": ""
  },
  {
   "property": "C25",
   "status": "proved",
   "theorems": [
    "C25_distinct_names",
    "C25_string_is_list",
    "C25_unknown_name"
   ],
   "note": "Two fields of the same name are C126."
  },
  {
   "property": "C26",
   "status": "proved",
   "theorems": [
    "C26_photon_limit",
    "C26_kelner_threshold",
    "C26_kinematic_threshold"
   ],
   "note": "What a proton grid that starts below the threshold does is C127."
  },
  {
   "property": "C27",
   "status": "proved",
   "theorems": [
    "C27_symmetry",
    "C27_spectrum_symmetry"
   ],
   "note": "For every proton energy and photon energy, and for the spectrum."
  },
  {
   "property": "C28",
   "status": "proved",
   "theorems": [
    "C28_cross_sections_positive"
   ],
   "note": ""
  },
  {
   "property": "C29",
   "status": "proved",
   "theorems": [
    "C29_table_in_use"
   ],
   "note": "After any history of settings and calls."
  },
  {
   "property": "C30",
   "status": "partial",
   "theorems": [
    "C30_weights_partial",
    "C30_zero_weight_refuted"
   ],
   "note": "Refuted (code defect): a zero weight, documented as the way to switch a component off, always raises a unit conversion error; proved for non-zero weights."
  },
  {
   "property": "C31",
   "status": "partial",
   "theorems": [
    "C31_ep_sign_partial",
    "C31_negative_refuted",
    "C31_ee_positive_partial"
   ],
   "note": "Proved away from the endpoint: electron-electron cross section positive if 2 gamma (gamma-eps)/eps >= sqrt(e). Refuted near the endpoint (code defect): it is negative there; the sign of the electron-ion cross section is characterised."
  },
  {
   "property": "C32",
   "status": "proved",
   "theorems": [
    "C32_grids"
   ],
   "note": ""
  },
  {
   "property": "C33",
   "status": "proved",
   "theorems": [
    "C33_branches",
    "C33_continuous"
   ],
   "note": ""
  },
  {
   "property": "C34",
   "status": "proved",
   "theorems": [
    "C34_normalisation",
    "C34_special_cases",
    "C34_cutoff_and_sign",
    "C34_local_index"
   ],
   "note": ""
  },
  {
   "property": "C35",
   "status": "proved",
   "theorems": [
    "C35_units_of_arguments",
    "C35_base_unit_irrelevant",
    "C35_wrong_dimension_rejected"
   ],
   "note": ""
  },
  {
   "property": "C36",
   "status": "proved",
   "theorems": [
    "C36_table_model"
   ],
   "note": "Interpolation by an external function satisfying the interpolation property (SciPy cubic or linear)."
  },
  {
   "property": "C37",
   "status": "proved",
   "theorems": [
    "C37_transmission",
    "C37_nearby",
    "C37_tabulated"
   ],
   "note": "The cubic interpolation is external: assumed to pass through its nodes (C37_tabulated) and to be 0 for zero nodes (C37_nearby). Beyond 100 TeV see C128 and C63."
  },
  {
   "property": "C38",
   "status": "proved",
   "theorems": [
    "C38_asymmetric_gaussian"
   ],
   "note": "Non-zero errors."
  },
  {
   "property": "C39",
   "status": "partial",
   "theorems": [
    "C39_common_level_partial",
    "C39_mixed_levels_refuted",
    "C39_all_violated_refuted"
   ],
   "note": "Refuted (code defect): the confidence level is indexed by the number of violated limits, so limits of different level are charged with the level of an unrelated row, and a table of only violated limits raises IndexError; proved for a common level."
  },
  {
   "property": "C40",
   "status": "partial",
   "theorems": [
    "C40_value_partial",
    "C40_excluded_evaluated_refuted"
   ],
   "note": "The value is proved. Refuted (code defect): the model function is called for excluded parameters as well, and its exception escapes."
  },
  {
   "property": "C41",
   "status": "proved",
   "theorems": [
    "C41_uniform",
    "C41_log_uniform_support"
   ],
   "note": "The values of normal_prior and log_uniform_prior are C129."
  },
  {
   "property": "C42",
   "status": "proved",
   "theorems": [
    "C42_units"
   ],
   "note": "Model and data in any units of matching physical type; everything else is an error."
  },
  {
   "property": "C43",
   "status": "partial",
   "theorems": [
    "C43_only_normalisation_partial",
    "C43_flux_matches_partial",
    "C43_label_case_refuted"
   ],
   "note": "Only a normalisation parameter changes, and the flux matches afterwards (proved). Refuted (code defect) for labels such as Log(norm): recognised in any case, but treated as linear."
  },
  {
   "property": "C44",
   "status": "partial",
   "theorems": [
    "C44_relative_offset_partial",
    "C44_distinct_partial",
    "C44_zero_parameter_refuted"
   ],
   "note": "Relative offsets proved; refuted (code defect) for parameters starting at 0: all walkers share coordinate 0."
  },
  {
   "property": "C45",
   "status": "partial",
   "theorems": [
    "C45_likelihood_not_worse_partial",
    "C45_forbidden_discarded_partial",
    "C45_with_prior_refuted"
   ],
   "note": "Likelihood never worse and forbidden results discarded (proved); refuted for the log-probability including the prior."
  },
  {
   "property": "C46",
   "status": "partial",
   "theorems": [
    "C46_never_worse_partial",
    "C46_best_evaluated_partial",
    "C46_nan_refuted"
   ],
   "note": "Any objective including nan: never worse than any starting vertex; without nan the least of all evaluations and fun=f(x). Refuted (code defect): with a nan vertex the reported fun is nan."
  },
  {
   "property": "C47",
   "status": "proved",
   "theorems": [
    "C47_budget",
    "C47_status"
   ],
   "note": "Termination, iteration and evaluation budgets, status characterised by the tolerances."
  },
  {
   "property": "C48",
   "status": "partial",
   "theorems": [
    "C48_integer_start_refuted",
    "C48_dtype_refuted",
    "C48_exact_storage_partial"
   ],
   "note": "Refuted (code defect): from integer arrays with entries below 20 the simplex collapses and success is reported at once whatever the objective; proved for exact storage."
  },
  {
   "property": "C49",
   "status": "proved",
   "theorems": [
    "C49_rows_sorted_permutation"
   ],
   "note": "numpy.argsort is a parameter with its contract (index permutation, sorted). All columns, all units; rows stay together."
  },
  {
   "property": "C50",
   "status": "proved",
   "theorems": [
    "C50_factor",
    "C50_round_trip",
    "C50_unit_independent",
    "C50_documented_units",
    "C50_round_trip_all",
    "C50_unit_independent_all",
    "C50_other_types"
   ],
   "note": "The differential number density is C130."
  },
  {
   "property": "C51",
   "status": "proved",
   "theorems": [
    "C51_bins",
    "C51_edges_geometric_mean",
    "C51_groups_independent"
   ],
   "note": "Common edges are geometric means; groups independent. At least two energies per group (one energy gives a bin of zero width)."
  },
  {
   "property": "C52",
   "status": "proved",
   "theorems": [
    "C52_accepted_iff_well_formed"
   ],
   "note": "Exact characterisation for any list of non-empty tables."
  },
  {
   "property": "C53",
   "status": "proved",
   "theorems": [
    "C53_scaling",
    "C53_common_scale",
    "C53_value",
    "C53_energy_density_ratio",
    "C53_luminosity_positive"
   ],
   "note": "Value, scaling laws, common-scale invariance, for data fluxes of either sign; a negative ratio gives nan, a zero luminosity inf or nan."
  },
  {
   "property": "C54",
   "status": "proved",
   "theorems": [
    "C54_scalar",
    "C54_physical_type"
   ],
   "note": "nan and the domain of arrays are C131."
  },
  {
   "property": "C55",
   "status": "proved",
   "theorems": [
    "C55_roundtrip"
   ],
   "note": "run_info entries named like the attributes naima stores itself are excluded. Other blobs are C132. Not modelled: unit conversion between samples, the HDF5 and table formats; the numpy object array of read_run is added in C166."
  },
  {
   "property": "C56",
   "status": "proved",
   "theorems": [
    "C56_save_touches_one_file",
    "C56_bad_suffix_refused"
   ],
   "note": "File names with a non-empty stem."
  },
  {
   "property": "C57",
   "status": "proved",
   "theorems": [
    "C57_find_ML",
    "C57_errors",
    "C57_BIC"
   ],
   "note": "Log-probabilities without nan (emcee rejects nan). Includes the uncertainties and the BIC reported."
  },
  {
   "property": "C58",
   "status": "proved",
   "theorems": [
    "C58_whole_chain",
    "C58_no_conversion",
    "C58_blob_rows"
   ],
   "note": "For at most one label per parameter, each plain or log(x) or log10(x); the rest is C133."
  },
  {
   "property": "C59",
   "status": "proved",
   "theorems": [
    "C59_bands_nested"
   ],
   "note": "For any monotone distribution function in place of scipy.stats.norm.cdf."
  },
  {
   "property": "C60",
   "status": "proved",
   "theorems": [
    "C60_display_follows_sliders",
    "C60_ml_flag",
    "C60_failed_update",
    "C60_same_value",
    "C60_init",
    "C60_settings_kept"
   ],
   "note": "Exceptions, fits that stop at the limit of evaluations and moves with auto-update off are C134."
  },
  {
   "property": "C61",
   "status": "proved",
   "theorems": [
    "C61_one_value_per_bin",
    "C61_bin_is_integral",
    "C61_power_law_exact"
   ],
   "note": "Bins with gaps and evaluation at points are C135."
  },
  {
   "property": "C62",
   "status": "partial",
   "theorems": [
    "C62_shared_amplitude_refuted",
    "C62_others_untouched_partial"
   ],
   "note": "Refuted (code defect): amplitudes are rescaled in place, so distributions sharing the Quantity change too; proved for unshared amplitudes and for an explicit amplitude name."
  },
  {
   "property": "C63",
   "status": "partial",
   "theorems": [
    "C63_absorption_drop_refuted",
    "C63_iff_partial"
   ],
   "note": "Characterised: above 100 TeV the transmission is not higher than at 100 TeV exactly if the optical depth there is at most log10(6000). Refuted in general (code defect)."
  },
  {
   "property": "C64",
   "status": "partial",
   "theorems": [
    "C64_between_nodes_refuted",
    "C64_power_law_partial"
   ],
   "note": "Proved for tables that follow a power law (interpolation assumed to reproduce straight lines). Refuted in general: the cubic spline in log-log overshoots."
  },
  {
   "property": "C65",
   "status": "partial",
   "theorems": [
    "C65_reversed_bounds_refuted",
    "C65_ordered_bounds_partial"
   ],
   "note": "Proved for bounds in increasing order. Refuted (code defect): reversed bounds give a negative energy content and set_We makes the amplitude negative."
  },
  {
   "property": "C66",
   "status": "partial",
   "theorems": [
    "C66_angle_ignored_refuted",
    "C66_thermal_partial"
   ],
   "note": "Proved for thermal seeds: the angle given is the one in the kernel. Refuted (code defect): the angle of a non-thermal seed is accepted and ignored."
  },
  {
   "property": "C67",
   "status": "partial",
   "theorems": [
    "C67_decreasing_seed_energies_refuted",
    "C67_increasing_partial"
   ],
   "note": "Proved for increasing seed energies. Refuted (code defect): decreasing seed energies are accepted and give a non-positive spectrum for every particle distribution."
  },
  {
   "property": "C68",
   "status": "partial",
   "theorems": [
    "C68_negative_B_refuted",
    "C68_positive_partial"
   ],
   "note": "Proved for positive B: exponential cutoff at the critical energy. Refuted (code defect): negative B is accepted and gives a spectrum with exp(+E/Ec) instead of exp(-E/Ec)."
  },
  {
   "property": "C69",
   "status": "partial",
   "theorems": [
    "C69_fallback_is_sticky_refuted",
    "C69_setting_kept_partial"
   ],
   "note": "Refuted (code defect): a missing table switches useLUT off for good, also for models whose table exists; proved when all tables exist."
  },
  {
   "property": "C70",
   "status": "partial",
   "theorems": [
    "C70_sequential_partial",
    "C70_concurrent_refuted"
   ],
   "note": "Refuted (code defect): _F_mp is a class-level list mutated during the evaluation, an interleaving mixes the parameters of two evaluations; proved for any number of evaluations one after the other in any order."
  },
  {
   "property": "C71",
   "status": "partial",
   "theorems": [
    "C71_negative_flux_refuted",
    "C71_low_energies_partial",
    "C71_off_grid_partial"
   ],
   "note": "Proved at every photon energy with no electron energy of the grid in the 0.45 MeV just above it (in particular below half the lowest electron energy). Refuted in general (code defect): electrons just above the photon energy give a negative flux."
  },
  {
   "property": "C72",
   "status": "partial",
   "theorems": [
    "C72_inputs_modified_refuted",
    "C72_unmodified_partial"
   ],
   "note": "Refuted (code defect): p0 is rescaled in place and labels extended in place."
  },
  {
   "property": "C73",
   "status": "proved",
   "theorems": [
    "C73_labels",
    "C73_generated_labels",
    "C73_generated_distinct"
   ],
   "note": "Given labels and generated ones."
  },
  {
   "property": "C74",
   "status": "partial",
   "theorems": [
    "C74_serial_partial",
    "C74_second_run_refuted",
    "C74_zero_steps_refuted"
   ],
   "note": "Refuted (code defects): the first run closes the pool the sampler keeps using, so a second run fails whenever more than one thread is used; zero steps raise UnboundLocalError. Proved for one thread."
  },
  {
   "property": "C75",
   "status": "partial",
   "theorems": [
    "C75_row_order_refuted",
    "C75_table_refuted",
    "C75_increasing_partial"
   ],
   "note": "Proved for tables listed by increasing energy. Refuted (code defect): edges are generated before sorting; rows listed by decreasing energy get negative widths."
  },
  {
   "property": "C76",
   "status": "partial",
   "theorems": [
    "C76_confidence_level_refuted",
    "C76_valid_level_partial"
   ],
   "note": "Valid levels are accepted and used. Refuted (code defect): any number including nan is, too."
  },
  {
   "property": "C77",
   "status": "partial",
   "theorems": [
    "C77_mixed_tables_refuted"
   ],
   "note": "Tables of the same kind: C53. Refuted (code defect): .decompose().value drops the unit."
  },
  {
   "property": "C78",
   "status": "partial",
   "theorems": [
    "C78_content_partial",
    "C78_errors_required_partial",
    "C78_one_edge_dropped_refuted"
   ],
   "note": "Content and acceptance proved. Refuted (code defect): one-sided energy edges are dropped silently."
  },
  {
   "property": "C79",
   "status": "partial",
   "theorems": [
    "C79_failed_save_refuted",
    "C79_refused_save_partial",
    "C79_missing_file_partial"
   ],
   "note": "What is refused leaves all files unchanged. Refuted (code defect): the file is truncated before the blobs are checked."
  },
  {
   "property": "C80",
   "status": "proved",
   "theorems": [
    "C80_summary_in_range",
    "C80_median_odd",
    "C80_percentiles"
   ],
   "note": ""
  },
  {
   "property": "C81",
   "status": "proved",
   "theorems": [
    "C81_band_coverage"
   ],
   "note": ""
  },
  {
   "property": "C82",
   "status": "partial",
   "theorems": [
    "C82_sample_cap_refuted",
    "C82_enough_samples_partial"
   ],
   "note": "Proved when at most 99 samples are needed. Refuted in general (code defect): min(100, ...) caps the number at 100 and makes the warning unreachable."
  },
  {
   "property": "C83",
   "status": "partial",
   "theorems": [
    "C83_initial_value_partial",
    "C83_ranges_partial",
    "C83_initial_value_refuted",
    "C83_untouched_parameter_refuted"
   ],
   "note": "Proved for log labels, non-negative plain parameters and indices within [-5,5]. Refuted (code defect) otherwise: reversed ranges and clipping move the slider."
  },
  {
   "property": "C84",
   "status": "partial",
   "theorems": [
    "C84_prefit_only_partial",
    "C84_interactive_refuted",
    "C84_start_partial"
   ],
   "note": "Proved without the interactive window. Refuted (code defect) with it: its fit ignores the prior and is not repeated."
  },
  {
   "property": "C85",
   "status": "partial",
   "theorems": [
    "C85_unknown_keyword_refuted",
    "C85_known_keyword_partial"
   ],
   "note": "Refuted (code defect): unknown keywords are stored and ignored (the Sherpa inverse Compton wrapper itself passes Eed for nEed). Known keywords proved."
  },
  {
   "property": "C86",
   "status": "proved",
   "theorems": [
    "C86_guess",
    "C86_cutoff_zero"
   ],
   "note": "Positive amplitude and integrals."
  },
  {
   "property": "C87",
   "status": "proved",
   "theorems": [
    "C87_printed",
    "C87_models_agree"
   ],
   "note": "Zeros are C136."
  },
  {
   "property": "C88",
   "status": "partial",
   "theorems": [
    "C88_residuals_partial",
    "C88_wrong_energy_refuted",
    "C88_tolerance_partial",
    "C88_interpolated_partial"
   ],
   "note": "Model at the energies of the table; which energies count as equal; a model at other energies is interpolated at all detections (C88_interpolated_partial). Refuted (code defect): the absolute tolerance of np.allclose compares X-ray energies given in TeV as if equal."
  },
  {
   "property": "C89",
   "status": "partial",
   "theorems": [
    "C89_points_partial",
    "C89_negative_flux_refuted",
    "C89_bin_refuted",
    "C89_all_compatible_with_zero_refuted"
   ],
   "note": "Proved for positive fluxes with at least one detection not compatible with zero. Refuted (code defects): a negative flux, an energy bin that does not contain its energy, or all detections compatible with zero, raise ValueError."
  },
  {
   "property": "C90",
   "status": "partial",
   "theorems": [
    "C90_options_partial",
    "C90_leak_refuted"
   ],
   "note": "Proved without elinewidth in errorbar_opts. Refuted (code defect): elinewidth is stored in the mutable default ulim_opts, and in the dictionary of the caller."
  },
  {
   "property": "C91",
   "status": "proved",
   "theorems": [
    "C91_files",
    "C91_names"
   ],
   "note": "Colliding names and other arguments are C137."
  },
  {
   "property": "C92",
   "status": "partial",
   "theorems": [
    "C92_interactive_partial",
    "C92_exception_refuted"
   ],
   "note": "Proved when no exception is raised; refuted (code defect) otherwise."
  },
  {
   "property": "C93",
   "status": "partial",
   "theorems": [
    "C93_samples_partial",
    "C93_at_most_100_refuted"
   ],
   "note": "Count and origin of the curves proved. Refuted (code defect): at most 100 different ones with e_range."
  },
  {
   "property": "C94",
   "status": "partial",
   "theorems": [
    "C94_blob_samples_partial",
    "C94_format_refuted"
   ],
   "note": "Refuted (code defects): arrays of other sizes give UnboundLocalError; a scalar is taken for a spectrum with a single data point. The rest proved."
  },
  {
   "property": "C95",
   "status": "proved",
   "theorems": [
    "C95_validation"
   ],
   "note": "All seven spectral models with energy parameters."
  },
  {
   "property": "C96",
   "status": "proved",
   "theorems": [
    "C96_synchrotron_scaling",
    "C96_compton_scaling"
   ],
   "note": "The electron grid is scaled along (the code's grid is the same function of the bounds)."
  },
  {
   "property": "C97",
   "status": "proved",
   "theorems": [
    "C97_named_fields",
    "C97_given_fields"
   ],
   "note": "Seed lists entry by entry; the splitting of strings is C25."
  },
  {
   "property": "C98",
   "status": "proved",
   "theorems": [
    "C98_cross_sections",
    "C98_no_photons_above_electrons"
   ],
   "note": "Photon energies above 4 m_e c^2 for the whole spectrum; the cross sections separately for all."
  },
  {
   "property": "C99",
   "status": "proved",
   "theorems": [
    "C99_high_energy_model",
    "C99_low_energies",
    "C99_nuclear_enhancement"
   ],
   "note": ""
  },
  {
   "property": "C100",
   "status": "proved",
   "theorems": [
    "C100_initial_simplex"
   ],
   "note": ""
  },
  {
   "property": "C101",
   "status": "partial",
   "theorems": [
    "C101_seed_fields_partial",
    "C101_distance_partial",
    "C101_distance_zero_refuted"
   ],
   "note": "Seed fields, and the distance for d > 0 proved. Refuted (code defect): distance 0 lies within the declared limits (min=0) and raises UnitConversionError."
  },
  {
   "property": "C102",
   "status": "partial",
   "theorems": [
    "C102_bands_partial",
    "C102_levels_refuted",
    "C102_empty_refuted"
   ],
   "note": "Levels between 1/3 and 6 sigma proved. Refuted (code defects): a level below 0.3 or above 6.1 is a ValueError (grey level out of range); the list of the caller is sorted in place."
  },
  {
   "property": "C103",
   "status": "proved",
   "theorems": [
    "C103_chain",
    "C103_agrees_with_table",
    "C103_distribution",
    "C103_bins"
   ],
   "note": "With last_step the results table itself is wrong (C133)."
  },
  {
   "property": "C104",
   "status": "partial",
   "theorems": [
    "C104_limits_partial",
    "C104_zero_edge_partial",
    "C104_negative_edge_refuted",
    "C104_grid"
   ],
   "note": "Bins with positive edges proved, and the grid of recomputed models. Refuted: a bin reaching below zero, which data tables may have, makes the plot fail."
  },
  {
   "property": "C105",
   "status": "partial",
   "theorems": [
    "C105_with_function_partial",
    "C105_without_function_refuted"
   ],
   "note": "With the model function. Refuted (code defect): without it every plot of a model raises TypeError, because the reloaded run has no attribute blobs and plot_fit recomputes."
  },
  {
   "property": "C106",
   "status": "partial",
   "theorems": [
    "C106_restored_partial",
    "C106_failure_refuted"
   ],
   "note": "Successful calls and missing package. Refuted (code defect): any other exception leaves the line width at 0.7 for good."
  },
  {
   "property": "C107",
   "status": "partial",
   "theorems": [
    "C107_decisions_partial",
    "C107_no_samples_refuted"
   ],
   "note": "All decisions proved; external drawing not modelled. Refuted: the documented meaning of n_samples=None."
  },
  {
   "property": "C108",
   "status": "proved",
   "theorems": [
    "C108_value_error",
    "C108_order",
    "C108_negative"
   ],
   "note": "Zeros are C136."
  },
  {
   "property": "C109",
   "status": "partial",
   "theorems": [
    "C109_explicit_unit_partial",
    "C109_readable_label_partial",
    "C109_overlay_refuted"
   ],
   "note": "Explicit unit, or labels that can be read back. Refuted (code defect), given that astropy does not parse LaTeX: the second set is drawn at its own numbers."
  },
  {
   "property": "C110",
   "status": "proved",
   "theorems": [
    "C110_converges",
    "C110_energy_content",
    "C110_set_energy",
    "C110_relative_error",
    "C110_synchrotron",
    "C110_synchrotron_continuous",
    "C110_inverse_compton",
    "C110_inverse_compton_thermal",
    "C110_pion",
    "C110_power_law",
    "C110_cutoff"
   ],
   "note": "Convergence for any Riemann-integrable non-negative integrand and any refinement; for continuous distributions the integrability of the synchrotron, thermal IC and pion-decay integrands is proved; explicit relative error for energy contents, instantiated for power laws and cutoff power laws. Bremsstrahlung not covered (its cross sections can be negative, C31); monochromatic seeds under the integrability hypothesis only."
  },
  {
   "property": "C111",
   "status": "proved",
   "theorems": [
    "C111_energy_content",
    "C111_synchrotron",
    "C111_inverse_compton",
    "C111_pion",
    "C111_upper",
    "C111_limit"
   ],
   "note": "Exact additivity on a finite grid is C139."
  },
  {
   "property": "C112",
   "status": "proved",
   "theorems": [
    "C112_array",
    "C112_cached_shape_wins",
    "C112_cache_array"
   ],
   "note": "Other shapes are C140. Through the cache: provided that the keys of requests of different lengths differ."
  },
  {
   "property": "C113",
   "status": "proved",
   "theorems": [
    "C113_synchrotron",
    "C113_inverse_compton",
    "C113_seed_density",
    "C113_bremsstrahlung",
    "C113_We",
    "C113_pion_decay",
    "C113_pion_decay_agrees",
    "C113_Wp",
    "C113_kelner",
    "C113_kelner_agrees",
    "C113_synchrotron_agrees",
    "C113_inverse_compton_agrees",
    "C113_bremsstrahlung_agrees",
    "C113_We_agrees",
    "C113_Wp_agrees",
    "C113_flux_agrees"
   ],
   "note": "Every conversion of the code is modelled where it happens; the results equal those of the cgs models of the other files for the amounts given (agreement theorems), bremsstrahlung for non-zero weights (see C30). Quadrature of the Kelner model is external."
  },
  {
   "property": "C114",
   "status": "proved",
   "theorems": [
    "C114_table_like_array",
    "C114_other_dimension",
    "C114_sed_and_models"
   ],
   "note": "The remaining combinations are C141."
  },
  {
   "property": "C115",
   "status": "proved",
   "theorems": [
    "C115_axis",
    "C115_axis_mismatch",
    "C115_synchrotron",
    "C115_inverse_compton_seed",
    "C115_inverse_compton",
    "C115_empty",
    "C115_pion_cross_section",
    "C115_bremsstrahlung"
   ],
   "note": "The numpy expressions (broadcasting, slices, masks, axis sums, vstack, squeeze) are modelled on arrays and shown equal to the pointwise models used everywhere else; so this is also the justification of those models. Non-empty arrays for the isotropic kernel (np.vstack of nothing raises, C115_empty); bremsstrahlung with weights other than 0 (C30). Long runs of operations that are all elementwise on the same broadcast are lifted together."
  },
  {
   "property": "C116",
   "status": "proved",
   "theorems": [
    "C116_likelihood",
    "C116_likelihood_million",
    "C116_sum",
    "C116_flux",
    "C116_sed",
    "C116_round_trip",
    "C116_underflow",
    "C116_power_law",
    "C116_cutoff_power_law",
    "C116_broken_power_law",
    "C116_cutoff_broken_power_law",
    "C116_log_parabola",
    "C116_synchrotron_function"
   ],
   "note": "Doubles are Flocq FLX reals (53 bits, nearest even): no overflow or underflow, C116_underflow relates them to IEEE binary64. pow, exp, log, cbrt within 1 ulp is a hypothesis, satisfiable (C116_libm). The upper-limit penalty needs confidence levels of at least 1/2 (then 1 - cl is exact). trapz_loglog is C117. The IC and pion kernels, which subtract nearly equal numbers, are not bounded."
  },
  {
   "property": "C117",
   "status": "proved",
   "theorems": [
    "C117_bin",
    "C117_no_contribution",
    "C117_bin_any_index",
    "C117_eight_digits",
    "C117_integral"
   ],
   "note": "Binary64 as in C116 (no overflow or underflow). The exact value compared with is the Riemann integral of the power law through the two samples. The bound next to index -1 is about 4e-3 for 100 points per decade: the subtraction x2 (x2/x1)^b - x1 loses up to ten digits there."
  },
  {
   "property": "C118",
   "status": "proved",
   "theorems": [
    "C118_nodes",
    "C118_nodes_needed",
    "C118_array",
    "C118_spectrum"
   ],
   "note": "The spline is external and assumed only to pass through its nodes: nothing is said about its values between them (it can overshoot below zero). Energies outside the table are C142."
  },
  {
   "property": "C119",
   "status": "proved",
   "theorems": [
    "C119_integral",
    "C119_energy_content",
    "C119_log_parabola",
    "C119_cutoff",
    "C119_default_grid",
    "C119_computed",
    "C119_synchrotron"
   ],
   "note": "Strengthens C110 (first order / convergence). Kinks (broken power laws) are not twice differentiable: C110 applies to them. The synchrotron coefficient grows with E/Ec(Emin): for photons far above the critical energy of the least energetic electrons the bound is weak although the part of the integral concerned is negligible."
  },
  {
   "property": "C120",
   "status": "proved",
   "theorems": [
    "C120_fit",
    "C120_one_sequence",
    "C120_given_sampler",
    "C120_pool_released",
    "C120_shape",
    "C120_errors",
    "C120_posterior",
    "C120_no_guess",
    "C120_median",
    "C120_median_value"
   ],
   "note": "emcee is an unknown move of the whole ensemble (universally quantified). Samplers without position, failing runs and the guess flag are C143."
  },
  {
   "property": "C121",
   "status": "proved",
   "theorems": [
    "C121_file",
    "C121_failure_writes_nothing",
    "C121_no_overwrite",
    "C121_run_info",
    "C121_plain",
    "C121_ipac",
    "C121_results",
    "C121_blob_units",
    "C121_succeeds",
    "C121_fit"
   ],
   "note": "astropy Table.write is an atomic write of one file. What does not hold is C144."
  },
  {
   "property": "C122",
   "status": "proved",
   "theorems": [
    "C122_checked",
    "C122_accepted",
    "C122_arguments_checked",
    "C122_accepted_exactly",
    "C122_recorded",
    "C122_defaults",
    "C122_cache_key_exists",
    "C122_cache_key_complete",
    "C122_proton_threshold",
    "C122_weights",
    "C122_numbers",
    "C122_reassigned",
    "C122_table"
   ],
   "note": "What is not checked is C145. The defaults are those of the docstrings except the points per decade of InverseCompton (C145)."
  },
  {
   "property": "C123",
   "status": "proved",
   "theorems": [
    "C123_synchrotron",
    "C123_inverse_compton",
    "C123_bremsstrahlung",
    "C123_pion_decay",
    "C123_amplitude",
    "C123_distance",
    "C123_bins",
    "C123_declared",
    "C123_table",
    "C123_nonnegative",
    "C123_guess"
   ],
   "note": "For distances other than 0; bremsstrahlung can be negative by itself (C31, C71). Sherpa's own cache, its parameter limits in guess and the printout of verbose are not modelled. Parameters at their limits are C146."
  },
  {
   "property": "C124",
   "status": "proved",
   "theorems": [
    "C124_best_fit",
    "C124_recomputed",
    "C124_samples",
    "C124_recomputed_samples",
    "C124_blob",
    "C124_axes",
    "C124_no_such_output"
   ],
   "note": "The run without blobs (find_ML 685-693) is not modelled, because core.lnprob always stores some; matplotlib is its input and output. Which outputs are stored as returned (the hypothesis [fitted]) is C163. What does not hold is C147."
  },
  {
   "property": "C125",
   "status": "partial",
   "theorems": [
    "C125_kelner_refuted",
    "C125_kelner_one_side_partial"
   ],
   "note": "Proved for requests on one side of the transition energy. Refuted (code defect): a request that spans the transition energy rescales the low-energy part by a matching factor that a separate request of the low energy does not apply."
  },
  {
   "property": "C126",
   "status": "partial",
   "theorems": [
    "C126_duplicate_name_refuted"
   ],
   "note": "Refuted (code defect): the second silently replaces the first."
  },
  {
   "property": "C127",
   "status": "partial",
   "theorems": [
    "C127_below_threshold_refuted"
   ],
   "note": "Refuted (code defect): the whole spectrum is nan."
  },
  {
   "property": "C128",
   "status": "partial",
   "theorems": [
    "C128_redshift_zero_refuted"
   ],
   "note": "Proved up to 100 TeV (C37_nearby). Refuted (code defect): above 100 TeV the transmission of a source at redshift 0 is below 1/8."
  },
  {
   "property": "C129",
   "status": "partial",
   "theorems": [
    "C129_normal_refuted",
    "C129_normalisation_refuted",
    "C129_log_uniform_refuted"
   ],
   "note": "Refuted (code defects): normal_prior is a Gaussian only for sigma=1, and never normalised; log_uniform_prior returns 1/value instead of its logarithm."
  },
  {
   "property": "C130",
   "status": "partial",
   "theorems": [
    "C130_number_density_refuted"
   ],
   "note": "Refuted (code defect): the announced unit is inconsistent and the conversion always fails."
  },
  {
   "property": "C131",
   "status": "partial",
   "theorems": [
    "C131_nan_refuted",
    "C131_array_domain_refuted"
   ],
   "note": "Refuted (code defects): nan passes every domain; validate_array ignores the domain, so tables with negative energies are accepted."
  },
  {
   "property": "C132",
   "status": "partial",
   "theorems": [
    "C132_unsaved_blob_hides_later_refuted",
    "C132_more_than_100_refuted",
    "C132_tuples_refuted"
   ],
   "note": "Refuted (code defects): a blob of another kind hides all later ones; tuples of three arrays lose the third, tuples of one array or of scalars never come back; blobs beyond the hundredth are lost."
  },
  {
   "property": "C133",
   "status": "partial",
   "theorems": [
    "C133_last_step_refuted",
    "C133_last_step_example_refuted",
    "C133_odd_label_refuted",
    "C133_extra_labels_refuted"
   ],
   "note": "Refuted (code defects): last_step takes the history of the last walker instead of the last step; a label containing log( elsewhere than at the start fails or repeats an earlier distribution; more labels than parameters raise IndexError."
  },
  {
   "property": "C134",
   "status": "partial",
   "theorems": [
    "C134_limit_refuted",
    "C134_toggle_refuted",
    "C134_exception_refuted",
    "C134_flag_after_exception_refuted"
   ],
   "note": "Refuted (code defects): a fit stopped at the evaluation limit changes the parameters but neither sliders nor display; moves made with auto-update off stay undisplayed after it is switched on; an exception in the model after a fit leaves auto-update off, and a failing fit keeps an old flag for slider positions never fitted."
  },
  {
   "property": "C135",
   "status": "partial",
   "theorems": [
    "C135_gap_refuted",
    "C135_point_refuted"
   ],
   "note": "Refuted (code defects): gaps between bins are integrated too; point evaluation returns the model times the energy."
  },
  {
   "property": "C136",
   "status": "partial",
   "theorems": [
    "C136_error_text_zero_refuted",
    "C136_zero_upper_error_refuted",
    "C136_zero_refuted"
   ],
   "note": "Refuted (code defects): an upper error of zero prints the lower one for both; a zero median or lower error raises OverflowError."
  },
  {
   "property": "C137",
   "status": "partial",
   "theorems": [
    "C137_collision_refuted",
    "C137_arguments_refuted",
    "C137_labels_mutated_refuted"
   ],
   "note": "Refuted (code defects): log10(B) and B share a file; too few sed flags drop models silently; a string label for several models is taken letter by letter or raises; the caller's label list is extended."
  },
  {
   "property": "C138",
   "status": "partial",
   "theorems": [
    "C138_overflow_refuted"
   ],
   "note": "Refuted (code defect): a chain whose median is 0 or equals the 16th percentile raises OverflowError; C103 has the exact condition."
  },
  {
   "property": "C139",
   "status": "partial",
   "theorems": [
    "C139_superposition_refuted",
    "C139_monotone_refuted"
   ],
   "note": "Refuted: the log-log rule makes the content of the sum of two power laws strictly larger than the sum of contents, and inside the 1e-10 window round index -1 more particles can mean (by 1e-10) less energy."
  },
  {
   "property": "C140",
   "status": "partial",
   "theorems": [
    "C140_float_refuted",
    "C140_empty_partial",
    "C140_empty_refuted",
    "C140_two_dimensional_refuted",
    "C140_column_refuted",
    "C140_column_seeds_refuted",
    "C140_cache_refuted"
   ],
   "note": "Refuted (code defects): a float, documented, makes inverse Compton and pion decay raise and gives a one-element array for synchrotron and bremsstrahlung; an empty array makes isotropic inverse Compton and PionDecay raise (proved for the others); two-dimensional arrays lose an axis, gain one or raise; through the cache the shape returned can be that of an earlier request with the same values."
  },
  {
   "property": "C141",
   "status": "partial",
   "theorems": [
    "C141_flux_refuted",
    "C141_ic_sed_table_refuted",
    "C141_scalar_in_dict_refuted"
   ],
   "note": "Refuted (code defects): flux with its default cache raises KeyError for a missing column and AttributeError for anything that is not a Quantity or table, including lists of quantities that sed accepts; InverseCompton.sed of one seed raises TypeError for a table; a dict with a scalar energy is accepted or not depending on the cache setting."
  },
  {
   "property": "C142",
   "status": "partial",
   "theorems": [
    "C142_above_table_refuted",
    "C142_kinematic_limit_refuted",
    "C142_below_table_refuted",
    "C142_threshold_refuted"
   ],
   "note": "Refuted (code defects): above the highest tabulated photon energy (1 PeV in the shipped table, which is used by default) the spectrum is constant for ever and so violates the kinematic limit; below the lowest photon or proton node values are likewise those of the edge; one tabulated proton energy between the proton mass and the pion threshold turns the whole table into nan."
  },
  {
   "property": "C143",
   "status": "partial",
   "theorems": [
    "C143_sampler_without_position_refuted",
    "C143_failed_run_loses_chain_refuted",
    "C143_guess_flag_refuted"
   ],
   "note": "Refuted (code defects): run_sampler(sampler=s) without pos ignores s; a run that raises (second run with several threads because the pool is closed, or nrun=0) has already erased the chain and set run_info[\"n_run\"]; run_info[\"guess\"] is True when no normalisation was guessed. With sampler and position: C120_given_sampler."
  },
  {
   "property": "C144",
   "status": "partial",
   "theorems": [
    "C144_own_entry_replaced_refuted",
    "C144_numpy_string_refuted",
    "C144_last_step_refuted",
    "C144_documented_name_refuted",
    "C144_mixed_units_refuted"
   ],
   "note": "Refuted (code defects), each of the five: a run_info entry named like one of the table's own replaces it; one numpy string in run_info makes saving in the default format fail; with last_step n_samples is the number of steps, not of walkers; the default file is outname_results.ecsv; blobs in different units are mixed under the unit of one."
  },
  {
   "property": "C145",
   "status": "partial",
   "theorems": [
    "C145_output_unchecked_refuted",
    "C145_table_units_refuted",
    "C145_kelner_unchecked_refuted",
    "C145_density_unchecked_refuted",
    "C145_keywords_unchecked_refuted",
    "C145_ic_points_refuted"
   ],
   "note": "Refuted (code defects), each: a distribution with an amplitude per unit energy is accepted whatever it returns (a TableModel with units on values and amplitude: every calculation fails later); PionDecayKelner06 checks no distribution; Bremsstrahlung checks no density; negative or array magnetic fields and densities are accepted; keyword settings are not checked; InverseCompton uses 100 points per decade where 300 are documented."
  },
  {
   "property": "C146",
   "status": "partial",
   "theorems": [
    "C146_distance_refuted",
    "C146_weight_refuted",
    "C146_inverse_compton_edge_refuted"
   ],
   "note": "Refuted (code defects): a distance of 0 and a bremsstrahlung weight of 0 are within the declared limits and raise; the inverse Compton model has no photon at or above 100 TeV because electrons above are ignored, whatever the cutoff."
  },
  {
   "property": "C147",
   "status": "partial",
   "theorems": [
    "C147_sample_energies_refuted",
    "C147_other_columns_refuted",
    "C147_axes_refuted"
   ],
   "note": "Refuted (code defects): the samples are drawn at the energies of the first walker of the last step; a model function that uses any other column of the data works in the fit but raises with e_range; without a point above the bottom of the axis, plot_fit raises."
  },
  {
   "property": "C148",
   "status": "proved",
   "theorems": [
    "C148_cross_section",
    "C148_kinematics",
    "C148_spectrum"
   ],
   "note": "PubSpec.v writes the cross section from the kinematics (energy, momentum and invariant mass) and the published tables, independently of the model; equality above threshold, limit of the trapezoid for the spectrum. The lookup table is C05/C34."
  },
  {
   "property": "C149",
   "status": "proved",
   "theorems": [
    "C149_photons_per_collision",
    "C149_cross_section",
    "C149_integrands",
    "C149_spectrum"
   ],
   "note": "The photons per collision are stated as the derivative of the published potential. quad is any rule that looks only inside its interval (scipy is not modelled)."
  },
  {
   "property": "C150",
   "status": "proved",
   "theorems": [
    "C150_emission",
    "C150_spectrum",
    "C150_asymptotics"
   ],
   "note": "Fine-structure and cyclotron constants from the electron charge, mass, c and hbar; the asymptotic coefficient is 0.2 per cent below pi/2."
  },
  {
   "property": "C151",
   "status": "proved",
   "theorems": [
    "C151_black_body",
    "C151_spectrum"
   ],
   "note": "The two hard-coded constants are within 1e-6 of 2 r_e^2 c/(pi lambda_C^3) and k_B/(m_e c^2)."
  },
  {
   "property": "C152",
   "status": "proved",
   "theorems": [
    "C152_line",
    "C152_thomson",
    "C152_table",
    "C152_spectrum"
   ],
   "note": "The hard-coded sigma_T c is within 1e-6 of the value from r_e."
  },
  {
   "property": "C153",
   "status": "proved",
   "theorems": [
    "C153_cross_sections",
    "C153_spectrum"
   ],
   "note": "At eps equal to the electron energy the code gives -inf (excluded). The limit is for electrons above 2 MeV and photons of at most half the lowest electron energy, where no cross section is negative (the log-log rule skips negative ones)."
  },
  {
   "property": "C154",
   "status": "proved",
   "theorems": [
    "C154_chain",
    "C154_map",
    "C154_own_objects"
   ],
   "note": "Induction over schedules (any interleaving of any assignment of tasks to workers) and over the steps of the chain. emcee is any function of the random state and of the values; an evaluation that raises ends the run and is not considered."
  },
  {
   "property": "C155",
   "status": "partial",
   "theorems": [
    "C155_kept_object_partial",
    "C155_cache_off_partial",
    "C155_threads_refuted"
   ],
   "note": "Proved when no two calls share a cache entry without having the same value (C01-C05 say when) and when caching is off. Refuted (code defect): parameter sets that C03 confuses give other values on two processes than on one."
  },
  {
   "property": "C156",
   "status": "proved",
   "theorems": [
    "C156_likelihood_of_tables"
   ],
   "note": "Composition of validation (C49, C52), unit handling (C42) and likelihood (C38, C39). Restricted as in the quantifier: mixed confidence levels and tables of violated limits only are the defect recorded as C39."
  },
  {
   "property": "C157",
   "status": "proved",
   "theorems": [
    "C157_same_data_same_fit"
   ],
   "note": "Corollary of C156 for permuted measurements."
  },
  {
   "property": "C158",
   "status": "partial",
   "theorems": [
    "C158_nan_partial",
    "C158_last_refuted"
   ],
   "note": "The exact condition is proved. Refuted (code defect): a nan at the last sample, or before a zero, is not noticed; its bin is integrated as if the function fell like 1/x."
  },
  {
   "property": "C159",
   "status": "partial",
   "theorems": [
    "C159_rectangle_bounds_partial",
    "C159_sign_partial",
    "C159_sign_change_refuted"
   ],
   "note": "Bounds and sign proved for all signs (abscissa ratios below exp(1e9)). Refuted (code defect): between samples of opposite sign the second one is not used."
  },
  {
   "property": "C160",
   "status": "partial",
   "theorems": [
    "C160_limits_refuted"
   ],
   "note": "Refuted (code defect): estimate_B never looks at the upper-limit flags, the estimate is the same with and without them."
  },
  {
   "property": "C161",
   "status": "partial",
   "theorems": [
    "C161_refused_partial",
    "C161_zero_partial",
    "C161_accepted_refuted",
    "C161_negative_photons_refuted"
   ],
   "note": "Refused: negative temperatures and densities of black bodies and lines; a zero density in any unit means a full black body (C161_zero_partial). Refuted (code defect): validate_array ignores its domain, so negative line energies, and negative energies and densities of spectra, are accepted; a line of negative energy gives no photons below the electron energies and a negative number above them."
  },
  {
   "property": "C162",
   "status": "partial",
   "theorems": [
    "C162_number_partial",
    "C162_half_refuted",
    "C162_grid_refuted"
   ],
   "note": "A number, and the value of the real model, for photon energies other than half the electron rest energy and the electron energies of the grid. Refuted (code defect) at those: at exactly m_e c^2/2 the e-e cross section is 0*log(0)=nan, and at a photon energy equal to a grid electron energy (other than the last) the e-p cross section is -inf and the integral nan."
  },
  {
   "property": "C163",
   "status": "partial",
   "theorems": [
    "C163_kept_partial",
    "C163_arrays_refuted",
    "C163_single_refuted",
    "C163_numbers_refuted"
   ],
   "note": "Proved for a single array and for outputs of different sizes or with a scalar among them. Refuted (code defect): several arrays of one length and nothing else, or a tuple of one array, become a block of numbers without unit (numpy object array made by emcee) that no plot accepts (of one value each: one bare number per value, C163_numbers_refuted); core.py 110-112 guards only the single array. numpy and emcee are modelled from their documentation."
  },
  {
   "property": "C164",
   "status": "partial",
   "theorems": [
    "C164_amplitude_at_break_refuted",
    "C164_cutoff_refuted",
    "C164_amplitude_at_reference_partial"
   ],
   "note": "Refuted (documentation and code disagree): at the break the value is the amplitude exactly if the break is the reference energy or the first index is zero, and never for the model with cutoff in these cases. It is the value at the reference energy when that lies below the break."
  },
  {
   "property": "C165",
   "status": "proved",
   "theorems": [
    "C165_likelihood",
    "C165_same_physics",
    "C165_same_parameters"
   ],
   "note": "C165_likelihood, C165_same_physics and C165_same_parameters compose C113 (radiative models in any units), C156/C157 (tables to likelihood) and the model function of a fit (FitRadModel). `emits m L` says that L(E) is the number of photons per erg and second computed from the cgs amounts; for PionDecay it asks that the spectrum be a number (not nan) at positive energies. Limits of several confidence levels are violated only as in C156 (the code's treatment is C50's)."
  },
  {
   "property": "C166",
   "status": "proved",
   "theorems": [
    "C166_reload",
    "C166_same_results",
    "C166_again"
   ],
   "note": "C166_reload adds the numpy object array of read_run (line 575) to C55; hypothesis `kept`: not all blobs are sequences of one length (emcee keeps units only then, C163). C166_same_results, C166_again. A float blob comes back as a dimensionless Quantity, hence with an entry for its unit in the metadata: same units claimed without float blobs. The run_info of a reloaded run also has the entries naima stored itself (acceptance_fraction, labels), so the metadata copied from run_info are more; which of them are kept is C55."
  },
  {
   "property": "C167",
   "status": "proved",
   "theorems": [
    "C167_curve",
    "C167_likelihood",
    "C167_without_data",
    "C167_session",
    "C167_updates_work"
   ],
   "note": "C167_curve, C167_likelihood (equal to the sum of C156), C167_without_data, C167_session (no hypothesis on the model function beyond the updates not raising), C167_updates_work. Modelled: model_fitter.py 13-19, 57-186, 239-256; the drawing itself is matplotlib's, the rounding of the text to one decimal is not modelled. Equality of energies is of reals."
  },
  {
   "property": "C168",
   "status": "partial",
   "theorems": [
    "C168_axis_partial",
    "C168_bins_refuted",
    "C168_labels_partial",
    "C168_fluxes_partial",
    "C168_caller_refuted",
    "C168_columns_refuted"
   ],
   "note": "Proved: all energies of data and curve are on the axis with a factor 3 to spare for data in order of energy (as validate_data_table leaves them) with bins that do not reach zero (C168_axis_partial); what a model function reading the fluxes sees is the data, or zeros in the documented units (C168_fluxes_partial); labels given are kept and the missing ones are par<i> (C168_labels_partial). Refuted: a wide bin of a row other than the first can extend left of the axis (C168_bins_refuted); a list of labels that is too short is extended in place (C168_caller_refuted); a model function that reads other columns of the data raises in the fitter although it can be fitted (C168_columns_refuted)."
  },
  {
   "property": "C169",
   "status": "proved",
   "theorems": [
    "C169_integral",
    "C169_energy_content",
    "C169_distributions",
    "C169_lower_bounds",
    "C169_set_energy",
    "C169_synchrotron"
   ],
   "note": "C169_integral (any spectrum and grid), C169_energy_content, C169_distributions (curvature of the built-in distributions), C169_lower_bounds, C169_set_energy, C169_synchrotron (the synchrotron function of radiative.py 300-311 itself bends down). In exact arithmetic; the factor step^1e-10 is the window round index -1. C169_example_strict: the error is really one-sided (ln 4 against 2 on a two-point grid)."
  },
  {
   "property": "C170",
   "status": "proved",
   "theorems": [
    "C170_power"
   ],
   "note": "C170_power: the exact integral over photon energies of energy times the kernel of radiative.py 296-327 (normalisation CS1 and the function Gtilde with the coefficients of the source). The integral of Gtilde is enclosed by midpoint sums evaluated by the kernel in fixed-point arithmetic with proved rounding and discretisation errors. Kernel level and exact arithmetic; the sum over electrons is C110, C119 and C169. Wrong coefficients in Gtilde or the constants break it."
  },
  {
   "property": "C171",
   "status": "proved",
   "theorems": [
    "C171_line"
   ],
   "note": "C171_line: the exact integrals over scattered photon energies of the kernel of radiative.py (iso_ic_on_monochromatic), with the constant of the source, against the Thomson cross section (the source's r_e to its stated digits): scatterings between S(1 - 8/3 x - 3/(4 gamma^2)) and S, power between P(1 - 63/10 x - 1/(3 gamma^4)) and P, x = gamma eps/mec2. Kernel level and exact arithmetic; the sum over electrons is C110, C119 and C169."
  },
  {
   "property": "C172",
   "status": "proved",
   "theorems": [
    "C172_black_body"
   ],
   "note": "C172_black_body: the exact integral over photon energies of energy times the kernel of radiative.py 547-574 with the constants of the source, against the classical power with CODATA constants (written in the statement file). The integral of the fitted function over a range of its argument is enclosed by interval arithmetic (IntervalProofs, PlanckProofs: 1338 cells, verified by computation in the kernel); the tails, the change of variable, the recoil and the constants are bounded by proof. Kernel level and exact arithmetic; a field of energy density u is scaled by u/(a T^4) (C151_spectrum), and the sum over electrons is C110, C119 and C169."
  },
  {
   "property": "C173",
   "status": "proved",
   "theorems": [
    "C173_synchrotron",
    "C173_inverse_compton"
   ],
   "note": "C173_synchrotron, C173_inverse_compton: the limits of the spectra are C150 and C110, the power of one electron C170 and C172 (extended to photon energies beyond that of the electron in LumProps2); the exchange of the integrals over electrons and photons is Fubini's theorem for continuous functions (FubiniProofs), and the thermal kernel is shown continuous in both arguments also at the kinematic limit. Exact arithmetic; differences at a given finite grid are bounded by C110 and C119. Thermal photons isotropic, one field (fields add: C09)."
  },
  {
   "property": "C174",
   "status": "partial",
   "theorems": [
    "C174_tables_partial",
    "C174_refused_partial",
    "C174_dict_refuted",
    "C174_iterator_refuted"
   ],
   "note": "Tables, lists and samplers, and what is refused, proved (C49-C53 and C89 say what becomes of the rows). Refuted (code defects): a dict, documented, always raises and gains an entry group; an iterator over tables is used up by the type check and raises IndexError."
  },
  {
   "property": "C175",
   "status": "proved",
   "theorems": [
    "C175_ratio"
   ],
   "note": "C175_ratio, for the limit of fine grids and exact arithmetic, constants of the synchrotron part consistent with those of the inverse Compton part (speed of light, classical electron radius)."
  },
  {
   "property": "C176",
   "status": "proved",
   "theorems": [
    "C176_energy",
    "C176_field"
   ],
   "note": "C176_energy, C176_field: the logarithmic derivative of the emissivity times e^x lies between 0 and 1/3 at every x (H1_range, Gtilde_slopes), and the integration rule is monotone up to the slack of C111, so the bounds hold on the grid the code uses, not only in a limit. Exact arithmetic; C176_example shows an instance."
  },
  {
   "property": "C177",
   "status": "proved",
   "theorems": [
    "C177_synchrotron",
    "C177_default",
    "C177_power_law",
    "C177_cutoff"
   ],
   "note": "C177_synchrotron (general), C177_default, C177_power_law, C177_cutoff. Removes the limitation of C119_synchrotron, whose bound grows with the photon energy over the critical energy of the least energetic electrons: the grid is split at a grid point some D above, where the integrand is shown to increase and to be negligible against the rest (tail_small, by the slopes of C176). Exact arithmetic; the exact integral is that of the published emissivity (C150)."
  },
  {
   "property": "C178",
   "status": "proved",
   "theorems": [
    "C178_temperature",
    "C178_black_body",
    "C178_angle"
   ],
   "note": "C178_temperature, C178_black_body, C178_angle: the fitted functions G12 and G34 decrease (G12_decreasing, G34_decreasing), so the kernels compare electron by electron (iso_heat, ani_heat), and the integration rule is monotone up to the slack of C111. Exact arithmetic; C178_example shows an instance."
  },
  {
   "property": "C179",
   "status": "partial",
   "theorems": [
    "C179_hot_fields_refuted",
    "C179_thomson_partial",
    "C179_power_law_partial"
   ],
   "note": "C179_hot_fields_refuted (KnProps): deep in the Klein-Nishina regime no multiple of the computed flux bounds the exact one: the integrand grows like 1/(gamma - e) next to the photon energy and the grid misses it; C179_hot_fields_example. C179_thomson_partial, C179_power_law_partial (ThomProps): two per cent in the Thomson regime, on the grid of the code; C179_example. Convergence of the computed flux to the exact one: C110. Missing: bounds between the two regimes."
  }
 ]
}