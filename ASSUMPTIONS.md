# What Print Assumptions lists for each theorem

Generated by tools/assumptions.py from the compiled files.

## Closed under the global context (no axioms)

C01_memo_transparent_partial, C01_scan_transparent_partial, C01_disabled_transparent_partial, C01_memo_transparent_refuted, C02_default_distance_refuted, C02_explicit_distance_partial, C03_parameter_confusion_refuted, C03_delimited_partial, C04_cache_bounded_fifo, C05_undeclared_distribution_refuted, C05_declared_parameter_seen_partial, C06_aliasing_refuted, C06_private_results_partial, C07_instances_isolated_partial, C07_class_cache_refuted, C29_table_in_use, C54_physical_type, C56_save_touches_one_file, C56_bad_suffix_refused, C69_fallback_is_sticky_refuted, C69_setting_kept_partial, C70_sequential_partial, C73_labels, C73_generated_labels, C73_generated_distinct, C74_serial_partial, C74_second_run_refuted, C74_zero_steps_refuted, C79_refused_save_partial, C84_interactive_refuted, C84_start_partial, C85_unknown_keyword_refuted, C85_known_keyword_partial, C90_options_partial, C90_leak_refuted, C91_files, C91_names, C92_interactive_partial, C92_exception_refuted, C93_samples_partial, C93_at_most_100_refuted, C94_blob_samples_partial, C94_format_refuted, C102_empty_refuted, C103_bins, C112_array, C112_cached_shape_wins, C112_cache_array, C114_table_like_array, C114_other_dimension, C114_sed_and_models, C122_numbers, C122_reassigned, C132_unsaved_blob_hides_later_refuted, C132_more_than_100_refuted, C137_collision_refuted, C137_arguments_refuted, C137_labels_mutated_refuted, C140_float_refuted, C140_empty_partial, C140_empty_refuted, C140_two_dimensional_refuted, C140_column_refuted, C140_column_seeds_refuted, C140_cache_refuted, C141_flux_refuted, C141_ic_sed_table_refuted, C141_scalar_in_dict_refuted, C154_chain, C154_map, C154_own_objects, C155_kept_object_partial, C155_cache_off_partial, C155_threads_refuted, C163_kept_partial, C163_numbers_refuted, C168_labels_partial, C168_caller_refuted

## `ClassicalDedekindReals.sig_forall_dec`

C40_excluded_evaluated_refuted, C55_roundtrip, C79_failed_save_refuted, C79_missing_file_partial, C122_table, C132_tuples_refuted, C166_reload, C166_again

## `ClassicalDedekindReals.sig_forall_dec`, `FunctionalExtensionality.functional_extensionality_dep`

C24_zero_is_blackbody, C25_distinct_names, C25_string_is_list, C25_unknown_name, C40_value_partial, C41_uniform, C41_log_uniform_support, C44_relative_offset_partial, C44_distinct_partial, C44_zero_parameter_refuted, C45_likelihood_not_worse_partial, C45_forbidden_discarded_partial, C45_with_prior_refuted, C46_never_worse_partial, C46_best_evaluated_partial, C46_nan_refuted, C47_budget, C47_status, C48_integer_start_refuted, C48_dtype_refuted, C48_exact_storage_partial, C50_factor, C50_round_trip, C50_unit_independent, C50_documented_units, C50_round_trip_all, C50_unit_independent_all, C50_other_types, C54_scalar, C57_find_ML, C57_errors, C59_bands_nested, C60_display_follows_sliders, C60_ml_flag, C60_failed_update, C60_same_value, C60_init, C60_settings_kept, C62_shared_amplitude_refuted, C62_others_untouched_partial, C70_concurrent_refuted, C80_summary_in_range, C80_median_odd, C80_percentiles, C81_band_coverage, C82_sample_cap_refuted, C82_enough_samples_partial, C83_initial_value_partial, C83_ranges_partial, C83_initial_value_refuted, C83_untouched_parameter_refuted, C84_prefit_only_partial, C88_residuals_partial, C88_wrong_energy_refuted, C88_tolerance_partial, C88_interpolated_partial, C89_points_partial, C89_negative_flux_refuted, C89_bin_refuted, C89_all_compatible_with_zero_refuted, C97_named_fields, C97_given_fields, C100_initial_simplex, C101_seed_fields_partial, C105_with_function_partial, C105_without_function_refuted, C106_restored_partial, C106_failure_refuted, C107_decisions_partial, C107_no_samples_refuted, C109_explicit_unit_partial, C109_readable_label_partial, C109_overlay_refuted, C113_seed_density, C120_median, C120_median_value, C122_checked, C122_accepted, C122_arguments_checked, C122_accepted_exactly, C122_recorded, C122_defaults, C122_cache_key_exists, C122_cache_key_complete, C122_proton_threshold, C122_weights, C123_declared, C123_table, C124_blob, C126_duplicate_name_refuted, C130_number_density_refuted, C131_nan_refuted, C134_limit_refuted, C134_toggle_refuted, C134_exception_refuted, C134_flag_after_exception_refuted, C145_output_unchecked_refuted, C145_table_units_refuted, C145_kelner_unchecked_refuted, C145_density_unchecked_refuted, C145_keywords_unchecked_refuted, C145_ic_points_refuted, C161_refused_partial, C161_zero_partial, C161_accepted_refuted

## `ClassicalDedekindReals.sig_forall_dec`, `ClassicalDedekindReals.sig_not_dec`, `FunctionalExtensionality.functional_extensionality_dep`

C08_stale_seed_refuted, C08_seed_flux_partial, C09_total_is_sum_of_seeds, C10_seed_index_refuted, C10_seed_validation_partial, C19_ic_inverse_square, C19_inverse_square, C19_distance_validation, C20_ic_sed_is_E2_flux, C20_sed_is_E2_flux, C20_sed_fails_like_flux, C49_rows_sorted_permutation, C51_bins, C51_edges_geometric_mean, C51_groups_independent, C52_accepted_iff_well_formed, C53_energy_density_ratio, C75_row_order_refuted, C75_table_refuted, C75_increasing_partial, C76_confidence_level_refuted, C76_valid_level_partial, C78_content_partial, C78_errors_required_partial, C78_one_edge_dropped_refuted, C101_distance_partial, C101_distance_zero_refuted, C113_flux_agrees, C131_array_domain_refuted, C148_kinematics, C174_tables_partial, C174_refused_partial, C174_dict_refuted, C174_iterator_refuted

## `ClassicalDedekindReals.sig_forall_dec`, `ClassicalDedekindReals.sig_not_dec`, `Classical_Prop.classic`, `FunctionalExtensionality.functional_extensionality_dep`

C11_trapz_exact_power_law, C11_bin_is_loglog_interpolant, C12_window_error, C13_scaling_and_units, C13_unit_independent, C14_rectangle_bounds, C14_nonnegative, C14_positive, C15_additive, C15_intervals, C16_no_nan, C17_set_energy, C17_models_proportional, C17_default_bounds, C18_brems_linear, C18_amplitude_linear, C18_pion_linear, C21_nonnegative, C21_synchrotron_positive, C21_pion_nonnegative, C21_kelner_nonnegative, C22_brems_pointwise, C22_brems_permutation, C22_pointwise, C22_permutation, C22_pion_pointwise, C22_pion_permutation, C23_photon_below_electron, C23_line_kinematics, C23_thermal_positive, C24_grey_body, C26_photon_limit, C26_kelner_threshold, C26_kinematic_threshold, C27_symmetry, C27_spectrum_symmetry, C28_cross_sections_positive, C30_weights_partial, C30_zero_weight_refuted, C31_ep_sign_partial, C31_negative_refuted, C31_ee_positive_partial, C32_grids, C33_branches, C33_continuous, C34_normalisation, C34_special_cases, C34_cutoff_and_sign, C34_local_index, C35_units_of_arguments, C35_base_unit_irrelevant, C35_wrong_dimension_rejected, C36_table_model, C37_transmission, C37_nearby, C37_tabulated, C38_asymmetric_gaussian, C39_common_level_partial, C39_mixed_levels_refuted, C39_all_violated_refuted, C42_units, C43_only_normalisation_partial, C43_flux_matches_partial, C43_label_case_refuted, C53_scaling, C53_common_scale, C53_value, C53_luminosity_positive, C57_BIC, C58_whole_chain, C58_no_conversion, C58_blob_rows, C61_one_value_per_bin, C61_bin_is_integral, C61_power_law_exact, C63_absorption_drop_refuted, C63_iff_partial, C64_between_nodes_refuted, C64_power_law_partial, C65_reversed_bounds_refuted, C65_ordered_bounds_partial, C66_angle_ignored_refuted, C66_thermal_partial, C67_decreasing_seed_energies_refuted, C67_increasing_partial, C68_negative_B_refuted, C68_positive_partial, C71_negative_flux_refuted, C71_low_energies_partial, C71_off_grid_partial, C72_inputs_modified_refuted, C72_unmodified_partial, C77_mixed_tables_refuted, C86_guess, C86_cutoff_zero, C87_printed, C87_models_agree, C95_validation, C96_synchrotron_scaling, C96_compton_scaling, C98_cross_sections, C98_no_photons_above_electrons, C99_high_energy_model, C99_low_energies, C99_nuclear_enhancement, C102_bands_partial, C102_levels_refuted, C103_chain, C103_agrees_with_table, C103_distribution, C104_limits_partial, C104_zero_edge_partial, C104_negative_edge_refuted, C104_grid, C108_value_error, C108_order, C108_negative, C110_converges, C110_energy_content, C110_set_energy, C110_relative_error, C110_synchrotron, C110_synchrotron_continuous, C110_inverse_compton, C110_inverse_compton_thermal, C110_pion, C110_power_law, C110_cutoff, C111_energy_content, C111_synchrotron, C111_inverse_compton, C111_pion, C111_upper, C111_limit, C113_synchrotron, C113_inverse_compton, C113_bremsstrahlung, C113_We, C113_pion_decay, C113_pion_decay_agrees, C113_Wp, C113_kelner, C113_kelner_agrees, C113_synchrotron_agrees, C113_inverse_compton_agrees, C113_bremsstrahlung_agrees, C113_We_agrees, C113_Wp_agrees, C115_axis, C115_axis_mismatch, C115_synchrotron, C115_inverse_compton_seed, C115_inverse_compton, C115_empty, C115_pion_cross_section, C115_bremsstrahlung, C116_likelihood, C116_likelihood_million, C116_sum, C116_flux, C116_sed, C116_round_trip, C116_underflow, C116_power_law, C116_cutoff_power_law, C116_broken_power_law, C116_cutoff_broken_power_law, C116_log_parabola, C116_synchrotron_function, C117_bin, C117_no_contribution, C117_bin_any_index, C117_eight_digits, C117_integral, C118_nodes, C118_nodes_needed, C118_array, C118_spectrum, C119_integral, C119_energy_content, C119_log_parabola, C119_cutoff, C119_default_grid, C119_computed, C119_synchrotron, C120_fit, C120_one_sequence, C120_given_sampler, C120_pool_released, C120_shape, C120_errors, C120_posterior, C120_no_guess, C121_file, C121_failure_writes_nothing, C121_no_overwrite, C121_run_info, C121_plain, C121_ipac, C121_results, C121_blob_units, C121_succeeds, C121_fit, C123_synchrotron, C123_inverse_compton, C123_bremsstrahlung, C123_pion_decay, C123_amplitude, C123_distance, C123_bins, C123_nonnegative, C123_guess, C124_best_fit, C124_recomputed, C124_samples, C124_recomputed_samples, C124_axes, C124_no_such_output, C125_kelner_refuted, C125_kelner_one_side_partial, C127_below_threshold_refuted, C128_redshift_zero_refuted, C129_normal_refuted, C129_normalisation_refuted, C129_log_uniform_refuted, C133_last_step_refuted, C133_last_step_example_refuted, C133_odd_label_refuted, C133_extra_labels_refuted, C135_gap_refuted, C135_point_refuted, C136_error_text_zero_refuted, C136_zero_upper_error_refuted, C136_zero_refuted, C138_overflow_refuted, C139_superposition_refuted, C139_monotone_refuted, C142_above_table_refuted, C142_kinematic_limit_refuted, C142_below_table_refuted, C142_threshold_refuted, C143_sampler_without_position_refuted, C143_failed_run_loses_chain_refuted, C143_guess_flag_refuted, C144_own_entry_replaced_refuted, C144_numpy_string_refuted, C144_last_step_refuted, C144_documented_name_refuted, C144_mixed_units_refuted, C146_distance_refuted, C146_weight_refuted, C146_inverse_compton_edge_refuted, C147_sample_energies_refuted, C147_other_columns_refuted, C147_axes_refuted, C148_cross_section, C148_spectrum, C149_photons_per_collision, C149_cross_section, C149_integrands, C149_spectrum, C150_emission, C150_spectrum, C150_asymptotics, C151_black_body, C151_spectrum, C152_line, C152_thomson, C152_table, C152_spectrum, C153_cross_sections, C153_spectrum, C156_likelihood_of_tables, C157_same_data_same_fit, C158_nan_partial, C158_last_refuted, C159_rectangle_bounds_partial, C159_sign_partial, C159_sign_change_refuted, C160_limits_refuted, C161_negative_photons_refuted, C162_number_partial, C162_half_refuted, C162_grid_refuted, C163_arrays_refuted, C163_single_refuted, C164_amplitude_at_break_refuted, C164_cutoff_refuted, C164_amplitude_at_reference_partial, C165_likelihood, C165_same_physics, C165_same_parameters, C166_same_results, C167_curve, C167_likelihood, C167_without_data, C167_session, C167_updates_work, C168_axis_partial, C168_bins_refuted, C168_fluxes_partial, C168_columns_refuted, C169_integral, C169_energy_content, C169_distributions, C169_lower_bounds, C169_set_energy, C169_synchrotron, C170_power, C171_line, C172_black_body, C173_synchrotron, C173_inverse_compton, C175_ratio, C176_energy, C176_field, C177_synchrotron, C177_default, C177_power_law, C177_cutoff, C178_temperature, C178_black_body, C178_angle, C179_hot_fields_refuted, C179_thomson_partial, C179_power_law_partial
