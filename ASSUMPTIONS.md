# Print Assumptions of every property theorem

Generated from the `Print Assumptions` output of `rocq/theories/Props_*.v`. All names are axioms of Coq's standard library.

## Closed under the global context (22 theorems)

C116_one_element, C116_same_values_accepted_refuted, C33_class_names, C33_getter_mutates_refuted, C33_variable_names, C50_cosmology, C50_cosmology_variables, C67_resample, C67_shared_keys_refuted, C72_history, C72_missing_library, C72_validation, C73_retry_refuted, C74_idempotent, C74_last_name_decides, C74_others_untouched, C74_x64_sticky, C75_entries, C75_two_functions_refuted, C78_keyword_refuted, C90_delegation_refuted, C91_copy_refuted

## `sig_forall_dec` (2 theorems)

C92_cupy_switch_refuted, C92_meta_data

## `classic` (1 theorems)

C12_apply_conditions

## `functional_extensionality_dep`, `sig_forall_dec` (66 theorems)

C104_pooled_injections, C104_repeated_injections, C105_injection_effective_samples, C108_efficiency, C109_cosmology, C111_exact, C112_exact, C114_axis, C114_caller_first_axis, C114_caller_grid, C114_errors, C114_line, C114_two_axes, C114_uniform, C115_length_mismatch_partial, C115_length_mismatch_refuted, C126_new_objects, C128_cosmo, C133_coverage, C135_one_data_set, C135_shared_refuted, C135_uncached, C136_memory, C13_trapezoid_concat, C13_trapezoid_linear, C13_trapezoid_monotone, C13_trapezoid_reverse, C15_round_trip_alpha_beta, C15_round_trip_arrays, C15_round_trip_mu_var, C16_feasible_region, C17_only_adds, C18_array_values, C18_fails_iff_amax_missing, C18_none_rejected, C18_selected_values, C19_idempotent, C20_arrays_mutated_refuted, C20_callers_arrays_partial, C20_only_mu_and_sigma_arrays_partial, C36_inferred_count, C36_range_lost_refuted, C46_names, C47_conversion, C47_jacobian, C47_neither, C48_both_given_refuted, C48_key_order_partial, C48_redshift_given_refuted, C49_mass_integral, C51_homogeneous, C51_permutation, C52_correction, C52_default_never_converges, C55_equal_lengths_refuted, C55_iterated_trapezoid, C55_linear, C56_input_kept_refuted, C67_counts, C68_prior, C69_predictive, C69_scale_invariance, C71_rate_sample, C77_own_weights_refuted, C87_same_draw_refuted, C92_custom_model_refuted

## `functional_extensionality_dep`, `sig_forall_dec`, `sig_not_dec` (23 theorems)

C109_selection_functions, C10_2d_gaussian_rho0_partial, C113_redshift, C114_caller_spin, C119_jump_refuted, C119_small_smoothing, C123_poisson, C124_detector_frame, C128_redshift, C28_smoothing_range, C29_no_smoothing_no_renormalisation, C29_primary_normalised, C29_primary_normalised_any, C41_chi_grid_normalised, C41_own_grid, C44_differential_volume, C44_norm_positive, C44_normalised, C44_value, C52_call, C53_degenerate, C61_agreement_partial, C84_no_lower_cut_refuted

## `classic`, `functional_extensionality_dep`, `sig_forall_dec`, `sig_not_dec` (342 theorems)

C01_powerlaw_density, C01_powerlaw_shape, C02_powerlaw_limit, C03_powerlaw_outside_partial, C03_powerlaw_outside_refuted, C04_truncnorm_density, C04_truncnorm_formula, C05_truncnorm_finite, C06_truncnorm_reflect, C06_truncnorm_scale, C06_truncnorm_shift, C07_beta_dist_density, C08_beta_dist_diverging_edges, C08_beta_dist_edges_partial, C08_beta_dist_edges_refuted, C08_beta_dist_unit_exponent_refuted, C09_von_mises_density, C09_von_mises_negative_kappa_refuted, C100_log_evidence_biased_refuted, C101_joint_normalised, C101_spline_joint_normalised, C102_rate_absorbs_scale, C102_unnormalised_density, C103_catalogues_add, C103_catalogues_add_rate, C104_repeated_samples, C105_event_effective_samples, C106_from_zero, C106_half_normal_above, C106_half_normal_below, C106_no_density_from_zero, C106_no_pareto, C106_normal, C106_pareto, C107_beta_documented_refuted, C107_broken_power_law_documented_refuted, C107_madau_documented_refuted, C107_mass_ratio_documented_refuted, C107_truncnorm_documented_refuted, C107_window_documented_refuted, C108_bounds, C108_mixture_concave, C108_monotone, C109_analytic_densities, C109_likelihoods, C109_no_smoothing_refuted, C109_smoothed_models, C10_2d_gaussian_power_partial, C10_2d_gaussian_refuted, C110_log_likelihood, C110_means, C110_sums, C111_convergence_test, C111_efficiency_variance_error, C111_negative_refuted, C111_variance_error, C112_overflow_refuted, C112_underflow_refuted, C113_beta, C113_chi, C113_mass_ratio, C113_power_law_mass, C113_powerlaw, C113_redshift_library, C113_truncnorm, C117_error_partial, C117_log_slope_error_partial, C117_slope_near_minus_one_refuted, C118_broken_power_law, C118_mixture_refuted, C118_power_law_mass, C118_powerlaw, C118_truncnorm, C119_single_peak_refuted, C11_2d_gaussian_shape, C120_injections, C120_too_few_injections, C121_normalised, C121_trapezoid, C121_underflow_refuted, C122_accuracy, C122_plateaus, C122_positive_refuted, C122_range_and_monotone, C123_rate, C123_truth_maximal, C124_coordinates, C125_stable, C126_joint_models, C126_mass_ratio, C126_primary_models, C126_smoothed, C127_chi_independent, C127_isotropic_limit, C127_madau_asymptotes, C127_madau_without_peak, C127_narrow_truncnorm, C127_wide_truncnorm, C128_interpolated, C128_smoothed, C128_spline_power_law, C129_broken_power_law, C129_mass_ratio, C129_peak_models, C129_powerlaw, C129_rates, C129_redshift, C129_spins, C129_truncnorm, C12_nan_and_positional, C130_likelihood, C131_continuous, C131_flat, C131_jump_refuted, C131_single_peak_partial, C132_edges_refuted, C132_masses, C132_orientations, C132_redshifts, C132_spin_formula, C132_spins, C133_spin_file_refuted, C134_density, C134_formula, C134_likelihood, C135_likelihood, C136_survey, C137_mass, C137_redshift, C137_selection, C138_correctly_rounded, C138_log_likelihood, C139_below_one, C139_between_grid_masses, C139_normalised_up_to_one_step, C13_trapezoid_affine, C13_trapezoid_interpolant, C140_total_variance, C141_beta, C141_multipeak_labels, C141_peak_labels, C141_powerlaw, C141_redshift, C141_truncnorm, C142_log_likelihood, C142_powerlaw, C142_truncnorm_mean, C142_truncnorm_width, C143_forward, C143_minus_one_refuted, C143_no_window_refuted, C143_powerlaw, C143_rates, C143_reverse, C143_truncnorm, C143_window, C144_gaussian_mass_maximum, C144_smoothing_width, C144_tilt_means, C145_beta, C145_mass_ratio, C145_powerlaw_integers_refuted, C145_powerlaw_partial, C145_powerlaw_shape_refuted, C145_powerlaw_zero_refuted, C145_truncnorm_partial, C146_above_mean_partial, C146_accuracy_partial, C146_always_a_number, C146_below_mean_partial, C146_narrow_refuted, C147_admissible_refuted, C147_alpha_beta, C147_mean_variance, C147_round_trip, C148_checks, C148_integers_and_zero_refuted, C148_mass_joint_partial, C148_mass_single_partial, C148_spin, C149_integers_refuted, C149_redshift_partial, C14_spin_not_validated_refuted, C14_validated_partial, C150_accuracy, C150_always_a_number, C150_limits_refuted, C151_identical_partial, C151_integers_refuted, C151_mass_partial, C152_madau, C152_powerlaw, C152_volume, C153_spin_orientation, C153_three_components, C153_two_components, C154_single_peak, C154_smoothed_primary, C154_window, C155_madau, C155_powerlaw, C155_redshift_density, C156_iid_spin, C156_power_law_pair, C156_primary_secondary, C156_spin_magnitude, C156_two_component_pair, C157_accuracy, C157_exception_occurs, C157_log_slope, C157_mass_and_ratio, C157_outside, C21_double_power_law_density, C22_double_power_law_peak_normalised, C22_mixture_reduces, C22_power_law_mass_normalised, C22_three_component_normalised, C22_two_component_normalised, C23_double_power_law_mass_ratio, C23_power_law_primary_mass_ratio, C23_two_component_primary_mass_ratio, C24_power_law_identical, C24_two_component_identical, C25_independent_normalisation, C25_independent_refuted, C25_independent_swap_partial, C25_two_component_independent_swap_partial, C26_mass_ratio_nan_partial, C26_mass_ratio_nan_refuted, C27_slope_minus_one_refuted, C27_slopes_accepted_partial, C28_closed_form, C28_smoothing_window, C29_classes_normalised, C29_single_peak_normalised, C30_accepted, C30_beta_required, C30_bounds_rejected, C30_spline_beta_required, C30_spline_bounds_rejected, C31_cached_partial, C31_cached_refuted, C31_spline_masses_refuted, C31_spline_partial, C31_uncached, C32_never_nan, C32_ratio_normalised, C32_ratio_normalised_all, C33_names_are_the_keywords, C34_norm_positive, C34_one_parameter_normalised, C34_product, C35_new_data_ignored_refuted, C35_same_nodes_partial, C35_stale_nodes_refuted, C37_regularised_values, C38_iid_is_independent, C38_independent_spin_magnitude, C39_documented_weight, C39_iid_is_independent, C39_orientation_density, C40_chi_eff_density, C40_chi_p_density, C40_width_rejected, C42_iid_spin_exchange, C42_iid_spin_product, C43_madau_kappa0, C43_madau_today, C43_powerlaw_today, C44_library_rates, C45_consistent, C45_four_volume, C45_no_redshift_model, C46_names_suffice, C49_probability_conserved, C51_detection_efficiency, C53_vt_factor, C54_unconverged_rejected, C57_per_event, C57_sample_permutation, C57_scaling, C58_event_permutation, C58_formula, C59_finite_double, C60_exact, C60_ieee754, C60_infinite_estimator_refuted, C60_rejected_partial, C61_standard_deviation_refuted, C62_nan_variance_ignored_refuted, C62_nan_variance_refuted, C63_accepts_unusable_refuted, C63_null, C63_unconverged_resampling_accepted_refuted, C64_formula, C64_relation, C65_rate_required, C66_extra_statistics, C66_selection_variance_refuted, C70_default_refuted, C70_noise, C71_variance_refuted, C76_agrees, C76_defined, C76_nan_default_refuted, C76_returned, C76_without_selection, C77_first_samples_refuted, C78_agrees, C78_full_likelihood_refuted, C79_jax_unsmoothed_refuted, C79_nodes_inside_grid_refuted, C79_normalised, C80_mean_and_variance, C80_requested_moments, C81_names_are_the_keywords, C82_failed_call_refuted, C83_true_peak, C83_z_peak_refuted, C85_conversion_refuted, C86_rate_refuted, C88_rate_variance_refuted, C89_convergence_refuted, C89_settings_ignored_refuted, C93_any_grid, C93_four_volume, C93_interpolated_density, C93_redshift_density, C94_efficiency_unbiased, C95_evidence_unbiased, C96_break_at_an_end_refuted, C96_equal_slopes, C96_mixtures, C97_reflection, C97_scaling, C97_uniform, C98_iid_exchange, C98_independent_exchange, C98_isotropic, C99_efficiency_converges, C99_efficiency_deviation, C99_evidence_deviation
