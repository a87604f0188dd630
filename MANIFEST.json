{
 "claims": [
  {
   "property": "C01",
   "status": "proved",
   "theorems": [
    "C01_powerlaw_density",
    "C01_powerlaw_shape"
   ],
   "note": "Shown for every slope; on numpy/cupy the keyword alpha=1 is rejected by the guard (C27), which the hypothesis excludes."
  },
  {
   "property": "C02",
   "status": "proved",
   "theorems": [
    "C02_powerlaw_limit"
   ],
   "note": ""
  },
  {
   "property": "C03",
   "status": "partial",
   "theorems": [
    "C03_powerlaw_outside_partial",
    "C03_powerlaw_outside_refuted"
   ],
   "note": "The property as stated is false; C03_powerlaw_outside_partial characterises exactly when the value is 0 and when it is NaN, C03_powerlaw_outside_refuted is a witness."
  },
  {
   "property": "C04",
   "status": "proved",
   "theorems": [
    "C04_truncnorm_density",
    "C04_truncnorm_formula"
   ],
   "note": ""
  },
  {
   "property": "C05",
   "status": "proved",
   "theorems": [
    "C05_truncnorm_finite"
   ],
   "note": ""
  },
  {
   "property": "C06",
   "status": "proved",
   "theorems": [
    "C06_truncnorm_shift",
    "C06_truncnorm_scale",
    "C06_truncnorm_reflect"
   ],
   "note": ""
  },
  {
   "property": "C07",
   "status": "proved",
   "theorems": [
    "C07_beta_dist_density"
   ],
   "note": ""
  },
  {
   "property": "C08",
   "status": "partial",
   "theorems": [
    "C08_beta_dist_edges_partial",
    "C08_beta_dist_edges_refuted",
    "C08_beta_dist_diverging_edges",
    "C08_beta_dist_unit_exponent_refuted"
   ],
   "note": "False as stated: for alpha=1 (beta=1) the value at the edge is 0 although the density has a positive limit (shown for every other exponent and scale). The other theorems settle the remaining edges: exponent > 1 gives the limit 0, exponent < 1 gives the largest double where the density diverges."
  },
  {
   "property": "C09",
   "status": "partial",
   "theorems": [
    "C09_von_mises_density",
    "C09_von_mises_negative_kappa_refuted"
   ],
   "note": "Proved for kappa >= 0; the kappa < 0 theorem gives the exact (wrong) normalisation. Status partial only because of the negative-kappa refutation."
  },
  {
   "property": "C10",
   "status": "partial",
   "theorems": [
    "C10_2d_gaussian_power_partial",
    "C10_2d_gaussian_rho0_partial",
    "C10_2d_gaussian_refuted"
   ],
   "note": "False for rho != 0: the code computes the documented value to the power 1+rho. Holds for rho = 0."
  },
  {
   "property": "C11",
   "status": "proved",
   "theorems": [
    "C11_2d_gaussian_shape"
   ],
   "note": ""
  },
  {
   "property": "C12",
   "status": "proved",
   "theorems": [
    "C12_apply_conditions",
    "C12_nan_and_positional"
   ],
   "note": ""
  },
  {
   "property": "C13",
   "status": "proved",
   "theorems": [
    "C13_trapezoid_linear",
    "C13_trapezoid_affine",
    "C13_trapezoid_concat",
    "C13_trapezoid_reverse",
    "C13_trapezoid_monotone",
    "C13_trapezoid_interpolant"
   ],
   "note": ""
  },
  {
   "property": "C14",
   "status": "partial",
   "theorems": [
    "C14_validated_partial",
    "C14_spin_not_validated_refuted"
   ],
   "note": "False for the shape parameters of the spin magnitude model and the widths of the orientation models, which are passed by position; the partial theorem lists every model that does validate."
  },
  {
   "property": "C15",
   "status": "proved",
   "theorems": [
    "C15_round_trip_alpha_beta",
    "C15_round_trip_mu_var",
    "C15_round_trip_arrays"
   ],
   "note": ""
  },
  {
   "property": "C16",
   "status": "proved",
   "theorems": [
    "C16_feasible_region"
   ],
   "note": ""
  },
  {
   "property": "C17",
   "status": "proved",
   "theorems": [
    "C17_only_adds"
   ],
   "note": ""
  },
  {
   "property": "C18",
   "status": "proved",
   "theorems": [
    "C18_selected_values",
    "C18_fails_iff_amax_missing",
    "C18_none_rejected",
    "C18_array_values"
   ],
   "note": ""
  },
  {
   "property": "C19",
   "status": "proved",
   "theorems": [
    "C19_idempotent"
   ],
   "note": ""
  },
  {
   "property": "C20",
   "status": "partial",
   "theorems": [
    "C20_callers_arrays_partial",
    "C20_arrays_mutated_refuted",
    "C20_only_mu_and_sigma_arrays_partial"
   ],
   "note": "False for numpy/cupy arrays: C20_arrays_mutated_refuted gives the rescaled contents. The partial theorems say exactly which arrays can change: only those under mu_chi/sigma_chi of a converted suffix, whatever the outcome of the call (exceptions included)."
  },
  {
   "property": "C21",
   "status": "proved",
   "theorems": [
    "C21_double_power_law_density"
   ],
   "note": ""
  },
  {
   "property": "C22",
   "status": "proved",
   "theorems": [
    "C22_power_law_mass_normalised",
    "C22_two_component_normalised",
    "C22_three_component_normalised",
    "C22_double_power_law_peak_normalised",
    "C22_mixture_reduces"
   ],
   "note": ""
  },
  {
   "property": "C23",
   "status": "proved",
   "theorems": [
    "C23_power_law_primary_mass_ratio",
    "C23_two_component_primary_mass_ratio",
    "C23_double_power_law_mass_ratio"
   ],
   "note": "m1 = mmin is excluded from the vanishing clause (see C26); slopes rejected by the keyword guard are excluded (C27)."
  },
  {
   "property": "C24",
   "status": "proved",
   "theorems": [
    "C24_power_law_identical",
    "C24_two_component_identical"
   ],
   "note": ""
  },
  {
   "property": "C25",
   "status": "partial",
   "theorems": [
    "C25_independent_swap_partial",
    "C25_two_component_independent_swap_partial",
    "C25_independent_refuted",
    "C25_independent_normalisation"
   ],
   "note": "False as stated. C25_independent_normalisation settles it for power laws: the integral is 1 exactly when the slopes agree, above 1 exactly when the secondary is steeper, below 1 exactly when the primary is. The swap theorems also cover the two-component model."
  },
  {
   "property": "C26",
   "status": "partial",
   "theorems": [
    "C26_mass_ratio_nan_partial",
    "C26_mass_ratio_nan_refuted"
   ],
   "note": "False as stated; C26_mass_ratio_nan_partial characterises the NaN set exactly, C26_mass_ratio_nan_refuted is a witness."
  },
  {
   "property": "C27",
   "status": "partial",
   "theorems": [
    "C27_slopes_accepted_partial",
    "C27_slope_minus_one_refuted"
   ],
   "note": "False on numpy/cupy; the partial theorem characterises acceptance exactly for the one-dimensional models."
  },
  {
   "property": "C28",
   "status": "proved",
   "theorems": [
    "C28_smoothing_window",
    "C28_smoothing_range",
    "C28_closed_form"
   ],
   "note": ""
  },
  {
   "property": "C29",
   "status": "proved",
   "theorems": [
    "C29_primary_normalised",
    "C29_primary_normalised_any",
    "C29_no_smoothing_no_renormalisation",
    "C29_single_peak_normalised",
    "C29_classes_normalised"
   ],
   "note": ""
  },
  {
   "property": "C30",
   "status": "proved",
   "theorems": [
    "C30_spline_beta_required",
    "C30_spline_bounds_rejected",
    "C30_beta_required",
    "C30_bounds_rejected",
    "C30_accepted"
   ],
   "note": ""
  },
  {
   "property": "C31",
   "status": "partial",
   "theorems": [
    "C31_spline_partial",
    "C31_spline_masses_refuted",
    "C31_uncached",
    "C31_cached_partial",
    "C31_cached_refuted"
   ],
   "note": "Holds without the cache for every history; with the default cache it holds only for histories that keep the masses (or whose masses do not broadcast), and fails otherwise (witness with the constructor of a library class)."
  },
  {
   "property": "C32",
   "status": "proved",
   "theorems": [
    "C32_never_nan",
    "C32_ratio_normalised",
    "C32_ratio_normalised_all"
   ],
   "note": ""
  },
  {
   "property": "C33",
   "status": "partial",
   "theorems": [
    "C33_variable_names",
    "C33_class_names",
    "C33_names_are_the_keywords",
    "C33_getter_mutates_refuted"
   ],
   "note": "The advertised names are right for every class; the no-side-effect clause is false for a primary model carrying its own variable_names list, which every read extends."
  },
  {
   "property": "C34",
   "status": "proved",
   "theorems": [
    "C34_one_parameter_normalised",
    "C34_norm_positive",
    "C34_product"
   ],
   "note": "One parameter: unit integral (C34_one_parameter_normalised), positivity of the normalisation and the product form for several parameters (C34_product)."
  },
  {
   "property": "C35",
   "status": "partial",
   "theorems": [
    "C35_same_nodes_partial",
    "C35_stale_nodes_refuted",
    "C35_new_data_ignored_refuted"
   ],
   "note": "False in general: the splines are built from the first call's nodes and data and later nodes/data are ignored. The partial theorem covers histories in which the node positions and data do not change."
  },
  {
   "property": "C36",
   "status": "partial",
   "theorems": [
    "C36_inferred_count",
    "C36_range_lost_refuted"
   ],
   "note": "The inferred node count is right; the refutation shows that re-initialisation loses the user's range."
  },
  {
   "property": "C37",
   "status": "proved",
   "theorems": [
    "C37_regularised_values"
   ],
   "note": ""
  },
  {
   "property": "C38",
   "status": "proved",
   "theorems": [
    "C38_independent_spin_magnitude",
    "C38_iid_is_independent"
   ],
   "note": ""
  },
  {
   "property": "C39",
   "status": "proved",
   "theorems": [
    "C39_orientation_density",
    "C39_documented_weight",
    "C39_iid_is_independent"
   ],
   "note": ""
  },
  {
   "property": "C40",
   "status": "proved",
   "theorems": [
    "C40_chi_eff_density",
    "C40_chi_p_density",
    "C40_width_rejected"
   ],
   "note": ""
  },
  {
   "property": "C41",
   "status": "proved",
   "theorems": [
    "C41_chi_grid_normalised",
    "C41_own_grid"
   ],
   "note": ""
  },
  {
   "property": "C42",
   "status": "proved",
   "theorems": [
    "C42_iid_spin_product",
    "C42_iid_spin_exchange"
   ],
   "note": ""
  },
  {
   "property": "C43",
   "status": "proved",
   "theorems": [
    "C43_powerlaw_today",
    "C43_madau_today",
    "C43_madau_kappa0"
   ],
   "note": ""
  },
  {
   "property": "C44",
   "status": "proved",
   "theorems": [
    "C44_normalised",
    "C44_norm_positive",
    "C44_value",
    "C44_differential_volume",
    "C44_library_rates"
   ],
   "note": "The lower end is C84."
  },
  {
   "property": "C45",
   "status": "proved",
   "theorems": [
    "C45_four_volume",
    "C45_consistent",
    "C45_no_redshift_model"
   ],
   "note": "The two volumes use different first grid points (0 and 1e-6), as the code does."
  },
  {
   "property": "C46",
   "status": "proved",
   "theorems": [
    "C46_names",
    "C46_names_suffice"
   ],
   "note": ""
  },
  {
   "property": "C47",
   "status": "proved",
   "theorems": [
    "C47_conversion",
    "C47_jacobian",
    "C47_neither"
   ],
   "note": ""
  },
  {
   "property": "C48",
   "status": "partial",
   "theorems": [
    "C48_key_order_partial",
    "C48_redshift_given_refuted",
    "C48_both_given_refuted"
   ],
   "note": "False when the redshift is supplied; the partial theorem covers distance-only data, the refutations give the KeyError and the mixed frames."
  },
  {
   "property": "C49",
   "status": "proved",
   "theorems": [
    "C49_mass_integral",
    "C49_probability_conserved"
   ],
   "note": "Root finder assumed exact (its numerical error is outside the model); one detector-frame mass and the distance."
  },
  {
   "property": "C50",
   "status": "proved",
   "theorems": [
    "C50_cosmology_variables",
    "C50_cosmology"
   ],
   "note": ""
  },
  {
   "property": "C51",
   "status": "proved",
   "theorems": [
    "C51_detection_efficiency",
    "C51_permutation",
    "C51_homogeneous"
   ],
   "note": ""
  },
  {
   "property": "C52",
   "status": "proved",
   "theorems": [
    "C52_correction",
    "C52_default_never_converges",
    "C52_call"
   ],
   "note": ""
  },
  {
   "property": "C53",
   "status": "proved",
   "theorems": [
    "C53_vt_factor",
    "C53_degenerate"
   ],
   "note": "The ZeroDivisionError clause is proved in both directions: C53_degenerate gives it, C53_vt_factor excludes it. Python's OverflowError for huge floats is outside the model."
  },
  {
   "property": "C54",
   "status": "proved",
   "theorems": [
    "C54_unconverged_rejected"
   ],
   "note": "For both the ordinary and the rate likelihood; the per-event values are arbitrary. With marginalisation the claim is for the case in which the factor can be evaluated (no ZeroDivisionError)."
  },
  {
   "property": "C55",
   "status": "proved",
   "theorems": [
    "C55_iterated_trapezoid",
    "C55_linear",
    "C55_equal_lengths_refuted"
   ],
   "note": "Both the integration clause (pairwise different lengths) and the stated violation (equal lengths) are proved; model and sensitivity arrays have the same shape."
  },
  {
   "property": "C56",
   "status": "partial",
   "theorems": [
    "C56_input_kept_refuted"
   ],
   "note": "False as stated; the theorem shows the removed entry and the KeyError for every well-formed dictionary."
  },
  {
   "property": "C57",
   "status": "proved",
   "theorems": [
    "C57_per_event",
    "C57_sample_permutation",
    "C57_scaling"
   ],
   "note": "The variance bound proved is the sharp 1 - 1/K."
  },
  {
   "property": "C58",
   "status": "proved",
   "theorems": [
    "C58_formula",
    "C58_event_permutation"
   ],
   "note": ""
  },
  {
   "property": "C59",
   "status": "proved",
   "theorems": [
    "C59_finite_double"
   ],
   "note": ""
  },
  {
   "property": "C60",
   "status": "partial",
   "theorems": [
    "C60_rejected_partial",
    "C60_exact",
    "C60_infinite_estimator_refuted",
    "C60_ieee754"
   ],
   "note": "Exact characterisation for finite estimators (rejected iff below 2^970), NaN and -inf; refuted for +inf, with the pipeline input that produces it; the tail is proved equal to the same operations on Flocq binary64 numbers."
  },
  {
   "property": "C61",
   "status": "partial",
   "theorems": [
    "C61_standard_deviation_refuted",
    "C61_agreement_partial"
   ],
   "note": "Refuted; agreement of the two comparisons is characterised exactly (thresholds 0, 1, inf)."
  },
  {
   "property": "C62",
   "status": "partial",
   "theorems": [
    "C62_nan_variance_refuted",
    "C62_nan_variance_ignored_refuted"
   ],
   "note": "Refuted."
  },
  {
   "property": "C63",
   "status": "proved",
   "theorems": [
    "C63_null",
    "C63_accepts_unusable_refuted",
    "C63_unconverged_resampling_accepted_refuted"
   ],
   "note": "Both the cut and the stated acceptances (unconverged selection, zero-weight event) are proved."
  },
  {
   "property": "C64",
   "status": "proved",
   "theorems": [
    "C64_formula",
    "C64_relation"
   ],
   "note": "The maximum and the integral are proved for every N >= 1; the likelihood as a function of the rate is the model evaluated at parameters that differ only in the rate."
  },
  {
   "property": "C65",
   "status": "proved",
   "theorems": [
    "C65_rate_required"
   ],
   "note": ""
  },
  {
   "property": "C66",
   "status": "proved",
   "theorems": [
    "C66_extra_statistics",
    "C66_selection_variance_refuted"
   ],
   "note": "Consistency is proved for all values; the stated violations are proved too. The division by the squared selection value is assumed not to raise ZeroDivisionError (numpy/cupy with selection 0)."
  },
  {
   "property": "C67",
   "status": "proved",
   "theorems": [
    "C67_counts",
    "C67_resample",
    "C67_shared_keys_refuted"
   ],
   "note": "The random sampling is an arbitrary function drawing distinct rows; the shared-key clause is refuted as stated in the property."
  },
  {
   "property": "C68",
   "status": "proved",
   "theorems": [
    "C68_prior"
   ],
   "note": ""
  },
  {
   "property": "C69",
   "status": "proved",
   "theorems": [
    "C69_predictive",
    "C69_scale_invariance"
   ],
   "note": "The draws are an arbitrary function that returns indices of non-zero probability."
  },
  {
   "property": "C70",
   "status": "partial",
   "theorems": [
    "C70_noise",
    "C70_default_refuted"
   ],
   "note": "The sum is proved; the default clause is refuted (NaN)."
  },
  {
   "property": "C71",
   "status": "partial",
   "theorems": [
    "C71_rate_sample",
    "C71_variance_refuted"
   ],
   "note": "Also shown: a selection function returning (value, variance) without the two methods raises TypeError in generate_rate_posterior_sample."
  },
  {
   "property": "C72",
   "status": "proved",
   "theorems": [
    "C72_history",
    "C72_validation",
    "C72_missing_library"
   ],
   "note": "Histories of any length in which every call returned or failed in validation/loading (no_late_failure); late failures are C73. Registered entry points are fixed along the history; entry strings are well formed and name no xp/scs (regular). Importing a module is assumed not to change attributes."
  },
  {
   "property": "C73",
   "status": "partial",
   "theorems": [
    "C73_retry_refuted"
   ],
   "note": "Refuted for every failure point in the xp loop; the retry is a no-op in every interpreter."
  },
  {
   "property": "C74",
   "status": "proved",
   "theorems": [
    "C74_idempotent",
    "C74_last_name_decides",
    "C74_others_untouched",
    "C74_x64_sticky"
   ],
   "note": "The 64-bit switch of jax is the one part of the state that depends on the history (C74_x64_sticky)."
  },
  {
   "property": "C75",
   "status": "partial",
   "theorems": [
    "C75_entries",
    "C75_two_functions_refuted"
   ],
   "note": "Proved for one function per module; refuted for two. Function paths that contain the library name a second time are excluded by the specification of denotes (all occurrences are replaced by the code)."
  },
  {
   "property": "C76",
   "status": "partial",
   "theorems": [
    "C76_agrees",
    "C76_defined",
    "C76_without_selection",
    "C76_returned",
    "C76_nan_default_refuted"
   ],
   "note": "Equality for all values including infinities and NaN; the NaN clause is refuted for the default (infinite) threshold. The selection function is a ResamplingVT."
  },
  {
   "property": "C77",
   "status": "partial",
   "theorems": [
    "C77_first_samples_refuted",
    "C77_own_weights_refuted"
   ],
   "note": "Refuted."
  },
  {
   "property": "C78",
   "status": "partial",
   "theorems": [
    "C78_agrees",
    "C78_keyword_refuted",
    "C78_full_likelihood_refuted"
   ],
   "note": "Agreement proved for all likelihoods; the keyword clause is refuted. jit is modelled as not changing values and as raising on a branch over a keyword argument."
  },
  {
   "property": "C79",
   "status": "partial",
   "theorems": [
    "C79_normalised",
    "C79_nodes_inside_grid_refuted",
    "C79_jax_unsmoothed_refuted"
   ],
   "note": "Holds when the nodes span the grid; false when a node range cuts a supported grid mass, and on jax with delta_m = 0."
  },
  {
   "property": "C80",
   "status": "proved",
   "theorems": [
    "C80_mean_and_variance",
    "C80_requested_moments"
   ],
   "note": ""
  },
  {
   "property": "C81",
   "status": "proved",
   "theorems": [
    "C81_names_are_the_keywords"
   ],
   "note": ""
  },
  {
   "property": "C82",
   "status": "partial",
   "theorems": [
    "C82_failed_call_refuted"
   ],
   "note": "False as stated; the theorem gives the witness history."
  },
  {
   "property": "C83",
   "status": "partial",
   "theorems": [
    "C83_true_peak",
    "C83_z_peak_refuted"
   ],
   "note": "False unless kappa = 2 gamma; C83_true_peak gives the actual maximum."
  },
  {
   "property": "C84",
   "status": "partial",
   "theorems": [
    "C84_no_lower_cut_refuted"
   ],
   "note": "False below the grid."
  },
  {
   "property": "C85",
   "status": "partial",
   "theorems": [
    "C85_conversion_refuted"
   ],
   "note": "Refuted for every conversion function and selection function that needs a converted parameter."
  },
  {
   "property": "C86",
   "status": "partial",
   "theorems": [
    "C86_rate_refuted"
   ],
   "note": "Refuted: agreement exactly when the surveyed volume-time is 1. numpyro's Gamma(concentration, rate) is taken to divide the standard variate by its second argument."
  },
  {
   "property": "C87",
   "status": "partial",
   "theorems": [
    "C87_same_draw_refuted"
   ],
   "note": "Refuted. The sampling function is an arbitrary function of key, probabilities and size."
  },
  {
   "property": "C88",
   "status": "partial",
   "theorems": [
    "C88_rate_variance_refuted"
   ],
   "note": "Refuted; agreement is characterised exactly (R P_det = 1 or zero variance)."
  },
  {
   "property": "C89",
   "status": "partial",
   "theorems": [
    "C89_convergence_refuted",
    "C89_settings_ignored_refuted"
   ],
   "note": "Refuted."
  },
  {
   "property": "C90",
   "status": "partial",
   "theorems": [
    "C90_delegation_refuted"
   ],
   "note": "The set of names defined by bilby's Likelihood class is an argument."
  },
  {
   "property": "C91",
   "status": "partial",
   "theorems": [
    "C91_copy_refuted"
   ],
   "note": "Refuted for every recursion limit."
  },
  {
   "property": "C92",
   "status": "partial",
   "theorems": [
    "C92_meta_data",
    "C92_cupy_switch_refuted",
    "C92_custom_model_refuted"
   ],
   "note": "Proved when the backend is unchanged or not cupy; refuted otherwise. Arrays are represented by their contents and the library that owns them."
  },
  {
   "property": "C93",
   "status": "proved",
   "theorems": [
    "C93_any_grid",
    "C93_redshift_density",
    "C93_four_volume",
    "C93_interpolated_density"
   ],
   "note": "Exact arithmetic; the bound on the second derivative is a hypothesis (the density, the volume element and the interpolation kernel are arbitrary)."
  },
  {
   "property": "C94",
   "status": "proved",
   "theorems": [
    "C94_efficiency_unbiased"
   ],
   "note": "Finite sample spaces (densities are masses); sums over all tuples of N draws."
  },
  {
   "property": "C95",
   "status": "proved",
   "theorems": [
    "C95_evidence_unbiased"
   ],
   "note": "Finite sample spaces; the samples of event i are random, the other events are fixed but arbitrary."
  },
  {
   "property": "C96",
   "status": "partial",
   "theorems": [
    "C96_equal_slopes",
    "C96_break_at_an_end_refuted",
    "C96_mixtures"
   ],
   "note": "Masses are positive; on numpy and cupy slope -1 is rejected (C27). Break fractions strictly inside (0,1) are proved; the two ends are refuted (exact arithmetic: in floating point break_fraction=1 may round to a break just below mmax)."
  },
  {
   "property": "C97",
   "status": "proved",
   "theorems": [
    "C97_reflection",
    "C97_uniform",
    "C97_scaling"
   ],
   "note": "Reflection holds for all arguments and parameters, with keyword scale as the library calls it."
  },
  {
   "property": "C98",
   "status": "proved",
   "theorems": [
    "C98_iid_exchange",
    "C98_independent_exchange",
    "C98_isotropic"
   ],
   "note": "Pointwise; xf multiplication is exact."
  },
  {
   "property": "C99",
   "status": "proved",
   "theorems": [
    "C99_efficiency_deviation",
    "C99_efficiency_converges",
    "C99_evidence_deviation"
   ],
   "note": "Finite sample spaces. Chebyshev bound with the exact single-draw variance."
  },
  {
   "property": "C100",
   "status": "partial",
   "theorems": [
    "C100_log_evidence_biased_refuted"
   ],
   "note": "Refuted: the bias is characterised (never positive, strictly negative when two weights differ)."
  },
  {
   "property": "C101",
   "status": "proved",
   "theorems": [
    "C101_spline_joint_normalised",
    "C101_joint_normalised"
   ],
   "note": "mmin must not be a grid mass (there the conditional density is 0/0 in the code) and some grid mass must lie in (mmin, mmax]."
  },
  {
   "property": "C102",
   "status": "proved",
   "theorems": [
    "C102_unnormalised_density",
    "C102_rate_absorbs_scale"
   ],
   "note": "Weights positive; injections with positive total weight, at most total_generated of them found."
  },
  {
   "property": "C103",
   "status": "proved",
   "theorems": [
    "C103_catalogues_add",
    "C103_catalogues_add_rate"
   ],
   "note": ""
  },
  {
   "property": "C104",
   "status": "proved",
   "theorems": [
    "C104_repeated_samples",
    "C104_repeated_injections",
    "C104_pooled_injections"
   ],
   "note": "The understated variance of repeated samples is a property of the estimator, not an error of the code."
  },
  {
   "property": "C105",
   "status": "proved",
   "theorems": [
    "C105_event_effective_samples",
    "C105_injection_effective_samples"
   ],
   "note": ""
  },
  {
   "property": "C106",
   "status": "proved",
   "theorems": [
    "C106_normal",
    "C106_half_normal_above",
    "C106_half_normal_below",
    "C106_pareto",
    "C106_no_pareto",
    "C106_from_zero",
    "C106_no_density_from_zero"
   ],
   "note": "A Python float low=0.0 raises ZeroDivisionError in high/low; the statements are about array elements, where the division gives inf."
  },
  {
   "property": "C107",
   "status": "partial",
   "theorems": [
    "C107_beta_documented_refuted",
    "C107_truncnorm_documented_refuted",
    "C107_window_documented_refuted",
    "C107_madau_documented_refuted",
    "C107_broken_power_law_documented_refuted",
    "C107_mass_ratio_documented_refuted"
   ],
   "note": "Each documented formula is transcribed in SpecDoc.v; all are refuted, with the exact relation to the returned value."
  },
  {
   "property": "C108",
   "status": "proved",
   "theorems": [
    "C108_bounds",
    "C108_monotone",
    "C108_efficiency",
    "C108_mixture_concave"
   ],
   "note": "The mixture statement is for the selection function of injections without the convergence cut."
  },
  {
   "property": "C109",
   "status": "partial",
   "theorems": [
    "C109_analytic_densities",
    "C109_smoothed_models",
    "C109_no_smoothing_refuted",
    "C109_selection_functions",
    "C109_cosmology",
    "C109_likelihoods"
   ],
   "note": "Pointwise agreement in exact arithmetic; refuted for the smoothing window at delta_m = 0. Smoothed models: first call on a new object with delta_m > 0 (a cached object can differ, C31/C33)."
  },
  {
   "property": "C110",
   "status": "proved",
   "theorems": [
    "C110_sums",
    "C110_means",
    "C110_log_likelihood"
   ],
   "note": "On Flocq's binary64 numbers; the weights are given doubles; logarithms and the sum over events are exact in C110_log_likelihood."
  },
  {
   "property": "C111",
   "status": "partial",
   "theorems": [
    "C111_variance_error",
    "C111_exact",
    "C111_negative_refuted",
    "C111_efficiency_variance_error",
    "C111_convergence_test"
   ],
   "note": "True in exact arithmetic (C111_exact); refuted on binary64; C111_variance_error and C111_efficiency_variance_error bound the error of both variances."
  },
  {
   "property": "C112",
   "status": "partial",
   "theorems": [
    "C112_exact",
    "C112_underflow_refuted",
    "C112_overflow_refuted"
   ],
   "note": "True in exact arithmetic (C112_exact); refuted on binary64 for all tiny and all huge weights."
  },
  {
   "property": "C113",
   "status": "proved",
   "theorems": [
    "C113_powerlaw",
    "C113_truncnorm",
    "C113_power_law_mass",
    "C113_mass_ratio",
    "C113_chi",
    "C113_beta",
    "C113_redshift",
    "C113_redshift_library"
   ],
   "note": "Monotone likelihood ratio argument; improper integrals for the Beta distribution; on the redshift grid the probability is measured by the trapezoid rule the code normalises with."
  },
  {
   "property": "C114",
   "status": "proved",
   "theorems": [
    "C114_axis",
    "C114_line",
    "C114_uniform",
    "C114_two_axes",
    "C114_errors",
    "C114_caller_grid",
    "C114_caller_spin",
    "C114_caller_first_axis"
   ],
   "note": "Any rank, by induction over the shape; the one-dimensional rule used elsewhere in the model is the wrapper along a line (C114_line), with refinement theorems for the three callers that pass an axis."
  },
  {
   "property": "C115",
   "status": "partial",
   "theorems": [
    "C115_length_mismatch_refuted",
    "C115_length_mismatch_partial"
   ],
   "note": "Refuted (broadcasting of a single interval); C115_length_mismatch_partial says which lengths are accepted and what is returned."
  },
  {
   "property": "C116",
   "status": "partial",
   "theorems": [
    "C116_one_element",
    "C116_same_values_accepted_refuted"
   ],
   "note": "The number agrees; which values are accepted differs between the backends."
  },
  {
   "property": "C117",
   "status": "partial",
   "theorems": [
    "C117_slope_near_minus_one_refuted",
    "C117_error_partial",
    "C117_log_slope_error_partial"
   ],
   "note": "Refuted near slope -1 for every correctly rounded power function; C117_error_partial bounds the error elsewhere. C117_log_slope_error_partial bounds the branch for slope exactly -1. Scalar hyper-parameters, numbers of moderate size."
  },
  {
   "property": "C118",
   "status": "partial",
   "theorems": [
    "C118_powerlaw",
    "C118_truncnorm",
    "C118_power_law_mass",
    "C118_broken_power_law",
    "C118_mixture_refuted"
   ],
   "note": "False for mixtures of a power law and a peak, where the fraction is an independent parameter; proved for the single distributions and the broken power law."
  },
  {
   "property": "C119",
   "status": "partial",
   "theorems": [
    "C119_small_smoothing",
    "C119_jump_refuted",
    "C119_single_peak_refuted"
   ],
   "note": "The values on both sides of the jump are proved exactly; they agree only if the trapezoidal sum of the primary model is one."
  },
  {
   "property": "C120",
   "status": "proved",
   "theorems": [
    "C120_injections",
    "C120_too_few_injections"
   ],
   "note": ""
  },
  {
   "property": "C121",
   "status": "partial",
   "theorems": [
    "C121_trapezoid",
    "C121_normalised",
    "C121_underflow_refuted"
   ],
   "note": "C121_underflow_refuted: when every term of the trapezoid rule underflows the norm is 0 and the normalised density is infinite. C121_trapezoid and C121_normalised hold away from underflow and overflow."
  },
  {
   "property": "C122",
   "status": "partial",
   "theorems": [
    "C122_range_and_monotone",
    "C122_plateaus",
    "C122_positive_refuted",
    "C122_accuracy"
   ],
   "note": "C122_positive_refuted: in double precision the window is exactly zero at and just above mmin. C122_range_and_monotone, C122_plateaus and C122_accuracy are the part that holds."
  },
  {
   "property": "C123",
   "status": "proved",
   "theorems": [
    "C123_truth_maximal",
    "C123_rate",
    "C123_poisson"
   ],
   "note": "Exactness of the Monte Carlo integrals is a hypothesis (C94, C95, C99, C100 say how the estimators deviate). The data space is finite."
  },
  {
   "property": "C124",
   "status": "proved",
   "theorems": [
    "C124_coordinates",
    "C124_detector_frame"
   ],
   "note": "The prior must be recorded (data without a prior column are analysed with prior 1, C68)."
  },
  {
   "property": "C125",
   "status": "proved",
   "theorems": [
    "C125_stable"
   ],
   "note": "For ResamplingVT without marginalisation and without enforced convergence (enforcing convergence makes the likelihood jump to minus infinity, C54)."
  },
  {
   "property": "C126",
   "status": "proved",
   "theorems": [
    "C126_primary_models",
    "C126_mass_ratio",
    "C126_joint_models",
    "C126_smoothed",
    "C126_new_objects"
   ],
   "note": "For power_law_primary_mass_ratio the fixed peak (35, 1, 100) inside has weight zero; the theorem needs mmin < 100 in both units. The interpolation kernel is an argument assumed not to depend on the unit of the abscissa."
  },
  {
   "property": "C127",
   "status": "proved",
   "theorems": [
    "C127_madau_without_peak",
    "C127_madau_asymptotes",
    "C127_wide_truncnorm",
    "C127_narrow_truncnorm",
    "C127_isotropic_limit",
    "C127_chi_independent"
   ],
   "note": ""
  },
  {
   "property": "C128",
   "status": "proved",
   "theorems": [
    "C128_smoothed",
    "C128_redshift",
    "C128_cosmo",
    "C128_interpolated",
    "C128_spline_power_law"
   ],
   "note": "Objects with a warm cache do depend on the data set they were used with before (C31, C35): that is why the objects are new or uncached here."
  },
  {
   "property": "C129",
   "status": "proved",
   "theorems": [
    "C129_redshift",
    "C129_rates",
    "C129_powerlaw",
    "C129_truncnorm",
    "C129_broken_power_law",
    "C129_peak_models",
    "C129_mass_ratio",
    "C129_spins"
   ],
   "note": "Smoothed mass models are not included: their grid normalisation jumps with mmax."
  },
  {
   "property": "C130",
   "status": "proved",
   "theorems": [
    "C130_likelihood"
   ],
   "note": ""
  },
  {
   "property": "C131",
   "status": "partial",
   "theorems": [
    "C131_flat",
    "C131_jump_refuted",
    "C131_continuous",
    "C131_single_peak_partial"
   ],
   "note": "False as stated: C131_jump_refuted gives the jump at every grid mass, C131_flat the plateau between them; C131_single_peak_partial is the part that holds (limits off the grid)."
  },
  {
   "property": "C132",
   "status": "partial",
   "theorems": [
    "C132_masses",
    "C132_spins",
    "C132_orientations",
    "C132_redshifts",
    "C132_edges_refuted",
    "C132_spin_formula"
   ],
   "note": "C132_masses, C132_spins, C132_orientations and C132_redshifts prove it away from the two edges; C132_edges_refuted gives one draw at both edges."
  },
  {
   "property": "C133",
   "status": "partial",
   "theorems": [
    "C133_spin_file_refuted",
    "C133_coverage"
   ],
   "note": "C133_spin_file_refuted refutes it for the two files; C133_coverage says which files cover which models."
  },
  {
   "property": "C134",
   "status": "proved",
   "theorems": [
    "C134_density",
    "C134_formula",
    "C134_likelihood"
   ],
   "note": "C134_density, C134_formula and C134_likelihood. Primary masses equal to mmin are excluded (C26: the value is NaN there). bilby's Model is modelled as the product of the functions, each given the parameters it names. The notebook reads its data from files and uses the Planck15 cosmology: these are arguments."
  },
  {
   "property": "C135",
   "status": "partial",
   "theorems": [
    "C135_uncached",
    "C135_one_data_set",
    "C135_likelihood",
    "C135_shared_refuted"
   ],
   "note": "C135_uncached, C135_one_data_set and C135_likelihood; C135_shared_refuted for a shared caching object. The model object is bilby's (third party), modelled from its documented behaviour and from what /repo says of it; model functions are pure here (functions with their own state: C31, C82)."
  },
  {
   "property": "C136",
   "status": "proved",
   "theorems": [
    "C136_memory",
    "C136_survey"
   ],
   "note": "C136_memory for functions with memory in general, C136_survey for the analysis of test/example_test.py. Arrays with one row per event are evaluated element-wise in row-major order."
  },
  {
   "property": "C137",
   "status": "proved",
   "theorems": [
    "C137_redshift",
    "C137_mass",
    "C137_selection"
   ],
   "note": "C137_redshift, C137_mass, C137_selection."
  },
  {
   "property": "C138",
   "status": "proved",
   "theorems": [
    "C138_log_likelihood",
    "C138_correctly_rounded"
   ],
   "note": "C138_log_likelihood, C138_correctly_rounded. The library's logarithm is an argument with a relative error bound."
  },
  {
   "property": "C139",
   "status": "proved",
   "theorems": [
    "C139_between_grid_masses",
    "C139_normalised_up_to_one_step",
    "C139_below_one"
   ],
   "note": "C139_between_grid_masses, C139_normalised_up_to_one_step, C139_below_one. The interpolation kernel is any kernel that returns the chord between neighbouring nodes (kind=\"linear\")."
  },
  {
   "property": "C140",
   "status": "proved",
   "theorems": [
    "C140_total_variance"
   ],
   "note": "C140_total_variance. Weights that are zero, or outside 2^-400..2^400, are excluded (C112 shows what happens there)."
  },
  {
   "property": "C141",
   "status": "proved",
   "theorems": [
    "C141_powerlaw",
    "C141_truncnorm",
    "C141_beta",
    "C141_redshift",
    "C141_peak_labels",
    "C141_multipeak_labels"
   ],
   "note": "C141_powerlaw, C141_truncnorm, C141_beta, C141_redshift, C141_peak_labels, C141_multipeak_labels."
  },
  {
   "property": "C142",
   "status": "proved",
   "theorems": [
    "C142_powerlaw",
    "C142_truncnorm_mean",
    "C142_truncnorm_width",
    "C142_log_likelihood"
   ],
   "note": "C142_powerlaw, C142_truncnorm_mean, C142_truncnorm_width, C142_log_likelihood."
  },
  {
   "property": "C143",
   "status": "partial",
   "theorems": [
    "C143_forward",
    "C143_reverse",
    "C143_powerlaw",
    "C143_minus_one_refuted",
    "C143_truncnorm",
    "C143_window",
    "C143_no_window_refuted",
    "C143_rates"
   ],
   "note": "C143_forward, C143_reverse (soundness for all formulas), C143_powerlaw, C143_truncnorm, C143_window, C143_rates; C143_no_window_refuted shows that with delta_m = 0 reverse mode returns NaN for a derivative that is 0; C143_minus_one_refuted shows that neither mode returns the derivative in the slope at -1 (fails for alpha == -1 because jax differentiates the branch, not the limit, and where's unselected branch divides 0 by 0)."
  },
  {
   "property": "C144",
   "status": "proved",
   "theorems": [
    "C144_gaussian_mass_maximum",
    "C144_tilt_means",
    "C144_smoothing_width"
   ],
   "note": "C144_gaussian_mass_maximum, C144_tilt_means, C144_smoothing_width."
  },
  {
   "property": "C145",
   "status": "partial",
   "theorems": [
    "C145_powerlaw_partial",
    "C145_powerlaw_shape_refuted",
    "C145_powerlaw_integers_refuted",
    "C145_powerlaw_zero_refuted",
    "C145_truncnorm_partial",
    "C145_beta",
    "C145_mass_ratio"
   ],
   "note": "C145_beta, C145_mass_ratio (full for these calls), C145_powerlaw_partial, C145_truncnorm_partial (with the exact condition; missing: calls the code rejects), C145_powerlaw_shape_refuted, C145_powerlaw_integers_refuted, C145_powerlaw_zero_refuted."
  },
  {
   "property": "C146",
   "status": "partial",
   "theorems": [
    "C146_always_a_number",
    "C146_narrow_refuted",
    "C146_accuracy_partial",
    "C146_below_mean_partial",
    "C146_above_mean_partial"
   ],
   "note": "C146_always_a_number (full); C146_accuracy_partial, C146_below_mean_partial, C146_above_mean_partial (mean between, above and below the limits, with an explicit bound; missing: where the normalisation cancels, since the claim is false there, and limits or points more than 36 widths from the mean); C146_narrow_refuted (limits closer to the mean than 2^-60 widths)."
  },
  {
   "property": "C147",
   "status": "partial",
   "theorems": [
    "C147_mean_variance",
    "C147_alpha_beta",
    "C147_round_trip",
    "C147_admissible_refuted"
   ],
   "note": "C147_mean_variance, C147_alpha_beta, C147_round_trip (full on the stated ranges), C147_admissible_refuted (amax = 1: an infeasible pair with two positive parameters; a feasible pair with alpha = 0 and beta < 0)."
  },
  {
   "property": "C148",
   "status": "partial",
   "theorems": [
    "C148_mass_single_partial",
    "C148_mass_joint_partial",
    "C148_spin",
    "C148_integers_and_zero_refuted",
    "C148_checks"
   ],
   "note": "C148_spin, C148_checks (full), C148_mass_single_partial, C148_mass_joint_partial (missing: the calls of C148_integers_and_zero_refuted, which raise)."
  },
  {
   "property": "C149",
   "status": "partial",
   "theorems": [
    "C149_redshift_partial",
    "C149_integers_refuted"
   ],
   "note": "C149_redshift_partial (missing: the calls of C149_integers_refuted, which raise, and Python powers of non-positive numbers)."
  },
  {
   "property": "C150",
   "status": "partial",
   "theorems": [
    "C150_always_a_number",
    "C150_accuracy",
    "C150_limits_refuted"
   ],
   "note": "C150_always_a_number, C150_accuracy; C150_limits_refuted: the claim fails at the limits themselves (0 times an infinite logarithm)."
  },
  {
   "property": "C151",
   "status": "partial",
   "theorems": [
    "C151_identical_partial",
    "C151_mass_partial",
    "C151_integers_refuted"
   ],
   "note": "C151_identical_partial, C151_mass_partial (missing: the calls of C151_integers_refuted, which raise)."
  },
  {
   "property": "C152",
   "status": "proved",
   "theorems": [
    "C152_powerlaw",
    "C152_madau",
    "C152_volume"
   ],
   "note": "C152_powerlaw and C152_madau also say that the exact value is what the model on real numbers returns."
  },
  {
   "property": "C153",
   "status": "proved",
   "theorems": [
    "C153_two_components",
    "C153_three_components",
    "C153_spin_orientation"
   ],
   "note": "The theorems also say that the exact mixture is what the model on real numbers returns. The component errors d come from C117 and C146."
  },
  {
   "property": "C154",
   "status": "proved",
   "theorems": [
    "C154_window",
    "C154_smoothed_primary",
    "C154_single_peak"
   ],
   "note": "The exact normalisation must be at least 2^-100, the smoothing length positive; scipy's expit is assumed to be correctly rounded. The error d of the primary model comes from C117, C146 and C153."
  },
  {
   "property": "C155",
   "status": "proved",
   "theorems": [
    "C155_redshift_density",
    "C155_powerlaw",
    "C155_madau"
   ],
   "note": "The exact normalisation must be at least 2^-100; the error e of the comoving volume element (wcosmo) is an assumption."
  },
  {
   "property": "C156",
   "status": "proved",
   "theorems": [
    "C156_primary_secondary",
    "C156_power_law_pair",
    "C156_two_component_pair",
    "C156_spin_magnitude",
    "C156_iid_spin"
   ],
   "note": "The errors of the factors come from C117, C146, C150 and C153. The mass-ratio models are the subject of C157; the broken power law is not covered."
  },
  {
   "property": "C157",
   "status": "proved",
   "theorems": [
    "C157_outside",
    "C157_accuracy",
    "C157_log_slope",
    "C157_exception_occurs",
    "C157_mass_and_ratio"
   ],
   "note": "The exception is real: for mmin = 1, m1 = 3 the nearest double to 1/3 lies below 1/3 and gets a positive density (C157_exception_occurs). The smoothed mass-ratio models are not covered."
  }
 ]
}