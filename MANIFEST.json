{
 "claims": [
  {
   "property": "C01",
   "status": "partial",
   "theorems": [
    "C01_partition",
    "C01_const_refuted"
   ],
   "note": "Proved for every routine on its domain; refuted for group_const with scale larger than the number of channels (C01_const_refuted)."
  },
  {
   "property": "C02",
   "status": "partial",
   "theorems": [
    "C02_const_sizes",
    "C02_short_refuted"
   ],
   "note": "Proved for 0 < c <= n; refuted for n < c, where success is reported and no group is described."
  },
  {
   "property": "C03",
   "status": "proved",
   "theorems": [
    "C03_min_success",
    "C03_min_defined"
   ],
   "note": ""
  },
  {
   "property": "C04",
   "status": "proved",
   "theorems": [
    "C04_min_finest",
    "C04_min_minimal_groups"
   ],
   "note": ""
  },
  {
   "property": "C05",
   "status": "proved",
   "theorems": [
    "C05_lima",
    "C05_gv",
    "C05_normal"
   ],
   "note": "All three variants, with the real significance formulas."
  },
  {
   "property": "C06",
   "status": "partial",
   "theorems": [
    "C06_normal_zero_error_refuted",
    "C06_normal_positive_error_partial"
   ],
   "note": "False as stated: refuted by a zero-variance last group; the partial theorem gives what holds."
  },
  {
   "property": "C07",
   "status": "proved",
   "theorems": [
    "C07_opt_plain",
    "C07_bin_size_bounds",
    "C07_natural_end_unique"
   ],
   "note": "Includes the real bin-size formula (1 <= size <= max 1 FWHM)."
  },
  {
   "property": "C08",
   "status": "proved",
   "theorems": [
    "C08_opt_min"
   ],
   "note": ""
  },
  {
   "property": "C09",
   "status": "partial",
   "theorems": [
    "C09_optsig_lima",
    "C09_optsig_gv",
    "C09_optsig_normal_partial",
    "C09_optsig_normal_refuted"
   ],
   "note": "Proved for Poisson data (Li-Ma, GV); refuted for Gaussian data because the uncertainty of an extension is summed linearly."
  },
  {
   "property": "C10",
   "status": "proved",
   "theorems": [
    "C10_regroup",
    "C10_compose_groups"
   ],
   "note": ""
  },
  {
   "property": "C11",
   "status": "proved",
   "theorems": [
    "C11_interval_ratio"
   ],
   "note": ""
  },
  {
   "property": "C12",
   "status": "proved",
   "theorems": [
    "C12_scale_is_mean",
    "C12_scale_bounds",
    "C12_constant_scale",
    "C12_no_good_channel"
   ],
   "note": ""
  },
  {
   "property": "C13",
   "status": "proved",
   "theorems": [
    "C13_lima_sign"
   ],
   "note": ""
  },
  {
   "property": "C14",
   "status": "proved",
   "theorems": [
    "C14_gv_mle",
    "C14_gv_sign"
   ],
   "note": ""
  },
  {
   "property": "C15",
   "status": "proved",
   "theorems": [
    "C15_conservation",
    "C15_groups_partition"
   ],
   "note": "grouped counts/variances are the sums over the good channels of each group and add up to the good total, for any flags whose first entry starts a group (the code enforces that)"
  },
  {
   "property": "C16",
   "status": "proved",
   "theorems": [
    "C16_fold_commutes"
   ],
   "note": "for every photon model and every history of calls on an observation built through the constructors"
  },
  {
   "property": "C17",
   "status": "proved",
   "theorems": [
    "C17_energy_bounds",
    "C17_tiling"
   ],
   "note": "exact min/max bounds; contiguous grids are tiled"
  },
  {
   "property": "C18",
   "status": "proved",
   "theorems": [
    "C18_noticed_channels",
    "C18_failed_call_no_effect",
    "C18_area"
   ],
   "note": "invariant over all finite histories of set_erange/set_grouping/group, successful or failing"
  },
  {
   "property": "C19",
   "status": "proved",
   "theorems": [
    "C19_erange_validation",
    "C19_constructor_erange"
   ],
   "note": "accept iff non-empty, increasing, pairwise strictly separated; sorted; rejection leaves the state unchanged"
  },
  {
   "property": "C20",
   "status": "partial",
   "theorems": [
    "C20_request_met_partial",
    "C20_bad_channel_refuted",
    "C20_preserved_group_refuted",
    "C20_const_short_refuted",
    "C20_descending_refuted",
    "C20_claim_refuted"
   ],
   "note": "proved for all histories, methods and intervals when energies ascend and channels inside intervals are usable; false otherwise (bad channel inside an interval, cut data group, short interval for const, descending energies): refuted by concrete observations"
  },
  {
   "property": "C21",
   "status": "partial",
   "theorems": [
    "C21_segments_independent_partial",
    "C21_const_short_refuted",
    "C21_descending_refuted",
    "C21_claim_refuted"
   ],
   "note": "proved for all histories when channel energies ascend and const has enough bins per interval; refuted for descending energies and for const with a short interval"
  },
  {
   "property": "C22",
   "status": "proved",
   "theorems": [
    "C22_net_spectrum",
    "C22_scale_is_mean"
   ],
   "note": "ratio is the exposure*area*backscale ratio with the group means of C12"
  },
  {
   "property": "C23",
   "status": "partial",
   "theorems": [
    "C23_bad_channels_partial",
    "C23_net_inference_refuted"
   ],
   "note": "holds for every history when the NET inference of the two spectra agrees; refuted otherwise: the `net` auto-inference looks at the sign of counts in bad channels (C23_net_inference_refuted)"
  },
  {
   "property": "C24",
   "status": "partial",
   "theorems": [
    "C24_caller_array_modified_refuted",
    "C24_later_edit_leaks_refuted",
    "C24_array_unchanged_partial"
   ],
   "note": "refuted: set_grouping keeps the caller's array by reference and writes its first flag (C24_*_refuted); partial positive theorem"
  },
  {
   "property": "C25",
   "status": "proved",
   "theorems": [
    "C25_shape",
    "C25_covered",
    "C25_uncovered",
    "C25_accepts",
    "C25_too_few_rejected",
    "C25_round_trip",
    "C25_compress",
    "C25_arf",
    "C25_arf_mismatch"
   ],
   "note": "Element-wise characterisation, exact acceptance condition, rejection of short rows, round trip for every cutting into blocks and in particular for maximal runs, ARF product. FITS parsing itself is not modelled."
  },
  {
   "property": "C26",
   "status": "partial",
   "theorems": [
    "C26_arrays",
    "C26_poisson_ignores_sys",
    "C26_file_twice",
    "C26_file_refuted",
    "C26_keyword_refuted",
    "C26_no_sys"
   ],
   "note": "Proved for the array class (C26_arrays). Refuted for files: the SYS_ERR column is added twice (C26_file_twice, C26_file_refuted) and a SYS_ERR keyword is dropped (C26_keyword_refuted)."
  },
  {
   "property": "C27",
   "status": "partial",
   "theorems": [
    "C27_init",
    "C27_bounds_invariant",
    "C27_strict_refuted",
    "C27_log_refuted",
    "C27_invariant_partial"
   ],
   "note": "Bounds/distribution part is an invariant of every history; strictness and log>0 are refuted by accepted assignments (min = default; log = True with min <= 0) and hold on all other histories."
  },
  {
   "property": "C28",
   "status": "proved",
   "theorems": [
    "C28_rejected_assignment_is_noop",
    "C28_accepted_assignment_effect",
    "C28_log_with_validation_refuted"
   ],
   "note": "With numpyro argument validation off (its default, never enabled by elisa); with it on the log setter is refuted."
  },
  {
   "property": "C29",
   "status": "proved",
   "theorems": [
    "C29_name_denotes_value",
    "C29_table_entry_denotes_value",
    "C29_nodes"
   ],
   "note": "All operator trees and call-style functions; power and user functions arbitrary."
  },
  {
   "property": "C30",
   "status": "proved",
   "theorems": [
    "C30_name_denotes_model"
   ],
   "note": "Component functions and convolutions arbitrary; the reader is the independent one of Expr.v."
  },
  {
   "property": "C31",
   "status": "proved",
   "theorems": [
    "C31_sum_accepted_iff",
    "C31_product_accepted_iff",
    "C31_convolution_accepted_iff",
    "C31_accepted_models_have_a_dimension",
    "C31_only_operators_are_dimensionless"
   ],
   "note": ""
  },
  {
   "property": "C32",
   "status": "partial",
   "theorems": [
    "C32_components_sum_partial",
    "C32_no_components",
    "C32_shifts_preserve_sums",
    "C32_repeated_component_refuted",
    "C32_flux_normalisation_refuted"
   ],
   "note": "Proved for additive components occurring once and sum-preserving convolutions (all shifts); refuted for a component used twice (label collapse) and for PhFlux/EnFlux over a sum."
  },
  {
   "property": "C33",
   "status": "partial",
   "theorems": [
    "C33_numbering",
    "C33_components_refuted",
    "C33_parameters_refuted",
    "C33_components_partial",
    "C33_aux_parameters_partial",
    "C33_fit_components_partial",
    "C33_all_parameters_partial"
   ],
   "note": "Numbering proved unique for names that do not look like numbered duplicates; refuted otherwise."
  },
  {
   "property": "C34",
   "status": "partial",
   "theorems": [
    "C34_mapping",
    "C34_sequence_partial",
    "C34_shared_refuted"
   ],
   "note": "Mapping = new defaults for all models (C34_mapping). Sequence = mapping proved when no free parameter is used by two component parameters; the code rejects every sequence otherwise (C34_shared_refuted: params_id keeps duplicates, zip(strict=True))."
  },
  {
   "property": "C35",
   "status": "partial",
   "theorems": [
    "C35_partial",
    "C35_address_reuse_refuted"
   ],
   "note": "All sessions in which no component is created at the address of a dropped one; with address reuse the stale tracker record makes get_model_info fail (C35_address_reuse_refuted)."
  },
  {
   "property": "C36",
   "status": "proved",
   "theorems": [
    "C36_models_are_binwise",
    "C36_flux_additive_over_bands",
    "C36_flux_linear",
    "C36_flux_nonneg",
    "C36_flux_meaning",
    "C36_grids",
    "C36_quadrature_exact"
   ],
   "note": ""
  },
  {
   "property": "C37",
   "status": "proved",
   "theorems": [
    "C37_photon_flux_is_F",
    "C37_energy_flux_is_F",
    "C37_rescaling_is_irrelevant",
    "C37_shape_kept"
   ],
   "note": "For models with non-zero flux in the band."
  },
  {
   "property": "C38",
   "status": "proved",
   "theorems": [
    "C38_current_settings_are_used",
    "C38_assignments_take_effect",
    "C38_rejected_assignment_is_noop"
   ],
   "note": ""
  },
  {
   "property": "C39",
   "status": "proved",
   "theorems": [
    "C39_wstat_nonneg",
    "C39_wstat_optimal"
   ],
   "note": ""
  },
  {
   "property": "C40",
   "status": "proved",
   "theorems": [
    "C40_pgstat_nonneg",
    "C40_pgstat_optimal",
    "C40_profile_deviance"
   ],
   "note": ""
  },
  {
   "property": "C41",
   "status": "proved",
   "theorems": [
    "C41_deviance_nonneg",
    "C41_point_nonneg",
    "C41_totals",
    "C41_zero_iff_perfect",
    "C41_formula",
    "C41_wstat_zero",
    "C41_pgstat_zero",
    "C41_poisson_exact"
   ],
   "note": "All statistics; zero iff perfect fit also for wstat/pgstat."
  },
  {
   "property": "C42",
   "status": "proved",
   "theorems": [
    "C42_residual_deviance"
   ],
   "note": ""
  },
  {
   "property": "C43",
   "status": "proved",
   "theorems": [
    "C43_accepts",
    "C43_automatic",
    "C43_automatic_suitable",
    "C43_tables"
   ],
   "note": "Acceptance of Fit inputs is an iff over all argument shapes (single or sequence), names, models and statistics; the automatic choice is characterised for every observation after any sequence of operations and passes its own check iff Gaussian uncertainties are non-zero."
  },
  {
   "property": "C44",
   "status": "proved",
   "theorems": [
    "C44_array",
    "C44_dictionary",
    "C44_inverse",
    "C44_names",
    "C44_values",
    "C44_defaults"
   ],
   "note": "Vector/dictionary conversions are mutually inverse for every list of distinct names and every pair of inverse bijections (numpyro's transforms are taken to be inverse on their supports: hypothesis of C44_inverse); the names themselves, their uniqueness and order, the values of free and composed parameters and the default vector are proved for every session and model."
  },
  {
   "property": "C45",
   "status": "proved",
   "theorems": [
    "C45_refitted_names",
    "C45_each_once",
    "C45_parallel_is_sequential",
    "C45_uneven_refused",
    "C45_accepts"
   ],
   "note": "For every number of data sets, devices and every fit function: each simulated data set is fitted exactly once, from its own starting values, and entry i of every reported array comes from the fit of data set i; parallel = sequential whenever the parallel factor divides the number of data sets and is refused otherwise; acceptance conditions given."
  },
  {
   "property": "C46",
   "status": "partial",
   "theorems": [
    "C46_boot_cache",
    "C46_ppc_cache",
    "C46_repeated_call",
    "C46_default_seed_refuted",
    "C46_single_refuted"
   ],
   "note": "Proved for every history of calls: the stored result is the one a fresh call with the same number and seed would produce, and it is reused exactly when the rounded number and the explicitly given seed agree. Refuted parts: with the default seed nothing is ever reused; a bootstrap of one simulation always fails."
  },
  {
   "property": "C47",
   "status": "partial",
   "theorems": [
    "C47_boot_pvalues",
    "C47_ppc_pvalues",
    "C47_in_unit",
    "C47_gof",
    "C47_no_valid_refuted"
   ],
   "note": "p-values are the proportions of valid simulations with a deviance at least the observed one, in [0,1], and gof reports them; when no simulation is valid they are nan (refuted)."
  },
  {
   "property": "C48",
   "status": "partial",
   "theorems": [
    "C48_accepted",
    "C48_partial",
    "C48_one_device",
    "C48_close_many_refuted",
    "C48_never_closed_refuted"
   ],
   "note": "every interleaving of the host callbacks of the devices (each device's callbacks in program order): the bar receives exactly neval, before any close, and is closed between 1 and ncores times; exactly-once closing is refuted for two or more devices (counter read outside the lock) and for zero evaluations"
  },
  {
   "property": "C49",
   "status": "partial",
   "theorems": [
    "C49_distinct_identities_partial",
    "C49_paced_partial",
    "C49_residuals_partial",
    "C49_reused_identity_refuted"
   ],
   "note": "Proved for every history of calls when identities are never reused, and with reuse when every displayed quantity is displayed between replacements; refuted in general: an identity reused two replacements later leaves the residuals of the old result in the plot."
  },
  {
   "property": "C50",
   "status": "partial",
   "theorems": [
    "C50_accepts",
    "C50_rejects_partial",
    "C50_reason_refuted",
    "C50_fixed_aux_refuted"
   ],
   "note": "Acceptance is an iff and the accepted list is characterised for every model; linked/fixed/integrated rejections report exactly the offending names. Two parts of the claim are refuted: a list containing one unknown name reports existing linked/fixed names as not existing, and a fixed auxiliary parameter shown in the table is said not to exist."
  },
  {
   "property": "C51",
   "status": "partial",
   "theorems": [
    "C51_layout",
    "C51_succeeds",
    "C51_descending_refuted",
    "C51_zero_scale_refuted",
    "C51_net_lost"
   ],
   "note": "layout, statistics type, exposures, grouping and energy ranges proved for every successful simulation from any template state, with sufficient conditions for success; refuted for descending channel energies and for zero background scales in bad channels; the net flag is lost"
  },
  {
   "property": "C52",
   "status": "proved",
   "theorems": [
    "C52_levels",
    "C52_monotone"
   ],
   "note": "For every symmetric law with a strictly decreasing positive tail function; conversion, idempotence, range and monotonicity."
  },
  {
   "property": "C60",
   "status": "partial",
   "theorems": [
    "C60_quality_keyword_refuted",
    "C60_rates",
    "C60_fields"
   ],
   "note": "Every field is characterised for all accepted files (C60_fields, C60_rates); the QUALITY keyword is dropped by the code (C60_quality_keyword_refuted)."
  },
  {
   "property": "C61",
   "status": "proved",
   "theorems": [
    "C61_grid_unchanged",
    "C61_grid_positive"
   ],
   "note": "The positivity theorem needs a second edge above 1e-30 keV, the constant used by the code."
  },
  {
   "property": "C62",
   "status": "partial",
   "theorems": [
    "C62_simulated_law_partial",
    "C62_chi2_background_refuted"
   ],
   "note": "Proved for every accepted fit and all statistics except chi2 with a background, where the claim is refuted: the simulated net counts scatter with the error of the gross counts although the likelihood uses the net error."
  },
  {
   "property": "C63",
   "status": "partial",
   "theorems": [
    "C63_observed_data",
    "C63_pstat_refuted",
    "C63_colliding_names_refuted",
    "C63_total_name_refuted",
    "C63_dof"
   ],
   "note": "The entries are characterised for every accepted fit. Refuted parts: with pstat the entry named after the data set is the gross spectrum; a data set called X_Non overwrites the on counts of X; a data set called total makes every batch fit fail."
  },
  {
   "property": "C64",
   "status": "partial",
   "theorems": [
    "C64_boot_rows",
    "C64_ppc_rows_partial",
    "C64_ppc_draws",
    "C64_ppc_rows_refuted"
   ],
   "note": "Proved for the bootstrap and, for the predictive check, for everything obtained from the fits; the parameters the data were simulated from are not restricted to the valid simulations, so they are misaligned after an invalid fit (refuted)."
  },
  {
   "property": "C65",
   "status": "partial",
   "theorems": [
    "C65_interval",
    "C65_central",
    "C65_nested",
    "C65_defined",
    "C65_few_valid_refuted"
   ],
   "note": "Order, range, central proportions, nesting and definedness proved; with fewer valid simulations than devices no interval can be computed (refuted)."
  },
  {
   "property": "C66",
   "status": "partial",
   "theorems": [
    "C66_hess",
    "C66_boot_partial",
    "C66_boot_one_parameter_refuted"
   ],
   "note": "Proved for the Hessian method and for bootstrap with at least two quantities; with one parameter the bootstrap covariance raises an error (refuted)."
  },
  {
   "property": "C67",
   "status": "partial",
   "theorems": [
    "C67_criteria",
    "C67_one_dof_refuted",
    "C67_no_dof_refuted"
   ],
   "note": "Formulas proved when n > k+1; with n = k+1 the result cannot be built (ZeroDivisionError), with n = k the correction has the wrong sign (refuted)."
  },
  {
   "property": "C69",
   "status": "proved",
   "theorems": [
    "C69_deviance",
    "C69_pearson",
    "C69_band",
    "C69_model_band",
    "C69_posterior"
   ],
   "note": "For every result of consistent shape."
  },
  {
   "property": "C53",
   "status": "proved",
   "theorems": [
    "C53_zashift",
    "C53_zmshift",
    "C53_velocity",
    "C53_compose",
    "C53_numerical"
   ],
   "note": "For models that are exact on every grid (e.g. power laws) or numerically integrated components."
  },
  {
   "property": "C54",
   "status": "partial",
   "theorems": [
    "C54_power_law",
    "C54_photon_flux_norm",
    "C54_energy_flux_norm",
    "C54_lorentz",
    "C54_constant",
    "C54_pl_abs_partial",
    "C54_pl_abs_refuted"
   ],
   "note": "PLAbs fails at the admitted alpha = 1 (C54_pl_abs_refuted); all other cases are proved."
  },
  {
   "property": "C55",
   "status": "partial",
   "theorems": [
    "C55_integral_partial",
    "C55_length",
    "C55_integral_refuted",
    "C55_break_bin_refuted"
   ],
   "note": "False of the code: bins lack the factor Eb (C55_integral_refuted), and the bin with the break is wrong because the result of f.at[].set is dropped (C55_break_bin_refuted). Proved: Eb times the value is right for bins not containing the break."
  },
  {
   "property": "C56",
   "status": "partial",
   "theorems": [
    "C56_band_documented_partial",
    "C56_band_continuous_partial",
    "C56_band_refuted",
    "C56_band_documented_refuted",
    "C56_band_ep_partial",
    "C56_band_ep_peak",
    "C56_compt_peak_partial",
    "C56_compt_peak_refuted"
   ],
   "note": "Holds for alpha - beta >= 1/Ec; below, the code clamps and the spectrum jumps at 1 keV (refuted). For Compt with alpha > 2 (in range) Ep is the minimum (refuted)."
  },
  {
   "property": "C57",
   "status": "partial",
   "theorems": [
    "C57_additive_nonneg_partial",
    "C57_multiplicative_partial",
    "C57_no_division_by_zero_partial",
    "C57_no_division_by_zero_refuted"
   ],
   "note": "The ranges admit sigma = 0 (Gauss, GAbs) and Ec = 0 (Edge), where the code divides by zero (refuted), and flux bands off the positive axis; everything else is proved."
  },
  {
   "property": "C58",
   "status": "proved",
   "theorems": [
    "C58_total_error",
    "C58_bin_error",
    "C58_decreasing_components",
    "C58_energy_flux",
    "C58_energy_flux_on_grid"
   ],
   "note": "Floating point rounding is not modelled."
  },
  {
   "property": "C59",
   "status": "partial",
   "theorems": [
    "C59_additive_documented",
    "C59_multiplicative_documented",
    "C59_blackbody",
    "C59_blackbody_rad",
    "C59_smoothly_broken_partial",
    "C59_smoothly_broken_refuted"
   ],
   "note": "SmoothlyBrokenPL has the documented shape but an amplitude off by 4^rho Eb^alpha1 (refuted; 20 times at the default parameters)."
  },
  {
   "property": "C70",
   "status": "proved",
   "theorems": [
    "C70_accepts",
    "C70_stores"
   ],
   "note": "Acceptance is an iff; storage is per channel."
  },
  {
   "property": "C71",
   "status": "proved",
   "theorems": [
    "C71_good_channels",
    "C71_some_good"
   ],
   "note": ""
  },
  {
   "property": "C72",
   "status": "partial",
   "theorems": [
    "C72_fwhm",
    "C72_peak",
    "C72_width_unique",
    "C72_positive_or_undefined",
    "C72_empty_row",
    "C72_channel",
    "C72_single_bin_refuted"
   ],
   "note": "Rows with positive peak; a response with a single photon bin raises instead (C72_single_bin_refuted), because the row is squeezed to a scalar."
  },
  {
   "property": "C73",
   "status": "partial",
   "theorems": [
    "C73_never_over",
    "C73_complete",
    "C73_terminates",
    "C73_ends",
    "C73_crash_refuted",
    "C73_can_finish"
   ],
   "note": "Proved as an invariant over all schedules plus termination by a decreasing measure; the crash case is refuted (C73_crash_refuted). C73_can_finish shows complete executions exist from every crash-free state."
  },
  {
   "property": "C74",
   "status": "proved",
   "theorems": [
    "C74_layout"
   ],
   "note": "Index formula for every sampler, walker and step."
  },
  {
   "property": "C75",
   "status": "partial",
   "theorems": [
    "C75_near_partial",
    "C75_frozen_refuted",
    "C75_midpoint",
    "C75_seeds",
    "C75_zeus_seeds",
    "C75_zeus_refuted"
   ],
   "note": "Positive part C75_near_partial, C75_seeds, C75_zeus_seeds (exact condition); counterexamples C75_frozen_refuted (general, for every starting point with a zero coordinate), C75_zeus_refuted."
  },
  {
   "property": "C76",
   "status": "partial",
   "theorems": [
    "C76_jaxns",
    "C76_nested_refuted",
    "C76_read_file_refuted",
    "C76_tree_depth_refuted"
   ],
   "note": "C76_jaxns positive; the others are refuted for every input."
  },
  {
   "property": "C77",
   "status": "partial",
   "theorems": [
    "C77_restored",
    "C77_failure_refuted",
    "C77_gathered"
   ],
   "note": "C77_restored positive; C77_failure_refuted for every previous start method other than spawn."
  },
  {
   "property": "C78",
   "status": "partial",
   "theorems": [
    "C78_accepts",
    "C78_default_accepted",
    "C78_increasing",
    "C78_inverse",
    "C78_continuous",
    "C78_shape",
    "C78_lin_scale_refuted",
    "C78_fraction",
    "C78_fraction_total",
    "C78_ticks",
    "C78_ticks_swap"
   ],
   "note": "everything proved but the documented meaning of lin_scale, which is refuted; the ticks' minor formatting is not modelled"
  },
  {
   "property": "C79",
   "status": "partial",
   "theorems": [
    "C79_deviance",
    "C79_deviance_increasing",
    "C79_joint",
    "C79_pit",
    "C79_pit_order",
    "C79_simulated",
    "C79_simulated_normal",
    "C79_minus_partial",
    "C79_minus_refuted",
    "C79_quantile_finite",
    "C79_quantile_increasing",
    "C79_keep_sign",
    "C79_limits",
    "C79_limits_other_refuted",
    "C79_combine_refuted"
   ],
   "note": "the lower value of simulated transforms is proved right for integer (or one over integer) ratios and refuted in general; two further documented behaviours refuted; the normal quantile function is a parameter of the model (any increasing function)"
  },
  {
   "property": "C68",
   "status": "partial",
   "theorems": [
    "C68_draws",
    "C68_ci",
    "C68_ci_defined_partial",
    "C68_nested",
    "C68_level_refuted",
    "C68_covar_partial",
    "C68_covar_refuted",
    "C68_function_refuted",
    "C68_devices_refuted",
    "C68_loo",
    "C68_functions"
   ],
   "note": "the positive part is proved for free parameters and functions of free parameters when the number of samples used is a multiple of the number of devices; the failures outside are proved as refutations; highest density intervals (arviz) are not modelled"
  },
  {
   "property": "C80",
   "status": "partial",
   "theorems": [
    "C80_mid_partial",
    "C80_mid_refuted",
    "C80_errors",
    "C80_defined",
    "C80_zero_refuted"
   ],
   "note": "Errors proved in full. Central value proved except when rounding carries to the next power of ten: there the title is a factor of ten too small (refuted: 9999 shown as 1.00 x 10^3). Central value zero raises ValueError (refuted). Decimal rounding is modelled exactly (round half to even of the real number)."
  },
  {
   "property": "C81",
   "status": "proved",
   "theorems": [
    "C81_labels",
    "C81_cube_labels",
    "C81_cube_labels_refuted",
    "C81_prior",
    "C81_categorical"
   ],
   "note": "Univariate distributions are given by a cdf and an inverse cdf that belong together; MultivariateNormal and Dirichlet not modelled. The label claim is refuted for models whose sites are not in alphabetical order (C81_cube_labels_refuted); the returned samples are not affected."
  },
  {
   "property": "C82",
   "status": "proved",
   "theorems": [
    "C82_flags",
    "C82_last_wins",
    "C82_cores_refuted",
    "C82_parallel",
    "C82_x64_refuted",
    "C82_platform"
   ],
   "note": "ASCII strings; the flags claim is for words that either set the device count or do not mention it (others lose the text from the mention on)."
  },
  {
   "property": "C83",
   "status": "proved",
   "theorems": [
    "C83_quotients",
    "C83_linear",
    "C83_exact",
    "C83_mean_value",
    "C83_central_error",
    "C83_forward_error",
    "C83_bounds_refuted",
    "C83_rejects"
   ],
   "note": "exact real arithmetic; refuted part in C83_bounds_refuted"
  },
  {
   "property": "C84",
   "status": "proved",
   "theorems": [
    "C84_free",
    "C84_free_contains",
    "C84_swapped_refuted",
    "C84_invariance",
    "C84_ends",
    "C84_penalty",
    "C84_penalty_minimum",
    "C84_tolerance",
    "C84_fn_refuted",
    "C84_answer"
   ],
   "note": "C84_free, C84_free_contains, C84_invariance, C84_ends, C84_penalty, C84_penalty_minimum, C84_tolerance and C84_answer are the proved parts; C84_swapped_refuted (upper-bounded priors) and C84_fn_refuted (zero-valued functions, nonpositive rtol) record what does not hold of the code. iminuit's search itself is not modelled."
  },
  {
   "property": "C85",
   "status": "proved",
   "theorems": [
    "C85_mapping",
    "C85_value",
    "C85_readable",
    "C85_profile_contains",
    "C85_boot_central",
    "C85_raises",
    "C85_defined",
    "C85_collision_refuted",
    "C85_params_refuted",
    "C85_dist",
    "C85_lumin",
    "C85_k_correction",
    "C85_posterior"
   ],
   "note": "C85_mapping, C85_value, C85_readable, C85_profile_contains, C85_boot_central, C85_raises, C85_defined, C85_lumin, C85_k_correction, C85_posterior are the proved parts; C85_collision_refuted, C85_params_refuted and C85_dist (first data of each model only; parameter samples scaled) record what does not hold. Highest density intervals (arviz) are not modelled."
  },
  {
   "property": "C86",
   "status": "proved",
   "theorems": [
    "C86_start",
    "C86_unknown_ignored_refuted",
    "C86_minuit",
    "C86_unsupported",
    "C86_lm",
    "C86_ns",
    "C86_options_refuted"
   ],
   "note": "start value per free parameter, minuit/lm/ns over any history of calls; refuted: misspelt names are ignored, options of later lm calls are ignored. The numerical solvers are parameters of the model."
  },
  {
   "property": "C87",
   "status": "proved",
   "theorems": [
    "C87_sums",
    "C87_stored",
    "C87_collision_refuted"
   ],
   "note": "for one posterior sample, names that do not collide; collision refuted"
  },
  {
   "property": "C88",
   "status": "proved",
   "theorems": [
    "C88_forms",
    "C88_shared",
    "C88_refused",
    "C88_atomic",
    "C88_unknown",
    "C88_session",
    "C88_defaults",
    "C88_mapping_forgets_refuted",
    "C88_latex_refuted"
   ],
   "note": "strings as numbers inside mappings/sequences are not modelled; trackers are in C33-C35"
  },
  {
   "property": "C89",
   "status": "proved",
   "theorems": [
    "C89_last_accepted",
    "C89_refused",
    "C89_absorption",
    "C89_new",
    "C89_subclass_refuted",
    "C89_grad_first",
    "C89_grad_refuted"
   ],
   "note": "which tables exist is read from the generating script; the HDF5 file itself is not modelled"
  },
  {
   "property": "C90",
   "status": "proved",
   "theorems": [
    "C90_mean",
    "C90_volume",
    "C90_independent",
    "C90_bounds",
    "C90_additive",
    "C90_overwritten",
    "C90_made",
    "C90_point_refuted"
   ],
   "note": "The quadrature is assumed exact (C90_exact shows one exists). C90_point_refuted: an interval of no length is accepted and the model becomes 0/0 instead of its value at the point."
  },
  {
   "property": "C91",
   "status": "proved",
   "theorems": [
    "C91_arguments",
    "C91_grid",
    "C91_bins",
    "C91_local",
    "C91_refuses",
    "C91_no_high_extension_refuted",
    "C91_edge_refuted"
   ],
   "note": "The routines of XSPEC are arbitrary functions of the arguments and the grid."
  },
  {
   "property": "C92",
   "status": "proved",
   "theorems": [
    "C92_positions",
    "C92_theoretical",
    "C92_points",
    "C92_band",
    "C92_theory_band",
    "C92_ecdf",
    "C92_ecdf_shape"
   ],
   "note": "Quantile functions of the normal and beta laws are arbitrary monotone functions; the simultaneous interval is a parameter."
  },
  {
   "property": "C93",
   "status": "proved",
   "theorems": [
    "C93_step",
    "C93_gap",
    "C93_ribbon"
   ],
   "note": ""
  },
  {
   "property": "C94",
   "status": "proved",
   "theorems": [
    "C94_checked",
    "C94_frame",
    "C94_valid",
    "C94_outliers",
    "C94_no_level_refuted",
    "C94_colors",
    "C94_no_palette_refuted"
   ],
   "note": ""
  },
  {
   "property": "C95",
   "status": "proved",
   "theorems": [
    "C95_markers",
    "C95_markers_refuted",
    "C95_gradient",
    "C95_contours",
    "C95_smooth",
    "C95_one_sigma_refuted",
    "C95_log_range"
   ],
   "note": ""
  },
  {
   "property": "C96",
   "status": "proved",
   "theorems": [
    "C96_name",
    "C96_latex",
    "C96_order",
    "C96_lengths_refuted"
   ],
   "note": "ids are hexadecimal strings of one common length, names contain none of them (good_mapping)"
  },
  {
   "property": "C97",
   "status": "proved",
   "theorems": [
    "C97_config",
    "C97_static",
    "C97_instance",
    "C97_list_config_refuted",
    "C97_subclass_refuted",
    "C97_guard"
   ],
   "note": ""
  },
  {
   "property": "C98",
   "status": "proved",
   "theorems": [
    "C98_observed",
    "C98_simulated",
    "C98_pstat_refuted",
    "C98_negative_background_refuted"
   ],
   "note": "the unrestricted claim is refuted for simulated pstat data (C98_pstat_refuted) and for negative pgstat backgrounds (C98_negative_background_refuted); both are stated as theorems about the code as it is"
  },
  {
   "property": "C99",
   "status": "proved",
   "theorems": [
    "C99_channels",
    "C99_ordered",
    "C99_weight",
    "C99_counts",
    "C99_net",
    "C99_step_refuted"
   ],
   "note": "the claim of the code's comment ('next small net spectrum values') is refuted for ratios p/q with p, q >= 2 coprime (C99_step_refuted)"
  },
  {
   "property": "C100",
   "status": "proved",
   "theorems": [
    "C100_unique",
    "C100_form",
    "C100_across",
    "C100_select",
    "C100_repeated",
    "C100_raw_refuted",
    "C100_type_refuted",
    "C100_default_quality_refuted"
   ],
   "note": "proved for raw labels that are distinct and without '+' / '_'; refuted for repeated raw labels (not checked), for channel types with underscores, and for grouping without a quality array"
  },
  {
   "property": "C101",
   "status": "proved",
   "theorems": [
    "C101_specifier",
    "C101_no_specifier",
    "C101_braces_in_directory_refuted",
    "C101_row",
    "C101_negative_row_refuted",
    "C101_table",
    "C101_header_name",
    "C101_load",
    "C101_counting_statistics",
    "C101_refused",
    "C101_flag_needed",
    "C101_response",
    "C101_warnings",
    "C101_decline_background_refuted",
    "C101_missing_arf_unnoticed_refuted"
   ],
   "note": "refuted corners, stated as theorems: negative row numbers are accepted (C101_negative_row_refuted), text after the closing brace is dropped (C101_braces_in_directory_refuted), a background named in the header cannot be declined (C101_decline_background_refuted), the warning for a matrix without ancillary response is never given (C101_missing_arf_unnoticed_refuted)"
  },
  {
   "property": "C102",
   "status": "proved",
   "theorems": [
    "C102_summary",
    "C102_median_halves",
    "C102_deviance",
    "C102_total_mean",
    "C102_total_median_refuted",
    "C102_khat",
    "C102_khat_labels_refuted",
    "C102_ess",
    "C102_ess_undefined_refuted",
    "C102_reff_name_refuted",
    "C102_params_tab",
    "C102_stat_tab",
    "C102_divergence",
    "C102_best_start"
   ],
   "note": "arviz's estimators of the effective sample size and R-hat are arbitrary functions of the chains; rounding for print is not modelled"
  },
  {
   "property": "C103",
   "status": "proved",
   "theorems": [
    "C103_schedule",
    "C103_states",
    "C103_no_warmup",
    "C103_continue",
    "C103_tuning_lost_refuted",
    "C103_numpyro_state",
    "C103_numpyro_run",
    "C103_walkers",
    "C103_numpyro_start"
   ],
   "note": "the steps of the samplers are arbitrary functions of the tuning, the positions and the random state; numpyro's thinning is taken as documented"
  },
  {
   "property": "C104",
   "status": "proved",
   "theorems": [
    "C104_words",
    "C104_blank_edges_refuted",
    "C104_figures",
    "C104_panels",
    "C104_curves",
    "C104_defined",
    "C104_narrow_refuted",
    "C104_no_level_refuted",
    "C104_jy",
    "C104_units_refuted",
    "C104_nothing"
   ],
   "note": "Text is ASCII; colours, widths and axis limits are not modelled. The _refuted theorems state the findings."
  },
  {
   "property": "C105",
   "status": "proved",
   "theorems": [
    "C105_errors",
    "C105_chosen",
    "C105_singular",
    "C105_derived_refuted",
    "C105_posterior",
    "C105_one",
    "C105_defined"
   ],
   "note": "Derivatives (jax) and the minimiser are inputs; matrix inversion is any function that inverts; exact reals, so the Cholesky test has no rounding. C105_derived_refuted and C105_adding_parameter_refuted: with derived parameters the Hessian is discarded."
  },
  {
   "property": "C106",
   "status": "proved",
   "theorems": [
    "C106_layout",
    "C106_total_name_refuted",
    "C106_qq",
    "C106_qq_drawn",
    "C106_pit",
    "C106_gof_needs_simulations",
    "C106_gof",
    "C106_gof_curve",
    "C106_gof_label_refuted",
    "C106_gof_text"
   ],
   "note": "Colours, text and axis limits are not modelled; the residuals themselves are those of C69, C79 and C99. Names differ and none is 'total' (otherwise C106_total_name_refuted). C106_gof_label_refuted: the curve is not the labelled probability."
  },
  {
   "property": "C107",
   "status": "partial",
   "theorems": [
    "C107_hatched",
    "C107_hatching_defined",
    "C107_ranges",
    "C107_area",
    "C107_step_shifted_partial",
    "C107_step_refuted",
    "C107_matrix",
    "C107_matrix_hatched",
    "C107_matrix_hatch_refuted",
    "C107_spec"
   ],
   "note": "The step of the effective area plot and the hatching with several gaps are refuted (C107_step_refuted, C107_matrix_hatch_refuted); what is drawn instead is proved. The rest is proved. matplotlib's step (where='pre'), pcolormesh and fill_betweenx are taken at their documented meaning."
  },
  {
   "property": "C108",
   "status": "partial",
   "theorems": [
    "C108_arguments",
    "C108_adaptation",
    "C108_frozen",
    "C108_no_warmup_partial",
    "C108_mean_rate",
    "C108_potential",
    "C108_continued",
    "C108_continued_adapts_partial",
    "C108_replayed_refuted",
    "C108_no_warmup_refuted",
    "C108_continued_refuted"
   ],
   "note": "Refuted: C108_no_warmup_refuted, C108_continued_refuted, C108_replayed_refuted (what happens instead is proved in general). One transition and the adaptation (blackjax) are arbitrary functions; that numpyro skips the warmup of a continued chain, sets the kernel up with the new warmup and replaces the key is taken from numpyro."
  },
  {
   "property": "C109",
   "status": "partial",
   "theorems": [
    "C109_interval",
    "C109_limit",
    "C109_marked",
    "C109_best",
    "C109_inside",
    "C109_profile",
    "C109_pgstat",
    "C109_unique",
    "C109_start_partial",
    "C109_start_refuted",
    "C109_empty_limit",
    "C109_bins",
    "C109_start_values"
   ],
   "note": "Proved for every root finder that returns exact roots; the equations of the bins are solved one by one in the model (the code solves them in one vector call). That every search starts at a finite value is proved for whole counts with at least one count in the bin and refuted for an empty bin (logarithm of a zero error)."
  },
  {
   "property": "C110",
   "status": "partial",
   "theorems": [
    "C110_target",
    "C110_names",
    "C110_same_model",
    "C110_columns",
    "C110_row",
    "C110_nan",
    "C110_shown",
    "C110_nautilus",
    "C110_ultranest",
    "C110_jaxns",
    "C110_jaxns_samples",
    "C110_jaxns_settings",
    "C110_jaxns_termination",
    "C110_nautilus_settings",
    "C110_ultranest_settings",
    "C110_names_refuted",
    "C110_sum"
   ],
   "note": "The numpyro handlers are modelled on programs with static structure, without parallel enumeration; the three libraries are parameters (points of the run, indices drawn). Refuted: a model with parameters x and u_x cannot be sampled although its names are distinct."
  },
  {
   "property": "C111",
   "status": "partial",
   "theorems": [
    "C111_deviance",
    "C111_pearson",
    "C111_wstat_nan_refuted",
    "C111_chi2_same",
    "C111_words",
    "C111_which",
    "C111_loo_deviance",
    "C111_loo_pearson",
    "C111_concentrated",
    "C111_wstat_loo_refuted",
    "C111_quantile",
    "C111_quantile_mle",
    "C111_order",
    "C111_order_refuted"
   ],
   "note": "the parts marked REFUTED are false of the code and proved false (C111_wstat_nan_refuted, C111_wstat_loo_refuted, C111_order_refuted); the others are proved"
  },
  {
   "property": "C112",
   "status": "partial",
   "theorems": [
    "C112_scale",
    "C112_scale_refused",
    "C112_scale_ok_iff",
    "C112_unchanged",
    "C112_brighter",
    "C112_gradient",
    "C112_gradient_ok",
    "C112_contours",
    "C112_colors",
    "C112_markers",
    "C112_markers_refuted",
    "C112_smooth_defined",
    "C112_smooth_own",
    "C112_smooth_between",
    "C112_smooth_affine",
    "C112_threshold_refuted",
    "C112_hex"
   ],
   "note": "Proved except: nine or more data sets share a marker (refuted), and one sigma away from a lone point the default threshold already yields NaN (refuted)."
  },
  {
   "property": "C113",
   "status": "partial",
   "theorems": [
    "C113_corner_titles",
    "C113_corner_levels",
    "C113_corner_range",
    "C113_corner_ok",
    "C113_corner_unknown_refuted",
    "C113_corner_one_level_refuted",
    "C113_corner_zero_refuted",
    "C113_corner_count",
    "C113_trace_ok_iff",
    "C113_trace",
    "C113_trace_marks",
    "C113_mark_top",
    "C113_mark_refuted"
   ],
   "note": "Everything stated is proved; partial because of the four refuted expectations (KeyError for unknown parameters, single level, zero median, marks on a log axis with non-positive samples). Kernel density curves (arviz) and drawing are not modelled."
  },
  {
   "property": "C114",
   "status": "partial",
   "theorems": [
    "C114_ravel",
    "C114_names",
    "C114_record",
    "C114_nan",
    "C114_nan_value_refuted",
    "C114_move_history",
    "C114_move"
   ],
   "note": "All proved; partial because the documented value -1e300 for NaN is refuted (it is -inf)."
  },
  {
   "property": "C115",
   "status": "partial",
   "theorems": [
    "C115_eval",
    "C115_ne",
    "C115_ene",
    "C115_ce",
    "C115_flux",
    "C115_flux_entries",
    "C115_refused",
    "C115_formulas",
    "C115_unknown_ignored_refuted"
   ],
   "note": "C115_unknown_ignored_refuted: a misspelt name in a mapping is ignored and the result is that without it. Size-one broadcasting on the last axis is not modelled."
  },
  {
   "property": "C116",
   "status": "partial",
   "theorems": [
    "C116_name",
    "C116_config",
    "C116_call",
    "C116_accepts",
    "C116_catalogue",
    "C116_all_or_nothing_refuted",
    "C116_defaults",
    "C116_switch_refuted"
   ],
   "note": "Two refutations: one unusable model makes the whole catalogue unavailable, and a switch whose default is below -1 makes a class that cannot be constructed with its defaults. Units, descriptions and links are not modelled; identifiers are ASCII."
  },
  {
   "property": "C117",
   "status": "partial",
   "theorems": [
    "C117_accepted",
    "C117_plain",
    "C117_no_place",
    "C117_width",
    "C117_set",
    "C117_session",
    "C117_add",
    "C117_defaults",
    "C117_unique",
    "C117_unicode_partial",
    "C117_unicode_refuted",
    "C117_template_refuted",
    "C117_latex",
    "C117_latex_unique",
    "C117_digits",
    "C117_kept"
   ],
   "note": "In unicode mode data named C and c get the same superscript, so two components share a label (C117_unicode_refuted), and a template such as [%.0s] is accepted although it drops the suffix (C117_template_refuted). C117_unique proves different labels for every template that keeps its suffix between characters of its own, C117_unicode_partial for names whose superscripts differ."
  },
  {
   "property": "C118",
   "status": "proved",
   "theorems": [
    "C118_operators",
    "C118_interval",
    "C118_default",
    "C118_no_default",
    "C118_fixed_log",
    "C118_infos",
    "C118_latex_text",
    "C118_latex"
   ],
   "note": "The template of a function is that of its name. A label set by the user for the composite itself is not modelled."
  },
  {
   "property": "C119",
   "status": "partial",
   "theorems": [
    "C119_equivalent_unique",
    "C119_combined",
    "C119_order",
    "C119_zero",
    "C119_swap",
    "C119_refused",
    "C119_sign_refused",
    "C119_array_refuted",
    "C119_array_partial"
   ],
   "note": "Degrees of freedom per channel raise ValueError for two or more channels, because the array is compared with 1.0 (C119_array_refuted); C119_array_partial covers one channel. Arrays of length one are not stretched in the model."
  },
  {
   "property": "C120",
   "status": "partial",
   "theorems": [
    "C120_letters",
    "C120_place",
    "C120_unit",
    "C120_invalid",
    "C120_order_refuted"
   ],
   "note": "The places found are not always those of the bases themselves: a base whose name is part of another word of the text is shown too early (keV s V gives keV V s, C120_order_refuted). What astropy reads is a parameter of the model."
  },
  {
   "property": "C121",
   "status": "partial",
   "theorems": [
    "C121_untouched",
    "C121_places",
    "C121_names_partial",
    "C121_exchange_refuted",
    "C121_entries_refuted"
   ],
   "note": "A text already replaced is replaced again, so two names cannot be exchanged (C121_exchange_refuted), and keys that become equal lose entries (C121_entries_refuted)."
  },
  {
   "property": "C122",
   "status": "partial",
   "theorems": [
    "C122_halves",
    "C122_round",
    "C122_tick_space",
    "C122_tick_sum",
    "C122_auto_scale",
    "C122_text",
    "C122_value_kept",
    "C122_ticks_texts",
    "C122_locs",
    "C122_no_locs_refuted"
   ],
   "note": "Real numbers instead of floats; matplotlib's own locators and formatters are arbitrary functions. set_locs() without argument is refuted: its default None is iterated over and TypeError is raised. An inverted axis gives the larger end first, so both halves are told the whole interval (second part of C122_halves)."
  },
  {
   "property": "C123",
   "status": "proved",
   "theorems": [
    "C123_bar",
    "C123_counts",
    "C123_legend",
    "C123_folded",
    "C123_level",
    "C123_khat",
    "C123_repeated"
   ],
   "note": "Real numbers instead of floats; on a logarithmic axis the lower energies must not be negative. Colours, markers and line widths are left out."
  },
  {
   "property": "C124",
   "status": "partial",
   "theorems": [
    "C124_numbers",
    "C124_order",
    "C124_keyword",
    "C124_installed",
    "C124_short_refuted",
    "C124_candidate_refuted"
   ],
   "note": "Shown not to hold: the version text 0.6 counts as older than 0.6.0, and a release candidate of 0.6.0 counts as 0.6.0."
  },
  {
   "property": "C125",
   "status": "partial",
   "theorems": [
    "C125_algorithms",
    "C125_loaded",
    "C125_others",
    "C125_error",
    "C125_history",
    "C125_stopped",
    "C125_failed_save_refuted",
    "C125_stopped_save_refuted"
   ],
   "note": "Not atomic: refuted by C125_failed_save_refuted and C125_stopped_save_refuted. dill and the compressed files are parameters with their promises as premises; an instance that keeps them is given (C125_ex). Errors of the file system are reported as KeyError (missing) and RuntimeError (unreadable)."
  },
  {
   "property": "C126",
   "status": "proved",
   "theorems": [
    "C126_texts",
    "C126_unit_refuted"
   ],
   "note": "The numbering of component LaTeX texts is cid_to_latex (parameter of the model); what astropy makes of a unit is a parameter. C126_unit_refuted: a norm shared by a power law and a black body."
  },
  {
   "property": "C127",
   "status": "proved",
   "theorems": [
    "C127_compiled",
    "C127_delete",
    "C127_history",
    "C127_takes_effect",
    "C127_property",
    "C127_switch_off_refuted"
   ],
   "note": "Histories that leave the two private names of the protection alone (with them: C127_switch_off_refuted); checks and conversions inside property setters are left out (C88, C89 cover them); direct changes of __dict__ are outside the model."
  }
 ]
}