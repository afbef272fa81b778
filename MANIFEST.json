{
 "claims": [
  {
   "property": "C01",
   "status": "proved",
   "theorems": [
    "C01_transform_cells",
    "C01_predict_cells",
    "C01_fit_lengths",
    "C01_fit_transform"
   ],
   "note": ""
  },
  {
   "property": "C02",
   "status": "proved",
   "theorems": [
    "C02_roundtrip_iff",
    "C02_roundtrip_refuted"
   ],
   "note": "Settled: exact condition in C02_roundtrip_iff; the unconditional claim is false (C02_roundtrip_refuted)."
  },
  {
   "property": "C03",
   "status": "proved",
   "theorems": [
    "C03_mean_std"
   ],
   "note": ""
  },
  {
   "property": "C04",
   "status": "proved",
   "theorems": [
    "C04_median_mad"
   ],
   "note": ""
  },
  {
   "property": "C05",
   "status": "proved",
   "theorems": [
    "C05_tau_affine",
    "C05_affine_equivariance",
    "C05_fit_succeeds"
   ],
   "note": "mean, trimmed mean, median; std, trimmed std, MAD for any column of a matrix; tau scale of a single column with non-zero MAD (C05_tau_affine)."
  },
  {
   "property": "C06",
   "status": "proved",
   "theorems": [
    "C06_documented",
    "C06_row_order"
   ],
   "note": "C06_documented extends the result to kstepLTS, tau2 and (for an optimiser that does not see the order) the spatial median, and to the transformed data."
  },
  {
   "property": "C07",
   "status": "proved",
   "theorems": [
    "C07_rejected",
    "C07_too_much",
    "C07_too_much_documented",
    "C07_trimmed_mean"
   ],
   "note": ""
  },
  {
   "property": "C08",
   "status": "proved",
   "theorems": [
    "C08_stored",
    "C08_predicted",
    "C08_history",
    "C08_failed_fit_refuted"
   ],
   "note": "Holds for histories in which every fit returns normally; a fit that raises may leave centre and scale of different data (C08_failed_fit_refuted)."
  },
  {
   "property": "C09",
   "status": "proved",
   "theorems": [
    "C09_missing"
   ],
   "note": "mean/median centre with std/mad scale, trimming 0, data over reals with NaN."
  },
  {
   "property": "C10",
   "status": "proved",
   "theorems": [
    "C10_single_row",
    "C10_single_row_refuted"
   ],
   "note": "Settled negatively: exact behaviour in C10_single_row, witness in C10_single_row_refuted."
  },
  {
   "property": "C11",
   "status": "proved",
   "theorems": [
    "C11_median_breakdown"
   ],
   "note": ""
  },
  {
   "property": "C12",
   "status": "proved",
   "theorems": [
    "C12_mad_breakdown",
    "C12_mad_zero_iff"
   ],
   "note": ""
  },
  {
   "property": "C13",
   "status": "proved",
   "theorems": [
    "C13_trimmed_mean_bulk"
   ],
   "note": ""
  },
  {
   "property": "C14",
   "status": "proved",
   "theorems": [
    "C14_objective",
    "C14_subgradient",
    "C14_stationary",
    "C14_convex",
    "C14_unique"
   ],
   "note": ""
  },
  {
   "property": "C15",
   "status": "proved",
   "theorems": [
    "C15_scaler",
    "C15_step",
    "C15_iterations",
    "C15_monotone",
    "C15_monotone_refuted"
   ],
   "note": "Monotonicity holds without ties at the cut-off (C15_monotone) and fails with ties (C15_monotone_refuted)."
  },
  {
   "property": "C16",
   "status": "proved",
   "theorems": [
    "C16_no_weighting",
    "C16_scaler",
    "C16_common_factor",
    "C16_single_column",
    "C16_columnwise_refuted"
   ],
   "note": "Settled negatively for p >= 2 (C16_columnwise_refuted); for one column it is the tau scale."
  },
  {
   "property": "C17",
   "status": "proved",
   "theorems": [
    "C17_shape",
    "C17_wrap_column"
   ],
   "note": ""
  },
  {
   "property": "C18",
   "status": "proved",
   "theorems": [
    "C18_fitted_state_ignored",
    "C18_fitted_state_refuted"
   ],
   "note": "Settled negatively: the fitted location and scale are ignored."
  },
  {
   "property": "C19",
   "status": "proved",
   "theorems": [
    "C19_rows",
    "C19_factors"
   ],
   "note": ""
  },
  {
   "property": "C20",
   "status": "proved",
   "theorems": [
    "C20_rules",
    "C20_antitone"
   ],
   "note": ""
  },
  {
   "property": "C21",
   "status": "proved",
   "theorems": [
    "C21_more_columns",
    "C21_enough_rows"
   ],
   "note": ""
  },
  {
   "property": "C22",
   "status": "proved",
   "theorems": [
    "C22_unit_rows",
    "C22_spatial_sign"
   ],
   "note": ""
  },
  {
   "property": "C23",
   "status": "proved",
   "theorems": [
    "C23_behaviour",
    "C23_covariance_refuted"
   ],
   "note": "Settled negatively: exact behaviour in C23_behaviour, counterexample in C23_covariance_refuted."
  },
  {
   "property": "C24",
   "status": "proved",
   "theorems": [
    "C24_unfitted",
    "C24_argument_ignored",
    "C24_transform_refuted"
   ],
   "note": "Settled negatively: the argument of transform is ignored."
  },
  {
   "property": "C25",
   "status": "proved",
   "theorems": [
    "C25_weights",
    "C25_negative_cutoff"
   ],
   "note": ""
  },
  {
   "property": "C26",
   "status": "proved",
   "theorems": [
    "C26_textbook",
    "C26_small_cutoff",
    "C26_negative_input",
    "C26_textbook_refuted"
   ],
   "note": "Settled: textbook weights for cut-offs >= 1 and non-negative input (C26_textbook); false otherwise (C26_small_cutoff, C26_negative_input, C26_textbook_refuted)."
  },
  {
   "property": "C27",
   "status": "proved",
   "theorems": [
    "C27_pointwise"
   ],
   "note": ""
  },
  {
   "property": "C28",
   "status": "proved",
   "theorems": [
    "C28_brokenstick"
   ],
   "note": ""
  },
  {
   "property": "C29",
   "status": "proved",
   "theorems": [
    "C29_starting_components"
   ],
   "note": ""
  },
  {
   "property": "C30",
   "status": "proved",
   "theorems": [
    "C30_lengths",
    "C30_nandot",
    "C30_nanmatdot",
    "C30_complete",
    "C30_product_refuted"
   ],
   "note": "Settled: nandot and the one-column nanmatdot agree; nanmatdot with two or more columns returns the transpose (C30_nanmatdot, C30_product_refuted)."
  },
  {
   "property": "C31",
   "status": "proved",
   "theorems": [
    "C31_check_input",
    "C31_predict_check_input"
   ],
   "note": ""
  },
  {
   "property": "C32",
   "status": "proved",
   "theorems": [
    "C32_scores_orthogonal"
   ],
   "note": ""
  },
  {
   "property": "C33",
   "status": "proved",
   "theorems": [
    "C33_sparsity"
   ],
   "note": ""
  },
  {
   "property": "C34",
   "status": "proved",
   "theorems": [
    "C34_exact",
    "C34_largest_kept",
    "C34_eta_zero",
    "C34_eta_monotone"
   ],
   "note": ""
  },
  {
   "property": "C35",
   "status": "proved",
   "theorems": [
    "C35_no_centre",
    "C35_fitted_values",
    "C35_affine_and_errors"
   ],
   "note": ""
  },
  {
   "property": "C36",
   "status": "proved",
   "theorems": [
    "C36_transform_train",
    "C36_transform_train_refuted"
   ],
   "note": "Settled: holds when the retained set does not grow after the first component (C36_transform_train); false in general (C36_transform_train_refuted)."
  },
  {
   "property": "C37",
   "status": "proved",
   "theorems": [
    "C37_explained_variance"
   ],
   "note": ""
  },
  {
   "property": "C38",
   "status": "proved",
   "theorems": [
    "C38_least_squares"
   ],
   "note": ""
  },
  {
   "property": "C39",
   "status": "proved",
   "theorems": [
    "C39_caseweights",
    "C39_inner_fits"
   ],
   "note": "Proved over the reals extended with infinities and NaN, so degenerate data (zero medians) are covered: weights are then NaN or in range."
  },
  {
   "property": "C40",
   "status": "proved",
   "theorems": [
    "C40_budget",
    "C40_terminates",
    "C40_small_budget"
   ],
   "note": "Polymorphic in the number type; the loop result does not depend on the recursion bound used in the model."
  },
  {
   "property": "C41",
   "status": "proved",
   "theorems": [
    "C41_validation_exact"
   ],
   "note": ""
  },
  {
   "property": "C42",
   "status": "proved",
   "theorems": [
    "C42_supported",
    "C42_scale_none_refuted",
    "C42_scale_none_never"
   ],
   "note": "Settled negatively for scale='None' with centre other than 'mean' (C42_scale_none_refuted); all other combinations of mean/median/None with std/mad/None succeed (C42_supported)."
  },
  {
   "property": "C43",
   "status": "proved",
   "theorems": [
    "C43_fitted_values"
   ],
   "note": ""
  },
  {
   "property": "C44",
   "status": "proved",
   "theorems": [
    "C44_intercept_scaled_mean",
    "C44_intercept_scaled_pairs",
    "C44_intercept_scaled_refuted"
   ],
   "note": "Settled: true for the mean; for the median the value is the median of all n^2 differences (C44_intercept_scaled_pairs, C44_intercept_scaled_refuted)."
  },
  {
   "property": "C45",
   "status": "proved",
   "theorems": [
    "C45_validation_exact"
   ],
   "note": "Exact characterisation for centre mean/median/None with scale std/mad/None; the additional rejection (fewer variables of non-zero scale than components) is part of the statement."
  },
  {
   "property": "C46",
   "status": "proved",
   "theorems": [
    "C46_new_data",
    "C46_column_count",
    "C46_same_fit"
   ],
   "note": "Also: fitting on the variables of non-zero scale alone gives the same estimates (C46_same_fit)."
  },
  {
   "property": "C47",
   "status": "proved",
   "theorems": [
    "C47_caseweights"
   ],
   "note": "Proved over the reals extended with infinities and NaN; requires finite cut-offs."
  },
  {
   "property": "C48",
   "status": "proved",
   "theorems": [
    "C48_batch_refuted",
    "C48_single_case"
   ],
   "note": "Settled negatively: witness for batch dependence, and for every model with two or more components a single new case gets that many weights."
  },
  {
   "property": "C49",
   "status": "proved",
   "theorems": [
    "C49_start_refuted",
    "C49_start_error",
    "C49_supported"
   ],
   "note": "Settled negatively for start_X_init != 'pcapp' with start_cutoff_mode='specific' (never succeeds, any data and number type); all other combinations succeed or report an invalid parameter / a linear algebra failure."
  },
  {
   "property": "C50",
   "status": "proved",
   "theorems": [
    "C50_variance"
   ],
   "note": ""
  },
  {
   "property": "C51",
   "status": "proved",
   "theorems": [
    "C51_covariance"
   ],
   "note": ""
  },
  {
   "property": "C52",
   "status": "proved",
   "theorems": [
    "C52_correlation",
    "C52_trimmed_refuted",
    "C52_median_refuted"
   ],
   "note": "Proved for the default setting (mean, no trimming, with and without bias correction). Settled negatively for trimming > 0 (values above 1) and for center='median' (unbounded and dependent on the unit of x)."
  },
  {
   "property": "C53",
   "status": "proved",
   "theorems": [
    "C53_bias_corrected",
    "C53_plain"
   ],
   "note": ""
  },
  {
   "property": "C54",
   "status": "proved",
   "theorems": [
    "C54_std",
    "C54_constant_refuted"
   ],
   "note": "The square-root relation holds without bias correction; with bias correction it fails for every non-constant sample, and for a constant sample std is NaN while var is 0 (settled negatively)."
  },
  {
   "property": "C55",
   "status": "proved",
   "theorems": [
    "C55_parameters",
    "C55_as_new",
    "C55_sign_refuted",
    "C55_center_refuted",
    "C55_sign_errors_refuted"
   ],
   "note": "est and mode are never changed and the value equals that of a new object; settled negatively for center (overwritten by 'mean' in six modes) and for est sign/entropy (stale or missing result)."
  },
  {
   "property": "C56",
   "status": "proved",
   "theorems": [
    "C56_double_centring",
    "C56_u_centring"
   ],
   "note": ""
  },
  {
   "property": "C57",
   "status": "proved",
   "theorems": [
    "C57_distance_covariance"
   ],
   "note": ""
  },
  {
   "property": "C58",
   "status": "proved",
   "theorems": [
    "C58_exact",
    "C58_order2",
    "C58_exponents",
    "C58_refuted"
   ],
   "note": "Settled negatively: exact behaviour is powers of two of the centred distances, in place; correct for order 2 and only for exponents at most two."
  },
  {
   "property": "C59",
   "status": "proved",
   "theorems": [
    "C59_mdd",
    "C59_mddm"
   ],
   "note": ""
  },
  {
   "property": "C60",
   "status": "proved",
   "theorems": [
    "C60_single_predictor_refuted",
    "C60_lengths"
   ],
   "note": "Settled negatively: ValueError for every n >= 2."
  },
  {
   "property": "C61",
   "status": "proved",
   "theorems": [
    "C61_options",
    "C61_rejection",
    "C61_mdc_refuted"
   ],
   "note": "Exact set of accepted options; 'mdc' is always rejected."
  },
  {
   "property": "C62",
   "status": "proved",
   "theorems": [
    "C62_all",
    "C62_dicomo",
    "C62_prefix",
    "C62_options_refuted",
    "C62_option_zero_refuted"
   ],
   "note": "options='all' and option lists that are prefixes of 1,2,3: every (degree, option) pair has its own weight (C62_all, C62_prefix; C62_dicomo instantiates the index with arithmetic co-moments). Settled negatively for other option lists: C62_options_refuted. C62_option_zero_refuted: option 0 writes the last slot."
  },
  {
   "property": "C63",
   "status": "proved",
   "theorems": [
    "C63_constructor",
    "C63_fit",
    "C63_set_params_refuted",
    "C63_values"
   ],
   "note": "Constructor and fit characterised exactly; a degree above 4 set later by set_params is not rejected as such but raises IndexError (C63_set_params_refuted)."
  },
  {
   "property": "C64",
   "status": "proved",
   "theorems": [
    "C64_first",
    "C64_second",
    "C64_unit",
    "C64_unit_second"
   ],
   "note": "Both grids characterised exactly (iff): the first maximiser over the grid, with unit norm resp. the normalisation that keeps a unit weight vector."
  },
  {
   "property": "C65",
   "status": "proved",
   "theorems": [
    "C65_first",
    "C65_sweep",
    "C65_refine",
    "C65_search",
    "C65_degenerate_refuted"
   ],
   "note": "First sweep, every refinement sweep, any number of iterations, and the search as a whole. ndir = 1 mod 4 is excluded: there the second grid contains a degenerate direction (C65_degenerate_refuted). The code does not sort the columns (the computed order is not used)."
  },
  {
   "property": "C66",
   "status": "proved",
   "theorems": [
    "C66_orthogonal"
   ],
   "note": "For every optimiser, projection index, centring, scaling, compression and whitening."
  },
  {
   "property": "C67",
   "status": "proved",
   "theorems": [
    "C67_training",
    "C67_uncentred_refuted"
   ],
   "note": "pinv only assumed to satisfy the first Penrose equation. With center_data=False and p >= 2 the result is an array of n copies of the scores (C67_uncentred_refuted)."
  },
  {
   "property": "C68",
   "status": "proved",
   "theorems": [
    "C68_predict",
    "C68_no_response"
   ],
   "note": "For every inner regression, not only OLS; also centring of the residuals, and AttributeError without response."
  },
  {
   "property": "C69",
   "status": "proved",
   "theorems": [
    "C69_two_columns_refuted",
    "C69_error"
   ],
   "note": "Settled negatively: C69_two_columns_refuted, C69_error. C69_three_columns shows a grid fit that returns."
  },
  {
   "property": "C70",
   "status": "proved",
   "theorems": [
    "C70_whitening_refuted"
   ],
   "note": "Settled negatively: a whitening fit that returns has zero components."
  },
  {
   "property": "C71",
   "status": "proved",
   "theorems": [
    "C71_own_options",
    "C71_grid_refuted",
    "C71_ipopt_refuted"
   ],
   "note": "Settled negatively: C71_grid_refuted, C71_ipopt_refuted; positive part C71_own_options (instances with a dictionary of their own)."
  },
  {
   "property": "C72",
   "status": "proved",
   "theorems": [
    "C72_set_get",
    "C72_unknown_atomic_refuted",
    "C72_nested",
    "C72_exceptions"
   ],
   "note": "Set/get and nested names proved; atomicity settled negatively (C72_unknown_atomic_refuted)."
  },
  {
   "property": "C73",
   "status": "proved",
   "theorems": [
    "C73_labels",
    "C73_monotone",
    "C73_sizes",
    "C73_degenerate"
   ],
   "note": "Over the reals, any length; the sorted version and the cut points are spelled out in S_Sudire. Fewer than two slices and empty responses fail."
  },
  {
   "property": "C74",
   "status": "proved",
   "theorems": [
    "C74_distinct",
    "C74_fractions",
    "C74_too_few"
   ],
   "note": "Label vectors over the reals. np.var rounding for constant labels is not modelled."
  },
  {
   "property": "C75",
   "status": "proved",
   "theorems": [
    "C75_SIR",
    "C75_SAVE",
    "C75_DR",
    "C75_PHD",
    "C75_IHT",
    "C75_semidefinite"
   ],
   "note": "Relative to a correct eigh routine (eigh_ok)."
  },
  {
   "property": "C76",
   "status": "proved",
   "theorems": [
    "C76_projector",
    "C76_full"
   ],
   "note": "Relative to a correct inverse (inverse_ok) and eigh, and to array shapes of svd and inverse square root."
  },
  {
   "property": "C77",
   "status": "proved",
   "theorems": [
    "C77_training",
    "C77_regression",
    "C77_wrong_columns"
   ],
   "note": "C77_training and C77_regression; OLS is a routine argument."
  },
  {
   "property": "C78",
   "status": "proved",
   "theorems": [
    "C78_pooled",
    "C78_last",
    "C78_refuted"
   ],
   "note": "Settled negatively: averages are pooled over all smaller dimensions (C78_pooled), so p-1 is never returned unless its average vanishes (C78_last)."
  },
  {
   "property": "C79",
   "status": "proved",
   "theorems": [
    "C79_round_trip",
    "C79_unvec",
    "C79_constraints"
   ],
   "note": "All entries, not only the upper triangle."
  },
  {
   "property": "C80",
   "status": "proved",
   "theorems": [
    "C80_bounds",
    "C80_feasible",
    "C80_values",
    "C80_unknown_type",
    "C80_nested",
    "C80_single"
   ],
   "note": "Bounds table, equivalence of solver feasibility with the user's constraints after any history of evaluations, ValueError for unknown types and TypeError for nested sequences. 'ineq' means 0 <= v <= 1e19, the solver's infinity."
  },
  {
   "property": "C81",
   "status": "proved",
   "theorems": [
    "C81_idempotent",
    "C81_values",
    "C81_options",
    "C81_sticky",
    "C81_unchanged_refuted",
    "C81_tolerance"
   ],
   "note": "Idempotence, preservation and defaults proved for every dictionary. Last clause settled negatively: the caller's dictionary is modified and a second call passes the first call's tolerance (C81_sticky, C81_unchanged_refuted)."
  },
  {
   "property": "C82",
   "status": "proved",
   "theorems": [
    "C82_shape",
    "C82_forward_affine",
    "C82_central_quadratic",
    "C82_consistent",
    "C82_forward_quadratic_refuted"
   ],
   "note": "Exactness, shape, and consistency as the step goes to 0 for every differentiable function, with any cache left by earlier evaluations with the same arguments. Forward differences refuted for quadratics."
  },
  {
   "property": "C83",
   "status": "proved",
   "theorems": [
    "C83_same_args",
    "C83_args_refuted",
    "C83_fun_with_grad",
    "C83_inplace_refuted"
   ],
   "note": "Settled: proved for every history with the same arguments (and, for jac=True, when arrays already passed are not rewritten); refuted for differing arguments and for in-place updates."
  },
  {
   "property": "C84",
   "status": "proved",
   "theorems": [
    "C84_fair_symmetric",
    "C84_onesided",
    "C84_symmetric_refuted"
   ],
   "note": "Settled negatively for Huber and Hampel (C84_symmetric_refuted, exact weights in C84_onesided); holds for Fair."
  },
  {
   "property": "C85",
   "status": "proved",
   "theorems": [
    "C85_trichotomy",
    "C85_in_range"
   ],
   "note": ""
  },
  {
   "property": "C86",
   "status": "proved",
   "theorems": [
    "C86_labels",
    "C86_all_labelled_refuted",
    "C86_shifted"
   ],
   "note": "Settled negatively: exact set of annotations in C86_labels and C86_shifted."
  },
  {
   "property": "C87",
   "status": "proved",
   "theorems": [
    "C87_ranks",
    "C87_bars",
    "C87_labels_refuted"
   ],
   "note": "Settled negatively by a counterexample; C87_bars and C87_ranks say what is drawn: the smallest and largest values, labelled with the ranks of the first and last variables."
  },
  {
   "property": "C88",
   "status": "proved",
   "theorems": [
    "C88_one_component_total"
   ],
   "note": ""
  },
  {
   "property": "C89",
   "status": "proved",
   "theorems": [
    "C89_weight_sign_exact",
    "C89_weight_sign_refuted"
   ],
   "note": "Settled negatively: exact condition in C89_weight_sign_exact, witness in C89_weight_sign_refuted."
  },
  {
   "property": "C90",
   "status": "proved",
   "theorems": [
    "C90_infinite_cutoff_refuted"
   ],
   "note": "Settled negatively."
  },
  {
   "property": "C91",
   "status": "proved",
   "theorems": [
    "C91_training_data"
   ],
   "note": ""
  },
  {
   "property": "C92",
   "status": "proved",
   "theorems": [
    "C92_budget",
    "C92_small_budget"
   ],
   "note": ""
  },
  {
   "property": "C93",
   "status": "proved",
   "theorems": [
    "C93_refit_refuted",
    "C93_unchanged",
    "C93_only_columns_and_scale"
   ],
   "note": "Settled negatively with a witness; the parameters that can change are characterised exactly."
  },
  {
   "property": "C94",
   "status": "proved",
   "theorems": [
    "C94_residual_weights_refuted"
   ],
   "note": "Settled negatively with a witness."
  },
  {
   "property": "C95",
   "status": "proved",
   "theorems": [
    "C95_retained_names",
    "C95_positions_refuted"
   ],
   "note": "Proved for names; settled negatively for positions (C95_positions_refuted)."
  },
  {
   "property": "C96",
   "status": "proved",
   "theorems": [
    "C96_weighted_score_refuted",
    "C96_normal_score"
   ],
   "note": "'normal' proved equal to R2; 'weighted' settled negatively for all validation sets of another size."
  },
  {
   "property": "C97",
   "status": "proved",
   "theorems": [
    "C97_self",
    "C97_invariant",
    "C97_cok_biascorr_refuted"
   ],
   "note": "Settled negatively for bias-corrected co-kurtosis, proved otherwise."
  },
  {
   "property": "C98",
   "status": "proved",
   "theorems": [
    "C98_continuum"
   ],
   "note": ""
  },
  {
   "property": "C99",
   "status": "proved",
   "theorems": [
    "C99_fast_is_naive",
    "C99_fast_correlation"
   ],
   "note": "Hypothesis: dcor.distance_covariance_sqr returns the V-statistic (external package). C99_fast_correlation covers the correlation."
  },
  {
   "property": "C100",
   "status": "proved",
   "theorems": [
    "C100_distance_correlation"
   ],
   "note": ""
  },
  {
   "property": "C101",
   "status": "proved",
   "theorems": [
    "C101_nonnegative"
   ],
   "note": ""
  },
  {
   "property": "C102",
   "status": "proved",
   "theorems": [
    "C102_moments",
    "C102_comoments"
   ],
   "note": ""
  },
  {
   "property": "C103",
   "status": "proved",
   "theorems": [
    "C103_repeatable",
    "C103_median_refuted"
   ],
   "note": "Positive part C103_repeatable; settled negatively for center='median' with scaling (C103_median_refuted)."
  },
  {
   "property": "C104",
   "status": "proved",
   "theorems": [
    "C104_covering"
   ],
   "note": ""
  },
  {
   "property": "C105",
   "status": "proved",
   "theorems": [
    "C105_first",
    "C105_odd",
    "C105_even_refuted"
   ],
   "note": "C105_first and C105_odd positive; settled negatively for even ndir (C105_even_refuted)."
  },
  {
   "property": "C106",
   "status": "proved",
   "theorems": [
    "C106_residuals"
   ],
   "note": "Scales assumed non-zero (coef_ divides by them)."
  },
  {
   "property": "C107",
   "status": "proved",
   "theorems": [
    "C107_compression_refuted"
   ],
   "note": "Settled negatively."
  },
  {
   "property": "C109",
   "status": "proved",
   "theorems": [
    "C109_unit_weights"
   ],
   "note": ""
  },
  {
   "property": "C110",
   "status": "proved",
   "theorems": [
    "C110_reported"
   ],
   "note": ""
  },
  {
   "property": "C111",
   "status": "proved",
   "theorems": [
    "C111_six_responses"
   ],
   "note": "Settled negatively: a success implies six distinct responses."
  },
  {
   "property": "C112",
   "status": "proved",
   "theorems": [
    "C112_direct",
    "C112_optimised"
   ],
   "note": "Relative to isqrt_ok, eigh_ok, svd_shapes, and feasibility of the optimiser's solution."
  },
  {
   "property": "C113",
   "status": "proved",
   "theorems": [
    "C113_refuted"
   ],
   "note": "Settled negatively."
  },
  {
   "property": "C114",
   "status": "proved",
   "theorems": [
    "C114_predictions"
   ],
   "note": "Settled: exact characterisation of the failing batches; otherwise the affine formula."
  },
  {
   "property": "C115",
   "status": "proved",
   "theorems": [
    "C115_refuted"
   ],
   "note": "Settled negatively."
  },
  {
   "property": "C116",
   "status": "proved",
   "theorems": [
    "C116_refuted"
   ],
   "note": "Settled negatively for the optimised methods without scaling and whitening."
  },
  {
   "property": "C117",
   "status": "proved",
   "theorems": [
    "C117_bcov_name_refuted",
    "C117_bcov_refuted",
    "C117_center_refuted"
   ],
   "note": "Settled negatively for both."
  },
  {
   "property": "C118",
   "status": "proved",
   "theorems": [
    "C118_order_only"
   ],
   "note": ""
  },
  {
   "property": "C119",
   "status": "proved",
   "theorems": [
    "C119_translation"
   ],
   "note": "Trimming 0, no compression."
  },
  {
   "property": "C120",
   "status": "proved",
   "theorems": [
    "C120_values",
    "C120_rotation"
   ],
   "note": ""
  },
  {
   "property": "C121",
   "status": "proved",
   "theorems": [
    "C121_deep_refuted",
    "C121_deep"
   ],
   "note": "Settled negatively for parameters that are classes (C121_deep_refuted); proved otherwise (C121_deep)."
  },
  {
   "property": "C122",
   "status": "proved",
   "theorems": [
    "C122_constructor"
   ],
   "note": "Proved, with capi.centring as the exception the theorem states."
  },
  {
   "property": "C123",
   "status": "proved",
   "theorems": [
    "C123_rebuild",
    "C123_unchecked_refuted",
    "C123_accepts"
   ],
   "note": "C123_rebuild is the positive part; after set_params settled negatively (C123_unchecked_refuted)."
  },
  {
   "property": "C124",
   "status": "proved",
   "theorems": [
    "C124_derived_refuted"
   ],
   "note": "Settled negatively."
  },
  {
   "property": "C125",
   "status": "proved",
   "theorems": [
    "C125_general_algorithm",
    "C125_estimator",
    "C125_default_algorithm",
    "C125_algorithms_agree_refuted",
    "C125_mdd",
    "C125_mdd_nonnegative_refuted"
   ],
   "note": "Settled negatively for the agreement of the two algorithms (C125_algorithms_agree_refuted, C125_mdd_nonnegative_refuted); the positive parts are proved. Hypothesis for the default algorithm: dcor.u_distance_covariance_sqr returns the U-statistic (external package)."
  },
  {
   "property": "C126",
   "status": "proved",
   "theorems": [
    "C126_trimmed_mdd"
   ],
   "note": ""
  },
  {
   "property": "C127",
   "status": "proved",
   "theorems": [
    "C127_trimmed_moments",
    "C127_trimvar"
   ],
   "note": "trimvar is not called anywhere in the package; it is covered by C127_trimvar."
  },
  {
   "property": "C128",
   "status": "proved",
   "theorems": [
    "C128_median_moments",
    "C128_median_comoment",
    "C128_variance_scaling_refuted"
   ],
   "note": "Settled negatively (C128_variance_scaling_refuted) with a full characterisation."
  },
  {
   "property": "C129",
   "status": "proved",
   "theorems": [
    "C129_snipls"
   ],
   "note": ""
  },
  {
   "property": "C130",
   "status": "proved",
   "theorems": [
    "C130_rm"
   ],
   "note": "Assumes the least-squares routine itself does not depend on the order of the rows."
  },
  {
   "property": "C131",
   "status": "proved",
   "theorems": [
    "C131_sprm"
   ],
   "note": "With the pcapp start, assumes the leading left singular vectors are reordered with the rows (LAPACK fixes them up to sign only)."
  },
  {
   "property": "C132",
   "status": "proved",
   "theorems": [
    "C132_dicomo"
   ],
   "note": "For the fast algorithm, assumes the distance covariances of the dcor package do not depend on the order of the cases."
  },
  {
   "property": "C133",
   "status": "proved",
   "theorems": [
    "C133_snipls",
    "C133_new_data"
   ],
   "note": "Factors are positive; the response and every variable must have spread as measured by the scale option. C133_new_data covers predict and transform."
  },
  {
   "property": "C134",
   "status": "proved",
   "theorems": [
    "C134_rm",
    "C134_new_data"
   ],
   "note": "As C133. No assumption on the least-squares routine is needed, since it is called with identical arguments."
  },
  {
   "property": "C135",
   "status": "proved",
   "theorems": [
    "C135_sprm",
    "C135_new_data",
    "C135_units_refuted"
   ],
   "note": "C135_sprm and C135_new_data are the positive part; C135_units_refuted settles the rest negatively: variables with a scale below the absolute threshold 1e-5 are dropped (sprm.py:229-251), so that every successful fit fails in large enough units."
  },
  {
   "property": "C136",
   "status": "proved",
   "theorems": [
    "C136_sliced",
    "C136_moments",
    "C136_categories_refuted"
   ],
   "note": "Settled negatively for fewer slices than categories. The eigenvalue routine is assumed to return a decomposition, and the same one for the same matrix."
  },
  {
   "property": "C137",
   "status": "proved",
   "theorems": [
    "C137_sudire"
   ],
   "note": "Assumes that least squares and, when compression or whitening is asked for, the singular value decomposition do not depend on the order of the cases."
  },
  {
   "property": "C138",
   "status": "proved",
   "theorems": [
    "C138_start_refuted"
   ],
   "note": "Settled negatively."
  },
  {
   "property": "C139",
   "status": "proved",
   "theorems": [
    "C139_too_many_names",
    "C139_training",
    "C139_every_case",
    "C139_test"
   ],
   "note": "Model: the marks handed to matplotlib. Cases with a NaN weight are missing from the plot (C139_training shows exactly which cases are drawn); the last name is never drawn (C86)."
  },
  {
   "property": "C140",
   "status": "proved",
   "theorems": [
    "C140_training",
    "C140_test",
    "C140_default_refuted"
   ],
   "note": "Settled negatively for the default arguments: C140_default_refuted."
  },
  {
   "property": "C141",
   "status": "proved",
   "theorems": [
    "C141_bars",
    "C141_mode_refuted"
   ],
   "note": "Bars proved; names of training cases are shifted by one bar (see the shift in C141_bars), and C141_mode_refuted settles the documented ValueError negatively."
  },
  {
   "property": "C142",
   "status": "proved",
   "theorems": [
    "C142_refuted"
   ],
   "note": "Settled negatively."
  },
  {
   "property": "C143",
   "status": "proved",
   "theorems": [
    "C143_first_character_refuted",
    "C143_legends"
   ],
   "note": "Settled negatively."
  },
  {
   "property": "C144",
   "status": "proved",
   "theorems": [
    "C144_lengths",
    "C144_list_label_refuted",
    "C144_sudire_training",
    "C144_sudire_test",
    "C144_sudire_scores",
    "C144_ppdire_training",
    "C144_ppdire_test",
    "C144_uncentred_refuted",
    "C144_one_new_case_refuted"
   ],
   "note": "Positive for plot_yyp and, for sudire, plot_projections; C144_uncentred_refuted and C144_one_new_case_refuted settle ppdire without centring negatively."
  },
  {
   "property": "C145",
   "status": "proved",
   "theorems": [
    "C145_first",
    "C145_later_refuted"
   ],
   "note": "C145_first is the positive part, C145_later_refuted the negative one."
  },
  {
   "property": "C146",
   "status": "proved",
   "theorems": [
    "C146_mismatch",
    "C146_bars",
    "C146_list_refuted",
    "C146_numbers_refuted"
   ],
   "note": "C146_bars is the positive part; list and tuple names and the numbers are settled negatively."
  },
  {
   "property": "C147",
   "status": "proved",
   "theorems": [
    "C147_maximises"
   ],
   "note": "The optimiser is an arbitrary function; that it returns a minimiser over the unit vectors is a hypothesis (unit_minimiser), asked for only in the last clause. square_pi plays no role for these optimisers."
  },
  {
   "property": "C148",
   "status": "proved",
   "theorems": [
    "C148_stored_scaling"
   ],
   "note": "Trimming zero. Without centring there is no scaling either (scaling_of); the property is otherwise positive."
  },
  {
   "property": "C149",
   "status": "proved",
   "theorems": [
    "C149_centre_refuted",
    "C149_set_later_refuted",
    "C149_set_later_error"
   ],
   "note": "Settled negatively: C149_centre_refuted characterises what the constructor accepts, C149_set_later_refuted what fit accepts."
  },
  {
   "property": "C150",
   "status": "proved",
   "theorems": [
    "C150_refused",
    "C150_ndir_default",
    "C150_default_instance",
    "C150_maxiter_refuted"
   ],
   "note": "C150_ndir_default is the positive part; C150_maxiter_refuted settles maxiter negatively."
  },
  {
   "property": "C151",
   "status": "proved",
   "theorems": [
    "C151_overruled",
    "C151_params_refuted"
   ],
   "note": "C151_overruled is the positive part; C151_params_refuted the negative one. Fits with whitening succeed for a single column only (C70)."
  },
  {
   "property": "C152",
   "status": "proved",
   "theorems": [
    "C152_order",
    "C152_dicomo",
    "C152_capi",
    "C152_start_refuted"
   ],
   "note": "C152_order compares the two runs of the whole fit (errors included); C152_dicomo and C152_capi show that the package's indices qualify. C152_start_refuted: the optimisers other than the grid start at the first case, E[0,:]."
  },
  {
   "property": "C153",
   "status": "proved",
   "theorems": [
    "C153_order",
    "C153_dicomo"
   ],
   "note": "Attributes and errors included; C153_dicomo instantiates the measure with dicomo."
  },
  {
   "property": "C154",
   "status": "proved",
   "theorems": [
    "C154_completes",
    "C154_variance_answers"
   ],
   "note": "Exact real arithmetic with x/0 = 0; a vanishing score (0/0 in the code) is outside the claim. C154_variance_answers discharges the hypothesis on the index for dicomo in mode var."
  },
  {
   "property": "C155",
   "status": "proved",
   "theorems": [
    "C155_units",
    "C155_new_data"
   ],
   "note": "Proved for every index, optimiser and pseudo-inverse (oracles). intercept_scaled_ is claimed for the mean only: with the median it is the median of ys - Xs coef_, which combines scaled data with unscaled coefficients and is not invariant."
  },
  {
   "property": "C156",
   "status": "proved",
   "theorems": [
    "C156_twice",
    "C156_quantile_refuted"
   ],
   "note": "Settled negatively: C156_twice shows that for every homogeneous quantile regression the coefficients are multiplied by c^2 (the response is regressed unscaled and its scale is multiplied in again); C156_quantile_refuted gives a fit."
  },
  {
   "property": "C157",
   "status": "proved",
   "theorems": [
    "C157_floats",
    "C157_scaler",
    "C157_scaleTau2_refuted",
    "C157_ppdire",
    "C157_ppdire_refuted"
   ],
   "note": "Settled negatively, with the exact boundary. Arrays of integers give the result of floats for every scaler without scaleTau2 and for ppdire with center_data=True or whiten_data=True (C157_scaler, C157_ppdire). scaleTau2 updates a copy of the data in place and raises TypeError for every array of integers (C157_scaleTau2_refuted); ppdire without centring deflates a copy of the data in place and raises TypeError for every array of integers it could otherwise fit (C157_ppdire_refuted). C157_floats links the model with number types (M_Dtype) to the one used elsewhere."
  },
  {
   "property": "C158",
   "status": "proved",
   "theorems": [
    "C158_integers_refuted",
    "C158_floats"
   ],
   "note": "Settled negatively: the weights are written into the array of distances, so that for integers every weight beyond the cut-off is truncated to 0 (C158_integers_refuted, for cut-offs of at least 1). C158_floats links the model with number types to the one of C25-C27. The package itself calls the functions with floats."
  },
  {
   "property": "C159",
   "status": "proved",
   "theorems": [
    "C159_directions",
    "C159_predictions"
   ],
   "note": "C159_directions gives directions and scores, C159_predictions fitted values and predictions. A tie of eigenvalues at the cut is excluded: there the directions are not determined by the data."
  },
  {
   "property": "C160",
   "status": "proved",
   "theorems": [
    "C160_defaults",
    "C160_centring_refuted"
   ],
   "note": "Settled negatively for capi: C160_centring_refuted (centring is not stored, get_params returns None). C160_defaults proves it for ppdire and sudire."
  },
  {
   "property": "C161",
   "status": "proved",
   "theorems": [
    "C161_centre"
   ],
   "note": "C161_centre; the names of the methods are covered by C122 and C123."
  },
  {
   "property": "C162",
   "status": "proved",
   "theorems": [
    "C162_snipls",
    "C162_new_data"
   ],
   "note": "Over the reals: the floating-point sums of reordered columns may differ in the last bits. Holds for the exact selection rule of the code, including ties."
  },
  {
   "property": "C163",
   "status": "proved",
   "theorems": [
    "C163_rm",
    "C163_new_data"
   ],
   "note": "Over the reals. The least-squares routine is an argument; the hypothesis lstsq_relabel_free says that it follows reordering and reflection of the columns (true of the minimum-norm solution); C163_case gives one."
  },
  {
   "property": "C164",
   "status": "proved",
   "theorems": [
    "C164_sprm",
    "C164_new_data"
   ],
   "note": "Over the reals, with columns=False. With pcapp start the SVD routine is an argument assumed to return the same left vectors up to sign (C164_svd_case gives one)."
  },
  {
   "property": "C165",
   "status": "proved",
   "theorems": [
    "C165_slope",
    "C165_refuted"
   ],
   "note": "Settled negatively (C165_refuted, with the exact slope in C165_slope); finding in DESIGN.md."
  },
  {
   "property": "C166",
   "status": "proved",
   "theorems": [
    "C166_mean",
    "C166_l1median",
    "C166_any_centre",
    "C166_signs",
    "C166_median_refuted"
   ],
   "note": "Exactness of the spatial-median optimiser is a hypothesis of C166_l1median; C166_median_refuted settles the coordinate-wise median negatively."
  },
  {
   "property": "C167",
   "status": "proved",
   "theorems": [
    "C167_steps",
    "C167_units",
    "C167_scaler_refuted"
   ],
   "note": "C167_scaler_refuted: the scaler's fixed tolerance breaks the property; finding in DESIGN.md."
  },
  {
   "property": "C168",
   "status": "proved",
   "theorems": [
    "C168_wrapper"
   ],
   "note": ""
  },
  {
   "property": "C169",
   "status": "proved",
   "theorems": [
    "C169_snipls",
    "C169_rm",
    "C169_sprm",
    "C169_ppdire",
    "C169_sudire"
   ],
   "note": "copy=False is settled as stated (AttributeError). With compression and more variables than cases the stored number of variables can be that of the compressed data, see C171."
  },
  {
   "property": "C170",
   "status": "proved",
   "theorems": [
    "C170_grid_options",
    "C170_negative"
   ],
   "note": "The hypotheses are those of C154_completes with at least one component."
  },
  {
   "property": "C171",
   "status": "proved",
   "theorems": [
    "C171_ppdire_refuted",
    "C171_sudire"
   ],
   "note": "sudire as claimed: same directions, scores, projection, regression and fitted values, and with center_data=True the same object; without centring the stored location and scale have the length of the compressed data. Settled negatively for ppdire: the number of variables stays that of the compressed data and no fit of one or more components succeeds (C171_ppdire_refuted)."
  },
  {
   "property": "C172",
   "status": "proved",
   "theorems": [
    "C172_sudire_refuted",
    "C172_ppdire_refuted"
   ],
   "note": "Settled negatively: a one-column frame becomes a row (convert_y_input transposes). sudire.fit refuses it with 'X and y number of rows must agree'. ppdire.fit stores an intercept of n values, so that predict fails for any other number of new cases than n and returns the observed responses plus the centred predictor part on the training data (mean centring without trimming, no compression, OLS or robust inner regression). A Series is fine. snipls, rm and sprm do not use convert_y_input."
  },
  {
   "property": "C173",
   "status": "proved",
   "theorems": [
    "C173_dcov",
    "C173_mdd"
   ],
   "note": "With trimming 0, centring by the mean, and neither constraints nor arguments supplied by the user; the solver is an argument of the model, assumed to return constrained minima in the dimension of its starting value."
  },
  {
   "property": "C174",
   "status": "proved",
   "theorems": [
    "C174_snipls_constructor"
   ],
   "note": ""
  },
  {
   "property": "C175",
   "status": "proved",
   "theorems": [
    "C175_principal_components",
    "C175_decreasing"
   ],
   "note": "Proved for the non-grid optimisers under the hypothesis that the external optimiser, whenever it answers, returns a unit minimiser of the function it was given (exact_optimiser); the library itself relies on SciPy for that. Components of zero variance are excluded."
  },
  {
   "property": "C176",
   "status": "proved",
   "theorems": [
    "C176_pls_weights",
    "C176_same_as_snipls",
    "C176_same_fitted_values"
   ],
   "note": "Proved for the non-grid optimisers under the hypothesis that the external optimiser, whenever it answers, returns a unit minimiser of the function it was given (exact_optimiser). Equality of fitted values additionally assumes right matrix inverses and non-zero scales (as C38 and C106 do)."
  },
  {
   "property": "C177",
   "status": "proved",
   "theorems": [
    "C177_snipls",
    "C177_more_fit_better",
    "C177_residuals_shrink",
    "C177_ppdire",
    "C177_ppdire_fewer",
    "C177_sudire"
   ],
   "note": "snipls for any number system (Num instance, missing values included); ppdire and sudire over the reals. The residual statement is for snipls (scaled residuals for every centre, residuals in the units of y for mean centring). sprm is not nested: its case weights are computed from all components. The optimised sudire methods are not nested either."
  },
  {
   "property": "C178",
   "status": "proved",
   "theorems": [
    "C178_decomposition",
    "C178_exact",
    "C178_explained_variance"
   ],
   "note": "Any index and any optimiser, the grid included. The hypothesis that no score vector is zero is needed because the code divides by its squared length; C178_explained_variance derives it from positive entries of Maxobjf_."
  },
  {
   "property": "C179",
   "status": "proved",
   "theorems": [
    "C179_snipls_least_squares",
    "C179_snipls_scaled",
    "C179_ppdire_least_squares",
    "C179_same_fitted_values"
   ],
   "note": "Conditional on correct matrix inverses (inverse_ok, penrose), as in C38 and C106. ppdire without whitening and compression."
  },
  {
   "property": "C180",
   "status": "proved",
   "theorems": [
    "C180_none_refuted",
    "C180_unknown_names"
   ],
   "note": "Settled negatively: center='None' is a TypeError in gen_ss_pp for every data set (eval turns the text into the object None, which is then called), while the class returns the signs about the origin. For the other centres the two agree (C19)."
  },
  {
   "property": "C181",
   "status": "proved",
   "theorems": [
    "C181_first_sample",
    "C181_second_sample",
    "C181_vector_refuted"
   ],
   "note": "Settled negatively: true of x always and of y in the arithmetic modes and mdd; the general distance algorithm refuses every one-dimensional y (mean centring, no trimming, modes cov, corr, continuum, com)."
  },
  {
   "property": "C182",
   "status": "proved",
   "theorems": [
    "C182_two_colours",
    "C182_five_colours"
   ],
   "note": ""
  },
  {
   "property": "C183",
   "status": "proved",
   "theorems": [
    "C183_most_variance",
    "C183_low_rank"
   ],
   "note": "Ky Fan and Eckart-Young inequalities, relative to an optimiser that is exact whenever it answers and positive Maxobjf_, without whitening and compression."
  },
  {
   "property": "C184",
   "status": "proved",
   "theorems": [
    "C184_scaler",
    "C184_snipls",
    "C184_variance_iff",
    "C184_shape",
    "C184_dcov",
    "C184_trimmed_refuted"
   ],
   "note": "snipls relative to an inversion routine with inv(cM) = inv(M)/c. The claim is proved false for trimmed means (C184_trimmed_refuted) and, exactly, for the bias-corrected variance (C184_variance_iff)."
  },
  {
   "property": "C185",
   "status": "proved",
   "theorems": [
    "C185_slices",
    "C185_moments"
   ],
   "note": "A single response value, which numpy broadcasts in PHD, is not modelled."
  },
  {
   "property": "C186",
   "status": "proved",
   "theorems": [
    "C186_weights",
    "C186_coefficients"
   ],
   "note": "Partial least squares as least squares over Krylov spaces; eta = 0, all scores nonzero, complete data."
  },
  {
   "property": "C187",
   "status": "proved",
   "theorems": [
    "C187_products"
   ],
   "note": "For every eta. Complete data; with missing values nansums are used and the statement is not meant."
  },
  {
   "property": "C188",
   "status": "proved",
   "theorems": [
    "C188_weights",
    "C188_monotone_refuted"
   ],
   "note": "Range, exact ones and zeros, and monotonicity proved for every rounding (doubles by Flocq are an instance) except for Hampel pairs with one distance between the first and the second cut-off and the other between the second and the third. For those settled negatively in doubles (C188_monotone_refuted): neighbouring doubles on the two sides of the second cut-off where the larger distance has the larger weight. Rounded arithmetic as described in M_Float (no overflow)."
  },
  {
   "property": "C189",
   "status": "proved",
   "theorems": [
    "C189_order",
    "C189_middle",
    "C189_mean_refuted"
   ],
   "note": "Proved for median and mad (any rounding function), also that the median lies between the middle values. Settled negatively for the mean in doubles (C189_mean_refuted); C190_mean_refuted shows a mean above every value."
  },
  {
   "property": "C190",
   "status": "proved",
   "theorems": [
    "C190_constant",
    "C190_monotone",
    "C190_mean_refuted"
   ],
   "note": "Proved for median and mad under every rounding (overflow not represented). Settled negatively for mean and standard deviation in doubles: three cases with the value 0.1 are scaled to -1."
  },
  {
   "property": "C191",
   "status": "proved",
   "theorems": [
    "C191_SIR",
    "C191_PHD"
   ],
   "note": "Stated through the observable scores, not through eigenvalues; rests on the specification of numpy.linalg.eigh."
  },
  {
   "property": "C192",
   "status": "proved",
   "theorems": [
    "C192_complete",
    "C192_reconstructs"
   ],
   "note": "Rests on the specification of numpy.linalg.eigh (eigh_ok), like C75."
  },
  {
   "property": "C193",
   "status": "proved",
   "theorems": [
    "C193_refuted",
    "C193_one_block"
   ],
   "note": "Settled negatively for the first half: whenever 'OLS' succeeds, every unknown option, and 'robust'/'quantile' with a positional response, ends with UnboundLocalError after the directions are computed (C193_refuted). Without a response the option has no effect (C193_one_block)."
  },
  {
   "property": "C194",
   "status": "proved",
   "theorems": [
    "C194_rm",
    "C194_sprm"
   ],
   "note": "Every operation of the fit is rounded. Overflow and division by zero (inf and nan of IEEE arithmetic) are not represented in the rounded arithmetic; C39 and C47 cover inf and nan in exact arithmetic. sprm needs at least two cases and an SVD that returns as many rows as it is given."
  },
  {
   "property": "C195",
   "status": "proved",
   "theorems": [
    "C195_start",
    "C195_kept",
    "C195_used"
   ],
   "note": "The optimiser is an argument of the model; C195_used says that two optimisers that agree from the stored start give the same fit."
  },
  {
   "property": "C196",
   "status": "proved",
   "theorems": [
    "C196_rm",
    "C196_sprm",
    "C196_snipls_refuted"
   ],
   "note": "C196_rm and C196_sprm over the extended reals (NaN = missing), for all oracles; C196_snipls_refuted settles negatively that snipls.predict on the training data gives the fitted values when data are missing."
  },
  {
   "property": "C197",
   "status": "proved",
   "theorems": [
    "C197_rm"
   ],
   "note": "Over the reals, for all oracles. Where a divisor is zero (more than half of the scaled rows zero, all residuals zero) the code's floats give NaN or infinities, which this statement does not describe; C196 and C90 do."
  },
  {
   "property": "C198",
   "status": "proved",
   "theorems": [
    "C198_sprm"
   ],
   "note": "Over the reals, for all oracles; stated for the parameters after the fit (only columns, and scaleTau2 with a zero mad, are changed by it: C93). Zero divisors as in C197."
  },
  {
   "property": "C199",
   "status": "proved",
   "theorems": [
    "C199_rm",
    "C199_sprm"
   ],
   "note": "Excludes the Fair function, whose weights are below 1 for every case away from the centre. C199_rm, C199_sprm follow from the weight sequences of C197 and C198 by induction over the passes; two cases with cut-offs of at least two are shown to be never outlying."
  },
  {
   "property": "C200",
   "status": "proved",
   "theorems": [
    "C200_exact_fit_refuted"
   ],
   "note": "Settled negatively: C200_exact_fit_refuted, over the extended reals with missing values. C200_case: y = x with two cases raises LinAlgError."
  },
  {
   "property": "C201",
   "status": "proved",
   "theorems": [
    "C201_coinciding_refuted"
   ],
   "note": "Settled negatively: C201_coinciding_refuted, over the extended reals with missing values. C201_case: the binary variable 0, 0, 1 with median and mad."
  },
  {
   "property": "C202",
   "status": "proved",
   "theorems": [
    "C202_coinciding_refuted"
   ],
   "note": "Settled negatively: C202_coinciding_refuted, over the extended reals with missing values, by induction on the passes. C202_case: the binary variable 0, 0, 1, neither centred nor scaled, for which the fit completes with three missing weights."
  },
  {
   "property": "C203",
   "status": "proved",
   "theorems": [
    "C203_rm"
   ],
   "note": "C203_rm, by induction on the passes. Tightens C197, which did not say when the passes end."
  },
  {
   "property": "C204",
   "status": "proved",
   "theorems": [
    "C204_sprm"
   ],
   "note": "C204_sprm, by induction on the passes. Tightens C198, which did not say when the passes end."
  },
  {
   "property": "C205",
   "status": "proved",
   "theorems": [
    "C205_rm_refuted",
    "C205_rm_never",
    "C205_sprm_never"
   ],
   "note": "Settled negatively: C205_rm_refuted (the error, no problem solved), C205_rm_never and C205_sprm_never (in any arithmetic, including floating point and missing values)."
  },
  {
   "property": "C206",
   "status": "proved",
   "theorems": [
    "C206_grid",
    "C206_near_refuted",
    "C206_fit"
   ],
   "note": "C206_grid (the passes and the stopping rule of a search), C206_fit (the same for every component of a fit, with the user's ndir and maxiter); C206_near_refuted: near -1000 nothing is refined and the reported maximum is -1000."
  }
 ]
}