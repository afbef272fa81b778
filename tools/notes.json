{
 "C02": {
  "note": "Settled: exact condition in C02_roundtrip_iff; the unconditional claim is false (C02_roundtrip_refuted)."
 },
 "C05": {
  "note": "mean, trimmed mean, median; std, trimmed std, MAD for any column of a matrix; tau scale of a single column with non-zero MAD (C05_tau_affine)."
 },
 "C07": {
  "note": ""
 },
 "C08": {
  "note": "Holds for histories in which every fit returns normally; a fit that raises may leave centre and scale of different data (C08_failed_fit_refuted)."
 },
 "C10": {
  "note": "Settled negatively: exact behaviour in C10_single_row, witness in C10_single_row_refuted."
 },
 "C09": {
  "note": "mean/median centre with std/mad scale, trimming 0, data over reals with NaN."
 },
 "C15": {
  "note": "Monotonicity holds without ties at the cut-off (C15_monotone) and fails with ties (C15_monotone_refuted)."
 },
 "C16": {
  "note": "Settled negatively for p >= 2 (C16_columnwise_refuted); for one column it is the tau scale."
 },
 "C18": {
  "note": "Settled negatively: the fitted location and scale are ignored."
 },
 "C23": {
  "note": "Settled negatively: exact behaviour in C23_behaviour, counterexample in C23_covariance_refuted."
 },
 "C24": {
  "note": "Settled negatively: the argument of transform is ignored."
 },
 "C26": {
  "note": "Settled: textbook weights for cut-offs >= 1 and non-negative input (C26_textbook); false otherwise (C26_small_cutoff, C26_negative_input, C26_textbook_refuted)."
 },
 "C30": {
  "note": "Settled: nandot and the one-column nanmatdot agree; nanmatdot with two or more columns returns the transpose (C30_nanmatdot, C30_product_refuted)."
 },
 "C84": {
  "note": "Settled negatively for Huber and Hampel (C84_symmetric_refuted, exact weights in C84_onesided); holds for Fair."
 },
 "C86": {
  "note": "Settled negatively: exact set of annotations in C86_labels and C86_shifted."
 },
 "C87": {
  "note": "Settled negatively by a counterexample; C87_bars and C87_ranks say what is drawn: the smallest and largest values, labelled with the ranks of the first and last variables."
 },
 "C36": {
  "note": "Settled: holds when the retained set does not grow after the first component (C36_transform_train); false in general (C36_transform_train_refuted)."
 },
 "C89": {
  "note": "Settled negatively: exact condition in C89_weight_sign_exact, witness in C89_weight_sign_refuted."
 },
 "C39": {
  "note": "Proved over the reals extended with infinities and NaN, so degenerate data (zero medians) are covered: weights are then NaN or in range."
 },
 "C40": {
  "note": "Polymorphic in the number type; the loop result does not depend on the recursion bound used in the model."
 },
 "C42": {
  "note": "Settled negatively for scale='None' with centre other than 'mean' (C42_scale_none_refuted); all other combinations of mean/median/None with std/mad/None succeed (C42_supported)."
 },
 "C44": {
  "note": "Settled: true for the mean; for the median the value is the median of all n^2 differences (C44_intercept_scaled_pairs, C44_intercept_scaled_refuted)."
 },
 "C90": {
  "note": "Settled negatively."
 },
 "C45": {
  "note": "Exact characterisation for centre mean/median/None with scale std/mad/None; the additional rejection (fewer variables of non-zero scale than components) is part of the statement."
 },
 "C46": {
  "note": "Also: fitting on the variables of non-zero scale alone gives the same estimates (C46_same_fit)."
 },
 "C47": {
  "note": "Proved over the reals extended with infinities and NaN; requires finite cut-offs."
 },
 "C48": {
  "note": "Settled negatively: witness for batch dependence, and for every model with two or more components a single new case gets that many weights."
 },
 "C49": {
  "note": "Settled negatively for start_X_init != 'pcapp' with start_cutoff_mode='specific' (never succeeds, any data and number type); all other combinations succeed or report an invalid parameter / a linear algebra failure."
 },
 "C93": {
  "note": "Settled negatively with a witness; the parameters that can change are characterised exactly."
 },
 "C94": {
  "note": "Settled negatively with a witness."
 },
 "C95": {
  "note": "Proved for names; settled negatively for positions (C95_positions_refuted)."
 },
 "C96": {
  "note": "'normal' proved equal to R2; 'weighted' settled negatively for all validation sets of another size."
 },
 "C52": {
  "note": "Proved for the default setting (mean, no trimming, with and without bias correction). Settled negatively for trimming > 0 (values above 1) and for center='median' (unbounded and dependent on the unit of x)."
 },
 "C54": {
  "note": "The square-root relation holds without bias correction; with bias correction it fails for every non-constant sample, and for a constant sample std is NaN while var is 0 (settled negatively)."
 },
 "C55": {
  "note": "est and mode are never changed and the value equals that of a new object; settled negatively for center (overwritten by 'mean' in six modes) and for est sign/entropy (stale or missing result)."
 },
 "C58": {
  "note": "Settled negatively: exact behaviour is powers of two of the centred distances, in place; correct for order 2 and only for exponents at most two."
 },
 "C60": {
  "note": "Settled negatively: ValueError for every n >= 2."
 },
 "C61": {
  "note": "Exact set of accepted options; 'mdc' is always rejected."
 },
 "C97": {
  "note": "Settled negatively for bias-corrected co-kurtosis, proved otherwise."
 },
 "C99": {
  "note": "Hypothesis: dcor.distance_covariance_sqr returns the V-statistic (external package). C99_fast_correlation covers the correlation."
 },
 "C80": {
  "note": "Bounds table, equivalence of solver feasibility with the user's constraints after any history of evaluations, ValueError for unknown types and TypeError for nested sequences. 'ineq' means 0 <= v <= 1e19, the solver's infinity."
 },
 "C81": {
  "note": "Idempotence, preservation and defaults proved for every dictionary. Last clause settled negatively: the caller's dictionary is modified and a second call passes the first call's tolerance (C81_sticky, C81_unchanged_refuted)."
 },
 "C82": {
  "note": "Exactness, shape, and consistency as the step goes to 0 for every differentiable function, with any cache left by earlier evaluations with the same arguments. Forward differences refuted for quadratics."
 },
 "C83": {
  "note": "Settled: proved for every history with the same arguments (and, for jac=True, when arrays already passed are not rewritten); refuted for differing arguments and for in-place updates."
 },
 "C62": {
  "note": "options='all' and option lists that are prefixes of 1,2,3: every (degree, option) pair has its own weight (C62_all, C62_prefix; C62_dicomo instantiates the index with arithmetic co-moments). Settled negatively for other option lists: C62_options_refuted. C62_option_zero_refuted: option 0 writes the last slot."
 },
 "C63": {
  "note": "Constructor and fit characterised exactly; a degree above 4 set later by set_params is not rejected as such but raises IndexError (C63_set_params_refuted)."
 },
 "C103": {
  "note": "Positive part C103_repeatable; settled negatively for center='median' with scaling (C103_median_refuted)."
 },
 "C64": {
  "note": "Both grids characterised exactly (iff): the first maximiser over the grid, with unit norm resp. the normalisation that keeps a unit weight vector."
 },
 "C65": {
  "note": "First sweep, every refinement sweep, any number of iterations, and the search as a whole. ndir = 1 mod 4 is excluded: there the second grid contains a degenerate direction (C65_degenerate_refuted). The code does not sort the columns (the computed order is not used)."
 },
 "C66": {
  "note": "For every optimiser, projection index, centring, scaling, compression and whitening."
 },
 "C67": {
  "note": "pinv only assumed to satisfy the first Penrose equation. With center_data=False and p >= 2 the result is an array of n copies of the scores (C67_uncentred_refuted)."
 },
 "C68": {
  "note": "For every inner regression, not only OLS; also centring of the residuals, and AttributeError without response."
 },
 "C69": {
  "note": "Settled negatively: C69_two_columns_refuted, C69_error. C69_three_columns shows a grid fit that returns."
 },
 "C70": {
  "note": "Settled negatively: a whitening fit that returns has zero components."
 },
 "C71": {
  "note": "Settled negatively: C71_grid_refuted, C71_ipopt_refuted; positive part C71_own_options (instances with a dictionary of their own)."
 },
 "C105": {
  "note": "C105_first and C105_odd positive; settled negatively for even ndir (C105_even_refuted)."
 },
 "C106": {
  "note": "Scales assumed non-zero (coef_ divides by them)."
 },
 "C107": {
  "note": "Settled negatively."
 },
 "C73": {
  "note": "Over the reals, any length; the sorted version and the cut points are spelled out in S_Sudire. Fewer than two slices and empty responses fail."
 },
 "C74": {
  "note": "Label vectors over the reals. np.var rounding for constant labels is not modelled."
 },
 "C75": {
  "note": "Relative to a correct eigh routine (eigh_ok)."
 },
 "C76": {
  "note": "Relative to a correct inverse (inverse_ok) and eigh, and to array shapes of svd and inverse square root."
 },
 "C77": {
  "note": "C77_training and C77_regression; OLS is a routine argument."
 },
 "C78": {
  "note": "Settled negatively: averages are pooled over all smaller dimensions (C78_pooled), so p-1 is never returned unless its average vanishes (C78_last)."
 },
 "C79": {
  "note": "All entries, not only the upper triangle."
 },
 "C111": {
  "note": "Settled negatively: a success implies six distinct responses."
 },
 "C112": {
  "note": "Relative to isqrt_ok, eigh_ok, svd_shapes, and feasibility of the optimiser's solution."
 },
 "C113": {
  "note": "Settled negatively."
 },
 "C114": {
  "note": "Settled: exact characterisation of the failing batches; otherwise the affine formula."
 },
 "C115": {
  "note": "Settled negatively."
 },
 "C116": {
  "note": "Settled negatively for the optimised methods without scaling and whitening."
 },
 "C117": {
  "note": "Settled negatively for both."
 },
 "C118": {
  "note": ""
 },
 "C119": {
  "note": "Trimming 0, no compression."
 },
 "C120": {
  "note": ""
 },
 "C72": {
  "note": "Set/get and nested names proved; atomicity settled negatively (C72_unknown_atomic_refuted)."
 },
 "C121": {
  "note": "Settled negatively for parameters that are classes (C121_deep_refuted); proved otherwise (C121_deep)."
 },
 "C122": {
  "note": "Proved, with capi.centring as the exception the theorem states."
 },
 "C123": {
  "note": "C123_rebuild is the positive part; after set_params settled negatively (C123_unchecked_refuted)."
 },
 "C124": {
  "note": "Settled negatively."
 },
 "C125": {
  "note": "Settled negatively for the agreement of the two algorithms (C125_algorithms_agree_refuted, C125_mdd_nonnegative_refuted); the positive parts are proved. Hypothesis for the default algorithm: dcor.u_distance_covariance_sqr returns the U-statistic (external package)."
 },
 "C127": {
  "note": "trimvar is not called anywhere in the package; it is covered by C127_trimvar."
 },
 "C128": {
  "note": "Settled negatively (C128_variance_scaling_refuted) with a full characterisation."
 },
 "C06": {
  "note": "C06_documented extends the result to kstepLTS, tau2 and (for an optimiser that does not see the order) the spatial median, and to the transformed data."
 },
 "C130": {
  "note": "Assumes the least-squares routine itself does not depend on the order of the rows."
 },
 "C131": {
  "note": "With the pcapp start, assumes the leading left singular vectors are reordered with the rows (LAPACK fixes them up to sign only)."
 },
 "C132": {
  "note": "For the fast algorithm, assumes the distance covariances of the dcor package do not depend on the order of the cases."
 },
 "C133": {
  "note": "Factors are positive; the response and every variable must have spread as measured by the scale option. C133_new_data covers predict and transform."
 },
 "C134": {
  "note": "As C133. No assumption on the least-squares routine is needed, since it is called with identical arguments."
 },
 "C135": {
  "note": "C135_sprm and C135_new_data are the positive part; C135_units_refuted settles the rest negatively: variables with a scale below the absolute threshold 1e-5 are dropped (sprm.py:229-251), so that every successful fit fails in large enough units."
 },
 "C136": {
  "note": "Settled negatively for fewer slices than categories. The eigenvalue routine is assumed to return a decomposition, and the same one for the same matrix."
 },
 "C137": {
  "note": "Assumes that least squares and, when compression or whitening is asked for, the singular value decomposition do not depend on the order of the cases."
 },
 "C138": {
  "note": "Settled negatively."
 },
 "C139": {
  "note": "Model: the marks handed to matplotlib. Cases with a NaN weight are missing from the plot (C139_training shows exactly which cases are drawn); the last name is never drawn (C86)."
 },
 "C140": {
  "note": "Settled negatively for the default arguments: C140_default_refuted."
 },
 "C141": {
  "note": "Bars proved; names of training cases are shifted by one bar (see the shift in C141_bars), and C141_mode_refuted settles the documented ValueError negatively."
 },
 "C142": {
  "note": "Settled negatively."
 },
 "C143": {
  "note": "Settled negatively."
 },
 "C144": {
  "note": "Positive for plot_yyp and, for sudire, plot_projections; C144_uncentred_refuted and C144_one_new_case_refuted settle ppdire without centring negatively."
 },
 "C145": {
  "note": "C145_first is the positive part, C145_later_refuted the negative one."
 },
 "C146": {
  "note": "C146_bars is the positive part; list and tuple names and the numbers are settled negatively."
 },
 "C147": {
  "note": "The optimiser is an arbitrary function; that it returns a minimiser over the unit vectors is a hypothesis (unit_minimiser), asked for only in the last clause. square_pi plays no role for these optimisers."
 },
 "C148": {
  "note": "Trimming zero. Without centring there is no scaling either (scaling_of); the property is otherwise positive."
 },
 "C149": {
  "note": "Settled negatively: C149_centre_refuted characterises what the constructor accepts, C149_set_later_refuted what fit accepts."
 },
 "C150": {
  "note": "C150_ndir_default is the positive part; C150_maxiter_refuted settles maxiter negatively."
 },
 "C151": {
  "note": "C151_overruled is the positive part; C151_params_refuted the negative one. Fits with whitening succeed for a single column only (C70)."
 },
 "C152": {
  "note": "C152_order compares the two runs of the whole fit (errors included); C152_dicomo and C152_capi show that the package's indices qualify. C152_start_refuted: the optimisers other than the grid start at the first case, E[0,:]."
 },
 "C153": {
  "note": "Attributes and errors included; C153_dicomo instantiates the measure with dicomo."
 },
 "C154": {
  "note": "Exact real arithmetic with x/0 = 0; a vanishing score (0/0 in the code) is outside the claim. C154_variance_answers discharges the hypothesis on the index for dicomo in mode var."
 },
 "C155": {
  "note": "Proved for every index, optimiser and pseudo-inverse (oracles). intercept_scaled_ is claimed for the mean only: with the median it is the median of ys - Xs coef_, which combines scaled data with unscaled coefficients and is not invariant."
 },
 "C156": {
  "note": "Settled negatively: C156_twice shows that for every homogeneous quantile regression the coefficients are multiplied by c^2 (the response is regressed unscaled and its scale is multiplied in again); C156_quantile_refuted gives a fit."
 },
 "C157": {
  "note": "Settled negatively, with the exact boundary. Arrays of integers give the result of floats for every scaler without scaleTau2 and for ppdire with center_data=True or whiten_data=True (C157_scaler, C157_ppdire). scaleTau2 updates a copy of the data in place and raises TypeError for every array of integers (C157_scaleTau2_refuted); ppdire without centring deflates a copy of the data in place and raises TypeError for every array of integers it could otherwise fit (C157_ppdire_refuted). C157_floats links the model with number types (M_Dtype) to the one used elsewhere."
 },
 "C158": {
  "note": "Settled negatively: the weights are written into the array of distances, so that for integers every weight beyond the cut-off is truncated to 0 (C158_integers_refuted, for cut-offs of at least 1). C158_floats links the model with number types to the one of C25-C27. The package itself calls the functions with floats."
 },
 "C159": {
  "note": "C159_directions gives directions and scores, C159_predictions fitted values and predictions. A tie of eigenvalues at the cut is excluded: there the directions are not determined by the data."
 },
 "C160": {
  "note": "Settled negatively for capi: C160_centring_refuted (centring is not stored, get_params returns None). C160_defaults proves it for ppdire and sudire."
 },
 "C161": {
  "note": "C161_centre; the names of the methods are covered by C122 and C123."
 },
 "C162": {
  "note": "Over the reals: the floating-point sums of reordered columns may differ in the last bits. Holds for the exact selection rule of the code, including ties."
 },
 "C163": {
  "note": "Over the reals. The least-squares routine is an argument; the hypothesis lstsq_relabel_free says that it follows reordering and reflection of the columns (true of the minimum-norm solution); C163_case gives one."
 },
 "C164": {
  "note": "Over the reals, with columns=False. With pcapp start the SVD routine is an argument assumed to return the same left vectors up to sign (C164_svd_case gives one)."
 },
 "C165": {
  "note": "Settled negatively (C165_refuted, with the exact slope in C165_slope); finding in DESIGN.md."
 },
 "C166": {
  "note": "Exactness of the spatial-median optimiser is a hypothesis of C166_l1median; C166_median_refuted settles the coordinate-wise median negatively."
 },
 "C167": {
  "note": "C167_scaler_refuted: the scaler's fixed tolerance breaks the property; finding in DESIGN.md."
 },
 "C169": {
  "note": "copy=False is settled as stated (AttributeError). With compression and more variables than cases the stored number of variables can be that of the compressed data, see C171."
 },
 "C170": {
  "note": "The hypotheses are those of C154_completes with at least one component."
 },
 "C171": {
  "note": "sudire as claimed: same directions, scores, projection, regression and fitted values, and with center_data=True the same object; without centring the stored location and scale have the length of the compressed data. Settled negatively for ppdire: the number of variables stays that of the compressed data and no fit of one or more components succeeds (C171_ppdire_refuted)."
 },
 "C172": {
  "note": "Settled negatively: a one-column frame becomes a row (convert_y_input transposes). sudire.fit refuses it with 'X and y number of rows must agree'. ppdire.fit stores an intercept of n values, so that predict fails for any other number of new cases than n and returns the observed responses plus the centred predictor part on the training data (mean centring without trimming, no compression, OLS or robust inner regression). A Series is fine. snipls, rm and sprm do not use convert_y_input."
 },
 "C173": {
  "note": "With trimming 0, centring by the mean, and neither constraints nor arguments supplied by the user; the solver is an argument of the model, assumed to return constrained minima in the dimension of its starting value."
 },
 "C175": {
  "note": "Proved for the non-grid optimisers under the hypothesis that the external optimiser, whenever it answers, returns a unit minimiser of the function it was given (exact_optimiser); the library itself relies on SciPy for that. Components of zero variance are excluded."
 },
 "C176": {
  "note": "Proved for the non-grid optimisers under the hypothesis that the external optimiser, whenever it answers, returns a unit minimiser of the function it was given (exact_optimiser). Equality of fitted values additionally assumes right matrix inverses and non-zero scales (as C38 and C106 do)."
 },
 "C177": {
  "note": "snipls for any number system (Num instance, missing values included); ppdire and sudire over the reals. The residual statement is for snipls (scaled residuals for every centre, residuals in the units of y for mean centring). sprm is not nested: its case weights are computed from all components. The optimised sudire methods are not nested either."
 },
 "C178": {
  "note": "Any index and any optimiser, the grid included. The hypothesis that no score vector is zero is needed because the code divides by its squared length; C178_explained_variance derives it from positive entries of Maxobjf_."
 },
 "C179": {
  "note": "Conditional on correct matrix inverses (inverse_ok, penrose), as in C38 and C106. ppdire without whitening and compression."
 },
 "C180": {
  "note": "Settled negatively: center='None' is a TypeError in gen_ss_pp for every data set (eval turns the text into the object None, which is then called), while the class returns the signs about the origin. For the other centres the two agree (C19)."
 },
 "C181": {
  "note": "Settled negatively: true of x always and of y in the arithmetic modes and mdd; the general distance algorithm refuses every one-dimensional y (mean centring, no trimming, modes cov, corr, continuum, com)."
 },
 "C183": {
  "note": "Ky Fan and Eckart-Young inequalities, relative to an optimiser that is exact whenever it answers and positive Maxobjf_, without whitening and compression."
 },
 "C184": {
  "note": "snipls relative to an inversion routine with inv(cM) = inv(M)/c. The claim is proved false for trimmed means (C184_trimmed_refuted) and, exactly, for the bias-corrected variance (C184_variance_iff)."
 },
 "C185": {
  "note": "A single response value, which numpy broadcasts in PHD, is not modelled."
 },
 "C186": {
  "note": "Partial least squares as least squares over Krylov spaces; eta = 0, all scores nonzero, complete data."
 },
 "C187": {
  "note": "For every eta. Complete data; with missing values nansums are used and the statement is not meant."
 },
 "C188": {
  "note": "Range, exact ones and zeros, and monotonicity proved for every rounding (doubles by Flocq are an instance) except for Hampel pairs with one distance between the first and the second cut-off and the other between the second and the third. For those settled negatively in doubles (C188_monotone_refuted): neighbouring doubles on the two sides of the second cut-off where the larger distance has the larger weight. Rounded arithmetic as described in M_Float (no overflow)."
 },
 "C189": {
  "note": "Proved for median and mad (any rounding function), also that the median lies between the middle values. Settled negatively for the mean in doubles (C189_mean_refuted); C190_mean_refuted shows a mean above every value."
 },
 "C190": {
  "note": "Proved for median and mad under every rounding (overflow not represented). Settled negatively for mean and standard deviation in doubles: three cases with the value 0.1 are scaled to -1."
 },
 "C191": {
  "note": "Stated through the observable scores, not through eigenvalues; rests on the specification of numpy.linalg.eigh."
 },
 "C192": {
  "note": "Rests on the specification of numpy.linalg.eigh (eigh_ok), like C75."
 },
 "C193": {
  "note": "Settled negatively for the first half: whenever 'OLS' succeeds, every unknown option, and 'robust'/'quantile' with a positional response, ends with UnboundLocalError after the directions are computed (C193_refuted). Without a response the option has no effect (C193_one_block)."
 },
 "C194": {
  "note": "Every operation of the fit is rounded. Overflow and division by zero (inf and nan of IEEE arithmetic) are not represented in the rounded arithmetic; C39 and C47 cover inf and nan in exact arithmetic. sprm needs at least two cases and an SVD that returns as many rows as it is given."
 },
 "C195": {
  "note": "The optimiser is an argument of the model; C195_used says that two optimisers that agree from the stored start give the same fit."
 },
 "C196": {
  "note": "C196_rm and C196_sprm over the extended reals (NaN = missing), for all oracles; C196_snipls_refuted settles negatively that snipls.predict on the training data gives the fitted values when data are missing."
 },
 "C197": {
  "note": "Over the reals, for all oracles. Where a divisor is zero (more than half of the scaled rows zero, all residuals zero) the code's floats give NaN or infinities, which this statement does not describe; C196 and C90 do."
 },
 "C198": {
  "note": "Over the reals, for all oracles; stated for the parameters after the fit (only columns, and scaleTau2 with a zero mad, are changed by it: C93). Zero divisors as in C197."
 },
 "C199": {
  "note": "Excludes the Fair function, whose weights are below 1 for every case away from the centre. C199_rm, C199_sprm follow from the weight sequences of C197 and C198 by induction over the passes; two cases with cut-offs of at least two are shown to be never outlying."
 },
 "C200": {
  "note": "Settled negatively: C200_exact_fit_refuted, over the extended reals with missing values. C200_case: y = x with two cases raises LinAlgError."
 },
 "C201": {
  "note": "Settled negatively: C201_coinciding_refuted, over the extended reals with missing values. C201_case: the binary variable 0, 0, 1 with median and mad."
 },
 "C202": {
  "note": "Settled negatively: C202_coinciding_refuted, over the extended reals with missing values, by induction on the passes. C202_case: the binary variable 0, 0, 1, neither centred nor scaled, for which the fit completes with three missing weights."
 },
 "C203": {
  "note": "C203_rm, by induction on the passes. Tightens C197, which did not say when the passes end."
 },
 "C204": {
  "note": "C204_sprm, by induction on the passes. Tightens C198, which did not say when the passes end."
 },
 "C205": {
  "note": "Settled negatively: C205_rm_refuted (the error, no problem solved), C205_rm_never and C205_sprm_never (in any arithmetic, including floating point and missing values)."
 },
 "C206": {
  "note": "C206_grid (the passes and the stopping rule of a search), C206_fit (the same for every component of a fit, with the user's ndir and maxiter); C206_near_refuted: near -1000 nothing is refined and the reported maximum is -1000."
 }
}