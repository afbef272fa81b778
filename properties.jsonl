{"id": "C01", "title": "transform standardises every cell with the fitted column centre and scale", "statement": "After VersatileScaler.fit, transform(X) (and predict(X)) of a matrix with at least two rows returns a matrix of the same shape whose cell (i,j) is (X[i,j]-center_[j])/scale_[j], where a scale of exactly zero counts as one; fit_transform(X) is fit followed by transform.", "quantifier": "all centre/scale options, all real matrices with >= 2 rows, all fitted states, all cells", "why_tests_cant": "A test checks a handful of matrices; the claim is about every cell of every matrix and every fitted state.", "anchors": ["src/direpack/preprocessing/robcent.py:VersatileScaler.transform", "src/direpack/preprocessing/robcent.py:VersatileScaler.predict", "src/direpack/preprocessing/robcent.py:VersatileScaler.fit_transform", "src/direpack/preprocessing/_preproc_utilities.py:scale_data", "src/direpack/preprocessing/_preproc_utilities.py:_handle_zeros_in_scale"]}
{"id": "C02", "title": "inverse_transform undoes transform", "statement": "For a fitted VersatileScaler and any matrix X with at least two rows, inverse_transform(transform(X)) equals X. (Settled: true exactly when no fitted scale is zero or the zero-scale columns equal their centre; false otherwise, already for fit_transform on data with a column of zero MAD that is not constant.)", "quantifier": "all fitted states and all matrices", "why_tests_cant": "The failure needs a column with zero scale but non-constant values; the positive part is a universal algebraic identity.", "anchors": ["src/direpack/preprocessing/robcent.py:VersatileScaler.inverse_transform", "src/direpack/preprocessing/robcent.py:VersatileScaler.transform", "src/direpack/preprocessing/_preproc_utilities.py:_handle_zeros_in_scale"]}
{"id": "C03", "title": "mean/std standardisation gives zero column means and unit column variances", "statement": "fit_transform with center='mean', scale='std', trimming=0 returns columns whose mean is 0 and whose (population) variance is 1 if the column was not constant and 0 if it was.", "quantifier": "all real matrices with >= 2 rows", "why_tests_cant": "Universal over the data.", "anchors": ["src/direpack/preprocessing/_preproc_utilities.py:mean", "src/direpack/preprocessing/_preproc_utilities.py:std", "src/direpack/preprocessing/_preproc_utilities.py:scale_data", "src/direpack/preprocessing/robcent.py:VersatileScaler.fit_transform"]}
{"id": "C04", "title": "median/MAD standardisation gives zero column medians and unit column MADs", "statement": "fit_transform with center='median', scale='mad' returns columns whose median is 0 and whose MAD (with the same consistency constant) is 1 when the fitted MAD was not zero.", "quantifier": "all real matrices with >= 2 rows, odd and even numbers of rows", "why_tests_cant": "Universal over the data, including all tie patterns.", "anchors": ["src/direpack/preprocessing/_preproc_utilities.py:median", "src/direpack/preprocessing/_preproc_utilities.py:mad", "src/direpack/preprocessing/robcent.py:VersatileScaler.fit_transform"]}
{"id": "C05", "title": "location and scale estimates are affine equivariant", "statement": "If a column x is replaced by a*x+b then its fitted mean, trimmed mean and median become a*m+b and its fitted std, trimmed std and MAD become |a|*s; other columns are unaffected. For scaleTau2 of a single column the same holds for the scale when the intermediate weights do not vanish.", "quantifier": "all columns, all real a (non-zero) and b, every admissible trimming fraction", "why_tests_cant": "Universal over data and transformations.", "anchors": ["src/direpack/preprocessing/_preproc_utilities.py:mean", "src/direpack/preprocessing/_preproc_utilities.py:std", "src/direpack/preprocessing/_preproc_utilities.py:median", "src/direpack/preprocessing/_preproc_utilities.py:mad", "src/direpack/preprocessing/_preproc_utilities.py:scaleTau2"]}
{"id": "C06", "title": "column estimates ignore the order of the cases", "statement": "Permuting the rows of X does not change center_ or scale_ fitted with mean, std (trimmed or not), median or mad.", "quantifier": "all matrices, all permutations of the rows", "why_tests_cant": "n! permutations per data set.", "anchors": ["src/direpack/preprocessing/_preproc_utilities.py:mean", "src/direpack/preprocessing/_preproc_utilities.py:std", "src/direpack/preprocessing/_preproc_utilities.py:median", "src/direpack/preprocessing/_preproc_utilities.py:mad"]}
{"id": "C07", "title": "trimming fractions outside the supported range are rejected, never silently used", "statement": "VersatileScaler.fit raises ValueError for every trimming fraction below 0 or above 0.99. Within [0,0.99], a fraction t with floor(t*n) > n - floor(t*n) raises ValueError with the trimmed mean, so a returned trimmed mean is always an average of the n-2*floor(t*n) central order statistics.", "quantifier": "all trimming fractions and sample sizes", "why_tests_cant": "Universal over reals t and sizes n.", "anchors": ["src/direpack/preprocessing/_preproc_utilities.py:_check_trimming", "src/direpack/preprocessing/_preproc_utilities.py:mean", "src/direpack/preprocessing/robcent.py:VersatileScaler.fit"]}
{"id": "C08", "title": "a scaler's fitted state depends only on its parameters and the last fitted data", "statement": "For every sequence of fit/transform/predict/fit_transform/inverse_transform calls: center_ equals col_loc_ and scale_ equals col_sca_, both are what a fresh scaler fitted on the data of the last successful fit would hold, transform/predict/inverse_transform never change them, and transform/inverse_transform before any fit raise.", "quantifier": "all finite call histories", "why_tests_cant": "Histories are unbounded.", "anchors": ["src/direpack/preprocessing/robcent.py:VersatileScaler"]}
{"id": "C09", "title": "missing values are skipped column by column", "statement": "If X contains NaN, the untrimmed mean, std and median of a column equal the same statistic of that column's non-missing entries, and columns without NaN get the same value as if no NaN were present anywhere.", "quantifier": "all matrices over reals-with-NaN in which every column has a non-missing entry", "why_tests_cant": "Universal over missingness patterns (2^(n*p)).", "anchors": ["src/direpack/preprocessing/_preproc_utilities.py:mean", "src/direpack/preprocessing/_preproc_utilities.py:std", "src/direpack/preprocessing/_preproc_utilities.py:median", "src/direpack/preprocessing/_preproc_utilities.py:mad"]}
{"id": "C10", "title": "a single new observation is standardised column by column", "statement": "transform/predict of a 1 x p row (p >= 2) returns the row standardised with the p fitted centres and scales. (Settled negatively: the row is turned into a p x 1 column and every entry is standardised with the first column's centre and scale.)", "quantifier": "all fitted scalers with p >= 2 columns and all single rows", "why_tests_cant": "Tests only use multi-row matrices.", "anchors": ["src/direpack/utils/utils.py:_check_input", "src/direpack/preprocessing/robcent.py:VersatileScaler.transform", "src/direpack/preprocessing/robcent.py:VersatileScaler.predict"]}
{"id": "C11", "title": "the column median cannot be carried away by fewer than half of the cases", "statement": "If fewer than half of the entries of a column are replaced by arbitrary values, the fitted median stays between the smallest and the largest of the untouched entries.", "quantifier": "all columns, all replacement sets of size k with 2k < n, all replacement values", "why_tests_cant": "Contaminating values are unbounded.", "anchors": ["src/direpack/preprocessing/_preproc_utilities.py:median"]}
{"id": "C12", "title": "the column MAD neither explodes nor is negative", "statement": "mad is never negative, is zero iff strictly more than half of the entries coincide with the median, and under contamination of fewer than half of the entries stays at most (range of the untouched entries)/c.", "quantifier": "all columns and contaminations", "why_tests_cant": "Contaminating values are unbounded.", "anchors": ["src/direpack/preprocessing/_preproc_utilities.py:mad"]}
{"id": "C13", "title": "the trimmed mean stays within the bulk of the data", "statement": "A trimmed mean with fraction t of n values lies between the (g+1)-th smallest and (g+1)-th largest value, g = floor(t*n); replacing at most g values arbitrarily keeps it within the range of the untouched values.", "quantifier": "all samples, fractions and contaminations of size <= g", "why_tests_cant": "Contaminating values are unbounded.", "anchors": ["src/direpack/preprocessing/_preproc_utilities.py:mean"]}
{"id": "C14", "title": "the spatial-median gradient is a valid subgradient everywhere", "statement": "The objective handed to the optimiser for the spatial median is convex and the Jacobian handed to it is a subgradient at every point, including at data points; hence a point where the Jacobian vanishes is a global minimiser of the sum of Euclidean distances, and it is the only one unless all cases lie on one line.", "quantifier": "all data matrices and all pairs of points", "why_tests_cant": "Statement over a continuum of points.", "anchors": ["src/direpack/preprocessing/_preproc_utilities.py:_l1m_objective", "src/direpack/preprocessing/_preproc_utilities.py:_l1m_jacobian"]}
{"id": "C15", "title": "kstepLTS iterations are concentration steps", "statement": "Starting from any initial location, each kstepLTS iteration averages a subset of at least floor((n+1)/2) cases closest to the current location, never increases the sum of the floor((n+1)/2) smallest squared distances, and at most maxit iterations are made. (Monotonicity settled: true when no ties at the cut-off distance enlarge the subset, false otherwise, even when started in an exact spatial median.)", "quantifier": "all data, starting values, maxit and tol", "why_tests_cant": "Unbounded numbers of iterations and data.", "anchors": ["src/direpack/preprocessing/_preproc_utilities.py:kstepLTS"]}
{"id": "C16", "title": "scaleTau2 scales each column on its own", "statement": "The scale scaleTau2 returns for a column depends on that column only. (Settled negatively for p >= 2: the weighted mean, the rho truncation and the final sum pool all columns; for p = 1 it is the textbook tau scale.)", "quantifier": "all matrices", "why_tests_cant": "A cross-column dependency needs an adversarial pair of matrices.", "anchors": ["src/direpack/preprocessing/_preproc_utilities.py:scaleTau2"]}
{"id": "C17", "title": "wrapping is bounded, odd and redescending", "statement": "The wrapped value of a standardised observation z is z if |z| < 1.5, 0 if |z| >= 4, has the sign of z and absolute value at most 1.540793 in between, and wrap(-z) = -wrap(z).", "quantifier": "all real z, all columns", "why_tests_cant": "Universal over reals.", "anchors": ["src/direpack/preprocessing/_preproc_utilities.py:wrap_univ"]}
{"id": "C18", "title": "Wrapper.transform/predict wrap new data with the fitted location and scale", "statement": "After Wrapper.fit(X), predict(Xn) and transform(Xn) use the location and scale estimated from X. (Settled negatively: location and scale are re-estimated from Xn; the fitted values are ignored.)", "quantifier": "all fitted wrappers and new data", "why_tests_cant": "Requires comparing two different fitted states on the same new data.", "anchors": ["src/direpack/preprocessing/_preproc_utilities.py:wrap", "src/direpack/preprocessing/_preproc_utilities.py:wrap_univ", "src/direpack/preprocessing/robcent.py:Wrapper.predict"]}
{"id": "C19", "title": "radial functions give weights in [0,1]", "statement": "Each of the radial functions quad, ss, winsor, ball, shell and linear_redescending assigns every case a factor between 0 and 1 (ss: times the norm at most 1), so each preprocessed row is a non-negative multiple of the centred row.", "quantifier": "all vectors of non-negative norms, all p, n", "why_tests_cant": "Universal over data.", "anchors": ["src/direpack/preprocessing/_gsspp_utils.py:quad", "src/direpack/preprocessing/_gsspp_utils.py:ss", "src/direpack/preprocessing/_gsspp_utils.py:winsor", "src/direpack/preprocessing/_gsspp_utils.py:ball", "src/direpack/preprocessing/_gsspp_utils.py:shell", "src/direpack/preprocessing/_gsspp_utils.py:linear_redescending", "src/direpack/preprocessing/_gsspp_utils.py:_gsspp"]}
{"id": "C20", "title": "radial functions obey their published shape", "statement": "winsor caps norms at the cut-off; ball keeps a row iff its norm is at most the cut-off and zeroes it otherwise; quad maps norm d beyond the cut-off h to h^2/d; shell keeps exactly rows between its two cut-offs; linear_redescending leaves rows up to the cut-off, zeroes rows beyond the outer cut-off, and its factor never increases with the norm.", "quantifier": "all norms and cut-offs", "why_tests_cant": "Universal over reals.", "anchors": ["src/direpack/preprocessing/_gsspp_utils.py:quad", "src/direpack/preprocessing/_gsspp_utils.py:winsor", "src/direpack/preprocessing/_gsspp_utils.py:ball", "src/direpack/preprocessing/_gsspp_utils.py:shell", "src/direpack/preprocessing/_gsspp_utils.py:linear_redescending"]}
{"id": "C21", "title": "the radial cut-off index is valid exactly when p <= n", "statement": "quad, winsor, ball, shell and linear_redescending raise IndexError for every data set with more columns than rows and never for n >= p >= 1.", "quantifier": "all n >= 1, p >= 1", "why_tests_cant": "Universal over sizes.", "anchors": ["src/direpack/preprocessing/_gsspp_utils.py:quad", "src/direpack/preprocessing/_gsspp_utils.py:winsor", "src/direpack/preprocessing/_gsspp_utils.py:ball", "src/direpack/preprocessing/_gsspp_utils.py:shell", "src/direpack/preprocessing/_gsspp_utils.py:linear_redescending"]}
{"id": "C22", "title": "spatial signs are unit vectors", "statement": "With fun='ss' every centred row with norm >= 1e-10 is mapped to a vector of norm exactly 1 in the same direction, and every other row to norm below 1 (0 for the zero row).", "quantifier": "all data", "why_tests_cant": "Universal over data.", "anchors": ["src/direpack/preprocessing/_gsspp_utils.py:ss", "src/direpack/preprocessing/_gsspp_utils.py:_gsspp", "src/direpack/preprocessing/_gsspp_utils.py:_spatial_sign"]}
{"id": "C23", "title": "gen_ss_covmat returns the p x p covariance of the generalised spatial signs", "statement": "gen_ss_covmat(X) returns the p x p matrix (1/n) Z'Z of the preprocessed data Z. (Settled negatively: the product is element-wise, so it raises ValueError whenever n and p differ and both exceed 1, and returns something else when n = p.)", "quantifier": "all n x p data", "why_tests_cant": "Needs reasoning about all shapes.", "anchors": ["src/direpack/preprocessing/gsspp.py:gen_ss_covmat"]}
{"id": "C24", "title": "GenSpatialSignPreProcessor.transform transforms the data it is given", "statement": "transform(X) depends on its argument. (Settled negatively: the argument is ignored and the transformed training data are returned.)", "quantifier": "all fitted preprocessors and all new data", "why_tests_cant": "Compares outputs for all pairs of arguments.", "anchors": ["src/direpack/preprocessing/gsspp.py:GenSpatialSignPreProcessor.transform"]}
{"id": "C25", "title": "robust weights lie in [0,1] and never increase with outlyingness", "statement": "For non-negative scaled distances and cut-offs with 1 <= c (< b < r for Hampel), Fair, Huber and Hampel return weights in [0,1]; a larger distance never gets a larger weight; Huber and Hampel give weight 1 up to c and Hampel weight 0 beyond r.", "quantifier": "all vectors of distances, all admissible cut-offs", "why_tests_cant": "Universal over reals, and over vectors because of the in-place updates.", "anchors": ["src/direpack/sprm/_m_support_functions.py:Fair", "src/direpack/sprm/_m_support_functions.py:Huber", "src/direpack/sprm/_m_support_functions.py:Hampel"]}
{"id": "C26", "title": "Huber and Hampel compute their textbook weights for every cut-off", "statement": "Huber and Hampel weights equal the textbook definition at every position for every cut-off 0 < c. (Settled: true for c >= 1 and non-negative input; false for c < 1, where inner points are down-weighted again by the in-place update, and for negative input, which always gets weight 1.)", "quantifier": "all vectors, all cut-offs", "why_tests_cant": "The failure region is a continuum missed by default parameters.", "anchors": ["src/direpack/sprm/_m_support_functions.py:Huber", "src/direpack/sprm/_m_support_functions.py:Hampel"]}
{"id": "C27", "title": "Huber/Hampel/Fair weight each case on its own", "statement": "The weight of a case depends on that case's distance and the cut-offs only, not on the other entries or the position, although the functions overwrite the array they are given.", "quantifier": "all vectors and positions", "why_tests_cant": "Universal over vectors.", "anchors": ["src/direpack/sprm/_m_support_functions.py:Fair", "src/direpack/sprm/_m_support_functions.py:Huber", "src/direpack/sprm/_m_support_functions.py:Hampel"]}
{"id": "C28", "title": "the broken-stick proportions are a decreasing probability vector", "statement": "brokenstick(n) has length n, is positive, strictly decreasing and sums to 1.", "quantifier": "all n >= 1", "why_tests_cant": "Universal over n.", "anchors": ["src/direpack/sprm/_m_support_functions.py:brokenstick"]}
{"id": "C29", "title": "the number of starting components in sprm always exists", "statement": "For every vector of explained-variance proportions of length k summing to 1, the broken-stick comparison used by sprm finds an index, so it raises no IndexError and the number of starting components is between 1 and k-1 (1 when k = 1).", "quantifier": "all proportion vectors of any length", "why_tests_cant": "Existence argument over all vectors.", "anchors": ["src/direpack/sprm/sprm.py:sprm.fit", "src/direpack/sprm/_m_support_functions.py:brokenstick"]}
{"id": "C30", "title": "nan-aware products agree with ordinary products", "statement": "nandot(X,y) is X y when there are no NaN and otherwise sums the products with no missing factor; nanmatdot(X,Y) is X Y. (Settled negatively for nanmatdot with two or more columns: it returns the transpose of X Y, which agrees only when X Y is symmetric, as for X'X.)", "quantifier": "all conforming matrices, all missingness patterns", "why_tests_cant": "Universal over shapes and patterns.", "anchors": ["src/direpack/utils/utils.py:nandot", "src/direpack/utils/utils.py:nanmatdot"]}
{"id": "C31", "title": "input checking is a projection", "statement": "_check_input leaves every matrix with two or more rows unchanged, returns a column for one-dimensional or single-row input, and applying it twice equals applying it once; _predict_check_input reports the shape of what it returns and treats a vector as one observation.", "quantifier": "all array shapes", "why_tests_cant": "Universal over shapes.", "anchors": ["src/direpack/utils/utils.py:_check_input", "src/direpack/utils/utils.py:_predict_check_input"]}
{"id": "C32", "title": "snipls scores are mutually orthogonal", "statement": "For every data set without missing values, every eta in [0,1) and every number of components, the columns of x_scores_ are pairwise orthogonal as long as no computed score vector is zero.", "quantifier": "all X, y, eta, n_components", "why_tests_cant": "Needs induction over the number of components.", "anchors": ["src/direpack/sprm/snipls.py:snipls.fit"]}
{"id": "C33", "title": "snipls sparsity is consistent between weights, coefficients and colret_", "statement": "The set of retained variables never shrinks from one component to the next; x_weights_, x_loadings_ and coef_ vanish on every variable not in the final colret_.", "quantifier": "all data, eta, n_components", "why_tests_cant": "Induction over components.", "anchors": ["src/direpack/sprm/snipls.py:snipls.fit"]}
{"id": "C34", "title": "snipls keeps the most covarying variable", "statement": "At every component the variable with the largest absolute covariance with the current y residual is retained (if that covariance is non-zero), eta = 0 retains exactly all variables with non-zero covariance, and on the first component a larger eta retains a subset.", "quantifier": "all data and eta in [0,1)", "why_tests_cant": "Universal over data and eta.", "anchors": ["src/direpack/sprm/snipls.py:snipls.fit"]}
{"id": "C35", "title": "snipls.predict reproduces the fitted values", "statement": "On complete data predict(X) on the training data equals fitted_, fitted_ + residuals_ = y, and with centre='mean' the residuals sum to zero; predict is affine in each row and raises ValueError exactly when the number of columns differs.", "quantifier": "all data, all parameters", "why_tests_cant": "Universal over data.", "anchors": ["src/direpack/sprm/snipls.py:snipls.fit", "src/direpack/sprm/snipls.py:snipls.predict"]}
{"id": "C36", "title": "snipls.transform reproduces the training scores", "statement": "transform(X) on the training data equals x_scores_. (Settled: true whenever the retained set does not grow between components, e.g. one component; false otherwise because the stored loadings are truncated.)", "quantifier": "all data, eta, n_components", "why_tests_cant": "Failure requires two components with a growing active set.", "anchors": ["src/direpack/sprm/snipls.py:snipls.fit", "src/direpack/sprm/snipls.py:snipls.transform"]}
{"id": "C37", "title": "snipls explained variances are proportions", "statement": "x_ev_ and y_ev_ are non-negative and each sums to at most 100 over the components.", "quantifier": "all complete data, eta, n_components", "why_tests_cant": "Universal (Bessel/Pythagoras) argument.", "anchors": ["src/direpack/sprm/snipls.py:snipls.fit"]}
{"id": "C38", "title": "snipls coefficients are the least-squares solution in the weight space", "statement": "The scaled coefficient vector lies in the span of x_weights_, and the scaled residual is orthogonal to the scaled data projected on every weight vector (hence no other coefficient in that span fits better), given that the matrix inverse routine is correct.", "quantifier": "all complete data, eta, n_components", "why_tests_cant": "Universal over data and competitors.", "anchors": ["src/direpack/sprm/snipls.py:snipls.fit"]}
{"id": "C39", "title": "rm case weights are consistent and in [0,1]", "statement": "After rm.fit every caseweights_[i] is 0 or in [1e-6,1], equals x_caseweights_[i]*y_caseweights_[i], and x and y case weights are in [0,1], for cut-offs with 1 <= c < b < r.", "quantifier": "all data, least-squares results and iteration counts", "why_tests_cant": "Invariant over an unbounded loop with an opaque solver.", "anchors": ["src/direpack/sprm/rm.py:rm.fit"]}
{"id": "C40", "title": "rm terminates within its iteration budget and a budget of one or less is unusable", "statement": "The reweighting loop performs at most maxit-1 solves for every data set; for maxit <= 1 fit raises instead of returning an unfitted model.", "quantifier": "all data, tol, maxit", "why_tests_cant": "Loop bound for all inputs.", "anchors": ["src/direpack/sprm/rm.py:rm.fit"]}
{"id": "C41", "title": "rm parameter validation is exact", "statement": "rm.fit raises MyException exactly when fun is not Hampel/Huber/Fair, probp1 is not in (0,1], or (Hampel) not probp1 < probp2 < probp3 <= 1, or the number of cases differ; otherwise it proceeds to estimation.", "quantifier": "all parameter combinations", "why_tests_cant": "Continuum of parameter values.", "anchors": ["src/direpack/sprm/rm.py:rm.fit"]}
{"id": "C42", "title": "rm works for every documented centre/scale combination", "statement": "For every documented centre and scale option rm.fit returns a fitted model. (Settled negatively: scale='None' with centre other than 'mean' always raises UnboundLocalError.)", "quantifier": "all documented option combinations, all data", "why_tests_cant": "Only one of the combinations is tested.", "anchors": ["src/direpack/sprm/rm.py:rm.fit"]}
{"id": "C43", "title": "rm.predict reproduces fitted_ and the residuals are centred", "statement": "predict(X) on the training data equals fitted_, fitted_ + residuals_ = y and the mean (centre='mean') or median (otherwise) of residuals_ is zero.", "quantifier": "all data for which fit returns", "why_tests_cant": "Universal over data.", "anchors": ["src/direpack/sprm/rm.py:rm.fit", "src/direpack/sprm/rm.py:rm.predict"]}
{"id": "C44", "title": "intercept_scaled_ of rm is the centre of the scaled residuals", "statement": "intercept_scaled_ is the mean (centre='mean') or median of the residuals on the scaled data. (Settled: true for the mean; false for the median, where broadcasting makes it the median over all n^2 pairs.)", "quantifier": "all data", "why_tests_cant": "The pairwise median coincides on simple data.", "anchors": ["src/direpack/sprm/rm.py:rm.fit", "src/direpack/sprm/sprm.py:sprm.fit"]}
{"id": "C45", "title": "sprm rejects exactly the invalid parameters", "statement": "sprm.fit raises MyException for eta outside [0,1), n_components not an int or not in 1..min(n,p), unknown fun, invalid probabilities, and raises it in no other case before estimation (complete decision table).", "quantifier": "all parameter combinations and shapes", "why_tests_cant": "Continuum of parameter values.", "anchors": ["src/direpack/sprm/sprm.py:sprm.fit"]}
{"id": "C46", "title": "zero-scale variables never influence sprm predictions", "statement": "Columns of X with zero fitted scale are excluded: predict, transform and weightnewx on new data do not depend on the values in these columns, while the number of columns expected stays that of the training data.", "quantifier": "all fitted models and all pairs of new data differing in zero-scale columns", "why_tests_cant": "Universal over pairs of inputs.", "anchors": ["src/direpack/sprm/sprm.py:sprm.fit", "src/direpack/sprm/sprm.py:sprm.predict", "src/direpack/sprm/sprm.py:sprm.transform", "src/direpack/sprm/sprm.py:sprm.weightnewx"]}
{"id": "C47", "title": "sprm case weights are consistent and in [0,1]", "statement": "After sprm.fit every caseweights_[i] is 0 or in [1e-6,1], equals x_caseweights_[i]*y_caseweights_[i], and the factors lie in [0,1].", "quantifier": "all data and inner fits", "why_tests_cant": "Invariant over an unbounded reweighting loop.", "anchors": ["src/direpack/sprm/sprm.py:sprm.fit"]}
{"id": "C48", "title": "the weight of a new case does not depend on the other new cases", "statement": "sprm.weightnewx gives each row of new data a weight determined by that row and the fitted model. (Settled negatively: scores are re-standardised on the new batch, and a single row is turned into a column giving n_components weights.)", "quantifier": "all fitted models and batches", "why_tests_cant": "Compares one case in all possible batches.", "anchors": ["src/direpack/sprm/sprm.py:sprm.weightnewx"]}
{"id": "C49", "title": "every documented starting option of sprm is usable", "statement": "fit works with start_X_init other than 'pcapp' and start_cutoff_mode='specific'. (Settled negatively: UnboundLocalError for every data set.)", "quantifier": "all data", "why_tests_cant": "Option combination not in the test-suite.", "anchors": ["src/direpack/sprm/sprm.py:sprm.fit"]}
{"id": "C50", "title": "variance is non-negative, shift invariant and quadratically scaled", "statement": "dicomo(mode='var', center='mean') of x is >= 0, zero iff x is constant, unchanged by adding a constant and multiplied by a^2 when x is; biascorr multiplies by n/(n-1).", "quantifier": "all samples of size >= 2 without trimming", "why_tests_cant": "Universal over samples.", "anchors": ["src/direpack/dicomo/_dicomo_utils.py:trim_mom", "src/direpack/dicomo/dicomo.py:dicomo.fit"]}
{"id": "C51", "title": "covariance is symmetric, bilinear and generalises variance", "statement": "With center='mean' and no trimming: cov(x,y)=cov(y,x), cov(x,x)=var(x), cov(a x+b, y)=a cov(x,y), cov(x+z,y)=cov(x,y)+cov(z,y).", "quantifier": "all samples of equal length >= 2", "why_tests_cant": "Universal over samples.", "anchors": ["src/direpack/dicomo/_dicomo_utils.py:trim_mom", "src/direpack/dicomo/dicomo.py:dicomo.fit"]}
{"id": "C52", "title": "correlation lies in [-1,1] and is invariant under affine maps", "statement": "dicomo(mode='corr', center='mean') without trimming has absolute value at most 1, equals 1 for y = a x + b with a > 0, and is unchanged by increasing affine maps of x or y, with or without biascorr, for non-constant samples. (For center='median' and for trimming > 0 settled negatively.)", "quantifier": "all non-constant samples", "why_tests_cant": "Cauchy-Schwarz over all samples.", "anchors": ["src/direpack/dicomo/dicomo.py:dicomo.fit", "src/direpack/dicomo/_dicomo_utils.py:trim_mom"]}
{"id": "C53", "title": "bias-corrected skewness and kurtosis are the standard unbiased formulas", "statement": "With biascorr=True, skew equals sqrt(n(n-1))/(n-2) times the plain skewness and kurt with Fisher=True equals (n-1)/((n-2)(n-3)) ((n+1) g2 + 6) with g2 the excess kurtosis.", "quantifier": "all samples with n >= 3 (4) and non-zero variance", "why_tests_cant": "Algebraic identity for all n and samples.", "anchors": ["src/direpack/dicomo/dicomo.py:dicomo.fit", "src/direpack/dicomo/_dicomo_utils.py:trim_mom"]}
{"id": "C54", "title": "the standard deviation is the square root of the variance", "statement": "dicomo(mode='std') returns the square root of what mode='var' returns, with and without biascorr. (Settled: true without biascorr, false with biascorr.)", "quantifier": "all samples", "why_tests_cant": "Identity over all samples.", "anchors": ["src/direpack/dicomo/dicomo.py:dicomo.fit"]}
{"id": "C55", "title": "fit leaves the estimator's parameters alone and does not return stale results", "statement": "dicomo.fit changes no constructor parameter, and after set_params a fit returns the value a fresh estimator with those parameters returns. (Settled negatively: std/skew/kurt/cos/cok/M3 modes overwrite center, and unsupported est values leave the previous moment_ in place.)", "quantifier": "all histories of set_params and fit", "why_tests_cant": "Histories are unbounded.", "anchors": ["src/direpack/dicomo/dicomo.py:dicomo.fit"]}
{"id": "C56", "title": "double centring removes every row and column mean", "statement": "Double centring (mean, no trimming, no bias correction) of any square matrix gives rows and columns summing to zero; U-centring of a symmetric matrix with zero diagonal (n >= 3) gives zero diagonal and off-diagonal row sums zero.", "quantifier": "all n and all matrices", "why_tests_cant": "Universal over matrices.", "anchors": ["src/direpack/dicomo/_dicomo_utils.py:double_center_flex"]}
{"id": "C57", "title": "distance covariance is symmetric, shift invariant, and zero for constants", "statement": "For order 2 with center='mean' and no trimming: distance covariance is symmetric in its arguments, unchanged by translating either sample, and zero if one of them is constant; distance variance is >= 0 and squared equals the mean squared doubly-centred distance.", "quantifier": "all samples", "why_tests_cant": "Universal over samples.", "anchors": ["src/direpack/dicomo/_dicomo_utils.py:distance_moment", "src/direpack/dicomo/_dicomo_utils.py:distance_matrix_centered", "src/direpack/dicomo/dicomo.py:dicomo.fit"]}
{"id": "C58", "title": "distance co-moments of order k average k-th order products of centred distances", "statement": "distance_moment(dmx,dmy,order=k,option=o) averages dmx^(k-o)*dmy^o and leaves its arguments unchanged. (Settled: true for order 2 with option 1; false for higher order: repeated in-place squaring gives powers of two, and the arguments are overwritten.)", "quantifier": "all matrices, orders and options", "why_tests_cant": "Aliasing effects depend on identity of the arguments.", "anchors": ["src/direpack/dicomo/_dicomo_utils.py:distance_moment"]}
{"id": "C59", "title": "martingale difference divergence is a quadratic form in the centred response", "statement": "MDD(x,y)^2 (no trimming, no bias correction) equals -(1/n^2) sum_ij |x_i-x_j| (y_i-ybar)(y_j-ybar), and is the 1x1 MDDM; MDDM is symmetric for every response matrix and vanishes for a constant response.", "quantifier": "all samples", "why_tests_cant": "Algebraic identity over all samples.", "anchors": ["src/direpack/dicomo/_dicomo_utils.py:difference_divergence", "src/direpack/dicomo/_dicomo_utils.py:MDDM", "src/direpack/dicomo/_dicomo_utils.py:D_inner"]}
{"id": "C60", "title": "MDDM works for a single predictor", "statement": "MDDM(X,Y) returns a q x q matrix for X with one column. (Settled negatively: raises ValueError for every n >= 2.)", "quantifier": "all n >= 2", "why_tests_cant": "Shape reasoning over all sizes.", "anchors": ["src/direpack/dicomo/_dicomo_utils.py:MDDM"]}
{"id": "C61", "title": "dicomo accepts exactly its documented options", "statement": "The constructor accepts exactly the documented est/mode/center values. (Settled negatively: 'mdc' is documented but always rejected; everything else is exact.)", "quantifier": "all strings", "why_tests_cant": "Universal over option strings.", "anchors": ["src/direpack/dicomo/dicomo.py:dicomo.__init__"]}
{"id": "C62", "title": "capi weights each co-moment with its own weight", "statement": "With options='all', capi.fit returns w0*cov + w1*cos1 + w2*cos2 + w3*cok1 + w4*cok2 + w5*cok3 truncated at max_degree, each (order, option) pair having its own slot. (For custom option lists settled negatively: moments land in other orders' slots and may overwrite each other.)", "quantifier": "all weights, degrees, samples; all option lists", "why_tests_cant": "Universal over weights and option lists.", "anchors": ["src/direpack/ppdire/capi.py:capi.fit"]}
{"id": "C63", "title": "capi accepts degrees 2 to 4 only", "statement": "Construction raises ValueError for max_degree > 4 and fit raises ValueError for max_degree < 2; no other degree raises for these reasons.", "quantifier": "all integers", "why_tests_cant": "Universal over integers.", "anchors": ["src/direpack/ppdire/capi.py:capi.__init__", "src/direpack/ppdire/capi.py:capi.fit"]}
{"id": "C64", "title": "the grid planes return the best direction on their grid", "statement": "gridplane and gridplane_2 return an objective value that is >= the objective of every grid direction, attained by the returned direction, which has unit norm (gridplane).", "quantifier": "all data, projection indices and grids", "why_tests_cant": "The projection index is an arbitrary function.", "anchors": ["src/direpack/ppdire/_ppdire_utils.py:gridplane", "src/direpack/ppdire/_ppdire_utils.py:gridplane_2"]}
{"id": "C65", "title": "the grid algorithm keeps a unit weight vector and the matching projection", "statement": "Throughout the ppdire grid algorithm the current weight vector has Euclidean norm 1 and the current projection equals the (sorted) data times that vector, for every projection index and any number of iterations in which no plane direction degenerates.", "quantifier": "all data, projection indices, iteration counts", "why_tests_cant": "Loop invariant for arbitrary oracles.", "anchors": ["src/direpack/ppdire/ppdire.py:ppdire.fit", "src/direpack/ppdire/_ppdire_utils.py:gridplane", "src/direpack/ppdire/_ppdire_utils.py:gridplane_2"]}
{"id": "C66", "title": "ppdire scores are mutually orthogonal for any projection index and optimiser", "statement": "The columns of x_scores_ are pairwise orthogonal whatever directions the optimiser returns, as long as no score is zero.", "quantifier": "all data, optimisers, n_components", "why_tests_cant": "The optimiser is an arbitrary function; induction over components.", "anchors": ["src/direpack/ppdire/ppdire.py:ppdire.fit"]}
{"id": "C67", "title": "ppdire.transform reproduces the training scores", "statement": "Without whitening and compression, transform of the training data equals x_scores_: P'W is unit upper triangular, hence X_s W (P'W)^-1 = T.", "quantifier": "all data, optimisers, n_components", "why_tests_cant": "Algebra for arbitrary oracles and any number of components.", "anchors": ["src/direpack/ppdire/ppdire.py:ppdire.fit", "src/direpack/ppdire/ppdire.py:ppdire.transform"]}
{"id": "C68", "title": "ppdire.predict reproduces the fitted values", "statement": "With OLS regression and no compression, predict of the training data equals fitted_, and fitted_ + residuals_ = y.", "quantifier": "all data, optimisers", "why_tests_cant": "Universal over data.", "anchors": ["src/direpack/ppdire/ppdire.py:ppdire.fit", "src/direpack/ppdire/ppdire.py:ppdire.predict"]}
{"id": "C69", "title": "ppdire grid works for every number of columns", "statement": "ppdire with optimizer='grid' fits any matrix with n >= p >= 2. (Settled negatively: p = 2 raises UnboundLocalError.)", "quantifier": "all data with two columns", "why_tests_cant": "Shape-dependent control flow.", "anchors": ["src/direpack/ppdire/ppdire.py:ppdire.fit"]}
{"id": "C70", "title": "whiten_data gives p weights per component", "statement": "ppdire with whiten_data=True fits any data. (Settled negatively: the weight vector is multiplied element-wise with the p x p whitening matrix, a ValueError for every p >= 2.)", "quantifier": "all data with p >= 2", "why_tests_cant": "Shape reasoning.", "anchors": ["src/direpack/ppdire/ppdire.py:ppdire.fit"]}
{"id": "C71", "title": "estimator instances do not influence each other", "statement": "Fitting one ppdire instance does not change the parameters of another. (Settled negatively: the default optimizer_options dictionary is shared and fit inserts 'ndir'; IPOPT rewrites its keys so that a later grid fit raises KeyError.)", "quantifier": "all histories of constructions and fits", "why_tests_cant": "Histories across instances.", "anchors": ["src/direpack/ppdire/ppdire.py:ppdire.__init__", "src/direpack/ppdire/ppdire.py:ppdire.fit", "src/direpack/ipopt_temp/ipopt_wrapper.py:minimize_ipopt"]}
{"id": "C72", "title": "set_params then get_params returns what was set", "statement": "For capi, ppdire and sudire: after set_params(**d) with valid names, get_params()[k] is d[k] for k in d and unchanged otherwise; an unknown name raises ValueError. (Atomicity settled negatively: names before the unknown one have been set.)", "quantifier": "all parameter dictionaries", "why_tests_cant": "Universal over dictionaries.", "anchors": ["src/direpack/ppdire/capi.py:capi.set_params", "src/direpack/ppdire/capi.py:capi.get_params", "src/direpack/ppdire/ppdire.py:ppdire.set_params", "src/direpack/sudire/sudire.py:sudire.set_params"]}
{"id": "C73", "title": "discretisation is a total, monotone slicing", "statement": "discretize(y,h) with h >= 2 gives every case a label in 1..h, larger responses never get smaller labels, equal responses equal labels, and without ties and n >= h every slice but the last has exactly floor(n/h) cases.", "quantifier": "all responses, all h >= 2", "why_tests_cant": "Universal over responses.", "anchors": ["src/direpack/sudire/_sudire_utils.py:discretize"]}
{"id": "C74", "title": "slice proportions are a probability distribution", "statement": "In SIR, SAVE and DR the slice labels are the distinct label values in order of appearance; if their number equals n_slices the proportions sum to one and every case belongs to exactly one slice; fewer distinct labels raise IndexError, more silently drop cases.", "quantifier": "all label vectors and n_slices", "why_tests_cant": "Universal over label vectors.", "anchors": ["src/direpack/sudire/_sudire_utils.py:SIR", "src/direpack/sudire/_sudire_utils.py:SAVE", "src/direpack/sudire/_sudire_utils.py:DR"]}
{"id": "C75", "title": "the direct methods return leading eigenvectors of the textbook matrices", "statement": "SIR, SAVE, DR, PHD and IHT return the leading d eigenvectors (by absolute eigenvalue) of, respectively, the between-slice covariance, the averaged squared deviation of the slice covariances from the identity, the directional regression matrix, the response-weighted second moment and the iterated Hessian matrix of the standardised data, transformed back to the data scale; the SIR, SAVE and IHT matrices are positive semi-definite.", "quantifier": "all data, responses, numbers of slices and components", "why_tests_cant": "An eigenvector identity for all data matrices.", "anchors": ["src/direpack/sudire/_sudire_utils.py:SIR", "src/direpack/sudire/_sudire_utils.py:SAVE", "src/direpack/sudire/_sudire_utils.py:DR", "src/direpack/sudire/_sudire_utils.py:PHD", "src/direpack/sudire/_sudire_utils.py:IHT"]}
{"id": "C76", "title": "the projection matrix of sudire is an orthogonal projector", "statement": "proj_mat_ = P (P'P)^-1 P' is symmetric and idempotent, fixes every column of P and has trace n_components (it is the identity for n_components = p), whenever the matrix inverse routine is correct.", "quantifier": "all basis matrices of full column rank", "why_tests_cant": "Universal over matrices.", "anchors": ["src/direpack/sudire/sudire.py:sudire.fit"]}
{"id": "C77", "title": "sudire.transform reproduces the training scores", "statement": "transform of the training data equals x_scores_ (the data times x_loadings_) and predict of the training data equals the fitted values of the least squares regression of y on an intercept and the scores; wrong column counts raise ValueError.", "quantifier": "all fitted models", "why_tests_cant": "Universal over fitted states.", "anchors": ["src/direpack/sudire/sudire.py:sudire.fit", "src/direpack/sudire/sudire.py:sudire.transform", "src/direpack/sudire/sudire.py:sudire.predict"]}
{"id": "C78", "title": "the structural dimension search returns a dimension between 1 and p that minimises the bootstrap discrepancy", "statement": "estimate_structural_dim returns an argmin in 1..p of the mean discrepancy of each dimension. (Settled: in range; but the averages are cumulative over smaller dimensions because the discrepancies are never reset.)", "quantifier": "all data, bootstrap draws and oracles", "why_tests_cant": "Arbitrary bootstrap draws.", "anchors": ["src/direpack/sudire/sudire.py:estimate_structural_dim"]}
{"id": "C79", "title": "vectorised bases are unpacked column by column", "statement": "Flattening a p x h basis in column-major order and reshaping it in the objective and constraint functions is a round trip, and the constraints are all h*h entries of B'SB - I (S the covariance matrix of the data) or, with scale_data, of B'B - I.", "quantifier": "all p, h and matrices", "why_tests_cant": "Index arithmetic for all sizes.", "anchors": ["src/direpack/utils/utils.py:const_xscale", "src/direpack/utils/utils.py:const_zscale", "src/direpack/sudire/_sudire_utils.py:dcov_trim", "src/direpack/sudire/_sudire_utils.py:mdd_trim", "src/direpack/sudire/sudire.py:sudire.fit"]}
{"id": "C80", "title": "constraint bounds match constraint types", "statement": "For every list of constraints, the bound vectors have one entry per constraint component, [0,0] for 'eq' and [0,1e19] for 'ineq', in order; any other type raises ValueError.", "quantifier": "all constraint lists", "why_tests_cant": "Universal over lists.", "anchors": ["src/direpack/ipopt_temp/ipopt_wrapper.py:get_constraint_bounds"]}
{"id": "C81", "title": "option conversion is idempotent and preserves user options", "statement": "Converting option names to bytes twice equals converting once and preserves every value; minimize_ipopt adds defaults only for names not given; the caller's dictionary is not changed. (Last clause settled negatively: a tolerance from one call silently overrides that of the next.)", "quantifier": "all option dictionaries and call histories", "why_tests_cant": "Histories across calls.", "anchors": ["src/direpack/ipopt_temp/ipopt_wrapper.py:convert_to_bytes", "src/direpack/ipopt_temp/ipopt_wrapper.py:replace_option", "src/direpack/ipopt_temp/ipopt_wrapper.py:minimize_ipopt"]}
{"id": "C82", "title": "finite-difference Jacobians are exact for affine (forward) and quadratic (central) functions", "statement": "The approximate Jacobian of an affine function is exact at every point for every step size; the central variant is exact for quadratics; the result has one row per output and one column per input.", "quantifier": "all affine/quadratic functions, points and steps", "why_tests_cant": "Universal over functions.", "anchors": ["src/direpack/ipopt_temp/jacobian.py:FunctionWithApproxJacobian", "src/direpack/ipopt_temp/jacobian.py:FunctionWithApproxJacobianCentral"]}
{"id": "C83", "title": "cached function values are those of the requested point and arguments", "statement": "The cached evaluation returns f(x,*args). (Settled: true if all calls use the same args; false otherwise since the cache is keyed on x only.)", "quantifier": "all call histories", "why_tests_cant": "Histories are unbounded.", "anchors": ["src/direpack/ipopt_temp/jacobian.py:FunctionWithApproxJacobian", "src/direpack/ipopt_temp/ipopt_wrapper.py:IpoptProblemWrapper.evaluate_fun_with_grad"]}
{"id": "C84", "title": "robust_loss treats positive and negative errors alike", "statement": "robust_loss with a robust weighting function gives the same loss when the sign of all errors is flipped. (Settled negatively: signed residuals are passed to Huber/Hampel so large negative errors keep weight 1.)", "quantifier": "all predictions", "why_tests_cant": "Requires comparing a sample with its mirror image.", "anchors": ["src/direpack/cross_validation/_cv_support_functions.py:robust_loss"]}
{"id": "C85", "title": "the sprm plots classify every case exactly once", "statement": "For case weights in [0,1], the plots of predictions and of scores draw every case in exactly one of the classes regular (weight 1), moderate outlier (weight strictly between 0 and 1) and harsh outlier (weight 0), and no other index is drawn.", "quantifier": "all weight vectors of any length", "why_tests_cant": "Universal over weights.", "anchors": ["src/direpack/plot/sprm_plot.py:sprm_plot.plot_yyp", "src/direpack/plot/sprm_plot.py:sprm_plot.plot_projections"]}
{"id": "C86", "title": "every case name passed to a plot is drawn at its own point", "statement": "With as many names as plotted cases, every plot draws every name once, at the point (or bar) of its case. (Settled negatively: the last name is never drawn, the other names of the scatter plots are drawn at their own point; in the case-weight chart the training names stand one bar too far to the right.)", "quantifier": "all lists of names and points of any length", "why_tests_cant": "Off-by-one behaviour over lists of every length; plots are not unit tested for their annotations.", "anchors": ["src/direpack/plot/sprm_plot.py:sprm_plot.plot_yyp", "src/direpack/plot/sprm_plot.py:sprm_plot.plot_projections", "src/direpack/plot/sprm_plot.py:sprm_plot.plot_caseweights"]}
{"id": "C87", "title": "truncated coefficient plots label each bar with its variable", "statement": "In plot_coeffs with truncation > 0 the label under a bar is the variable whose coefficient the bar shows. (Settled negatively.)", "quantifier": "all coefficient vectors and truncation levels", "why_tests_cant": "Needs a coefficient vector whose order is not monotone; figures are not compared in tests.", "anchors": ["src/direpack/plot/sprm_plot.py:sprm_plot.plot_coeffs"]}
{"id": "C88", "title": "a one-component sparse NIPALS fit on any data always completes", "statement": "snipls with one component, a standard centre and scale, eta >= 0 and an X with at least two rows and one column always returns a fitted model, whose score vector is non-zero whenever a variable was retained.", "quantifier": "all data, eta and column counts", "why_tests_cant": "Universal totality claim over all real data sets.", "anchors": ["src/direpack/sprm/snipls.py:snipls.fit"]}
{"id": "C89", "title": "a retained variable's weight has the sign of its covariance with the current residual", "statement": "In every component of snipls, the weight of a retained variable has the sign of the variable's covariance with the residual response. (Settled negatively: a variable retained earlier whose covariance drops below the threshold gets a weight of the opposite sign, and this is the only way.)", "quantifier": "all data, eta and components", "why_tests_cant": "Needs data in which a retained variable falls below the threshold later.", "anchors": ["src/direpack/sprm/snipls.py:snipls.fit"]}
{"id": "C90", "title": "the documented upper limit probp3 = 1 of the Hampel weights is usable", "statement": "rm and sprm accept 0 < probp1 < probp2 < probp3 = 1 with fun='Hampel' and give every case a numeric weight. (Settled negatively: the corresponding quantile is infinite and every case beyond the second cut-off gets weight NaN.)", "quantifier": "all samples and cut-offs", "why_tests_cant": "Needs the boundary value of a probability together with an outlying case.", "anchors": ["src/direpack/sprm/rm.py:rm.fit", "src/direpack/sprm/_m_support_functions.py:Hampel"]}
{"id": "C91", "title": "sprm reproduces its training data", "statement": "For every completed sprm fit, predict of the training data equals fitted_, fitted_ + residuals_ = y, the residuals sum to zero for centre 'mean' and have median zero for the robust centres, and transform of the training data equals x_scores_.", "quantifier": "all data, options and completed fits", "why_tests_cant": "Universal over data and reweighting histories.", "anchors": ["src/direpack/sprm/sprm.py:sprm.fit", "src/direpack/sprm/sprm.py:sprm.predict", "src/direpack/sprm/sprm.py:sprm.transform"]}
{"id": "C92", "title": "the number of inner fits of sprm is bounded by maxit", "statement": "sprm.fit terminates after at most maxit-1 inner sparse NIPALS fits for all data; maxit <= 1 can never succeed.", "quantifier": "all data, tolerances and budgets", "why_tests_cant": "Termination of a data dependent loop.", "anchors": ["src/direpack/sprm/sprm.py:sprm.fit"]}
{"id": "C93", "title": "an sprm object can be refitted on the same data", "statement": "Calling fit twice on one sprm object with the same data gives the same outcome, since fit does not change the parameters. (Settled negatively: fit overwrites columns and, for scaleTau2, scale; with a zero-scale variable and column names the second call raises IndexError. With columns=False and another scale nothing is changed.)", "quantifier": "all parameter settings and call histories", "why_tests_cant": "Needs two calls on one object with degenerate data.", "anchors": ["src/direpack/sprm/sprm.py:sprm.fit"]}
{"id": "C94", "title": "sprm response weights follow the residuals", "statement": "A case with a smaller absolute residual never gets a smaller y_caseweights_ entry. (Settled negatively: the weights are computed from the response minus the fitted values of the weighted data, so that a good leverage point loses its response weight, and negative residuals are treated differently.)", "quantifier": "all data", "why_tests_cant": "Compares weights and residuals of all pairs of cases.", "anchors": ["src/direpack/sprm/sprm.py:sprm.fit"]}
{"id": "C95", "title": "colret_ identifies the variables of the sprm model", "statement": "Every variable with a non-zero coefficient is listed in colret_: by its name for a data frame with columns=True, otherwise by its position in X. (Settled: true for names; false for positions, which are counted after removal of zero-scale variables.)", "quantifier": "all data frames and data", "why_tests_cant": "Interaction of sparsity and removal of constant variables.", "anchors": ["src/direpack/sprm/sprm.py:sprm.fit"]}
{"id": "C96", "title": "sprm.valscore scores new data", "statement": "valscore returns the R2 of the predictions for new data with 'normal' and a weighted R2 with 'weighted'. (Settled: 'normal' is the R2; 'weighted' raises ValueError for every validation set whose size differs from that of the training set.)", "quantifier": "all fitted models and validation sets", "why_tests_cant": "Universal over validation sets of every size.", "anchors": ["src/direpack/sprm/sprm.py:sprm.valscore"]}
{"id": "C97", "title": "co-skewness and co-kurtosis generalise skewness and kurtosis", "statement": "The co-skewness of a sample with itself is its skewness, the co-kurtosis its kurtosis, and both are unchanged by positive affine transformations of x. (Settled: true for co-skewness with and without bias correction and for co-kurtosis without; false for bias-corrected co-kurtosis, where the correction is subtracted before standardising.)", "quantifier": "all non-constant samples, shifts and positive scales", "why_tests_cant": "Relates different modes over all samples; the deviation appears only with biascorr and cok.", "anchors": ["src/direpack/dicomo/dicomo.py:dicomo.fit", "src/direpack/dicomo/_dicomo_utils.py:trim_mom"]}
{"id": "C98", "title": "the continuum association interpolates covariance and variance", "statement": "mode='continuum' returns cov(x,y)^2 * var(x)^((alpha-1)/2): the squared covariance for alpha = 1, never negative, and scaling x by a > 0 multiplies it by a^(1+alpha).", "quantifier": "all samples and exponents alpha", "why_tests_cant": "Universal over a real parameter.", "anchors": ["src/direpack/dicomo/dicomo.py:dicomo.fit"]}
{"id": "C99", "title": "the fast and the general algorithm for distance covariance agree", "statement": "With center='mean', no trimming and order 2, calcmode='fast' returns the same distance variance and covariance as any other calcmode, given that dcor.distance_covariance_sqr computes its documented statistic.", "quantifier": "all samples of any dimension", "why_tests_cant": "Needs non-negativity of the statistic for all samples, since one algorithm takes the absolute value and the other the square root.", "anchors": ["src/direpack/dicomo/dicomo.py:dicomo.fit", "src/direpack/dicomo/_dicomo_utils.py:distance_moment"]}
{"id": "C100", "title": "distance correlation lies in [0,1] and ignores location and scale", "statement": "Distance correlation lies in [0,1], is 1 for a sample with itself, symmetric, and unchanged by translations and non-zero rescaling of either sample.", "quantifier": "all samples with non-zero distance variance", "why_tests_cant": "Inequality over all samples.", "anchors": ["src/direpack/dicomo/dicomo.py:dicomo.fit", "src/direpack/dicomo/_dicomo_utils.py:distance_moment"]}
{"id": "C101", "title": "distance covariance and martingale difference divergence are never negative under the root", "statement": "The squared distance covariance and the squared martingale difference divergence of samples of any dimension are non-negative, so that the square roots fit takes are real.", "quantifier": "all samples of any size and dimension", "why_tests_cant": "A positive-definiteness statement about all euclidean configurations.", "anchors": ["src/direpack/dicomo/dicomo.py:dicomo.fit", "src/direpack/dicomo/_dicomo_utils.py:D_inner", "src/direpack/dicomo/_dicomo_utils.py:difference_divergence", "src/direpack/dicomo/_dicomo_utils.py:distance_moment"]}
{"id": "C102", "title": "moments of any order are the textbook central (co-)moments", "statement": "mode='mom' with order k returns the mean for k = 1 and the k-th central moment for k >= 2; mode='com' with order k and option o returns the mean of (x-xbar)^(k-o) (y-ybar)^o; order 0 raises AttributeError.", "quantifier": "all samples, orders and options o <= k", "why_tests_cant": "Universal over orders.", "anchors": ["src/direpack/dicomo/dicomo.py:dicomo.fit", "src/direpack/dicomo/_dicomo_utils.py:trim_mom"]}
{"id": "C103", "title": "evaluating capi again on the same data gives the same value", "statement": "Calling capi.fit twice with the same sample gives the same value. (Holds for every projection index that answers each request by a fixed value, in particular for arithmetic co-moments around the mean; settled negatively for center='median' with scaling: the first co-skewness permanently switches the inner object to the mean.)", "quantifier": "all projection indices, samples, weights, degrees", "why_tests_cant": "The inner object keeps state between calls.", "anchors": ["src/direpack/ppdire/capi.py:capi.fit", "src/direpack/dicomo/dicomo.py:dicomo.fit"]}
{"id": "C104", "title": "the grid of directions leaves no gap", "statement": "For every direction in the plane, one of the ndir directions gridplane tries deviates from it by an angle of at most pi/(2 ndir) (up to sign).", "quantifier": "all directions and all ndir >= 1", "why_tests_cant": "A statement about a continuum of directions.", "anchors": ["src/direpack/ppdire/_ppdire_utils.py:gridplane"]}
{"id": "C105", "title": "refinement does not make the grid optimum worse", "statement": "The direction the grid optimiser returns has an objective at least that of the first sweep, and the first sweep at least that of the first column (every column for even ndir). (Holds for an odd number of directions; settled negatively for even ndir, the default being 1000: the second grid does not contain the current direction and the last iterate, not the best, is returned.)", "quantifier": "all data, projection indices, ndir, maxiter", "why_tests_cant": "The projection index is an arbitrary function.", "anchors": ["src/direpack/ppdire/ppdire.py:ppdire.fit", "src/direpack/ppdire/_ppdire_utils.py:gridplane_2"]}
{"id": "C106", "title": "ppdire with OLS gives least squares residuals", "statement": "With center_data, center='mean', regopt='OLS' the residuals sum to zero and are orthogonal to every score, and the fitted values are the mean of y plus the contributions of the scores.", "quantifier": "all data, optimisers, n_components", "why_tests_cant": "Algebra for arbitrary optimisers and any number of components.", "anchors": ["src/direpack/ppdire/ppdire.py:ppdire.fit"]}
{"id": "C107", "title": "compression does not change what the model predicts", "statement": "With compression=True and n < p predictions of new data are possible and depend on the data. (Settled negatively: the fitted value of every case is the mean of y, residuals_ is an n x n matrix and predict of any k != n, k >= 2 rows raises ValueError.)", "quantifier": "all data with n < p", "why_tests_cant": "Shape reasoning through broadcasting.", "anchors": ["src/direpack/ppdire/ppdire.py:ppdire.fit", "src/direpack/ppdire/ppdire.py:ppdire.predict"]}
{"id": "C109", "title": "projection weights have unit length", "statement": "Every column of x_weights_ with a non-zero score has Euclidean norm 1, for any optimiser and (for the grid) any ndir not congruent 1 modulo 4.", "quantifier": "all data, projection indices, optimisers", "why_tests_cant": "Loop invariant for arbitrary oracles.", "anchors": ["src/direpack/ppdire/ppdire.py:ppdire.fit"]}
{"id": "C110", "title": "the objective values reported by ppdire are those of the scores", "statement": "Maxobjf_ and crit_values_ of a component are the projection index evaluated at its score with the scaled response and the constructor's arguments, squared if square_pi (Maxobjf_ is never squared for optimisers other than the grid; for the grid it may be the initial value -1000).", "quantifier": "all data, projection indices, optimisers", "why_tests_cant": "Loop invariant for arbitrary oracles.", "anchors": ["src/direpack/ppdire/ppdire.py:ppdire.fit"]}
{"id": "C111", "title": "optimisation-based methods fit data with few distinct responses", "statement": "fit of dcov-sdr, mdd-sdr or a user function without optimizer_start succeeds for every response. (Settled negatively: any success implies at least six distinct response values, because the starting values slice the raw response into six.)", "quantifier": "all data, all responses, all routines", "why_tests_cant": "Universal over data; binary and few-class responses.", "anchors": ["src/direpack/sudire/sudire.py:sudire.fit", "src/direpack/sudire/_sudire_utils.py:SIR", "src/direpack/sudire/_sudire_utils.py:DR"]}
{"id": "C112", "title": "directions are orthonormal and scores uncorrelated", "statement": "With scale_data (and center mean) the directions of the direct methods satisfy P'SP = I, S the covariance matrix of the data, so that the scores have unit variances and zero covariances; without scale_data P'P = I. The optimised methods always satisfy P'SP = I when the optimiser's solution is feasible.", "quantifier": "all data, all methods, all correct linear algebra routines", "why_tests_cant": "A matrix identity for all data.", "anchors": ["src/direpack/sudire/sudire.py:sudire.fit", "src/direpack/utils/utils.py:const_xscale", "src/direpack/utils/utils.py:const_zscale"]}
{"id": "C113", "title": "compression makes fits of wide data possible", "statement": "fit with compression=True on data with more columns than rows succeeds. (Settled negatively: whenever compression takes effect, i.e. no column of the compressed data has zero MAD, the fit never succeeds.)", "quantifier": "all wide data, all methods", "why_tests_cant": "Universal over data and methods.", "anchors": ["src/direpack/sudire/sudire.py:sudire.fit"]}
{"id": "C114", "title": "predictions do not depend on the batch", "statement": "predict returns intercept plus scores times coefficients for every batch of new cases. (Settled: exactly so unless some score is constant and nonzero over the batch, as for nearly every single case; then predict raises ValueError.)", "quantifier": "all fitted models and all batches of new cases", "why_tests_cant": "The batch is arbitrary; single cases fail.", "anchors": ["src/direpack/sudire/sudire.py:sudire.predict"]}
{"id": "C115", "title": "copy=False only saves memory", "statement": "fit with copy=False gives the same model as with copy=True. (Settled negatively: a fresh object with copy=False never fits.)", "quantifier": "all data and options", "why_tests_cant": "Universal over data and options.", "anchors": ["src/direpack/sudire/sudire.py:sudire.fit"]}
{"id": "C116", "title": "a refit uses the new data", "statement": "A second fit of the same object estimates the directions from the data of the second call. (Settled negatively for the optimised methods without scale_data: two refits on arbitrary different data return the same directions, because start value, constraints and arguments are stored by the first fit.)", "quantifier": "all histories of two fits and all data", "why_tests_cant": "Histories of fits.", "anchors": ["src/direpack/sudire/sudire.py:sudire.fit"]}
{"id": "C117", "title": "every documented option value can be fitted", "statement": "Every documented method and center can be used. (Settled negatively: bcov-sdr never fits; a center other than 'mean' with neither centring nor scaling nor whitening never fits.)", "quantifier": "all data and all other options", "why_tests_cant": "Universal over data and options.", "anchors": ["src/direpack/sudire/sudire.py:sudire.fit"]}
{"id": "C118", "title": "the sliced methods depend on a continuous response through its order only", "statement": "SIR, SAVE and DR with a continuous response return the same directions after any strictly increasing transformation of the response.", "quantifier": "all data and all increasing transformations", "why_tests_cant": "Universal over transformations.", "anchors": ["src/direpack/sudire/_sudire_utils.py:SIR", "src/direpack/sudire/_sudire_utils.py:SAVE", "src/direpack/sudire/_sudire_utils.py:DR", "src/direpack/sudire/_sudire_utils.py:discretize"]}
{"id": "C119", "title": "sudire is translation invariant", "statement": "With mean centring, adding a constant to every column changes neither x_loadings_ nor proj_mat_, and shifts every score by the constant times the loadings.", "quantifier": "all data, all translations, all methods", "why_tests_cant": "Universal over translations.", "anchors": ["src/direpack/sudire/sudire.py:sudire.fit"]}
{"id": "C120", "title": "the objective functions are the distance covariance and the martingale difference divergence of the projected data", "statement": "Without trimming, the objectives are -10 times the distance covariance, respectively the martingale difference divergence, of X B and y; they depend on the spanned subspace only: rotating the basis does not change them.", "quantifier": "all data, all bases, all orthogonal matrices", "why_tests_cant": "Universal over bases and rotations.", "anchors": ["src/direpack/sudire/_sudire_utils.py:dcov_trim", "src/direpack/sudire/_sudire_utils.py:mdd_trim"]}
{"id": "C121", "title": "get_params(deep=True) lists the parameters of nested estimators", "statement": "get_params(deep=True) returns every parameter and, for a parameter that is an estimator, its parameters as name__subname. (Settled: exactly so if no parameter is a class; always a TypeError if one is, as for ppdire with dicomo or capi and for capi with its own default.)", "quantifier": "all objects, all nestings", "why_tests_cant": "Universal over parameter values.", "anchors": ["src/direpack/ppdire/capi.py:capi.get_params", "src/direpack/ppdire/ppdire.py:ppdire.get_params", "src/direpack/sudire/sudire.py:sudire.get_params"]}
{"id": "C122", "title": "get_params returns what the constructor was given", "statement": "After construction get_params() returns the given argument or the default for every parameter. (Settled: except capi's centring, which is always None.)", "quantifier": "all argument dictionaries", "why_tests_cant": "Universal over arguments.", "anchors": ["src/direpack/ppdire/capi.py:capi.__init__", "src/direpack/ppdire/ppdire.py:ppdire.__init__", "src/direpack/sudire/sudire.py:sudire.__init__"]}
{"id": "C123", "title": "an estimator can be rebuilt from its parameters", "statement": "Constructing the class from get_params() of a constructed object succeeds and gives an object with the same parameters. (After set_params this is settled negatively: set_params accepts values the constructor refuses, and the rebuild then fails.)", "quantifier": "all argument dictionaries, all invalid values", "why_tests_cant": "Universal over arguments and histories.", "anchors": ["src/direpack/ppdire/capi.py:capi.__init__", "src/direpack/ppdire/capi.py:capi.set_params", "src/direpack/ppdire/ppdire.py:ppdire.__init__", "src/direpack/ppdire/ppdire.py:ppdire.set_params", "src/direpack/sudire/sudire.py:sudire.__init__", "src/direpack/sudire/sudire.py:sudire.set_params"]}
{"id": "C124", "title": "set_params has the same effect as construction with the new values", "statement": "After set_params an object behaves as one constructed with the new values. (Settled negatively: set_params changes no attribute other than the parameters, on any object, so that the moment object capi derives from projection_index and pi_arguments stays the old one for ever.)", "quantifier": "all heaps of estimators and all parameter dictionaries", "why_tests_cant": "Universal over histories.", "anchors": ["src/direpack/ppdire/capi.py:capi.__init__", "src/direpack/ppdire/capi.py:capi.set_params"]}
{"id": "C125", "title": "bias-corrected distance statistics are functions of the unbiased estimators", "statement": "With biascorr=True and at least four cases, the distance variance, covariance and correlation are computed from the U-centred estimator, which is symmetric, non-negative on the diagonal and satisfies the Cauchy-Schwarz inequality, so that the correlation lies in [0,1]; both algorithms give the same result. (Settled negatively for the last part: when the estimator is negative the general algorithm returns the root of its absolute value, the default one NaN; the bias-corrected martingale difference divergence is NaN as well.)", "quantifier": "all data of at least four cases, both algorithms", "why_tests_cant": "Universal over data; the sign change needs special configurations.", "anchors": ["src/direpack/dicomo/dicomo.py:dicomo.fit", "src/direpack/dicomo/_dicomo_utils.py:distance_moment", "src/direpack/dicomo/_dicomo_utils.py:difference_divergence"]}
{"id": "C126", "title": "trimmed martingale difference divergence", "statement": "With a trimming fraction below one half, fit in mode mdd returns the root of the trimmed mean of the products of the two matrices centred by trimmed row, column and overall means.", "quantifier": "all data, all responses, all trimming fractions below 1/2", "why_tests_cant": "Universal over data and fractions.", "anchors": ["src/direpack/dicomo/dicomo.py:dicomo.fit", "src/direpack/dicomo/_dicomo_utils.py:difference_divergence", "src/direpack/dicomo/_dicomo_utils.py:double_center_flex"]}
{"id": "C127", "title": "trimmed variances, covariances and moments", "statement": "With a trimming fraction below one half, var, cov and mom return the trimmed mean of the (products of) powers of the deviations from the trimmed means; with biascorr the finite sample factor uses the number of cases left after trimming one side.", "quantifier": "all samples, all trimming fractions below 1/2, all orders", "why_tests_cant": "Universal over samples, fractions and orders.", "anchors": ["src/direpack/dicomo/dicomo.py:dicomo.fit", "src/direpack/dicomo/_dicomo_utils.py:trim_mom", "src/direpack/dicomo/_dicomo_utils.py:trimvar"]}
{"id": "C128", "title": "median-based moments and co-moments", "statement": "With center='median' the variance is a robust variance: rescaling data by a multiplies it by a squared. (Settled negatively: mom and var return 1.4826 times the median absolute deviation, which scales with |a|, for order 2, and the unscaled median absolute deviation for all higher orders; cov returns the comedian unless both samples are equal; trimming is ignored, or a TypeError for order 1.)", "quantifier": "all samples, all orders, all affine maps", "why_tests_cant": "Universal over samples and affine maps.", "anchors": ["src/direpack/dicomo/dicomo.py:dicomo.fit", "src/direpack/dicomo/_dicomo_utils.py:trim_mom"]}
{"id": "C129", "title": "snipls does not depend on the order of the cases", "statement": "Reordering the rows of X and y in the same way reorders scores, fitted values and residuals and changes nothing else: not the coefficients, intercept, weights, loadings, retained variables, explained variances, locations or scales; errors are the same.", "quantifier": "all data, all reorderings, all documented centres and scales, all sparsity parameters and numbers of components", "why_tests_cant": "Universal over data and permutations.", "anchors": ["src/direpack/sprm/snipls.py:snipls.fit"]}
{"id": "C130", "title": "rm does not depend on the order of the cases", "statement": "Reordering the rows of X and y in the same way reorders residuals, fitted values and case weights and changes nothing else; every reweighting step poses the same least-squares problem with reordered rows.", "quantifier": "all data, all reorderings, all documented options, any number of reweighting steps", "why_tests_cant": "Universal over data, permutations and iteration counts.", "anchors": ["src/direpack/sprm/rm.py:rm.fit"]}
{"id": "C131", "title": "sprm does not depend on the order of the cases", "statement": "Reordering the rows of X and y in the same way reorders scores, residuals, fitted values and case weights and changes nothing else, for both starting values and all weight functions.", "quantifier": "all data, all reorderings, all documented options, any number of reweighting steps", "why_tests_cant": "Universal over data, permutations and iteration counts.", "anchors": ["src/direpack/sprm/sprm.py:sprm.fit"]}
{"id": "C132", "title": "dicomo does not depend on the order of the cases", "statement": "For a symmetric metric, reordering the cases of x and y in the same way changes neither the returned value nor any attribute, in every mode, estimator, centre, order, option, trimming fraction and with or without bias correction.", "quantifier": "all data, all reorderings, all modes and options", "why_tests_cant": "Universal over data, permutations and modes.", "anchors": ["src/direpack/dicomo/dicomo.py:dicomo.fit", "src/direpack/dicomo/_dicomo_utils.py:distance_matrix_centered", "src/direpack/dicomo/_dicomo_utils.py:difference_divergence", "src/direpack/dicomo/_dicomo_utils.py:trim_mom"]}
{"id": "C133", "title": "snipls does not depend on the units of measurement", "statement": "Expressing variable j as a_j x + b_j (a_j > 0) and the response as c y + d (c > 0) gives the same regression: coefficients c/a_j times the old ones, the matching intercept, fitted values and predictions c v + d, residuals c r; weights, loadings, scores, explained variances and retained variables are the same.", "quantifier": "all data with spread in every variable, all changes of units, mean or median centring, std or mad scaling", "why_tests_cant": "Universal over data and units.", "anchors": ["src/direpack/sprm/snipls.py:snipls.fit", "src/direpack/sprm/snipls.py:snipls.predict", "src/direpack/sprm/snipls.py:snipls.transform"]}
{"id": "C134", "title": "rm does not depend on the units of measurement", "statement": "Under a change of units of the variables and the response rm poses the same least-squares problems, gives the same case weights and the same regression expressed in the new units.", "quantifier": "all data with spread in every variable, all changes of units, any number of reweighting steps", "why_tests_cant": "Universal over data, units and iteration counts.", "anchors": ["src/direpack/sprm/rm.py:rm.fit", "src/direpack/sprm/rm.py:rm.predict"]}
{"id": "C135", "title": "sprm does not depend on the units of measurement", "statement": "Under a change of units of the variables and the response sprm gives the same case weights, scores and retained variables, and the same regression expressed in the new units. (Settled: exactly so while no variable has a scale below 1e-5 in either of the units; otherwise negatively, as every fit that succeeds raises an exception after some change of units.)", "quantifier": "all data with spread in every variable, all changes of units, any number of reweighting steps", "why_tests_cant": "Universal over data, units and iteration counts.", "anchors": ["src/direpack/sprm/sprm.py:sprm.fit", "src/direpack/sprm/sprm.py:sprm.predict", "src/direpack/sprm/sprm.py:sprm.transform", "src/direpack/sprm/sprm.py:sprm.weightnewx"]}
{"id": "C136", "title": "the sufficient dimension reduction methods do not depend on the order of the cases", "statement": "SIR, SAVE, DR, PHD and IHT return the same basis when the rows of X and y are reordered in the same way. (Settled: exactly so for PHD and IHT, for sliced responses, and for categories when there are at least as many slices as categories; negatively for fewer slices than categories, as the categories that come first are the ones used.)", "quantifier": "all data, all reorderings, all numbers of slices and directions, with or without centring and scaling", "why_tests_cant": "Universal over data and permutations.", "anchors": ["src/direpack/sudire/_sudire_utils.py:SIR", "src/direpack/sudire/_sudire_utils.py:SAVE", "src/direpack/sudire/_sudire_utils.py:DR", "src/direpack/sudire/_sudire_utils.py:PHD", "src/direpack/sudire/_sudire_utils.py:IHT", "src/direpack/sudire/_sudire_utils.py:discretize"]}
{"id": "C137", "title": "sudire does not depend on the order of the cases", "statement": "Reordering the rows of X and y in the same way reorders the scores and fitted values of sudire.fit and changes nothing else: not the loadings, projection, whitening, locations, scales or regression coefficients; errors are the same. This holds for all methods, provided a start is given to the optimised ones and the number of slices suffices for the categories.", "quantifier": "all data, all reorderings, all methods and options", "why_tests_cant": "Universal over data and permutations.", "anchors": ["src/direpack/sudire/sudire.py:sudire.fit"]}
{"id": "C138", "title": "the default start of the optimised methods does not depend on the order of the cases", "statement": "Without optimizer_start, the fit of an optimised method does not depend on the order of the cases. (Settled negatively: the start is computed from the categories that come first, whatever the dependence measure used to choose among the candidates, and the fit may end at another basis.)", "quantifier": "all data, all reorderings, all dependence measures", "why_tests_cant": "The counterexample must hold for every dependence measure; the claim is about all reorderings.", "anchors": ["src/direpack/sudire/sudire.py:sudire.fit"]}
{"id": "C139", "title": "sprm_plot.plot_yyp shows every case once at (observed, predicted)", "statement": "Without new cases, plot_yyp draws each training case once at (y, fitted value), in the colour and marker of its weight class (regular: weight 1; moderate: between 0 and 1; harsh: 0); with new cases it also draws each of them once at (true, predicted), classed by weightnewx. Names stand beside their own case. (Cases whose weight is NaN are not drawn, and the last name is not shown.)", "quantifier": "all fits, data, themes with eight colours and three markers, names, and new data with at least two cases", "why_tests_cant": "Universal over fits and data: a case can be lost or shown twice only for particular weights.", "anchors": ["src/direpack/plot/sprm_plot.py:sprm_plot.plot_yyp"]}
{"id": "C140", "title": "sprm_plot.plot_projections shows every case once at its scores", "statement": "plot_projections draws each training case once at its scores on the two chosen components, classed by weight, and each new case at its transformed scores. With the default arguments it works for every fitted model. (The last claim is settled negatively: every one-component model raises IndexError.)", "quantifier": "all fits, data, components, themes and names", "why_tests_cant": "Universal over fits; the failure is a claim about every one-component model.", "anchors": ["src/direpack/plot/sprm_plot.py:sprm_plot.plot_projections"]}
{"id": "C141", "title": "sprm_plot.plot_caseweights shows the weights in order", "statement": "The bars are the weights of the training cases of the chosen mode in order, followed by those of the new cases; each name stands at the bar of its case; an unknown mode raises ValueError. (Bars as claimed; names of training cases stand one bar to the right; an unknown mode raises UnboundLocalError.)", "quantifier": "all fits, new data, names and modes", "why_tests_cant": "Universal over fits, data and mode strings.", "anchors": ["src/direpack/plot/sprm_plot.py:sprm_plot.plot_caseweights"]}
{"id": "C142", "title": "onlyval=True without new cases is refused", "statement": "In all plotting classes, onlyval=True without Xn raises the ValueError announced. (Settled negatively: the exception is constructed but not raised, and an empty plot is shown.)", "quantifier": "all models, themes and arguments", "why_tests_cant": "A claim about every call.", "anchors": ["src/direpack/plot/sprm_plot.py:sprm_plot.plot_yyp", "src/direpack/plot/sudire_plot.py:sudire_plot.plot_yyp", "src/direpack/plot/ppdire_plot.py:ppdire_plot.plot_yyp"]}
{"id": "C143", "title": "sprm plots show the label given", "statement": "The label given as a string appears in the legend of sprm plots. (Settled negatively: only its first character does, so that labels with the same first character give the same plot.)", "quantifier": "all labels, fits and plotting methods", "why_tests_cant": "A claim about all labels.", "anchors": ["src/direpack/plot/sprm_plot.py:sprm_plot.plot_yyp", "src/direpack/plot/sprm_plot.py:sprm_plot.plot_projections", "src/direpack/plot/sprm_plot.py:sprm_plot.plot_caseweights"]}
{"id": "C144", "title": "sudire and ppdire plots show every case once", "statement": "plot_yyp draws each training case at (y, fitted value) and each new case at (true, predicted), in order; plot_projections draws each case at its scores; names and the full label are shown. (Settled negatively for plot_projections of ppdire objects fitted without centring: instead of the new cases, the scores of one case are drawn against those of another, and a single new case raises IndexError. sudire gives training and test cases the same legend.)", "quantifier": "all fits, new data, labels and names", "why_tests_cant": "Universal over fits and data.", "anchors": ["src/direpack/plot/sudire_plot.py:sudire_plot.plot_yyp", "src/direpack/plot/sudire_plot.py:sudire_plot.plot_projections", "src/direpack/plot/ppdire_plot.py:ppdire_plot.plot_yyp", "src/direpack/plot/ppdire_plot.py:ppdire_plot.plot_projections"]}
{"id": "C145", "title": "the contour plot shows the current cross-validation results", "statement": "eta_ncomp_contour draws exactly the results with a finite score, provided there are three. (True of the first call; later calls on the same object draw the results of the first call for ever.)", "quantifier": "all result tables and all sequences of calls", "why_tests_cant": "A claim about call histories.", "anchors": ["src/direpack/plot/sprm_plot.py:sprm_plot_cv.eta_ncomp_contour"]}
{"id": "C146", "title": "coefficient plots identify the variables", "statement": "Without truncation plot_coeffs draws every coefficient once, in order, with the name of its variable when names are given as an array, tuple or list, and its number otherwise. (Arrays of names as claimed; lists and tuples raise TypeError; the numbers count retained variables only, and are wrong as soon as a variable before has been dropped.)", "quantifier": "all fits with documented centres and scales, all names", "why_tests_cant": "Universal over fits; the wrong numbers need a dropped variable.", "anchors": ["src/direpack/plot/sprm_plot.py:sprm_plot.plot_coeffs"]}
{"id": "C147", "title": "ppdire maximises its projection index", "statement": "With an optimiser other than 'grid', component i of a fit is found by minimising, from the first row as starting value, minus the projection index of the data projected on a direction, the data being the scaled data deflated by the scores of the earlier components; the reported weights are the normalised answer and Maxobjf_ is their index. If the optimiser returns a minimiser over the unit vectors, no unit vector has an index above Maxobjf_.", "quantifier": "all data, indices, optimisers and numbers of components, without whitening and compression", "why_tests_cant": "The index and the optimiser are arbitrary functions; a sign error is invisible for even indices and any one data set.", "anchors": ["src/direpack/ppdire/ppdire.py:ppdire.fit", "src/direpack/ppdire/_ppdire_utils.py:pp_objective"]}
{"id": "C148", "title": "ppdire stores the centres and scales asked for", "statement": "x_loc_, x_sca_, y_loc_ and y_sca_ are the mean and standard deviation (center='mean') or median and MAD (center='median') of the columns and of the response; scales are one with scale_data=False. (With center_data=False centres are zero and scales one, whatever scale_data says.)", "quantifier": "all data of at least two cases, without trimming, whitening and compression", "why_tests_cant": "Universal over data and parameters.", "anchors": ["src/direpack/ppdire/ppdire.py:ppdire.fit"]}
{"id": "C149", "title": "ppdire accepts the centring options of the preprocessing module", "statement": "Every centring option of sprm.preprocessing (documented for the parameter center) can be given to ppdire. (Settled negatively: all but the mean and the median are refused by the constructor; set afterwards, all but these and the l1median make every fit with scaling fail.)", "quantifier": "all centring options, all fits", "why_tests_cant": "Universal over options, data and parameters.", "anchors": ["src/direpack/ppdire/ppdire.py:ppdire.__init__", "src/direpack/ppdire/ppdire.py:ppdire.fit"]}
{"id": "C150", "title": "options of the grid optimiser have their defaults", "statement": "With optimizer='grid', leaving out ndir gives the same fit as ndir=1000, and leaving out maxiter uses a default. (ndir as claimed; without maxiter no fit succeeds.)", "quantifier": "all option dictionaries, data and parameters", "why_tests_cant": "Universal over options and data.", "anchors": ["src/direpack/ppdire/ppdire.py:ppdire.fit"]}
{"id": "C151", "title": "whitening replaces centring, scaling and compression", "statement": "With whiten_data=True the result of fit does not depend on center_data, scale_data and compression, and fit leaves the parameters of the estimator as they were. (First part as claimed; the second is settled negatively: the three parameters are overwritten.)", "quantifier": "all data and parameters", "why_tests_cant": "Relates runs under different parameters.", "anchors": ["src/direpack/ppdire/ppdire.py:ppdire.fit"]}
{"id": "C152", "title": "ppdire does not depend on the order of the cases", "statement": "Listing the training cases (rows of X, and of y) in another order gives the same parameters, weights, loadings, criteria, locations and scales, coefficients and intercepts, and the scores, fitted values and residuals in the new order, provided the projection index, the regression and the singular value decomposition do not look at the order; dicomo and capi do not. (Holds for the grid. The other optimisers are started at the first case, so that an optimiser whose answer depends on its starting value gives other weights.)", "quantifier": "all data, orders, indices, options, with or without whitening, compression and response", "why_tests_cant": "Universal over data and permutations; the failure depends on the optimiser.", "anchors": ["src/direpack/ppdire/ppdire.py:ppdire.fit", "src/direpack/ppdire/_ppdire_utils.py:gridplane", "src/direpack/ppdire/_ppdire_utils.py:gridplane_2"]}
{"id": "C153", "title": "capi does not depend on the order of the cases", "statement": "capi.fit returns the same value and leaves the same attributes when the cases of x and y are listed in another order.", "quantifier": "all samples, orders, weights, options and keyword arguments", "why_tests_cant": "Universal over data and permutations.", "anchors": ["src/direpack/ppdire/capi.py:capi.fit"]}
{"id": "C154", "title": "a grid fit with valid arguments completes", "statement": "With optimizer='grid', at least three columns and two cases, ndir >= 1 and maxiter >= 1, an index and a pseudo-inverse that always answer (the variance index does), at most min(n, p) components, trimming below one half, mean or median centring and either no response or a one-column response with regopt='OLS', or passed by keyword with regopt='robust' or 'quantile' and a regression that answers, fit raises no exception, changes no parameter but n_components and leaves maxiter and ndir in the options. (Data on which a score vanishes, giving NaN loadings, are not covered.)", "quantifier": "all data, indices, options and numbers of components, without whitening and compression", "why_tests_cant": "Universal over data and options: the search loops over all planes and iterations.", "anchors": ["src/direpack/ppdire/ppdire.py:ppdire.fit", "src/direpack/ppdire/_ppdire_utils.py:gridplane", "src/direpack/ppdire/_ppdire_utils.py:gridplane_2"]}
{"id": "C155", "title": "ppdire follows a change of the units of measurement", "statement": "With centred and scaled data (mean and standard deviation, or median and MAD; no trimming, whitening or compression; regopt other than 'quantile'), measuring variable j as a_j x + b_j (a_j > 0) and the response as c y + e (c > 0) leaves weights, loadings, rotations, scores, criterion values and the coefficients of the scaled data as they are; coefficients, intercept, fitted values and residuals are those of the same regression surface in the new units, predictions for new data in the new units are c times the old ones plus e and their scores are the old ones; a fit that fails, fails with the same exception.", "quantifier": "all data whose columns and response have spread, units, indices, optimisers, component numbers and options", "why_tests_cant": "Universal over data and units.", "anchors": ["src/direpack/ppdire/ppdire.py:ppdire.fit", "src/direpack/ppdire/ppdire.py:ppdire.predict", "src/direpack/ppdire/ppdire.py:ppdire.transform"]}
{"id": "C156", "title": "ppdire with quantile regression follows a change of the unit of the response", "statement": "With regopt='quantile', measuring the response in another unit (c y instead of y, c > 0) multiplies the regression coefficients by c.", "quantifier": "all data, units, indices, optimisers and component numbers, every quantile regression that is itself homogeneous in the response", "why_tests_cant": "Universal over data and units; a single fit gives no sign of the wrong unit.", "anchors": ["src/direpack/ppdire/ppdire.py:ppdire.fit"]}
{"id": "C157", "title": "whole numbers may be stored as integers", "statement": "Fitting a scaler or a ppdire object to a numpy array of integers has the same outcome as fitting it to the same numbers stored as floats.", "quantifier": "all data, centres, scales, projection indices, optimisers, options", "why_tests_cant": "The number type is independent of the values; tests use floats throughout.", "anchors": ["src/direpack/preprocessing/robcent.py:VersatileScaler.fit", "src/direpack/preprocessing/_preproc_utilities.py:scaleTau2", "src/direpack/ppdire/ppdire.py:ppdire.fit"]}
{"id": "C158", "title": "Huber and Hampel weights of whole-number distances do not depend on their number type", "statement": "The weight functions return the same weights for distances stored as integers and as floats.", "quantifier": "all distances and cut-offs", "why_tests_cant": "Universal over distances and cut-offs.", "anchors": ["src/direpack/sprm/_m_support_functions.py:Huber", "src/direpack/sprm/_m_support_functions.py:Hampel"]}
{"id": "C159", "title": "sudire with a direct method follows a linear change of the variables", "statement": "With the methods 'sir', 'save', 'dr', 'phd' and 'iht', centred by the mean and standardised, replacing X by X A + 1 c' with a regular matrix A leaves the response surface as it is: the new directions are the old ones expressed in the new variables up to an orthogonal matrix, the scores change by the same matrix and a constant row, the fitted values are the same and so are the predictions for new data in the new variables.", "quantifier": "all data, matrices A, shifts c, responses, numbers of slices and of components whose eigenvalues are separated from the rest; every correct eigenvalue routine and least-squares routine", "why_tests_cant": "Universal over data and changes of variables.", "anchors": ["src/direpack/sudire/_sudire_utils.py:sudire.fit", "src/direpack/sudire/sudire.py:SIR", "src/direpack/sudire/sudire.py:SAVE", "src/direpack/sudire/sudire.py:DR", "src/direpack/sudire/sudire.py:PHD", "src/direpack/sudire/sudire.py:IHT"]}
{"id": "C160", "title": "an instance created without optional arguments has the declared defaults", "statement": "get_params of a ppdire, sudire or capi object created with its required arguments only returns the defaults of the constructor's signature, sorted by name.", "quantifier": "the three estimator classes, all required arguments", "why_tests_cant": "get_params reads attributes by name; a constructor that forgets one gives None without an error.", "anchors": ["src/direpack/ppdire/capi.py:capi.__init__", "src/direpack/ppdire/capi.py:capi.get_params", "src/direpack/ppdire/ppdire.py:ppdire.__init__", "src/direpack/sudire/_sudire_utils.py:sudire.__init__"]}
{"id": "C161", "title": "sudire is created with mean or median centring, and with no other", "statement": "sudire(center=c) raises ValueError unless c is 'mean' or 'median'; otherwise the object has the parameters given.", "quantifier": "all centres and all other parameters", "why_tests_cant": "Universal over parameters.", "anchors": ["src/direpack/sudire/_sudire_utils.py:sudire.__init__"]}
{"id": "C162", "title": "snipls does not depend on the order or the direction of the variables", "statement": "Fitting snipls on the same columns in another order, some of them multiplied by -1, fails exactly when the original fit fails, with the same exception; otherwise the scores, fitted values, residuals and intercept are the same and the coefficients, weights, loadings, centres, scales and selected columns are those of the original fit, written in the new order (and sign). Predictions and scores of new data written in the new order are the same.", "quantifier": "all data, all reorderings and sign changes of the variables, mean/median/no centring, std/mad/no scaling, all sparsity parameters and numbers of components", "why_tests_cant": "Universal over data and over the permutations of the variables; a test fixes one order.", "anchors": ["src/direpack/sprm/snipls.py:snipls.fit", "src/direpack/sprm/snipls.py:snipls.predict", "src/direpack/sprm/snipls.py:snipls.transform"]}
{"id": "C163", "title": "rm does not depend on the order or the direction of the variables", "statement": "With a least-squares routine that itself follows the order and direction of the columns, rm on reordered and reflected columns fails exactly when the original fit fails; otherwise weights, fitted values, residuals and intercept are the same, the coefficients are the original ones in the new order, every least-squares problem posed is the original one reordered, and predictions of new data are the same.", "quantifier": "all data, all reorderings and sign changes of the variables, mean/median/no centring, std/mad/no scaling, all weight functions, cutoffs and iteration limits", "why_tests_cant": "Universal over data, permutations and number of iterations.", "anchors": ["src/direpack/sprm/rm.py:rm.fit", "src/direpack/sprm/rm.py:rm.predict"]}
{"id": "C164", "title": "sprm does not depend on the order or the direction of the variables", "statement": "sprm (fitted without column names) on reordered and reflected columns fails exactly when the original fit fails; otherwise the case weights, scores, fitted values, residuals and intercept are the same, the same variables are removed for zero scale, and the coefficients, weights and loadings of the kept ones are those of the original fit in the new order. Predictions, scores, new-data weights and validation scores of new data are the same.", "quantifier": "all data (with any variables of zero scale), all reorderings and sign changes, mean/median/no centring, std/mad/no scaling, all other parameters; when the starting values use principal components, every SVD routine whose left singular vectors change at most in sign", "why_tests_cant": "Universal over data, permutations, sparsity and number of iterations.", "anchors": ["src/direpack/sprm/sprm.py:sprm.fit", "src/direpack/sprm/sprm.py:sprm.predict", "src/direpack/sprm/sprm.py:sprm.transform", "src/direpack/sprm/sprm.py:sprm.weightnewx", "src/direpack/sprm/sprm.py:sprm.valscore"]}
{"id": "C165", "title": "a case that rm gives no weight cannot carry its coefficients away", "statement": "When rm reports weight zero for a case, the coefficients stay bounded whatever the response of that case. (Settled negatively: the weights below 1e-6 are replaced by 1e-6 in every regression. For five cases on a line, one of them with response M, rm reports weight 0 for that case and its slope is (9+M/10^6)/(9+1/10^6), for every M of at least 10000: the estimator has no breakdown protection.)", "quantifier": "all responses M from 10000 on, all Hampel cut-offs in the usual range, all iteration limits and tolerances, every exact least-squares routine", "why_tests_cant": "An unbounded family of data; a test sees one outlier of moderate size, where the effect is below its tolerance.", "anchors": ["src/direpack/sprm/rm.py:rm.fit"]}
{"id": "C166", "title": "generalised spatial signs follow rotations, translations and changes of unit", "statement": "Rotating or reflecting the cases, multiplying all of them by c > 0 and translating them rotates the generalised spatial signs and multiplies them by c (spatial signs themselves: they are only rotated, for cases not within 1e-10 of the centre). Holds with the mean as the centre, with the spatial median when the optimiser finds it and the cases are not on one line, and with every centre that follows the motion. With the coordinate-wise median it is false (witness).", "quantifier": "all data, all orthogonal matrices, all c and translations, all documented radial functions", "why_tests_cant": "Universal over a continuous group of motions.", "anchors": ["src/direpack/preprocessing/gsspp.py:gen_ss_pp", "src/direpack/preprocessing/_preproc_utilities.py:l1median", "src/direpack/preprocessing/robcent.py:VersatileScaler"]}
{"id": "C167", "title": "kstepLTS follows rotations, translations and changes of unit", "statement": "Every concentration step of kstepLTS on moved data is the moved step; with the tolerance converted with the data, kstepLTS in other units returns the estimate in those units. The scaler's absolute tolerance of 1e-10 breaks this: measured in another unit the same cases can get another centre (witness).", "quantifier": "all data, rotations, units, numbers of steps and tolerances", "why_tests_cant": "Universal over data, motions and iteration counts; the failure needs moves near the tolerance.", "anchors": ["src/direpack/preprocessing/_preproc_utilities.py:kstepLTS", "src/direpack/preprocessing/robcent.py:VersatileScaler.fit"]}
{"id": "C168", "title": "Wrapper follows changes of unit and direction of the variables", "statement": "When column j is replaced by a_j x + b_j (a_j not zero, MAD of the column not zero), every wrapped value y in it becomes a_j y + b_j, whatever location and scale were fitted before.", "quantifier": "all data, all units, shifts and reversals of the variables", "why_tests_cant": "Universal over data and affine maps.", "anchors": ["src/direpack/preprocessing/robcent.py:Wrapper.transform", "src/direpack/preprocessing/_preproc_utilities.py:wrap", "src/direpack/preprocessing/_preproc_utilities.py:wrap_univ"]}
{"id": "C169", "title": "new data with another number of variables are refused", "statement": "predict, transform, weightnewx and valscore of a fitted snipls, rm, sprm, ppdire or sudire object raise ValueError for new data whose number of variables differs from that of the training data (predict of a ppdire object fitted without response: AttributeError). rm and sprm fitted with copy=False cannot check and raise AttributeError for all new data.", "quantifier": "all fits, all new data (matrices, and vectors as single cases), for ppdire and sudire without compression or with at most as many variables as cases", "why_tests_cant": "Universal over fits and new data.", "anchors": ["src/direpack/sprm/snipls.py:snipls.predict", "src/direpack/sprm/snipls.py:snipls.transform", "src/direpack/sprm/rm.py:rm.predict", "src/direpack/sprm/sprm.py:sprm.valscore", "src/direpack/sprm/sprm.py:sprm.weightnewx", "src/direpack/ppdire/ppdire.py:ppdire.transform", "src/direpack/sudire/sudire.py:sudire.transform"]}
{"id": "C170", "title": "grid options without directions or iterations are refused", "statement": "For data and options with which a grid fit of ppdire otherwise completes, ndir = 0 raises ValueError, maxiter = 0 raises OverflowError and a negative maxiter raises ValueError; a negative ndir never gives a fit.", "quantifier": "all data, projection indices, options dictionaries and numbers of components from one", "why_tests_cant": "Universal over data and indices.", "anchors": ["src/direpack/ppdire/ppdire.py:ppdire.fit", "src/direpack/ppdire/_ppdire_utils.py:gridplane"]}
{"id": "C171", "title": "abandoned compression is the same as no compression", "statement": "When there are more variables than cases and compression is asked for, but the compressed data have a column of zero MAD, ppdire and sudire warn 'Proceeding without compression'; the fit is then the one obtained with compression=False.", "quantifier": "all data with more variables than cases, singular value decompositions, methods and options without whitening", "why_tests_cant": "Universal over data of deficient rank and over optimisers.", "anchors": ["src/direpack/ppdire/ppdire.py:ppdire.fit", "src/direpack/sudire/sudire.py:sudire.fit"]}
{"id": "C172", "title": "a response in a one-column data frame gives the same model as the same response in an array", "statement": "ppdire.fit and sudire.fit accept the response as a pandas DataFrame with one column, and the fitted model predicts what the model fitted to the array of its values predicts.", "quantifier": "all data, one-column data frames of two or more rows, methods, optimisers and options", "why_tests_cant": "Universal over data and options; the shapes differ for every number of cases above one.", "anchors": ["src/direpack/utils/utils.py:convert_y_input", "src/direpack/ppdire/ppdire.py:ppdire.fit", "src/direpack/ppdire/ppdire.py:ppdire.predict", "src/direpack/sudire/sudire.py:sudire.fit"]}
{"id": "C173", "title": "the optimised sudire methods attain the optimum of the criterion they are named after", "statement": "Given a solver whose answers are constrained minima, sudire.fit with 'dcov-sdr' (or 'mdd-sdr') returns directions P with P' cov(X) P = I whose scores have the largest distance covariance (martingale difference divergence) with the response among the scores X C of all matrices C with C' cov(X) C = I, whether the data are scaled, centred and compressed or not.", "quantifier": "all data matrices and responses, numbers of components, starting values, options scale_data, center_data and compression, and all solvers whose answers are constrained minima", "why_tests_cant": "Universal over the competitors C (a continuum) and over the data.", "anchors": ["src/direpack/sudire/sudire.py:sudire.fit", "src/direpack/sudire/_sudire_utils.py:dcov_trim", "src/direpack/sudire/_sudire_utils.py:mdd_trim", "src/direpack/sudire/_sudire_utils.py:const_xscale", "src/direpack/sudire/_sudire_utils.py:const_zscale"]}
{"id": "C174", "title": "snipls accepts exactly the documented sparsity parameters", "statement": "The constructor of snipls succeeds exactly for eta in [0,1) (0 included) and a positive number of components.", "quantifier": "all real eta and natural numbers of components", "why_tests_cant": "Universal over the parameters.", "anchors": ["src/direpack/sprm/snipls.py:snipls.__init__"]}
{"id": "C175", "title": "ppdire with the variance as index computes the principal components", "statement": "With the variance as projection index, mean centring, no trimming and an optimiser that returns a constrained maximiser whenever it answers, every fit of ppdire in which each component has positive variance gives principal components of the scaled data Z: the columns of x_weights_ are mutually orthogonal unit eigenvectors of the sample covariance matrix of Z, Maxobjf_ holds the eigenvalues in decreasing order, x_scores_ are the projections of Z itself (not of the deflated data) on the weights and are mutually orthogonal, and component i maximises the variance among all unit directions orthogonal to the weights before it.", "quantifier": "all data, numbers of components, bias settings and all exact optimisers", "why_tests_cant": "Universal over the data and over the competing directions (a continuum).", "anchors": ["src/direpack/ppdire/ppdire.py:ppdire.fit", "src/direpack/dicomo/dicomo.py:dicomo.fit"]}
{"id": "C176", "title": "ppdire with the covariance as index is partial least squares, the same as snipls without sparsity", "statement": "With the covariance with the response as projection index, mean centring, no trimming and an optimiser that returns a constrained maximiser whenever it answers, every fit of ppdire in which each component has positive covariance is partial least squares: weight i is the normalised vector of inner products of the scaled response with the columns of the data deflated by the earlier scores, Maxobjf_ is proportional to its length, and snipls fitted with eta=0 to the same data has the same weights, the same scores, the same inner coefficients (regopt 'OLS'), the same fitted values (correct inverses, non-zero scales) and, unless the first weight vector contains a zero, the same loadings.", "quantifier": "all data, responses, numbers of components, bias settings and all exact optimisers", "why_tests_cant": "Two implementations compared on all inputs; universal over the competing directions (a continuum).", "anchors": ["src/direpack/ppdire/ppdire.py:ppdire.fit", "src/direpack/sprm/snipls.py:snipls.fit", "src/direpack/dicomo/dicomo.py:dicomo.fit"]}
{"id": "C177", "title": "the first components do not depend on how many are asked for, and more components never fit worse", "statement": "If snipls, ppdire or (with sir, save, dr, phd or iht) sudire is fitted to the same data with k and with k' <= k components, then weights, loadings and scores of the smaller fit are the first k' columns of those of the larger one, and so are the inner coefficients, explained variances, criterion values and, for ppdire, the columns of coef_; location and scale are the same. For ppdire the smaller fit succeeds whenever the larger does. For snipls the sum of squared training residuals of the larger fit is at most that of the smaller one.", "quantifier": "all data, numbers of components, options, projection indices, optimisers and sparsity parameters", "why_tests_cant": "Relates two runs on the same arbitrary input for every pair of numbers of components.", "anchors": ["src/direpack/sprm/snipls.py:snipls.fit", "src/direpack/ppdire/ppdire.py:ppdire.fit", "src/direpack/sudire/sudire.py:sudire.fit", "src/direpack/sudire/_sudire_utils.py:SIR"]}
{"id": "C178", "title": "the scores and loadings of ppdire decompose the data", "statement": "For every projection index and optimiser, a fit of ppdire without whitening and compression whose score vectors are not zero writes the scaled data as x_scores_ times the transpose of x_loadings_ plus a remainder that is orthogonal to every score vector; the squared lengths add up, and no other loadings leave a smaller remainder. With as many components as variables the remainder is zero and the data are recovered from centre, scale, scores and loadings. With the variance as index and an exact optimiser x_loadings_ equals x_weights_ and the total variance of the scaled data is the sum of Maxobjf_ plus the variance left over.", "quantifier": "all data, projection indices, optimisers, numbers of components and options without whitening and compression", "why_tests_cant": "Universal over data, over the optimiser and over all competing loadings (a continuum).", "anchors": ["src/direpack/ppdire/ppdire.py:ppdire.fit"]}
{"id": "C179", "title": "with as many components as variables snipls and ppdire are ordinary least squares", "statement": "With mean centring and as many components as variables (non-zero scores and scales), snipls with any sparsity parameter and ppdire with regopt='OLS' and any projection index and optimiser are ordinary least squares with an intercept: no affine function of the variables has a smaller residual sum of squares, the residuals of ppdire are orthogonal to every variable, and both estimators have the same fitted values.", "quantifier": "all data, responses, sparsity parameters, projection indices, optimisers, scalings", "why_tests_cant": "Universal over data and over all competing coefficients (a continuum); relates two implementations.", "anchors": ["src/direpack/sprm/snipls.py:snipls.fit", "src/direpack/ppdire/ppdire.py:ppdire.fit"]}
{"id": "C180", "title": "every documented centre and function name works in gen_ss_pp as in the class", "statement": "gen_ss_pp(X, center, fun) and GenSpatialSignPreProcessor(center, fun).fit_transform(X) accept the same documented options, among them center='None', for every data set, and unknown names are reported without changing the object.", "quantifier": "all data sets, centres, radial functions, objects", "why_tests_cant": "The claim is about all data sets and all combinations of options.", "anchors": ["src/direpack/preprocessing/gsspp.py:gen_ss_pp", "src/direpack/preprocessing/gsspp.py:GenSpatialSignPreProcessor"]}
{"id": "C181", "title": "dicomo accepts each sample as a vector or as a single column", "statement": "For every estimator, mode and option, dicomo.fit gives the same value and leaves the same attributes whether the samples x and y are one-dimensional arrays or arrays with one column.", "quantifier": "all samples, modes, estimators, centres, options", "why_tests_cant": "Universal over samples and over all option combinations.", "anchors": ["src/direpack/dicomo/dicomo.py:dicomo.fit", "src/direpack/dicomo/_dicomo_utils.py:distance_matrix_centered"]}
{"id": "C182", "title": "a list of colours that is too short is reported as an IndexError by every plot", "statement": "With fewer than two colours every plotting method of sprm, sudire and ppdire raises IndexError whatever is plotted; with fewer than five every plot that shows training cases does.", "quantifier": "all fitted models, themes, labels, names, new cases", "why_tests_cant": "Universal over models and arguments of the plots.", "anchors": ["src/direpack/plot/sprm_plot.py:sprm_plot", "src/direpack/plot/sudire_plot.py:sudire_plot", "src/direpack/plot/ppdire_plot.py:ppdire_plot"]}
{"id": "C183", "title": "with the variance as index ppdire gives the best low-rank approximation of the data", "statement": "With the variance as projection index, mean centring and an optimiser that is right whenever it answers, for every k up to the number of components: no k mutually orthogonal directions have a larger total variance than the first k entries of Maxobjf_, and the first k columns of x_scores_ times the first k columns of x_loadings_ are at least as close (sum of squared errors) to the scaled data as any matrix of rank k.", "quantifier": "all data, numbers of components, competing directions and matrices of rank k", "why_tests_cant": "Universal over data and over all competing matrices (a continuum).", "anchors": ["src/direpack/ppdire/ppdire.py:ppdire.fit", "src/direpack/dicomo/dicomo.py:dicomo.fit"]}
{"id": "C184", "title": "estimates depend on how often each case occurs relative to the others only", "statement": "If every case of a data set is repeated the same number of times, in any order, then column centres and scales (mean, median, std, mad), the snipls model (coefficients, weights, loadings, explained variances, intercept), and variance, skewness, kurtosis and distance covariance without bias correction are the same; copies of a case have the same scores, fitted values and residuals. Estimates with trimming or bias correction do not have this property.", "quantifier": "all data sets, numbers of repetitions, orders, centres and scales by column, sparsity parameters, numbers of components", "why_tests_cant": "Relates runs on data sets of different sizes, for every number of repetitions.", "anchors": ["src/direpack/preprocessing/_preproc_utilities.py:mean", "src/direpack/preprocessing/_preproc_utilities.py:median", "src/direpack/preprocessing/_preproc_utilities.py:std", "src/direpack/preprocessing/_preproc_utilities.py:mad", "src/direpack/preprocessing/robcent.py:VersatileScaler", "src/direpack/sprm/snipls.py:snipls.fit", "src/direpack/dicomo/dicomo.py:dicomo.fit"]}
{"id": "C185", "title": "sufficient dimension reduction functions refuse a response of another length", "statement": "SIR, SAVE and DR (with at least one slice) raise IndexError, PHD and IHT ValueError, for every response whose length differs from the number of cases, whenever the data are accepted with some other response; none of them returns a basis.", "quantifier": "all data, responses, numbers of slices, kinds of response, centring and scaling options, dimensions", "why_tests_cant": "Universal over data and responses of every wrong length.", "anchors": ["src/direpack/sudire/_sudire_utils.py:SIR", "src/direpack/sudire/_sudire_utils.py:SAVE", "src/direpack/sudire/_sudire_utils.py:DR", "src/direpack/sudire/_sudire_utils.py:PHD", "src/direpack/sudire/_sudire_utils.py:IHT"]}
{"id": "C186", "title": "snipls without sparsity is least squares over a Krylov space", "statement": "With eta = 0 and h components with nonzero scores, the combinations of the weight vectors of a snipls fit are exactly the combinations of X0'y0, (X0'X0) X0'y0, ..., (X0'X0)^(h-1) X0'y0, X0 and y0 being the scaled data; the scaled coefficients lie in this space and have the smallest residual sum of squares in it.", "quantifier": "all data, numbers of components, centre and scale options, competing coefficient vectors", "why_tests_cant": "Universal over data and competing coefficients; an equality of two spaces.", "anchors": ["src/direpack/sprm/snipls.py:snipls.fit"]}
{"id": "C187", "title": "a snipls fit depends on the scaled data through inner products only", "statement": "Two snipls fits with the same parameters whose scaled data have the same inner products between variables and with the response have the same weights, loadings, inner coefficients, rotations, scaled coefficients, retained variables and explained x variances, even if the numbers of cases and the centre and scale options differ; the explained y variances agree too if the responses have the same sum of squares.", "quantifier": "all pairs of data sets (of any sizes), sparsity parameters, numbers of components", "why_tests_cant": "Relates two runs on arbitrary different data sets.", "anchors": ["src/direpack/sprm/snipls.py:snipls.fit"]}
{"id": "C188", "title": "M-estimator weights in floating-point arithmetic", "statement": "When every operation is rounded (doubles or any other monotone rounding), Fair, Huber and Hampel weights of non-negative distances lie in [0, 1]; Huber and Hampel weights are exactly 1 up to the first cut-off, Hampel weights exactly 0 from the last one on; a larger distance never gets a larger weight.", "quantifier": "all roundings, weight functions, cut-offs (at least 1), vectors of distances", "why_tests_cant": "Universal over all floating-point inputs; the failing pairs are neighbouring doubles that sampling misses.", "anchors": ["src/direpack/sprm/_m_support_functions.py:Fair", "src/direpack/sprm/_m_support_functions.py:Huber", "src/direpack/sprm/_m_support_functions.py:Hampel"]}
{"id": "C189", "title": "in floating-point arithmetic the estimated centre and scale do not depend on the order of the cases", "statement": "When every operation is rounded, VersatileScaler with any of the centres and scales stores bit for bit the same centre and scale, and scales every case to bit for bit the same values, when the cases are given in another order; the centre lies between the smallest and the largest value (median: between the two middle ones).", "quantifier": "all roundings, data, orders of the cases", "why_tests_cant": "Universal over roundings and permutations of data of any size.", "anchors": ["src/direpack/preprocessing/_preproc_utilities.py:median", "src/direpack/preprocessing/_preproc_utilities.py:mad", "src/direpack/preprocessing/_preproc_utilities.py:mean", "src/direpack/preprocessing/robcent.py:VersatileScaler"]}
{"id": "C190", "title": "in floating-point arithmetic a constant column standardises to zero", "statement": "When every operation is rounded, VersatileScaler scales a column with one distinct value to exactly 0, and scaling never swaps two values of a column.", "quantifier": "all roundings, data, columns", "why_tests_cant": "Universal over floating-point data of any size.", "anchors": ["src/direpack/preprocessing/_preproc_utilities.py:scale_data", "src/direpack/preprocessing/_preproc_utilities.py:_handle_zeros_in_scale", "src/direpack/preprocessing/_preproc_utilities.py:std", "src/direpack/preprocessing/robcent.py:VersatileScaler"]}
{"id": "C191", "title": "SIR and PHD directions are optimal among all uncorrelated unit-variance projections", "statement": "On data with an invertible covariance matrix, the scores of the directions returned by SIR (centred and standardised) are uncorrelated with variance one, and for every m the first m of them have the largest total variance between slices that any m directions with uncorrelated scores of variance one can have. The same holds for PHD with the covariance of the response and the squared score.", "quantifier": "all data with invertible covariance, responses, numbers of slices and directions, all competing sets of directions", "why_tests_cant": "The competitors form an uncountable set.", "anchors": ["src/direpack/sudire/_sudire_utils.py:SIR", "src/direpack/sudire/_sudire_utils.py:PHD"]}
{"id": "C192", "title": "SIR with enough directions loses no difference between slice means", "statement": "On data with an invertible covariance matrix, when SIR is asked for at least as many directions as slices (or one less, if every class has its slice), every projection of the data that is uncorrelated with all SIR scores has the same mean in every slice, and the slice means of every variable are exactly those predicted linearly from the slice means of the scores.", "quantifier": "all data with invertible covariance, responses, numbers of slices and directions, all projections", "why_tests_cant": "The projections form an uncountable set; data and sizes are arbitrary.", "anchors": ["src/direpack/sudire/_sudire_utils.py:SIR"]}
{"id": "C193", "title": "regression options of ppdire", "statement": "fit accepts or refuses a regression option before it computes anything, and every documented option works with the response passed in either way; without a response the option has no effect.", "quantifier": "all data, parameters, options, projection indices, optimisers", "why_tests_cant": "Universal over data and options.", "anchors": ["src/direpack/ppdire/ppdire.py:ppdire.fit"]}
{"id": "C194", "title": "in floating-point arithmetic the case weights of rm and sprm stay in [0, 1]", "statement": "When every operation is rounded, the x and y weights of a fitted rm or sprm model lie in [0, 1], there is one per case, the case weight is the rounded product of the two, and it is 0 or between 1e-6 and 1.", "quantifier": "all roundings, data, weight functions, valid cut-offs", "why_tests_cant": "Universal over floating-point data of any size.", "anchors": ["src/direpack/sprm/rm.py:rm.fit", "src/direpack/sprm/sprm.py:sprm.fit", "src/direpack/sprm/_m_support_functions.py:Fair", "src/direpack/sprm/_m_support_functions.py:Huber", "src/direpack/sprm/_m_support_functions.py:Hampel"]}
{"id": "C195", "title": "the optimised sudire method starts at the best of SAVE, SIR and DR", "statement": "With method 'dcov-sdr' and no optimizer_start, fit computes the directions of SAVE (3 slices), SIR and DR (6 slices) on the prepared data, stores in optimizer_start the one whose scores have the largest squared distance covariance with the response (ties in this order) and runs the optimiser from it and from nowhere else; a given optimizer_start is kept and used.", "quantifier": "all data, responses, options, eigensolvers, optimisers", "why_tests_cant": "Quantifies over all data and over every behaviour of the optimiser.", "anchors": ["src/direpack/sudire/sudire.py:sudire.fit", "src/direpack/sudire/_sudire_utils.py:SAVE", "src/direpack/sudire/_sudire_utils.py:SIR", "src/direpack/sudire/_sudire_utils.py:DR"]}
{"id": "C196", "title": "Missing values in the data given to rm, sprm and snipls", "statement": "If the X or the y given to rm.fit contains a missing value and the fit succeeds, then intercept_, every fitted value, every residual and every prediction of the model, for whatever new data, is missing. The same holds for sprm, for a missing value in y or in a column of X that is not dropped, unless center is 'None'. snipls skips missing values in fit: the fitted value of a case with missing entries is the sum over its observed entries plus the intercept. But snipls.predict, given the same X, returns a missing value for that case, so fitted_ and predict(X) differ.", "quantifier": "all data matrices and responses with missing entries, all parameters, all results of the external solvers", "why_tests_cant": "Holds for every position and number of missing values and every later prediction; a test shows one data set.", "anchors": ["src/direpack/sprm/rm.py:rm.fit", "src/direpack/sprm/rm.py:rm.predict", "src/direpack/sprm/sprm.py:sprm.fit", "src/direpack/sprm/sprm.py:sprm.predict", "src/direpack/sprm/snipls.py:snipls.fit", "src/direpack/sprm/snipls.py:snipls.predict"]}
{"id": "C197", "title": "The reweighting sequence of rm", "statement": "Every successful fit of rm is iteratively reweighted least squares. The leverage weight of a case is the chosen weight function (Fair, Huber or Hampel) at the norm of its scaled row divided by the median of these norms, with chi-square cut-offs if start_cutoff_mode is specific and normal ones otherwise. The first problem weights each case by its leverage weight times the weight of its starting response distance: |scaled y| for median and mad, (y - median)/(1.4826 MAD) otherwise. Every later problem weights each case by its leverage weight times the weight of |residual|/(1.4826 s) under the previous coefficients, where s is the median absolute residual, or that of the non-zero residuals if at least half are zero. Weights below 1e-6 are raised to 1e-6, rows and responses are multiplied by the square root of the weight, the scaled coefficients reported are the solution of the last problem, and the case weights reported are the leverage weights times the residual weights under the last coefficients, set to zero below 1e-6.", "quantifier": "all data with at least two cases, all parameters, all centring and scaling functions, all least-squares solvers and quantile functions with valid cut-offs, any number of passes; exact arithmetic, divisors not zero (see C200)", "why_tests_cant": "The weights of each pass depend on all earlier passes; a test compares one final coefficient vector.", "anchors": ["src/direpack/sprm/rm.py:rm.fit", "src/direpack/sprm/_m_support_functions.py:Huber", "src/direpack/sprm/_m_support_functions.py:Hampel", "src/direpack/sprm/_m_support_functions.py:Fair"]}
{"id": "C198", "title": "The reweighting sequence of sprm", "statement": "Every successful fit of sprm is a sequence of snipls fits (mean centred, not scaled) to weighted data. The data are the scaled variables of non-zero scale and the scaled response, multiplied by the square roots of the case weights; weights below 1e-6 are raised to 1e-6. The first weights are the product of the weight of the starting leverage (row norm over median row norm, of the data or, for pcapp, of as many rescaled left singular vectors as precede the first component whose share of the variance does not exceed the broken stick, at least one) and of the starting response distance. Every later weight is the product of the weight of the leverage of the scores of the previous fit, divided by the square roots of the previous weights and rescaled by the centre and scale of the data (mad if the data are not scaled), and of |scaled response - previous fitted values of the weighted data|/(1.4826 s), s their median absolute value. For Hampel the cut-offs of the scores are chi-square quantiles with n_components degrees of freedom whatever start_cutoff_mode. The scaled coefficients reported are those of the last inner fit, and the case weights reported are the products of the weights computed from it, set to zero below 1e-6.", "quantifier": "all data with at least two cases, all parameters, centring and scaling functions, all decompositions, inverses and quantile functions with valid cut-offs, any number of passes; exact arithmetic, divisors not zero", "why_tests_cant": "The weights of each pass depend on all earlier passes; a test compares one final result.", "anchors": ["src/direpack/sprm/sprm.py:sprm.fit", "src/direpack/sprm/_m_support_functions.py:brokenstick", "src/direpack/sprm/snipls.py:snipls.fit"]}
{"id": "C199", "title": "Without outlying cases rm is least squares and sprm is snipls", "statement": "If no case is outlying, robust regression changes nothing: with the Huber or Hampel function, if the row norms of the scaled data relative to their median, the starting response distances and the least-squares residuals relative to their scale do not exceed the first cut-off, the scaled coefficients of rm are the least-squares solution of the scaled data and every case weight is 1. If the same holds of the starting data of sprm and of the scores and residuals of a snipls fit to the scaled variables of non-zero scale, sprm reports the coefficients of that snipls fit and every case weight is 1.", "quantifier": "all data with at least two cases, all parameters with the Huber or Hampel function, all centring and scaling functions, all solvers, decompositions, inverses and quantile functions with valid cut-offs, any number of passes; exact arithmetic, divisors not zero (residuals that are all zero: C200)", "why_tests_cant": "A test compares the two estimators on one clean sample; the claim is about every sample without outliers and any number of passes.", "anchors": ["src/direpack/sprm/rm.py:rm.fit", "src/direpack/sprm/sprm.py:sprm.fit", "src/direpack/sprm/snipls.py:snipls.fit"]}
{"id": "C200", "title": "rm reproduces an exact linear relation", "statement": "If the response is exactly a linear function of the variables, rm returns that function. (Settled negatively: when the first least-squares solution reproduces the scaled response exactly, the scale of the residuals is the median of an empty array, so that every weight of the next pass is missing. Unless the loop ends there, the next problem consists of missing values only and the solver's LinAlgError is raised; if the loop ends there, every case weight reported is missing.)", "quantifier": "all data with at least two cases whose scaled response is reproduced exactly, all weight functions, cut-offs, centring and scaling options, all solvers that refuse missing values", "why_tests_cant": "Simulated responses carry noise; the claim is about every exactly linear response.", "anchors": ["src/direpack/sprm/rm.py:rm.fit", "src/direpack/sprm/_m_support_functions.py:Huber"]}
{"id": "C201", "title": "rm fits data in which most cases have the same values of the variables", "statement": "If more than half of the cases lie at the centre of the variables, for example for a binary variable centred by its median, rm gives these cases full leverage weight and fits the model. (Settled negatively: the median distance is then zero, the distance of a case at the centre relative to it is 0/0, and its row of the first least-squares problem is missing; the fit raises the solver's LinAlgError for every response, weight function and cut-off.)", "quantifier": "all data with at least two cases of which more than half are zero after centring and scaling, all valid parameters with maxit at least 2 and tol below 1, all solvers that refuse missing values", "why_tests_cant": "Tests use continuous variables; the claim is about every set of variables with coinciding cases.", "anchors": ["src/direpack/sprm/rm.py:rm.fit"]}
{"id": "C202", "title": "the case weights of sprm are numbers if most cases have the same values of the variables", "statement": "If more than half of the cases lie at the centre of the variables that are kept, sprm without the initial projection (start_X_init not pcapp) reports a number as the weight of every case. (Settled negatively: the relative distance of a case at the centre is 0/0, its scores in the first weighted fit are missing, and so is the median that standardises the distances of all cases; whenever the fit completes, the reported weight of every case, not only of those at the centre, is missing.)", "quantifier": "all data with at least two cases of which more than half are zero in the kept variables after centring and scaling, all parameters with start_X_init other than pcapp for which the fit completes, all external routines", "why_tests_cant": "Tests use continuous variables; the claim is about every set of variables with coinciding cases and any number of passes.", "anchors": ["src/direpack/sprm/sprm.py:sprm.fit"]}
{"id": "C203", "title": "the reweighting of rm ends for one of three reasons, and at the first", "statement": "The passes of rm end exactly after the first pass for which the squared length of the coefficients changed by at most the fraction tol (relative to 1e-5 for the first pass), or which was pass number maxit-1, or after which at least half of the reported case weights are zero; before that every pass is followed by another, and the coefficients reported are those of the last pass.", "quantifier": "all data, weight functions, cut-offs (positive and ordered), values of tol and maxit, and least-squares solvers, for fits that complete, in exact arithmetic, divisors not zero", "why_tests_cant": "Tests see a few converging runs; the claim is about every run, whatever number of passes it makes.", "anchors": ["src/direpack/sprm/rm.py:rm.fit"]}
{"id": "C204", "title": "the reweighting of sprm ends for one of three reasons, and at the first", "statement": "The weighted fits of sprm end exactly after the first one for which the squared length of the coefficients changed by at most the fraction tol (relative to 1e-5 for the first), or which was number maxit-1, or after which at least half of the reported case weights are zero; before that every weighted fit is followed by another, and the scaled coefficients reported are those of the last.", "quantifier": "all data, parameters, starting values, cut-offs (positive and ordered) and external routines, for fits that complete, in exact arithmetic, divisors not zero", "why_tests_cant": "Tests see a few converging runs; the claim is about every run, whatever number of passes it makes.", "anchors": ["src/direpack/sprm/sprm.py:sprm.fit"]}
{"id": "C205", "title": "a large tolerance gives a fit after one pass", "statement": "With tol = 1 or more, rm and sprm make one weighted fit and report it. (Settled negatively: the relative change is set to 1 before the first pass, so that with tol of 1 or more no pass is made; rm solves no problem and raises UnboundLocalError for every data set and all plain centring and scaling options, and neither rm nor sprm ever returns a fit, whatever the options and the arithmetic.)", "quantifier": "all data, options, external routines and arithmetics; for the exact error of rm valid parameters, at least two cases and mean, median or no centring and std, mad or no scaling", "why_tests_cant": "Tests use the default tolerance; the claim is about every data set and option.", "anchors": ["src/direpack/sprm/rm.py:rm.fit", "src/direpack/sprm/sprm.py:sprm.fit"]}
{"id": "C206", "title": "when the refinement of the grid optimiser ends", "statement": "After the first sweep the grid optimiser of ppdire makes passes over all columns until a pass changes the objective by at most 1e-4 of its value, and at most maxiter + 1 passes; the direction and value reported are those after the last pass. At least two passes are made, so that the first change compared is that of the second pass. (Holds if the index of no unit direction is zero or below -999; if the first sweep ends within 0.1 of -1000, no pass is made and -1000 is reported whatever the index is.)", "quantifier": "all data with at least three columns, all indices with the stated bound, numbers of directions for which no direction is degenerate, and all maxiter", "why_tests_cant": "The number of passes depends on the data; a test observes one run.", "anchors": ["src/direpack/ppdire/ppdire.py:ppdire.fit"]}
