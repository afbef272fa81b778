#!/usr/bin/env python3
"""Single source for properties.jsonl (id, title, statement, quantifier, why, anchors)."""
import json, os
P = []
def prop(id, title, statement, quantifier, why, anchors):
    P.append(dict(id=id, title=title, statement=statement, quantifier=quantifier,
                  why_tests_cant=why, anchors=anchors))
PRE = "src/direpack/preprocessing/_preproc_utilities.py"
ROB = "src/direpack/preprocessing/robcent.py"
GSU = "src/direpack/preprocessing/_gsspp_utils.py"
GSP = "src/direpack/preprocessing/gsspp.py"
UT = "src/direpack/utils/utils.py"
MS = "src/direpack/sprm/_m_support_functions.py"
SN = "src/direpack/sprm/snipls.py"
RM = "src/direpack/sprm/rm.py"
SP = "src/direpack/sprm/sprm.py"
DU = "src/direpack/dicomo/_dicomo_utils.py"
DI = "src/direpack/dicomo/dicomo.py"
PU = "src/direpack/ppdire/_ppdire_utils.py"
CA = "src/direpack/ppdire/capi.py"
PP = "src/direpack/ppdire/ppdire.py"
SU = "src/direpack/sudire/_sudire_utils.py"
SD = "src/direpack/sudire/sudire.py"
IW = "src/direpack/ipopt_temp/ipopt_wrapper.py"
IJ = "src/direpack/ipopt_temp/jacobian.py"
CV = "src/direpack/cross_validation/_cv_support_functions.py"
PL = "src/direpack/plot/sprm_plot.py"

# ---- scaling ------------------------------------------------------------
prop("C01", "transform standardises every cell with the fitted column centre and scale",
 "After VersatileScaler.fit, transform(X) (and predict(X)) of a matrix with at least two rows returns a matrix of the same shape whose cell (i,j) is (X[i,j]-center_[j])/scale_[j], where a scale of exactly zero counts as one; fit_transform(X) is fit followed by transform.",
 "all centre/scale options, all real matrices with >= 2 rows, all fitted states, all cells",
 "A test checks a handful of matrices; the claim is about every cell of every matrix and every fitted state.",
 [ROB+":VersatileScaler.transform", ROB+":VersatileScaler.predict", ROB+":VersatileScaler.fit_transform", PRE+":scale_data", PRE+":_handle_zeros_in_scale"])
prop("C02", "inverse_transform undoes transform",
 "For a fitted VersatileScaler and any matrix X with at least two rows, inverse_transform(transform(X)) equals X. (Settled: true exactly when no fitted scale is zero or the zero-scale columns equal their centre; false otherwise, already for fit_transform on data with a column of zero MAD that is not constant.)",
 "all fitted states and all matrices", "The failure needs a column with zero scale but non-constant values; the positive part is a universal algebraic identity.",
 [ROB+":VersatileScaler.inverse_transform", ROB+":VersatileScaler.transform", PRE+":_handle_zeros_in_scale"])
prop("C03", "mean/std standardisation gives zero column means and unit column variances",
 "fit_transform with center='mean', scale='std', trimming=0 returns columns whose mean is 0 and whose (population) variance is 1 if the column was not constant and 0 if it was.",
 "all real matrices with >= 2 rows", "Universal over the data.", [PRE+":mean", PRE+":std", PRE+":scale_data", ROB+":VersatileScaler.fit_transform"])
prop("C04", "median/MAD standardisation gives zero column medians and unit column MADs",
 "fit_transform with center='median', scale='mad' returns columns whose median is 0 and whose MAD (with the same consistency constant) is 1 when the fitted MAD was not zero.",
 "all real matrices with >= 2 rows, odd and even numbers of rows", "Universal over the data, including all tie patterns.", [PRE+":median", PRE+":mad", ROB+":VersatileScaler.fit_transform"])
prop("C05", "location and scale estimates are affine equivariant",
 "If a column x is replaced by a*x+b then its fitted mean, trimmed mean and median become a*m+b and its fitted std, trimmed std and MAD become |a|*s; other columns are unaffected. For scaleTau2 of a single column the same holds for the scale when the intermediate weights do not vanish.",
 "all columns, all real a (non-zero) and b, every admissible trimming fraction", "Universal over data and transformations.", [PRE+":mean", PRE+":std", PRE+":median", PRE+":mad", PRE+":scaleTau2"])
prop("C06", "column estimates ignore the order of the cases",
 "Permuting the rows of X does not change center_ or scale_ fitted with mean, std (trimmed or not), median or mad.",
 "all matrices, all permutations of the rows", "n! permutations per data set.", [PRE+":mean", PRE+":std", PRE+":median", PRE+":mad"])
prop("C07", "trimming fractions outside the supported range are rejected, never silently used",
 "VersatileScaler.fit raises ValueError for every trimming fraction below 0 or above 0.99. Within [0,0.99], a fraction t with floor(t*n) > n - floor(t*n) raises ValueError with the trimmed mean, so a returned trimmed mean is always an average of the n-2*floor(t*n) central order statistics.",
 "all trimming fractions and sample sizes", "Universal over reals t and sizes n.", [PRE+":_check_trimming", PRE+":mean", ROB+":VersatileScaler.fit"])
prop("C08", "a scaler's fitted state depends only on its parameters and the last fitted data",
 "For every sequence of fit/transform/predict/fit_transform/inverse_transform calls: center_ equals col_loc_ and scale_ equals col_sca_, both are what a fresh scaler fitted on the data of the last successful fit would hold, transform/predict/inverse_transform never change them, and transform/inverse_transform before any fit raise.",
 "all finite call histories", "Histories are unbounded.", [ROB+":VersatileScaler"])
prop("C09", "missing values are skipped column by column",
 "If X contains NaN, the untrimmed mean, std and median of a column equal the same statistic of that column's non-missing entries, and columns without NaN get the same value as if no NaN were present anywhere.",
 "all matrices over reals-with-NaN in which every column has a non-missing entry", "Universal over missingness patterns (2^(n*p)).", [PRE+":mean", PRE+":std", PRE+":median", PRE+":mad"])
prop("C10", "a single new observation is standardised column by column",
 "transform/predict of a 1 x p row (p >= 2) returns the row standardised with the p fitted centres and scales. (Settled negatively: the row is turned into a p x 1 column and every entry is standardised with the first column's centre and scale.)",
 "all fitted scalers with p >= 2 columns and all single rows", "Tests only use multi-row matrices.", [UT+":_check_input", ROB+":VersatileScaler.transform", ROB+":VersatileScaler.predict"])
prop("C11", "the column median cannot be carried away by fewer than half of the cases",
 "If fewer than half of the entries of a column are replaced by arbitrary values, the fitted median stays between the smallest and the largest of the untouched entries.",
 "all columns, all replacement sets of size k with 2k < n, all replacement values", "Contaminating values are unbounded.", [PRE+":median"])
prop("C12", "the column MAD neither explodes nor is negative",
 "mad is never negative, is zero iff strictly more than half of the entries coincide with the median, and under contamination of fewer than half of the entries stays at most (range of the untouched entries)/c.",
 "all columns and contaminations", "Contaminating values are unbounded.", [PRE+":mad"])
prop("C13", "the trimmed mean stays within the bulk of the data",
 "A trimmed mean with fraction t of n values lies between the (g+1)-th smallest and (g+1)-th largest value, g = floor(t*n); replacing at most g values arbitrarily keeps it within the range of the untouched values.",
 "all samples, fractions and contaminations of size <= g", "Contaminating values are unbounded.", [PRE+":mean"])
prop("C14", "the spatial-median gradient is a valid subgradient everywhere",
 "The objective handed to the optimiser for the spatial median is convex and the Jacobian handed to it is a subgradient at every point, including at data points; hence a point where the Jacobian vanishes is a global minimiser of the sum of Euclidean distances, and it is the only one unless all cases lie on one line.",
 "all data matrices and all pairs of points", "Statement over a continuum of points.", [PRE+":_l1m_objective", PRE+":_l1m_jacobian"])
prop("C15", "kstepLTS iterations are concentration steps",
 "Starting from any initial location, each kstepLTS iteration averages a subset of at least floor((n+1)/2) cases closest to the current location, never increases the sum of the floor((n+1)/2) smallest squared distances, and at most maxit iterations are made. (Monotonicity settled: true when no ties at the cut-off distance enlarge the subset, false otherwise, even when started in an exact spatial median.)",
 "all data, starting values, maxit and tol", "Unbounded numbers of iterations and data.", [PRE+":kstepLTS"])
prop("C16", "scaleTau2 scales each column on its own",
 "The scale scaleTau2 returns for a column depends on that column only. (Settled negatively for p >= 2: the weighted mean, the rho truncation and the final sum pool all columns; for p = 1 it is the textbook tau scale.)",
 "all matrices", "A cross-column dependency needs an adversarial pair of matrices.", [PRE+":scaleTau2"])
prop("C17", "wrapping is bounded, odd and redescending",
 "The wrapped value of a standardised observation z is z if |z| < 1.5, 0 if |z| >= 4, has the sign of z and absolute value at most 1.540793 in between, and wrap(-z) = -wrap(z).",
 "all real z, all columns", "Universal over reals.", [PRE+":wrap_univ"])
prop("C18", "Wrapper.transform/predict wrap new data with the fitted location and scale",
 "After Wrapper.fit(X), predict(Xn) and transform(Xn) use the location and scale estimated from X. (Settled negatively: location and scale are re-estimated from Xn; the fitted values are ignored.)",
 "all fitted wrappers and new data", "Requires comparing two different fitted states on the same new data.", [PRE+":wrap", PRE+":wrap_univ", ROB+":Wrapper.predict"])
# ---- spatial sign -------------------------------------------------------
prop("C19", "radial functions give weights in [0,1]",
 "Each of the radial functions quad, ss, winsor, ball, shell and linear_redescending assigns every case a factor between 0 and 1 (ss: times the norm at most 1), so each preprocessed row is a non-negative multiple of the centred row.",
 "all vectors of non-negative norms, all p, n", "Universal over data.", [GSU+":quad", GSU+":ss", GSU+":winsor", GSU+":ball", GSU+":shell", GSU+":linear_redescending", GSU+":_gsspp"])
prop("C20", "radial functions obey their published shape",
 "winsor caps norms at the cut-off; ball keeps a row iff its norm is at most the cut-off and zeroes it otherwise; quad maps norm d beyond the cut-off h to h^2/d; shell keeps exactly rows between its two cut-offs; linear_redescending leaves rows up to the cut-off, zeroes rows beyond the outer cut-off, and its factor never increases with the norm.",
 "all norms and cut-offs", "Universal over reals.", [GSU+":quad", GSU+":winsor", GSU+":ball", GSU+":shell", GSU+":linear_redescending"])
prop("C21", "the radial cut-off index is valid exactly when p <= n",
 "quad, winsor, ball, shell and linear_redescending raise IndexError for every data set with more columns than rows and never for n >= p >= 1.",
 "all n >= 1, p >= 1", "Universal over sizes.", [GSU+":quad", GSU+":winsor", GSU+":ball", GSU+":shell", GSU+":linear_redescending"])
prop("C22", "spatial signs are unit vectors",
 "With fun='ss' every centred row with norm >= 1e-10 is mapped to a vector of norm exactly 1 in the same direction, and every other row to norm below 1 (0 for the zero row).",
 "all data", "Universal over data.", [GSU+":ss", GSU+":_gsspp", GSU+":_spatial_sign"])
prop("C23", "gen_ss_covmat returns the p x p covariance of the generalised spatial signs",
 "gen_ss_covmat(X) returns the p x p matrix (1/n) Z'Z of the preprocessed data Z. (Settled negatively: the product is element-wise, so it raises ValueError whenever n and p differ and both exceed 1, and returns something else when n = p.)",
 "all n x p data", "Needs reasoning about all shapes.", [GSP+":gen_ss_covmat"])
prop("C24", "GenSpatialSignPreProcessor.transform transforms the data it is given",
 "transform(X) depends on its argument. (Settled negatively: the argument is ignored and the transformed training data are returned.)",
 "all fitted preprocessors and all new data", "Compares outputs for all pairs of arguments.", [GSP+":GenSpatialSignPreProcessor.transform"])
# ---- M estimation support ----------------------------------------------
prop("C25", "robust weights lie in [0,1] and never increase with outlyingness",
 "For non-negative scaled distances and cut-offs with 1 <= c (< b < r for Hampel), Fair, Huber and Hampel return weights in [0,1]; a larger distance never gets a larger weight; Huber and Hampel give weight 1 up to c and Hampel weight 0 beyond r.",
 "all vectors of distances, all admissible cut-offs", "Universal over reals, and over vectors because of the in-place updates.", [MS+":Fair", MS+":Huber", MS+":Hampel"])
prop("C26", "Huber and Hampel compute their textbook weights for every cut-off",
 "Huber and Hampel weights equal the textbook definition at every position for every cut-off 0 < c. (Settled: true for c >= 1 and non-negative input; false for c < 1, where inner points are down-weighted again by the in-place update, and for negative input, which always gets weight 1.)",
 "all vectors, all cut-offs", "The failure region is a continuum missed by default parameters.", [MS+":Huber", MS+":Hampel"])
prop("C27", "Huber/Hampel/Fair weight each case on its own",
 "The weight of a case depends on that case's distance and the cut-offs only, not on the other entries or the position, although the functions overwrite the array they are given.",
 "all vectors and positions", "Universal over vectors.", [MS+":Fair", MS+":Huber", MS+":Hampel"])
prop("C28", "the broken-stick proportions are a decreasing probability vector",
 "brokenstick(n) has length n, is positive, strictly decreasing and sums to 1.",
 "all n >= 1", "Universal over n.", [MS+":brokenstick"])
prop("C29", "the number of starting components in sprm always exists",
 "For every vector of explained-variance proportions of length k summing to 1, the broken-stick comparison used by sprm finds an index, so it raises no IndexError and the number of starting components is between 1 and k-1 (1 when k = 1).",
 "all proportion vectors of any length", "Existence argument over all vectors.", [SP+":sprm.fit", MS+":brokenstick"])
# ---- utils --------------------------------------------------------------
prop("C30", "nan-aware products agree with ordinary products",
 "nandot(X,y) is X y when there are no NaN and otherwise sums the products with no missing factor; nanmatdot(X,Y) is X Y. (Settled negatively for nanmatdot with two or more columns: it returns the transpose of X Y, which agrees only when X Y is symmetric, as for X'X.)",
 "all conforming matrices, all missingness patterns", "Universal over shapes and patterns.", [UT+":nandot", UT+":nanmatdot"])
prop("C31", "input checking is a projection",
 "_check_input leaves every matrix with two or more rows unchanged, returns a column for one-dimensional or single-row input, and applying it twice equals applying it once; _predict_check_input reports the shape of what it returns and treats a vector as one observation.",
 "all array shapes", "Universal over shapes.", [UT+":_check_input", UT+":_predict_check_input"])
# ---- snipls -------------------------------------------------------------
prop("C32", "snipls scores are mutually orthogonal",
 "For every data set without missing values, every eta in [0,1) and every number of components, the columns of x_scores_ are pairwise orthogonal as long as no computed score vector is zero.",
 "all X, y, eta, n_components", "Needs induction over the number of components.", [SN+":snipls.fit"])
prop("C33", "snipls sparsity is consistent between weights, coefficients and colret_",
 "The set of retained variables never shrinks from one component to the next; x_weights_, x_loadings_ and coef_ vanish on every variable not in the final colret_.",
 "all data, eta, n_components", "Induction over components.", [SN+":snipls.fit"])
prop("C34", "snipls keeps the most covarying variable",
 "At every component the variable with the largest absolute covariance with the current y residual is retained (if that covariance is non-zero), eta = 0 retains exactly all variables with non-zero covariance, and on the first component a larger eta retains a subset.",
 "all data and eta in [0,1)", "Universal over data and eta.", [SN+":snipls.fit"])
prop("C35", "snipls.predict reproduces the fitted values",
 "On complete data predict(X) on the training data equals fitted_, fitted_ + residuals_ = y, and with centre='mean' the residuals sum to zero; predict is affine in each row and raises ValueError exactly when the number of columns differs.",
 "all data, all parameters", "Universal over data.", [SN+":snipls.fit", SN+":snipls.predict"])
prop("C36", "snipls.transform reproduces the training scores",
 "transform(X) on the training data equals x_scores_. (Settled: true whenever the retained set does not grow between components, e.g. one component; false otherwise because the stored loadings are truncated.)",
 "all data, eta, n_components", "Failure requires two components with a growing active set.", [SN+":snipls.fit", SN+":snipls.transform"])
prop("C37", "snipls explained variances are proportions",
 "x_ev_ and y_ev_ are non-negative and each sums to at most 100 over the components.",
 "all complete data, eta, n_components", "Universal (Bessel/Pythagoras) argument.", [SN+":snipls.fit"])
prop("C38", "snipls coefficients are the least-squares solution in the weight space",
 "The scaled coefficient vector lies in the span of x_weights_, and the scaled residual is orthogonal to the scaled data projected on every weight vector (hence no other coefficient in that span fits better), given that the matrix inverse routine is correct.",
 "all complete data, eta, n_components", "Universal over data and competitors.", [SN+":snipls.fit"])
# ---- rm / sprm ----------------------------------------------------------
prop("C39", "rm case weights are consistent and in [0,1]",
 "After rm.fit every caseweights_[i] is 0 or in [1e-6,1], equals x_caseweights_[i]*y_caseweights_[i], and x and y case weights are in [0,1], for cut-offs with 1 <= c < b < r.",
 "all data, least-squares results and iteration counts", "Invariant over an unbounded loop with an opaque solver.", [RM+":rm.fit"])
prop("C40", "rm terminates within its iteration budget and a budget of one or less is unusable",
 "The reweighting loop performs at most maxit-1 solves for every data set; for maxit <= 1 fit raises instead of returning an unfitted model.",
 "all data, tol, maxit", "Loop bound for all inputs.", [RM+":rm.fit"])
prop("C41", "rm parameter validation is exact",
 "rm.fit raises MyException exactly when fun is not Hampel/Huber/Fair, probp1 is not in (0,1], or (Hampel) not probp1 < probp2 < probp3 <= 1, or the number of cases differ; otherwise it proceeds to estimation.",
 "all parameter combinations", "Continuum of parameter values.", [RM+":rm.fit"])
prop("C42", "rm works for every documented centre/scale combination",
 "For every documented centre and scale option rm.fit returns a fitted model. (Settled negatively: scale='None' with centre other than 'mean' always raises UnboundLocalError.)",
 "all documented option combinations, all data", "Only one of the combinations is tested.", [RM+":rm.fit"])
prop("C43", "rm.predict reproduces fitted_ and the residuals are centred",
 "predict(X) on the training data equals fitted_, fitted_ + residuals_ = y and the mean (centre='mean') or median (otherwise) of residuals_ is zero.",
 "all data for which fit returns", "Universal over data.", [RM+":rm.fit", RM+":rm.predict"])
prop("C44", "intercept_scaled_ of rm is the centre of the scaled residuals",
 "intercept_scaled_ is the mean (centre='mean') or median of the residuals on the scaled data. (Settled: true for the mean; false for the median, where broadcasting makes it the median over all n^2 pairs.)",
 "all data", "The pairwise median coincides on simple data.", [RM+":rm.fit", SP+":sprm.fit"])
prop("C45", "sprm rejects exactly the invalid parameters",
 "sprm.fit raises MyException for eta outside [0,1), n_components not an int or not in 1..min(n,p), unknown fun, invalid probabilities, and raises it in no other case before estimation (complete decision table).",
 "all parameter combinations and shapes", "Continuum of parameter values.", [SP+":sprm.fit"])
prop("C46", "zero-scale variables never influence sprm predictions",
 "Columns of X with zero fitted scale are excluded: predict, transform and weightnewx on new data do not depend on the values in these columns, while the number of columns expected stays that of the training data.",
 "all fitted models and all pairs of new data differing in zero-scale columns", "Universal over pairs of inputs.", [SP+":sprm.fit", SP+":sprm.predict", SP+":sprm.transform", SP+":sprm.weightnewx"])
prop("C47", "sprm case weights are consistent and in [0,1]",
 "After sprm.fit every caseweights_[i] is 0 or in [1e-6,1], equals x_caseweights_[i]*y_caseweights_[i], and the factors lie in [0,1].",
 "all data and inner fits", "Invariant over an unbounded reweighting loop.", [SP+":sprm.fit"])
prop("C48", "the weight of a new case does not depend on the other new cases",
 "sprm.weightnewx gives each row of new data a weight determined by that row and the fitted model. (Settled negatively: scores are re-standardised on the new batch, and a single row is turned into a column giving n_components weights.)",
 "all fitted models and batches", "Compares one case in all possible batches.", [SP+":sprm.weightnewx"])
prop("C49", "every documented starting option of sprm is usable",
 "fit works with start_X_init other than 'pcapp' and start_cutoff_mode='specific'. (Settled negatively: UnboundLocalError for every data set.)",
 "all data", "Option combination not in the test-suite.", [SP+":sprm.fit"])
# ---- dicomo -------------------------------------------------------------
prop("C50", "variance is non-negative, shift invariant and quadratically scaled",
 "dicomo(mode='var', center='mean') of x is >= 0, zero iff x is constant, unchanged by adding a constant and multiplied by a^2 when x is; biascorr multiplies by n/(n-1).",
 "all samples of size >= 2 without trimming", "Universal over samples.", [DU+":trim_mom", DI+":dicomo.fit"])
prop("C51", "covariance is symmetric, bilinear and generalises variance",
 "With center='mean' and no trimming: cov(x,y)=cov(y,x), cov(x,x)=var(x), cov(a x+b, y)=a cov(x,y), cov(x+z,y)=cov(x,y)+cov(z,y).",
 "all samples of equal length >= 2", "Universal over samples.", [DU+":trim_mom", DI+":dicomo.fit"])
prop("C52", "correlation lies in [-1,1] and is invariant under affine maps",
 "dicomo(mode='corr', center='mean') without trimming has absolute value at most 1, equals 1 for y = a x + b with a > 0, and is unchanged by increasing affine maps of x or y, with or without biascorr, for non-constant samples. (For center='median' and for trimming > 0 settled negatively.)",
 "all non-constant samples", "Cauchy-Schwarz over all samples.", [DI+":dicomo.fit", DU+":trim_mom"])
prop("C53", "bias-corrected skewness and kurtosis are the standard unbiased formulas",
 "With biascorr=True, skew equals sqrt(n(n-1))/(n-2) times the plain skewness and kurt with Fisher=True equals (n-1)/((n-2)(n-3)) ((n+1) g2 + 6) with g2 the excess kurtosis.",
 "all samples with n >= 3 (4) and non-zero variance", "Algebraic identity for all n and samples.", [DI+":dicomo.fit", DU+":trim_mom"])
prop("C54", "the standard deviation is the square root of the variance",
 "dicomo(mode='std') returns the square root of what mode='var' returns, with and without biascorr. (Settled: true without biascorr, false with biascorr.)",
 "all samples", "Identity over all samples.", [DI+":dicomo.fit"])
prop("C55", "fit leaves the estimator's parameters alone and does not return stale results",
 "dicomo.fit changes no constructor parameter, and after set_params a fit returns the value a fresh estimator with those parameters returns. (Settled negatively: std/skew/kurt/cos/cok/M3 modes overwrite center, and unsupported est values leave the previous moment_ in place.)",
 "all histories of set_params and fit", "Histories are unbounded.", [DI+":dicomo.fit"])
prop("C56", "double centring removes every row and column mean",
 "Double centring (mean, no trimming, no bias correction) of any square matrix gives rows and columns summing to zero; U-centring of a symmetric matrix with zero diagonal (n >= 3) gives zero diagonal and off-diagonal row sums zero.",
 "all n and all matrices", "Universal over matrices.", [DU+":double_center_flex"])
prop("C57", "distance covariance is symmetric, shift invariant, and zero for constants",
 "For order 2 with center='mean' and no trimming: distance covariance is symmetric in its arguments, unchanged by translating either sample, and zero if one of them is constant; distance variance is >= 0 and squared equals the mean squared doubly-centred distance.",
 "all samples", "Universal over samples.", [DU+":distance_moment", DU+":distance_matrix_centered", DI+":dicomo.fit"])
prop("C58", "distance co-moments of order k average k-th order products of centred distances",
 "distance_moment(dmx,dmy,order=k,option=o) averages dmx^(k-o)*dmy^o and leaves its arguments unchanged. (Settled: true for order 2 with option 1; false for higher order: repeated in-place squaring gives powers of two, and the arguments are overwritten.)",
 "all matrices, orders and options", "Aliasing effects depend on identity of the arguments.", [DU+":distance_moment"])
prop("C59", "martingale difference divergence is a quadratic form in the centred response",
 "MDD(x,y)^2 (no trimming, no bias correction) equals -(1/n^2) sum_ij |x_i-x_j| (y_i-ybar)(y_j-ybar), and is the 1x1 MDDM; MDDM is symmetric for every response matrix and vanishes for a constant response.",
 "all samples", "Algebraic identity over all samples.", [DU+":difference_divergence", DU+":MDDM", DU+":D_inner"])
prop("C60", "MDDM works for a single predictor",
 "MDDM(X,Y) returns a q x q matrix for X with one column. (Settled negatively: raises ValueError for every n >= 2.)",
 "all n >= 2", "Shape reasoning over all sizes.", [DU+":MDDM"])
prop("C61", "dicomo accepts exactly its documented options",
 "The constructor accepts exactly the documented est/mode/center values. (Settled negatively: 'mdc' is documented but always rejected; everything else is exact.)",
 "all strings", "Universal over option strings.", [DI+":dicomo.__init__"])
# ---- capi / ppdire ------------------------------------------------------
prop("C62", "capi weights each co-moment with its own weight",
 "With options='all', capi.fit returns w0*cov + w1*cos1 + w2*cos2 + w3*cok1 + w4*cok2 + w5*cok3 truncated at max_degree, each (order, option) pair having its own slot. (For custom option lists settled negatively: moments land in other orders' slots and may overwrite each other.)",
 "all weights, degrees, samples; all option lists", "Universal over weights and option lists.", [CA+":capi.fit"])
prop("C63", "capi accepts degrees 2 to 4 only",
 "Construction raises ValueError for max_degree > 4 and fit raises ValueError for max_degree < 2; no other degree raises for these reasons.",
 "all integers", "Universal over integers.", [CA+":capi.__init__", CA+":capi.fit"])
prop("C64", "the grid planes return the best direction on their grid",
 "gridplane and gridplane_2 return an objective value that is >= the objective of every grid direction, attained by the returned direction, which has unit norm (gridplane).",
 "all data, projection indices and grids", "The projection index is an arbitrary function.", [PU+":gridplane", PU+":gridplane_2"])
prop("C65", "the grid algorithm keeps a unit weight vector and the matching projection",
 "Throughout the ppdire grid algorithm the current weight vector has Euclidean norm 1 and the current projection equals the (sorted) data times that vector, for every projection index and any number of iterations in which no plane direction degenerates.",
 "all data, projection indices, iteration counts", "Loop invariant for arbitrary oracles.", [PP+":ppdire.fit", PU+":gridplane", PU+":gridplane_2"])
prop("C66", "ppdire scores are mutually orthogonal for any projection index and optimiser",
 "The columns of x_scores_ are pairwise orthogonal whatever directions the optimiser returns, as long as no score is zero.",
 "all data, optimisers, n_components", "The optimiser is an arbitrary function; induction over components.", [PP+":ppdire.fit"])
prop("C67", "ppdire.transform reproduces the training scores",
 "Without whitening and compression, transform of the training data equals x_scores_: P'W is unit upper triangular, hence X_s W (P'W)^-1 = T.",
 "all data, optimisers, n_components", "Algebra for arbitrary oracles and any number of components.", [PP+":ppdire.fit", PP+":ppdire.transform"])
prop("C68", "ppdire.predict reproduces the fitted values",
 "With OLS regression and no compression, predict of the training data equals fitted_, and fitted_ + residuals_ = y.",
 "all data, optimisers", "Universal over data.", [PP+":ppdire.fit", PP+":ppdire.predict"])
prop("C69", "ppdire grid works for every number of columns",
 "ppdire with optimizer='grid' fits any matrix with n >= p >= 2. (Settled negatively: p = 2 raises UnboundLocalError.)",
 "all data with two columns", "Shape-dependent control flow.", [PP+":ppdire.fit"])
prop("C70", "whiten_data gives p weights per component",
 "ppdire with whiten_data=True fits any data. (Settled negatively: the weight vector is multiplied element-wise with the p x p whitening matrix, a ValueError for every p >= 2.)",
 "all data with p >= 2", "Shape reasoning.", [PP+":ppdire.fit"])
prop("C71", "estimator instances do not influence each other",
 "Fitting one ppdire instance does not change the parameters of another. (Settled negatively: the default optimizer_options dictionary is shared and fit inserts 'ndir'; IPOPT rewrites its keys so that a later grid fit raises KeyError.)",
 "all histories of constructions and fits", "Histories across instances.", [PP+":ppdire.__init__", PP+":ppdire.fit", IW+":minimize_ipopt"])
prop("C72", "set_params then get_params returns what was set",
 "For capi, ppdire and sudire: after set_params(**d) with valid names, get_params()[k] is d[k] for k in d and unchanged otherwise; an unknown name raises ValueError. (Atomicity settled negatively: names before the unknown one have been set.)",
 "all parameter dictionaries", "Universal over dictionaries.", [CA+":capi.set_params", CA+":capi.get_params", PP+":ppdire.set_params", SD+":sudire.set_params"])
# ---- sudire -------------------------------------------------------------
prop("C73", "discretisation is a total, monotone slicing",
 "discretize(y,h) with h >= 2 gives every case a label in 1..h, larger responses never get smaller labels, equal responses equal labels, and without ties and n >= h every slice but the last has exactly floor(n/h) cases.",
 "all responses, all h >= 2", "Universal over responses.", [SU+":discretize"])
prop("C74", "slice proportions are a probability distribution",
 "In SIR, SAVE and DR the slice labels are the distinct label values in order of appearance; if their number equals n_slices the proportions sum to one and every case belongs to exactly one slice; fewer distinct labels raise IndexError, more silently drop cases.",
 "all label vectors and n_slices", "Universal over label vectors.", [SU+":SIR", SU+":SAVE", SU+":DR"])
prop("C75", "the direct methods return leading eigenvectors of the textbook matrices",
 "SIR, SAVE, DR, PHD and IHT return the leading d eigenvectors (by absolute eigenvalue) of, respectively, the between-slice covariance, the averaged squared deviation of the slice covariances from the identity, the directional regression matrix, the response-weighted second moment and the iterated Hessian matrix of the standardised data, transformed back to the data scale; the SIR, SAVE and IHT matrices are positive semi-definite.",
 "all data, responses, numbers of slices and components", "An eigenvector identity for all data matrices.", [SU+":SIR", SU+":SAVE", SU+":DR", SU+":PHD", SU+":IHT"])
prop("C76", "the projection matrix of sudire is an orthogonal projector",
 "proj_mat_ = P (P'P)^-1 P' is symmetric and idempotent, fixes every column of P and has trace n_components (it is the identity for n_components = p), whenever the matrix inverse routine is correct.",
 "all basis matrices of full column rank", "Universal over matrices.", [SD+":sudire.fit"])
prop("C77", "sudire.transform reproduces the training scores",
 "transform of the training data equals x_scores_ (the data times x_loadings_) and predict of the training data equals the fitted values of the least squares regression of y on an intercept and the scores; wrong column counts raise ValueError.",
 "all fitted models", "Universal over fitted states.", [SD+":sudire.fit", SD+":sudire.transform", SD+":sudire.predict"])
prop("C78", "the structural dimension search returns a dimension between 1 and p that minimises the bootstrap discrepancy",
 "estimate_structural_dim returns an argmin in 1..p of the mean discrepancy of each dimension. (Settled: in range; but the averages are cumulative over smaller dimensions because the discrepancies are never reset.)",
 "all data, bootstrap draws and oracles", "Arbitrary bootstrap draws.", [SD+":estimate_structural_dim"])
prop("C79", "vectorised bases are unpacked column by column",
 "Flattening a p x h basis in column-major order and reshaping it in the objective and constraint functions is a round trip, and the constraints are all h*h entries of B'SB - I (S the covariance matrix of the data) or, with scale_data, of B'B - I.",
 "all p, h and matrices", "Index arithmetic for all sizes.", [UT+":const_xscale", UT+":const_zscale", SU+":dcov_trim", SU+":mdd_trim", SD+":sudire.fit"])
# ---- ipopt --------------------------------------------------------------
prop("C80", "constraint bounds match constraint types",
 "For every list of constraints, the bound vectors have one entry per constraint component, [0,0] for 'eq' and [0,1e19] for 'ineq', in order; any other type raises ValueError.",
 "all constraint lists", "Universal over lists.", [IW+":get_constraint_bounds"])
prop("C81", "option conversion is idempotent and preserves user options",
 "Converting option names to bytes twice equals converting once and preserves every value; minimize_ipopt adds defaults only for names not given; the caller's dictionary is not changed. (Last clause settled negatively: a tolerance from one call silently overrides that of the next.)",
 "all option dictionaries and call histories", "Histories across calls.", [IW+":convert_to_bytes", IW+":replace_option", IW+":minimize_ipopt"])
prop("C82", "finite-difference Jacobians are exact for affine (forward) and quadratic (central) functions",
 "The approximate Jacobian of an affine function is exact at every point for every step size; the central variant is exact for quadratics; the result has one row per output and one column per input.",
 "all affine/quadratic functions, points and steps", "Universal over functions.", [IJ+":FunctionWithApproxJacobian", IJ+":FunctionWithApproxJacobianCentral"])
prop("C83", "cached function values are those of the requested point and arguments",
 "The cached evaluation returns f(x,*args). (Settled: true if all calls use the same args; false otherwise since the cache is keyed on x only.)",
 "all call histories", "Histories are unbounded.", [IJ+":FunctionWithApproxJacobian", IW+":IpoptProblemWrapper.evaluate_fun_with_grad"])
# ---- cv / plots ---------------------------------------------------------
prop("C84", "robust_loss treats positive and negative errors alike",
 "robust_loss with a robust weighting function gives the same loss when the sign of all errors is flipped. (Settled negatively: signed residuals are passed to Huber/Hampel so large negative errors keep weight 1.)",
 "all predictions", "Requires comparing a sample with its mirror image.", [CV+":robust_loss"])
prop("C85", "the sprm plots classify every case exactly once",
 "For case weights in [0,1], the plots of predictions and of scores draw every case in exactly one of the classes regular (weight 1), moderate outlier (weight strictly between 0 and 1) and harsh outlier (weight 0), and no other index is drawn.",
 "all weight vectors of any length", "Universal over weights.", [PL+":sprm_plot.plot_yyp", PL+":sprm_plot.plot_projections"])
prop("C86", "every case name passed to a plot is drawn at its own point",
 "With as many names as plotted cases, every plot draws every name once, at the point (or bar) of its case. (Settled negatively: the last name is never drawn, the other names of the scatter plots are drawn at their own point; in the case-weight chart the training names stand one bar too far to the right.)",
 "all lists of names and points of any length", "Off-by-one behaviour over lists of every length; plots are not unit tested for their annotations.",
 [PL+":sprm_plot.plot_yyp", PL+":sprm_plot.plot_projections", PL+":sprm_plot.plot_caseweights"])
prop("C87", "truncated coefficient plots label each bar with its variable",
 "In plot_coeffs with truncation > 0 the label under a bar is the variable whose coefficient the bar shows. (Settled negatively.)",
 "all coefficient vectors and truncation levels", "Needs a coefficient vector whose order is not monotone; figures are not compared in tests.", [PL+":sprm_plot.plot_coeffs"])

prop("C88", "a one-component sparse NIPALS fit on any data always completes",
 "snipls with one component, a standard centre and scale, eta >= 0 and an X with at least two rows and one column always returns a fitted model, whose score vector is non-zero whenever a variable was retained.",
 "all data, eta and column counts", "Universal totality claim over all real data sets.", [SN+":snipls.fit"])
prop("C89", "a retained variable's weight has the sign of its covariance with the current residual",
 "In every component of snipls, the weight of a retained variable has the sign of the variable's covariance with the residual response. (Settled negatively: a variable retained earlier whose covariance drops below the threshold gets a weight of the opposite sign, and this is the only way.)",
 "all data, eta and components", "Needs data in which a retained variable falls below the threshold later.", [SN+":snipls.fit"])

prop("C90", "the documented upper limit probp3 = 1 of the Hampel weights is usable",
 "rm and sprm accept 0 < probp1 < probp2 < probp3 = 1 with fun='Hampel' and give every case a numeric weight. (Settled negatively: the corresponding quantile is infinite and every case beyond the second cut-off gets weight NaN.)",
 "all samples and cut-offs", "Needs the boundary value of a probability together with an outlying case.", [RM+":rm.fit", MS+":Hampel"])

prop("C91", "sprm reproduces its training data",
 "For every completed sprm fit, predict of the training data equals fitted_, fitted_ + residuals_ = y, the residuals sum to zero for centre 'mean' and have median zero for the robust centres, and transform of the training data equals x_scores_.",
 "all data, options and completed fits", "Universal over data and reweighting histories.", [SP+":sprm.fit", SP+":sprm.predict", SP+":sprm.transform"])
prop("C92", "the number of inner fits of sprm is bounded by maxit",
 "sprm.fit terminates after at most maxit-1 inner sparse NIPALS fits for all data; maxit <= 1 can never succeed.",
 "all data, tolerances and budgets", "Termination of a data dependent loop.", [SP+":sprm.fit"])
prop("C93", "an sprm object can be refitted on the same data",
 "Calling fit twice on one sprm object with the same data gives the same outcome, since fit does not change the parameters. (Settled negatively: fit overwrites columns and, for scaleTau2, scale; with a zero-scale variable and column names the second call raises IndexError. With columns=False and another scale nothing is changed.)",
 "all parameter settings and call histories", "Needs two calls on one object with degenerate data.", [SP+":sprm.fit"])
prop("C94", "sprm response weights follow the residuals",
 "A case with a smaller absolute residual never gets a smaller y_caseweights_ entry. (Settled negatively: the weights are computed from the response minus the fitted values of the weighted data, so that a good leverage point loses its response weight, and negative residuals are treated differently.)",
 "all data", "Compares weights and residuals of all pairs of cases.", [SP+":sprm.fit"])
prop("C95", "colret_ identifies the variables of the sprm model",
 "Every variable with a non-zero coefficient is listed in colret_: by its name for a data frame with columns=True, otherwise by its position in X. (Settled: true for names; false for positions, which are counted after removal of zero-scale variables.)",
 "all data frames and data", "Interaction of sparsity and removal of constant variables.", [SP+":sprm.fit"])
prop("C96", "sprm.valscore scores new data",
 "valscore returns the R2 of the predictions for new data with 'normal' and a weighted R2 with 'weighted'. (Settled: 'normal' is the R2; 'weighted' raises ValueError for every validation set whose size differs from that of the training set.)",
 "all fitted models and validation sets", "Universal over validation sets of every size.", [SP+":sprm.valscore"])

prop("C97", "co-skewness and co-kurtosis generalise skewness and kurtosis",
 "The co-skewness of a sample with itself is its skewness, the co-kurtosis its kurtosis, and both are unchanged by positive affine transformations of x. (Settled: true for co-skewness with and without bias correction and for co-kurtosis without; false for bias-corrected co-kurtosis, where the correction is subtracted before standardising.)",
 "all non-constant samples, shifts and positive scales", "Relates different modes over all samples; the deviation appears only with biascorr and cok.", [DI+":dicomo.fit", DU+":trim_mom"])
prop("C98", "the continuum association interpolates covariance and variance",
 "mode='continuum' returns cov(x,y)^2 * var(x)^((alpha-1)/2): the squared covariance for alpha = 1, never negative, and scaling x by a > 0 multiplies it by a^(1+alpha).",
 "all samples and exponents alpha", "Universal over a real parameter.", [DI+":dicomo.fit"])
prop("C99", "the fast and the general algorithm for distance covariance agree",
 "With center='mean', no trimming and order 2, calcmode='fast' returns the same distance variance and covariance as any other calcmode, given that dcor.distance_covariance_sqr computes its documented statistic.",
 "all samples of any dimension", "Needs non-negativity of the statistic for all samples, since one algorithm takes the absolute value and the other the square root.", [DI+":dicomo.fit", DU+":distance_moment"])
prop("C100", "distance correlation lies in [0,1] and ignores location and scale",
 "Distance correlation lies in [0,1], is 1 for a sample with itself, symmetric, and unchanged by translations and non-zero rescaling of either sample.",
 "all samples with non-zero distance variance", "Inequality over all samples.", [DI+":dicomo.fit", DU+":distance_moment"])
prop("C101", "distance covariance and martingale difference divergence are never negative under the root",
 "The squared distance covariance and the squared martingale difference divergence of samples of any dimension are non-negative, so that the square roots fit takes are real.",
 "all samples of any size and dimension", "A positive-definiteness statement about all euclidean configurations.", [DI+":dicomo.fit", DU+":D_inner", DU+":difference_divergence", DU+":distance_moment"])
prop("C102", "moments of any order are the textbook central (co-)moments",
 "mode='mom' with order k returns the mean for k = 1 and the k-th central moment for k >= 2; mode='com' with order k and option o returns the mean of (x-xbar)^(k-o) (y-ybar)^o; order 0 raises AttributeError.",
 "all samples, orders and options o <= k", "Universal over orders.", [DI+":dicomo.fit", DU+":trim_mom"])

prop("C103", "evaluating capi again on the same data gives the same value",
 "Calling capi.fit twice with the same sample gives the same value. (Holds for every projection index that answers each request by a fixed value, in particular for arithmetic co-moments around the mean; settled negatively for center='median' with scaling: the first co-skewness permanently switches the inner object to the mean.)",
 "all projection indices, samples, weights, degrees", "The inner object keeps state between calls.", [CA+":capi.fit", DI+":dicomo.fit"])

prop("C104", "the grid of directions leaves no gap",
 "For every direction in the plane, one of the ndir directions gridplane tries deviates from it by an angle of at most pi/(2 ndir) (up to sign).",
 "all directions and all ndir >= 1", "A statement about a continuum of directions.", [PU+":gridplane"])
prop("C105", "refinement does not make the grid optimum worse",
 "The direction the grid optimiser returns has an objective at least that of the first sweep, and the first sweep at least that of the first column (every column for even ndir). (Holds for an odd number of directions; settled negatively for even ndir, the default being 1000: the second grid does not contain the current direction and the last iterate, not the best, is returned.)",
 "all data, projection indices, ndir, maxiter", "The projection index is an arbitrary function.", [PP+":ppdire.fit", PU+":gridplane_2"])
prop("C106", "ppdire with OLS gives least squares residuals",
 "With center_data, center='mean', regopt='OLS' the residuals sum to zero and are orthogonal to every score, and the fitted values are the mean of y plus the contributions of the scores.",
 "all data, optimisers, n_components", "Algebra for arbitrary optimisers and any number of components.", [PP+":ppdire.fit"])
prop("C107", "compression does not change what the model predicts",
 "With compression=True and n < p predictions of new data are possible and depend on the data. (Settled negatively: the fitted value of every case is the mean of y, residuals_ is an n x n matrix and predict of any k != n, k >= 2 rows raises ValueError.)",
 "all data with n < p", "Shape reasoning through broadcasting.", [PP+":ppdire.fit", PP+":ppdire.predict"])
prop("C109", "projection weights have unit length",
 "Every column of x_weights_ with a non-zero score has Euclidean norm 1, for any optimiser and (for the grid) any ndir not congruent 1 modulo 4.",
 "all data, projection indices, optimisers", "Loop invariant for arbitrary oracles.", [PP+":ppdire.fit"])
prop("C110", "the objective values reported by ppdire are those of the scores",
 "Maxobjf_ and crit_values_ of a component are the projection index evaluated at its score with the scaled response and the constructor's arguments, squared if square_pi (Maxobjf_ is never squared for optimisers other than the grid; for the grid it may be the initial value -1000).",
 "all data, projection indices, optimisers", "Loop invariant for arbitrary oracles.", [PP+":ppdire.fit"])
prop("C111", "optimisation-based methods fit data with few distinct responses",
 "fit of dcov-sdr, mdd-sdr or a user function without optimizer_start succeeds for every response. (Settled negatively: any success implies at least six distinct response values, because the starting values slice the raw response into six.)",
 "all data, all responses, all routines", "Universal over data; binary and few-class responses.", [SD+":sudire.fit", SU+":SIR", SU+":DR"])
prop("C112", "directions are orthonormal and scores uncorrelated",
 "With scale_data (and center mean) the directions of the direct methods satisfy P'SP = I, S the covariance matrix of the data, so that the scores have unit variances and zero covariances; without scale_data P'P = I. The optimised methods always satisfy P'SP = I when the optimiser's solution is feasible.",
 "all data, all methods, all correct linear algebra routines", "A matrix identity for all data.", [SD+":sudire.fit", UT+":const_xscale", UT+":const_zscale"])
prop("C113", "compression makes fits of wide data possible",
 "fit with compression=True on data with more columns than rows succeeds. (Settled negatively: whenever compression takes effect, i.e. no column of the compressed data has zero MAD, the fit never succeeds.)",
 "all wide data, all methods", "Universal over data and methods.", [SD+":sudire.fit"])
prop("C114", "predictions do not depend on the batch",
 "predict returns intercept plus scores times coefficients for every batch of new cases. (Settled: exactly so unless some score is constant and nonzero over the batch, as for nearly every single case; then predict raises ValueError.)",
 "all fitted models and all batches of new cases", "The batch is arbitrary; single cases fail.", [SD+":sudire.predict"])
prop("C115", "copy=False only saves memory",
 "fit with copy=False gives the same model as with copy=True. (Settled negatively: a fresh object with copy=False never fits.)",
 "all data and options", "Universal over data and options.", [SD+":sudire.fit"])
prop("C116", "a refit uses the new data",
 "A second fit of the same object estimates the directions from the data of the second call. (Settled negatively for the optimised methods without scale_data: two refits on arbitrary different data return the same directions, because start value, constraints and arguments are stored by the first fit.)",
 "all histories of two fits and all data", "Histories of fits.", [SD+":sudire.fit"])
prop("C117", "every documented option value can be fitted",
 "Every documented method and center can be used. (Settled negatively: bcov-sdr never fits; a center other than 'mean' with neither centring nor scaling nor whitening never fits.)",
 "all data and all other options", "Universal over data and options.", [SD+":sudire.fit"])
prop("C118", "the sliced methods depend on a continuous response through its order only",
 "SIR, SAVE and DR with a continuous response return the same directions after any strictly increasing transformation of the response.",
 "all data and all increasing transformations", "Universal over transformations.", [SU+":SIR", SU+":SAVE", SU+":DR", SU+":discretize"])
prop("C119", "sudire is translation invariant",
 "With mean centring, adding a constant to every column changes neither x_loadings_ nor proj_mat_, and shifts every score by the constant times the loadings.",
 "all data, all translations, all methods", "Universal over translations.", [SD+":sudire.fit"])
prop("C120", "the objective functions are the distance covariance and the martingale difference divergence of the projected data",
 "Without trimming, the objectives are -10 times the distance covariance, respectively the martingale difference divergence, of X B and y; they depend on the spanned subspace only: rotating the basis does not change them.",
 "all data, all bases, all orthogonal matrices", "Universal over bases and rotations.", [SU+":dcov_trim", SU+":mdd_trim"])

prop("C121", "get_params(deep=True) lists the parameters of nested estimators",
 "get_params(deep=True) returns every parameter and, for a parameter that is an estimator, its parameters as name__subname. (Settled: exactly so if no parameter is a class; always a TypeError if one is, as for ppdire with dicomo or capi and for capi with its own default.)",
 "all objects, all nestings", "Universal over parameter values.", [CA+":capi.get_params", PP+":ppdire.get_params", SD+":sudire.get_params"])
prop("C122", "get_params returns what the constructor was given",
 "After construction get_params() returns the given argument or the default for every parameter. (Settled: except capi's centring, which is always None.)",
 "all argument dictionaries", "Universal over arguments.", [CA+":capi.__init__", PP+":ppdire.__init__", SD+":sudire.__init__"])
prop("C123", "an estimator can be rebuilt from its parameters",
 "Constructing the class from get_params() of a constructed object succeeds and gives an object with the same parameters. (After set_params this is settled negatively: set_params accepts values the constructor refuses, and the rebuild then fails.)",
 "all argument dictionaries, all invalid values", "Universal over arguments and histories.", [CA+":capi.__init__", CA+":capi.set_params", PP+":ppdire.__init__", PP+":ppdire.set_params", SD+":sudire.__init__", SD+":sudire.set_params"])
prop("C124", "set_params has the same effect as construction with the new values",
 "After set_params an object behaves as one constructed with the new values. (Settled negatively: set_params changes no attribute other than the parameters, on any object, so that the moment object capi derives from projection_index and pi_arguments stays the old one for ever.)",
 "all heaps of estimators and all parameter dictionaries", "Universal over histories.", [CA+":capi.__init__", CA+":capi.set_params"])

prop("C125", "bias-corrected distance statistics are functions of the unbiased estimators",
 "With biascorr=True and at least four cases, the distance variance, covariance and correlation are computed from the U-centred estimator, which is symmetric, non-negative on the diagonal and satisfies the Cauchy-Schwarz inequality, so that the correlation lies in [0,1]; both algorithms give the same result. (Settled negatively for the last part: when the estimator is negative the general algorithm returns the root of its absolute value, the default one NaN; the bias-corrected martingale difference divergence is NaN as well.)",
 "all data of at least four cases, both algorithms", "Universal over data; the sign change needs special configurations.", [DI+":dicomo.fit", DU+":distance_moment", DU+":difference_divergence"])
prop("C126", "trimmed martingale difference divergence",
 "With a trimming fraction below one half, fit in mode mdd returns the root of the trimmed mean of the products of the two matrices centred by trimmed row, column and overall means.",
 "all data, all responses, all trimming fractions below 1/2", "Universal over data and fractions.", [DI+":dicomo.fit", DU+":difference_divergence", DU+":double_center_flex"])
prop("C127", "trimmed variances, covariances and moments",
 "With a trimming fraction below one half, var, cov and mom return the trimmed mean of the (products of) powers of the deviations from the trimmed means; with biascorr the finite sample factor uses the number of cases left after trimming one side.",
 "all samples, all trimming fractions below 1/2, all orders", "Universal over samples, fractions and orders.", [DI+":dicomo.fit", DU+":trim_mom", DU+":trimvar"])
prop("C128", "median-based moments and co-moments",
 "With center='median' the variance is a robust variance: rescaling data by a multiplies it by a squared. (Settled negatively: mom and var return 1.4826 times the median absolute deviation, which scales with |a|, for order 2, and the unscaled median absolute deviation for all higher orders; cov returns the comedian unless both samples are equal; trimming is ignored, or a TypeError for order 1.)",
 "all samples, all orders, all affine maps", "Universal over samples and affine maps.", [DI+":dicomo.fit", DU+":trim_mom"])

prop("C129", "snipls does not depend on the order of the cases",
 "Reordering the rows of X and y in the same way reorders scores, fitted values and residuals and changes nothing else: not the coefficients, intercept, weights, loadings, retained variables, explained variances, locations or scales; errors are the same.",
 "all data, all reorderings, all documented centres and scales, all sparsity parameters and numbers of components", "Universal over data and permutations.", [SN+":snipls.fit"])
prop("C130", "rm does not depend on the order of the cases",
 "Reordering the rows of X and y in the same way reorders residuals, fitted values and case weights and changes nothing else; every reweighting step poses the same least-squares problem with reordered rows.",
 "all data, all reorderings, all documented options, any number of reweighting steps", "Universal over data, permutations and iteration counts.", [RM+":rm.fit"])
prop("C131", "sprm does not depend on the order of the cases",
 "Reordering the rows of X and y in the same way reorders scores, residuals, fitted values and case weights and changes nothing else, for both starting values and all weight functions.",
 "all data, all reorderings, all documented options, any number of reweighting steps", "Universal over data, permutations and iteration counts.", [SP+":sprm.fit"])
prop("C132", "dicomo does not depend on the order of the cases",
 "For a symmetric metric, reordering the cases of x and y in the same way changes neither the returned value nor any attribute, in every mode, estimator, centre, order, option, trimming fraction and with or without bias correction.",
 "all data, all reorderings, all modes and options", "Universal over data, permutations and modes.", [DI+":dicomo.fit", DU+":distance_matrix_centered", DU+":difference_divergence", DU+":trim_mom"])

prop("C133", "snipls does not depend on the units of measurement",
 "Expressing variable j as a_j x + b_j (a_j > 0) and the response as c y + d (c > 0) gives the same regression: coefficients c/a_j times the old ones, the matching intercept, fitted values and predictions c v + d, residuals c r; weights, loadings, scores, explained variances and retained variables are the same.",
 "all data with spread in every variable, all changes of units, mean or median centring, std or mad scaling", "Universal over data and units.", [SN+":snipls.fit", SN+":snipls.predict", SN+":snipls.transform"])
prop("C134", "rm does not depend on the units of measurement",
 "Under a change of units of the variables and the response rm poses the same least-squares problems, gives the same case weights and the same regression expressed in the new units.",
 "all data with spread in every variable, all changes of units, any number of reweighting steps", "Universal over data, units and iteration counts.", [RM+":rm.fit", RM+":rm.predict"])
prop("C135", "sprm does not depend on the units of measurement",
 "Under a change of units of the variables and the response sprm gives the same case weights, scores and retained variables, and the same regression expressed in the new units. (Settled: exactly so while no variable has a scale below 1e-5 in either of the units; otherwise negatively, as every fit that succeeds raises an exception after some change of units.)",
 "all data with spread in every variable, all changes of units, any number of reweighting steps", "Universal over data, units and iteration counts.", [SP+":sprm.fit", SP+":sprm.predict", SP+":sprm.transform", SP+":sprm.weightnewx"])

prop("C136", "the sufficient dimension reduction methods do not depend on the order of the cases",
 "SIR, SAVE, DR, PHD and IHT return the same basis when the rows of X and y are reordered in the same way. (Settled: exactly so for PHD and IHT, for sliced responses, and for categories when there are at least as many slices as categories; negatively for fewer slices than categories, as the categories that come first are the ones used.)",
 "all data, all reorderings, all numbers of slices and directions, with or without centring and scaling", "Universal over data and permutations.", [SU+":SIR", SU+":SAVE", SU+":DR", SU+":PHD", SU+":IHT", SU+":discretize"])
prop("C137", "sudire does not depend on the order of the cases",
 "Reordering the rows of X and y in the same way reorders the scores and fitted values of sudire.fit and changes nothing else: not the loadings, projection, whitening, locations, scales or regression coefficients; errors are the same. This holds for all methods, provided a start is given to the optimised ones and the number of slices suffices for the categories.",
 "all data, all reorderings, all methods and options", "Universal over data and permutations.", [SD+":sudire.fit"])
prop("C138", "the default start of the optimised methods does not depend on the order of the cases",
 "Without optimizer_start, the fit of an optimised method does not depend on the order of the cases. (Settled negatively: the start is computed from the categories that come first, whatever the dependence measure used to choose among the candidates, and the fit may end at another basis.)",
 "all data, all reorderings, all dependence measures", "The counterexample must hold for every dependence measure; the claim is about all reorderings.", [SD+":sudire.fit"])

PD = "src/direpack/plot/sudire_plot.py"
PQ = "src/direpack/plot/ppdire_plot.py"
prop("C139", "sprm_plot.plot_yyp shows every case once at (observed, predicted)",
 "Without new cases, plot_yyp draws each training case once at (y, fitted value), in the colour and marker of its weight class (regular: weight 1; moderate: between 0 and 1; harsh: 0); with new cases it also draws each of them once at (true, predicted), classed by weightnewx. Names stand beside their own case. (Cases whose weight is NaN are not drawn, and the last name is not shown.)",
 "all fits, data, themes with eight colours and three markers, names, and new data with at least two cases", "Universal over fits and data: a case can be lost or shown twice only for particular weights.", [PL+":sprm_plot.plot_yyp"])
prop("C140", "sprm_plot.plot_projections shows every case once at its scores",
 "plot_projections draws each training case once at its scores on the two chosen components, classed by weight, and each new case at its transformed scores. With the default arguments it works for every fitted model. (The last claim is settled negatively: every one-component model raises IndexError.)",
 "all fits, data, components, themes and names", "Universal over fits; the failure is a claim about every one-component model.", [PL+":sprm_plot.plot_projections"])
prop("C141", "sprm_plot.plot_caseweights shows the weights in order",
 "The bars are the weights of the training cases of the chosen mode in order, followed by those of the new cases; each name stands at the bar of its case; an unknown mode raises ValueError. (Bars as claimed; names of training cases stand one bar to the right; an unknown mode raises UnboundLocalError.)",
 "all fits, new data, names and modes", "Universal over fits, data and mode strings.", [PL+":sprm_plot.plot_caseweights"])
prop("C142", "onlyval=True without new cases is refused",
 "In all plotting classes, onlyval=True without Xn raises the ValueError announced. (Settled negatively: the exception is constructed but not raised, and an empty plot is shown.)",
 "all models, themes and arguments", "A claim about every call.", [PL+":sprm_plot.plot_yyp", PD+":sudire_plot.plot_yyp", PQ+":ppdire_plot.plot_yyp"])
prop("C143", "sprm plots show the label given",
 "The label given as a string appears in the legend of sprm plots. (Settled negatively: only its first character does, so that labels with the same first character give the same plot.)",
 "all labels, fits and plotting methods", "A claim about all labels.", [PL+":sprm_plot.plot_yyp", PL+":sprm_plot.plot_projections", PL+":sprm_plot.plot_caseweights"])
prop("C144", "sudire and ppdire plots show every case once",
 "plot_yyp draws each training case at (y, fitted value) and each new case at (true, predicted), in order; plot_projections draws each case at its scores; names and the full label are shown. (Settled negatively for plot_projections of ppdire objects fitted without centring: instead of the new cases, the scores of one case are drawn against those of another, and a single new case raises IndexError. sudire gives training and test cases the same legend.)",
 "all fits, new data, labels and names", "Universal over fits and data.", [PD+":sudire_plot.plot_yyp", PD+":sudire_plot.plot_projections", PQ+":ppdire_plot.plot_yyp", PQ+":ppdire_plot.plot_projections"])
prop("C145", "the contour plot shows the current cross-validation results",
 "eta_ncomp_contour draws exactly the results with a finite score, provided there are three. (True of the first call; later calls on the same object draw the results of the first call for ever.)",
 "all result tables and all sequences of calls", "A claim about call histories.", [PL+":sprm_plot_cv.eta_ncomp_contour"])
prop("C146", "coefficient plots identify the variables",
 "Without truncation plot_coeffs draws every coefficient once, in order, with the name of its variable when names are given as an array, tuple or list, and its number otherwise. (Arrays of names as claimed; lists and tuples raise TypeError; the numbers count retained variables only, and are wrong as soon as a variable before has been dropped.)",
 "all fits with documented centres and scales, all names", "Universal over fits; the wrong numbers need a dropped variable.", [PL+":sprm_plot.plot_coeffs"])

prop("C147", "ppdire maximises its projection index",
 "With an optimiser other than 'grid', component i of a fit is found by minimising, from the first row as starting value, minus the projection index of the data projected on a direction, the data being the scaled data deflated by the scores of the earlier components; the reported weights are the normalised answer and Maxobjf_ is their index. If the optimiser returns a minimiser over the unit vectors, no unit vector has an index above Maxobjf_.",
 "all data, indices, optimisers and numbers of components, without whitening and compression", "The index and the optimiser are arbitrary functions; a sign error is invisible for even indices and any one data set.", [PP+":ppdire.fit", PU+":pp_objective"])
prop("C148", "ppdire stores the centres and scales asked for",
 "x_loc_, x_sca_, y_loc_ and y_sca_ are the mean and standard deviation (center='mean') or median and MAD (center='median') of the columns and of the response; scales are one with scale_data=False. (With center_data=False centres are zero and scales one, whatever scale_data says.)",
 "all data of at least two cases, without trimming, whitening and compression", "Universal over data and parameters.", [PP+":ppdire.fit"])
prop("C149", "ppdire accepts the centring options of the preprocessing module",
 "Every centring option of sprm.preprocessing (documented for the parameter center) can be given to ppdire. (Settled negatively: all but the mean and the median are refused by the constructor; set afterwards, all but these and the l1median make every fit with scaling fail.)",
 "all centring options, all fits", "Universal over options, data and parameters.", [PP+":ppdire.__init__", PP+":ppdire.fit"])
prop("C150", "options of the grid optimiser have their defaults",
 "With optimizer='grid', leaving out ndir gives the same fit as ndir=1000, and leaving out maxiter uses a default. (ndir as claimed; without maxiter no fit succeeds.)",
 "all option dictionaries, data and parameters", "Universal over options and data.", [PP+":ppdire.fit"])
prop("C151", "whitening replaces centring, scaling and compression",
 "With whiten_data=True the result of fit does not depend on center_data, scale_data and compression, and fit leaves the parameters of the estimator as they were. (First part as claimed; the second is settled negatively: the three parameters are overwritten.)",
 "all data and parameters", "Relates runs under different parameters.", [PP+":ppdire.fit"])

prop("C152", "ppdire does not depend on the order of the cases",
 "Listing the training cases (rows of X, and of y) in another order gives the same parameters, weights, loadings, criteria, locations and scales, coefficients and intercepts, and the scores, fitted values and residuals in the new order, provided the projection index, the regression and the singular value decomposition do not look at the order; dicomo and capi do not. (Holds for the grid. The other optimisers are started at the first case, so that an optimiser whose answer depends on its starting value gives other weights.)",
 "all data, orders, indices, options, with or without whitening, compression and response", "Universal over data and permutations; the failure depends on the optimiser.", [PP+":ppdire.fit", PU+":gridplane", PU+":gridplane_2"])
prop("C153", "capi does not depend on the order of the cases",
 "capi.fit returns the same value and leaves the same attributes when the cases of x and y are listed in another order.",
 "all samples, orders, weights, options and keyword arguments", "Universal over data and permutations.", [CA+":capi.fit"])
prop("C154", "a grid fit with valid arguments completes",
 "With optimizer='grid', at least three columns and two cases, ndir >= 1 and maxiter >= 1, an index and a pseudo-inverse that always answer (the variance index does), at most min(n, p) components, trimming below one half, mean or median centring and either no response or a one-column response with regopt='OLS', or passed by keyword with regopt='robust' or 'quantile' and a regression that answers, fit raises no exception, changes no parameter but n_components and leaves maxiter and ndir in the options. (Data on which a score vanishes, giving NaN loadings, are not covered.)",
 "all data, indices, options and numbers of components, without whitening and compression", "Universal over data and options: the search loops over all planes and iterations.", [PP+":ppdire.fit", PU+":gridplane", PU+":gridplane_2"])

prop("C155", "ppdire follows a change of the units of measurement",
 "With centred and scaled data (mean and standard deviation, or median and MAD; no trimming, whitening or compression; regopt other than 'quantile'), measuring variable j as a_j x + b_j (a_j > 0) and the response as c y + e (c > 0) leaves weights, loadings, rotations, scores, criterion values and the coefficients of the scaled data as they are; coefficients, intercept, fitted values and residuals are those of the same regression surface in the new units, predictions for new data in the new units are c times the old ones plus e and their scores are the old ones; a fit that fails, fails with the same exception.",
 "all data whose columns and response have spread, units, indices, optimisers, component numbers and options", "Universal over data and units.", [PP+":ppdire.fit", PP+":ppdire.predict", PP+":ppdire.transform"])
prop("C156", "ppdire with quantile regression follows a change of the unit of the response",
 "With regopt='quantile', measuring the response in another unit (c y instead of y, c > 0) multiplies the regression coefficients by c.",
 "all data, units, indices, optimisers and component numbers, every quantile regression that is itself homogeneous in the response", "Universal over data and units; a single fit gives no sign of the wrong unit.", [PP+":ppdire.fit"])

prop("C157", "whole numbers may be stored as integers",
 "Fitting a scaler or a ppdire object to a numpy array of integers has the same outcome as fitting it to the same numbers stored as floats.",
 "all data, centres, scales, projection indices, optimisers, options", "The number type is independent of the values; tests use floats throughout.", [ROB+":VersatileScaler.fit", PRE+":scaleTau2", PP+":ppdire.fit"])
prop("C158", "Huber and Hampel weights of whole-number distances do not depend on their number type",
 "The weight functions return the same weights for distances stored as integers and as floats.",
 "all distances and cut-offs", "Universal over distances and cut-offs.", [MS+":Huber", MS+":Hampel"])

prop("C159", "sudire with a direct method follows a linear change of the variables",
 "With the methods 'sir', 'save', 'dr', 'phd' and 'iht', centred by the mean and standardised, replacing X by X A + 1 c' with a regular matrix A leaves the response surface as it is: the new directions are the old ones expressed in the new variables up to an orthogonal matrix, the scores change by the same matrix and a constant row, the fitted values are the same and so are the predictions for new data in the new variables.",
 "all data, matrices A, shifts c, responses, numbers of slices and of components whose eigenvalues are separated from the rest; every correct eigenvalue routine and least-squares routine", "Universal over data and changes of variables.", [SU+":sudire.fit", SD+":SIR", SD+":SAVE", SD+":DR", SD+":PHD", SD+":IHT"])

prop("C160", "an instance created without optional arguments has the declared defaults",
 "get_params of a ppdire, sudire or capi object created with its required arguments only returns the defaults of the constructor's signature, sorted by name.",
 "the three estimator classes, all required arguments", "get_params reads attributes by name; a constructor that forgets one gives None without an error.", [CA+":capi.__init__", CA+":capi.get_params", PP+":ppdire.__init__", SU+":sudire.__init__"])
prop("C161", "sudire is created with mean or median centring, and with no other",
 "sudire(center=c) raises ValueError unless c is 'mean' or 'median'; otherwise the object has the parameters given.",
 "all centres and all other parameters", "Universal over parameters.", [SU+":sudire.__init__"])

prop("C162", "snipls does not depend on the order or the direction of the variables",
 "Fitting snipls on the same columns in another order, some of them multiplied by -1, fails exactly when the original fit fails, with the same exception; otherwise the scores, fitted values, residuals and intercept are the same and the coefficients, weights, loadings, centres, scales and selected columns are those of the original fit, written in the new order (and sign). Predictions and scores of new data written in the new order are the same.",
 "all data, all reorderings and sign changes of the variables, mean/median/no centring, std/mad/no scaling, all sparsity parameters and numbers of components", "Universal over data and over the permutations of the variables; a test fixes one order.", [SN+":snipls.fit", SN+":snipls.predict", SN+":snipls.transform"])
prop("C163", "rm does not depend on the order or the direction of the variables",
 "With a least-squares routine that itself follows the order and direction of the columns, rm on reordered and reflected columns fails exactly when the original fit fails; otherwise weights, fitted values, residuals and intercept are the same, the coefficients are the original ones in the new order, every least-squares problem posed is the original one reordered, and predictions of new data are the same.",
 "all data, all reorderings and sign changes of the variables, mean/median/no centring, std/mad/no scaling, all weight functions, cutoffs and iteration limits", "Universal over data, permutations and number of iterations.", [RM+":rm.fit", RM+":rm.predict"])
prop("C164", "sprm does not depend on the order or the direction of the variables",
 "sprm (fitted without column names) on reordered and reflected columns fails exactly when the original fit fails; otherwise the case weights, scores, fitted values, residuals and intercept are the same, the same variables are removed for zero scale, and the coefficients, weights and loadings of the kept ones are those of the original fit in the new order. Predictions, scores, new-data weights and validation scores of new data are the same.",
 "all data (with any variables of zero scale), all reorderings and sign changes, mean/median/no centring, std/mad/no scaling, all other parameters; when the starting values use principal components, every SVD routine whose left singular vectors change at most in sign", "Universal over data, permutations, sparsity and number of iterations.", [SP+":sprm.fit", SP+":sprm.predict", SP+":sprm.transform", SP+":sprm.weightnewx", SP+":sprm.valscore"])

prop("C165", "a case that rm gives no weight cannot carry its coefficients away",
 "When rm reports weight zero for a case, the coefficients stay bounded whatever the response of that case. (Settled negatively: the weights below 1e-6 are replaced by 1e-6 in every regression. For five cases on a line, one of them with response M, rm reports weight 0 for that case and its slope is (9+M/10^6)/(9+1/10^6), for every M of at least 10000: the estimator has no breakdown protection.)",
 "all responses M from 10000 on, all Hampel cut-offs in the usual range, all iteration limits and tolerances, every exact least-squares routine", "An unbounded family of data; a test sees one outlier of moderate size, where the effect is below its tolerance.", [RM+":rm.fit"])

prop("C166", "generalised spatial signs follow rotations, translations and changes of unit",
 "Rotating or reflecting the cases, multiplying all of them by c > 0 and translating them rotates the generalised spatial signs and multiplies them by c (spatial signs themselves: they are only rotated, for cases not within 1e-10 of the centre). Holds with the mean as the centre, with the spatial median when the optimiser finds it and the cases are not on one line, and with every centre that follows the motion. With the coordinate-wise median it is false (witness).",
 "all data, all orthogonal matrices, all c and translations, all documented radial functions", "Universal over a continuous group of motions.", [GSP+":gen_ss_pp", PRE+":l1median", ROB+":VersatileScaler"])
prop("C167", "kstepLTS follows rotations, translations and changes of unit",
 "Every concentration step of kstepLTS on moved data is the moved step; with the tolerance converted with the data, kstepLTS in other units returns the estimate in those units. The scaler's absolute tolerance of 1e-10 breaks this: measured in another unit the same cases can get another centre (witness).",
 "all data, rotations, units, numbers of steps and tolerances", "Universal over data, motions and iteration counts; the failure needs moves near the tolerance.", [PRE+":kstepLTS", ROB+":VersatileScaler.fit"])
prop("C168", "Wrapper follows changes of unit and direction of the variables",
 "When column j is replaced by a_j x + b_j (a_j not zero, MAD of the column not zero), every wrapped value y in it becomes a_j y + b_j, whatever location and scale were fitted before.",
 "all data, all units, shifts and reversals of the variables", "Universal over data and affine maps.", [ROB+":Wrapper.transform", PRE+":wrap", PRE+":wrap_univ"])
prop("C169", "new data with another number of variables are refused",
 "predict, transform, weightnewx and valscore of a fitted snipls, rm, sprm, ppdire or sudire object raise ValueError for new data whose number of variables differs from that of the training data (predict of a ppdire object fitted without response: AttributeError). rm and sprm fitted with copy=False cannot check and raise AttributeError for all new data.",
 "all fits, all new data (matrices, and vectors as single cases), for ppdire and sudire without compression or with at most as many variables as cases", "Universal over fits and new data.", [SN+":snipls.predict", SN+":snipls.transform", RM+":rm.predict", SP+":sprm.valscore", SP+":sprm.weightnewx", PP+":ppdire.transform", SD+":sudire.transform"])
prop("C170", "grid options without directions or iterations are refused",
 "For data and options with which a grid fit of ppdire otherwise completes, ndir = 0 raises ValueError, maxiter = 0 raises OverflowError and a negative maxiter raises ValueError; a negative ndir never gives a fit.",
 "all data, projection indices, options dictionaries and numbers of components from one", "Universal over data and indices.", [PP+":ppdire.fit", PU+":gridplane"])
prop("C171", "abandoned compression is the same as no compression",
 "When there are more variables than cases and compression is asked for, but the compressed data have a column of zero MAD, ppdire and sudire warn 'Proceeding without compression'; the fit is then the one obtained with compression=False.",
 "all data with more variables than cases, singular value decompositions, methods and options without whitening", "Universal over data of deficient rank and over optimisers.", [PP+":ppdire.fit", SD+":sudire.fit"])

prop("C172", "a response in a one-column data frame gives the same model as the same response in an array",
 "ppdire.fit and sudire.fit accept the response as a pandas DataFrame with one column, and the fitted model predicts what the model fitted to the array of its values predicts.",
 "all data, one-column data frames of two or more rows, methods, optimisers and options", "Universal over data and options; the shapes differ for every number of cases above one.", [UT+":convert_y_input", PP+":ppdire.fit", PP+":ppdire.predict", SD+":sudire.fit"])

prop("C173", "the optimised sudire methods attain the optimum of the criterion they are named after",
 "Given a solver whose answers are constrained minima, sudire.fit with 'dcov-sdr' (or 'mdd-sdr') returns directions P with P' cov(X) P = I whose scores have the largest distance covariance (martingale difference divergence) with the response among the scores X C of all matrices C with C' cov(X) C = I, whether the data are scaled, centred and compressed or not.",
 "all data matrices and responses, numbers of components, starting values, options scale_data, center_data and compression, and all solvers whose answers are constrained minima", "Universal over the competitors C (a continuum) and over the data.", [SD+":sudire.fit", SU+":dcov_trim", SU+":mdd_trim", SU+":const_xscale", SU+":const_zscale"])

prop("C174", "snipls accepts exactly the documented sparsity parameters",
 "The constructor of snipls succeeds exactly for eta in [0,1) (0 included) and a positive number of components.",
 "all real eta and natural numbers of components", "Universal over the parameters.", [SN+":snipls.__init__"])

prop("C175", "ppdire with the variance as index computes the principal components",
 "With the variance as projection index, mean centring, no trimming and an optimiser that returns a constrained maximiser whenever it answers, every fit of ppdire in which each component has positive variance gives principal components of the scaled data Z: the columns of x_weights_ are mutually orthogonal unit eigenvectors of the sample covariance matrix of Z, Maxobjf_ holds the eigenvalues in decreasing order, x_scores_ are the projections of Z itself (not of the deflated data) on the weights and are mutually orthogonal, and component i maximises the variance among all unit directions orthogonal to the weights before it.",
 "all data, numbers of components, bias settings and all exact optimisers", "Universal over the data and over the competing directions (a continuum).", [PP+":ppdire.fit", DI+":dicomo.fit"])

prop("C176", "ppdire with the covariance as index is partial least squares, the same as snipls without sparsity",
 "With the covariance with the response as projection index, mean centring, no trimming and an optimiser that returns a constrained maximiser whenever it answers, every fit of ppdire in which each component has positive covariance is partial least squares: weight i is the normalised vector of inner products of the scaled response with the columns of the data deflated by the earlier scores, Maxobjf_ is proportional to its length, and snipls fitted with eta=0 to the same data has the same weights, the same scores, the same inner coefficients (regopt 'OLS'), the same fitted values (correct inverses, non-zero scales) and, unless the first weight vector contains a zero, the same loadings.",
 "all data, responses, numbers of components, bias settings and all exact optimisers", "Two implementations compared on all inputs; universal over the competing directions (a continuum).", [PP+":ppdire.fit", SN+":snipls.fit", DI+":dicomo.fit"])

prop("C177", "the first components do not depend on how many are asked for, and more components never fit worse",
 "If snipls, ppdire or (with sir, save, dr, phd or iht) sudire is fitted to the same data with k and with k' <= k components, then weights, loadings and scores of the smaller fit are the first k' columns of those of the larger one, and so are the inner coefficients, explained variances, criterion values and, for ppdire, the columns of coef_; location and scale are the same. For ppdire the smaller fit succeeds whenever the larger does. For snipls the sum of squared training residuals of the larger fit is at most that of the smaller one.",
 "all data, numbers of components, options, projection indices, optimisers and sparsity parameters", "Relates two runs on the same arbitrary input for every pair of numbers of components.", [SN+":snipls.fit", PP+":ppdire.fit", SD+":sudire.fit", SU+":SIR"])

prop("C178", "the scores and loadings of ppdire decompose the data",
 "For every projection index and optimiser, a fit of ppdire without whitening and compression whose score vectors are not zero writes the scaled data as x_scores_ times the transpose of x_loadings_ plus a remainder that is orthogonal to every score vector; the squared lengths add up, and no other loadings leave a smaller remainder. With as many components as variables the remainder is zero and the data are recovered from centre, scale, scores and loadings. With the variance as index and an exact optimiser x_loadings_ equals x_weights_ and the total variance of the scaled data is the sum of Maxobjf_ plus the variance left over.",
 "all data, projection indices, optimisers, numbers of components and options without whitening and compression", "Universal over data, over the optimiser and over all competing loadings (a continuum).", [PP+":ppdire.fit"])

prop("C179", "with as many components as variables snipls and ppdire are ordinary least squares",
 "With mean centring and as many components as variables (non-zero scores and scales), snipls with any sparsity parameter and ppdire with regopt='OLS' and any projection index and optimiser are ordinary least squares with an intercept: no affine function of the variables has a smaller residual sum of squares, the residuals of ppdire are orthogonal to every variable, and both estimators have the same fitted values.",
 "all data, responses, sparsity parameters, projection indices, optimisers, scalings", "Universal over data and over all competing coefficients (a continuum); relates two implementations.", [SN+":snipls.fit", PP+":ppdire.fit"])

prop("C180", "every documented centre and function name works in gen_ss_pp as in the class",
 "gen_ss_pp(X, center, fun) and GenSpatialSignPreProcessor(center, fun).fit_transform(X) accept the same documented options, among them center='None', for every data set, and unknown names are reported without changing the object.",
 "all data sets, centres, radial functions, objects", "The claim is about all data sets and all combinations of options.", [GSP+":gen_ss_pp", GSP+":GenSpatialSignPreProcessor"])

prop("C181", "dicomo accepts each sample as a vector or as a single column",
 "For every estimator, mode and option, dicomo.fit gives the same value and leaves the same attributes whether the samples x and y are one-dimensional arrays or arrays with one column.",
 "all samples, modes, estimators, centres, options", "Universal over samples and over all option combinations.", [DI+":dicomo.fit", DU+":distance_matrix_centered"])

prop("C182", "a list of colours that is too short is reported as an IndexError by every plot",
 "With fewer than two colours every plotting method of sprm, sudire and ppdire raises IndexError whatever is plotted; with fewer than five every plot that shows training cases does.",
 "all fitted models, themes, labels, names, new cases", "Universal over models and arguments of the plots.", [PL+":sprm_plot", PD+":sudire_plot", PQ+":ppdire_plot"])

prop("C183", "with the variance as index ppdire gives the best low-rank approximation of the data",
 "With the variance as projection index, mean centring and an optimiser that is right whenever it answers, for every k up to the number of components: no k mutually orthogonal directions have a larger total variance than the first k entries of Maxobjf_, and the first k columns of x_scores_ times the first k columns of x_loadings_ are at least as close (sum of squared errors) to the scaled data as any matrix of rank k.",
 "all data, numbers of components, competing directions and matrices of rank k", "Universal over data and over all competing matrices (a continuum).", [PP+":ppdire.fit", DI+":dicomo.fit"])

prop("C184", "estimates depend on how often each case occurs relative to the others only",
 "If every case of a data set is repeated the same number of times, in any order, then column centres and scales (mean, median, std, mad), the snipls model (coefficients, weights, loadings, explained variances, intercept), and variance, skewness, kurtosis and distance covariance without bias correction are the same; copies of a case have the same scores, fitted values and residuals. Estimates with trimming or bias correction do not have this property.",
 "all data sets, numbers of repetitions, orders, centres and scales by column, sparsity parameters, numbers of components", "Relates runs on data sets of different sizes, for every number of repetitions.", [PRE+":mean", PRE+":median", PRE+":std", PRE+":mad", ROB+":VersatileScaler", SN+":snipls.fit", DI+":dicomo.fit"])

prop("C185", "sufficient dimension reduction functions refuse a response of another length",
 "SIR, SAVE and DR (with at least one slice) raise IndexError, PHD and IHT ValueError, for every response whose length differs from the number of cases, whenever the data are accepted with some other response; none of them returns a basis.",
 "all data, responses, numbers of slices, kinds of response, centring and scaling options, dimensions", "Universal over data and responses of every wrong length.", [SU+":SIR", SU+":SAVE", SU+":DR", SU+":PHD", SU+":IHT"])

prop("C186", "snipls without sparsity is least squares over a Krylov space",
 "With eta = 0 and h components with nonzero scores, the combinations of the weight vectors of a snipls fit are exactly the combinations of X0'y0, (X0'X0) X0'y0, ..., (X0'X0)^(h-1) X0'y0, X0 and y0 being the scaled data; the scaled coefficients lie in this space and have the smallest residual sum of squares in it.",
 "all data, numbers of components, centre and scale options, competing coefficient vectors", "Universal over data and competing coefficients; an equality of two spaces.", [SN+":snipls.fit"])

prop("C187", "a snipls fit depends on the scaled data through inner products only",
 "Two snipls fits with the same parameters whose scaled data have the same inner products between variables and with the response have the same weights, loadings, inner coefficients, rotations, scaled coefficients, retained variables and explained x variances, even if the numbers of cases and the centre and scale options differ; the explained y variances agree too if the responses have the same sum of squares.",
 "all pairs of data sets (of any sizes), sparsity parameters, numbers of components", "Relates two runs on arbitrary different data sets.", [SN+":snipls.fit"])

prop("C188", "M-estimator weights in floating-point arithmetic",
 "When every operation is rounded (doubles or any other monotone rounding), Fair, Huber and Hampel weights of non-negative distances lie in [0, 1]; Huber and Hampel weights are exactly 1 up to the first cut-off, Hampel weights exactly 0 from the last one on; a larger distance never gets a larger weight.",
 "all roundings, weight functions, cut-offs (at least 1), vectors of distances", "Universal over all floating-point inputs; the failing pairs are neighbouring doubles that sampling misses.", [MS+":Fair", MS+":Huber", MS+":Hampel"])

prop("C189", "in floating-point arithmetic the estimated centre and scale do not depend on the order of the cases",
 "When every operation is rounded, VersatileScaler with any of the centres and scales stores bit for bit the same centre and scale, and scales every case to bit for bit the same values, when the cases are given in another order; the centre lies between the smallest and the largest value (median: between the two middle ones).",
 "all roundings, data, orders of the cases", "Universal over roundings and permutations of data of any size.", [PRE+":median", PRE+":mad", PRE+":mean", ROB+":VersatileScaler"])

prop("C190", "in floating-point arithmetic a constant column standardises to zero",
 "When every operation is rounded, VersatileScaler scales a column with one distinct value to exactly 0, and scaling never swaps two values of a column.",
 "all roundings, data, columns", "Universal over floating-point data of any size.", [PRE+":scale_data", PRE+":_handle_zeros_in_scale", PRE+":std", ROB+":VersatileScaler"])

prop("C191", "SIR and PHD directions are optimal among all uncorrelated unit-variance projections",
 "On data with an invertible covariance matrix, the scores of the directions returned by SIR (centred and standardised) are uncorrelated with variance one, and for every m the first m of them have the largest total variance between slices that any m directions with uncorrelated scores of variance one can have. The same holds for PHD with the covariance of the response and the squared score.",
 "all data with invertible covariance, responses, numbers of slices and directions, all competing sets of directions", "The competitors form an uncountable set.", [SU+":SIR", SU+":PHD"])

prop("C192", "SIR with enough directions loses no difference between slice means",
 "On data with an invertible covariance matrix, when SIR is asked for at least as many directions as slices (or one less, if every class has its slice), every projection of the data that is uncorrelated with all SIR scores has the same mean in every slice, and the slice means of every variable are exactly those predicted linearly from the slice means of the scores.",
 "all data with invertible covariance, responses, numbers of slices and directions, all projections", "The projections form an uncountable set; data and sizes are arbitrary.", [SU+":SIR"])

prop("C193", "regression options of ppdire",
 "fit accepts or refuses a regression option before it computes anything, and every documented option works with the response passed in either way; without a response the option has no effect.",
 "all data, parameters, options, projection indices, optimisers", "Universal over data and options.", [PP+":ppdire.fit"])

prop("C194", "in floating-point arithmetic the case weights of rm and sprm stay in [0, 1]",
 "When every operation is rounded, the x and y weights of a fitted rm or sprm model lie in [0, 1], there is one per case, the case weight is the rounded product of the two, and it is 0 or between 1e-6 and 1.",
 "all roundings, data, weight functions, valid cut-offs", "Universal over floating-point data of any size.", [RM+":rm.fit", SP+":sprm.fit", MS+":Fair", MS+":Huber", MS+":Hampel"])


prop("C195", "the optimised sudire method starts at the best of SAVE, SIR and DR",
 "With method 'dcov-sdr' and no optimizer_start, fit computes the directions of SAVE (3 slices), SIR and DR (6 slices) on the prepared data, stores in optimizer_start the one whose scores have the largest squared distance covariance with the response (ties in this order) and runs the optimiser from it and from nowhere else; a given optimizer_start is kept and used.",
 "all data, responses, options, eigensolvers, optimisers", "Quantifies over all data and over every behaviour of the optimiser.", [SD+":sudire.fit", SU+":SAVE", SU+":SIR", SU+":DR"])


prop("C196", "Missing values in the data given to rm, sprm and snipls", "If the X or the y given to rm.fit contains a missing value and the fit succeeds, then intercept_, every fitted value, every residual and every prediction of the model, for whatever new data, is missing. The same holds for sprm, for a missing value in y or in a column of X that is not dropped, unless center is 'None'. snipls skips missing values in fit: the fitted value of a case with missing entries is the sum over its observed entries plus the intercept. But snipls.predict, given the same X, returns a missing value for that case, so fitted_ and predict(X) differ.", "all data matrices and responses with missing entries, all parameters, all results of the external solvers", "Holds for every position and number of missing values and every later prediction; a test shows one data set.", [RM+":rm.fit", RM+":rm.predict", SP+":sprm.fit", SP+":sprm.predict", SN+":snipls.fit", SN+":snipls.predict"])

prop("C197", "The reweighting sequence of rm", "Every successful fit of rm is iteratively reweighted least squares. The leverage weight of a case is the chosen weight function (Fair, Huber or Hampel) at the norm of its scaled row divided by the median of these norms, with chi-square cut-offs if start_cutoff_mode is specific and normal ones otherwise. The first problem weights each case by its leverage weight times the weight of its starting response distance: |scaled y| for median and mad, (y - median)/(1.4826 MAD) otherwise. Every later problem weights each case by its leverage weight times the weight of |residual|/(1.4826 s) under the previous coefficients, where s is the median absolute residual, or that of the non-zero residuals if at least half are zero. Weights below 1e-6 are raised to 1e-6, rows and responses are multiplied by the square root of the weight, the scaled coefficients reported are the solution of the last problem, and the case weights reported are the leverage weights times the residual weights under the last coefficients, set to zero below 1e-6.", "all data with at least two cases, all parameters, all centring and scaling functions, all least-squares solvers and quantile functions with valid cut-offs, any number of passes; exact arithmetic, divisors not zero (see C200)", "The weights of each pass depend on all earlier passes; a test compares one final coefficient vector.", [RM+":rm.fit", "src/direpack/sprm/_m_support_functions.py:Huber", "src/direpack/sprm/_m_support_functions.py:Hampel", "src/direpack/sprm/_m_support_functions.py:Fair"])

prop("C198", "The reweighting sequence of sprm", "Every successful fit of sprm is a sequence of snipls fits (mean centred, not scaled) to weighted data. The data are the scaled variables of non-zero scale and the scaled response, multiplied by the square roots of the case weights; weights below 1e-6 are raised to 1e-6. The first weights are the product of the weight of the starting leverage (row norm over median row norm, of the data or, for pcapp, of as many rescaled left singular vectors as precede the first component whose share of the variance does not exceed the broken stick, at least one) and of the starting response distance. Every later weight is the product of the weight of the leverage of the scores of the previous fit, divided by the square roots of the previous weights and rescaled by the centre and scale of the data (mad if the data are not scaled), and of |scaled response - previous fitted values of the weighted data|/(1.4826 s), s their median absolute value. For Hampel the cut-offs of the scores are chi-square quantiles with n_components degrees of freedom whatever start_cutoff_mode. The scaled coefficients reported are those of the last inner fit, and the case weights reported are the products of the weights computed from it, set to zero below 1e-6.", "all data with at least two cases, all parameters, centring and scaling functions, all decompositions, inverses and quantile functions with valid cut-offs, any number of passes; exact arithmetic, divisors not zero", "The weights of each pass depend on all earlier passes; a test compares one final result.", [SP+":sprm.fit", MS+":brokenstick", SN+":snipls.fit"])

prop("C199", "Without outlying cases rm is least squares and sprm is snipls", "If no case is outlying, robust regression changes nothing: with the Huber or Hampel function, if the row norms of the scaled data relative to their median, the starting response distances and the least-squares residuals relative to their scale do not exceed the first cut-off, the scaled coefficients of rm are the least-squares solution of the scaled data and every case weight is 1. If the same holds of the starting data of sprm and of the scores and residuals of a snipls fit to the scaled variables of non-zero scale, sprm reports the coefficients of that snipls fit and every case weight is 1.", "all data with at least two cases, all parameters with the Huber or Hampel function, all centring and scaling functions, all solvers, decompositions, inverses and quantile functions with valid cut-offs, any number of passes; exact arithmetic, divisors not zero (residuals that are all zero: C200)", "A test compares the two estimators on one clean sample; the claim is about every sample without outliers and any number of passes.", [RM+":rm.fit", SP+":sprm.fit", SN+":snipls.fit"])

prop("C200", "rm reproduces an exact linear relation", "If the response is exactly a linear function of the variables, rm returns that function. (Settled negatively: when the first least-squares solution reproduces the scaled response exactly, the scale of the residuals is the median of an empty array, so that every weight of the next pass is missing. Unless the loop ends there, the next problem consists of missing values only and the solver's LinAlgError is raised; if the loop ends there, every case weight reported is missing.)", "all data with at least two cases whose scaled response is reproduced exactly, all weight functions, cut-offs, centring and scaling options, all solvers that refuse missing values", "Simulated responses carry noise; the claim is about every exactly linear response.", [RM+":rm.fit", "src/direpack/sprm/_m_support_functions.py:Huber"])

prop("C201", "rm fits data in which most cases have the same values of the variables", "If more than half of the cases lie at the centre of the variables, for example for a binary variable centred by its median, rm gives these cases full leverage weight and fits the model. (Settled negatively: the median distance is then zero, the distance of a case at the centre relative to it is 0/0, and its row of the first least-squares problem is missing; the fit raises the solver's LinAlgError for every response, weight function and cut-off.)", "all data with at least two cases of which more than half are zero after centring and scaling, all valid parameters with maxit at least 2 and tol below 1, all solvers that refuse missing values", "Tests use continuous variables; the claim is about every set of variables with coinciding cases.", [RM+":rm.fit"])

prop("C202", "the case weights of sprm are numbers if most cases have the same values of the variables", "If more than half of the cases lie at the centre of the variables that are kept, sprm without the initial projection (start_X_init not pcapp) reports a number as the weight of every case. (Settled negatively: the relative distance of a case at the centre is 0/0, its scores in the first weighted fit are missing, and so is the median that standardises the distances of all cases; whenever the fit completes, the reported weight of every case, not only of those at the centre, is missing.)", "all data with at least two cases of which more than half are zero in the kept variables after centring and scaling, all parameters with start_X_init other than pcapp for which the fit completes, all external routines", "Tests use continuous variables; the claim is about every set of variables with coinciding cases and any number of passes.", [SP+":sprm.fit"])

prop("C203", "the reweighting of rm ends for one of three reasons, and at the first", "The passes of rm end exactly after the first pass for which the squared length of the coefficients changed by at most the fraction tol (relative to 1e-5 for the first pass), or which was pass number maxit-1, or after which at least half of the reported case weights are zero; before that every pass is followed by another, and the coefficients reported are those of the last pass.", "all data, weight functions, cut-offs (positive and ordered), values of tol and maxit, and least-squares solvers, for fits that complete, in exact arithmetic, divisors not zero", "Tests see a few converging runs; the claim is about every run, whatever number of passes it makes.", [RM+":rm.fit"])

prop("C204", "the reweighting of sprm ends for one of three reasons, and at the first", "The weighted fits of sprm end exactly after the first one for which the squared length of the coefficients changed by at most the fraction tol (relative to 1e-5 for the first), or which was number maxit-1, or after which at least half of the reported case weights are zero; before that every weighted fit is followed by another, and the scaled coefficients reported are those of the last.", "all data, parameters, starting values, cut-offs (positive and ordered) and external routines, for fits that complete, in exact arithmetic, divisors not zero", "Tests see a few converging runs; the claim is about every run, whatever number of passes it makes.", [SP+":sprm.fit"])

prop("C205", "a large tolerance gives a fit after one pass", "With tol = 1 or more, rm and sprm make one weighted fit and report it. (Settled negatively: the relative change is set to 1 before the first pass, so that with tol of 1 or more no pass is made; rm solves no problem and raises UnboundLocalError for every data set and all plain centring and scaling options, and neither rm nor sprm ever returns a fit, whatever the options and the arithmetic.)", "all data, options, external routines and arithmetics; for the exact error of rm valid parameters, at least two cases and mean, median or no centring and std, mad or no scaling", "Tests use the default tolerance; the claim is about every data set and option.", [RM+":rm.fit", SP+":sprm.fit"])

prop("C206", "when the refinement of the grid optimiser ends", "After the first sweep the grid optimiser of ppdire makes passes over all columns until a pass changes the objective by at most 1e-4 of its value, and at most maxiter + 1 passes; the direction and value reported are those after the last pass. At least two passes are made, so that the first change compared is that of the second pass. (Holds if the index of no unit direction is zero or below -999; if the first sweep ends within 0.1 of -1000, no pass is made and -1000 is reported whatever the index is.)", "all data with at least three columns, all indices with the stated bound, numbers of directions for which no direction is degenerate, and all maxiter", "The number of passes depends on the data; a test observes one run.", [PP+":ppdire.fit"])

if __name__ == "__main__":
    out = os.path.join(os.path.dirname(__file__), "..", "properties.jsonl")
    ids = [d["id"] for d in P]
    assert len(ids) == len(set(ids))
    with open(out, "w") as f:
        for d in P:
            f.write(json.dumps(d) + "\n")
    print(len(P))
