# Formal model of direpack in Rocq: design

The code under study is the Python package in `/repo/src/direpack`.
The model lives in `rocq/theories`; it is a shallow embedding: each Python
function becomes one total Gallina function with the same branches in the same
order, and exceptions are values (`Err e`).

## 1. Number domain

All model functions are written once, over a class `Num A` that contains
*operations only* (no laws): `+ - * / neg abs sqrt`, boolean comparisons, powers,
`tanh`, rational literals. Instances:

* `Num R` (Coq reals): exact real arithmetic, no rounding. Theorems are about
  this instance unless the theorem says otherwise. Division by zero in `R` is
  not meaningful, so theorems carry explicit `<> 0` hypotheses wherever the code
  divides, and degenerate cases are treated in the next instance.
* `Num XR`: reals extended with `+inf`, `-inf` and `NaN` with IEEE propagation
  rules (no rounding, one zero). Used for missing values and 0/0.
* `Num Q`: rationals, executable. Used for `vm_compute` witnesses and examples.

`np.isnan x` is modelled as `negb (x == x)`, so NaN tests are faithful in
every instance.

* `Num_rnd rnd` (`M_Float`): real numbers, every operation followed by the rounding
  `rnd`; `binary64` is the rounding of numpy's doubles, without overflow. Used for
  C188-C190 and C194 only.

Not modelled: floating point rounding (other than in C188-C190 and C194), overflow, numpy dtype promotion
(other than where stated), pandas index semantics (a DataFrame is its matrix of
values plus column names), printing, plotting calls to matplotlib.

## 2. External routines = function arguments (oracles)

`scipy.optimize.minimize`, `numpy.linalg.svd/eigh/inv/lstsq/pinv`,
`scipy.stats.norm.ppf/chi2.ppf/norm.cdf`, `dcor`, `statsmodels` regression,
user-supplied projection indices, and the random generator are explicit
function arguments of the model. A theorem that needs something of them has the
requirement as a visible hypothesis of the theorem (for example "inv returns a
left inverse"). Nothing is assumed globally: no axioms, no section-less
variables.

## 3. Files

`Num.v Err.v Vec.v` number classes, exceptions, list-vectors and matrices.
`VecR.v OrdR.v L_Mat.v L_Lin.v L_Stats.v L_Energy.v ...` general lemmas over `R`.
`M_*.v` model files (definitions only, each citing file and lines in /repo).
`S_*.v` small specifications over plain `R` and lists, independent of the model's
helpers. `L_*.v` lemma files. `T_*.v` property theorems: each closed by
`exact lemma`, with `Print Assumptions` beneath and an `Example` meeting its
hypotheses. `AXIOMS.md` lists the output of `Print Assumptions` per theorem.
`tools/props.py` and `tools/manifest.py` generate `properties.jsonl` and
`MANIFEST.json` (the latter from the theorem names in `T_*.v` and
`tools/notes.json`). `seeded/LOG.jsonl` records the edits of the model
("wrong programs") the theorems were tested against.

## 4. Trusted base

* The kernel of Coq 8.16.1 (`coqc`; also re-checked with `coqchk`).
* Axioms: only those of the standard library's real numbers and logic, that is
  `ClassicalDedekindReals.sig_not_dec`, `ClassicalDedekindReals.sig_forall_dec`,
  `FunctionalExtensionality.functional_extensionality_dep` and, for theorems
  that use analysis (integrals, derivatives, `Rpower`, ...),
  `Classical_Prop.classic`. `AXIOMS.md` says which theorem uses which.
  The definition of the double format (`M_Float`) and lemmas about it are from Flocq,
  whose theorems used here rest on the same axioms.
  No axiom is added, no kernel check is switched off, nothing is left unproved.
* That the model is the code: every definition in `M_*.v` cites the lines it
  models, and says where it simplifies. Nothing checks this link by machine.
* The specifications in `S_*.v` and the theorem statements themselves.
* For theorems with an oracle hypothesis (for example `eigh_ok`, `inverse_ok`,
  `dcor_exact`): that the external routine satisfies it, for users
  who want to conclude something about the running program. The hypotheses are
  part of the statement; none is an axiom.

### Modelled

| Python | model |
|---|---|
| `utils/utils.py` (all functions) | `M_Utils`, constraint functions in `M_SdrUtils` |
| `preprocessing/_preproc_utilities.py` (all functions; scipy's minimiser inside `l1median` and the constant `Es2` of `scaleTau2` are arguments) | `M_Preproc` |
| `preprocessing/robcent.py` (`VersatileScaler`, `versatile_scale`, `Wrapper`) | `M_Robcent` |
| `preprocessing/_gsspp_utils.py`, `gsspp.py` | `M_Gsspp` |
| `sprm/_m_support_functions.py`, `cross_validation/_cv_support_functions.py` | `M_Msupport` |
| `sprm/snipls.py`, `sprm/rm.py`, `sprm/sprm.py` (constructor, fit, predict, transform, weightnewx, valscore) | `M_Snipls`, `M_Rm`, `M_Sprm` |
| `dicomo/_dicomo_utils.py`, `dicomo/dicomo.py` | `M_Dicomo` |
| `ppdire/capi.py` | `M_Capi`, parameters in `M_Params` |
| `ppdire/_ppdire_utils.py`, `ppdire/ppdire.py` | `M_Ppdire`, shared defaults in `M_PpWorld`, parameters in `M_Params`, data-frame responses in `M_Frames` |
| `sudire/_sudire_utils.py` except `give_coords`, `sudire/sudire.py` | `M_SdrUtils`, `M_Sudire`, parameters in `M_Params`, data-frame responses in `M_Frames` |
| `ipopt_temp/ipopt_wrapper.py`, `jacobian.py` | `M_Ipopt` |
| in-place updates of integer arrays in `_preproc_utilities.py`, `robcent.py`, `_m_support_functions.py`, `ppdire.py` | `M_Dtype` |
| `plot/*.py`: which points, labels, legends and bars are drawn, and the exceptions raised before | `M_Plot` (parts), `M_Plot2` (complete methods) |

### Not modelled

* Floating-point rounding and underflow, except in C188-C190 and C194 (weights, medians, scalers, case weights
  in rounded arithmetic; sums there go from the last to the first element, numpy's go
  from the first to the last, in blocks for long vectors; square roots are correctly
  rounded); all other theorems are about exact real numbers. Overflow. Number types of arrays other than
  the distinction of integers and floats in `M_Dtype` (in-place updates and
  assignments of scalers, ppdire and the weight functions); the other files are
  over one number type.
* `give_coords` of `sudire/_sudire_utils.py` (symbolic solver of sympy).
* matplotlib itself, figure sizes, legend positions, titles; printing, logging and warnings
  (except where a property is about a warning condition).
* pandas index semantics: a DataFrame is its matrix of values and its column names.
* scipy's optimisers, ipopt, LAPACK, `dcor`, statsmodels: function arguments.
* The scikit-learn base classes, except the parameter protocol (`M_Params`);
  `GridSearchCV`.
* `dicomo` estimators built on `biascorr` with trimming > 0 are modelled but
  their values are characterised for the arithmetic modes only (C127).

## 5. Findings

Properties that are false of the code are proved false: the theorem names end in
`_refuted` (a witness or an exact characterisation of when it fails) and the
MANIFEST note says "settled negatively". The following was found while modelling.

**Preprocessing.** `_check_input` turns a 1 x p matrix (p >= 2) into p x 1, so one
new observation is standardised wrongly (C10). `inverse_transform` uses the raw
scale, not the one with zeros replaced (C02). Trimming in (0.5, 0.99] is accepted
and may raise later (C07). `scaleTau2` pools the columns (C16). `l1median` with
`x0` and p >= 2 raises UnboundLocalError. The kstepLTS objective can increase
when there are ties (C15). `Wrapper.transform/predict` re-estimate location and
scale (C18). `GenSpatialSignPreProcessor.transform` ignores its argument (C24);
`gen_ss_pp(center='None')` is a TypeError; `gen_ss_covmat` multiplies
element-wise and a function name is a TypeError (C23). `nanmatdot` with two or
more columns returns the transpose (C30). `convert_y_input` transposes an n x 1
data frame.

**Weights.** Huber and Hampel overwrite in place: cut-offs below 1 give the inner
cases weight c (negative for c < 0), negative inputs get weight 1 (C26), hence
`robust_loss` treats negative errors as regular (C84). `probp3 = 1` gives NaN (C90).

**snipls.** `centring_` ends up fitted on y; weights of previously retained
variables can have the wrong sign (C89); a constant column with scale std gives
NaN; `transform` reproduces the scores only if the retained set does not grow (C36).

**rm.** `scale='None'` fails for centres other than the mean (C42);
`intercept_scaled_` with the median is the median of n^2 differences (C44);
`maxit <= 1` is unusable (C40); `copy=False` makes predict raise AttributeError;
the convergence warning compares the difference with maxit.

**sprm.** Weights of new cases depend on the batch (C48); refitting the same
object can raise IndexError (C93); `colret_` holds positions among the kept
variables (C95); `valscore` with 'weighted' fails for validation sets of another
size (C96); the y weights do not follow the residuals (C94);
`intercept_scaled_` is n x n; the Hampel cut-offs in the loop are chi-square
quantiles; start options other than pcapp with 'specific' never work (C49).

**dicomo.** Mode 'mdc' is always rejected (C61); `std` with bias correction is not
the root of `var`, and NaN for constants (C54); Fisher's formula is ignored unless
biascorr; order 0 is AttributeError; `center` is overwritten with 'mean' for ever in
six modes, 'sign' and 'entropy' return stale results (C55); trimmed correlations
exceed 1, median correlations depend on the unit (C52); the median 'variance' is
1.4826 MAD (C128); bias-corrected co-kurtosis is wrong (C97); `distance_moment`
squares in place (C58); the bias-corrected naive distance covariance loses the
sign, the fast one and mdd give NaN (C125); MDDM with one predictor is ValueError
(C60); 'ballcov' is NameError; `trimvar` is dead code.

**capi.** Option lists that are no prefix of 1,2,3 put co-moments at the wrong
weights (C62); degree 5 through set_params is IndexError (C63); with the median
the value is not repeatable (C103); `centring` is never stored (C122);
set_params(projection_index=...) has no effect (C124).

**ppdire.** The grid algorithm fails for p <= 2 (C69); refinement returns the last,
not the best, candidate (C105); ndir = 1 mod 4 is degenerate (C65); whitening never
works for p >= 2 (C70); compression breaks predictions (C107); `center_data=False`
makes transform three-dimensional (C67); 'option' and `dmetric` are ignored;
quantile regression uses the original y; robust/quantile without y as a named option raises
UnboundLocalError (C193); zero scales are divided by in `coef_`; the default options
dictionary is shared between instances (C71).

**sudire.** Start values call SAVE/SIR/DR with shifted positional arguments, so
optimised methods need at least six distinct responses (C111); discretising into
one slice, or with ties, is IndexError (C73); surplus classes are dropped silently;
`estimate_structural_dim` never resets its accumulator and does not resample y
(C78); compression never succeeds (C113); the whitened basis is applied to raw X;
`dmetric` is never used; a refit uses cached optimiser arguments (C116); a
single-row predict is ValueError (C114); one predictor, `copy=False` and 'bcov-sdr'
never fit (C115, C117). With fewer slices than categories the basis depends on the
order of the cases (C136), and so does the default start of the optimised methods,
which never slices and uses the first three or six distinct responses (C138).

**Missing values.** One missing value in the data of rm, or in a kept column or the
response of a centred sprm, makes the intercept and every later prediction missing;
snipls skips missing values in fit but not in predict, so its fitted values and its
predictions of the same cases differ (C196).

**Breakdown.** Cases with weight zero enter the regressions of rm with weight 1e-6, so
that one response carries the coefficients arbitrarily far although its case is
reported with weight zero (C165). A response that is exactly linear
in the variables makes all residuals zero; their scale is then the median of an empty
array, all weights are missing, and the fit of rm raises LinAlgError or reports missing
case weights (C200). If more than half of the cases lie at the centre of the variables, as for a
binary variable centred by its median, the fit of rm raises LinAlgError (C201),
and sprm without the initial projection reports missing weights for all cases (C202).
With tol of 1 or more neither rm nor sprm makes a pass, and the fit raises an error (C205).
If the first sweep of the grid optimiser ends at an objective within 0.1 of -1000, nothing is refined and -1000 is reported (C206).

**Units.** sprm drops variables whose scale is below the absolute threshold 1e-5, so
that its result depends on the units of measurement: every fit that succeeds raises
an exception in large enough units (C135).

**ipopt wrapper.** The caller's options dictionary is modified and its tolerance is
sticky (C81); value caches ignore the constraint arguments, and `last_x` is kept by
reference (C83).

**Plots.** The last name is never drawn, case-weight labels are shifted by one
(C86), truncated coefficient plots carry wrong labels (C87); several ValueErrors are
constructed but not raised (C141, C142). The projection plot of a one-component model
fails with the default components (C140). sprm legends show only the first character
of the label (C143). The projection plot of new cases for a ppdire object fitted
without centring shows two cases against each other (C144). Contour plots keep
showing the results of the first call (C145). Lists of variable names are refused, and
numbers below coefficient bars ignore dropped variables (C146).

**ppdire parameters.** Centring options other than mean and median are documented but
refused (C149). Options for the grid optimiser without maxiter make every fit fail
(C150). scale_data is ignored without centring (C148). Whitening overwrites three
parameters (C151). capi with option 0 stores its value in the last slot (C62). ppdire with
regopt='quantile' regresses the unscaled response and multiplies by its scale
again: coefficients change with the square of the unit of the response (C156).
The optimisers other than the grid start at the first case, so their result can
depend on the order of the cases (C152). With the default
centre of gen_ss_pp ('l1median') the generalised signs follow rotations, with the
coordinate-wise median they do not (C166). kstepLTS stops on an absolute tolerance of
1e-10, so the scaler's centre can depend on the unit of the data (C167).

**Options.** `gen_ss_pp(center='None')` is a TypeError for every data set although
'None' is documented; the class accepts it (C180). `dicomo` with the general
distance algorithm refuses a one-dimensional `y` but accepts a one-dimensional `x`
(C181).

**Number types.** scaleTau2 and ppdire with center_data=False raise TypeError for numpy
arrays of integers (C157); Huber and Hampel truncate the weights of integer distances
(C158).

**Compression.** When ppdire gives up compression because of zero scales ('Proceeding
without compression') it keeps the number of variables of the compressed data, and the
fit fails; sudire does go on as without compression (C171).

**Data frames.** convert_y_input transposes a one-column DataFrame into a row. sudire.fit
then refuses it; ppdire.fit stores n intercepts, and predict either fails or returns the
observed responses plus the centred contribution of the predictors (C172).

**Rounding.** In doubles, Hampel's weight can increase by one unit in the last place from
a distance equal to the second cut-off to the next double (C188); the mean depends on the
order of the cases (C189); three cases with the value 0.1 have a mean above 0.1, a
standard deviation of 2^-56 instead of 0, and are therefore standardised to -1 instead of
0 by mean and std, while median and mad give 0 (C190).

**Parameters.** get_params(deep=True) raises TypeError when a parameter is a class
(C121); set_params bypasses validation (C123) and is not atomic (C72).

## 6. Plan per property

| ids | modelled | proof idea |
|---|---|---|
| C01-C10 | `_check_input`, `scale_data`, `_handle_zeros_in_scale`, `mean/std/median/mad`, `VersatileScaler` as a state record with an operation type and step function | cell-wise characterisation; algebra; uniqueness of sorted permutations for order statistics; invariant over operation lists; XR instance for NaN; witnesses in Q |
| C11-C13 | same functions | counting arguments on order statistics |
| C14 | `_l1m_objective`, `_l1m_jacobian` | Cauchy-Schwarz on lists |
| C15 | `kstepLTS` with the spatial median as oracle | the mean minimises the sum of squares; h smallest sum minimal among subsets |
| C16 | `scaleTau2` with the constant `Es2` as argument | witness |
| C17-C18 | `wrap_univ`, `wrap`, `Wrapper` | case analysis; tanh bounds; witness |
| C19-C24 | `_gsspp_utils.py`, `gsspp.py` | case analysis on order statistics; division-with-remainder for indices; witnesses |
| C25-C29 | `_m_support_functions.py` with the sequence of in-place masked assignments | pointwise characterisation, harmonic double sum |
| C30-C31 | `utils.py` | list induction, XR instance |
| C32-C38 | `snipls.fit/predict/transform`, component loop as recursion on the component counter | loop invariant: deflated matrix orthogonal to all previous scores and kills previous weights |
| C39-C44 | `rm.fit/predict`, loop on fuel = remaining iterations, lstsq oracle | loop invariant on weights |
| C45-C49 | `sprm.fit` (validation, start values, loop, output), `predict/transform/weightnewx` | decision tables; invariants; witnesses |
| C50-C55, C61 | `trim_mom`, `dicomo.__init__/fit` | algebra on sums; Cauchy-Schwarz; state machine |
| C56-C60 | `double_center_flex`, `distance_moment` with explicit aliasing, `U_inner`, `D_inner`, `difference_divergence`, `MDDM` | finite double sums |
| C62-C63 | `capi` | index computation |
| C64-C65, C69 | `gridplane`, `gridplane_2`, the grid section of `ppdire.fit` | argmax; loop invariant on unit norm |
| C66-C68, C70 | component loop and output section of `ppdire.fit`, `transform`, `predict` with optimiser oracle | deflation invariant, triangular matrices |
| C71-C72 | parameter dictionaries as association lists in a small heap | induction over operations; witnesses |
| C73-C75 | `discretize`, label extraction, `SIR/SAVE` kernels with eigen oracle | order arguments; sums of squares |
| C76-C79 | output section of `sudire.fit`, `transform/predict`, constraint functions, `estimate_structural_dim` | matrix algebra; index arithmetic |
| C80-C83 | `get_constraint_bounds`, `convert_to_bytes`, `replace_option`, option section of `minimize_ipopt`, `FunctionWithApproxJacobian` | list induction; algebra; history witness |
| C84-C85 | `robust_loss`, masks in `sprm_plot.py` | witness; case analysis |
| C86-C87 | `M_Plot` | exact list of annotations; witness |
| C88-C96 | `M_Snipls`, `M_Sprm` | decision tables, loop invariants, witnesses |
| C97-C102, C125-C128 | `M_Dicomo` | algebra on sums, U-centring, order statistics |
| C103-C110 | `M_Capi`, `M_Ppdire` | trigonometric grid bounds, least squares, witnesses |
| C111-C120 | `M_SdrUtils`, `M_Sudire` | order arguments, eigen-decompositions, rank counting, double sums |
| C121-C124 | `M_Params` | heaps of estimators, induction over dictionaries |
| C129-C132 | `M_Snipls`, `M_Rm`, `M_Sprm`, `M_Dicomo`, specification in `S_Order` | simulation: the run on reordered data is the reordered run, step by step |
| C133-C135 | `M_Snipls`, `M_Rm`, `M_Sprm`, specification in `S_Units` | the scaled data are identical in both units; the back-transformation absorbs the change |
| C136-C138 | `M_SdrUtils`, `M_Sudire`, specification in `S_OrderSd` | the kernels are sums over cases and labels; simulation of the fit; a witness of 24 cases |
| C139-C146 | `M_Plot2`, specification in `S_Plot` | marks as data: a permutation of the expected points; case analysis of exceptions; induction over calls |
| C147-C151 | `M_Ppdire`, specification in `S_Ppdire2` | loop invariant naming the data of each component; case analysis over options; runs under different parameters compared |
| C152-C154 | `M_Ppdire`, `M_Capi`, specification in `S_OrderPp` | two runs on reordered cases related stage by stage (search, deflation, response, compression, whitening); totality of the search by induction over planes and iterations |
| C155-C156 | `M_Ppdire`, specification in `S_UnitsPp` | the scaled data agree in both units; loop invariant relating the coefficient columns; algebra of intercepts |
| C157-C158 | `M_Dtype` | refinement: the model with number types equals the one without wherever no integer array is updated; case analysis |
| C159 | `M_Sudire`, specification in `S_UnitsSd` | two standardisations differ by an orthogonal matrix; the kernels are equivariant under rotation; leading eigenspaces with a gap are unique (trace argument) |
| C160-C161 | `M_Params`, `M_Sudire`, specification in `S_Options` | case analysis on classes and centres; C15_scaler: induction on the iterations |
| C162-C164 | `M_Snipls`, `M_Rm`, `M_Sprm`, specification in `S_Vars` (signed permutations of the columns) | simulation relation preserved by every step of the loops; for sprm the relabelling restricted to the kept variables |
| C165 | `M_Rm`, specification in `S_Break` | exact evaluation of every iteration on a family of data sets; invariant of the loop |
| C166-C168, C14 (uniqueness) | `M_Gsspp`, `M_Preproc`, `M_Robcent`, specification in `S_Rotate` | rotations preserve distances; radial functions are homogeneous; strict convexity of the sum of distances off a line; induction over the steps of kstepLTS |
| C169, C170, exception kinds in C16, C30, C117, C139 | all estimator modules, specification in `S_Errors` | inversion of completed fits; the first grid direction decides the exception | `T_Errors` |
| C171 | `M_Ppdire`, `M_Sudire`, specification in `S_Compress` | the direction has the wrong length for the data; sudire's preparation, optimiser and final step do not look at the option again | `T_Compress` |
| C172 | `M_Frames` | the second row check of sudire fails; the difference of a row and a column is a table whose column means are found | `T_Frames` |
| C173 | `M_Sudire`, `M_SdrUtils` | competitors are pulled back to the standardised problem, where they are admissible for the solver; the objective is a decreasing function of the criterion | `T_SdrOpt` |
| C174, more on C08, C55, C87, C144, C146 | `M_Snipls`, `M_Robcent`, `M_Dicomo`, `M_Plot`, `M_Plot2` | found missing by wrong programs: what the scaler stores, which bars a truncated plot shows, the exceptions of sign estimators, list labels and values of another number | `T_Extra` |
| C175 | `M_Ppdire`, `M_PpWorld`, `M_Dicomo` | ppdire with the variance as index and an exact optimiser gives the principal components; eigenvectors and Rayleigh quotients over plain sums in `L_Pca` | `S_Pca`, `T_Pca` |
| C176 | `M_Ppdire`, `M_Snipls`, `M_Dicomo` | ppdire with the covariance as index and an exact optimiser is PLS; its components and fitted values equal those of snipls with eta = 0 (induction along both loops, `L_Pls`, `L_Pls2`) | `S_Pca`, `T_Pca` |
| C177 | `M_Snipls`, `M_Ppdire`, `M_Sudire` | the fit with fewer components is a prefix of the fit with more (loops stopped earlier, `L_Nested`, `L_Nested3`); snipls residuals do not grow with more components (least squares over nested spans, `L_Nested2`) | `S_Nested`, `T_Nested` |
| C178 | `M_Ppdire`, `M_Dicomo` | deflation chain (`L_Deflate`), cells of the remainder, unit triangular P'W and m equations in m+1 unknowns for exactness (`L_Decomp`); ppdire (`L_Decomp2`); variance index (`L_Decomp3`) | `S_Decomp`, `T_Decomp` |
| C179 | `M_Snipls`, `M_Ppdire` | p weights of a deflation chain span the space (`chain_basis`), C38 and C106 plus the exact decomposition C178 (`L_Full`) | `S_Full`, `T_Full` |
| C180-C182 | `M_Gsspp`, `M_Dicomo`, `M_Plot2` | case analysis; C19's argument at the origin (`L_Errors2`) | `S_Errors2`, `T_Errors2` |
| C183 | `M_Ppdire`, `M_Dicomo` | C175 plus Gram-Schmidt, Bessel and the Ky Fan inequality (`L_LowRank`, `L_Young`) | `S_Pca`, `S_Decomp`, `T_Young` |
| C184 | `M_Preproc`, `M_Robcent`, `M_Snipls`, `M_Dicomo` | multiplicities as a list of case numbers; sums scale with k, induction over the components (`L_Copies`, `L_CopiesSn`, `L_CopiesDi`) | `S_Copies`, `T_Copies` |
| C185, more on C87, C144 | `M_SdrUtils`, `M_Plot`, `M_Plot2` | found missing by wrong programs: kinds of exceptions, tick labels as ranks (`L_Errors3`) | `S_Errors3`, `T_Errors3` |
| C186, C187 | `M_Snipls` | weights span a Krylov space (`L_Krylov`); the loop sees inner products only (`L_Cross`) | `S_Krylov`, `T_Krylov` |
| C188-C190 | `M_Float` (every model function, evaluated in rounded arithmetic) | monotone roundings; single roundings of doubles evaluated with Flocq (`L_Float`) | `S_Float`, `T_Float` |
| C191 | `M_SdrUtils` (SIR, PHD) | Ky Fan inequality for symmetric kernels (`L_Best`) | `S_Best`, `T_Best` |
| C192 | `M_SdrUtils` (SIR) | rank of the slice-mean kernel; completeness of orthonormal systems (`L_SirFull`) | `S_Best`, `T_Best` |
| C193 | `M_Ppdire` (`inner_coef`, fit) | two runs side by side up to the first regression | `S_Errors4`, `T_Errors4` |
| C194 | `M_Float`, `M_Rm`, `M_Sprm` | every entry of the weight functions is in [0, 1] for any real argument (monotone rounding fixes 0 and 1); invariants of the two reweighting loops, which hold for every arithmetic | `S_Float`, `T_Float2` |
| C195 | `M_Sudire` | case analysis of the comparison over the reals; the fit depends on the optimiser only through calls with the stored start | `S_Start`, `T_Start` |
| C196 | `M_Rm`, `M_Sprm`, `M_Snipls` | NaN propagates through matvec, mean and median; nansum skips it in fit only | `S_MissReg`, `L_MissReg`, `T_MissReg` |
| C197 | `M_Rm` | induction on the passes of the loop; weights equal the textbook weights for any sign | `S_Irls`, `L_Irls`, `T_Irls` |
| C198 | `M_Sprm`, `M_Snipls` | induction on the passes; first position of the broken-stick comparison | `S_IrlsSp`, `L_IrlsSp`, `T_IrlsSp` |
| C199 | `M_Rm`, `M_Sprm` | weight one below the first cut-off; then every pass of C197/C198 solves the same unweighted problem | `S_Clean`, `T_Clean` |
| C200 | `M_Rm` | all residuals zero: median of the empty list is missing, weights follow | `S_Exact`, `T_Exact` |
| C201 | `M_Rm` | a majority of zeros has median zero; 0/0 is carried through the weights | `S_Coincide`, `T_Coincide` |
| C202 | `M_Sprm` | a missing square-root weight makes a row of scores missing, hence the median of the norms; invariant of the loop | `S_Coincide`, `T_Coincide2` |
| C203 | `M_Rm` | induction on the loop; zero reported weights are the low products | `S_Stop`, `T_Stop` |
| C204 | `M_Sprm` | induction on the loop | `S_StopSp`, `T_StopSp` |
| C205 | `M_Rm`, `M_Sprm` | the loop is not entered | `T_Tol` |
| C206 | `M_Ppdire` | trace of the passes by induction on those left | `T_GridStop`, `T_GridStop2` |
