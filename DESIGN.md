# Formal model of `ondil` (rolch) in Rocq

## 1. What is modelled

The subject is `/repo/src/ondil` (python, numpy/numba/scipy/scikit-learn).
The model is a set of total Gallina functions over the standard-library reals
`R`; each definition carries a comment with the file and lines it transcribes.

Layout of `rocq/theories/`:

| file pattern | content |
|---|---|
| `Base*.v`, `Lin*.v` | result type, sums, vectors/matrices (library, no code of the project) |
| `M_*.v` | model: transcriptions of the code, no proofs |
| `S_*.v` | independent specifications used in theorem statements |
| `L_*.v` | lemmas and proofs |
| `P_*.v` | property files: `Theorem … Proof. exact lemma. Qed.`, `Print Assumptions`, and `Example`s showing that the hypotheses are satisfiable |

### Representation choices

* A float array of length p is an index function `nat -> R` together with its
  length; a matrix is `nat -> nat -> R`. Observations (rows) are a Coq `list`.
* Floats are reals: rounding, overflow to infinity and NaN are not part of the
  `R` model. Where the code's behaviour depends on them the model has an
  explicit error value (`NanResult`, or `None` for a NaN or an infinity).
* `M_Float.v` is a second model, in IEEE binary64 arithmetic (Flocq's
  `binary_float 53 1024`, round to nearest even), of the functions for which
  rounding, infinities and NaN matter most: coordinate descent, the scaler and
  the inverse links (C100-C105, C116, C117). `M_FloatGram.v` adds one entry of the
  Gramians (C128): the matrix product may add in any order and grouping and may
  fuse a product with an addition; `** 0.5` and `** n` are arbitrary functions
  with a stated accuracy. C129 joins the two: coordinate descent runs on entries
  that are possible results of `M_FloatGram`.
* Python exceptions are values: `Raise e` of the result type in `Base.v`.
* numba's scalar division raises `ZeroDivisionError`; this is modelled in
  coordinate descent.
* Loops with data-dependent exit are recursion on explicit fuel; theorems show
  the fuel used by the top-level function suffices (out-of-fuel is a distinct
  value).
* External routines (`np.linalg.inv`, scipy densities' special functions,
  random permutations, user-supplied distributions) are universally quantified
  section variables with their assumed behaviour as explicit hypotheses in the
  theorem statements.

## 2. Trusted base

* Coq 8.16.1 kernel.
* Standard-library axioms reported by `Print Assumptions`
  (classical reals: `ClassicalDedekindReals.sig_forall_dec`,
  `ClassicalDedekindReals.sig_not_dec`,
  `FunctionalExtensionality.functional_extensionality_dep`; and
  `Classical_Prop.classic` where Coquelicot's analysis is used).
* No axioms of our own; no plugins; libraries used: stdlib, Coquelicot and Flocq
  (neither brings axioms beyond the standard-library ones above).
* The correspondence between the python text and the model is by reading; it
  is documented definition by definition and not machine-checked.

## 3. Plan per property

See the table; "how" names the proof shape.

| id | model | how |
|---|---|---|
| C01 | `init_forget_vector` backwards loop | induction on the loop, closed form |
| C02 | `init_gram`, `init_y_gram` with the square-root trick | induction over rows |
| C03 | + `update_gram`, `update_y_gram` (single/batch branches) | append law, induction over the list of batches |
| C04 | same | sum-of-squares argument |
| C05, C06 | `_update_inverted_gram`, `update_inverted_gram`; `inv` as an oracle that returns a two-sided inverse or fails | Sherman-Morrison, invariant (symmetric, positive semidefinite inverse) over histories |
| C07 | batch vs single branch; square root of a negative number is a NaN value | equality for w >= 0; witness |
| C08, C09 | `OrdinaryLeastSquares` | uniqueness of inverses; completing the square |
| C10 | `soft_threshold` | case analysis |
| C11-C15, C22 | `online_coordinate_descent`, visiting orders from an arbitrary oracle | one-dimensional minimisation, invariant over sweeps; first-order conditions and convexity for C14; witness for C15 |
| C16-C21 | `_get_lambda_max`, lambda grid, `online_coordinate_descent_path`, `ElasticNetPath` | optimality conditions; induction over the path |
| C23-C26 | `OnlineScaler` | algebraic invariant (Welford) by induction over rows and batches |
| C27, C28 | `utils.py` | geometric sums, induction |
| C29, C30 | `InformationCriterion`, first-argmin selection | calculus (log x <= x-1), order reasoning |
| C31-C36 | `links/`, `robust_math.py` | real analysis (Coquelicot derivatives) |
| C37 | `_validate_links` with supports in extended reals | case analysis over all default links |
| C38-C42 | `distributions/` derivatives against scipy's documented densities | Coquelicot derivatives; expectation as an arbitrary positive linear functional with the distribution's moments |
| C43-C45 | inflated distributions with base cdf/ppf as oracles | case analysis, Galois connection |
| C46 | validation helpers | case analysis |
| C47-C53 | `OnlineLinearModel` object as a state record with optional attributes; `partial_fit` dispatch | refinement to batch estimator; failure histories |
| C54-C56, C75 | attribute processing and design matrices of `OnlineDistributionalRegression` | case analysis, witnesses |
| C57-C60, C77 | the outer and inner loops of fit and update with arbitrary method and distribution | fuel sufficiency, loop invariants |
| C61, C82, C83 | same | two-run comparison, witnesses |
| C62-C64, C68, C76, C78 | same | frame lemmas (which fields a call changes), inversion of successful runs |
| C65 | path selection of fit and update | inversion, first-argmin specification |
| C66 | estimation methods as objects on a heap, `copy` in the factory | heap frame lemmas |
| C73, C74 | object state record with optional attributes | failure histories |
| C79, C80, C84 | OLS inside the loops | exact Gramian invariant over streams, normal equations, completing the square |
| C81 | shipped distributions | every run meets a non-finite derivative |
| C71, C72 | as C47 | failure histories |
| C67 | `Ridge` | first-order conditions |
| C69 | `initial_values` | positivity of sample moments |
| C70 | `add_intercept` | unfolding |
| C85-C87 | `_parameter_constraints`, constructors, sklearn's `_fit_context` and `get_params` over a type of python values | characterisation of the accepted arguments in plain terms |
| C88 | `theta_to_scipy_params`, freezing of scipy distributions by keyword, `mean`; `predict` | table of means; characterisation by the score and by symmetry |
| C89, C93 | missing methods and empty `scipy_names` as exceptions | every run raises; inversion of fit |
| C90, C91 | `ppf`, `cdf`, `rvs` of all families over arbitrary standard laws; `predict_quantile` | Galois connection, location-scale algebra |
| C92 | `calculate_conditional_initial_values` with an arbitrary optimiser | comparison of likelihoods; log x <= x - 1 for the standard deviation |
| C94 | `return_contributions`, `what` | unfolding of dot products |
| C95 | scaler, fit, update and predict of both estimators in two unit systems | the scaler states describe the two streams (mean a m + b, variance a^2 v), so the transformed rows are equal and the two runs are the same but for the scaler |
| C96 | fit of both estimators from two states | two-run lemmas for the state monad: every attribute that fit reads has been written before |
| C97 | predict of both estimators | the prediction is a map over the rows of a function that depends on the state only |
| C98, C99 | `online_coordinate_descent` | the last sweep visits each coordinate at a vector within the tolerance of the result, perturbed variational inequality; gain per coordinate update summed over the sweeps |
| C100 | float coordinate descent with arbitrary dot products | invariants over visits and sweeps; order of floats with NaN |
| C101 | float `soft_threshold` | the difference is rounded once, its sign is kept; Flocq's error bounds |
| C102 | float scaler, one column | signs of sums, products and quotients; evaluation of the witnesses |
| C103-C105 | float `robust_exp`, `robust_softplus` and inverse links with `exp`, `log` accurate to 2^-50 | neighbours of 1, rounding to nearest at midpoints, bounds on powers of e |
| C106-C108 | fit, update, predict, score with OLS, ridge, elastic net in two unit systems of the target | two-run relation: same scaler and Gramian, scaled right-hand sides; coordinate descent, penalty grid and stopping rule are homogeneous; the criteria shift by one constant |
| C109-C110 | fit, update, predict, score on batches with the same weighted rows | two-run relation: equal weighted sums of every function of a row give equal scaler and Gramian; OLS by uniqueness of the inverse |
| C111 | `_inner_fit`, `_inner_update`, predict_distribution_parameters on the training rows | invariant per parameter through inner, cycle and outer loops: column of the fitted values = inverse link of model matrix times stored coefficients; schedule entries only fall below one |
| C112 | `fit`, `update`, `_inner_fit`, `_inner_update` on permuted batches | simulation between a run and the run on the rows with two neighbours exchanged, through every loop; start values by permutation invariance of mean, variance, median and logs |
| C113 | lasso inside `OnlineLinearModel.fit`/`update`/`predict_path` | induction over the run: row 0 starts with zeros off the intercept, the first visit gives the mean, which is a fixed point at the largest penalty |
| C114 | `Ridge`, `ElasticNetPath` inside `fit`/`update` | Gramians of a run are those of all rows seen; coordinate descent from the old coefficients descends (C11), strictly off a minimiser; rows stay in the box (C12) |
| C115 | `_inner_fit`, `working` with the shipped distributions | derivatives of `logpdf` (C38-C40) composed with the inverse link (C34) give the slope; the step solves the weighted least squares of C80, so the slope towards it is a sum of weighted squares |
| C116 | `online_coordinate_descent` in binary64 (`M_Float`) | rounding error of each operation (Flocq) gives a backward error of each step: the result solves the one-dimensional problem with slightly changed numbers; the stopping test bounds the moves of the last sweep; approximate first-order conditions give near minimality |
| C117 | scaler in binary64 (`M_Float`) | rounding error of each operation; errors of weight, weighted sum and sum of squares relative to the exact totals of the stream, propagated through `fit` and each row of `update`; then through the square root and the quotient of `transform` |
| C118 | `fit_select`, `update_select` in `M_GAMLSS` | sums over aligned lists rewritten as discounted sums over working observations; carried through the outer loops of `fit` and `update`; for streams without forgetting the running mean is the mean of all weights and the products telescope |
| C119 | `M_LM` with `ols_ops` | after any history the coefficients minimise the discounted squared loss (C48); old optimum inserted in the new normal equations; Sherman-Morrison gain h in [0,1) |
| C120 | `M_LM` with `ols_ops` | difference of the two normal equations after the tail: right-hand sides differ by (1-forget)^n times a constant, Gram matrix bounded below by lam; squared norms compared with Young's inequality |
| C121 | `M_LM` with `ols_ops` | recoded coefficients solve the recoded normal equations; uniqueness of the minimiser |
| C122 | `M_LM` with `ols_ops`, `r2` | normal equation of the intercept column; minimality against the constant model and against zero-padded coefficients |
| C123 | `gam_fit`, `gam_update` with `en_ops` | loop invariant: stored Gramians are those of the working observations of the last inner iteration and the stored path was computed from them; then the first row as in C113, or one regularised column solved in closed form |
| C124 | `lm_fit`, `lm_update` for all three methods, `scaler_fit`, `scaler_update` | two runs: scaler weight, Gramians and penalties times the factor, scaler moments, path and coefficients equal (inverse Gramian divided by it); concrete refutation for the choice on the path |
| C125 | `gam_fit`, `gam_update`, `predict_parameters`, all functions they call, `shipped` | simulation: the second run takes the same branches; Gramians are congruent, moments and coefficients transformed, fitted values moved, working weights and deviances equal at every step |
| C126 | `lm_history` with two criteria, `from_rss`, `argmin` | simulation: only `coef_` differs (no path method reads it); an exchange argument on the two minimised sums gives the order of the row sizes. In the distributional regression the chosen row feeds back into the next iteration, so only the linear model is covered; `aicc` is not an option of the linear model |
| C127 | `outer_fit`, `outer_update`, `gam_fit`, `gam_update` | induction on the fuel: the run of the loop is a list of cycles with their deviances, and the condition of the loop read off at each of them |
| C128 | `M_FloatGram` | rounding error of an inner product by induction over the ways to add it; error of one scaled row; induction over the calls. Sign: sums and fused sums of squares keep the sign bit clear |
| C129 | `M_FloatGram`, `M_Float` | any order of addition gives an accurate inner product (C128's induction); C116's per-coordinate inequality without symmetry, as the computed Gramian need not be symmetric; the error of the Gramians (C128) is moved into the slack; distance by strong convexity |
| C130 | `M_LM`, `M_OLS` | normal equations are linear in the response and have one solution; noise-free responses have loss zero. Scaled inputs: witness by computation, as for C48 |
| C131 | `M_LM`, `M_OLS` | difference of the normal equations before and after a row; Cauchy-Schwarz for the Gramian; rows orthogonal to a direction only discount its quadratic form; disjoint columns make the Gramian's row diagonal |
| C132 | `M_LM`, `M_Ridge`, `M_CD` | invariant of unscaled ridge histories (attributes and the last coordinate descent); a decoupled coordinate is set to its own minimiser in every visit; `C22` for totality |
| C133 | `M_LM`, `M_OLS`, `M_Ridge` | rows of weight zero multiply both Gramians by the same power of the forgetting rate, so the normal equations keep their unique solution; the leverage bound of C131 with the discounted evidence; the ridge invariant of C132 |

Not expressible / out of scope: floating-point rounding of a whole fit, timing,
numba compilation, scikit-learn's own checks of the data beyond shapes, plotting/printing,
and R-package equality of the densities.

## 4. Findings

Places where the code does not do what one would expect; each is a theorem
about the model (name in brackets).

Estimation methods
* The documented starting value `"average"` of coordinate descent is ignored. [C20]
* `lambda_max` uses no absolute value, so it can be zero or negative and the
  grid with it. [C17] With `alpha < 1` the path does not start at zero. [C18]
* Active-set sweeps never look again at coordinates that became zero. [C15]
* `early_stop` together with a previous fit freezes the tail of the path. [C21]
* A zero on the Gram diagonal raises ZeroDivisionError. [C22]
* Coordinate descent performs up to `max_iterations + 1` sweeps. [C13]

Information criteria
* `hqc` rewards parameters when 1 < n < e; `aicc` raises on arrays. [C30]

Links
* InverseSoftPlus derivatives are wrong; LogShift and SqrtShift are off by
  1e-10; Sqrt is not injective; the softplus inverse drops at 40; LogIdent's
  derivative is not implemented; inverse derivatives stay non-zero above the
  cap; the Sqrt link passes the support check although it reaches 0. [C31-C37]

Distributions
* `ReverseGumbel.dl2_dpp` has the wrong sign. [C41_cross_sign]
* `Gumbel.dl2_dp2` and `dl2_dpp` use printed constants. [C40_gumbel]
* `JSU` uses products of scores instead of (expected) second derivatives. [C40_jsu]
* Off the support `BetaInflated.logpdf` is 0 and `BetaInflatedZero.logpdf` is
  `-log(1+nu)` although the density is 0; `ZeroAdjustedGamma.pdf` is positive
  for negative y when sigma = 1. [C43_off_support]
* `ZeroAdjustedGamma.cdf(y < 0) = nu`, and `ppf(q < 0) = 0`. [C45]
* `InverseGaussian.dl2_dpp` has no range check; negative indices return None. [C46]
* Constant samples give scale 0; ReverseGumbel's initial location adds the
  Euler constant instead of subtracting it; Logistic's initial scale is too
  large by sqrt(pi). [C69]

Online linear model
* With `scale_inputs` the accumulated Gramian mixes units: online and batch
  estimates differ (prediction 25/74 instead of 1/10). [C48]
* The residual sums that select the row of the path are discounted once per
  call, with squared weights in `fit` and no weights in `update`; cutting the
  same rows differently can select another row. [C49]
* A first `partial_fit` that fails after validation (e.g. one row) makes every
  later `partial_fit` fail. [C51] Failed calls are counted in
  `n_observations_`. [C52]
* A `fit` on invalid data spoils a fitted object: `predict` raises. [C71]
* With `scale_inputs=True` an online least-squares model does not recover responses without noise
  after an update: the Gramian of the fit stays in the units of the fit. [C130]
* With `forget > 0`, rows outside a category discount the evidence for it without moving its
  coefficient: after a long absence the next row of the category replaces all that was learned
  about it. There is no lower bound on the effective sample size per column. [C131]
* The ridge penalty is fixed in the first call while the Gramian is discounted and grows: the
  default penalty depends on the number of rows of the first call, and the coefficients of absent
  categories decay to zero under forgetting. [C132]
* With `forget > 0` a row of weight zero is not neutral: discounting goes by rows and not by weight.
  Masked rows leave least-squares predictions alone but lower the weight of all earlier rows, and
  they shrink ridge coefficients. `n_observations_` and `n_training_` do not change. [C133]

Parameter validation
* `OnlineLasso` can never be fitted: `get_params` raises AttributeError. [C85]
* Dicts for `forget`, `method`, `fit_intercept`, `regularize_intercept` and
  `ic` are documented but rejected by every `fit` and `update`; only
  `step_size` and `equation` can be dicts. `aicc` is rejected too. [C86]
  Theorems about differing options per parameter therefore speak of runs with
  sklearn's parameter validation switched off (`skip_parameter_validation`).

Online distributional regression
* A `step_size` dict is read by position of its insertion order, not by
  parameter. [C55] The user's dicts are completed in place. [C54]
* A list of booleans as equation counts all columns in the bookkeeping but
  selects only the true ones. [C56] Lists of column names always raise. [C75]
* `prefit_initial > max_it_outer` (or `min_it_outer > max_it_outer`): every
  fit raises IndexError. [C58] The minimum of the fit is never reset. [C77]
* The step size is halved for the iteration after a worse candidate only;
  after an accepted candidate it is back at the schedule. [C59]
* In `update` the step size is computed but not used: updates do not depend on
  it and a worse candidate is repeated and stored. [C61, C82]
* Working weights are clipped below at 1e-10 in `fit` but at -1e10 in `update`;
  a zero weight makes the working response NaN, e.g. at the point masses of
  the inflated families. [C62]
* The sum of weights is discounted once per call. [C63]
* `get_debug_information` is off by one; its deviance is that of the following
  iteration and is stale after updates. The keys `X_dict` and `X_scaled` never
  exist. [C68]
* A failed first `partial_fit` poisons the object; a refit rejected for its
  support makes a fitted object unusable. [C73, C74]
* Cautious updates raise unless the batch has exactly one row. [C76]
* Failed updates are counted in `n_observations_`. [C78]
* y = 0 is in the support of LogNormal, LogNormalMedian and InverseGamma but
  never gives finite results. [C81]
* `global_ll` selection ignores weights in `fit`; in `update` it uses them and
  omits the coefficients of the other parameters from the penalty. [C83, C65]
* With `min_it_outer = 0` an update on a stored deviance that is far from the
  new one may make no cycle at all (excluded by `cycles <> Some O`). [C84]
* Read in the code but outside any theorem: `aicc` on a path raises.
* `predict_median` always raises AttributeError: no class defines `median`.
  `predict` does so for the inflated families, which have no `mean`. [C89]
* A python list of quantiles is paired with the rows instead of giving one
  column per level. [C90]
* `rvs` of the inflated families cannot return the documented shape for more
  than one row; with `size=1` all rows share one uniform draw. [C91]
* Conditional start values: NormalMeanVariance's variance starts at the
  standard deviation; InverseGamma and InverseGaussian maximise the likelihood
  at other parameters [C92]; Gamma, Beta and the inflated families raise. [C93]
* InverseGamma's `mu` is not its mean. [C88]
* The lasso's model choice depends on the unit of the target: coefficients
  below 1e-8 count as zero, so in small units the row with the smallest residual
  sum of squares wins. With alpha < 1 the path itself depends on the unit. [C107]
* A weight of 3 and three copies of a row can select different lasso models
  with forget = 0, since `fit` squares the weights in the residual sum of
  squares; the coefficient path is the same. [C109]
* With a step size below one, or a halved step, `fit` stores the coefficients of
  the full step but fitted values and deviance of the damped step; predictions
  for the training rows differ from the fitted values. `update` ignores the step
  size. [C111, C61]
- For path methods with `model_selection="local_rss"` the residual sum of an update is divided by
  `online_mean_update(_mean_of_weights, wt, forget, n_observations_)`. `n_observations_` is a sum of
  sample weights, but the function treats it as a count: for weights below one the old mean gets the
  share (n-1)/n, which is too small and even negative, so the denominator can be negative or zero and
  the information criterion is that of a negative residual sum. While the denominator is positive, it
  is the same for all candidates and does not change their order. [C112]
* `model_selection="local_rss"` with forgetting: `fit` divides the residual sums by the mean of the
  discounted weights but stores the mean of the undiscounted weights, and `update` multiplies the old
  numbers by the stored mean. The old residuals thus enter with the wrong factor, the ratio of the two
  means (1 without forgetting, where the numbers are exact). The running mean in the denominator of
  `update` ignores the sample weights, which are part of numerator and of the stored mean. [C118]
* `model_selection="global_ll"`: `fit` ignores the sample weights, `update` uses them for the new rows.
  [C118]
* `OnlineLinearModel.score` has no sample weights: after a weighted fit the score on the training data
  can be negative, even with OLS and an intercept (witness -35/37). [C122]
* A distribution parameter with the equation "intercept" (the default for all but the first one when
  no equation is given) and method "lasso" or "elasticnet" has its intercept penalised, although
  `regularize_intercept` is False, and `_get_lambda_max` then takes the largest moment without absolute
  value. Candidates are m - |m| eps^(k/(n-1)) for the mean m of the working responses: never the mean
  itself, zero first for m > 0, and for m < 0 twice the mean first, because the "penalty" is negative
  and pushes away from zero. With m = 0 geomspace raises ValueError. Witness: all responses -1, fitted
  intercept -2. [C123]
* `OnlineLinearModel.fit` takes the sum of the sample weights for the number of rows: weights
  normalised to sum one raise `ValueError` ("only one sample"), and with `method="ols"` any weights
  whose sum is at most the number of columns. The chosen row of a path depends on a common factor
  of the weights. [C124]
* The shift property does not hold for the lasso in exact form (the coordinate descent stops by a
  tolerance relative to the largest coefficient) and rescaling the responses is not exactly neutral for
  any method (deviances change by a constant, and the stopping rules compare relative changes). [C125, not formalised]
* Method objects: calling one object's `fit` path twice with other settings
  keeps the bounds of the first call; the factory copies, so user objects are
  not affected. [C66]
* `initial_values` of InverseGaussian is sigma = sd / sqrt(mean), but the variance of that law is
  mu^3 sigma^2; the start matches the sample variance only for mean 1. Only the start is affected. [C69]

Floating point
* Updates of the scaler can make the variance of a constant column negative,
  and `transform` then returns NaN; `fit` on a constant column can give a
  positive variance and a transformed value of -1. [C102]
* The softplus link returns exactly 0 for linear predictors of -40 and below,
  the shifted links exactly their value. [C104]

## 5. Trusted base per theorem

`Print Assumptions` is run after every theorem in the `P_*.v` files. What it
lists (short names; `sig_forall_dec` and `sig_not_dec` are in
`ClassicalDedekindReals`, `functional_extensionality_dep` in
`FunctionalExtensionality`, `classic` in `Classical_Prop`, all of the standard
library; the table is written by `tools/assumptions.py`):

| file | axioms listed | theorems |
|---|---|---|
| P_CD | sig_forall_dec, functional_extensionality_dep | C10_soft_threshold_prox, C10_soft_threshold_odd, C10_soft_threshold_nonexpansive, C10_soft_threshold_zero, C11_descent, C11_descent_strict, C12_bounds, C13_terminates, C13_stopping_rule, C13_one_more_sweep, C14_fixed_point_optimal, C14_optimal_is_kept, C15_zero_stays_zero, C15_stop_not_optimal, C15_active_set_optimal, C22_raises_iff, C22_never_raises |
| P_CDRate | sig_forall_dec, functional_extensionality_dep | C98_accuracy_at_tolerance, C99_every_sweep_gains, C99_number_of_sweeps |
| P_Criterion | sig_not_dec, sig_forall_dec, functional_extensionality_dep, classic | C126_only_chooses, C126_heavier, C126_order |
| P_Dist | sig_forall_dec, functional_extensionality_dep | C38_admissible |
| P_Dist | sig_not_dec, sig_forall_dec, functional_extensionality_dep, classic | C38_score, C39_score, C40_diagonal, C40_cross, C40_gumbel, C40_jsu, C41_cross_sign, C42_positive, C42_jsu, C42_inflated, C43_beta_inflated, C43_beta_inflated_zero, C43_zero_adjusted_gamma, C43_lognormal, C43_logcdf, C43_off_support, C44_beta_inflated, C44_beta_inflated_zero, C44_zero_adjusted_gamma, C44_lognormal, C45_off_support, C46_single, C46_pair, C46_negative, C69_initial_values, C69_constant_sample, C69_reverse_gumbel, C69_logistic |
| P_Dist | sig_not_dec, sig_forall_dec, functional_extensionality_dep | C45_bad_level |
| P_Dist | sig_forall_dec | C46_inverse_gaussian |
| P_Equation | none | C54_every_parameter_has_a_value, C54_user_entries_are_kept, C54_user_dict_is_extended_in_place, C54_handle_param_dict, C54_equation_completed, C55_step_is_right_for_dicts_in_parameter_order, C55_step_goes_by_position |
| P_Equation | sig_forall_dec, functional_extensionality_dep | C55_wrong_parameter |
| P_Equation | sig_forall_dec | C56_model_matrix, C56_bookkeeping_agrees, C56_other_selections_raise |
| P_Equi | sig_not_dec, sig_forall_dec, functional_extensionality_dep, classic | C125_shift, C125_families, C125_concave, C125_recode |
| P_Factory | sig_not_dec, sig_forall_dec, functional_extensionality_dep, classic | C66_user_objects_unchanged, C66_refit_is_first_fit, C66_estimators_independent, C66_objects_remember |
| P_Fitted | sig_not_dec, sig_forall_dec, functional_extensionality_dep, classic | C111_update, C111_fit, C111_fit_deviance, C111_shipped |
| P_Fitted | sig_not_dec, sig_forall_dec, functional_extensionality_dep, constructive_indefinite_description, classic | C111_damped |
| P_Float | sig_not_dec, sig_forall_dec, functional_extensionality_dep, classic | C100_float_terminates, C100_float_within_bounds, C100_float_no_nan_at_tolerance, C100_float_zero_stays_zero, C100_float_raises_iff, C101_float_soft_threshold, C101_float_soft_threshold_monotone, C102_float_fit_variance, C102_float_update_negative_variance, C102_float_constant_column, C103_float_logit_inside, C104_float_softplus_positive, C104_float_softplus_reaches_zero, C104_float_shift_reaches_value, C104_float_shift_support, C105_float_log_positive, C105_float_logident_positive |
| P_FloatCD | sig_not_dec, sig_forall_dec, functional_extensionality_dep, classic | C116_float_step_minimises, C116_float_run_near_optimal, C116_serial_dot_accurate |
| P_FloatGram | sig_not_dec, sig_forall_dec, functional_extensionality_dep, classic | C128_accuracy, C128_diagonal, C128_positive, C128_assumptions |
| P_FloatLasso | sig_not_dec, sig_forall_dec, functional_extensionality_dep, classic | C129_stream_optimal, C129_stream_distance, C129_any_dot_accurate |
| P_FloatS | sig_not_dec, sig_forall_dec, functional_extensionality_dep, classic | C117_float_moments, C117_float_transform, C117_float_round_trip |
| P_GAMLSS | sig_not_dec, sig_forall_dec, functional_extensionality_dep, classic | C57_rejected_without_effect, C57_rejected_only_then, C57_methods_never, C58_fit_cycles, C58_update_cycles, C58_contradictory_limits, C58_fuel_is_enough, C58_returns, C59_inner_fit, C59_prefit, C59_prefit_update, C60_inner_fit_never_worse, C60_fit_never_worse_than_first_cycle, C60_first_cycle_stores_last, C61_update_ignores_steps, C61_predictions_ignore_steps, C61_fit_has_steps, C62_point_masses_break_update, C63_after_fit, C63_one_discount_per_call, C63_stream, C64_prediction_in_link_range, C64_prediction_is_valid, C65_fit_selection, C65_update_selection, C68_records_of_inner_fit, C68_deviance_of_the_next_iteration |
| P_GAMLSS | sig_forall_dec, functional_extensionality_dep | C62_fit_weights, C62_update_weights, C63_chunking |
| P_GAMLSS | sig_not_dec, sig_forall_dec, functional_extensionality_dep | C64_prediction_formula |
| P_GAMLSS | none | C68_reads_the_next_record |
| P_GAMLSS2 | sig_not_dec, sig_forall_dec, functional_extensionality_dep, classic | C73_failed_first_fit, C73_one_row_first, C74_failed_refit, C75_names_always_raise, C76_cautious_updates, C77_minimum_carries_over, C77_minimum_of_an_update, C78_failed_update_keeps_the_accumulated, C78_every_update_is_counted, C84_after_fit, C84_after_update, C84_after_a_stream, C79_normal_location, C80_stationary_points, C81_zeros_accepted_but_never_fitted, C82_worse_candidate_is_stored, C83_fit_selection_ignores_weights |
| P_GAMLasso | sig_not_dec, sig_forall_dec, functional_extensionality_dep, classic | C123_first_candidate, C123_intercept_only, C123_doubles |
| P_GAMSelect | sig_not_dec, sig_forall_dec, functional_extensionality_dep, classic | C118_fit_residuals, C118_fit_likelihoods, C118_update, C118_stream |
| P_Gram | sig_forall_dec, functional_extensionality_dep | C01_forget_vector |
| P_Gram | sig_not_dec, sig_forall_dec, functional_extensionality_dep | C02_init_gram, C02_init_y_gram, C03_gram_history, C03_y_gram_history, C04_gram_symmetric, C04_gram_psd, C05_inverse_history, C05_init_raises_iff, C06_divisor_positive, C07_batch_equals_rowwise, C07_negative_weight_nan, C08_ols_online_equals_batch, C08_ols_chunking, C09_ols_optimal |
| P_Init | sig_not_dec, sig_forall_dec, functional_extensionality_dep, classic | C69_location, C69_scale |
| P_LM | sig_not_dec, sig_forall_dec, functional_extensionality_dep, classic | C47_chunking, C47_least_squares, C48_units_of_arrival, C48_scaling_breaks_equality, C49_discount_per_call, C49_plain_sum, C49_depends_on_chunking, C50_fit_selects, C50_update_selects, C51_poisoned, C51_when, C51_single_row, C51_never_refits, C51_fit_forgets, C52_counts_failed_calls, C52_accounting, C71_failed_refit, C72_rejected_batch |
| P_LM | sig_not_dec, sig_forall_dec, functional_extensionality_dep | C49_weights, C53_score_of_predictions, C53_ignores_weights |
| P_LM | sig_forall_dec, functional_extensionality_dep | C53_at_most_one, C53_mean_predictor, C53_undefined_iff_constant |
| P_Learn | sig_not_dec, sig_forall_dec, functional_extensionality_dep, classic | C119_exact_rows, C119_one_row, C119_batch, C120_forgets |
| P_Links | sig_not_dec, sig_forall_dec, functional_extensionality_dep, classic | C31_round_trip, C31_clipped, C32_round_trip, C32_sqrt_abs, C32_shifted, C33_in_range, C33_cap, C34_link_derivative, C34_link_second_derivative, C34_inverse_derivative, C34_above_cap, C34_logident_not_implemented, C35_first_derivative_wrong, C35_second_derivative_sign, C36_link_nondecreasing, C36_link_strict, C36_inverse_nondecreasing, C36_inverse_strict, C36_softplus_drop, C36_logit_above_one, C37_sqrt_gap |
| P_Links | sig_forall_dec, functional_extensionality_dep | C37_warns_iff, C37_construct, C37_defaults_silent |
| P_Links | sig_forall_dec, functional_extensionality_dep, classic | C37_which |
| P_Mask | sig_not_dec, sig_forall_dec, functional_extensionality_dep, classic | C133_unchanged, C133_ages, C133_long_mask, C133_not_dropped, C133_ridge, C133_counters |
| P_Newton | sig_not_dec, sig_forall_dec, functional_extensionality_dep, classic | C115_direction, C115_small_steps, C115_weights, C115_weights_jsu |
| P_Order | sig_not_dec, sig_forall_dec, functional_extensionality_dep, classic | C112_history, C112_ols_fit, C112_methods, C112_shipped, C112_denominator, C112_small_weights |
| P_Order | sig_forall_dec | C112_default_forget |
| P_Outer | sig_not_dec, sig_forall_dec, functional_extensionality_dep, classic | C127_fit, C127_update, C127_descent, C127_all_cycles |
| P_Params | sig_not_dec, sig_forall_dec, functional_extensionality_dep, classic | C85_lasso_never_fits, C85_lasso_never_predicts |
| P_Params | sig_forall_dec, functional_extensionality_dep | C86_dict_options_are_rejected, C86_step_size_may_be_a_dict, C87_scaler, C87_linear_model, C87_distributional_regression |
| P_Params | sig_forall_dec | C86_all_parameters_have_the_same_options |
| P_Path | sig_not_dec, sig_forall_dec, functional_extensionality_dep, classic | C12_path_bounds, C16_first_row, C17_nonnegative_first_row_zero, C17_negative_first_row_nonzero, C17_negative_grid, C17_single_column_doubled, C18_mixed_first_row_nonzero, C18_mixed_first_row_nonzero_all, C19_grid, C21_row_shape, C21_frozen |
| P_Path | sig_forall_dec, functional_extensionality_dep | C16_lambda_max_tight, C20_average_is_previous_fit, C67_fixed_point_solves, C67_solution_is_kept, C67_unique_minimiser, C67_fit_start, C67_zero_penalty_is_least_squares |
| P_Penal | sig_not_dec, sig_forall_dec, functional_extensionality_dep, classic | C113_first_row, C114_ridge, C114_path_update, C114_path_rows |
| P_Predict | sig_not_dec, sig_forall_dec, functional_extensionality_dep, classic | C88_predict, C89_predict_of_mixed_families, C90_array_of_quantiles, C93_fit_never_completes_a_cycle |
| P_Predict | sig_not_dec, sig_forall_dec, functional_extensionality_dep | C89_predict_median, C90_one_quantile, C90_list_of_quantiles, C94_contributions, C94_other_values_of_what |
| P_Recode | sig_not_dec, sig_forall_dec, functional_extensionality_dep, classic | C121_recode, C122_residuals, C122_training_score, C122_nested, C122_weights_break_it |
| P_RidgeLM | sig_forall_dec, functional_extensionality_dep | C132_coordinate |
| P_RidgeLM | sig_not_dec, sig_forall_dec, functional_extensionality_dep, classic | C132_never_fails, C132_category, C132_absence, C132_fades, C132_first_call_sets_penalty |
| P_Rows | sig_forall_dec, functional_extensionality_dep | C109_counts |
| P_Rows | sig_not_dec, sig_forall_dec, functional_extensionality_dep, classic | C109_ols, C109_ridge, C109_path, C109_choice_differs, C110_ols, C110_ridge, C110_path, C110_forgetting_differs |
| P_Scaler | sig_forall_dec, functional_extensionality_dep | C23_moments, C23_fit_succeeds, C24_variance_nonnegative |
| P_Scaler | sig_not_dec, sig_forall_dec, functional_extensionality_dep | C25_round_trip, C25_unselected_columns, C26_standardised |
| P_Scipy | sig_not_dec, sig_forall_dec, functional_extensionality_dep | C88_mean_of_the_family, C88_mean_and_score, C88_symmetric, C90_quantile_function, C90_never_cross, C91_scipy_families, C91_mixed_families, C91_mixed_shape, C92_available, C92_earlier_columns_stay, C92_maximum_likelihood, C92_other_parameters, C92_variance_is_standard_deviation, C93_start_values_raise |
| P_Super | sig_not_dec, sig_forall_dec, functional_extensionality_dep, classic | C130_superposition, C130_any_response, C130_recovery, C130_scaling_breaks_recovery |
| P_Target | sig_not_dec, sig_forall_dec, functional_extensionality_dep, classic | C106_ols, C106_ridge, C107_lasso, C107_small_units, C107_units_change_model, C107_elastic_net, C107_one_column, C108_affine_target |
| P_Units | sig_not_dec, sig_forall_dec, functional_extensionality_dep, classic | C95_linear_model, C95_distributional, C96_distributional, C96_same_outcome |
| P_Units | sig_not_dec, sig_forall_dec, functional_extensionality_dep | C97_linear_model, C97_distributional, C97_exceptions |
| P_Utils | sig_not_dec, sig_forall_dec, functional_extensionality_dep, classic | C27_sum_of_weights, C27_increasing, C27_bounds, C27_limit, C28_discounted_mean, C28_arithmetic_mean, C29_gaussian, C30_scale_invariant_choice, C30_more_likelihood, C30_fewer_parameters, C30_max_is_likelihood, C30_hqc_short_sample, C30_aicc_path_raises |
| P_Utils | sig_forall_dec, functional_extensionality_dep | C30_choice_is_first_minimum |
| P_Utils | sig_forall_dec | C70_add_intercept |
| P_Weight | sig_not_dec, sig_forall_dec, functional_extensionality_dep, classic | C124_ols, C124_ridge, C124_path, C124_selection, C124_rejected |
| P_Windup | sig_not_dec, sig_forall_dec, functional_extensionality_dep, classic | C131_one_row, C131_windup, C131_next_row_decides, C131_category_mean, C131_frozen |

## 6. What each model file covers, and what it leaves out

| model | code | left out |
|---|---|---|
| M_Gram, M_GramNan | `gram.py` | rounding; `M_GramNan` only tracks NaN of square roots |
| M_FloatGram | one entry of the arrays of `gram.py` in binary64 | `** 0.5` and `** n` by their accuracy only; values above 2^300 |
| M_OLS | `methods/recursive_least_squares.py` style estimators, `np.linalg.inv` as an oracle | condition numbers |
| M_CD, M_Path | `coordinate_descent.py`, `methods/elasticnet.py`, `methods/lasso_path.py` | the random generator (visiting order is arbitrary) |
| M_Ridge | `methods/ridge.py` | |
| M_Scaler | `scaler.py` | NaN inputs |
| M_Utils | `utils.py`, `information_criteria.py` | arrays for aicc are only modelled as the exception |
| M_Links, M_DistTable | `links/`, `robust_math.py`, supports and default links | overflow inside numpy's exp below the cap |
| M_Dist | `distributions/*.py` derivatives, `logpdf`, argument validation | array broadcasting; float spacing in `np.nextafter` is a fixed positive number |
| M_Mixed | `pdf`, `cdf`, `ppf`, `logcdf` of the mixed families and LogNormal | scipy's continuous laws are assumed monotone with matching quantiles |
| M_Init | `initial_values` | scipy's maximum-likelihood fits are arbitrary results |
| M_State, M_LM | `estimators/online_linear_model.py`, `partial_fit` of `base/estimator.py`; `online_lasso.py` is this class with `LassoPath` | parameter validation (see M_Params), warnings, broadcasting of length-one arrays |
| M_Equation | the attribute processing of `online_gamlss.py` (174-424) | pandas/polars selection is reduced to column indices; python's dict is an association list in insertion order |
| M_GAMLSS | `online_gamlss.py` 426-1482: selection, fit, update, inner and outer loops, prediction; `get_debug_information` | the estimation method is an arbitrary record of operations (`method_ops`), the distribution an arbitrary record (`dist_ops`); prints and warnings; negative entries of `param_order`; shape errors after a failed refit with another number of columns; results that are NaN or infinite end the run with `NanResult`; working attributes of a former `update` (such as `_x_gram_inner`) that survive a second `fit` in the code are reset by the model, they are rewritten before any use |
| M_GAMDist | the shipped distributions as such records | derivative formulas are guarded by validity of the parameters; special functions are arbitrary; negative sample weights end with `NanResult` |
| M_Factory | `methods/factory.py`, constructors of the methods | the heap holds method objects only |
| M_Params | `_parameter_constraints`, attribute assignment in the constructors, sklearn's `_fit_context`, `get_params`, `validate_parameter_constraints` | error messages; other sklearn configurations than the default; attributes assigned by the user after construction |
| M_Scipy | `ScipyMixin`: `theta_to_scipy_params`, `mean`, `cdf`, `ppf`, `rvs`, `calculate_conditional_initial_values`; the overrides in `distributions/` | standard laws and draws of scipy are arbitrary; scipy's formulas for standardised means are transcribed; the optimiser is arbitrary (`honest` where said); broadcasting beyond one level per call |
| M_Predict | `predict`, `predict_median`, `predict_quantile`, `what` and `return_contributions` | zero- and two-dimensional arrays of quantiles |
| M_Float | `coordinate_descent.py`, `scaler.py` (one column), `robust_math.py`, `inverse` of the links, in binary64 | dot products are rounded in any way (coordinate descent); sums of the scaler run row by row; `np.exp` and `np.log` are arbitrary with a stated accuracy; Sqrt links; float32; fused multiply-add by the compiler |
