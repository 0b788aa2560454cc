"""Generates /verif/properties.jsonl (one JSON object per line)."""
import json, os
P = []
def prop(id, title, statement, quantifier, why, anchors):
    P.append(dict(id=id, title=title, statement=statement, quantifier=quantifier,
                  why_tests_cant=why, anchors=anchors))
S = "src/ondil/"
G = S + "gram.py"; CD = S + "coordinate_descent.py"; SC = S + "scaler.py"; UT = S + "utils.py"
IC = S + "information_criteria.py"; LM = S + "estimators/online_linear_model.py"
GL = S + "estimators/online_gamlss.py"; EN = S + "methods/elasticnet.py"
RLS = S + "methods/recursive_least_squares.py"; RI = S + "methods/ridge.py"
LK = S + "links/"; DI = S + "distributions/"; BD = S + "base/distribution.py"

# ---------------------------------------------------------------- gram
prop("C01", "Discount vector is geometric and ends in one",
 "For size >= 1, init_forget_vector(forget, size) has length size, its last entry is 1, and the entry at position n is (1 - forget)^(size - 1 - n).",
 "every real forget and every size >= 1",
 "Holds for every length and every discount; a test fixes a handful of sizes.",
 [G + ":init_forget_vector"])
prop("C02", "Initial Gramian is the discounted weighted second-moment matrix",
 "init_gram(X, w, forget) has entries sum_n w_n (1-forget)^(N-1-n) X[n,i] X[n,j], and init_y_gram(X, y, w, forget) has entries sum_n w_n (1-forget)^(N-1-n) X[n,i] y_n, whenever all weights are non-negative and forget <= 1.",
 "every design matrix of any size, every target, every non-negative weight vector, every forget <= 1",
 "Universal over array sizes and contents.",
 [G + ":init_gram", G + ":init_y_gram"])
prop("C03", "Gramian after any history equals one batch Gramian",
 "Starting from init_gram on a first batch and applying update_gram for any finite sequence of non-empty batches (any mixture of single rows and larger batches), the result equals init_gram on all rows concatenated in arrival order. The same holds for init_y_gram / update_y_gram.",
 "every first batch, every number and size of later batches, every data, non-negative weights, forget <= 1",
 "Quantifies over all partitions of an unbounded stream into batches.",
 [G + ":update_gram", G + ":update_y_gram", G + ":init_gram", G + ":init_y_gram"])
prop("C04", "Gramian is symmetric and positive semidefinite after any history",
 "After init_gram and any sequence of update_gram calls with non-negative weights, the matrix is symmetric and v' G v >= 0 for every v.",
 "every history, every vector v, every dimension",
 "Positive semidefiniteness quantifies over all vectors.",
 [G + ":init_gram", G + ":update_gram"])
prop("C05", "Recursive inverse stays the inverse of the batch Gramian",
 "If init_inverted_gram succeeds on the first batch, then after any sequence of update_inverted_gram calls (non-negative weights, 0 <= forget < 1) the stored matrix is the two-sided inverse of the Gramian of all data seen.",
 "every first batch of full rank, every later history, every dimension",
 "An algebraic identity over all matrices and unboundedly many updates.",
 [G + ":_update_inverted_gram", G + ":update_inverted_gram", G + ":init_inverted_gram"])
prop("C06", "Recursive inverse update never divides by zero",
 "Under the conditions of C05 the divisor used by each rank-one update is at least 1 - forget > 0, so the recursion is defined at every step of every history.",
 "every first batch of full rank and every later history with non-negative weights and 0 <= forget < 1",
 "Needs an invariant (positive definiteness) along an unbounded history.",
 [G + ":_update_inverted_gram"])
prop("C07", "Single-row and batch updates disagree for negative weights",
 "The batch branch of update_gram takes the square root of the weights while the single-row branch does not: for a negative weight a one-row update is a finite number but the same rows given as a batch are not (NaN). With non-negative weights the two branches agree on every input.",
 "every batch with non-negative weights (agreement); a witness with a negative weight (disagreement)",
 "Agreement is universal; the disagreement is outside tested inputs.",
 [G + ":update_gram", G + ":update_y_gram", GL + ":OnlineDistributionalRegression._inner_update"])

# ---------------------------------------------------------------- OLS
prop("C08", "Online OLS equals batch OLS for every chunking of the stream",
 "For the OrdinaryLeastSquares method, the coefficients after a fit on a first batch and any sequence of updates equal the coefficients of a single fit on all data, for every way of cutting the stream into batches.",
 "every full-rank first batch, every later data, every chunking, every forget in [0,1), every non-negative weights",
 "All partitions of an unbounded stream.",
 [RLS + ":OrdinaryLeastSquares", G + ":update_inverted_gram", G + ":update_y_gram"])
prop("C09", "Online OLS minimises the discounted weighted squared error",
 "After any history as in C08 the coefficient vector is the unique minimiser over all vectors b of sum_n w_n (1-forget)^(N-1-n) (y_n - x_n.b)^2 over every observation seen so far.",
 "every history, every competing coefficient vector",
 "Optimality quantifies over all competing vectors.",
 [RLS + ":OrdinaryLeastSquares.fit_beta", RLS + ":OrdinaryLeastSquares.update_beta"])

# ---------------------------------------------------------------- coordinate descent
prop("C10", "soft_threshold is the proximal map of the absolute value",
 "For threshold t >= 0, soft_threshold(v, t) is the unique minimiser of 0.5 (x - v)^2 + t |x|; it is odd and non-expansive in v, and returns 0 exactly when |v| <= t.",
 "every real v, every t >= 0, every competitor x",
 "Optimality over all reals.",
 [CD + ":soft_threshold"])
prop("C11", "Coordinate descent never increases the penalised objective",
 "For a symmetric Gramian with non-negative diagonal, reg >= 0, 0 <= alpha <= 1 and a feasible start, online_coordinate_descent returns coefficients whose elastic-net objective 0.5 b'Gb - h'b + reg * sum_j reg_j (alpha |b_j| + (1-alpha)/2 b_j^2) is at most that of the start.",
 "every Gramian, target, penalty, box, tolerance, iteration limit and every sequence of random visiting orders",
 "All visiting orders and all numbers of sweeps.",
 [CD + ":online_coordinate_descent"])
prop("C12", "Coordinate descent respects the coefficient bounds",
 "Every coefficient vector returned by online_coordinate_descent, and every row of a coefficient path computed by ElasticNetPath.fit_beta_path or updated by update_beta_path, lies within [beta_lower_bound, beta_upper_bound].",
 "every input with lower <= upper, every start value, every visiting order, every history of updates",
 "Universal over starts, orders and update histories.",
 [CD + ":online_coordinate_descent", CD + ":online_coordinate_descent_path", EN + ":ElasticNetPath.fit_beta_path", EN + ":ElasticNetPath.update_beta_path"])
prop("C13", "Coordinate descent terminates within max_iterations + 1 sweeps",
 "online_coordinate_descent always returns; the reported iteration count is at least 1 and at most max_iterations + 1 (one more than the documented maximum), and a count below that limit implies the tolerance test was met.",
 "every input, including non-convergent ones, every tolerance and every limit >= 0",
 "Termination on all inputs.",
 [CD + ":online_coordinate_descent"])
prop("C14", "A coefficient vector left unchanged by a full sweep is globally optimal",
 "If updating every coordinate leaves the vector unchanged, the vector minimises the elastic-net objective over the whole box (Gramian positive semidefinite with positive diagonal).",
 "every Gramian, target, penalty, box and every competing vector in the box",
 "Global optimality over a continuum.",
 [CD + ":online_coordinate_descent"])
prop("C15", "The active-set shortcut can stop at a non-optimal point",
 "After the first sweep coordinates equal to zero are never revisited, so online_coordinate_descent can meet its stopping test at tolerance 0 at a point that is not a minimiser of its objective; a concrete input is exhibited. A coordinate that is zero after sweep one stays zero for the rest of the call.",
 "every input (zero stays zero); one exhibited input (non-optimality)",
 "Tests compare 95% of coefficients with sklearn with loose tolerance.",
 [CD + ":online_coordinate_descent"])
prop("C16", "Largest penalty of the lasso path switches off all regularised coefficients",
 "With one unregularised column (the intercept) and alpha = 1, at the largest lambda of the path the vector that is zero on all regularised columns and least squares on the unregularised one is a global minimiser, and at every smaller non-negative lambda it is not. The first row of the fitted path is exactly that vector.",
 "every positive semidefinite Gramian with positive diagonal, every target",
 "Tight characterisation for all data.",
 [EN + ":ElasticNetPath._get_lambda_max", EN + ":ElasticNetPath.fit_beta_path"])
prop("C17", "Path maximum without an unregularised column ignores negative correlations",
 "If all columns are regularised the path starts at max(X'y) rather than max|X'y|: when the most correlated column is negatively correlated the first path point has a non-zero coefficient, and when every correlation is negative the whole penalty grid is negative. With a non-negative X'y the first point is zero.",
 "every Gramian/target with non-negative X'y (correct); exhibited inputs (wrong)",
 "The only test passes its own grid built with abs.",
 [EN + ":ElasticNetPath._get_lambda_max"])
prop("C18", "Elastic net path with alpha < 1 does not start at the all-zero solution",
 "For 0 < alpha < 1 the first path penalty is max|X'y| (max X'y if no column is unregularised, see C17) instead of max|X'y|/alpha, so the first path point is non-zero whenever the largest correlation is non-zero; alpha = 1 is the only mixing parameter for which the documented property holds.",
 "every alpha in (0,1), every non-degenerate target",
 "Universally quantified failure.",
 [EN + ":ElasticNetPath._get_lambda_max"])
prop("C19", "The lambda grid is geometric, decreasing and has the requested ends",
 "For lambda_max > 0, 0 < lambda_eps < 1 and lambda_n >= 2 the path has lambda_n entries, starts at lambda_max, ends at lambda_max * lambda_eps, has constant ratio and is strictly decreasing and positive.",
 "every lambda_max > 0, lambda_eps in (0,1), lambda_n >= 2",
 "Universal over grid sizes.",
 [EN + ":ElasticNetPath.fit_beta_path"])
prop("C20", "start_value \"average\" has no effect of its own",
 "online_coordinate_descent_path returns exactly the same path and iteration counts for which_start_value \"average\" and \"previous_fit\", on every input; the documented averaging is never used.",
 "every input and every random visiting order",
 "An equality over all inputs.",
 [CD + ":online_coordinate_descent_path"])
prop("C21", "Early stopping freezes the path on online updates",
 "With early_stop = k > 0 and start from the previous fit, a path row that already has at least k non-zero coefficients is returned unchanged by every update, whatever the new data are; rows computed with early_stop are either a coordinate-descent result or a copy of their start value.",
 "every data, every history",
 "All histories.",
 [CD + ":online_coordinate_descent_path"])
prop("C22", "A column without variation makes coordinate descent raise",
 "If some visited column has zero Gramian diagonal and no ridge part, the division raises ZeroDivisionError; if every diagonal is positive (or every such column is penalised with alpha < 1 and reg > 0) no call ever raises.",
 "every input",
 "All inputs, error branch included.",
 [CD + ":online_coordinate_descent"])

# ---------------------------------------------------------------- scaler
prop("C23", "Online mean and variance equal the batch weighted mean and variance",
 "After OnlineScaler.fit and any sequence of update calls, mean_ and var_ equal the discounted sample-weighted mean and variance of all rows seen, and n_observations_ is the total sample weight, for every chunking of the stream.",
 "every data, positive sample weights, 0 <= forget < 1, every chunking",
 "All partitions of an unbounded stream; a Welford recursion is easy to get subtly wrong.",
 [SC + ":OnlineScaler.fit", SC + ":OnlineScaler.update"])
prop("C24", "Variance is never negative",
 "var_ >= 0 after any history, and var_ = 0 exactly when every row seen (with positive weight) has the same value in that column.",
 "every history with positive weights",
 "All histories.",
 [SC + ":OnlineScaler.update"])
prop("C25", "transform and inverse_transform are mutually inverse and leave unselected columns alone",
 "For columns with positive variance inverse_transform(transform(X)) = X = transform(inverse_transform(X)); columns not selected by to_scale are returned unchanged; with to_scale=False nothing changes at all.",
 "every fitted state, every X, every column selection",
 "Round trip for all inputs.",
 [SC + ":OnlineScaler.transform", SC + ":OnlineScaler.inverse_transform"])
prop("C26", "Scaled training data are standardised",
 "transform applied to the data seen so far has discounted weighted mean 0 and variance 1 in every selected column with positive variance, after every history.",
 "every history",
 "All histories.",
 [SC + ":OnlineScaler.transform", SC + ":OnlineScaler.update"])

# ---------------------------------------------------------------- utils
prop("C27", "Effective training length is the sum of the discount weights",
 "calculate_effective_training_length(forget, n) equals sum_{k<n} (1-forget)^k, is strictly increasing in n, at most n, and bounded by calculate_asymptotic_training_length(forget) = 1/forget for forget > 0.",
 "every forget in [0,1), every n",
 "All n and forget.",
 [UT + ":calculate_effective_training_length", UT + ":calculate_asymptotic_training_length"])
prop("C28", "online_mean_update computes the discounted mean over any stream",
 "Feeding a stream through online_mean_update one at a time or in arrays of any sizes yields the discounted mean sum (1-f)^(n-k) v_k / sum (1-f)^(n-k); for forget = 0 it is the arithmetic mean.",
 "every stream, every chunking, every forget in [0,1)",
 "All partitions of an unbounded stream.",
 [UT + ":online_mean_update", UT + ":_online_mean_update"])

# ---------------------------------------------------------------- information criteria
prop("C29", "from_rss is the maximised Gaussian likelihood",
 "InformationCriterion.from_rss(rss) equals from_ll of the maximum over all variances of the Gaussian log-likelihood with residual sum of squares rss, for every criterion.",
 "every n > 0, rss > 0, every competing variance",
 "Maximality over a continuum.",
 [IC + ":InformationCriterion.from_rss", IC + ":InformationCriterion.from_ll"])
prop("C30", "Model choice is invariant to rescaling and prefers likelihood",
 "The selected index (first minimiser) does not change when all residual sums of squares are multiplied by the same positive number; more likelihood at equal size, or equal likelihood with fewer parameters, never yields a larger criterion; criterion \"max\" selects a maximiser of the likelihood.",
 "every list of candidate models, every criterion, every n large enough for the criterion to be a penalty",
 "All candidate lists.",
 [IC + ":InformationCriterion", LM + ":OnlineLinearModel.fit", GL + ":OnlineDistributionalRegression._fit_select_model"])

# ---------------------------------------------------------------- links
prop("C31", "Link followed by inverse returns the parameter",
 "For Identity, Log, Logit, LogIdent, Sqrt, InverseSoftPlus and the shifted variants, inverse(link(x)) = x on the link's regular range (stated per link); the shifted log and square-root links are off by exactly the constant 1e-10.",
 "every x in the stated range, every shift value",
 "Continuum of inputs; tests allow 1e-8.",
 [LK + "loglinks.py", LK + "logitlinks.py", LK + "sqrtlinks.py", LK + "softpluslinks.py", LK + "identitylinks.py", LK + "robust_math.py"])
prop("C32", "Inverse followed by link returns the predictor",
 "link(inverse(eta)) = eta on the stated range for Identity, Log, Logit, LogIdent and InverseSoftPlus; for Sqrt it returns |eta|, so negative predictors are not recovered; the shifted log and square-root links return log(exp(eta)+1e-10) and sqrt(eta^2+1e-10), which is strictly larger than eta.",
 "every eta in the stated range",
 "Continuum of inputs.",
 [LK + "loglinks.py", LK + "logitlinks.py", LK + "sqrtlinks.py", LK + "softpluslinks.py"])
prop("C33", "Every predictor is mapped into the parameter range",
 "inverse(eta) lies in the open range of the link (positive for Log, LogIdent and InverseSoftPlus, in (0,1) for Logit, above the shift for the shifted links, non-negative for Sqrt) and never exceeds the overflow cap, for every real predictor.",
 "every real predictor",
 "All reals, including extreme predictors.",
 [LK + "loglinks.py", LK + "logitlinks.py", LK + "sqrtlinks.py", LK + "softpluslinks.py", LK + "robust_math.py"])
prop("C34", "Link derivative methods return the true derivatives",
 "link_derivative, link_second_derivative and inverse_derivative are the derivatives of link and inverse on the regular range for Identity, Log, Logit, Sqrt and the shifted log/sqrt links, and link_second_derivative and inverse_derivative are right for InverseSoftPlus.",
 "every point of the stated range",
 "Derivative at every point.",
 [LK + "loglinks.py", LK + "logitlinks.py", LK + "sqrtlinks.py", LK + "softpluslinks.py"])
prop("C35", "InverseSoftPlus.link_derivative is wrong everywhere",
 "InverseSoftPlus.link_derivative(x) returns exp(-x) (capped below at 1e-15), which is smaller than 1, where the derivative of the link is 1/(1-exp(-x)), which is larger than 1: the method is wrong at every point of the regular range. link_second_derivative returns +1e15 for x up to 1/20000 although the second derivative is negative there.",
 "every x in the regular range",
 "A universal statement about a defect.",
 [LK + "softpluslinks.py:InverseSoftPlus.link_derivative", LK + "robust_math.py:zero_safe_division"])
prop("C36", "Links are strictly increasing",
 "The link methods are non-decreasing wherever they are finite (Logit: below 1; above 1 it falls back to the smallest value) and strictly increasing on the regular range; so are the inverses, except that Sqrt is only considered for non-negative predictors and that InverseSoftPlus.inverse drops by log(1+exp(-40)) at the switch point 40 (exact arithmetic).",
 "every pair of points",
 "All pairs.",
 [LK + "robust_math.py", LK + "loglinks.py", LK + "logitlinks.py", LK + "softpluslinks.py"])
prop("C37", "Distributions warn exactly when a link's range exceeds the parameter support",
 "Constructing a distribution emits an out-of-support warning exactly when some link's support is not contained in the parameter's support; construction never fails, and all default links construct without warning. The absence of a warning is not a guarantee: Sqrt has the positive reals as link_support, but its inverse maps the predictor 0 to 0.",
 "every combination of distribution, parameter and link support, including user-defined ones",
 "All pairs.",
 [BD + ":Distribution._validate_links"])

# ---------------------------------------------------------------- distributions
prop("C38", "Scores are the derivatives of the log density (closed-form families)",
 "dl1_dp1(y, theta, p) is the partial derivative with respect to parameter p of the log density used by logpdf, for Normal, NormalMeanVariance, LogNormal, LogNormalMedian, Logistic, Gumbel, ReverseGumbel, InverseGaussian, Exponential and JSU.",
 "every parameter in its support and every y in the support of the distribution",
 "Derivative identity at every point.",
 [DI + "normal.py", DI + "lognormal.py", DI + "lognormalmedian.py", DI + "logistic.py", DI + "gumbel.py", DI + "reversegumbel.py", DI + "inversegaussian.py", DI + "exponential.py", DI + "johnsonsu.py"])
prop("C39", "Scores are the derivatives of the log density (families with gamma functions)",
 "The same for Gamma, InverseGamma, Beta, StudentT, BetaInflated, BetaInflatedZero and ZeroAdjustedGamma, for any log-gamma function whose derivative is the digamma function.",
 "every parameter and y in the support",
 "Derivative identity at every point.",
 [DI + "gamma.py", DI + "inversegamma.py", DI + "beta.py", DI + "studentt.py", DI + "betainflated.py", DI + "betainflatedzero.py", DI + "zeroadjustedgamma.py"])
prop("C40", "Second derivatives equal the expected Hessian",
 "dl2_dp2 and dl2_dpp have the same expectation as the second (cross) partial derivatives of the log density under any expectation operator having the distribution's moments, for 14 of the 17 families (for the degrees of freedom of StudentT where the code does not clip the value); for Gumbel they differ exactly by the rounding of two printed constants; for JSU they are minus the products of the scores.",
 "every parameter in its support, every expectation operator with the stated moments",
 "An identity between analytic objects.",
 [DI + "normal.py", DI + "lognormal.py", DI + "gamma.py", DI + "inversegaussian.py", DI + "exponential.py", DI + "inversegamma.py", DI + "beta.py", DI + "gumbel.py"])
prop("C41", "ReverseGumbel cross derivative has the wrong sign",
 "The expected cross derivative of the reverse Gumbel log density is non-negative for every location and scale, while dl2_dpp returns a negative number.",
 "every location, every positive scale, every expectation operator under which the distribution is normalised",
 "Universal sign statement.",
 [DI + "reversegumbel.py:ReverseGumbel.dl2_dpp"])
prop("C42", "Working weights are positive",
 "-dl2_dp2 > 0 for every parameter in the support for every family but JSU away from point masses (for the gamma and beta families given the standard bounds of the trigamma function); for JSU it is non-negative and vanishes exactly where the score vanishes; for the inflated families it is 0 at the inflated points.",
 "every parameter and observation",
 "All points.",
 [DI + "normal.py", DI + "johnsonsu.py", DI + "zeroadjustedgamma.py", DI + "betainflated.py"])
prop("C43", "Inflated families: log density is the logarithm of the density",
 "logpdf = log(pdf) and logcdf = log(cdf) on the support of BetaInflated, BetaInflatedZero, ZeroAdjustedGamma and LogNormal; off the support logpdf of the beta families returns a finite number although the density is 0, and pdf of ZeroAdjustedGamma can be positive for negative y.",
 "every parameter and every y",
 "Agreement of two code paths at all points.",
 [DI + "betainflated.py", DI + "betainflatedzero.py", DI + "zeroadjustedgamma.py"])
prop("C44", "Inflated families: ppf is the quantile function of cdf",
 "For BetaInflated, BetaInflatedZero and ZeroAdjustedGamma, ppf(q) <= y exactly when q <= cdf(y) for q in (0,1) and y in the support, given that scipy's continuous cdf/ppf have this property; the cdf is non-decreasing and has jumps of exactly the documented sizes at 0 and 1 for the inflated beta families; for ZeroAdjustedGamma cdf(0) is the point mass nu, but there is no jump there because cdf is nu below 0 as well (C45).",
 "every parameter, q, y and every base distribution function",
 "Galois connection over a continuum.",
 [DI + "betainflated.py", DI + "betainflatedzero.py", DI + "zeroadjustedgamma.py"])
prop("C45", "ZeroAdjustedGamma.cdf is positive below its support",
 "cdf(y) of ZeroAdjustedGamma equals nu for every y < 0 although no mass lies there; for BetaInflated and BetaInflatedZero the cdf is 0 below and 1 above the support.",
 "every y below the support",
 "Outside the tested range.",
 [DI + "zeroadjustedgamma.py:ZeroAdjustedGamma.cdf", DI + "betainflated.py:BetaInflated.cdf"])
prop("C46", "Derivative requests are validated",
 "For non-negative indices dl1_dp1 and dl2_dp2 raise ValueError exactly when param is not smaller than the number of parameters, dl2_dpp exactly when a parameter index is too large or both indices are equal, and they return numbers otherwise. InverseGaussian.dl2_dpp does not check the range, and negative indices are mostly answered with None instead of an error.",
 "every request",
 "All requests, error branch included.",
 [BD + ":Distribution._validate_dln_dpn_inputs", BD + ":Distribution._validate_dl2_dpp_inputs"])

# ---------------------------------------------------------------- linear model
prop("C47", "OnlineLinearModel with OLS and no scaling is chunking invariant",
 "With method=\"ols\" and scale_inputs=False, coef_, n_observations_ and n_training_ after partial_fit on a first batch and any further batches depend only on the concatenated data, and predict returns the discounted weighted least-squares prediction.",
 "every stream and every chunking whose first batch fits successfully",
 "All histories.",
 [LM + ":OnlineLinearModel.fit", LM + ":OnlineLinearModel.update", LM + ":OnlineLinearModel.predict", S + "base/estimator.py:OndilEstimatorMixin.partial_fit"])
prop("C48", "Input scaling breaks the equality of online and batch estimation",
 "With scale_inputs=True an update leaves the accumulated Gramian in the old units, so predictions after fit+update can differ from those of one fit on all data; with scale_inputs=False they never do.",
 "all histories (unscaled); an exhibited stream (scaled)",
 "Tests never compare scaled online with scaled batch fits.",
 [LM + ":OnlineLinearModel.update", SC + ":OnlineScaler.update"])
prop("C49", "The residual sum used for online model selection depends on the chunking",
 "OnlineLinearModel.update discounts the stored RSS once per call instead of once per row and ignores sample weights, whereas fit squares them; the RSS obtained from one batch update differs from the same rows given one by one. For forget = 0, unit weights and fixed coefficients it is the plain sum over all rows.",
 "exhibited stream; all streams for the restricted case",
 "Depends on history shape.",
 [LM + ":OnlineLinearModel.update", LM + ":OnlineLinearModel.fit"])
prop("C50", "coef_ is the criterion-minimal row of the path",
 "For a path method, coef_ of OnlineLinearModel is a row of coef_path_, its criterion is minimal among all rows, and it is the first such row.",
 "every data set, path and criterion",
 "All paths.",
 [LM + ":OnlineLinearModel.fit", LM + ":OnlineLinearModel.update"])
prop("C51", "A failed first fit poisons partial_fit",
 "partial_fit dispatches on the presence of n_observations_, which fit sets before it can fail: after a first partial_fit that raises (e.g. one observation), every later partial_fit calls update on the unfitted model and raises too, whatever data it gets (for the criteria aic, bic, hqc and max; aicc is rejected by parameter validation, C87, and methods whose path is never empty); after a successful first fit, partial_fit never refits.",
 "every sequence of partial_fit calls",
 "A property of call histories with failures.",
 [S + "base/estimator.py:OndilEstimatorMixin.partial_fit", LM + ":OnlineLinearModel.fit"])
prop("C52", "Effective sample accounting",
 "n_observations_ equals the total sample weight of all successful and attempted calls, and n_training_ equals (1-(1-forget)^n)/forget, which never exceeds 1/forget.",
 "every history",
 "All histories.",
 [LM + ":OnlineLinearModel.update", GL + ":OnlineDistributionalRegression.update", UT + ":calculate_effective_training_length"])
prop("C53", "R squared of score",
 "score is the unweighted R squared: at most 1, equal to 1 exactly for perfect predictions, and 0 for the mean predictor, whenever the target is not constant; sample weights are ignored.",
 "every data set with non-constant target",
 "All data.",
 [LM + ":OnlineLinearModel.score"])

prop("C71", "A failed refit makes a fitted model unusable",
 "If fit is called on an already fitted OnlineLinearModel with data that input validation rejects (no rows or no columns), it raises ValueError, keeps coef_ and n_observations_, but has already replaced the scaler: every later predict and every later partial_fit raises until a successful fit.",
 "every fitted object, every invalid batch, every later call",
 "A statement about all later calls after a failure.",
 [LM + ":OnlineLinearModel.fit", LM + ":OnlineLinearModel._prepare_fit", LM + ":OnlineLinearModel.predict"])
prop("C72", "A batch rejected by validation changes nothing",
 "OnlineLinearModel.update with no rows or with another number of columns than the fitted one raises ValueError and leaves every attribute as it was.",
 "every object with n_features_in_, every such batch",
 "All states.",
 [LM + ":OnlineLinearModel.update"])

# ---------------------------------------------------------------- GAMLSS
prop("C54", "Per-parameter options are completed and preserved",
 "After option processing every distribution parameter 0..n_params-1 has a value: the user's value where given in a dict, the default otherwise, and the scalar for scalars; user entries are never overwritten. The user's own dict object is extended in place. (Parameter validation lets a dict through only for step_size and equation, see C86.)",
 "every dict/scalar/array option, every number of parameters",
 "All dicts.",
 [GL + ":OnlineDistributionalRegression._process_parameter", UT + ":handle_param_dict"])
prop("C55", "Step sizes are assigned by dict order, not by parameter",
 "The step size used for parameter p is the p-th value of the option dict in insertion order: it is the value for p when the dict was given in parameter order or as a scalar, and a different parameter's value for dicts given in another order or incomplete from the front.",
 "every dict in parameter order (correct); exhibited dict (wrong)",
 "No test passes a step_size dict.",
 [GL + ":OnlineDistributionalRegression._make_step_size_schedule", GL + ":OnlineDistributionalRegression._process_parameter"])
prop("C56", "Number of columns of each model matrix matches the bookkeeping",
 "get_J_from_equation(X)[p] equals the number of columns make_model_array(X, p) produces, for every valid equation, with and without intercept; invalid selections raise. The one exception is a python list of booleans that is not all True: the bookkeeping counts all its entries, the model array only the selected columns.",
 "every equation, every X",
 "All equations.",
 [GL + ":OnlineDistributionalRegression.get_J_from_equation", GL + ":OnlineDistributionalRegression.make_model_array"])
prop("C57", "Observations outside the support are rejected before anything changes",
 "update raises OutOfSupportError exactly when some observation is outside the distribution's support, and in that case no attribute of the estimator changes.",
 "every estimator state and every batch",
 "All states and inputs; error atomicity.",
 [GL + ":OnlineDistributionalRegression._validate_inputs", GL + ":OnlineDistributionalRegression.update"])
prop("C58", "Outer loops terminate within max_it_outer cycles",
 "When the current minimum number of iterations does not exceed max_it_outer, a completed fit or update has performed at least that minimum and at most max_it_outer outer cycles, and a fit whose inner fits do not raise returns; when prefit_initial (or min_it_outer) exceeds max_it_outer, every fit raises.",
 "every distribution, method and data set (any sequence of deviances)",
 "All deviance sequences.",
 [GL + ":OnlineDistributionalRegression._outer_fit", GL + ":OnlineDistributionalRegression._outer_update"])
prop("C59", "Inner loops terminate within max_it_inner iterations",
 "Each inner fit runs at least once and at most max_it_inner iterations, and stops at the sixth deviance increase or as soon as the tolerances are met, not before. After a worse candidate the step size is halved and the iteration restarts from the same fitted values; after an accepted candidate it is back at the scheduled step size. With prefit_initial = k (prefit_update = k) each of the first k outer cycles of fit (update) makes one inner iteration per parameter.",
 "every deviance sequence produced by any distribution or method",
 "All deviance sequences.",
 [GL + ":OnlineDistributionalRegression._inner_fit", GL + ":OnlineDistributionalRegression.fit", GL + ":OnlineDistributionalRegression.update"])
prop("C60", "From the second outer cycle on, fit never worsens the stored fit",
 "For it_outer >= 2 the deviance of the stored fitted values never increases over any inner fit; in the first cycle it can. The deviance returned to the outer loop can however belong to a rejected candidate.",
 "every distribution, method, data",
 "Holds for arbitrary user-defined distributions.",
 [GL + ":OnlineDistributionalRegression._inner_fit"])
prop("C61", "Updates ignore the step size",
 "The result of update does not depend on the step_size schedule at all, contrary to the documentation of step_size and cautious_updates.",
 "every state, data, pair of schedules",
 "A two-run (non-interference) property over all inputs.",
 [GL + ":OnlineDistributionalRegression._inner_update"])
prop("C62", "Working weights are clipped to a positive range in fit but not in update",
 "In fit every working weight lies in [1e-10, 1e10]; in update it lies in [-1e10, 1e10] and can be 0, which makes the working response NaN: for BetaInflated, BetaInflatedZero and ZeroAdjustedGamma no cycle of update on a batch with an observation at a point mass completes with finite numbers.",
 "every distribution, link, observation",
 "All inputs.",
 [GL + ":OnlineDistributionalRegression._inner_fit", GL + ":OnlineDistributionalRegression._inner_update"])
prop("C63", "Weight bookkeeping depends on the chunking",
 "fit stores the sum of the working weights of its rows times their sample weights, without any discount (a run that starts from the marginal fit and completes an outer cycle). An update call adds the weighted working weights of its rows to the stored sum of weights and discounts the old sum once, whatever the number of rows: for forget > 0 the sum depends on how the stream is chunked (by exactly forget * (w1 + (1 - forget) * W) for unit working weights); for forget = 0 it is the plain sum.",
 "all streams (forget = 0); exhibited stream (forget > 0)",
 "History shape.",
 [GL + ":OnlineDistributionalRegression._inner_update"])
prop("C64", "Predicted distribution parameters lie in the parameter range",
 "predict_distribution_parameters returns link_inverse(X_p coef_p) for each parameter, changes nothing, and every entry lies in the range of the link; with the default links each predicted row is a valid parameter vector of the distribution. For every state and every X.",
 "every state, every X",
 "All inputs.",
 [GL + ":OnlineDistributionalRegression.predict_distribution_parameters"])
prop("C65", "Model selection in the distributional regression picks a criterion-minimal path row",
 "The coefficients selected by local_rss or global_ll selection are a row of the path with minimal criterion value, and the first such row; the number of observations in the criterion is the effective training length of the parameter, which discounts the total weight seen so far with the forgetting of that parameter; outside the path case the computed coefficients are used unchanged.",
 "every path, every criterion",
 "All paths.",
 [GL + ":OnlineDistributionalRegression._fit_select_model", GL + ":OnlineDistributionalRegression._update_select_model"])
prop("C66", "The estimator never mutates the user's estimation method",
 "Fitting works on a copy of a user-supplied method object: bounds or penalty values completed during a fit are not visible in the user's object, so refitting on data of another width behaves as a first fit. The names 'ols', 'lasso' and 'elasticnet' stand for a fresh object with the documented defaults (mixing parameter 1 and 1/2); with any other name (also 'ridge') or argument fit raises ValueError and the estimator keeps the objects of its last fit. The copy matters: a method object that is used directly keeps its first fit, so that a later fit with another number of columns raises ValueError and a ridge object without penalty keeps the penalty computed from the first data.",
 "every sequence of fits",
 "Aliasing over histories.",
 [S + "methods/factory.py:get_estimation_method", EN + ":ElasticNetPath._set_and_validate_bounds", RI + ":Ridge.fit_beta"])
prop("C67", "Ridge fixed point is the ridge solution",
 "A coefficient vector unchanged by the ridge coordinate updates solves (G + reg D) b = h, where D marks regularised columns, and is the unique minimiser; with the default penalty trace(G)/p.",
 "every positive semidefinite Gramian with positive penalty",
 "All matrices.",
 [RI + ":Ridge.fit_beta", CD + ":online_coordinate_descent"])
prop("C68", "Debug information is off by one",
 "get_debug_information(it_inner=i) returns the record stored for inner iteration i+1 counted from 0 (or raises KeyError if there was none), never the record of iteration i, so no non-negative it_inner reads the first iteration and the last one can only be asked for as the one before it.",
 "every debug history",
 "All histories.",
 [GL + ":OnlineDistributionalRegression.get_debug_information"])
prop("C69", "Initial values lie in the parameter support",
 "initial_values(y) returns finite, admissible parameters for every admissible sample (stated per distribution), so the first link evaluation is defined; a constant sample gives scale 0; the ReverseGumbel location is shifted the wrong way and the Logistic scale is too large by sqrt(pi) compared with the moment estimates. The first parameter of the other families is the sample mean (log scale for LogNormal; the sample median for LogNormalMedian) and the second follows from the sum of squared deviations, with n-1 (Normal, NormalMeanVariance, LogNormal, Logistic, InverseGamma) or n (LogNormalMedian, Gumbel, InverseGaussian) in the denominator; for InverseGaussian and InverseGamma the variance of the sample is matched with mu sigma^2.",
 "every admissible sample of any length",
 "All samples.",
 [DI + "normal.py:Normal.initial_values", DI + "gamma.py:Gamma.initial_values", DI + "beta.py:Beta.initial_values"])
prop("C70", "add_intercept prepends a column of ones",
 "The design matrix with intercept has one more column, the first is 1 for every row and the others are the input unchanged.",
 "every X",
 "All shapes.",
 [S + "design_matrix.py:add_intercept"])

prop("C73", "A failed first fit poisons partial_fit",
 "If the first call of partial_fit on an OnlineDistributionalRegression fails after the observations have been counted (for instance because the first batch has a single row), then every later call of partial_fit raises, whatever its data.",
 "every method, every distribution, every sequence of later batches",
 "A statement about all later histories after a failure.",
 [GL + ":OnlineDistributionalRegression.fit", GL + ":OnlineDistributionalRegression.update", S + "base/estimator.py:OndilEstimatorMixin.partial_fit"])
prop("C74", "A refit rejected for its support makes a fitted distributional model unusable",
 "If fit is called again with data outside the support, it raises OutOfSupportError but has already replaced the scaler: every later predict and every later update raises until a successful fit.",
 "every state, every such batch, every later call",
 "A statement about all later calls after a failure.",
 [GL + ":OnlineDistributionalRegression.fit", GL + ":OnlineDistributionalRegression._prepare_estimator"])
prop("C75", "Equations given as column names always fail",
 "If the equation of some parameter is a non-empty list of column names, fit raises for every data set, although the option is documented and validated.",
 "every data set, method and distribution",
 "All inputs.",
 [GL + ":OnlineDistributionalRegression.get_J_from_equation", GL + ":OnlineDistributionalRegression._process_equation"])
prop("C76", "Cautious updates accept only single rows",
 "With cautious_updates=True every call of update with a number of rows other than one raises.",
 "every state and batch",
 "All states and inputs.",
 [GL + ":OnlineDistributionalRegression.update"])
prop("C77", "The minimum number of cycles of the fit stays in force for updates",
 "Without cautious updates and with prefit_update=0 every completed update after a fit has made at least max(prefit_initial, if positive, else min_it_outer) cycles: the minimum set for the fit is never reset.",
 "every distribution, method, data",
 "State carried over between calls.",
 [GL + ":OnlineDistributionalRegression.fit", GL + ":OnlineDistributionalRegression.update"])
prop("C78", "A failed update keeps the Gramians but counts its observations",
 "A call of update that raises leaves the stored Gramians and weight sums as they were. If it passed input validation its observations have been added to n_observations_ nevertheless, so training lengths drift from the data actually used.",
 "every state, batch and exception",
 "Error paths at every point of the call.",
 [GL + ":OnlineDistributionalRegression.update", GL + ":OnlineDistributionalRegression._inner_update"])
prop("C79", "The location of a normal distribution is weighted least squares over the stream",
 "For Normal and NormalMeanVariance with the OLS method, after fit and any number of updates the location coefficients are the unique minimiser of the exponentially discounted weighted squared error of all observations seen, each weighted by its sample weight over a fitted variance (for variances within the clipping range).",
 "every stream of batches of any sizes",
 "All streams.",
 [GL + ":OnlineDistributionalRegression.update", DI + "normal.py:Normal.dl2_dp2"])
prop("C80", "Stationary points of the inner iteration solve the score equations",
 "With OLS a fitted linear predictor is reproduced by an inner iteration of fit if and only if the discounted weighted score of the log-likelihood with respect to the coefficients is zero: what the algorithm converges to are the stationary points of the likelihood.",
 "every distribution, link, design matrix, weights, forgetting factor",
 "All inputs; a fixed-point characterisation.",
 [GL + ":OnlineDistributionalRegression._inner_fit"])
prop("C81", "Zeros pass the support check of LogNormal, LogNormalMedian and InverseGamma but can never be fitted",
 "y = 0 is inside distribution_support for these families, but no fit or update whose batch contains a zero completes with finite numbers.",
 "every state, method, links, batch containing a zero",
 "All inputs.",
 [DI + "lognormal.py:LogNormal.distribution_support", DI + "inversegamma.py:InverseGamma.distribution_support", GL + ":OnlineDistributionalRegression._validate_inputs"])
prop("C82", "An update stores a worse candidate",
 "With OLS, if the first inner candidate of an update increases the deviance, the inner iterations only repeat it, at most six of them, and it is stored: the halving of the step size has no effect in update.",
 "every distribution, state, data",
 "All inputs.",
 [GL + ":OnlineDistributionalRegression._inner_update"])
prop("C83", "global_ll selection ignores the sample weights in fit but not in update",
 "With model_selection='global_ll' the row chosen in fit is the same for all sample weights; in update the weights enter, so the same data can give different choices.",
 "every path, data and pair of weight vectors (fit); exhibited data (update)",
 "A two-run property over all weights.",
 [GL + ":OnlineDistributionalRegression._fit_select_model", GL + ":OnlineDistributionalRegression._update_select_model"])
prop("C84", "Coefficients are discounted weighted least squares of the working observations",
 "With OLS, after fit and after every update the stored Gramians are the exact discounted moments of working observations, one per row seen, and the coefficients are the unique minimiser of their discounted weighted squared error; each working observation is the linear predictor plus score over clipped weight at some parameter values.",
 "every distribution with concave log-likelihood in the parameter (updates), every stream",
 "All streams.",
 [GL + ":OnlineDistributionalRegression._inner_fit", GL + ":OnlineDistributionalRegression._inner_update"])

prop("C85", "An OnlineLasso can never be fitted",
 "For every choice of constructor arguments and every sequence of calls of fit, update and partial_fit on the constructed object, each call raises AttributeError and changes nothing, and predict raises NotFittedError: the constructor does not store its arguments as attributes, which get_params (used by parameter validation) needs.",
 "all constructor arguments, all call histories, all data",
 "A statement about every history of calls; no test constructs the class.",
 [S + "estimators/online_lasso.py:OnlineLasso", LM + ":OnlineLinearModel.fit"])
prop("C86", "Documented per-parameter dicts are rejected by parameter validation",
 "A dict for forget, method, fit_intercept, regularize_intercept or ic makes every fit and update of OnlineDistributionalRegression raise ValueError without effect, although the signature and documentation offer it; a dict for step_size is accepted. Hence in every fit that gets past validation all distribution parameters share one forgetting factor in [0,1), one criterion (never aicc), one method and the same intercept options.",
 "all constructor arguments, all states, all data",
 "All inputs and states; no test passes a dict.",
 [GL + ":OnlineDistributionalRegression", GL + ":OnlineDistributionalRegression._process_parameter"])
prop("C87", "Unusable constructor arguments are rejected without effect and usable ones are not",
 "fit and update of OnlineScaler, OnlineLinearModel and OnlineDistributionalRegression run if and only if all constructor arguments are in their declared ranges (in particular 0 <= forget < 1, ic in aic/bic/hqc/max, iteration limits at least 1, tolerances non-negative); otherwise they raise ValueError and leave the object as it was. NaN and infinities are rejected for bounded arguments.",
 "all constructor arguments, all states, all data",
 "All python values.",
 [S + "scaler.py:OnlineScaler", LM + ":OnlineLinearModel", GL + ":OnlineDistributionalRegression"])

prop("C88", "predict returns the mean of the predicted distribution",
 "For every shipped scipy-based distribution, mean(theta) and predict(X) return the mean of the distribution with the predicted parameters, written in the class's own parameters (e.g. mu for Normal, Gamma, Beta, InverseGaussian; exp(mu + sigma^2/2) for LogNormal; mu - gamma*sigma for Gumbel and mu + gamma*sigma for ReverseGumbel; mu(1+sigma^2)/(1-sigma^2) for InverseGamma when sigma < 1; not a number when no mean exists). For the families whose score in mu is linear in y it is the only value for which that score has expectation zero, and symmetric families have it at the centre of symmetry.",
 "every distribution, every admissible parameter row, every fitted estimator and every X (for LogNormal up to the cap of robust_exp)",
 "All parameters; tests look at single values of single families.",
 [BD + ":ScipyMixin.mean", GL + ":OnlineDistributionalRegression.predict", DI + "inversegamma.py:InverseGamma.theta_to_scipy_params"])
prop("C89", "predict_median never works, predict does not work for the inflated families",
 "predict_median raises on every object and input, AttributeError once the parameters are predicted. predict raises AttributeError for BetaInflated, BetaInflatedZero and ZeroAdjustedGamma. Both are documented without such restrictions.",
 "every configuration, fitted state and X",
 "Absence of any working call is a universal statement.",
 [GL + ":OnlineDistributionalRegression.predict_median", GL + ":OnlineDistributionalRegression.predict"])
prop("C90", "predict_quantile returns quantiles that never cross",
 "For every shipped distribution and 0 < q < 1 ppf(q, theta) is the q-quantile of cdf(., theta): ppf(q) <= y if and only if q <= cdf(y), so quantiles of increasing levels never cross. predict_quantile with an array of m levels returns one row per row of X and one column per level holding these quantiles of the predicted distribution; a number behaves as an array of length one. With a python list of levels, however, level i is applied to row i only (one column) when there are as many levels as rows, and ValueError is raised when the numbers differ (neither being one).",
 "every distribution, admissible parameters, levels, fitted estimator and X; scipy's standard laws assumed monotone with matching quantiles",
 "All levels and parameters; a shape-dependent switch tests would have to hit.",
 [GL + ":OnlineDistributionalRegression.predict_quantile", BD + ":ScipyMixin.ppf", BD + ":ScipyMixin.cdf"])
prop("C91", "Random variates come from the row's own distribution, with the documented shape only outside the inflated families",
 "rvs(size, theta) of the scipy-based families returns one row per row of theta with size values each, and a value of row i is at most y exactly when its standard draw is at most the point where cdf(y, theta_i) evaluates the standard law. The inflated families push uniform draws through ppf: with as many draws as rows, row i holds a quantile of its own distribution; for several rows any other size than 1 raises ValueError, and size 1 uses one common uniform draw for all rows.",
 "every family, size, rows, and every sequence of standard draws",
 "All draws; distributional correctness cannot be settled by samples.",
 [BD + ":ScipyMixin.rvs", DI + "betainflated.py:BetaInflated.rvs", DI + "zeroadjustedgamma.py:ZeroAdjustedGamma.rvs"])
prop("C92", "Conditional start values keep earlier parameters and maximise the likelihood only where names agree",
 "calculate_conditional_initial_values(y, theta, p) leaves the columns before p as they are and either leaves the others or sets each of them to a constant. With an optimiser that reports success truthfully, these constants maximise the likelihood of y within the bounds of the links for Normal, LogNormal, LogNormalMedian, Logistic, Gumbel, ReverseGumbel, Exponential, JSU and StudentT. For NormalMeanVariance, InverseGamma and InverseGaussian the maximised function is the likelihood at other parameters; in particular the start value of NormalMeanVariance's variance is the standard deviation.",
 "every sample, parameter rows, links and truthful optimiser",
 "Optimality over all parameters and samples.",
 [BD + ":ScipyMixin.calculate_conditional_initial_values", DI + "normal.py:NormalMeanVariance"])
prop("C93", "cond_start_val=True cannot be used with Gamma, Beta and the inflated families",
 "With cond_start_val=True no fit of a Gamma, Beta, BetaInflated, BetaInflatedZero or ZeroAdjustedGamma regression completes an outer cycle: calculating conditional start values raises for every sample.",
 "every configuration, method, data set and optimiser",
 "Absence of any working run.",
 [GL + ":OnlineDistributionalRegression._outer_fit", DI + "gamma.py:Gamma", DI + "beta.py:Beta", DI + "betainflated.py:BetaInflated.calculate_conditional_initial_values"])
prop("C94", "Contributions add up to the prediction",
 "predict_distribution_parameters(X, what, return_contributions=True) changes nothing and returns, for each parameter, contributions of the covariates whose sum over a row is the predicted linear predictor: the prediction for what='link', and the prediction after the inverse link for what='response'. Any other value of what raises ValueError.",
 "every fitted estimator, X and what",
 "All states and inputs.",
 [GL + ":OnlineDistributionalRegression.predict_distribution_parameters"])

prop("C95", "The units of scaled covariates do not matter",
 "If every column listed in scale_inputs is measured in other units (x_j replaced by a_j x_j + b_j, a_j > 0) throughout a history of partial_fit calls, then every call succeeds as before and the coefficients, the coefficient path, the deviance and all predictions for rows in the new units are exactly those of the original history, for OnlineLinearModel and OnlineDistributionalRegression, every estimation method, every forget factor and all later updates. Needed: each scaled column takes two different values on rows of positive weight in the first batch.",
 "every method, configuration with 0 <= forget < 1, every history of batches with nonnegative weights, every change of units, every X",
 "A relation between two runs, for all histories and all unit changes.",
 [S + "scaler.py:OnlineScaler.update", LM + ":OnlineLinearModel.update", GL + ":OnlineDistributionalRegression.update"])
prop("C96", "A second fit starts from scratch",
 "Calling fit on an estimator that has been used before (fitted, updated, or left over from failed calls) ends in exactly the state that fit on a new object gives for OnlineDistributionalRegression, and for both estimators raises an exception if and only if it would on a new object, and then the same one.",
 "every method, configuration, batch and prior state",
 "All prior states, including those after failures.",
 [GL + ":OnlineDistributionalRegression.fit", LM + ":OnlineLinearModel.fit"])
prop("C97", "The prediction for a row does not depend on the other rows",
 "predict of OnlineLinearModel and predict_distribution_parameters of OnlineDistributionalRegression on a nonempty X return exactly the values that separate calls for the single rows return; X raises an exception if and only if each single row does, and the same one.",
 "every configuration, state and nonempty X",
 "All states and all X.",
 [LM + ":OnlineLinearModel.predict", GL + ":OnlineDistributionalRegression.predict_distribution_parameters"])

prop("C98", "Accuracy of coordinate descent at its stopping tolerance",
 "If online_coordinate_descent stops because the relative change met the tolerance, its result b' is optimal up to an explicit error: for every admissible vector t that keeps the zeros of b' (every admissible t if it stopped in the first sweep) the objective at b' plus half the quadratic form of t - b' is at most the objective at t plus tolerance * max|b'| * sum_j (sum of |x_jk| over k != j) * |t_j - b'_j|. In particular the result is exact for uncorrelated columns, and the error is proportional to the tolerance.",
 "every Gramian, target, penalty, box, tolerance, visiting order and start",
 "A rate in the tolerance is a statement about all tolerances and all problems; tests fix one tolerance.",
 [CD + ":online_coordinate_descent"])
prop("C99", "Every sweep gains, and the number of sweeps is bounded",
 "Each sweep of coordinate descent lowers the objective by at least half the smallest diagonal entry of the Gramian times the squared length of its step. Started from a vector that is better than zero, the number of sweeps is bounded by an expression in the tolerance, the start, the target and the minimum of the objective that does not involve max_iterations.",
 "every Gramian, target, penalty, box, tolerance, visiting order, limit and admissible start",
 "Convergence for all inputs cannot be tested.",
 [CD + ":online_coordinate_descent"])

prop("C100", "Coordinate descent in floating point arithmetic ends, keeps its bounds and its zeros",
 "In IEEE binary64 arithmetic, with infinities and NaN and however the dot products are rounded, online_coordinate_descent ends after at least 1 and at most max_iterations + 1 sweeps or raises ZeroDivisionError, the latter if and only if some computed denominator is zero. Every returned coefficient is within its bounds or NaN (clipping does not remove a NaN); if the run stopped before the limit no coefficient is NaN; and a coefficient that is zero after the first sweep is returned unchanged however many sweeps follow.",
 "every float input including infinities and NaN, every rounding of the dot products, tolerance, limit, visiting order",
 "All bit patterns, including NaN and overflow in the middle of a run.",
 [CD + ":online_coordinate_descent", CD + ":soft_threshold"])
prop("C101", "Soft thresholding in floating point arithmetic is exact up to one rounding",
 "For finite floats v and t >= 0 soft_threshold(v, t) is finite, is zero exactly when |v| <= t, has a relative error of at most 2^-53 against the real soft threshold, is at most |v| in size, and is monotone in v.",
 "every pair of finite floats with t >= 0",
 "2^128 pairs of floats; the zero set has to be exact for variable selection to mean anything.",
 [CD + ":soft_threshold"])
prop("C102", "Variance of the scaler in floating point arithmetic",
 "OnlineScaler.fit never stores a negative variance in binary64 arithmetic, for any data and weights with clear sign. update does: for a constant column with forget=0.05, two rows in fit and three in update give a negative var_ and transform returns NaN. A constant column need not get variance zero: three rows of 0.1 are transformed to -1.",
 "fit: every column, weights without negative or NaN entries, 0 <= forget <= 1; the other two parts are witnesses",
 "A sign for all inputs; the counterexamples need particular bit patterns.",
 [SC + ":OnlineScaler.fit", SC + ":OnlineScaler.update", SC + ":OnlineScaler.transform"])
prop("C103", "Logit.inverse stays strictly between 0 and 1 in floating point arithmetic",
 "For every float x >= -600, including infinity, Logit.inverse(x) computed in binary64 is strictly between 0 and 1, provided np.exp and np.log are accurate to a relative error of 2^-50.",
 "every float at or above -600, every accurate exp and log",
 "All floats; the upper end depends on the cap in robust_exp.",
 [LK + "logitlinks.py:Logit.inverse", LK + "robust_math.py:robust_exp"])
prop("C104", "The softplus links reach the boundary of their support in floating point arithmetic",
 "With accurate exp and log, InverseSoftPlus.inverse(x) in binary64 is positive for every finite x >= -30 but exactly 0 for every finite x <= -40, which is outside its link_support. InverseSoftPlusShiftValue and LogShiftValue with a value of at least 1 return exactly that value for every finite x <= -40, and the stated lower end of their support, value + nextafter(0, 1), is the value itself.",
 "every finite float in the ranges named, every accurate exp and log, every value >= 1",
 "All floats of a half line.",
 [LK + "softpluslinks.py:InverseSoftPlus.inverse", LK + "softpluslinks.py:InverseSoftPlusShiftValue", LK + "loglinks.py:LogShiftValue", LK + "robust_math.py:robust_softplus"])
prop("C105", "Log.inverse and LogIdent.inverse are positive and finite in floating point arithmetic",
 "With accurate exp and log, Log.inverse(x) in binary64 is finite, positive and at most 2*10^15 + 1 for every float x >= -600 including infinity, and LogIdent.inverse(x) is finite and positive for every finite x >= -600.",
 "every float in the ranges named, every accurate exp and log",
 "All floats; overflow is a matter of the cap.",
 [LK + "loglinks.py:Log.inverse", LK + "loglinks.py:LogIdent.inverse", LK + "robust_math.py:robust_exp"])

prop("C106", "Units of the target: OLS and ridge",
 "Multiplying the target of a fit and of all later updates by one factor multiplies coef_ and every prediction by that factor and leaves score unchanged. OLS: any factor (score: not zero). Ridge: positive factors, no start_beta, and bounds that are infinite or zero.",
 "every history of a fit and updates that succeeds, every configuration, every factor, every row to predict",
 "A relation between two runs on different data for all histories and factors.",
 [LM + ":OnlineLinearModel.fit", LM + ":OnlineLinearModel.update", LM + ":OnlineLinearModel.predict", LM + ":OnlineLinearModel.score", RI + ":Ridge.fit_beta", RI + ":Ridge.update_beta"])
prop("C107", "Units of the target: lasso and elastic net",
 "For the lasso a positive factor on the target multiplies the whole coef_path_ and predict_path. It multiplies coef_, predict and keeps score if no coefficient crosses the absolute tolerance 1e-8 of np.isclose. In small enough units all coefficients count as zero and the row with the smallest residual sum of squares is chosen, whatever the criterion; a witness predicts 0 in one unit and t*1 in the other. For alpha < 1 no row of a one-column path scales, because the penalty grid is proportional to the target while the quadratic penalty is not.",
 "every history that succeeds with ic other than aicc; the elastic net part: every one-column Gramian, every factor other than 1",
 "Relation between two runs; the failure needs units that no test uses.",
 [LM + ":OnlineLinearModel.fit", LM + ":OnlineLinearModel.update", EN + ":ElasticNetPath.fit_beta_path", IC])
prop("C108", "OLS with an intercept follows a shift and a change of units of the target",
 "With fit_intercept=True, replacing every target y by t*y + u in the fit and in all updates turns the intercept b0 into t*b0 + u, every other coefficient b into t*b and every prediction v into t*v + u; score is unchanged if t is not zero.",
 "every OLS history that succeeds with non-negative weights and 0 <= forget < 1, every t and u",
 "A relation between two runs for all data, factors and shifts.",
 [LM + ":OnlineLinearModel.fit", LM + ":OnlineLinearModel.update", LM + ":OnlineLinearModel.predict", LM + ":OnlineLinearModel.score", RLS])
prop("C109", "Without forgetting a sample weight counts a row; the lasso's model choice does not keep this",
 "With forget=0 and non-negative weights, replacing a row of weight k by k rows of weight one, splitting a weight between equal rows, dropping rows of weight zero or reordering rows in any batch of a history changes nothing for OLS and ridge: same coefficients, predictions and score. For lasso and elastic net coef_path_ and predict_path stay the same, but coef_ need not: fit squares the weights in the residual sum of squares, so weight 3 and three copies select different models (witness: predictions 2/5 and 0).",
 "every history of a fit and updates that succeeds with forget=0, any pairwise re-weighting of its batches (two rows in the first, one in later ones), every row to predict",
 "A relation between runs on different data for all histories and regroupings.",
 [LM + ":OnlineLinearModel.fit", LM + ":OnlineLinearModel.update", LM + ":OnlineLinearModel.predict", G + ":init_gram", G + ":update_gram", SC + ":OnlineScaler.fit", SC + ":OnlineScaler.partial_fit"])
prop("C110", "Without forgetting the order of rows in a batch does not matter",
 "With forget=0 and non-negative weights, permuting the rows inside each batch of a history leaves every attribute of ridge, lasso and elastic net unchanged, including the selected model; for OLS coefficients, scaler, predictions and score are unchanged. With forget > 0 the order matters (witness: predictions 8/3 and 4/3).",
 "every history of a fit and updates that succeeds with forget=0, every permutation of every batch",
 "Tests fix a few orders; the claim is over all permutations of all batches.",
 [LM + ":OnlineLinearModel.fit", LM + ":OnlineLinearModel.update", G, SC])

prop("C111", "Predictions for the rows just learned from are the fitted values - unless a step was damped",
 "After update with at least one outer cycle, predict_distribution_parameters on the rows of the batch returns exactly the fitted values of the call, and the global deviance is the deviance of that prediction plus (1 - forget[0])^n times the deviance before. After fit this holds for every parameter with step_size 1 whose steps were never halved, and the global deviance is then at least the deviance of the predictions. With a smaller or halved step it fails: fit stores coefficients of the full step but fitted values of the damped one (witness with step_size 1/2: fitted values 9/8, predictions 5/4).",
 "every estimation method, distribution, configuration and batch for which the call returns; fit: no conditional start values",
 "Needs a relation between two code paths for all data and configurations; the tests use step size 1.",
 [GL + ":OnlineDistributionalRegression._inner_fit", GL + ":OnlineDistributionalRegression._inner_update", GL + ":OnlineDistributionalRegression.predict_distribution_parameters", GL + ":OnlineDistributionalRegression.update"])

prop("C112", "Distributional regression without forgetting does not depend on the order of rows in a batch",
 "With forget=0 for all parameters, non-negative sample weights and no conditional start values, permuting the rows inside each batch leaves everything that OnlineDistributionalRegression has learned unchanged: coefficients, coefficient paths, Gramians, scaler, deviance, iteration counts and every prediction, for ridge, lasso and elastic net over whole histories and for OLS after fit. For path methods with local_rss selection the sample weights of the update must be at least one: the residual sum is divided by online_mean_update of the working weights with n_observations_, a sum of sample weights, as the count. That denominator is positive if n_observations_ is at least the number of rows and can be negative for small weights.",
 "every history of a fit and updates that succeeds, every permutation of every batch, every distribution whose start values treat responses alike (all shipped ones, given that of scipy's fits)",
 "A relation between runs of a nested iteration for all data and permutations.",
 [GL + ":OnlineDistributionalRegression.fit", GL + ":OnlineDistributionalRegression.update", GL + ":OnlineDistributionalRegression._inner_update", UT + ":online_mean_update", DI])

prop("C113", "The first row of the lasso path is the running mean of the target",
 "For OnlineLinearModel with method 'lasso', an unpenalised intercept, no bounds, any scaling and early_stop other than 1, after fit and after every update the first row of coef_path_ has the discounted weighted mean of all responses seen as intercept and zeros elsewhere; the first column of predict_path is that mean for every row to predict. This holds for every start value of fit and update, tolerance and iteration limit.",
 "every sequence of a fit and updates that succeeds, every forget factor in [0,1), all non-negative weights, every scaling of the covariates",
 "An invariant of arbitrarily long sequences of updates on arbitrary real data.",
 [LM + ":OnlineLinearModel.fit", LM + ":OnlineLinearModel.update", LM + ":OnlineLinearModel.predict_path", EN + ":ElasticNetPath._get_lambda_max", EN + ":ElasticNetPath.update_beta_path", CD + ":online_coordinate_descent_path"])
prop("C114", "An update never worsens the penalised error of the rows seen so far",
 "Ridge: after each update the new coefficients have at most the penalised error of the old coefficients on all rows seen (half the discounted weighted squared error plus lambda/2 times the sum of squared penalised coefficients, with the lambda of the first fit), and strictly less unless the old ones are already a minimiser within the bounds, whatever tolerance and iteration limit. Lasso and elastic net with an unpenalised intercept and early_stop=0: with start_value_update='previous_fit' the same holds row by row at the new penalties, which run from the largest absolute discounted cross product of a column with the centred responses down to lambda_eps times that; with start value 'previous_lambda' each row of the path is at least as good at its penalty as the row before it.",
 "every sequence of a fit and updates that succeeds, every forget factor in [0,1), all non-negative weights, every box of bounds, every selection order, tolerance and iteration limit",
 "Inequalities between real-valued objectives over all data, bounds and iteration limits.",
 [RI + ":Ridge.update_beta", RI + ":Ridge.fit_beta", EN + ":ElasticNetPath.update_beta_path", EN + ":ElasticNetPath.fit_beta_path", CD + ":online_coordinate_descent", LM + ":OnlineLinearModel.update"])

prop("C115", "Iterations of a distributional fit climb the log-likelihood",
 "Every inner iteration of OnlineDistributionalRegression.fit with OLS from coefficients b of one distribution parameter moves uphill: for each shipped distribution the weighted (discounted) log-likelihood, as a function of the coefficients of that parameter, has positive slope from b towards the new coefficients, and the iteration returns b exactly where all slopes vanish. Without forgetting, a small enough step size therefore lowers the deviance, unless b is stationary. The working weight of a row is minus the expected second derivative of the log density in that very parameter, times the squared derivative of the inverse link, limited to [1e-10, 1e10] in fit and [-1e10, 1e10] in update (Johnson SU: the squared score).",
 "every data set with admissible responses and non-negative weights, every link inside the range where it is not cut off, every parameter and forget factor in [0,1); Gumbel and reverse Gumbel weights are approximations (C40)",
 "Statements about derivatives of the likelihood for all data; a test can compare a few numbers only.",
 [GL + ":OnlineDistributionalRegression._inner_fit", GL + ":OnlineDistributionalRegression._outer_fit", GL + ":OnlineDistributionalRegression._inner_update", DI])

prop("C116", "Coordinate descent in double precision returns a near minimiser",
 "In IEEE double precision, when online_coordinate_descent stops because the tolerance is met (at most max_iterations sweeps), the returned coefficients have at most the elastic-net objective of every other coefficient vector within the bounds, up to a stated slack proportional to the distance: off-diagonal Gram entries times tolerance times the largest coefficient, plus about 2^-48 of the sizes involved, plus the error of the inner products. As documented, a coefficient that is zero after the first sweep is not revisited, so if there was more than one sweep the comparison is with vectors that are zero where the result is zero. Each single step returns, within the bounds, the exact minimiser of a one-dimensional problem whose three numbers differ from the exact ones by rounding only. A plain loop for the inner product has relative error at most 3J 2^-53.",
 "every Gram matrix, moments, bounds, penalty, selection order and start value of binary64 numbers far from overflow and underflow (diagonal at least 2^-200, rows and results at most 2^200), every inner product of a given accuracy",
 "A bound on rounding errors for all inputs; a test observes rounding on the inputs it happens to try.",
 [CD + ":online_coordinate_descent", CD + ":soft_threshold"])

prop("C117", "The scaler in double precision is accurate",
 "In IEEE double precision, after OnlineScaler.fit and any number of rows in update, the total weight, the mean and the variance of a column differ from the exact discounted weighted moments of all rows by rounding only: by at most 8n 2^-53 of the weight, 21n 2^-53 X for the mean and 240n 2^-53 X^2 for the variance, where n is the number of rows and X bounds the values; nothing is infinite or NaN. If the exact variance V is at least 1024n 2^-53 X^2, transform returns (x - mean)/sqrt(V) up to 1000n 2^-53 (X/sqrt(V))^3. inverse_transform after transform returns the value up to 5 2^-53 (|x| + |mean|).",
 "every forget factor in [0,1], every sequence of at most 2^40 finite values bounded by X in [2^-60, 2^300] with weights in [2^-100, 2^100], split anyhow between fit and update",
 "A bound on rounding errors for all streams; tests compare with a tolerance on a few streams, and C102 shows that some exact properties are lost.",
 [SC + ":OnlineScaler.fit", SC + ":OnlineScaler.update", SC + ":OnlineScaler.transform", SC + ":OnlineScaler.inverse_transform"])

prop("C118", "What the model selection of a distributional regression compares",
 "With a path method, the numbers which the information criterion of OnlineDistributionalRegression compares are these. local_rss, fit: for every candidate of the stored path the discounted sum of sample weight times working weight times squared residual of the working response, divided by the mean of the discounted weights; the working observations are those whose moments are stored. global_ll, fit: the discounted log-likelihood with the candidate's values for that parameter and the current values of the others (sample weights are not used). update: the old numbers are discounted once per new row and the same sum over the new rows is added (now with sample weights); for local_rss the old number is first multiplied by the stored mean weight and the total divided by the running mean of the working weights. Without forgetting and with unit sample weights, after fit and any number of updates the number of candidate i is the total weighted squared error of the successive versions of candidate i over all calls, divided by the mean of all working weights.",
 "every distribution, path method, data set and sequence of completed calls, with at least one outer cycle per call",
 "The numbers are internal and only the index of the smallest criterion is visible; the statement is about all data and all histories.",
 [GL + ":OnlineDistributionalRegression._fit_select_model", GL + ":OnlineDistributionalRegression._update_select_model", GL + ":OnlineDistributionalRegression._inner_fit", GL + ":OnlineDistributionalRegression._inner_update", UT + ":online_mean_update"])

prop("C119", "An update moves a least-squares model towards the new data and never past it",
 "For OnlineLinearModel with method 'ols' and scale_inputs=False: (a) an update with a batch that the model already predicts exactly succeeds and leaves coef_ and every prediction unchanged; (b) an update with one row of target y moves the prediction for that row from v to v + h(y - v) with 0 <= h < 1, and h > 0 if its weight is positive and the model has an intercept or some covariate is not zero; (c) an update with any batch strictly lowers the discounted weighted squared error on that batch, unless the coefficients stay as they are.",
 "every history of a fit and updates that succeeds, every forget factor in [0,1), all non-negative weights, every next batch",
 "A statement about the effect of one call after arbitrarily long histories on arbitrary real data.",
 [LM + ":OnlineLinearModel.update", LM + ":OnlineLinearModel.predict", RLS, G + ":update_inverted_gram", G + ":update_y_gram"])

prop("C120", "With a forget factor a least-squares model forgets its past geometrically",
 "With 0 < forget < 1, two OLS models (same configuration, no scaling) with different pasts that receive the same later data have coefficients that differ by at most C (1 - forget)^n after n later rows, provided the later rows are bounded and determine the coefficients (their discounted Gram matrix is at least lam times the identity). C depends on the pasts, the bound and lam, not on the later data.",
 "any two successful histories, every sequence of later batches with bounded, exciting rows, every forget factor in (0,1)",
 "A rate over unboundedly long streams of arbitrary real data.",
 [LM + ":OnlineLinearModel.update", RLS, G + ":update_inverted_gram", G + ":update_y_gram"])

prop("C121", "Least squares does not depend on the coding of the covariates",
 "For OnlineLinearModel with method 'ols' and scale_inputs=False, if every row x (in fit, update, predict, score) is replaced by A x + a with an invertible matrix A (and a = 0 unless fit_intercept), the whole history succeeds again and every prediction and score stays the same.",
 "every successful history of a fit and updates, every invertible A, every shift a, every forget factor in [0,1)",
 "A relation between two runs for all data and all recodings.",
 [LM + ":OnlineLinearModel.fit", LM + ":OnlineLinearModel.update", LM + ":OnlineLinearModel.predict", LM + ":OnlineLinearModel.score", G])

prop("C122", "Residuals sum to zero and the training score of least squares",
 "For OnlineLinearModel with method 'ols', no scaling and an intercept, after fit and every update the discounted weighted residuals over all data seen sum to zero. With forget=0 and unit weights, score on all data seen is between 0 and 1, and a model that was given more columns of the same rows (with or without intercept) never scores lower on them. With sample weights the score on the training data can be negative, because score ignores the weights (witness: -35/37).",
 "every successful history of a fit and updates; score claims: unit weights and no forgetting",
 "Statements about all data and relations between different models; a test checks them on samples only.",
 [LM + ":OnlineLinearModel.fit", LM + ":OnlineLinearModel.update", LM + ":OnlineLinearModel.score"])

prop("C123", "Candidates of the lasso in a distributional regression",
 "OnlineDistributionalRegression with LassoPath as set up by default (no bounds). For a distribution parameter with covariates and an unpenalised intercept, after fit and any number of updates the first row of coef_path_ is the intercept-only model: the intercept is the discounted weighted mean of the working responses of all rows seen and all other coefficients are zero, whatever tolerance and iteration limit. For a parameter with the equation 'intercept' the only coefficient is penalised even though regularize_intercept is False: with m the mean of the working responses, candidate k of n is m - |m| eps^(k/(n-1)), so that no candidate equals the mean, the first one is 0 for m > 0 and 2m for m < 0 (witness: all responses -1, fitted intercept -2). (For m = 0 the call raises.)",
 "every fit that completes an outer cycle and every sequence of completed updates, every data set, forget factor and non-negative weights; updates need a distribution whose second derivative for that parameter is never positive",
 "A statement about all data and arbitrarily many updates; the intercept-only case looks plausible on data with positive means.",
 [GL + ":OnlineDistributionalRegression.fit", GL + ":OnlineDistributionalRegression.update", EN + ":ElasticNetPath._get_lambda_max", EN + ":ElasticNetPath.update_beta_path", CD + ":online_coordinate_descent"])

prop("C124", "A common factor of all sample weights",
 "Multiplying all sample weights of a fit and of all later updates of OnlineLinearModel by one positive factor leaves coef_, every prediction and every score of OLS and of ridge with its default penalty unchanged, with or without scaling of the inputs, and leaves the whole coefficient path and predict_path of the elastic net and the lasso unchanged. The coefficients chosen on the path by the information criterion do depend on the factor (witness: weights 1 choose the empty model, weights 2 the full one). Not every factor is accepted: fit raises ValueError if the weights sum to exactly one, so normalised weights are refused, and with method 'ols' if their sum is not larger than the number of columns, whatever the number of rows.",
 "every successful history of a fit and updates, every positive factor for which fit accepts the total weight, every configuration",
 "A relation between two runs for all data, histories and factors.",
 [LM + ":OnlineLinearModel.fit", LM + ":OnlineLinearModel.update", SC + ":OnlineScaler", G, EN + ":ElasticNetPath", RI + ":Ridge"])

prop("C125", "Shifted responses and recoded columns in a distributional regression",
 "OnlineDistributionalRegression with method 'ols'. (1) Shift: for the normal (both parametrisations), logistic, Gumbel, reverse Gumbel, Johnson SU and Student t distributions with the identity link for the location and an intercept in its equation, adding a constant a to all responses of fit and of all later updates adds a to the intercept of the location and to every predicted location, and leaves every other coefficient, every other predicted parameter, the deviance and the number of cycles unchanged (with or without scaling of the inputs, step-size damping, forgetting, cautious updates and weights). For Student t and for Johnson SU with scipy starting values this needs scipy's maximum-likelihood fit to move with the sample. (2) Recoding: for any distribution, with unscaled inputs and equations 'all' or 'intercept', replacing the inputs x by A x + b in fit, updates and predictions, A invertible (b = 0 for an equation without intercept), changes no prediction and not the deviance.",
 "every fit that completes a cycle and every successful sequence of updates, every data set with non-negative weights, every option except cond_start_val=True; updates need second derivatives that are never positive, which is proved for the seven classes of (1)",
 "A relation between two whole runs of an iterative algorithm with data-dependent stopping, for all data, shifts and recodings.",
 [GL + ":OnlineDistributionalRegression.fit", GL + ":OnlineDistributionalRegression.update", GL + ":OnlineDistributionalRegression.predict_distribution_parameters", DI + "normal.py", DI + "studentt.py", DI + "johnsonsu.py"])

prop("C126", "What the information criterion can change",
 "OnlineLinearModel with a path method. With another ic among 'aic', 'bic', 'hqc' and 'max' the same fit and updates succeed as well and leave the same object in every attribute except coef_: the coefficient path, the residual sums, the Gramians, the scaler and the counts are the same, and coef_ is another row of that path. A criterion that charges more per parameter never chooses a model with more active coefficients, and the row it chooses never has a smaller residual sum. 'max' charges less than 'aic' always and less than 'hqc' from 3 observations on, 'aic' less than 'bic' from 8 observations on, 'hqc' less than 'bic' from 3 on; 'hqc' charges less than 'aic' up to exp(e) = 15.15 observations and more beyond (counted as the effective number of observations under forgetting).",
 "every successful history of a fit and updates, every configuration and path method; second claim: positive residual sums",
 "A relation between several runs for all data and histories.",
 [LM + ":OnlineLinearModel.fit", LM + ":OnlineLinearModel.update", IC + ":InformationCriterion.from_rss"])

prop("C127", "When the outer loops of fit and update end",
 "OnlineDistributionalRegression.fit compares the deviance after each outer cycle with the deviance after the cycle before (after the first cycle: with that of the starting values) and ends after the first cycle, not before the minimum number, whose change is below rel_tol_outer relative to the older deviance, below abs_tol_outer, upwards, or that is number max_it_outer. So no cycle between the minimum and the last one has increased the deviance, and a fit that made fewer than max_it_outer cycles ended within tolerance or with an increase. update does the same with the discounted old deviance plus the deviance of the batch, starting with the predictions for the batch, except that an increase does not end it. With both tolerances 0 equal deviances do not end the loops, and every update makes max_it_outer cycles.",
 "every distribution, method, data set and option",
 "A statement about the whole sequence of deviances of any run.",
 [GL + ":OnlineDistributionalRegression._outer_fit", GL + ":OnlineDistributionalRegression._outer_update"])

prop("C128", "The Gramians in double precision are accurate and the diagonal is never negative",
 "In IEEE double precision, after init_gram or init_y_gram and any number of calls of update_gram or update_y_gram (single rows and batches), every entry is finite and differs from the exact discounted weighted sum of products by at most 16n 2^-53 X Y times the exact discounted sum of weights, where n is the number of rows so far and X and Y bound the two columns, whatever the order in which the matrix product adds, with or without fused operations. A diagonal entry is never negative, whatever the data (also infinite or NaN). If the exact diagonal entry exceeds that bound, the computed one is positive, so coordinate descent and the update of a coefficient do not divide by zero.",
 "every forget factor in [0,1], every sequence of batches with at most 2^40 rows in total, values bounded by X and Y in [2^-60, 2^300], weights in [2^-100, 2^100] (the sign: any values, any weights without sign bit); ** 0.5 within 2^-52 and ** n not worse than n multiplications",
 "A bound on rounding errors for all streams and all summation orders; tests compare with a tolerance on a few streams on one machine's BLAS.",
 [G + ":init_gram", G + ":update_gram", G + ":init_y_gram", G + ":update_y_gram", G + ":init_forget_vector"])

prop("C129", "A lasso or elastic net updated in double precision nearly minimises the penalised error of the whole stream",
 "Let the Gramians be collected in IEEE double precision by a fit and any number of updates, and let coordinate descent in double precision on these Gramians stop before the iteration limit. Then its coefficients b and any other coefficients t within the bounds satisfy: half the exact discounted weighted squared error of all rows so far plus the elastic-net penalty is at b at most the same at t plus a slack times the sum of |t_j - b_j|. The slack is explicit: the tolerance times the largest coefficient times the size of the data, plus rounding errors of order n 2^-53 and J 2^-48. If the run took more than one sweep, this holds for the t that are zero where b is zero. If the exact Gramian of the stream is at least mu times the identity, every coefficient is within 2 J slack / mu of that of any such t which is not worse, in particular of the exact solution. The sums in the Gramians and in coordinate descent may be added in any order and grouping, with or without fused operations.",
 "every forget factor in [0,1], every sequence of batches with at most 2^40 rows, every number of covariates up to 2^40, values bounded by X and Y, weights in [2^-100, 2^100], lambda >= 0, alpha in [0,1], any finite or infinite bounds, any sweep order, any start value, tolerance in [0,1]; diagonal of the exact Gramian above the rounding error",
 "The claim compares a float run on accumulated float data with the exact real-valued problem on all past rows, for all streams, summation orders and competitors; tests compare a few streams with another float implementation up to a tolerance.",
 [CD + ":online_coordinate_descent", CD + ":soft_threshold", G + ":init_gram", G + ":update_gram", G + ":init_y_gram", G + ":update_y_gram", EN + ":ElasticNetPath.update_beta_path"])

prop("C130", "Least squares is linear in the responses and recovers noise-free responses exactly, unless inputs are scaled",
 "For OnlineLinearModel with method 'ols' and scale_inputs=False, after fit and any updates on the same rows: whether the calls succeed does not depend on the responses; predictions for the response a y1 + k y2 are a times the predictions for y1 plus k times those for y2 (so changing one response moves every prediction by a multiple of the change that does not depend on the other responses). If every response is exactly a linear combination b of the regressors, coef_ is b, every prediction is exact and score is 1 on any rows of that kind whose responses are not all equal. With scale_inputs=True this fails after a single update: for responses equal to the only covariate the prediction at 5 can be 135/37.",
 "every successful history of a fit and updates, every forget factor in [0,1), all non-negative weights, all responses, all a, k; an exhibited stream (scaled)",
 "Superposition and exact recovery are statements over all streams, chunkings and responses in exact arithmetic; tests check recovery with a tolerance on a few data sets.",
 [LM + ":OnlineLinearModel.fit", LM + ":OnlineLinearModel.update", LM + ":OnlineLinearModel.predict", LM + ":OnlineLinearModel.score", SC + ":OnlineScaler"])

prop("C131", "With forgetting, an absent category keeps its coefficient but loses its memory",
 "For OnlineLinearModel with method 'ols' and scale_inputs=False: if the rows of a category are those where its column is non-zero and no other column is non-zero there, its coefficient is the discounted weighted mean of the responses of its rows, and any number of rows outside the category leaves it exactly as it is. But they discount what supports it: for any direction u of the coefficients, if the last N rows have x.u = 0, the error left after the update with the next row (x, y, w) is at most (1 - forget)^(N+1) E(u) / (w (x.u)^2) times the error before it, where E(u) is the discounted sum of w (x.u)^2 over the rows before the absence. So with forget > 0, after a long enough absence, the prediction for the returning row is as close to its own response as one likes: a single row replaces everything learned about the category.",
 "every successful history of a fit and updates in any chunking, every forget factor in [0,1) (limit: (0,1)), all non-negative weights, any direction, any number of rows in the absence",
 "The bound and the limit are over all streams and absences of any length.",
 [LM + ":OnlineLinearModel.fit", LM + ":OnlineLinearModel.update", LM + ":OnlineLinearModel.predict", G + ":update_inverted_gram", G + ":update_y_gram"])

prop("C132", "Online ridge regression never fails, but its fixed penalty shrinks what is not seen and depends on the first call",
 "OnlineLinearModel with Ridge and scale_inputs=False: a fit on at least two rows (weights not summing to 0 or 1) and any updates on valid data succeed, also with collinear columns, columns of zeros and more columns than rows. The penalty is the constructor argument or the mean diagonal entry of the Gramian of the first call, and stays fixed while the Gramian is discounted and grows. Without intercept, the coefficient of a column that no other column overlaps with is exactly sum(w x y) / (sum(w x^2) + penalty) with discounted sums, whatever the tolerance and iteration limit. N rows in which the column is zero multiply it by g (D + penalty) / (g D + penalty), g = (1 - forget)^N: with forget > 0 the coefficient of an absent category never grows in size and tends to zero (least squares keeps it, C131). With the default penalty and no forgetting, the same six rows give the coefficient 3/4 if the first call has two of them and 6/11 if it has five. At the level of coordinate descent, the coefficient of a column uncorrelated with all others is exact for any penalty, mixing parameter, bounds, start value, order, tolerance and iteration limit.",
 "every history of a fit and updates in any chunking, every forget factor in [0,1) (limit: (0,1)), all non-negative weights, any positive penalty, any visiting orders; an exhibited stream (default penalty)",
 "Totality, the closed form and the limit are over all streams, tolerances and iteration limits; tests compare single fits with a tolerance.",
 [RI + ":Ridge.fit_beta", RI + ":Ridge.update_beta", CD + ":online_coordinate_descent", LM + ":OnlineLinearModel.fit", LM + ":OnlineLinearModel.update"])

prop("C133", "A row masked by weight zero never moves a least-squares prediction, but it ages what was learned",
 "OnlineLinearModel with OLS and scale_inputs=False: after a successful fit and any updates, further updates whose rows all have weight zero succeed and leave every prediction exactly as it was, whatever their features and targets and for every forget factor in [0,1). Each masked row nevertheless discounts the evidence: after N of them, a single real row (x, y, w) leaves an error of at most (1 - forget)^(N+1) times the earlier evidence in a direction u over w (x u)^2, times its error before the update. So with forget > 0, after enough masked rows the model reproduces the next real row to any accuracy. Masking a row is therefore not the same as leaving it out: with forget = 1/2, two rows of target 0 and then one of target 1 predict 4/7 without and 8/11 with a masked row in between. With Ridge and a fixed penalty, masked rows do move the model: the coefficient of a column that no other column overlaps with is multiplied by g (D + penalty) / (g D + penalty), g = (1 - forget)^N, and so strictly shrinks if forget > 0. For every estimation method the counters show nothing of this: masked rows leave n_observations_ unchanged and n_training_ at the effective length of that number.",
 "every history of a fit and updates in any chunking, every forget factor in [0,1) (limit: (0,1)), any targets and features of the masked rows, any direction u, any positive ridge penalty, any visiting orders; an exhibited stream (masked against left out)",
 "Exact invariance and the bound are over all histories and all contents of the masked rows; a test of invariance on one stream passes and misses that the weight of the past has changed.",
 [LM + ":OnlineLinearModel.update", LM + ":OnlineLinearModel.predict", G + ":update_inverted_gram", G + ":update_y_gram", RI + ":Ridge.update_beta"])

with open(os.path.join(os.path.dirname(__file__), "..", "properties.jsonl"), "w") as f:
    for p in P:
        f.write(json.dumps(p) + "\n")
print(len(P))
