{
 "C11": [
  "proved",
  "addition of the matching variances proved for every size; construction accepts exactly nonnegative tensors; an empty batch raises IndexError (C11_empty_batch_refuted)"
 ],
 "C14": [
  "partial",
  "prediction proved; fixed() and get_opt_params on a null-noise model raise (refuted)"
 ],
 "C18": [
  "partial",
  "refuted: response_count = nn_count always raises ValueError; all other counts proved under C17"
 ],
 "C23": [
  "partial",
  "proved for batch <> 1 and nn <> 1; refuted for a single row or a single neighbour with several responses"
 ],
 "C33": [
  "partial",
  "proved for iteration_count <= 1; refuted for iteration_count >= 2 (converges to the square root) and for several responses"
 ],
 "C34": [
  "partial",
  "refuted: the noise candidate is ignored"
 ],
 "C56": [
  "partial",
  "proved; the rejection of zero counts is refuted; C56_zero_count_no_objective_refuted: with zero iterations no likelihood objective has a value"
 ],
 "C01": [
  "partial",
  "construction succeeds exactly on the documented arguments and documented types are rejected with ValueError; that every invalid value gives ValueError is refuted (None and generator bounds give TypeError)"
 ],
 "C03": [
  "partial",
  "strictly inverted bounds are rejected; lower = upper is accepted by the code (refuted)"
 ],
 "C08": [
  "partial",
  "proved when the keywords name an initial segment of the dimensions in order; refuted for other subsets and orders"
 ],
 "C09": [
  "partial",
  "flat vector names proved; hierarchical vector names proved below ten dimensions, collision beyond refuted"
 ],
 "C13": [
  "partial",
  "optimizable noise proved nonnegative up to the code's 1e-5 tolerance; fixed negative noise is accepted (refuted)"
 ],
 "C27": [
  "partial",
  "proved after any construction or rebuild; refuted after set_params, which leaves the old formula bound"
 ],
 "C31": [
  "partial",
  "refuted: the code adds sign and a second quadratic form; its exact value is proved"
 ],
 "C32": [
  "partial",
  "proved for every exported loss except lool_fn_unscaled, which always raises TypeError (refuted); target masks work with the losses on the means and raise with variance losses (refuted: univariate, looph, and lool unless the batch size equals the mask length, a case the model does not follow)"
 ],
 "C35": [
  "partial",
  "proved for every proposal; a NaN proposal is stored unclamped (refuted)"
 ],
 "C57": [
  "partial",
  "proved when the optimizable length scales come first and the noise is not optimized together with an analytic scale; otherwise see C08, C34"
 ],
 "C58": [
  "partial",
  "proved for isotropic models or one epoch with init_points and n_iter given; refuted otherwise"
 ],
 "C37": [
  "partial",
  "get_nns proved; get_batch_nns proved for data without duplicate points and refuted otherwise (C37_duplicates_refuted)"
 ],
 "C40": [
  "partial",
  "counts proved for integer labels; labels are truncated to integers, so fractional labels are refuted"
 ],
 "C41": [
  "partial",
  "proved for fewer than 2^53 rows and every world size; the floating point division breaks the split beyond (C41_float_division_refuted)"
 ],
 "C42": [
  "proved",
  "every world size, interleaving and buffering behaviour; chunk_tensor for fewer than 2^53 rows"
 ],
 "C43": [
  "partial",
  "tensors (metrics with serial difference functions), predictions, losses and analytic scale proved; refuted: library metrics under mpi, lool unscaled, cross entropy with an empty rank, down-sampled scale"
 ],
 "C44": [
  "partial",
  "posterior mean and optimized scale values proved; variance proved for unit scale and after optimizing unit-scale models, refuted otherwise (scaled twice); submodels keep the stale scale (refuted); fast prediction is identically zero (refuted)"
 ],
 "C46": [
  "partial",
  "Single-update workflow proved to be kriging; the packaged fast_posterior_mean_any and the docstring workflow are refuted (neighbour matrix updated twice). Sizes 1 (one test point, one training row, one neighbour) are excluded because squeeze changes the layout there (see C23)."
 ],
 "C47": [
  "partial",
  "proved for two classes; refuted for three or more classes (only label column 0 is checked for constancy)"
 ],
 "C48": [
  "partial",
  "masks, report and cutoffs proved; 'same interval' refuted: training uses cutoff*sqrt(variance) centred at 0, application uses cutoff*variance centred at mid_value"
 ],
 "C49": [
  "partial",
  "proved except the tuple-input consistency, which is refuted for the classifier driver"
 ],
 "C52": [
  "proved",
  "every block of the three shear kernels is the stated pair of second derivatives in each argument, for all sizes; PSD; note the hyperparameter is the squared length scale"
 ],
 "C54": [
  "partial",
  "pairwise tensors proved; crosswise proved unless batch = nn, batch = 1 or nn = 1; refuted otherwise (silently wrong for 3 points with 3 neighbours)"
 ],
 "C62": [
  "partial",
  "true for RBF and Matern; refuted for the shear kernels, whose optimizer variance keeps the prior of the old length scale"
 ],
 "C50": [
  "partial",
  "import behaviour and single-backend dispatch proved for every history of update calls; refuted: update accepts unchecked combinations, mixed per-module backends after update+late import, context-manager exit, MUYGPYS_*_ENABLED ignored"
 ],
 "C51": [
  "partial",
  "explicit keyword, default and configured float type proved; refuted: positional dtype and diagonal raise TypeError"
 ],
 "C59": [
  "partial",
  "characterization, transitivity, reflexivity without NaN/tensor noise and symmetry for kernels with the same hyperparameter names proved; refuted: RBF == Matern is True while Matern == RBF raises KeyError, NaN and heteroscedastic models are not reflexive"
 ],
 "C29": [
  "proved",
  "memory model with views and in-place statements: kernels, noise models and whole objectives write only memory they allocated; null noise returns the caller's own array (aliasing recorded)"
 ],
 "C45": [
  "partial",
  "False in general: default-argument objects (deformation, scale, noise) are shared between independently constructed kernels and models, and heteroscedastic noise keeps the caller's array (refuted theorems). Proved for every history: an operation not addressed to one of the model's own objects never changes it; separately built models are independent; optimization copies."
 ],
 "C55": [
  "partial",
  "posterior mean, knot count check and per-row application proved; refuted: the value is stale after the higher-level kernel changes, and the default noise 1e-5 keeps it off the knot values"
 ],
 "C64": [
  "partial",
  "proved for smoothness 1/2, 3/2, 5/2 and infinity in every dimension; refuted for the general formula, whose zero-distance substitution 2^-52 breaks positive semidefiniteness for closer points"
 ],
 "C66": [
  "partial",
  "agreement proved for two-axis features and valid indices; refuted: one-axis features in jax/torch, invalid indices in jax"
 ],
 "C67": [
  "partial",
  "closed forms agree; jax general Matern agrees at positive distances; refuted: nan at distance zero, diagonal set to one, torch has no general Matern; two-channel shear kernels exist only in numpy"
 ],
 "C68": [
  "partial",
  "three-axis means, variances and fast prediction agree (jax even for nn_count responses); five-axis variances agree; refuted: jax five-axis mean raises"
 ],
 "C69": [
  "partial",
  "b-vector losses agree in all backends; cross entropy agrees when no probability is clipped (torch: two classes); refuted: torch losses of several responses are vectors, torch cross entropy with three classes, block lool"
 ],
 "C70": [
  "partial",
  "univariate scale agrees (torch: as a one-element array); refuted: jax trailing axis and five-axis normalization, torch optimizers"
 ],
 "C71": [
  "partial",
  "posterior values and constructor checks proved for both layers; refuted: the single layer returns variances of shape (batch_count,)"
 ],
 "C73": [
  "partial",
  "lookup and attributes match the final weights; evaluation-mode embedding only if the last iteration is an update iteration, training-mode otherwise (refuted)"
 ],
 "C74": [
  "partial",
  "refuted: the layer keeps its neighbours, the update frequency has no influence on the result"
 ],
 "C75": [
  "partial",
  "refuted: with an exact lookup the first refreshed neighbour is the batch point itself; such a layer without noise reproduces its own responses"
 ],
 "C76": [
  "partial",
  "frame proved; refuted: the noise and all multivariate hyperparameters are not trained, bounds are not enforced"
 ],
 "C77": [
  "partial",
  "accepted names characterised; refuted: the documented l1 raises ValueError"
 ],
 "C78": [
  "partial",
  "proved for (b, r) variances and for one response; refuted for the single layer with several responses"
 ],
 "C79": [
  "partial",
  "true for a batch of one; refuted otherwise: column responses pair every residual with every variance, other response counts raise"
 ],
 "C80": [
  "partial",
  "univariate regression, row independence, two-class classification and fixed-model do_regress proved; multivariate variances carry the scale twice (C44); (N, r) targets need r <> nn_count (C18); n <> 2 for two classes for the same reason"
 ],
 "C81": [
  "partial",
  "proved for test rows without tied distances (regress_any and classify_any); refuted with ties"
 ],
 "C85": [
  "partial",
  "proved for two-axis features and neighbour counts other than 2 (a count equal to the two label columns always raises, C18); refuted: one-axis features raise ValueError"
 ],
 "C86": [
  "partial",
  "proved for the workflow composed by hand with one index update, and for the returned coefficients; refuted for fast_posterior_mean_any: coefficients are paired with the wrong rows, multivariate predictions are identically 0, one-axis features raise"
 ],
 "C87": [
  "partial",
  "proved when some training row has neighbours of two classes, batch_count >= number of classes and nn_count <> class count (C18), for the mean losses; refuted: well separated classes (empty batch) raise ValueError"
 ],
 "C88": [
  "partial",
  "proved for the losses of the mean, at least two neighbours and deformations with common tensors; variance factor as coded (new scale times construction scale); refuted: default cross entropy of make_multivariate_classifier; lool and looph on column responses are refuted in C79"
 ],
 "C89": [
  "partial",
  "Holds for batches of at least two rows whose number differs from the neighbour count (C54): otherwise the objective raises at every candidate (C89_square_batch_refuted). Losses using variances are covered by C31/C62 (refuted)."
 ],
 "C90": [
  "proved",
  "regress_any, any response shape with r <> n (C15), every noise model that fits the tensors."
 ],
 "C91": [
  "proved",
  "Null or homoscedastic noise; rows with tied distances are excluded for regress_any because the libraries may then return lists that are not nested (C81)."
 ],
 "C92": [
  "proved",
  "C92_similarity and C92_units: regress_any (rows without ties); C92_units_indices: any unit per feature from given indices."
 ],
 "C93": [
  "proved",
  "End-to-end theorem: mse, lool, looph, homoscedastic noise, analytic scale. The objective and ranking theorems also cover pseudo-Huber and fixed scale for the unscaled losses."
 ],
 "C94": [
  "proved",
  "C94_local and C94_append: test rows without tied distances (with ties the choice among equidistant rows is unspecified, C81). C94_exact_gp: uniform noise, no restriction on ties."
 ],
 "C95": [
  "proved",
  ""
 ],
 "C96": [
  "proved",
  "C96_objective, C96_make_regressor, C96_value_unique. Homoscedastic noise >= 0 and distinct training rows; exact linear solver; the optimizer is any one that returns the best point it tried."
 ],
 "C97": [
  "proved",
  "C97_objective, C97_do_regress, C97_origin. Homoscedastic noise >= 0, distinct untied training rows, exact method; exact linear solver; the optimizer's result is a function of the objective's values in the box."
 ],
 "C98": [
  "partial",
  "Proved: the objective (C98_objective), make_classifier with any batch (C98_make_classifier, sampled or not, when the sampler draws the same rows from each class; C98_make_classifier_partial drops the homoscedastic hypothesis for unsampled batches), classify_any with two classes (C98_two_classes) or when the first class keeps its number (C98_first_class_kept_partial), the predicted class (C98_predicted_class), do_classify in the same two cases (C98_do_classify). Refuted for three classes whose first changes (C98_three_classes_refuted)."
 ],
 "C99": [
  "proved",
  "C99_indices (any unit per column, given indices), C99_predictions (regress_any, one unit), C99_objective (training objective at corresponding candidates). Exact linear solver, exact neighbours, sound noise."
 ],
 "C100": [
  "proved",
  "C100_objective (any batches that correspond), C100_do_regress, C100_make_classifier and C100_do_classify (end to end, sampled or not). Homoscedastic noise >= 0, distinct untied training rows, exact method; exact linear solver; the optimizer's result is a function of the objective's values in the box; samplers that draw the same rows."
 ],
 "C101": [
  "proved",
  "C101_reverts_to_prior (uniform limit), C101_rate (explicit bounds under noise). Exact method, exact linear solver, closed-form kernels. Shear models with fixed neighbour lists: C101_shear_rate (inverse square for the means, inverse fourth power for the covariances), C101_shear_reverts_to_prior."
 ],
 "C102": [
  "proved",
  "C102_superposition, C102_stable (one constant for all test sets), C102_stable_rate (explicit under noise). Exact method, exact linear solver, closed-form kernels."
 ],
 "C103": [
  "partial",
  "C103_lipschitz, C103_all_neighbours (n = N), C103_continuous (any n, at rows whose neighbourhood is strict). C103_jump_refuted: not continuous where the neighbourhood changes. Exact method, exact linear solver, closed-form kernels. C103_fast: Hoelder bound for fast prediction among test rows sharing their closest training row."
 ],
 "C104": [
  "proved",
  "C104_continuous: wherever the prediction succeeds, every library kernel (the Bessel form and its smoothness included), every noise model, every test row, ties included; assumes scipy's gamma and kv are continuous on positive arguments and gamma does not vanish there (continuous_special). C104_succeeds: with a closed-form kernel and sound noise the prediction does succeed. Exact method, exact linear solver. C104_shear_continuous: shear predictions and covariances with fixed neighbour lists are jointly continuous in the hyperparameters, the positions and the observations."
 ],
 "C105": [
  "partial",
  "C105_objective_continuous, C105_best_exists, C105_best_is_returned for finite bounds. C105_unbounded_refuted: none need exist with an infinite upper bound. Univariate models, one-pass scale, exact linear solver. Shear models (mse and pseudo-Huber): C105_shear_objective_continuous, C105_shear_best_exists, C105_shear_best_is_returned."
 ],
 "C106": [
  "proved",
  "C106_bound (explicit, noise at least nu), C106_stable (noise at least nu or distinct rows, linear in eta + delta). C106_ill_conditioned_refuted: no uniform bound without noise. The rounding of the final inner product and of the noise addition is not covered; exact method; closed-form kernels."
 ],
 "C39": [
  "partial",
  "proved for every batch size from 1; a batch of no points raises with an exact lookup instead of being empty (C39_empty_batch_refuted)"
 ],
 "C107": [
  "partial",
  "C107_unbiased, C107_down_sampled (one round), C107_from_indices (from data, with the exact failure condition), C107_calibrated (variances equal expected squared errors), C107_moments_exist. C107_iterated_refuted: iteration_count = 2 is biased, (sc + 1) / 2. Closed-form kernels, uniform noise, exact neighbour method."
 ],
 "C108": [
  "proved",
  "C108_factor, C108_repeated_row, C108_sample, C108_sample_full, C108_study (composition with C107), C108_analytic_scale, C108_analytic_scale_unbiased; C108_cholesky_exists and C108_draws_exist discharge the oracles. Only second moments of the draws are used (normality is not modelled)."
 ],
 "C109": [
  "partial",
  "C109_split, C109_count, C109_features, C109_grids, C109_univariate, C109_grid, C109_matched_noise, C109_interval, C109_image. Refuted parts: C109_noise_refuted, C109_bad_ratio_refuted, C109_default_ratio_refuted, C109_seed_refuted. Plotting and the kriging-weight figure are not modelled."
 ],
 "C110": [
  "partial",
  "C110_point_kernel, C110_matrix, C110_library_matrix, C110_rejects, C110_mean, C110_mean_agrees, C110_variance_agrees, C110_targets, C110_targets_count. Refuted part: C110_joint_covariance_refuted (entries between different test points)."
 ],
 "C111": [
  "partial",
  "C111_subsample_aligned, C111_subsample_works, C111_balanced, C111_balanced_empty, C111_normalize, C111_normalize_idempotent, C111_normalize_length, C111_labels, C111_no_responses, C111_scale_series, C111_library_scale_is_mean, C111_test_nugget, C111_relative_error. Refuted parts: C111_unit_norm_refuted, C111_balanced_short_refuted. Rows of zeros in _normalize (nan) are not modelled."
 ],
 "C112": [
  "partial",
  "C112_mse, C112_lool_noiseless, C112_data_exist; for weak-lensing models C112_shear_mse and C112_shear_data_exist. Refuted parts: C112_lool_noise_refuted, C112_shorter_length_scale_refuted (lool omits the noise of the left-out observation). Not covered: lool with an analytic scale, looph and pseudo_huber."
 ],
 "C113": [
  "proved",
  "C113_pooled (any positive noise, at the level of neighbour indices), C113_replicated (whole workflow, each point measured r times)."
 ],
 "C114": [
  "proved",
  "C114_same_covariance (the general fact), C114_length_scales, C114_smooth_matern, C114_noise, C114_multivariate_columns, C114_multivariate_shared (the second factor of the scale in multivariate variances is the finding of C44), C114_objective, C114_richer_no_worse (for the exact box maximum)."
 ],
 "C115": [
  "proved",
  "C115_closed_form, C115_exact (n neighbours against all N), C115_training (the exact leave-one-out objective is C96)."
 ],
 "C116": [
  "proved",
  "C116_error_bound, C116_variance_near, C116_rate; C116_fast_rate for fast prediction (single index update, C86)."
 ],
 "C117": [
  "proved",
  "C117_indices, C117_any, C117_fast, C117_objective, C117_training. The exact solver fails on singular matrices only; floating point may not notice that a matrix is singular."
 ],
 "C118": [
  "proved",
  "C118_prediction, C118_neighbours, C118_training (squared error, no target mask), C118_units; C118_observables ties turn to second derivatives of a moved potential. The pseudo-Huber loss and masks that keep one shear are not invariant and are not claimed."
 ],
 "C119": [
  "proved",
  "C119_step (three calls with given neighbours), C119_surprise (identities between the outputs alone), C119_lookup (one more neighbour from the lookup, rows without tied distances)."
 ],
 "C120": [
  "proved",
  "C120_long, C120_homoscedastic (the limit in closed form), C120_short, C120_rate (explicit rate)."
 ],
 "C121": [
  "partial",
  "C121_weights_partial, C121_range_partial, C121_monotone_partial for the exponential kernel on one feature; C121_rbf_negative_refuted and C121_rbf_overshoot_refuted show that the general claim is false."
 ],
 "C122": [
  "proved",
  "C122_best_linear, C122_mean_squared_error, C122_moments_exist, C122_covariance, C122_more_observations, C122_more_noise, C122_superposition."
 ],
 "C123": [
  "proved",
  "C123_fit, C123_interpolant, C123_all_rows, C123_worst_case, C123_scale, C123_fast (fast prediction evaluates one fixed best fit per training row)."
 ],
 "C124": [
  "proved",
  "C124_noisy, C124_training_error; for weak-lensing models C124_shear_noisy and C124_shear_observed."
 ],
 "C125": [
  "proved",
  "C125_best_linear, C125_fit, C125_failure. C125_more_noise and C125_more_neighbors compare variances. C125_limits: large noise and far test rows."
 ],
 "C126": [
  "partial",
  "Holds for equal length scales: order and selection by correlation, and no single-row predictor is better (C126_most_correlated_partial). Different length scales and sets of several rows: refuted."
 ],
 "C127": [
  "partial",
  "The mean moves by a fixed multiple of the constant and the variance not at all (C127_shift_partial); the multiple is 1 at noise-free training rows (C127_training_rows_partial). In general refuted: C127_one_neighbour_refuted."
 ]
}