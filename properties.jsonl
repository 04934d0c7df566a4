{"id": "C01", "title": "Scalar hyperparameter validation", "statement": "Constructing a scalar Parameter(val, bounds) succeeds exactly when bounds is the string 'fixed' or a length-2 iterable of numbers with lower not greater than upper, and val is a number within [lower-1e-5, upper+1e-5] (any number if fixed) or, for optimizable bounds, one of the strings 'sample'/'log_sample'; every other input raises ValueError and a successfully built parameter reports exactly the given bounds, value and fixedness.", "quantifier": "all values (numbers, NaN, infinities, strings, containers), all bounds arguments", "why_tests_cant": "the input space is unbounded and mixes types; tests sample a few rejections", "anchors": ["src/MuyGPyS/gp/hyperparameter/scalar.py:Parameter.__init__", "src/MuyGPyS/gp/hyperparameter/scalar.py:Parameter._set_val", "src/MuyGPyS/gp/hyperparameter/scalar.py:Parameter._set_bounds"]}
{"id": "C02", "title": "Bounds invariant survives every history", "statement": "After any sequence of successful public parameter operations (construction, value resets, copying from another parameter), every optimizable parameter with non-NaN data has a value inside its bounds up to the 1e-5 tolerance, and its lower bound does not exceed its upper bound.", "quantifier": "all finite sequences of operations over any number of parameters", "why_tests_cant": "histories are unbounded", "anchors": ["src/MuyGPyS/gp/hyperparameter/scalar.py:Parameter._set", "src/MuyGPyS/gp/hyperparameter/scalar.py:Parameter._set_val"]}
{"id": "C03", "title": "Degenerate bounds are rejected as documented", "statement": "The documentation promises that a lower bound that is not less than the upper bound is an error. (The code only rejects lower > upper.)", "quantifier": "all pairs of bounds", "why_tests_cant": "needs the exact boundary of the accepted set", "anchors": ["src/MuyGPyS/gp/hyperparameter/scalar.py:Parameter._set_bounds"]}
{"id": "C04", "title": "Sampled values respect their bounds", "statement": "A parameter built with val='sample' or (for positive bounds) val='log_sample' ends with a value inside the closed interval of its bounds, for every draw of the random generator.", "quantifier": "all bounds, all generator outputs in the closed interval requested", "why_tests_cant": "depends on the random stream", "anchors": ["src/MuyGPyS/gp/hyperparameter/scalar.py:Parameter._sample_val"]}
{"id": "C05", "title": "Optimizer sees exactly the free hyperparameters", "statement": "get_opt_params returns the names, current values and bounds of exactly the non-fixed hyperparameters, each once, aligned position by position, kernel parameters in declaration order followed by noise.", "quantifier": "all models: any kernel, any number of anisotropic length scales, any fixed/free pattern", "why_tests_cant": "exponentially many fixed/free patterns", "anchors": ["src/MuyGPyS/gp/muygps.py:MuyGPS.get_opt_params", "src/MuyGPyS/gp/kernels/kernel_fn.py:KernelFn.get_opt_params", "src/MuyGPyS/gp/hyperparameter/vector.py:NamedVectorParameter.append_lists"]}
{"id": "C06", "title": "Model is fixed iff nothing is optimizable", "statement": "MuyGPS.fixed() is true if and only if get_opt_params returns empty lists.", "quantifier": "all models", "why_tests_cant": "exponentially many fixed/free patterns", "anchors": ["src/MuyGPyS/gp/muygps.py:MuyGPS.fixed", "src/MuyGPyS/gp/hyperparameter/vector.py:VectorParameter.fixed"]}
{"id": "C07", "title": "Keyword hyperparameters override, absent ones default to current values", "statement": "Calling a hyperparameter-bound function with an explicit keyword uses that value; without it, the value the parameter holds at call time (not at bind time) is used; unrelated keywords reach the wrapped function unchanged.", "quantifier": "all keyword dictionaries, all histories of updates between binding and calling", "why_tests_cant": "late binding depends on the history", "anchors": ["src/MuyGPyS/gp/hyperparameter/scalar.py:NamedParameter.apply_fn", "src/MuyGPyS/gp/hyperparameter/scalar.py:NamedParameter.filter_kwargs", "src/MuyGPyS/gp/hyperparameter/scalar.py:NamedParameter.apply_embedding_fn"]}
{"id": "C08", "title": "Anisotropic length scales are matched to dimensions by name", "statement": "Evaluating an anisotropic deformation with keyword length scales divides feature i by the length scale named length_scale<i>, whichever subset of them is passed by keyword and in whatever order.", "quantifier": "all feature counts, all subsets and orders of keyword length scales", "why_tests_cant": "number of orders grows factorially", "anchors": ["src/MuyGPyS/gp/hyperparameter/vector.py:NamedVectorParameter.__call__", "src/MuyGPyS/gp/hyperparameter/vector.py:NamedVectorParameter.filter_kwargs", "src/MuyGPyS/gp/deformation/anisotropy.py:Anisotropy.__call__"]}
{"id": "C09", "title": "Hyperparameter names are unambiguous", "statement": "The generated element names of a vector hyperparameter are pairwise distinct, so no element can shadow another in the optimizer's dictionary.", "quantifier": "all vector lengths, all base names; all knot counts for hierarchical vectors", "why_tests_cant": "needs injectivity of decimal printing at every size", "anchors": ["src/MuyGPyS/gp/hyperparameter/vector.py:NamedVectorParameter.__init__", "src/MuyGPyS/gp/hyperparameter/experimental/hierarchical.py:NamedHierarchicalVectorParameter"]}
{"id": "C10", "title": "Homoscedastic noise adds exactly nu to the diagonal", "statement": "Perturbing a batch of kernel matrices adds the noise variance to each diagonal entry and leaves every off-diagonal entry alone; multivariate (5-axis) kernels are treated as one (in*nn)-square matrix per batch element; any other number of axes raises ValueError.", "quantifier": "all batch/neighbour/in sizes, all entries", "why_tests_cant": "all sizes", "anchors": ["src/MuyGPyS/_src/gp/noise/numpy.py:_homoscedastic_perturb", "src/MuyGPyS/gp/noise/homoscedastic.py:HomoscedasticNoise.perturb"]}
{"id": "C11", "title": "Heteroscedastic noise adds the matching variance", "statement": "Perturbing adds noise[b,i] to entry (b,i,i) only and does not modify the caller's tensor; construction with any negative entry raises ValueError.", "quantifier": "all nonempty batches, all neighbourhood sizes and all entries", "why_tests_cant": "all sizes", "anchors": ["src/MuyGPyS/_src/gp/noise/numpy.py:_heteroscedastic_perturb", "src/MuyGPyS/gp/noise/heteroscedastic.py:HeteroscedasticNoise"]}
{"id": "C12", "title": "Positive noise makes the solve well posed", "statement": "If the kernel matrices are symmetric positive semidefinite and the (homoscedastic, heteroscedastic or shear) noise variances are positive, every perturbed matrix is symmetric and nonsingular, so prediction cannot fail with a singular-matrix error.", "quantifier": "all sizes, all PSD kernels", "why_tests_cant": "needs an algebraic argument for every matrix", "anchors": ["src/MuyGPyS/gp/mean.py:PosteriorMean", "src/MuyGPyS/_src/gp/noise/numpy.py"]}
{"id": "C13", "title": "Noise variance is never negative", "statement": "No homoscedastic noise model with a negative variance can be built (documented as an error).", "quantifier": "all values and bounds", "why_tests_cant": "boundary of the accepted set", "anchors": ["src/MuyGPyS/gp/noise/homoscedastic.py:HomoscedasticNoise.__init__"]}
{"id": "C14", "title": "Null noise behaves as zero noise", "statement": "A model with NullNoise predicts exactly as one with zero homoscedastic noise and can be queried with fixed()/get_opt_params().", "quantifier": "all kernels and inputs", "why_tests_cant": "universal equality of outputs", "anchors": ["src/MuyGPyS/gp/noise/null.py:NullNoise"]}
{"id": "C15", "title": "Difference tensors are indexed correctly", "statement": "crosswise_tensor[b,i,f] = data[idx[b],f] - nn_data[nn_idx[b,i],f] and pairwise_tensor[b,i,j,f] = data[nn_idx[b,i],f] - data[nn_idx[b,j],f], for 1-D and 2-D feature arrays; make_heteroscedastic_tensor[b,i] is the measurement noise of neighbour nn_idx[b,i] and batch_features_tensor[b] the features of point idx[b]; out-of-range indices raise IndexError.", "quantifier": "all data, indices, sizes", "why_tests_cant": "all shapes", "anchors": ["src/MuyGPyS/_src/gp/tensors/numpy.py:_crosswise_tensor", "src/MuyGPyS/_src/gp/tensors/numpy.py:_pairwise_tensor", "src/MuyGPyS/gp/tensors.py:make_heteroscedastic_tensor", "src/MuyGPyS/gp/tensors.py:batch_features_tensor"]}
{"id": "C16", "title": "Distances are metric and depend only on differences", "statement": "l2 distances computed from difference tensors are nonnegative, symmetric, zero on the pairwise diagonal, satisfy the triangle inequality, F2 is the square of l2, and both are unchanged by translating all the features.", "quantifier": "all data, indices, feature counts", "why_tests_cant": "all shapes and values", "anchors": ["src/MuyGPyS/_src/gp/tensors/numpy.py:_l2", "src/MuyGPyS/_src/gp/tensors/numpy.py:_F2", "src/MuyGPyS/gp/deformation/metric.py"]}
{"id": "C17", "title": "Posterior mean solves the kriging system", "statement": "posterior_mean returns, for each batch element and response, Kcross^T w where w is the solution of (Kin + noise) w = y; its shape is (batch, response) (or (batch,) for 1-D targets).", "quantifier": "all batch, neighbour, response sizes and entries", "why_tests_cant": "all shapes, universal algebra", "anchors": ["src/MuyGPyS/_src/gp/muygps/numpy.py:_muygps_posterior_mean", "src/MuyGPyS/gp/muygps.py:MuyGPS.posterior_mean"]}
{"id": "C18", "title": "Posterior mean works for every response count", "statement": "posterior_mean with nn_targets of shape (batch, nn, response) returns a (batch, response) tensor for every response count.", "quantifier": "all sizes", "why_tests_cant": "coincidences between sizes are not sampled", "anchors": ["src/MuyGPyS/_src/gp/muygps/numpy.py:_find_matching_ndim"]}
{"id": "C19", "title": "Posterior mean is linear in the targets and local to each batch element", "statement": "posterior_mean(a*y1 + b*y2) = a*posterior_mean(y1) + b*posterior_mean(y2), and row b of the output depends only on row b of the inputs.", "quantifier": "all inputs and coefficients", "why_tests_cant": "universal algebra", "anchors": ["src/MuyGPyS/_src/gp/muygps/numpy.py:_muygps_posterior_mean"]}
{"id": "C20", "title": "Predictions do not depend on neighbour order", "statement": "Reordering the nearest neighbours (with the same reordering of kernel rows, columns and targets) leaves posterior mean, posterior variance and the analytic scale unchanged.", "quantifier": "all permutations, sizes, entries", "why_tests_cant": "factorially many orders", "anchors": ["src/MuyGPyS/_src/gp/muygps/numpy.py"]}
{"id": "C21", "title": "Posterior variance is bounded by the prior", "statement": "For a positive semidefinite joint kernel, 0 <= posterior_variance <= scale * prior variance.", "quantifier": "all PSD joint kernels, sizes, scales, noises >= 0", "why_tests_cant": "needs a Schur-complement argument", "anchors": ["src/MuyGPyS/_src/gp/muygps/numpy.py:_muygps_diagonal_variance", "src/MuyGPyS/gp/variance.py:PosteriorVariance"]}
{"id": "C22", "title": "Noise-free interpolation", "statement": "With zero noise, predicting at a point that is one of its own neighbours returns that neighbour's target exactly and posterior variance zero.", "quantifier": "all nonsingular kernels, all neighbour positions", "why_tests_cant": "universal algebra", "anchors": ["src/MuyGPyS/_src/gp/muygps/numpy.py"]}
{"id": "C23", "title": "Fast prediction equals ordinary prediction", "statement": "For coefficients precomputed by fast_coefficients, fast_posterior_mean gives the same result as posterior_mean on the same neighbour set (symmetric kernels).", "quantifier": "all sizes, kernels, targets", "why_tests_cant": "universal algebra", "anchors": ["src/MuyGPyS/_src/gp/muygps/numpy.py:_muygps_fast_posterior_mean", "src/MuyGPyS/_src/gp/muygps/numpy.py:_muygps_fast_posterior_mean_precompute"]}
{"id": "C24", "title": "The posterior mean ignores the scale parameter; the variance is proportional to it", "statement": "Multiplying the kernel and the noise by a positive constant leaves the posterior mean unchanged, and posterior_variance is exactly the scale value times the unscaled variance, using the latest trained scale.", "quantifier": "all scales, kernels, histories of optimize_scale", "why_tests_cant": "universal algebra and histories", "anchors": ["src/MuyGPyS/gp/muygps.py:MuyGPS.optimize_scale", "src/MuyGPyS/gp/variance.py"]}
{"id": "C25", "title": "Kernel functions are bounded correlations", "statement": "RBF and Matern (1/2, 3/2, 5/2, inf) kernels map every nonnegative distance into (0,1], equal 1 exactly at distance 0, are strictly decreasing, and tend to the closed forms documented.", "quantifier": "all distances", "why_tests_cant": "continuum of inputs", "anchors": ["src/MuyGPyS/_src/gp/kernels/numpy.py"]}
{"id": "C26", "title": "RBF kernel matrices are positive semidefinite", "statement": "The Gram matrix the RBF kernel produces from any point set is symmetric positive semidefinite, for isotropic and anisotropic deformations.", "quantifier": "all point sets, dimensions, length scales", "why_tests_cant": "all sizes; an analytic fact", "anchors": ["src/MuyGPyS/gp/kernels/rbf.py:RBF", "src/MuyGPyS/_src/gp/kernels/numpy.py:_rbf_fn"]}
{"id": "C27", "title": "Matern dispatch picks the right formula", "statement": "A Matern kernel with fixed smoothness 0.5/1.5/2.5/inf evaluates the corresponding closed form and any other smoothness (or any optimizable one) evaluates the general Bessel form at the current smoothness; after set_params the values follow the new smoothness.", "quantifier": "all smoothness values and histories of set_params", "why_tests_cant": "histories", "anchors": ["src/MuyGPyS/gp/kernels/matern.py:Matern._make_base", "src/MuyGPyS/gp/kernels/kernel_fn.py:KernelFn.set_params"]}
{"id": "C28", "title": "Anisotropy generalizes isotropy", "statement": "An anisotropic deformation whose length scales are all equal gives the same deformed distances as the isotropic one, for both l2 and F2; scaling the features and the length scales by the same factor changes nothing.", "quantifier": "all tensors and length scales", "why_tests_cant": "universal algebra", "anchors": ["src/MuyGPyS/gp/deformation/isotropy.py:Isotropy", "src/MuyGPyS/gp/deformation/anisotropy.py:Anisotropy"]}
{"id": "C29", "title": "Kernel evaluation does not modify the caller's tensors", "statement": "Evaluating kernels, noise perturbation or a whole objective never changes a tensor the caller passed in.", "quantifier": "all tensors and kernels, including the in-place general Matern", "why_tests_cant": "absence of a side effect over all inputs", "anchors": ["src/MuyGPyS/_src/gp/kernels/numpy.py:_matern_gen_fn", "src/MuyGPyS/gp/deformation/isotropy.py"]}
{"id": "C30", "title": "Loss functions are correct and well behaved", "statement": "mse, cross entropy, lool, pseudo-Huber and looph equal their documented formulas; mse and pseudo-Huber are nonnegative and zero exactly on perfect predictions; pseudo-Huber lies between its quadratic and linear asymptotes; lool is minimized over a common rescaling of the variances at the analytic value.", "quantifier": "all predictions, targets, variances, boundary scales", "why_tests_cant": "continuum of inputs, all batch sizes", "anchors": ["src/MuyGPyS/_src/optimize/loss/numpy.py", "src/MuyGPyS/optimize/loss.py"]}
{"id": "C31", "title": "Multivariate lool uses the log determinant", "statement": "For block variances lool equals sum r^T V^-1 r + log det V.", "quantifier": "all batches of PD blocks", "why_tests_cant": "continuum", "anchors": ["src/MuyGPyS/_src/optimize/loss/numpy.py:_lool_fn_unscaled"]}
{"id": "C32", "title": "Every exported loss can be optimized", "statement": "Each LossFn object exported by the optimize.loss module yields an objective function that evaluates without a calling error.", "quantifier": "all losses, all inputs of the right shape", "why_tests_cant": "calling convention mismatches hide in untested combinations", "anchors": ["src/MuyGPyS/optimize/loss.py", "src/MuyGPyS/optimize/objective.py"]}
{"id": "C33", "title": "Analytic scale is the maximum-likelihood scale", "statement": "The analytic scale of a batch equals sum_b y_b^T (K_b+noise)^-1 y_b / (batch*nn), is nonnegative, scales quadratically with the targets, and maximizes the Gaussian log likelihood over all positive scales.", "quantifier": "all batches, sizes, targets; all candidate scales", "why_tests_cant": "a continuum of alternatives", "anchors": ["src/MuyGPyS/_src/optimize/scale/numpy.py:_analytic_scale_optim", "src/MuyGPyS/gp/hyperparameter/scale.py:AnalyticScale"]}
{"id": "C34", "title": "Scale optimization during training uses the candidate hyperparameters", "statement": "While optimizing, the scale used by the loss is the analytic scale for the candidate noise and kernel hyperparameters of that step.", "quantifier": "all candidate hyperparameters", "why_tests_cant": "depends on optimizer history", "anchors": ["src/MuyGPyS/gp/hyperparameter/scale.py:AnalyticScale.get_opt_fn", "src/MuyGPyS/optimize/objective.py:make_loo_crossval_fn"]}
{"id": "C35", "title": "Optimization returns parameters inside their bounds and leaves the input model alone", "statement": "Whatever point the optimizer proposes, the returned model has each optimized hyperparameter clamped into its bounds, every fixed hyperparameter unchanged, and the model passed in is unchanged.", "quantifier": "all optimizer outputs, all models", "why_tests_cant": "optimizer is a black box", "anchors": ["src/MuyGPyS/_src/optimize/chassis/numpy.py:_new_muygps", "src/MuyGPyS/_src/optimize/chassis/numpy.py:_scipy_optimize"]}
{"id": "C36", "title": "Optimizer keyword arguments are routed without loss", "statement": "Every keyword argument passed to Bayes optimization reaches exactly one of the optimizer constructor or maximize call if it is recognized, with the documented defaults for the others.", "quantifier": "all keyword dictionaries", "why_tests_cant": "all subsets", "anchors": ["src/MuyGPyS/_src/optimize/chassis/numpy.py:_bayes_get_kwargs"]}
{"id": "C37", "title": "Nearest neighbours returned are the true nearest neighbours", "statement": "get_nns returns for each query the nn_count closest training points in ascending order; get_batch_nns does the same excluding the query itself.", "quantifier": "all point sets, queries, nn_count", "why_tests_cant": "ties and duplicates", "anchors": ["src/MuyGPyS/neighbors.py:NN_Wrapper.get_nns", "src/MuyGPyS/neighbors.py:NN_Wrapper.get_batch_nns"]}
{"id": "C38", "title": "Reported neighbour distances are squared Euclidean distances", "statement": "The distances returned for the default exact method are the squared l2 distances between query and neighbour, and so are those of the hnsw method in its default space; for other metrics of the exact method they are the metric's own distances.", "quantifier": "all metrics and keyword settings", "why_tests_cant": "configuration combinations", "anchors": ["src/MuyGPyS/neighbors.py:NN_Wrapper._get_nns"]}
{"id": "C39", "title": "Batches are valid samples", "statement": "sample_batch returns distinct in-range indices, min(batch_count, train_count) of them, with the neighbour rows of exactly these indices; when the requested batch is not smaller than the data it is the whole data set in order.", "quantifier": "all random draws, all sizes", "why_tests_cant": "random stream", "anchors": ["src/MuyGPyS/optimize/batch.py:sample_batch"]}
{"id": "C40", "title": "Balanced batches are balanced and non-constant", "statement": "sample_balanced_batch returns only points whose neighbourhoods contain at least two labels, min(class candidates, floor(batch_count/class_count)) of each class, all distinct; get_balanced_batch never returns an index whose neighbours have constant labels.", "quantifier": "all labels, neighbours, draws", "why_tests_cant": "random stream and label configurations", "anchors": ["src/MuyGPyS/optimize/batch.py"]}
{"id": "C41", "title": "Work is split evenly and completely among MPI ranks", "statement": "The chunk sizes differ by at most one, sum to the number of rows and the concatenation of the chunks in rank order is the original data, for every row count and world size.", "quantifier": "all row counts and world sizes", "why_tests_cant": "all sizes; float division", "anchors": ["src/MuyGPyS/_src/mpi_utils.py:_get_chunk_sizes", "src/MuyGPyS/_src/mpi_utils.py:_prepare_parallel_data"]}
{"id": "C42", "title": "Large scatters deliver every chunk under every schedule", "statement": "The point-to-point scatter used for big arrays terminates on every interleaving of the ranks, with rank i holding exactly chunk i.", "quantifier": "all world sizes, all interleavings, all data", "why_tests_cant": "schedules", "anchors": ["src/MuyGPyS/_src/mpi_utils.py:_big_scatter"]}
{"id": "C43", "title": "Distributed results equal serial results", "statement": "Tensors, predictions, losses and analytic scale computed by the MPI backend and gathered/reduced equal the single-process values.", "quantifier": "all world sizes and batches", "why_tests_cant": "all sizes", "anchors": ["src/MuyGPyS/_src/mpi_utils.py:_consistent_unchunk_tensor", "src/MuyGPyS/_src/optimize/loss/mpi.py", "src/MuyGPyS/_src/optimize/scale/mpi.py"]}
{"id": "C44", "title": "Multivariate models act response by response", "statement": "A multivariate model's posterior mean, posterior variance, scale optimization and fast prediction for response i equal those of the i-th univariate model on the i-th target column.", "quantifier": "all response counts, models, targets", "why_tests_cant": "all sizes, histories", "anchors": ["src/MuyGPyS/gp/multivariate_muygps.py:MultivariateMuyGPS"]}
{"id": "C45", "title": "Models do not share mutable state", "statement": "Changing the hyperparameters of one kernel or model never changes another independently constructed kernel or model.", "quantifier": "all histories of constructions and updates", "why_tests_cant": "aliasing depends on history", "anchors": ["src/MuyGPyS/gp/kernels/matern.py:Matern.__init__", "src/MuyGPyS/gp/kernels/rbf.py:RBF.__init__", "src/MuyGPyS/gp/muygps.py:MuyGPS.__init__"]}
{"id": "C46", "title": "Fast prediction workflow uses matching coefficients and neighbours", "statement": "fast_posterior_mean workflows pair each coefficient with the kernel value of the neighbour it was computed for.", "quantifier": "all data sets", "why_tests_cant": "index bookkeeping", "anchors": ["src/MuyGPyS/examples/fast_posterior_mean.py:fast_posterior_mean_any", "src/MuyGPyS/_src/gp/tensors/numpy.py:_fast_nn_update"]}
{"id": "C47", "title": "Classification shortcut is sound", "statement": "In classify workflows, test points whose neighbours all share a label are assigned that label and only they skip the model.", "quantifier": "all label encodings and class counts", "why_tests_cant": "label configurations", "anchors": ["src/MuyGPyS/examples/classify.py:classify_any", "src/MuyGPyS/examples/two_class_classify_uq.py:classify_two_class_uq"]}
{"id": "C48", "title": "Uncertainty masks and UQ report are consistent", "statement": "make_masks / train_two_class_interval / do_uq use the same interval for training the cutoff and for applying it; the UQ report columns are the stated counts and accuracies.", "quantifier": "all predictions, variances, cutoffs", "why_tests_cant": "continuum", "anchors": ["src/MuyGPyS/examples/two_class_classify_uq.py"]}
{"id": "C49", "title": "Regression and classification drivers dispatch on model type consistently", "statement": "make_regressor/make_classifier return a model of the kind requested: univariate for one kernel spec, multivariate for a list with exactly one spec per response; mismatched counts raise ValueError; a fixed model is returned unoptimized.", "quantifier": "all argument combinations", "why_tests_cant": "combinations", "anchors": ["src/MuyGPyS/examples/regress.py", "src/MuyGPyS/examples/classify.py"]}
{"id": "C50", "title": "Backend selection is total and consistent", "statement": "Selecting a backend that is not enabled raises ValueError, and for each enabled backend the collected implementation comes from that backend's module only; no other state combination is reachable.", "quantifier": "all sequences of configuration updates", "why_tests_cant": "histories", "anchors": ["src/MuyGPyS/_src/config.py", "src/MuyGPyS/_src/util.py:_collect_implementation"]}
{"id": "C51", "title": "Array constructors use the configured float type unless overridden", "statement": "Array constructors wrapped by the math layer use the configured dtype when no dtype is passed and the caller's dtype otherwise, all other arguments unchanged.", "quantifier": "all calls", "why_tests_cant": "all argument combinations", "anchors": ["src/MuyGPyS/_src/math/meta.py", "src/MuyGPyS/_src/math/numpy.py"]}
{"id": "C52", "title": "Shear kernel blocks are derivatives of the base kernel", "statement": "Each entry of the 3x3 shear kernel equals the documented combination of second/fourth derivatives of the RBF kernel at the difference vector, and the assembled block matrix is symmetric with the documented block layout.", "quantifier": "all differences and length scales, all sizes", "why_tests_cant": "continuum", "anchors": ["src/MuyGPyS/_src/gp/kernels/shear/numpy.py"]}
{"id": "C53", "title": "Shear noise is doubled on the convergence block", "statement": "shear33 noise adds 2*nu on the first nn diagonal entries and nu on the remaining 2*nn, nothing elsewhere, and raises ValueError unless there are 3 inputs.", "quantifier": "all sizes", "why_tests_cant": "all sizes", "anchors": ["src/MuyGPyS/_src/gp/noise/numpy.py:_shear_perturb33", "src/MuyGPyS/gp/noise/shear.py"]}
{"id": "C54", "title": "Shear kernels recognise cross and pairwise tensors correctly", "statement": "Calling a shear kernel with a crosswise difference tensor yields the cross-covariance, and with a pairwise tensor the covariance, for every batch and neighbour count.", "quantifier": "all batch and neighbour counts", "why_tests_cant": "coincidences between sizes", "anchors": ["src/MuyGPyS/gp/kernels/experimental/shear.py:ShearKernel.__call__"]}
{"id": "C55", "title": "Hierarchical (knot) length scales interpolate their knots", "statement": "A hierarchical parameter requires one knot value per knot feature row and its value at the knots is the posterior mean of the knot values.", "quantifier": "all knots", "why_tests_cant": "all sizes", "anchors": ["src/MuyGPyS/gp/hyperparameter/experimental/hierarchical.py"]}
{"id": "C56", "title": "Down-sampled scale is a valid estimate", "statement": "DownSampleScale uses down_count distinct neighbour positions per iteration (same rows, columns and targets), returns the median over iterations, and rejects nn_count <= down_count and nonpositive counts.", "quantifier": "all draws, sizes", "why_tests_cant": "random stream", "anchors": ["src/MuyGPyS/gp/hyperparameter/scale.py:DownSampleScale"]}
{"id": "C57", "title": "Leave-one-out objective composes the pieces faithfully", "statement": "The objective optimised for hyperparameters x equals minus the loss of the leave-one-out predictions of the model with hyperparameters x on the batch.", "quantifier": "all hyperparameter dictionaries, batches, losses", "why_tests_cant": "composition over all inputs", "anchors": ["src/MuyGPyS/optimize/objective.py:make_loo_crossval_fn", "src/MuyGPyS/optimize/loss.py:LossFn"]}
{"id": "C58", "title": "Mini-batch optimization chassis terminates with a valid model", "statement": "optimize_from_tensors_mini_batch runs the requested number of epochs, probing the documented number of points, and returns a model within bounds.", "quantifier": "all epochs, keyword arguments", "why_tests_cant": "histories", "anchors": ["src/MuyGPyS/optimize/experimental/chassis.py"]}
{"id": "C59", "title": "Model equality is an equivalence", "statement": "MuyGPS equality is reflexive and symmetric and implies equal hyperparameters.", "quantifier": "all pairs of models", "why_tests_cant": "all pairs", "anchors": ["src/MuyGPyS/gp/muygps.py:MuyGPS.__eq__"]}
{"id": "C60", "title": "Prediction from indices is kriging on the listed neighbours", "statement": "posterior_mean_from_indices / make_predict_tensors followed by posterior_mean return, for each requested test row, the kriging prediction computed from exactly the training rows and responses listed in that row of the neighbour index matrix.", "quantifier": "all data sets, index matrices, kernels that are functions of the difference vector, noise models", "why_tests_cant": "all index configurations and sizes", "anchors": ["src/MuyGPyS/examples/from_indices.py:posterior_mean_from_indices", "src/MuyGPyS/gp/muygps.py:MuyGPS.make_predict_tensors"]}
{"id": "C61", "title": "Shear prediction is co-kriging of the lensing observables", "statement": "With a shear model, the tensors of make_predict_tensors followed by posterior_mean and posterior_variance return, for each test point, the kriging prediction of convergence and shears from all observed channels at exactly the listed neighbours, never meet a singular matrix when the noise is positive, and the variances lie between 0 and the prior variance.", "quantifier": "all data sets, neighbour lists, length scales > 0, noise > 0, sizes with b != 1, nn >= 2, b != nn; three- and two-channel models", "why_tests_cant": "continuum of data and all sizes", "anchors": ["src/MuyGPyS/gp/kernels/experimental/shear.py", "src/MuyGPyS/gp/muygps.py:MuyGPS.posterior_mean"]}
{"id": "C62", "title": "Variance during optimization uses the candidate's prior", "statement": "While hyperparameters are optimized, the posterior variance of a candidate uses the prior variance of that candidate, so it equals the variance a model built with the candidate values would report.", "quantifier": "all kernels and candidate hyperparameters", "why_tests_cant": "all candidate values", "anchors": ["src/MuyGPyS/gp/variance.py:PosteriorVariance", "src/MuyGPyS/gp/muygps.py:MuyGPS._make", "src/MuyGPyS/gp/kernels/experimental/shear.py:ShearKernel.Kout"]}
{"id": "C63", "title": "Predictions with the library kernels always succeed and are kriging", "statement": "With the RBF kernel (F2) or the Matern kernel with a closed-form smoothness (1/2, 3/2, 5/2, inf; l2), isotropic or anisotropic, from_indices prediction, posterior_mean, posterior_variance and the fast workflow never meet a singular matrix when the noise is positive at every neighbour (or non-negative and the neighbours are distinct points); the mean is the kriging mean under the documented covariance of the raw feature vectors, and the variance lies in [0, scale].", "quantifier": "all data sets, dimensions, neighbour lists, length scales > 0, noise models and responses", "why_tests_cant": "continuum of data, all dimensions and sizes; positive semidefiniteness is a statement about all coefficient vectors", "anchors": ["src/MuyGPyS/gp/kernels/rbf.py:RBF", "src/MuyGPyS/gp/kernels/matern.py:Matern", "src/MuyGPyS/gp/muygps.py:MuyGPS"]}
{"id": "C64", "title": "Matern kernel matrices are valid covariance matrices", "statement": "The kernel matrix that the Matern kernel returns for any set of points is symmetric, has unit diagonal and is positive semidefinite, also jointly with a test point's cross-covariance.", "quantifier": "all point sets, dimensions, length scales > 0, smoothness values", "why_tests_cant": "all coefficient vectors, dimensions and point sets", "anchors": ["src/MuyGPyS/gp/kernels/matern.py:Matern", "src/MuyGPyS/_src/gp/kernels/numpy.py"]}
{"id": "C65", "title": "Distinct points give non-singular kernel matrices, and noise-free models interpolate", "statement": "Kernel matrices of pairwise distinct points are positive definite for RBF and closed-form Matern kernels, so a noise-free model predicts without a singular-matrix error, and at a test point equal to one of its neighbours returns that neighbour's target.", "quantifier": "all pairwise distinct neighbour sets, dimensions, length scales > 0, responses", "why_tests_cant": "continuum of point sets, all coefficient vectors", "anchors": ["src/MuyGPyS/gp/kernels/rbf.py:RBF", "src/MuyGPyS/gp/kernels/matern.py:Matern", "src/MuyGPyS/gp/noise/null.py:NullNoise"]}
{"id": "C66", "title": "Difference tensors do not depend on the backend", "statement": "For the same features and indices, the jax and torch backends build the same crosswise and pairwise difference tensors as numpy and raise the same exceptions.", "quantifier": "all feature arrays, index arrays and sizes", "why_tests_cant": "all data and index values, including negative and invalid indices", "anchors": ["src/MuyGPyS/_src/gp/tensors/jax.py", "src/MuyGPyS/_src/gp/tensors/torch.py", "src/MuyGPyS/_src/gp/tensors/numpy.py"]}
{"id": "C67", "title": "Kernels do not depend on the backend", "statement": "For the same distances and hyperparameters every backend evaluates the RBF, Matern and shear kernels to the same values as numpy.", "quantifier": "all distance tensors, smoothness and length-scale values", "why_tests_cant": "continuum of distances and smoothness values", "anchors": ["src/MuyGPyS/_src/gp/kernels/jax.py", "src/MuyGPyS/_src/gp/kernels/torch.py", "src/MuyGPyS/_src/gp/kernels/shear/jax.py", "src/MuyGPyS/_src/gp/kernels/shear/torch.py"]}
{"id": "C68", "title": "Predictions do not depend on the backend", "statement": "Given the same kernel tensors and targets, posterior_mean, posterior_variance and the fast prediction of every backend return the same arrays as numpy.", "quantifier": "all kernel tensors, targets, batch, neighbour and response counts", "why_tests_cant": "all tensors and sizes", "anchors": ["src/MuyGPyS/_src/gp/muygps/jax.py", "src/MuyGPyS/_src/gp/muygps/torch.py", "src/MuyGPyS/_src/gp/muygps/numpy.py"]}
{"id": "C69", "title": "Losses do not depend on the backend", "statement": "Given the same predictions, targets and variances every loss function returns the same number in every backend.", "quantifier": "all predictions, targets, variances, shapes", "why_tests_cant": "continuum of values and all shapes", "anchors": ["src/MuyGPyS/_src/optimize/loss/jax.py", "src/MuyGPyS/_src/optimize/loss/torch.py", "src/MuyGPyS/_src/math/meta.py:wrap_torch_signature"]}
{"id": "C70", "title": "Scale optimization does not depend on the backend", "statement": "Given the same kernel tensors and targets the analytic scale is the same number in every backend, and the same optimizers are available.", "quantifier": "all kernel tensors and targets, univariate and multivariate", "why_tests_cant": "all tensors and sizes", "anchors": ["src/MuyGPyS/_src/optimize/scale/jax.py", "src/MuyGPyS/_src/optimize/scale/torch.py", "src/MuyGPyS/_src/optimize/chassis/torch.py"]}
{"id": "C71", "title": "Torch GP layers compute the posterior of the embedded data", "statement": "A MuyGPs layer's forward pass returns, for each batch element, the posterior mean and variance given its stored neighbours and targets, using the layer's current length scale and scale; unsupported deformations are rejected at construction; predictions and variances have shape (batch_count, response_count).", "quantifier": "all embedded features, kernels, noise models, indices, batch, neighbour and response counts", "why_tests_cant": "real-valued features and all sizes", "anchors": ["src/MuyGPyS/torch/muygps_layer.py:MuyGPs_layer", "src/MuyGPyS/torch/multivariate_muygps_layer.py:MultivariateMuyGPs_layer"]}
{"id": "C72", "title": "Deep prediction is kriging in the embedded space", "statement": "predict_model embeds test and training features, looks the neighbours up in the embedded space and returns the posterior mean and variance at each test point; a model without embedding or layer is rejected.", "quantifier": "all embeddings, lookups, models and data", "why_tests_cant": "all embeddings and data", "anchors": ["src/MuyGPyS/examples/muygps_torch.py:predict_model", "src/MuyGPyS/examples/muygps_torch.py:predict_single_model", "src/MuyGPyS/examples/muygps_torch.py:predict_multiple_model"]}
{"id": "C73", "title": "Training returns the neighbours of the deployed embedding", "statement": "The lookup returned by train_deep_kernel_muygps indexes the training data embedded by the trained model, and the model carries the matching batch neighbours and targets.", "quantifier": "all embeddings, optimizers, iteration counts, update frequencies", "why_tests_cant": "all histories of training", "anchors": ["src/MuyGPyS/examples/muygps_torch.py:train_deep_kernel_muygps"]}
{"id": "C74", "title": "Refreshed neighbours are used", "statement": "After update_nearest_neighbors, or at the update iterations of training, the layer predicts the batch from the refreshed neighbours.", "quantifier": "all models, data and update frequencies", "why_tests_cant": "all histories of training", "anchors": ["src/MuyGPyS/examples/muygps_torch.py:update_nearest_neighbors", "src/MuyGPyS/examples/muygps_torch.py:train_deep_kernel_muygps"]}
{"id": "C75", "title": "Batch neighbourhoods leave the batch point out", "statement": "The refreshed neighbours of a batch point never contain the point itself, so the leave-one-out loss does not see its response.", "quantifier": "all embeddings with distinct embedded points", "why_tests_cant": "all embeddings and data", "anchors": ["src/MuyGPyS/examples/muygps_torch.py:update_nearest_neighbors", "src/MuyGPyS/neighbors.py:NN_Wrapper._get_nns"]}
{"id": "C76", "title": "Training changes exactly the trainable parameters, within their bounds", "statement": "Training moves the embedding weights, length scale and noise of the layer(s) and nothing else, and keeps bounded hyperparameters within their bounds.", "quantifier": "all optimizers, iteration counts and models", "why_tests_cant": "all optimizer outputs and histories", "anchors": ["src/MuyGPyS/examples/muygps_torch.py:train_deep_kernel_muygps", "src/MuyGPyS/torch/muygps_layer.py:MuyGPs_layer.__init__", "src/MuyGPyS/torch/multivariate_muygps_layer.py"]}
{"id": "C77", "title": "Loss names", "statement": "train_deep_kernel_muygps accepts the documented loss names lool, mse, ce, bce and l1, in any case, and rejects every other name with ValueError.", "quantifier": "all strings", "why_tests_cant": "all strings", "anchors": ["src/MuyGPyS/examples/muygps_torch.py:train_deep_kernel_muygps"]}
{"id": "C78", "title": "Training losses score each prediction with its own variance", "statement": "The number minimized with loss lool is the sum over batch and responses of (prediction - target)^2 / variance + ln variance, with mse the mean squared error.", "quantifier": "all predictions, targets, variances and shapes the layers return", "why_tests_cant": "continuum of values, all shapes", "anchors": ["src/MuyGPyS/examples/muygps_torch.py:train_deep_kernel_muygps", "src/MuyGPyS/_src/optimize/loss/torch.py"]}
{"id": "C79", "title": "Likelihood losses score each response with the variance of its own batch element", "statement": "For predictions and targets of shape (batch, response) and one variance per batch element, lool and looph are the documented sum over batch and responses, each residual scaled by the variance of its own batch element; the drivers optimize that number.", "quantifier": "all batch and response counts, values, scales and hyperparameter candidates", "why_tests_cant": "continuum of values; broadcasting depends on the relation between batch and response counts", "anchors": ["src/MuyGPyS/_src/optimize/loss/numpy.py:_lool_fn,_looph_fn", "src/MuyGPyS/optimize/objective.py", "src/MuyGPyS/examples/regress.py:make_multivariate_regressor"]}
{"id": "C80", "title": "Regression and classification end to end", "statement": "do_regress/regress_any (and two-class do_classify/classify_any) with the exact lookup predict every test row from its nn_count nearest training rows: kriging mean and variance under the documented kernel, independent of the other test rows; the returned model and lookup are the ones used.", "quantifier": "all training and test sets, dimensions, neighbour counts, library kernels with positive length scales, noise models and targets shapes", "why_tests_cant": "all data sets; composition of lookup, tensors, kernel, noise and posterior", "anchors": ["src/MuyGPyS/examples/regress.py:do_regress,regress_any", "src/MuyGPyS/examples/classify.py:do_classify,classify_any", "src/MuyGPyS/examples/from_indices.py:regress_from_indices"]}
{"id": "C81", "title": "The order of the training data does not matter", "statement": "Reordering the training features and targets (or labels) together leaves every prediction of regress_any and every class score of classify_any unchanged.", "quantifier": "all data sets, permutations and library kernels", "why_tests_cant": "all permutations and data sets", "anchors": ["src/MuyGPyS/examples/regress.py:regress_any", "src/MuyGPyS/neighbors.py:NN_Wrapper.get_nns", "src/MuyGPyS/examples/classify.py:classify_any"]}
{"id": "C82", "title": "Noise-free regression interpolates the training data", "statement": "Without noise and with distinct training rows, predicting at a training point returns its targets with variance zero.", "quantifier": "all data sets with distinct rows, neighbour counts and library kernels", "why_tests_cant": "all data sets", "anchors": ["src/MuyGPyS/examples/regress.py:regress_any"]}
{"id": "C83", "title": "Training maximizes the leave-one-out loss of the data", "statement": "The objective that optimize_from_indices builds from features, targets and a batch is, at every parameter setting inside the bounds, minus the chosen loss of the leave-one-out kriging predictions of the model with those parameters; evaluating it never fails. If the external optimizer returns a best tried point, optimize_from_indices returns a model whose leave-one-out score is at least that of every model tried.", "quantifier": "all data sets, batches, univariate models with RBF or closed-form Matern kernels, losses and parameter settings inside the bounds, outside the findings C08 (length scales with fixed leading entries) and C34 (optimizing noise with an analytic scale)", "why_tests_cant": "all data, models and points of the box", "anchors": ["src/MuyGPyS/examples/from_indices.py:optimize_from_indices", "src/MuyGPyS/gp/muygps.py:MuyGPS.make_train_tensors", "src/MuyGPyS/optimize/chassis.py:OptimizeFn"]}
{"id": "C84", "title": "make_regressor and do_regress train on a valid batch and predict with the trained model", "statement": "make_regressor samples a batch of distinct training rows with their nearest other rows, returns the best model the optimizer tried on that batch's leave-one-out objective with the maximum-likelihood (or fixed) scale of the batch, and a fixed model unchanged; do_regress predictions are the kriging predictions, from the nearest training rows of each test row, under the covariance, noise and scale of the trained model.", "quantifier": "all data sets with distinct rows, batch sizes, draws, univariate models, losses and optimizers that return a best tried point, outside the findings C08 and C34", "why_tests_cant": "all data, random draws and optimizer behaviours", "anchors": ["src/MuyGPyS/examples/regress.py:make_regressor", "src/MuyGPyS/examples/regress.py:do_regress", "src/MuyGPyS/optimize/batch.py:sample_batch", "src/MuyGPyS/gp/muygps.py:MuyGPS.optimize_scale"]}
{"id": "C85", "title": "do_classify_uq masks the test rows whose calibrated interval contains the class boundary", "statement": "do_classify_uq predicts each test row from its nearest training rows (the common label with variance 0 if they agree, else the kriging means and scaled variance), calibrates one cutoff per objective on the leave-one-out predictions of a balanced batch of distinct training rows with mixed nearest other rows, and returns one mask per objective that selects exactly the test rows whose interval of half-width cutoff times variance contains the middle of the two label values; weighted objectives get the best cutoff of the grid; rows with unanimous neighbours are never selected.", "quantifier": "all two-class data sets with distinct rows and two-axis features, test sets, neighbour counts other than 2, batch sizes, draws, objectives returning grid positions and models (fixed or trained)", "why_tests_cant": "all data, labels, random draws and objectives", "anchors": ["src/MuyGPyS/examples/two_class_classify_uq.py:do_classify_uq", "src/MuyGPyS/examples/two_class_classify_uq.py:train_two_class_interval", "src/MuyGPyS/examples/two_class_classify_uq.py:make_masks", "src/MuyGPyS/optimize/batch.py:get_balanced_batch"]}
{"id": "C86", "title": "Fast prediction end to end is kriging from the neighbourhood of the closest training row", "statement": "fast_posterior_mean_any and do_fast_posterior_mean predict each test row by kriging from the training row nearest to it and the nn_count - 1 training rows nearest to that one, return the corresponding coefficient matrix, and without noise reproduce the training responses; for univariate and multivariate models.", "quantifier": "all training sets with distinct rows, test sets, neighbour counts above 1, responses, library kernels and nonnegative noise", "why_tests_cant": "all data sets and models; the existing tests compare against loose tolerances on smooth data", "anchors": ["src/MuyGPyS/examples/fast_posterior_mean.py:fast_posterior_mean_any", "src/MuyGPyS/examples/fast_posterior_mean.py:do_fast_posterior_mean", "src/MuyGPyS/examples/fast_posterior_mean.py:make_fast_multivariate_regressor", "src/MuyGPyS/examples/from_indices.py:fast_posterior_mean_from_indices", "src/MuyGPyS/gp/tensors.py:fast_nn_update"]}
{"id": "C87", "title": "A trained classifier is the best model tried on the leave-one-out loss of contested training rows", "statement": "make_classifier trains on a balanced batch of distinct training rows whose nearest other rows belong to two classes, and returns the best model its optimizer tried under the leave-one-out class loss (by default the cross entropy of the true classes) computed from the data; a model without free parameters is returned unchanged; do_classify then predicts with the trained model.", "quantifier": "all training sets with distinct rows and one-hot labels, neighbour and batch counts, library kernels, optimizers that return the best point tried, losses and test sets", "why_tests_cant": "all data sets, optimizers and draws; tests only check accuracy on a few random data sets", "anchors": ["src/MuyGPyS/examples/classify.py:make_classifier", "src/MuyGPyS/examples/classify.py:do_classify", "src/MuyGPyS/optimize/batch.py:get_balanced_batch", "src/MuyGPyS/optimize/loss.py:cross_entropy_fn", "src/MuyGPyS/gp/muygps.py:MuyGPS.make_train_tensors"]}
{"id": "C88", "title": "One model per response: each is trained on its own response, and none disturbs another", "statement": "make_multivariate_regressor and make_multivariate_classifier train model i on response (or label column) i alone, over one common batch of distinct training rows with their nearest other rows; a model without free parameters is kept, every other becomes the best model its optimizer tried under its response's leave-one-out loss, training one model changes no other, and (regression) its scale becomes the scale of its response; do_regress then predicts each response with its trained model, and do_classify column c of the contested test rows with trained model c (the other test rows get the label of their nearest training row); a number of responses that differs from the number of models is refused.", "quantifier": "all training sets with distinct rows, numbers of responses, mixtures of fixed and free models, neighbour and batch counts, library kernels, optimizers that return the best point tried, and test sets", "why_tests_cant": "all data sets, model lists, optimizers and draws; tests compare accuracy on a few random data sets", "anchors": ["src/MuyGPyS/examples/regress.py:make_multivariate_regressor", "src/MuyGPyS/examples/regress.py:do_regress", "src/MuyGPyS/examples/classify.py:make_multivariate_classifier", "src/MuyGPyS/gp/multivariate_muygps.py:MultivariateMuyGPS.optimize_scale", "src/MuyGPyS/gp/multivariate_muygps.py:MultivariateMuyGPS.make_train_tensors", "src/MuyGPyS/examples/classify.py:do_classify"]}
{"id": "C89", "title": "Training a shear model: the best co-kriging model tried, and predictions with its own trained parameters", "statement": "Training a shear kernel model (three observables, or two shears in and three out) with mse or pseudo-Huber loss builds an objective that at every point of the box of bounds equals minus the loss, over the observables selected by the target mask, of the leave-one-out co-kriging predictions of the model with those hyperparameters; the returned model is a new one holding the best point tried, and it predicts means and covariances with its own trained length scale, noise and prior.", "quantifier": "all 2-D training sets with three observables, batches, neighbour counts, target masks, noise models (homoscedastic, ShearNoise33), candidate hyperparameters, and optimizers that return the best point tried", "why_tests_cant": "all data sets, candidates and optimizers; the test checks one recovered length scale on one data set", "anchors": ["src/MuyGPyS/gp/kernels/experimental/shear.py:ShearKernel", "src/MuyGPyS/gp/kernels/experimental/shear.py:ShearKernel2in3out", "src/MuyGPyS/optimize/objective.py:make_loo_crossval_fn", "src/MuyGPyS/optimize/chassis.py:OptimizeFn", "tests/experimental/shear.py"]}
{"id": "C90", "title": "Predictions are the best linear predictions, and the variance is their mean squared error", "statement": "For a library kernel model with the exact Euclidean lookup, every predicted mean is one fixed linear combination of the responses of the test row's nearest training rows (the same weights for every response); among all linear combinations these weights, and only these, minimize the expected squared error under the model's covariances, and the returned variance is exactly that minimal expected squared error times the variance scale. Random variables with the model's second moments exist for every kernel, noise and data set.", "quantifier": "all training and test sets, library kernels and hyperparameters, noise, neighbour counts, response shapes, competing weights and probability spaces with the model's second moments", "why_tests_cant": "ranges over every competing linear predictor and every probability space; a test compares one prediction with one formula", "anchors": ["src/MuyGPyS/examples/regress.py:regress_any", "src/MuyGPyS/gp/muygps.py:MuyGPS.posterior_mean", "src/MuyGPyS/gp/muygps.py:MuyGPS.posterior_variance"]}
{"id": "C91", "title": "More neighbours never increase the predicted variance", "statement": "With the same model and data, predicting from a neighbourhood that contains another one (in any order) never gives a larger variance; in particular a lookup with more neighbours never gives a larger variance for a test row whose distances to the training rows are not tied.", "quantifier": "all training and test sets, library kernels and hyperparameters, homoscedastic noise, pairs of neighbour counts and neighbour lists", "why_tests_cant": "ranges over all data sets and all pairs of neighbourhoods", "anchors": ["src/MuyGPyS/examples/regress.py:regress_any", "src/MuyGPyS/gp/muygps.py:MuyGPS.posterior_variance", "src/MuyGPyS/neighbors.py:NN_Wrapper"]}
{"id": "C92", "title": "Predictions do not depend on the coordinates of the features", "statement": "Moving, rotating, reflecting, embedding in a higher-dimensional feature space or rescaling all features by one factor (with the length scale of an isotropic kernel rescaled by the same factor), or changing the unit and origin of every feature separately (with the per-feature length scales rescaled), leaves the predicted means and variances of every test row whose neighbours are not tied unchanged.", "quantifier": "all training and test sets, similarities of the feature space (also between spaces of different dimension), unit changes, library kernels and hyperparameters, noise models, response shapes", "why_tests_cant": "ranges over every pair of data sets related by a similarity, including between different feature counts; a test tries one rotation", "anchors": ["src/MuyGPyS/examples/regress.py:regress_any", "src/MuyGPyS/gp/deformation/isotropy.py:Isotropy", "src/MuyGPyS/gp/deformation/anisotropy.py:Anisotropy", "src/MuyGPyS/gp/tensors.py:pairwise_tensor"]}
{"id": "C93", "title": "The unit of the responses does not matter", "statement": "Multiplying every training response by a nonzero constant a multiplies the squared-error and pseudo-Huber objectives by a^2 and shifts the analytically scaled likelihood objectives by one constant for all candidates, so candidates are ranked in the same order; the analytic scale is multiplied by a^2, predicted means by a and variances by a^2. In particular do_regress with an analytic scale and an optimizer that only compares objective values returns the same hyperparameters and lookup, and predictions in the new unit.", "quantifier": "all data sets, constants, batches, hyperparameters, bounds, candidate points and comparison-only optimizers", "why_tests_cant": "ranges over all constants, data and optimizers, and relates two complete training runs", "anchors": ["src/MuyGPyS/examples/regress.py:do_regress", "src/MuyGPyS/optimize/loss.py:LossFn", "src/MuyGPyS/optimize/objective.py:make_loo_crossval_fn", "src/MuyGPyS/gp/hyperparameter/scale.py:AnalyticScale", "src/MuyGPyS/gp/muygps.py:MuyGPS.optimize_scale"]}
{"id": "C94", "title": "Predictions are local, and exact when every training row is a neighbour", "statement": "The prediction of a test row depends only on its nn_count nearest training rows and their responses: any other training set, of any size and in any order, that contains these rows and only farther ones besides (for instance with far rows appended, deleted or changed) gives the same mean and variance. With nn_count equal to the number of training rows, predictions are those of the exact Gaussian process on all the data.", "quantifier": "all training and test sets, library kernels and hyperparameters, noise, neighbour counts, response shapes and alternative training sets", "why_tests_cant": "ranges over all pairs of training sets that agree nearby; a test perturbs one far point", "anchors": ["src/MuyGPyS/examples/regress.py:regress_any", "src/MuyGPyS/neighbors.py:NN_Wrapper.get_nns", "src/MuyGPyS/gp/muygps.py:MuyGPS.posterior_mean", "src/MuyGPyS/gp/muygps.py:MuyGPS.posterior_variance"]}
{"id": "C95", "title": "Noise and certainty", "statement": "Raising the noise of the neighbours never lowers a predicted variance (same kernel, scale, data). A variance is positive whenever there is noise, or when the training rows are distinct and the test row is not one of them; with homoscedastic noise and distinct training rows it is zero exactly when the noise is zero and the test row is a training row.", "quantifier": "all training and test sets, library kernels and hyperparameters, noise levels (also per neighbour), neighbour counts, response shapes", "why_tests_cant": "strict positivity and monotonicity over all data, kernels and noise levels", "anchors": ["src/MuyGPyS/examples/regress.py:regress_any", "src/MuyGPyS/gp/muygps.py:MuyGPS.posterior_variance", "src/MuyGPyS/gp/noise/homoscedastic.py:HomoscedasticNoise.perturb", "src/MuyGPyS/gp/noise/heteroscedastic.py:HeteroscedasticNoise.perturb"]}
{"id": "C96", "title": "Training on all rows with all other rows as neighbours is exact leave-one-out cross-validation", "statement": "When the batch holds all N training rows and every row's neighbours are the other N - 1 rows, the training objective at any hyperparameters equals minus the loss of the classical closed-form leave-one-out predictions of the ordinary Gaussian process on all the data (means y_a - alpha_a / kappa_a, variances 1 / kappa_a - noise, with alpha = A^-1 y and kappa the diagonal of A^-1), and make_regressor returns the model with the best such value among the points the optimizer tried, with the scale computed from the same quantities.", "quantifier": "all training sets, RBF and Matern kernels, hyperparameters in the box of bounds, homoscedastic noise, losses, batch orders and neighbour orders, optimizers", "why_tests_cant": "an identity between two computations over all data and hyperparameters; a test compares them on one data set within a tolerance", "anchors": ["src/MuyGPyS/examples/regress.py:make_regressor", "src/MuyGPyS/optimize/chassis.py:OptimizeFn", "src/MuyGPyS/optimize/batch.py:sample_batch", "src/MuyGPyS/gp/muygps.py:MuyGPS.posterior_mean", "src/MuyGPyS/gp/muygps.py:MuyGPS.posterior_variance"]}
{"id": "C97", "title": "Training does not depend on the coordinates of the features", "statement": "With data moved, rotated, reflected or embedded in a space with more features (all distances kept), do_regress with an isotropic model returns the same trained model and the same predictions; measuring every feature from another origin does so for anisotropic models too. When all distances are multiplied by r, the training objective at length scale r * l equals the original objective at length scale l.", "quantifier": "all training and test sets without tied distances, kernels, losses, optimizers whose result depends on the objective's values in the box only, hyperparameters in their bounds", "why_tests_cant": "equality of two complete training runs over all data sets and rigid motions; a test compares one rotated data set within a tolerance", "anchors": ["src/MuyGPyS/examples/regress.py:do_regress", "src/MuyGPyS/optimize/chassis.py:OptimizeFn", "src/MuyGPyS/gp/deformation/isotropy.py:Isotropy", "src/MuyGPyS/gp/deformation/anisotropy.py:Anisotropy", "src/MuyGPyS/neighbors.py:NN_Wrapper", "src/MuyGPyS/optimize/batch.py:sample_batch"]}
{"id": "C98", "title": "The numbering of the classes does not matter", "statement": "Renumbering the classes (permuting the columns of the one-hot label matrix) does not change the training objective, nor the model make_classifier returns, and permutes the columns of the class scores of classify_any and do_classify in the same way, so that predicted classes are renamed and nothing else.", "quantifier": "all training and test sets, label matrices, permutations of the classes, kernels, losses, hyperparameters, optimizers whose result depends on the objective's values in the box only", "why_tests_cant": "equality of two complete training and prediction runs over all data sets and all permutations; a test compares one permutation of one data set", "anchors": ["src/MuyGPyS/examples/classify.py:classify_any", "src/MuyGPyS/examples/classify.py:make_classifier", "src/MuyGPyS/examples/classify.py:do_classify", "src/MuyGPyS/optimize/batch.py:get_balanced_batch", "src/MuyGPyS/_src/optimize/loss/numpy.py:_cross_entropy_fn"]}
{"id": "C99", "title": "The order and units of the feature columns do not matter", "statement": "Shuffling the feature columns of the train and test sets, and re-expressing each in its own unit and origin, while shuffling and rescaling the length scales of an anisotropic model alike, leaves every prediction made from given neighbour indices unchanged; with one unit for all columns regress_any (which finds the neighbours itself, in the raw feature space) predicts the same at every row without tied distances; and the training objective takes the same value at corresponding candidates.", "quantifier": "all train and test sets, permutations of the columns, positive units, origins, isotropic or anisotropic RBF and closed-form Matern kernels, hyperparameters, losses and candidates in the bounds", "why_tests_cant": "an equality of two runs over all data, permutations and units; a test compares one permutation of one data set up to rounding", "anchors": ["src/MuyGPyS/gp/deformation/anisotropy.py:Anisotropy.__call__", "src/MuyGPyS/gp/kernels/rbf.py:RBF.__call__", "src/MuyGPyS/examples/regress.py:regress_any", "src/MuyGPyS/optimize/objective.py:make_loo_crossval_fn"]}
{"id": "C100", "title": "The order of the training rows does not matter to training", "statement": "Storing the training rows and responses (or class labels) in another order changes neither the training objective of any candidate (for the same batch of rows, listed in any order) nor, end to end, the model do_regress or do_classify returns and its predictions of test rows without tied distances.", "quantifier": "all data sets, permutations of the training rows, batches (all rows, or samples holding the same rows), kernels, losses, hyperparameters, and optimizers whose result depends on the objective's values in the box only", "why_tests_cant": "equality of two complete training runs over all data sets, permutations and batches; a test compares one permutation of one data set up to rounding", "anchors": ["src/MuyGPyS/examples/regress.py:do_regress", "src/MuyGPyS/examples/regress.py:make_regressor", "src/MuyGPyS/optimize/batch.py:sample_batch", "src/MuyGPyS/optimize/objective.py:make_loo_crossval_fn", "src/MuyGPyS/examples/classify.py:do_classify", "src/MuyGPyS/optimize/batch.py:get_balanced_batch"]}
{"id": "C101", "title": "Far from the data, predictions revert to the prior", "statement": "For every tolerance there is a distance such that every test row farther than that from all training rows is predicted a mean within the tolerance of 0 and a variance within the tolerance below the prior variance (the scale), whatever the rest of the test set, the noise and the bounded responses; with noise at least nu the mean decays at least like L n Y / (nu D) and the variance deficit like L^2 n / (nu D^2). Lensing (shear) predictions far from every observed point tend to zero, and their covariances to the prior covariances of the observables.", "quantifier": "all training sets, library kernels, length scales, neighbour counts, test sets, responses bounded by Y, and noise bounded away from zero (or nonnegative with distinct training rows)", "why_tests_cant": "a uniform limit over unbounded test points, all data sets and kernels; a test evaluates a few points", "anchors": ["src/MuyGPyS/examples/regress.py:regress_any", "src/MuyGPyS/gp/muygps.py:MuyGPS.posterior_mean", "src/MuyGPyS/gp/muygps.py:MuyGPS.posterior_variance", "src/MuyGPyS/gp/kernels/matern.py:Matern", "src/MuyGPyS/gp/kernels/rbf.py:RBF", "src/MuyGPyS/gp/kernels/experimental/shear.py:ShearKernel"]}
{"id": "C102", "title": "Predictions superpose in the responses and are stable under response errors", "statement": "Predicting from a*y + b*y' gives a*mean(y) + b*mean(y') in every response, with the same variance for y, y' and the combination; and changing every response by at most d changes no predicted mean by more than a constant times d, one constant for all test sets and responses (sqrt(n/nu) when the noise is at least nu).", "quantifier": "all training sets, responses, coefficients, test sets, library kernels and noise bounded away from zero (or nonnegative with distinct training rows)", "why_tests_cant": "an algebraic identity and a uniform Lipschitz bound over all responses and test sets; a test samples finitely many", "anchors": ["src/MuyGPyS/examples/regress.py:regress_any", "src/MuyGPyS/gp/muygps.py:MuyGPS.posterior_mean", "src/MuyGPyS/gp/muygps.py:MuyGPS.posterior_variance"]}
{"id": "C103", "title": "Predictions depend continuously on the test features", "statement": "A small change of a test row's features changes its predicted mean and variance by a small amount: over test rows with the same nearest training rows the predictions are Lipschitz in the features with one constant for the training set, so they are continuous at every test row whose neighbourhood is not a matter of ties, and Lipschitz everywhere when all training rows are neighbours. Fast predictions at test rows with the same single closest training row differ by at most the root of six times their distance over the least length scale times the squared norm of the smoothest function with the responses.", "quantifier": "all training sets, library kernels, test sets, responses bounded by Y, uniform noise bounded away from zero (or nonnegative with distinct training rows)", "why_tests_cant": "a uniform bound over all pairs of points of a continuum; a test compares finitely many pairs", "anchors": ["src/MuyGPyS/examples/regress.py:regress_any", "src/MuyGPyS/neighbors.py:NN_Wrapper.get_nns", "src/MuyGPyS/gp/muygps.py:MuyGPS.posterior_mean", "src/MuyGPyS/gp/muygps.py:MuyGPS.posterior_variance"]}
{"id": "C104", "title": "Predictions depend continuously on the hyperparameters", "statement": "Small changes of the length scales, of the smoothness, of the noise variances and of the variance scale change every predicted mean and variance by a small amount, and do not make a successful prediction fail, at every setting and for every test row: the neighbours do not depend on the hyperparameters, so nothing jumps, ties or not. Lensing (shear) predictions with fixed neighbour lists depend continuously on the hyperparameters, the positions and the observations together.", "quantifier": "all training sets, test sets, library kernels, hyperparameter settings at which the prediction succeeds, and all small changes of them", "why_tests_cant": "continuity at every point of a continuum of settings; a test compares finitely many pairs", "anchors": ["src/MuyGPyS/examples/regress.py:regress_any", "src/MuyGPyS/gp/muygps.py:MuyGPS.posterior_mean", "src/MuyGPyS/gp/muygps.py:MuyGPS.posterior_variance", "src/MuyGPyS/gp/kernels/matern.py:Matern", "src/MuyGPyS/gp/kernels/rbf.py:RBF", "src/MuyGPyS/gp/noise/homoscedastic.py:HomoscedasticNoise", "src/MuyGPyS/gp/kernels/experimental/shear.py:ShearKernel"]}
{"id": "C105", "title": "Training has a best model within finite bounds", "statement": "The objective that optimize_from_indices maximizes is a continuous function on the box of bounds, and when the bounds are finite some model within them has the largest leave-one-out value; an optimizer that finds this point makes the call return that model. So training is a well-defined problem: what the documentation promises to approximate exists. The same holds for the experimental shear models trained with mean squared error or pseudo-Huber loss.", "quantifier": "all documented univariate models with positive bounds, all vector losses, all batches and neighbour matrices with well-posed neighbourhoods; both shear models with either noise, any target mask", "why_tests_cant": "existence of a maximum over a continuum of settings", "anchors": ["src/MuyGPyS/examples/from_indices.py:optimize_from_indices", "src/MuyGPyS/optimize/objective.py:make_loo_crossval_fn", "src/MuyGPyS/_src/optimize/chassis/numpy.py:_scipy_optimize", "src/MuyGPyS/gp/hyperparameter/scalar.py:ScalarParam"]}
{"id": "C106", "title": "Predictions survive rounding", "statement": "Predictions computed with inexact arithmetic are close to the exact ones: if every kernel value is off by at most eta and the linear solver leaves residuals of at most delta, prediction still succeeds and the predicted means and variances are off by at most a constant times eta + delta; with noise variance at least nu the constant is explicit and depends only on nu and the number of neighbours, without noise it depends on the training rows.", "quantifier": "all approximate solvers and kernels within the tolerances, all training sets (noise at least nu, or distinct rows), test sets, responses bounded by Y, library kernels", "why_tests_cant": "a test sees one floating-point implementation on finitely many data; the bound concerns every way of being wrong by a small amount", "anchors": ["src/MuyGPyS/_src/gp/muygps/numpy.py:_muygps_posterior_mean", "src/MuyGPyS/_src/gp/muygps/numpy.py:_muygps_diagonal_variance", "src/MuyGPyS/examples/regress.py:regress_any", "src/MuyGPyS/gp/noise/homoscedastic.py:HomoscedasticNoise"]}
{"id": "C107", "title": "The scale estimate is unbiased and the reported variances are calibrated", "statement": "If the responses really have second moments sc times those the model assigns (kernel plus noise), then optimize_scale with AnalyticScale stores an estimate whose expected value is sc, from whatever batch of training rows and neighbour lists it is computed, also with one round of down-sampling; and the variances reported by a regression that follows have, at every test row, exactly the expected squared error of the reported means. optimize_scale fails exactly when all listed responses are zero.", "quantifier": "all exact solvers, finite probability spaces, latent values and responses with the stated second moments, data, library kernels, noise levels, neighbour lists of distinct rows, batch sizes, true scales", "why_tests_cant": "unbiasedness is an identity of expectations over every distribution with the given moments; a simulation only estimates it, for one distribution and one data set", "anchors": ["src/MuyGPyS/_src/optimize/scale/numpy.py:_analytic_scale_optim", "src/MuyGPyS/gp/hyperparameter/scale.py:AnalyticScale", "src/MuyGPyS/gp/hyperparameter/scale.py:DownSampleScale", "src/MuyGPyS/gp/muygps.py:MuyGPS.optimize_scale", "src/MuyGPyS/examples/regress.py:regress_any"]}
{"id": "C108", "title": "Simulated data have the covariance of the model", "statement": "The dense reference GP shipped with the library draws what it says: benchmark_prepare_cholK returns the Cholesky factor of scale * (kernel + noise * identity) over all rows, benchmark_sample and benchmark_sample_full return one response per row (test rows first) whose covariance is that matrix, a repeated row without noise raises LinAlgError, noise-free samples satisfy the assumptions under which the fitted scale is unbiased and variances are calibrated, and get_analytic_scale is y^T K^-1 y / n, which is unbiased for the scale.", "quantifier": "all data sets (vectors and matrices), closed-form library kernels, scalar noise values, scales, exact Cholesky routines and solvers, and white random draws over finite probability spaces", "why_tests_cant": "the covariance of a sampler is a statement about all draws; tests compare a few sample moments with a tolerance", "anchors": ["src/MuyGPyS/_test/gp.py:BenchmarkGP", "src/MuyGPyS/_test/gp.py:benchmark_prepare_cholK", "src/MuyGPyS/_test/gp.py:benchmark_sample", "src/MuyGPyS/_test/gp.py:benchmark_sample_full", "src/MuyGPyS/_test/gp.py:get_analytic_scale"]}
{"id": "C109", "title": "Simulation samplers: split, grids, responses", "statement": "UnivariateSampler and UnivariateSampler2D split their n rows into int(n * train_ratio) training rows, one per block of the shuffled rows, and the complementary test rows; features and responses of either part stay aligned with the rows; the full rows are the equally spaced grid (row i*p+j of the 2-D grid is (x_j, x_i)); sample() returns test responses with the covariance of the prior and training responses with, in addition, independent measurement noise of the given variance; the images show each value at its own grid point; a seed reproduces the split; defaults work.", "quantifier": "all data counts below 2^53, ratios, shuffles, draws, closed-form kernels, prior noise values, measurement noises, exact Cholesky routines, white draws", "why_tests_cant": "the shuffle, the block draws and the normal draws are random; each test sees one of each", "anchors": ["src/MuyGPyS/_test/sampler.py:SamplerBase", "src/MuyGPyS/_test/sampler.py:UnivariateSampler", "src/MuyGPyS/_test/sampler.py:UnivariateSampler2D"]}
{"id": "C110", "title": "The dense shear reference agrees with the library", "statement": "The dense (full-matrix) lensing reference that ships with the library computes, for every pair of points, the six covariances of convergence and shear derived from the Gaussian potential; its flattened matrix is the library's shear kernel matrix reshaped; shapes that do not match are rejected; its 3-to-3 posterior mean and the posterior variance of each test point are the ones the library's shear prediction returns when every training row is a neighbour; its joint posterior covariance of several test points is the Gaussian-process one; the targets it simulates have the prior covariance plus independent measurement noise.", "quantifier": "all pairs of points, all numbers of train and test points, all length scales, noise values, observations, exact solvers and Cholesky routines, all white draws", "why_tests_cant": "tests compare the reference with the library at one configuration; the claim is for every data set, scale and noise", "anchors": ["src/MuyGPyS/_test/shear.py:shear_kernel", "src/MuyGPyS/_test/shear.py:conventional_shear", "src/MuyGPyS/_test/shear.py:conventional_Kout", "src/MuyGPyS/_test/shear.py:conventional_mean", "src/MuyGPyS/_test/shear.py:conventional_variance", "src/MuyGPyS/_test/shear.py:targets_from_GP"]}
{"id": "C111", "title": "Shipped data helpers: samples, labels, normalisation, reference scale", "statement": "_subsample returns the asked number of distinct rows with inputs and outputs aligned; _balanced_subsample returns the asked number of distinct aligned rows with an equal share of every class that occurs; _normalize gives every row norm 1 and keeps its direction; _make_gaussian_dict labels are the classes of its outputs, categorical or not; _get_scale_series lists the analytic scale of each neighbourhood and the library's scale is their mean; the heteroscedastic test nugget acts as constant noise; _sq_rel_err bounds the relative error.", "quantifier": "all data, sample counts below 2^53, fair random draws, class distributions, matrices, kernel tensors, noise values and exact solvers", "why_tests_cant": "the draws are random and every other test of the suite relies on these helpers; none tests them", "anchors": ["src/MuyGPyS/_test/utils.py:_subsample", "src/MuyGPyS/_test/utils.py:_balanced_subsample", "src/MuyGPyS/_test/utils.py:_normalize", "src/MuyGPyS/_test/utils.py:_make_gaussian_dict", "src/MuyGPyS/_test/utils.py:_get_scale_series", "src/MuyGPyS/_test/utils.py:_sq_rel_err", "src/MuyGPyS/_test/utils.py:_make_heteroscedastic_test_nugget"]}
{"id": "C112", "title": "Training is unbiased towards the truth: on data drawn from a candidate model, that candidate has the best expected objective", "statement": "If the training targets are random with the second moments of the model that the optimizer would return for some point of the box (its covariance, its noise, times a scale), the expected value over the data of the training objective (mse; lool with the right fixed scale) is largest at that point: no other length scale, smoothness or noise in the box is preferred on average, and one that does as well has the same objective on all data. The same holds for the mse objective of the weak-lensing models on random surveys.", "quantifier": "all documented models and boxes, training data, batches, neighbour lists, finite probability spaces of targets, exact solvers", "why_tests_cant": "an expectation over all data sets; a simulation with tolerance cannot tell a biased objective from sampling error", "anchors": ["src/MuyGPyS/optimize/objective.py:make_loo_crossval_fn", "src/MuyGPyS/optimize/loss.py:mse_fn", "src/MuyGPyS/optimize/loss.py:lool_fn", "src/MuyGPyS/gp/muygps.py:MuyGPS.posterior_variance", "src/MuyGPyS/examples/from_indices.py:optimize_from_indices", "src/MuyGPyS/_src/gp/kernels/shear/numpy.py"]}
{"id": "C113", "title": "Repeated measurements act as one measurement with pooled noise and averaged response", "statement": "Predicting from neighbours several of which are measurements of the same point gives the same mean and variance as predicting from the distinct points, each with the precision-weighted mean of its measurements as its response and the inverse of the summed precisions as its noise variance. In particular, measuring every training point r times with noise variance nu and asking for r*m neighbours is the same as training on the averages with noise variance nu/r and m neighbours.", "quantifier": "all data sets, groupings, positive noise variances (equal or different per measurement), documented kernels, response shapes, exact solvers and exact neighbour searches, test points without ties", "why_tests_cant": "an identity between two runs on data of different sizes that must hold for every multiplicity pattern and noise", "anchors": ["src/MuyGPyS/gp/muygps.py:MuyGPS.posterior_mean", "src/MuyGPyS/gp/muygps.py:MuyGPS.posterior_variance", "src/MuyGPyS/gp/noise/homoscedastic.py:HomoscedasticNoise.perturb", "src/MuyGPyS/gp/noise/heteroscedastic.py:HeteroscedasticNoise.perturb", "src/MuyGPyS/examples/regress.py:regress_any", "src/MuyGPyS/neighbors.py:NN_Wrapper"]}
{"id": "C114", "title": "A richer model whose extra freedom is not used predicts and trains like the simpler one", "statement": "Two models that describe the same Gaussian process give the same predictions and the same training objective, whichever classes they are built from: an anisotropic kernel with equal length scales is the isotropic one, a Matern kernel of infinite smoothness is the RBF kernel, a length scale given by keyword is the one stored in the model, heteroscedastic noise with equal variances is homoscedastic noise, homoscedastic noise 0 is no noise, and a multivariate model gives for each response column the means of its submodel on that column, with the submodel's variance times its scale. Points of two boxes that describe the same process have the same objective value, so a model whose box contains every process of another model's box reaches an objective value at least as good.", "quantifier": "all data sets, documented kernels, noise models, scales, length scales, response shapes, training batches, vector losses, optimization boxes, exact solvers and exact neighbour searches", "why_tests_cant": "an equality between two different object graphs over all data and all parameter values", "anchors": ["src/MuyGPyS/gp/deformation/isotropy.py:Isotropy", "src/MuyGPyS/gp/deformation/anisotropy.py:Anisotropy", "src/MuyGPyS/gp/kernels/matern.py:Matern", "src/MuyGPyS/gp/kernels/rbf.py:RBF", "src/MuyGPyS/gp/noise/homoscedastic.py:HomoscedasticNoise", "src/MuyGPyS/gp/noise/heteroscedastic.py:HeteroscedasticNoise", "src/MuyGPyS/gp/noise/null.py:NullNoise", "src/MuyGPyS/gp/multivariate_muygps.py:MultivariateMuyGPS", "src/MuyGPyS/examples/regress.py:regress_any", "src/MuyGPyS/optimize/chassis.py:optimize_from_tensors"]}
{"id": "C115", "title": "With the exponential kernel on one feature, predictions from nearest neighbours are exact", "statement": "For data with one feature, a Matern kernel of smoothness 1/2 and no noise, only the closest training row on each side of a test row matters. The prediction is the closed-form bridge between these two rows (or the exponential decay from the closest row when all rows are on one side), so the prediction from n nearest neighbours is that of the full Gaussian process on all training rows wherever the neighbours lie on both sides. Likewise training with a fixed scale has the same objective for every neighbour count that gives each batch row neighbours on both sides, so it is exact leave-one-out cross-validation.", "quantifier": "all one-feature data sets without repeated rows, length scales, scales, response shapes, neighbour counts, exact solvers and exact neighbour searches", "why_tests_cant": "a screening identity that must hold for every configuration of rows, and equality between runs of different neighbour counts", "anchors": ["src/MuyGPyS/gp/kernels/matern.py:Matern", "src/MuyGPyS/gp/muygps.py:MuyGPS.posterior_mean", "src/MuyGPyS/gp/muygps.py:MuyGPS.posterior_variance", "src/MuyGPyS/examples/regress.py:regress_any", "src/MuyGPyS/neighbors.py:NN_Wrapper", "src/MuyGPyS/optimize/objective.py:make_loo_crossval_fn"]}
{"id": "C116", "title": "Functions from the kernel's space are predicted within the predicted standard deviation times their norm, and predictions converge as training rows get close", "statement": "If the responses come from a function of the kernel's own space (a finite combination of kernel functions), up to deviations, the squared error of every predicted mean is at most the predicted variance (over the variance scale) times the squared norm of the function plus the noise-weighted squared deviations of the neighbours' responses. The predicted variance is at most the noise plus six times the distance to the closest training row over the smallest length scale. Hence without noise the prediction error goes to zero, at this rate, as the closest training row approaches, whatever the number of neighbours.", "quantifier": "all functions (number of centres, centres, coefficients), library kernels with closed forms, noise models, data sets, responses, neighbour counts, exact solvers and exact neighbour searches", "why_tests_cant": "an inequality over all functions of an infinite-dimensional space and all data sets; a test samples a few", "anchors": ["src/MuyGPyS/gp/muygps.py:MuyGPS.posterior_mean", "src/MuyGPyS/gp/muygps.py:MuyGPS.posterior_variance", "src/MuyGPyS/gp/kernels/matern.py:Matern", "src/MuyGPyS/gp/kernels/rbf.py:RBF", "src/MuyGPyS/examples/regress.py:regress_any", "src/MuyGPyS/neighbors.py:NN_Wrapper"]}
{"id": "C117", "title": "A prediction call fails exactly when two noise-free nearest neighbours of some row coincide", "statement": "With non-negative noise, a regression call raises LinAlgError if and only if two of the nearest neighbours of some test row have equal features and no noise; then no row gets a prediction. Otherwise every row gets the kriging mean and variance, although training rows may repeat elsewhere. Fast prediction computes coefficients for every training row, so without noise a single repeated training row makes it fail for every test set. Likewise, with fixed noise, two coinciding noise-free neighbours of one row of a training batch make the training objective raise it for every loss and every candidate, so training raises it.", "quantifier": "all training and test data (any number of rows and features, repeated rows allowed), library kernels with closed forms and positive length scales, non-negative noise models, variance scales, responses, neighbour counts, exact solvers and exact neighbour searches", "why_tests_cant": "when a batched solve fails is decided by the geometry of every neighbourhood; a test tries a few data sets, and floating point may hide the singular case", "anchors": ["src/MuyGPyS/gp/muygps.py:MuyGPS.posterior_mean", "src/MuyGPyS/_src/gp/muygps/numpy.py:_muygps_posterior_mean", "src/MuyGPyS/_src/gp/muygps/numpy.py:_muygps_fast_posterior_mean_precompute", "src/MuyGPyS/examples/regress.py:regress_any", "src/MuyGPyS/examples/fast_posterior_mean.py:fast_posterior_mean_any", "src/MuyGPyS/examples/from_indices.py:regress_from_indices", "src/MuyGPyS/examples/from_indices.py:optimize_from_indices"]}
{"id": "C118", "title": "The orientation, handedness, origin and unit of length of the sky do not matter to lensing predictions", "statement": "Turning, reflecting and shifting all positions by one rigid motion, and turning the training observables accordingly (the convergence stays, the two shears turn by twice the angle and the second changes sign in a reflection), turns the predicted means and covariances in the same way, keeps the nearest neighbours, and keeps the squared-error training objective at every candidate, so the same parameters are found. Multiplying positions by a (and length_scale, the squared length, by a^2, noise by a^-4) and observables by c multiplies the means by c and divides the covariances by a^4.", "quantifier": "all rotations, reflections and translations of the plane, all scale factors, training and test sets, responses, neighbour counts, batches (not of one row), length scales, noises and variance scales, the full and the shear-only model, both shear noise models, all candidate parameters and exact solvers", "why_tests_cant": "an error in one of the nine covariance formulas (a sign, a factor) breaks the symmetry for some angle only; tests compare formulas on a few grids", "anchors": ["src/MuyGPyS/_src/gp/kernels/shear/numpy.py:_g1g2_fn", "src/MuyGPyS/gp/kernels/experimental/shear.py:ShearKernel", "src/MuyGPyS/gp/kernels/experimental/shear.py:ShearKernel2in3out", "src/MuyGPyS/gp/noise/shear.py:ShearNoise33"]}
{"id": "C119", "title": "Adding one observation is a Kalman step", "statement": "Predicting from one more neighbour moves the mean by c / (v + nu) times the surprise (the new response minus its own prediction from the old neighbours) and lowers the variance by scale * c^2 / (v + nu), where c is the covariance remaining between test row and new row, v the remaining variance of the new row and nu its noise. So an observation that equals its prediction changes no mean, the squared movement of the mean is exactly paid for by the fall of the variance, and one that leaves the variance unchanged leaves the mean unchanged. Raising the neighbour count of a lookup by one is such a step with the next nearest row.", "quantifier": "all training and test data, library kernels with closed forms, positive hyperparameters, noise models that make the matrices positive definite (heteroscedastic noise included), variance scales, response counts, neighbour lists, exact solvers and exact neighbour searches", "why_tests_cant": "the identity relates three separate calls for every list of neighbours; a test compares a few numbers and an indexing error that affects only the last neighbour can cancel there", "anchors": ["src/MuyGPyS/gp/muygps.py:MuyGPS.posterior_mean", "src/MuyGPyS/gp/muygps.py:MuyGPS.posterior_variance", "src/MuyGPyS/examples/from_indices.py:regress_from_indices", "src/MuyGPyS/examples/regress.py:regress_any"]}
{"id": "C120", "title": "Very long length scales average the neighbours, very short ones forget them", "statement": "With positive noise, as all length scales grow the predictions tend to the precision-weighted sum of the responses of the nearest neighbours divided by one plus the total precision (with homoscedastic noise nu and n neighbours: their sum over n + nu) and the variances to the scale divided by the same; as all length scales shrink, predictions at rows that equal no training row tend to zero and their variances to the scale. Both hold uniformly over all length scales beyond some length, isotropic or not.", "quantifier": "all training and test data, library kernels with closed forms, noise models with positive noise (heteroscedastic included), variance scales, response counts, neighbour counts, tolerances, and all length scales beyond the threshold", "why_tests_cant": "a limit quantifies over all sufficiently large length scales; tests use moderate values, and at extreme values floating point hides the limit", "anchors": ["src/MuyGPyS/gp/muygps.py:MuyGPS.posterior_mean", "src/MuyGPyS/gp/deformation/isotropy.py:Isotropy", "src/MuyGPyS/gp/deformation/anisotropy.py:Anisotropy", "src/MuyGPyS/examples/regress.py:regress_any"]}
{"id": "C121", "title": "Predictions stay within the range of the responses and grow with them", "statement": "Predicted means lie between the least and the greatest response of the training data (or the prior mean 0): in particular non-negative responses give non-negative predictions, and labels in [0, 1] give predictions in [0, 1]; and raising responses lowers no prediction. This holds for the exponential kernel on one feature, with any noise and repeated rows, because all kriging weights are non-negative with total at most 1; with the RBF kernel it fails, without noise, even for two training rows.", "quantifier": "all one-feature training and test data (repeated rows allowed when there is noise), exponential kernels with positive length scale, noise models, responses of any shape and neighbour counts; for the failure, every length scale", "why_tests_cant": "a sign or range of every prediction is a statement about all data sets and noise levels; the random responses of the tests do not show where it holds and where it fails", "anchors": ["src/MuyGPyS/gp/muygps.py:MuyGPS.posterior_mean", "src/MuyGPyS/_src/gp/muygps/numpy.py:_muygps_posterior_mean", "src/MuyGPyS/gp/kernels/matern.py:Matern", "src/MuyGPyS/gp/kernels/rbf.py:RBF", "src/MuyGPyS/examples/regress.py:regress_any"]}
{"id": "C122", "title": "Lensing predictions are best linear predictions", "statement": "A shear model predicts each of the convergence and the two shears by a linear combination of all observations at the neighbours, with weights that depend on positions and parameters only; the weights are the unique ones of least expected squared error, and the reported 3x3 covariance is that of the prediction errors. It is symmetric, positive definite and never exceeds the prior covariance. More neighbours, or observing the convergence in addition to the shears, never increase a variance; more noise never decreases one. Predictions superpose.", "quantifier": "all positions, observables, neighbour lists, length scales, noise variances (homoscedastic or ShearNoise33), scales, both shear models, all competing linear predictors, and all probability spaces with the model's second moments", "why_tests_cant": "optimality compares with every other weight vector, and the orderings compare all pairs of surveys; the tests compare one dense and one batched prediction numerically", "anchors": ["tests/experimental/shear.py", "src/MuyGPyS/gp/kernels/experimental/shear.py:ShearKernel", "src/MuyGPyS/gp/kernels/experimental/shear.py:ShearKernel2in3out", "src/MuyGPyS/gp/noise/shear.py:ShearNoise33", "src/MuyGPyS/gp/muygps.py:MuyGPS.posterior_mean", "src/MuyGPyS/gp/muygps.py:MuyGPS.posterior_variance"]}
{"id": "C123", "title": "Predictions are penalised least-squares fits", "statement": "The predicted mean at a test row is the value there of the one function of the kernel's space that best fits the responses of the row's nearest neighbours: it minimises the squared norm plus the squared deviations from the responses in units of the noise variance, among all functions of the space that take the responses without noise exactly. Without noise it is the interpolant of least norm. With all training rows as neighbours and uniform noise one and the same function gives every prediction. The predicted variance is the largest squared value, per unit of penalised norm, that a function compatible with all-zero responses can take at the test row. The analytic scale estimate is the mean penalised misfit of the best fits of the batch neighbourhoods, per neighbour.", "quantifier": "all data sets, responses of any shape, neighbour counts, documented kernels, noise models and scales, and all competing functions (any finite number of centres anywhere, any coefficients)", "why_tests_cant": "the competing functions form an infinite-dimensional space; the tests compare predictions with numbers", "anchors": ["src/MuyGPyS/examples/regress.py:regress_any", "src/MuyGPyS/gp/muygps.py:MuyGPS.posterior_mean", "src/MuyGPyS/gp/muygps.py:MuyGPS.posterior_variance", "src/MuyGPyS/gp/hyperparameter/scale.py:AnalyticScale"]}
{"id": "C124", "title": "Large noise forgets the data, small noise reproduces it", "statement": "When the noise variances grow, every prediction reverts to the prior at a rate of the number of neighbours over the noise: mean within n Y / nu of 0, variance within the scale times n / nu of the scale. At a test row equal to a training row the variance never exceeds the scale times that row's noise, and the prediction misses the response by at most the root of the noise variance times the penalised norm of any function that fits the responses, so small noise reproduces the training data of a function of the kernel's space. The same holds for the weak-lensing models: with N observations of noise variance nu and largest prior variance h, means within N h Y / nu of 0, covariances within the scale times N h^2 / nu of the prior ones, and at a point where an observable was measured its variance is at most the scale times that observation's noise.", "quantifier": "all data sets, bounded responses of any shape, neighbour counts, documented kernels, noise models (homoscedastic or heteroscedastic) and scales", "why_tests_cant": "limits with explicit rates, uniform over all data sets; tests run a few noise values", "anchors": ["src/MuyGPyS/examples/regress.py:regress_any", "src/MuyGPyS/gp/muygps.py:MuyGPS.posterior_mean", "src/MuyGPyS/gp/muygps.py:MuyGPS.posterior_variance", "src/MuyGPyS/gp/deformation", "src/MuyGPyS/gp/noise", "src/MuyGPyS/_src/gp/kernels/shear/numpy.py"]}
{"id": "C125", "title": "Multivariate models predict every response as well as its own submodel can", "statement": "In a multivariate model every response is predicted, from neighbours shared by all responses, by the best linear combination of its neighbours' responses under its own submodel's kernel and noise (any other combination has a larger mean squared error), which is the value of the best penalised least-squares fit in that kernel's space, and any function of that space is predicted within the root of its penalised misfit times the reported variance (divided by the two factors of scale the library applies). The call raises LinAlgError exactly when, for some submodel, two noise-free nearest neighbours of some test row have equal features; otherwise it returns a mean for every response and a variance for every submodel. Raising the noise of a submodel never lowers a variance, and a lookup with more neighbours never raises one at a row whose distances are not tied. Under large noise, or far from all training rows, every response reverts to its prior at the rates of C124 and C101.", "quantifier": "all lists of documented submodels with different kernels, noise models and scales, data sets with matrix features, response matrices with at least as many columns as submodels, neighbour counts above one, exact nearest-neighbour lookups", "why_tests_cant": "optimality over all linear combinations and over a function space for each response, and an exact characterisation of failure over all data sets; tests compare a few multivariate predictions with a loop", "anchors": ["src/MuyGPyS/gp/multivariate_muygps.py:MultivariateMuyGPS.posterior_mean", "src/MuyGPyS/gp/multivariate_muygps.py:MultivariateMuyGPS.posterior_variance", "src/MuyGPyS/examples/regress.py:regress_any", "src/MuyGPyS/examples/from_indices.py:regress_from_indices"]}
{"id": "C126", "title": "Nearest neighbours are the training rows that matter most", "statement": "Each test row is predicted from the training rows whose latent values are most correlated with its own under the model's kernel, in descending order of correlation, and from the set of neighbours of that size that gives the smallest expected error.", "quantifier": "all univariate models with documented kernels, length scales, noise and data, all neighbour counts, exact nearest-neighbour lookups", "why_tests_cant": "optimality of the selected rows over all other rows and row sets of all data sets; tests check that the lookup returns nearest rows and never relate them to the kernel", "anchors": ["src/MuyGPyS/neighbors.py:NN_Wrapper.get_nns", "src/MuyGPyS/examples/regress.py:regress_any", "src/MuyGPyS/gp/deformation/anisotropy.py:Anisotropy", "src/MuyGPyS/gp/deformation/isotropy.py:Isotropy"]}
{"id": "C127", "title": "The origin of the responses does not matter", "statement": "Adding a constant to every training response adds the same constant to every predicted mean and changes no variance.", "quantifier": "all univariate models with documented kernels, noise and data, all responses and constants, exact nearest-neighbour lookups", "why_tests_cant": "a relation between two runs on all data sets and constants; tests never compare runs on shifted responses", "anchors": ["src/MuyGPyS/gp/muygps.py:MuyGPS.posterior_mean", "src/MuyGPyS/_src/gp/muygps/numpy.py:_muygps_posterior_mean", "src/MuyGPyS/examples/regress.py:regress_any"]}
