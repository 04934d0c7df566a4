# Formal model of LLNL/MuyGPyS in Rocq (Coq 8.16.1)

## 1. Approach

* `/verif/rocq/theories/*.v`, logical name `Verif`.  Shallow Gallina models that mirror the Python
  functions branch by branch; Python exceptions are values (`Err ValueError`, ...).
* Files named `*Model.v` hold definitions only, each with the file and lines of /repo it models and a note where it
  simplifies; `*Spec.v` hold small independent specifications; `*Proofs.v` (and `*Lemmas.v`, `*Facts.v`, ...) the
  lemmas; `*Props.v` the property theorems (`Theorem Cnn_...`, closed by a lemma, followed by `Print Assumptions`) and
  `Example`s showing that concrete non-trivial cases meet the hypotheses.
* A theorem name ending in `_refuted` states, with a witness or for a whole class of inputs, that the code does *not*
  have the property (section 5 lists them); a name ending in `_partial` proves the property under a stated restriction.
* numpy arrays are `nd A = {shape; at_}`; reshape, broadcasting, squeeze, fancy indexing, einsum and matmul are written
  out, so shape coincidences and reshape errors are visible.
* Real numbers: Coq's `R` for kernels, losses and posterior algebra.  Floating-point rounding is not modelled, except
  where a property is about it: the `int(count / size)` of MPI chunking uses Flocq's binary64 rounding, and
  `np.finfo(float).eps` is the real number 2^-52.
* Hyperparameters, reports and equality use `num` (reals plus NaN and infinities) with IEEE comparisons.
* Mutable state is modelled explicitly where a property is about it: the heap of parameter objects (HyperModel,
  NamedModel), closures captured by `_make` and not copied by `deepcopy` (ChassisModel), shared default objects
  (AliasModel), array buffers with views and in-place statements (MemModel), configuration (ConfigModel), and ranks
  exchanging messages under every interleaving (MpiSem).

## 2. Trusted base

1. Coq 8.16.1's kernel and its standard library.
2. Axioms.  `Print Assumptions` follows every theorem; `tools/axioms.py` collects its output into `AXIOMS.md`
   (one line per theorem).  Only axioms of the standard library occur:
   `ClassicalDedekindReals.sig_forall_dec`, `ClassicalDedekindReals.sig_not_dec`,
   `FunctionalExtensionality.functional_extensionality_dep` (all three from `Coq.Reals`) and, in theorems that use
   Coquelicot's limits and integrals or classical case analysis of `Reals`, `Classical_Prop.classic`.
   (`Print Assumptions` shows some constants of the real-number interface, `Rdefinitions.RbaseSymbolsImpl`, as part of a sealed
   module, not as axioms.)
3. Libraries used for definitions and lemmas, none of which adds an axiom: Flocq (rounding), Coquelicot
   (derivatives, integrals, series), mathcomp only through these two.
4. The faithfulness of the model files to the Python sources (section 4), by inspection; nothing is extracted or run.
5. Oracles, i.e. external routines that appear as universally quantified functions with, where needed, explicit hypotheses
   in the theorem statements:
   * `np.linalg.solve`: `lsolver`, with hypothesis `exact_solver` (returns a solution whenever the matrix is
     nonsingular, and only solutions); `Gauss.v` proves that Gaussian elimination over R meets it, so it is satisfiable;
   * `np.linalg.slogdet`; `scipy.special.gamma`, `kv` (with continuity on positive arguments, `continuous_special`, in C104, and with the half-integer identities where the general Matern formula is
     compared with the closed forms); sklearn's `log_loss` clipping constant (and no renormalisation of
     clipped rows, as in sklearn 1.5 and later);
   * sklearn `NearestNeighbors` / hnswlib: any function meeting the documented contract (sorted, the k nearest; sklearn raises ValueError
    on an empty training set, on a query without rows and on zero neighbours);
   * numpy's random generator: any draw in the documented range; `np.random.choice`: any list of the documented shape;
   * scipy `minimize`, bayes_opt: any function of the objective and of the box, returning any point;
   * MPI: point-to-point messages on FIFO channels, buffered or not, every interleaving; collectives as functions of all
     ranks' values; importability of modules and environment variables.

## 3. Per-property plan and result

| Id | Modelled (model files) | How it is proved / what was found |
|----|----------|--------------|
| C01-C04 | `Parameter` over a universe of Python values, NaN/inf numbers, RNG and MPI broadcast (HyperModel) | case analysis; invariant by induction over operation histories; C01 partly and C03 refuted by witnesses |
| C05-C07 | named and vector parameters, `_hyperparameters` dictionaries, kwargs as insertion-ordered dictionaries (NamedModel) | induction over parameter lists |
| C08-C09 | `NamedVectorParameter.__call__`, generated names | injectivity of decimal printing; order of kwargs refutes C08 in general |
| C10-C14 | `_src/gp/noise/numpy.py`, noise classes (NoiseModel, NamedModel) | index calculus, quadratic forms |
| C15-C16 | `_src/gp/tensors/numpy.py`, metrics (TensorModel), `_make_heteroscedastic_tensor`, `_batch_features_tensor` | index calculus, Cauchy-Schwarz |
| C17-C24 | `_src/gp/muygps/numpy.py`, mean/variance wrappers, `MuyGPS` (GPModel, MuyGPSModel) | kriging specification (GPSpec), Schur complement by completing the square, uniqueness of solutions |
| C25-C28 | kernels, deformations, dispatch (KernelModel) | real analysis; PSD of RBF by power series and Schur products |
| C29 | array buffers, views, in-place statements (MemModel) | frame reasoning over a store monad |
| C30-C34, C56 | losses, scale optimization (LossModel, MuyGPSModel) | real analysis; likelihood maximum by the logarithm inequality |
| C35-C36, C57-C58 | chassis, objective, mini-batch (ChassisModel) | arbitrary optimizer outputs; induction over epochs |
| C37-C40 | neighbours and batches (NeighborsModel) | sorted-list specification, permutations |
| C41-C43 | MPI utilities and backends (MpiModel, MpiSem) | arithmetic with binary64 division; confluence over all interleavings; reductions |
| C44 | `MultivariateMuyGPS` (MultiModel) | induction over responses |
| C45 | shared objects (AliasModel) | frame theorem by induction over histories; exact effect of set_params and optimize_scale in every reachable state (AliasProofs2) |
| C46, C60 | fast and ordinary index workflows (FlowModel) | composition with C17/C23 |
| C47-C49 | classification, UQ, drivers (ClassifyModel, DriverModel) | case analysis, grid optimality by induction |
| C50-C51 | configuration state machine, dtype defaulting (ConfigModel) | invariants over histories of update/import/with/try programs |
| C52-C54, C61-C62 | shear kernels and their workflow (ShearModel) | derivatives with Coquelicot, block index calculus, PSD as a limit of difference quotients |
| C55 | hierarchical parameters (HierModel) | composition with kriging |
| C59 | `MuyGPS.__eq__` (EqModel) | case analysis |
| C63-C65 | the library's kernels composed with the whole prediction path (LibSpec over KernelModel, FlowModel, MuyGPSModel) | Matern kernels as mixtures of Gaussians (Coquelicot integrals), Gaussian Gram matrices of distinct points are positive definite by induction over dimensions |
| C66-C70 | jax and torch versions of tensors, kernels, prediction, scale and losses (BackendModel) | congruence with the numpy model, or a witness for each difference |
| C71-C78 | torch layers, deep prediction and training loop (DeepModel); embedding, lookup and optimizer are arbitrary functions | composition with kriging; invariants and a simulation over training iterations; witnesses |
| C79 | lool and looph on (batch, response) arrays with numpy broadcasting (LossModel), the loo objective (ChassisModel) | shape analysis of the broadcast; closed value for every shape that broadcasts; witness with inverted ranking |
| C80 | regress_any, do_regress, classify_any, do_classify (WorkModel) over NeighborsModel, TensorModel, KernelModel, MuyGPSModel | lookup contract => nearest rows; C63 lemmas generalized to any trailing target shape; uniqueness of solutions for row independence |
| C81 | the same | nearest rows are unique without ties; witness with a tie |
| C82 | the same | a training row at distance zero is among its neighbours; its kernel row is a column of the matrix, weights are a unit vector |
| C83 | make_train_tensors, optimize_from_indices and both optimizers (TrainModel over ChassisModel) | C57 identifies the objective with the score of the candidate model; leave-one-out kriging from C63 lemmas; strictly positive variance from the joint positive definite matrix |
| C84 | make_regressor, do_regress with real batch, tensors, optimizer and scale (TrainModel) | batch contract => nearest other rows; composition with C83, C33 and C80 |
| C85 | do_classify_uq with its query, batch, calibration and masks (UqWorkModel) | C35 balanced batch, C47 case split, leave-one-out kriging, grid optimality of C48 |
| C86 | fast_posterior_mean_any, do_fast_posterior_mean with their queries (FastWorkModel) | C37 for all training rows, C46 and C44 lemmas, unit weights at a training row |
| C87 | make_classifier with its balanced batch, tensors, objective and optimizer, then do_classify (ClassTrainModel) | C83 for label matrices with mean losses, C85 batch lemma, C80 classification; empty batches traced to log_loss |
| C88 | make_multivariate_regressor / _classifier with batch, tensors of the first model, the loop over responses in one object store, scale optimization, then do_regress (MultiTrainModel) | store-extension lemmas (training adds objects, changes none), C83 objective on column responses = on vectors for mean losses, C33 scale per column, C80 multivariate prediction |
| C89 | shear objective (kernels at the candidate length scale, candidate noise, mask, loss) on the optimization chassis model, deepcopy of the model object; workflow of tests/experimental/shear.py | objective lemma on top of C61 co-kriging; candidate parameters through optimized_agrees (C26); refutation for as many batch rows as neighbours (C54) |
| C90 | nothing new (workflow of C80); specification of error variance and second moments in BestSpec | completing the square on the kriging system (positive definiteness from C64/C65); Gram factorization of positive semidefinite matrices for the existence of the random variables |
| C91 | nothing new (workflow of C80) | optimality (C90) of the larger neighbourhood against the smaller one's weights padded with zeros; a prefix of the nearest rows is the nearest rows of the smaller lookup |
| C92 | nothing new (workflow of C80); similarity, change of units in SimSpec | nearest rows are preserved by similarities; the kernel value depends only on the ratios of distances and length scales; uniqueness of the kriging solution |
| C93 | nothing new (training of C83/C84); rescaled responses, in_units, compares_only in UnitsSpec | homogeneity of the kriging weights and of the maximum-likelihood scale; candidate_value of C83 on both runs; the optimizer hypothesis transfers the choice |
| C94 | nothing new (workflow of C80); same_nearby, full_matrix in LocalSpec | strictly nearest rows are unique; kriging from a permuted neighbour list equals kriging in data order |
| C95 | nothing new (workflow of C80) | the variance is the minimum over weights of an error variance that is monotone in the noise (C90); positive definiteness of the joint covariance of the test row and its neighbours |
| C96 | nothing new (training of C83, C84); loo_quantities, exact_loo_value in ExactLooSpec | block elimination: the column of A^-1 of a row gives its kriging weights from the others; losses are invariant under permutation of the batch |
| C97 | nothing new (workflow of C80, training of C83, C84); with_scaled, values_only in SimTrainSpec | same neighbours in the same order without ties, same distance tensors up to the factor, same objective values, same optimizer result |
| C98 | nothing new (C47, C87); renumbered, scores_renumbered in RelabelSpec | kriging is linear in the labels, losses sum over the columns, the filtered batch depends on equality of classes only, a sampled batch also on the draws, which are made class by class in the order of the class numbers (same_draws in RelabelSpec relates two samplers); a three-class witness |
| C99 | nothing new; recoded, recoded_scales, recoded_candidate in ColumnsSpec | the deformed distance is a sum over the columns: rsum_perm; then the C92/C97 machinery (equal covariances give equal predictions and losses) |
| C100 | nothing new (C81, C84); same_batch in OrderSpec | the loss and the analytic scale are sums over the batch: rsum_perm along the permutation that matches the two batches; neighbours correspond (no ties); then C81 for the predictions; classifiers by the same matching of balanced batches (RelabelProofs2) |
| C101 | nothing new (C80, C63); far_from, robust in FarSpec | every closed-form kernel satisfies k(d) d <= 6 (exp t >= (1+t/4)^4); the neighbour matrix is coercive (noise, or smallest eigenvalue of the distinct training rows through the inverse); Cauchy-Schwarz; shear: each closed-form covariance is at most 162 / (l D^2) (exp t >= (1+t/3)^3) |
| C102 | nothing new (C80); robust in FarSpec | the kriging weights do not depend on the responses; coercivity gives c |w|^2 <= w.k <= 1, Cauchy-Schwarz bounds the change |
| C103 | nothing new (C80); strictly_nearest in SmoothSpec | every closed-form kernel is Lipschitz in the distance (exp h >= 1+h on steps of at most 1), the distance in the features; predictions rewritten over the neighbourhood as a set; coercivity (C101) bounds the change of the weights; a strict neighbourhood is stable under small moves |
| C104 | nothing new (C80); values_close, noise_close in ContSpec | a small calculus of limits along a neighbourhood filter; every closed-form kernel is continuous in the scaled distance, the distance in the length scales; the inverse of a nonsingular matrix is bounded, so nearby systems stay nonsingular and have nearby solutions (C104_continuous: also the Bessel form, under continuity of scipy's gamma and kv as a hypothesis); coercivity for C104_succeeds; shear predictions: the closed-form covariances are jointly continuous in the length scale and the positions, and solutions of positive definite systems are continuous in matrix and right-hand side |
| C105 | nothing new (C83); finite_bounds, positive_scale in ContSpec | the objective is the leave-one-out formula of the candidate model (C83), each part continuous (C104's calculus); compactness of a finite box by induction on its dimension with completeness of R; unbounded counterexample by computation; for shear models (C89's formula) each closed-form covariance is a continuous function of the length scale |
| C106 | nothing new (C80): the model is parametric in the solver and the kernel functor; rounded_solver, rounded_kernel in RoundSpec | the perturbed matrix stays bounded below by nu - n eta; l1 bounds on the kriging weights and on their change; the model evaluated with an arbitrary solver. Rounding in the last inner product and in the noise addition is not modelled |
| C107 | optimize_scale_from_indices (CalibModel: tensors made from indices, then MuyGPS.optimize_scale); the rest is C80 | linearity of expectation over a finite probability space: the expected quadratic form of K^-1 is sc times a trace of the identity; chained with the regression theorem of C80 and the error variance of C90; moments exist by a Gram factorisation (BestGram) |
| C108 | _test/gp.py: BenchmarkGP, benchmark_prepare_cholK, benchmark_sample(_full, _from_cholK), get_analytic_scale (BenchModel); np.linalg.cholesky is an oracle with the exact_cholesky specification; the normal draws are an argument | an executable Cholesky factorisation by Schur complements is proved exact (so the oracle exists); covariance by linearity of expectation; positive definiteness of the library kernels from KernelPd |
| C109 | _test/sampler.py: SamplerBase.__init__, both samplers' constructors and sample(), get_interval, _make_im (SamplerModel); int() of float products and quotients with Flocq rounding; shuffles and draws are arguments | blocks of a duplicate-free list are disjoint; filtered ranges are sorted; covariance by linearity of expectation from C108; rounding lemma from C41 |
| C110 | _test/shear.py: shear_kernel, conventional_shear, conventional_Kout, the dense mean and variance, targets_from_GP (DenseShearModel) | six formulas compared with the library's by algebra; blocks of the flattened matrix by div/mod index arithmetic; solve uniqueness for the mean; covariance by linearity of expectation from C108 |
| C111 | _test/utils.py: the sampling, labelling, normalising and scale helpers (UtilsModel); random draws are arguments constrained by "without replacement" | disjoint class pools as in C41; square-root algebra; uniqueness of solves and C33 for the scale |
| C112 | no new code: the objective of C83 as a function of random targets (finite probability space with the second moments of a candidate) | means are fixed linear combinations of the targets, variances do not depend on them; best linear prediction (C90) for the expected squared residual; 1 + ln x <= x for the likelihood; the noise case is refuted by explicit algebra with one neighbour; ShearFairProps.v: the same argument for lensing surveys, with the optimality of co-kriging weights (C122) |
| C113 | no new code: two runs of regress_from_indices / regress_any (WorkModel) on the raw and the pooled data | the weights of the pooled system, spread over the measurements in proportion to their precisions, solve the large system (positive definite, so uniquely); nearest rows of the replicated set are the copies of the nearest points by counting |
| C114 | no new code: two runs of regress_any (WorkModel) and two objectives (TrainModel) with models of different classes | the solved systems have equal entries once the covariance functions agree; for training, the parameters that a candidate point gives the two models are followed through the store to the kernel and the noise; the best value of the larger box bounds that of the smaller |
| C115 | no new code: regress_any (WorkModel) with a Matern kernel of smoothness 1/2 on one feature | explicit weights on one or two neighbours solve the whole system (hyperbolic identities); uniqueness of the solution; a nearest row on a side with neighbours is a neighbour |
| C116 | no new code: regress_any (WorkModel) with the library kernels | Cauchy-Schwarz for the kernel through a Gram factor of the centres, the test row and the neighbours; optimality of the weights (C90) against copying the closest neighbour; 1 - 3d <= k(d) for every closed form |
| C117 | no new code: regress_from_indices, regress_any (WorkModel), fast_posterior_mean_any (FastWorkModel) | a vector supported on the noise-free neighbours has a positive quadratic form when they are distinct (positive definiteness of the kernels), all others by the noise; equal rows give a null vector of the matrix; the second nearest of a repeated row is at distance zero; candidates of a training run keep a fixed noise, so their batch matrices stay singular |
| C118 | no new code: shear_posterior, shear_obj_fn (ShearModel, ShearTrainModel); SkySpec: motion, turn, lens | the covariances as polynomials of R2, P, Q times an exponential transform with the orthogonal matrix turn; the stacked matrix is conjugated by turn (x) 1, the noise commutes with it; the weights of the turned problem are the turned weights; uniqueness of solutions; units by homogeneity of degree -4 |
| C119 | no new code: regress_from_indices, regress_any (WorkModel) | bordering: the solution of the (w+1) system from those of two w systems through the Schur complement, positive because the bordered matrix is positive definite; symmetric kernels; under no ties the first n of the n+1 nearest rows are the n nearest |
| C120 | no new code: regress_any (WorkModel) | scaled distances tend to 0, so all covariances to 1; the limit matrix 11^T + noise is coercive with an explicit solution; weights converge by the perturbation bound of C104; the short limit from the explicit rate of C101 with the least distance to a training row |
| C121 | no new code: regress_any, regress_from_indices (WorkModel) | noise-free exponential weights sit on the two closest rows with sinh ratios of total at most 1; leave-one-out rows of the noisy system and a minimum argument make its solution non-negative; the total by symmetry of the matrix; RBF: explicit weights for two rows |
| C122 | no new code: shear_posterior (ShearTrainModel) | error variance written observable by observable and neighbour by neighbour, flattened to a quadratic form; completing the square; the joint matrix of the three observables and all observations is positive semidefinite (C52), which gives the covariance bounds and, by a Gram factor, the probability spaces; zero-padded weights for additional observations |
| C123 | no new code: regress_any (WorkModel), optimize_scale_from_indices (CalibModel) | dual coefficients by the adjoint of the kriging system; excess penalised misfit of a competitor = squared norm of the difference plus its noise-weighted squares at the neighbours; a function of norm zero vanishes by the kernel's Cauchy-Schwarz inequality; the extremal function of the variance is k(x,.) minus its prediction |
| C124 | no new code: regress_any (WorkModel) | coercivity of the kernel matrix under noise bounds the l1 norm of the weights; training residual = noise times dual coefficient, whose weighted square is part of the fit's penalised misfit (C123). ShearNoisyProps.v: the same for the lensing models (weights bounded through coercivity; a single observation as competitor for the best linear predictor of C122). LimitProps.v also holds C120_rate: the weights of the all-ones kernel solve the actual system up to a residual controlled by the kernel near 0 (C116) |
| C125 | no new code: regress_any with a multivariate model (WorkModel, MultiModel) | the column loop succeeds with the univariate kriging of each column or stops at the first failing submodel; per response: optimality of kriging weights (C90), fit and error bound (C116, C123), singularity iff coincidence (C117); MultiOrderProps.v: the variance orders of C91 and C95 for every response; MultiLimitProps.v: the limits of C101 and C124 |
| C126 | no new code: regress_any (WorkModel), lookup (NeighborsModel), deformations (KernelModel) | equal scales: scaled distance is distance over scale and every correlation decreases (C25); single-row predictors compared by completing the square and C90; two witnesses for the rest |
| C127 | no new code: regress_any (WorkModel) | superposition (C102) with responses of all ones, whose prediction is the sum of the kriging weights; one neighbour: the weight is found by completing the square, and is 1 only for equal rows without noise (C25) |

MANIFEST.json lists the theorems and the status of each property.

## 4. What is modelled

Modelled function by function (numpy backend unless said otherwise; paths under /repo/src/MuyGPyS):

| Code | Model |
|------|-------|
| gp/hyperparameter/scalar.py | HyperModel, NamedModel |
| gp/hyperparameter/vector.py, tensor.py | NamedModel |
| gp/hyperparameter/scale.py | MuyGPSModel |
| gp/hyperparameter/experimental/hierarchical.py | HierModel (call, filter, embedding, constructor checks), NamedModel (names) |
| gp/deformation/{isotropy,anisotropy,metric,deformation_fn}.py | KernelModel, TensorModel, HierModel |
| gp/kernels/{kernel_fn,rbf,matern}.py, _src/gp/kernels/numpy.py | KernelModel, NamedModel |
| gp/kernels/experimental/shear.py, _src/gp/kernels/shear/numpy.py | ShearModel |
| gp/noise/*.py, _src/gp/noise/numpy.py | NoiseModel, NamedModel |
| gp/{mean,variance,fast_mean,fast_precompute,muygps}.py, _src/gp/muygps/numpy.py | GPModel, MuyGPSModel, EqModel |
| gp/multivariate_muygps.py | MultiModel |
| gp/tensors.py, _src/gp/tensors/numpy.py | TensorModel |
| _src/optimize/{loss,scale,chassis}/numpy.py, optimize/{loss,objective,chassis,batch}.py | LossModel, GPModel, ChassisModel, NeighborsModel |
| optimize/experimental/chassis.py | ChassisModel (mini_batch) |
| neighbors.py | NeighborsModel |
| _src/mpi_utils.py, _src/gp/tensors/mpi.py, _src/optimize/{loss,scale}/mpi.py | MpiModel |
| _src/config.py, _src/jaxconfig.py (used parts), _src/util.py, _src/math/meta.py | ConfigModel |
| _src/gp/{tensors,kernels,kernels/shear,muygps}/{jax,torch}.py, _src/optimize/{scale,loss,chassis}/{jax,torch}.py | BackendModel (differences from numpy) |
| torch/{muygps_layer,multivariate_muygps_layer}.py, examples/muygps_torch.py | DeepModel |
| _test/{gp,sampler,shear,utils}.py (without plotting and assertion helpers) | BenchModel, SamplerModel, DenseShearModel, UtilsModel |
| _test/{gp,sampler}.py (without plotting) | BenchModel, SamplerModel |

Not modelled: floating-point rounding, overflow and underflow (except the two places above), verbose printing and timing,
type annotations, automatic differentiation and torch optimizers (an arbitrary function of weights and registered parameters), the other test helpers (_test/*.py) and plotting, docs and
scripts; the noise and math modules of jax and torch beyond what BackendModel states.

Simplifications, each repeated at its definition: batched `solve`/`matmul` require equal batch shapes (no caller
passes others); `np.equal` of shapes with one entry broadcast; lool's matrix branch only for (b, n, n) variances; classes as
single-inheritance paths; scale values are single numbers; a NaN scale is reported as `ValueError` instead of being stored;
hnswlib's RuntimeError is reported as ValueError; arrays carry values outside their index range that no theorem observes.

## 5. Findings (refuted claims; each has a theorem)

* Parameters: equal bounds accepted (C03); some invalid arguments raise TypeError instead of ValueError (C01); fixed negative noise
  accepted and optimizable noise may be negative within the 1e-5 tolerance (C13); `VectorParameter.fixed()` is always truthy.
* Anisotropy: keyword length scales are applied in keyword order, not by name (C08).
* Hierarchical vectors: names collide from dimension 10 (C09); `_Kin_higher` is stale after the higher kernel changes and the
  default noise 1e-5 keeps the value off the knots (C55).  Also observed: the named version lacks `_knot_params`, so `.fixed()` raises
  AttributeError; `apply_fn` takes an extra argument; `get_bounds` raises NotImplementedError; the chassis branch for `_knot` calls
  `_update_knot_values`, which does not exist.
* NullNoise: `fixed()` raises AttributeError and `get_opt_params` NotImplementedError (C14).
* posterior_mean raises ValueError when the response count equals the neighbour count (C18); fast prediction loses axes for one row or one
  neighbour (C23).
* Matern: after `set_params` the old formula stays bound (C27); the general formula's substitution of zero distances by 2^-52 gives
  kernel matrices that are not positive semidefinite (C64).
* lool with block variances adds the sign of the determinant and counts the quadratic form twice (C31); `lool_fn_unscaled` cannot be
  optimized, and target masks raise with variance losses (C32; lool is handed the (batch, mask) table of masked variances as one matrix).
* Analytic scale: iterating converges to the square root of the scale (C33); several responses are rejected (C33); the candidate noise is
  ignored while optimizing (C34); zero counts accepted by DownSampleScale (C56).
* A NaN proposal is stored unclamped (C35); mini-batch chassis: missing `init_points`/`n_iter`, zero epochs and anisotropy raise (C58).
* get_batch_nns drops a true neighbour instead of the query when points coincide (C37); labels are truncated to integers (C40);
  an exact lookup raises ValueError on a query without rows, so a batch of size 0 and a prediction of no test rows raise (C39).
* MPI: chunk sizes wrong from 2^53 rows (C41); library metrics scatter twice, unscaled lool recurses forever, cross entropy with an empty rank
  raises, the down-sampled scale is not reduced (C43).
* Multivariate: variance scaled twice, submodels keep the old scale, fast prediction is identically zero (C44).
* Shared defaults: deformation, noise and scale objects are shared between models (C45).
* fast_posterior_mean_any and the documented fast workflow pair coefficients with the wrong neighbours (C46).
* classify: only label column 0 is checked (C47); UQ trains and applies different intervals (C48); tuples rejected by the classifier
  driver (C49).
* Configuration: `update` accepts unchecked combinations, backends can be mixed, leaving a context sets the option to None,
  MUYGPYS_*_ENABLED variables are ignored (C50); positional dtype and `diagonal` raise TypeError (C51).
* Shear: the hyperparameter is the squared length scale (C52); batch = nn is mistaken for pairwise and a batch of one loses its axis
  (C54); the optimizer's variance keeps the prior of the old length scale (C62).
* Equality: RBF == Matern is True while Matern == RBF raises KeyError; NaN and heteroscedastic models are not equal to themselves (C59).
* Backends: jax and torch need two-axis features (crosswise raises, pairwise silently returns the wrong tensor) and jax reads
  clamped rows for invalid indices (C66); jax's general Matern is nan at distance zero, torch has none (C67); jax's five-axis mean
  raises (C68); torch losses sum over one axis only, its cross entropy differs for three classes, block lool raises in both
  (C69); jax's five-axis scale is nn times too large, torch has no optimizers (C70).
* Torch layers: the single layer's variances have shape (batch_count,) (C71); the final lookup may be built from the training-mode embedding
  (C73); refreshed neighbours are assigned to the model, where the layer does not look, so updates have no effect (C74); they
  contain the batch points themselves (C75); noise and multivariate hyperparameters are not trained and bounds are ignored (C76); the
  documented loss "l1" raises (C77); lool raises or uses the wrong axis for the single layer with several responses (C78).
- Likelihood losses on matrix-shaped responses (C79): `variances` is a (batch,) vector, and numpy aligns it with the *response* axis of
  a (batch, response) array.  For (batch, 1) responses -- what make_multivariate_regressor passes for each response -- every residual is
  divided by every variance of the batch; candidates can be ranked in the wrong order.  For 2 <= response_count <> batch_count the
  objective raises ValueError; for response_count = batch_count response j uses the variance of batch element j.  Variances with the
  documented response axis always raise.
- Tied neighbour distances make predictions depend on the order of the training data (C81).
- fast_posterior_mean_any with two neighbours and no noise returns (y_a + y_b) / (1 + k(a, b)) at training row a (C86); multivariate fast
  predictions are identically 0.
- classify_two_class_uq unpacks two feature axes, so one-axis features raise ValueError there only (C85).
- make_classifier raises ValueError (log_loss of an empty batch) when no training row has neighbours of two classes, or when batch_count is
  smaller than the number of classes (C87).
- make_multivariate_classifier's default loss cannot train: it scores each label column alone with cross_entropy_fn, and the softmax of a
  single column is 1 whatever the prediction, so the objective is constant in the hyperparameters (or ValueError when the batch column has
  one label only) (C88).
- multivariate optimize_scale sets a model's scale without rebuilding its closures, so do_regress multiplies a response's variance by its
  new scale times the scale the model was constructed with; fixed models get the square of their scale (C88).
- make_multivariate_regressor builds the difference tensors of the first model's deformation and uses them for all models (C88 assumes
  deformations with the same tensors).
- C89: training a shear model raises at the first evaluation of the objective when the batch has as many rows as neighbours (C54's tensor confusion), for every loss.
- With a fixed scale the likelihood losses (lool, looph) are not invariant: the scale is a variance in the squared unit of the responses, so the ranking of candidates can change with the unit. Hence the analytic-scale hypothesis. The pseudo-Huber boundary is in the unit of the responses and has to be rescaled with them.
- C98: with three or more classes the numbering of the classes changes predictions, because the shortcut of classify_any only looks at the first label column (C47): exchanging the names of classes 0 and 1 turns a shortcut row into a kriged one (C98_three_classes_refuted).
- C103: with fewer neighbours than training rows predictions jump where the set of nearest rows changes (C103_jump_refuted: two rows, one neighbour, the mean jumps by more than 1/2 at the midpoint). This is inherent in nearest-neighbour kriging, not a coding error.
- C105: bounds may be infinite (ScalarParam accepts them), and then there may be no best model: C105_unbounded_refuted has two training rows, one neighbour and an objective that increases strictly with the length scale.
- C106: without noise no bound serves all training sets (C106_ill_conditioned_refuted: with two training rows close enough together a solver with residuals of any size delta > 0 moves a prediction by any amount). The library offers no check of the conditioning; the noise parameter is the only safeguard.
- C11: heteroscedastic noise does not accept an empty batch (IndexError: np.repeat(range(0), nn) is an array of floats), homoscedastic noise does (C11_empty_batch_refuted).
- C107: with iteration_count = 2 the analytic scale has expected value (sc + 1) / 2 instead of sc (C107_iterated_refuted): the second pass averages the first estimate with the estimate for the kernel multiplied by it, which is identically 1.
- C109 (shipped test/tutorial helpers, _test/sampler.py): the measurement noise object, a variance everywhere else, is passed to np.random.normal as a standard deviation (C109_noise_refuted: a model with the same noise object never has the right covariance, unless the value is 0 or 1; C109_matched_noise: its square does); the default train_ratio=10 of UnivariateSampler2D always raises ValueError (C109_default_ratio_refuted); ratios with int(n * ratio) = 0 raise ZeroDivisionError and negative ones give an empty training set (C109_bad_ratio_refuted); the seed does not determine the split because the block elements are drawn from numpy's global generator (C109_seed_refuted).
- C110 (shipped reference, _test/shear.py): conventional_Kout fills each whole test-by-test block with the prior variances, so the dense posterior covariance between two different test points is wrong (C110_joint_covariance_refuted); the per-point entries are right (C110_variance_agrees).
- C111 (shipped helpers, _test/utils.py): _normalize is documented to give rows norm 1 but gives norm sqrt(feature_count) (C111_unit_norm_refuted); _balanced_subsample returns fewer rows than asked whenever the number of classes does not divide the count (C111_balanced_short_refuted), and fails with ZeroDivisionError on no rows (C111_balanced_empty).
- C112 (lool with observation noise, optimize/loss.py lool_fn with MuyGPS.posterior_variance): the leave-one-out likelihood uses the variance of the latent value, 1 - k'K^-1k, for the residual of a noisy observation; the noise of the left-out row is missing. On data drawn from a candidate model with noise nu > 0, candidates with somewhat smaller correlations (shorter length scales) have a strictly larger expected objective than the truth (C112_lool_noise_refuted; with one neighbour and nu >= 1 every shorter length scale does, C112_shorter_length_scale_refuted). mse is unaffected (C112_mse), and so is lool without noise (C112_lool_noiseless).
- C117: one pair of equal noise-free neighbours of one test row makes the whole call raise LinAlgError; without noise one repeated training row makes fast prediction fail whatever the test data; one such pair in the neighbourhood of one batch row makes training fail.
- C121: predictions with the RBF kernel are not confined to the range of the responses: two rows with responses 1 and 0 give a negative prediction beyond the second at every length scale, and overshoots above 3/2 from labels 0 and 1 occur.
- C126 neighbors.py:NN_Wrapper.get_nns measures Euclidean distances between unscaled features and never sees the length scales: with an anisotropic deformation a more strongly correlated row is left out and the variance is larger than with it (C126_anisotropic_refuted). Even with one length scale the nearest n > 1 rows need not be the best n rows: 1 and 11/10 are chosen for the test row 0 although 1 and -2 predict it better (C126_two_refuted).
- C127 gp/muygps.py: the prior mean is zero and nothing centres the responses, so predictions depend on the origin of the responses: with one neighbour the mean moves by the constant times correlation / (1 + noise), i.e. with the constant only at noise-free training rows (C127_one_neighbour_refuted). The variance never changes.

## 6. Testing the theorems

`seeded/LOG.jsonl` records edits of the model that imitate realistic bugs, the claim each breaks, and the theorems that stopped
proving.  Method: in a scratch copy the definition is edited and the project rebuilt; a lemma that no longer checks is
replaced by `Admitted` in the scratch copy so that the build can go on, and a property theorem counts as failed when its proof (transitively)
uses such a lemma.
