{
 "claims": [
  {
   "property": "C01",
   "status": "partial",
   "theorems": [
    "C01_constructor_exact",
    "C01_rejections",
    "C01_always_value_error_refuted",
    "C01_unconvertible_bounds",
    "C01_unconvertible_value"
   ],
   "note": "construction succeeds exactly on the documented arguments and documented types are rejected with ValueError; that every invalid value gives ValueError is refuted (None and generator bounds give TypeError)"
  },
  {
   "property": "C02",
   "status": "proved",
   "theorems": [
    "C02_bounds_invariant"
   ],
   "note": ""
  },
  {
   "property": "C03",
   "status": "partial",
   "theorems": [
    "C03_equal_bounds_accepted_refuted",
    "C03_inverted_bounds_rejected_partial"
   ],
   "note": "strictly inverted bounds are rejected; lower = upper is accepted by the code (refuted)"
  },
  {
   "property": "C04",
   "status": "proved",
   "theorems": [
    "C04_sample_in_bounds",
    "C04_log_sample_in_bounds",
    "C04_mpi_consistent"
   ],
   "note": ""
  },
  {
   "property": "C05",
   "status": "proved",
   "theorems": [
    "C05_opt_params_are_the_free_ones",
    "C05_names_distinct"
   ],
   "note": ""
  },
  {
   "property": "C06",
   "status": "proved",
   "theorems": [
    "C06_fixed_iff_nothing_to_optimize",
    "C06_vector_fixed_refuted"
   ],
   "note": ""
  },
  {
   "property": "C07",
   "status": "proved",
   "theorems": [
    "C07_apply_fn",
    "C07_late_binding",
    "C07_embedding",
    "C07_vector_embedding",
    "C07_vector_apply_fn"
   ],
   "note": ""
  },
  {
   "property": "C08",
   "status": "partial",
   "theorems": [
    "C08_initial_segment_partial",
    "C08_any_subset_refuted",
    "C08_any_order_refuted",
    "C08_deformation_partial",
    "C08_deformation_swapped_refuted"
   ],
   "note": "proved when the keywords name an initial segment of the dimensions in order; refuted for other subsets and orders"
  },
  {
   "property": "C09",
   "status": "partial",
   "theorems": [
    "C09_vector_names_distinct",
    "C09_hierarchical_names_distinct_partial",
    "C09_hierarchical_names_refuted"
   ],
   "note": "flat vector names proved; hierarchical vector names proved below ten dimensions, collision beyond refuted"
  },
  {
   "property": "C10",
   "status": "proved",
   "theorems": [
    "C10_homoscedastic_univariate",
    "C10_homoscedastic_multivariate",
    "C10_other_axes_rejected"
   ],
   "note": ""
  },
  {
   "property": "C11",
   "status": "proved",
   "theorems": [
    "C11_heteroscedastic",
    "C11_empty_batch_refuted",
    "C11_negative_entries_rejected"
   ],
   "note": "addition of the matching variances proved for every size; construction accepts exactly nonnegative tensors; an empty batch raises IndexError (C11_empty_batch_refuted)"
  },
  {
   "property": "C12",
   "status": "proved",
   "theorems": [
    "C12_univariate_prediction_never_singular",
    "C12_multivariate_prediction_never_singular",
    "C12_rbf_model_never_singular"
   ],
   "note": ""
  },
  {
   "property": "C13",
   "status": "partial",
   "theorems": [
    "C13_optimizable_bounds_nonnegative_partial",
    "C13_fixed_negative_refuted",
    "C13_tolerance_negative_refuted"
   ],
   "note": "optimizable noise proved nonnegative up to the code's 1e-5 tolerance; fixed negative noise is accepted (refuted)"
  },
  {
   "property": "C14",
   "status": "partial",
   "theorems": [
    "C14_null_noise_mean",
    "C14_null_noise_mean_defined",
    "C14_null_noise_variance",
    "C14_queries_refuted"
   ],
   "note": "prediction proved; fixed() and get_opt_params on a null-noise model raise (refuted)"
  },
  {
   "property": "C15",
   "status": "proved",
   "theorems": [
    "C15_crosswise",
    "C15_pairwise",
    "C15_selects_unique",
    "C15_crosswise_index_error",
    "C15_pairwise_index_error",
    "C15_heteroscedastic_tensor",
    "C15_batch_features",
    "C15_take_index_error"
   ],
   "note": ""
  },
  {
   "property": "C16",
   "status": "proved",
   "theorems": [
    "C16_pairwise_metric",
    "C16_crosswise_metric",
    "C16_translation_invariant"
   ],
   "note": ""
  },
  {
   "property": "C17",
   "status": "proved",
   "theorems": [
    "C17_posterior_mean_responses",
    "C17_posterior_mean_flat"
   ],
   "note": ""
  },
  {
   "property": "C18",
   "status": "partial",
   "theorems": [
    "C18_response_count_refuted"
   ],
   "note": "refuted: response_count = nn_count always raises ValueError; all other counts proved under C17"
  },
  {
   "property": "C19",
   "status": "proved",
   "theorems": [
    "C19_linear",
    "C19_local"
   ],
   "note": ""
  },
  {
   "property": "C20",
   "status": "proved",
   "theorems": [
    "C20_mean_permutation",
    "C20_variance_permutation",
    "C20_scale_permutation"
   ],
   "note": ""
  },
  {
   "property": "C21",
   "status": "proved",
   "theorems": [
    "C21_variance_bounds",
    "C21_rbf_model_variance"
   ],
   "note": ""
  },
  {
   "property": "C22",
   "status": "proved",
   "theorems": [
    "C22_mean_interpolates",
    "C22_variance_vanishes"
   ],
   "note": ""
  },
  {
   "property": "C23",
   "status": "partial",
   "theorems": [
    "C23_fast_equals_ordinary_partial",
    "C23_fast_equals_ordinary_single_response_partial",
    "C23_fast_defined",
    "C23_one_row_refuted",
    "C23_one_row_shared",
    "C23_one_neighbour_refuted"
   ],
   "note": "proved for batch <> 1 and nn <> 1; refuted for a single row or a single neighbour with several responses"
  },
  {
   "property": "C24",
   "status": "proved",
   "theorems": [
    "C24_mean_scale_invariant",
    "C24_variance_uses_latest_scale",
    "C24_mean_ignores_scale_history"
   ],
   "note": ""
  },
  {
   "property": "C25",
   "status": "proved",
   "theorems": [
    "C25_correlations",
    "C25_closed_forms",
    "C25_rbf_entries",
    "C25_matern_entries"
   ],
   "note": ""
  },
  {
   "property": "C26",
   "status": "proved",
   "theorems": [
    "C26_rbf_gram",
    "C26_rbf_joint"
   ],
   "note": ""
  },
  {
   "property": "C27",
   "status": "partial",
   "theorems": [
    "C27_formula_after_make",
    "C27_general_agrees_with_closed",
    "C27_after_set_params_refuted"
   ],
   "note": "proved after any construction or rebuild; refuted after set_params, which leaves the old formula bound"
  },
  {
   "property": "C28",
   "status": "proved",
   "theorems": [
    "C28_equal_scales",
    "C28_joint_scaling",
    "C28_joint_scaling_crosswise",
    "C28_feature_count_checked"
   ],
   "note": ""
  },
  {
   "property": "C29",
   "status": "proved",
   "theorems": [
    "C29_kernel",
    "C29_noise",
    "C29_noise_result_independent",
    "C29_null_noise_aliases_refuted",
    "C29_objective",
    "C29_objective_looph",
    "C29_general_matern_is_in_place"
   ],
   "note": "memory model with views and in-place statements: kernels, noise models and whole objectives write only memory they allocated; null noise returns the caller's own array (aliasing recorded)"
  },
  {
   "property": "C30",
   "status": "proved",
   "theorems": [
    "C30_mse_formula",
    "C30_mse_nonneg_zero_iff",
    "C30_pseudo_huber_formula",
    "C30_pseudo_huber_bounds",
    "C30_lool_formula",
    "C30_lool_unscaled_formula",
    "C30_lool_scale_minimum",
    "C30_looph_formula",
    "C30_looph_bounds",
    "C30_cross_entropy_formula",
    "C30_cross_entropy_nonneg",
    "C30_cross_entropy_shift",
    "C30_repeated_keyword",
    "C30_ignored_keyword"
   ],
   "note": ""
  },
  {
   "property": "C31",
   "status": "partial",
   "theorems": [
    "C31_lool_block_refuted",
    "C31_lool_block_value"
   ],
   "note": "refuted: the code adds sign and a second quadratic form; its exact value is proved"
  },
  {
   "property": "C32",
   "status": "partial",
   "theorems": [
    "C32_loss_evaluates_partial",
    "C32_lool_unscaled_refuted",
    "C32_target_mask_refuted",
    "C32_looph_mask_refuted",
    "C32_objective_values",
    "C32_target_mask_partial",
    "C32_lool_mask_refuted"
   ],
   "note": "proved for every exported loss except lool_fn_unscaled, which always raises TypeError (refuted); target masks work with the losses on the means and raise with variance losses (refuted: univariate, looph, and lool unless the batch size equals the mask length, a case the model does not follow)"
  },
  {
   "property": "C33",
   "status": "partial",
   "theorems": [
    "C33_analytic_scale_formula",
    "C33_maximizes_likelihood",
    "C33_nonnegative",
    "C33_quadratic_in_targets",
    "C33_optimize_scale",
    "C33_iterated_scale_refuted",
    "C33_two_iterations_refuted",
    "C33_multi_response_refuted"
   ],
   "note": "proved for iteration_count <= 1; refuted for iteration_count >= 2 (converges to the square root) and for several responses"
  },
  {
   "property": "C34",
   "status": "partial",
   "theorems": [
    "C34_scale_ignores_candidate_noise_refuted"
   ],
   "note": "refuted: the noise candidate is ignored"
  },
  {
   "property": "C35",
   "status": "partial",
   "theorems": [
    "C35_new_model",
    "C35_clamped_value",
    "C35_scipy",
    "C35_scipy_succeeds",
    "C35_bayes",
    "C35_nan_refuted"
   ],
   "note": "proved for every proposal; a NaN proposal is stored unclamped (refuted)"
  },
  {
   "property": "C36",
   "status": "proved",
   "theorems": [
    "C36_routed_once",
    "C36_defaults",
    "C36_box_and_probe"
   ],
   "note": ""
  },
  {
   "property": "C37",
   "status": "partial",
   "theorems": [
    "C37_nearest",
    "C37_batch_partial",
    "C37_duplicates_refuted",
    "C37_methods",
    "C37_method_case"
   ],
   "note": "get_nns proved; get_batch_nns proved for data without duplicate points and refuted otherwise (C37_duplicates_refuted)"
  },
  {
   "property": "C38",
   "status": "proved",
   "theorems": [
    "C38_other_metrics",
    "C38_squared",
    "C38_hnsw"
   ],
   "note": ""
  },
  {
   "property": "C39",
   "status": "partial",
   "theorems": [
    "C39_sample_batch",
    "C39_succeeds",
    "C39_empty_batch_refuted"
   ],
   "note": "proved for every batch size from 1; a batch of no points raises with an exact lookup instead of being empty (C39_empty_batch_refuted)"
  },
  {
   "property": "C40",
   "status": "partial",
   "theorems": [
    "C40_nonconstant",
    "C40_class_counts",
    "C40_full",
    "C40_succeeds",
    "C40_fractional_refuted"
   ],
   "note": "counts proved for integer labels; labels are truncated to integers, so fractional labels are refuted"
  },
  {
   "property": "C41",
   "status": "partial",
   "theorems": [
    "C41_sizes",
    "C41_chunks",
    "C41_concatenation",
    "C41_float_division_refuted"
   ],
   "note": "proved for fewer than 2^53 rows and every world size; the floating point division breaks the split beyond (C41_float_division_refuted)"
  },
  {
   "property": "C42",
   "status": "proved",
   "theorems": [
    "C42_scatter",
    "C42_chunk_tensors",
    "C42_terminates"
   ],
   "note": "every world size, interleaving and buffering behaviour; chunk_tensor for fewer than 2^53 rows"
  },
  {
   "property": "C43",
   "status": "partial",
   "theorems": [
    "C43_difference_tensors",
    "C43_deformation_tensors",
    "C43_deformation_disabled",
    "C43_predict_tensors",
    "C43_train_tensors",
    "C43_anisotropic_tensors",
    "C43_library_metrics_refuted",
    "C43_posterior_mean",
    "C43_posterior_variance",
    "C43_mse",
    "C43_pseudo_huber",
    "C43_lool",
    "C43_looph",
    "C43_cross_entropy",
    "C43_cross_entropy_empty_rank_refuted",
    "C43_lool_unscaled_refuted",
    "C43_analytic_scale",
    "C43_downsample_scale_refuted"
   ],
   "note": "tensors (metrics with serial difference functions), predictions, losses and analytic scale proved; refuted: library metrics under mpi, lool unscaled, cross entropy with an empty rank, down-sampled scale"
  },
  {
   "property": "C44",
   "status": "partial",
   "theorems": [
    "C44_posterior_mean",
    "C44_posterior_mean_defined",
    "C44_posterior_mean_raises",
    "C44_posterior_mean_kriging",
    "C44_posterior_variance",
    "C44_posterior_variance_unit_scale_partial",
    "C44_posterior_variance_refuted",
    "C44_optimize_scale",
    "C44_optimize_scale_raises",
    "C44_optimize_scale_count",
    "C44_variance_after_optimize",
    "C44_submodel_variance_refuted",
    "C44_fast_coefficients_always_zero",
    "C44_fast_mean_always_zero",
    "C44_fast_mean_too_many",
    "C44_fast_coefficients_too_many",
    "C44_fast_refuted"
   ],
   "note": "posterior mean and optimized scale values proved; variance proved for unit scale and after optimizing unit-scale models, refuted otherwise (scaled twice); submodels keep the stale scale (refuted); fast prediction is identically zero (refuted)"
  },
  {
   "property": "C45",
   "status": "partial",
   "theorems": [
    "C45_step_frame_partial",
    "C45_history_frame_partial",
    "C45_independent_partial",
    "C45_optimize_copies",
    "C45_bound_reads_reported",
    "C45_set_params_effect",
    "C45_optimize_scale_effect",
    "C45_default_kernels_separate",
    "C45_import_defaults",
    "C45_default_deformation_refuted",
    "C45_default_scale_refuted",
    "C45_noise_array_refuted"
   ],
   "note": "False in general: default-argument objects (deformation, scale, noise) are shared between independently constructed kernels and models, and heteroscedastic noise keeps the caller's array (refuted theorems). Proved for every history: an operation not addressed to one of the model's own objects never changes it; separately built models are independent; optimization copies."
  },
  {
   "property": "C46",
   "status": "partial",
   "theorems": [
    "C46_single_update_workflow",
    "C46_row_count_checked",
    "C46_packaged_workflow_refuted",
    "C46_packaged_value_refuted",
    "C46_docstring_workflow_refuted",
    "C46_docstring_raises_refuted"
   ],
   "note": "Single-update workflow proved to be kriging; the packaged fast_posterior_mean_any and the docstring workflow are refuted (neighbour matrix updated twice). Sizes 1 (one test point, one training row, one neighbour) are excluded because squeeze changes the layout there (see C23)."
  },
  {
   "property": "C47",
   "status": "partial",
   "theorems": [
    "C47_shortcut_partial",
    "C47_agreement_is_detected",
    "C47_two_classes",
    "C47_two_classes_gp",
    "C47_two_class_uq",
    "C47_many_classes_refuted",
    "C47_three_classes_refuted"
   ],
   "note": "proved for two classes; refuted for three or more classes (only label column 0 is checked for constancy)"
  },
  {
   "property": "C48",
   "status": "partial",
   "theorems": [
    "C48_masks",
    "C48_same_interval_refuted",
    "C48_same_centre_refuted",
    "C48_training_interval",
    "C48_same_interval_partial",
    "C48_report",
    "C48_report_bad_mask",
    "C48_cutoffs_on_grid",
    "C48_weighted_cutoff_optimal",
    "C48_counted_cutoff_optimal",
    "C48_perfect_batch"
   ],
   "note": "masks, report and cutoffs proved; 'same interval' refuted: training uses cutoff*sqrt(variance) centred at 0, application uses cutoff*variance centred at mid_value"
  },
  {
   "property": "C49",
   "status": "partial",
   "theorems": [
    "C49_regressor_kind",
    "C49_classifier_kind",
    "C49_count_mismatch",
    "C49_fixed_univariate",
    "C49_fixed_multivariate",
    "C49_mixed_classifier",
    "C49_unfixed_univariate",
    "C49_mixed_regressor",
    "C49_tuple_refuted"
   ],
   "note": "proved except the tuple-input consistency, which is refuted for the classifier driver"
  },
  {
   "property": "C50",
   "status": "partial",
   "theorems": [
    "C50_import",
    "C50_one_backend_per_package",
    "C50_imports_are_final",
    "C50_same_backend",
    "C50_state_is_configuration_partial",
    "C50_update_unchecked_refuted",
    "C50_mixed_backends_refuted",
    "C50_context_manager_refuted",
    "C50_enabled_variables_ignored_refuted",
    "C50_gpu_flag",
    "C50_context_manager_validates",
    "C50_context_manager_accepts"
   ],
   "note": "import behaviour and single-backend dispatch proved for every history of update calls; refuted: update accepts unchecked combinations, mixed per-module backends after update+late import, context-manager exit, MUYGPYS_*_ENABLED ignored"
  },
  {
   "property": "C51",
   "status": "partial",
   "theorems": [
    "C51_explicit_keyword",
    "C51_default",
    "C51_float_type",
    "C51_positional_dtype_refuted",
    "C51_diagonal_refuted",
    "C51_positional_arguments"
   ],
   "note": "explicit keyword, default and configured float type proved; refuted: positional dtype and diagonal raise TypeError"
  },
  {
   "property": "C52",
   "status": "proved",
   "theorems": [
    "C52_full_kernel",
    "C52_shear_only_kernel",
    "C52_shear_cross_kernel",
    "C52_derivatives_exist",
    "C52_symmetric",
    "C52_positive_semidefinite",
    "C52_prior",
    "C52_squared_length_scale",
    "C52_same_length_scale_refuted",
    "C52_candidate_length_scale",
    "C52_candidate_entries",
    "C52_one_feature_rejected"
   ],
   "note": "every block of the three shear kernels is the stated pair of second derivatives in each argument, for all sizes; PSD; note the hyperparameter is the squared length scale"
  },
  {
   "property": "C53",
   "status": "proved",
   "theorems": [
    "C53_shear_noise",
    "C53_shear_noise_rejects"
   ],
   "note": ""
  },
  {
   "property": "C54",
   "status": "partial",
   "theorems": [
    "C54_pairwise",
    "C54_crosswise_partial",
    "C54_square_refuted",
    "C54_square_prediction_raises",
    "C54_three_by_three_wrong_refuted",
    "C54_single_point_refuted",
    "C54_forced_cross",
    "C54_unadjusted",
    "C54_constructor"
   ],
   "note": "pairwise tensors proved; crosswise proved unless batch = nn, batch = 1 or nn = 1; refuted otherwise (silently wrong for 3 points with 3 neighbours)"
  },
  {
   "property": "C55",
   "status": "partial",
   "theorems": [
    "C55_knot_count_checked",
    "C55_value_is_posterior_mean",
    "C55_gaussian_knots_always_defined",
    "C55_at_the_knots",
    "C55_noise_free_interpolates",
    "C55_rbf_uses_row_length_scale",
    "C55_matern_uses_row_length_scale",
    "C55_batch_features_required",
    "C55_default_noise_interpolation_refuted",
    "C55_follows_higher_kernel_refuted"
   ],
   "note": "posterior mean, knot count check and per-row application proved; refuted: the value is stale after the higher-level kernel changes, and the default noise 1e-5 keeps it off the knot values"
  },
  {
   "property": "C56",
   "status": "partial",
   "theorems": [
    "C56_zero_count_no_objective_refuted",
    "C56_downsample_median",
    "C56_downsample_too_many_rejected",
    "C56_zero_count_refuted"
   ],
   "note": "proved; the rejection of zero counts is refuted; C56_zero_count_no_objective_refuted: with zero iterations no likelihood objective has a value"
  },
  {
   "property": "C57",
   "status": "partial",
   "theorems": [
    "C57_objective_is_score_partial",
    "C57_scipy_minimizes_loss"
   ],
   "note": "proved when the optimizable length scales come first and the noise is not optimized together with an analytic scale; otherwise see C08, C34"
  },
  {
   "property": "C58",
   "status": "partial",
   "theorems": [
    "C58_mini_batch_partial",
    "C58_missing_init_points_refuted",
    "C58_missing_n_iter_refuted",
    "C58_zero_epochs_refuted",
    "C58_anisotropy_refuted"
   ],
   "note": "proved for isotropic models or one epoch with init_points and n_iter given; refuted otherwise"
  },
  {
   "property": "C59",
   "status": "partial",
   "theorems": [
    "C59_true_iff",
    "C59_reflexive_partial",
    "C59_symmetric_partial",
    "C59_transitive",
    "C59_symmetry_refuted",
    "C59_missing_hyperparameter",
    "C59_reflexive_nan_refuted",
    "C59_reflexive_heteroscedastic_refuted"
   ],
   "note": "characterization, transitivity, reflexivity without NaN/tensor noise and symmetry for kernels with the same hyperparameter names proved; refuted: RBF == Matern is True while Matern == RBF raises KeyError, NaN and heteroscedastic models are not reflexive"
  },
  {
   "property": "C60",
   "status": "proved",
   "theorems": [
    "C60_posterior_mean_from_indices",
    "C60_posterior_variance_from_indices"
   ],
   "note": ""
  },
  {
   "property": "C61",
   "status": "proved",
   "theorems": [
    "C61_prediction",
    "C61_variance"
   ],
   "note": ""
  },
  {
   "property": "C62",
   "status": "partial",
   "theorems": [
    "C62_rbf_matern",
    "C62_shear_refuted"
   ],
   "note": "true for RBF and Matern; refuted for the shear kernels, whose optimizer variance keeps the prior of the old length scale"
  },
  {
   "property": "C63",
   "status": "proved",
   "theorems": [
    "C63_mean_total",
    "C63_variance_total_and_bounded",
    "C63_fast_workflow_total"
   ],
   "note": ""
  },
  {
   "property": "C64",
   "status": "partial",
   "theorems": [
    "C64_matern_gram",
    "C64_matern_joint",
    "C64_general_smoothness_refuted"
   ],
   "note": "proved for smoothness 1/2, 3/2, 5/2 and infinity in every dimension; refuted for the general formula, whose zero-distance substitution 2^-52 breaks positive semidefiniteness for closer points"
  },
  {
   "property": "C65",
   "status": "proved",
   "theorems": [
    "C65_rbf_gram_pd",
    "C65_matern_gram_pd",
    "C65_noise_free_interpolation"
   ],
   "note": ""
  },
  {
   "property": "C66",
   "status": "partial",
   "theorems": [
    "C66_torch_crosswise",
    "C66_torch_pairwise",
    "C66_jax_crosswise",
    "C66_jax_pairwise",
    "C66_jax_out_of_range_refuted",
    "C66_one_axis_features_refuted"
   ],
   "note": "agreement proved for two-axis features and valid indices; refuted: one-axis features in jax/torch, invalid indices in jax"
  },
  {
   "property": "C67",
   "status": "partial",
   "theorems": [
    "C67_torch_kernels_partial",
    "C67_torch_general_refuted",
    "C67_jax_general_partial",
    "C67_jax_gram_partial",
    "C67_jax_cross_partial",
    "C67_jax_zero_distance_refuted",
    "C67_shear"
   ],
   "note": "closed forms agree; jax general Matern agrees at positive distances; refuted: nan at distance zero, diagonal set to one, torch has no general Matern; two-channel shear kernels exist only in numpy"
  },
  {
   "property": "C68",
   "status": "partial",
   "theorems": [
    "C68_jax_mean",
    "C68_jax_every_response_count",
    "C68_jax_variance",
    "C68_jax_variance_multivariate",
    "C68_jax_multivariate_mean_refuted",
    "C68_jax_multivariate_coincidence",
    "C68_torch",
    "C68_fast"
   ],
   "note": "three-axis means, variances and fast prediction agree (jax even for nn_count responses); five-axis variances agree; refuted: jax five-axis mean raises"
  },
  {
   "property": "C69",
   "status": "partial",
   "theorems": [
    "C69_jax_lool",
    "C69_jax_cross_entropy_partial",
    "C69_torch_vectors",
    "C69_torch_responses_refuted",
    "C69_torch_cross_entropy_two_classes_partial",
    "C69_torch_cross_entropy_three_classes_refuted",
    "C69_block_lool_refuted"
   ],
   "note": "b-vector losses agree in all backends; cross entropy agrees when no probability is clipped (torch: two classes); refuted: torch losses of several responses are vectors, torch cross entropy with three classes, block lool"
  },
  {
   "property": "C70",
   "status": "partial",
   "theorems": [
    "C70_jax_scale",
    "C70_jax_trailing_axis_refuted",
    "C70_jax_multivariate_refuted",
    "C70_torch_scale",
    "C70_torch_optimizers_refuted"
   ],
   "note": "univariate scale agrees (torch: as a one-element array); refuted: jax trailing axis and five-axis normalization, torch optimizers"
  },
  {
   "property": "C71",
   "status": "partial",
   "theorems": [
    "C71_single_layer",
    "C71_multivariate_layer",
    "C71_constructors",
    "C71_variance_shape_refuted",
    "C71_model_forward"
   ],
   "note": "posterior values and constructor checks proved for both layers; refuted: the single layer returns variances of shape (batch_count,)"
  },
  {
   "property": "C72",
   "status": "proved",
   "theorems": [
    "C72_single",
    "C72_multivariate",
    "C72_missing_component"
   ],
   "note": ""
  },
  {
   "property": "C73",
   "status": "partial",
   "theorems": [
    "C73_returned_lookup",
    "C73_evaluation_mode_partial",
    "C73_training_mode_refuted",
    "C73_missing_embedding"
   ],
   "note": "lookup and attributes match the final weights; evaluation-mode embedding only if the last iteration is an update iteration, training-mode otherwise (refuted)"
  },
  {
   "property": "C74",
   "status": "partial",
   "theorems": [
    "C74_update_ignored_refuted",
    "C74_update_frequency_ignored_refuted",
    "C74_layer_differs_refuted"
   ],
   "note": "refuted: the layer keeps its neighbours, the update frequency has no influence on the result"
  },
  {
   "property": "C75",
   "status": "partial",
   "theorems": [
    "C75_self_neighbor_refuted",
    "C75_leak_refuted"
   ],
   "note": "refuted: with an exact lookup the first refreshed neighbour is the batch point itself; such a layer without noise reproduces its own responses"
  },
  {
   "property": "C76",
   "status": "partial",
   "theorems": [
    "C76_frame",
    "C76_bounds_ignored_refuted",
    "C76_out_of_bounds_refuted"
   ],
   "note": "frame proved; refuted: the noise and all multivariate hyperparameters are not trained, bounds are not enforced"
  },
  {
   "property": "C77",
   "status": "partial",
   "theorems": [
    "C77_loss_names",
    "C77_case_insensitive",
    "C77_l1_refuted"
   ],
   "note": "accepted names characterised; refuted: the documented l1 raises ValueError"
  },
  {
   "property": "C78",
   "status": "partial",
   "theorems": [
    "C78_multivariate",
    "C78_single_response",
    "C78_several_responses_refuted",
    "C78_square_responses_refuted",
    "C78_mse"
   ],
   "note": "proved for (b, r) variances and for one response; refuted for the single layer with several responses"
  },
  {
   "property": "C79",
   "status": "partial",
   "theorems": [
    "C79_single_element_partial",
    "C79_column_refuted",
    "C79_column_equal_variances",
    "C79_ranking_refuted",
    "C79_many_responses_refuted",
    "C79_square_refuted",
    "C79_response_variances_refuted",
    "C79_objective_raises_refuted",
    "C79_objective_column_refuted"
   ],
   "note": "true for a batch of one; refuted otherwise: column responses pair every residual with every variance, other response counts raise"
  },
  {
   "property": "C80",
   "status": "partial",
   "theorems": [
    "C80_regress_any",
    "C80_rowwise",
    "C80_multivariate_partial",
    "C80_classify_any",
    "C80_do_regress_fixed",
    "C80_returned_model"
   ],
   "note": "univariate regression, row independence, two-class classification and fixed-model do_regress proved; multivariate variances carry the scale twice (C44); (N, r) targets need r <> nn_count (C18); n <> 2 for two classes for the same reason"
  },
  {
   "property": "C81",
   "status": "partial",
   "theorems": [
    "C81_classify_order",
    "C81_training_order_partial",
    "C81_ties_refuted"
   ],
   "note": "proved for test rows without tied distances (regress_any and classify_any); refuted with ties"
  },
  {
   "property": "C82",
   "status": "proved",
   "theorems": [
    "C82_interpolation"
   ],
   "note": ""
  },
  {
   "property": "C83",
   "status": "proved",
   "theorems": [
    "C83_objective_from_data",
    "C83_tensors_total",
    "C83_scipy_best",
    "C83_bayes_best"
   ],
   "note": ""
  },
  {
   "property": "C84",
   "status": "proved",
   "theorems": [
    "C84_scipy_returns_best",
    "C84_bayes_returns_best",
    "C84_make_regressor",
    "C84_fixed_model",
    "C84_do_regress",
    "C84_do_regress_fixed"
   ],
   "note": ""
  },
  {
   "property": "C85",
   "status": "partial",
   "theorems": [
    "C85_workflow_partial",
    "C85_example_objectives",
    "C85_example_objectives_are",
    "C85_unanimous_never_ambiguous",
    "C85_one_axis_refuted"
   ],
   "note": "proved for two-axis features and neighbour counts other than 2 (a count equal to the two label columns always raises, C18); refuted: one-axis features raise ValueError"
  },
  {
   "property": "C86",
   "status": "partial",
   "theorems": [
    "C86_single_update",
    "C86_coefficients_partial",
    "C86_packaged_refuted",
    "C86_training_row_refuted",
    "C86_multivariate_zero_refuted",
    "C86_multivariate_always_zero_refuted",
    "C86_one_axis_refuted",
    "C86_do_fast"
   ],
   "note": "proved for the workflow composed by hand with one index update, and for the returned coefficients; refuted for fast_posterior_mean_any: coefficients are paired with the wrong rows, multivariate predictions are identically 0, one-axis features raise"
  },
  {
   "property": "C87",
   "status": "partial",
   "theorems": [
    "C87_make_classifier_partial",
    "C87_cross_entropy_true_class",
    "C87_fixed_model",
    "C87_separated_refuted",
    "C87_do_classify_partial"
   ],
   "note": "proved when some training row has neighbours of two classes, batch_count >= number of classes and nn_count <> class count (C18), for the mean losses; refuted: well separated classes (empty batch) raise ValueError"
  },
  {
   "property": "C88",
   "status": "partial",
   "theorems": [
    "C88_make_multivariate_regressor_partial",
    "C88_wrong_responses",
    "C88_fixed_models",
    "C88_do_regress_partial",
    "C88_do_regress_fixed_partial",
    "C88_make_multivariate_classifier_partial",
    "C88_do_classify_partial",
    "C88_default_classifier_loss_refuted",
    "C88_one_label_refuted",
    "C88_scipy_trains",
    "C88_bayes_trains"
   ],
   "note": "proved for the losses of the mean, at least two neighbours and deformations with common tensors; variance factor as coded (new scale times construction scale); refuted: default cross entropy of make_multivariate_classifier; lool and looph on column responses are refuted in C79"
  },
  {
   "property": "C89",
   "status": "partial",
   "theorems": [
    "C89_objective_partial",
    "C89_training_partial",
    "C89_prediction",
    "C89_square_batch_refuted"
   ],
   "note": "Holds for batches of at least two rows whose number differs from the neighbour count (C54): otherwise the objective raises at every candidate (C89_square_batch_refuted). Losses using variances are covered by C31/C62 (refuted)."
  },
  {
   "property": "C90",
   "status": "proved",
   "theorems": [
    "C90_best_linear",
    "C90_mean_squared_error",
    "C90_moments_exist"
   ],
   "note": "regress_any, any response shape with r <> n (C15), every noise model that fits the tensors."
  },
  {
   "property": "C91",
   "status": "proved",
   "theorems": [
    "C91_more_neighbors_indices",
    "C91_more_neighbors"
   ],
   "note": "Null or homoscedastic noise; rows with tied distances are excluded for regress_any because the libraries may then return lists that are not nested (C81)."
  },
  {
   "property": "C92",
   "status": "proved",
   "theorems": [
    "C92_similarity",
    "C92_units_indices",
    "C92_units"
   ],
   "note": "C92_similarity and C92_units: regress_any (rows without ties); C92_units_indices: any unit per feature from given indices."
  },
  {
   "property": "C93",
   "status": "proved",
   "theorems": [
    "C93_objective",
    "C93_ranking",
    "C93_scale",
    "C93_predictions",
    "C93_do_regress"
   ],
   "note": "End-to-end theorem: mse, lool, looph, homoscedastic noise, analytic scale. The objective and ranking theorems also cover pseudo-Huber and fixed scale for the unscaled losses."
  },
  {
   "property": "C94",
   "status": "proved",
   "theorems": [
    "C94_local",
    "C94_append",
    "C94_exact_gp"
   ],
   "note": "C94_local and C94_append: test rows without tied distances (with ties the choice among equidistant rows is unspecified, C81). C94_exact_gp: uniform noise, no restriction on ties."
  },
  {
   "property": "C95",
   "status": "proved",
   "theorems": [
    "C95_noise_monotone",
    "C95_variance_positive",
    "C95_zero_variance"
   ],
   "note": ""
  },
  {
   "property": "C96",
   "status": "proved",
   "theorems": [
    "C96_objective",
    "C96_value_unique",
    "C96_make_regressor"
   ],
   "note": "C96_objective, C96_make_regressor, C96_value_unique. Homoscedastic noise >= 0 and distinct training rows; exact linear solver; the optimizer is any one that returns the best point it tried."
  },
  {
   "property": "C97",
   "status": "proved",
   "theorems": [
    "C97_objective",
    "C97_do_regress",
    "C97_origin"
   ],
   "note": "C97_objective, C97_do_regress, C97_origin. Homoscedastic noise >= 0, distinct untied training rows, exact method; exact linear solver; the optimizer's result is a function of the objective's values in the box."
  },
  {
   "property": "C98",
   "status": "partial",
   "theorems": [
    "C98_objective",
    "C98_make_classifier_partial",
    "C98_two_classes",
    "C98_first_class_kept_partial",
    "C98_predicted_class",
    "C98_make_classifier",
    "C98_do_classify",
    "C98_three_classes_refuted"
   ],
   "note": "Proved: the objective (C98_objective), make_classifier with any batch (C98_make_classifier, sampled or not, when the sampler draws the same rows from each class; C98_make_classifier_partial drops the homoscedastic hypothesis for unsampled batches), classify_any with two classes (C98_two_classes) or when the first class keeps its number (C98_first_class_kept_partial), the predicted class (C98_predicted_class), do_classify in the same two cases (C98_do_classify). Refuted for three classes whose first changes (C98_three_classes_refuted)."
  },
  {
   "property": "C99",
   "status": "proved",
   "theorems": [
    "C99_indices",
    "C99_predictions",
    "C99_objective"
   ],
   "note": "C99_indices (any unit per column, given indices), C99_predictions (regress_any, one unit), C99_objective (training objective at corresponding candidates). Exact linear solver, exact neighbours, sound noise."
  },
  {
   "property": "C100",
   "status": "proved",
   "theorems": [
    "C100_objective",
    "C100_do_regress",
    "C100_make_classifier",
    "C100_do_classify"
   ],
   "note": "C100_objective (any batches that correspond), C100_do_regress, C100_make_classifier and C100_do_classify (end to end, sampled or not). Homoscedastic noise >= 0, distinct untied training rows, exact method; exact linear solver; the optimizer's result is a function of the objective's values in the box; samplers that draw the same rows."
  },
  {
   "property": "C101",
   "status": "proved",
   "theorems": [
    "C101_reverts_to_prior",
    "C101_rate",
    "C101_shear_rate",
    "C101_shear_reverts_to_prior"
   ],
   "note": "C101_reverts_to_prior (uniform limit), C101_rate (explicit bounds under noise). Exact method, exact linear solver, closed-form kernels. Shear models with fixed neighbour lists: C101_shear_rate (inverse square for the means, inverse fourth power for the covariances), C101_shear_reverts_to_prior."
  },
  {
   "property": "C102",
   "status": "proved",
   "theorems": [
    "C102_superposition",
    "C102_stable",
    "C102_stable_rate"
   ],
   "note": "C102_superposition, C102_stable (one constant for all test sets), C102_stable_rate (explicit under noise). Exact method, exact linear solver, closed-form kernels."
  },
  {
   "property": "C103",
   "status": "partial",
   "theorems": [
    "C103_fast",
    "C103_lipschitz",
    "C103_all_neighbours",
    "C103_continuous",
    "C103_jump_refuted"
   ],
   "note": "C103_lipschitz, C103_all_neighbours (n = N), C103_continuous (any n, at rows whose neighbourhood is strict). C103_jump_refuted: not continuous where the neighbourhood changes. Exact method, exact linear solver, closed-form kernels. C103_fast: Hoelder bound for fast prediction among test rows sharing their closest training row."
  },
  {
   "property": "C104",
   "status": "proved",
   "theorems": [
    "C104_continuous",
    "C104_succeeds",
    "C104_shear_continuous"
   ],
   "note": "C104_continuous: wherever the prediction succeeds, every library kernel (the Bessel form and its smoothness included), every noise model, every test row, ties included; assumes scipy's gamma and kv are continuous on positive arguments and gamma does not vanish there (continuous_special). C104_succeeds: with a closed-form kernel and sound noise the prediction does succeed. Exact method, exact linear solver. C104_shear_continuous: shear predictions and covariances with fixed neighbour lists are jointly continuous in the hyperparameters, the positions and the observations."
  },
  {
   "property": "C105",
   "status": "partial",
   "theorems": [
    "C105_objective_continuous",
    "C105_best_exists",
    "C105_best_is_returned",
    "C105_unbounded_refuted",
    "C105_shear_objective_continuous",
    "C105_shear_best_exists",
    "C105_shear_best_is_returned"
   ],
   "note": "C105_objective_continuous, C105_best_exists, C105_best_is_returned for finite bounds. C105_unbounded_refuted: none need exist with an infinite upper bound. Univariate models, one-pass scale, exact linear solver. Shear models (mse and pseudo-Huber): C105_shear_objective_continuous, C105_shear_best_exists, C105_shear_best_is_returned."
  },
  {
   "property": "C106",
   "status": "proved",
   "theorems": [
    "C106_bound",
    "C106_stable",
    "C106_ill_conditioned_refuted"
   ],
   "note": "C106_bound (explicit, noise at least nu), C106_stable (noise at least nu or distinct rows, linear in eta + delta). C106_ill_conditioned_refuted: no uniform bound without noise. The rounding of the final inner product and of the noise addition is not covered; exact method; closed-form kernels."
  },
  {
   "property": "C107",
   "status": "partial",
   "theorems": [
    "C107_unbiased",
    "C107_down_sampled",
    "C107_from_indices",
    "C107_calibrated",
    "C107_iterated_refuted",
    "C107_moments_exist"
   ],
   "note": "C107_unbiased, C107_down_sampled (one round), C107_from_indices (from data, with the exact failure condition), C107_calibrated (variances equal expected squared errors), C107_moments_exist. C107_iterated_refuted: iteration_count = 2 is biased, (sc + 1) / 2. Closed-form kernels, uniform noise, exact neighbour method."
  },
  {
   "property": "C108",
   "status": "proved",
   "theorems": [
    "C108_factor",
    "C108_repeated_row",
    "C108_sample",
    "C108_sample_full",
    "C108_study",
    "C108_single_point",
    "C108_analytic_scale",
    "C108_analytic_scale_unbiased",
    "C108_cholesky_exists",
    "C108_draws_exist"
   ],
   "note": "C108_factor, C108_repeated_row, C108_sample, C108_sample_full, C108_study (composition with C107), C108_analytic_scale, C108_analytic_scale_unbiased; C108_cholesky_exists and C108_draws_exist discharge the oracles. Only second moments of the draws are used (normality is not modelled)."
  },
  {
   "property": "C109",
   "status": "partial",
   "theorems": [
    "C109_split",
    "C109_count",
    "C109_features",
    "C109_grids",
    "C109_univariate",
    "C109_grid",
    "C109_matched_noise",
    "C109_noise_refuted",
    "C109_bad_ratio_refuted",
    "C109_default_ratio_refuted",
    "C109_seed_refuted",
    "C109_negative_noise",
    "C109_interval",
    "C109_image"
   ],
   "note": "C109_split, C109_count, C109_features, C109_grids, C109_univariate, C109_grid, C109_matched_noise, C109_interval, C109_image. Refuted parts: C109_noise_refuted, C109_bad_ratio_refuted, C109_default_ratio_refuted, C109_seed_refuted. Plotting and the kriging-weight figure are not modelled."
  },
  {
   "property": "C110",
   "status": "partial",
   "theorems": [
    "C110_point_kernel",
    "C110_matrix",
    "C110_library_matrix",
    "C110_rejects",
    "C110_mean",
    "C110_mean_agrees",
    "C110_variance_agrees",
    "C110_joint_covariance_refuted",
    "C110_targets",
    "C110_targets_count"
   ],
   "note": "C110_point_kernel, C110_matrix, C110_library_matrix, C110_rejects, C110_mean, C110_mean_agrees, C110_variance_agrees, C110_targets, C110_targets_count. Refuted part: C110_joint_covariance_refuted (entries between different test points)."
  },
  {
   "property": "C111",
   "status": "partial",
   "theorems": [
    "C111_subsample_aligned",
    "C111_subsample_works",
    "C111_balanced",
    "C111_balanced_short_refuted",
    "C111_balanced_empty",
    "C111_normalize",
    "C111_normalize_idempotent",
    "C111_normalize_length",
    "C111_unit_norm_refuted",
    "C111_labels",
    "C111_no_responses",
    "C111_scale_series",
    "C111_scale_series_mismatch",
    "C111_library_scale_is_mean",
    "C111_test_nugget",
    "C111_relative_error"
   ],
   "note": "C111_subsample_aligned, C111_subsample_works, C111_balanced, C111_balanced_empty, C111_normalize, C111_normalize_idempotent, C111_normalize_length, C111_labels, C111_no_responses, C111_scale_series, C111_library_scale_is_mean, C111_test_nugget, C111_relative_error. Refuted parts: C111_unit_norm_refuted, C111_balanced_short_refuted. Rows of zeros in _normalize (nan) are not modelled."
  },
  {
   "property": "C112",
   "status": "partial",
   "theorems": [
    "C112_mse",
    "C112_lool_noiseless",
    "C112_lool_noise_refuted",
    "C112_data_exist",
    "C112_shorter_length_scale_refuted",
    "C112_shear_mse",
    "C112_shear_data_exist"
   ],
   "note": "C112_mse, C112_lool_noiseless, C112_data_exist; for weak-lensing models C112_shear_mse and C112_shear_data_exist. Refuted parts: C112_lool_noise_refuted, C112_shorter_length_scale_refuted (lool omits the noise of the left-out observation). Not covered: lool with an analytic scale, looph and pseudo_huber."
  },
  {
   "property": "C113",
   "status": "proved",
   "theorems": [
    "C113_pooled",
    "C113_replicated"
   ],
   "note": "C113_pooled (any positive noise, at the level of neighbour indices), C113_replicated (whole workflow, each point measured r times)."
  },
  {
   "property": "C114",
   "status": "proved",
   "theorems": [
    "C114_same_covariance",
    "C114_length_scales",
    "C114_smooth_matern",
    "C114_noise",
    "C114_multivariate_columns",
    "C114_multivariate_shared",
    "C114_objective",
    "C114_richer_no_worse"
   ],
   "note": "C114_same_covariance (the general fact), C114_length_scales, C114_smooth_matern, C114_noise, C114_multivariate_columns, C114_multivariate_shared (the second factor of the scale in multivariate variances is the finding of C44), C114_objective, C114_richer_no_worse (for the exact box maximum)."
  },
  {
   "property": "C115",
   "status": "proved",
   "theorems": [
    "C115_closed_form",
    "C115_exact",
    "C115_training"
   ],
   "note": "C115_closed_form, C115_exact (n neighbours against all N), C115_training (the exact leave-one-out objective is C96)."
  },
  {
   "property": "C116",
   "status": "proved",
   "theorems": [
    "C116_error_bound",
    "C116_variance_near",
    "C116_rate",
    "C116_fast_rate"
   ],
   "note": "C116_error_bound, C116_variance_near, C116_rate; C116_fast_rate for fast prediction (single index update, C86)."
  },
  {
   "property": "C117",
   "status": "proved",
   "theorems": [
    "C117_indices",
    "C117_any",
    "C117_fast",
    "C117_objective",
    "C117_training"
   ],
   "note": "C117_indices, C117_any, C117_fast, C117_objective, C117_training. The exact solver fails on singular matrices only; floating point may not notice that a matrix is singular."
  },
  {
   "property": "C118",
   "status": "proved",
   "theorems": [
    "C118_observables",
    "C118_prediction",
    "C118_neighbours",
    "C118_training",
    "C118_units"
   ],
   "note": "C118_prediction, C118_neighbours, C118_training (squared error, no target mask), C118_units; C118_observables ties turn to second derivatives of a moved potential. The pseudo-Huber loss and masks that keep one shear are not invariant and are not claimed."
  },
  {
   "property": "C119",
   "status": "proved",
   "theorems": [
    "C119_step",
    "C119_surprise",
    "C119_lookup"
   ],
   "note": "C119_step (three calls with given neighbours), C119_surprise (identities between the outputs alone), C119_lookup (one more neighbour from the lookup, rows without tied distances)."
  },
  {
   "property": "C120",
   "status": "proved",
   "theorems": [
    "C120_rate",
    "C120_long",
    "C120_homoscedastic",
    "C120_short"
   ],
   "note": "C120_long, C120_homoscedastic (the limit in closed form), C120_short, C120_rate (explicit rate)."
  },
  {
   "property": "C121",
   "status": "partial",
   "theorems": [
    "C121_weights_partial",
    "C121_range_partial",
    "C121_monotone_partial",
    "C121_rbf_negative_refuted",
    "C121_rbf_overshoot_refuted"
   ],
   "note": "C121_weights_partial, C121_range_partial, C121_monotone_partial for the exponential kernel on one feature; C121_rbf_negative_refuted and C121_rbf_overshoot_refuted show that the general claim is false."
  },
  {
   "property": "C122",
   "status": "proved",
   "theorems": [
    "C122_best_linear",
    "C122_mean_squared_error",
    "C122_moments_exist",
    "C122_covariance",
    "C122_more_observations",
    "C122_more_noise",
    "C122_superposition"
   ],
   "note": "C122_best_linear, C122_mean_squared_error, C122_moments_exist, C122_covariance, C122_more_observations, C122_more_noise, C122_superposition."
  },
  {
   "property": "C123",
   "status": "proved",
   "theorems": [
    "C123_fit",
    "C123_interpolant",
    "C123_all_rows",
    "C123_worst_case",
    "C123_scale",
    "C123_fast"
   ],
   "note": "C123_fit, C123_interpolant, C123_all_rows, C123_worst_case, C123_scale, C123_fast (fast prediction evaluates one fixed best fit per training row)."
  },
  {
   "property": "C124",
   "status": "proved",
   "theorems": [
    "C124_noisy",
    "C124_training_error",
    "C124_shear_noisy",
    "C124_shear_observed"
   ],
   "note": "C124_noisy, C124_training_error; for weak-lensing models C124_shear_noisy and C124_shear_observed."
  },
  {
   "property": "C125",
   "status": "proved",
   "theorems": [
    "C125_limits",
    "C125_more_noise",
    "C125_more_neighbors",
    "C125_best_linear",
    "C125_fit",
    "C125_failure"
   ],
   "note": "C125_best_linear, C125_fit, C125_failure. C125_more_noise and C125_more_neighbors compare variances. C125_limits: large noise and far test rows."
  },
  {
   "property": "C126",
   "status": "partial",
   "theorems": [
    "C126_most_correlated_partial",
    "C126_anisotropic_refuted",
    "C126_two_refuted"
   ],
   "note": "Holds for equal length scales: order and selection by correlation, and no single-row predictor is better (C126_most_correlated_partial). Different length scales and sets of several rows: refuted."
  },
  {
   "property": "C127",
   "status": "partial",
   "theorems": [
    "C127_shift_partial",
    "C127_training_rows_partial",
    "C127_one_neighbour_refuted"
   ],
   "note": "The mean moves by a fixed multiple of the constant and the variance not at all (C127_shift_partial); the multiple is 1 at noise-free training rows (C127_training_rows_partial). In general refuted: C127_one_neighbour_refuted."
  }
 ]
}