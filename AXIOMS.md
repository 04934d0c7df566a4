# Axioms per theorem (output of `Print Assumptions`, collected by tools/axioms.py)

Axioms that occur (all from the standard library):

1. `ClassicalDedekindReals.sig_forall_dec` (592 theorems)
2. `ClassicalDedekindReals.sig_not_dec` (415 theorems)
3. `Classical_Prop.classic` (359 theorems)
4. `FunctionalExtensionality.functional_extensionality_dep` (548 theorems)

| Theorem | File | Axioms |
|---|---|---|
| `C01_always_value_error_refuted` | HyperProps.v | 1, 2, 3, 4 |
| `C01_constructor_exact` | HyperProps.v | 1, 2, 3, 4 |
| `C01_rejections` | HyperProps.v | 1, 2, 3, 4 |
| `C01_unconvertible_bounds` | HyperProps.v | 1, 2, 3, 4 |
| `C01_unconvertible_value` | HyperProps.v | 1, 2, 3, 4 |
| `C02_bounds_invariant` | HyperProps.v | 1, 2, 3, 4 |
| `C03_equal_bounds_accepted_refuted` | HyperProps.v | 1, 2, 3, 4 |
| `C03_inverted_bounds_rejected_partial` | HyperProps.v | 1, 2, 3, 4 |
| `C04_log_sample_in_bounds` | HyperProps.v | 1, 2, 3, 4 |
| `C04_mpi_consistent` | HyperProps.v | 1, 2, 3, 4 |
| `C04_sample_in_bounds` | HyperProps.v | 1, 2, 3, 4 |
| `C05_names_distinct` | HyperProps.v | none (closed) |
| `C05_opt_params_are_the_free_ones` | HyperProps.v | none (closed) |
| `C06_fixed_iff_nothing_to_optimize` | HyperProps.v | none (closed) |
| `C06_vector_fixed_refuted` | HyperProps.v | 1 |
| `C07_apply_fn` | HyperProps.v | none (closed) |
| `C07_embedding` | HyperProps.v | none (closed) |
| `C07_late_binding` | HyperProps.v | 1, 2, 3, 4 |
| `C07_vector_apply_fn` | HyperProps.v | 1 |
| `C07_vector_embedding` | HyperProps.v | 1 |
| `C08_any_order_refuted` | HyperProps.v | 1 |
| `C08_any_subset_refuted` | HyperProps.v | 1 |
| `C08_deformation_partial` | KernelProps.v | 1, 2, 4 |
| `C08_deformation_swapped_refuted` | KernelProps.v | 1, 2, 4 |
| `C08_initial_segment_partial` | HyperProps.v | 1 |
| `C09_hierarchical_names_distinct_partial` | HyperProps.v | none (closed) |
| `C09_hierarchical_names_refuted` | HyperProps.v | none (closed) |
| `C09_vector_names_distinct` | HyperProps.v | 1 |
| `C100_do_classify` | OrderProps.v | 1, 2, 3, 4 |
| `C100_do_regress` | OrderProps.v | 1, 2, 3, 4 |
| `C100_make_classifier` | OrderProps.v | 1, 2, 3, 4 |
| `C100_objective` | OrderProps.v | 1, 2, 3, 4 |
| `C101_rate` | FarProps.v | 1, 2, 3, 4 |
| `C101_reverts_to_prior` | FarProps.v | 1, 2, 3, 4 |
| `C101_shear_rate` | ShearFarProps.v | 1, 2, 3, 4 |
| `C101_shear_reverts_to_prior` | ShearFarProps.v | 1, 2, 3, 4 |
| `C102_stable` | FarProps.v | 1, 2, 3, 4 |
| `C102_stable_rate` | FarProps.v | 1, 2, 3, 4 |
| `C102_superposition` | FarProps.v | 1, 2, 3, 4 |
| `C103_all_neighbours` | SmoothProps.v | 1, 2, 3, 4 |
| `C103_continuous` | SmoothProps.v | 1, 2, 3, 4 |
| `C103_fast` | FitProps.v | 1, 2, 3, 4 |
| `C103_jump_refuted` | SmoothProps.v | 1, 2, 3, 4 |
| `C103_lipschitz` | SmoothProps.v | 1, 2, 3, 4 |
| `C104_continuous` | Cont3Props.v | 1, 2, 3, 4 |
| `C104_shear_continuous` | ShearContProps.v | 1, 2, 3, 4 |
| `C104_succeeds` | ContProps.v | 1, 2, 3, 4 |
| `C105_best_exists` | ContProps.v | 1, 2, 3, 4 |
| `C105_best_is_returned` | ContProps.v | 1, 2, 3, 4 |
| `C105_objective_continuous` | ContProps.v | 1, 2, 3, 4 |
| `C105_shear_best_exists` | ShearContProps.v | 1, 2, 3, 4 |
| `C105_shear_best_is_returned` | ShearContProps.v | 1, 2, 3, 4 |
| `C105_shear_objective_continuous` | ShearContProps.v | 1, 2, 3, 4 |
| `C105_unbounded_refuted` | ContProps.v | 1, 2, 3, 4 |
| `C106_bound` | RoundProps.v | 1, 2, 3, 4 |
| `C106_ill_conditioned_refuted` | RoundProps.v | 1, 2, 3, 4 |
| `C106_stable` | RoundProps.v | 1, 2, 3, 4 |
| `C107_calibrated` | CalibProps.v | 1, 2, 3, 4 |
| `C107_down_sampled` | CalibProps.v | 1, 4 |
| `C107_from_indices` | CalibProps.v | 1, 2, 3, 4 |
| `C107_iterated_refuted` | CalibProps.v | 1, 4 |
| `C107_moments_exist` | CalibProps.v | 1, 2, 3, 4 |
| `C107_unbiased` | CalibProps.v | 1, 4 |
| `C108_analytic_scale` | BenchProps.v | 1, 4 |
| `C108_analytic_scale_unbiased` | BenchProps.v | 1, 4 |
| `C108_cholesky_exists` | BenchProps.v | 1, 2, 3, 4 |
| `C108_draws_exist` | BenchProps.v | 1, 2, 4 |
| `C108_factor` | BenchProps.v | 1, 2, 3, 4 |
| `C108_repeated_row` | BenchProps.v | 1, 2, 3, 4 |
| `C108_sample` | BenchProps.v | 1, 2, 3, 4 |
| `C108_sample_full` | BenchProps.v | 1, 2, 3, 4 |
| `C108_single_point` | BenchProps.v | 1, 2, 3, 4 |
| `C108_study` | BenchProps.v | 1, 2, 3, 4 |
| `C109_bad_ratio_refuted` | SamplerProps.v | 1, 2, 3, 4 |
| `C109_count` | SamplerProps.v | 1, 2, 3, 4 |
| `C109_default_ratio_refuted` | SamplerProps.v | 1, 2, 3, 4 |
| `C109_features` | SamplerProps.v | 1, 2, 3, 4 |
| `C109_grid` | SamplerProps.v | 1, 2, 3, 4 |
| `C109_grids` | SamplerProps.v | 1, 4 |
| `C109_image` | SamplerProps.v | 1 |
| `C109_interval` | SamplerProps.v | 1, 4 |
| `C109_matched_noise` | SamplerProps.v | 1, 2, 3, 4 |
| `C109_negative_noise` | SamplerProps.v | 1, 2, 3, 4 |
| `C109_noise_refuted` | SamplerProps.v | 1, 2, 3, 4 |
| `C109_seed_refuted` | SamplerProps.v | 1, 2, 3, 4 |
| `C109_split` | SamplerProps.v | 1, 2, 3, 4 |
| `C109_univariate` | SamplerProps.v | 1, 2, 3, 4 |
| `C10_homoscedastic_multivariate` | GPProps.v | 1, 4 |
| `C10_homoscedastic_univariate` | GPProps.v | 1, 4 |
| `C10_other_axes_rejected` | GPProps.v | 1 |
| `C110_joint_covariance_refuted` | DenseShearProps.v | 1, 2, 3, 4 |
| `C110_library_matrix` | DenseShearProps.v | 1, 2, 3, 4 |
| `C110_matrix` | DenseShearProps.v | 1, 2, 3, 4 |
| `C110_mean` | DenseShearProps.v | 1, 2, 3, 4 |
| `C110_mean_agrees` | DenseShearProps.v | 1, 2, 3, 4 |
| `C110_point_kernel` | DenseShearProps.v | 1, 2, 3, 4 |
| `C110_rejects` | DenseShearProps.v | 1, 2, 4 |
| `C110_targets` | DenseShearProps.v | 1, 2, 3, 4 |
| `C110_targets_count` | DenseShearProps.v | 1, 2, 3, 4 |
| `C110_variance_agrees` | DenseShearProps.v | 1, 2, 3, 4 |
| `C111_balanced` | UtilsProps.v | 1, 2, 3, 4 |
| `C111_balanced_empty` | UtilsProps.v | 1, 2, 3, 4 |
| `C111_balanced_short_refuted` | UtilsProps.v | 1, 2, 3, 4 |
| `C111_labels` | UtilsProps.v | 1, 4 |
| `C111_library_scale_is_mean` | UtilsProps.v | 1, 4 |
| `C111_no_responses` | UtilsProps.v | 1, 4 |
| `C111_normalize` | UtilsProps.v | 1, 2, 4 |
| `C111_normalize_idempotent` | UtilsProps.v | 1, 2, 4 |
| `C111_normalize_length` | UtilsProps.v | 1, 2, 4 |
| `C111_relative_error` | UtilsProps.v | 1, 4 |
| `C111_scale_series` | UtilsProps.v | 1, 4 |
| `C111_scale_series_mismatch` | UtilsProps.v | 1, 4 |
| `C111_subsample_aligned` | UtilsProps.v | 1 |
| `C111_subsample_works` | UtilsProps.v | 1 |
| `C111_test_nugget` | UtilsProps.v | 1, 4 |
| `C111_unit_norm_refuted` | UtilsProps.v | 1, 2, 4 |
| `C112_data_exist` | FairProps.v | 1, 2, 3, 4 |
| `C112_lool_noise_refuted` | FairProps.v | 1, 2, 3, 4 |
| `C112_lool_noiseless` | FairProps.v | 1, 2, 3, 4 |
| `C112_mse` | FairProps.v | 1, 2, 3, 4 |
| `C112_shear_data_exist` | ShearFairProps.v | 1, 2, 3, 4 |
| `C112_shear_mse` | ShearFairProps.v | 1, 2, 3, 4 |
| `C112_shorter_length_scale_refuted` | FairProps.v | 1, 2, 3, 4 |
| `C113_pooled` | DupProps.v | 1, 2, 3, 4 |
| `C113_replicated` | DupProps.v | 1, 2, 3, 4 |
| `C114_length_scales` | SimplerProps.v | 1, 2, 3, 4 |
| `C114_multivariate_columns` | SimplerProps.v | 1, 2, 3, 4 |
| `C114_multivariate_shared` | SimplerProps.v | 1, 2, 3, 4 |
| `C114_noise` | SimplerProps.v | 1, 2, 3, 4 |
| `C114_objective` | SimplerProps.v | 1, 2, 3, 4 |
| `C114_richer_no_worse` | SimplerProps.v | 1, 2, 3, 4 |
| `C114_same_covariance` | SimplerProps.v | 1, 2, 3, 4 |
| `C114_smooth_matern` | SimplerProps.v | 1, 2, 3, 4 |
| `C115_closed_form` | ExpoProps.v | 1, 2, 3, 4 |
| `C115_exact` | ExpoProps.v | 1, 2, 3, 4 |
| `C115_training` | ExpoProps.v | 1, 2, 3, 4 |
| `C116_error_bound` | NativeProps.v | 1, 2, 3, 4 |
| `C116_fast_rate` | NativeProps.v | 1, 2, 3, 4 |
| `C116_rate` | NativeProps.v | 1, 2, 3, 4 |
| `C116_variance_near` | NativeProps.v | 1, 2, 3, 4 |
| `C117_any` | CoincideProps.v | 1, 2, 3, 4 |
| `C117_fast` | CoincideProps.v | 1, 2, 3, 4 |
| `C117_indices` | CoincideProps.v | 1, 2, 3, 4 |
| `C117_objective` | CoincideProps.v | 1, 2, 3, 4 |
| `C117_training` | CoincideProps.v | 1, 2, 3, 4 |
| `C118_neighbours` | SkyProps.v | 1, 4 |
| `C118_observables` | SkyProps.v | 1, 4 |
| `C118_prediction` | SkyProps.v | 1, 2, 3, 4 |
| `C118_training` | SkyProps.v | 1, 2, 3, 4 |
| `C118_units` | SkyProps.v | 1, 2, 3, 4 |
| `C119_lookup` | StepProps.v | 1, 2, 3, 4 |
| `C119_step` | StepProps.v | 1, 2, 3, 4 |
| `C119_surprise` | StepProps.v | 1, 2, 3, 4 |
| `C11_empty_batch_refuted` | GPProps.v | 1, 4 |
| `C11_heteroscedastic` | GPProps.v | 1, 4 |
| `C11_negative_entries_rejected` | HyperProps.v | 1, 4 |
| `C120_homoscedastic` | LongProps.v | 1, 4 |
| `C120_long` | LongProps.v | 1, 2, 3, 4 |
| `C120_rate` | LimitProps.v | 1, 2, 3, 4 |
| `C120_short` | LongProps.v | 1, 2, 3, 4 |
| `C121_monotone_partial` | RangeProps.v | 1, 2, 3, 4 |
| `C121_range_partial` | RangeProps.v | 1, 2, 3, 4 |
| `C121_rbf_negative_refuted` | RangeProps.v | 1, 2, 3, 4 |
| `C121_rbf_overshoot_refuted` | RangeProps.v | 1, 2, 3, 4 |
| `C121_weights_partial` | RangeProps.v | 1, 2, 3, 4 |
| `C122_best_linear` | ShearBestProps.v | 1, 2, 3, 4 |
| `C122_covariance` | ShearBestProps.v | 1, 2, 3, 4 |
| `C122_mean_squared_error` | ShearBestProps.v | 1, 2, 3, 4 |
| `C122_moments_exist` | ShearBestProps.v | 1, 2, 3, 4 |
| `C122_more_noise` | ShearBestProps.v | 1, 2, 3, 4 |
| `C122_more_observations` | ShearBestProps.v | 1, 2, 3, 4 |
| `C122_superposition` | ShearBestProps.v | 1, 2, 3, 4 |
| `C123_all_rows` | FitProps.v | 1, 2, 3, 4 |
| `C123_fast` | FitProps.v | 1, 2, 3, 4 |
| `C123_fit` | FitProps.v | 1, 2, 3, 4 |
| `C123_interpolant` | FitProps.v | 1, 2, 3, 4 |
| `C123_scale` | FitProps.v | 1, 2, 3, 4 |
| `C123_worst_case` | FitProps.v | 1, 2, 3, 4 |
| `C124_noisy` | LimitProps.v | 1, 2, 3, 4 |
| `C124_shear_noisy` | ShearNoisyProps.v | 1, 2, 3, 4 |
| `C124_shear_observed` | ShearNoisyProps.v | 1, 2, 3, 4 |
| `C124_training_error` | LimitProps.v | 1, 2, 3, 4 |
| `C125_best_linear` | MultiwiseProps.v | 1, 2, 3, 4 |
| `C125_failure` | MultiwiseProps.v | 1, 2, 3, 4 |
| `C125_fit` | MultiwiseProps.v | 1, 2, 3, 4 |
| `C125_limits` | MultiLimitProps.v | 1, 2, 3, 4 |
| `C125_more_neighbors` | MultiOrderProps.v | 1, 2, 3, 4 |
| `C125_more_noise` | MultiOrderProps.v | 1, 2, 3, 4 |
| `C126_anisotropic_refuted` | NearCorrProps.v | 1, 2, 3, 4 |
| `C126_most_correlated_partial` | NearCorrProps.v | 1, 2, 3, 4 |
| `C126_two_refuted` | NearCorrProps.v | 1, 2, 3, 4 |
| `C127_one_neighbour_refuted` | OriginProps.v | 1, 2, 3, 4 |
| `C127_shift_partial` | OriginProps.v | 1, 2, 3, 4 |
| `C127_training_rows_partial` | OriginProps.v | 1, 2, 3, 4 |
| `C12_multivariate_prediction_never_singular` | GPProps.v | 1, 4 |
| `C12_rbf_model_never_singular` | KernelProps.v | 1, 2, 4 |
| `C12_univariate_prediction_never_singular` | GPProps.v | 1, 4 |
| `C13_fixed_negative_refuted` | HyperProps.v | 1 |
| `C13_optimizable_bounds_nonnegative_partial` | HyperProps.v | 1, 2, 3, 4 |
| `C13_tolerance_negative_refuted` | HyperProps.v | 1, 2, 3, 4 |
| `C14_null_noise_mean` | GPProps.v | 1, 4 |
| `C14_null_noise_mean_defined` | GPProps.v | 1, 4 |
| `C14_null_noise_variance` | GPProps.v | 1, 4 |
| `C14_queries_refuted` | HyperProps.v | none (closed) |
| `C15_batch_features` | TensorProps.v | none (closed) |
| `C15_crosswise` | TensorProps.v | 1 |
| `C15_crosswise_index_error` | TensorProps.v | 1 |
| `C15_heteroscedastic_tensor` | TensorProps.v | none (closed) |
| `C15_pairwise` | TensorProps.v | 1 |
| `C15_pairwise_index_error` | TensorProps.v | 1 |
| `C15_selects_unique` | TensorProps.v | none (closed) |
| `C15_take_index_error` | TensorProps.v | none (closed) |
| `C16_crosswise_metric` | TensorProps.v | 1, 2, 4 |
| `C16_pairwise_metric` | TensorProps.v | 1, 2, 4 |
| `C16_translation_invariant` | TensorProps.v | 1, 2, 4 |
| `C17_posterior_mean_flat` | GPProps.v | 1, 4 |
| `C17_posterior_mean_responses` | GPProps.v | 1, 4 |
| `C18_response_count_refuted` | GPProps.v | 1 |
| `C19_linear` | GPProps.v | 1, 4 |
| `C19_local` | GPProps.v | 1, 4 |
| `C20_mean_permutation` | GPProps.v | 1, 4 |
| `C20_scale_permutation` | ScaleProps.v | 1, 4 |
| `C20_variance_permutation` | GPProps.v | 1, 4 |
| `C21_rbf_model_variance` | KernelProps.v | 1, 2, 4 |
| `C21_variance_bounds` | GPProps.v | 1, 4 |
| `C22_mean_interpolates` | GPProps.v | 1, 4 |
| `C22_variance_vanishes` | GPProps.v | 1, 4 |
| `C23_fast_defined` | GPProps.v | 1, 4 |
| `C23_fast_equals_ordinary_partial` | GPProps.v | 1, 4 |
| `C23_fast_equals_ordinary_single_response_partial` | GPProps.v | 1, 4 |
| `C23_one_neighbour_refuted` | GPProps.v | 1, 4 |
| `C23_one_row_refuted` | GPProps.v | 1, 4 |
| `C23_one_row_shared` | GPProps.v | 1, 4 |
| `C24_mean_ignores_scale_history` | GPProps.v | 1, 4 |
| `C24_mean_scale_invariant` | GPProps.v | 1, 4 |
| `C24_variance_uses_latest_scale` | GPProps.v | 1, 4 |
| `C25_closed_forms` | KernelProps.v | 1, 2, 4 |
| `C25_correlations` | KernelProps.v | 1, 2, 3, 4 |
| `C25_matern_entries` | KernelProps.v | 1, 2, 3, 4 |
| `C25_rbf_entries` | KernelProps.v | 1, 2, 3, 4 |
| `C26_rbf_gram` | KernelProps.v | 1, 2, 4 |
| `C26_rbf_joint` | KernelProps.v | 1, 2, 4 |
| `C27_after_set_params_refuted` | KernelProps.v | 1, 2, 3, 4 |
| `C27_formula_after_make` | KernelProps.v | 1, 2, 3, 4 |
| `C27_general_agrees_with_closed` | KernelProps.v | 1, 2, 3, 4 |
| `C28_equal_scales` | KernelProps.v | 1, 2, 4 |
| `C28_feature_count_checked` | KernelProps.v | 1, 2, 4 |
| `C28_joint_scaling` | KernelProps.v | 1, 2, 4 |
| `C28_joint_scaling_crosswise` | KernelProps.v | 1, 2, 4 |
| `C29_general_matern_is_in_place` | MemProps.v | 1, 2, 3, 4 |
| `C29_kernel` | MemProps.v | 1, 2, 3, 4 |
| `C29_noise` | MemProps.v | 1 |
| `C29_noise_result_independent` | MemProps.v | 1 |
| `C29_null_noise_aliases_refuted` | MemProps.v | 1 |
| `C29_objective` | MemProps.v | 1, 2, 3, 4 |
| `C29_objective_looph` | MemProps.v | 1, 2, 3, 4 |
| `C30_cross_entropy_formula` | LossProps.v | 1, 2, 3, 4 |
| `C30_cross_entropy_nonneg` | LossProps.v | 1, 2, 3, 4 |
| `C30_cross_entropy_shift` | LossProps.v | 1, 2, 3, 4 |
| `C30_ignored_keyword` | LossProps.v | 1, 2, 3, 4 |
| `C30_lool_formula` | LossProps.v | 1, 2, 3, 4 |
| `C30_lool_scale_minimum` | LossProps.v | 1, 2, 3, 4 |
| `C30_lool_unscaled_formula` | LossProps.v | 1, 2, 3, 4 |
| `C30_looph_bounds` | LossProps.v | 1, 2, 3, 4 |
| `C30_looph_formula` | LossProps.v | 1, 2, 3, 4 |
| `C30_mse_formula` | LossProps.v | 1, 4 |
| `C30_mse_nonneg_zero_iff` | LossProps.v | 1, 4 |
| `C30_pseudo_huber_bounds` | LossProps.v | 1, 2, 4 |
| `C30_pseudo_huber_formula` | LossProps.v | 1, 2, 4 |
| `C30_repeated_keyword` | LossProps.v | 1, 2, 3, 4 |
| `C31_lool_block_refuted` | LossProps.v | 1, 2, 3, 4 |
| `C31_lool_block_value` | LossProps.v | 1, 2, 3, 4 |
| `C32_lool_mask_refuted` | LossProps.v | 1, 2, 3, 4 |
| `C32_lool_unscaled_refuted` | LossProps.v | none (closed) |
| `C32_looph_mask_refuted` | LossProps.v | 1, 2, 3, 4 |
| `C32_loss_evaluates_partial` | LossProps.v | 1, 2, 3, 4 |
| `C32_objective_values` | LossProps.v | 1, 2, 3, 4 |
| `C32_target_mask_partial` | LossProps.v | 1, 2, 3, 4 |
| `C32_target_mask_refuted` | LossProps.v | 1, 2, 3, 4 |
| `C33_analytic_scale_formula` | ScaleProps.v | 1, 4 |
| `C33_iterated_scale_refuted` | ScaleProps.v | 1, 2, 4 |
| `C33_maximizes_likelihood` | ScaleProps.v | 1, 2, 3, 4 |
| `C33_multi_response_refuted` | ScaleProps.v | 1, 4 |
| `C33_nonnegative` | ScaleProps.v | 1, 4 |
| `C33_optimize_scale` | ScaleProps.v | 1, 4 |
| `C33_quadratic_in_targets` | ScaleProps.v | 1, 4 |
| `C33_two_iterations_refuted` | ScaleProps.v | 1, 4 |
| `C34_scale_ignores_candidate_noise_refuted` | ScaleProps.v | 1, 4 |
| `C35_bayes` | ChassisProps.v | 1, 2, 3, 4 |
| `C35_clamped_value` | ChassisProps.v | 1, 4 |
| `C35_nan_refuted` | ChassisProps.v | 1 |
| `C35_new_model` | ChassisProps.v | 1, 2, 3, 4 |
| `C35_scipy` | ChassisProps.v | 1, 2, 3, 4 |
| `C35_scipy_succeeds` | ChassisProps.v | 1, 2, 3, 4 |
| `C36_box_and_probe` | ChassisProps.v | none (closed) |
| `C36_defaults` | ChassisProps.v | none (closed) |
| `C36_routed_once` | ChassisProps.v | none (closed) |
| `C37_batch_partial` | NeighborsProps.v | 1, 2, 4 |
| `C37_duplicates_refuted` | NeighborsProps.v | 1, 2, 4 |
| `C37_method_case` | NeighborsProps.v | 1 |
| `C37_methods` | NeighborsProps.v | 1 |
| `C37_nearest` | NeighborsProps.v | 1, 2, 4 |
| `C38_hnsw` | NeighborsProps.v | 1, 4 |
| `C38_other_metrics` | NeighborsProps.v | 1, 2, 4 |
| `C38_squared` | NeighborsProps.v | 1, 2, 4 |
| `C39_empty_batch_refuted` | NeighborsProps.v | 1, 4 |
| `C39_sample_batch` | NeighborsProps.v | 1, 4 |
| `C39_succeeds` | NeighborsProps.v | 1, 4 |
| `C40_class_counts` | NeighborsProps.v | 1, 4 |
| `C40_fractional_refuted` | NeighborsProps.v | 1, 4 |
| `C40_full` | NeighborsProps.v | 1, 4 |
| `C40_nonconstant` | NeighborsProps.v | 1, 4 |
| `C40_succeeds` | NeighborsProps.v | 1, 2, 4 |
| `C41_chunks` | MpiProps.v | 1, 2, 3, 4 |
| `C41_concatenation` | MpiProps.v | 1 |
| `C41_float_division_refuted` | MpiProps.v | 1, 2, 3, 4 |
| `C41_sizes` | MpiProps.v | 1, 2, 3, 4 |
| `C42_chunk_tensors` | MpiProps.v | 1, 2, 3, 4 |
| `C42_scatter` | MpiProps.v | none (closed) |
| `C42_terminates` | MpiProps.v | none (closed) |
| `C43_analytic_scale` | MpiProps.v | 1, 4 |
| `C43_anisotropic_tensors` | MpiProps.v | 1, 2, 3, 4 |
| `C43_cross_entropy` | MpiProps.v | 1, 2, 3, 4 |
| `C43_cross_entropy_empty_rank_refuted` | MpiProps.v | 1, 2, 3, 4 |
| `C43_deformation_disabled` | MpiProps.v | 1, 2, 3, 4 |
| `C43_deformation_tensors` | MpiProps.v | 1, 2, 3, 4 |
| `C43_difference_tensors` | MpiProps.v | 1, 2, 3, 4 |
| `C43_downsample_scale_refuted` | MpiProps.v | 1, 4 |
| `C43_library_metrics_refuted` | MpiProps.v | 1, 2, 3, 4 |
| `C43_lool` | MpiProps.v | 1, 2, 3, 4 |
| `C43_lool_unscaled_refuted` | MpiProps.v | none (closed) |
| `C43_looph` | MpiProps.v | 1, 2, 3, 4 |
| `C43_mse` | MpiProps.v | 1, 4 |
| `C43_posterior_mean` | MpiProps.v | 1, 4 |
| `C43_posterior_variance` | MpiProps.v | 1, 4 |
| `C43_predict_tensors` | MpiProps.v | 1, 2, 3, 4 |
| `C43_pseudo_huber` | MpiProps.v | 1, 2, 4 |
| `C43_train_tensors` | MpiProps.v | 1, 2, 3, 4 |
| `C44_fast_coefficients_always_zero` | MultiProps.v | 1 |
| `C44_fast_coefficients_too_many` | MultiProps.v | 1 |
| `C44_fast_mean_always_zero` | MultiProps.v | 1, 4 |
| `C44_fast_mean_too_many` | MultiProps.v | 1 |
| `C44_fast_refuted` | MultiProps.v | 1, 4 |
| `C44_optimize_scale` | MultiProps.v | 1, 4 |
| `C44_optimize_scale_count` | MultiProps.v | 1, 4 |
| `C44_optimize_scale_raises` | MultiProps.v | 1, 4 |
| `C44_posterior_mean` | MultiProps.v | 1 |
| `C44_posterior_mean_defined` | MultiProps.v | 1 |
| `C44_posterior_mean_kriging` | MultiProps.v | 1, 4 |
| `C44_posterior_mean_raises` | MultiProps.v | 1 |
| `C44_posterior_variance` | MultiProps.v | 1, 4 |
| `C44_posterior_variance_refuted` | MultiProps.v | 1, 4 |
| `C44_posterior_variance_unit_scale_partial` | MultiProps.v | 1, 4 |
| `C44_submodel_variance_refuted` | MultiProps.v | 1, 4 |
| `C44_variance_after_optimize` | MultiProps.v | 1, 4 |
| `C45_bound_reads_reported` | AliasProps.v | 1, 2, 3, 4 |
| `C45_default_deformation_refuted` | AliasProps.v | 1, 2, 3, 4 |
| `C45_default_kernels_separate` | AliasProps.v | 1, 2, 3, 4 |
| `C45_default_scale_refuted` | AliasProps.v | 1, 2, 3, 4 |
| `C45_history_frame_partial` | AliasProps.v | 1, 2, 3, 4 |
| `C45_import_defaults` | AliasProps.v | 1, 2, 3, 4 |
| `C45_independent_partial` | AliasProps.v | 1, 2, 3, 4 |
| `C45_noise_array_refuted` | AliasProps.v | 1, 2, 3, 4 |
| `C45_optimize_copies` | AliasProps.v | 1, 2, 3, 4 |
| `C45_optimize_scale_effect` | AliasProps.v | 1, 2, 3, 4 |
| `C45_set_params_effect` | AliasProps.v | 1, 2, 3, 4 |
| `C45_step_frame_partial` | AliasProps.v | 1, 2, 3, 4 |
| `C46_docstring_raises_refuted` | FlowProps.v | 1, 4 |
| `C46_docstring_workflow_refuted` | FlowProps.v | 1, 4 |
| `C46_packaged_value_refuted` | FlowProps.v | 1, 4 |
| `C46_packaged_workflow_refuted` | FlowProps.v | 1, 4 |
| `C46_row_count_checked` | FlowProps.v | 1 |
| `C46_single_update_workflow` | FlowProps.v | 1, 4 |
| `C47_agreement_is_detected` | ClassifyProps.v | none (closed) |
| `C47_many_classes_refuted` | ClassifyProps.v | 1, 4 |
| `C47_shortcut_partial` | ClassifyProps.v | 1, 4 |
| `C47_three_classes_refuted` | ClassifyProps.v | 1, 4 |
| `C47_two_class_uq` | ClassifyProps.v | 1, 4 |
| `C47_two_classes` | ClassifyProps.v | 1, 4 |
| `C47_two_classes_gp` | ClassifyProps.v | 1, 4 |
| `C48_counted_cutoff_optimal` | ClassifyProps.v | 1, 2, 4 |
| `C48_cutoffs_on_grid` | ClassifyProps.v | 1, 2, 4 |
| `C48_masks` | ClassifyProps.v | 1, 4 |
| `C48_perfect_batch` | ClassifyProps.v | 1, 2, 4 |
| `C48_report` | ClassifyProps.v | 1, 4 |
| `C48_report_bad_mask` | ClassifyProps.v | 1, 4 |
| `C48_same_centre_refuted` | ClassifyProps.v | 1, 2, 4 |
| `C48_same_interval_partial` | ClassifyProps.v | 1, 2, 4 |
| `C48_same_interval_refuted` | ClassifyProps.v | 1, 2, 4 |
| `C48_training_interval` | ClassifyProps.v | 1, 2, 4 |
| `C48_weighted_cutoff_optimal` | ClassifyProps.v | 1, 2, 4 |
| `C49_classifier_kind` | ClassifyProps.v | none (closed) |
| `C49_count_mismatch` | ClassifyProps.v | none (closed) |
| `C49_fixed_multivariate` | ClassifyProps.v | none (closed) |
| `C49_fixed_univariate` | ClassifyProps.v | none (closed) |
| `C49_mixed_classifier` | ClassifyProps.v | none (closed) |
| `C49_mixed_regressor` | ClassifyProps.v | none (closed) |
| `C49_regressor_kind` | ClassifyProps.v | none (closed) |
| `C49_tuple_refuted` | ClassifyProps.v | none (closed) |
| `C49_unfixed_univariate` | ClassifyProps.v | none (closed) |
| `C50_context_manager_accepts` | ConfigProps.v | none (closed) |
| `C50_context_manager_refuted` | ConfigProps.v | none (closed) |
| `C50_context_manager_validates` | ConfigProps.v | none (closed) |
| `C50_enabled_variables_ignored_refuted` | ConfigProps.v | none (closed) |
| `C50_gpu_flag` | ConfigProps.v | none (closed) |
| `C50_import` | ConfigProps.v | none (closed) |
| `C50_imports_are_final` | ConfigProps.v | none (closed) |
| `C50_mixed_backends_refuted` | ConfigProps.v | none (closed) |
| `C50_one_backend_per_package` | ConfigProps.v | none (closed) |
| `C50_same_backend` | ConfigProps.v | none (closed) |
| `C50_state_is_configuration_partial` | ConfigProps.v | none (closed) |
| `C50_update_unchecked_refuted` | ConfigProps.v | none (closed) |
| `C51_default` | ConfigProps.v | none (closed) |
| `C51_diagonal_refuted` | ConfigProps.v | none (closed) |
| `C51_explicit_keyword` | ConfigProps.v | none (closed) |
| `C51_float_type` | ConfigProps.v | none (closed) |
| `C51_positional_arguments` | ConfigProps.v | none (closed) |
| `C51_positional_dtype_refuted` | ConfigProps.v | none (closed) |
| `C52_candidate_entries` | ShearProps.v | 1, 2, 3, 4 |
| `C52_candidate_length_scale` | ShearProps.v | 1, 2, 4 |
| `C52_derivatives_exist` | ShearProps.v | 1, 2, 3, 4 |
| `C52_full_kernel` | ShearProps.v | 1, 2, 3, 4 |
| `C52_one_feature_rejected` | ShearProps.v | 1, 2, 4 |
| `C52_positive_semidefinite` | ShearProps.v | 1, 2, 3, 4 |
| `C52_prior` | ShearProps.v | 1, 2, 3, 4 |
| `C52_same_length_scale_refuted` | ShearProps.v | 1, 2, 3, 4 |
| `C52_shear_cross_kernel` | ShearProps.v | 1, 2, 3, 4 |
| `C52_shear_only_kernel` | ShearProps.v | 1, 2, 3, 4 |
| `C52_squared_length_scale` | ShearProps.v | 1, 2, 4 |
| `C52_symmetric` | ShearProps.v | 1, 2, 3, 4 |
| `C53_shear_noise` | GPProps.v | 1, 4 |
| `C53_shear_noise_rejects` | GPProps.v | 1 |
| `C54_constructor` | ShearProps.v | none (closed) |
| `C54_crosswise_partial` | ShearProps.v | 1, 2, 3, 4 |
| `C54_forced_cross` | ShearProps.v | 1, 2, 3, 4 |
| `C54_pairwise` | ShearProps.v | 1, 2, 3, 4 |
| `C54_single_point_refuted` | ShearProps.v | 1, 2, 4 |
| `C54_square_prediction_raises` | ShearProps.v | 1, 2, 4 |
| `C54_square_refuted` | ShearProps.v | 1, 2, 4 |
| `C54_three_by_three_wrong_refuted` | ShearProps.v | 1, 2, 3, 4 |
| `C54_unadjusted` | ShearProps.v | 1, 2, 3, 4 |
| `C55_at_the_knots` | HierProps.v | 1, 2, 4 |
| `C55_batch_features_required` | HierProps.v | 1, 2, 4 |
| `C55_default_noise_interpolation_refuted` | HierProps.v | 1, 2, 4 |
| `C55_follows_higher_kernel_refuted` | HierProps.v | 1, 2, 3, 4 |
| `C55_gaussian_knots_always_defined` | HierProps.v | 1, 2, 4 |
| `C55_knot_count_checked` | HierProps.v | 1, 2, 4 |
| `C55_matern_uses_row_length_scale` | HierProps.v | 1, 2, 3, 4 |
| `C55_noise_free_interpolates` | HierProps.v | 1, 2, 4 |
| `C55_rbf_uses_row_length_scale` | HierProps.v | 1, 2, 4 |
| `C55_value_is_posterior_mean` | HierProps.v | 1, 2, 4 |
| `C56_downsample_median` | ScaleProps.v | 1, 4 |
| `C56_downsample_too_many_rejected` | ScaleProps.v | 1, 4 |
| `C56_zero_count_no_objective_refuted` | ChassisProps.v | 1, 2, 3, 4 |
| `C56_zero_count_refuted` | ScaleProps.v | 1, 4 |
| `C57_objective_is_score_partial` | ChassisProps.v | 1, 2, 3, 4 |
| `C57_scipy_minimizes_loss` | ChassisProps.v | 1 |
| `C58_anisotropy_refuted` | ChassisProps.v | 1, 2, 3, 4 |
| `C58_mini_batch_partial` | ChassisProps.v | 1, 2, 3, 4 |
| `C58_missing_init_points_refuted` | ChassisProps.v | 1, 2, 3, 4 |
| `C58_missing_n_iter_refuted` | ChassisProps.v | 1, 2, 3, 4 |
| `C58_zero_epochs_refuted` | ChassisProps.v | 1, 2, 3, 4 |
| `C59_missing_hyperparameter` | EqProps.v | 1, 4 |
| `C59_reflexive_heteroscedastic_refuted` | EqProps.v | 1, 4 |
| `C59_reflexive_nan_refuted` | EqProps.v | 1, 4 |
| `C59_reflexive_partial` | EqProps.v | 1, 4 |
| `C59_symmetric_partial` | EqProps.v | 1, 4 |
| `C59_symmetry_refuted` | EqProps.v | 1, 4 |
| `C59_transitive` | EqProps.v | 1, 4 |
| `C59_true_iff` | EqProps.v | 1, 4 |
| `C60_posterior_mean_from_indices` | FlowProps.v | 1, 4 |
| `C60_posterior_variance_from_indices` | FlowProps.v | 1, 4 |
| `C61_prediction` | ShearProps.v | 1, 2, 3, 4 |
| `C61_variance` | ShearProps.v | 1, 2, 3, 4 |
| `C62_rbf_matern` | ShearProps.v | 1, 2, 4 |
| `C62_shear_refuted` | ShearProps.v | 1, 2, 3, 4 |
| `C63_fast_workflow_total` | LibProps.v | 1, 2, 3, 4 |
| `C63_mean_total` | LibProps.v | 1, 2, 3, 4 |
| `C63_variance_total_and_bounded` | LibProps.v | 1, 2, 3, 4 |
| `C64_general_smoothness_refuted` | LibProps.v | 1, 2, 3, 4 |
| `C64_matern_gram` | LibProps.v | 1, 2, 3, 4 |
| `C64_matern_joint` | LibProps.v | 1, 2, 3, 4 |
| `C65_matern_gram_pd` | LibProps.v | 1, 2, 3, 4 |
| `C65_noise_free_interpolation` | LibProps.v | 1, 2, 3, 4 |
| `C65_rbf_gram_pd` | LibProps.v | 1, 2, 4 |
| `C66_jax_crosswise` | BackendProps.v | 1 |
| `C66_jax_out_of_range_refuted` | BackendProps.v | none (closed) |
| `C66_jax_pairwise` | BackendProps.v | 1 |
| `C66_one_axis_features_refuted` | BackendProps.v | 1 |
| `C66_torch_crosswise` | BackendProps.v | 1 |
| `C66_torch_pairwise` | BackendProps.v | 1 |
| `C67_jax_cross_partial` | BackendProps.v | 1, 2, 3, 4 |
| `C67_jax_general_partial` | BackendProps.v | 1, 2, 3, 4 |
| `C67_jax_gram_partial` | BackendProps.v | 1, 2, 3, 4 |
| `C67_jax_zero_distance_refuted` | BackendProps.v | 1, 2, 3, 4 |
| `C67_shear` | BackendProps.v | 1, 2, 4 |
| `C67_torch_general_refuted` | BackendProps.v | none (closed) |
| `C67_torch_kernels_partial` | BackendProps.v | 1, 2, 3, 4 |
| `C68_fast` | BackendProps.v | 1, 4 |
| `C68_jax_every_response_count` | BackendProps.v | 1 |
| `C68_jax_mean` | BackendProps.v | 1, 4 |
| `C68_jax_multivariate_coincidence` | BackendProps.v | 1, 4 |
| `C68_jax_multivariate_mean_refuted` | BackendProps.v | 1 |
| `C68_jax_variance` | BackendProps.v | 1, 4 |
| `C68_jax_variance_multivariate` | BackendProps.v | 1 |
| `C68_torch` | BackendProps.v | 1 |
| `C69_block_lool_refuted` | BackendProps.v | 1, 2, 3, 4 |
| `C69_jax_cross_entropy_partial` | BackendProps.v | 1, 2, 3, 4 |
| `C69_jax_lool` | BackendProps.v | 1, 2, 3, 4 |
| `C69_torch_cross_entropy_three_classes_refuted` | BackendProps.v | 1, 2, 3, 4 |
| `C69_torch_cross_entropy_two_classes_partial` | BackendProps.v | 1, 2, 3, 4 |
| `C69_torch_responses_refuted` | BackendProps.v | 1, 2, 4 |
| `C69_torch_vectors` | BackendProps.v | 1, 2, 3, 4 |
| `C70_jax_multivariate_refuted` | BackendProps.v | 1, 4 |
| `C70_jax_scale` | BackendProps.v | 1, 4 |
| `C70_jax_trailing_axis_refuted` | BackendProps.v | 1, 4 |
| `C70_torch_optimizers_refuted` | BackendProps.v | none (closed) |
| `C70_torch_scale` | BackendProps.v | 1, 4 |
| `C71_constructors` | DeepProps.v | none (closed) |
| `C71_model_forward` | DeepProps.v | 1, 4 |
| `C71_multivariate_layer` | DeepProps.v | 1, 4 |
| `C71_single_layer` | DeepProps.v | 1, 4 |
| `C71_variance_shape_refuted` | DeepProps.v | 1, 4 |
| `C72_missing_component` | DeepProps.v | 1 |
| `C72_multivariate` | DeepProps.v | 1, 4 |
| `C72_single` | DeepProps.v | 1, 4 |
| `C73_evaluation_mode_partial` | DeepProps.v | 1, 2, 3, 4 |
| `C73_missing_embedding` | DeepProps.v | 1, 2, 3, 4 |
| `C73_returned_lookup` | DeepProps.v | 1, 2, 3, 4 |
| `C73_training_mode_refuted` | DeepProps.v | 1, 2, 3, 4 |
| `C74_layer_differs_refuted` | DeepProps.v | 1, 2, 3, 4 |
| `C74_update_frequency_ignored_refuted` | DeepProps.v | 1, 2, 3, 4 |
| `C74_update_ignored_refuted` | DeepProps.v | 1 |
| `C75_leak_refuted` | DeepProps.v | 1, 4 |
| `C75_self_neighbor_refuted` | DeepProps.v | 1, 4 |
| `C76_bounds_ignored_refuted` | DeepProps.v | 1, 2, 3, 4 |
| `C76_frame` | DeepProps.v | 1, 2, 3, 4 |
| `C76_out_of_bounds_refuted` | DeepProps.v | 1, 2, 3, 4 |
| `C77_case_insensitive` | DeepProps.v | 1, 2, 3, 4 |
| `C77_l1_refuted` | DeepProps.v | 1, 2, 3, 4 |
| `C77_loss_names` | DeepProps.v | 1, 2, 3, 4 |
| `C78_mse` | DeepProps.v | 1, 2, 3, 4 |
| `C78_multivariate` | DeepProps.v | 1, 2, 3, 4 |
| `C78_several_responses_refuted` | DeepProps.v | 1, 2, 3, 4 |
| `C78_single_response` | DeepProps.v | 1, 2, 3, 4 |
| `C78_square_responses_refuted` | DeepProps.v | 1, 2, 3, 4 |
| `C79_column_equal_variances` | WorkProps.v | 1, 2, 3, 4 |
| `C79_column_refuted` | WorkProps.v | 1, 2, 3, 4 |
| `C79_many_responses_refuted` | WorkProps.v | 1, 2, 3, 4 |
| `C79_objective_column_refuted` | WorkProps.v | 1, 2, 3, 4 |
| `C79_objective_raises_refuted` | WorkProps.v | 1, 2, 3, 4 |
| `C79_ranking_refuted` | WorkProps.v | 1, 2, 3, 4 |
| `C79_response_variances_refuted` | WorkProps.v | 1, 2, 3, 4 |
| `C79_single_element_partial` | WorkProps.v | 1, 2, 3, 4 |
| `C79_square_refuted` | WorkProps.v | 1, 2, 3, 4 |
| `C80_classify_any` | WorkProps.v | 1, 2, 3, 4 |
| `C80_do_regress_fixed` | WorkProps.v | 1, 2, 3, 4 |
| `C80_multivariate_partial` | WorkProps.v | 1, 2, 3, 4 |
| `C80_regress_any` | WorkProps.v | 1, 2, 3, 4 |
| `C80_returned_model` | WorkProps.v | 1, 4 |
| `C80_rowwise` | WorkProps.v | 1, 2, 3, 4 |
| `C81_classify_order` | OrderProps.v | 1, 2, 3, 4 |
| `C81_ties_refuted` | WorkProps.v | 1, 2, 3, 4 |
| `C81_training_order_partial` | WorkProps.v | 1, 2, 3, 4 |
| `C82_interpolation` | WorkProps.v | 1, 2, 3, 4 |
| `C83_bayes_best` | TrainProps.v | 1, 2, 3, 4 |
| `C83_objective_from_data` | TrainProps.v | 1, 2, 3, 4 |
| `C83_scipy_best` | TrainProps.v | 1, 2, 3, 4 |
| `C83_tensors_total` | TrainProps.v | 1, 2, 3, 4 |
| `C84_bayes_returns_best` | TrainProps.v | 1, 2, 3, 4 |
| `C84_do_regress` | TrainProps.v | 1, 2, 3, 4 |
| `C84_do_regress_fixed` | TrainProps.v | 1, 2, 3, 4 |
| `C84_fixed_model` | TrainProps.v | 1, 2, 3, 4 |
| `C84_make_regressor` | TrainProps.v | 1, 2, 3, 4 |
| `C84_scipy_returns_best` | TrainProps.v | 1, 2, 3, 4 |
| `C85_example_objectives` | UqWorkProps.v | 1, 4 |
| `C85_example_objectives_are` | UqWorkProps.v | 1, 4 |
| `C85_one_axis_refuted` | UqWorkProps.v | 1, 4 |
| `C85_unanimous_never_ambiguous` | UqWorkProps.v | 1, 4 |
| `C85_workflow_partial` | UqWorkProps.v | 1, 2, 3, 4 |
| `C86_coefficients_partial` | FastWorkProps.v | 1, 2, 3, 4 |
| `C86_do_fast` | FastWorkProps.v | 1, 4 |
| `C86_multivariate_always_zero_refuted` | FastWorkProps.v | 1, 4 |
| `C86_multivariate_zero_refuted` | FastWorkProps.v | 1, 2, 3, 4 |
| `C86_one_axis_refuted` | FastWorkProps.v | 1, 4 |
| `C86_packaged_refuted` | FastWorkProps.v | 1, 2, 3, 4 |
| `C86_single_update` | FastWorkProps.v | 1, 2, 3, 4 |
| `C86_training_row_refuted` | FastWorkProps.v | 1, 2, 3, 4 |
| `C87_cross_entropy_true_class` | ClassTrainProps.v | 1, 2, 3, 4 |
| `C87_do_classify_partial` | ClassTrainProps.v | 1, 2, 3, 4 |
| `C87_fixed_model` | ClassTrainProps.v | 1, 2, 3, 4 |
| `C87_make_classifier_partial` | ClassTrainProps.v | 1, 2, 3, 4 |
| `C87_separated_refuted` | ClassTrainProps.v | 1, 2, 3, 4 |
| `C88_bayes_trains` | MultiTrainProps.v | 1, 2, 3, 4 |
| `C88_default_classifier_loss_refuted` | MultiTrainProps.v | 1, 2, 3, 4 |
| `C88_do_classify_partial` | MultiTrainProps.v | 1, 2, 3, 4 |
| `C88_do_regress_fixed_partial` | MultiTrainProps.v | 1, 2, 3, 4 |
| `C88_do_regress_partial` | MultiTrainProps.v | 1, 2, 3, 4 |
| `C88_fixed_models` | MultiTrainProps.v | 1, 2, 3, 4 |
| `C88_make_multivariate_classifier_partial` | MultiTrainProps.v | 1, 2, 3, 4 |
| `C88_make_multivariate_regressor_partial` | MultiTrainProps.v | 1, 2, 3, 4 |
| `C88_one_label_refuted` | MultiTrainProps.v | 1, 2, 3, 4 |
| `C88_scipy_trains` | MultiTrainProps.v | 1, 2, 3, 4 |
| `C88_wrong_responses` | MultiTrainProps.v | 1, 2, 3, 4 |
| `C89_objective_partial` | ShearTrainProps.v | 1, 2, 3, 4 |
| `C89_prediction` | ShearTrainProps.v | 1, 2, 3, 4 |
| `C89_square_batch_refuted` | ShearTrainProps.v | 1, 2, 3, 4 |
| `C89_training_partial` | ShearTrainProps.v | 1, 2, 3, 4 |
| `C90_best_linear` | BestProps.v | 1, 2, 3, 4 |
| `C90_mean_squared_error` | BestProps.v | 1, 2, 3, 4 |
| `C90_moments_exist` | BestProps.v | 1, 2, 3, 4 |
| `C91_more_neighbors` | BestProps.v | 1, 2, 3, 4 |
| `C91_more_neighbors_indices` | BestProps.v | 1, 2, 3, 4 |
| `C92_similarity` | SimProps.v | 1, 2, 3, 4 |
| `C92_units` | SimProps.v | 1, 2, 3, 4 |
| `C92_units_indices` | SimProps.v | 1, 2, 3, 4 |
| `C93_do_regress` | UnitsProps.v | 1, 2, 3, 4 |
| `C93_objective` | UnitsProps.v | 1, 2, 3, 4 |
| `C93_predictions` | UnitsProps.v | 1, 2, 3, 4 |
| `C93_ranking` | UnitsProps.v | 1, 2, 3, 4 |
| `C93_scale` | UnitsProps.v | 1, 2, 3, 4 |
| `C94_append` | LocalProps.v | 1, 2, 3, 4 |
| `C94_exact_gp` | LocalProps.v | 1, 2, 3, 4 |
| `C94_local` | LocalProps.v | 1, 2, 3, 4 |
| `C95_noise_monotone` | LocalProps.v | 1, 2, 3, 4 |
| `C95_variance_positive` | LocalProps.v | 1, 2, 3, 4 |
| `C95_zero_variance` | LocalProps.v | 1, 2, 3, 4 |
| `C96_make_regressor` | ExactLooProps.v | 1, 2, 3, 4 |
| `C96_objective` | ExactLooProps.v | 1, 2, 3, 4 |
| `C96_value_unique` | ExactLooProps.v | 1, 2, 3, 4 |
| `C97_do_regress` | SimTrainProps.v | 1, 2, 3, 4 |
| `C97_objective` | SimTrainProps.v | 1, 2, 3, 4 |
| `C97_origin` | SimTrainProps.v | 1, 2, 3, 4 |
| `C98_do_classify` | RelabelProps.v | 1, 2, 3, 4 |
| `C98_first_class_kept_partial` | RelabelProps.v | 1, 2, 3, 4 |
| `C98_make_classifier` | RelabelProps.v | 1, 2, 3, 4 |
| `C98_make_classifier_partial` | RelabelProps.v | 1, 2, 3, 4 |
| `C98_objective` | RelabelProps.v | 1, 2, 3, 4 |
| `C98_predicted_class` | RelabelProps.v | 1, 4 |
| `C98_three_classes_refuted` | RelabelProps.v | 1, 2, 3, 4 |
| `C98_two_classes` | RelabelProps.v | 1, 2, 3, 4 |
| `C99_indices` | ColumnsProps.v | 1, 2, 3, 4 |
| `C99_objective` | ColumnsProps.v | 1, 2, 3, 4 |
| `C99_predictions` | ColumnsProps.v | 1, 2, 3, 4 |
