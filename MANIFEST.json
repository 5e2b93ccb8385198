{
 "claims": [
  {
   "property": "C01",
   "status": "proved",
   "theorems": [
    "C01_fold_unfold_roundtrip",
    "C01_unfold_fold_roundtrip"
   ],
   "note": ""
  },
  {
   "property": "C02",
   "status": "proved",
   "theorems": [
    "C02_unfold_entries",
    "C02_unfold_rejects"
   ],
   "note": ""
  },
  {
   "property": "C03",
   "status": "proved",
   "theorems": [
    "C03_khatri_rao_entries",
    "C03_khatri_rao_skip_entries",
    "C03_khatri_rao_rejects"
   ],
   "note": ""
  },
  {
   "property": "C04",
   "status": "proved",
   "theorems": [
    "C04_kron_entries",
    "C04_kron_vectors_entries"
   ],
   "note": ""
  },
  {
   "property": "C05",
   "status": "proved",
   "theorems": [
    "C05_mttkrp_entries",
    "C05_specialised_agrees",
    "C05_third_order_other_modes_give_none"
   ],
   "note": ""
  },
  {
   "property": "C06",
   "status": "proved",
   "theorems": [
    "C06_unflatten_flatten",
    "C06_flatten_unflatten"
   ],
   "note": ""
  },
  {
   "property": "C07",
   "status": "proved",
   "theorems": [
    "C07_rightsolve_least_squares"
   ],
   "note": "numpy.linalg.svd is an oracle; hypothesis is_svd is its documented contract in exact arithmetic. C07_svd_always_exists shows the contract can be met for every matrix."
  },
  {
   "property": "C08",
   "status": "proved",
   "theorems": [
    "C08_nonneg_rightsolve_optimal",
    "C08_nonneg_rightsolve_1d_raises"
   ],
   "note": "scipy.optimize.nnls is an oracle with its documented contract. C08_nnls_always_exists shows the contract can be met."
  },
  {
   "property": "C09",
   "status": "proved",
   "theorems": [
    "C09_orthogonal_solve_procrustes",
    "C09_orthogonal_rightsolve_procrustes",
    "C09_truncation_breaks_orthonormality",
    "C09_zero_gives_zero"
   ],
   "note": "numpy.linalg.svd is an oracle; also proves the exact condition under which the truncation destroys orthonormality."
  },
  {
   "property": "C10",
   "status": "proved",
   "theorems": [
    "C10_ridge_minimises_penalised",
    "C10_ridge_rightsolve",
    "C10_ridge_nonneg",
    "C10_ridge_orthogonal_is_noop"
   ],
   "note": "svd/nnls oracles as above."
  },
  {
   "property": "C11",
   "status": "proved",
   "theorems": [
    "C11_construct_entries",
    "C11_shape",
    "C11_one_mode_raises"
   ],
   "note": ""
  },
  {
   "property": "C12",
   "status": "proved",
   "theorems": [
    "C12_init_accepts_exactly",
    "C12_init_rejects"
   ],
   "note": ""
  },
  {
   "property": "C13",
   "status": "proved",
   "theorems": [
    "C13_normalize_components",
    "C13_exact_for_eps_zero",
    "C13_error_bound",
    "C13_rank_one_changes",
    "C13_zero_column_without_eps_is_nan"
   ],
   "note": ""
  },
  {
   "property": "C14",
   "status": "proved",
   "theorems": [
    "C14_single_components",
    "C14_component_out_of_range"
   ],
   "note": ""
  },
  {
   "property": "C15",
   "status": "proved",
   "theorems": [
    "C15_signs_consistent",
    "C15_zero_score_gives_zero",
    "C15_signs_preserve_tensor"
   ],
   "note": ""
  },
  {
   "property": "C16",
   "status": "proved",
   "theorems": [
    "C16_kruskal_roundtrip",
    "C16_kruskal_file_roundtrip",
    "C16_occupied_group_refused",
    "C16_wrong_type_refused"
   ],
   "note": ""
  },
  {
   "property": "C17",
   "status": "proved",
   "theorems": [
    "C17_construct_slice",
    "C17_construct_slices",
    "C17_construct_tensor",
    "C17_warns_exactly_when_irregular"
   ],
   "note": ""
  },
  {
   "property": "C18",
   "status": "proved",
   "theorems": [
    "C18_evolving_never_loads",
    "C18_evolving_file_never_loads",
    "C18_file_is_complete"
   ],
   "note": ""
  },
  {
   "property": "C19",
   "status": "proved",
   "theorems": [
    "C19_parafac2_roundtrip",
    "C19_parafac2_file_roundtrip",
    "C19_wrong_type_refused"
   ],
   "note": ""
  },
  {
   "property": "C20",
   "status": "proved",
   "theorems": [
    "C20_parafac2_constraint",
    "C20_unchecked_refuted"
   ],
   "note": ""
  },
  {
   "property": "C21",
   "status": "proved",
   "theorems": [
    "C21_from_kruskal_ignores_weights",
    "C21_unit_weights_agree",
    "C21_other_weights_refuted",
    "C21_wrong_order_raises"
   ],
   "note": ""
  },
  {
   "property": "C22",
   "status": "proved",
   "theorems": [
    "C22_permutation_keeps_tensor",
    "C22_factors_only_equal_weights"
   ],
   "note": ""
  },
  {
   "property": "C23",
   "status": "proved",
   "theorems": [
    "C23_flip_factors",
    "C23_flip_idempotent",
    "C23_prepare_for_comparison"
   ],
   "note": "numpy.linalg.svd is an oracle with its documented contract."
  },
  {
   "property": "C24",
   "status": "proved",
   "theorems": [
    "C24_normalize_factor",
    "C24_normalize_factors_each"
   ],
   "note": ""
  },
  {
   "property": "C25",
   "status": "proved",
   "theorems": [
    "C25_best_assignment",
    "C25_too_few_components",
    "C25_other_reductions_raise"
   ],
   "note": ""
  },
  {
   "property": "C26",
   "status": "proved",
   "theorems": [
    "C26_component_scores",
    "C26_computed_scores",
    "C26_result"
   ],
   "note": ""
  },
  {
   "property": "C27",
   "status": "proved",
   "theorems": [
    "C27_order_of_estimated_components",
    "C27_signs_of_estimated_components",
    "C27_against_itself",
    "C27_positive_scale_refuted"
   ],
   "note": ""
  },
  {
   "property": "C28",
   "status": "proved",
   "theorems": [
    "C28_percent_explained",
    "C28_percent_explained_zero_data",
    "C28_completion_score",
    "C28_completion_score_ignores_observed"
   ],
   "note": ""
  },
  {
   "property": "C29",
   "status": "proved",
   "theorems": [
    "C29_leverage",
    "C29_singular"
   ],
   "note": "numpy.linalg.inv is an oracle: a two-sided inverse, or an exception when there is none."
  },
  {
   "property": "C30",
   "status": "proved",
   "theorems": [
    "C30_cp_loop",
    "C30_parafac2_loop",
    "C30_cp_no_exception",
    "C30_parafac2_no_exception"
   ],
   "note": ""
  },
  {
   "property": "C31",
   "status": "proved",
   "theorems": [
    "C31_cp_without_budget",
    "C31_cp_fit_zero",
    "C31_cp_resume",
    "C31_cp_continue",
    "C31_parafac2_without_budget"
   ],
   "note": ""
  },
  {
   "property": "C32",
   "status": "proved",
   "theorems": [
    "C32_cp_checkpoints",
    "C32_parafac2_checkpoints",
    "C32_nothing_written",
    "C32_frequency_zero"
   ],
   "note": ""
  },
  {
   "property": "C33",
   "status": "proved",
   "theorems": [
    "C33_cp_budget_keeps",
    "C33_cp_stopped",
    "C33_parafac2",
    "C33_exclusive"
   ],
   "note": ""
  },
  {
   "property": "C34",
   "status": "proved",
   "theorems": [
    "C34_load_periodic",
    "C34_load_final",
    "C34_load_latest",
    "C34_missing_iteration",
    "C34_not_a_checkpoint_file"
   ],
   "note": ""
  },
  {
   "property": "C35",
   "status": "proved",
   "theorems": [
    "C35_resume_shift",
    "C35_logs_before",
    "C35_same_budget_refuted"
   ],
   "note": ""
  },
  {
   "property": "C36",
   "status": "proved",
   "theorems": [
    "C36_cp_collision",
    "C36_parafac2_collision",
    "C36_resume_same_file"
   ],
   "note": ""
  },
  {
   "property": "C37",
   "status": "proved",
   "theorems": [
    "C37_interrupted_write",
    "C37_steps_complete",
    "C37_latest_hidden"
   ],
   "note": ""
  },
  {
   "property": "C38",
   "status": "proved",
   "theorems": [
    "C38_continue_is_longer_fit"
   ],
   "note": ""
  },
  {
   "property": "C39",
   "status": "proved",
   "theorems": [
    "C39_entries_once",
    "C39_nothing_before_a_checkpoint",
    "C39_shared_class",
    "C39_cp_fit",
    "C39_new_loggers"
   ],
   "note": ""
  },
  {
   "property": "C40",
   "status": "proved",
   "theorems": [
    "C40_session",
    "C40_sessions",
    "C40_no_exception",
    "C40_recreate_refused",
    "C40_failing_call",
    "C40_failure_ends_storing"
   ],
   "note": ""
  },
  {
   "property": "C41",
   "status": "proved",
   "theorems": [
    "C41_names_distinct",
    "C41_iteration_order",
    "C41_which_names",
    "C41_wrong_order_refuted"
   ],
   "note": ""
  },
  {
   "property": "C42",
   "status": "proved",
   "theorems": [
    "C42_update_is_remembered",
    "C42_fit_is_remembered",
    "C42_second_fit_raises",
    "C42_same_shape_type_error"
   ],
   "note": "Exact real arithmetic; the constants of normalisation are kept."
  },
  {
   "property": "C43",
   "status": "proved",
   "theorems": [
    "C43_reported_sse_is_true",
    "C43_throughout_a_fit",
    "C43_reported_loss",
    "C43_after_normalising_refuted"
   ],
   "note": "The factorisations called by the update (svd, nnls, qr where used) are oracles with their documented contracts in exact arithmetic."
  },
  {
   "property": "C44",
   "status": "proved",
   "theorems": [
    "C44_update_is_optimal"
   ],
   "note": "The factorisations called by the update (svd, nnls, qr where used) are oracles with their documented contracts in exact arithmetic."
  },
  {
   "property": "C45",
   "status": "proved",
   "theorems": [
    "C45_sse_never_increases",
    "C45_fit_never_worse",
    "C45_relative_change"
   ],
   "note": "The factorisations called by the update (svd, nnls, qr where used) are oracles with their documented contracts in exact arithmetic."
  },
  {
   "property": "C46",
   "status": "proved",
   "theorems": [
    "C46_update_is_nonnegative",
    "C46_fit_stays_nonnegative",
    "C46_optimal_refuted",
    "C46_random_start"
   ],
   "note": "The factorisations called by the update (svd, nnls, qr where used) are oracles with their documented contracts in exact arithmetic."
  },
  {
   "property": "C47",
   "status": "proved",
   "theorems": [
    "C47_what_the_update_minimises",
    "C47_documented_loss_refuted"
   ],
   "note": "The factorisations called by the update (svd, nnls, qr where used) are oracles with their documented contracts in exact arithmetic."
  },
  {
   "property": "C48",
   "status": "proved",
   "theorems": [
    "C48_update_is_orthonormal",
    "C48_optimal_refuted",
    "C48_both_constraints_raise",
    "C48_orthonormal_start"
   ],
   "note": "The factorisations called by the update (svd, nnls, qr where used) are oracles with their documented contracts in exact arithmetic."
  },
  {
   "property": "C49",
   "status": "proved",
   "theorems": [
    "C49_case_insensitive",
    "C49_warns",
    "C49_unknown_init",
    "C49_svd_rank_too_large",
    "C49_svd_orthonormal",
    "C49_precomputed_accepts_exactly",
    "C49_fewer_modes_accepted"
   ],
   "note": ""
  },
  {
   "property": "C50",
   "status": "proved",
   "theorems": [
    "C50_precomputed",
    "C50_change_of_the_tensor",
    "C50_callers_object",
    "C50_same_tensor_refuted"
   ],
   "note": ""
  },
  {
   "property": "C51",
   "status": "proved",
   "theorems": [
    "C51_factor_update_is_optimal",
    "C51_matrix_update_is_optimal",
    "C51_loss_never_increases",
    "C51_fit_loop_improves"
   ],
   "note": "The factorisations called by the update (svd, nnls, qr where used) are oracles with their documented contracts in exact arithmetic."
  },
  {
   "property": "C52",
   "status": "proved",
   "theorems": [
    "C52_nonnegative_update_never_returns",
    "C52_nonnegative_attribute_error",
    "C52_nonnegative_fit_never_updates",
    "C52_only_the_first_matrix_counts",
    "C52_mse_divisor",
    "C52_mse_is_a_mean_refuted"
   ],
   "note": "The factorisations called by the update (svd, nnls, qr where used) are oracles with their documented contracts in exact arithmetic."
  },
  {
   "property": "C53",
   "status": "proved",
   "theorems": [
    "C53_coupled_matrices_after_normalisation",
    "C53_exact_without_eps"
   ],
   "note": "The factorisations called by the update (svd, nnls, qr where used) are oracles with their documented contracts in exact arithmetic."
  },
  {
   "property": "C54",
   "status": "proved",
   "theorems": [
    "C54_projection_update_is_optimal"
   ],
   "note": "The factorisations called by the update (svd, nnls, qr where used) are oracles with their documented contracts in exact arithmetic."
  },
  {
   "property": "C55",
   "status": "proved",
   "theorems": [
    "C55_sse_splits",
    "C55_projected_tensor",
    "C55_reported_sse",
    "C55_iteration_never_increases",
    "C55_fit_never_increases",
    "C55_loss",
    "C55_inner_weights"
   ],
   "note": "The factorisations called by the update (svd, nnls, qr where used) are oracles with their documented contracts in exact arithmetic."
  },
  {
   "property": "C56",
   "status": "proved",
   "theorems": [
    "C56_projections_are_equal",
    "C56_cp_initialisation_shares",
    "C56_last_slice_wins",
    "C56_update_can_raise_the_error"
   ],
   "note": "The factorisations called by the update (svd, nnls, qr where used) are oracles with their documented contracts in exact arithmetic."
  },
  {
   "property": "C57",
   "status": "proved",
   "theorems": [
    "C57_constrained_factor_never_changes",
    "C57_fit_returns_the_draw",
    "C57_result_need_not_be_orthonormal",
    "C57_free_modes_stay_linked"
   ],
   "note": ""
  },
  {
   "property": "C58",
   "status": "proved",
   "theorems": [
    "C58_fit_transform_cannot_use_precomputed",
    "C58_fit_transform_ignores_arguments",
    "C58_svd_always_raises",
    "C58_MSE_is_not_the_mean",
    "C58_accepted_decompositions"
   ],
   "note": ""
  },
  {
   "property": "C59",
   "status": "proved",
   "theorems": [
    "C59_each_mode_separately",
    "C59_at_least_the_joint_score"
   ],
   "note": ""
  },
  {
   "property": "C60",
   "status": "proved",
   "theorems": [
    "C60_evolving_mode_ignored",
    "C60_different_models_match",
    "C60_scores_ignore_true_factors",
    "C60_scores_are_lengths",
    "C60_default_penalty_raises"
   ],
   "note": ""
  },
  {
   "property": "C61",
   "status": "proved",
   "theorems": [
    "C61_updates_ignore_weights",
    "C61_weights_of_precomputed_components",
    "C61_loss_never_increases_refuted"
   ],
   "note": "The factorisations called by the update (svd, nnls, qr where used) are oracles with their documented contracts in exact arithmetic."
  },
  {
   "property": "C62",
   "status": "proved",
   "theorems": [
    "C62_negative_modes_decouple",
    "C62_loss_counts_them",
    "C62_loss_never_increases_refuted"
   ],
   "note": "The factorisations called by the update (svd, nnls, qr where used) are oracles with their documented contracts in exact arithmetic."
  },
  {
   "property": "C63",
   "status": "proved",
   "theorems": [
    "C63_reported_loss",
    "C63_exact_fit_has_loss_zero_refuted",
    "C63_continue_fit_keeps_a_fit_refuted"
   ],
   "note": "The factorisations called by the update (svd, nnls, qr where used) are oracles with their documented contracts in exact arithmetic."
  },
  {
   "property": "C64",
   "status": "proved",
   "theorems": [
    "C64_checkpoints_omit_the_matrices",
    "C64_loading_leaves_the_matrices",
    "C64_resuming_is_determined_refuted",
    "C64_loading_restores_the_tensor"
   ],
   "note": "The factorisations called by the update (svd, nnls, qr where used) are oracles with their documented contracts in exact arithmetic."
  },
  {
   "property": "C65",
   "status": "proved",
   "theorems": [
    "C65_scores",
    "C65_scores_follow_signs",
    "C65_scores_of_exact_data",
    "C65_without_data",
    "C65_resolving_twice"
   ],
   "note": "numpy.linalg.lstsq is an oracle: the least-squares solution of smallest norm (exact arithmetic, no rcond truncation)."
  },
  {
   "property": "C66",
   "status": "proved",
   "theorems": [
    "C66_best_core",
    "C66_normalized",
    "C66_at_most_100",
    "C66_full_score",
    "C66_exact_data",
    "C66_dependent_columns_raise",
    "C66_method",
    "C66_own_data",
    "C66_own_data_scores_100_refuted",
    "C66_parafac2_exact_data",
    "C66_contract_satisfiable"
   ],
   "note": "numpy.linalg.qr is an oracle: the reduced factorisation it documents (exact arithmetic); scipy.linalg.solve_triangular is modelled as back substitution."
  },
  {
   "property": "C67",
   "status": "proved",
   "theorems": [
    "C67_kruskal_scores",
    "C67_zero_column",
    "C67_parafac2_scores",
    "C67_evolving_refuted"
   ],
   "note": ""
  },
  {
   "property": "C68",
   "status": "proved",
   "theorems": [
    "C68_weights_ignored",
    "C68_different_ranks",
    "C68_kruskal_comparison",
    "C68_separate_modes_raise",
    "C68_evolving_comparison",
    "C68_parafac2_comparison",
    "C68_slice_signs_refuted"
   ],
   "note": ""
  },
  {
   "property": "C69",
   "status": "proved",
   "theorems": [
    "C69_components_add_up",
    "C69_ragged_raises",
    "C69_out_of_range"
   ],
   "note": ""
  },
  {
   "property": "C70",
   "status": "proved",
   "theorems": [
    "C70_measures",
    "C70_named_after",
    "C70_zero_data",
    "C70_logged_monotone",
    "C70_cmtf_explained",
    "C70_cmtf_share_refuted",
    "C70_cmtf_measures",
    "C70_parafac2_measures",
    "C70_parafac2_named_after",
    "C70_parafac2_explained"
   ],
   "note": "numpy.linalg.svd is an oracle with its documented contract in exact arithmetic; files as described in DESIGN.md 1.5."
  },
  {
   "property": "C71",
   "status": "proved",
   "theorems": [
    "C71_fit_completes"
   ],
   "note": "numpy.linalg.svd is an oracle with its documented contract in exact arithmetic; files as described in DESIGN.md 1.5."
  },
  {
   "property": "C72",
   "status": "proved",
   "theorems": [
    "C72_cp_resume",
    "C72_interrupted_fit",
    "C72_interrupted_fit_completes"
   ],
   "note": "numpy.linalg.svd is an oracle with its documented contract in exact arithmetic; files as described in DESIGN.md 1.5."
  },
  {
   "property": "C73",
   "status": "proved",
   "theorems": [
    "C73_run_stores_results",
    "C73_repeated_run_mixes_refuted",
    "C73_continued_run",
    "C73_continue_needs_results",
    "C73_evaluation_raises",
    "C73_no_recovery_refuted",
    "C73_unstorable_parameter",
    "C73_reserved_parameter",
    "C73_constructor"
   ],
   "note": ""
  },
  {
   "property": "C74",
   "status": "proved",
   "theorems": [
    "C74_cp_stopping",
    "C74_cp_loop",
    "C74_cp_fit",
    "C74_cmtf_loop",
    "C74_parafac2_gain",
    "C74_parafac2_perfect_fit",
    "C74_parafac2_perfect_loop"
   ],
   "note": "numpy.linalg.svd is an oracle with its documented contract in exact arithmetic; files as described in DESIGN.md 1.5."
  },
  {
   "property": "C75",
   "status": "proved",
   "theorems": [
    "C75_fit_completes",
    "C75_narrow_slice_raises"
   ],
   "note": "numpy.linalg.svd is an oracle with its documented contract in exact arithmetic; files as described in DESIGN.md 1.5."
  },
  {
   "property": "C76",
   "status": "proved",
   "theorems": [
    "C76_projections",
    "C76_grams",
    "C76_equal_grams_refuted"
   ],
   "note": "numpy.linalg.svd is an oracle with its documented contract in exact arithmetic; files as described in DESIGN.md 1.5."
  },
  {
   "property": "C77",
   "status": "proved",
   "theorems": [
    "C77_only_arrays_matter",
    "C77_continue",
    "C77_continue_completes",
    "C77_interrupted",
    "C77_interrupted_completes"
   ],
   "note": "numpy.linalg.svd is an oracle with its documented contract in exact arithmetic; files as described in DESIGN.md 1.5."
  },
  {
   "property": "C78",
   "status": "proved",
   "theorems": [
    "C78_pca_loadings",
    "C78_pca_wide_refuted",
    "C78_svd_start",
    "C78_no_model_beats",
    "C78_matrix_reached",
    "C78_reported",
    "C78_fits",
    "C78_no_parafac2_beats",
    "C78_parafac2_reported"
   ],
   "note": "numpy.linalg.svd is an oracle with its documented contract in exact arithmetic; files as described in DESIGN.md 1.5."
  },
  {
   "property": "C79",
   "status": "proved",
   "theorems": [
    "C79_runs",
    "C79_fits",
    "C79_svd_routine",
    "C79_units_refuted"
   ],
   "note": "numpy.linalg.svd is an oracle with its documented contract in exact arithmetic; files as described in DESIGN.md 1.5."
  },
  {
   "property": "C80",
   "status": "proved",
   "theorems": [
    "C80_fixed_points",
    "C80_stationary",
    "C80_fixed_fits",
    "C80_first_factor",
    "C80_fit_bound",
    "C80_orthogonal_runs",
    "C80_orthogonal_fits"
   ],
   "note": "numpy.linalg.svd is an oracle with its documented contract in exact arithmetic; files as described in DESIGN.md 1.5."
  },
  {
   "property": "C81",
   "status": "proved",
   "theorems": [
    "C81_random_factors",
    "C81_random_data_refuted",
    "C81_old_random",
    "C81_old_svd",
    "C81_old_svd_shape_refuted",
    "C81_old_scheme"
   ],
   "note": "numpy.linalg.svd is an oracle with its documented contract in exact arithmetic; files as described in DESIGN.md 1.5."
  },
  {
   "property": "C82",
   "status": "proved",
   "theorems": [
    "C82_decompositions",
    "C82_solvers",
    "C82_cp_fits",
    "C82_cmtf_fits",
    "C82_parafac2_fits"
   ],
   "note": "numpy.linalg.svd is an oracle with its documented contract in exact arithmetic; files as described in DESIGN.md 1.5."
  },
  {
   "property": "C83",
   "status": "proved",
   "theorems": [
    "C83_evolving_raises",
    "C83_normal_raises",
    "C83_fix_signs_refuted"
   ],
   "note": "numpy.linalg.svd is an oracle with its documented contract in exact arithmetic; files as described in DESIGN.md 1.5."
  },
  {
   "property": "C84",
   "status": "proved",
   "theorems": [
    "C84_fits_complete",
    "C84_starts"
   ],
   "note": "numpy.linalg.svd is an oracle with its documented contract in exact arithmetic; files as described in DESIGN.md 1.5."
  },
  {
   "property": "C85",
   "status": "proved",
   "theorems": [
    "C85_fits_complete",
    "C85_short_mode_raises"
   ],
   "note": "numpy.linalg.svd is an oracle with its documented contract in exact arithmetic; files as described in DESIGN.md 1.5."
  },
  {
   "property": "C86",
   "status": "proved",
   "theorems": [
    "C86_orthonormal_update_is_optimal",
    "C86_penalised_update_is_optimal",
    "C86_penalised_loss_never_increases",
    "C86_reported_loss_can_rise"
   ],
   "note": "numpy.linalg.svd is an oracle with its documented contract in exact arithmetic; files as described in DESIGN.md 1.5."
  },
  {
   "property": "C87",
   "status": "proved",
   "theorems": [
    "C87_score_bounds_distances",
    "C87_score_without_weights",
    "C87_close_components_score_high",
    "C87_score_bounds_tensor_distance",
    "C87_opposite_tensor_scores_the_same"
   ],
   "note": ""
  },
  {
   "property": "C88",
   "status": "proved",
   "theorems": [
    "C88_fit_completes",
    "C88_short_list_raises",
    "C88_tensor_data"
   ],
   "note": "numpy.linalg.svd is an oracle with its documented contract in exact arithmetic; files as described in DESIGN.md 1.5."
  },
  {
   "property": "C89",
   "status": "proved",
   "theorems": [
    "C89_iterations",
    "C89_fits",
    "C89_signs_of_slices",
    "C89_order_of_columns"
   ],
   "note": "numpy.linalg.svd is an oracle with its documented contract in exact arithmetic; files as described in DESIGN.md 1.5."
  },
  {
   "property": "C90",
   "status": "proved",
   "theorems": [
    "C90_fits_complete",
    "C90_orthonormal_result"
   ],
   "note": "numpy.linalg.svd is an oracle with its documented contract in exact arithmetic; files as described in DESIGN.md 1.5."
  },
  {
   "property": "C91",
   "status": "proved",
   "theorems": [
    "C91_missing_modes_raise",
    "C91_wrong_rows_raise",
    "C91_single_rows_raise_later",
    "C91_further_matrices_ignored"
   ],
   "note": "numpy.linalg.svd is an oracle with its documented contract in exact arithmetic; files as described in DESIGN.md 1.5."
  },
  {
   "property": "C92",
   "status": "proved",
   "theorems": [
    "C92_uncoupled_modes_raise",
    "C92_missing_method",
    "C92_coupled_modes",
    "C92_update_improves_refuted"
   ],
   "note": "numpy.linalg.svd is an oracle with its documented contract in exact arithmetic; files as described in DESIGN.md 1.5."
  },
  {
   "property": "C93",
   "status": "proved",
   "theorems": [
    "C93_components_determined",
    "C93_score",
    "C93_all_explained",
    "C93_exact_fit",
    "C93_exact_coupled_fit",
    "C93_parallel_components_refuted"
   ],
   "note": "numpy.linalg.svd is an oracle with its documented contract in exact arithmetic; files as described in DESIGN.md 1.5."
  },
  {
   "property": "C94",
   "status": "proved",
   "theorems": [
    "C94_iterations",
    "C94_fits",
    "C94_given_starts",
    "C94_nothing_lost"
   ],
   "note": "numpy.linalg.svd is an oracle with its documented contract in exact arithmetic; files as described in DESIGN.md 1.5."
  },
  {
   "property": "C95",
   "status": "proved",
   "theorems": [
    "C95_iterations",
    "C95_fits"
   ],
   "note": "numpy.linalg.svd is an oracle with its documented contract in exact arithmetic; files as described in DESIGN.md 1.5."
  },
  {
   "property": "C96",
   "status": "proved",
   "theorems": [
    "C96_what_is_left",
    "C96_qr_failure",
    "C96_next_fit",
    "C96_fewer_modes",
    "C96_more_modes",
    "C96_retry",
    "C96_no_trace_refuted"
   ],
   "note": "numpy.linalg.svd is an oracle with its documented contract in exact arithmetic; files as described in DESIGN.md 1.5."
  },
  {
   "property": "C97",
   "status": "proved",
   "theorems": [
    "C97_refit",
    "C97_second_fit",
    "C97_start_becomes_result",
    "C97_same_start_again",
    "C97_same_start_completes",
    "C97_start_kept_refuted"
   ],
   "note": "numpy.linalg.svd is an oracle with its documented contract in exact arithmetic; files as described in DESIGN.md 1.5."
  },
  {
   "property": "C98",
   "status": "proved",
   "theorems": [
    "C98_same_as_by_value",
    "C98_arrays",
    "C98_start_becomes_result",
    "C98_load",
    "C98_start_kept_refuted",
    "C98_normalize",
    "C98_shared_normalize_refuted",
    "C98_shared_descent_refuted",
    "C98_shared_report_refuted"
   ],
   "note": "numpy.linalg.svd is an oracle with its documented contract in exact arithmetic; files as described in DESIGN.md 1.5."
  },
  {
   "property": "C99",
   "status": "proved",
   "theorems": [
    "C99_iterations",
    "C99_fits",
    "C99_order_of_slices"
   ],
   "note": "numpy.linalg.svd is an oracle with its documented contract in exact arithmetic; files as described in DESIGN.md 1.5."
  },
  {
   "property": "C100",
   "status": "proved",
   "theorems": [
    "C100_lists",
    "C100_same_result",
    "C100_like_fresh",
    "C100_fewer_modes",
    "C100_more_modes",
    "C100_any_tensor_refuted"
   ],
   "note": "numpy.linalg.svd is an oracle with its documented contract in exact arithmetic; files as described in DESIGN.md 1.5."
  },
  {
   "property": "C101",
   "status": "proved",
   "theorems": [
    "C101_iterations",
    "C101_fits",
    "C101_scaled_start"
   ],
   "note": "numpy.linalg.svd is an oracle with its documented contract in exact arithmetic; files as described in DESIGN.md 1.5."
  },
  {
   "property": "C102",
   "status": "proved",
   "theorems": [
    "C102_standing_still",
    "C102_bound",
    "C102_exact_runs",
    "C102_fits"
   ],
   "note": "numpy.linalg.svd is an oracle with its documented contract in exact arithmetic; files as described in DESIGN.md 1.5."
  },
  {
   "property": "C103",
   "status": "proved",
   "theorems": [
    "C103_start",
    "C103_uneven_slices",
    "C103_result"
   ],
   "note": "numpy.linalg.svd is an oracle with its documented contract in exact arithmetic; files as described in DESIGN.md 1.5."
  },
  {
   "property": "C104",
   "status": "proved",
   "theorems": [
    "C104_fixed_points",
    "C104_stationary",
    "C104_loops",
    "C104_reported_refuted",
    "C104_first_factor"
   ],
   "note": "numpy.linalg.svd is an oracle with its documented contract in exact arithmetic; files as described in DESIGN.md 1.5."
  },
  {
   "property": "C105",
   "status": "proved",
   "theorems": [
    "C105_update",
    "C105_passes",
    "C105_fits",
    "C105_limits"
   ],
   "note": "numpy.linalg.svd is an oracle with its documented contract in exact arithmetic; files as described in DESIGN.md 1.5."
  },
  {
   "property": "C106",
   "status": "proved",
   "theorems": [
    "C106_missing_mode",
    "C106_one_weight",
    "C106_one_weight_coupled",
    "C106_one_weight_fit"
   ],
   "note": "numpy.linalg.svd is an oracle with its documented contract in exact arithmetic; files as described in DESIGN.md 1.5."
  },
  {
   "property": "C107",
   "status": "proved",
   "theorems": [
    "C107_update",
    "C107_own_update",
    "C107_passes",
    "C107_penalised",
    "C107_limits"
   ],
   "note": "numpy.linalg.svd is an oracle with its documented contract in exact arithmetic; files as described in DESIGN.md 1.5."
  },
  {
   "property": "C108",
   "status": "proved",
   "theorems": [
    "C108_iteration",
    "C108_runs",
    "C108_limits"
   ],
   "note": "numpy.linalg.svd is an oracle with its documented contract in exact arithmetic; files as described in DESIGN.md 1.5."
  },
  {
   "property": "C109",
   "status": "proved",
   "theorems": [
    "C109_standing_still",
    "C109_conditions",
    "C109_slope",
    "C109_documented_only_if",
    "C109_stationary",
    "C109_documented_loss_refuted"
   ],
   "note": "numpy.linalg.svd is an oracle with its documented contract in exact arithmetic; files as described in DESIGN.md 1.5."
  },
  {
   "property": "C110",
   "status": "proved",
   "theorems": [
    "C110_power",
    "C110_best",
    "C110_rate",
    "C110_model",
    "C110_blind",
    "C110_fits"
   ],
   "note": "numpy.linalg.svd is an oracle with its documented contract in exact arithmetic; files as described in DESIGN.md 1.5."
  },
  {
   "property": "C111",
   "status": "proved",
   "theorems": [
    "C111_same",
    "C111_fits",
    "C111_start",
    "C111_absolute",
    "C111_best"
   ],
   "note": "numpy.linalg.svd is an oracle with its documented contract in exact arithmetic; files as described in DESIGN.md 1.5."
  },
  {
   "property": "C112",
   "status": "proved",
   "theorems": [
    "C112_iterations",
    "C112_loops",
    "C112_order",
    "C112_units_refuted"
   ],
   "note": "numpy.linalg.svd is an oracle with its documented contract in exact arithmetic; files as described in DESIGN.md 1.5."
  },
  {
   "property": "C113",
   "status": "proved",
   "theorems": [
    "C113_no_best",
    "C113_lengths",
    "C113_scores",
    "C113_sequences",
    "C113_iterations",
    "C113_fits"
   ],
   "note": "numpy.linalg.svd is an oracle with its documented contract in exact arithmetic; files as described in DESIGN.md 1.5."
  },
  {
   "property": "C114",
   "status": "proved",
   "theorems": [
    "C114_factors",
    "C114_model",
    "C114_lengths",
    "C114_accumulate",
    "C114_no_degeneracy",
    "C114_loops"
   ],
   "note": "numpy.linalg.svd is an oracle with its documented contract in exact arithmetic; files as described in DESIGN.md 1.5."
  },
  {
   "property": "C115",
   "status": "proved",
   "theorems": [
    "C115_limits",
    "C115_subsequences",
    "C115_small_steps"
   ],
   "note": "numpy.linalg.svd is an oracle with its documented contract in exact arithmetic; files as described in DESIGN.md 1.5."
  },
  {
   "property": "C116",
   "status": "proved",
   "theorems": [
    "C116_fits",
    "C116_projections"
   ],
   "note": "numpy.linalg.svd is an oracle with its documented contract in exact arithmetic; files as described in DESIGN.md 1.5."
  },
  {
   "property": "C117",
   "status": "proved",
   "theorems": [
    "C117_iterations",
    "C117_accumulate"
   ],
   "note": "numpy.linalg.svd is an oracle with its documented contract in exact arithmetic; files as described in DESIGN.md 1.5."
  },
  {
   "property": "C118",
   "status": "proved",
   "theorems": [
    "C118_iteration",
    "C118_limits",
    "C118_exist"
   ],
   "note": "numpy.linalg.svd is an oracle with its documented contract in exact arithmetic; files as described in DESIGN.md 1.5."
  },
  {
   "property": "C119",
   "status": "proved",
   "theorems": [
    "C119_iterations",
    "C119_fits"
   ],
   "note": "numpy.linalg.svd is an oracle with its documented contract in exact arithmetic; files as described in DESIGN.md 1.5."
  }
 ]
}