{
 "claims": [
  {
   "property": "C01",
   "status": "proved",
   "theorems": [
    "C01_calls_exactly_as_scheduled",
    "C01_add_policy_accepts_iff_valid",
    "C01_range_membership"
   ],
   "note": "Log of policy calls equals the specified list for every callback in every history."
  },
  {
   "property": "C02",
   "status": "proved",
   "theorems": [
    "C02_last_epoch_flag",
    "C02_keep_mask_permanent",
    "C02_last_epoch_work_never_runs",
    "C02_keep_mask_ignored_refuted"
   ],
   "note": "Both directions, plus a concrete run in which keep_mask is ignored (_refuted)."
  },
  {
   "property": "C03",
   "status": "proved",
   "theorems": [
    "C03_pruned_weights_zero_after_step",
    "C03_mask_all_weights_exact"
   ],
   "note": "Any history of callbacks, arbitrary weight updates and pruners."
  },
  {
   "property": "C04",
   "status": "proved",
   "theorems": [
    "C04_masking_zeroes_exactly_the_pruned",
    "C04_masking_idempotent"
   ],
   "note": ""
  },
  {
   "property": "C05",
   "status": "proved",
   "theorems": [
    "C05_double_copies_train_dense_weights",
    "C05_double_copies_restore",
    "C05_two_policies_refuted"
   ],
   "note": "One pruning policy in the epoch; the two-policy case is refuted by a concrete run."
  },
  {
   "property": "C06",
   "status": "proved",
   "theorems": [
    "C06_regularization_mask_lifetime",
    "C06_threshold_destroys_pruning_mask_refuted",
    "C06_stale_flag_drops_pruning_mask_refuted"
   ],
   "note": "One regularization policy in the epoch; interactions with pruning masks are refuted by concrete runs."
  },
  {
   "property": "C07",
   "status": "proved",
   "theorems": [
    "C07_masks_recomputed_iff",
    "C07_pruner_not_consulted_otherwise",
    "C07_epoch_begin_effect",
    "C07_minibatch_begin_effect",
    "C07_fold_batchnorm_refuted"
   ],
   "note": "Also the fold_batchnorm defect as a concrete run."
  },
  {
   "property": "C08",
   "status": "proved",
   "theorems": [
    "C08_regularizers_add_their_components",
    "C08_policies_are_chained",
    "C08_no_policy_no_change",
    "C08_bad_policy_raises"
   ],
   "note": ""
  },
  {
   "property": "C09",
   "status": "proved",
   "theorems": [
    "C09_state_round_trip",
    "C09_missing_name_raises",
    "C09_failed_load_replaces_a_prefix",
    "C09_dataparallel_state_loads",
    "C09_normalising_plain_state_refuted",
    "C09_init_from_masks",
    "C09_init_normalised_loses_all_masks_refuted",
    "C09_checkpoint_round_trip",
    "C09_dataparallel_checkpoint_round_trip",
    "C09_dataparallel_without_scheduler_fails"
   ],
   "note": ""
  },
  {
   "property": "C10",
   "status": "proved",
   "theorems": [
    "C10_normalize_without_module",
    "C10_normalize_removes_first_module",
    "C10_split_join",
    "C10_normalize_undoes_dataparallel",
    "C10_denormalize_restores_dataparallel"
   ],
   "note": ""
  },
  {
   "property": "C11",
   "status": "proved",
   "theorems": [
    "C11_resume_is_exact",
    "C11_forward_only_diverges_refuted",
    "C11_cached_threshold_diverges_refuted"
   ],
   "note": "Side conditions are exactly those of the property; two divergence witnesses."
  },
  {
   "property": "C12",
   "status": "proved",
   "theorems": [
    "C12_threshold_mask",
    "C12_larger_threshold_prunes_more",
    "C12_magnitude_pruner"
   ],
   "note": ""
  },
  {
   "property": "C13",
   "status": "proved",
   "theorems": [
    "C13_level_criterion",
    "C13_over_pruning_only_by_ties",
    "C13_larger_level_prunes_more",
    "C13_level_criterion_raises",
    "C13_level_pruner"
   ],
   "note": ""
  },
  {
   "property": "C14",
   "status": "proved",
   "theorems": [
    "C14_agp_schedule",
    "C14_agp_formula",
    "C14_agp_ctor",
    "C14_agp_needs_two_epochs",
    "C14_single_epoch_refuted",
    "C14_agp_pruner"
   ],
   "note": ""
  },
  {
   "property": "C15",
   "status": "proved",
   "theorems": [
    "C15_splicing_history",
    "C15_splicing_step",
    "C15_unlisted_unchanged"
   ],
   "note": ""
  },
  {
   "property": "C16",
   "status": "proved",
   "theorems": [
    "C16_baidu_threshold",
    "C16_slopes_fixed_by_first_call",
    "C16_late_ramp_refuted"
   ],
   "note": ""
  },
  {
   "property": "C17",
   "status": "proved",
   "theorems": [
    "C17_sensitivity_threshold_fixed",
    "C17_unlisted_unchanged"
   ],
   "note": ""
  },
  {
   "property": "C18",
   "status": "proved",
   "theorems": [
    "C18_expand_conv",
    "C18_expand_matrix",
    "C18_threshold_filters",
    "C18_threshold_channels",
    "C18_threshold_kernels",
    "C18_threshold_matrix",
    "C18_mean_rows_refuted",
    "C18_structure_pruner"
   ],
   "note": "Element-wise, every shape; Mean_* criteria on matrices divide by the wrong dimension (_refuted)."
  },
  {
   "property": "C19",
   "status": "proved",
   "theorems": [
    "C19_constructor",
    "C19_count",
    "C19_count_floor",
    "C19_filters",
    "C19_channels",
    "C19_matrix_columns",
    "C19_group_types",
    "C19_ties_remove_all_refuted",
    "C19_group_size_refuted"
   ],
   "note": "group_size 1 is exact; group_size > 1 never prunes (RuntimeError) and ties remove all tied structures (_refuted)."
  },
  {
   "property": "C20",
   "status": "proved",
   "theorems": [
    "C20_norm_functions",
    "C20_conv_norms",
    "C20_bad_group_len",
    "C20_matrix_norms",
    "C20_row_mean_refuted"
   ],
   "note": ""
  },
  {
   "property": "C21",
   "status": "proved",
   "theorems": [
    "C21_leader_map_shared",
    "C21_same_structures",
    "C21_leader_no_map_refuted",
    "C21_stale_map_refuted"
   ],
   "note": "Any sequence of calls; stale map and AssertionError findings as _refuted."
  },
  {
   "property": "C22",
   "status": "proved",
   "theorems": [
    "C22_prune_by_order",
    "C22_removes_largest",
    "C22_mean_activation_refuted",
    "C22_bernoulli_scaling"
   ],
   "note": "Orderings are arbitrary; the mean-activation ranking keeps the low-activation filters (_refuted)."
  },
  {
   "property": "C23",
   "status": "proved",
   "theorems": [
    "C23_execute",
    "C23_execute_again",
    "C23_only_sgd",
    "C23_linear_execute",
    "C23_linear_mask_refuted",
    "C23_linear_momentum_refuted",
    "C23_linear_again_refuted",
    "C23_momentum_without_gradient_refuted",
    "C23_same_dimension_refuted"
   ],
   "note": "Recipes whose directives select along different dimensions (what recipe creation produces); findings about masks, momentum and repetition for linear layers are _refuted."
  },
  {
   "property": "C24",
   "status": "proved",
   "theorems": [
    "C24_remove_channels",
    "C24_remove_channels_succeeds",
    "C24_filter_bias_refuted",
    "C24_filter_bn_shift_refuted",
    "C24_filter_two_bn_refuted",
    "C24_filter_bn_row_refuted",
    "C24_filter_concat_refuted",
    "C24_filter_add_refuted",
    "C24_filter_output_refuted",
    "C24_filter_rectangle_refuted",
    "C24_filter_depthwise_refuted",
    "C24_channel_shared_refuted",
    "C24_channel_bn_search_refuted",
    "C24_channel_linear_refuted",
    "C24_channel_input_refuted",
    "C24_channel_in_features_refuted",
    "C24_remove_filters",
    "C24_remove_filters_succeeds"
   ],
   "note": "Networks of convolutions (any geometry, groups), linear layers, batch norms, channel-wise operations, additions and opaque operations, over exact rationals; inverse square root is any function. Fourteen kinds of network outside the hypotheses are refuted by computation."
  },
  {
   "property": "C25",
   "status": "proved",
   "theorems": [
    "C25_quantized_range"
   ],
   "note": "Exact rational arithmetic; float rounding is not modelled."
  },
  {
   "property": "C26",
   "status": "proved",
   "theorems": [
    "C26_round_half_even",
    "C26_asymmetric",
    "C26_asymmetric_elementwise",
    "C26_degenerate_range",
    "C26_symmetric",
    "C26_symmetric_elementwise",
    "C26_one_bit_restricted_refuted"
   ],
   "note": "Error bound proved for every clipping regime; degenerate ranges and the 1-bit restricted range as _refuted."
  },
  {
   "property": "C27",
   "status": "proved",
   "theorems": [
    "C27_requantize_identity",
    "C27_fake_quant_idempotent"
   ],
   "note": ""
  },
  {
   "property": "C28",
   "status": "proved",
   "theorems": [
    "C28_scale_approximation",
    "C28_limit_small_scale_refuted"
   ],
   "note": ""
  },
  {
   "property": "C29",
   "status": "proved",
   "theorems": [
    "C29_wrpn",
    "C29_wrpn_levels_refuted",
    "C29_dorefa",
    "C29_dorefa_zero_refuted",
    "C29_dorefa_binary"
   ],
   "note": "k=1 and zero-weight corner cases as _refuted."
  },
  {
   "property": "C30",
   "status": "proved",
   "theorems": [
    "C30_clipped_quantization",
    "C30_learned_clip"
   ],
   "note": ""
  },
  {
   "property": "C31",
   "status": "proved",
   "theorems": [
    "C31_weight_error",
    "C31_static_output_error",
    "C31_dynamic_output_error",
    "C31_add_error",
    "C31_concat_error",
    "C31_mult_error",
    "C31_matmul_error"
   ],
   "note": "Exact rational arithmetic, no scale approximation; convolution geometry is an arbitrary window map."
  },
  {
   "property": "C32",
   "status": "proved",
   "theorems": [
    "C32_weights_survive",
    "C32_save_does_not_change_output",
    "C32_set_after_forward_refuted",
    "C32_quantizer_set_stale_refuted",
    "C32_stale_accumulator_refuted",
    "C32_per_channel_set_fails",
    "C32_set_refreshes_accumulator"
   ],
   "note": "Good histories; the four ways out of them are _refuted witnesses."
  },
  {
   "property": "C33",
   "status": "proved",
   "theorems": [
    "C33_ema_average",
    "C33_tracking",
    "C33_fake_quant_error",
    "C33_symmetric_level_overflow_refuted",
    "C33_untrained_outputs_zero",
    "C33_mode_pair_is_asymmetric_unsigned",
    "C33_qat_weight_error",
    "C33_qat_mode_ignored"
   ],
   "note": "Any history of training and evaluation forwards."
  },
  {
   "property": "C34",
   "status": "proved",
   "theorems": [
    "C34_eval_forward",
    "C34_freeze_preserves",
    "C34_constructor",
    "C34_fold_bn",
    "C34_untracked_not_folded",
    "C34_frozen_bn_folded_twice_refuted",
    "C34_frozen_bn_attribute_error"
   ],
   "note": "sqrt/rsqrt are arbitrary functions; FrozenBatchNorm2d double folding and AttributeError are witnesses."
  },
  {
   "property": "C35",
   "status": "proved",
   "theorems": [
    "C35_override_choice",
    "C35_first_match_wins",
    "C35_first_match_refuted",
    "C35_group_shift",
    "C35_capturing_groups_refuted",
    "C35_alternation_refuted",
    "C35_data_parallel",
    "C35_module_prefix_refuted",
    "C35_constructor_errors",
    "C35_resolution",
    "C35_quantizer_maps"
   ],
   "note": "Regular expressions are modelled (characters, sets, alternation, star, groups, anchors); three pattern shapes that break first-match are _refuted."
  },
  {
   "property": "C36",
   "status": "proved",
   "theorems": [
    "C36_multi_step_multi_gamma",
    "C36_multi_gamma_errors",
    "C36_multi_gamma_constant_between_milestones",
    "C36_polynomial",
    "C36_polynomial_zero_length",
    "C36_polynomial_after_the_end_refuted"
   ],
   "note": "Integer powers for PolynomialLR; behaviour after T_max is refuted."
  },
  {
   "property": "C37",
   "status": "proved",
   "theorems": [
    "C37_history",
    "C37_best_scores",
    "C37_missing_score",
    "C37_is_best",
    "C37_best_checkpoint",
    "C37_no_epochs",
    "C37_num_best_scores_zero_refuted",
    "C37_resume_overwrites_best_refuted"
   ],
   "note": "Any history of steps and any complete run; num_best_scores=0 and the tracker reset on resume are findings."
  },
  {
   "property": "C38",
   "status": "proved",
   "theorems": [
    "C38_split",
    "C38_sampler",
    "C38_loaders",
    "C38_loaders_errors",
    "C38_fixed_subset_refuted",
    "C38_sequential_ignored",
    "C38_batches"
   ],
   "note": "All permutations drawn by the samplers; fixed_subset leaks validation samples into training (_refuted)."
  },
  {
   "property": "C39",
   "status": "proved",
   "theorems": [
    "C39_density_sparsity",
    "C39_empty_tensor",
    "C39_structure_sparsity",
    "C39_matrix_sparsity",
    "C39_other_ranks",
    "C39_ranked_filters_reach_sparsity",
    "C39_model_sparsity"
   ],
   "note": "All sparsity functions; matrices, convolutions and the model-wide statistic."
  },
  {
   "property": "C40",
   "status": "proved",
   "theorems": [
    "C40_overall_loss",
    "C40_constructor",
    "C40_forward_each_minibatch_never_raises",
    "C40_stale_logits_refuted",
    "C40_order_with_regularizers",
    "C40_distillation_loss_nonneg",
    "C40_distillation_loss_equal_logits"
   ],
   "note": "Histories of callbacks over exact rationals; KL >= 0 with softmax over the reals (stdlib real axioms)."
  },
  {
   "property": "C41",
   "status": "proved",
   "theorems": [
    "C41_masker_names_of_quantized_modules",
    "C41_undotted_unknown_parameter_raises",
    "C41_pruning_policy_needs_all_maskers",
    "C41_forward_only_ignored_refuted",
    "C41_gradient_hook_leak_refuted"
   ],
   "note": ""
  },
  {
   "property": "C42",
   "status": "proved",
   "theorems": [
    "C42_lr_steps"
   ],
   "note": ""
  },
  {
   "property": "C43",
   "status": "proved",
   "theorems": [
    "C43_constructor_check",
    "C43_gradient_hook"
   ],
   "note": ""
  },
  {
   "property": "C44",
   "status": "proved",
   "theorems": [
    "C44_filter_blocks",
    "C44_kernel_blocks",
    "C44_block_shapes",
    "C44_super_block_refuted",
    "C44_errors",
    "C44_block_sparsity",
    "C44_filter_block_sparsity"
   ],
   "note": "General block view plus the documented special cases; r>1, 1<d<C is refuted."
  },
  {
   "property": "C45",
   "status": "proved",
   "theorems": [
    "C45_min_max",
    "C45_min_max_per_dim",
    "C45_per_dim_error",
    "C45_avg_min_max",
    "C45_max_abs",
    "C45_mean_n_stds",
    "C45_n_stds_error",
    "C45_aciq",
    "C45_alpha_laplace",
    "C45_alpha_tables"
   ],
   "note": "Means and extrema are exact rationals; the standard deviation is a parameter."
  },
  {
   "property": "C46",
   "status": "proved",
   "theorems": [
    "C46_metadata_source",
    "C46_prepare_twice",
    "C46_dynamic_input_error",
    "C46_custom_override_params",
    "C46_custom_override_error_refuted"
   ],
   "note": "Custom overrides are refuted by a concrete input."
  },
  {
   "property": "C47",
   "status": "proved",
   "theorems": [
    "C47_asymmetric_roundtrip",
    "C47_symmetric_restricted_roundtrip",
    "C47_signed_asymmetric_getter_refuted",
    "C47_weight_clipping_refuted",
    "C47_weight_clipping_ignores_restriction",
    "C47_scalar_clipping"
   ],
   "note": "Signed asymmetric getter and symmetric weight clipping are refuted."
  },
  {
   "property": "C48",
   "status": "proved",
   "theorems": [
    "C48_clip_min_max",
    "C48_clip_averages",
    "C48_inverted_average_refuted"
   ],
   "note": ""
  },
  {
   "property": "C49",
   "status": "proved",
   "theorems": [
    "C49_training_history_equiv",
    "C49_single_value_raises",
    "C49_freezing_step",
    "C49_freezing_step_output_refuted"
   ],
   "note": "Bisimulation with torch batch-norm; the freezing step output is refuted."
  },
  {
   "property": "C50",
   "status": "proved",
   "theorems": [
    "C50_fused_consecutive",
    "C50_pairs_complete",
    "C50_pairs_sound",
    "C50_fold_preserves_graph",
    "C50_fold_removes_bn",
    "C50_unconnected_fused_refuted",
    "C50_split_fused_refuted",
    "C50_overlapping_match_missed_refuted"
   ],
   "note": "Graphs in execution order; three findings as _refuted."
  },
  {
   "property": "C51",
   "status": "proved",
   "theorems": [
    "C51_exit_choice",
    "C51_every_sample_counted_once",
    "C51_total_accuracy",
    "C51_missing_threshold",
    "C51_training_loss",
    "C51_training_loss_is_a_mean",
    "C51_untraversed_exit_refuted"
   ],
   "note": "Losses and correctness per exit are arbitrary."
  },
  {
   "property": "C52",
   "status": "proved",
   "theorems": [
    "C52_epoch",
    "C52_minibatch",
    "C52_accuracy_before_epoch_end",
    "C52_run_is_a_history",
    "C52_saved_weights_are_pruned",
    "C52_continue",
    "C52_saved_accuracy_refuted"
   ],
   "note": "The loop is connected to the scheduler model; losses, updates and accuracies are arbitrary functions."
  },
  {
   "property": "C53",
   "status": "proved",
   "theorems": [
    "C53_none_and_avg",
    "C53_n_std",
    "C53_n_std_error",
    "C53_scale_approximation"
   ],
   "note": "ACIQ clipping of statistics is C48."
  },
  {
   "property": "C54",
   "status": "proved",
   "theorems": [
    "C54_prepare_model",
    "C54_prepare_twice",
    "C54_shared_modules_same_wrapper",
    "C54_shared_unreplaced_refuted",
    "C54_shared_siblings_refuted",
    "C54_container_wrapper_refuted"
   ],
   "note": "Module trees of any size; sharing and container wrappers are refuted by concrete models."
  },
  {
   "property": "C55",
   "status": "proved",
   "theorems": [
    "C55_float_copy",
    "C55_no_float_copy",
    "C55_prepared_separate",
    "C55_inputs_quantized_once",
    "C55_second_model_refuted"
   ],
   "note": "Any quantization function and any number of steps; class patching is modelled by an explicit call stack."
  },
  {
   "property": "C56",
   "status": "proved",
   "theorems": [
    "C56_replay",
    "C56_saved_recipes"
   ],
   "note": "Replay is loaded=True, optimizer None; training steps may change all values but no shapes."
  },
  {
   "property": "C57",
   "status": "proved",
   "theorems": [
    "C57_search",
    "C57_once",
    "C57_twice_refuted"
   ],
   "note": "Names without DataParallel prefixes; the fuel of the model is proved sufficient."
  },
  {
   "property": "C58",
   "status": "proved",
   "theorems": [
    "C58_record_statistics",
    "C58_collect_quant_stats",
    "C58_reusable",
    "C58_modules_to_collect_refuted",
    "C58_never_called_refuted"
   ],
   "note": "Over Coq.Reals (square roots); one output tensor per call; partial updates of a callback that raises are not modelled."
  },
  {
   "property": "C59",
   "status": "proved",
   "theorems": [
    "C59_single_batch",
    "C59_bounds",
    "C59_actual_update",
    "C59_average_refuted"
   ],
   "note": "Over Coq.Reals."
  },
  {
   "property": "C60",
   "status": "proved",
   "theorems": [
    "C60_collected_modules",
    "C60_context",
    "C60_each_call_once",
    "C60_not_observing_after",
    "C60_independent_of_history",
    "C60_exception_leaves_hooks_refuted",
    "C60_shared_module_twice_refuted",
    "C60_raw_outputs",
    "C60_raw_unequal_refuted",
    "C60_raw_value_then_forward_refuted"
   ],
   "note": "Generic in the collector: fresh record, callback, and what start does to an existing record. Modules are a tree with object identities."
  },
  {
   "property": "C61",
   "status": "proved",
   "theorems": [
    "C61_exact",
    "C61_total",
    "C61_centroids",
    "C61_clamp",
    "C61_succeeds",
    "C61_never_called_refuted",
    "C61_constant_refuted"
   ],
   "note": "Over exact rationals; torch.histc modelled from its documentation and the torch 1.3 CPU implementation."
  },
  {
   "property": "C62",
   "status": "proved",
   "theorems": [
    "C62_meter",
    "C62_meter_total",
    "C62_activation_sparsity"
   ],
   "note": "Over Coq.Reals; a scalar meter (tensor-valued meters are element-wise)."
  },
  {
   "property": "C63",
   "status": "proved",
   "theorems": [
    "C63_forward",
    "C63_packed",
    "C63_dropout_recurrent_refuted",
    "C63_cell_no_state_refuted",
    "C63_cell_no_state_rows_refuted",
    "C63_packed_unsorted_refuted"
   ],
   "note": "Over exact rationals; sigmoid and tanh are arbitrary functions; widths are assumed to fit. bidirectional_type 1 is not modelled."
  },
  {
   "property": "C64",
   "status": "proved",
   "theorems": [
    "C64_to_from",
    "C64_from_to",
    "C64_convert",
    "C64_shared_refuted"
   ],
   "note": "Parameters as a function of (kind, gate, layer, direction)."
  },
  {
   "property": "C65",
   "status": "proved",
   "theorems": [
    "C65_adjacency",
    "C65_symmetric",
    "C65_history",
    "C65_missing_modules",
    "C65_missing_after_dedicated",
    "C65_cache_refuted"
   ],
   "note": "The trace is the input; DataParallel models (denormalised names) are not modelled. Cache defects stated as C65_cache_refuted and C65_missing_after_dedicated."
  },
  {
   "property": "C66",
   "status": "proved",
   "theorems": [
    "C66_topological_order",
    "C66_after_dedicated_refuted",
    "C66_cycle",
    "C66_no_root"
   ],
   "note": "Python recursion is bounded by fuel (RecursionError is modelled as its superclass RuntimeError)."
  },
  {
   "property": "C67",
   "status": "proved",
   "theorems": [
    "C67_scope_name",
    "C67_operations",
    "C67_trace",
    "C67_trace_order",
    "C67_name_clash_refuted",
    "C67_tensor_clash_refuted",
    "C67_module_lists",
    "C67_list_clash_refuted"
   ],
   "note": "Regular expression of the scope as a scanner; __merge_pad_avgpool and the dropout work-around are not part of this claim."
  },
  {
   "property": "C68",
   "status": "proved",
   "theorems": [
    "C68_weights_table",
    "C68_masks_table",
    "C68_nnz_float_refuted"
   ],
   "note": "Exact arithmetic; the double-precision defect is stated with the standard library SpecFloat. Structure percentages build on C39."
  },
  {
   "property": "C69",
   "status": "proved",
   "theorems": [
    "C69_rows",
    "C69_linear_rows",
    "C69_linear_batch_refuted",
    "C69_shared_module_refuted",
    "C69_rows_per_call",
    "C69_precision"
   ],
   "note": "The forward pass is the sequence of its calls. MACs are compared with the number of tuples of the loop nest (counts), not with a formula."
  },
  {
   "property": "C70",
   "status": "proved",
   "theorems": [
    "C70_conv",
    "C70_gemm",
    "C70_others",
    "C70_intensity",
    "C70_total",
    "C70_missing_shape"
   ],
   "note": "Shapes come from the trace; groups are positive."
  },
  {
   "property": "C71",
   "status": "proved",
   "theorems": [
    "C71_non_parallel_copy",
    "C71_no_wrapper",
    "C71_nested_refuted",
    "C71_shared_refuted"
   ],
   "note": "Tree of modules with identities; deepcopy is the identity on the model values."
  },
  {
   "property": "C72",
   "status": "proved",
   "theorems": [
    "C72_schedule",
    "C72_component",
    "C72_accepts",
    "C72_bad_policy",
    "C72_one_quantizer",
    "C72_second_use",
    "C72_missing_policies_refuted",
    "C72_by_class"
   ],
   "note": "Constructors, policies and the scheduler are arbitrary functions that may raise; an example instantiates the model of the scheduler. YAML parsing and messages are not modelled."
  },
  {
   "property": "C73",
   "status": "proved",
   "theorems": [
    "C73_l1_loss",
    "C73_group_lasso_conv",
    "C73_group_lasso_matrix",
    "C73_group_lasso_channels",
    "C73_lasso_meaning",
    "C73_group_lasso_errors",
    "C73_channels_4d_refuted",
    "C73_variance_loss",
    "C73_l1_threshold",
    "C73_group_threshold",
    "C73_threshold_groups_refuted"
   ],
   "note": "Square roots are real numbers (axioms of the standard reals); gradients are not modelled. Thresholds build on C18."
  },
  {
   "property": "C74",
   "status": "proved",
   "theorems": [
    "C74_masked_weights",
    "C74_every_16th",
    "C74_replace",
    "C74_bias_refuted",
    "C74_replacement_refuted"
   ],
   "note": "The random draw and the initial weights are arbitrary. A module tree has no shared modules."
  },
  {
   "property": "C75",
   "status": "proved",
   "theorems": [
    "C75_same_values",
    "C75_per_channel",
    "C75_refused",
    "C75_reduce_range",
    "C75_engine",
    "C75_reduce_overflow_refuted",
    "C75_reduce_symmetric_refuted",
    "C75_saturation_lost_refuted"
   ],
   "note": "PyTorch quantize/dequantize is a small separate specification (PtqSpec) with arbitrary rounding of ties; exact rationals."
  },
  {
   "property": "C76",
   "status": "proved",
   "theorems": [
    "C76_same_values",
    "C76_refused",
    "C76_qint32_refuted"
   ],
   "note": "Conversions to an integer type outside its range wrap in the model (undefined in PyTorch); the theorem shows they do not happen."
  },
  {
   "property": "C77",
   "status": "proved",
   "theorems": [
    "C77_layer_parameters",
    "C77_output_close",
    "C77_asymmetric_after_forward_refuted",
    "C77_no_bias_refuted",
    "C77_integral_bias_refuted",
    "C77_refused"
   ],
   "note": "The native layer is specified as the float layer on dequantized inputs and weights with one final quantization; builds on C31 and C75."
  },
  {
   "property": "C78",
   "status": "proved",
   "theorems": [
    "C78_equivalent",
    "C78_float_output",
    "C78_all_modules_called",
    "C78_eight_bits_convert",
    "C78_refused",
    "C78_reused_module_refuted"
   ],
   "note": "The forward of a container is a straight-line program over module calls and other functions; tensors, quantize and dequantize are arbitrary (the two facts used are hypotheses). Nested tuples of tensors and shared modules are not modelled."
  },
  {
   "property": "C79",
   "status": "proved",
   "theorems": [
    "C79_graph",
    "C79_well_formed",
    "C79_connections",
    "C79_reachable",
    "C79_shared_pad_refuted",
    "C79_stale_pad_refuted"
   ],
   "note": "The trace after ONNX optimisation is the input of the model (as in C67); attributes of operations are not modelled."
  },
  {
   "property": "C80",
   "status": "proved",
   "theorems": [
    "C80_dropout_scopes",
    "C80_shared_dropout_refuted",
    "C80_functional_dropout_refuted"
   ],
   "note": "What ONNX does to scope names is taken from the comment in the source and is part of the specification (onnx_scope)."
  },
  {
   "property": "C81",
   "status": "proved",
   "theorems": [
    "C81_analysis",
    "C81_increasing_levels",
    "C81_illegal_arguments",
    "C81_small_level_raises",
    "C81_level_order_refuted",
    "C81_substring_refuted",
    "C81_csv"
   ],
   "note": "The test function is any function of the weights; parameters shared under several names are not modelled; C81_analysis covers every order of levels and every naming, C81_increasing_levels is the documented reading."
  },
  {
   "property": "C82",
   "status": "proved",
   "theorems": [
    "C82_local",
    "C82_greedy",
    "C82_completes",
    "C82_candidates",
    "C82_default_uniform",
    "C82_fp16_refuted",
    "C82_half_range_refuted",
    "C82_with_inputs",
    "C82_different_keys_refuted",
    "C82_two_inputs_refuted"
   ],
   "note": "Quantizing a copy of the model and evaluating it is an arbitrary function of the overrides (score); NaN scores, DataParallel models and the collection of statistics are not modelled; the file is taken as run as a program (imported, its msglogger is None and its global model undefined)."
  },
  {
   "property": "C83",
   "status": "proved",
   "theorems": [
    "C83_resume",
    "C83_resume_default",
    "C83_resume_with_inputs_refuted",
    "C83_inputs_kept"
   ],
   "note": "Writing and reading the YAML checkpoint is the identity."
  },
  {
   "property": "C84",
   "status": "proved",
   "theorems": [
    "C84_prune_tensor",
    "C84_candidate",
    "C84_most_robust",
    "C84_pruned_wins",
    "C84_run",
    "C84_completion_refuted",
    "C84_target_met",
    "C84_stuck_refuted",
    "C84_terminates"
   ],
   "note": "Fine-tuning, filter removal and testing are one arbitrary function; the cost is an arbitrary function of the weights; the loop runs with fuel and the theorems hold for every fuel (Running = the fuel ended first). NaN results are not modelled."
  },
  {
   "property": "C85",
   "status": "proved",
   "theorems": [
    "C85_vector",
    "C85_roundtrip",
    "C85_vector_exists",
    "C85_suffix_refuted",
    "C85_model_names",
    "C85_validation",
    "C85_scales_only",
    "C85_initial_point",
    "C85_clipping_values",
    "C85_initial_point_clipping_refuted"
   ],
   "note": "Weights per tensor, no scale approximation; names and values arbitrary; exact rationals."
  },
  {
   "property": "C86",
   "status": "proved",
   "theorems": [
    "C86_search",
    "C86_start",
    "C86_reapply_scales",
    "C86_reapply_clipping",
    "C86_scales_keep_integers",
    "C86_clipping_requantizes",
    "C86_first_forward",
    "C86_clipping_needs_outputs",
    "C86_cmdline",
    "C86_returned_model_refuted",
    "C86_restore_clipping_refuted",
    "C86_stale_weights_refuted",
    "C86_asymmetric_unshifted_refuted"
   ],
   "note": "The evaluation function is any function of the state of the wrappers after a forward pass; scipy is represented by the calls it makes; the initialisation (init_linear_quant_params) is C93: the theorems start from any prepared model."
  },
  {
   "property": "C87",
   "status": "proved",
   "theorems": [
    "C87_folded_stats",
    "C87_folded_stats_succeed",
    "C87_clipped_outputs",
    "C87_clipped_inputs",
    "C87_clipping_succeeds",
    "C87_clipping_harmless"
   ],
   "note": "The graph is an input (C65); names under which statistics are kept must differ after normalization, as for distinct modules."
  },
  {
   "property": "C88",
   "status": "proved",
   "theorems": [
    "C88_prepared_computes",
    "C88_identity_after_relu",
    "C88_also_returned_layer_refuted",
    "C88_relu6_dynamic_refuted",
    "C88_shared_relu_refuted",
    "C88_relu6_gauss_refuted"
   ],
   "note": "A model is a straight-line program with an ideal (real-number) semantics of wrappers: ReLU and saturation are kept, rounding is not (C30, C31 bound it). Clipping mode NONE; batch normalizations folded before (C50). Modules called several times are excluded by hypothesis and refuted."
  },
  {
   "property": "C89",
   "status": "proved",
   "theorems": [
    "C89_lookup",
    "C89_bad_index",
    "C89_next_layer",
    "C89_error",
    "C89_needs_float_copy",
    "C89_clipping_asymmetric",
    "C89_quantizer_set_refuted",
    "C89_stale_metadata_refuted",
    "C89_convert",
    "C89_convert_float_copy_refuted",
    "C89_no_weight_bits_refuted",
    "C89_parameters",
    "C89_n_stds_missing",
    "C89_clipping_symmetric",
    "C89_read_clipping",
    "C89_read_clipping_refuted"
   ],
   "note": "Exact rationals; no max_norm/padding; the mean of an empty tensor is refused; torch.std is any function."
  },
  {
   "property": "C90",
   "status": "proved",
   "theorems": [
    "C90_convert",
    "C90_float_wrapper",
    "C90_precisions",
    "C90_fake_forward",
    "C90_fake_error",
    "C90_fake_pass_through",
    "C90_view_overwritten_refuted",
    "C90_output_parameters",
    "C90_input_parameters",
    "C90_missing_input_statistics",
    "C90_quantized_inputs"
   ],
   "note": "The wrapped module is any function of its input tensors, possibly returning a view of one of them; what float16 does to a value is any function (cast)."
  },
  {
   "property": "C91",
   "status": "proved",
   "theorems": [
    "C91_unknown_argument",
    "C91_settings",
    "C91_kind",
    "C91_refines",
    "C91_not_fake_refuted",
    "C91_unquantized_with_argument_refuted",
    "C91_embedding_clip_name_refuted",
    "C91_fp16_ignored_refuted",
    "C91_fp16_conflict",
    "C91_relu_aciq_refuted",
    "C91_rebuild_refuted",
    "C91_unknown_clip",
    "C91_weight_parameters",
    "C91_relu_statistics"
   ],
   "note": "What computing the parameters of weights and embeddings can raise is an arbitrary function of the settings (C45, C53); keys of input overrides that are not accepted are not modelled; the tensors in the wrappers are C31, C53, C89, C90."
  },
  {
   "property": "C92",
   "status": "proved",
   "theorems": [
    "C92_arguments",
    "C92_layers",
    "C92_dot_refuted",
    "C92_not_offered"
   ],
   "note": "Without a configuration file. Layer names as torch makes them (no regular-expression characters but dots)."
  },
  {
   "property": "C93",
   "status": "proved",
   "theorems": [
    "C93_mode_names",
    "C93_loss",
    "C93_layer_input",
    "C93_layer_input_refuted",
    "C93_last_tried",
    "C93_values_kept",
    "C93_not_best_refuted",
    "C93_layer",
    "C93_model",
    "C93_wrappers_initialised",
    "C93_missing_mode"
   ],
   "note": "No DataParallel. scipy is represented by the vectors it tries, all of the right length. One-layer results hold unless weights are shifted in place by the forward pass (asymmetric weights with quantized activations: C86). What the predecessor of a ReLU is at that time is arbitrary."
  },
  {
   "property": "C94",
   "status": "proved",
   "theorems": [
    "C94_episode",
    "C94_step",
    "C94_prev_action_late",
    "C94_real_cost",
    "C94_dependencies",
    "C94_dependencies_found",
    "C94_network_details",
    "C94_refused",
    "C94_no_dependents_refuted",
    "C94_shared_channels_refuted",
    "C94_duplicate_dependents_refuted",
    "C94_grouped",
    "C94_single_channel_refuted",
    "C94_float_assertion_refuted"
   ],
   "note": "Exact rationals for floats (math.isclose and == are equality; C94_float_assertion_refuted shows that in double precision the equality asserted can fail). What the pruner removes is an arbitrary function of the state. Training, validation, thinning and reconstruction are not modelled. sound is proved of every description get_network_details makes (C94_network_details)."
  },
  {
   "property": "C95",
   "status": "proved",
   "theorems": [
    "C95_target",
    "C95_target_exact",
    "C95_l1_pruner",
    "C95_ties_refuted",
    "C95_target_l1",
    "C95_rounding_refuted",
    "C95_uncovered_refuted"
   ],
   "note": "coverable is a condition on the list of layers (chains satisfy it: example); the loss to rounding is a parameter, instantiated for the L1-norm pruner in C95_target_l1."
  },
  {
   "property": "C96",
   "status": "proved",
   "theorems": [
    "C96_clipped",
    "C96_ppo",
    "C96_ppo_out_of_range_refuted",
    "C96_discrete",
    "C96_constrained",
    "C96_experimental",
    "C96_punish",
    "C96_harmonic",
    "C96_session",
    "C96_features"
   ],
   "note": "The accuracy-guaranteed reward (a logarithm) is not modelled; rewards are rational."
  },
  {
   "property": "C97",
   "status": "proved",
   "theorems": [
    "C97_files",
    "C97_refused",
    "C97_crash",
    "C97_survivor",
    "C97_crash_refuted",
    "C97_two_crashes_refuted"
   ],
   "note": "A crash is a prefix of the single writes, in order (what the operating system shows after the process dies; a power failure with reordered writes is not modelled). torch.save is an arbitrary function to bytes."
  },
  {
   "property": "C98",
   "status": "proved",
   "theorems": [
    "C98_saved",
    "C98_loaded",
    "C98_lean",
    "C98_created",
    "C98_round_trip",
    "C98_parallel",
    "C98_unusable",
    "C98_missing",
    "C98_wrong_arch",
    "C98_own_arch_refuted",
    "C98_parallel_refuted",
    "C98_groups_refuted"
   ],
   "note": "torch.load after torch.save is the identity; thinning, quantizers, creation and conversion of models and constructors of optimizers are arbitrary functions (the round trips are stated without recipes and quantizer; with them C98_loaded applies). Devices are not modelled."
  },
  {
   "property": "C99",
   "status": "proved",
   "theorems": [
    "C99_attach",
    "C99_same_function",
    "C99_outputs",
    "C99_forward",
    "C99_forward_succeeds",
    "C99_unknown",
    "C99_nested_refuted",
    "C99_same_exit_refuted",
    "C99_data_parallel_refuted"
   ],
   "note": "Modules call their children in a straight line (each on a value computed before; a child may be called several times); no module object is used in two places; no exit is named with the empty name (the model itself). A forward pass that raises changes nothing in the model (in the code some branch outputs may have been set). DataParallel on one device."
  },
  {
   "property": "C100",
   "status": "proved",
   "theorems": [
    "C100_created",
    "C100_builtin",
    "C100_user",
    "C100_registered",
    "C100_datasets",
    "C100_pretrained",
    "C100_user_pretrained_refuted",
    "C100_capital_refuted",
    "C100_not_a_model_refuted",
    "C100_masked_error_refuted",
    "C100_own_shape_refuted",
    "C100_inception_shape",
    "C100_inception_shape_refuted"
   ],
   "note": "What the packages contain is an arbitrary dictionary of constructors, which return a network or raise; ASCII names. Error texts, devices and the patch of MobileNetV2 (an arbitrary function) are not modelled."
  },
  {
   "property": "C101",
   "status": "proved",
   "theorems": [
    "C101_dummy_input",
    "C101_valid_has_input",
    "C101_refused",
    "C101_negative",
    "C101_dataset"
   ],
   "note": "bool counts as other; random contents are not modelled."
  },
  {
   "property": "C102",
   "status": "proved",
   "theorems": [
    "C102_clipped_activation",
    "C102_clipped_activation_elements",
    "C102_learned_clip",
    "C102_learned_clip_elements",
    "C102_learned_clip_degenerate",
    "C102_wrpn_weights",
    "C102_dorefa_weights",
    "C102_binary_weights",
    "C102_clipped_activation_forward",
    "C102_learned_clip_forward",
    "C102_wrpn_weights_forward",
    "C102_dorefa_weights_forward",
    "C102_pact_optimizer",
    "C102_pact_optimizer_taken",
    "C102_step",
    "C102_training_goes_on_refuted"
   ],
   "note": "Real numbers; the derivatives of the PyTorch primitives are trusted (derivatives.yaml of PyTorch 1.3), composed as the code composes them. Off the kinks; at kinks the _elements theorems say what is passed. DoReFa weights: the largest magnitude is unique and not 0 (with a tie PyTorch picks one, for all-zero weights the values are NaN, C29). SGD without momentum."
  },
  {
   "property": "C103",
   "status": "proved",
   "theorems": [
    "C103_fresh_session",
    "C103_interrupted_training",
    "C103_no_schedule",
    "C103_reset",
    "C103_deprecated_resume",
    "C103_lr_ignored",
    "C103_new_lr_scheduler_refuted",
    "C103_parameter_groups_refuted",
    "C103_evaluate",
    "C103_policy_over_refuted",
    "C103_two_schedulers_refuted",
    "C103_plateau_refuted"
   ],
   "note": "Rates are values of any type; LR schedulers of torch 1.3 that compute the rates from the initial ones and the epoch (StepLR, MultiStepLR, ExponentialLR, LambdaLR, distiller's own) and ReduceLROnPlateau; chainable schedulers of later torch versions are not modelled. Optimizers with one parameter group. A session that ends regularly is one whose last begun epoch is not run. Weights, masks and momentum: C98."
  },
  {
   "property": "C104",
   "status": "proved",
   "theorems": [
    "C104_ptq_settings",
    "C104_ptq_rebuilt",
    "C104_fp16_refuted",
    "C104_training_refuted",
    "C104_by_hand",
    "C104_override_bits",
    "C104_overrides_consumed_refuted",
    "C104_prepared_again"
   ],
   "note": "Values the constructors only hand on are opaque; the arguments of one call are a dictionary (positional arguments are not modelled). Statistics files hold dictionaries. The recorded dictionary is shared with the quantizer, so that it is the updated one that is saved (C104_prepared_again)."
  },
  {
   "property": "C105",
   "status": "proved",
   "theorems": [
    "C105_group_value",
    "C105_group_subgradient",
    "C105_group_derivative",
    "C105_channels_smooth",
    "C105_zero_stays",
    "C105_step",
    "C105_step_length",
    "C105_exact_zero",
    "C105_refused",
    "C105_combined_refuted",
    "C105_unlisted",
    "C105_l1",
    "C105_l1_step"
   ],
   "note": "Real numbers; dimensions are positive; the derivatives of the PyTorch primitives are trusted (the norm gets gradient 0 where it is 0), composed as the code composes them. SGD without momentum and weight decay, on the regularization loss alone. The group-variance loss has values (C45) but its gradient is not modelled."
  },
  {
   "property": "C106",
   "status": "proved",
   "theorems": [
    "C106_values",
    "C106_succeeds",
    "C106_fresh",
    "C106_inplace",
    "C106_inplace_succeeds",
    "C106_alias_refuted",
    "C106_failure_refuted",
    "C106_div",
    "C106_empty"
   ],
   "note": "Arbitrary element arithmetic; one element type (no promotion); arguments are the same tensor or do not overlap; torch broadcasting and the autograd check of in-place updates are modelled as documented."
  },
  {
   "property": "C107",
   "status": "proved",
   "theorems": [
    "C107_names",
    "C107_find",
    "C107_found",
    "C107_replace",
    "C107_attribute",
    "C107_missing_refuted",
    "C107_shared_refuted",
    "C107_shared_set_refuted",
    "C107_relative_refuted"
   ],
   "note": "Child names are plain (non-empty, no dots, different within a module), as torch enforces. The effect of model_setattr is which attribute of which module is written (registration as parameter or buffer: by torch). That every reachable module is listed is torch's; not proved here."
  },
  {
   "property": "C108",
   "status": "proved",
   "theorems": [
    "C108_density",
    "C108_sparsity",
    "C108_shown",
    "C108_total",
    "C108_empty",
    "C108_shown_refuted",
    "C108_tracker_refuted",
    "C108_nan_refuted"
   ],
   "note": "IEEE double precision by Flocq (binary64, nearest even), weights binary32; sizes below 2^53 (2^51 for the count shown). The earlier models of the sparsity tables and of the tracker use exact counts; this one says how far the computed ones are from them. abs, gt and sum of torch are exact (integers)."
  },
  {
   "property": "C109",
   "status": "proved",
   "theorems": [
    "C109_removes",
    "C109_batchnorm_refuted",
    "C109_downsample_refuted",
    "C109_fails_refuted",
    "C109_block",
    "C109_same_function_refuted"
   ],
   "note": "Whether a parameter is all zero is given (C108 shows density == 0 says so). Names are split at their dots already; int() of digits only. The gate lists are shared between the network and its blocks (same list objects), so that closing one takes effect in the block. Layers are arbitrary functions on flat tensors."
  },
  {
   "property": "C110",
   "status": "proved",
   "theorems": [
    "C110_ring",
    "C110_no_room",
    "C110_sample",
    "C110_ends",
    "C110_batch",
    "C110_first_step_refuted",
    "C110_one_step_refuted",
    "C110_window_refuted"
   ],
   "note": "Observations, actions and rewards are opaque; random indices are arbitrary lists within the ranges random.sample and random_integers guarantee; an exhausted list stands for a loop still running. Conversion to numpy arrays and the networks are not modelled; get_recent_state is unused and not modelled."
  },
  {
   "property": "C111",
   "status": "proved",
   "theorems": [
    "C111_scalars_filed_exactly",
    "C111_scalars_one_value_per_step",
    "C111_scalars_in_order",
    "C111_resumed_training_logs_the_same",
    "C111_resumed_with_another_batch_size_refuted",
    "C111_histograms_filed_by_step_of_epoch",
    "C111_histograms_of_epochs_collide_refuted",
    "C111_only_first_logger_gets_histograms",
    "C111_histograms_missing_from_second_logger_refuted",
    "C111_buffers_filed_exactly",
    "C111_buffers_one_value_per_writer_and_step",
    "C111_buffers_of_modules_with_children_refuted",
    "C111_list_in_one_graph_refuted",
    "C111_list_in_several_graphs",
    "C111_csv_buffer_file",
    "C111_csv_other_files",
    "C111_csv_files_distinct",
    "C111_csv_appends",
    "C111_csv_sparsity_of_last_call_only"
   ],
   "note": "Values are opaque (the contents of a histogram are a function of the tensor); a writer's file is the list of its records; total steps per epoch are integers as all the training loops of the repository compute them. CSV rows are not yet text (quoting and number format by the csv module). The same name twice in one list of buffers is excluded (two open handles on one file)."
  },
  {
   "property": "C112",
   "status": "proved",
   "theorems": [
    "C112_corpus",
    "C112_eos_in_text_refuted",
    "C112_batchify",
    "C112_batchify_succeeds",
    "C112_epoch_covers_all_rows",
    "C112_training_fails_iff",
    "C112_evaluate_value",
    "C112_evaluate_independent_of_bptt",
    "C112_evaluate_is_the_mean_refuted",
    "C112_evaluate_fails",
    "C112_some_bptt_fails_refuted",
    "C112_reports",
    "C112_first_report_refuted",
    "C112_interval_zero",
    "C112_last_model_is_tested",
    "C112_best_model",
    "C112_best_model_is_tested_refuted",
    "C112_interrupted",
    "C112_interrupted_in_first_epoch_refuted",
    "C112_best_model_lost_refuted"
   ],
   "note": "The network is an arbitrary function of hidden state and one row (unidirectional RNNs in evaluation, dropout off); losses are exact rationals, NaN only for validation losses; overflow of math.exp (losses above 709) is not modelled. torch RNNs raise RuntimeError on an empty sequence. An interruption falls between the actions on the two files; what torch.save leaves half-written counts as broken."
  },
  {
   "property": "C113",
   "status": "proved",
   "theorems": [
    "C113_output_positions",
    "C113_padding",
    "C113_samples",
    "C113_reconstruction_is_best",
    "C113_linear_reconstruction_is_best",
    "C113_solutions_exist",
    "C113_with_exact_solver",
    "C113_no_worse_than_masking",
    "C113_written",
    "C113_prunes",
    "C113_nothing_to_prune",
    "C113_refuses",
    "C113_ties_of_all_channels_refuted",
    "C113_one_image_or_position_refuted",
    "C113_last_batch_of_one_refuted",
    "C113_magnitude_function_ignored_refuted",
    "C113_amc_group_size_lost_refuted",
    "C113_channel_groups_refuted",
    "C113_strided_pointwise_refuted",
    "C113_wide_outputs_refuted",
    "C113_tall_outputs_refuted",
    "C113_dilated_refuted",
    "C113_bias_counted_twice_refuted"
   ],
   "note": "Numbers are exact rationals; the solver is any function whose value on the problem at hand is a least-squares solution (the hypothesis of the theorems; sklearn computes one in floating point; FmLs.v constructs one in exact arithmetic, so C113_with_exact_solver assumes nothing of it). F.conv2d, F.unfold, advanced indexing and squeeze are given their definitions. Draws are arbitrary positions within the ranges of np.random.randint. With a bias the fitted targets contain it: the optimality statement is about the bias-free convolution against these targets, C113_bias_counted_twice_refuted shows what this does to the layer."
  },
  {
   "property": "C114",
   "status": "proved",
   "theorems": [
    "C114_channel_statistics",
    "C114_apoz_range",
    "C114_l1_is_scaled_mean",
    "C114_linear_single_number_refuted",
    "C114_unsupported_shape",
    "C114_collected_means",
    "C114_collected_l1",
    "C114_split_and_order_irrelevant",
    "C114_inputs_are_one_batch",
    "C114_shared_module_refuted",
    "C114_records",
    "C114_records_consistent",
    "C114_records_reset",
    "C114_stop_and_restart",
    "C114_value_is_live_refuted",
    "C114_file_names",
    "C114_statistics_of_which_module",
    "C114_which_module_refuted",
    "C114_criterion"
   ],
   "note": "Over Coq's real numbers (standard library axioms of the reals): float rounding is not modelled. An empty activation is refused before anything is computed. The text test on RuntimeError messages in the callback is not modelled (the call raises either way); writing the workbooks is not modelled, only the file names."
  },
  {
   "property": "C115",
   "status": "proved",
   "theorems": [
    "C115_configs_kept",
    "C115_one_config",
    "C115_both_configs",
    "C115_config_arguments",
    "C115_stale_config_refuted",
    "C115_same_name_configs_refuted",
    "C115_log_directories_distinct",
    "C115_same_second_refuted",
    "C115_logs_kept",
    "C115_log_file_in_directory",
    "C115_absolute_name_refuted",
    "C115_links_exist",
    "C115_last_process_wins",
    "C115_mixed_links_refuted",
    "C115_last_finisher_refuted",
    "C115_crash_loses_links_refuted",
    "C115_makedirs_race_refuted",
    "C115_evaluation_deterministic",
    "C115_seed",
    "C115_deterministic_seed",
    "C115_gpu_list",
    "C115_cpu",
    "C115_negative_device_refuted",
    "C115_loaded_once",
    "C115_same_loaders",
    "C115_reload_refuted",
    "C115_quantized_with",
    "C115_quantizes_once",
    "C115_reused_statistics_refuted"
   ],
   "note": "Paths are POSIX strings; only the file-system errors named happen (a missing link on unlink, an existing one on symlink or makedirs, unreadable sources). Processes interleave between system calls, in any order. The texts of the logs, git / pip / CUDA details and the Python logging configuration are not modelled. Collecting statistics is an arbitrary function of the model and the share of the data; an empty statistics file name or dictionary counts as not given, as in the code. C115_makedirs_race_refuted is about two processes."
  },
  {
   "property": "C116",
   "status": "proved",
   "theorems": [
    "C116_ticket",
    "C116_ticket_exists",
    "C116_no_scheduler",
    "C116_optimizer_of_pruned_run_refuted",
    "C116_training_keeps_the_ticket",
    "C116_unpruned_zero_frozen_refuted",
    "C116_starts_at_epoch_one_refuted",
    "C116_freeze_training_refuted",
    "C116_freeze_all",
    "C116_adjust_dropout",
    "C116_every_dropout",
    "C116_progress_set_get",
    "C116_progress_own",
    "C116_progress_shared_refuted",
    "C116_progress_names_refuted",
    "C116_progress_stats"
   ],
   "note": "The two checkpoints are loaded into fresh models as apputils.load_checkpoint is modelled (C22, C24); the name of the file written is not modelled, nor printing. Training is a sequence of arbitrary updates of every parameter, each followed by on_minibatch_end of a scheduler without policies (with policies: C03). Attributes every Python object has (dunder names) are left out of the progress collector."
  },
  {
   "property": "C117",
   "status": "proved",
   "theorems": [
    "C117_grouped_batches",
    "C117_grouped_order",
    "C117_grouped_succeeds",
    "C117_small_groups_refuted",
    "C117_group_never_seen_refuted",
    "C117_bucketing_partition",
    "C117_bucketing_batches",
    "C117_bucketing_similar",
    "C117_small_data_refuted",
    "C117_same_samples_left_out_refuted",
    "C117_collate_seq",
    "C117_collate",
    "C117_unsort",
    "C117_filter",
    "C117_limited",
    "C117_segment",
    "C117_words",
    "C117_roundtrip",
    "C117_duplicate_token_refuted",
    "C117_special_in_vocabulary_refuted"
   ],
   "note": "Samples are their indices; torch.randperm and sort are arbitrary permutations (the sorted shards are any sorted ones); positive batch size and number of processes. Reading the files and joining words to text (separators) are not modelled; the distance of aspect ratios to their bins is not either (the group of a sample is given)."
  },
  {
   "property": "C118",
   "status": "proved",
   "theorems": [
    "C118_predict",
    "C118_item_score",
    "C118_eval_one",
    "C118_repeated",
    "C118_val_epoch",
    "C118_epochs_agree",
    "C118_listed_test_item_refuted",
    "C118_no_users_is_all_refuted",
    "C118_best",
    "C118_no_hits_refuted",
    "C118_resume_forgets_refuted",
    "C118_load",
    "C118_killed",
    "C118_killed_forever_refuted",
    "C118_errors_dropped_refuted",
    "C118_stale_refuted",
    "C118_samples",
    "C118_rated_everything_refuted",
    "C118_split_user",
    "C118_convert",
    "C118_test_item_is_candidate_refuted",
    "C118_trained_as_negative_refuted",
    "C118_test_item_outside_refuted"
   ],
   "note": "Scores are exact rationals (no NaN); NDCG is its position in the ranking (log 2 / log (i + 2)); random draws are given; files are missing, broken or complete. The network is any function that scores each pair by itself (dropout off, as in evaluation mode); NeuMF itself, its loss and its optimizer are not modelled. The CUDA copies with async=True, which Python 3.7 and later refuse to parse, are left out."
  },
  {
   "property": "C119",
   "status": "proved",
   "theorems": [
    "C119_greedy",
    "C119_padded",
    "C119_translate",
    "C119_batch_independent",
    "C119_words",
    "C119_complete",
    "C119_last_word_refuted",
    "C119_fails"
   ],
   "note": "The network is any encoder and decoder that satisfy the stated independence (in floating point, a batch may round differently); attention scores and log probabilities, which greedy_search ignores, are left out. beam_search (beam_size > 1) is not modelled. detokenize is a function that does not fail (C117 says when it fails)."
  },
  {
   "property": "C120",
   "status": "proved",
   "theorems": [
    "C120_smoothed",
    "C120_window_average",
    "C120_weights_in_window_refuted",
    "C120_value_max",
    "C120_median",
    "C120_synchronize",
    "C120_synchronize_twice_refuted",
    "C120_all_gather",
    "C120_reduce_dict",
    "C120_reduce_edges",
    "C120_reduce_other_names_refuted",
    "C120_log_every",
    "C120_log_every_fails",
    "C120_collate_fn",
    "C120_warmup"
   ],
   "note": "Exact rationals instead of floats; the collective operations act on the list of all processes at once (a process that does not take part would block, which is not modelled); names are numbers in alphabetical order; the bytes of pickle are parameters with loads after dumps the identity. The texts, the times and the memory that are printed are not modelled."
  }
 ]
}