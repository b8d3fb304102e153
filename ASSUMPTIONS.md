# Print Assumptions for every theorem (generated by tools/gen_assumptions.py)

| theorem | file | axioms |
|---|---|---|
| `C01_add_policy_accepts_iff_valid` | `PropertiesSched.v` | none (closed under the global context) |
| `C01_calls_exactly_as_scheduled` | `PropertiesSched.v` | none (closed under the global context) |
| `C01_range_membership` | `PropertiesSched.v` | none (closed under the global context) |
| `C02_keep_mask_ignored_refuted` | `PropertiesSched.v` | none (closed under the global context) |
| `C02_keep_mask_permanent` | `PropertiesSched.v` | none (closed under the global context) |
| `C02_last_epoch_flag` | `PropertiesSched.v` | none (closed under the global context) |
| `C02_last_epoch_work_never_runs` | `PropertiesSched.v` | none (closed under the global context) |
| `C03_mask_all_weights_exact` | `PropertiesSched.v` | none (closed under the global context) |
| `C03_pruned_weights_zero_after_step` | `PropertiesSched.v` | none (closed under the global context) |
| `C04_masking_idempotent` | `PropertiesSched.v` | none (closed under the global context) |
| `C04_masking_zeroes_exactly_the_pruned` | `PropertiesSched.v` | none (closed under the global context) |
| `C05_double_copies_restore` | `PropertiesSched.v` | none (closed under the global context) |
| `C05_double_copies_train_dense_weights` | `PropertiesSched.v` | none (closed under the global context) |
| `C05_two_policies_refuted` | `PropertiesSched.v` | none (closed under the global context) |
| `C06_regularization_mask_lifetime` | `PropertiesSched.v` | none (closed under the global context) |
| `C06_stale_flag_drops_pruning_mask_refuted` | `PropertiesSched.v` | none (closed under the global context) |
| `C06_threshold_destroys_pruning_mask_refuted` | `PropertiesSched.v` | none (closed under the global context) |
| `C07_epoch_begin_effect` | `PropertiesSched.v` | none (closed under the global context) |
| `C07_fold_batchnorm_refuted` | `PropertiesSched.v` | none (closed under the global context) |
| `C07_masks_recomputed_iff` | `PropertiesSched.v` | none (closed under the global context) |
| `C07_minibatch_begin_effect` | `PropertiesSched.v` | none (closed under the global context) |
| `C07_pruner_not_consulted_otherwise` | `PropertiesSched.v` | none (closed under the global context) |
| `C08_bad_policy_raises` | `PropertiesSched.v` | none (closed under the global context) |
| `C08_no_policy_no_change` | `PropertiesSched.v` | none (closed under the global context) |
| `C08_policies_are_chained` | `PropertiesSched.v` | none (closed under the global context) |
| `C08_regularizers_add_their_components` | `PropertiesSched.v` | none (closed under the global context) |
| `C09_checkpoint_round_trip` | `PropertiesSched.v` | none (closed under the global context) |
| `C09_dataparallel_checkpoint_round_trip` | `PropertiesSched.v` | none (closed under the global context) |
| `C09_dataparallel_state_loads` | `PropertiesSched.v` | none (closed under the global context) |
| `C09_dataparallel_without_scheduler_fails` | `PropertiesSched.v` | none (closed under the global context) |
| `C09_failed_load_replaces_a_prefix` | `PropertiesSched.v` | none (closed under the global context) |
| `C09_init_from_masks` | `PropertiesSched.v` | none (closed under the global context) |
| `C09_init_normalised_loses_all_masks_refuted` | `PropertiesSched.v` | none (closed under the global context) |
| `C09_missing_name_raises` | `PropertiesSched.v` | none (closed under the global context) |
| `C09_normalising_plain_state_refuted` | `PropertiesSched.v` | none (closed under the global context) |
| `C09_state_round_trip` | `PropertiesSched.v` | none (closed under the global context) |
| `C100_builtin` | `PropertiesCr.v` | none (closed under the global context) |
| `C100_capital_refuted` | `PropertiesCr.v` | none (closed under the global context) |
| `C100_created` | `PropertiesCr.v` | none (closed under the global context) |
| `C100_datasets` | `PropertiesCr.v` | none (closed under the global context) |
| `C100_inception_shape` | `PropertiesCr.v` | none (closed under the global context) |
| `C100_inception_shape_refuted` | `PropertiesCr.v` | none (closed under the global context) |
| `C100_masked_error_refuted` | `PropertiesCr.v` | none (closed under the global context) |
| `C100_not_a_model_refuted` | `PropertiesCr.v` | none (closed under the global context) |
| `C100_own_shape_refuted` | `PropertiesCr.v` | none (closed under the global context) |
| `C100_pretrained` | `PropertiesCr.v` | none (closed under the global context) |
| `C100_registered` | `PropertiesCr.v` | none (closed under the global context) |
| `C100_user` | `PropertiesCr.v` | none (closed under the global context) |
| `C100_user_pretrained_refuted` | `PropertiesCr.v` | none (closed under the global context) |
| `C101_dataset` | `PropertiesCr.v` | none (closed under the global context) |
| `C101_dummy_input` | `PropertiesCr.v` | none (closed under the global context) |
| `C101_negative` | `PropertiesCr.v` | none (closed under the global context) |
| `C101_refused` | `PropertiesCr.v` | none (closed under the global context) |
| `C101_valid_has_input` | `PropertiesCr.v` | none (closed under the global context) |
| `C102_binary_weights` | `PropertiesGrad.v` | ClassicalDedekindReals.sig_not_dec, ClassicalDedekindReals.sig_forall_dec, FunctionalExtensionality.functional_extensionality_dep |
| `C102_clipped_activation` | `PropertiesGrad.v` | ClassicalDedekindReals.sig_forall_dec, FunctionalExtensionality.functional_extensionality_dep |
| `C102_clipped_activation_elements` | `PropertiesGrad.v` | ClassicalDedekindReals.sig_forall_dec, FunctionalExtensionality.functional_extensionality_dep |
| `C102_clipped_activation_forward` | `PropertiesGrad.v` | ClassicalDedekindReals.sig_forall_dec, FunctionalExtensionality.functional_extensionality_dep |
| `C102_dorefa_weights` | `PropertiesGrad.v` | ClassicalDedekindReals.sig_not_dec, ClassicalDedekindReals.sig_forall_dec, FunctionalExtensionality.functional_extensionality_dep, Classical_Prop.classic |
| `C102_dorefa_weights_forward` | `PropertiesGrad.v` | ClassicalDedekindReals.sig_not_dec, ClassicalDedekindReals.sig_forall_dec, FunctionalExtensionality.functional_extensionality_dep, Classical_Prop.classic |
| `C102_learned_clip` | `PropertiesGrad.v` | ClassicalDedekindReals.sig_forall_dec, FunctionalExtensionality.functional_extensionality_dep |
| `C102_learned_clip_degenerate` | `PropertiesGrad.v` | ClassicalDedekindReals.sig_forall_dec, FunctionalExtensionality.functional_extensionality_dep |
| `C102_learned_clip_elements` | `PropertiesGrad.v` | ClassicalDedekindReals.sig_forall_dec, FunctionalExtensionality.functional_extensionality_dep |
| `C102_learned_clip_forward` | `PropertiesGrad.v` | ClassicalDedekindReals.sig_forall_dec, FunctionalExtensionality.functional_extensionality_dep |
| `C102_pact_optimizer` | `PropertiesGrad.v` | none (closed under the global context) |
| `C102_pact_optimizer_taken` | `PropertiesGrad.v` | none (closed under the global context) |
| `C102_step` | `PropertiesGrad.v` | ClassicalDedekindReals.sig_forall_dec |
| `C102_training_goes_on_refuted` | `PropertiesGrad.v` | ClassicalDedekindReals.sig_forall_dec, FunctionalExtensionality.functional_extensionality_dep |
| `C102_wrpn_weights` | `PropertiesGrad.v` | ClassicalDedekindReals.sig_forall_dec, FunctionalExtensionality.functional_extensionality_dep |
| `C102_wrpn_weights_forward` | `PropertiesGrad.v` | ClassicalDedekindReals.sig_forall_dec, FunctionalExtensionality.functional_extensionality_dep |
| `C103_deprecated_resume` | `PropertiesRsm.v` | none (closed under the global context) |
| `C103_evaluate` | `PropertiesRsm.v` | none (closed under the global context) |
| `C103_fresh_session` | `PropertiesRsm.v` | none (closed under the global context) |
| `C103_interrupted_training` | `PropertiesRsm.v` | none (closed under the global context) |
| `C103_lr_ignored` | `PropertiesRsm.v` | none (closed under the global context) |
| `C103_new_lr_scheduler_refuted` | `PropertiesRsm.v` | none (closed under the global context) |
| `C103_no_schedule` | `PropertiesRsm.v` | none (closed under the global context) |
| `C103_parameter_groups_refuted` | `PropertiesRsm.v` | none (closed under the global context) |
| `C103_plateau_refuted` | `PropertiesRsm.v` | none (closed under the global context) |
| `C103_policy_over_refuted` | `PropertiesRsm.v` | none (closed under the global context) |
| `C103_reset` | `PropertiesRsm.v` | none (closed under the global context) |
| `C103_two_schedulers_refuted` | `PropertiesRsm.v` | none (closed under the global context) |
| `C104_by_hand` | `PropertiesReb.v` | none (closed under the global context) |
| `C104_fp16_refuted` | `PropertiesReb.v` | none (closed under the global context) |
| `C104_override_bits` | `PropertiesReb.v` | none (closed under the global context) |
| `C104_overrides_consumed_refuted` | `PropertiesReb.v` | none (closed under the global context) |
| `C104_prepared_again` | `PropertiesReb.v` | none (closed under the global context) |
| `C104_ptq_rebuilt` | `PropertiesReb.v` | none (closed under the global context) |
| `C104_ptq_settings` | `PropertiesReb.v` | none (closed under the global context) |
| `C104_training_refuted` | `PropertiesReb.v` | none (closed under the global context) |
| `C105_channels_smooth` | `PropertiesRgr.v` | ClassicalDedekindReals.sig_not_dec, ClassicalDedekindReals.sig_forall_dec, FunctionalExtensionality.functional_extensionality_dep |
| `C105_combined_refuted` | `PropertiesRgr.v` | ClassicalDedekindReals.sig_not_dec, ClassicalDedekindReals.sig_forall_dec, FunctionalExtensionality.functional_extensionality_dep |
| `C105_exact_zero` | `PropertiesRgr.v` | ClassicalDedekindReals.sig_not_dec, ClassicalDedekindReals.sig_forall_dec, FunctionalExtensionality.functional_extensionality_dep |
| `C105_group_derivative` | `PropertiesRgr.v` | ClassicalDedekindReals.sig_not_dec, ClassicalDedekindReals.sig_forall_dec, FunctionalExtensionality.functional_extensionality_dep |
| `C105_group_subgradient` | `PropertiesRgr.v` | ClassicalDedekindReals.sig_not_dec, ClassicalDedekindReals.sig_forall_dec, FunctionalExtensionality.functional_extensionality_dep |
| `C105_group_value` | `PropertiesRgr.v` | ClassicalDedekindReals.sig_not_dec, ClassicalDedekindReals.sig_forall_dec, FunctionalExtensionality.functional_extensionality_dep |
| `C105_l1` | `PropertiesRgr.v` | ClassicalDedekindReals.sig_forall_dec, FunctionalExtensionality.functional_extensionality_dep |
| `C105_l1_step` | `PropertiesRgr.v` | ClassicalDedekindReals.sig_forall_dec, FunctionalExtensionality.functional_extensionality_dep |
| `C105_refused` | `PropertiesRgr.v` | ClassicalDedekindReals.sig_not_dec, ClassicalDedekindReals.sig_forall_dec, FunctionalExtensionality.functional_extensionality_dep |
| `C105_step` | `PropertiesRgr.v` | ClassicalDedekindReals.sig_not_dec, ClassicalDedekindReals.sig_forall_dec, FunctionalExtensionality.functional_extensionality_dep |
| `C105_step_length` | `PropertiesRgr.v` | ClassicalDedekindReals.sig_not_dec, ClassicalDedekindReals.sig_forall_dec, FunctionalExtensionality.functional_extensionality_dep |
| `C105_unlisted` | `PropertiesRgr.v` | ClassicalDedekindReals.sig_not_dec, ClassicalDedekindReals.sig_forall_dec, FunctionalExtensionality.functional_extensionality_dep |
| `C105_zero_stays` | `PropertiesRgr.v` | ClassicalDedekindReals.sig_not_dec, ClassicalDedekindReals.sig_forall_dec, FunctionalExtensionality.functional_extensionality_dep |
| `C106_alias_refuted` | `PropertiesElt.v` | none (closed under the global context) |
| `C106_div` | `PropertiesElt.v` | none (closed under the global context) |
| `C106_empty` | `PropertiesElt.v` | none (closed under the global context) |
| `C106_failure_refuted` | `PropertiesElt.v` | none (closed under the global context) |
| `C106_fresh` | `PropertiesElt.v` | none (closed under the global context) |
| `C106_inplace` | `PropertiesElt.v` | none (closed under the global context) |
| `C106_inplace_succeeds` | `PropertiesElt.v` | none (closed under the global context) |
| `C106_succeeds` | `PropertiesElt.v` | none (closed under the global context) |
| `C106_values` | `PropertiesElt.v` | none (closed under the global context) |
| `C107_attribute` | `PropertiesHier.v` | none (closed under the global context) |
| `C107_find` | `PropertiesHier.v` | none (closed under the global context) |
| `C107_found` | `PropertiesHier.v` | none (closed under the global context) |
| `C107_missing_refuted` | `PropertiesHier.v` | none (closed under the global context) |
| `C107_names` | `PropertiesHier.v` | none (closed under the global context) |
| `C107_relative_refuted` | `PropertiesHier.v` | none (closed under the global context) |
| `C107_replace` | `PropertiesHier.v` | none (closed under the global context) |
| `C107_shared_refuted` | `PropertiesHier.v` | none (closed under the global context) |
| `C107_shared_set_refuted` | `PropertiesHier.v` | none (closed under the global context) |
| `C108_density` | `PropertiesCnt.v` | ClassicalDedekindReals.sig_not_dec, ClassicalDedekindReals.sig_forall_dec, FunctionalExtensionality.functional_extensionality_dep, Classical_Prop.classic |
| `C108_empty` | `PropertiesCnt.v` | ClassicalDedekindReals.sig_not_dec, ClassicalDedekindReals.sig_forall_dec, FunctionalExtensionality.functional_extensionality_dep, Classical_Prop.classic |
| `C108_nan_refuted` | `PropertiesCnt.v` | ClassicalDedekindReals.sig_not_dec, ClassicalDedekindReals.sig_forall_dec, FunctionalExtensionality.functional_extensionality_dep, Classical_Prop.classic |
| `C108_shown` | `PropertiesCnt.v` | ClassicalDedekindReals.sig_not_dec, ClassicalDedekindReals.sig_forall_dec, FunctionalExtensionality.functional_extensionality_dep, Classical_Prop.classic |
| `C108_shown_refuted` | `PropertiesCnt.v` | ClassicalDedekindReals.sig_not_dec, ClassicalDedekindReals.sig_forall_dec, FunctionalExtensionality.functional_extensionality_dep, Classical_Prop.classic |
| `C108_sparsity` | `PropertiesCnt.v` | ClassicalDedekindReals.sig_not_dec, ClassicalDedekindReals.sig_forall_dec, FunctionalExtensionality.functional_extensionality_dep, Classical_Prop.classic |
| `C108_total` | `PropertiesCnt.v` | ClassicalDedekindReals.sig_not_dec, ClassicalDedekindReals.sig_forall_dec, FunctionalExtensionality.functional_extensionality_dep, Classical_Prop.classic |
| `C108_tracker_refuted` | `PropertiesCnt.v` | ClassicalDedekindReals.sig_not_dec, ClassicalDedekindReals.sig_forall_dec, FunctionalExtensionality.functional_extensionality_dep, Classical_Prop.classic |
| `C109_batchnorm_refuted` | `PropertiesRm.v` | none (closed under the global context) |
| `C109_block` | `PropertiesRm.v` | none (closed under the global context) |
| `C109_downsample_refuted` | `PropertiesRm.v` | none (closed under the global context) |
| `C109_fails_refuted` | `PropertiesRm.v` | none (closed under the global context) |
| `C109_removes` | `PropertiesRm.v` | none (closed under the global context) |
| `C109_same_function_refuted` | `PropertiesRm.v` | none (closed under the global context) |
| `C10_denormalize_restores_dataparallel` | `PropertiesSched.v` | none (closed under the global context) |
| `C10_normalize_removes_first_module` | `PropertiesSched.v` | none (closed under the global context) |
| `C10_normalize_undoes_dataparallel` | `PropertiesSched.v` | none (closed under the global context) |
| `C10_normalize_without_module` | `PropertiesSched.v` | none (closed under the global context) |
| `C10_split_join` | `PropertiesSched.v` | none (closed under the global context) |
| `C110_batch` | `PropertiesMem.v` | none (closed under the global context) |
| `C110_ends` | `PropertiesMem.v` | none (closed under the global context) |
| `C110_first_step_refuted` | `PropertiesMem.v` | none (closed under the global context) |
| `C110_no_room` | `PropertiesMem.v` | none (closed under the global context) |
| `C110_one_step_refuted` | `PropertiesMem.v` | none (closed under the global context) |
| `C110_ring` | `PropertiesMem.v` | none (closed under the global context) |
| `C110_sample` | `PropertiesMem.v` | none (closed under the global context) |
| `C110_window_refuted` | `PropertiesMem.v` | none (closed under the global context) |
| `C111_buffers_filed_exactly` | `PropertiesLog.v` | none (closed under the global context) |
| `C111_buffers_of_modules_with_children_refuted` | `PropertiesLog.v` | none (closed under the global context) |
| `C111_buffers_one_value_per_writer_and_step` | `PropertiesLog.v` | none (closed under the global context) |
| `C111_csv_appends` | `PropertiesLog.v` | none (closed under the global context) |
| `C111_csv_buffer_file` | `PropertiesLog.v` | none (closed under the global context) |
| `C111_csv_files_distinct` | `PropertiesLog.v` | none (closed under the global context) |
| `C111_csv_other_files` | `PropertiesLog.v` | none (closed under the global context) |
| `C111_csv_sparsity_of_last_call_only` | `PropertiesLog.v` | none (closed under the global context) |
| `C111_histograms_filed_by_step_of_epoch` | `PropertiesLog.v` | none (closed under the global context) |
| `C111_histograms_missing_from_second_logger_refuted` | `PropertiesLog.v` | none (closed under the global context) |
| `C111_histograms_of_epochs_collide_refuted` | `PropertiesLog.v` | none (closed under the global context) |
| `C111_list_in_one_graph_refuted` | `PropertiesLog.v` | none (closed under the global context) |
| `C111_list_in_several_graphs` | `PropertiesLog.v` | none (closed under the global context) |
| `C111_only_first_logger_gets_histograms` | `PropertiesLog.v` | none (closed under the global context) |
| `C111_resumed_training_logs_the_same` | `PropertiesLog.v` | none (closed under the global context) |
| `C111_resumed_with_another_batch_size_refuted` | `PropertiesLog.v` | none (closed under the global context) |
| `C111_scalars_filed_exactly` | `PropertiesLog.v` | none (closed under the global context) |
| `C111_scalars_in_order` | `PropertiesLog.v` | none (closed under the global context) |
| `C111_scalars_one_value_per_step` | `PropertiesLog.v` | none (closed under the global context) |
| `C112_batchify` | `PropertiesLm.v` | none (closed under the global context) |
| `C112_batchify_succeeds` | `PropertiesLm.v` | none (closed under the global context) |
| `C112_best_model` | `PropertiesLm.v` | none (closed under the global context) |
| `C112_best_model_is_tested_refuted` | `PropertiesLm.v` | none (closed under the global context) |
| `C112_best_model_lost_refuted` | `PropertiesLm.v` | none (closed under the global context) |
| `C112_corpus` | `PropertiesLm.v` | none (closed under the global context) |
| `C112_eos_in_text_refuted` | `PropertiesLm.v` | none (closed under the global context) |
| `C112_epoch_covers_all_rows` | `PropertiesLm.v` | none (closed under the global context) |
| `C112_evaluate_fails` | `PropertiesLm.v` | none (closed under the global context) |
| `C112_evaluate_independent_of_bptt` | `PropertiesLm.v` | none (closed under the global context) |
| `C112_evaluate_is_the_mean_refuted` | `PropertiesLm.v` | none (closed under the global context) |
| `C112_evaluate_value` | `PropertiesLm.v` | none (closed under the global context) |
| `C112_first_report_refuted` | `PropertiesLm.v` | none (closed under the global context) |
| `C112_interrupted` | `PropertiesLm.v` | none (closed under the global context) |
| `C112_interrupted_in_first_epoch_refuted` | `PropertiesLm.v` | none (closed under the global context) |
| `C112_interval_zero` | `PropertiesLm.v` | none (closed under the global context) |
| `C112_last_model_is_tested` | `PropertiesLm.v` | none (closed under the global context) |
| `C112_reports` | `PropertiesLm.v` | none (closed under the global context) |
| `C112_some_bptt_fails_refuted` | `PropertiesLm.v` | none (closed under the global context) |
| `C112_training_fails_iff` | `PropertiesLm.v` | none (closed under the global context) |
| `C113_amc_group_size_lost_refuted` | `PropertiesFm.v` | none (closed under the global context) |
| `C113_bias_counted_twice_refuted` | `PropertiesFm.v` | none (closed under the global context) |
| `C113_channel_groups_refuted` | `PropertiesFm.v` | none (closed under the global context) |
| `C113_dilated_refuted` | `PropertiesFm.v` | none (closed under the global context) |
| `C113_last_batch_of_one_refuted` | `PropertiesFm.v` | none (closed under the global context) |
| `C113_linear_reconstruction_is_best` | `PropertiesFm.v` | none (closed under the global context) |
| `C113_magnitude_function_ignored_refuted` | `PropertiesFm.v` | none (closed under the global context) |
| `C113_no_worse_than_masking` | `PropertiesFm.v` | none (closed under the global context) |
| `C113_nothing_to_prune` | `PropertiesFm.v` | none (closed under the global context) |
| `C113_one_image_or_position_refuted` | `PropertiesFm.v` | none (closed under the global context) |
| `C113_output_positions` | `PropertiesFm.v` | none (closed under the global context) |
| `C113_padding` | `PropertiesFm.v` | none (closed under the global context) |
| `C113_prunes` | `PropertiesFm.v` | none (closed under the global context) |
| `C113_reconstruction_is_best` | `PropertiesFm.v` | none (closed under the global context) |
| `C113_refuses` | `PropertiesFm.v` | none (closed under the global context) |
| `C113_samples` | `PropertiesFm.v` | none (closed under the global context) |
| `C113_solutions_exist` | `PropertiesFm.v` | none (closed under the global context) |
| `C113_strided_pointwise_refuted` | `PropertiesFm.v` | none (closed under the global context) |
| `C113_tall_outputs_refuted` | `PropertiesFm.v` | none (closed under the global context) |
| `C113_ties_of_all_channels_refuted` | `PropertiesFm.v` | none (closed under the global context) |
| `C113_wide_outputs_refuted` | `PropertiesFm.v` | none (closed under the global context) |
| `C113_with_exact_solver` | `PropertiesFm.v` | none (closed under the global context) |
| `C113_written` | `PropertiesFm.v` | none (closed under the global context) |
| `C114_apoz_range` | `PropertiesCh.v` | ClassicalDedekindReals.sig_forall_dec, FunctionalExtensionality.functional_extensionality_dep |
| `C114_channel_statistics` | `PropertiesCh.v` | ClassicalDedekindReals.sig_forall_dec, FunctionalExtensionality.functional_extensionality_dep |
| `C114_collected_l1` | `PropertiesCh.v` | ClassicalDedekindReals.sig_not_dec, ClassicalDedekindReals.sig_forall_dec, FunctionalExtensionality.functional_extensionality_dep |
| `C114_collected_means` | `PropertiesCh.v` | ClassicalDedekindReals.sig_not_dec, ClassicalDedekindReals.sig_forall_dec, FunctionalExtensionality.functional_extensionality_dep |
| `C114_criterion` | `PropertiesCh.v` | none (closed under the global context) |
| `C114_file_names` | `PropertiesCh.v` | none (closed under the global context) |
| `C114_inputs_are_one_batch` | `PropertiesCh.v` | ClassicalDedekindReals.sig_not_dec, ClassicalDedekindReals.sig_forall_dec, FunctionalExtensionality.functional_extensionality_dep |
| `C114_l1_is_scaled_mean` | `PropertiesCh.v` | ClassicalDedekindReals.sig_forall_dec, FunctionalExtensionality.functional_extensionality_dep |
| `C114_linear_single_number_refuted` | `PropertiesCh.v` | ClassicalDedekindReals.sig_forall_dec, FunctionalExtensionality.functional_extensionality_dep |
| `C114_records` | `PropertiesCh.v` | ClassicalDedekindReals.sig_not_dec, ClassicalDedekindReals.sig_forall_dec, FunctionalExtensionality.functional_extensionality_dep |
| `C114_records_consistent` | `PropertiesCh.v` | ClassicalDedekindReals.sig_not_dec, ClassicalDedekindReals.sig_forall_dec, FunctionalExtensionality.functional_extensionality_dep |
| `C114_records_reset` | `PropertiesCh.v` | ClassicalDedekindReals.sig_not_dec, ClassicalDedekindReals.sig_forall_dec, FunctionalExtensionality.functional_extensionality_dep |
| `C114_shared_module_refuted` | `PropertiesCh.v` | ClassicalDedekindReals.sig_not_dec, ClassicalDedekindReals.sig_forall_dec, FunctionalExtensionality.functional_extensionality_dep |
| `C114_split_and_order_irrelevant` | `PropertiesCh.v` | ClassicalDedekindReals.sig_not_dec, ClassicalDedekindReals.sig_forall_dec, FunctionalExtensionality.functional_extensionality_dep |
| `C114_statistics_of_which_module` | `PropertiesCh.v` | none (closed under the global context) |
| `C114_stop_and_restart` | `PropertiesCh.v` | ClassicalDedekindReals.sig_not_dec, ClassicalDedekindReals.sig_forall_dec, FunctionalExtensionality.functional_extensionality_dep |
| `C114_unsupported_shape` | `PropertiesCh.v` | ClassicalDedekindReals.sig_forall_dec, FunctionalExtensionality.functional_extensionality_dep |
| `C114_value_is_live_refuted` | `PropertiesCh.v` | ClassicalDedekindReals.sig_not_dec, ClassicalDedekindReals.sig_forall_dec, FunctionalExtensionality.functional_extensionality_dep |
| `C114_which_module_refuted` | `PropertiesCh.v` | none (closed under the global context) |
| `C115_absolute_name_refuted` | `PropertiesEnv.v` | none (closed under the global context) |
| `C115_both_configs` | `PropertiesEnv.v` | none (closed under the global context) |
| `C115_config_arguments` | `PropertiesEnv.v` | none (closed under the global context) |
| `C115_configs_kept` | `PropertiesEnv.v` | none (closed under the global context) |
| `C115_cpu` | `PropertiesEnv.v` | none (closed under the global context) |
| `C115_crash_loses_links_refuted` | `PropertiesEnv.v` | none (closed under the global context) |
| `C115_deterministic_seed` | `PropertiesEnv.v` | none (closed under the global context) |
| `C115_evaluation_deterministic` | `PropertiesEnv.v` | none (closed under the global context) |
| `C115_gpu_list` | `PropertiesEnv.v` | none (closed under the global context) |
| `C115_last_finisher_refuted` | `PropertiesEnv.v` | none (closed under the global context) |
| `C115_last_process_wins` | `PropertiesEnv.v` | none (closed under the global context) |
| `C115_links_exist` | `PropertiesEnv.v` | none (closed under the global context) |
| `C115_loaded_once` | `PropertiesEnv.v` | none (closed under the global context) |
| `C115_log_directories_distinct` | `PropertiesEnv.v` | none (closed under the global context) |
| `C115_log_file_in_directory` | `PropertiesEnv.v` | none (closed under the global context) |
| `C115_logs_kept` | `PropertiesEnv.v` | none (closed under the global context) |
| `C115_makedirs_race_refuted` | `PropertiesEnv.v` | none (closed under the global context) |
| `C115_mixed_links_refuted` | `PropertiesEnv.v` | none (closed under the global context) |
| `C115_negative_device_refuted` | `PropertiesEnv.v` | none (closed under the global context) |
| `C115_one_config` | `PropertiesEnv.v` | none (closed under the global context) |
| `C115_quantized_with` | `PropertiesEnv.v` | none (closed under the global context) |
| `C115_quantizes_once` | `PropertiesEnv.v` | none (closed under the global context) |
| `C115_reload_refuted` | `PropertiesEnv.v` | none (closed under the global context) |
| `C115_reused_statistics_refuted` | `PropertiesEnv.v` | none (closed under the global context) |
| `C115_same_loaders` | `PropertiesEnv.v` | none (closed under the global context) |
| `C115_same_name_configs_refuted` | `PropertiesEnv.v` | none (closed under the global context) |
| `C115_same_second_refuted` | `PropertiesEnv.v` | none (closed under the global context) |
| `C115_seed` | `PropertiesEnv.v` | none (closed under the global context) |
| `C115_stale_config_refuted` | `PropertiesEnv.v` | none (closed under the global context) |
| `C116_adjust_dropout` | `PropertiesLot.v` | none (closed under the global context) |
| `C116_every_dropout` | `PropertiesLot.v` | none (closed under the global context) |
| `C116_freeze_all` | `PropertiesLot.v` | none (closed under the global context) |
| `C116_freeze_training_refuted` | `PropertiesLot.v` | none (closed under the global context) |
| `C116_no_scheduler` | `PropertiesLot.v` | none (closed under the global context) |
| `C116_optimizer_of_pruned_run_refuted` | `PropertiesLot.v` | none (closed under the global context) |
| `C116_progress_names_refuted` | `PropertiesLot.v` | none (closed under the global context) |
| `C116_progress_own` | `PropertiesLot.v` | none (closed under the global context) |
| `C116_progress_set_get` | `PropertiesLot.v` | none (closed under the global context) |
| `C116_progress_shared_refuted` | `PropertiesLot.v` | none (closed under the global context) |
| `C116_progress_stats` | `PropertiesLot.v` | none (closed under the global context) |
| `C116_starts_at_epoch_one_refuted` | `PropertiesLot.v` | none (closed under the global context) |
| `C116_ticket` | `PropertiesLot.v` | none (closed under the global context) |
| `C116_ticket_exists` | `PropertiesLot.v` | none (closed under the global context) |
| `C116_training_keeps_the_ticket` | `PropertiesLot.v` | none (closed under the global context) |
| `C116_unpruned_zero_frozen_refuted` | `PropertiesLot.v` | none (closed under the global context) |
| `C117_bucketing_batches` | `PropertiesSmp.v` | none (closed under the global context) |
| `C117_bucketing_partition` | `PropertiesSmp.v` | none (closed under the global context) |
| `C117_bucketing_similar` | `PropertiesSmp.v` | none (closed under the global context) |
| `C117_collate` | `PropertiesSmp.v` | none (closed under the global context) |
| `C117_collate_seq` | `PropertiesSmp.v` | none (closed under the global context) |
| `C117_duplicate_token_refuted` | `PropertiesSmp.v` | none (closed under the global context) |
| `C117_filter` | `PropertiesSmp.v` | none (closed under the global context) |
| `C117_group_never_seen_refuted` | `PropertiesSmp.v` | none (closed under the global context) |
| `C117_grouped_batches` | `PropertiesSmp.v` | none (closed under the global context) |
| `C117_grouped_order` | `PropertiesSmp.v` | none (closed under the global context) |
| `C117_grouped_succeeds` | `PropertiesSmp.v` | none (closed under the global context) |
| `C117_limited` | `PropertiesSmp.v` | none (closed under the global context) |
| `C117_roundtrip` | `PropertiesSmp.v` | none (closed under the global context) |
| `C117_same_samples_left_out_refuted` | `PropertiesSmp.v` | none (closed under the global context) |
| `C117_segment` | `PropertiesSmp.v` | none (closed under the global context) |
| `C117_small_data_refuted` | `PropertiesSmp.v` | none (closed under the global context) |
| `C117_small_groups_refuted` | `PropertiesSmp.v` | none (closed under the global context) |
| `C117_special_in_vocabulary_refuted` | `PropertiesSmp.v` | none (closed under the global context) |
| `C117_unsort` | `PropertiesSmp.v` | none (closed under the global context) |
| `C117_words` | `PropertiesSmp.v` | none (closed under the global context) |
| `C118_best` | `PropertiesNcf.v` | none (closed under the global context) |
| `C118_convert` | `PropertiesNcf.v` | none (closed under the global context) |
| `C118_epochs_agree` | `PropertiesNcf.v` | none (closed under the global context) |
| `C118_errors_dropped_refuted` | `PropertiesNcf.v` | none (closed under the global context) |
| `C118_eval_one` | `PropertiesNcf.v` | none (closed under the global context) |
| `C118_item_score` | `PropertiesNcf.v` | none (closed under the global context) |
| `C118_killed` | `PropertiesNcf.v` | none (closed under the global context) |
| `C118_killed_forever_refuted` | `PropertiesNcf.v` | none (closed under the global context) |
| `C118_listed_test_item_refuted` | `PropertiesNcf.v` | none (closed under the global context) |
| `C118_load` | `PropertiesNcf.v` | none (closed under the global context) |
| `C118_no_hits_refuted` | `PropertiesNcf.v` | none (closed under the global context) |
| `C118_no_users_is_all_refuted` | `PropertiesNcf.v` | none (closed under the global context) |
| `C118_predict` | `PropertiesNcf.v` | none (closed under the global context) |
| `C118_rated_everything_refuted` | `PropertiesNcf.v` | none (closed under the global context) |
| `C118_repeated` | `PropertiesNcf.v` | none (closed under the global context) |
| `C118_resume_forgets_refuted` | `PropertiesNcf.v` | none (closed under the global context) |
| `C118_samples` | `PropertiesNcf.v` | none (closed under the global context) |
| `C118_split_user` | `PropertiesNcf.v` | none (closed under the global context) |
| `C118_stale_refuted` | `PropertiesNcf.v` | none (closed under the global context) |
| `C118_test_item_is_candidate_refuted` | `PropertiesNcf.v` | none (closed under the global context) |
| `C118_test_item_outside_refuted` | `PropertiesNcf.v` | none (closed under the global context) |
| `C118_trained_as_negative_refuted` | `PropertiesNcf.v` | none (closed under the global context) |
| `C118_val_epoch` | `PropertiesNcf.v` | none (closed under the global context) |
| `C119_batch_independent` | `PropertiesGen.v` | none (closed under the global context) |
| `C119_complete` | `PropertiesGen.v` | none (closed under the global context) |
| `C119_fails` | `PropertiesGen.v` | none (closed under the global context) |
| `C119_greedy` | `PropertiesGen.v` | none (closed under the global context) |
| `C119_last_word_refuted` | `PropertiesGen.v` | none (closed under the global context) |
| `C119_padded` | `PropertiesGen.v` | none (closed under the global context) |
| `C119_translate` | `PropertiesGen.v` | none (closed under the global context) |
| `C119_words` | `PropertiesGen.v` | none (closed under the global context) |
| `C11_cached_threshold_diverges_refuted` | `PropertiesSched.v` | none (closed under the global context) |
| `C11_forward_only_diverges_refuted` | `PropertiesSched.v` | none (closed under the global context) |
| `C11_resume_is_exact` | `PropertiesSched.v` | none (closed under the global context) |
| `C120_all_gather` | `PropertiesMet.v` | none (closed under the global context) |
| `C120_collate_fn` | `PropertiesMet.v` | none (closed under the global context) |
| `C120_log_every` | `PropertiesMet.v` | none (closed under the global context) |
| `C120_log_every_fails` | `PropertiesMet.v` | none (closed under the global context) |
| `C120_median` | `PropertiesMet.v` | none (closed under the global context) |
| `C120_reduce_dict` | `PropertiesMet.v` | none (closed under the global context) |
| `C120_reduce_edges` | `PropertiesMet.v` | none (closed under the global context) |
| `C120_reduce_other_names_refuted` | `PropertiesMet.v` | none (closed under the global context) |
| `C120_smoothed` | `PropertiesMet.v` | none (closed under the global context) |
| `C120_synchronize` | `PropertiesMet.v` | none (closed under the global context) |
| `C120_synchronize_twice_refuted` | `PropertiesMet.v` | none (closed under the global context) |
| `C120_value_max` | `PropertiesMet.v` | none (closed under the global context) |
| `C120_warmup` | `PropertiesMet.v` | none (closed under the global context) |
| `C120_weights_in_window_refuted` | `PropertiesMet.v` | none (closed under the global context) |
| `C120_window_average` | `PropertiesMet.v` | none (closed under the global context) |
| `C12_larger_threshold_prunes_more` | `PropertiesPrune.v` | none (closed under the global context) |
| `C12_magnitude_pruner` | `PropertiesPrune.v` | none (closed under the global context) |
| `C12_threshold_mask` | `PropertiesPrune.v` | none (closed under the global context) |
| `C13_larger_level_prunes_more` | `PropertiesPrune.v` | none (closed under the global context) |
| `C13_level_criterion` | `PropertiesPrune.v` | none (closed under the global context) |
| `C13_level_criterion_raises` | `PropertiesPrune.v` | none (closed under the global context) |
| `C13_level_pruner` | `PropertiesPrune.v` | none (closed under the global context) |
| `C13_over_pruning_only_by_ties` | `PropertiesPrune.v` | none (closed under the global context) |
| `C14_agp_ctor` | `PropertiesPrune.v` | none (closed under the global context) |
| `C14_agp_formula` | `PropertiesPrune.v` | none (closed under the global context) |
| `C14_agp_needs_two_epochs` | `PropertiesPrune.v` | none (closed under the global context) |
| `C14_agp_pruner` | `PropertiesPrune.v` | none (closed under the global context) |
| `C14_agp_schedule` | `PropertiesPrune.v` | none (closed under the global context) |
| `C14_single_epoch_refuted` | `PropertiesPrune.v` | none (closed under the global context) |
| `C15_splicing_history` | `PropertiesPrune.v` | none (closed under the global context) |
| `C15_splicing_step` | `PropertiesPrune.v` | none (closed under the global context) |
| `C15_unlisted_unchanged` | `PropertiesPrune.v` | none (closed under the global context) |
| `C16_baidu_threshold` | `PropertiesPrune.v` | none (closed under the global context) |
| `C16_late_ramp_refuted` | `PropertiesPrune.v` | none (closed under the global context) |
| `C16_slopes_fixed_by_first_call` | `PropertiesPrune.v` | none (closed under the global context) |
| `C17_sensitivity_threshold_fixed` | `PropertiesPrune.v` | none (closed under the global context) |
| `C17_unlisted_unchanged` | `PropertiesPrune.v` | none (closed under the global context) |
| `C18_expand_conv` | `PropertiesStruct.v` | none (closed under the global context) |
| `C18_expand_matrix` | `PropertiesStruct.v` | none (closed under the global context) |
| `C18_mean_rows_refuted` | `PropertiesStruct.v` | none (closed under the global context) |
| `C18_structure_pruner` | `PropertiesStruct.v` | none (closed under the global context) |
| `C18_threshold_channels` | `PropertiesStruct.v` | none (closed under the global context) |
| `C18_threshold_filters` | `PropertiesStruct.v` | none (closed under the global context) |
| `C18_threshold_kernels` | `PropertiesStruct.v` | none (closed under the global context) |
| `C18_threshold_matrix` | `PropertiesStruct.v` | none (closed under the global context) |
| `C19_channels` | `PropertiesStruct.v` | none (closed under the global context) |
| `C19_constructor` | `PropertiesBlocks.v` | none (closed under the global context) |
| `C19_count` | `PropertiesStruct.v` | none (closed under the global context) |
| `C19_count_floor` | `PropertiesStruct.v` | none (closed under the global context) |
| `C19_filters` | `PropertiesStruct.v` | none (closed under the global context) |
| `C19_group_size_refuted` | `PropertiesStruct.v` | none (closed under the global context) |
| `C19_group_types` | `PropertiesStruct.v` | none (closed under the global context) |
| `C19_matrix_columns` | `PropertiesStruct.v` | none (closed under the global context) |
| `C19_ties_remove_all_refuted` | `PropertiesStruct.v` | none (closed under the global context) |
| `C20_bad_group_len` | `PropertiesStruct.v` | none (closed under the global context) |
| `C20_conv_norms` | `PropertiesStruct.v` | none (closed under the global context) |
| `C20_matrix_norms` | `PropertiesStruct.v` | none (closed under the global context) |
| `C20_norm_functions` | `PropertiesQuant.v` | none (closed under the global context) |
| `C20_row_mean_refuted` | `PropertiesStruct.v` | none (closed under the global context) |
| `C21_leader_map_shared` | `PropertiesStruct2.v` | none (closed under the global context) |
| `C21_leader_no_map_refuted` | `PropertiesStruct2.v` | none (closed under the global context) |
| `C21_same_structures` | `PropertiesStruct2.v` | none (closed under the global context) |
| `C21_stale_map_refuted` | `PropertiesStruct2.v` | none (closed under the global context) |
| `C22_bernoulli_scaling` | `PropertiesStruct2.v` | none (closed under the global context) |
| `C22_mean_activation_refuted` | `PropertiesStruct2.v` | none (closed under the global context) |
| `C22_prune_by_order` | `PropertiesStruct2.v` | none (closed under the global context) |
| `C22_removes_largest` | `PropertiesStruct2.v` | none (closed under the global context) |
| `C23_execute` | `PropertiesThin.v` | none (closed under the global context) |
| `C23_execute_again` | `PropertiesThin.v` | none (closed under the global context) |
| `C23_linear_again_refuted` | `PropertiesThin2.v` | none (closed under the global context) |
| `C23_linear_execute` | `PropertiesThin.v` | none (closed under the global context) |
| `C23_linear_mask_refuted` | `PropertiesThin2.v` | none (closed under the global context) |
| `C23_linear_momentum_refuted` | `PropertiesThin2.v` | none (closed under the global context) |
| `C23_momentum_without_gradient_refuted` | `PropertiesThin2.v` | none (closed under the global context) |
| `C23_only_sgd` | `PropertiesThin.v` | none (closed under the global context) |
| `C23_same_dimension_refuted` | `PropertiesThin2.v` | none (closed under the global context) |
| `C24_channel_bn_search_refuted` | `PropertiesThinFindings.v` | none (closed under the global context) |
| `C24_channel_in_features_refuted` | `PropertiesThinFindings.v` | none (closed under the global context) |
| `C24_channel_input_refuted` | `PropertiesThinFindings.v` | none (closed under the global context) |
| `C24_channel_linear_refuted` | `PropertiesThinFindings.v` | none (closed under the global context) |
| `C24_channel_shared_refuted` | `PropertiesThinFindings.v` | none (closed under the global context) |
| `C24_filter_add_refuted` | `PropertiesThinFindings.v` | none (closed under the global context) |
| `C24_filter_bias_refuted` | `PropertiesThinFindings.v` | none (closed under the global context) |
| `C24_filter_bn_row_refuted` | `PropertiesThinFindings.v` | none (closed under the global context) |
| `C24_filter_bn_shift_refuted` | `PropertiesThinFindings.v` | none (closed under the global context) |
| `C24_filter_concat_refuted` | `PropertiesThinFindings.v` | none (closed under the global context) |
| `C24_filter_depthwise_refuted` | `PropertiesThinFindings.v` | none (closed under the global context) |
| `C24_filter_output_refuted` | `PropertiesThinFindings.v` | none (closed under the global context) |
| `C24_filter_rectangle_refuted` | `PropertiesThinFindings.v` | none (closed under the global context) |
| `C24_filter_two_bn_refuted` | `PropertiesThinFindings.v` | none (closed under the global context) |
| `C24_remove_channels` | `PropertiesThinChannels.v` | none (closed under the global context) |
| `C24_remove_channels_succeeds` | `PropertiesThinChannels.v` | none (closed under the global context) |
| `C24_remove_filters` | `PropertiesThinNet.v` | none (closed under the global context) |
| `C24_remove_filters_succeeds` | `PropertiesThinNet.v` | none (closed under the global context) |
| `C25_quantized_range` | `PropertiesQuant.v` | none (closed under the global context) |
| `C26_asymmetric` | `PropertiesQuant.v` | none (closed under the global context) |
| `C26_asymmetric_elementwise` | `PropertiesQuant.v` | none (closed under the global context) |
| `C26_degenerate_range` | `PropertiesQuant.v` | none (closed under the global context) |
| `C26_one_bit_restricted_refuted` | `PropertiesQuant.v` | none (closed under the global context) |
| `C26_round_half_even` | `PropertiesQuant.v` | none (closed under the global context) |
| `C26_symmetric` | `PropertiesQuant.v` | none (closed under the global context) |
| `C26_symmetric_elementwise` | `PropertiesQuant.v` | none (closed under the global context) |
| `C27_fake_quant_idempotent` | `PropertiesQuant.v` | none (closed under the global context) |
| `C27_requantize_identity` | `PropertiesQuant.v` | none (closed under the global context) |
| `C28_limit_small_scale_refuted` | `PropertiesQuant.v` | none (closed under the global context) |
| `C28_scale_approximation` | `PropertiesQuant.v` | none (closed under the global context) |
| `C29_dorefa` | `PropertiesQuant.v` | none (closed under the global context) |
| `C29_dorefa_binary` | `PropertiesQuant.v` | none (closed under the global context) |
| `C29_dorefa_zero_refuted` | `PropertiesQuant.v` | none (closed under the global context) |
| `C29_wrpn` | `PropertiesQuant.v` | none (closed under the global context) |
| `C29_wrpn_levels_refuted` | `PropertiesQuant.v` | none (closed under the global context) |
| `C30_clipped_quantization` | `PropertiesQuant.v` | none (closed under the global context) |
| `C30_learned_clip` | `PropertiesQuant.v` | none (closed under the global context) |
| `C31_add_error` | `PropertiesRange2.v` | none (closed under the global context) |
| `C31_concat_error` | `PropertiesRange2.v` | none (closed under the global context) |
| `C31_dynamic_output_error` | `PropertiesRange.v` | none (closed under the global context) |
| `C31_matmul_error` | `PropertiesRange2.v` | none (closed under the global context) |
| `C31_mult_error` | `PropertiesRange2.v` | none (closed under the global context) |
| `C31_static_output_error` | `PropertiesRange.v` | none (closed under the global context) |
| `C31_weight_error` | `PropertiesRange.v` | none (closed under the global context) |
| `C32_per_channel_set_fails` | `PropertiesRange2.v` | none (closed under the global context) |
| `C32_quantizer_set_stale_refuted` | `PropertiesRange2.v` | none (closed under the global context) |
| `C32_save_does_not_change_output` | `PropertiesRange2.v` | none (closed under the global context) |
| `C32_set_after_forward_refuted` | `PropertiesRange2.v` | none (closed under the global context) |
| `C32_set_refreshes_accumulator` | `PropertiesRange2.v` | none (closed under the global context) |
| `C32_stale_accumulator_refuted` | `PropertiesRange2.v` | none (closed under the global context) |
| `C32_weights_survive` | `PropertiesRange2.v` | none (closed under the global context) |
| `C33_ema_average` | `PropertiesEma.v` | none (closed under the global context) |
| `C33_fake_quant_error` | `PropertiesEma.v` | none (closed under the global context) |
| `C33_mode_pair_is_asymmetric_unsigned` | `PropertiesEma.v` | none (closed under the global context) |
| `C33_qat_mode_ignored` | `PropertiesEma.v` | none (closed under the global context) |
| `C33_qat_weight_error` | `PropertiesEma.v` | none (closed under the global context) |
| `C33_symmetric_level_overflow_refuted` | `PropertiesEma.v` | none (closed under the global context) |
| `C33_tracking` | `PropertiesEma.v` | none (closed under the global context) |
| `C33_untrained_outputs_zero` | `PropertiesEma.v` | none (closed under the global context) |
| `C34_constructor` | `PropertiesBn.v` | none (closed under the global context) |
| `C34_eval_forward` | `PropertiesBn.v` | none (closed under the global context) |
| `C34_fold_bn` | `PropertiesBn.v` | none (closed under the global context) |
| `C34_freeze_preserves` | `PropertiesBn.v` | none (closed under the global context) |
| `C34_frozen_bn_attribute_error` | `PropertiesBn.v` | none (closed under the global context) |
| `C34_frozen_bn_folded_twice_refuted` | `PropertiesBn.v` | none (closed under the global context) |
| `C34_untracked_not_folded` | `PropertiesBn.v` | none (closed under the global context) |
| `C35_alternation_refuted` | `PropertiesQzr.v` | none (closed under the global context) |
| `C35_capturing_groups_refuted` | `PropertiesQzr.v` | none (closed under the global context) |
| `C35_constructor_errors` | `PropertiesQzr.v` | none (closed under the global context) |
| `C35_data_parallel` | `PropertiesQzr.v` | none (closed under the global context) |
| `C35_first_match_refuted` | `PropertiesQzr.v` | none (closed under the global context) |
| `C35_first_match_wins` | `PropertiesQzr.v` | none (closed under the global context) |
| `C35_group_shift` | `PropertiesQzr.v` | none (closed under the global context) |
| `C35_module_prefix_refuted` | `PropertiesQzr.v` | none (closed under the global context) |
| `C35_override_choice` | `PropertiesQzr.v` | none (closed under the global context) |
| `C35_quantizer_maps` | `PropertiesQzr2.v` | none (closed under the global context) |
| `C35_resolution` | `PropertiesQzr.v` | none (closed under the global context) |
| `C36_multi_gamma_constant_between_milestones` | `PropertiesLr.v` | none (closed under the global context) |
| `C36_multi_gamma_errors` | `PropertiesLr.v` | none (closed under the global context) |
| `C36_multi_step_multi_gamma` | `PropertiesLr.v` | none (closed under the global context) |
| `C36_polynomial` | `PropertiesLr.v` | none (closed under the global context) |
| `C36_polynomial_after_the_end_refuted` | `PropertiesLr.v` | none (closed under the global context) |
| `C36_polynomial_zero_length` | `PropertiesLr.v` | none (closed under the global context) |
| `C37_best_checkpoint` | `PropertiesTracker.v` | none (closed under the global context) |
| `C37_best_scores` | `PropertiesTracker.v` | none (closed under the global context) |
| `C37_history` | `PropertiesTracker.v` | none (closed under the global context) |
| `C37_is_best` | `PropertiesTracker.v` | none (closed under the global context) |
| `C37_missing_score` | `PropertiesTracker.v` | none (closed under the global context) |
| `C37_no_epochs` | `PropertiesTracker.v` | none (closed under the global context) |
| `C37_num_best_scores_zero_refuted` | `PropertiesTracker.v` | none (closed under the global context) |
| `C37_resume_overwrites_best_refuted` | `PropertiesTracker.v` | none (closed under the global context) |
| `C38_batches` | `PropertiesData.v` | none (closed under the global context) |
| `C38_fixed_subset_refuted` | `PropertiesData.v` | none (closed under the global context) |
| `C38_loaders` | `PropertiesData.v` | none (closed under the global context) |
| `C38_loaders_errors` | `PropertiesData.v` | none (closed under the global context) |
| `C38_sampler` | `PropertiesData.v` | none (closed under the global context) |
| `C38_sequential_ignored` | `PropertiesData.v` | none (closed under the global context) |
| `C38_split` | `PropertiesData.v` | none (closed under the global context) |
| `C39_density_sparsity` | `PropertiesStruct2.v` | none (closed under the global context) |
| `C39_empty_tensor` | `PropertiesStruct2.v` | none (closed under the global context) |
| `C39_matrix_sparsity` | `PropertiesStruct2.v` | none (closed under the global context) |
| `C39_model_sparsity` | `PropertiesStruct2.v` | none (closed under the global context) |
| `C39_other_ranks` | `PropertiesStruct2.v` | none (closed under the global context) |
| `C39_ranked_filters_reach_sparsity` | `PropertiesStruct2.v` | none (closed under the global context) |
| `C39_structure_sparsity` | `PropertiesStruct2.v` | none (closed under the global context) |
| `C40_constructor` | `PropertiesKd.v` | none (closed under the global context) |
| `C40_distillation_loss_equal_logits` | `PropertiesKdReal.v` | ClassicalDedekindReals.sig_not_dec, ClassicalDedekindReals.sig_forall_dec, FunctionalExtensionality.functional_extensionality_dep, Classical_Prop.classic |
| `C40_distillation_loss_nonneg` | `PropertiesKdReal.v` | ClassicalDedekindReals.sig_not_dec, ClassicalDedekindReals.sig_forall_dec, FunctionalExtensionality.functional_extensionality_dep, Classical_Prop.classic |
| `C40_forward_each_minibatch_never_raises` | `PropertiesKd.v` | none (closed under the global context) |
| `C40_order_with_regularizers` | `PropertiesKd.v` | none (closed under the global context) |
| `C40_overall_loss` | `PropertiesKd.v` | none (closed under the global context) |
| `C40_stale_logits_refuted` | `PropertiesKd.v` | none (closed under the global context) |
| `C41_forward_only_ignored_refuted` | `PropertiesSched.v` | none (closed under the global context) |
| `C41_gradient_hook_leak_refuted` | `PropertiesSched.v` | none (closed under the global context) |
| `C41_masker_names_of_quantized_modules` | `PropertiesSched.v` | none (closed under the global context) |
| `C41_pruning_policy_needs_all_maskers` | `PropertiesSched.v` | none (closed under the global context) |
| `C41_undotted_unknown_parameter_raises` | `PropertiesSched.v` | none (closed under the global context) |
| `C42_lr_steps` | `PropertiesSched.v` | none (closed under the global context) |
| `C43_constructor_check` | `PropertiesSched.v` | none (closed under the global context) |
| `C43_gradient_hook` | `PropertiesSched.v` | none (closed under the global context) |
| `C44_block_shapes` | `PropertiesBlocks.v` | none (closed under the global context) |
| `C44_block_sparsity` | `PropertiesBlocks.v` | none (closed under the global context) |
| `C44_errors` | `PropertiesBlocks.v` | none (closed under the global context) |
| `C44_filter_block_sparsity` | `PropertiesBlocks.v` | none (closed under the global context) |
| `C44_filter_blocks` | `PropertiesBlocks.v` | none (closed under the global context) |
| `C44_kernel_blocks` | `PropertiesBlocks.v` | none (closed under the global context) |
| `C44_super_block_refuted` | `PropertiesBlocks.v` | none (closed under the global context) |
| `C45_aciq` | `PropertiesQuant.v` | none (closed under the global context) |
| `C45_alpha_laplace` | `PropertiesQuant.v` | none (closed under the global context) |
| `C45_alpha_tables` | `PropertiesQuant.v` | none (closed under the global context) |
| `C45_avg_min_max` | `PropertiesQuant.v` | none (closed under the global context) |
| `C45_max_abs` | `PropertiesQuant.v` | none (closed under the global context) |
| `C45_mean_n_stds` | `PropertiesQuant.v` | none (closed under the global context) |
| `C45_min_max` | `PropertiesQuant.v` | none (closed under the global context) |
| `C45_min_max_per_dim` | `PropertiesQuant.v` | none (closed under the global context) |
| `C45_n_stds_error` | `PropertiesQuant.v` | none (closed under the global context) |
| `C45_per_dim_error` | `PropertiesQuant.v` | none (closed under the global context) |
| `C46_custom_override_error_refuted` | `PropertiesRange3.v` | none (closed under the global context) |
| `C46_custom_override_params` | `PropertiesRange3.v` | none (closed under the global context) |
| `C46_dynamic_input_error` | `PropertiesRange3.v` | none (closed under the global context) |
| `C46_metadata_source` | `PropertiesRange3.v` | none (closed under the global context) |
| `C46_prepare_twice` | `PropertiesRange3.v` | none (closed under the global context) |
| `C47_asymmetric_roundtrip` | `PropertiesRange3.v` | none (closed under the global context) |
| `C47_scalar_clipping` | `PropertiesRange3.v` | none (closed under the global context) |
| `C47_signed_asymmetric_getter_refuted` | `PropertiesRange3.v` | none (closed under the global context) |
| `C47_symmetric_restricted_roundtrip` | `PropertiesRange3.v` | none (closed under the global context) |
| `C47_weight_clipping_ignores_restriction` | `PropertiesRange3.v` | none (closed under the global context) |
| `C47_weight_clipping_refuted` | `PropertiesRange3.v` | none (closed under the global context) |
| `C48_clip_averages` | `PropertiesRange3.v` | none (closed under the global context) |
| `C48_clip_min_max` | `PropertiesRange3.v` | none (closed under the global context) |
| `C48_inverted_average_refuted` | `PropertiesRange3.v` | none (closed under the global context) |
| `C49_freezing_step` | `PropertiesBn.v` | none (closed under the global context) |
| `C49_freezing_step_output_refuted` | `PropertiesBn.v` | none (closed under the global context) |
| `C49_single_value_raises` | `PropertiesBn.v` | none (closed under the global context) |
| `C49_training_history_equiv` | `PropertiesBn.v` | none (closed under the global context) |
| `C50_fold_preserves_graph` | `PropertiesBn.v` | none (closed under the global context) |
| `C50_fold_removes_bn` | `PropertiesBn.v` | none (closed under the global context) |
| `C50_fused_consecutive` | `PropertiesBn.v` | none (closed under the global context) |
| `C50_overlapping_match_missed_refuted` | `PropertiesBn.v` | none (closed under the global context) |
| `C50_pairs_complete` | `PropertiesBn.v` | none (closed under the global context) |
| `C50_pairs_sound` | `PropertiesBn.v` | none (closed under the global context) |
| `C50_split_fused_refuted` | `PropertiesBn.v` | none (closed under the global context) |
| `C50_unconnected_fused_refuted` | `PropertiesBn.v` | none (closed under the global context) |
| `C51_every_sample_counted_once` | `PropertiesExit.v` | none (closed under the global context) |
| `C51_exit_choice` | `PropertiesExit.v` | none (closed under the global context) |
| `C51_missing_threshold` | `PropertiesExit.v` | none (closed under the global context) |
| `C51_total_accuracy` | `PropertiesExit.v` | none (closed under the global context) |
| `C51_training_loss` | `PropertiesExit.v` | none (closed under the global context) |
| `C51_training_loss_is_a_mean` | `PropertiesExit.v` | none (closed under the global context) |
| `C51_untraversed_exit_refuted` | `PropertiesExit.v` | none (closed under the global context) |
| `C52_accuracy_before_epoch_end` | `PropertiesLoop.v` | none (closed under the global context) |
| `C52_continue` | `PropertiesLoop.v` | none (closed under the global context) |
| `C52_epoch` | `PropertiesLoop.v` | none (closed under the global context) |
| `C52_minibatch` | `PropertiesLoop.v` | none (closed under the global context) |
| `C52_run_is_a_history` | `PropertiesLoop.v` | none (closed under the global context) |
| `C52_saved_accuracy_refuted` | `PropertiesLoop.v` | none (closed under the global context) |
| `C52_saved_weights_are_pruned` | `PropertiesLoop.v` | none (closed under the global context) |
| `C53_n_std` | `PropertiesStats.v` | none (closed under the global context) |
| `C53_n_std_error` | `PropertiesStats.v` | none (closed under the global context) |
| `C53_none_and_avg` | `PropertiesStats.v` | none (closed under the global context) |
| `C53_scale_approximation` | `PropertiesStats.v` | none (closed under the global context) |
| `C54_container_wrapper_refuted` | `PropertiesQzr2.v` | none (closed under the global context) |
| `C54_prepare_model` | `PropertiesQzr2.v` | none (closed under the global context) |
| `C54_prepare_twice` | `PropertiesQzr2.v` | none (closed under the global context) |
| `C54_shared_modules_same_wrapper` | `PropertiesQzr2.v` | none (closed under the global context) |
| `C54_shared_siblings_refuted` | `PropertiesQzr2.v` | none (closed under the global context) |
| `C54_shared_unreplaced_refuted` | `PropertiesQzr2.v` | none (closed under the global context) |
| `C55_float_copy` | `PropertiesQzr2.v` | none (closed under the global context) |
| `C55_inputs_quantized_once` | `PropertiesQzr2.v` | none (closed under the global context) |
| `C55_no_float_copy` | `PropertiesQzr2.v` | none (closed under the global context) |
| `C55_prepared_separate` | `PropertiesQzr2.v` | none (closed under the global context) |
| `C55_second_model_refuted` | `PropertiesQzr2.v` | none (closed under the global context) |
| `C56_replay` | `PropertiesThin2.v` | none (closed under the global context) |
| `C56_saved_recipes` | `PropertiesThin2.v` | none (closed under the global context) |
| `C57_once` | `PropertiesGraph.v` | none (closed under the global context) |
| `C57_search` | `PropertiesGraph.v` | none (closed under the global context) |
| `C57_twice_refuted` | `PropertiesGraph.v` | none (closed under the global context) |
| `C58_collect_quant_stats` | `PropertiesColl.v` | ClassicalDedekindReals.sig_not_dec, ClassicalDedekindReals.sig_forall_dec, FunctionalExtensionality.functional_extensionality_dep |
| `C58_modules_to_collect_refuted` | `PropertiesColl.v` | ClassicalDedekindReals.sig_not_dec, ClassicalDedekindReals.sig_forall_dec, FunctionalExtensionality.functional_extensionality_dep |
| `C58_never_called_refuted` | `PropertiesColl.v` | ClassicalDedekindReals.sig_not_dec, ClassicalDedekindReals.sig_forall_dec, FunctionalExtensionality.functional_extensionality_dep |
| `C58_record_statistics` | `PropertiesColl.v` | ClassicalDedekindReals.sig_not_dec, ClassicalDedekindReals.sig_forall_dec, FunctionalExtensionality.functional_extensionality_dep |
| `C58_reusable` | `PropertiesColl.v` | ClassicalDedekindReals.sig_not_dec, ClassicalDedekindReals.sig_forall_dec, FunctionalExtensionality.functional_extensionality_dep |
| `C59_actual_update` | `PropertiesColl.v` | ClassicalDedekindReals.sig_not_dec, ClassicalDedekindReals.sig_forall_dec, FunctionalExtensionality.functional_extensionality_dep |
| `C59_average_refuted` | `PropertiesColl.v` | ClassicalDedekindReals.sig_not_dec, ClassicalDedekindReals.sig_forall_dec, FunctionalExtensionality.functional_extensionality_dep |
| `C59_bounds` | `PropertiesColl.v` | ClassicalDedekindReals.sig_not_dec, ClassicalDedekindReals.sig_forall_dec, FunctionalExtensionality.functional_extensionality_dep |
| `C59_single_batch` | `PropertiesColl.v` | ClassicalDedekindReals.sig_not_dec, ClassicalDedekindReals.sig_forall_dec, FunctionalExtensionality.functional_extensionality_dep |
| `C60_collected_modules` | `PropertiesColl.v` | none (closed under the global context) |
| `C60_context` | `PropertiesColl.v` | none (closed under the global context) |
| `C60_each_call_once` | `PropertiesColl.v` | none (closed under the global context) |
| `C60_exception_leaves_hooks_refuted` | `PropertiesColl.v` | none (closed under the global context) |
| `C60_independent_of_history` | `PropertiesColl.v` | none (closed under the global context) |
| `C60_not_observing_after` | `PropertiesColl.v` | none (closed under the global context) |
| `C60_raw_outputs` | `PropertiesColl.v` | none (closed under the global context) |
| `C60_raw_unequal_refuted` | `PropertiesColl.v` | none (closed under the global context) |
| `C60_raw_value_then_forward_refuted` | `PropertiesColl.v` | none (closed under the global context) |
| `C60_shared_module_twice_refuted` | `PropertiesColl.v` | none (closed under the global context) |
| `C61_centroids` | `PropertiesHist.v` | none (closed under the global context) |
| `C61_clamp` | `PropertiesHist.v` | none (closed under the global context) |
| `C61_constant_refuted` | `PropertiesHist.v` | none (closed under the global context) |
| `C61_exact` | `PropertiesHist.v` | none (closed under the global context) |
| `C61_never_called_refuted` | `PropertiesHist.v` | none (closed under the global context) |
| `C61_succeeds` | `PropertiesHist.v` | none (closed under the global context) |
| `C61_total` | `PropertiesHist.v` | none (closed under the global context) |
| `C62_activation_sparsity` | `PropertiesColl.v` | ClassicalDedekindReals.sig_not_dec, ClassicalDedekindReals.sig_forall_dec, FunctionalExtensionality.functional_extensionality_dep |
| `C62_meter` | `PropertiesColl.v` | ClassicalDedekindReals.sig_not_dec, ClassicalDedekindReals.sig_forall_dec, FunctionalExtensionality.functional_extensionality_dep |
| `C62_meter_total` | `PropertiesColl.v` | ClassicalDedekindReals.sig_not_dec, ClassicalDedekindReals.sig_forall_dec, FunctionalExtensionality.functional_extensionality_dep |
| `C63_cell_no_state_refuted` | `PropertiesRnn.v` | none (closed under the global context) |
| `C63_cell_no_state_rows_refuted` | `PropertiesRnn.v` | none (closed under the global context) |
| `C63_dropout_recurrent_refuted` | `PropertiesRnn.v` | none (closed under the global context) |
| `C63_forward` | `PropertiesRnn.v` | none (closed under the global context) |
| `C63_packed` | `PropertiesRnn.v` | none (closed under the global context) |
| `C63_packed_unsorted_refuted` | `PropertiesRnn.v` | none (closed under the global context) |
| `C64_convert` | `PropertiesRnn.v` | none (closed under the global context) |
| `C64_from_to` | `PropertiesRnn.v` | none (closed under the global context) |
| `C64_shared_refuted` | `PropertiesRnn.v` | none (closed under the global context) |
| `C64_to_from` | `PropertiesRnn.v` | none (closed under the global context) |
| `C65_adjacency` | `PropertiesSg.v` | none (closed under the global context) |
| `C65_cache_refuted` | `PropertiesSg.v` | none (closed under the global context) |
| `C65_history` | `PropertiesSg.v` | none (closed under the global context) |
| `C65_missing_after_dedicated` | `PropertiesSg.v` | none (closed under the global context) |
| `C65_missing_modules` | `PropertiesSg.v` | none (closed under the global context) |
| `C65_symmetric` | `PropertiesSg.v` | none (closed under the global context) |
| `C66_after_dedicated_refuted` | `PropertiesSg.v` | none (closed under the global context) |
| `C66_cycle` | `PropertiesSg.v` | none (closed under the global context) |
| `C66_no_root` | `PropertiesSg.v` | none (closed under the global context) |
| `C66_topological_order` | `PropertiesSg.v` | none (closed under the global context) |
| `C67_list_clash_refuted` | `PropertiesSg.v` | none (closed under the global context) |
| `C67_module_lists` | `PropertiesSg.v` | none (closed under the global context) |
| `C67_name_clash_refuted` | `PropertiesSg.v` | none (closed under the global context) |
| `C67_operations` | `PropertiesSg.v` | none (closed under the global context) |
| `C67_scope_name` | `PropertiesSg.v` | none (closed under the global context) |
| `C67_tensor_clash_refuted` | `PropertiesSg.v` | none (closed under the global context) |
| `C67_trace` | `PropertiesSg.v` | none (closed under the global context) |
| `C67_trace_order` | `PropertiesSg.v` | none (closed under the global context) |
| `C68_masks_table` | `PropertiesSum.v` | none (closed under the global context) |
| `C68_nnz_float_refuted` | `PropertiesSum.v` | none (closed under the global context) |
| `C68_weights_table` | `PropertiesSum.v` | none (closed under the global context) |
| `C69_linear_batch_refuted` | `PropertiesSum.v` | none (closed under the global context) |
| `C69_linear_rows` | `PropertiesSum.v` | none (closed under the global context) |
| `C69_precision` | `PropertiesSum.v` | none (closed under the global context) |
| `C69_rows` | `PropertiesSum.v` | none (closed under the global context) |
| `C69_rows_per_call` | `PropertiesSum.v` | none (closed under the global context) |
| `C69_shared_module_refuted` | `PropertiesSum.v` | none (closed under the global context) |
| `C70_conv` | `PropertiesSum.v` | none (closed under the global context) |
| `C70_gemm` | `PropertiesSum.v` | none (closed under the global context) |
| `C70_intensity` | `PropertiesSum.v` | none (closed under the global context) |
| `C70_missing_shape` | `PropertiesSum.v` | none (closed under the global context) |
| `C70_others` | `PropertiesSum.v` | none (closed under the global context) |
| `C70_total` | `PropertiesSum.v` | none (closed under the global context) |
| `C71_nested_refuted` | `PropertiesSum.v` | none (closed under the global context) |
| `C71_no_wrapper` | `PropertiesSum.v` | none (closed under the global context) |
| `C71_non_parallel_copy` | `PropertiesSum.v` | none (closed under the global context) |
| `C71_shared_refuted` | `PropertiesSum.v` | none (closed under the global context) |
| `C72_accepts` | `PropertiesConf.v` | none (closed under the global context) |
| `C72_bad_policy` | `PropertiesConf.v` | none (closed under the global context) |
| `C72_by_class` | `PropertiesConf.v` | none (closed under the global context) |
| `C72_component` | `PropertiesConf.v` | none (closed under the global context) |
| `C72_missing_policies_refuted` | `PropertiesConf.v` | none (closed under the global context) |
| `C72_one_quantizer` | `PropertiesConf.v` | none (closed under the global context) |
| `C72_schedule` | `PropertiesConf.v` | none (closed under the global context) |
| `C72_second_use` | `PropertiesConf.v` | none (closed under the global context) |
| `C73_channels_4d_refuted` | `PropertiesReg.v` | ClassicalDedekindReals.sig_not_dec, ClassicalDedekindReals.sig_forall_dec, FunctionalExtensionality.functional_extensionality_dep |
| `C73_group_lasso_channels` | `PropertiesReg.v` | ClassicalDedekindReals.sig_not_dec, ClassicalDedekindReals.sig_forall_dec, FunctionalExtensionality.functional_extensionality_dep |
| `C73_group_lasso_conv` | `PropertiesReg.v` | ClassicalDedekindReals.sig_not_dec, ClassicalDedekindReals.sig_forall_dec, FunctionalExtensionality.functional_extensionality_dep |
| `C73_group_lasso_errors` | `PropertiesReg.v` | ClassicalDedekindReals.sig_not_dec, ClassicalDedekindReals.sig_forall_dec, FunctionalExtensionality.functional_extensionality_dep |
| `C73_group_lasso_matrix` | `PropertiesReg.v` | ClassicalDedekindReals.sig_not_dec, ClassicalDedekindReals.sig_forall_dec, FunctionalExtensionality.functional_extensionality_dep |
| `C73_group_threshold` | `PropertiesReg.v` | none (closed under the global context) |
| `C73_l1_loss` | `PropertiesReg.v` | ClassicalDedekindReals.sig_forall_dec, FunctionalExtensionality.functional_extensionality_dep |
| `C73_l1_threshold` | `PropertiesReg.v` | none (closed under the global context) |
| `C73_lasso_meaning` | `PropertiesReg.v` | ClassicalDedekindReals.sig_not_dec, ClassicalDedekindReals.sig_forall_dec, FunctionalExtensionality.functional_extensionality_dep |
| `C73_threshold_groups_refuted` | `PropertiesReg.v` | none (closed under the global context) |
| `C73_variance_loss` | `PropertiesReg.v` | ClassicalDedekindReals.sig_not_dec, ClassicalDedekindReals.sig_forall_dec, FunctionalExtensionality.functional_extensionality_dep |
| `C74_bias_refuted` | `PropertiesDrop.v` | none (closed under the global context) |
| `C74_every_16th` | `PropertiesDrop.v` | none (closed under the global context) |
| `C74_masked_weights` | `PropertiesDrop.v` | none (closed under the global context) |
| `C74_replace` | `PropertiesDrop.v` | none (closed under the global context) |
| `C74_replacement_refuted` | `PropertiesDrop.v` | none (closed under the global context) |
| `C75_engine` | `PropertiesPtq.v` | none (closed under the global context) |
| `C75_per_channel` | `PropertiesPtq.v` | none (closed under the global context) |
| `C75_reduce_overflow_refuted` | `PropertiesPtq.v` | none (closed under the global context) |
| `C75_reduce_range` | `PropertiesPtq.v` | none (closed under the global context) |
| `C75_reduce_symmetric_refuted` | `PropertiesPtq.v` | none (closed under the global context) |
| `C75_refused` | `PropertiesPtq.v` | none (closed under the global context) |
| `C75_same_values` | `PropertiesPtq.v` | none (closed under the global context) |
| `C75_saturation_lost_refuted` | `PropertiesPtq.v` | none (closed under the global context) |
| `C76_qint32_refuted` | `PropertiesPtq2.v` | none (closed under the global context) |
| `C76_refused` | `PropertiesPtq2.v` | none (closed under the global context) |
| `C76_same_values` | `PropertiesPtq2.v` | none (closed under the global context) |
| `C77_asymmetric_after_forward_refuted` | `PropertiesPtq3.v` | none (closed under the global context) |
| `C77_integral_bias_refuted` | `PropertiesPtq3.v` | none (closed under the global context) |
| `C77_layer_parameters` | `PropertiesPtq3.v` | none (closed under the global context) |
| `C77_no_bias_refuted` | `PropertiesPtq3.v` | none (closed under the global context) |
| `C77_output_close` | `PropertiesPtq3.v` | none (closed under the global context) |
| `C77_refused` | `PropertiesPtq3.v` | none (closed under the global context) |
| `C78_all_modules_called` | `PropertiesCvt.v` | none (closed under the global context) |
| `C78_eight_bits_convert` | `PropertiesCvt.v` | none (closed under the global context) |
| `C78_equivalent` | `PropertiesCvt.v` | none (closed under the global context) |
| `C78_float_output` | `PropertiesCvt.v` | none (closed under the global context) |
| `C78_refused` | `PropertiesCvt.v` | none (closed under the global context) |
| `C78_reused_module_refuted` | `PropertiesCvt.v` | none (closed under the global context) |
| `C79_connections` | `PropertiesPad.v` | none (closed under the global context) |
| `C79_graph` | `PropertiesPad.v` | none (closed under the global context) |
| `C79_reachable` | `PropertiesPad.v` | none (closed under the global context) |
| `C79_shared_pad_refuted` | `PropertiesPad.v` | none (closed under the global context) |
| `C79_stale_pad_refuted` | `PropertiesPad.v` | none (closed under the global context) |
| `C79_well_formed` | `PropertiesPad.v` | none (closed under the global context) |
| `C80_dropout_scopes` | `PropertiesPad.v` | none (closed under the global context) |
| `C80_functional_dropout_refuted` | `PropertiesPad.v` | none (closed under the global context) |
| `C80_shared_dropout_refuted` | `PropertiesPad.v` | none (closed under the global context) |
| `C81_analysis` | `PropertiesSens.v` | none (closed under the global context) |
| `C81_csv` | `PropertiesSens.v` | none (closed under the global context) |
| `C81_illegal_arguments` | `PropertiesSens.v` | none (closed under the global context) |
| `C81_increasing_levels` | `PropertiesSens.v` | none (closed under the global context) |
| `C81_level_order_refuted` | `PropertiesSens.v` | none (closed under the global context) |
| `C81_small_level_raises` | `PropertiesSens.v` | none (closed under the global context) |
| `C81_substring_refuted` | `PropertiesSens.v` | none (closed under the global context) |
| `C82_candidates` | `PropertiesGreedy.v` | none (closed under the global context) |
| `C82_completes` | `PropertiesGreedy.v` | none (closed under the global context) |
| `C82_default_uniform` | `PropertiesGreedy.v` | none (closed under the global context) |
| `C82_different_keys_refuted` | `PropertiesGreedy.v` | none (closed under the global context) |
| `C82_fp16_refuted` | `PropertiesGreedy.v` | none (closed under the global context) |
| `C82_greedy` | `PropertiesGreedy.v` | none (closed under the global context) |
| `C82_half_range_refuted` | `PropertiesGreedy.v` | none (closed under the global context) |
| `C82_local` | `PropertiesGreedy.v` | none (closed under the global context) |
| `C82_two_inputs_refuted` | `PropertiesGreedy.v` | none (closed under the global context) |
| `C82_with_inputs` | `PropertiesGreedy.v` | none (closed under the global context) |
| `C83_inputs_kept` | `PropertiesGreedy.v` | none (closed under the global context) |
| `C83_resume` | `PropertiesGreedy.v` | none (closed under the global context) |
| `C83_resume_default` | `PropertiesGreedy.v` | none (closed under the global context) |
| `C83_resume_with_inputs_refuted` | `PropertiesGreedy.v` | none (closed under the global context) |
| `C84_candidate` | `PropertiesGfp.v` | none (closed under the global context) |
| `C84_completion_refuted` | `PropertiesGfp.v` | none (closed under the global context) |
| `C84_most_robust` | `PropertiesGfp.v` | none (closed under the global context) |
| `C84_prune_tensor` | `PropertiesGfp.v` | none (closed under the global context) |
| `C84_pruned_wins` | `PropertiesGfp.v` | none (closed under the global context) |
| `C84_run` | `PropertiesGfp.v` | none (closed under the global context) |
| `C84_stuck_refuted` | `PropertiesGfp.v` | none (closed under the global context) |
| `C84_target_met` | `PropertiesGfp.v` | none (closed under the global context) |
| `C84_terminates` | `PropertiesGfp.v` | none (closed under the global context) |
| `C85_clipping_values` | `PropertiesLapq.v` | none (closed under the global context) |
| `C85_initial_point` | `PropertiesLapq.v` | none (closed under the global context) |
| `C85_initial_point_clipping_refuted` | `PropertiesLapq.v` | none (closed under the global context) |
| `C85_model_names` | `PropertiesLapq.v` | none (closed under the global context) |
| `C85_roundtrip` | `PropertiesLapq.v` | none (closed under the global context) |
| `C85_scales_only` | `PropertiesLapq.v` | none (closed under the global context) |
| `C85_suffix_refuted` | `PropertiesLapq.v` | none (closed under the global context) |
| `C85_validation` | `PropertiesLapq.v` | none (closed under the global context) |
| `C85_vector` | `PropertiesLapq.v` | none (closed under the global context) |
| `C85_vector_exists` | `PropertiesLapq.v` | none (closed under the global context) |
| `C86_asymmetric_unshifted_refuted` | `PropertiesLapq.v` | none (closed under the global context) |
| `C86_clipping_needs_outputs` | `PropertiesLapq.v` | none (closed under the global context) |
| `C86_clipping_requantizes` | `PropertiesLapq.v` | none (closed under the global context) |
| `C86_cmdline` | `PropertiesLapq.v` | none (closed under the global context) |
| `C86_first_forward` | `PropertiesLapq.v` | none (closed under the global context) |
| `C86_reapply_clipping` | `PropertiesLapq.v` | none (closed under the global context) |
| `C86_reapply_scales` | `PropertiesLapq.v` | none (closed under the global context) |
| `C86_restore_clipping_refuted` | `PropertiesLapq.v` | none (closed under the global context) |
| `C86_returned_model_refuted` | `PropertiesLapq.v` | none (closed under the global context) |
| `C86_scales_keep_integers` | `PropertiesLapq.v` | none (closed under the global context) |
| `C86_search` | `PropertiesLapq.v` | none (closed under the global context) |
| `C86_stale_weights_refuted` | `PropertiesLapq.v` | none (closed under the global context) |
| `C86_start` | `PropertiesLapq.v` | none (closed under the global context) |
| `C87_clipped_inputs` | `PropertiesPrep.v` | none (closed under the global context) |
| `C87_clipped_outputs` | `PropertiesPrep.v` | none (closed under the global context) |
| `C87_clipping_harmless` | `PropertiesPrep.v` | none (closed under the global context) |
| `C87_clipping_succeeds` | `PropertiesPrep.v` | none (closed under the global context) |
| `C87_folded_stats` | `PropertiesPrep.v` | none (closed under the global context) |
| `C87_folded_stats_succeed` | `PropertiesPrep.v` | none (closed under the global context) |
| `C88_also_returned_layer_refuted` | `PropertiesPrep.v` | none (closed under the global context) |
| `C88_identity_after_relu` | `PropertiesPrep.v` | none (closed under the global context) |
| `C88_prepared_computes` | `PropertiesPrep.v` | none (closed under the global context) |
| `C88_relu6_dynamic_refuted` | `PropertiesPrep.v` | none (closed under the global context) |
| `C88_relu6_gauss_refuted` | `PropertiesPrep.v` | none (closed under the global context) |
| `C88_shared_relu_refuted` | `PropertiesPrep.v` | none (closed under the global context) |
| `C89_bad_index` | `PropertiesEmb.v` | none (closed under the global context) |
| `C89_clipping_asymmetric` | `PropertiesEmb.v` | none (closed under the global context) |
| `C89_clipping_symmetric` | `PropertiesEmb3.v` | none (closed under the global context) |
| `C89_convert` | `PropertiesEmb.v` | none (closed under the global context) |
| `C89_convert_float_copy_refuted` | `PropertiesEmb.v` | none (closed under the global context) |
| `C89_error` | `PropertiesEmb.v` | none (closed under the global context) |
| `C89_lookup` | `PropertiesEmb.v` | none (closed under the global context) |
| `C89_n_stds_missing` | `PropertiesEmb3.v` | none (closed under the global context) |
| `C89_needs_float_copy` | `PropertiesEmb.v` | none (closed under the global context) |
| `C89_next_layer` | `PropertiesEmb.v` | none (closed under the global context) |
| `C89_no_weight_bits_refuted` | `PropertiesEmb.v` | none (closed under the global context) |
| `C89_parameters` | `PropertiesEmb3.v` | none (closed under the global context) |
| `C89_quantizer_set_refuted` | `PropertiesEmb.v` | none (closed under the global context) |
| `C89_read_clipping` | `PropertiesEmb3.v` | none (closed under the global context) |
| `C89_read_clipping_refuted` | `PropertiesEmb3.v` | none (closed under the global context) |
| `C89_stale_metadata_refuted` | `PropertiesEmb.v` | none (closed under the global context) |
| `C90_convert` | `PropertiesEmb2.v` | none (closed under the global context) |
| `C90_fake_error` | `PropertiesEmb2.v` | none (closed under the global context) |
| `C90_fake_forward` | `PropertiesEmb2.v` | none (closed under the global context) |
| `C90_fake_pass_through` | `PropertiesEmb2.v` | none (closed under the global context) |
| `C90_float_wrapper` | `PropertiesEmb2.v` | none (closed under the global context) |
| `C90_input_parameters` | `PropertiesEmb3.v` | none (closed under the global context) |
| `C90_missing_input_statistics` | `PropertiesEmb3.v` | none (closed under the global context) |
| `C90_output_parameters` | `PropertiesEmb3.v` | none (closed under the global context) |
| `C90_precisions` | `PropertiesEmb2.v` | none (closed under the global context) |
| `C90_quantized_inputs` | `PropertiesEmb3.v` | none (closed under the global context) |
| `C90_view_overwritten_refuted` | `PropertiesEmb2.v` | none (closed under the global context) |
| `C91_embedding_clip_name_refuted` | `PropertiesRepl.v` | none (closed under the global context) |
| `C91_fp16_conflict` | `PropertiesRepl.v` | none (closed under the global context) |
| `C91_fp16_ignored_refuted` | `PropertiesRepl.v` | none (closed under the global context) |
| `C91_kind` | `PropertiesRepl.v` | none (closed under the global context) |
| `C91_not_fake_refuted` | `PropertiesRepl.v` | none (closed under the global context) |
| `C91_rebuild_refuted` | `PropertiesRepl.v` | none (closed under the global context) |
| `C91_refines` | `PropertiesRepl.v` | none (closed under the global context) |
| `C91_relu_aciq_refuted` | `PropertiesRepl.v` | none (closed under the global context) |
| `C91_relu_statistics` | `PropertiesRepl2.v` | none (closed under the global context) |
| `C91_settings` | `PropertiesRepl.v` | none (closed under the global context) |
| `C91_unknown_argument` | `PropertiesRepl.v` | none (closed under the global context) |
| `C91_unknown_clip` | `PropertiesRepl2.v` | none (closed under the global context) |
| `C91_unquantized_with_argument_refuted` | `PropertiesRepl.v` | none (closed under the global context) |
| `C91_weight_parameters` | `PropertiesRepl2.v` | none (closed under the global context) |
| `C92_arguments` | `PropertiesRepl.v` | none (closed under the global context) |
| `C92_dot_refuted` | `PropertiesRepl.v` | none (closed under the global context) |
| `C92_layers` | `PropertiesRepl.v` | none (closed under the global context) |
| `C92_not_offered` | `PropertiesRepl2.v` | none (closed under the global context) |
| `C93_last_tried` | `PropertiesLinit.v` | none (closed under the global context) |
| `C93_layer` | `PropertiesLinit2.v` | none (closed under the global context) |
| `C93_layer_input` | `PropertiesLinit.v` | none (closed under the global context) |
| `C93_layer_input_refuted` | `PropertiesLinit.v` | none (closed under the global context) |
| `C93_loss` | `PropertiesLinit.v` | none (closed under the global context) |
| `C93_missing_mode` | `PropertiesRepl2.v` | none (closed under the global context) |
| `C93_mode_names` | `PropertiesLinit.v` | none (closed under the global context) |
| `C93_model` | `PropertiesLinit2.v` | none (closed under the global context) |
| `C93_not_best_refuted` | `PropertiesLinit.v` | none (closed under the global context) |
| `C93_values_kept` | `PropertiesLinit.v` | none (closed under the global context) |
| `C93_wrappers_initialised` | `PropertiesRepl2.v` | none (closed under the global context) |
| `C94_dependencies` | `PropertiesAmc.v` | none (closed under the global context) |
| `C94_dependencies_found` | `PropertiesAmc.v` | none (closed under the global context) |
| `C94_duplicate_dependents_refuted` | `PropertiesAmc.v` | none (closed under the global context) |
| `C94_episode` | `PropertiesAmc.v` | none (closed under the global context) |
| `C94_float_assertion_refuted` | `PropertiesAmc.v` | none (closed under the global context) |
| `C94_grouped` | `PropertiesAmc.v` | none (closed under the global context) |
| `C94_network_details` | `PropertiesAmc.v` | none (closed under the global context) |
| `C94_no_dependents_refuted` | `PropertiesAmc.v` | none (closed under the global context) |
| `C94_prev_action_late` | `PropertiesAmc.v` | none (closed under the global context) |
| `C94_real_cost` | `PropertiesAmc.v` | none (closed under the global context) |
| `C94_refused` | `PropertiesAmc.v` | none (closed under the global context) |
| `C94_shared_channels_refuted` | `PropertiesAmc.v` | none (closed under the global context) |
| `C94_single_channel_refuted` | `PropertiesAmc.v` | none (closed under the global context) |
| `C94_step` | `PropertiesAmc.v` | none (closed under the global context) |
| `C95_l1_pruner` | `PropertiesAmc.v` | none (closed under the global context) |
| `C95_rounding_refuted` | `PropertiesAmc.v` | none (closed under the global context) |
| `C95_target` | `PropertiesAmc.v` | none (closed under the global context) |
| `C95_target_exact` | `PropertiesAmc.v` | none (closed under the global context) |
| `C95_target_l1` | `PropertiesAmc.v` | none (closed under the global context) |
| `C95_ties_refuted` | `PropertiesAmc.v` | none (closed under the global context) |
| `C95_uncovered_refuted` | `PropertiesAmc.v` | none (closed under the global context) |
| `C96_clipped` | `PropertiesAmc.v` | none (closed under the global context) |
| `C96_constrained` | `PropertiesAmc.v` | none (closed under the global context) |
| `C96_discrete` | `PropertiesAmc.v` | none (closed under the global context) |
| `C96_experimental` | `PropertiesAmc.v` | none (closed under the global context) |
| `C96_features` | `PropertiesAmc.v` | none (closed under the global context) |
| `C96_harmonic` | `PropertiesAmc.v` | none (closed under the global context) |
| `C96_ppo` | `PropertiesAmc.v` | none (closed under the global context) |
| `C96_ppo_out_of_range_refuted` | `PropertiesAmc.v` | none (closed under the global context) |
| `C96_punish` | `PropertiesAmc.v` | none (closed under the global context) |
| `C96_session` | `PropertiesAmc.v` | none (closed under the global context) |
| `C97_crash` | `PropertiesCkf.v` | none (closed under the global context) |
| `C97_crash_refuted` | `PropertiesCkf.v` | none (closed under the global context) |
| `C97_files` | `PropertiesCkf.v` | none (closed under the global context) |
| `C97_refused` | `PropertiesCkf.v` | none (closed under the global context) |
| `C97_survivor` | `PropertiesCkf.v` | none (closed under the global context) |
| `C97_two_crashes_refuted` | `PropertiesCkf.v` | none (closed under the global context) |
| `C98_created` | `PropertiesCkf2.v` | none (closed under the global context) |
| `C98_groups_refuted` | `PropertiesCkf2.v` | none (closed under the global context) |
| `C98_lean` | `PropertiesCkf2.v` | none (closed under the global context) |
| `C98_loaded` | `PropertiesCkf2.v` | none (closed under the global context) |
| `C98_missing` | `PropertiesCkf2.v` | none (closed under the global context) |
| `C98_own_arch_refuted` | `PropertiesCkf2.v` | none (closed under the global context) |
| `C98_parallel` | `PropertiesCkf2.v` | none (closed under the global context) |
| `C98_parallel_refuted` | `PropertiesCkf2.v` | none (closed under the global context) |
| `C98_round_trip` | `PropertiesCkf2.v` | none (closed under the global context) |
| `C98_saved` | `PropertiesCkf2.v` | none (closed under the global context) |
| `C98_unusable` | `PropertiesCkf2.v` | none (closed under the global context) |
| `C98_wrong_arch` | `PropertiesCkf2.v` | none (closed under the global context) |
| `C99_attach` | `PropertiesEe.v` | none (closed under the global context) |
| `C99_data_parallel_refuted` | `PropertiesEe.v` | none (closed under the global context) |
| `C99_forward` | `PropertiesEe.v` | none (closed under the global context) |
| `C99_forward_succeeds` | `PropertiesEe.v` | none (closed under the global context) |
| `C99_nested_refuted` | `PropertiesEe.v` | none (closed under the global context) |
| `C99_outputs` | `PropertiesEe.v` | none (closed under the global context) |
| `C99_same_exit_refuted` | `PropertiesEe.v` | none (closed under the global context) |
| `C99_same_function` | `PropertiesEe.v` | none (closed under the global context) |
| `C99_unknown` | `PropertiesEe.v` | none (closed under the global context) |
