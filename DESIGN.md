# Formal model of NervanaSystems/distiller in Rocq (Coq 8.16.1)

This file is generated by `tools/gen_design.py` from `tools/design_head.md`, `tools/notes.py`, `properties.jsonl` and `MANIFEST.json`.

## Approach
* The model is a set of total, executable Gallina functions, one per modelled Python function or method, each with a
  comment citing the file and lines in /repo and naming the simplifications.
* `theories/<Area>Model.v`: model only. `theories/<Area>Spec.v`: small, independent specification vocabulary.
  `theories/<Area>Proofs.v` (and similar): lemmas. `theories/Properties<Area>.v`: the property theorems
  (`Cxx_...`), non-vacuity `Example`s and `Print Assumptions` after each theorem.
* Python exceptions are values of a result type (`Ok x | Raise e`), so "raises" is part of what is proved.
* Tensors are a shape and the list of elements in row-major order (or plain lists where the shape does not matter).
* Numbers are exact rationals `Q` in place of IEEE floats. Square roots, inverse square roots, logarithms and
  exponentials are function parameters quantified in the theorem (with the hypotheses shown there), except in
  `PropertiesKdReal.v`, which uses Coq's `R`. Rounding of floating-point + - * / is **not** modelled; the explicit
  `round()` of the code (round half to even) and `int()`/`floor` are modelled exactly.
* Python dicts are association lists with Python's insertion-order semantics; sets only where order cannot be observed.
* Object identity (policies used as dict keys, shared modules) is an integer identifier.
* Unbounded recursion over graphs uses fuel; where it does, the theorem proves the fuel sufficient
  (C50, C57, C24 `_succeeds`), so the fuel is not observable.
* Names: suffix `_partial` marks a theorem that proves only part of its property; suffix `_refuted` marks a theorem
  that proves that the code does *not* do what its documentation or the property says, by a concrete run of the model
  (these are findings about the code; each is a computation of the model and can be repeated in Python).

## Trusted base
* Coq 8.16.1's kernel (no kernel check is switched off, no plugin is used).
* `Print Assumptions`: `ASSUMPTIONS.md` lists the result for every theorem in MANIFEST.json (generated by
  `tools/gen_assumptions.py`). All are closed under the global context, except these, which are about real numbers and use axioms of the standard library: `C102_binary_weights` (ClassicalDedekindReals.sig_not_dec, ClassicalDedekindReals.sig_forall_dec, FunctionalExtensionality.functional_extensionality_dep); `C102_clipped_activation` (ClassicalDedekindReals.sig_forall_dec, FunctionalExtensionality.functional_extensionality_dep); `C102_clipped_activation_elements` (ClassicalDedekindReals.sig_forall_dec, FunctionalExtensionality.functional_extensionality_dep); `C102_clipped_activation_forward` (ClassicalDedekindReals.sig_forall_dec, FunctionalExtensionality.functional_extensionality_dep); `C102_dorefa_weights` (ClassicalDedekindReals.sig_not_dec, ClassicalDedekindReals.sig_forall_dec, FunctionalExtensionality.functional_extensionality_dep, Classical_Prop.classic); `C102_dorefa_weights_forward` (ClassicalDedekindReals.sig_not_dec, ClassicalDedekindReals.sig_forall_dec, FunctionalExtensionality.functional_extensionality_dep, Classical_Prop.classic); `C102_learned_clip` (ClassicalDedekindReals.sig_forall_dec, FunctionalExtensionality.functional_extensionality_dep); `C102_learned_clip_degenerate` (ClassicalDedekindReals.sig_forall_dec, FunctionalExtensionality.functional_extensionality_dep); `C102_learned_clip_elements` (ClassicalDedekindReals.sig_forall_dec, FunctionalExtensionality.functional_extensionality_dep); `C102_learned_clip_forward` (ClassicalDedekindReals.sig_forall_dec, FunctionalExtensionality.functional_extensionality_dep); `C102_step` (ClassicalDedekindReals.sig_forall_dec); `C102_training_goes_on_refuted` (ClassicalDedekindReals.sig_forall_dec, FunctionalExtensionality.functional_extensionality_dep); `C102_wrpn_weights` (ClassicalDedekindReals.sig_forall_dec, FunctionalExtensionality.functional_extensionality_dep); `C102_wrpn_weights_forward` (ClassicalDedekindReals.sig_forall_dec, FunctionalExtensionality.functional_extensionality_dep); `C105_channels_smooth` (ClassicalDedekindReals.sig_not_dec, ClassicalDedekindReals.sig_forall_dec, FunctionalExtensionality.functional_extensionality_dep); `C105_combined_refuted` (ClassicalDedekindReals.sig_not_dec, ClassicalDedekindReals.sig_forall_dec, FunctionalExtensionality.functional_extensionality_dep); `C105_exact_zero` (ClassicalDedekindReals.sig_not_dec, ClassicalDedekindReals.sig_forall_dec, FunctionalExtensionality.functional_extensionality_dep); `C105_group_derivative` (ClassicalDedekindReals.sig_not_dec, ClassicalDedekindReals.sig_forall_dec, FunctionalExtensionality.functional_extensionality_dep); `C105_group_subgradient` (ClassicalDedekindReals.sig_not_dec, ClassicalDedekindReals.sig_forall_dec, FunctionalExtensionality.functional_extensionality_dep); `C105_group_value` (ClassicalDedekindReals.sig_not_dec, ClassicalDedekindReals.sig_forall_dec, FunctionalExtensionality.functional_extensionality_dep); `C105_l1` (ClassicalDedekindReals.sig_forall_dec, FunctionalExtensionality.functional_extensionality_dep); `C105_l1_step` (ClassicalDedekindReals.sig_forall_dec, FunctionalExtensionality.functional_extensionality_dep); `C105_refused` (ClassicalDedekindReals.sig_not_dec, ClassicalDedekindReals.sig_forall_dec, FunctionalExtensionality.functional_extensionality_dep); `C105_step` (ClassicalDedekindReals.sig_not_dec, ClassicalDedekindReals.sig_forall_dec, FunctionalExtensionality.functional_extensionality_dep); `C105_step_length` (ClassicalDedekindReals.sig_not_dec, ClassicalDedekindReals.sig_forall_dec, FunctionalExtensionality.functional_extensionality_dep); `C105_unlisted` (ClassicalDedekindReals.sig_not_dec, ClassicalDedekindReals.sig_forall_dec, FunctionalExtensionality.functional_extensionality_dep); `C105_zero_stays` (ClassicalDedekindReals.sig_not_dec, ClassicalDedekindReals.sig_forall_dec, FunctionalExtensionality.functional_extensionality_dep); `C108_density` (ClassicalDedekindReals.sig_not_dec, ClassicalDedekindReals.sig_forall_dec, FunctionalExtensionality.functional_extensionality_dep, Classical_Prop.classic); `C108_empty` (ClassicalDedekindReals.sig_not_dec, ClassicalDedekindReals.sig_forall_dec, FunctionalExtensionality.functional_extensionality_dep, Classical_Prop.classic); `C108_nan_refuted` (ClassicalDedekindReals.sig_not_dec, ClassicalDedekindReals.sig_forall_dec, FunctionalExtensionality.functional_extensionality_dep, Classical_Prop.classic); `C108_shown` (ClassicalDedekindReals.sig_not_dec, ClassicalDedekindReals.sig_forall_dec, FunctionalExtensionality.functional_extensionality_dep, Classical_Prop.classic); `C108_shown_refuted` (ClassicalDedekindReals.sig_not_dec, ClassicalDedekindReals.sig_forall_dec, FunctionalExtensionality.functional_extensionality_dep, Classical_Prop.classic); `C108_sparsity` (ClassicalDedekindReals.sig_not_dec, ClassicalDedekindReals.sig_forall_dec, FunctionalExtensionality.functional_extensionality_dep, Classical_Prop.classic); `C108_total` (ClassicalDedekindReals.sig_not_dec, ClassicalDedekindReals.sig_forall_dec, FunctionalExtensionality.functional_extensionality_dep, Classical_Prop.classic); `C108_tracker_refuted` (ClassicalDedekindReals.sig_not_dec, ClassicalDedekindReals.sig_forall_dec, FunctionalExtensionality.functional_extensionality_dep, Classical_Prop.classic); `C114_apoz_range` (ClassicalDedekindReals.sig_forall_dec, FunctionalExtensionality.functional_extensionality_dep); `C114_channel_statistics` (ClassicalDedekindReals.sig_forall_dec, FunctionalExtensionality.functional_extensionality_dep); `C114_collected_l1` (ClassicalDedekindReals.sig_not_dec, ClassicalDedekindReals.sig_forall_dec, FunctionalExtensionality.functional_extensionality_dep); `C114_collected_means` (ClassicalDedekindReals.sig_not_dec, ClassicalDedekindReals.sig_forall_dec, FunctionalExtensionality.functional_extensionality_dep); `C114_inputs_are_one_batch` (ClassicalDedekindReals.sig_not_dec, ClassicalDedekindReals.sig_forall_dec, FunctionalExtensionality.functional_extensionality_dep); `C114_l1_is_scaled_mean` (ClassicalDedekindReals.sig_forall_dec, FunctionalExtensionality.functional_extensionality_dep); `C114_linear_single_number_refuted` (ClassicalDedekindReals.sig_forall_dec, FunctionalExtensionality.functional_extensionality_dep); `C114_records` (ClassicalDedekindReals.sig_not_dec, ClassicalDedekindReals.sig_forall_dec, FunctionalExtensionality.functional_extensionality_dep); `C114_records_consistent` (ClassicalDedekindReals.sig_not_dec, ClassicalDedekindReals.sig_forall_dec, FunctionalExtensionality.functional_extensionality_dep); `C114_records_reset` (ClassicalDedekindReals.sig_not_dec, ClassicalDedekindReals.sig_forall_dec, FunctionalExtensionality.functional_extensionality_dep); `C114_shared_module_refuted` (ClassicalDedekindReals.sig_not_dec, ClassicalDedekindReals.sig_forall_dec, FunctionalExtensionality.functional_extensionality_dep); `C114_split_and_order_irrelevant` (ClassicalDedekindReals.sig_not_dec, ClassicalDedekindReals.sig_forall_dec, FunctionalExtensionality.functional_extensionality_dep); `C114_stop_and_restart` (ClassicalDedekindReals.sig_not_dec, ClassicalDedekindReals.sig_forall_dec, FunctionalExtensionality.functional_extensionality_dep); `C114_unsupported_shape` (ClassicalDedekindReals.sig_forall_dec, FunctionalExtensionality.functional_extensionality_dep); `C114_value_is_live_refuted` (ClassicalDedekindReals.sig_not_dec, ClassicalDedekindReals.sig_forall_dec, FunctionalExtensionality.functional_extensionality_dep); `C40_distillation_loss_equal_logits` (ClassicalDedekindReals.sig_not_dec, ClassicalDedekindReals.sig_forall_dec, FunctionalExtensionality.functional_extensionality_dep, Classical_Prop.classic); `C40_distillation_loss_nonneg` (ClassicalDedekindReals.sig_not_dec, ClassicalDedekindReals.sig_forall_dec, FunctionalExtensionality.functional_extensionality_dep, Classical_Prop.classic); `C58_collect_quant_stats` (ClassicalDedekindReals.sig_not_dec, ClassicalDedekindReals.sig_forall_dec, FunctionalExtensionality.functional_extensionality_dep); `C58_modules_to_collect_refuted` (ClassicalDedekindReals.sig_not_dec, ClassicalDedekindReals.sig_forall_dec, FunctionalExtensionality.functional_extensionality_dep); `C58_never_called_refuted` (ClassicalDedekindReals.sig_not_dec, ClassicalDedekindReals.sig_forall_dec, FunctionalExtensionality.functional_extensionality_dep); `C58_record_statistics` (ClassicalDedekindReals.sig_not_dec, ClassicalDedekindReals.sig_forall_dec, FunctionalExtensionality.functional_extensionality_dep); `C58_reusable` (ClassicalDedekindReals.sig_not_dec, ClassicalDedekindReals.sig_forall_dec, FunctionalExtensionality.functional_extensionality_dep); `C59_actual_update` (ClassicalDedekindReals.sig_not_dec, ClassicalDedekindReals.sig_forall_dec, FunctionalExtensionality.functional_extensionality_dep); `C59_average_refuted` (ClassicalDedekindReals.sig_not_dec, ClassicalDedekindReals.sig_forall_dec, FunctionalExtensionality.functional_extensionality_dep); `C59_bounds` (ClassicalDedekindReals.sig_not_dec, ClassicalDedekindReals.sig_forall_dec, FunctionalExtensionality.functional_extensionality_dep); `C59_single_batch` (ClassicalDedekindReals.sig_not_dec, ClassicalDedekindReals.sig_forall_dec, FunctionalExtensionality.functional_extensionality_dep); `C62_activation_sparsity` (ClassicalDedekindReals.sig_not_dec, ClassicalDedekindReals.sig_forall_dec, FunctionalExtensionality.functional_extensionality_dep); `C62_meter` (ClassicalDedekindReals.sig_not_dec, ClassicalDedekindReals.sig_forall_dec, FunctionalExtensionality.functional_extensionality_dep); `C62_meter_total` (ClassicalDedekindReals.sig_not_dec, ClassicalDedekindReals.sig_forall_dec, FunctionalExtensionality.functional_extensionality_dep); `C73_channels_4d_refuted` (ClassicalDedekindReals.sig_not_dec, ClassicalDedekindReals.sig_forall_dec, FunctionalExtensionality.functional_extensionality_dep); `C73_group_lasso_channels` (ClassicalDedekindReals.sig_not_dec, ClassicalDedekindReals.sig_forall_dec, FunctionalExtensionality.functional_extensionality_dep); `C73_group_lasso_conv` (ClassicalDedekindReals.sig_not_dec, ClassicalDedekindReals.sig_forall_dec, FunctionalExtensionality.functional_extensionality_dep); `C73_group_lasso_errors` (ClassicalDedekindReals.sig_not_dec, ClassicalDedekindReals.sig_forall_dec, FunctionalExtensionality.functional_extensionality_dep); `C73_group_lasso_matrix` (ClassicalDedekindReals.sig_not_dec, ClassicalDedekindReals.sig_forall_dec, FunctionalExtensionality.functional_extensionality_dep); `C73_l1_loss` (ClassicalDedekindReals.sig_forall_dec, FunctionalExtensionality.functional_extensionality_dep); `C73_lasso_meaning` (ClassicalDedekindReals.sig_not_dec, ClassicalDedekindReals.sig_forall_dec, FunctionalExtensionality.functional_extensionality_dep); `C73_variance_loss` (ClassicalDedekindReals.sig_not_dec, ClassicalDedekindReals.sig_forall_dec, FunctionalExtensionality.functional_extensionality_dep).
* A scan of the whole environment also shows the standard library's `Coq.Reals.Rdefinitions.*` module-sealed
  constants (defined, not assumed) and `Coq.ssr.ssrunder.Under_rel.*` (loaded by `Coq.ssr`); no theorem depends on the
  latter. No axiom, `Parameter`, section-less `Variable`/`Hypothesis`, `Admitted`, functor or module type is declared.
* The correspondence between the Gallina model and the Python text (by inspection, with line citations), and the
  semantics given to PyTorch primitives: `mul_`, `topk` (including that ties are broken by an unspecified choice, as a
  parameter), `gt`, `expand`, `t`, `view`, `index_select`, `resize_`, `round`, `clamp`, `clone`, module attribute and
  buffer registration, `state_dict`, `conv2d`, `linear`, `batch_norm` and torch's learning-rate scheduler base class.
* Theorems were tested against wrong programs: `tools/mutate.py` applies an edit to a copy of the model and rebuilds;
  `seeded/LOG.jsonl` records every attempt, which theorems failed and which were tightened.

## What is modelled, per source file (distiller/...)
| file | modelled | not modelled |
|------|----------|--------------|
| scheduler.py | everything except printing | logging |
| policy.py | PolicyLoss, PruningPolicy, RegularizationPolicy, LRPolicy, QuantizationPolicy (callbacks) | tensorboard/plot side of hooks |
| pruning/{__init__,magnitude,level,sensitivity,splicing,agp,baidu_rnn,structure}_pruner | everything | hybrid/experimental classes without state |
| pruning/ranked_structures_pruner.py | all rankers, group types, leader handling, block pruning, Bernoulli scaling | gradient hooks, RNG (an arbitrary choice function) |
| thresholding.py, norms.py | everything used by the pruners | - |
| model_summaries.py | sparsity tables of weights and masks (without standard deviation), performance summary (hooks, MACs, names) | printing, tables as text, graph drawing, compute summary |
| regularization/* | losses and thresholds of all regularizers, Conv2dWithMask, replacement of convolutions; the policy-level behaviour; gradients of L1 and group lasso (RgrModel, C105) | gradient of the group variance |
| config.py | dict_config, components, policies, times, by-class configuration | YAML parsing, messages |
| thinning.py | both recipe constructions, append helpers, execution, optimizer thinning, replay, saving, layer removal of the CIFAR ResNets (RmModel, C109) | AMC helpers |
| summary_graph.py | construction of operations and edges from the nodes of a trace, names, replacement of module lists, predecessors/successors (also _f), adjacency_map, layers_topological_order, missing_modules, MACs / footprint / arithmetic intensity, merging of padding and pooling, dropout scope work-around | the trace and ONNX optimisation themselves, parameter shapes, DataParallel names |
| utils.py | names, density/sparsity family, state handling used elsewhere, volume, make_non_parallel_copy, recursive type conversion, finding and replacing modules by name (HierModel, C107), counting of non-zero weights in IEEE doubles (CntModel, C108) | argument parsing, logging helpers |
| quantization/q_utils.py | everything except AciqClipper's internal tables' origin | - |
| quantization/clipped_linear.py | WRPN, DoReFa, PACT arithmetic (forward), gradients (GradModel.v), PACT's parameter group | in-place buffers |
| quantization/quantizer.py | constructor, overrides (regular expressions), metadata, prepare_model, quantize_params | optimizer re-creation details |
| quantization/range_linear.py | quantization parameters, parameter-layer wrapper, add/mult/concat/matmul wrappers, input metadata, clipping, EMA, fake quantization, QAT input patching, conversion of layer wrappers to PyTorch, preparation of the model (propagation and clipping of statistics, fusing of ReLUs, choice of wrappers), embedding wrapper, floating-point and fake-quantization wrappers, replacement functions with the settings of the wrappers, construction from the command line | LSTM unrolling, stats file parsing |
| quantization/pytorch_quant_conversion.py | conversion of quantization parameters and tensors; both passes over the model, the conditional (de)quantize modules | the QFunctional wrappers (one native call each), nested tuples of tensors |
| quantization/sim_bn_fold.py, model_transforms.py | everything | gradients |
| learning_rate.py, knowledge_distillation.py, apputils/performance_tracker.py | everything | - |
| apputils/data_loaders.py | index arithmetic and samplers | image decoding, data sets |
| apputils/image_classifier.py | training loop, early-exit loss and statistics, checkpoint flags, _init_learner (start, resume, reset; learning rates); seeds, devices, lazy loading, quantize-and-test (EnvModel, C115) | argument parsing, evaluation of summaries |
| apputils/execution_env.py | copies of configuration files, log directories, links to the latest log under any interleaving (EnvModel, C115) | the texts logged, Python logging configuration |
| examples/lottery_ticket/lottery.py, directives.py, TrainingProgressCollector | extract_lottery_ticket, freeze_training, freeze_all, adjust_dropout, progress collectors (LotModel, C116) | print_sparsities, command line, the file's name |
| examples/object_detection_compression/group_by_aspect_ratio.py, examples/GNMT/seq2seq/data | GroupedBatchSampler; BucketingSampler, collation, filtering, tokens (SmpModel, C117) | aspect ratios, reading files, BPE text |
| examples/GNMT/seq2seq/inference/{beam_search,inference}.py, seq2seq/utils.py | greedy_search, translate, batch_padded_sequences (GenModel, C119) | beam_search with more than one beam, the network |
| examples/object_detection_compression/utils.py | SmoothedValue, all_gather, reduce_dict, log_every, collate_fn, warm-up factor (MetModel, C120) | printed texts, mkdir, init_distributed_mode |
| examples/ncf/{ncf,dataset,convert}.py | evaluation, best model and threshold, training data and its saved files, samples, split (NcfModel, C118) | NeuMF, the training step (C03), reading the raw ratings |
| early_exit.py, modules/topology.py, models/*/*earlyexit.py (forward) | EarlyExitMgr, BranchPoint, forward of the early-exit models (C99) | definitions of the branch networks, multi-device DataParallel |
| models/__init__.py; utils.py (input shapes) | create_model with all its sources, register_user_model, DataParallel placement, input shapes, get_dummy_input (C100, C101) | the networks themselves, patch_torchvision_mobilenet_v2, devices |
| apputils/checkpoint.py | save_checkpoint, load_checkpoint, load_lean_checkpoint, the files at every crash point | pickle format, devices, get_contents_table |
| data_loggers/collector.py | hooks and contexts, quantization statistics, weighted meters, activation sparsity, histograms, raw outputs; channel statistics, summary and per-sample records (ChModel, C114) | spreadsheet / yaml / image writing, QFunctionalWrapper |
| data_loggers/logger.py, tbbackend.py | which records, rows and files the TensorBoard and CSV loggers write (LogModel, C111) | PythonLogger tables, histogram contents, csv text |
| modules/rnn.py | LSTM cell and LSTM forward (tensors, packed sequences), conversions | bidirectional_type 1, init_weights (it refers to a missing attribute), repr |
| modules/eltwise.py | everything (EltModel, C106) | overlapping views, type promotion |
| sensitivity.py | perform_sensitivity_analysis, rows of the CSV file | plotting |
| quantization/ptq_greedy_search.py | candidates, local search, the search with inputs, exclusions and resuming | DataParallel names, statistics collection, the program part |
| pruning/greedy_filter_pruning.py | prune_tensor, the search for the most robust layer, the main loop, records and checkpoints | find_most_robust_layer_mp, fine-tuning, file writing |
| quantization/ptq_coordinate_search.py | vector conversion, validation, the search with its callback, command-line filtering; mode names, losses, initialisation of layers and model (C93) | input collection hooks, DataParallel names, scipy, per-channel weights, scale approximation, devices |
| examples/auto_compression/amc: environment.py, rewards.py, utils/net_wrapper.py, utils/data_dependencies.py | episodes: mapping and constraining of actions, metadata, dependencies, accounting of MACs and weights, observations (dynamic fields, normalisation), rewards, best episodes and checkpoints (C94-C96) | training, validation, feature-map reconstruction, thinning, the logarithmic reward, RL agents other than the replay memory, charts and logs |
| examples/auto_compression/amc/rl_libs/hanlab: memory.py, agent.py (train, observe) | ring buffers, sequential memory, sampling, what training observes (MemModel, C110) | get_recent_state, networks, policy updates |
| examples/word_language_model: data.py, main.py | corpus, batches, evaluation, reports, the files of a training (LmModel, C112) | the networks, argument parsing, learning-rate scheduling, ONNX export |
| ranked_structures_pruner.py:518-728, AMC features_collector.py:43-80 | the feature-map samples, the regression matrices, the written weights and mask (FmModel, C113) | the numerical solver, devices and dtypes |
## Properties: what is modelled and how it is proved

| id | property | status | how |
|----|----------|--------|-----|
| C01 | A policy is called in exactly the epochs it was scheduled for | proved | Log of policy calls equals the specified list for every callback in every history. Theorems: `C01_calls_exactly_as_scheduled`, `C01_add_policy_accepts_iff_valid`, `C01_range_membership` |
| C02 | When the 'last epoch' work of a pruning policy runs | proved | Both directions, plus a concrete run in which keep_mask is ignored (_refuted). Theorems: `C02_last_epoch_flag`, `C02_keep_mask_permanent`, `C02_last_epoch_work_never_runs`, `C02_keep_mask_ignored_refuted` |
| C03 | Pruned weights are zero after every training step | proved | Any history of callbacks, arbitrary weight updates and pruners. Theorems: `C03_pruned_weights_zero_after_step`, `C03_mask_all_weights_exact` |
| C04 | Masking keeps surviving weights and is idempotent | proved |  Theorems: `C04_masking_zeroes_exactly_the_pruned`, `C04_masking_idempotent` |
| C05 | Double-copy training updates the dense weights | proved | One pruning policy in the epoch; the two-policy case is refuted by a concrete run. Theorems: `C05_double_copies_train_dense_weights`, `C05_double_copies_restore`, `C05_two_policies_refuted` |
| C06 | A regularization mask lives for one mini-batch unless kept | proved | One regularization policy in the epoch; interactions with pruning masks are refuted by concrete runs. Theorems: `C06_regularization_mask_lifetime`, `C06_threshold_destroys_pruning_mask_refuted`, `C06_stale_flag_drops_pruning_mask_refuted` |
| C07 | Mini-batch granularity pruning schedule | proved | Also the fold_batchnorm defect as a concrete run. Theorems: `C07_masks_recomputed_iff`, `C07_pruner_not_consulted_otherwise`, `C07_epoch_begin_effect`, `C07_minibatch_begin_effect`, `C07_fold_batchnorm_refuted` |
| C08 | Loss passed through policies | proved |  Theorems: `C08_regularizers_add_their_components`, `C08_policies_are_chained`, `C08_no_policy_no_change`, `C08_bad_policy_raises` |
| C09 | Mask checkpoint round trip | proved |  Theorems: `C09_state_round_trip`, `C09_missing_name_raises`, `C09_failed_load_replaces_a_prefix`, `C09_dataparallel_state_loads`, `C09_normalising_plain_state_refuted`, `C09_init_from_masks`, `C09_init_normalised_loses_all_masks_refuted`, `C09_checkpoint_round_trip`, `C09_dataparallel_checkpoint_round_trip`, `C09_dataparallel_without_scheduler_fails` |
| C10 | DataParallel name normalisation | proved |  Theorems: `C10_normalize_without_module`, `C10_normalize_removes_first_module`, `C10_split_join`, `C10_normalize_undoes_dataparallel`, `C10_denormalize_restores_dataparallel` |
| C11 | Crash and resume from a checkpoint | proved | Side conditions are exactly those of the property; two divergence witnesses. Theorems: `C11_resume_is_exact`, `C11_forward_only_diverges_refuted`, `C11_cached_threshold_diverges_refuted` |
| C12 | Threshold mask | proved |  Theorems: `C12_threshold_mask`, `C12_larger_threshold_prunes_more`, `C12_magnitude_pruner` |
| C13 | Level pruner reaches its sparsity target | proved |  Theorems: `C13_level_criterion`, `C13_over_pruning_only_by_ties`, `C13_larger_level_prunes_more`, `C13_level_criterion_raises`, `C13_level_pruner` |
| C14 | AGP sparsity schedule | proved |  Theorems: `C14_agp_schedule`, `C14_agp_formula`, `C14_agp_ctor`, `C14_agp_needs_two_epochs`, `C14_single_epoch_refuted`, `C14_agp_pruner` |
| C15 | Splicing hysteresis | proved |  Theorems: `C15_splicing_history`, `C15_splicing_step`, `C15_unlisted_unchanged` |
| C16 | Baidu RNN pruner threshold schedule | proved |  Theorems: `C16_baidu_threshold`, `C16_slopes_fixed_by_first_call`, `C16_late_ramp_refuted` |
| C17 | Sensitivity pruner threshold is fixed for the whole run | proved |  Theorems: `C17_sensitivity_threshold_fixed`, `C17_unlisted_unchanged` |
| C18 | Structure masks are all-or-nothing per structure | proved | Element-wise, every shape; Mean_* criteria on matrices divide by the wrong dimension (_refuted). Theorems: `C18_expand_conv`, `C18_expand_matrix`, `C18_threshold_filters`, `C18_threshold_channels`, `C18_threshold_kernels`, `C18_threshold_matrix`, `C18_mean_rows_refuted`, `C18_structure_pruner` |
| C19 | Ranked structure pruning removes the intended number of the weakest structures | proved | group_size 1 is exact; group_size > 1 never prunes (RuntimeError) and ties remove all tied structures (_refuted). Theorems: `C19_constructor`, `C19_count`, `C19_count_floor`, `C19_filters`, `C19_channels`, `C19_matrix_columns`, `C19_group_types`, `C19_ties_remove_all_refuted`, `C19_group_size_refuted` |
| C20 | Structure norms | proved |  Theorems: `C20_norm_functions`, `C20_conv_norms`, `C20_bad_group_len`, `C20_matrix_norms`, `C20_row_mean_refuted` |
| C21 | Leader-dependent groups share one mask | proved | Any sequence of calls; stale map and AssertionError findings as _refuted. Theorems: `C21_leader_map_shared`, `C21_same_structures`, `C21_leader_no_map_refuted`, `C21_stale_map_refuted` |
| C22 | Activation-ranked pruning direction | proved | Orderings are arbitrary; the mean-activation ranking keeps the low-activation filters (_refuted). Theorems: `C22_prune_by_order`, `C22_removes_largest`, `C22_mean_activation_refuted`, `C22_bernoulli_scaling` |
| C23 | Thinning keeps the network consistent | proved | Recipes whose directives select along different dimensions (what recipe creation produces); findings about masks, momentum and repetition for linear layers are _refuted. Theorems: `C23_execute`, `C23_execute_again`, `C23_only_sgd`, `C23_linear_execute`, `C23_linear_mask_refuted`, `C23_linear_momentum_refuted`, `C23_linear_again_refuted`, `C23_momentum_without_gradient_refuted`, `C23_same_dimension_refuted` |
| C24 | Thinning zeroed filters or channels does not change the network function | proved | Networks of convolutions (any geometry, groups), linear layers, batch norms, channel-wise operations, additions and opaque operations, over exact rationals; inverse square root is any function. Fourteen kinds of network outside the hypotheses are refuted by computation. Theorems: `C24_remove_channels`, `C24_remove_channels_succeeds`, `C24_filter_bias_refuted`, `C24_filter_bn_shift_refuted`, `C24_filter_two_bn_refuted`, `C24_filter_bn_row_refuted`, `C24_filter_concat_refuted`, `C24_filter_add_refuted`, `C24_filter_output_refuted`, `C24_filter_rectangle_refuted`, `C24_filter_depthwise_refuted`, `C24_channel_shared_refuted`, `C24_channel_bn_search_refuted`, `C24_channel_linear_refuted`, `C24_channel_input_refuted`, `C24_channel_in_features_refuted`, `C24_remove_filters`, `C24_remove_filters_succeeds` |
| C25 | Quantized range | proved | Exact rational arithmetic; float rounding is not modelled. Theorems: `C25_quantized_range` |
| C26 | Quantization is exact at zero and bounded in error | proved | Error bound proved for every clipping regime; degenerate ranges and the 1-bit restricted range as _refuted. Theorems: `C26_round_half_even`, `C26_asymmetric`, `C26_asymmetric_elementwise`, `C26_degenerate_range`, `C26_symmetric`, `C26_symmetric_elementwise`, `C26_one_bit_restricted_refuted` |
| C27 | Re-quantizing a quantized value is the identity | proved |  Theorems: `C27_requantize_identity`, `C27_fake_quant_idempotent` |
| C28 | Scale approximation by multiplier and shift | proved |  Theorems: `C28_scale_approximation`, `C28_limit_small_scale_refuted` |
| C29 | WRPN and DoReFa weights and levels | proved | k=1 and zero-weight corner cases as _refuted. Theorems: `C29_wrpn`, `C29_wrpn_levels_refuted`, `C29_dorefa`, `C29_dorefa_zero_refuted`, `C29_dorefa_binary` |
| C30 | Clipped activation quantization | proved |  Theorems: `C30_clipped_quantization`, `C30_learned_clip` |
| C31 | Integer-arithmetic layer output equals the float computation | proved | Exact rational arithmetic, no scale approximation; convolution geometry is an arbitrary window map. Theorems: `C31_weight_error`, `C31_static_output_error`, `C31_dynamic_output_error`, `C31_add_error`, `C31_concat_error`, `C31_mult_error`, `C31_matmul_error` |
| C32 | Simulated integer weights survive any sequence of forwards and saves | proved | Good histories; the four ways out of them are _refuted witnesses. Theorems: `C32_weights_survive`, `C32_save_does_not_change_output`, `C32_set_after_forward_refuted`, `C32_quantizer_set_stale_refuted`, `C32_stale_accumulator_refuted`, `C32_per_channel_set_fails`, `C32_set_refreshes_accumulator` |
| C33 | EMA range tracking | proved | Any history of training and evaluation forwards. Theorems: `C33_ema_average`, `C33_tracking`, `C33_fake_quant_error`, `C33_symmetric_level_overflow_refuted`, `C33_untrained_outputs_zero`, `C33_mode_pair_is_asymmetric_unsigned`, `C33_qat_weight_error`, `C33_qat_mode_ignored` |
| C34 | Batch-norm folding preserves the layer function | proved | sqrt/rsqrt are arbitrary functions; FrozenBatchNorm2d double folding and AttributeError are witnesses. Theorems: `C34_eval_forward`, `C34_freeze_preserves`, `C34_constructor`, `C34_fold_bn`, `C34_untracked_not_folded`, `C34_frozen_bn_folded_twice_refuted`, `C34_frozen_bn_attribute_error` |
| C35 | Quantizer bit-width overrides: the first match wins | proved | Regular expressions are modelled (characters, sets, alternation, star, groups, anchors); three pattern shapes that break first-match are _refuted. Theorems: `C35_override_choice`, `C35_first_match_wins`, `C35_first_match_refuted`, `C35_group_shift`, `C35_capturing_groups_refuted`, `C35_alternation_refuted`, `C35_data_parallel`, `C35_module_prefix_refuted`, `C35_constructor_errors`, `C35_resolution`, `C35_quantizer_maps` |
| C36 | Learning-rate schedules | proved | Integer powers for PolynomialLR; behaviour after T_max is refuted. Theorems: `C36_multi_step_multi_gamma`, `C36_multi_gamma_errors`, `C36_multi_gamma_constant_between_milestones`, `C36_polynomial`, `C36_polynomial_zero_length`, `C36_polynomial_after_the_end_refuted` |
| C37 | Best-score tracking | proved | Any history of steps and any complete run; num_best_scores=0 and the tracker reset on resume are findings. Theorems: `C37_history`, `C37_best_scores`, `C37_missing_score`, `C37_is_best`, `C37_best_checkpoint`, `C37_no_epochs`, `C37_num_best_scores_zero_refuted`, `C37_resume_overwrites_best_refuted` |
| C38 | Train/validation split | proved | All permutations drawn by the samplers; fixed_subset leaks validation samples into training (_refuted). Theorems: `C38_split`, `C38_sampler`, `C38_loaders`, `C38_loaders_errors`, `C38_fixed_subset_refuted`, `C38_sequential_ignored`, `C38_batches` |
| C39 | Density and sparsity | proved | All sparsity functions; matrices, convolutions and the model-wide statistic. Theorems: `C39_density_sparsity`, `C39_empty_tensor`, `C39_structure_sparsity`, `C39_matrix_sparsity`, `C39_other_ranks`, `C39_ranked_filters_reach_sparsity`, `C39_model_sparsity` |
| C40 | Knowledge distillation loss | proved | Histories of callbacks over exact rationals; KL >= 0 with softmax over the reals (stdlib real axioms). Theorems: `C40_overall_loss`, `C40_constructor`, `C40_forward_each_minibatch_never_raises`, `C40_stale_logits_refuted`, `C40_order_with_regularizers`, `C40_distillation_loss_nonneg`, `C40_distillation_loss_equal_logits` |
| C41 | Masks follow parameters renamed by quantizers | proved |  Theorems: `C41_masker_names_of_quantized_modules`, `C41_undotted_unknown_parameter_raises`, `C41_pruning_policy_needs_all_maskers`, `C41_forward_only_ignored_refuted`, `C41_gradient_hook_leak_refuted` |
| C42 | Learning-rate policies step once per scheduled epoch | proved |  Theorems: `C42_lr_steps` |
| C43 | Gradient masking | proved |  Theorems: `C43_constructor_check`, `C43_gradient_hook` |
| C44 | Block pruning removes whole blocks of the requested shape | proved | General block view plus the documented special cases; r>1, 1<d<C is refuted. Theorems: `C44_filter_blocks`, `C44_kernel_blocks`, `C44_block_shapes`, `C44_super_block_refuted`, `C44_errors`, `C44_block_sparsity`, `C44_filter_block_sparsity` |
| C45 | Range statistics used for quantization parameters | proved | Means and extrema are exact rationals; the standard deviation is a parameter. Theorems: `C45_min_max`, `C45_min_max_per_dim`, `C45_per_dim_error`, `C45_avg_min_max`, `C45_max_abs`, `C45_mean_n_stds`, `C45_n_stds_error`, `C45_aciq`, `C45_alpha_laplace`, `C45_alpha_tables` |
| C46 | Input quantization metadata | proved | Custom overrides are refuted by a concrete input. Theorems: `C46_metadata_source`, `C46_prepare_twice`, `C46_dynamic_input_error`, `C46_custom_override_params`, `C46_custom_override_error_refuted` |
| C47 | Reading back clipping values | proved | Signed asymmetric getter and symmetric weight clipping are refuted. Theorems: `C47_asymmetric_roundtrip`, `C47_symmetric_restricted_roundtrip`, `C47_signed_asymmetric_getter_refuted`, `C47_weight_clipping_refuted`, `C47_weight_clipping_ignores_restriction`, `C47_scalar_clipping` |
| C48 | Clipping recorded activation statistics | proved |  Theorems: `C48_clip_min_max`, `C48_clip_averages`, `C48_inverted_average_refuted` |
| C49 | Simulated batch-norm folding trains like the unfused pair | proved | Bisimulation with torch batch-norm; the freezing step output is refuted. Theorems: `C49_training_history_equiv`, `C49_single_value_raises`, `C49_freezing_step`, `C49_freezing_step_output_refuted` |
| C50 | fuse_modules / fold_batch_norms on the model graph | proved | Graphs in execution order; three findings as _refuted. Theorems: `C50_fused_consecutive`, `C50_pairs_complete`, `C50_pairs_sound`, `C50_fold_preserves_graph`, `C50_fold_removes_bn`, `C50_unconnected_fused_refuted`, `C50_split_fused_refuted`, `C50_overlapping_match_missed_refuted` |
| C51 | Early exits: every sample is counted at exactly one exit | proved | Losses and correctness per exit are arbitrary. Theorems: `C51_exit_choice`, `C51_every_sample_counted_once`, `C51_total_accuracy`, `C51_missing_threshold`, `C51_training_loss`, `C51_training_loss_is_a_mean`, `C51_untraversed_exit_refuted` |
| C52 | The sample application drives the scheduler correctly and saves pruned weights | proved | The loop is connected to the scheduler model; losses, updates and accuracies are arbitrary functions. Theorems: `C52_epoch`, `C52_minibatch`, `C52_accuracy_before_epoch_end`, `C52_run_is_a_history`, `C52_saved_weights_are_pruned`, `C52_continue`, `C52_saved_accuracy_refuted` |
| C53 | Quantization parameters from recorded activation statistics | proved | ACIQ clipping of statistics is C48. Theorems: `C53_none_and_avg`, `C53_n_std`, `C53_n_std_error`, `C53_scale_approximation` |
| C54 | prepare_model replaces each module by its own configuration and selects exactly the layer parameters | proved | Module trees of any size; sharing and container wrappers are refuted by concrete models. Theorems: `C54_prepare_model`, `C54_prepare_twice`, `C54_shared_modules_same_wrapper`, `C54_shared_unreplaced_refuted`, `C54_shared_siblings_refuted`, `C54_container_wrapper_refuted` |
| C55 | Quantized training keeps float weights and quantizes inputs once | proved | Any quantization function and any number of steps; class patching is modelled by an explicit call stack. Theorems: `C55_float_copy`, `C55_no_float_copy`, `C55_prepared_separate`, `C55_inputs_quantized_once`, `C55_second_model_refuted` |
| C56 | A checkpointed thinned model is rebuilt by replaying its recipes | proved | Replay is loaded=True, optimizer None; training steps may change all values but no shapes. Theorems: `C56_replay`, `C56_saved_recipes` |
| C57 | Graph searches find exactly the nodes of the requested types | proved | Names without DataParallel prefixes; the fuel of the model is proved sufficient. Theorems: `C57_search`, `C57_once`, `C57_twice_refuted` |
| C58 | Calibration statistics describe exactly the observed activations | proved | Over Coq.Reals (square roots); one output tensor per call; partial updates of a callback that raises are not modelled. Theorems: `C58_record_statistics`, `C58_collect_quant_stats`, `C58_reusable`, `C58_modules_to_collect_refuted`, `C58_never_called_refuted` |
| C59 | Averaged minima and maxima | proved | Over Coq.Reals. Theorems: `C59_single_batch`, `C59_bounds`, `C59_actual_update`, `C59_average_refuted` |
| C60 | A collection context observes exactly what runs inside it | proved | Generic in the collector: fresh record, callback, and what start does to an existing record. Modules are a tree with object identities. Theorems: `C60_collected_modules`, `C60_context`, `C60_each_call_once`, `C60_not_observing_after`, `C60_independent_of_history`, `C60_exception_leaves_hooks_refuted`, `C60_shared_module_twice_refuted`, `C60_raw_outputs`, `C60_raw_unequal_refuted`, `C60_raw_value_then_forward_refuted` |
| C61 | Activation histograms count every value in its bin | proved | Over exact rationals; torch.histc modelled from its documentation and the torch 1.3 CPU implementation. Theorems: `C61_exact`, `C61_total`, `C61_centroids`, `C61_clamp`, `C61_succeeds`, `C61_never_called_refuted`, `C61_constant_refuted` |
| C62 | Weighted meters and activation sparsity are exact | proved | Over Coq.Reals; a scalar meter (tensor-valued meters are element-wise). Theorems: `C62_meter`, `C62_meter_total`, `C62_activation_sparsity` |
| C63 | The modular LSTM computes what torch.nn.LSTM computes | proved | Over exact rationals; sigmoid and tanh are arbitrary functions; widths are assumed to fit. bidirectional_type 1 is not modelled. Theorems: `C63_forward`, `C63_packed`, `C63_dropout_recurrent_refuted`, `C63_cell_no_state_refuted`, `C63_cell_no_state_rows_refuted`, `C63_packed_unsorted_refuted` |
| C64 | LSTM conversions preserve everything | proved | Parameters as a function of (kind, gate, layer, direction). Theorems: `C64_to_from`, `C64_from_to`, `C64_convert`, `C64_shared_refuted` |
| C65 | Adjacency map of the summary graph | proved | The trace is the input; DataParallel models (denormalised names) are not modelled. Cache defects stated as C65_cache_refuted and C65_missing_after_dedicated. Theorems: `C65_adjacency`, `C65_symmetric`, `C65_history`, `C65_missing_modules`, `C65_missing_after_dedicated`, `C65_cache_refuted` |
| C66 | Topological order of the layers | proved | Python recursion is bounded by fuel (RecursionError is modelled as its superclass RuntimeError). Theorems: `C66_topological_order`, `C66_after_dedicated_refuted`, `C66_cycle`, `C66_no_root` |
| C67 | Names of operations and modules in the summary graph | proved | Regular expression of the scope as a scanner; __merge_pad_avgpool and the dropout work-around are not part of this claim. Theorems: `C67_scope_name`, `C67_operations`, `C67_trace`, `C67_trace_order`, `C67_name_clash_refuted`, `C67_tensor_clash_refuted`, `C67_module_lists`, `C67_list_clash_refuted` |
| C68 | Sparsity tables | proved | Exact arithmetic; the double-precision defect is stated with the standard library SpecFloat. Structure percentages build on C39. Theorems: `C68_weights_table`, `C68_masks_table`, `C68_nnz_float_refuted` |
| C69 | Performance summary | proved | The forward pass is the sequence of its calls. MACs are compared with the number of tuples of the loop nest (counts), not with a formula. Theorems: `C69_rows`, `C69_linear_rows`, `C69_linear_batch_refuted`, `C69_shared_module_refuted`, `C69_rows_per_call`, `C69_precision` |
| C70 | Cost attributes of the summary graph | proved | Shapes come from the trace; groups are positive. Theorems: `C70_conv`, `C70_gemm`, `C70_others`, `C70_intensity`, `C70_total`, `C70_missing_shape` |
| C71 | Copy without data parallelism | proved | Tree of modules with identities; deepcopy is the identity on the model values. Theorems: `C71_non_parallel_copy`, `C71_no_wrapper`, `C71_nested_refuted`, `C71_shared_refuted` |
| C72 | Configuration of a schedule | proved | Constructors, policies and the scheduler are arbitrary functions that may raise; an example instantiates the model of the scheduler. YAML parsing and messages are not modelled. Theorems: `C72_schedule`, `C72_component`, `C72_accepts`, `C72_bad_policy`, `C72_one_quantizer`, `C72_second_use`, `C72_missing_policies_refuted`, `C72_by_class` |
| C73 | Losses of the regularizers | proved | Square roots are real numbers (axioms of the standard reals); gradients are not modelled. Thresholds build on C18. Theorems: `C73_l1_loss`, `C73_group_lasso_conv`, `C73_group_lasso_matrix`, `C73_group_lasso_channels`, `C73_lasso_meaning`, `C73_group_lasso_errors`, `C73_channels_4d_refuted`, `C73_variance_loss`, `C73_l1_threshold`, `C73_group_threshold`, `C73_threshold_groups_refuted` |
| C74 | Filter dropping | proved | The random draw and the initial weights are arbitrary. A module tree has no shared modules. Theorems: `C74_masked_weights`, `C74_every_16th`, `C74_replace`, `C74_bias_refuted`, `C74_replacement_refuted` |
| C75 | PyTorch quantization parameters of a tensor | proved | PyTorch quantize/dequantize is a small separate specification (PtqSpec) with arbitrary rounding of ties; exact rationals. Theorems: `C75_same_values`, `C75_per_channel`, `C75_refused`, `C75_reduce_range`, `C75_engine`, `C75_reduce_overflow_refuted`, `C75_reduce_symmetric_refuted`, `C75_saturation_lost_refuted` |
| C76 | PyTorch quantized tensor | proved | Conversions to an integer type outside its range wrap in the model (undefined in PyTorch); the theorem shows they do not happen. Theorems: `C76_same_values`, `C76_refused`, `C76_qint32_refuted` |
| C77 | PyTorch quantized layer | proved | The native layer is specified as the float layer on dequantized inputs and weights with one final quantization; builds on C31 and C75. Theorems: `C77_layer_parameters`, `C77_output_close`, `C77_asymmetric_after_forward_refuted`, `C77_no_bias_refuted`, `C77_integral_bias_refuted`, `C77_refused` |
| C78 | Whole-model conversion to PyTorch quantization | proved | The forward of a container is a straight-line program over module calls and other functions; tensors, quantize and dequantize are arbitrary (the two facts used are hypotheses). Nested tuples of tensors and shared modules are not modelled. Theorems: `C78_equivalent`, `C78_float_output`, `C78_all_modules_called`, `C78_eight_bits_convert`, `C78_refused`, `C78_reused_module_refuted` |
| C79 | The final summary graph | proved | The trace after ONNX optimisation is the input of the model (as in C67); attributes of operations are not modelled. Theorems: `C79_graph`, `C79_well_formed`, `C79_connections`, `C79_reachable`, `C79_shared_pad_refuted`, `C79_stale_pad_refuted` |
| C80 | Names of operations before a dropout | proved | What ONNX does to scope names is taken from the comment in the source and is part of the specification (onnx_scope). Theorems: `C80_dropout_scopes`, `C80_shared_dropout_refuted`, `C80_functional_dropout_refuted` |
| C81 | Sensitivity analysis | proved | The test function is any function of the weights; parameters shared under several names are not modelled; C81_analysis covers every order of levels and every naming, C81_increasing_levels is the documented reading. Theorems: `C81_analysis`, `C81_increasing_levels`, `C81_illegal_arguments`, `C81_small_level_raises`, `C81_level_order_refuted`, `C81_substring_refuted`, `C81_csv` |
| C82 | Greedy search of quantization settings | proved | Quantizing a copy of the model and evaluating it is an arbitrary function of the overrides (score); NaN scores, DataParallel models and the collection of statistics are not modelled; the file is taken as run as a program (imported, its msglogger is None and its global model undefined). Theorems: `C82_local`, `C82_greedy`, `C82_completes`, `C82_candidates`, `C82_default_uniform`, `C82_fp16_refuted`, `C82_half_range_refuted`, `C82_with_inputs`, `C82_different_keys_refuted`, `C82_two_inputs_refuted` |
| C83 | Resuming the greedy search | proved | Writing and reading the YAML checkpoint is the identity. Theorems: `C83_resume`, `C83_resume_default`, `C83_resume_with_inputs_refuted`, `C83_inputs_kept` |
| C84 | Greedy filter pruning | proved | Fine-tuning, filter removal and testing are one arbitrary function; the cost is an arbitrary function of the weights; the loop runs with fuel and the theorems hold for every fuel (Running = the fuel ended first). NaN results are not modelled. Theorems: `C84_prune_tensor`, `C84_candidate`, `C84_most_robust`, `C84_pruned_wins`, `C84_run`, `C84_completion_refuted`, `C84_target_met`, `C84_stuck_refuted`, `C84_terminates` |
| C85 | Parameters of the numerical search | proved | Weights per tensor, no scale approximation; names and values arbitrary; exact rationals. Theorems: `C85_vector`, `C85_roundtrip`, `C85_vector_exists`, `C85_suffix_refuted`, `C85_model_names`, `C85_validation`, `C85_scales_only`, `C85_initial_point`, `C85_clipping_values`, `C85_initial_point_clipping_refuted` |
| C86 | Numerical search of quantization parameters | proved | The evaluation function is any function of the state of the wrappers after a forward pass; scipy is represented by the calls it makes; the initialisation (init_linear_quant_params) is C93: the theorems start from any prepared model. Theorems: `C86_search`, `C86_start`, `C86_reapply_scales`, `C86_reapply_clipping`, `C86_scales_keep_integers`, `C86_clipping_requantizes`, `C86_first_forward`, `C86_clipping_needs_outputs`, `C86_cmdline`, `C86_returned_model_refuted`, `C86_restore_clipping_refuted`, `C86_stale_weights_refuted`, `C86_asymmetric_unshifted_refuted` |
| C87 | Statistics after folding and fusing | proved | The graph is an input (C65); names under which statistics are kept must differ after normalization, as for distinct modules. Theorems: `C87_folded_stats`, `C87_folded_stats_succeed`, `C87_clipped_outputs`, `C87_clipped_inputs`, `C87_clipping_succeeds`, `C87_clipping_harmless` |
| C88 | The prepared model computes the original function | proved | A model is a straight-line program with an ideal (real-number) semantics of wrappers: ReLU and saturation are kept, rounding is not (C30, C31 bound it). Clipping mode NONE; batch normalizations folded before (C50). Modules called several times are excluded by hypothesis and refuted. Theorems: `C88_prepared_computes`, `C88_identity_after_relu`, `C88_also_returned_layer_refuted`, `C88_relu6_dynamic_refuted`, `C88_shared_relu_refuted`, `C88_relu6_gauss_refuted` |
| C89 | Quantized embeddings | proved | Exact rationals; no max_norm/padding; the mean of an empty tensor is refused; torch.std is any function. Theorems: `C89_lookup`, `C89_bad_index`, `C89_next_layer`, `C89_error`, `C89_needs_float_copy`, `C89_clipping_asymmetric`, `C89_quantizer_set_refuted`, `C89_stale_metadata_refuted`, `C89_convert`, `C89_convert_float_copy_refuted`, `C89_no_weight_bits_refuted`, `C89_parameters`, `C89_n_stds_missing`, `C89_clipping_symmetric`, `C89_read_clipping`, `C89_read_clipping_refuted` |
| C90 | Floating-point and fake-quantization wrappers | proved | The wrapped module is any function of its input tensors, possibly returning a view of one of them; what float16 does to a value is any function (cast). Theorems: `C90_convert`, `C90_float_wrapper`, `C90_precisions`, `C90_fake_forward`, `C90_fake_error`, `C90_fake_pass_through`, `C90_view_overwritten_refuted`, `C90_output_parameters`, `C90_input_parameters`, `C90_missing_input_statistics`, `C90_quantized_inputs` |
| C91 | Which wrapper replaces a module, with which settings | proved | What computing the parameters of weights and embeddings can raise is an arbitrary function of the settings (C45, C53); keys of input overrides that are not accepted are not modelled; the tensors in the wrappers are C31, C53, C89, C90. Theorems: `C91_unknown_argument`, `C91_settings`, `C91_kind`, `C91_refines`, `C91_not_fake_refuted`, `C91_unquantized_with_argument_refuted`, `C91_embedding_clip_name_refuted`, `C91_fp16_ignored_refuted`, `C91_fp16_conflict`, `C91_relu_aciq_refuted`, `C91_rebuild_refuted`, `C91_unknown_clip`, `C91_weight_parameters`, `C91_relu_statistics` |
| C92 | Post-training quantization from the command line | proved | Without a configuration file. Layer names as torch makes them (no regular-expression characters but dots). Theorems: `C92_arguments`, `C92_layers`, `C92_dot_refuted`, `C92_not_offered` |
| C93 | Initialisation of the numerical search | proved | No DataParallel. scipy is represented by the vectors it tries, all of the right length. One-layer results hold unless weights are shifted in place by the forward pass (asymmetric weights with quantized activations: C86). What the predecessor of a ReLU is at that time is arbitrary. Theorems: `C93_mode_names`, `C93_loss`, `C93_layer_input`, `C93_layer_input_refuted`, `C93_last_tried`, `C93_values_kept`, `C93_not_best_refuted`, `C93_layer`, `C93_model`, `C93_wrappers_initialised`, `C93_missing_mode` |
| C94 | AMC: bookkeeping of an episode | proved | Exact rationals for floats (math.isclose and == are equality; C94_float_assertion_refuted shows that in double precision the equality asserted can fail). What the pruner removes is an arbitrary function of the state. Training, validation, thinning and reconstruction are not modelled. sound is proved of every description get_network_details makes (C94_network_details). Theorems: `C94_episode`, `C94_step`, `C94_prev_action_late`, `C94_real_cost`, `C94_dependencies`, `C94_dependencies_found`, `C94_network_details`, `C94_refused`, `C94_no_dependents_refuted`, `C94_shared_channels_refuted`, `C94_duplicate_dependents_refuted`, `C94_grouped`, `C94_single_channel_refuted`, `C94_float_assertion_refuted` |
| C95 | AMC: the MACs budget | proved | coverable is a condition on the list of layers (chains satisfy it: example); the loss to rounding is a parameter, instantiated for the L1-norm pruner in C95_target_l1. Theorems: `C95_target`, `C95_target_exact`, `C95_l1_pruner`, `C95_ties_refuted`, `C95_target_l1`, `C95_rounding_refuted`, `C95_uncovered_refuted` |
| C96 | AMC: actions, rewards and sessions | proved | The accuracy-guaranteed reward (a logarithm) is not modelled; rewards are rational. Theorems: `C96_clipped`, `C96_ppo`, `C96_ppo_out_of_range_refuted`, `C96_discrete`, `C96_constrained`, `C96_experimental`, `C96_punish`, `C96_harmonic`, `C96_session`, `C96_features` |
| C97 | Checkpoint files at every crash point | proved | A crash is a prefix of the single writes, in order (what the operating system shows after the process dies; a power failure with reordered writes is not modelled). torch.save is an arbitrary function to bytes. Theorems: `C97_files`, `C97_refused`, `C97_crash`, `C97_survivor`, `C97_crash_refuted`, `C97_two_crashes_refuted` |
| C98 | Loading a checkpoint | proved | torch.load after torch.save is the identity; thinning, quantizers, creation and conversion of models and constructors of optimizers are arbitrary functions (the round trips are stated without recipes and quantizer; with them C98_loaded applies). Devices are not modelled. Theorems: `C98_saved`, `C98_loaded`, `C98_lean`, `C98_created`, `C98_round_trip`, `C98_parallel`, `C98_unusable`, `C98_missing`, `C98_wrong_arch`, `C98_own_arch_refuted`, `C98_parallel_refuted`, `C98_groups_refuted` |
| C99 | Early exits attached to a model | proved | Modules call their children in a straight line (each on a value computed before; a child may be called several times); no module object is used in two places; no exit is named with the empty name (the model itself). A forward pass that raises changes nothing in the model (in the code some branch outputs may have been set). DataParallel on one device. Theorems: `C99_attach`, `C99_same_function`, `C99_outputs`, `C99_forward`, `C99_forward_succeeds`, `C99_unknown`, `C99_nested_refuted`, `C99_same_exit_refuted`, `C99_data_parallel_refuted` |
| C100 | Creating a model | proved | What the packages contain is an arbitrary dictionary of constructors, which return a network or raise; ASCII names. Error texts, devices and the patch of MobileNetV2 (an arbitrary function) are not modelled. Theorems: `C100_created`, `C100_builtin`, `C100_user`, `C100_registered`, `C100_datasets`, `C100_pretrained`, `C100_user_pretrained_refuted`, `C100_capital_refuted`, `C100_not_a_model_refuted`, `C100_masked_error_refuted`, `C100_own_shape_refuted`, `C100_inception_shape`, `C100_inception_shape_refuted` |
| C101 | Dummy inputs | proved | bool counts as other; random contents are not modelled. Theorems: `C101_dummy_input`, `C101_valid_has_input`, `C101_refused`, `C101_negative`, `C101_dataset` |
| C102 | Gradients of quantized training | proved | Real numbers; the derivatives of the PyTorch primitives are trusted (derivatives.yaml of PyTorch 1.3), composed as the code composes them. Off the kinks; at kinks the _elements theorems say what is passed. DoReFa weights: the largest magnitude is unique and not 0 (with a tie PyTorch picks one, for all-zero weights the values are NaN, C29). SGD without momentum. Theorems: `C102_clipped_activation`, `C102_clipped_activation_elements`, `C102_learned_clip`, `C102_learned_clip_elements`, `C102_learned_clip_degenerate`, `C102_wrpn_weights`, `C102_dorefa_weights`, `C102_binary_weights`, `C102_clipped_activation_forward`, `C102_learned_clip_forward`, `C102_wrpn_weights_forward`, `C102_dorefa_weights_forward`, `C102_pact_optimizer`, `C102_pact_optimizer_taken`, `C102_step`, `C102_training_goes_on_refuted` |
| C103 | Learning rates of interrupted and resumed training | proved | Rates are values of any type; LR schedulers of torch 1.3 that compute the rates from the initial ones and the epoch (StepLR, MultiStepLR, ExponentialLR, LambdaLR, distiller's own) and ReduceLROnPlateau; chainable schedulers of later torch versions are not modelled. Optimizers with one parameter group. A session that ends regularly is one whose last begun epoch is not run. Weights, masks and momentum: C98. Theorems: `C103_fresh_session`, `C103_interrupted_training`, `C103_no_schedule`, `C103_reset`, `C103_deprecated_resume`, `C103_lr_ignored`, `C103_new_lr_scheduler_refuted`, `C103_parameter_groups_refuted`, `C103_evaluate`, `C103_policy_over_refuted`, `C103_two_schedulers_refuted`, `C103_plateau_refuted` |
| C104 | Rebuilding a quantizer from a checkpoint | proved | Values the constructors only hand on are opaque; the arguments of one call are a dictionary (positional arguments are not modelled). Statistics files hold dictionaries. The recorded dictionary is shared with the quantizer, so that it is the updated one that is saved (C104_prepared_again). Theorems: `C104_ptq_settings`, `C104_ptq_rebuilt`, `C104_fp16_refuted`, `C104_training_refuted`, `C104_by_hand`, `C104_override_bits`, `C104_overrides_consumed_refuted`, `C104_prepared_again` |
| C105 | Gradients of the regularizers | proved | Real numbers; dimensions are positive; the derivatives of the PyTorch primitives are trusted (the norm gets gradient 0 where it is 0), composed as the code composes them. SGD without momentum and weight decay, on the regularization loss alone. The group-variance loss has values (C45) but its gradient is not modelled. Theorems: `C105_group_value`, `C105_group_subgradient`, `C105_group_derivative`, `C105_channels_smooth`, `C105_zero_stays`, `C105_step`, `C105_step_length`, `C105_exact_zero`, `C105_refused`, `C105_combined_refuted`, `C105_unlisted`, `C105_l1`, `C105_l1_step` |
| C106 | Element-wise modules | proved | Arbitrary element arithmetic; one element type (no promotion); arguments are the same tensor or do not overlap; torch broadcasting and the autograd check of in-place updates are modelled as documented. Theorems: `C106_values`, `C106_succeeds`, `C106_fresh`, `C106_inplace`, `C106_inplace_succeeds`, `C106_alias_refuted`, `C106_failure_refuted`, `C106_div`, `C106_empty` |
| C107 | Finding and replacing modules by name | proved | Child names are plain (non-empty, no dots, different within a module), as torch enforces. The effect of model_setattr is which attribute of which module is written (registration as parameter or buffer: by torch). That every reachable module is listed is torch's; not proved here. Theorems: `C107_names`, `C107_find`, `C107_found`, `C107_replace`, `C107_attribute`, `C107_missing_refuted`, `C107_shared_refuted`, `C107_shared_set_refuted`, `C107_relative_refuted` |
| C108 | Counting non-zero weights in floating point | proved | IEEE double precision by Flocq (binary64, nearest even), weights binary32; sizes below 2^53 (2^51 for the count shown). The earlier models of the sparsity tables and of the tracker use exact counts; this one says how far the computed ones are from them. abs, gt and sum of torch are exact (integers). Theorems: `C108_density`, `C108_sparsity`, `C108_shown`, `C108_total`, `C108_empty`, `C108_shown_refuted`, `C108_tracker_refuted`, `C108_nan_refuted` |
| C109 | Removing layers of zeros | proved | Whether a parameter is all zero is given (C108 shows density == 0 says so). Names are split at their dots already; int() of digits only. The gate lists are shared between the network and its blocks (same list objects), so that closing one takes effect in the block. Layers are arbitrary functions on flat tensors. Theorems: `C109_removes`, `C109_batchnorm_refuted`, `C109_downsample_refuted`, `C109_fails_refuted`, `C109_block`, `C109_same_function_refuted` |
| C110 | The replay memory of the AMC agent | proved | Observations, actions and rewards are opaque; random indices are arbitrary lists within the ranges random.sample and random_integers guarantee; an exhausted list stands for a loop still running. Conversion to numpy arrays and the networks are not modelled; get_recent_state is unused and not modelled. Theorems: `C110_ring`, `C110_no_room`, `C110_sample`, `C110_ends`, `C110_batch`, `C110_first_step_refuted`, `C110_one_step_refuted`, `C110_window_refuted` |
| C111 | What the log files contain | proved | Values are opaque (the contents of a histogram are a function of the tensor); a writer's file is the list of its records; total steps per epoch are integers as all the training loops of the repository compute them. CSV rows are not yet text (quoting and number format by the csv module). The same name twice in one list of buffers is excluded (two open handles on one file). Theorems: `C111_scalars_filed_exactly`, `C111_scalars_one_value_per_step`, `C111_scalars_in_order`, `C111_resumed_training_logs_the_same`, `C111_resumed_with_another_batch_size_refuted`, `C111_histograms_filed_by_step_of_epoch`, `C111_histograms_of_epochs_collide_refuted`, `C111_only_first_logger_gets_histograms`, `C111_histograms_missing_from_second_logger_refuted`, `C111_buffers_filed_exactly`, `C111_buffers_one_value_per_writer_and_step`, `C111_buffers_of_modules_with_children_refuted`, `C111_list_in_one_graph_refuted`, `C111_list_in_several_graphs`, `C111_csv_buffer_file`, `C111_csv_other_files`, `C111_csv_files_distinct`, `C111_csv_appends`, `C111_csv_sparsity_of_last_call_only` |
| C112 | Language-model training | proved | The network is an arbitrary function of hidden state and one row (unidirectional RNNs in evaluation, dropout off); losses are exact rationals, NaN only for validation losses; overflow of math.exp (losses above 709) is not modelled. torch RNNs raise RuntimeError on an empty sequence. An interruption falls between the actions on the two files; what torch.save leaves half-written counts as broken. Theorems: `C112_corpus`, `C112_eos_in_text_refuted`, `C112_batchify`, `C112_batchify_succeeds`, `C112_epoch_covers_all_rows`, `C112_training_fails_iff`, `C112_evaluate_value`, `C112_evaluate_independent_of_bptt`, `C112_evaluate_is_the_mean_refuted`, `C112_evaluate_fails`, `C112_some_bptt_fails_refuted`, `C112_reports`, `C112_first_report_refuted`, `C112_interval_zero`, `C112_last_model_is_tested`, `C112_best_model`, `C112_best_model_is_tested_refuted`, `C112_interrupted`, `C112_interrupted_in_first_epoch_refuted`, `C112_best_model_lost_refuted` |
| C113 | Pruning channels by reconstructing the feature-maps | proved | Numbers are exact rationals; the solver is any function whose value on the problem at hand is a least-squares solution (the hypothesis of the theorems; sklearn computes one in floating point; FmLs.v constructs one in exact arithmetic, so C113_with_exact_solver assumes nothing of it). F.conv2d, F.unfold, advanced indexing and squeeze are given their definitions. Draws are arbitrary positions within the ranges of np.random.randint. With a bias the fitted targets contain it: the optimality statement is about the bias-free convolution against these targets, C113_bias_counted_twice_refuted shows what this does to the layer. Theorems: `C113_output_positions`, `C113_padding`, `C113_samples`, `C113_reconstruction_is_best`, `C113_linear_reconstruction_is_best`, `C113_solutions_exist`, `C113_with_exact_solver`, `C113_no_worse_than_masking`, `C113_written`, `C113_prunes`, `C113_nothing_to_prune`, `C113_refuses`, `C113_ties_of_all_channels_refuted`, `C113_one_image_or_position_refuted`, `C113_last_batch_of_one_refuted`, `C113_magnitude_function_ignored_refuted`, `C113_amc_group_size_lost_refuted`, `C113_channel_groups_refuted`, `C113_strided_pointwise_refuted`, `C113_wide_outputs_refuted`, `C113_tall_outputs_refuted`, `C113_dilated_refuted`, `C113_bias_counted_twice_refuted` |
| C114 | Activation channel statistics and records | proved | Over Coq's real numbers (standard library axioms of the reals): float rounding is not modelled. An empty activation is refused before anything is computed. The text test on RuntimeError messages in the callback is not modelled (the call raises either way); writing the workbooks is not modelled, only the file names. Theorems: `C114_channel_statistics`, `C114_apoz_range`, `C114_l1_is_scaled_mean`, `C114_linear_single_number_refuted`, `C114_unsupported_shape`, `C114_collected_means`, `C114_collected_l1`, `C114_split_and_order_irrelevant`, `C114_inputs_are_one_batch`, `C114_shared_module_refuted`, `C114_records`, `C114_records_consistent`, `C114_records_reset`, `C114_stop_and_restart`, `C114_value_is_live_refuted`, `C114_file_names`, `C114_statistics_of_which_module`, `C114_which_module_refuted`, `C114_criterion` |
| C115 | Experiment environment: configuration copies, log directories, links, seeds, devices, lazy data | proved | Paths are POSIX strings; only the file-system errors named happen (a missing link on unlink, an existing one on symlink or makedirs, unreadable sources). Processes interleave between system calls, in any order. The texts of the logs, git / pip / CUDA details and the Python logging configuration are not modelled. Collecting statistics is an arbitrary function of the model and the share of the data; an empty statistics file name or dictionary counts as not given, as in the code. C115_makedirs_race_refuted is about two processes. Theorems: `C115_configs_kept`, `C115_one_config`, `C115_both_configs`, `C115_config_arguments`, `C115_stale_config_refuted`, `C115_same_name_configs_refuted`, `C115_log_directories_distinct`, `C115_same_second_refuted`, `C115_logs_kept`, `C115_log_file_in_directory`, `C115_absolute_name_refuted`, `C115_links_exist`, `C115_last_process_wins`, `C115_mixed_links_refuted`, `C115_last_finisher_refuted`, `C115_crash_loses_links_refuted`, `C115_makedirs_race_refuted`, `C115_evaluation_deterministic`, `C115_seed`, `C115_deterministic_seed`, `C115_gpu_list`, `C115_cpu`, `C115_negative_device_refuted`, `C115_loaded_once`, `C115_same_loaders`, `C115_reload_refuted`, `C115_quantized_with`, `C115_quantizes_once`, `C115_reused_statistics_refuted` |
| C116 | Lottery ticket, freezing and dropout directives, progress collectors | proved | The two checkpoints are loaded into fresh models as apputils.load_checkpoint is modelled (C22, C24); the name of the file written is not modelled, nor printing. Training is a sequence of arbitrary updates of every parameter, each followed by on_minibatch_end of a scheduler without policies (with policies: C03). Attributes every Python object has (dunder names) are left out of the progress collector. Theorems: `C116_ticket`, `C116_ticket_exists`, `C116_no_scheduler`, `C116_optimizer_of_pruned_run_refuted`, `C116_training_keeps_the_ticket`, `C116_unpruned_zero_frozen_refuted`, `C116_starts_at_epoch_one_refuted`, `C116_freeze_training_refuted`, `C116_freeze_all`, `C116_adjust_dropout`, `C116_every_dropout`, `C116_progress_set_get`, `C116_progress_own`, `C116_progress_shared_refuted`, `C116_progress_names_refuted`, `C116_progress_stats` |
| C117 | Samplers and sentence batches | proved | Samples are their indices; torch.randperm and sort are arbitrary permutations (the sorted shards are any sorted ones); positive batch size and number of processes. Reading the files and joining words to text (separators) are not modelled; the distance of aspect ratios to their bins is not either (the group of a sample is given). Theorems: `C117_grouped_batches`, `C117_grouped_order`, `C117_grouped_succeeds`, `C117_small_groups_refuted`, `C117_group_never_seen_refuted`, `C117_bucketing_partition`, `C117_bucketing_batches`, `C117_bucketing_similar`, `C117_small_data_refuted`, `C117_same_samples_left_out_refuted`, `C117_collate_seq`, `C117_collate`, `C117_unsort`, `C117_filter`, `C117_limited`, `C117_segment`, `C117_words`, `C117_roundtrip`, `C117_duplicate_token_refuted`, `C117_special_in_vocabulary_refuted` |
| C118 | NCF: evaluation, training samples, split, best model | proved | Scores are exact rationals (no NaN); NDCG is its position in the ranking (log 2 / log (i + 2)); random draws are given; files are missing, broken or complete. The network is any function that scores each pair by itself (dropout off, as in evaluation mode); NeuMF itself, its loss and its optimizer are not modelled. The CUDA copies with async=True, which Python 3.7 and later refuse to parse, are left out. Theorems: `C118_predict`, `C118_item_score`, `C118_eval_one`, `C118_repeated`, `C118_val_epoch`, `C118_epochs_agree`, `C118_listed_test_item_refuted`, `C118_no_users_is_all_refuted`, `C118_best`, `C118_no_hits_refuted`, `C118_resume_forgets_refuted`, `C118_load`, `C118_killed`, `C118_killed_forever_refuted`, `C118_errors_dropped_refuted`, `C118_stale_refuted`, `C118_samples`, `C118_rated_everything_refuted`, `C118_split_user`, `C118_convert`, `C118_test_item_is_candidate_refuted`, `C118_trained_as_negative_refuted`, `C118_test_item_outside_refuted` |
| C119 | GNMT: translating a batch of sentences | proved | The network is any encoder and decoder that satisfy the stated independence (in floating point, a batch may round differently); attention scores and log probabilities, which greedy_search ignores, are left out. beam_search (beam_size > 1) is not modelled. detokenize is a function that does not fail (C117 says when it fails). Theorems: `C119_greedy`, `C119_padded`, `C119_translate`, `C119_batch_independent`, `C119_words`, `C119_complete`, `C119_last_word_refuted`, `C119_fails` |
| C120 | Detection example: meters, reductions over processes, warm-up | proved | Exact rationals instead of floats; the collective operations act on the list of all processes at once (a process that does not take part would block, which is not modelled); names are numbers in alphabetical order; the bytes of pickle are parameters with loads after dumps the identity. The texts, the times and the memory that are printed are not modelled. Theorems: `C120_smoothed`, `C120_window_average`, `C120_weights_in_window_refuted`, `C120_value_max`, `C120_median`, `C120_synchronize`, `C120_synchronize_twice_refuted`, `C120_all_gather`, `C120_reduce_dict`, `C120_reduce_edges`, `C120_reduce_other_names_refuted`, `C120_log_every`, `C120_log_every_fails`, `C120_collate_fn`, `C120_warmup` |

## Findings about the code
Theorems with the suffix `_refuted` (262): each gives a concrete run in which the code does not do what one would expect.

* `C02_keep_mask_ignored_refuted`: keep_mask=True, mask_on_forward_only=True with (0, 10, 4): hits 0, 4, 8. After ten epochs the masked weights are not zero and the mask is still forward-only.
* `C05_two_policies_refuted`: Two double-copy policies in one epoch: the second saves the weights already masked by the first, so the restored weights are not the dense ones.
* `C06_threshold_destroys_pruning_mask_refuted`: A regularization threshold throws away an existing pruning mask of the same parameter: policy 0 prunes in epoch 0 only (mask [0;1;1]), policy 1 regularizes in epoch 1.
* `C06_stale_flag_drops_pruning_mask_refuted`: The is_regularization_mask flag is never reset by a pruner: a pruning policy that starts after a thresholding regularizer loses its mask the first time it is applied.
* `C07_fold_batchnorm_refuted`: With fold_batchnorm the masks are applied to the temporary folded tensor, not to the model's weights: after on_minibatch_begin the weights are not masked.
* `C09_normalising_plain_state_refuted`: Normalising a state that was not saved from a DataParallel model breaks it as soon as one name has a component called 'module'.
* `C09_init_normalised_loses_all_masks_refuted`: init_from_masks_dict(masks, normalize_dataparallel_keys=True) on DataParallel-style keys silently drops every mask.
* `C11_forward_only_diverges_refuted`: mask_on_forward_only: a crash after the policy's only epoch. The uninterrupted run lets the pruned weights grow back, the resumed run keeps them at zero.
* `C11_cached_threshold_diverges_refuted`
* `C14_single_epoch_refuted`
* `C16_late_ramp_refuted`: Findings: a ramp offset of three times the schedule's length divides by zero, a larger one gives a negative threshold.
* `C18_mean_rows_refuted`: Finding: a mean-absolute-value threshold on rows divides by the number of rows instead of the row length: rows whose mean is below the threshold survive.
* `C19_ties_remove_all_refuted`: Finding: ties remove more than asked for, possibly every filter of the layer although the fraction is below 1.
* `C19_group_size_refuted`: Finding: with group_size > 1 the 4-D pruners never prune anything: every call either does nothing or raises.
* `C20_row_mean_refuted`: Finding: so the "mean" of a row of a non-square matrix is not its mean.
* `C21_leader_no_map_refuted`: Findings: with a leader a target of 0, or one so small that nothing would be pruned, is an AssertionError; and the map is not recomputed when the leader's weights change while the target stays the same.
* `C21_stale_map_refuted`
* `C22_mean_activation_refuted`: Finding: mean-activation ranking keeps the dead filter and removes the active one.
* `C23_linear_mask_refuted`: C23 (finding): the mask of a linear layer behind a convolution is not cut like its weight: the weight keeps 4 columns, the mask the single column numbered like the channel.
* `C23_linear_momentum_refuted`: C23 (finding): its SGD momentum buffer keeps the single column numbered like the channel and is then enlarged with uninitialized memory.
* `C23_linear_again_refuted`: C23 (finding): executing the recipe of a linear layer a second time raises RuntimeError.
* `C23_momentum_without_gradient_refuted`: C23 (finding): without a gradient (e.g. right after resuming) the momentum buffer keeps the old shape.
* `C23_same_dimension_refuted`: C23 (finding): two different selections of equal size along one dimension: the second is silently ignored.
* `C24_filter_bias_refuted`: a filter whose weights are zero but whose bias is not
* `C24_filter_bn_shift_refuted`: the batch norm after a zero filter shifts it
* `C24_filter_two_bn_refuted`: two batch norms follow one convolution (a residual block with pre-activation): AssertionError
* `C24_filter_bn_row_refuted`: two batch norms in a row: only the first one is thinned, and the thinned network does not run
* `C24_filter_concat_refuted`: concatenated channels: the channels of the second convolution are counted from zero
* `C24_filter_add_refuted`: two convolutions with different zero filters are added
* `C24_filter_output_refuted`: a zero filter of the last convolution: the network has fewer outputs
* `C24_filter_rectangle_refuted`: a linear layer that sees feature maps of 2 x 3 positions: RuntimeError
* `C24_filter_depthwise_refuted`: a depth-wise convolution with its own zero filter: its consumer loses the channel, its producer does not
* `C24_channel_shared_refuted`: removing channels: another convolution uses the removed channel
* `C24_channel_bn_search_refuted`: removing channels: the search for batch norms passes through convolutions, and thins the wrong batch norm
* `C24_channel_linear_refuted`: removing channels: a zero column of the second linear layer thins the convolution before the first one
* `C24_channel_input_refuted`: removing channels: the first convolution ignores an input channel; the thinned network rejects the inputs
* `C24_channel_in_features_refuted`: removing channels: a linear layer's [in_features] is not updated
* `C26_one_bit_restricted_refuted`: Finding: with restrict_qrange and one bit the scale is 0 (the quantized range is {0}).
* `C28_limit_small_scale_refuted`: Finding: with the limit, a scale below 2^-m is approximated by 0 (every output becomes 0).
* `C29_wrpn_levels_refuted`: Finding: for n >= 2 bits all 2^n + 1 levels occur, and weight 1 is mapped above 1.
* `C29_dorefa_zero_refuted`: Findings: a pruned (zero) weight becomes +1/(2^n - 1); an all-zero tensor becomes NaN.
* `C32_set_after_forward_refuted`: C32: a weight parameter changed through the wrapper after a forward: the new quantized weights are not shifted although the wrapper says they are, so the next save exports wrong weights.
* `C32_quantizer_set_stale_refuted`: C32: PostTrainLinearQuantizer.set_linear_quant_param on a weight parameter changes the buffer but not the stored weights, even before any forward.
* `C32_stale_accumulator_refuted`: C32: with preset statistics the accumulator scale is computed at the first forward; a later input with another scale (e.g. after the producing layer's output scale was set through its wrapper) is interpreted with the old one: the output is not within the error bound of C31.
* `C33_symmetric_level_overflow_refuted`: Finding: in the (unrestricted) symmetric mode the level of the largest tracked value is 2^(bits-1), one more than the largest quantized value.
* `C34_frozen_bn_folded_twice_refuted`: Finding: a FrozenBatchNorm2d is frozen by the constructor and then frozen again by fold_batch_norms(inference=True): gamma / sigma is applied twice and the output is wrong (here 8 instead of 4, with exact square roots).
* `C35_first_match_refuted`: C35 (finding): the documentation says that the first matching pattern wins. It does not when a later key is the module's name itself: {'conv.*': 4 bits, 'conv1': 2 bits} gives conv1 2 bits.
* `C35_capturing_groups_refuted`
* `C35_alternation_refuted`: C35 (finding): a pattern with an alternation at its top level is only anchored at its two ends: 'conv1|fc' also applies to conv10.
* `C35_module_prefix_refuted`: C35 (finding): a part of a name that merely ends in 'module' is removed too: the layer submodule.conv is matched as "subconv", so the override for submodule.conv is ignored.
* `C36_polynomial_after_the_end_refuted`: C36 (finding): the schedule is not clamped at T_max: for every even power the rate rises again after T_max, and for every odd power it becomes negative.
* `C37_num_best_scores_zero_refuted`: C37 (finding): num_best_scores = 0 makes every run fail with IndexError at the end of its first epoch, after training it and before any checkpoint is saved.
* `C37_resume_overwrites_best_refuted`: C37 (finding): the tracker is reset at the start of a run, so a resumed run replaces the best checkpoint by its own first epoch, however much worse that is.
* `C38_fixed_subset_refuted`: C38 (finding): with fixed_subset=True the positions of the samples in the two parts are used as data-set indices, so the split is lost: with full effective sizes and two non-empty parts, sample 0 is always both a training and a validation sample; and if the validation part is not the larger one, EVERY validation sample is a training sample.
* `C40_stale_logits_refuted`: C40 (finding): the cache is never cleared, so only the very first omission is detected: in any later minibatch or epoch a script that bypasses forward() silently distills against the logits of an earlier minibatch.
* `C41_forward_only_ignored_refuted`: mask_on_forward_only is ignored for renamed parameters: mask_all_weights(False) masks.
* `C41_gradient_hook_leak_refuted`: mask_gradients: two policies register two hooks on each parameter but only one is ever removed.
* `C44_super_block_refuted`: Finding: for reps > 1 and 1 < depth < C the documented super block ("the basic block repeats in [reps] consecutive filters") is not what is pruned: with a 2x4x1x1 weight, shape [2,2,1,1] and half the blocks pruned, the documented block {filters 0-1, channels 0-1} holds all the zero weights, yet a whole filter is removed.
* `C46_custom_override_error_refuted`
* `C47_signed_asymmetric_getter_refuted`: Finding (C47): in the signed asymmetric mode the clipping values read back are those of the unsigned range: off by half the range.
* `C47_weight_clipping_refuted`: Finding (C47): the weight-clipping setter in symmetric modes uses the absolute value of the larger bound, so for a range whose negative side is longer the scale clips the negative side.
* `C48_inverted_average_refuted`: Finding (C48): otherwise the averaged range can become inverted, and asking for average-clipped quantization parameters then fails.
* `C49_freezing_step_output_refuted`: Finding: the output of that very step is wrong: the weight it reads has just been folded in place, so gamma / sigma is applied twice.
* `C50_unconnected_fused_refuted`
* `C50_split_fused_refuted`
* `C50_overlapping_match_missed_refuted`: The scan can miss a match when a type occurs twice in types_sequence: after A A A B, the sequence A A B is present but nothing is fused.
* `C51_untraversed_exit_refuted`: C51 (finding): the weight of an exit that is not traversed is not given to the others: with an untraversed exit of positive weight and positive losses, the loss is strictly smaller than the weighted mean, e.g. equal losses c give a training loss below c.
* `C52_saved_accuracy_refuted`: C52: so the accuracy saved with a checkpoint need not be that of the weights saved in it: with a pruning policy that masks on the forward pass only and keeps its mask at the end, the last epoch end prunes the weights after they were measured ([accf] here is the first weight of fc, which pruning sets to zero).
* `C54_shared_unreplaced_refuted`: C54 (finding): a module that is referenced in two containers and has no replacement makes prepare_model fail with KeyError.
* `C54_shared_siblings_refuted`: C54 (finding): of two references to a module in the same container (the example in prepare_model's documentation) only the first is replaced, and then prepare_model fails with KeyError.
* `C54_container_wrapper_refuted`: C54 (finding): replacing a module that has children by a wrapper makes prepare_model fail with KeyError.
* `C55_second_model_refuted`: C55 (finding): preparing a second model of the same class makes forward call itself without end, for both models and whatever the size of the call stack.
* `C57_twice_refuted`: a residual block: conv1 -> d1 -> {conv2 -> d2 -> add, add} -> d3 -> conv3
* `C58_modules_to_collect_refuted`: C58 finding: collect_quant_stats with modules_to_collect fails in general: the second pass insists on the statistics of every module of the model that could be collected, so it raises RuntimeError (or the first pass raised before) as soon as the list leaves one out that was never collected before; and the hooks of the listed modules stay registered.
* `C58_never_called_refuted`: C58 finding: a collected module that is never called in the first pass is reported all the same, with a minimum (the largest float) above its maximum (the smallest).
* `C59_average_refuted`: C59 finding: over several batches avg_min is not the average of the per-sample minima: the values of the samples seen before, rather than the samples, are counted. Two batches of one two-value sample each, with minima 0 and 6: the average is 3, avg_min is 2.
* `C60_exception_leaves_hooks_refuted`: C60 finding: an exception inside the context leaves every hook registered (no try/finally), and from then on any attempt to enter a context with this collector raises AssertionError.
* `C60_shared_module_twice_refuted`: a model in which the same leaf object is used in two containers
* `C60_raw_unequal_refuted`: C60 finding: if the outputs of a module do not all have one shape (a last, smaller batch), value() and save() of the raw-activations collector raise RuntimeError; and once value() has returned, a further call of the model inside the context raises AttributeError.
* `C60_raw_value_then_forward_refuted`
* `C61_never_called_refuted`: C61 finding: when the statistics come from a calibration in which a collected module was never called, they have no 'inputs' entry for it, and collect_histograms raises KeyError before the model is even run.
* `C61_constant_refuted`: C61 finding: a tensor that was constant during calibration (min = max = v) gets a histogram whose centroids are all v, and every value is counted in the middle bin.
* `C63_dropout_recurrent_refuted`
* `C63_cell_no_state_refuted`: Without a state, the LSTM cell makes a zero state with as many rows as the input has columns: an input of [B] samples of [n] values each is rejected, and a single sample gives [n] rows instead of one.
* `C63_cell_no_state_rows_refuted`
* `C63_packed_unsorted_refuted`: Packed sequences whose lengths increase somewhere (packed with enforce_sorted=False, which nn.LSTM accepts) are rejected after all the computation.
* `C64_shared_refuted`: C64, the limit: an nn.LSTM registered under two names of one parent is replaced only under the first.
* `C65_cache_refuted`: Example: conv1, bn1, a functional addition at the top level, conv2.
* `C66_after_dedicated_refuted`: After a call of adjacency_map for the dedicated modules the order need not be topological: conv2 comes before bn1, whose result it depends on.
* `C67_name_clash_refuted`: A module whose name is the name another module's operation gets: the operation is lost, and the graph has a cycle.
* `C67_tensor_clash_refuted`: A tensor whose name is the name of an operation (a top-level Sequential has modules "0", "1", ...): adjacency_map fails.
* `C67_list_clash_refuted`: A module named like an element of a list: the element is lost, and the names of the modules that follow are wrong.
* `C68_nnz_float_refuted`: Finding: in double precision the column 'NNZ (sparse)', int(density * numel), is not the number of non-zero elements: one non-zero element among 49 (a 7 x 7 kernel) is reported as 0, since 1/49*49 is below 1. (IEEE 754 binary64 as specified by Coq's SpecFloat; the theorems above are about exact arithmetic.)
* `C69_linear_batch_refuted`: Finding: for a batch of 8 rows the linear layer performs 7680 products; 960 are reported (the convolution's count includes the batch).
* `C69_shared_module_refuted`: Finding: nothing is put into [memo], and a module with two parents gets a hook from each: each call gives two rows.
* `C71_nested_refuted`: Finding: wrappers of wrappers, and a wrapper referenced twice in one container, are left in the copy.
* `C71_shared_refuted`
* `C72_missing_policies_refuted`: A schedule without 'policies': the error reported is not the missing key; the handler itself fails (UnboundLocalError, a NameError), since it prints the policy it was at.
* `C73_channels_4d_refuted`: Finding: 'Channels+4D' (and '4D+Channels') never work: AttributeError whatever the weights.
* `C73_threshold_groups_refuted`: Finding: groups that the loss accepts have no threshold: AssertionError whatever the weights.
* `C74_bias_refuted`: Finding: a convolution with a bias (of more than one output channel) makes the constructor fail.
* `C74_replacement_refuted`: Finding: groups and dilation are lost, and the weights with them.
* `C75_reduce_overflow_refuted`: C75: reduce_range does not keep the quantized values within 7 bits: rounding the zero-point twice can add a step.
* `C75_reduce_symmetric_refuted`: C75: for SYMMETRIC (not restricted) reduce_range uses the ratio of the restricted mode, so the step differs from that of 7-bit parameters of the same range (63/127 instead of 127/255).
* `C75_saturation_lost_refuted`: C75: with fewer than 8 bits the saturation of Distiller is lost: PyTorch saturates at the 8-bit range.
* `C76_qint32_refuted`: C76: the documentation of the function lists torch.qint32 among the results; it is always refused.
* `C77_asymmetric_after_forward_refuted`: C77: asymmetric weights converted after a forward without a state_dict in between are wrong (the stored weights already include the zero-point, and the conversion adds it again).
* `C77_no_bias_refuted`: C77: a layer without a bias cannot be converted.
* `C77_integral_bias_refuted`: C77: a bias whose values happen to be integers is taken for a quantized one: before the first forward it is divided by the scale of the weights.
* `C78_reused_module_refuted`: C78: a module called twice: the second call decides; when its argument is quantized, the quantizer is removed and the first call - with a float argument - fails, on every input, although the given model computes.
* `C79_shared_pad_refuted`: A padding whose result is also used elsewhere: that connection is lost (here the convolution loses its only predecessor).
* `C79_stale_pad_refuted`: A padding, an average pooling of another module and one of the padding's module: the first and the last are merged, the edges of the one in between are deleted, and adjacency_map raises KeyError for the operation that no longer exists.
* `C80_shared_dropout_refuted`: * C80: operations before a dropout
* `C80_functional_dropout_refuted`: F.dropout in the model's own forward: every later operation of that scope gets the name of the layer before the dropout.
* `C81_level_order_refuted`: Refuted: "the result at a level is that of the original model pruned to that level". The copy of the model is made once per parameter, so a level listed after a larger one is tested on the weights pruned for the larger.
* `C81_substring_refuted`: Refuted: "analysing the filters of a parameter prunes no other parameter". The pruner receives the name where it expects a list of names, so every parameter whose name occurs in it is pruned too.
* `C82_fp16_refuted`: The 16-bit setting meant for Tanh and Sigmoid never applies: they get 32 bits.
* `C82_half_range_refuted`: A layer with no module after it (the last one, or one followed only by functional operations) is clipped to half the range with GAUSS and LAPLACE, as if a ReLU followed.
* `C82_different_keys_refuted`
* `C82_two_inputs_refuted`: Two inputs of one layer listed: the settings of the first are lost.
* `C83_resume_with_inputs_refuted`
* `C84_completion_refuted`: Finding: no run ever completes. It ends with AssertionError if the target is met at once; otherwise, when the target is reached, the final checkpoint is never written because a deleted variable is used (NameError).
* `C84_stuck_refuted`: Finding: once the step is too small for every candidate (fewer than one filter), and none of them has a zero filter, the search goes on for ever, recording the same network.
* `C85_suffix_refuted`: Finding (C85): the suffixes that mark ranges are not escaped: a single value whose own name ends with '_max' is lost.
* `C85_initial_point_clipping_refuted`: Finding (C85): in a search on clipping values of a symmetric model, evaluating the initial vector already changes the quantization parameters, so the initial score is not that of the initial vector.
* `C86_returned_model_refuted`: Finding (C86): the model returned has the parameters evaluated last, not the best ones.
* `C86_restore_clipping_refuted`: Finding (C86): after a search on clipping values that improves nothing, giving the returned (initial) parameters back does not restore the initial score: they are scales, and setting a weight scale does not quantize the weights again.
* `C86_stale_weights_refuted`: Finding (C86): after a search on scales the weights are not those quantized with the scale the model now has.
* `C86_asymmetric_unshifted_refuted`: Finding (C86): with asymmetric weights, every evaluation of a search on clipping values computes with weights that lack their zero point: the wrapper still believes they were shifted by the first forward.
* `C88_also_returned_layer_refuted`: A model that also returns the output of a layer before a ReLU: the values below zero are lost.
* `C88_relu6_dynamic_refuted`: ReLU6 with dynamic quantization (no statistics): values above 6 come through.
* `C88_shared_relu_refuted`: A ReLU used after two layers: it is removed, but only the first layer does its work. In the graph the second call has a name of its own. With a symmetric mode, values below zero come through after the second layer.
* `C88_relu6_gauss_refuted`: With a clipping mode the range of the layer before a ReLU6 is found from the mean and the deviation, and can go beyond 6.
* `C89_quantizer_set_refuted`: C89: changing the scale through the quantizer (PostTrainLinearQuantizer.set_linear_quant_param, as the search of quantization parameters does) does not re-quantize the table: every looked-up value is multiplied by old / new scale instead.
* `C89_stale_metadata_refuted`: C89: a change after the module moved to another device leaves the metadata of the look-ups at the old values; a change through the quantizer then reaches only the metadata.
* `C89_convert_float_copy_refuted`: C89: but a wrapper with a float copy cannot be converted at all.
* `C89_no_weight_bits_refuted`: C89: quantizing activations only (no weight bits) cannot be combined with an embedding.
* `C89_read_clipping_refuted`: C89 (finding): in the asymmetric signed mode reading the clipping is off by 2^(bits-1) codes.
* `C90_view_overwritten_refuted`: A residual block: a fake-quantized module whose result is a view (a flatten) of a tensor that is used again.
* `C91_not_fake_refuted`: C91 (finding): 'fake: False' means a floating-point module; for a module without wrapper and with no precision set this is a KeyError.
* `C91_unquantized_with_argument_refuted`: C91 (finding): a layer that is not quantized (bits NONE) but has another override argument is not left alone: a TypeError.
* `C91_embedding_clip_name_refuted`: C91 (finding): the clipping mode of an embedding's override is not verified: given by its name, as in a YAML file, it is a KeyError without statistics, and with statistics it is ignored (no clipping) - even if there is no such mode.
* `C91_fp16_ignored_refuted`: C91 (finding): 'fp16: True' for a layer is ignored when the quantizer has another precision (for the whole model that combination is refused).
* `C91_relu_aciq_refuted`: C91 (finding): with GAUSS or LAPLACE clipping a model with a ReLU that is not fused cannot be prepared without statistics.
* `C91_rebuild_refuted`: C91 (finding): building a wrapper again from the recorded arguments (as the initialisation of the numerical search does) loses 'from_output' of the input overrides: the second wrapper quantizes this input with different settings.
* `C92_dot_refuted`: C92 (finding): the names are regular expressions: asking for one layer to stay float can leave another one float.
* `C93_layer_input_refuted`
* `C93_not_best_refuted`: an activation quantized to 8 bits symmetrically; the output of the layer is 1, 2, 3
* `C94_no_dependents_refuted`: Building the description: sound, with the layers and totals of the network, when each layer to prune has dependencies, different layers of the network.
* `C94_shared_channels_refuted`: A chain of three layers whose filters are pruned in the first two.
* `C94_duplicate_dependents_refuted`: Two depthwise layers fed by the same layer and feeding the same one: it is listed twice, and the first step fails.
* `C94_single_channel_refuted`: Only the first of the dependents of a layer counts as compressible.
* `C94_float_assertion_refuted`: In double precision the assertion at the end of remove_structures, an equality, fails on ordinary networks: three layers of 12 filters; 7 filters of the first one removed leave 34560.00000000001 MACs of the second one's 82944, and removing 11 of its filters leaves a share whose complement is not the fraction 1 - 1/12 computed from the mask. (IEEE 754 binary64 as specified by Coq's SpecFloat; [macs_left]: the subtraction in reduce_layer_macs.)
* `C95_ties_refuted`: The L1 pruner masks at least the fraction asked less one structure; exactly the floor when the magnitudes differ.
* `C95_rounding_refuted`: The rounding of the pruner (its structures are rounded down) makes the target missed, even on this chain.
* `C95_uncovered_refuted`: A layer that depends on an earlier layer but comes after the last one pruned is counted on to lose what it no longer can: the target is missed without any rounding.
* `C96_ppo_out_of_range_refuted`: * C96
* `C97_crash_refuted`: Without a best checkpoint a crash can leave nothing: the only checkpoint is emptied before it is written again.
* `C97_two_crashes_refuted`: Two crashes, one while the best checkpoint is copied and one in the next save, can leave nothing even then.
* `C98_own_arch_refuted`: Any model that knows its architecture but not its dataset or parallelism (say the user set only [model.arch]), saved without naming the architecture, cannot be loaded from its own checkpoint.
* `C98_parallel_refuted`: A DataParallel checkpoint saved without a scheduler is not loaded without DataParallel: the names are normalised only for the sake of the masks.
* `C98_groups_refuted`: An optimizer with several parameter groups is saved but cannot be loaded: the whole load fails.
* `C99_nested_refuted`: An exit inside another cannot be used, whichever is attached first: after the outer one the inner one is not found, and the other way round attaching works but collecting and deleting outputs fail.
* `C99_same_exit_refuted`: ** Examples and concrete findings
* `C99_data_parallel_refuted`: After the model has been put into DataParallel, exits at its own children are found, those deeper inside are not.
* `C100_user_pretrained_refuted`: A user's model is made although trained weights were asked for, and even in place of an untrained built-in model of that name.
* `C100_capital_refuted`: A model registered for a data set spelled with a capital is never found.
* `C100_not_a_model_refuted`: A name in a package that is no model (a submodule, say) is a TypeError, not the documented ValueError, also if a user registered a model of that name.
* `C100_masked_error_refuted`: The ValueError of a model's own constructor is reported as an unknown model.
* `C100_own_shape_refuted`: A user's model with an input shape of its own keeps it on the CPU and loses it in DataParallel.
* `C100_inception_shape_refuted`: The shape recorded for an Inception network other than inception_v3 is not that of the images loaded for it (299: imagenet_get_datasets).
* `C102_training_goes_on_refuted`: Nothing keeps a learned clipping value positive: whatever the clipping value, the learning rate and the weight decay, a one-element batch and a loss gradient exist after which a step leaves a clipping value on which the next forward pass raises. (The English claim "training can go on" fails.)
* `C103_new_lr_scheduler_refuted`: (Findings) A checkpoint of a training without LR scheduler cannot be resumed with a file that has one.
* `C103_parameter_groups_refuted`: A checkpoint whose optimizer has not exactly one parameter group (PACT adds one) cannot be resumed, not even to reset the optimizer.
* `C103_policy_over_refuted`: (Findings) The rates differ from those of the uninterrupted training if the policy was not scheduled for the epoch before:
* `C103_two_schedulers_refuted`: with two schedulers one after the other (a warm-up, then a decay): the epoch after resuming is run with the second one's rate - and so is the very first epoch of every training:
* `C103_plateau_refuted`: ReduceLROnPlateau forgets how many epochs were bad (here: 2 bad epochs are needed):
* `C104_fp16_refuted`: (Finding) A model quantized with fp16=True is rebuilt as an integer-quantized one.
* `C104_training_refuted`: (Finding) No checkpoint of quantization-aware training can be loaded: the optimizer is not recorded.
* `C104_overrides_consumed_refuted`: (Finding) Hence a second quantizer made with the same dictionary of overrides uses its default bits for all of them.
* `C105_combined_refuted`
* `C106_alias_refuted`: In place with the first input given again, the already changed elements are used: x op x op x becomes (x op x) op (x op x).
* `C106_failure_refuted`: A failure in place can come after the first input has been overwritten.
* `C107_missing_refuted`: It never fails: where the path does not exist, the deepest module that does gets an attribute whose name is the rest of the path without its dots.
* `C107_shared_refuted`: A shared module is only found by its first name.
* `C107_shared_set_refuted`: Its own modules cannot be set through its other name: here the attribute "convsub" of b2 would be set.
* `C107_relative_refuted`: Names are relative to the module they were last assigned for: naming a part makes its modules unfindable from the whole.
* `C108_shown_refuted`: The count shown can be one too small: 61 non-zero weights in the first convolution of ResNet20 (16x3x3x3) are shown as 60, one non-zero weight of 49 as none.
* `C108_tracker_refuted`: Two models with parameters of the same sizes and the same number of non-zero weights can be given different counts, so the tracker of the best checkpoints, which compares counts before accuracy, ranks them by rounding errors.
* `C108_nan_refuted`: A weight that is not a number counts as a zero (and an infinite one as a non-zero).
* `C109_batchnorm_refuted`: Finding: a parameter of a batch normalization that is all zero (as all their biases are at first) closes the gate of the convolution with its number, whatever the weights of that convolution.
* `C109_downsample_refuted`: Finding: a downsample whose weights are zero closes the gate, in its block, of the convolution with the number found for the parameter before it (whatever the weights of that convolution); if it is the first one, NameError.
* `C109_fails_refuted`: Finding: a parameter outside the blocks that is all zero, or any at all in a model that is not in DataParallel, makes the function fail; so does a new model, since the biases of its batch normalizations are zero.
* `C109_same_function_refuted`: Finding: so the network computes something else: a block without its two convolutions doubles its input.
* `C110_first_step_refuted`: Finding: the step after a last step, i.e. the first one of an episode, is never used, unless it is the oldest entry in the memory: each experience is either the oldest entry or one whose predecessor was not the last step of its episode. Nor is the newest entry.
* `C110_one_step_refuted`: So with episodes of one step (one layer) the agent learns from the oldest entry only.
* `C110_window_refuted`: Finding: longer windows (the agent of distiller uses windows of one) do not show the last observations of an episode: with windows of two the observation before 21 in its episode, 20, is replaced by zeros; with windows of three the state of the second episode begins with an observation of the first.
* `C111_resumed_with_another_batch_size_refuted`: with another number of steps per epoch (another batch size), a step has two values
* `C111_histograms_of_epochs_collide_refuted`: so that a weight has, at one step, as many different histograms as it was different in epochs
* `C111_histograms_missing_from_second_logger_refuted`
* `C111_buffers_of_modules_with_children_refuted`: the buffers of a module with children (the wrappers of post-training quantization have them) are not logged
* `C111_list_in_one_graph_refuted`: a list of values logged as the L1-norms of filters are by default (multi_graphs=False) is all filed in one place
* `C112_eos_in_text_refuted`: the numbers do not depend on whether a word is the mark of a line's end or was written in the text
* `C112_evaluate_is_the_mean_refuted`: there are (rows - 1) * bsz predictions: the mean loss is reported too small by the factor (rows - 1) / rows
* `C112_some_bptt_fails_refuted`
* `C112_first_report_refuted`: the first report divides the losses of m + 1 batches by m: it is the mean times (m + 1) / m
* `C112_best_model_is_tested_refuted`: but that one is not what is tested
* `C112_interrupted_in_first_epoch_refuted`: Ctrl-C in the first epoch: FileNotFoundError, or, if an earlier training left its model there, the result of that model
* `C112_best_model_lost_refuted`: Ctrl-C while the best model is written: the best one so far is lost
* `C113_ties_of_all_channels_refuted`: When every channel scores no more than the threshold (ties), there is nothing left to fit: it fails.
* `C113_one_image_or_position_refuted`: A batch of one image, or a layer with one output position, cannot be sampled (kernels other than 1 x 1): whatever the draws, the collecting pass fails with an IndexError.
* `C113_last_batch_of_one_refuted`: ... also when only the last batch has one image.
* `C113_magnitude_function_ignored_refuted`: The magnitude function given to the constructor has no effect: channels are ranked by their L1 norm.
* `C113_amc_group_size_lost_refuted`: AMC asks for groups of [group_size] channels, rounded up; the pruner it builds prunes single channels, rounded down.
* `C113_channel_groups_refuted`: With channel groups of more than one channel it never prunes: the map has one entry per group.
* `C113_strided_pointwise_refuted`: A 1 x 1 convolution with stride 2: the input is read at the output's coordinates. The layer's own weights do not explain the samples.
* `C113_wide_outputs_refuted`: A 2 x 2 kernel on a wide input (outputs 2 x 3): the wrong block of the unfolded input.
* `C113_tall_outputs_refuted`: On a tall one (outputs 3 x 2), a drawn position may not exist.
* `C113_dilated_refuted`: A dilated kernel: the unfolding ignores the dilation.
* `C113_bias_counted_twice_refuted`: The targets contain the layer's bias although the fit has no intercept, and the layer adds its bias again: here the masked old weights reproduce the layer's output exactly, the reconstructed ones do not.
* `C114_linear_single_number_refuted`: For the output of a linear layer the "channel" statistic is a single number for all the neurons.
* `C114_shared_module_refuted`: A module instance used at several places of the network: calls with another number of channels fail, but calls with the same number are pooled silently, and so is a later call with one channel.
* `C114_value_is_live_refuted`: A value() is the live object: forward calls made after it change its contents.
* `C114_which_module_refuted`: ... every ".conv" of the name is replaced, also in the names of enclosing modules, and a name without one (a convolution at the top level of the model, "conv1.weight", or "features.0.weight") refers to the convolution itself, which is not an activation module: then the statistic is missing (ValueError).
* `C115_stale_config_refuted`: what a name in "configs" holds: the copy that was there before, or else the first readable file of that name
* `C115_same_name_configs_refuted`: two configuration files of one name (from different directories): only the first is stored
* `C115_same_second_refuted`: a name that is not absolute
* `C115_absolute_name_refuted`: an absolute experiment name escapes the output directory
* `C115_mixed_links_refuted`: the links can end at the logs of two different runs
* `C115_last_finisher_refuted`: a process that finishes after all others can own neither link
* `C115_crash_loses_links_refuted`: a process that stops half-way leaves no links, although there were links before
* `C115_makedirs_race_refuted`: two processes that start within one second: the second can fail in makedirs; one after the other, they do not
* `C115_negative_device_refuted`: a negative number is accepted as a device
* `C115_reload_refuted`: * Lazy loading
* `C115_reused_statistics_refuted`: the collected statistics stay in the arguments: a second model is quantized with the statistics of the first
* `C116_optimizer_of_pruned_run_refuted`: the optimizer saved with the ticket is the one of the finished pruning run, not that of the untrained network
* `C116_unpruned_zero_frozen_refuted`: A bias that was never pruned but is zero (its initial value, say) is masked in the ticket and stays zero in training: the mask is inferred from the weights, not taken from the scheduler.
* `C116_starts_at_epoch_one_refuted`: Training the ticket from its file begins at epoch 1: a policy scheduled for epoch 0 never runs.
* `C116_freeze_training_refuted`: freeze_training never freezes anything: it fails on every model that has a parameter
* `C116_progress_shared_refuted`: * TrainingProgressCollector
* `C116_progress_names_refuted`: a statistic named like a method or like the dictionary is recorded but cannot be read back as an attribute
* `C117_small_groups_refuted`: and fails, with AssertionError in the middle of the epoch, when every group has less than half a batch
* `C117_group_never_seen_refuted`: samples can be left out while others come twice, even all samples of a group
* `C117_small_data_refuted`: the sentences of a global batch come from one stretch of 80 global batches of the shuffled data, and are neighbours when that stretch is sorted by length
* `C117_same_samples_left_out_refuted`: the last samples of the permutation are never used in the epoch; and as nothing but the epoch number seeds the permutation, training that never sets the epoch leaves out the same samples every time
* `C117_duplicate_token_refuted`: the vocabulary: the four special tokens (numbers 0 to 3) and the lines of the file
* `C117_special_in_vocabulary_refuted`: with <s> in the vocabulary file, no sentence read can be written again
* `C118_listed_test_item_refuted`: a test item that is also listed among its negatives wins the ties against the items listed behind it
* `C118_no_users_is_all_refuted`: a portion of the test set that rounds down to no user at all means the whole test set
* `C118_no_hits_refuted`: * The best model
* `C118_resume_forgets_refuted`: a resumed training forgets the best model: its first epoch with a hit overwrites the .best file, however bad
* `C118_killed_forever_refuted`
* `C118_errors_dropped_refuted`: errors are dropped: without the ratings file the constructor ends, without rows, sizes or matrix; a broken pickle gives an object without rows
* `C118_stale_refuted`: once the two files exist, a changed ratings file is ignored
* `C118_rated_everything_refuted`: for a user who has rated every item the loop never ends
* `C118_test_item_is_candidate_refuted`: the test item itself can be drawn as a negative of its test, when the user rated it once; and as a negative in training
* `C118_trained_as_negative_refuted`
* `C118_test_item_outside_refuted`: the size of the item table is taken from the training pairs: a test item that nobody else rated can be outside of it
* `C119_last_word_refuted`: the words that the network gives for a sentence of the numbers [s] alone
* `C120_weights_in_window_refuted`
* `C120_synchronize_twice_refuted`: synchronizing again multiplies the weight of what was there by the number of ranks
* `C120_reduce_other_names_refuted`: the average of a name over all ranks
