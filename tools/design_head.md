# Formal model of NervanaSystems/distiller in Rocq (Coq 8.16.1)

This file is generated by `tools/gen_design.py` from `tools/design_head.md`, `tools/notes.py`, `properties.jsonl` and `MANIFEST.json`.

## Approach
* The model is a set of total, executable Gallina functions, one per modelled Python function or method, each with a
  comment citing the file and lines in /repo and naming the simplifications.
* `theories/<Area>Model.v`: model only. `theories/<Area>Spec.v`: small, independent specification vocabulary.
  `theories/<Area>Proofs.v` (and similar): lemmas. `theories/Properties<Area>.v`: the property theorems
  (`Cxx_...`), non-vacuity `Example`s and `Print Assumptions` after each theorem.
* Python exceptions are values of a result type (`Ok x | Raise e`), so "raises" is part of what is proved.
* Tensors are a shape and the list of elements in row-major order (or plain lists where the shape does not matter).
* Numbers are exact rationals `Q` in place of IEEE floats. Square roots, inverse square roots, logarithms and
  exponentials are function parameters quantified in the theorem (with the hypotheses shown there), except in
  `PropertiesKdReal.v`, which uses Coq's `R`. Rounding of floating-point + - * / is **not** modelled; the explicit
  `round()` of the code (round half to even) and `int()`/`floor` are modelled exactly.
* Python dicts are association lists with Python's insertion-order semantics; sets only where order cannot be observed.
* Object identity (policies used as dict keys, shared modules) is an integer identifier.
* Unbounded recursion over graphs uses fuel; where it does, the theorem proves the fuel sufficient
  (C50, C57, C24 `_succeeds`), so the fuel is not observable.
* Names: suffix `_partial` marks a theorem that proves only part of its property; suffix `_refuted` marks a theorem
  that proves that the code does *not* do what its documentation or the property says, by a concrete run of the model
  (these are findings about the code; each is a computation of the model and can be repeated in Python).

## Trusted base
* Coq 8.16.1's kernel (no kernel check is switched off, no plugin is used).
* `Print Assumptions`: `ASSUMPTIONS.md` lists the result for every theorem in MANIFEST.json (generated by
  `tools/gen_assumptions.py`). @ASSUMPTIONS@
* A scan of the whole environment also shows the standard library's `Coq.Reals.Rdefinitions.*` module-sealed
  constants (defined, not assumed) and `Coq.ssr.ssrunder.Under_rel.*` (loaded by `Coq.ssr`); no theorem depends on the
  latter. No axiom, `Parameter`, section-less `Variable`/`Hypothesis`, `Admitted`, functor or module type is declared.
* The correspondence between the Gallina model and the Python text (by inspection, with line citations), and the
  semantics given to PyTorch primitives: `mul_`, `topk` (including that ties are broken by an unspecified choice, as a
  parameter), `gt`, `expand`, `t`, `view`, `index_select`, `resize_`, `round`, `clamp`, `clone`, module attribute and
  buffer registration, `state_dict`, `conv2d`, `linear`, `batch_norm` and torch's learning-rate scheduler base class.
* Theorems were tested against wrong programs: `tools/mutate.py` applies an edit to a copy of the model and rebuilds;
  `seeded/LOG.jsonl` records every attempt, which theorems failed and which were tightened.

## What is modelled, per source file (distiller/...)
| file | modelled | not modelled |
|------|----------|--------------|
| scheduler.py | everything except printing | logging |
| policy.py | PolicyLoss, PruningPolicy, RegularizationPolicy, LRPolicy, QuantizationPolicy (callbacks) | tensorboard/plot side of hooks |
| pruning/{__init__,magnitude,level,sensitivity,splicing,agp,baidu_rnn,structure}_pruner | everything | hybrid/experimental classes without state |
| pruning/ranked_structures_pruner.py | all rankers, group types, leader handling, block pruning, Bernoulli scaling | gradient hooks, RNG (an arbitrary choice function) |
| thresholding.py, norms.py | everything used by the pruners | - |
| model_summaries.py | sparsity tables of weights and masks (without standard deviation), performance summary (hooks, MACs, names) | printing, tables as text, graph drawing, compute summary |
| regularization/* | losses and thresholds of all regularizers, Conv2dWithMask, replacement of convolutions; the policy-level behaviour; gradients of L1 and group lasso (RgrModel, C105) | gradient of the group variance |
| config.py | dict_config, components, policies, times, by-class configuration | YAML parsing, messages |
| thinning.py | both recipe constructions, append helpers, execution, optimizer thinning, replay, saving, layer removal of the CIFAR ResNets (RmModel, C109) | AMC helpers |
| summary_graph.py | construction of operations and edges from the nodes of a trace, names, replacement of module lists, predecessors/successors (also _f), adjacency_map, layers_topological_order, missing_modules, MACs / footprint / arithmetic intensity, merging of padding and pooling, dropout scope work-around | the trace and ONNX optimisation themselves, parameter shapes, DataParallel names |
| utils.py | names, density/sparsity family, state handling used elsewhere, volume, make_non_parallel_copy, recursive type conversion, finding and replacing modules by name (HierModel, C107), counting of non-zero weights in IEEE doubles (CntModel, C108) | argument parsing, logging helpers |
| quantization/q_utils.py | everything except AciqClipper's internal tables' origin | - |
| quantization/clipped_linear.py | WRPN, DoReFa, PACT arithmetic (forward), gradients (GradModel.v), PACT's parameter group | in-place buffers |
| quantization/quantizer.py | constructor, overrides (regular expressions), metadata, prepare_model, quantize_params | optimizer re-creation details |
| quantization/range_linear.py | quantization parameters, parameter-layer wrapper, add/mult/concat/matmul wrappers, input metadata, clipping, EMA, fake quantization, QAT input patching, conversion of layer wrappers to PyTorch, preparation of the model (propagation and clipping of statistics, fusing of ReLUs, choice of wrappers), embedding wrapper, floating-point and fake-quantization wrappers, replacement functions with the settings of the wrappers, construction from the command line | LSTM unrolling, stats file parsing |
| quantization/pytorch_quant_conversion.py | conversion of quantization parameters and tensors; both passes over the model, the conditional (de)quantize modules | the QFunctional wrappers (one native call each), nested tuples of tensors |
| quantization/sim_bn_fold.py, model_transforms.py | everything | gradients |
| learning_rate.py, knowledge_distillation.py, apputils/performance_tracker.py | everything | - |
| apputils/data_loaders.py | index arithmetic and samplers | image decoding, data sets |
| apputils/image_classifier.py | training loop, early-exit loss and statistics, checkpoint flags, _init_learner (start, resume, reset; learning rates); seeds, devices, lazy loading, quantize-and-test (EnvModel, C115) | argument parsing, evaluation of summaries |
| apputils/execution_env.py | copies of configuration files, log directories, links to the latest log under any interleaving (EnvModel, C115) | the texts logged, Python logging configuration |
| examples/lottery_ticket/lottery.py, directives.py, TrainingProgressCollector | extract_lottery_ticket, freeze_training, freeze_all, adjust_dropout, progress collectors (LotModel, C116) | print_sparsities, command line, the file's name |
| examples/object_detection_compression/group_by_aspect_ratio.py, examples/GNMT/seq2seq/data | GroupedBatchSampler; BucketingSampler, collation, filtering, tokens (SmpModel, C117) | aspect ratios, reading files, BPE text |
| examples/GNMT/seq2seq/inference/{beam_search,inference}.py, seq2seq/utils.py | greedy_search, translate, batch_padded_sequences (GenModel, C119) | beam_search with more than one beam, the network |
| examples/object_detection_compression/utils.py | SmoothedValue, all_gather, reduce_dict, log_every, collate_fn, warm-up factor (MetModel, C120) | printed texts, mkdir, init_distributed_mode |
| examples/ncf/{ncf,dataset,convert}.py | evaluation, best model and threshold, training data and its saved files, samples, split (NcfModel, C118) | NeuMF, the training step (C03), reading the raw ratings |
| early_exit.py, modules/topology.py, models/*/*earlyexit.py (forward) | EarlyExitMgr, BranchPoint, forward of the early-exit models (C99) | definitions of the branch networks, multi-device DataParallel |
| models/__init__.py; utils.py (input shapes) | create_model with all its sources, register_user_model, DataParallel placement, input shapes, get_dummy_input (C100, C101) | the networks themselves, patch_torchvision_mobilenet_v2, devices |
| apputils/checkpoint.py | save_checkpoint, load_checkpoint, load_lean_checkpoint, the files at every crash point | pickle format, devices, get_contents_table |
| data_loggers/collector.py | hooks and contexts, quantization statistics, weighted meters, activation sparsity, histograms, raw outputs; channel statistics, summary and per-sample records (ChModel, C114) | spreadsheet / yaml / image writing, QFunctionalWrapper |
| data_loggers/logger.py, tbbackend.py | which records, rows and files the TensorBoard and CSV loggers write (LogModel, C111) | PythonLogger tables, histogram contents, csv text |
| modules/rnn.py | LSTM cell and LSTM forward (tensors, packed sequences), conversions | bidirectional_type 1, init_weights (it refers to a missing attribute), repr |
| modules/eltwise.py | everything (EltModel, C106) | overlapping views, type promotion |
| sensitivity.py | perform_sensitivity_analysis, rows of the CSV file | plotting |
| quantization/ptq_greedy_search.py | candidates, local search, the search with inputs, exclusions and resuming | DataParallel names, statistics collection, the program part |
| pruning/greedy_filter_pruning.py | prune_tensor, the search for the most robust layer, the main loop, records and checkpoints | find_most_robust_layer_mp, fine-tuning, file writing |
| quantization/ptq_coordinate_search.py | vector conversion, validation, the search with its callback, command-line filtering; mode names, losses, initialisation of layers and model (C93) | input collection hooks, DataParallel names, scipy, per-channel weights, scale approximation, devices |
| examples/auto_compression/amc: environment.py, rewards.py, utils/net_wrapper.py, utils/data_dependencies.py | episodes: mapping and constraining of actions, metadata, dependencies, accounting of MACs and weights, observations (dynamic fields, normalisation), rewards, best episodes and checkpoints (C94-C96) | training, validation, feature-map reconstruction, thinning, the logarithmic reward, RL agents other than the replay memory, charts and logs |
| examples/auto_compression/amc/rl_libs/hanlab: memory.py, agent.py (train, observe) | ring buffers, sequential memory, sampling, what training observes (MemModel, C110) | get_recent_state, networks, policy updates |
| examples/word_language_model: data.py, main.py | corpus, batches, evaluation, reports, the files of a training (LmModel, C112) | the networks, argument parsing, learning-rate scheduling, ONNX export |
| ranked_structures_pruner.py:518-728, AMC features_collector.py:43-80 | the feature-map samples, the regression matrices, the written weights and mask (FmModel, C113) | the numerical solver, devices and dtypes |
