# Properties added as the model grew (ids continue after props_a).
from props_a import P, p
p("Masks follow parameters renamed by quantizers",
  "mask_all_weights applies to a parameter 'a.float_x' (backed up by a training-time quantizer) or 'a.wrapped_module.x' (wrapped layer) the mask that was created for 'a.x', and ignores other new parameters. (Findings: a new parameter of the top-level module raises IndexError; mask_on_forward_only is ignored for renamed parameters; a pruning policy scheduled on a renamed model fails; with mask_gradients two policies leak a gradient hook.)",
  "all parameter names and maskers", "all names",
  ["distiller/scheduler.py: mask_all_weights", "distiller/policy.py: PruningPolicy.on_epoch_begin, on_epoch_end"])
p("Learning-rate policies step once per scheduled epoch",
  "on_epoch_end(e) steps exactly the learning-rate schedulers whose LRPolicy is scheduled in epoch e, in the order they were added, to epoch e+1, and no other scheduler callback steps any of them.",
  "all schedules, all histories of callbacks", "all schedules and histories",
  ["distiller/policy.py: LRPolicy.on_epoch_end", "distiller/scheduler.py: CompressionScheduler.on_epoch_end"])
p("Gradient masking",
  "PruningPolicy raises ValueError exactly when mask_gradients is requested without mask_on_forward_only; the gradient hook zeroes the gradient of every pruned weight and keeps every other gradient, and leaves the gradient unchanged while there is no mask.",
  "all configurations, masks and gradients", "all inputs",
  ["distiller/policy.py: PruningPolicy.__init__", "distiller/scheduler.py: ParameterMasker.mask_gradient"])
p("Block pruning removes whole blocks of the requested shape",
  "With block_shape [r,1,1,1] (r divides the filter count) the pruner masks as a whole the floor(f*n) weakest of the n blocks formed by the elements at one position (c,h,w) of r consecutive filters; with [r,d,1,1], d>1, blocks are r*d consecutive kernels counted filter by filter (= d consecutive channels of a filter when r=1, = r whole filters at a kernel position when d=C); nothing happens when floor(f*n)=0; malformed or non-dividing shapes raise ValueError; sparsity_blocks is the share of all-zero blocks. (Finding: for r>1 and 1<d<C this is not the documented super block.)",
  "all 4-D weights, block shapes, magnitude functions and fractions in [0,1]", "all shapes and values",
  ["distiller/pruning/ranked_structures_pruner.py: rank_and_prune_blocks", "distiller/utils.py: sparsity_blocks"])
p("Range statistics used for quantization parameters",
  "The min/max statistics are attained and bound every element (per tensor or per row); avg_min/avg_max are the means over the rows and lie between the smallest/largest row statistic; max_abs bounds every absolute value and is attained; mean +/- n*std is cut to the observed range, contains the mean, and n <= 0 raises ValueError; the symmetric ACIQ range contains mean +/- alpha, the asymmetric one starts no lower than the average minimum and has width 2*alpha (alpha for half_range), and alpha is 0 for a constant tensor and defined for 0..8 bits only.",
  "all tensors, row dimensions and numbers of bits", "all tensor values",
  ["distiller/quantization/q_utils.py: get_tensor_min_max, get_tensor_avg_min_max, get_tensor_max_abs, get_tensor_mean_n_stds_min_max, AciqClipper"])
p("Input quantization metadata",
  "A quantized layer uses the quantization metadata attached to its input tensor; an override for that input together with attached metadata, and missing metadata without override or automatic fallback, raise RuntimeError; otherwise the parameters come from the statistics or the tensor, and a dynamically quantized input is represented within half a step. (Findings: a custom override quantizes with unsigned parameters but clamps to the signed range; a second forward on the same tensor object with an override raises RuntimeError.)",
  "all tensors, settings and overrides", "all values and settings",
  ["distiller/quantization/range_linear.py: RangeLinearQuantWrapper._prepare_inputs_for_quantized_forward, _get_input_quant_metadata"])
p("Reading back clipping values",
  "Setting output_clipping to a range containing 0 and reading it back returns the range moved by at most half a step (unsigned asymmetric mode), or exactly at the top (restricted symmetric); a scalar raises ValueError in asymmetric modes unless the output is half-range. (Findings: the signed asymmetric getter uses the unsigned range; weight_clipping in symmetric modes ignores the negative bound and the restricted range.)",
  "all ranges and numbers of bits", "all values",
  ["distiller/quantization/range_linear.py: _get_clipping_values, output_clipping, weight_clipping"])
p("Clipping recorded activation statistics",
  "Clipping statistics to a fused activation's range clips the recorded minimum and maximum to it, keeps them ordered and keeps mean, std and b; averages that overlap the range are also clipped and stay ordered. (Finding: otherwise the averaged range can become inverted and average clipping then fails.)",
  "all statistics and ranges", "all values",
  ["distiller/quantization/range_linear.py: PostTrainLinearQuantizer._clip_stats"])
p("Simulated batch-norm folding trains like the unfused pair",
  "For every history of training forwards, evaluation forwards and parameter updates within freeze_bn_delay, a SimulatedFoldedBatchNorm returns the same outputs and reaches the same running statistics and parameters as the wrapped layer followed by torch's batch-norm (both refuse one value per channel); the step that passes the delay leaves a frozen layer computing the pair's evaluation function from then on. (Finding: the output of that step itself applies gamma/sigma twice.)",
  "all histories, batches, weights, momenta and geometries", "unbounded histories and all real-valued inputs",
  ["distiller/quantization/sim_bn_fold.py: SimulatedFoldedBatchNorm.forward, batch_stats, freeze"])
p("fuse_modules / fold_batch_norms on the model graph",
  "Fused sequences are consecutive modules of the requested types; for a pair of types, each consecutive pair whose first module has at most one successor is fused; folding batch-norms preserves the evaluation-mode value of every other node of every graph whose layer/batch-norm neighbours are connected and turns the folded batch-norms into identities. (Findings: connectivity is not checked, a split behind another layer is fused, overlapping matches are missed.)",
  "all graphs, adjacency maps, type sequences and inputs", "all graphs",
  ["distiller/model_transforms.py: fuse_modules, fold_batch_norms, _fuse_sequence"])
p("Early exits: every sample is counted at exactly one exit",
  "In validation each sample leaves at the first exit whose loss is below its threshold, else at the final exit; the per-exit counters sum to the number of samples and the reported total accuracy is the percentage of samples classified correctly at their exit. The training loss is the weighted sum of the traversed exits with the remaining weight on the final exit; weights summing to 1 or more, missing thresholds and an empty data set raise. (Finding: the weight of an exit that was not traversed is lost.)",
  "all thresholds, losses, batches and numbers of exits", "unbounded batches and real-valued losses",
  ["distiller/apputils/image_classifier.py: earlyexit_loss, earlyexit_validate_loss, earlyexit_validate_stats"])
p("The sample application drives the scheduler correctly and saves pruned weights",
  "run_training_loop produces, for exactly the epochs start..stop-1 in order, epoch begin, the minibatch callbacks numbered 0..k-1 with k = ceil(n / batch size) = the number of batches, and epoch end; every checkpoint it saves satisfies the masks; stopping and continuing reaches the same weights and latest checkpoint.",
  "all policies, schedules, data sets, batch sizes, losses and optimizers", "unbounded runs",
  ["distiller/apputils/image_classifier.py: train, train_validate_with_scheduling, run_training_loop"])
p("Quantization parameters from recorded activation statistics",
  "Parameters computed from a statistics record represent every value of the clipping range within half a step: the observed range without clipping, the averaged range with AVG, and exactly the observed values within n standard deviations of the mean with N_STD, which raises ValueError iff n is missing or not positive. Approximating the scale with k bits keeps the zero point and lowers the scale by less than a 2^-(k-1) part.",
  "all statistics records, bit widths, modes, clipping modes and values", "real-valued statistics and inputs",
  ["distiller/quantization/range_linear.py: _get_quant_params_from_stats_dict"])
p("prepare_model replaces each module by its own configuration and selects exactly the layer parameters",
  "For every unshared module tree, Quantizer.prepare_model replaces each module by what the replacement factory returns for that module's own name and bit-widths, keeps the order and names of children, processes replaced containers recursively, and records exactly the weights and biases of conv/linear layers with their own bit-widths; preparing twice raises; shared modules get one wrapper. (Findings: sharing an unreplaced module, or sharing between siblings, keys names that are missing and raises KeyError; a container wrapper's new children raise.)",
  "all module trees, replacement factories, overrides and bit-widths", "all trees",
  ["distiller/quantization/quantizer.py: Quantizer.prepare_model, _pre_process_container, _get_unique_optimizer_params_groups"])
p("Quantized training keeps float weights and quantizes inputs once",
  "With float copies, after every training run each quantized parameter is the quantization of the current float copy; quantization never changes float copies and is idempotent. Input quantization runs the original forward on inputs quantized once. (Findings: without float copies each quantization rounds the previous result again; preparing a second model of the same class makes forward recurse forever.)",
  "all parameter sets, quantization functions, optimizer steps and call depths", "unbounded runs",
  ["distiller/quantization/quantizer.py: quantize_params", "distiller/quantization/range_linear.py: NCFQuantAwareTrainQuantizer, QuantAwareTrainRangeLinearQuantizer._prepare_model_impl"])
p("A checkpointed thinned model is rebuilt by replaying its recipes",
  "For every history of training steps and executed thinning recipes, replaying the saved recipe list on a fresh copy of the original architecture (as load_checkpoint does) succeeds and yields the same modules, attributes and parameter shapes as the thinned model, whatever the weights, masks and optimizer were.",
  "all models, recipes, histories, weights, masks and optimizer states", "unbounded histories",
  ["distiller/thinning.py: execute_thinning_recipes_list, execute_thinning_recipe, apply_and_save_recipe", "distiller/apputils/checkpoint.py: load_checkpoint"])
p("Graph searches find exactly the nodes of the requested types",
  "SummaryGraph.successors_f / predecessors_f return exactly the other nodes of the requested types reachable by edges through nodes not of these types, on every graph (cycles included), and a node with one incoming edge is returned at most once. (Finding: a node with two inputs can be returned twice.)",
  "all graphs, start nodes and type lists", "all graphs",
  ["distiller/summary_graph.py: predecessors_f, successors_f"])
p("Calibration statistics describe exactly the observed activations",
  "If collect_quant_stats succeeds, then for every collected module that was called the statistics of its output and of each input are the exact minimum, maximum, mean, standard deviation and mean absolute deviation of all the values of that tensor, however the data are cut into batches, provided the second pass sees the same values. (Findings: with modules_to_collect the second pass raises RuntimeError in general; a module never called is reported with min > max.)",
  "all module trees, batches, orders of calls and earlier states of the collector", "unbounded streams of batches of any sizes",
  ["distiller/data_loggers/collector.py: QuantCalibrationStatsCollector, collect_quant_stats"])
p("Averaged minima and maxima",
  "After one batch avg_min / avg_max are the averages of the per-sample minima / maxima; after any number of batches they lie within the range of the per-sample minima / maxima. (Finding: from the second batch on they are not the averages: each batch is weighted by its samples against the number of values seen before.)",
  "all sequences of batches", "unbounded streams of batches",
  ["distiller/data_loggers/collector.py: QuantCalibrationStatsCollector._activation_stats_cb"])
p("A collection context observes exactly what runs inside it",
  "A context that ends normally leaves no hook; each collected module's record is that of a fresh collector which saw exactly the calls inside the context; afterwards the model runs unobserved, and the result does not depend on earlier contexts. (Findings: an exception inside leaves the hooks and makes the collector unusable; a module object in two containers is counted twice; raw collectors fail on unequal batches.)",
  "all collectors, module trees, module lists, histories of forward calls and exceptions", "unbounded histories",
  ["distiller/data_loggers/collector.py: ActivationStatsCollector, RawActivationsCollector, collector_context"])
p("Activation histograms count every value in its bin",
  "Over any number of calls, every bin of a tensor's histogram counts exactly the values whose clamped value lies in that bin, the counts sum to the number of values, and each value is within half a bin of the reported centroid of its bin after clamping to the calibrated range. (Findings: KeyError for a module never called during calibration; a constant tensor has all centroids equal.)",
  "all tensors, ranges, numbers of bins and sequences of calls", "unbounded streams",
  ["distiller/data_loggers/collector.py: ActivationHistogramsCollector"])
p("Weighted meters and activation sparsity are exact",
  "After any sequence of add(value, n) the meter holds the weighted mean and the weighted standard deviation (denominator total weight minus one); the reported activation sparsity of a module is the percentage of zeros among all its output values, whatever the sizes of the batches.",
  "all sequences of additions and of activations", "unbounded sequences",
  ["distiller/data_loggers/collector.py: WeightedAverageValueMeter, SummaryActivationStatsCollector", "distiller/utils.py: sparsity"])

p("The modular LSTM computes what torch.nn.LSTM computes",
  "For every well-formed nn.LSTM (any number of layers, directions, bias, batch_first), its conversion gives, for every sample of every batch and for packed sequences of non-increasing lengths, the same outputs and final states as nn.LSTM, with or without an initial state; for bidirectional LSTMs also with dropout between layers. (Findings: with dropout a unidirectional LSTM feeds the dropped-out output back as the layer's state; a cell called without a state makes a state with as many rows as the input has columns; packed sequences in another order raise RuntimeError.)",
  "all parameters, activation functions, batches, sequence lengths, initial states and dropout masks", "unbounded sequences, layers and batches",
  ["distiller/modules/rnn.py: DistillerLSTMCell.forward, DistillerLSTM.forward"])
p("LSTM conversions preserve everything",
  "Converting an nn.LSTM to a modular LSTM and back gives the same configuration and parameters, converting the other way and back gives the same module, and converting a model replaces every nn.LSTM and nn.LSTMCell at any depth and changes nothing else, when no module object has two names in its parent. (Finding: an LSTM with two names in one parent is replaced only under the first.)",
  "all well-formed LSTMs and all module trees", "unbounded depth and numbers of layers",
  ["distiller/modules/rnn.py: to_pytorch_impl, from_pytorch_impl, convert_model_to_distiller_lstm"])

p("Adjacency map of the summary graph", "SummaryGraph.adjacency_map lists the operations of the traced model in execution order (with dedicated_modules_only, only those that are the only operation of a childless module), each with exactly the operations it feeds and that feed it; successors and predecessors agree. missing_modules returns the operations without a dedicated module. Both hold only as long as adjacency_map(dedicated_modules_only=True) was not called before: the restricted map is kept and returned by later plain calls.",
  "every well-formed graph and every sequence of calls", "the set of graphs and of call sequences is unbounded; the cache makes the result depend on the history", ["distiller/summary_graph.py: adjacency_map, predecessors, successors, _dedicated_module_check, missing_modules"])
p("Topological order of the layers", "layers_topological_order of an acyclic graph returns the modules named like operations, each once, sorted by the longest chain of operations from a root (ties in execution order), so that every layer comes after all the layers whose results it depends on; recurrent=True changes nothing. A cycle that a root leads to makes it fail for every recursion limit, in both modes; after adjacency_map(dedicated_modules_only=True) the order can be wrong.",
  "every acyclic graph (and every cyclic one), every recursion limit", "graphs are unbounded and ranks are computed by a recursion that revisits nodes", ["distiller/summary_graph.py: layers_topological_order, _OpRank"])
p("Names of operations and modules in the summary graph", "The scope printed by the tracer gives the dotted module name; each node of the trace becomes one operation, with a unique name (the module's name, then suffixes _type_k), its type and module, and the graph connects exactly producers and consumers of tensors, without cycles; replacing the nn.ModuleLists keeps all modules in order and the name map gives the original name of each. Exceptions: a module named like another module's operation or list element, a tensor named like an operation.",
  "every trace and every module tree without such clashes", "names are arbitrary strings and traces are unbounded", ["distiller/summary_graph.py: onnx_name_2_pytorch_name, SummaryGraph.__init__, _to_distiller_modulelist, _DistillerModuleList"])

p("Sparsity tables", "weights_sparsity_summary has one row for each parameter of the requested ranks whose name contains 'weight' or 'bias', in state-dictionary order, with the exact number of elements and non-zero elements and the exact percentages of zero elements, filters, channels, kernels, rows and columns; the total is the percentage of zeros over all these elements together (ZeroDivisionError when there is none). masks_sparsity_summary gives the same for the masks, with 0 for parameters without a mask, and raises KeyError for a parameter the scheduler does not know. (Finding: in double precision the count of non-zero elements can be one too low.)",
  "every state dictionary, mask dictionary and list of ranks", "tensors of every shape and content", ["distiller/model_summaries.py: weights_sparsity_summary, masks_sparsity_summary", "distiller/utils.py: density, sparsity_*"])
p("Performance summary", "model_performance_summary has one row for each call of a Conv2d or Linear in the forward pass, in the order in which the calls finish, with the module's full name, the shapes and volumes of its input and output, the size of its weights, and as MACs the number of products of a direct (grouped) convolution, or of one row of a fully connected layer. (Findings: MACs of a Linear ignore the batch; a module with two parents gives two rows per call; other than single precision raises ValueError.)",
  "every model without shared modules and every sequence of calls", "models and forward passes are unbounded", ["distiller/model_summaries.py: model_performance_summary, conv_visitor, fc_visitor, module_visitor", "distiller/utils.py: volume"])
p("Cost attributes of the summary graph", "The MACs attribute of a convolution is the number of its products, of a matrix product the number for one row; the footprint is the number of elements of input, output and weights; the arithmetic intensity is the nearest integer to their ratio. The attributes exist whenever every priced operation has input and output shapes of at least two dimensions; otherwise the constructor raises IndexError, although the MACs computation is written to survive that.",
  "every list of operations and shapes", "all shapes and graphs", ["distiller/summary_graph.py: add_macs_attr, add_footprint_attr, add_arithmetic_intensity_attr"])
p("Copy without data parallelism", "make_non_parallel_copy returns the model with every DataParallel wrapper, at any depth, replaced by its module and nothing else changed. (Findings: of a wrapper around a wrapper one is left; a wrapper referenced twice in one container is replaced once.)",
  "every module tree", "unbounded depth", ["distiller/utils.py: make_non_parallel_copy"])
p("Configuration of a schedule", "dict_config (and file_config) adds to the scheduler exactly the policies of the schedule, each made of the component it names in the section of its kind and active in the epochs it says, learning-rate policies after all others, otherwise in the order written; if an exception is raised a first part of them has been added. A component's constructor gets exactly those of the user's arguments, the component's name, the model, and (quantizers, learning rates) the optimizer and last epoch that its signature has, the latter in place of the user's; unknown classes or arguments and more than one quantizer are refused. A correct schedule is accepted. (Findings: the dictionary can be used only once, since 'class' is removed from it; without 'policies' the error handler itself fails.)",
  "every schedule dictionary, set of classes, behaviour of constructors and scheduler", "schedules, sections and argument dictionaries are unbounded", ["distiller/config.py: dict_config, add_policy_to_scheduler, build_component, config_component_from_file_by_class", "distiller/utils.py: filter_kwargs"])
p("Losses of the regularizers", "The L1 regularizer adds strength times the sum of absolute weights of each listed parameter; the group-lasso regularizer adds strength times the sum of the Euclidean norms of the groups (kernels, filters, whole layer, rows, columns) - for channels with a constant 1e-8 under the root, at most 0.0001 more per channel; the penalty is zero exactly when the groups are. Group variance adds strength over the sample variance of the channel norms. Thresholds remove exactly the elements or groups not above the strength. (Findings: 'Channels+4D' always raises AttributeError; the groups '4D' and 'Rows+Cols' have no threshold; the variance loss is not finite for one channel or equal norms.)",
  "every tensor, regime, strength and loss so far", "tensors of every shape and content", ["distiller/regularization/l1_regularizer.py: L1Regularizer", "distiller/regularization/group_regularizer.py: GroupLassoRegularizer, GroupVarianceRegularizer", "distiller/thresholding.py: group_threshold_mask"])
p("Filter dropping", "A Conv2dWithMask uses its weights as they are in evaluation and in all but every 16th training pass; in that one each filter is multiplied by its draw and divided by the kept share of the absolute weights (at least 1/5), so that the sum of absolute weights is preserved when at least 1/5 is kept. Replacing the convolutions of a model replaces exactly those, at any depth. (Findings: convolutions with a bias make it fail; groups, dilation and weights are lost.)",
  "every sequence of calls, draw, weight tensor and module tree", "unbounded histories and trees", ["distiller/regularization/drop_filter.py: Conv2dWithMask, replace_conv2d"])
p("PyTorch quantization parameters of a tensor", "For parameters made from any saturation range, up to 8 bits, every mode and both 8-bit dtypes, distiller_qparams_to_pytorch gives parameters that are valid in PyTorch and quantize every value in the range to what Distiller's stand for (up to one step at ties, whatever PyTorch's rounding of ties). With reduce_range values stay within 7 bits up to one step, with an error of at most 3/4 step. qint32, and reduce_range with other than 8 bits, are refused; the flag computed for the backend never is. (Findings: reduce_range can exceed 7 bits; for the symmetric mode its step is not that of 7 bits; with fewer than 8 bits values outside the range saturate later than in Distiller.)",
  "every saturation range, value, mode, number of bits and rounding of ties", "real-valued inputs", ["distiller/quantization/pytorch_quant_conversion.py: distiller_qparams_to_pytorch, need_reduce_range"])
p("PyTorch quantized tensor", "distiller_quantized_tensor_to_pytorch of an integral tensor of up to 8 bits gives a PyTorch tensor with integers of its dtype that stands for exactly the values Distiller's tensor stands for, per tensor or per channel; non-integral tensors, and several scales without per_channel, are refused. (Finding: torch.qint32 is documented but always refused.)",
  "every tensor, parameters, mode, 8-bit dtype", "tensors of every shape and content", ["distiller/quantization/pytorch_quant_conversion.py: distiller_quantized_tensor_to_pytorch"])
p("PyTorch quantized layer", "After any history of forwards and state_dict calls, a statically quantized 8-bit layer with a bias converts to the native layer of its kind, ReLU fused iff it was, with weights standing for exactly Distiller's and a bias within half an accumulator step; on the same quantized input its outputs are within one output step (two for the restricted symmetric mode) plus the bias rounding of Distiller's when nothing saturates the accumulator. (Findings: with asymmetric weights the conversion after a forward without state_dict gives wrong weights; layers without a bias always fail; an integer-valued float bias is divided by the weights' scale; an unsupported class raises TypeError.)",
  "every layer, weights, statistics, history, input and rounding of ties", "unbounded histories and tensors of every content", ["distiller/quantization/range_linear.py: to_pytorch_quant, _convert_to_pytorch_quant"])
p("Whole-model conversion to PyTorch quantization", "convert_distiller_ptq_model_to_pytorch returns a model that, for every input quantized like the dummy input, computes exactly what the native modules compute on quantized arguments (float ones quantized with the fallback parameters) and all other modules on de-quantized arguments, and returns a float tensor; removing the quantize and de-quantize steps that the dummy run did not need changes nothing - if no module is called twice and being quantized does not depend on data. It succeeds iff the given model runs on the dummy input and every module that gets such a step is called. (Findings: a module called twice keeps only what its last call needs, so the converted model can fail on every input; an uncalled module makes the conversion raise AttributeError.)",
  "every module tree, straight-line forward, dummy input, input and backend", "models, programs and inputs are unbounded", ["distiller/quantization/pytorch_quant_conversion.py: convert_distiller_ptq_model_to_pytorch, _ptq_convert_pass_replace_range_linear_wrappers, _ptq_convert_pass_remove_redundant_quant_dequant, patch_model_output_dequant, ConditionalQuantize, ConditionalDeQuantize"])
p("The final summary graph", "After construction the summary graph is that of the traced model with each padding and the average pooling that directly follows it in the same module taken as one average pooling: same operations otherwise, in order, with their inputs, outputs and modules; it is well-formed and acyclic; and no dependence between remaining operations is lost or invented if the padded tensor is used by the pooling only. (Findings: if the padded tensor is also used elsewhere that connection is lost; a padding, a pooling of another module and one of the padding's module corrupt the graph, and adjacency_map raises KeyError.)",
  "every trace without name clashes whose paddings and poolings have one input and output", "traces are unbounded, and the merge deletes edges by position", ["distiller/summary_graph.py: SummaryGraph.__merge_pad_avgpool, SummaryGraph.__init__"])
p("Names of operations before a dropout", "With the scope-name work-around every operation is attributed to the module that executed it, although ONNX gives the operation before a removed dropout the dropout's scope - if no dropout shares its scope with another operation. (Findings: with one dropout module used after two layers, or F.dropout in a forward, operations are attributed to the wrong layer.)",
  "every trace, every chain of dropouts", "traces are unbounded", ["distiller/summary_graph.py: SummaryGraph.__init__ (pre_dropout_nodes_scope_names)"])
p("Sensitivity analysis", "perform_sensitivity_analysis leaves the given model as it was and returns, for exactly the examined names in the order given (2-D and 4-D tensors; for filters and channels 4-D only), a dictionary with the levels in the order given. The value at a level is the test function's result on the original model with the named parameter pruned - exactly the elements, filters or input channels with at least floor(level*n) strictly weaker ones stay - and every other parameter untouched, if the levels increase and no parameter's name occurs inside the tested name. (Findings: a level listed after a larger one is tested at the larger one; for filters and channels every parameter whose name is a substring of the tested name is pruned as well; with 'element' a level asking for less than one element ends the analysis with IndexError.)",
  "every network, list of names and levels, test function", "arbitrary weights, names and level sequences", ["distiller/sensitivity.py: perform_sensitivity_analysis, sensitivities_to_csv", "distiller/pruning/ranked_structures_pruner.py: is_supported", "distiller/pruning/level_pruner.py"])
p("Greedy search of quantization settings", "ptq_greedy_search gives settings to exactly the layers in topological order that are not excluded and are not identities, batch normalizations or ReLUs. With the layers before it at their chosen settings and the later ones unset, the settings of each layer are those of the first candidate with the highest evaluation result - if all candidates for a layer set the same keys; the default candidates do: one per clipping mode NONE, AVG, GAUSS, LAPLACE with the requested widths, half range exactly for GAUSS and LAPLACE when every module that follows is a ReLU. (Findings: with candidates of different keys the chosen settings may never have been evaluated; a layer with no module after it is clipped to half range; Tanh and Sigmoid never get the 16 bits meant for them; of several quantized inputs of one layer only the last gets settings.)",
  "every model, topological order, evaluation function, candidate generator, excluded and input lists", "the evaluation result is an arbitrary function of the settings", ["distiller/quantization/ptq_greedy_search.py: ptq_greedy_search, search_best_local_settings, module_override_generator, input_override_generator, get_inputs_to_quantize"])
p("Resuming the greedy search", "A greedy search resumed from any checkpoint it saved returns the same settings as the uninterrupted search, and saves the same later checkpoints, if no inputs are quantized and the candidates set a non-zero width for activations (the default ones do); input settings in a checkpoint are not searched again. (Finding: with quantized inputs, a layer that the checkpoint already has is searched again, with the later layers' settings in place, and the result can differ.)",
  "every crash point, model, order, evaluation function and generator", "every crash point of every search", ["distiller/quantization/ptq_greedy_search.py: ptq_greedy_search (resume_search_from)"])
p("Greedy filter pruning", "In every iteration greedy_pruner continues with the first 4-D parameter whose copy of the current network - that parameter's floor(step*filters) weakest filters pruned (ties included), fine-tuned, thinned - tests best by (top1, top5, -loss); it prunes only while the cost exceeds the target fraction of the dense cost; the rows of greedy.csv and the per-iteration checkpoints describe exactly these networks; if every step lowers the cost, it ends. (Findings: no run ever completes: at the target the final checkpoint is not written because a deleted variable is used (UnboundLocalError), and a target not below the present cost is an AssertionError; once the step is less than one filter for every candidate the search never ends, recording the same network for ever.)",
  "every network, step, target, training, thinning and test function, number of iterations", "unbounded iterations over arbitrary evaluation results", ["distiller/pruning/greedy_filter_pruning.py: greedy_pruner, find_most_robust_layer, prune_finetune_test, prune_tensor, get_param_densities"])
p("Parameters of the numerical search", "ptq_coordinate_search turns exactly the searched parameters of a model into a vector (a range as two numbers) and any vector of that length back into an assignment of exactly those parameters: the magnitude for a single value, the ordered pair for a range; a non-negative, ordered assignment survives the round trip. A search on scales accepts exactly the models without asymmetric outputs (half-range ones allowed) and weights, and searches exactly the scales; its initial vector is the initial model. (Findings: a name ending in '_max' would be lost; in a search on clipping values evaluating the initial vector already changes the parameters.)",
  "every parameter dictionary, model of wrappers and vector", "arbitrary names, models and real vectors", ["distiller/quantization/ptq_coordinate_search.py: quant_params_dict2vec, quant_params_vec2dict, validate_quantization_settings", "distiller/quantization/range_linear.py: PostTrainLinearQuantizer.named_linear_quant_params"])
p("Numerical search of quantization parameters", "Whatever points the minimizer evaluates and reports, ptq_coordinate_search ends without an exception on an accepted model; every score is that of the prepared model with the point's parameters, independent of what was evaluated before; the parameters returned are those of the first reported point with the least score if that is below the initial score, otherwise the initial ones. Giving them back to the quantizer reproduces the score (for clipping values: if they improved on the initial score). A search on scales keeps the integer weights and zero points; a search on clipping values quantizes the weights again from the saved float weights. (Findings: the model returned has the parameters evaluated last; a search on clipping values that improves nothing cannot be undone with the returned parameters; after a search on scales the weights are not those quantized with their scale; with asymmetric weights a clipping search evaluates weights without their zero point; with an unquantized activation layer a clipping search raises.)",
  "every model of wrappers, evaluation function and sequence of evaluations and callbacks", "the minimizer's calls are an arbitrary history of real vectors", ["distiller/quantization/ptq_coordinate_search.py: ptq_coordinate_search, cmdline_args_to_dict", "distiller/quantization/range_linear.py: PostTrainLinearQuantizer.update_linear_quant_params, set_linear_quant_param, output_clipping, weight_clipping"])
p("Statistics after folding and fusing", "When a model is prepared for post-training quantization, a layer into which a batch normalization was folded gets the batch normalization's recorded output range and keeps its input ranges; the output range of a layer with quantized output that is followed by nothing but a ReLU, ReLU6, Tanh or Sigmoid (directly, or by a split all of whose chunks go into such activations) is clipped to what matters to the activation, and so is the input range recorded for the activation; no other range changes. It fails only if a layer with one successor has no statistics (or a batch normalization has some and its layer has none). Clipping is harmless: a recorded value cut to the clipped range gives the same activation. (A split whose chunks are used nowhere counts as one that feeds ReLUs.)",
  "every model, graph, bit-width map and set of statistics", "arbitrary graphs, names and ranges; the order of updates matters", ["distiller/quantization/range_linear.py: PostTrainLinearQuantizer._apply_bn_folding, _apply_activation_stats_fusions, _clip_stats"])
p("The prepared model computes the original function", "For every model in which each module is called once, under its own name, and no output is a layer that feeds only an activation: after preparation for post-training quantization (ReLUs fused into the layers before them and replaced by identities, ranges clipped, wrappers of every kind, any overrides of bits and wrappers) the model computes, apart from rounding, the same outputs as the original on all inputs on which no layer leaves its recorded range and no Tanh or Sigmoid saturates - with statistics, or dynamically if there is no ReLU6. A module becomes an identity only if it is a ReLU or ReLU6 after a layer that uses its output nowhere else and whose wrapper does the ReLU. (Findings: an output that is also the input of a ReLU loses its negative values; with dynamic quantization or a statistical clipping mode a fused ReLU6 no longer cuts at 6; a ReLU used after two layers is removed after both but done by the first only, so that with a symmetric mode negative values come through.)",
  "every program of operations, module set, bit-width map, overrides, mode, statistics and input", "models, graphs and inputs are unbounded", ["distiller/quantization/range_linear.py: PostTrainLinearQuantizer.prepare_model, _prepare_model_impl, _apply_fuse_relu, replace_param_layer, replace_non_param_layer, replace_fake_quant, RangeLinearQuantWrapper.forward", "distiller/quantization/quantizer.py: Quantizer._pre_process_container"])
p("Quantized embeddings", "After any history of look-ups, changes of scale, zero point and clipping through the wrapper, and moves between devices, a look-up returns for each index the original float row with every weight replaced by what its code under the current parameters stands for, and the next layer, quantizing with the attached metadata, gets exactly the stored codes; without clipping the error is at most half a step; setting the clipping gives exactly the parameters of that range. Without a float copy parameters cannot be changed; an index outside the table is an IndexError. Conversion to PyTorch keeps the values exactly. (Findings: changing a parameter through the quantizer rescales the looked-up values instead of quantizing again; after a move a change leaves the metadata stale; a wrapper with a float copy cannot be converted; activations-only quantization of a model with an embedding is a TypeError.)",
  "every table, setting, history and list of indices", "unbounded histories and tables", ["distiller/quantization/range_linear.py: RangeLinearEmbeddingWrapper, PostTrainLinearQuantizer.set_linear_quant_param"])
p("Floating-point and fake-quantization wrappers", "The floating-point wrapper runs the module on inputs all of whose tensors, at any depth of lists and tuples, have the chosen precision and returns its result in float32, structure and other values kept; a named tuple is a TypeError; only 16, 32 and 64 exist. The fake-quantization wrapper runs the module on the inputs (each replaced by what its codes stand for, unless already quantized or inputs are not quantized) and returns what the codes of the result, after a fused ReLU, stand for under the attached parameters, which are those of the recorded statistics or of the result itself; within half a step without clipping. The caller's tensors are unchanged - (Finding:) except an input of which the result is a view (a flatten, say): it is overwritten with the output.",
  "every module, nesting of values, setting and input", "modules, nestings and inputs are unbounded", ["distiller/quantization/range_linear.py: FPWrapper, RangeLinearFakeQuantWrapper, RangeLinearQuantWrapper.forward", "distiller/utils.py: convert_tensors_recursively_to"])
p("Which wrapper replaces a module, with which settings", "In post-training quantization a module with bits or override arguments is replaced according to its class and the arguments: a floating-point wrapper of the precision asked for, an integer wrapper of layers with weights, of element-wise/matmul operations, of embeddings, a fake-quantization wrapper, an identity (ReLU fused into its predecessor) or nothing; each setting of the wrapper (mode, clipping, number of deviations, half range, scale approximation, per-channel, input overrides, automatic fall-back) is the layer's override if given and the quantizer's otherwise; an argument that means nothing for the class is refused. (Findings: 'fake: False' without a precision is a KeyError; an unquantized layer with another argument is a TypeError; the clipping mode of an embedding must not be given by name; a layer's fp16 is ignored if the quantizer has a precision; GAUSS/LAPLACE clipping without statistics fails on a ReLU; rebuilding a wrapper from the recorded arguments loses the input overrides.)",
  "every class of module, setting of the quantizer, override arguments, statistics and bits", "the combinations are unbounded", ["distiller/quantization/range_linear.py: PostTrainLinearQuantizer.__init__, replace_param_layer, replace_non_param_layer, replace_embedding, replace_fake_quant, RangeLinearQuantWrapper.__init__, verify_quant_mode, _verify_enum_value", "distiller/quantization/quantizer.py: Quantizer._pre_process_container"])
p("Post-training quantization from the command line", "The quantizer made from the command line has the bits given (0: no quantization), the modes of activations and weights given (or the common one), statistics unless dynamic quantization is asked for; every layer named to stay float gets no bits and stays, every other layer named not to be clipped keeps its bits and is not clipped, and a layer none of the names resembles gets the defaults. (Finding: the names are regular expressions: a dot stands for any character, so another layer can be left float too.)",
  "every combination of arguments and every layer name", "argument values, name lists and layer names are unbounded", ["distiller/quantization/range_linear.py: PostTrainLinearQuantizer.from_args, add_post_train_quant_args", "distiller/quantization/quantizer.py: Quantizer.__init__"])
p("Initialisation of the numerical search", "init_linear_quant_params replaces exactly the integer wrappers of the given layers (an identity in place of a ReLU is not put in), each made anew with the mode given for all or for its name (a layer missing from the dictionary is a KeyError): with a clipping mode, with this mode and all its other settings unchanged; with a loss L1, L2 or L3, with all settings unchanged and then optimised. Modes are named in any case of letters; other names are refused. The loss is never negative and zero only for equal outputs. (Findings: a layer optimised with a loss is left with the parameters tried last, not the best ones nor the minimizer's result, so that it can be worse than at the start; of a layer with several inputs only the first is used; the contents of input overrides are lost.)",
  "every model of modules, order, mode or dictionary of modes, and sequence of vectors the minimizer tries", "arbitrary settings and an arbitrary history of vectors", ["distiller/quantization/ptq_coordinate_search.py: init_linear_quant_params, init_layer_linear_quant_params, optimize_for_layer, get_input_for_layer, init_mode_from_str, lp_loss"])

p("AMC: bookkeeping of an episode", "Whatever actions the agent takes, an AMC episode runs without an error and ends after one action per layer to prune; at any time the MACs and weights recorded for each layer are the original ones times what is left after the fractions removed from the layers pruned so far on which it depends, totals are the sums, and the MACs removed are those missing; observations lie between 0 and 1. The recorded costs are the real ones if the dependencies are complete and each layer reads no channel group twice. The dependencies of a layer are its neighbouring convolutions (channels: before, filters: after) and those behind depth-wise ones. (Findings: prev_a in the observation is the action before the previous one; a layer without dependent layers (the first convolution pruned by channels) makes the search fail; layers that share channels are counted wrongly; a layer reached twice is reduced twice and the episode fails; an ordinary convolution of one input channel is taken for a depth-wise one; an unsupported grouping is reported as KeyError for channels; in double precision the exact comparison in remove_structures fails on ordinary networks.)",
  "every soundly described network, sequence of actions, algorithm and pruner", "actions are arbitrary real sequences and networks are unbounded", ["examples/auto_compression/amc/environment.py: DistillerWrapperEnvironment.reset, step, get_obs, rest_macs_raw", "examples/auto_compression/amc/utils/net_wrapper.py: NetworkWrapper, get_network_details, reduce_layer_macs", "examples/auto_compression/amc/utils/data_dependencies.py: find_dependencies"])
p("AMC: the MACs budget", "With the mac-constrained protocol an episode ends with at most the target share of the original MACs (plus what the pruner's rounding leaves in the last layer), whatever the agent does, if every layer can still be reached and the target does not exceed what the action range can remove; with a pruner that removes at least what is asked the target is met. The L1-norm pruner removes the fraction asked for up to one structure if the magnitudes are distinct. (Findings: with equal magnitudes it removes more than asked; rounding makes the target missed; a dependent layer that comes after the last pruned layer is counted on although it cannot be reduced any more, so the target is missed without rounding.)",
  "every soundly described coverable network, sequence of actions and pruner", "arbitrary real actions at every layer", ["examples/auto_compression/amc/rewards.py: mac_constrained_clamp_action", "examples/auto_compression/amc/environment.py: DistillerWrapperEnvironment.step, rest_macs_raw", "examples/auto_compression/amc/utils/net_wrapper.py: remove_structures"])
p("AMC: actions, rewards and sessions", "Clipping algorithms keep actions in the action range; the continuous PPO maps [-3,3] onto it; the discrete one asks for tenths. The constrained action is the agent's or the least that keeps the target in reach, never over 1. The experimental and punishing rewards prefer every network within the budget to every one outside, and inside the more accurate. Episodes are numbered in order, an episode is best iff its reward exceeds all before, and it (on request every one) gets a checkpoint. Observation features are scaled onto [0,1]. (Findings: a PPO action outside [-3,3] asks for more than the range, even more than all structures; the harmonic-mean reward prefers the more expensive of two equally accurate networks.)",
  "every configuration, action, accuracy, cost and sequence of rewards", "real-valued inputs and unbounded sessions", ["examples/auto_compression/amc/environment.py: adjust_ppo_output, DistillerWrapperEnvironment.step, finalize_episode, save_checkpoint, get_model_representation", "examples/auto_compression/amc/rewards.py: experimental_reward_fn, punish_agent_reward_fn, harmonic_mean_reward_fn"])

p("Checkpoint files at every crash point", "After any sequence of saves the checkpoint file of each name holds the last checkpoint saved under that name, the best file the last one that was the best when saved, and no other file was touched; a save is refused exactly if the directory is missing or the extras are not a dictionary, and then nothing is written. A crash at any moment leaves every other file alone, the checkpoint file as before or cut off, and touches the best file only when the new checkpoint is complete; so once a best checkpoint of a name exists, a crash in any later save leaves a complete checkpoint. (Findings: without one, a crash can leave no usable checkpoint, because the old one is emptied first; two crashes can lose both.)",
  "every directory, sequence of saves, contents and crash point between single writes", "every crash point of every history of saves", ["distiller/apputils/checkpoint.py: save_checkpoint"])
p("Loading a checkpoint", "Loading a checkpoint into a fresh model like the one saved gives back all weights and buffers, the masks of all parameters, the optimizer with its state and the epoch after the one saved; the same for a DataParallel model loaded without, if its scheduler was saved. Whatever the file and model: if loading succeeds every parameter and buffer has its value from the file (strict: and nothing in the file is left over), shapes are kept, the architectures agree, the model given is the one returned; a lean load gives the same model. Without a model one is created from dataset, architecture and parallelism in the file. A missing parameter, file or state is refused, with the documented exception. (Findings: on a refusal for a missing parameter or the wrong architecture the model has already been overwritten; a model with only its architecture attribute set cannot be loaded from its own checkpoint; a DataParallel checkpoint without scheduler cannot be loaded into the plain model; an optimizer with several parameter groups makes loading fail.)",
  "every model, scheduler, optimizer, file contents and option", "arbitrary dictionaries of tensors and names", ["distiller/apputils/checkpoint.py: save_checkpoint, load_checkpoint, load_lean_checkpoint", "distiller/scheduler.py: CompressionScheduler.load_state_dict"])

p("Early exits attached to a model", "When exits (a module's name and a branch network) are attached to a model, none at a module inside another, the model still computes what it computed; after any history of forward passes and deletions the outputs collected are, in the order of the exits, those of the branch networks on the last output of their module since the last deletion, and if a module has not been called since collecting fails; the forward function of the early-exit models returns the outputs of all exits for this very input, then the result, whatever was run before. An unknown name is refused. (Findings: the name refused is remembered; of two exits at one module the first one's output is lost and the second's is returned twice; with one exit inside another attaching or collecting fails; in DataParallel only exits at direct children are found.)",
  "every model, list of exits, input and history of forward passes and deletions", "models, exits and histories are unbounded", ["distiller/early_exit.py: EarlyExitMgr.attach_exits, get_exits_outputs, delete_exits_outputs", "distiller/modules/topology.py: BranchPoint", "distiller/models/cifar10/resnet_cifar_earlyexit.py: ResNetCifarEarlyExit.forward"])

p("Creating a model", "create_model returns a network of the packages under that name for the data set (its own ResNets first, then torchvision, then distiller's ImageNet models, then pretrainedmodels), or, only if there is none, the last one a user registered under exactly that name and data set; otherwise ValueError. The data set's name is taken in any case of letters and must be one of three. The model carries architecture, data set, whether it is in DataParallel (GPU used and asked for; only its features for AlexNet and VGG) and its input shape: its own, else the one of its trained weights, else that of the data set (299x299 for inception_v3). Trained weights asked for are loaded, unless the model is a user's. (Findings: a user's model is made although trained weights were asked for; one registered for a data set spelled with capitals is never found; a name that is no model is a TypeError; a constructor's own ValueError is reported as an unknown model; a user model's own input shape is lost in DataParallel; the shape recorded for googlenet and for untrained Inception models of pretrainedmodels is not that of the images loaded for them.)",
  "every content of the packages, registrations, name, data set and device choice", "the packages, names and registrations are arbitrary", ["distiller/models/__init__.py: create_model, _create_imagenet_model, _create_cifar10_model, _create_mnist_model, _set_model_input_shape_attr, register_user_model", "distiller/apputils/data_loaders.py: classification_get_input_shape, imagenet_get_datasets"])
p("Dummy inputs", "get_dummy_input makes an input exactly for valid shapes - a tuple of non-negative integers, or a tuple of valid shapes, at any depth - and the input has that shape: a tensor for each tuple of integers, tuples nested alike; other shapes are a TypeError or ValueError (negative sizes: ValueError). A data set's name comes before a shape given; an unknown name is a ValueError.",
  "every nesting of tuples, integers and other values", "shapes are nested without bound", ["distiller/utils.py: get_dummy_input, _validate_input_shape"])
p("Gradients of quantized training", "In quantized training the gradient handed to the input of a WRPN/DoReFa activation is that of clipping to [0, clip_val], to the input and to the learned clip_val of a PACT activation those of the same function of both (clip_val gets the sum over the saturated elements), to WRPN's float weights that of clipping to [-1, 1], to DoReFa's and PACT's float weights that of tanh(w)/max|tanh(w)| including the maximum's dependence on the weights, to 1-bit weights the gradient unchanged; the values used in the forward pass are within half a quantization step of these functions. PACT adds to the optimizer one group with exactly the parameters named 'clip_val', with its own weight decay or the default; a step moves each parameter with its group's settings. (Findings: nothing keeps clip_val positive: from any state one step can lead to a clip_val on which the next forward raises ValueError; at clip_val = 0 it receives the gradient of every element; preparing two models or twice with one optimizer, or a model with a parameter of such a name, is a ValueError.)",
  "every input, float weights, incoming gradient, number of bits, clipping value and optimizer", "real-valued inputs; a gradient is a limit", ["distiller/quantization/clipped_linear.py: ClippedLinearQuantization, LearnedClippedLinearQuantization, WRPNQuantizer, dorefa_quantize_param, DorefaParamsBinarizationSTE, PACTQuantizer._get_new_optimizer_params_groups", "distiller/quantization/q_utils.py: LinearQuantizeSTE", "distiller/quantization/quantizer.py: Quantizer.prepare_model"])

p("Learning rates of interrupted and resumed training", "A training started anew uses in each epoch the rates its file asks for (the first epoch: those of the last LR scheduler of the file; then after each epoch those of the last policy scheduled for it). However often it is interrupted and resumed from the last checkpoint, the epoch in progress is repeated and every epoch is run with the rates of the uninterrupted training, if at each resumption the last LR scheduler of the file was the one in charge. Without LR scheduler the rate of the checkpoint is kept and --lr ignored; with --reset-optimizer (always with the deprecated --resume) epochs and rates are those of a new training, weights and masks those of the checkpoint. (Findings: otherwise the rates differ: after the last LR policy has ended, between two LR schedulers one after the other (whose second one even sets the rate of the very first epoch), and for ReduceLROnPlateau; a checkpoint without LR scheduler cannot be resumed with one (KeyError); one whose optimizer has a second parameter group, as PACT's, cannot be resumed at all (ValueError), not even to reset the optimizer.)",
  "every LR scheduler, policy schedule, number of interruptions and epochs between them, initial rate and metric", "every crash point of every history of sessions", ["distiller/apputils/image_classifier.py: _init_learner, ClassifierCompressor.run_training_loop", "distiller/config.py: dict_config", "distiller/policy.py: LRPolicy", "distiller/apputils/checkpoint.py: load_checkpoint"])
p("Rebuilding a quantizer from a checkpoint", "A post-training quantizer works with the arguments given or their defaults; loading a checkpoint rebuilds it from what it recorded, whatever has become of the statistics file: the same bits, overrides and settings, recording the same again; and preparing a model like the first with the recorded (already updated) statistics gives the same statistics and wrappers. Each override ends up with the bits it names or the default ones. (Findings: fp16, save_fp_weights and also_clip_weights are not recorded, so that a model quantized with fp16 is rebuilt as an 8-bit one; no checkpoint of quantization-aware training can be loaded, because the optimizer is missing (TypeError for WRPN, DoReFa, PACT, ValueError for the others); with an optimizer supplied by hand the quantizer is the same but for PACT's clipping values and the bits of inputs; a second quantizer made with the same dictionary of overrides silently uses its default bits for all of them.)",
  "every combination of arguments, overrides, statistics, files and models", "arguments and models are arbitrary", ["distiller/quantization/quantizer.py: Quantizer.__init__", "distiller/quantization/range_linear.py: PostTrainLinearQuantizer.__init__, QuantAwareTrainRangeLinearQuantizer.__init__, NCFQuantAwareTrainQuantizer.__init__, PostTrainLinearQuantizer._pre_prepare_model", "distiller/quantization/clipped_linear.py: WRPNQuantizer, DorefaQuantizer, PACTQuantizer", "distiller/apputils/checkpoint.py: load_checkpoint"])

p("Gradients of the regularizers", "A group-lasso regularizer adds to the loss the strength times the sum of the lengths of the structures its type stands for - rows, columns or both of a matrix, kernels, filters or channels of a convolution, the whole layer - and nothing for parameters not listed; types that do not fit the parameter are refused. The gradient training uses is the derivative of that sum wherever it has one (for channels: everywhere, thanks to the small constant) and a subgradient everywhere else; zero weights get none, so a pruned structure is not revived. An SGD step on it shortens each structure by exactly eta times strength, past zero if it is shorter than that: a structure becomes exactly zero only from that length, which is why regularizers also threshold. L1 likewise, with single weights. Refuted: the combination of channels and layer always raises AttributeError.",
  "every shape, group type, weights, strength and step size", "real-valued weights; a gradient is a limit, a subgradient a statement about all other weights", ["distiller/regularization/group_regularizer.py: GroupLassoRegularizer.loss, _channels_l2", "distiller/regularization/l1_regularizer.py: L1Regularizer.loss", "distiller/policy.py: RegularizationPolicy.before_backward_pass"])

p("Element-wise modules", "EltwiseAdd, EltwiseSub, EltwiseMult and EltwiseDiv combine their inputs element by element, from left to right, with the common (broadcast) shape, which exists exactly if they succeed; without inplace every tensor there was is unchanged, also on failure, and the result is new (a single input is returned itself). With inplace, and the first input not among the others, the same values end up in the first input, whose shape stays, and nothing else changes; it succeeds exactly if the others fit that shape and the first is not a leaf being differentiated. Refuted: in place with the first input given again the changed elements are used (x+x+x gives 4x); and a failure in place can leave the first input overwritten.",
  "every number of inputs, shapes, element values and arithmetic, and every sharing between the inputs", "inputs, shapes and the memory are unbounded", ["distiller/modules/eltwise.py: EltwiseAdd, EltwiseSub, EltwiseMult, EltwiseDiv"])

p("Finding and replacing modules by name", "The names listed for a model are paths by which its modules are reached, each module and each name once. After assign_layer_fq_names exactly these names are found by find_module_by_fq_name, each giving the module reached by it, whatever names were assigned before. model_setattr with a listed name writes the module above it under the last part of the name, and with any attribute of a listed module that attribute. Refuted: a shared module is found only by the first of its names, and its attributes cannot be set through the others; model_setattr never fails: where the path does not exist the deepest existing module gets an attribute named by the rest of the path without its dots; naming a part of a model makes its modules unfindable from the whole.",
  "every hierarchy of modules, sharing, earlier names and attribute path", "hierarchies are of any depth and width", ["distiller/utils.py: assign_layer_fq_names, find_module_by_fq_name, model_setattr", "distiller/quantization/ptq_coordinate_search.py: init_layer_linear_quant_params", "distiller/pruning/ranked_structures_pruner.py: BernoulliFilterPruner"])

p("Counting non-zero weights in floating point", "density and sparsity of a tensor are doubles in [0, 1], within one unit of rounding of the true ratio, and exactly 0 or 1 only for a tensor of zeros resp. without zeros, so that the test for layers to remove (density == 0) is exact. The number of non-zero weights shown in the tables is the true one or one less. Totals over a model: the count has a relative error of at most 2(m+2) units for m parameters and never exceeds the number of weights; the sparsity reported is between 0 and 100 percent, and 0 or 100 exactly for models without zeros resp. of zeros (for others only if the model is astronomically large). An empty tensor, or no counted parameter at all, is a ZeroDivisionError. Refuted: the count shown is not always exact (61 of 432 weights are shown as 60, 1 of 49 as 0); two models with equal sizes and equally many non-zero weights can get different counts, by which the tracker of the best checkpoints then ranks them, before accuracy; weights that are not numbers count as zeros.",
  "every tensor of single-precision weights and every model, up to 2^53 weights", "every pattern of zeros and every size, with the rounding of each operation", ["distiller/utils.py: density, sparsity, model_params_stats, model_sparsity", "distiller/model_summaries.py: weights_sparsity_summary", "distiller/data_loggers/logger.py: CsvLogger.log_weights_sparsity", "distiller/thinning.py: resnet_cifar_remove_layers", "distiller/apputils/performance_tracker.py: SparsityAccuracyTracker.step"])

p("Removing layers of zeros", "For every CIFAR ResNet in DataParallel and every set of parameters that are all zero: if these are weights of convolutions in the blocks, resnet_cifar_remove_layers closes exactly their gates. What a block with an identity shortcut computes is known before and after: it is unchanged exactly if the branch then added is all zero. Refuted: a zero parameter of a batch normalization (their biases are zero at first) removes the convolution of the same number although its weights are not zero; a zero downsample removes the convolution with the number of the one before it in the list, or fails with NameError; any zero parameter outside the blocks, or any in a model not in DataParallel, makes the function fail; removing does not preserve what the network computes: a block without its two convolutions doubles its input.",
  "every number of blocks in the three layers and every set of zero parameters; every input and layer function of a block", "the network and the set of zero parameters are arbitrary", ["distiller/thinning.py: resnet_cifar_remove_layers", "distiller/models/cifar10/resnet_cifar.py: BasicBlock.forward, ResNetCifar"])

p("The replay memory of the AMC agent", "A ring buffer holds the last values appended, as many as fit, oldest first, and refuses every other index. For every history of episodes observed up to any point, every size of the memory and every drawing of indices, each experience the agent is handed is a step of one of the episodes as it was made: its observation and action, the final reward of its episode, the mask 0 exactly if it was the last step, and otherwise the next observation of the same episode; there are as many as asked for, and sampling ends if index 1 keeps being drawn. Refuted: that every step can be learned from - the first step of an episode is never used unless it is the oldest entry held, nor is the newest entry, so with episodes of one step the agent learns from one entry only; and windows of more than one observation (not used by distiller) lose observations of the episode or, at the oldest entries, mix two episodes. A memory of size 0 refuses the first entry.",
  "every history of episodes, size of the memory, batch and sequence of random indices", "every history and every random choice", ["examples/auto_compression/amc/rl_libs/hanlab/memory.py: RingBuffer, SequentialMemory.append, sample, sample_and_split, sample_batch_indexes", "examples/auto_compression/amc/rl_libs/hanlab/agent.py: train, DDPG.observe"])

p("What the log files contain", "The TensorBoard file of a training holds exactly the scalars logged, each value of epoch e after c of its steps at step steps_per_epoch*e + c: no two values of one scalar share a step, steps never go back, and a training resumed with the same number of steps per epoch logs what an uninterrupted one does. Values of module buffers are filed, one writer for each position, under prefix and module name at the same step, one value per writer, tag and step. The CSV file of a buffer is, after any calls by any loggers of its directory and prefix, what it was before, or a header, followed by one row for each module with the buffer; no other file is touched. Of several TensorBoard loggers all get the scalars. Refuted: histograms of weights are filed by the step of the epoch alone, so that all epochs land on the same steps, and only the first of several loggers gets them; after resuming with another batch size scalars collide; modules with children (the wrappers of post-training quantization) are left out of the TensorBoard buffers; lists logged with the default multi_graphs=False are all filed in one place; the CSV file of weight sparsity keeps only the last call.",
  "every number of epochs, steps and log frequency, every statistics, parameters, modules and history of calls", "the number of epochs, steps, calls and values is unbounded", ["distiller/data_loggers/logger.py: TensorBoardLogger, CsvLogger", "distiller/data_loggers/tbbackend.py: TBBackend.scalar_summary, list_summary", "distiller/utils.py: log_training_progress, log_model_buffers", "distiller/apputils/image_classifier.py: train"])

p("Language-model training", "Reading the texts gives each word one number, and the numbers of a text, looked up, are its words with a mark behind each line. Column c of the batches holds consecutive tokens; length mod bsz tokens at the end are left out. An epoch feeds all rows but the last, in order, each with the next row as its targets, in exactly the number of mini-batches announced to the scheduler. The value of evaluate is the sum of the losses of one uninterrupted run of the network over the text, divided by the number of tokens, and so does not depend on bptt. Reports after the first give the mean loss of the last log_interval batches. A training that ends tests the model of its last epoch; the .best file has the first model with the smallest validation loss; an interruption at any moment tests the last model completely saved, or what was there before the first. Refuted: training and evaluation end with RuntimeError exactly if bptt divides the number of rows less one (an empty batch); the loss reported by evaluate is smaller than the mean by the factor (rows-1)/rows; the first report is too large by (interval+1)/interval; the best model is not the one tested; Ctrl-C while a file is written loses the model in it, and in the first epoch tests an earlier training's model; <eos> written in a text is taken for a line's end.",
  "every text, batch size, bptt, network, loss, log interval, history of epochs and moment of interruption", "every text length and chunking, every crash point", ["examples/word_language_model/data.py: Dictionary, Corpus", "examples/word_language_model/main.py: batchify, get_batch, evaluate, train"])

p("Pruning channels by reconstructing the feature-maps",
  "FMReconstructionChannelPruner, given feature-map samples collected by collect_intermediate_featuremap_samples with its hook: for an undilated, ungrouped convolution with square outputs (or a 1x1 one with stride 1 and no padding) and batches of more than one image, the samples are the layer's outputs at the drawn positions and the inputs that produce them, so the weights written back, once masked, have the smallest squared error on the samples among all weights that use only the kept channels (bias left out); in particular never more than masking the old weights. The same for fully connected layers. The coefficients land in the kept channels in order, the other channels keep their weights until the mask (0 exactly there) is applied. Refuted: samples of strided 1x1 convolutions, of non-square outputs and of dilated kernels are the wrong ones (or fail); a batch of one image or an output of one position fails; the bias is counted twice; the magnitude function given to the constructor is ignored; Leader groups and channel groups never work; ties can remove every channel, which fails; AMC's group size and rounding are lost.",
  "every convolution geometry, input, number of batches and drawn positions; every weights tensor, pruning fraction, rounding and noise; every least-squares solver",
  "a test compares one layer on random data within a tolerance; optimality over all weights, and that each regression row is the receptive field of its target, are statements over all inputs and all weights",
  ["distiller/pruning/ranked_structures_pruner.py:FMReconstructionChannelPruner", "distiller/pruning/ranked_structures_pruner.py:_least_square_sklearn", "examples/auto_compression/amc/utils/features_collector.py:collect_intermediate_featuremap_samples", "examples/auto_compression/amc/utils/net_wrapper.py:remove_structures"])

p("Activation channel statistics and records",
  "The L1, mean and APoZ statistics of a batch of images report, for every channel, the batch mean of the L1 norms, the mean of the channel's values and the percentage of zeros among them (a percentage that is 100 exactly for a dead channel). SummaryActivationStatsCollector reports, after any history of forward calls, the mean (the percentage of zeros) of all the values the channel took, however these were split into batches or devices, in any order and at any resolution; collecting inputs treats the inputs of a call as one larger batch. RecordsActivationStatsCollector keeps one entry per sample in the order seen, with its minimum, maximum, mean, standard deviation and L2 norm, and starts over after a reset. Activation-ranked pruners read the statistic of the activation module named after the convolution. Refuted: for linear outputs the 'channel' statistic is one number for all neurons; a module shared inside the network is pooled silently when the channel counts agree (or the later one is 1); value() is a live object that later forwards change; the two collectors name their files by different rules; convolutions whose name has no '.conv' are looked up as their own activation.",
  "every batch, number of batches, batch split and order, resolution, number of channels, history of start / forward / reset, and module name",
  "a test feeds one or two batches and compares with the same formula on one split; independence of the split, the order and the device count is a statement over all histories",
  ["distiller/utils.py:activation_channels_l1", "distiller/utils.py:activation_channels_means", "distiller/utils.py:activation_channels_apoz", "distiller/data_loggers/collector.py:SummaryActivationStatsCollector", "distiller/data_loggers/collector.py:RecordsActivationStatsCollector", "distiller/pruning/ranked_structures_pruner.py:ActivationRankedFilterPruner.rank_and_prune_filters"])

p("Experiment environment: configuration copies, log directories, links, seeds, devices, lazy data",
  "Every configuration file an application names is stored in the run's 'configs' directory under its own name: the copy already there, otherwise the first readable file of that name. Two runs with one output directory share a log directory exactly if they have the same experiment name and start within the same second; otherwise neither touches the other's log. However many processes start and however their actions interleave, once all have finished both 'latest' links exist, and a run that starts after all others leaves both to itself. Evaluation is deterministic and uses seed 0 unless one is given; deterministic runs do not depend on a random choice. A GPU list is accepted exactly when its items are integers below the number of devices. Non-empty data loaders are loaded once. Quantize-and-test quantizes with what the user gave, or else with statistics of this model, and refuses a model that is already quantized. Refuted: of two configuration files of one name the second is lost; a changed file is not stored again; two runs in one second empty each other's log, or the second fails in makedirs; an absolute experiment name leaves the output directory, one with a slash names a log in a directory that is not made; the two links can end at different runs, and a crash loses both; negative devices are accepted; an empty loader reloads the data on every request; a second model is quantized with the statistics of the first.",
  "every list of paths and directory content, name and time, number of processes and interleaving, crash point, seed, device list, sequence of requests",
  "races and crash points need every interleaving of file-system actions; unit tests run one process once",
  ["distiller/apputils/execution_env.py:log_execution_env_state", "distiller/apputils/execution_env.py:config_pylogger", "distiller/apputils/image_classifier.py:_config_determinism", "distiller/apputils/image_classifier.py:_config_compute_device", "distiller/apputils/image_classifier.py:ClassifierCompressor.load_datasets", "distiller/apputils/image_classifier.py:quantize_and_test_model"])

p("Lottery ticket, freezing and dropout directives, progress collectors",
  "A lottery ticket drawn from an untrained and a pruned checkpoint has, at epoch 0, the untrained weights wherever the pruned network kept a weight that is not zero and zeros elsewhere, with masks that say the same; parameters the pruned network does not have stay. Drawing succeeds exactly when the pruned file has a scheduler and all its parameters exist in the untrained network with as many elements. Training that starts from the ticket's file, whatever the optimizer does and for however many mini-batches, has zeros after each of them wherever the pruned network had. adjust_dropout sets the rate of every Dropout module and changes nothing else; freeze_all sets requires_grad of every parameter. A progress collector given a dictionary of its own reports exactly what was last stored under each name. Refuted: the ticket has the optimizer of the pruned run; weights that are zero without having been pruned stay zero; training from the ticket begins at epoch 1; freeze_training fails with NameError on every model; progress collectors made without a dictionary share one; some names stored in a progress collector are not what is read back.",
  "every pair of checkpoints, mask, training history and optimizer; every module tree and rate; every history of stored names", "training history and optimizer are arbitrary; a test fixes one",
  ["examples/lottery_ticket/lottery.py:extract_lottery_ticket", "distiller/directives.py:freeze_training", "distiller/directives.py:freeze_all", "distiller/directives.py:adjust_dropout", "distiller/data_loggers/collector.py:TrainingProgressCollector"])

p("Samplers and sentence batches",
  "GroupedBatchSampler yields as many batches as it announces, each of batch_size samples of one group; the full batches are each group's samples from the front, in the sampler's order, and the batches added at the end belong to different groups, each the samples left over followed by the first ones of the group; it succeeds whenever every group that occurs has at least half a batch. BucketingSampler deals the first num_samples samples of the shuffled data to the ranks, each to exactly one rank, once, every rank as many; the k-th batches of all ranks make up the k-th global batch, which is a stretch of neighbours in 80 global batches of the shuffled data sorted by length. Collating keeps the pairs together, longest source first, pads each column at its end, and its indices put the translations back in the order of the input. Filtering and limiting keep the pairs together. With a vocabulary of different tokens, segmenting a sentence and looking the numbers up gives the sentence between its marks, with <unk> for unknown words. Refuted: small groups end the epoch with AssertionError; all samples of a group can be left out while others come twice; data smaller than one global batch fail when bucketing and give nothing otherwise; the tail of the permutation is never used; a token listed twice, or <s> in the vocabulary file, makes translations fail with KeyError.",
  "every sampler and grouping, batch size, number of processes, permutation and sorting, list of sentence pairs, vocabulary", "a test sees one permutation on one rank; the partition among all ranks and the order within each group are statements about all of them",
  ["examples/object_detection_compression/group_by_aspect_ratio.py:GroupedBatchSampler", "examples/GNMT/seq2seq/data/sampler.py:BucketingSampler", "examples/GNMT/seq2seq/data/dataset.py:build_collate_fn", "examples/GNMT/seq2seq/data/dataset.py:ParallelDataset", "examples/GNMT/seq2seq/data/tokenizer.py:Tokenizer", "examples/GNMT/seq2seq/inference/inference.py"])

p("NCF: evaluation, training samples, split, best model",
  "With a network that scores each pair by itself, predictions do not depend on how they are split into batches, and the test item of a user is a hit exactly if fewer than K of the different negatives score at least as much, that number being its position; although each evaluation adds the test item to the list of negatives, every later evaluation of the same network gives the same hits and positions, with one process or several. The .best file has the first epoch that reaches the largest hit rate; a threshold ends the training with the first epoch that reaches it. The training set built from a ratings file has its positive rows, all its pairs in the matrix, and sizes that fit all of them; what it saves gives the same set again, also after a process was killed while building it, unless it was killed while writing the matrix. An epoch has for each row its item with label 1 and nb_neg items its user has not rated with label 0. The split keeps each user's latest item for the test and the others for training; no test pair is a training pair. Refuted: after a kill during the writing of the matrix every later start fails; errors while loading are dropped; a changed ratings file is ignored; for a user who rated everything sampling does not end; the test item can be among its own negatives, is sampled as a negative in training, and can lie outside the item table; a resumed training forgets the best model; a portion of the test set without a user means the whole set.",
  "every network that scores pairs, list of negatives, K, number of evaluations, history of hit rates, ratings file, crash point, sequence of draws, set of users", "ties, repeated evaluation and crash points need all lists, histories and interruptions",
  ["examples/ncf/ncf.py:eval_one", "examples/ncf/ncf.py:val_epoch", "examples/ncf/ncf.py:predict", "examples/ncf/ncf.py:main", "examples/ncf/dataset.py:CFTrainDataset", "examples/ncf/dataset.py:TimingContext", "examples/ncf/convert.py:main"])

p("GNMT: translating a batch of sentences",
  "With a network that treats the sentences of a batch independently, greedy translation of a batch (sorted by length, padded, shrunk whenever a sentence ends, and put back in order) gives for every sentence, at its own place, what it gives for it alone: the words up to EOS, at most max_seq_len - 1 of them. Row i of greedy_search is BOS, the words and zeros, its length counts BOS and the words, and the loop turns as often as the longest needs; iters, total_enc_len and total_dec_len are that maximum and those sums. A sentence whose EOS comes in time is translated by all its words. No sentences raise ValueError, max_seq_len 0 raises IndexError. Refuted: a sentence that is cut at max_seq_len keeps all the words the network gave (the last one is dropped as if it were EOS).",
  "every network that treats sentences independently, list of sentences, max_seq_len", "the order, the padding and the moments at which sentences end need all batches and networks",
  ["examples/GNMT/seq2seq/inference/beam_search.py:greedy_search", "examples/GNMT/seq2seq/inference/inference.py:translate", "examples/GNMT/seq2seq/utils.py:batch_padded_sequences"])

p("Detection example: meters, reductions over processes, warm-up",
  "After any history of updates a SmoothedValue has the last window_size values, the total and the count of all, and the global average is the weighted one of all; the latest value, the maximum and the median (the lower of the two middle values) are those of the window. After synchronizing, every process has the global average over all processes and its own window. all_gather gives every process the data of all in the order of the ranks, whatever their sizes and the padding. reduce_dict with the same names on all processes, in any order, gives for each name the sum or mean of that name's values. log_every gives all objects in order and prints at the multiples of print_freq and at the last; collate_fn transposes the batch; the warm-up factor goes on a straight line from the given one to 1 and never falls if it is at most 1. Refuted: the average over the window counts the weights; synchronizing twice is harmless (what was there counts as often as there are processes); names that differ between processes are noticed (their values are mixed); an empty loader can be logged (ZeroDivisionError).",
  "every history of updates, window, list of processes, dictionaries, data, loader, print_freq, step", "histories, numbers of processes and insertion orders are unbounded",
  ["examples/object_detection_compression/utils.py:SmoothedValue", "examples/object_detection_compression/utils.py:all_gather", "examples/object_detection_compression/utils.py:reduce_dict", "examples/object_detection_compression/utils.py:log_every", "examples/object_detection_compression/utils.py:warmup_lr_scheduler"])
