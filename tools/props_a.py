# Source of properties.jsonl (run tools/gen_props.py to regenerate).
P = []
def p(title, statement, quantifier, why, anchors):
    P.append(dict(title=title, statement=statement, quantifier=quantifier,
                  why_tests_cant=why, anchors=anchors))

p("A policy is called in exactly the epochs it was scheduled for",
  "After any sequence of successful add_policy calls, the policies invoked by each scheduler callback for epoch e are exactly those whose schedule contains e, in the order in which they were added; for a (starting_epoch, ending_epoch, frequency) schedule, e is in the schedule iff starting<=e<ending and frequency divides e-starting. add_policy raises exactly on ill-formed arguments.",
  "all sequences of add_policy calls (range or list form) and all epochs",
  "the set of schedules and epochs is unbounded; a test can only probe a few ranges",
  ["distiller/scheduler.py: CompressionScheduler.add_policy, on_epoch_begin, on_minibatch_begin, before_backward_pass, before_parameter_optimization, on_minibatch_end, on_epoch_end"])

p("When the 'last epoch' work of a pruning policy runs",
  "For a pruning policy scheduled with (start, end, frequency), the last-epoch actions (making the mask permanent for keep_mask=True, and removing gradient-masking hooks) run at the policy's last scheduled epoch iff frequency divides end-1-start; otherwise they never run at any epoch. (Finding: with a frequency that does not hit end-1, keep_mask is silently ignored.) For an explicit epoch list they run exactly at the list's last element value.",
  "all start/end/frequency triples and epoch lists accepted by add_policy",
  "depends on divisibility over all triples; existing tests use frequency 1",
  ["distiller/policy.py: PruningPolicy.on_epoch_begin, on_epoch_end, RegularizationPolicy.on_epoch_begin", "distiller/scheduler.py: add_policy"])

p("Pruned weights are zero after every training step",
  "For every training history (any interleaving of epochs, mini-batches, arbitrary optimizer updates and any pruners), immediately after CompressionScheduler.on_minibatch_end every parameter that has a mask and whose masker is not forward-only is zero at every position where its mask is zero.",
  "all models, pruners, schedules, optimizer updates and histories",
  "quantifies over arbitrary optimizer updates and unbounded histories",
  ["distiller/scheduler.py: mask_all_weights, on_minibatch_end, ParameterMasker.mask_tensor"])

p("Masking keeps surviving weights and is idempotent",
  "Applying a 0/1 mask leaves every weight whose mask entry is 1 unchanged, zeroes every other one, never changes the shape, and applying it any further number of times changes nothing.",
  "all tensors, all 0/1 masks, any number of applications",
  "holds for every tensor and mask",
  ["distiller/scheduler.py: ParameterMasker.apply_mask, mask_tensor"])

p("Double-copy training updates the dense weights",
  "With use_double_copies and one pruning policy per epoch, between on_minibatch_begin and before_parameter_optimization the model holds the masked weights, and before_parameter_optimization restores exactly the weights that were there before on_minibatch_begin, for every parameter. With two pruning policies active in the same epoch the restored weights are the already masked ones (finding).",
  "all models, masks and weights",
  "holds for all weights; multi-policy interaction needs a history",
  ["distiller/policy.py: PruningPolicy.on_minibatch_begin, before_parameter_optimization", "distiller/scheduler.py: ParameterMasker.apply_mask, revert_weights"])

p("A regularization mask lives for one mini-batch unless kept",
  "After RegularizationPolicy.on_minibatch_end, a parameter named in the regularizer's regime has been multiplied by its threshold mask; the mask is then discarded, except at the last mini-batch of the policy's last epoch with keep_mask=True, where it stays and keeps pruning the weights for the rest of training.",
  "all regularizers, parameters, mini-batch indices and histories",
  "depends on position in the whole training history",
  ["distiller/policy.py: RegularizationPolicy.on_minibatch_end", "distiller/scheduler.py: ParameterMasker.apply_mask", "distiller/regularization/l1_regularizer.py: threshold"])

p("Mini-batch granularity pruning schedule",
  "A pruning policy recomputes masks at on_minibatch_begin exactly when minibatch_id>0, mini_batch_pruning_frequency is non-zero and divides the global mini-batch index, or when skip_first_minibatch is set and the global index is 1; in every case all current masks are applied to the weights.",
  "all epochs, mini-batch ids, epoch lengths and frequencies",
  "arithmetic over all indices",
  ["distiller/policy.py: PruningPolicy.on_minibatch_begin"])

p("Loss passed through policies",
  "before_backward_pass returns the loss obtained by feeding the incoming loss through the epoch's policies in order (a policy that returns None leaves it unchanged); with regularization policies only, the overall loss equals the incoming loss plus the sum of all reported loss components, and without scheduled policies it is the incoming loss.",
  "all policy lists, losses and epochs",
  "unbounded policy lists",
  ["distiller/scheduler.py: before_backward_pass, verify_policy_loss", "distiller/policy.py: RegularizationPolicy.before_backward_pass"])

p("Mask checkpoint round trip",
  "Loading the state_dict of one scheduler into another scheduler for a model with the same parameter names makes all masks equal; if a name is missing KeyError is raised. With normalize_dataparallel_keys, a state saved from a DataParallel model loads into the plain model, and load_checkpoint does this by itself. (Findings: a failed load leaves the masks partially replaced; init_from_masks_dict with normalisation drops every mask; a DataParallel checkpoint without scheduler state cannot be loaded.)",
  "all sets of parameter names and masks",
  "all name sets, including names that themselves contain 'module'",
  ["distiller/scheduler.py: state_dict, load_state_dict, init_from_masks_dict", "distiller/utils.py: normalize_module_name"])

p("DataParallel name normalisation",
  "normalize_module_name removes exactly the first dotted component equal to 'module' if there is one and leaves every other name unchanged.",
  "all strings", "all strings",
  ["distiller/utils.py: normalize_module_name"])

p("Crash and resume from a checkpoint",
  "If training is interrupted at the end of an epoch, the weights, optimizer state and masks are saved, and a freshly built scheduler is loaded from that checkpoint, the continued run has exactly the same weights and masks as the uninterrupted run - for pruners whose decision is a function of the weights and epoch, with mask_on_forward_only, use_double_copies, skip_first_minibatch and mask_gradients off. With mask_on_forward_only on, or a pruner with cached state, the runs can diverge (finding).",
  "all crash points (epoch ends), histories, models and optimizers",
  "every crash point of an unbounded history",
  ["distiller/scheduler.py: state_dict, load_state_dict", "distiller/policy.py: PruningPolicy", "distiller/apputils/checkpoint.py: save_checkpoint, load_checkpoint"])

p("Threshold mask",
  "create_mask_threshold_criterion gives 1 exactly where |w| > threshold and 0 elsewhere; raising the threshold never un-prunes a weight.",
  "all tensors and thresholds", "all real inputs",
  ["distiller/pruning/__init__.py: create_mask_threshold_criterion"])

p("Level pruner reaches its sparsity target",
  "create_mask_level_criterion(t, s) with k=int(s*n)>=1 zeroes at least k elements, zeroes exactly k when the k-th and (k+1)-th smallest magnitudes differ, every zeroed magnitude is <= every kept magnitude, and a larger s never keeps a weight a smaller s prunes. When int(s*n)=0 it raises IndexError instead of pruning nothing (finding).",
  "all tensors and sparsity levels",
  "ties and tiny tensors need all inputs",
  ["distiller/pruning/__init__.py: create_mask_level_criterion", "distiller/pruning/level_pruner.py"])

p("AGP sparsity schedule",
  "AGP's target equals initial_sparsity at the policy's first epoch and final_sparsity at its last scheduled epoch, is non-decreasing over the scheduled epochs and stays between the two.",
  "all initial<final, start/end/frequency with at least two scheduled epochs, all scheduled epochs",
  "polynomial inequality over all epochs",
  ["distiller/pruning/automated_gradual_pruner.py: AgpPruningRate.step"])

p("Splicing hysteresis",
  "After a splicing step a mask entry is 0 if |w| < low, 1 if |w| >= high, and otherwise equals its previous value (high>=low), with thresholds frozen at their first value; starting from no mask it is equivalent to starting from all ones. Hence over any history the entry equals the decision of the most recent step at which |w| was outside [low, high).",
  "all weight histories of any length",
  "unbounded histories",
  ["distiller/pruning/splicing_pruner.py: SplicingPruner.create_mask, set_param_mask"])

p("Baidu RNN pruner threshold schedule",
  "The Baidu RNN pruner's threshold is positive, non-decreasing from each scheduled epoch to the next, and is computed from slopes fixed at the first call.",
  "all q>0, ramp offsets and scheduled epochs", "all parameters and epochs",
  ["distiller/pruning/baidu_rnn_pruner.py"])

p("Sensitivity pruner threshold is fixed for the whole run",
  "SensitivityPruner prunes |w| <= s*sigma where sigma is the standard deviation of the weights the first time that parameter tensor is pruned, at every later step.",
  "all weight histories", "unbounded histories",
  ["distiller/pruning/sensitivity_pruner.py", "distiller/pruning/__init__.py: create_mask_sensitivity_criterion"])

p("Structure masks are all-or-nothing per structure",
  "Expanding a per-structure binary map to a weight-tensor mask gives every element the value of the structure (kernel, filter, channel, row or column) it belongs to, for each supported group type.",
  "all tensor shapes and binary maps", "index arithmetic over all shapes",
  ["distiller/thresholding.py: expand_binary_map, group_threshold_mask"])

p("Ranked structure pruning removes the intended number of the weakest structures",
  "An L1/L2 ranked structure pruner given a fraction f removes at least the computed number of structures (exactly that many when there is no tie at the boundary), all with norms no larger than any kept one; the number is a multiple of group_len and leaves at least one group unless f=1.",
  "all tensors, fractions and group sizes", "ties, rounding and all sizes",
  ["distiller/pruning/ranked_structures_pruner.py: num_structs_to_prune, LpRankedStructureParameterPruner", "distiller/norms.py"])

p("Structure norms",
  "kernels_norm, filters_norm, channels_norm and rows/cols norms return, per structure, the requested norm of exactly the elements of that structure, divided by the number of elements in the structure when length_normalized. (Finding: for rows and columns the divisor is the wrong dimension's size.)",
  "all tensor shapes and values", "all shapes",
  ["distiller/norms.py: kernels_norm, filters_norm, channels_norm, sub_matrix_norm"])

p("Leader-dependent groups share one mask",
  "With group_dependency='Leader' all dependent parameters receive the binary map computed from the leader for the current target sparsity.",
  "all groups, orders and epochs", "depends on call history",
  ["distiller/pruning/ranked_structures_pruner.py: RankedStructureParameterPruner"])

p("Activation-ranked pruning direction",
  "The APoZ pruner removes the filters with the largest fraction of zero activations. The mean-activation pruner is documented to remove the filters with the smallest mean activation but removes the largest ones (finding).",
  "all activation rankings", "all rankings",
  ["distiller/pruning/ranked_structures_pruner.py: ActivationRankedFilterPruner"])

p("Thinning keeps the network consistent",
  "Executing a thinning recipe leaves each named tensor with exactly the selected indices along each selected dimension, masks and optimizer buffers are selected the same way, and executing it again changes nothing.",
  "all recipes, tensors", "all shapes and recipes",
  ["distiller/thinning.py: execute_thinning_recipe, _optimizer_thinning"])

p("Thinning zeroed filters or channels does not change the network function",
  "When the removed channels are consistent with the network (removed filters are zero with zero bias and no batch-norm shift, or removed input channels have only zero weights; summed values lose the same channels), remove_filters and remove_channels return, and the thinned network computes, for every input and every operation, exactly the kept channels of what the original network computes. (Findings: 14 kinds of network outside these conditions that are changed, broken or rejected.)",
  "all networks of convolution, depth-wise, linear, batch-norm, channel-wise, addition and other operations; all weights and inputs; all sets of removed channels", "all networks, weights and inputs",
  ["distiller/thinning.py: create_thinning_recipe_filters, create_thinning_recipe_channels, execute_thinning_recipe"])

p("Quantized range",
  "get_quantized_range(n) gives the two's-complement range [-2^(n-1), 2^(n-1)-1] (symmetric when restricted) or [0, 2^n-1]; its size is 2^n (2^n-1 when restricted).",
  "all bit widths n>=1", "all n", ["distiller/quantization/q_utils.py: get_quantized_range"])

p("Quantization is exact at zero and bounded in error",
  "With parameters from asymmetric_linear_quantization_params (integral zero point), real 0 is exactly representable; every x in the (zero-extended) range satisfies |dequantize(quantize(x)) - x| <= 1/scale (<= 1/(2 scale) when no clamping occurs); quantize is monotone and its clamped output lies in the quantized range. The same for symmetric parameters.",
  "all bit widths, ranges and inputs", "all real inputs",
  ["distiller/quantization/q_utils.py: symmetric_linear_quantization_params, asymmetric_linear_quantization_params, linear_quantize_clamp, linear_dequantize"])

p("Re-quantizing a quantized value is the identity",
  "Quantizing a dequantized integer with the same parameters gives back the same integer; hence fake quantization is idempotent.",
  "all integers, scales > 0, integral zero points", "all inputs",
  ["distiller/quantization/q_utils.py: linear_quantize, linear_dequantize"])

p("Scale approximation by multiplier and shift",
  "approx_scale_as_mult_and_shift never exceeds the true scale, its multiplier fits in mult_bits, and without the limit its relative error is below 2^-(mult_bits-1).",
  "all positive scales and multiplier widths", "all scales",
  ["distiller/quantization/q_utils.py: get_scale_approximation_params"])

p("WRPN and DoReFa weights and levels",
  "WRPN-quantized weights take 2^n+1 different values, one of which exceeds the clipping bound 1 (finding: they do not fit n bits); DoReFa weights lie in [-1,1] on 2^n levels, and a zero (pruned) weight is never mapped to zero (finding: pruning is lost under DoReFa/PACT).",
  "all bit widths and weights", "all weights",
  ["distiller/quantization/clipped_linear.py: WRPNQuantizer, dorefa_quantize_param, DorefaParamsBinarizationSTE"])

p("Clipped activation quantization",
  "ClippedLinearQuantization outputs lie in [0, clip_val] on the 2^n-level grid, are monotone in the input, and the error for inputs in [0, clip_val] is at most clip_val/(2(2^n-1)).",
  "all inputs, bit widths and positive clip values", "all inputs",
  ["distiller/quantization/clipped_linear.py: ClippedLinearQuantization, LearnedClippedLinearQuantization"])

p("Integer-arithmetic layer output equals the float computation",
  "In a post-training quantized convolution/linear layer every stored weight stands for a value within half a quantization step of the float weight, and every output of a forward is within half an output step (plus half an accumulator step for the bias) of the float layer applied to the de-quantized input and weights, saturated at the accumulator and output ranges, with fused ReLU; likewise for element-wise addition, multiplication, concatenation and matrix product (exact arithmetic, no scale approximation).",
  "all weights, biases, inputs, geometries, scales, zero-points and call histories", "all values",
  ["distiller/quantization/range_linear.py: RangeLinearQuantParamLayerWrapper"])

p("Simulated integer weights survive any sequence of forwards and saves",
  "The weight tensor of a post-training wrapper holds the quantized integer weights (up to the documented zero-point shift), whatever the sequence of forward and state_dict calls; state_dict always saves the quantized weights and saving never changes later outputs. (Findings: changing a weight parameter after a forward, or through the quantizer, leaves wrong weights; the accumulator scale goes stale when the input scale changes; setting a parameter of a per-channel layer fails unless it has 2 channels.)",
  "all call sequences", "unbounded call sequences",
  ["distiller/quantization/range_linear.py: RangeLinearQuantParamLayerWrapper"])

p("EMA range tracking",
  "update_ema returns the bias-corrected exponential moving average: a convex combination of all observed values, so the tracked range stays inside the observed extremes and is never inverted; a fake-quantized value is within half a step of the value clipped to the tracked range; evaluation changes no state. (Findings: symmetric mode produces a level outside the quantized range; before training every output is 0; the mode configured for quantization-aware training is ignored.)",
  "all observation sequences and decay in [0,1)", "unbounded sequences",
  ["distiller/quantization/range_linear.py: update_ema, FakeLinearQuantization"])

p("Batch-norm folding preserves the layer function",
  "The folded weights and bias of a linear/convolution layer followed by batch-norm compute the same output as the two layers in evaluation mode, with and without bias and affine parameters.",
  "all weights, inputs and BN statistics", "all values",
  ["distiller/quantization/sim_bn_fold.py", "distiller/model_transforms.py: fold_batch_norms"])

p("Quantizer bit-width overrides: the first match wins",
  "Each layer's bit widths come from the first override pattern matching its full name, else from the defaults; layers without parameters get activation bits only.",
  "all override lists and module names", "all lists",
  ["distiller/quantization/quantizer.py: Quantizer.__init__, _add_qbits_entry"])

p("Learning-rate schedules",
  "MultiStepMultiGammaLR's rate at an epoch is base_lr times the product of the gammas of the milestones not later than it; PolynomialLR decreases monotonically from base_lr to 0 over T_max.",
  "all milestone lists, gammas and epochs", "all epochs",
  ["distiller/learning_rate.py: MultiStepMultiGammaLR, PolynomialLR"])

p("Best-score tracking",
  "SparsityAccuracyTracker.best_scores after any history of steps is a list of at most the requested number of the recorded scores, sorted best-first by (sparsity of params non-zero, top1, top5, epoch), and contains the best ones among all recorded.",
  "all histories of validation results", "unbounded histories",
  ["distiller/apputils/performance_tracker.py"])

p("Train/validation split",
  "The data loader's validation split and its complement are disjoint, cover the data set, have the documented sizes, and an effective size selects a subset.",
  "all data-set sizes and split fractions", "all sizes",
  ["distiller/apputils/data_loaders.py: _get_subset_length, _get_sampler, get_data_loaders"])

p("Density and sparsity",
  "density(t) + sparsity(t) = 1, both lie in [0,1], sparsity counts exactly the zero elements, and structure sparsities (2D, 3D, channel, rows, cols) are the fraction of structures whose elements are all zero.",
  "all tensors", "all tensors",
  ["distiller/utils.py: density, sparsity, sparsity_2D, sparsity_3D, sparsity_ch, sparsity_matrix"])

p("Knowledge distillation loss",
  "Inside its scheduled epochs the KD policy's overall loss is student_wt*loss + distill_wt*T^2*KL, and RuntimeError is raised if no student/teacher forward preceded; outside the schedule the loss is unchanged.",
  "all losses, weights, temperatures and histories", "all histories",
  ["distiller/knowledge_distillation.py"])
