PARTIAL = set()
NA = set()
NOTES = {
 'C01': 'Log of policy calls equals the specified list for every callback in every history.',
 'C02': 'Both directions, plus a concrete run in which keep_mask is ignored (_refuted).',
 'C03': 'Any history of callbacks, arbitrary weight updates and pruners.',
 'C05': 'One pruning policy in the epoch; the two-policy case is refuted by a concrete run.',
 'C06': 'One regularization policy in the epoch; interactions with pruning masks are refuted by concrete runs.',
 'C07': 'Also the fold_batchnorm defect as a concrete run.',
 'C11': 'Side conditions are exactly those of the property; two divergence witnesses.',
 'C18': 'Element-wise, every shape; Mean_* criteria on matrices divide by the wrong dimension (_refuted).',
 'C19': 'group_size 1 is exact; group_size > 1 never prunes (RuntimeError) and ties remove all tied structures (_refuted).',
 'C21': 'Any sequence of calls; stale map and AssertionError findings as _refuted.',
 'C22': 'Orderings are arbitrary; the mean-activation ranking keeps the low-activation filters (_refuted).',
 'C39': 'All sparsity functions; matrices, convolutions and the model-wide statistic.',
 'C44': 'General block view plus the documented special cases; r>1, 1<d<C is refuted.',
 'C25': 'Exact rational arithmetic; float rounding is not modelled.',
 'C26': 'Error bound proved for every clipping regime; degenerate ranges and the 1-bit restricted range as _refuted.',
 'C29': 'k=1 and zero-weight corner cases as _refuted.',
 'C45': 'Means and extrema are exact rationals; the standard deviation is a parameter.',
 'C31': 'Exact rational arithmetic, no scale approximation; convolution geometry is an arbitrary window map.',
 'C32': 'Good histories; the four ways out of them are _refuted witnesses.',
 'C33': 'Any history of training and evaluation forwards.',
 'C46': 'Custom overrides are refuted by a concrete input.',
 'C47': 'Signed asymmetric getter and symmetric weight clipping are refuted.',
 'C34': 'sqrt/rsqrt are arbitrary functions; FrozenBatchNorm2d double folding and AttributeError are witnesses.',
 'C49': 'Bisimulation with torch batch-norm; the freezing step output is refuted.',
 'C50': 'Graphs in execution order; three findings as _refuted.',
 'C53': 'ACIQ clipping of statistics is C48.',
 'C36': 'Integer powers for PolynomialLR; behaviour after T_max is refuted.',
 'C37': 'Any history of steps and any complete run; num_best_scores=0 and the tracker reset on resume are findings.',
 'C38': 'All permutations drawn by the samplers; fixed_subset leaks validation samples into training (_refuted).',
 'C40': 'Histories of callbacks over exact rationals; KL >= 0 with softmax over the reals (stdlib real axioms).',
 'C51': 'Losses and correctness per exit are arbitrary.',
 'C52': 'The loop is connected to the scheduler model; losses, updates and accuracies are arbitrary functions.',
 'C35': 'Regular expressions are modelled (characters, sets, alternation, star, groups, anchors); three pattern shapes that break first-match are _refuted.',
 'C54': 'Module trees of any size; sharing and container wrappers are refuted by concrete models.',
 'C55': 'Any quantization function and any number of steps; class patching is modelled by an explicit call stack.',
 'C23': 'Recipes whose directives select along different dimensions (what recipe creation produces); findings about masks, momentum and repetition for linear layers are _refuted.',
 'C56': 'Replay is loaded=True, optimizer None; training steps may change all values but no shapes.',
 'C57': 'Names without DataParallel prefixes; the fuel of the model is proved sufficient.',
 'C24': 'Networks of convolutions (any geometry, groups), linear layers, batch norms, channel-wise operations, additions and opaque operations, over exact rationals; inverse square root is any function. Fourteen kinds of network outside the hypotheses are refuted by computation.',
 'C58': 'Over Coq.Reals (square roots); one output tensor per call; partial updates of a callback that raises are not modelled.',
 'C59': 'Over Coq.Reals.',
 'C60': 'Generic in the collector: fresh record, callback, and what start does to an existing record. Modules are a tree with object identities.',
 'C61': 'Over exact rationals; torch.histc modelled from its documentation and the torch 1.3 CPU implementation.',
 'C62': 'Over Coq.Reals; a scalar meter (tensor-valued meters are element-wise).',
 'C63': 'Over exact rationals; sigmoid and tanh are arbitrary functions; widths are assumed to fit. bidirectional_type 1 is not modelled.',
 'C64': 'Parameters as a function of (kind, gate, layer, direction).',
 'C65': 'The trace is the input; DataParallel models (denormalised names) are not modelled. Cache defects stated as C65_cache_refuted and C65_missing_after_dedicated.',
 'C66': 'Python recursion is bounded by fuel (RecursionError is modelled as its superclass RuntimeError).',
 'C67': 'Regular expression of the scope as a scanner; __merge_pad_avgpool and the dropout work-around are not part of this claim.',
 'C68': 'Exact arithmetic; the double-precision defect is stated with the standard library SpecFloat. Structure percentages build on C39.',
 'C69': 'The forward pass is the sequence of its calls. MACs are compared with the number of tuples of the loop nest (counts), not with a formula.',
 'C70': 'Shapes come from the trace; groups are positive.',
 'C71': 'Tree of modules with identities; deepcopy is the identity on the model values.',
 'C72': 'Constructors, policies and the scheduler are arbitrary functions that may raise; an example instantiates the model of the scheduler. YAML parsing and messages are not modelled.',
 'C73': 'Square roots are real numbers (axioms of the standard reals); gradients are not modelled. Thresholds build on C18.',
 'C74': 'The random draw and the initial weights are arbitrary. A module tree has no shared modules.',
 'C75': 'PyTorch quantize/dequantize is a small separate specification (PtqSpec) with arbitrary rounding of ties; exact rationals.',
 'C76': 'Conversions to an integer type outside its range wrap in the model (undefined in PyTorch); the theorem shows they do not happen.',
 'C77': 'The native layer is specified as the float layer on dequantized inputs and weights with one final quantization; builds on C31 and C75.',
 'C78': 'The forward of a container is a straight-line program over module calls and other functions; tensors, quantize and dequantize are arbitrary (the two facts used are hypotheses). Nested tuples of tensors and shared modules are not modelled.',
 'C79': 'The trace after ONNX optimisation is the input of the model (as in C67); attributes of operations are not modelled.',
 'C80': 'What ONNX does to scope names is taken from the comment in the source and is part of the specification (onnx_scope).',
 'C81': 'The test function is any function of the weights; parameters shared under several names are not modelled; C81_analysis covers every order of levels and every naming, C81_increasing_levels is the documented reading.',
 'C82': 'Quantizing a copy of the model and evaluating it is an arbitrary function of the overrides (score); NaN scores, DataParallel models and the collection of statistics are not modelled; the file is taken as run as a program (imported, its msglogger is None and its global model undefined).',
 'C83': 'Writing and reading the YAML checkpoint is the identity.',
 'C84': 'Fine-tuning, filter removal and testing are one arbitrary function; the cost is an arbitrary function of the weights; the loop runs with fuel and the theorems hold for every fuel (Running = the fuel ended first). NaN results are not modelled.',
 'C85': 'Weights per tensor, no scale approximation; names and values arbitrary; exact rationals.',
 'C86': 'The evaluation function is any function of the state of the wrappers after a forward pass; scipy is represented by the calls it makes; the initialisation (init_linear_quant_params) is C93: the theorems start from any prepared model.',
 'C87': 'The graph is an input (C65); names under which statistics are kept must differ after normalization, as for distinct modules.',
 'C88': 'A model is a straight-line program with an ideal (real-number) semantics of wrappers: ReLU and saturation are kept, rounding is not (C30, C31 bound it). Clipping mode NONE; batch normalizations folded before (C50). Modules called several times are excluded by hypothesis and refuted.',
 'C89': 'Exact rationals; no max_norm/padding; the mean of an empty tensor is refused; torch.std is any function.',
 'C90': 'The wrapped module is any function of its input tensors, possibly returning a view of one of them; what float16 does to a value is any function (cast).',
 'C91': 'What computing the parameters of weights and embeddings can raise is an arbitrary function of the settings (C45, C53); keys of input overrides that are not accepted are not modelled; the tensors in the wrappers are C31, C53, C89, C90.',
 'C92': 'Without a configuration file. Layer names as torch makes them (no regular-expression characters but dots).',
 'C93': 'No DataParallel. scipy is represented by the vectors it tries, all of the right length. One-layer results hold unless weights are shifted in place by the forward pass (asymmetric weights with quantized activations: C86). What the predecessor of a ReLU is at that time is arbitrary.',
 'C94': 'Exact rationals for floats (math.isclose and == are equality; C94_float_assertion_refuted shows that in double precision the equality asserted can fail). What the pruner removes is an arbitrary function of the state. Training, validation, thinning and reconstruction are not modelled. sound is proved of every description get_network_details makes (C94_network_details).',
 'C95': 'coverable is a condition on the list of layers (chains satisfy it: example); the loss to rounding is a parameter, instantiated for the L1-norm pruner in C95_target_l1.',
 'C96': 'The accuracy-guaranteed reward (a logarithm) is not modelled; rewards are rational.',
 'C97': 'A crash is a prefix of the single writes, in order (what the operating system shows after the process dies; a power failure with reordered writes is not modelled). torch.save is an arbitrary function to bytes.',
 'C98': 'torch.load after torch.save is the identity; thinning, quantizers, creation and conversion of models and constructors of optimizers are arbitrary functions (the round trips are stated without recipes and quantizer; with them C98_loaded applies). Devices are not modelled.',
 'C99': 'Modules call their children in a straight line (each on a value computed before; a child may be called several times); no module object is used in two places; no exit is named with the empty name (the model itself). A forward pass that raises changes nothing in the model (in the code some branch outputs may have been set). DataParallel on one device.',
 'C100': 'What the packages contain is an arbitrary dictionary of constructors, which return a network or raise; ASCII names. Error texts, devices and the patch of MobileNetV2 (an arbitrary function) are not modelled.',
 'C101': 'bool counts as other; random contents are not modelled.',
 'C102': 'Real numbers; the derivatives of the PyTorch primitives are trusted (derivatives.yaml of PyTorch 1.3), composed as the code composes them. Off the kinks; at kinks the _elements theorems say what is passed. DoReFa weights: the largest magnitude is unique and not 0 (with a tie PyTorch picks one, for all-zero weights the values are NaN, C29). SGD without momentum.',
 'C103': 'Rates are values of any type; LR schedulers of torch 1.3 that compute the rates from the initial ones and the epoch (StepLR, MultiStepLR, ExponentialLR, LambdaLR, distiller\'s own) and ReduceLROnPlateau; chainable schedulers of later torch versions are not modelled. Optimizers with one parameter group. A session that ends regularly is one whose last begun epoch is not run. Weights, masks and momentum: C98.',
 'C104': 'Values the constructors only hand on are opaque; the arguments of one call are a dictionary (positional arguments are not modelled). Statistics files hold dictionaries. The recorded dictionary is shared with the quantizer, so that it is the updated one that is saved (C104_prepared_again).',
 'C105': 'Real numbers; dimensions are positive; the derivatives of the PyTorch primitives are trusted (the norm gets gradient 0 where it is 0), composed as the code composes them. SGD without momentum and weight decay, on the regularization loss alone. The group-variance loss has values (C45) but its gradient is not modelled.',
 'C106': 'Arbitrary element arithmetic; one element type (no promotion); arguments are the same tensor or do not overlap; torch broadcasting and the autograd check of in-place updates are modelled as documented.',
 'C107': 'Child names are plain (non-empty, no dots, different within a module), as torch enforces. The effect of model_setattr is which attribute of which module is written (registration as parameter or buffer: by torch). That every reachable module is listed is torch\'s; not proved here.',
 'C108': 'IEEE double precision by Flocq (binary64, nearest even), weights binary32; sizes below 2^53 (2^51 for the count shown). The earlier models of the sparsity tables and of the tracker use exact counts; this one says how far the computed ones are from them. abs, gt and sum of torch are exact (integers).',
 'C109': 'Whether a parameter is all zero is given (C108 shows density == 0 says so). Names are split at their dots already; int() of digits only. The gate lists are shared between the network and its blocks (same list objects), so that closing one takes effect in the block. Layers are arbitrary functions on flat tensors.',
 'C110': 'Observations, actions and rewards are opaque; random indices are arbitrary lists within the ranges random.sample and random_integers guarantee; an exhausted list stands for a loop still running. Conversion to numpy arrays and the networks are not modelled; get_recent_state is unused and not modelled.',
 'C111': 'Values are opaque (the contents of a histogram are a function of the tensor); a writer\'s file is the list of its records; total steps per epoch are integers as all the training loops of the repository compute them. CSV rows are not yet text (quoting and number format by the csv module). The same name twice in one list of buffers is excluded (two open handles on one file).',
 'C112': 'The network is an arbitrary function of hidden state and one row (unidirectional RNNs in evaluation, dropout off); losses are exact rationals, NaN only for validation losses; overflow of math.exp (losses above 709) is not modelled. torch RNNs raise RuntimeError on an empty sequence. An interruption falls between the actions on the two files; what torch.save leaves half-written counts as broken.',
 'C113': 'Numbers are exact rationals; the solver is any function whose value on the problem at hand is a least-squares solution (the hypothesis of the theorems; sklearn computes one in floating point; FmLs.v constructs one in exact arithmetic, so C113_with_exact_solver assumes nothing of it). F.conv2d, F.unfold, advanced indexing and squeeze are given their definitions. Draws are arbitrary positions within the ranges of np.random.randint. With a bias the fitted targets contain it: the optimality statement is about the bias-free convolution against these targets, C113_bias_counted_twice_refuted shows what this does to the layer.',
 'C114': 'Over Coq\'s real numbers (standard library axioms of the reals): float rounding is not modelled. An empty activation is refused before anything is computed. The text test on RuntimeError messages in the callback is not modelled (the call raises either way); writing the workbooks is not modelled, only the file names.',
 'C115': 'Paths are POSIX strings; only the file-system errors named happen (a missing link on unlink, an existing one on symlink or makedirs, unreadable sources). Processes interleave between system calls, in any order. The texts of the logs, git / pip / CUDA details and the Python logging configuration are not modelled. Collecting statistics is an arbitrary function of the model and the share of the data; an empty statistics file name or dictionary counts as not given, as in the code. C115_makedirs_race_refuted is about two processes.',
 'C116': 'The two checkpoints are loaded into fresh models as apputils.load_checkpoint is modelled (C22, C24); the name of the file written is not modelled, nor printing. Training is a sequence of arbitrary updates of every parameter, each followed by on_minibatch_end of a scheduler without policies (with policies: C03). Attributes every Python object has (dunder names) are left out of the progress collector.',
 'C117': 'Samples are their indices; torch.randperm and sort are arbitrary permutations (the sorted shards are any sorted ones); positive batch size and number of processes. Reading the files and joining words to text (separators) are not modelled; the distance of aspect ratios to their bins is not either (the group of a sample is given).',
 'C118': 'Scores are exact rationals (no NaN); NDCG is its position in the ranking (log 2 / log (i + 2)); random draws are given; files are missing, broken or complete. The network is any function that scores each pair by itself (dropout off, as in evaluation mode); NeuMF itself, its loss and its optimizer are not modelled. The CUDA copies with async=True, which Python 3.7 and later refuse to parse, are left out.',
 'C119': 'The network is any encoder and decoder that satisfy the stated independence (in floating point, a batch may round differently); attention scores and log probabilities, which greedy_search ignores, are left out. beam_search (beam_size > 1) is not modelled. detokenize is a function that does not fail (C117 says when it fails).',
 'C120': 'Exact rationals instead of floats; the collective operations act on the list of all processes at once (a process that does not take part would block, which is not modelled); names are numbers in alphabetical order; the bytes of pickle are parameters with loads after dumps the identity. The texts, the times and the memory that are printed are not modelled.',
}
