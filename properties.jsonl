{"id": "C01", "title": "Fixed-point inference output is representable", "statement": "Calling a fixed-point quantizer in inference returns, for every element, either 0 (when k+i+f<=0) or a value of the form n*2^-f with integer n, lying between the min and the max the quantizer advertises (for WRAP, SAT and SAT_SYM overflow and TRN, RND, RND_CONV rounding).", "quantifier": "every finite input value, every sign flag k in {0,1}, all integer widths i, f (also negative), all three rounding and all overflow modes", "why_tests_cant": "infinitely many inputs and width combinations, and the extreme inputs sit on rounding/overflow boundaries that sampling misses", "anchors": ["src/hgq/quantizer/internal/fixed_point_quantizer.py:FixedPointQuantizerBase.call,min,max,epsilon"]}
{"id": "C02", "title": "Quantization is idempotent and fixes exactly the representable grid", "statement": "Quantizing an already quantized tensor in inference changes nothing, and a value is left unchanged by the quantizer exactly when it is n*2^-f inside [min,max] (or 0 when the width is not positive).", "quantifier": "every input value, k, i, f, rounding mode and overflow mode", "why_tests_cant": "a statement about a composition on all inputs plus an iff over all values", "anchors": ["src/hgq/quantizer/internal/fixed_point_quantizer.py:FixedPointQuantizerBase.call"]}
{"id": "C03", "title": "Rounding error bound", "statement": "When the rounded value does not leave [min,max], the inference output differs from the input by at most half of epsilon=2^-f for RND and RND_CONV, and lies in (x-2^-f, x] for TRN; RND_CONV breaks exact ties to the even multiple and RND breaks them upwards.", "quantifier": "every input, every k, i, f with k+i+f>0", "why_tests_cant": "error bounds must hold for all reals; ties are a measure-zero set", "anchors": ["src/hgq/quantizer/internal/fixed_point_quantizer.py:FixedPointQuantizerBase.call"]}
{"id": "C04", "title": "Saturation returns the nearest end of the range and is monotone", "statement": "With SAT (SAT_SYM) overflow the inference output is the clamp of the rounded input to [min,max]: inputs above the range give max, inputs below give min, no representable value is nearer to the rounded input, and x<=y implies q(x)<=q(y).", "quantifier": "all pairs of inputs, all k, i, f with k+i+f>0, all rounding modes", "why_tests_cant": "monotonicity is a two-input relation over all reals", "anchors": ["src/hgq/quantizer/internal/fixed_point_quantizer.py:FixedPointQuantizerBase.call,min,max"]}
{"id": "C05", "title": "WRAP is two's complement truncation", "statement": "With WRAP overflow the inference output is the unique representable value congruent to the rounded input modulo 2^(i+k); in particular it equals the rounded input exactly when that is already within [min,max].", "quantifier": "all inputs, all k, i, f with k+i+f>0, all rounding modes", "why_tests_cant": "modular uniqueness for arbitrarily large overflow counts", "anchors": ["src/hgq/quantizer/internal/fixed_point_quantizer.py:FixedPointQuantizerBase.call"]}
{"id": "C06", "title": "Advertised bit counts are exact", "statement": "The integer code of every inference output fits in the advertised full bit count (fbits) two's complement/unsigned bits, the range [min,max] in steps of epsilon contains exactly 2^(k+b) codes (2^(k+b) minus k for SAT_SYM), and min and max are attained; for every format except WRAP with a sign bit and no magnitude bits, which advertises 0 bits but takes two values.", "quantifier": "all outputs and all k, i, f", "why_tests_cant": "counting statement over the whole output range for every width", "anchors": ["src/hgq/quantizer/internal/fixed_point_quantizer.py:fbits,bits,min,max,epsilon"]}
{"id": "C07", "title": "Calibration makes inference overflow-free on the calibration data (KIF)", "statement": "After trace_minmax has run a WRAP kif quantizer over any sequence of batches (starting from the reset state), inference on any element of any of these batches equals plain rounding: no element wraps and no negative value loses its sign, and equals what the quantizer returned while tracing.", "quantifier": "every finite sequence of batches of any size and content, every f, starting i and k", "why_tests_cant": "quantifies over histories of batches; a missed element in an early batch only shows on that batch", "anchors": ["src/hgq/quantizer/internal/fixed_point_quantizer.py:FixedPointQuantizerKIF.call,minimal_i_given_xf", "src/hgq/utils/minmax_trace.py:trace_minmax,_reset_minmax"]}
{"id": "C08", "title": "Calibration makes inference overflow-free on the calibration data (KBI)", "statement": "After tracing any sequence of batches, inference of a WRAP kbi quantizer on any element of any of these batches equals plain rounding at the final widths, provided b is at most 22 bits (22 is the most: because of the epsilon in the width formula every unconstrained quantizer of 24 or more bits overflows on some sample it was calibrated with, and one of 23 bits) and no constraint cuts the traced integer width; the sign is kept.", "quantifier": "every finite sequence of batches, every b, starting i and k", "why_tests_cant": "histories of batches, and the failing widths need inputs within 1e-7 of the range end", "anchors": ["src/hgq/quantizer/internal/fixed_point_quantizer.py:FixedPointQuantizerKBI.call,minimal_i_given_xb", "src/hgq/utils/minmax_trace.py:trace_minmax"]}
{"id": "C09", "title": "Calibration result does not depend on batching or order", "statement": "The integer width and sign flag left by trace_minmax depend only on the multiset of calibration samples, not on batch size or order (KIF: both, KBI: the integer width, each with any constraint; the KBI sign flag does depend on the order).", "quantifier": "every pair of batch sequences with the same samples", "why_tests_cant": "relation between all permutations and re-batchings of a data set", "anchors": ["src/hgq/quantizer/internal/fixed_point_quantizer.py:FixedPointQuantizerKIF.call,FixedPointQuantizerKBI.call", "src/hgq/utils/minmax_trace.py:trace_minmax"]}
{"id": "C10", "title": "Calibrated integer width is the smallest safe one", "statement": "After calibration of a kif quantizer from the reset state the integer width is minimal: with one integer bit less some calibration sample would be strictly outside the quantizer's symmetric range; and tracing never decreases the width or clears the sign flag.", "quantifier": "every non-empty sequence of batches, every f", "why_tests_cant": "minimality over every width and every history", "anchors": ["src/hgq/quantizer/internal/fixed_point_quantizer.py:minimal_i_given_xf,FixedPointQuantizerKIF.call", "src/hgq/utils/minmax_trace.py:_reset_minmax"]}
{"id": "C11", "title": "Integer width constraint holds after every update", "statement": "When an integer-width constraint ic is configured, the stored integer width satisfies it after every training or tracing call of a kbi quantizer, and after every tracing call of a kif quantizer whose width satisfied it or was reset; a training call of a kif quantizer stores the unconstrained width.", "quantifier": "every sequence of training/tracing calls on arbitrary data, every decay speed, every interval constraint", "why_tests_cant": "invariant over all call histories", "anchors": ["src/hgq/quantizer/internal/fixed_point_quantizer.py:FixedPointQuantizerKBI.call,FixedPointQuantizerKIF.call", "src/hgq/constraints/__init__.py"]}
{"id": "C12", "title": "A training call is consistent with inference on the same data", "statement": "For a WRAP quantizer with the sign bit enabled, immediately after a training call on a batch, an inference call on the same batch returns exactly the same values as the (deterministically rounding) training call (kbi: up to 22 bits and with no constraint that cuts the width).", "quantifier": "every batch, stored widths, decay speed and history", "why_tests_cant": "all states reachable by float-valued decays", "anchors": ["src/hgq/quantizer/internal/fixed_point_quantizer.py:FixedPointQuantizerKBI.call,FixedPointQuantizerKIF.call"]}
{"id": "C13", "title": "Per-axis bit-widths apply to exactly the elements of their group", "statement": "With homogeneous/heterogeneous axes of any rank, an element is quantized with the widths of its own group: elements sharing their heterogeneous coordinates share widths, the absmax used for calibration is an upper bound of the group's magnitudes and is attained by one of them, the sign flag is raised exactly when the group has a negative element, and negative axes mean the same as their positive counterparts.", "quantifier": "tensors of every rank and shape, every choice of axes", "why_tests_cant": "all ranks, shapes and axis sets", "anchors": ["src/hgq/quantizer/internal/base.py:check_axis,DefaultBitwidthMapper"]}
{"id": "C14", "title": "Scaler, affine and noise factor", "statement": "A Quantizer with scaler s computes s*q(x/s) and then the affine map in inference; a noise factor of 1 is full quantization and without a scaler a factor n makes the training output the affine map of (1-n)*x + n*q(x); with a scaler the input is not scaled back, so that a factor of 0 does not return the input.", "quantifier": "all inputs, scalers, affine pairs, noise factors", "why_tests_cant": "all real parameters", "anchors": ["src/hgq/quantizer/quantizer.py:Quantizer.call"]}
{"id": "C15", "title": "Quantizer configuration scopes are properly nested", "statement": "Inside `with QuantizerConfigScope(...)` the affected defaults (and only those) are overridden, and after leaving, normally or by an exception, every default has the value it had before entry, for arbitrary nesting and sequence of scope objects in which no object is entered while it is active (entering an active object again leaves overridden defaults behind).", "quantifier": "all nestings and bodies, all initial defaults, all override sets", "why_tests_cant": "arbitrary nesting depth and exception points", "anchors": ["src/hgq/quantizer/config.py:QuantizerConfigScope"]}
{"id": "C16", "title": "Layer configuration scopes are properly nested", "statement": "Inside `with LayerConfigScope(...)` the layer defaults are overridden and after leaving every default is as before, for arbitrary nesting of distinct scope objects; newly introduced keys disappear again.", "quantifier": "all nestings, all initial global configurations, all override dictionaries", "why_tests_cant": "arbitrary nesting depth", "anchors": ["src/hgq/config/layer.py:LayerConfigScope"]}
{"id": "C17", "title": "Dataset visits every sample exactly once per epoch", "statement": "Without drop_last the batches produced by a Dataset over one epoch contain every sample exactly once, for any shuffle; no batch is empty or longer than batch_size, at most one is shorter, and without shuffling only the last one can be; negative indices address from the end.", "quantifier": "every data size, batch size, shuffle permutation and number of epochs", "why_tests_cant": "all sizes and permutations", "anchors": ["src/hgq/utils/dataset.py:Dataset"]}
{"id": "C18", "title": "Dataset drop_last yields full, disjoint, in-range batches", "statement": "With drop_last the batches over one epoch are all of size batch_size, contain no sample twice, never run past the data whatever the random initial shift, and only (n mod batch_size) samples are skipped.", "quantifier": "every data size, batch size, shift and shuffle permutation", "why_tests_cant": "all sizes, shifts and permutations", "anchors": ["src/hgq/utils/dataset.py:Dataset"]}
{"id": "C19", "title": "Piecewise beta schedule", "statement": "PieceWiseSchedule returns the prescribed value at every knot, stays between the neighbouring knot values in between (linear and log), is constant after the last knot, and constant segments do not move.", "quantifier": "every sorted list of knots and every epoch number", "why_tests_cant": "all schedules and epochs", "anchors": ["src/hgq/utils/sugar/beta_scheduler.py:PieceWiseSchedule"]}
{"id": "C20", "title": "BetaPID controller", "statement": "After warm-up the beta set by BetaPID stays within [min_beta,max_beta] for every EBOPs history; when the EBOPs stay above (below) target beta does not decrease (increase) once the controller is past its first step; and switching on the controller starts from the current beta (in log mode with no derivative gain, up to a relative error of 1e-9 per unit of gain times target/EBOPs, then damped and clamped; in linear mode this is refuted: beta jumps by twice the first correction).", "quantifier": "every history of observed EBOPs, all gains, targets and bounds", "why_tests_cant": "histories of arbitrary length", "anchors": ["src/hgq/utils/sugar/beta_pid.py:BetaPID"]}
{"id": "C21", "title": "StopIf patience", "statement": "StopIf stops training only after the condition held in consecutive epochs, and exactly at the epoch that completes the required run (the code requires patience+1 consecutive epochs; the documented patience is refuted).", "quantifier": "every history of condition values, every patience", "why_tests_cant": "all epoch histories", "anchors": ["src/hgq/utils/sugar/stop_if.py:StopIf"]}
{"id": "C22", "title": "EBOPs-gated early stopping", "statement": "EarlyStoppingWithEbopsThres never leaves stop_training set at the end of an epoch whose EBOPs exceed the threshold, and stops whenever plain EarlyStopping would have stopped at an epoch within the threshold.", "quantifier": "every metric and EBOPs history", "why_tests_cant": "all histories", "anchors": ["src/hgq/utils/sugar/early_stopping_ebops.py:EarlyStoppingWithEbopsThres"]}
{"id": "C23", "title": "Pareto front", "statement": "For every history with distinct file names, every epoch that passes the enable condition is matched or beaten by a checkpoint ParetoFront keeps, every kept checkpoint is such an epoch, none is strictly beaten in all metrics by another nor matched by an earlier one, and the files on disk are exactly the kept checkpoints. (A kept checkpoint that a later one merely matches in some metric and beats in the others stays, and a repeated file name loses a checkpoint.)", "quantifier": "every history of metric tuples", "why_tests_cant": "histories of arbitrary length", "anchors": ["src/hgq/utils/sugar/pareto.py:ParetoFront"]}
{"id": "C24", "title": "EBOPs are non-negative, monotone and zero only for pruned operations", "statement": "The EBOPs reported by QDense/QEinsumDense/QConv equal the sum over all multiplications of the product of the operand bit-widths plus a bias term (for convolutions the bias is counted once per input position instead of once per output position), are non-negative, do not decrease when any bit-width grows, and the multiplication part is zero exactly when every multiplication has a zero-width operand.", "quantifier": "all bit-width tensors, shapes and kernel sizes", "why_tests_cant": "all shapes and width assignments", "anchors": ["src/hgq/layers/core/dense.py:QDense._compute_ebops", "src/hgq/layers/conv.py:_compute_ebops", "src/hgq/layers/core/einsum_dense.py"]}
{"id": "C25", "title": "Parallelization factor scales EBOPs linearly", "statement": "The EBOPs of a dense layer with parallelization factor p over n parallel applications are p/n times those of the fully unrolled layer (dense and einsum layers; for convolutions the multiplication part).", "quantifier": "all factors, shapes and widths", "why_tests_cant": "all shapes", "anchors": ["src/hgq/layers/core/dense.py:QDense._compute_ebops"]}
{"id": "C26", "title": "Batch-norm fusion into a dense layer is exact", "statement": "Without weight quantization, QBatchNormDense in inference computes Dense(BatchNorm(x)) with the moving statistics of its inputs plus exactly sum_i mean_i*(gamma_i/sqrt(var_i+eps)-1)*kernel_ij, the running-mean term of the fused bias not being scaled (so exact for zero means), and QEinsumDenseBatchnorm computes BatchNorm(einsum(x)) exactly when the normalized axes occur in the same order in kernel and output, with the backend epsilon in place of the configured one.", "quantifier": "all inputs, kernels, biases, statistics, gammas and betas, all einsum equations", "why_tests_cant": "an algebraic identity over all reals", "anchors": ["src/hgq/layers/core/dense.py:QBatchNormDense.get_fused_qkernel_and_qbias", "src/hgq/layers/einsum_dense_batchnorm.py:QEinsumDenseBatchnorm"]}
{"id": "C27", "title": "Batch normalization flags", "statement": "QBatchNormalization with center=False adds no shift and with scale=False no factor: its inference output (unquantized parameters) is gamma*(x-mean)/sqrt(var+eps)+beta with gamma=1 for scale=False and beta=0 for center=False, except that center=False adds exactly 1.", "quantifier": "all inputs, statistics, parameters and flag settings", "why_tests_cant": "identity over all reals and flag combinations", "anchors": ["src/hgq/layers/batch_normalization.py:QBatchNormalization"]}
{"id": "C28", "title": "Traced quantizers behave like the layer's quantizers", "statement": "The fixed-point quantizer placed into the traced hardware model computes, for every input, the same value as the Keras quantizer in inference, for every batch and per-axis widths, when the quantizer has no scaler (the tracer does not undo one) and its widths are between -128 and 127 (the tracer casts them to int8).", "quantifier": "all inputs, widths, modes, affine maps and scalers", "why_tests_cant": "bit-exactness over all inputs", "anchors": ["src/hgq/_dais_tracer/layers/_base.py:mirror_quantizer", "src/hgq/_alkaid_keras_plugin/_base.py:mirror_quantizer"]}
{"id": "C29", "title": "Model tracing replays the network", "statement": "Replaying the recorded operations of a functional model (nested models having one input; others cannot be traced), in tracing order, produces for every output the value of the model's data-flow graph, each operation is evaluated exactly once and only after its inputs.", "quantifier": "every acyclic data-flow graph and every input", "why_tests_cant": "all graphs", "anchors": ["src/hgq/_dais_tracer/main.py:_trace_model"]}
{"id": "C30", "title": "Traced names are unique", "statement": "The intermediate results recorded by the tracer have pairwise distinct names, however often a layer is reused, when no layer name contains '#'.", "quantifier": "every sequence of layer names", "why_tests_cant": "all name sequences, including names that already look renamed", "anchors": ["src/hgq/_dais_tracer/main.py:MaybeRename"]}
{"id": "C31", "title": "Traced convolution equals the convolution", "statement": "For every image of at most 2^24 elements and every kernel size, stride, dilation and padding (channels last), the hardware replay of QConv computes at every output position and channel the convolution of the layer's definition plus its bias, when groups=1 or each group has one input channel (depthwise, any multiplier). For any other group count it computes the convolution of the image with its channels shuffled (channel (c mod cin_g)*groups + c/cin_g in the place of c), which differs from the layer; and beyond 2^24 elements the float32 position encoding reads wrong elements.", "quantifier": "all input sizes, kernel sizes, strides, dilations, paddings, channel and group counts", "why_tests_cant": "all geometries", "anchors": ["src/hgq/_dais_tracer/layers/conv.py:ReplayQConv,symbolic_extract_patches"]}
{"id": "C32", "title": "Spiking layers: traced replay equals the layer", "statement": "The hardware replay of QSimpleSNN/QLIF yields the same output and state sequence as the Keras layer in inference for every input sequence, including lateral inhibition (one winner, lowest index on ties), every reset mechanism, and go_backwards, for the built-in spike functions (arctan surrogate or none) and quantizer widths that fit 8 bits.", "quantifier": "all input sequences of all lengths, unit counts, thresholds, betas", "why_tests_cant": "all sequences; ties are non-generic", "anchors": ["src/hgq/layers/snn/base.py:QSimpleSNNCell,QLIFCell", "src/hgq/_alkaid_keras_plugin/snn.py:_QSNNReplay"]}
{"id": "C33", "title": "Recurrent layers: traced replay equals the layer", "statement": "The hardware replay of QSimpleRNN and QGRU yields the same outputs and final state as the Keras layer in inference for every input sequence (reset_after on and off, bias on and off, go_backwards on and off), for widths that fit 8 bits and activations that are translated exactly.", "quantifier": "all input sequences, weights and sizes", "why_tests_cant": "all sequences", "anchors": ["src/hgq/layers/rnn/simple_rnn.py", "src/hgq/layers/rnn/gru.py", "src/hgq/_alkaid_keras_plugin/rnn.py"]}
{"id": "C34", "title": "Lookup-table layers equal the function they tabulate", "statement": "Replacing a unary function by a lookup table over all representable input codes gives, for every input the quantizer can produce, exactly the function's value, and the table has one entry per code; and the hardware of QDenseT (tables grouped by size, batch norm folded in, entries quantized) computes the layer's output for every input when the activation is translated exactly, batch norm has its center and the output quantizer no scaler (each of these is necessary; hard_silu is not translated exactly).", "quantifier": "all quantizer formats, all functions, all reachable inputs", "why_tests_cant": "all widths and functions", "anchors": ["src/hgq/_dais_tracer/layers/table.py", "src/hgq/_dais_tracer/layers/activation.py"]}
{"id": "C35", "title": "Power-of-two averaging", "statement": "QMeanPow2 and QAveragePow2 scale by an exact power of two within a factor sqrt(2) of 1/n, and compute the exact mean whenever n is a power of two.", "quantifier": "every count n >= 1", "why_tests_cant": "all n", "anchors": ["src/hgq/layers/ops/accum.py:QMeanPow2", "src/hgq/layers/ops/merge.py:QAveragePow2"]}
{"id": "C36", "title": "Quantized softmax masking", "statement": "In QSoftmax masked positions get output zero and the unmasked outputs are those of the softmax over the unmasked positions only, whatever stands at the masked ones; the hardware replay, which uses another filler value, gives the same outputs. (Calibration is not covered: tracing with a masked position inflates the exponential table's input width.)", "quantifier": "all inputs, masks and table functions", "why_tests_cant": "relational over all inputs", "anchors": ["src/hgq/layers/softmax.py:QSoftmax"]}
{"id": "C37", "title": "Dropping the key bias in attention is harmless", "statement": "Attention weights and outputs are unchanged when a value not depending on the key position (the contribution of the key bias, which QMultiHeadAttention drops) is added to all scores: for the exact softmax, and exactly for the quantized stable QSoftmax with any tables. (Not for stable=False, whose table saturates.)", "quantifier": "all scores and biases", "why_tests_cant": "identity over all reals", "anchors": ["src/hgq/layers/attn/mha.py:QMultiHeadAttention"]}
{"id": "C38", "title": "Float32 evaluation of calibrated layers is exact and order independent", "statement": "If all products and the bias of a quantized dot product lie on a common grid 2^e (e >= -149) and the largest magnitudes the operand formats allow sum to at most 2^24 grid steps, then for all operand values every summation order, with or without fused multiply-adds, evaluates in binary32 (round to nearest even after each operation) to the exact rational result, so all backends agree bit for bit; without the bound two orders can differ.", "quantifier": "all operands with the given formats, all summation orders", "why_tests_cant": "all values and association orders", "anchors": ["src/hgq/quantizer/internal/fixed_point_quantizer.py", "src/hgq/layers/core/dense.py:QDense.call"]}
{"id": "C39", "title": "trace_minmax total equals the sum of the layers' EBOPs", "statement": "trace_minmax returns the sum of the figures of the model's enabled top level layers, BetaPID steers on the same number, and FreeEBOPs logs the sum over every distinct quantized layer object at any depth, each once. The two totals are equal for every model built of plain quantized layers, QSoftmax and QMultiHeadAttention; in general they differ by exactly the sublayers that Linformer/SALT attention, nested models and wrappers do not report to trace_minmax, and by the recurrent layers FreeEBOPs skips.", "quantifier": "all models (trees of layers)", "why_tests_cant": "all model trees", "anchors": ["src/hgq/utils/minmax_trace.py:trace_minmax", "src/hgq/utils/sugar/ebops.py:FreeEBOPs"]}
{"id": "C40", "title": "Saved configurations reload to the same object", "statement": "from_config(get_config()), run in a process whose default values may differ, rebuilds a quantizer configuration with the same settings exactly when it does not set both axes and is not HardTanhConfig(symmetric=True) or a hard configuration of type 'dummy'; and it rebuilds a layer (28 classes) with the same settings exactly when each setting that its get_config leaves out has the value the constructor would choose. Only QEinsumDenseBatchnorm, the pooling layers, QSimpleRNN and QGRUCell leave anything out.", "quantifier": "all settings, all default values of either process", "why_tests_cant": "all combinations of settings", "anchors": ["src/hgq/quantizer/config.py", "src/hgq/layers/rnn/simple_rnn.py:QSimpleRNN.get_config", "src/hgq/layers/rnn/gru.py:QGRUCell.get_config"]}
{"id": "C41", "title": "QKeras compatible quantized_bits", "statement": "The quantizer built from quantized_bits(bits, integer, ...) takes only values between the advertised min and max times the scaler and, without a scaler, reaches both; get_config/from_config rebuild the configuration exactly when the widths are ints, keep_negative is a bool and use_variables was not set against alpha. Calling the configuration object itself is not that quantizer: with the default qnoise_factor it raises TypeError, and with qnoise_factor=1 it saturates to `bits` integer bits and keeps `integer` fractional ones, so for every configuration it differs from the configured quantizer on some input. The third positional argument of quantized_relu is symmetric, not alpha, and a fourth is refused.", "quantifier": "all arguments of the constructor, all inputs", "why_tests_cant": "all inputs and all combinations of arguments", "anchors": ["src/qkeras/quantizers/quantized_bits.py:quantized_bits.__call__,max,min,get_config,quantized_relu"]}
{"id": "C42", "title": "QKeras argument strings", "statement": "Parsing the argument string of a quantizer accepts exactly the comma separated positional then keyword arguments with values (None, True, False, quoted text, digits, floats) and returns the positional values in order and for each keyword its last value; an empty argument is a SyntaxError, a positional one after a keyword an AssertionError, a text that is no value a ValueError. Reading the printed form of a quantized_bits gives back what it tells when its values print readably; not for alpha='trainable_po2' (ValueError) nor negative integer bits (read as float, then unusable), and no 'quantized_relu(...)' string is ever read.", "quantifier": "all strings; all configurations", "why_tests_cant": "all strings", "anchors": ["src/qkeras/quantizers/utils.py:parse_string_to_args,str_float_int_or_none", "src/qkeras/quantizers/quantized_bits.py:quantized_bits.from_string,__str__"]}
{"id": "C43", "title": "Moving statistics of batch normalization stay valid", "statement": "For every training history the moving variance of a batch-norm layer stays non-negative, so the square root used in inference is positive, and the moving mean stays within the range of the data seen and its initial value.", "quantifier": "every sequence of non-empty training batches, every momentum in [0,1], every positive epsilon", "why_tests_cant": "histories of arbitrary length", "anchors": ["src/hgq/layers/batch_normalization.py:QBatchNormalization._scaler_and_offset_train", "src/hgq/layers/core/dense.py:QBatchNormDense.call"]}
{"id": "C44", "title": "Traced ReLU family equals the layers", "statement": "The hardware built for ReLU (threshold, negative_slope, max_value), LeakyReLU and PReLU computes for every value of the incoming fixed-point variable the value of the Keras layer, when the threshold lies on the input's grid (or at most half a step above a grid point); for other thresholds the first value above the threshold is misclassified.", "quantifier": "all thresholds >= 0, slopes, max values, formats and inputs", "why_tests_cant": "every code of every format and every combination of layer arguments", "anchors": ["src/hgq/_dais_tracer/layers/activation.py:ReplayReLU"]}
{"id": "C45", "title": "Traced pooling equals the pooling", "statement": "The hardware replay of max and average pooling gives, for every window of every image of at most 2^24 elements, the maximum / the mean over exactly the image elements the window covers (padding neither counted nor competing), for every pool size, stride and padding; every window covers at least one element. For the maximum the values must be at least -2^31, the stand-in for the padding.", "quantifier": "all images, pool sizes, strides, paddings, windows and channels", "why_tests_cant": "all geometries; borders", "anchors": ["src/hgq/_dais_tracer/layers/pool.py:ReplayPool", "src/hgq/_dais_tracer/layers/conv.py:symbolic_extract_patches"]}
{"id": "C46", "title": "Caching quantized weights in recurrent layers is transparent", "statement": "QRNN layers quantize the weights once per call and keep them for the sequence. On every history of weight updates, calls and reads of qkernel/qrecurrent_kernel/qbias, all results are those of quantizing afresh each time, as long as no call raises; calls are right even after a call that raised (only reading the quantized weights between the failed call and the next successful one returns the stale ones).", "quantifier": "all histories of weight updates, layer calls and reads", "why_tests_cant": "histories of arbitrary length, with failures", "anchors": ["src/hgq/layers/rnn/simple_rnn.py:QRNN.call,QSimpleRNNCell._set_weight_cache", "src/hgq/layers/rnn/gru.py:QGRUCell._set_weight_cache"]}
{"id": "C47", "title": "A layer call records its EBOPs and adds its loss once", "statement": "One training or tracing call of a layer stores its EBOPs, adds beta*EBOPs to the loss once and quantizes its output once, whatever other layers were created before; outside training and tracing it records nothing. This holds for every class whose call is its own; for QMeanPow2, QAveragePow2, QMultiHeadAttentionT, the Linformer/SALT attentions and the table convolutions the loss term (not the output nor the recorded EBOPs) is added twice when their base class was instantiated (for inherited call: before their own first instance).", "quantifier": "all histories of layer instantiations, all class hierarchies, all flags", "why_tests_cant": "depends on the process-wide instantiation history", "anchors": ["src/hgq/layers/core/base.py:QLayerMeta.__call__", "src/hgq/utils/minmax_trace.py:TrainingFlagWrapper"]}
{"id": "C48", "title": "QKeras keyword arguments of layers", "statement": "A layer created through the qkeras package with kernel_quantizer/kq, bias_quantizer/bq, output_quantizer/oq, exp_*/inv_* quantizers has exactly these configurations, leaves the other quantities unquantized, has EBOPs off and quantizes its output exactly when an output quantizer is given; giving a parameter under two names is refused. The input quantizer is dropped: whatever is given, the input is not quantized.", "quantifier": "all keyword arguments, all process defaults, 13 layer classes", "why_tests_cant": "all combinations of keyword arguments", "anchors": ["src/qkeras/qlayers/__init__.py:qkeras_layer_wrap", "src/hgq/layers/core/base.py:QLayerBaseSingleInput"]}
{"id": "C49", "title": "Traced array operations equal the Keras operations", "statement": "For every batch, the hardware replay of each sample of the merging layers (add, subtract, multiply, average, maximum, minimum; any number of operands, broadcasting, different ranks), of QSum/QMeanPow2/sum/max/min over non-batch axes, of concatenate/repeat/moveaxis over non-batch axes, reshape, flatten and equal-rank arithmetic is that sample of the Keras result. keras.layers.Concatenate is replayed right only with an axis counted from the end; transpose with explicit axes raises, RepeatVector loses its new axis, Dot/QDot has an axis too many in the DAIS replay (rank > 2) and one too few in the alkaid replay (rank 2), and arithmetic on operands of different ranks differs.", "quantifier": "all batches, shapes, axes, numbers of operands", "why_tests_cant": "all shapes and axes", "anchors": ["src/hgq/_dais_tracer/layers/ops.py:ReplayMerge,ReplayQReduction,ReplayReduction,ReplayConcatenate,ReplayRepeat,ReplayTranspose,ReplayMoveaxis,ReplayReshape,ReplayRepeatVector,ReplayEinsum,ReplayArithmetic", "src/hgq/_alkaid_keras_plugin/ops.py:_QEinsum", "src/hgq/layers/ops/merge.py:QMerge,QAveragePow2", "src/hgq/layers/ops/accum.py:QSum"]}
{"id": "C50", "title": "Traced attention equals the attention layers", "statement": "The hardware replay of QMultiHeadAttention (fuse none, kv, qkv; any masks of one shape), QLinformerAttention and QSALTAttention (clustered or not, with or without the convolution of the scores) gives at every position the output and the attention weights of the layer, for every input. It is defined exactly when: with fusion, key_dim equals value_dim and the fused inputs are one array; without qkv fusion, the input quantizers are enabled; the masks given have one shape (a query mask together with a key mask, or either with a causal mask, is refused although the layer accepts it). Keys and values at positions a query may not attend to have no influence on the layer. QSALTAttention with cluster_v_proj cannot be called when the value length is a multiple of the projected length.", "quantifier": "all inputs, shapes, kernels, formats, tables, masks", "why_tests_cant": "all inputs and configurations", "anchors": ["src/hgq/_dais_tracer/layers/attn.py:_fused_qkv_proj,ReplayMHA,ReplayQLinformerAttention,ReplaySALTAttention", "src/hgq/layers/attn/mha.py:QMultiHeadAttention", "src/hgq/layers/attn/linformer.py:QLinformerAttention", "src/hgq/layers/attn/salt.py:QSALTAttention"]}
{"id": "C51", "title": "QEinsum computes the equation it is given", "statement": "For every equation with any number of operands and at most one ellipsis per term, and operands that fit it, the layer built from the equation computes exactly the einsum the equation denotes, whatever the number of axes the ellipsis stands for and in whatever order Python iterates the set of free letters, provided every letter of an operand without ellipsis also occurs in an operand with one and enough of the 52 letters are free. Otherwise the letters put in for the ellipsis can coincide with letters of the equation: the output then silently differs from the equation, and differs between processes. The EBOPs are the sum, over all output elements and summed coordinates, of the products of the operands' bit-widths, non-negative and monotone in them; with an ellipsis of exactly three axes they cannot be computed on a backend that demands the ellipsis in the output. A saved and reloaded layer has the same equation. The hardware replay of a two-operand QEinsum gives each sample of the layer's output.", "quantifier": "all equations, ranks, operands, set iteration orders", "why_tests_cant": "all equations and inputs; hash-seed dependent", "anchors": ["src/hgq/layers/ops/einsum.py:QEinsum.build,call,_compute_ebops,get_config", "src/hgq/_dais_tracer/layers/ops.py:ReplayEinsum"]}
{"id": "C52", "title": "EBOPs of attention, softmax, recurrent, table and spiking layers", "statement": "The figure such a layer adds to the model's EBOPs is non-negative, never decreases when a bit-width grows, and charges every multiplication and addition of its forward pass once, at the widths of the operands: attention over any number of sequence axes (all heads, query positions, key positions and dimensions), softmax (subtractions, accumulations, products with the inverse, exponential tables when unstable), GRU steps, table layers and spiking cells. Exceptions, each with a witness: attention along a part of the sequence axes cannot be charged at all; a positive parallelization factor of attention multiplies the full cost; the simple RNN layer charges the input products once per pair of time steps and its bias by the number of inputs; the GRU without reset_after charges one bias element.", "quantifier": "all shapes, ranks, widths, granularities, factors", "why_tests_cant": "must hold for every shape and width assignment", "anchors": ["src/hgq/layers/attn/mha.py:QMultiHeadAttention._compute_ebops", "src/hgq/layers/softmax.py:QSoftmax._compute_ebops", "src/hgq/layers/rnn/simple_rnn.py:_compute_ebops", "src/hgq/layers/rnn/gru.py:_compute_ebops", "src/hgq/layers/table/dense.py:QDenseT._compute_ebops", "src/hgq/layers/snn/base.py:_compute_ebops"]}
{"id": "C53", "title": "A traced network is bit-exact, end to end", "statement": "For every functional model built from the supported layers (Quantizer, QDense, QEinsumDense, QConv, QBatchNormalization, QSum/QMeanPow2, average/max pooling, merging layers, Reshape, Flatten, ReLU, lookup tables), with input and output quantizers, relu or linear activations, branches, layers used several times and nested models, and for every batch: tracing any sample of the batch succeeds, and its result equals exactly that sample's entry of what the model computes on the batch. Refuted where the layers leave this class: a dense or convolutional layer without bias cannot be traced; nor can an activation other than relu and linear outside a lookup table; the activation of a plain keras.layers.EinsumDense is silently dropped; a sum over all axes without keepdims is traced with an extra axis.", "quantifier": "all functional models of these layers (any depth, sharing and nesting), all weights and quantizer states within int8 widths, all batches and samples", "why_tests_cant": "a test runs a handful of small models on random batches; the claim is about every composition of layers and every input value", "anchors": ["/repo/src/hgq/_dais_tracer/main.py: trace_model", "/repo/src/hgq/_dais_tracer/layers/_base.py: ReplayOperationBase.__call__, mirror_quantizer", "/repo/src/hgq/_dais_tracer/layers/dense.py", "/repo/src/hgq/_dais_tracer/layers/conv.py", "/repo/src/hgq/_dais_tracer/layers/batchnorm.py", "/repo/src/hgq/_dais_tracer/layers/ops.py", "/repo/src/hgq/_dais_tracer/layers/pool.py", "/repo/src/hgq/layers/core/base.py: QLayerMeta"]}
{"id": "C54", "title": "Minifloat quantizer: range, resolution, bits", "statement": "For every number of mantissa bits m >= 0, exponent bits e >= 1 and exponent offset: the quantizer's advertised max and min are the largest and smallest numbers of the minifloat format (sign, e exponent bits, m mantissa bits, subnormals, no infinities), the advertised epsilon is its smallest positive number and divides every other one, and 2^bits - 1 is exactly the number of distinct values. Quantized values are in the format, quantizing again changes nothing, the error is at most one unit in the last place inside the range, and inputs beyond the range give max or min. Each element uses the format of its own group. The constraints keep m >= -1 and e >= 0 after every update, and m = -1 gives zero. Refuted: a pruned quantizer (m = -1) still advertises e bits, and with e = 0, which the constraint admits, the advertised max is irrational.", "quantifier": "all mantissa, exponent and offset widths, all inputs, all shapes and groupings of bit-widths, all optimizer updates, every rounding primitive that returns a neighbouring format value", "why_tests_cant": "the formats and inputs form an infinite family; a test checks a few formats on a few random inputs", "anchors": ["src/hgq/quantizer/internal/float_point_quantizer.py: FloatPointQuantizer.call, bits, max, min, epsilon", "src/hgq/constraints/__init__.py: Min, MinMax"]}
{"id": "C55", "title": "From a configuration to a working quantizer; hard tanh and hard sigmoid", "statement": "With the shipped defaults, a fixed-point quantizer configuration (kif or kbi) of every place, with any sign, any admissible initial widths and any homogeneous axes, yields a quantizer with exactly those and the place's other settings. A HardTanhConfig quantizer computes hard tanh (rounding, then limiting to [-1, 1) or, symmetric, to (-1, 1)), and a HardSigmoidConfig quantizer x/4 + 1/2 limited to [0, 1), for every input, whatever the process-wide defaults and other arguments, and after every history of calls, calibration resets and optimizer steps. Refuted: accepted configurations of type 'float' never yield a quantizer, because the shipped defaults contain a parameter its constructor does not accept.", "quantifier": "all configuration arguments and process-wide defaults, all histories of calls, resets and optimizer updates, all inputs", "why_tests_cant": "the argument combinations and training histories are unbounded; a test checks an initial state or one short training", "anchors": ["src/hgq/quantizer/config.py: QuantizerConfig.get_quantizer, HardTanhConfig, HardSigmoidConfig, default_configs", "src/hgq/quantizer/quantizer.py: Quantizer.__init__, Quantizer.call", "src/hgq/quantizer/internal/fixed_point_quantizer.py: FixedPointQuantizerKIF.__init__, FixedPointQuantizerKBI.__init__, build", "src/hgq/quantizer/internal/float_point_quantizer.py: FloatPointQuantizer.__init__", "src/hgq/quantizer/internal/base.py: TrainableQuantizerBase.__init__, DefaultBitwidthMapper.__init__"]}
{"id": "C56", "title": "A table einsum layer is an einsum of small networks, in software and in hardware", "statement": "For every equation of a QEinsumDenseT in which no letter repeats and the kernel has no letter of its own to sum over, the layer builds, and each output is the activation of the sum, over the letters the output lacks, of the quantized (and batch-normalized) small network of the kernel entry applied to the quantized input; with one linear weight per entry and no quantizers it is the ordinary einsum of the equation. Tracing the layer to hardware succeeds and yields the layer's output for every sample, provided that, if the layer has biases, the kernel's letters are the last letters of the table input in order, and that the normalized letters are listed in that order. Refuted without these provisos: with other orders the hardware uses another bias than the layer, and the layer normalizes entries with the statistics of others.", "quantifier": "all equations, axis sizes, numbers and widths of hidden layers, weights, statistics, quantizers, inputs, batch sizes and samples", "why_tests_cant": "equations and shapes are unbounded; a test tries a few equations, and a wrong axis order stays invisible for symmetric sizes or the common equations", "anchors": ["src/hgq/layers/table/dense.py: QEinsumDenseT.build, QEinsumDenseT.call, QEinsumDenseT._build_module, QEinsumDenseT._broadcast_shapes", "src/hgq/_alkaid_keras_plugin/table.py: _QEinsumDenseTable"]}
{"id": "C57", "title": "Spiking layers over a sequence: spikes, conservation, bounds, accumulator width", "statement": "For every input sequence of any length, initial state, inhibition setting and cell parameters: every output of QSimpleSNN and QLIF is the (quantized) graded spike or the (quantized) zero; with the subtracting reset and no state quantizer the final membrane equals the discounted start plus the discounted inputs minus threshold times the discounted spikes; with a leak of at most b < 1 and thresholds that are not negative the membrane stays within the input range over 1-b, without leak it grows at most linearly, with the zeroing reset it never stays above the threshold. The membrane width used for a QSimpleSNN's EBOPs suffices at every step of the sequence length it was built for. Splitting a sequence and carrying the state changes nothing. The leak is in [0, 1] after every training. Refuted: with a leak (QLIF) the membrane does not fit the counted width, and with a negative threshold, which is accepted, the membrane grows beyond every bound without input.", "quantifier": "all sequences, initial states, cell parameters, quantizers and training histories of the leak", "why_tests_cant": "sequences are unbounded, and the membrane depends on the whole history", "anchors": ["src/hgq/layers/snn/base.py: SpikingNeuralCell, QSimpleSNNCell.call, QSimpleSNNCell.fire, QSimpleSNNCell.reset, QSimpleSNNCell._accumulator_bits, QLIFCell.call, QLIFCell.build, QLIFCell.qlif_beta", "src/hgq/constraints/__init__.py: MinMax", "src/hgq/_alkaid_keras_plugin/snn.py: _QSNNReplay"]}
{"id": "C58", "title": "Causal QConv1D: causal convolution, streaming, and its mode over histories of calls", "statement": "For every causal QConv1D (kernel size, stride, dilation, groups, bias, activation), every batch and sequence length, with an input quantizer whose widths do not depend on the step (or none): each inference call returns ceil(n/stride) outputs, output t being the sum over the taps j of kernel[j] times the quantized input (k-1-j)*dilation steps before step t*stride, quantized zeros (zero without an affine map) before the first step; outputs up to t do not depend on later inputs; with stride 1 a later part of a sequence with (k-1)*dilation steps of context gets the outputs of the whole sequence; and any history of calls that do not raise leaves the layer causal. Refuted: with the default input quantizer (one width per step) every call of a causal layer with more than one tap raises, because the padding is added before the quantizer; the exception leaves the layer in mode 'valid', so repeating the call silently returns a shorter, non-causal result; and with EBOPs enabled every training or trace_minmax call raises.", "quantifier": "all layer parameters, quantizer states, inputs, sequence lengths and histories of calls, with and without exceptions", "why_tests_cant": "sequence lengths and histories are unbounded, and the mode after an exception depends on the history", "anchors": ["src/hgq/layers/conv.py: QConv1D.call, QConv1D._compute_causal_padding, QBaseConv.call, QBaseConv._compute_ebops", "src/hgq/layers/core/base.py: QLayerMeta.__call__", "src/hgq/quantizer/quantizer.py: Quantizer.call", "src/hgq/quantizer/config.py: kbi_datalane_default, kif_datalane_default"]}
{"id": "C59", "title": "Calibration of a whole network makes inference on the calibration data exact", "statement": "For a functional model built from HGQ layers with KIF quantizers on activations and KBI or KIF quantizers on weights, after trace_minmax(model, batches): predicting any of the calibration batches gives, at every layer, exactly the values computed during tracing (although later batches changed widths); no activation quantizer overflows on it (each call only rounds to the fraction width); prediction leaves the quantizers as they are; and the hardware model traced from the calibrated network gives exactly those outputs for each sample.", "quantifier": "all networks (any number of layers, branches, layers shared between several places), all lists of batches of any sizes, all initial quantizer states, with or without reset, every quantizer call inside the pass, every sample", "why_tests_cant": "A test calibrates one network on a few batches; the interplay of quantizers through the network (each later quantizer is calibrated on what earlier ones returned with then-smaller widths) has unboundedly many depths and histories.", "anchors": ["src/hgq/utils/minmax_trace.py: trace_minmax", "src/hgq/utils/minmax_trace.py: _reset_minmax", "src/hgq/layers/core/base.py: QLayerBase", "src/hgq/quantizer/internal/fixed_point_quantizer.py: FixedPointQuantizerKIF"]}
{"id": "C60", "title": "Attention treats the sequence as a set when its quantizers do not distinguish positions", "statement": "For QMultiHeadAttention whose quantizers share their formats over the sequence axes (homogeneous_axis containing them): giving the queries in another order and the keys with their values in another order, with the masks carried along, returns the outputs in the order of the queries and otherwise unchanged, and the attention weights reordered in both axes. So self-attention is permutation equivariant, a sum over the positions is permutation invariant, the order of keys and values never matters, QLinformerAttention is equivariant in the queries, and the traced hardware description is equivariant too. With the default input quantizers, which keep separate formats for every position, this fails even on the calibration data.", "quantifier": "all layers (any sizes, heads, fuse mode, masks, tables, formats per feature), all permutations of queries and of keys, all inputs", "why_tests_cant": "A test permutes a few short sequences; the number of permutations is factorial in the length and the property depends on every format of every quantizer and table.", "anchors": ["src/hgq/layers/attn/mha.py: QMultiHeadAttention", "src/hgq/layers/attn/linformer.py: QLinformerAttention", "src/hgq/layers/softmax.py: QSoftmax", "src/hgq/quantizer/config.py: homogeneous_axis"]}
{"id": "C61", "title": "A network evaluated in float32 gives exactly the fixed-point values of the hardware", "statement": "Evaluating a quantized functional model in float32 (every product, addition, division and quantizer step rounded to the nearest float32, sums in any order the backend chooses, with or without fused multiply-adds) gives exactly the rational values of the model and hence, for each sample, exactly what the traced hardware description computes, whenever each intermediate sum has operands on a common grid whose magnitudes add up to at most 2^24 steps and each quantizer input keeps a bit of headroom. Two backends then return identical results. For a dense layer the condition follows from the quantizers' formats and the kernel. Without headroom it fails: with the default rounding RND a float32 input just below half a step, or an odd number of steps beyond 2^23, is rounded differently from the fixed-point definition, and WRAP sends values beyond 2^24 steps to another code.", "quantifier": "all functional models of the layers of C53 (branches, shared layers, nested models), all inputs, all summation orders per layer and position", "why_tests_cant": "A test runs one backend with one summation order on a few inputs; rounding differences show only for particular operand combinations and orders.", "anchors": ["src/hgq/layers/core/base.py: QLayerBase.call", "src/hgq/quantizer/internal/fixed_point_quantizer.py: FixedPointQuantizerBase.call", "src/hgq/quantizer/quantizer.py: Quantizer.call", "src/hgq/layers/core/dense.py: QDense", "src/hgq/layers/conv.py: QBaseConv", "src/hgq/layers/ops/merge.py: QMerge"]}
{"id": "C62", "title": "Arguments given to a constructor reach the class that uses them", "statement": "Calling a layer (or the early-stopping callback) with keyword or positional arguments: the call is accepted exactly when every name is declared by some class of its method resolution order and not one the layer fixes itself, every required argument is given, and the constructors' checks on flags and strings hold. In an accepted call every argument arrives unchanged at the class that stores it, through all the `gather_vars_to_kwargs` patterns, pops and super() calls, and every parameter not given has the default declared by the most derived class. For the sequence layers the argument reaches the layer or its cell; for the attention layers the quantizer configurations, initializers, regularizers, constraints and table settings reach every projection and the softmax that is built inside. The layers that replace a keras layer take its positional arguments in the same order. Exceptions: the table attentions replace the user's `fuse` and accept kernel settings that nothing uses, keywords of the form __x__ are silently dropped, and `softmax_iq_conf` reaches a quantizer that is switched off.", "quantifier": "all public layer classes and the four sequence layers, all sets of keyword arguments with arbitrary values, all patterns and names", "why_tests_cant": "There are more than 50 classes with up to 40 parameters each and any subset can be given; a test tries a few combinations, and a wrong pattern only drops or diverts one argument silently.", "anchors": ["src/hgq/utils/misc.py: gather_vars_to_kwargs", "src/hgq/layers/core/base.py: QLayerBase.__init__", "src/hgq/layers/core/dense.py: QDense.__init__", "src/hgq/layers/attn/mha.py: QMultiHeadAttention._get_common_kwargs_for_sublayer", "src/hgq/layers/attn/mha.py: QMultiHeadAttentionT._make_table_dense", "src/hgq/layers/rnn/simple_rnn.py: QSimpleRNN.__init__", "src/hgq/layers/rnn/gru.py: QGRU.__init__", "src/hgq/layers/snn/base.py: QLIF.__init__"]}
{"id": "C63", "title": "Whole models of any traced layer kind give the layer outputs sample by sample", "statement": "Trace a functional model (with branches, shared layers and nested models) built of the layers of C53 and of keras.ops operations (absolute, add, subtract, multiply, maximum, minimum, concatenate, repeat, moveaxis, indexing, matmul, einsum), Dropout-like layers, QEinsum, global pooling, LeakyReLU/PReLU/ReLU, QSoftmax, the lookup-table layers QDenseT/QConvT and the attention layers (with a causal mask and with attention scores): tracing sample b succeeds and every output variable array equals entry b of the model's output on the batch, exactly, whatever identities and value ranges the tracer assigns, as long as the ranges contain the values. Exceptions, each refuted: keras.ops.sum/max (the axis is dropped), einsum of a list without input quantizer (QEinsum/QDot with enable_iq=False, keras.layers.Dot), lookup-table layers without input quantizer or with an activation other than relu, fused attention of two different arrays, array-valued keyword arguments such as masks.", "quantifier": "all functional models of these layers, all depths of nesting, all batches and samples, all assignments of identities and sound ranges to traced arrays", "why_tests_cant": "A test traces a few models with a few inputs; the statement is about every composition of about 40 layer kinds, and failures depend on combinations such as which array object feeds which argument or which ranges the variables have.", "anchors": ["src/hgq/_dais_tracer/main.py: trace_model", "src/hgq/_dais_tracer/layers/_base.py: ReplayOperationBase.__call__", "src/hgq/_dais_tracer/layers/ops.py: ReplayArithmetic", "src/hgq/_dais_tracer/layers/ops.py: ReplayReduction", "src/hgq/_dais_tracer/layers/ops.py: ReplayEinsum", "src/hgq/_dais_tracer/layers/pool.py: ReplayPool", "src/hgq/_dais_tracer/layers/activation.py: ReplayQSoftmax", "src/hgq/_dais_tracer/layers/table.py: ReplayDenseTable", "src/hgq/_dais_tracer/layers/attn.py: ReplayMHA"]}
{"id": "C64", "title": "The resource loss only ever shrinks the model", "statement": "Train any of 15 layer kinds with the resource loss (beta * EBOPs * ebops_factor) and MonoL1 penalties only, with any optimizer that does not move against non-negative gradients (SGD with or without momentum, for instance), interleaved in any way with training calls on data: no step ever fails, no trainable width ever grows and the EBOPs never grow (except through data dependent integer widths of WRAP quantizers with separate i and f), provided widths have non-negative constraints. For every kind the gradient of a width lies between the EBOPs price of its last bit and of one more bit; for dense, einsum-dense, convolution, batch-normalization and attention layers it is exactly the price of one more bit. A width that is zero because i + f <= 0 gets no resource gradient. A width with MonoL1(l1) under SGD arrives at the lower bound of its constraint after (w - lower)/(lr*l1) steps and stays there. Refuted: at pruned widths the gradient is not the price of a bit; a KBI width without a non-negative constraint can fall below zero, and then the loss raises other widths.", "quantifier": "all layers of the 15 kinds, shapes, quantizer groupings, width values, overflow modes, constraints, regularizers, backends' tie conventions, optimizers and training histories", "why_tests_cant": "A test runs a few steps; the statement is about every history, optimizer and shape, and about gradients, where ties of min/max and straight-through rounding make single numerical checks uninformative.", "anchors": ["src/hgq/layers/core/base.py: QLayerMeta", "src/hgq/layers/core/dense.py: QDense._compute_ebops", "src/hgq/layers/ops/merge.py: _ebops_from_sum_bits_excl_max", "src/hgq/layers/attn/mha.py: QMultiHeadAttention._compute_ebops", "src/hgq/quantizer/internal/base.py: round_conv", "src/hgq/quantizer/internal/fixed_point_quantizer.py: FixedPointQuantizerKBI", "src/hgq/quantizer/internal/fixed_point_quantizer.py: FixedPointQuantizerKIF", "src/hgq/constraints/__init__.py: MinMax", "src/hgq/regularizers/__init__.py: MonoL1"]}
{"id": "C65", "title": "Calibration is exact for layers that call a quantizer many times", "statement": "For a network of recurrent layers (QSimpleRNN, QGRU, both directions, with or without sequences), spiking layers (QSimpleSNN, QLIF), QSoftmax, QMultiHeadAttention, table layers and the plain layers of C59, possibly sharing quantizers between layers, with KIF quantizers on data and KBI or KIF quantizers on weights: after trace_minmax(model, batches), predicting any of the batches gives at every layer exactly the values computed while tracing it, although a quantizer was widened at later time steps of the same call and by later batches; no WRAP quantizer overflows at any time step; prediction changes no quantizer; prediction of each sample of a batch is the recurrence of the cell over that sample's sequence; and the hardware description traced from a calibrated recurrent, spiking or multi-head attention layer gives exactly the recorded outputs for each sample. Refuted for a KBI quantizer on a recurrent state: widening at a later step changes earlier steps.", "quantifier": "all networks (any number of nodes, any sharing of layers and quantizers), all layer sizes, sequence lengths, batch sizes, lists of batches, weights, initial quantizer states, activation functions, with or without reset", "why_tests_cant": "A test calibrates one recurrent model on a few sequences; each question put to a quantizer depends on all earlier answers and on how wide the quantizers were at that step, so the number of histories grows with length, depth and batches.", "anchors": ["src/hgq/utils/minmax_trace.py: trace_minmax", "src/hgq/layers/rnn/simple_rnn.py: QSimpleRNNCell.call", "src/hgq/layers/rnn/simple_rnn.py: QRNN.call", "src/hgq/layers/rnn/gru.py: QGRUCell.call", "src/hgq/layers/snn/base.py: QSNNCell", "src/hgq/layers/snn/base.py: QLIFCell.call", "src/hgq/layers/softmax.py: QSoftmax.call", "src/hgq/layers/attn/mha.py: QMultiHeadAttention._compute_attention", "src/hgq/layers/table/dense.py: QDenseT.call", "src/hgq/quantizer/internal/fixed_point_quantizer.py: FixedPointQuantizerKIF"]}
{"id": "C66", "title": "The prediction for a sample does not depend on the batch it is in", "statement": "If a sample occurs in two batches, at any places, among any other samples, in batches of any sizes, then in inference a model gives it the same outputs, at every layer: for models of the layers of C63 (dense, einsum, convolution, pooling, merging, reshaping, batch normalization, lookup tables, attention, softmax, reductions, ...), for networks of QSimpleRNN, QGRU, spiking layers, attention and plain layers with any numeric activation, with or without bias, with any data quantizers whose widths are shared along the batch axis, at any point of their history. Refuted for a quantizer with separate widths along the batch axis and for a QSum over it.", "quantifier": "all models and networks, all pairs of batches sharing a sample, all sizes, weights, quantizer states and activation functions", "why_tests_cant": "A test compares a few batches of one model; whether a neighbour can leak into a sample through broadcasting, padding, reduction axes or shared state must be excluded for every layer, shape, place and neighbour.", "anchors": ["src/hgq/layers/core/base.py: QLayerBase", "src/hgq/layers/core/dense.py: QDense.call", "src/hgq/layers/conv.py: QBaseConv.call", "src/hgq/quantizer/internal/fixed_point_quantizer.py: FixedPointQuantizerBase.call", "src/hgq/layers/rnn/simple_rnn.py: QRNN.call", "src/hgq/layers/attn/mha.py: QMultiHeadAttention"]}
{"id": "C67", "title": "Multiplications that cost nothing contribute nothing; a layer that reports zero EBOPs is constant", "statement": "EBOPs are the cost users minimise: where the reported width of a quantizer is zero its output is zero, so a multiplication whose cost (product of the two widths) is zero has the value zero in every sample; and a QDense, QEinsumDense or QConv layer (any stride, dilation, groups, padding, with or without bias, any activation and output quantizer) that reports zero EBOPs gives the same output for every input. This holds for saturating quantizers and for WRAP data quantizers whose sign bit is on only where there are magnitude bits, which a calibration with reset guarantees (KIF without a constraint on i, KBI). Refuted for a signed WRAP quantizer with k = 1 and no magnitude bits: it reports zero bits but takes two values.", "quantifier": "all layers, shapes, weights, inputs, batches, quantizer widths and calibration histories", "why_tests_cant": "Tests compare EBOPs with a hand-computed number for a few layers; that the figure counts every multiplication that can influence the output, for every shape and width pattern, is a statement about all inputs.", "anchors": ["src/hgq/quantizer/internal/fixed_point_quantizer.py: FixedPointQuantizerBase.bits", "src/hgq/layers/core/dense.py: QDense._compute_ebops", "src/hgq/layers/core/einsum_dense.py: QEinsumDense._compute_ebops", "src/hgq/layers/conv.py: QBaseConv._compute_ebops", "src/hgq/utils/minmax_trace.py: trace_minmax"]}
{"id": "C68", "title": "As the bit-widths grow the quantized network converges to the unquantized one", "statement": "Quantization is the only difference between the HGQ layers and their Keras originals: a signed quantizer (KIF or KBI, any rounding and overflow mode, no scaler or affine) with at least m integer and m fractional bits is off by at most 2^-m on numbers up to 2^m - 2; and when the integer and fractional bits of all quantizers of a network grow beyond every bound, every value of its forward pass converges to the value of the same network without quantizers. This covers dense, einsum, convolution, batch-normalised, pooling, sum, merge, reshape and activation layers with continuous activations, QSimpleRNN, QGRU (both reset conventions), QSoftmax (stable or not, with masks) and multi-head attention, connected in any way. Refuted when only the fractional bits grow, and for activations with jumps.", "quantifier": "all networks of these layers, weights, inputs, sequences of bit-width assignments, rounding and overflow modes", "why_tests_cant": "Tests compare a quantized layer at one generous width with Keras up to a tolerance; convergence is a statement about every tolerance, every width from some point on, and every network.", "anchors": ["src/hgq/quantizer/internal/fixed_point_quantizer.py: FixedPointQuantizerBase.call", "src/hgq/layers/core/dense.py: QDense.call", "src/hgq/layers/rnn/simple_rnn.py: QSimpleRNNCell.call", "src/hgq/layers/rnn/gru.py: QGRUCell.call", "src/hgq/layers/softmax.py: QSoftmax.call", "src/hgq/layers/attn/mha.py: QMultiHeadAttention.call"]}
{"id": "C69", "title": "Without quantizers the layers compute what their Keras originals compute; dense, recurrent and attention layers converge to them", "statement": "With all quantizers disabled, QDense returns activation(x K + b); QSimpleRNN and QGRU (both reset conventions, forwards or backwards, whole sequence or last step, with or without bias) run, for every sample of the batch, the recurrence that Keras documents from the zero state; QSoftmax returns exp(g_j) * inv(sum_k exp(g_k)), where g is the input or, in the stable form, its distance to the greatest element of the row (with a mask, masked entries count as -10^9 and get no weight); and QMultiHeadAttention returns the projected sums of the projected values weighted by the softmax of the products of the projected query and keys. The entries of the stable softmax without mask (and the weights of the stable attention) are not negative, sum to at least 1 - epsilon and less than 1, where epsilon is that of the reciprocal 1/(v + epsilon), and keep the order of the inputs if the exponential is decreasing. As the bit-widths of a QDense, QSimpleRNN, QGRU or QMultiHeadAttention grow beyond every bound, every entry of its output converges to the entry of that formula.", "quantifier": "all batch sizes, sequence lengths, units, features, weights, inputs, activations, options, and sequences of bit-width assignments", "why_tests_cant": "Tests compare single layers with Keras at a few shapes up to a tolerance; the equality must hold for every length of the sequence, every weight and every option, and the limit is about every tolerance.", "anchors": ["src/hgq/layers/core/dense.py: QDense.call", "src/hgq/layers/rnn/simple_rnn.py: QSimpleRNNCell.call", "src/hgq/layers/rnn/gru.py: QGRUCell.call", "src/hgq/layers/softmax.py: QSoftmax.call", "src/hgq/layers/attn/mha.py: QMultiHeadAttention.call"]}
