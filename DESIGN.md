# Formal model of calad0i/HGQ2 in Rocq (Coq 8.16.1)

## Layout

`rocq/theories/` (logical name `Verif`). Per area:

* `Num.v`  rational and power-of-two arithmetic used everywhere;
* `M_*.v`  the model: total computable Gallina functions, each citing the file and lines in /repo it models;
* `S_*.v`  the specification vocabulary, written without the model's helpers (definitions a reader has to accept);
* `L_*.v`  lemmas and proofs;
* `P_*.v`  the property theorems only: statement, `exact lemma`, `Print Assumptions`, and `Example`s showing that
  the hypotheses are met by a concrete, non-trivial case.

`MANIFEST.json` maps properties to theorem names; `seeded/LOG.jsonl` records the wrong programs the theorems were tried on.

Theorem name suffixes: `_refuted` is a proof that a plausible stronger reading of the property is **false of the code**, with
the concrete witness in the statement; it marks the exact boundary of the positive theorems beside it. `_partial`
would mark a theorem that covers only part of the property; there is none at present.

## Numbers

Tensor entries are rationals (`Q`): every finite binary32 value is rational. Arithmetic in the models is exact; that
binary32 evaluation agrees with exact arithmetic for calibrated fixed-point values is a property of its own (C38),
proved with Flocq's binary32 rounding. Widths are integers (`Z`), except where the code stores a float (trainable `_i`,
`_b`, `_f`), where the model has a rational. `ceil(log2(x))` is an exact integer function with a proved
characterisation (least `i` with `x <= 2^i`). Learned-statistics layers (batch normalization), the beta controllers
and the softmax used by attention are modelled over the Coq reals (`R`).

Exceptions are `None` (or an explicit error constructor where the kind of the exception is part of a property).
Randomness is nondeterminism (an arbitrary permutation for shuffling; stochastic rounding is only modelled outside training, where it is deterministic).

## Per property: what is modelled, and how it is proved

### C01 Fixed-point inference output is representable (proved; P_Fixed.v)

*Modelled:* `FixedPointQuantizerBase.call` and the rounding/overflow functions on one element (M_Fixed).

*Proof:* The result of each rounding mode is an integer code, each overflow mode maps codes into the code range; case analysis over modes, floor and modulo arithmetic.

### C02 Quantization is idempotent and fixes exactly the representable grid (proved; P_Fixed.v)

*Modelled:* as C01.

*Proof:* Representable numbers are fixed by every mode (floor of an integer, in-range modulo and clip are identities); C01 gives the converse.

### C03 Rounding error bound (proved; P_Fixed.v)

*Modelled:* as C01.

*Proof:* Floor inequalities per rounding mode; `rounding_determined` characterises the result as the only grid point satisfying the mode's definition (ties included).

### C04 Saturation returns the nearest end of the range and is monotone (proved; P_Fixed.v)

*Modelled:* as C01.

*Proof:* Clip case analysis; monotonicity of rounding and clipping.

### C05 WRAP is two's complement truncation (proved; P_Fixed.v)

*Modelled:* as C01.

*Proof:* Modulo arithmetic: the result differs from the rounded input by a multiple of 2^(i+k) and lies in the range, which determines it.

### C06 Advertised bit counts are exact (proved; P_Fixed.v)

*Modelled:* `bits`, `fbits`, `min`, `max`, `epsilon` of the quantizers (M_Fixed).

*Proof:* Bijection between representable values and an interval of codes; its length is 2^bits exactly when `fbits` says so. The refuted theorem is the zero-width WRAP case.

### C07 Calibration makes inference overflow-free on the calibration data (KIF) (proved; P_Mapper.v, P_State.v)

*Modelled:* `FixedPointQuantizerKIF.call` in tracing mode as a state machine over batches, `_reset_minmax`, `trace_minmax`; scalars (M_State) and whole tensors (M_Mapper).

*Proof:* Invariant over the batch list: the stored integer width covers every sample seen; then WRAP is the identity on the rounded value (C05).

### C08 Calibration makes inference overflow-free on the calibration data (KBI) (proved; P_Mapper.v, P_State.v)

*Modelled:* `FixedPointQuantizerKBI.call`, same set-up.

*Proof:* As C07; the fraction shrinks as the integer width grows, so the invariant carries the final width. Refuted: widths whose epsilon compensation is too small (b >= 23).

### C09 Calibration result does not depend on batching or order (proved; P_State.v)

*Modelled:* as C07/C08, two histories.

*Proof:* The final width equals a maximum over all samples, which does not depend on order or batching; refuted for the sign bit of KBI with order-dependent groups.

### C10 Calibrated integer width is the smallest safe one (proved; P_State.v)

*Modelled:* as C07.

*Proof:* Characterisation of the exact `ceil(log2)`: one bit less does not cover the maximum.

### C11 Integer width constraint holds after every update (proved; P_State.v)

*Modelled:* constraints (constraints/__init__.py) and the KIF/KBI updates.

*Proof:* Invariant over call lists; witness for KIF training (the constrained value is computed and not stored).

### C12 A training call is consistent with inference on the same data (proved; P_State.v)

*Modelled:* KIF/KBI `call` in training mode followed by inference.

*Proof:* The stored width after the training call covers the batch; then C01/C05.

### C13 Per-axis bit-widths apply to exactly the elements of their group (proved; P_Mapper.v, P_Scope.v)

*Modelled:* N-dimensional tensors as shape + index function; `check_axis`, `DefaultBitwidthMapper` (M_Mapper).

*Proof:* Induction over shapes: broadcasting reads the coordinate on heterogeneous axes, reductions range over exactly the group.

### C14 Scaler, affine and noise factor (proved; P_Wrapper.v)

*Modelled:* `Quantizer.call`: scaler, affine, noise factor (M_Wrapper).

*Proof:* Field algebra over Q; witnesses for the interaction of noise and scaler.

### C15 Quantizer configuration scopes are properly nested (proved; P_Scope.v)

*Modelled:* default dictionaries as maps, `QuantizerConfigScope` enter/exit/override as state transformers, programs as nested scopes whose bodies may raise (M_Scope).

*Proof:* Induction over programs; lookup-function extensionality is avoided by pointwise equality.

### C16 Layer configuration scopes are properly nested (proved; P_Scope.v)

*Modelled:* `LayerConfigScope` (M_Scope).

*Proof:* As C15.

### C17 Dataset visits every sample exactly once per epoch (proved; P_Dataset.v)

*Modelled:* `Dataset` index arithmetic, shuffling as an arbitrary permutation, `__getitem__` with Python index rules (M_Dataset).

*Proof:* `seq`/`firstn`/`skipn` lemmas, permutations.

### C18 Dataset drop_last yields full, disjoint, in-range batches (proved; P_Dataset.v)

*Modelled:* as C17 with drop_last.

*Proof:* as C17.

### C19 Piecewise beta schedule (proved; P_Beta.v)

*Modelled:* `PieceWiseSchedule`, `BetaScheduler` over R (M_Beta).

*Proof:* Interval case analysis; real `exp`/`ln` identities for log segments.

### C20 BetaPID controller (proved; P_Beta.v)

*Modelled:* `PID`, `BaseBetaPID`, `BetaPID` over R as a state machine over epochs.

*Proof:* Invariants and one-step monotonicity of the controller; steady-state theorem for a constant error.

### C21 StopIf patience (proved; P_Callback.v)

*Modelled:* `StopIf` state machine (M_Callback).

*Proof:* Invariant: the counter is the length of the current run; induction over histories.

### C22 EBOPs-gated early stopping (proved; P_Callback.v)

*Modelled:* `EarlyStoppingWithEbopsThres` around an abstract early-stopping step.

*Proof:* Simulation: epochs above the threshold are invisible.

### C23 Pareto front (proved; P_Callback.v)

*Modelled:* `ParetoFront.on_epoch_end` with its file-system effects.

*Proof:* Invariant: the stored records are pairwise non-dominated (in the code's own sense) and equal to the files; witnesses for the documented sense.

### C24 EBOPs are non-negative, monotone and zero only for pruned operations (proved; P_Ebops.v)

*Modelled:* `_compute_ebops` of dense, einsum, convolution, merge, sum, batch norm, pooling, LUT layers (M_Ebops) and contractions polymorphic in the operand type (M_Contr).

*Proof:* The same polymorphic contraction yields the forward pass, the EBOPs and the list of multiplications: EBOPs = sum of bits products over the multiplications performed; monotonicity and sign of sums.

### C25 Parallelization factor scales EBOPs linearly (proved; P_Ebops.v)

*Modelled:* as C24 with the parallelization factor.

*Proof:* Ring algebra on the formulas; witness for the convolution bias.

### C26 Batch-norm fusion into a dense layer is exact (proved; P_Norm.v)

*Modelled:* `get_fused_qkernel_and_qbias` of QBatchNormDense and QEinsumDenseBatchnorm over R (M_Norm).

*Proof:* Field identities give the exact error term; counterexamples for the defects.

### C27 Batch normalization flags (proved; P_Norm.v)

*Modelled:* `QBatchNormalization._scaler_and_offset`, `call`.

*Proof:* Field identities; counterexample for `center=False`.

### C28 Traced quantizers behave like the layer's quantizers (proved; P_Mirror.v)

*Modelled:* `mirror_quantizer` with the int8 cast of the widths, on integer codes as the tracing package does (M_Mirror).

*Proof:* Codes and rationals are related by scaling with 2^f; equality of the bit operation with the arithmetic one, for all tensors and all samples of a batch.

### C29 Model tracing replays the network (proved; P_Trace.v)

*Modelled:* `_trace_model`: MaybeRename, parse_model, replace_tensors, nested models, reused layers, over abstract layers (M_Trace).

*Proof:* Invariant over the node list: the tensor map satisfies the data-flow equations; fuel only bounds nesting.

### C30 Traced names are unique (proved; P_Trace.v)

*Modelled:* as C29.

*Proof:* The renamed names are pairwise distinct if no layer name ends in `#n`; witness otherwise.

### C31 Traced convolution equals the convolution (proved; P_Patch.v)

*Modelled:* `symbolic_extract_patches` (index encoding in float32), `ReplayQConv` (M_Patch) against `ops.conv` (M_Contr).

*Proof:* Row-major index arithmetic for any number of spatial axes; finite-sum reindexing; witnesses for groups and for more than 2^24 elements.

### C32 Spiking layers: traced replay equals the layer (proved; P_Float.v, P_Rnn.v)

*Modelled:* SNN cells and `_QSNNReplay` (M_Rnn).

*Proof:* Arg-max first-tie equivalence; induction over time steps.

### C33 Recurrent layers: traced replay equals the layer (proved; P_Rnn.v)

*Modelled:* SimpleRNN/GRU cells and `_QRNNReplay` (M_Rnn).

*Proof:* Step equality by C28-style quantizer equality; induction over time steps.

### C34 Lookup-table layers equal the function they tabulate (proved; P_Table.v)

*Modelled:* LUT layers, QDenseT and ReplayDenseTable (M_Table).

*Proof:* Tables list the function on the codes in order; the grouped, masked table construction returns the table of each position (induction over rows).

### C35 Power-of-two averaging (proved; P_Pow2.v)

*Modelled:* `2**round(log2(1/n))` (M_Pow2).

*Proof:* Squares compared with powers of two; the real-valued statement via Reals.

### C36 Quantized softmax masking (proved; P_Softmax.v)

*Modelled:* `QSoftmax.call` and its replay (M_Softmax).

*Proof:* Relational reasoning over masked positions; calibration witness.

### C37 Dropping the key bias in attention is harmless (proved; P_Softmax.v)

*Modelled:* attention scores with and without the key bias; real softmax (S_SoftmaxR).

*Proof:* Shift invariance of softmax / of the max-subtracted table input.

### C38 Float32 evaluation of calibrated layers is exact and order independent (proved; P_Float.v)

*Modelled:* binary32 evaluation of any summation tree (M_Float).

*Proof:* Flocq: every partial sum is a multiple of the common step below 2^24 steps, hence in the format, hence rounding is the identity.

### C39 trace_minmax total equals the sum of the layers' EBOPs (proved; P_Total.v)

*Modelled:* layer trees with identities; `ebops` properties; FreeEBOPs, trace_minmax, get_ebops (M_Total).

*Proof:* Induction over trees; the exact difference of the totals; witnesses.

### C40 Saved configurations reload to the same object (proved; P_Config.v)

*Modelled:* QuantizerConfig and subclasses; a table of constructors and get_config of every layer class (M_Config).

*Proof:* Association-list lemmas, case analysis over the classes; witnesses for lost fields.

### C41 QKeras compatible quantized_bits (proved; P_QKeras.v)

*Modelled:* `quantized_bits` (M_QKeras).

*Proof:* Evaluation of the modelled call; witnesses.

### C42 QKeras argument strings (proved; P_QKeras.v)

*Modelled:* `parse_string_to_args`, `str_float_int_or_none`, `from_string`, `__str__` on strings of code points.

*Proof:* Induction over strings; round-trip lemma for split/strip.

### C43 Moving statistics of batch normalization stay valid (proved; P_Norm.v)

*Modelled:* moving statistics updates over R.

*Proof:* Convexity.

### C44 Traced ReLU family equals the layers (proved; P_Mirror.v)

*Modelled:* `ReplayReLU` on intervals and values (M_Mirror).

*Proof:* Case analysis on sign and range; witness for a threshold off the grid.

### C45 Traced pooling equals the pooling (proved; P_Patch.v)

*Modelled:* `ReplayPool` (M_Patch).

*Proof:* Windows are the pooling windows; maximum with padding value; witness.

### C46 Caching quantized weights in recurrent layers is transparent (proved; P_Rnn.v)

*Modelled:* weight cache of recurrent layers as state (M_Rnn).

*Proof:* Invariant over call histories incl. exceptions.

### C47 A layer call records its EBOPs and adds its loss once (proved; P_Call.v)

*Modelled:* `QLayerMeta`: wrapping of `call`, method resolution, class histories (M_Call).

*Proof:* Counting the wrappers on the resolved call; all package classes by case analysis.

### C48 QKeras keyword arguments of layers (proved; P_QKeras.v)

*Modelled:* `qkeras_layer_wrap` (M_QKeras).

*Proof:* Evaluation on association lists.

### C49 Traced array operations equal the Keras operations (proved; P_Ops.v)

*Modelled:* array-operation replays against the Keras operations on batches (M_Ops).

*Proof:* Broadcasting and einsum-label lemmas for all ranks and shapes; witnesses.

### C50 Traced attention equals the attention layers (proved; P_Attn.v)

*Modelled:* the attention layers and their replay: projections and their fusion, shared input quantizers, masks, softmax tables, output projection, Linformer and SALT projections, clustering, convolution of the scores (M_Attn, on M_Softmax, M_Patch).

*Proof:* Pointwise agreement of every stage; np.split arithmetic; mask shapes by cases; the softmax and convolution theorems of C36 and C31 reused.

### C51 QEinsum computes the equation it is given (proved; P_Einsum.v)

*Modelled:* the scan over the terms, the choice and substitution of letters, the EBOPs equation, the saved equation (M_Einsum); einsum itself is defined from the numpy manual (S_Einsum), Python sets as any permutation.

*Proof:* Substitution lemma: replacing the ellipsis by fresh letters preserves the meaning (nested sums permuted); the scan finds the number of axes; witness for the clash.

### C52 EBOPs of attention, softmax, recurrent, table and spiking layers (proved; P_Cebops.v)

*Modelled:* the attention equations (from Keras), the einsum over bit-widths, every _compute_ebops of these layers (M_Cebops), over rationals; float rounding of the sums is not modelled.

*Proof:* Label blocks bound and permuted into nested sums; each summand monotone; witnesses for the exceptions.

### C53 A traced network is bit-exact, end to end (proved; P_Net.v)

*Modelled:* M_Net: complete layers (input quantizers, operation, activation, output quantizer) in Keras and in the tracer, on top of M_Ops, M_Patch, M_Mirror and M_Trace

*Proof:* relational lifting over the tracer's walk (L_Lift), with the relation `the traced array holds sample b of the batch`; one lemma per operation (broadcasting of constants, einsum with a batch label, convolution through patches, reductions, reshapes), congruence of every replay operation in its argument

### C54 Minifloat quantizer: range, resolution, bits (proved; P_Mini.v)

*Modelled:* M_Mini: the properties bits, max, min, epsilon (with real powers), the per-group call, the constraints; the external float_quantize is a parameter

*Proof:* an order-preserving enumeration of the magnitudes (L_Mini.mag), counting by its injectivity, neighbour search for the error bound; the external rounding function is assumed only to return an adjacent format value, and such a function is exhibited

### C55 From a configuration to a working quantizer; hard tanh and hard sigmoid (proved; P_Make.v)

*Modelled:* M_Make: get_quantizer and the constructors with their accepted keywords and assertions, on top of the configuration model M_Config; the life of a quantizer (calls, resets, constrained updates) on top of M_State; inference through the wrapper

*Proof:* an invariant of the life of a non-WRAP quantizer (sign kept, integer width pinned by the Constant constraint), the parameters of an accepted configuration computed for arbitrary defaults, clipping lemmas; the float case by the unaccepted keyword, for all processes

### C56 A table einsum layer is an einsum of small networks, in software and in hardware (proved; P_EinsumT.v)

*Modelled:* M_EinsumT: build (letters, presum shape, contracted, transposed and normalized axes), the chain of EinsumDense layers with swapped hidden letters, batch normalization in inference, call, and the tracer that evaluates the networks on each variable's grid, grouped by table size

*Proof:* einsum lemmas over valuations of letters (a term is bound once, sums factor over batch and contracted letters), row-major reshaping with added unit axes, an induction over the hidden layers, and the table lemmas of C42; refutations by computed witnesses

### C57 Spiking layers over a sequence: spikes, conservation, bounds, accumulator width (proved; P_Spike.v)

*Modelled:* the cells and time loop of M_Rnn, the accumulator width of M_Cebops, M_Spike: the leak parameter under constrained updates and its quantizer

*Proof:* inductions over the sequence with invariants on the membrane (interval, integer code interval, discounted sum); spikes are 0 or 1 and a spike implies a membrane above the threshold

### C58 Causal QConv1D: causal convolution, streaming, and its mode over histories of calls (proved; P_Causal.v)

*Modelled:* M_Causal: the padding attribute as state, padding, input quantizer (all modes, with its state), convolution, bias, activation, the EBOPs step of the wrapped call, histories in which exceptions are caught

*Proof:* the valid convolution of the padded input is rearranged into the causal sum; causality and streaming follow from that formula; histories by induction; the failures by computing shapes

### C59 Calibration of a whole network makes inference on the calibration data exact (proved; P_Calib.v)

*Modelled:* the quantizers of a model as a numbered mutable state shared by all nodes, forward passes in Train/Trace/Infer mode over a list of nodes, reset and the loop of trace_minmax, and the conversion to the network of C53 (M_Calib); the log of quantizer calls is only read by theorems

*Proof:* per-quantizer histories are extracted from the log and C08 applied to each; induction over the nodes shows that inference repeats the recorded inputs of each quantizer up to equality of values; hardware by composition with C53. Refuted for KBI quantizers on activations with more than one batch: a later batch takes fraction bits away, values recorded before are not reproduced, and a following KIF quantizer can overflow on calibration data.

### C60 Attention treats the sequence as a set when its quantizers do not distinguish positions (proved; P_Perm.v)

*Modelled:* the attention layers of C50 (M_Attn); position-blindness is a statement about the widths each quantizer and table uses per element

*Proof:* row-wise equality of the projections, a softmax lemma for reordered groups (sums and maxima are invariant under permutations), and the sum over keys reindexed; hardware by composition with C50. Refuted for formats calibrated per position (default homogeneous_axis=(0,)): a two-row sequence on which calibration is exact gives other outputs when swapped, also after pooling.

### C61 A network evaluated in float32 gives exactly the fixed-point values of the hardware (proved; P_FloatNet.v)

*Modelled:* the layers of M_Net over an abstract arithmetic; instances: float32 on rationals (proved equal to Flocq's rounding), exact, and exact-with-refusal (M_FloatNet, S_FloatNet). The float steps inside the external `quantizers` package are assumed as documented in M_FloatNet

*Proof:* exactness of each rounded step from grid and magnitude (Flocq), a refinement between arithmetics carried through every layer, then the relational lifting of the tracer (L_Lift); hardware by composition with C53. Refuted without headroom by concrete numbers.

### C62 Arguments given to a constructor reach the class that uses them (proved; P_Ctor.v)

*Modelled:* Python's argument binding, gather_vars_to_kwargs, the C3 method resolution order and every __init__ of the package as data (M_Ctor, M_CtorTab), the inner layers of the attentions (M_CtorSub). Values are opaque or known by source text; the signatures of keras 3.11 are trusted; numeric checks are left out

*Proof:* symbolic execution of a chain of constructors, proved sound for every keyword dictionary (L_Ctor); finite facts about the summaries by computation, lifted to all calls (L_Ctor2, L_Ctor3). Refutations by concrete calls.

### C63 Whole models of any traced layer kind give the layer outputs sample by sample (proved; P_NetX.v)

*Modelled:* M_NetX: traced arrays as values with an identity and ranges; operations, tables and attention as layers of a model, on top of M_Net, M_Table, M_Softmax, M_Attn and M_Trace. Identities and ranges are a parameter that may depend on everything; numpy and da4ml operations are exact; attention masks other than the causal one are left out

*Proof:* one lemma per operation kind (L_NetX1-7), the conditions on calls (fused attention) carried by a variant of the relational lifting that sees the graph's arguments (L_LiftX), and a layer theorem combining them (L_NetX8)

### C64 The resource loss only ever shrinks the model (proved; P_Grad.v)

*Modelled:* M_Grad: the EBOPs computations of M_Ebops/M_Cebops written over an arbitrary number type, run on plain numbers and on values with derivatives (forward accumulation; reverse accumulation gives the same sums); straight-through rounding, relu, min/max with tie shares, 2^x with a positive constant for log 2; weights, constraints, regularizers, optimizers as functions of the gradient history; exact rationals. Tables and spiking cells are left out

*Proof:* a relational (parametricity) lemma: two runs on related numbers give related results (L_Grad), instantiated with 'same value', 'non-negative value and gradient', 'at most', 'value after one more bit', 'no gradient'; an invariant over histories (L_Grad3); a counting argument for MonoL1 (L_Grad4); equality with the EBOPs functions of C24

### C65 Calibration is exact for layers that call a quantizer many times (proved; P_Prog.v, P_ProgAttn.v)

*Modelled:* M_Prog: a layer call is a program that asks quantizers and continues with their answers (so the questions may depend on earlier answers); run in tracing or inference mode over the quantizer state machine of M_Calib; the layers written line by line; the time loop is Keras' RNN.call without mask. Not modelled: attention masks, dropout (off while tracing), stateful=True and given initial states

*Proof:* an induction on programs: at the final widths each question gets the answer it got when it was asked, so the same path is taken (L_Prog); each layer's program depends on values only (L_Prog2); rows of batches and the cells of C32/C33 (L_Prog3, L_Prog4); end to end with their replay theorems (L_Prog5); the attention layer as build makes it is, sample by sample, the attention of C50 (L_ProgAttn), hence end to end with its replay theorem (L_ProgAttn2)

### C66 The prediction for a sample does not depend on the batch it is in (proved; P_Batch.v)

*Modelled:* M_NetX (Keras models), M_Prog/M_ProgAttn (programs of recurrent, spiking and attention layers), M_Net (plain layers) with S_Batch (one sample in two batches). Not modelled: training mode (batch normalization uses the statistics of the batch there)

*Proof:* both evaluations follow the per-sample replay of the same sample (L_Batch, from C63's theorems); for the rest the second batch is grafted with the sample of the first, so that the layer's rows are the same function (L_Batch, L_Batch2); induction over the nodes

### C67 Multiplications that cost nothing contribute nothing; a layer that reports zero EBOPs is constant (proved; P_Cost.v)

*Modelled:* M_Cost (the widths a built quantizer reports), M_Ebops (the EBOPs figures), M_Net/M_Calib/M_Prog (the layers), M_Mapper (calibration). Weights with WRAP overflow are not covered by the layer theorems (only rounding is applied to them)

*Proof:* zero width => zero output per overflow mode; a zero sum of non-negative costs => every term zero, then term by term against the contraction of the values (same taps/labels), batch index replaced by 0; calibration: a negative rounded value forces i > -f, induction over the batches (L_Cost, L_Cost2)

### C68 As the bit-widths grow the quantized network converges to the unquantized one (proved; P_Limit.v)

*Modelled:* M_Fixed/M_State/M_Mapper (the quantizers), M_Net/M_Calib/M_Prog (the layers as programs that ask quantizers). Sequences of networks with the same weights and different quantizer tables; the forward passes are assumed to succeed (widths of fitting shapes). Real-valued functions are rational-valued and continuous here. Table layers and the spiking layers (which have jumps) are not covered

*Proof:* epsilon arguments for every operation, then a relation between a sequence of layer programs and its limit program (they ask the same quantizers about converging values as long as the answers converge), composed over layers, over the time loop and by induction over the nodes (L_Limit .. L_Limit5)

### C69 Without quantizers the layers compute what their Keras originals compute; dense, recurrent and attention layers converge to them (proved; P_Plain.v, P_Plain2.v, P_Plain3.v, P_Plain4.v)

*Modelled:* M_Prog/M_Calib/M_Net (the layers as programs that ask quantizers), every quantizer being the identity (DummyQuantizer). Dense and softmax on batches of vectors, softmax over the last axis, attention (M_ProgAttn) on (batch, positions, features) without masks. The run is assumed to succeed. The formulas of Keras (S_Plain) are written from its documentation

*Proof:* row-by-row evaluation of the programs and induction over the time steps (L_Plain, L_Plain2, L_Plain3); algebra of sums (L_Plain4); the limit by composition with C68

## Trusted base

* Coq 8.16.1's kernel (no `vm_compute` on open statements, no plugin, no switched-off check).
* The standard-library axioms listed below for each theorem; no other axiom, `Admitted` or open obligation.
* Flocq (for C38 only) as a library of definitions and proved theorems.
* **The models.** Nothing checks mechanically that an `M_` definition is the Python function it cites. The citations and the
  mutation log (`seeded/LOG.jsonl`) are the evidence that the theorems depend on the modelled behaviour.
* **External code, modelled from its documented contract:** the `quantizers` package (rounding and overflow modes), Keras and
  numpy primitives (`max`, `clip`, `where`, `broadcast_to`, `einsum`, `matmul`, `conv`, `moments`, (de)serialization, graph
  structure of functional models), the tracing packages da4ml / alkaid (`quantize`, `relu`, `msb_mux`, `lookup`, array arithmetic:
  values and ranges, not their netlists), the file system as seen by the callbacks.

### Not modelled

* Gradients, surrogate gradients, regularizers' values, optimizers, dropout, stochastic rounding and noise in training.
* Float rounding outside C38 and the spike computation of C32 (the models compute exactly or over R); inf and nan.
* `data_format='channels_first'` in convolutions and poolings; padding='causal'.
* Backend-specific code (TF/JAX/torch differences, XLA, devices, seeds), Keras symbolic-call mechanics, weights I/O.
* The netlists, cost and latency models of da4ml/alkaid and generated HDL.
* `hgq/utils/sugar` progress bars and logging; `hgq/regularizers`; plotting and printing.

## What `Print Assumptions` lists

Every theorem in the P_ files is followed by `Print Assumptions`; the listing below is generated from its output (476 theorems).

**Closed under the global context** (no axiom): 428 theorems.

`C01_output_representable`, `C02_fixpoints_are_representable`, `C02_idempotent`, `C03_rounding_determined`, `C03_rounding_error`, `C04_monotone`, `C04_saturation`, `C05_wrap`, `C05_wrap_identity_in_range`, `C06_bit_counts`, `C06_bits_property`, `C06_range_size_and_ends`, `C06_wrap_zero_bits_refuted`, `C07_kif_calibrated_format_fits`, `C07_kif_calibration_safe`, `C07_kif_tensor_calibration_safe`, `C08_kbi_calibration_safe`, `C08_kbi_pruned_group_stays_zero`, `C08_kbi_tensor_calibration_safe`, `C08_kbi_wide_refuted`, `C09_kbi_sign_order_refuted`, `C09_kbi_width_order_independent`, `C09_kif_order_independent`, `C10_kbi_tracing_monotone`, `C10_kif_tracing_monotone`, `C10_kif_width_minimal`, `C11_kbi_constraint_invariant`, `C11_kif_inference_and_tracing`, `C11_kif_training_refuted`, `C12_kbi_train_then_infer`, `C12_kif_train_then_infer`, `C13_absmax_per_group`, `C13_axes_partition`, `C13_axis_resolution`, `C13_float_bias_default_refuted`, `C13_kbi_call_groupwise`, `C13_kif_call_groupwise`, `C13_sign_per_group`, `C13_widths_per_group`, `C14_inference_formula`, `C14_noise_interpolates`, `C14_noise_one_is_full_quantization`, `C14_noise_zero_with_scaler_refuted`, `C14_scaled_error`, `C14_scaled_idempotent`, `C15_affected_restored_any_body`, `C15_construction_axes_exclusive`, `C15_construction_precedence`, `C15_inside_default_type`, `C15_inside_nested_scopes`, `C15_reentry_refuted`, `C15_scope_completes_widths`, `C15_scopes_restore`, `C16_inside_layer_scope`, `C16_layer_reentry_refuted`, `C16_layer_scopes_restore`, `C17_batch_determines_samples`, `C17_epoch_covers_once`, `C17_index_out_of_range`, `C17_negative_index`, `C18_drop_last_full_disjoint`, `C19_scheduler_sets_every_layer`, `C21_documented_patience_refuted`, `C21_stops_iff_run_completed`, `C22_is_early_stopping_within_threshold`, `C22_never_stops_above_threshold`, `C22_whole_training`, `C23_no_dominated_checkpoint_refuted`, `C23_pareto_front`, `C23_repeated_file_name_refuted`, `C24_batchnorm_figure`, `C24_conv_bias_count_refuted`, `C24_conv_counts_multiplications`, `C24_conv_geometry`, `C24_conv_multiplications_exist`, `C24_dense_counts_multiplications`, `C24_dense_multiplications`, `C24_einsum_counts_multiplications`, `C24_einsum_forward_uses_multiplications`, `C24_elementwise_monotone`, `C24_elementwise_nonnegative`, `C24_merge_figures`, `C24_monotone`, `C24_nonnegative`, `C24_sum_figure`, `C24_zero_iff_pruned`, `C25_conv_bias_refuted`, `C25_conv_factor_linear`, `C25_dense_factor_linear`, `C25_dense_reuse_cost`, `C25_einsum_factor_linear`, `C25_einsum_reuse_cost`, `C28_code_quantizer_is_arithmetic_quantizer`, `C28_int8_widths_refuted`, `C28_scaler_is_not_undone_refuted`, `C28_traced_kbi_quantizer`, `C28_traced_kif_quantizer`, `C29_evaluated_after_its_inputs`, `C29_evaluated_once`, `C29_nested_multi_input_refuted`, `C29_replay_computes_the_graph`, `C30_hash_in_name_refuted`, `C30_names_distinct`, `C30_record_is_complete`, `C31_grouped_refuted`, `C31_index_encoding_refuted`, `C31_patches`, `C31_row_major`, `C31_traced_convolution`, `C31_what_groups_compute`, `C32_inhibition`, `C32_one_winner`, `C32_spike_is_threshold`, `C32_spiking_replay`, `C32_time_order`, `C33_gru_replay`, `C33_simple_rnn_replay`, `C34_dense_table`, `C34_hard_silu_refuted`, `C34_lookup_is_the_function`, `C34_no_center_refuted`, `C34_one_entry_per_code`, `C34_toq_scaler_refuted`, `C34_unary_lut_layer`, `C35_averagepow2`, `C35_axes`, `C35_meanpow2`, `C35_meanpow2_exact`, `C35_meanpow2_stays_on_grid`, `C35_scale_exact_iff_power_of_two`, `C35_scale_within_sqrt2`, `C36_calibration_ignores_masked_refuted`, `C36_independent_of_masked_values`, `C36_masked_output_is_zero`, `C36_replay_equals_layer`, `C36_same_as_deleting_masked_positions`, `C36_stable_arguments`, `C36_unmasked_is_softmax`, `C37_quantized_attention`, `C37_quantized_weights`, `C37_unstable_softmax_refuted`, `C39_difference`, `C39_free_counts_every_layer_once`, `C39_linformer_refuted`, `C39_nested_refuted`, `C39_pid_disabled_softmax_refuted`, `C39_pid_uses_trace_total`, `C39_recurrent_refuted`, `C39_repeated_name`, `C39_shared_projection_refuted`, `C39_totals_agree`, `C39_trace_sums_layers`, `C40_complete_layer`, `C40_config`, `C40_float_bias_refuted`, `C40_hard_dummy_refuted`, `C40_layer`, `C40_left_out_refuted`, `C40_package_defaults`, `C40_shipped_config`, `C40_symmetric_hard_tanh_refuted`, `C41_call_agrees_refuted`, `C41_call_value`, `C41_call_without_noise_refuted`, `C41_config`, `C41_range`, `C41_relu_arguments_refuted`, `C42_accepted`, `C42_accepts`, `C42_negative_string_refuted`, `C42_rejections`, `C42_relu_string_refuted`, `C42_string_round_trip`, `C42_trainable_string_refuted`, `C42_value`, `C44_threshold_off_grid_refuted`, `C44_traced_leaky_relu`, `C44_traced_prelu`, `C44_traced_relu`, `C45_average_pooling`, `C45_deep_negative_refuted`, `C45_max_pooling`, `C45_window`, `C45_windows_overlap`, `C46_cache_transparent`, `C46_calls_right`, `C46_stale_after_exception_refuted`, `C47_average_after_add`, `C47_bases_unused`, `C47_independent_of_history_refuted`, `C47_inference_records_nothing`, `C47_inherited_count`, `C47_instantiated_first`, `C47_linformer_with_attention`, `C47_mean_after_sum`, `C47_own_call`, `C47_package_classes`, `C47_super_count`, `C47_table_convolution_with_dense_table`, `C47_values_never_wrong`, `C48_double`, `C48_flags`, `C48_input_quantizer_refuted`, `C48_quantizers`, `C49_arithmetic`, `C49_arithmetic_ranks_refuted`, `C49_concatenate`, `C49_concatenate_layer`, `C49_concatenate_positive_axis_refuted`, `C49_dot_alkaid`, `C49_dot_alkaid_2d_refuted`, `C49_dot_dais`, `C49_dot_dais_rank_refuted`, `C49_flatten`, `C49_merge`, `C49_moveaxis`, `C49_reduction`, `C49_repeat`, `C49_repeat_vector_refuted`, `C49_reshape`, `C49_sum`, `C49_transpose_refuted`, `C50_cluster_selection`, `C50_clusters`, `C50_fused_different_arrays_refuted`, `C50_linformer_selection`, `C50_masked_positions_ignored`, `C50_masks_of_two_shapes_refuted`, `C50_no_input_quantizer_refuted`, `C50_salt_value_clusters_refuted`, `C50_traced_attention`, `C50_traced_linformer`, `C50_traced_salt`, `C50_unequal_head_sizes_refuted`, `C51_ebops_defined`, `C51_ebops_monotone`, `C51_ebops_three_axes_refuted`, `C51_ebops_total`, `C51_einsum_functional`, `C51_layer_computes_equation`, `C51_letter_clash_refuted`, `C51_reload`, `C51_traced_einsum`, `C52_attention`, `C52_attention_axes`, `C52_attention_axes_refuted`, `C52_attention_factor_refuted`, `C52_attention_forward`, `C52_attention_monotone`, `C52_gru`, `C52_gru_bias_refuted`, `C52_gru_monotone`, `C52_gru_steps`, `C52_simple_cell`, `C52_simple_cell_bias`, `C52_simple_cell_bias_refuted`, `C52_simple_rnn`, `C52_simple_rnn_monotone`, `C52_simple_rnn_steps_refuted`, `C52_softmax`, `C52_softmax_monotone`, `C52_spiking`, `C52_spiking_accumulator`, `C52_spiking_monotone`, `C52_spiking_steps`, `C52_table`, `C52_table_monotone`, `C52_table_unit`, `C53_activation_refuted`, `C53_layer`, `C53_network`, `C53_no_bias_refuted`, `C53_plain_activation_refuted`, `C53_scalar_result_refuted`, `C54_bits`, `C54_call`, `C54_constraints`, `C54_pruned_bits_refuted`, `C55_accepted_is_created_refuted`, `C55_created`, `C55_float_never_created`, `C55_hard_sigmoid`, `C55_hard_tanh`, `C56_bias_order_refuted`, `C56_builds`, `C56_layer_is_table_einsum`, `C56_norm_order_refuted`, `C56_ordinary_einsum`, `C56_traced`, `C57_chunks`, `C57_conservation`, `C57_leak_range`, `C57_leaky_membrane_bounded`, `C57_leaky_width_refuted`, `C57_membrane_linear`, `C57_membrane_width`, `C57_negative_threshold_refuted`, `C57_outputs_are_spikes`, `C57_zero_reset`, `C58_default_quantizer_refuted`, `C58_history_keeps_the_mode`, `C58_inference_history`, `C58_no_look_ahead`, `C58_output_is_causal_convolution`, `C58_retry_after_error_refuted`, `C58_step_homogeneous_quantizer`, `C58_streaming`, `C58_training_with_ebops_refuted`, `C59_calibrated`, `C59_hardware`, `C59_inference_layer`, `C59_kbi_data_refuted`, `C59_no_overflow`, `C59_operations`, `C59_weight_inputs`, `C60_attention_equivariant`, `C60_default_formats_refuted`, `C60_hardware_equivariant`, `C60_key_order_irrelevant`, `C60_linformer_queries_equivariant`, `C60_pooled_invariant`, `C60_self_attention_equivariant`, `C61_dense`, `C61_dense_layer`, `C61_rnd_refuted`, `C61_wrap_refuted`, `C62_accepted_calls`, `C62_accepted_means_used_inside_refuted`, `C62_argument_arrives`, `C62_drop_in`, `C62_fuse_kept_refuted`, `C62_inner_accepted`, `C62_inner_gets`, `C62_parameter_value`, `C62_patterns`, `C62_positional`, `C62_sequence_argument_arrives`, `C62_softmax_input_quantizer_off`, `C62_standard_arguments`, `C62_unknown_keyword_rejected_refuted`, `C63_array_keyword_refuted`, `C63_fused_attention_refuted`, `C63_layer`, `C63_list_einsum_refuted`, `C63_network`, `C63_noop`, `C63_ranges_irrelevant`, `C63_reduction_refuted`, `C63_table_activation_refuted`, `C63_table_without_iq_refuted`, `C64_ebops_never_grow`, `C64_gradient_between_bit_prices`, `C64_gradient_descent_qualifies`, `C64_gradient_is_the_price_of_one_bit`, `C64_gradient_of_the_reported_ebops`, `C64_mono_l1_reaches_the_lower_bound`, `C64_no_gradient_for_a_pruned_width`, `C64_price_at_a_pruned_width_refuted`, `C64_trainable_widths_never_grow`, `C64_training_never_fails`, `C64_unconstrained_width_refuted`, `C65_attention_hardware`, `C65_attention_inference`, `C65_attention_values`, `C65_calibrated`, `C65_gru_hardware`, `C65_gru_inference`, `C65_gru_values`, `C65_gru_weights`, `C65_inference`, `C65_kbi_state_refuted`, `C65_multihead_values`, `C65_multihead_weights`, `C65_no_overflow`, `C65_plain_layers`, `C65_plain_values`, `C65_recorded`, `C65_simple_rnn_hardware`, `C65_simple_rnn_inference`, `C65_simple_rnn_values`, `C65_simple_rnn_weights`, `C65_softmax_inference`, `C65_softmax_values`, `C65_spiking_hardware`, `C65_spiking_inference`, `C65_spiking_values`, `C65_spiking_weights`, `C65_table_inference`, `C65_table_values`, `C65_weight_inputs`, `C66_attention`, `C66_batch_axis_widths_refuted`, `C66_batch_sum_refuted`, `C66_gru`, `C66_layer`, `C66_network`, `C66_program_network`, `C66_quantizer`, `C66_simple_rnn`, `C66_spiking`, `C67_calibrated_kbi`, `C67_calibrated_kif`, `C67_conv`, `C67_costless_multiplication`, `C67_dense`, `C67_einsum`, `C67_no_bits`, `C67_signed_wrap_refuted`, `C68_error`, `C68_integer_bits_refuted`, `C68_inverse`, `C68_layer`, `C68_network`, `C68_step_refuted`, `C69_attention`, `C69_attention_distribution`, `C69_attention_limit`, `C69_dense`, `C69_dense_limit`, `C69_gru`, `C69_gru_last_limit`, `C69_gru_limit`, `C69_masked_softmax`, `C69_simple_rnn`, `C69_simple_rnn_last_limit`, `C69_simple_rnn_limit`, `C69_softmax`, `C69_softmax_distribution`.

**Standard-library axioms `ClassicalDedekindReals.sig_forall_dec`, `FunctionalExtensionality.functional_extensionality_dep`**: 3 theorems.

`C20_base_controller_nonnegative`, `C20_train_begin_raises_iff`, `C43_moving_mean_in_range`.

**Standard-library axioms `ClassicalDedekindReals.sig_not_dec`, `ClassicalDedekindReals.sig_forall_dec`, `FunctionalExtensionality.functional_extensionality_dep`**: 12 theorems.

`C26_fused_dense_error`, `C26_fused_dense_refuted`, `C26_fused_dense_zero_mean`, `C26_fused_einsum`, `C26_fused_einsum_epsilon_refuted`, `C26_fused_einsum_order_refuted`, `C27_batchnorm`, `C27_center_false_adds_one`, `C27_center_flag_refuted`, `C37_exact_softmax_key_bias`, `C37_exact_softmax_sums_to_one`, `C43_moving_variance`.

**Standard-library axioms `ClassicalDedekindReals.sig_not_dec`, `ClassicalDedekindReals.sig_forall_dec`, `FunctionalExtensionality.functional_extensionality_dep`, `Classical_Prop.classic`**: 33 theorems.

`C19_after_last_knot`, `C19_before_first_knot`, `C19_constant_segment`, `C19_linear_segment`, `C19_log_from_zero_raises`, `C19_log_segment`, `C19_value_at_knots`, `C20_beta_within_bounds`, `C20_falls_below_target`, `C20_no_steady_state_error`, `C20_rises_above_target`, `C20_start_jump_linear`, `C20_start_keeps_beta_log`, `C20_start_keeps_beta_refuted`, `C20_warmup_leaves_beta`, `C32_spike_in_float32`, `C35_exponent_is_rounded_log2`, `C38_any_order_exact`, `C38_backends_agree`, `C38_operands_are_floats`, `C38_without_bound_refuted`, `C54_epsilon`, `C54_no_exponent_bits_refuted`, `C54_pruned`, `C54_quantizer`, `C54_range`, `C61_backends_agree`, `C61_binary32`, `C61_carried`, `C61_hardware`, `C61_network`, `C61_quantizer`, `C61_sum`.

## Defects of the code that the model makes explicit

Each is a `_refuted` theorem, or the reason for a hypothesis of a theorem.

* `FixedPointQuantizerKIF.call`, training: the constraint is applied to `_new_i`, `new_i` is assigned (C11).
* `minimal_i_given_xb`'s epsilon is too small for b >= 23 (C08); KBI sign bits depend on batch order (C09).
* zero-width WRAP quantizers advertise a sign bit (C06).
* default float bias configuration cannot be constructed: both axis arguments set (C13, C40).
* noise factor and scaler are combined on different scales (C14).
* configuration scopes are not re-entrant (C15, C16).
* `BetaPID` linear mode jumps at the end of the warm-up (C20); `get_avg_beta` fails on layers with EBOPs disabled.
* `StopIf` needs patience + 1 hits (C21); `ParetoFront` keeps weakly dominated points and breaks on repeated file names (C23).
* convolution EBOPs: the bias is counted for the input positions and not scaled by the parallelization factor (C24, C25).
* `QBatchNormDense` fusion drops the scaler on the mean term; `QEinsumDenseBatchnorm` ignores `epsilon` and mixes axis orders (C26).
* `center=False` adds 1 (C27), also in traced tables (C34).
* traced quantizers do not undo the scaler, and widths are cast to int8 (C28).
* nested models with several inputs cannot be traced (C29); names containing `#1` can collide (C30).
* traced grouped convolutions use the wrong channels; patch extraction fails beyond 2^24 elements (C31).
* traced hard_silu differs from Keras; table output quantizers ignore their scaler (C34).
* masked positions enter the calibration of the exp table (C36); the key bias matters for the unstable softmax (C37).
* totals: Linformer/SALT, shared projections, recurrent and nested layers are counted differently by FreeEBOPs and trace_minmax;
  disabled softmax EBOPs raise (C39).
* `HardTanhConfig(symmetric=True)`, QSimpleRNN `enable_sq`, QGRUCell `rhq_conf`, and others are lost on reload (C40).
* qkeras `quantized_bits.__call__` passes (k, b, i) for (k, i, f), and fails without a noise factor (C41); string forms (C42).
* ReLU thresholds off the grid (C44); poolings of values below the padding value (C45).
* weight cache is not cleared after an exception (C46).
* base classes instantiated first make EBOPs count twice (C47); `input_quantizer` is dropped by the QKeras wrappers (C48).
* fused attention projections are split in equal parts whatever the head sizes; masks of different shapes cannot be stacked; attention without input
  quantizers cannot be traced; SALT value clusters need padding (C50).
* traced Concatenate layer, Transpose, RepeatVector, Dot and operations on different ranks (C49).
* keras.ops.sum/max, einsum layers and lookup-table layers without input quantizers cannot be traced (C63).
* KBI widths without a non-negative constraint can fall below zero; the resource loss then raises other widths (C64).
* A KIF width with i + f <= 0 receives no resource gradient at all (relu): the loss neither shrinks nor grows it further (C64).
