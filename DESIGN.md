# Formal model of SergioITCL/QUBOSergio in Rocq (Coq 8.16.1)

## Layout

* `properties.jsonl` – the English properties (C01…).
* `rocq/theories/Base.v` – numeric and Python/numpy primitives (rounding, wrap-around, slices, exceptions as values).
* `rocq/theories/*Model.v` – executable Gallina model of the code; every definition cites file:lines in /repo.
* `rocq/theories/*Proofs.v` – lemmas.
* `rocq/theories/Spec*.v` / specification definitions at the top of `Prop*.v` – the small independent specifications.
* `rocq/theories/Prop*.v` – the property theorems only (each `exact lemma`), followed by a non-vacuity `Example` and `Print Assumptions`.
* `MANIFEST.json` – property → theorem names and status.
* `seeded/LOG.jsonl` – mutation experiments (wrong programs) and which theorems caught them.

## Modelling decisions (apply everywhere)

* **Floats.** Float tensors, scales and activations are exact rationals (`Q`, executable and axiom free), except in the
  `Float*` modules (C66 on), which model IEEE-754 binary64 – rounding to nearest even, subnormals, overflow, infinities,
  NaN – as a computable function on `Q`. Elsewhere IEEE-754 rounding, overflow to inf and NaN are not modelled. Consequently error bounds are statements
  about exact arithmetic; range, indexing, ordering and bookkeeping statements do not depend on it.
* **Integers.** Python ints are `Z`. numpy fixed-width integers are `Z` with an explicit two's complement `wrap`
  wherever the code can overflow.
* **float→int casts** (`astype("int32")`): truncation; out-of-range values give INT_MIN (x86-64 behaviour of numpy;
  the C standard leaves it undefined).
* **Exceptions** are values of the `res` type (`Ok`/`Err e`).
* **Randomness, external solvers, cost functions, sampling and MQTT arrival** are oracles: universally quantified
  functions, streams or event lists.
* **Mutation** becomes functions returning the new state.

## Plan per property

| id | modelled | proof |
|----|----------|-------|
| C01–C05 | `GenericDtype`, `Quantization.quantize/dequantize/round`, broadcasting of the policy, `get_base_rounding` | floor/ceil arithmetic over Q, case analysis on clipping |
| C06 | string parser over `ascii` lists, regex `findall` first match, `int()`, `.lower()` | induction on strings, decimal printing round trip |
| C07–C08 | numpy `Dtype` arithmetic with wrap | bounds of wrap, `nia` |
| C09 | `float_activation`, `create_LUT` | pointwise |
| C10–C13 | `ReducedLUT` constructor, `__getitem__`, `__iter__`, (de)serialization | loop invariant of run counting, Python slices |
| C14, C15, C17 | `frexp`, `round` half-even, fixed-point multiplier, int64 wrap | error analysis |
| C16 | 1-D/2-D matmul | induction on batch |
| C18 | `LUTActivation` composed with C09–C11 | composition |
| C19 | `RELU.infer` | proof under equal params + refutation |
| C20–C22 | `SequentialNetwork`, `build_layer`, `build_operator` | fold invariants, string case analysis |
| C23 | `QLinearAdd`, `QLinearMatMul` | half-even rounding error |
| C24–C25 | `LSTM.infer` as a fold over time steps | induction on the sequence |
| C26–C28 | `Distribution` | order arithmetic, sorted lists |
| C29 | `KLDivergence.reduce` | chunk sums |
| C30–C33 | node classes as state machines with hooks | invariants over operation histories |
| C34–C35 | parameter equalizer with an oracle stream | invariants over schedules |
| C36–C37 | rounding annealer with oracle stream | invariants over schedules |
| C38–C42 | both QUBO pipelines, dictionaries as insertion-ordered association lists | finite-sum algebra, key disjointness |
| C43 | collisions metric | counting |
| C44 | network export, keras2json conversion | list reasoning |
| C45–C46 | ONNX graph fusion and node lookup | well-founded recursion on the node list |
| C47–C48 | `np.array_split`, MQTT synchronisation as an event machine | induction on schedules |
| C49 | config objects | case analysis |
| C50 | composition of quantize + FC engine | triangle inequality over finite sums |
| C51–C53 | one LSTM step against the float LSTM equations, initial states, softmax layers | error propagation, induction on the sequence |
| C54–C56 | fused ReLU trimming, KL and FixedPercent optimizers | order arithmetic on bins |
| C57 | ONNX converter + loader + engine composed, against an independent ONNX semantics | simulation by induction on the node list |
| C58, C60 | the dense pipeline end to end (PipeModel, vocabulary in PipeSpec): calibration, export, loading, batch inference | per-operator error lemma, induction over the layers; refutations by evaluation |
| C59 | the direct TANH/LOGISTIC layers | rounding error, composition with C18 |
| C64 | the direct QLinearSigmoid layer (OnnxModel) | nearest-code lemma, composition with C18 |
| C65 | the dense pipeline of C58 with ReLU/ReLU6 layers (vocabulary in RPipeSpec) and no condition on the inputs | the integer code is the clamp of a code near the pre-activation; clamp against ReLU by cases; induction over the layers; trimmed calibration from C54 |
| C66–C69 | the core quantizer, its rounding policies and activation tables in binary64 (FloatModel) | rounding is nearest/monotone/idempotent; absolute error of the three roundings; floor of nearby numbers; far inputs saturate by monotonicity |
| C70 | Distribution.quantize with every operation rounded in float32 or float64 (FloatDistModel) | relative error of each rounding (exact below the normal range because sums of grid points are grid points); the zero point moves by at most 2^(k+3-bits), the scale by 3·2^-bits; then C66's bound with a widened code range |
| C71 | the TFLite→JSON converter on an abstract flatbuffer (TfliteModel) | success as an equivalence; node-by-node description of the file by case analysis; refutations by evaluation |
| C72 | converter composed with the engine's loader and layers | each operator's layer against the TFLite meaning (C01, C15, C18, C19), then induction over the operator list in an environment of tensors |
| C73 | `ScipyOptimizer.trim` and its objective, with the minimiser a parameter | unfolding the objective over reachable distributions, C28 for the returned slice; minimisers assumed only to never end worse than they started |
| C74 | `FullyConnectedMultiplier`/`FloatingIntegerApprox` with every float operation rounded (FloatFcModel), the integer part as C16 | frexp and the scaling by 2^31 are exact on doubles; product and quotient have relative error 2^-51; then C16's bound with the perturbed multiplier; counterexample by computation |
| C76 | `KerasDense.adaround` + `QUBOAnnealer.optimize` + `AdaRound.round`, `AdaroundNet.round` on the node store (QuboDeployModel) | C42 (decoding) + setter lemmas of C37 give the codes; C39 carried to the exported layer by proving its integer result equals the QUBO's neuron output; induction over the layers; counterexamples by computation |
| C77 | `QAOA_Solution`, `QAOA_Solution2`, `Tensor_Redondeo2` (QuboDeployModel) | the double loop over keys is a permutation of the dictionary; diagonal keys form one block plus the maximum; then C39/C42 |
| C78 | `ParamEqAnnealer` with simanneal's loop on the node store, copies as new objects (ParamAnnealModel) | loop invariant with two phases: before the first rejection the store agrees with the trial network node for node, afterwards only copies move and the hooks re-derive the same biases |
| C79 | nothing new: PipeModel's loader and engine on an arbitrary file of the exporter's shape (CertSpec.v: relation `implements`, bound `cert`) | induction over the file; C15's requantization bound with any kernel zero point |
| C80 | serialisation of a store of node objects (ExportModel.v); NodeModel's updates, EqModel's and ParamAnnealModel's optimizers; C64's file as the image of the untouched store | invariants of the store under every operation (dtype, float tensor, table shape); C79 on the result |
| C81 | build() with a loss function: the equalizer, AdaRound over the layers and the file, on the store of node objects (TuneModel.v) | C35 for the equalizer, C37 for the annealer, frames and invariants of the store between them; the engine reads only the numbers of a file; C80 on the result |
| C82 | loss functions of the scripts: argmax, zip, hits; mean of squares with broadcasting (LossModel.v), on the output of the engine | loop invariant of argmax, C79 for the outputs, C81 for tuning and termination; algebra of finite sums for the broadcast |
| C83 | keras2json with file contents (KjModel.v) | induction over the layers; transposition is injective on rectangular arrays |
| C84 | build() with RoundingQUBOCfg (QuboTuneModel.v): the data each layer remembers, one QUBO per layer, the file of ExportModel | induction over the layers; C81's start state and equalizer, C76 per layer (extended to any kernel zero point), C80's file theorems |
| C85 | build() and inference on LSTM stacks with dense layers (RnnModel.v): three-axis arrays, LSTM operators, dense operators lifted | C61-C63 per LSTM layer chained by induction over the stack (hidden states are within [-1,1], error of a layer is the input error of the next), C79 for the dense part started from the last LSTM output node; failure cases by inversion of the build and of the run |
| C86 | float_activation and create_LUT on callables returning Python values (VecModel.v) with np.vectorize's first-element dtype | reduction to C09 with the value composed with the cast; case analysis |
| C87 | lstm.py build and infer with binary64 operations (FloatLstmModel.v) | relative error calculus for products, quotients and sums of doubles; truncation agrees when no integer lies between; induction over the run |
| C88 | q_linear_add.py and q_linear_mmul.py infer with binary64 operations (FloatOnnxModel.v) | relative error of products, sum and quotient; np.round is stable away from half-integers; clip and cast exact |
| C89 | the binary64 LSTM of FloatLstmModel.v | the row-by-row decomposition of C24 for the float loop; finiteness of the second multiplier rules NaN out, so the clip bounds every code |
| C90 | reading an LSTM operator in binary64 (FloatKLstmModel.v), files up to rho (FloatKLstmSpec.v) | the induction of C63 over time steps with the one-step theorems of C87; rescaling lemmas for codes, biases and tables |
| C91 | the ONNX operators on batches with binary64 scales (FloatOnnxNetModel.v) | induction over the chain of operators with the one-layer theorems of C66, C69, C88 |
| C92 | the dense pipeline with rounded calibration, kernels, biases and tables (FloatPipeModel.v), loaded by FloatEngineModel.v | induction over the layers: C70 gives every node usable parameters and covered values, C74-C75 the operators; then the file theorem of C75 |
| C93 | the noise report (NoiseModel.v) on top of KLstmModel and LstmModel | the report's arrays as functions of (step, sample, unit); C61 for the float side; the induction of C63 strengthened to every recorded tensor; refutation by computation |
| C94 | explicit edges, compare and the two metrics (CompareModel.v, over DistModel and ScipyModel) | each sample lies in exactly one bin by induction on the edges; sums of shares; the metric facts from them |
| C95 | FloatEngineModel, FloatOnnxNetModel, PipeModel, TfliteModel, LossModel (no new model) | every layer answers a rectangular batch through one row function of the width; composition by induction on the layers; splitting from the row lists |
| C75 | `SequentialNetwork` over QUANTIZE/FULLY_CONNECTED/LUT/DEQUANTIZE in binary64 (FloatEngineModel) | induction over the operator list with an inductive relation carrying the real function and its error; C66/C74 per operator, C69 for the tables |
| C61–C63 | the quantizer's LSTM layer (KLstmModel, vocabulary in KLstmSpec): float pass, calibration and export; composed with the engine's LSTM | simulation with the textbook recurrence by induction over time; error recursion over the steps; refutations by evaluation |

Properties which the code violates are proved as `…_refuted` theorems with a concrete witness, next to the strongest
true positive statement.

## Trusted base

* Coq 8.16.1's kernel (and `coqchk`, run by vcheck, on the compiled files).
* Axioms: none. `Print Assumptions` answers "Closed under the global context" for **every** theorem listed in
  MANIFEST.json (the whole list is regenerated and checked with `tools/assumptions.sh`). Everything is stated over `Z`,
  `Q`, `nat` and lists; neither the real numbers nor functional extensionality nor classical logic are used.
* No axioms, admits, functors, module types or disabled checks. Sections use `Variable`/`Let` only inside `Section …
  End`, so the theorems exported are closed.
* The faithfulness of the Gallina model to the Python text, by reading: each definition carries a citation of file and
  lines. The Python interpreter, numpy, TensorFlow/Keras, simanneal, dimod/neal, paho-mqtt, onnx and the JSON codec are
  outside; what the model assumes about them is stated in the comment of the definition that uses it.

## What is modelled

| module | code |
|---|---|
| DtypeModel, DtypeArithModel, QuantModel, LutModel | core/itcl_quantization: operators.py, lut.py, rounding policies; inference_engine util/quantization.py |
| FloatModel | binary64 arithmetic; operators.py quantize/dequantize/round/create_LUT, get_base_rounding and NodeLUT's table in binary64 |
| FloatDistModel | distribution.py:140-171 with every operation rounded in binary32/binary64 (no overflow threshold; C70_no_overflow) |
| QuboDeployModel | keras_dense.py:381-405, qubo.py:55-85, 188-274, adaround.py:62-91, 119-133, abstract_layer.py:62-77, qubocalculation.py:259-357 |
| FloatFcModel | fullyconnected.py:126-169, 282-356 and floating.py:10-37 with binary64 scales |
| FloatEngineModel | network/sequential.py with layers/tflite quantize/dequantize/fullyconnected/LUT/softmax in binary64 (2-D arrays) |
| FcModel, EngineModel, OnnxModel, LstmModel | inference engine: fullyconnected.py, floating.py, LUT/ReLU/Tanh/Logistic/Softmax/(De)Quantize layers, ONNX layers, LSTM, sequential.py, build_layer.py, build_operator.py, check_layer_type.py |
| DistModel, OptModel, ScipyModel | quantizer: distribution.py, minmax, fixed_percent, kl_div and scipy optimizers, metrics/noise.py mse |
| NodeModel | quantizer: tensor.py node classes, their hooks and setters |
| ParamAnnealModel | ParamEqAnnealer (annealer.py of the parameter equalizer) with the simanneal loop |
| ExportModel | serialisation of a network of node objects after tuning: tensor.py:159-171, 326-335, 494-522; operator.py:62-70; util/network.py:57-103; keras_builder.py:102-103; wiring of keras_dense.py:340-379, activations.py:87-95 (dense layers with linear, softmax, relu, relu6, tanh, sigmoid activations) |
| TuneModel | the tuning stage of build() with a loss function: keras_builder.py:64-105; param_equalizer.py:55-75; adaround.py:43-133; keras_dense.py:381-405; every loop bounded by a parameter (None when it runs out) |
| LossModel | quantize_mnist.py:24-33, quantize_regression_x3.py:19-23, quantize_regresion.py:30-33, quantize_x3.py:29-30 |
| KjModel | model_converters/keras2json: _convert.py, layers/*.py, with the contents of the nodes and attributes |
| QuboTuneModel | keras_builder.py:64-105 with the QUBO optimizer: keras_dense.py:253-255, 303, 366-405 (data each layer keeps), adaround.py:119-133, qubo.py:55-85 |
| RnnModel | keras_builder.py:28-138 and sequential.py, layers/tflite/*, layers/itclq/lstm.py on models with LSTM layers (three-axis arrays); param_equalizer.py:66-68 and adaround.py:127-133 on LSTM results |
| VecModel | operators.py:164-193 (np.vectorize on Python callables), the sigmoid of the TFLite and ONNX converters |
| FloatLstmModel | layers/itclq/lstm.py:94-127, 196-265, 267-368 in binary64 (floating.py:10-36) |
| FloatOnnxModel | layers/onnx/q_linear_add.py:80-104, q_linear_mmul.py:38-44, 83-100 in binary64 |
| FloatKLstmModel | layers/itclq/lstm.py from_model with the binary64 build |
| FloatOnnxNetModel | layers/onnx/*.py (all but softmax.py), build_operator.py, in binary64, run by sequential.py |
| FloatPipeModel | keras_builder.py, keras_input.py, keras_dense.py, activations.py, dequantize.py with float rounding |
| NoiseModel | keras_lstm.py `_quantization_noise` and the debug branch of `quantize`, the engine's intermediate tensors |
| CompareModel | distribution.py with explicit edges, `compare`; metrics/noise.py `mse`, `kl_divergence` |
| EqModel, AnnealModel | parameter equalizers, BFS equalizer, adaround annealer and driver |
| QuboModel | Calculationsint.py, qubo.py, qubocalculation.py (both pipelines) |
| CollModel, BuildModel | collisions.py, keras_builder.py, config models, network export, keras2json |
| ConvModel | model_converters/onnx2json |
| TfliteModel | model_converters/tflite2json (flatbuffer and interpreter as records; integer tensors of one or two dimensions) and the engine's TFLite layers on its output |
| PipeModel | keras_builder.py `_quantize`, keras_input.py, keras_dense.py, activations.py, dequantize.py with numeric arrays, and the engine's QUANTIZE/FULLY_CONNECTED/LUT/DEQUANTIZE operators on batches |
| KLstmModel | keras_lstm.py (class LSTM, class KerasLSTM.quantize), quantize_activation_node for tables, the engine's LSTM.from_model |
| FpgaModel | demo_lib/fpga.py, log_exception of mqtt.py |

## What is not modelled

* IEEE-754 rounding, NaN, infinities outside FloatModel, FloatDistModel, FloatFcModel, FloatEngineModel, FloatLstmModel, FloatKLstmModel, FloatOnnxModel, FloatOnnxNetModel and FloatPipeModel (the other numeric modules use exact rationals), signed zeros; dtype promotion where no
  overflow can happen.
* Keras/TensorFlow layers themselves (a layer's float output is an arbitrary function), training, file formats (h5,
  npz, onnx protobuf, tflite flatbuffer), the JSON text codec.
* The samplers that minimise the QUBO and the simanneal temperature arithmetic: arbitrary functions or schedules.
* Logging, CLI entry points, plotting (`_debug_plot_optimizer.py`), demo scripts, `config/samples`; `scipy.optimize.minimize` is a parameter (C73).

## Findings about the code (each is a theorem, usually named `…_refuted` or after the behaviour)

* QUBO rounding can leave a layer worse than plain rounding even with an exact solver: a weight at the top of the range "rounded up" saturates (C76_saturation_refuted; symmetric calibration always puts the largest absolute weight there); for tanh/sigmoid layers the targets are the activated outputs but are compared with the accumulator before the activation (C76_activation_refuted); inputs half way between codes are rounded differently by the optimizer and by the exported network (C76_ties_refuted). QAOA_Solution uses `QuantumInstance`, which is not imported (C77_qaoa_solution_fails).
* core: uint32 codes wrap in `quantize` (C01); dequantize wraps for int32 with a non-zero zero point (C03); mixed
  signedness, int64 and unsigned subtraction wrap in dtype arithmetic (C07); `ReducedLUT` asymmetric mode and the
  iterator after deserialization are wrong (C11, C12).
* doubles: quantize is not exactly round-to-nearest (0.49999999999999994 ↦ 1), NaN and 0/0 become -2^31 (C66); a scale
  that overflows breaks the round trip (C67); floor policies and the round-to-nearest policy of get_base_rounding lose a
  whole code on values that are dequantized codes, so an identity activation table is not the identity (C68, C69). int32 calibration on float32 data can return a zero point outside int32 (C70).
* engine: FC accumulators overflow silently (C15), tiny multipliers become 0 (C17); ReLU centres on the output zero
  point and wraps (C19); LSTM takes the cell dtype from another node and starts from code 0 rather than the zero point
  (C25, C52); ONNX Softmax normalises the whole batch, TFLite SoftMax is the identity (C53).
* calibration: forced non-zero zero points saturate, symmetric unsigned calibration gives zero point -255 (C27); narrow
  slices widen the range (C28); a fused ReLU keeps part of a negative bin (C54); the KL threshold ignores the offset
  (C55); FixedPercent's percentage scale (C56); ScipyOptimizer cannot trim data spanning less than 1
  and always measures int8 parameters (C73).
* A fully connected layer whose product of input and kernel scales underflows is silently constant although its multiplier is in range (C74).
* tflite2json: per-channel quantized tensors raise ValueError, duplicate tensor names export the wrong data, fused activations are dropped
  (C71); operators are run in file order whatever tensors they read, a 16-bit TANH gets an int8 table (C72).
* pipeline: layers after a ReLU are calibrated on pre-activations, activation tables are computed in the bias-add dtype,
  FULLY_CONNECTED outputs are exported with the input's shape (C60).
* LSTM quantizer: the input gate's output is calibrated on the first `units` time steps of all gates (C62); the engine feeds
  the hidden codes back without subtracting their zero point (C63); layers without bias raise IndexError (C62).
* losses: with 1-D targets the mean squared error of the regression script is taken over all pairs of predictions and targets; the constant network is optimal (C82_flat_targets).
* keras2json: per-gate LSTM nodes are always the integer 0 (only the `complete` nodes hold weights, C83_lstm_contents); a non-square dense layer without bias gets a bias of the wrong length (C83_missing_bias); an LSTM without an explicit input shape cannot be converted (C83_converts); Conv2DTranspose, DepthwiseConv2D and SeparableConv2D are written as Conv2D (C83_lookalikes); LSTM activations are lost (C83_lost).
* build() with the QUBO optimizer never evaluates the loss function it requires (C84_loss_ignored); it needs calibration rows (C84_no_data).
* A Dense layer on sequences (LSTM with return_sequences=True, or a three-axis input) is quantized, exported and loaded, but FullyConnected.infer asserts at most two axes: no inference ever succeeds (C85_dense_on_sequences). The `layer` of an LSTM's result is the Keras layer, not the quantizer, so equalizer and AdaRound passes raise AttributeError on any model with an LSTM (C85_tuning).
* create_LUT takes the dtype of the activated values from the lowest code: a ReLU written max(0, x) is truncated to whole numbers (C86_relu), and even the order of max's arguments matters (C86_argument_order); the converters' sigmoid overflows for inputs below about -709.78 (C86_sigmoid).
* tflite2json `_cli.py` passes `nargs='2'` (a string): argparse raises ValueError
  when the parser is built, so the command line tool never runs (not modelled).
* engine: a zero output (fc) or zero divisor (LSTM gate) scale is refused on load
  with ZeroDivisionError, since Python floats divide (C17_zero_scale,
  C51_divisors_nonzero).
* onnx2json: a 0-dimensional constant operand raises TypeError, because
  `list(a.tolist())` of a scalar is not iterable (C46_scalar_operand_refused).
* LSTM states are truncated (astype) rather than rounded, so a value that is an integer in exact arithmetic can lose a whole code to one float rounding: scales 0.1, 0.7, 0.35 give hidden code 3 instead of 4 (C87_truncation_refuted).
* a zero output scale: QLinearMatMul raises ZeroDivisionError on load, QLinearAdd answers silently with 255, 0 or a cast NaN (C88_zero_scale).
* qubocalculation.py:27 uses `os` without importing it; it works only because `from qiskit.visualization import *` may happen to bring `os` in.
* lstm.py:294-302: np.clip does not remove a NaN; a multiplier that overflowed to infinity times a zero sum is NaN and becomes the code -2^63 (C89_overflow_refuted).
* LSTM noise report: keras_lstm.py:691 passes `previous_recurrent_add` as `bias_add`, so the four BIAS_ADD rows report the recurrent contribution h U from the second step on (C93).
* distribution histograms: `d[i]` of a bin with fewer than two samples also returns samples of the neighbouring bin (C28).
* histograms: comparing a distribution with a one-bin one (any slice narrower than a bin) broadcasts silently instead of failing, and `compare(..., kl_divergence, norm=False)` is infinite as soon as a bin is empty only in the second one, because `q[q == 0] = 1e-10` stores 0 in an integer array (C94).
* a rounding policy whose shape differs from the tensor's but broadcasts against it is not refused: the codes take the common shape, which
  may have more elements than the tensor (C05_policy_broadcasts, C05_broadcast_example).
* ONNX: a QLinearAdd constant with one row per sample of the exported batch makes answers depend on the row's position, and one input row gives as many output rows as the constant has (C95_matrix_addition_refuted).
* nodes: setters that bypass the hooks leave stale codes and tables (C30–C33).
* search: an interrupted equalizer keeps the last trial (C35); the annealing equalizer works on copies after its first rejection, so the network keeps the *rejected* trial and the reported cost is not the network's (C78); an annealer with zero initial energy (C37).
* converters and export: constant shapes (C44), value_info index 0 (C46), output description copied from the inputs
  (C46), textual fusion (C45), a leading fused triple switches the engine's mode (C57).
* FPGA clients: small batches are dropped, chunks exceed the limit (C47), replies are not matched to requests, the
  two-step reset races with the callback (C48).
