{"id": "C01", "title": "Quantization stays in the dtype range", "statement": "Quantization(dtype).quantize(data, zp, s, policy) returns, for every element, an integer between min_value() and max_value() whenever the dtype fits in int32; for dtypes wider than int32 the final int32 cast breaks this.", "quantifier": "every dtype, every finite data array of any shape, every zero point, every non-zero scale, every rounding policy (matching shape or not)", "why_tests_cant": "The range is guaranteed by the order clip-then-cast; only finitely many values can be sampled and the wide-dtype failure needs particular magnitudes.", "anchors": ["core/itcl_quantization/quantization/operators.py:Quantization.quantize", "core/itcl_quantization/quantization/operators.py:Quantization.round"]}
{"id": "C02", "title": "Round-to-nearest error is at most half a step", "statement": "If data/scale+zp lies inside the dtype range, dequantize(quantize(x)) differs from x by at most scale/2, no other code of the dtype is strictly closer, and outside the range the result is the nearest end of the range.", "quantifier": "every real input, every positive scale, every zero point, every dtype that fits in int16 (no int32 wrap)", "why_tests_cant": "A worst case over all reals and scales; ties and boundaries are measure-zero and sampled tests miss them.", "anchors": ["core/itcl_quantization/quantization/operators.py:Quantization.quantize", "core/itcl_quantization/quantization/operators.py:Quantization.dequantize"]}
{"id": "C03", "title": "Quantize after dequantize is the identity", "statement": "For every code q of the dtype, quantize(dequantize(q)) = q; hence quantize-dequantize is idempotent. For int32 with a non-zero zero point the int32 subtraction wraps and the law fails.", "quantifier": "every dtype that fits in int16, every code, every zero point in the dtype, every positive scale", "why_tests_cant": "A round-trip law over all codes and all scales.", "anchors": ["core/itcl_quantization/quantization/operators.py:Quantization.quantize", "core/itcl_quantization/quantization/operators.py:Quantization.dequantize"]}
{"id": "C04", "title": "Quantization is monotone and maps 0 to the zero point", "statement": "x <= y implies quantize(x) <= quantize(y) elementwise, and quantize(0) is exactly the zero point when the zero point is in the dtype range.", "quantifier": "every pair of inputs, every positive scale, every zero point, every dtype within int32", "why_tests_cant": "Monotonicity relates two runs for all pairs of reals.", "anchors": ["core/itcl_quantization/quantization/operators.py:Quantization.quantize"]}
{"id": "C05", "title": "Binary rounding policies mean floor or ceil", "statement": "With a 0/1 rounding policy of the tensor's shape, every quantized element is floor(x/s+zp) or floor(x/s+zp)+1 (clipped), and its dequantized error is strictly less than one step upward/at most one step; the base policy computed by the rounding-policy helper reproduces round-to-nearest exactly; a policy whose shape cannot be broadcast falls back to round-to-nearest instead of failing; a policy of another shape that does broadcast gives codes of the common shape, each the floor or ceiling of the value it reads by the bit it reads.", "quantifier": "every tensor, scale, zero point, dtype and binary policy", "why_tests_cant": "Policies are exponential in the number of weights; equality with round-to-nearest must hold on ties too.", "anchors": ["core/itcl_quantization/quantization/operators.py:Quantization.quantize", "quantizer/itcl_quantizer/equalizers/adaround/irounding_policy.py:get_base_rounding"]}
{"id": "C06", "title": "Dtype strings are parsed exactly", "statement": "GenericDtype(str) succeeds exactly for int/uint/float (any letter case) followed by a positive decimal bit count without leading zeros; it then reports min/max of the two's complement or unsigned range, and str() of the result is the lower-case input, which parses to the same dtype. Everything else raises TypeError or IndexError.", "quantifier": "every string", "why_tests_cant": "All strings: prefixes, suffixes, embedded junk, leading zeros, mixed case.", "anchors": ["core/itcl_quantization/quantization/operators.py:GenericDtype"]}
{"id": "C07", "title": "Dtype arithmetic is exact for operands of one signedness", "statement": "a+b, a-b, a*b on Dtype values of the same signedness with at most 32 bits give the exact mathematical result (unsigned subtraction that would go negative excepted) and report a dtype that can hold it; with mixed signedness or 64-bit operands the result can be wrong or the reported dtype too small.", "quantifier": "every pair of in-range operands of every pair of bit widths 8..64 and signedness", "why_tests_cant": "2^64 operand pairs; overflow promotion only triggers on particular values.", "anchors": ["core/itcl_quantization/quantization/operators.py:Dtype.__add__", "core/itcl_quantization/quantization/operators.py:Dtype.__sub__", "core/itcl_quantization/quantization/operators.py:Dtype.__mul__"]}
{"id": "C08", "title": "Widening helpers never overflow", "statement": "int8/int16/int32 multiplication and addition helpers return the exact product/sum for every pair of operands of their nominal type.", "quantifier": "every pair of int8, int16, int32 operands", "why_tests_cant": "2^64 pairs for int32.", "anchors": ["core/itcl_quantization/quantization/operators.py:int8_multiplication", "core/itcl_quantization/quantization/operators.py:int32_addition", "inference_engine/itcl_inference_engine/util/quantization.py"]}
{"id": "C09", "title": "Activation tables are the quantized activation", "statement": "create_LUT(f, si, zi, so, zo) has exactly max-min+1 entries and entry k is quantize(f(dequantize(min+k))); every entry is in the dtype range; a monotone f gives a monotone table.", "quantifier": "every activation function, every dtype within int16, all scales and zero points", "why_tests_cant": "Quantifies over all functions and parameters.", "anchors": ["core/itcl_quantization/quantization/operators.py:Quantization.create_LUT", "core/itcl_quantization/quantization/operators.py:Quantization.float_activation"]}
{"id": "C10", "title": "ReducedLUT is lossless", "statement": "For a symmetric reduction, indexing the reduced table at any valid index of the original table returns the original entry, and iterating over it yields the original table.", "quantifier": "every table (any length, any values), every depth (including 0, negative and larger than the number of distinct runs), every min_reduce", "why_tests_cant": "The reduction depends on run structure; head and tail may overlap; unbounded tables.", "anchors": ["core/itcl_quantization/quantization/lut.py:ReducedLUT.__init__", "core/itcl_quantization/quantization/lut.py:ReducedLUT.__getitem__", "core/itcl_quantization/quantization/lut.py:ReducedLUT.__iter__"]}
{"id": "C11", "title": "ReducedLUT serialization preserves lookups", "statement": "deserialize(serialize(r))[i] behaves as r[i] for every integer i, including the same errors; iteration, however, is empty after deserialization.", "quantifier": "every ReducedLUT obtained from any table and settings, every index", "why_tests_cant": "Round-trip over all objects.", "anchors": ["core/itcl_quantization/quantization/lut.py:ReducedLUT.serialize", "core/itcl_quantization/quantization/lut.py:ReducedLUT.deserialize"]}
{"id": "C12", "title": "ReducedLUT out-of-range behaviour and asymmetric mode", "statement": "The documented IndexError for out-of-range indices is not raised on a non-empty table: indices below 0 return the first entry and indices past the end return the last; asymmetric=True can return wrong values for valid indices.", "quantifier": "every non-empty table, every integer index", "why_tests_cant": "Universal saturation claim plus a counterexample to a documented contract.", "anchors": ["core/itcl_quantization/quantization/lut.py:ReducedLUT.__getitem__"]}
{"id": "C13", "title": "ReducedLUT size accounting", "statement": "For depth >= 1 each side stores between 1 and depth intervals, adjacent intervals carry different values, their ends are strictly ordered, and the retained middle has max(0, n - head - tail) entries; head and tail shifts never exceed n.", "quantifier": "every non-empty table and depth", "why_tests_cant": "Structural invariant over all tables.", "anchors": ["core/itcl_quantization/quantization/lut.py:ReducedLUT.__init__", "core/itcl_quantization/quantization/lut.py:ReducedLUT.serialize"]}
{"id": "C14", "title": "Integer multiplier approximates the real factor", "statement": "FloatingIntegerApprox(m) * x computed in integers differs from m*x by at most 1/2 + |x|*m*2^-31 for every normal factor in range; factors below 2^-32 act as 0.", "quantifier": "every factor 0<m<2^30 and every integer x", "why_tests_cant": "Error bound over all factors and operands including the 2^31 renormalisation corner.", "anchors": ["inference_engine/itcl_inference_engine/util/floating.py:FloatingIntegerApprox"]}
{"id": "C15", "title": "Fully connected requantization is accurate", "statement": "The engine's fully-connected output element differs from clip(out_zp + M*acc) with M = si*sw/so by at most 1/2 + |acc|*M*2^-31 (before clipping), where acc is the exact integer accumulator sum((x-zx)(w-zw)) + bias, as long as the int64 product does not overflow. A one-element bias is shared by all neurons, a one-neuron layer is repeated over a longer bias, and any other bias length raises ValueError.", "quantifier": "every layer size, all weights, inputs, biases, zero points and scales with 1e-6 <= M < 2^30", "why_tests_cant": "Fixed-point error bound over unbounded dimensions and all scales.", "anchors": ["inference_engine/itcl_inference_engine/layers/tflite/fullyconnected.py:FullyConnected.infer", "inference_engine/itcl_inference_engine/layers/tflite/fullyconnected.py:FullyConnectedQuantizedMultiplier"]}
{"id": "C16", "title": "Fully connected output is in range and batch-consistent", "statement": "Every output element lies in the output dtype range, and inferring a batch (2-D input) gives row by row exactly the result of inferring each row alone; inputs with more than two dimensions are rejected.", "quantifier": "every batch size, layer size and parameter", "why_tests_cant": "Relates runs of different shapes for all sizes.", "anchors": ["inference_engine/itcl_inference_engine/layers/tflite/fullyconnected.py:FullyConnected.infer"]}
{"id": "C17", "title": "Vanishing multipliers silence the layer", "statement": "If si*sw/so < 1e-6 the layer ignores its input and returns the (clipped) output zero point; if the multiplier is 2^30 or larger the layer cannot be built. A zero output scale is ZeroDivisionError.", "quantifier": "every input, weight, bias; every scale triple", "why_tests_cant": "Threshold behaviour over all scales.", "anchors": ["inference_engine/itcl_inference_engine/layers/tflite/fullyconnected.py:FullyConnectedQuantizedMultiplier"]}
{"id": "C18", "title": "LUT activation equals quantized activation end to end", "statement": "A LUT activation layer built from the JSON the converters/quantizer emit (reduced or full table, offset -min) maps every in-range code q to quantize(f(dequantize(q))); with a plain list, codes below -offset wrap around silently, with a reduced table they saturate.", "quantifier": "every code, activation function, scale, zero point, depth", "why_tests_cant": "Composition of table creation, reduction, serialization and lookup for all parameters.", "anchors": ["inference_engine/itcl_inference_engine/layers/common/lut.py:LUTActivation", "core/itcl_quantization/quantization/lut.py:ReducedLUT", "quantizer/itcl_quantizer/tensor_extractor/tensor.py:NodeLUT"]}
{"id": "C19", "title": "Quantized ReLU", "statement": "The RELU layer should output quantize(max(0, dequantize(x))); it does so when input and output share scale and zero point, but not in general (it centres on the output zero point and wraps on int8 overflow).", "quantifier": "every int8 input, every scale and zero point pair", "why_tests_cant": "Counterexamples live at particular zero points/scales.", "anchors": ["inference_engine/itcl_inference_engine/layers/common/relu.py:RELU.infer"]}
{"id": "C20", "title": "Sequential network is the composition of its layers", "statement": "infer(x) returns layer_n(...layer_1(x)) with one recorded intermediate per layer, independent of earlier infer calls; a failing layer aborts the whole call. When the first operator's name lacks QUANT the input is first quantized to int8.", "quantifier": "every list of layers, every history of infer calls, every input", "why_tests_cant": "Histories of calls and arbitrary depth.", "anchors": ["inference_engine/itcl_inference_engine/network/sequential.py:SequentialNetwork.infer"]}
{"id": "C21", "title": "Operator dispatch is total and order-sensitive", "statement": "build_layer accepts exactly the documented operator names (case-insensitive, with substring matching for some) and raises ValueError otherwise; every operator type that the quantizer and the TFLite converter emit for supported layers is accepted; DEQUANTIZE is not captured by QUANTIZE.", "quantifier": "every operator-type string", "why_tests_cant": "All strings; interplay of equality and substring tests in a fixed order.", "anchors": ["inference_engine/itcl_inference_engine/layers/tflite/build_layer.py:build_layer", "inference_engine/itcl_inference_engine/util/check_layer_type.py:LayerType", "inference_engine/itcl_inference_engine/layers/onnx/build_operator.py:build_operator"]}
{"id": "C22", "title": "Unknown engines and layers are rejected at load time", "statement": "Building a SequentialNetwork succeeds only if the engine is tflite/onnx (any case) and every operator is buildable; the first bad operator makes construction fail with ValueError, so no partially built network is ever observable.", "quantifier": "every network description", "why_tests_cant": "All graphs.", "anchors": ["inference_engine/itcl_inference_engine/network/sequential.py:SequentialNetwork.get_engine", "inference_engine/itcl_inference_engine/network/sequential.py:SequentialNetwork.__init__"]}
{"id": "C23", "title": "ONNX quantized add and matmul", "statement": "QLinearAdd and QLinearMatMul outputs lie in 0..255 and equal the round-half-even of the exact affine result (within half a unit of the real-valued reference) whenever that is inside the range.", "quantifier": "every input, weight, scale and zero point, every dimension", "why_tests_cant": "Error bound for all parameters and sizes.", "anchors": ["inference_engine/itcl_inference_engine/layers/onnx/q_linear_add.py", "inference_engine/itcl_inference_engine/layers/onnx/q_linear_mmul.py"]}
{"id": "C24", "title": "LSTM inference is causal and batch-independent", "statement": "The hidden state after t steps depends only on the first t inputs of that sample: extending a sequence does not change earlier outputs, and each batch element's output equals the output when inferred alone; return_sequences=False returns exactly the last state of the full sequence.", "quantifier": "every sequence length, batch size, parameter set", "why_tests_cant": "Sequences of unbounded length.", "anchors": ["inference_engine/itcl_inference_engine/layers/itclq/lstm.py:LSTM.infer"]}
{"id": "C25", "title": "LSTM states stay in their dtypes", "statement": "Every cell state, hidden state and gate pre-activation the engine computes at every step lies in the declared dtype range.", "quantifier": "every input sequence and parameter set", "why_tests_cant": "Invariant over unbounded time.", "anchors": ["inference_engine/itcl_inference_engine/layers/itclq/lstm.py:LSTM.infer"]}
{"id": "C26", "title": "Calibration covers the data", "statement": "Distribution.quantize on data with a non-degenerate range returns scale > 0 and a zero point inside the dtype range, maps 0.0 exactly to the zero point, and every calibration value in the distribution range round-trips with error at most one step (scale/2 plus the zero-point rounding, i.e. at most scale).", "quantifier": "every non-constant data set, every dtype, asymmetric mode", "why_tests_cant": "All data sets; half-even rounding of the zero point interacts with clipping.", "anchors": ["quantizer/itcl_quantizer/quantizer/distributions/distribution.py:Distribution.quantize"]}
{"id": "C27", "title": "Symmetric and forced-zero-point calibration", "statement": "With force_zp=0 and symmetric=True on a signed dtype no calibration value saturates and the code -2^(b-1) is never used by data; with symmetric=False the positive maximum can be clipped, by at most one step; unsigned dtypes with force_zp and symmetric=False divide by zero.", "quantifier": "every data range and signed dtype", "why_tests_cant": "All data ranges.", "anchors": ["quantizer/itcl_quantizer/quantizer/distributions/distribution.py:Distribution.quantize"]}
{"id": "C28", "title": "Distribution ranges and slices", "statement": "Slicing a distribution keeps exactly the data whose bin overlaps the slice, never widens the range, and min/max of an unsliced non-constant distribution are the data's min/max; constant data reports a range half a unit either side.", "quantifier": "every data set and slice", "why_tests_cant": "All data sets.", "anchors": ["quantizer/itcl_quantizer/quantizer/distributions/distribution.py:Distribution"]}
{"id": "C29", "title": "KL reduction preserves mass", "statement": "KLDivergence.reduce keeps the histogram length and the total mass, puts zero exactly where the input is zero, and makes non-zero bins of a chunk equal; an all-zero chunk produces NaN.", "quantifier": "every histogram and target bin count", "why_tests_cant": "All histograms.", "anchors": ["quantizer/itcl_quantizer/optimizers/kl_div_optimizer.py"]}
{"id": "C30", "title": "Tensor nodes keep codes in step with parameters", "statement": "After any sequence of parameter updates and policy assignments through the updating API, a tensor node's quantized codes equal quantize(float tensor, current scale, zero point, current policy); after the bare reset setters they are stale until the next update; the reset setters restore exactly the scale, zero point or policy the node was created with, after any history, and change nothing else.", "quantifier": "every history of operations on a node", "why_tests_cant": "Histories of unbounded length.", "anchors": ["quantizer/itcl_quantizer/tensor_extractor/tensor.py:NodeTensorTensor", "quantizer/itcl_quantizer/tensor_extractor/tensor.py:NodeTensorBase.update_quant_parameters"]}
{"id": "C31", "title": "Dequantized view of a tensor node", "statement": "The node's dequantized tensor should be scale*(q - zp); the code computes q*scale + zp, which agrees for all tensors only when zp*scale = -zp, i.e. for zp = 0.", "quantifier": "every tensor, scale, zero point", "why_tests_cant": "The defect is invisible to tests that use zero point 0.", "anchors": ["quantizer/itcl_quantizer/tensor_extractor/tensor.py:NodeTensorTensor.dequantized"]}
{"id": "C32", "title": "Bias scale follows kernel and input scales", "statement": "In a quantized dense layer, after any sequence of scale updates on the kernel, input and bias-add nodes the bias node's scale is kernel.scale*input.scale and its zero point is 0.", "quantifier": "every history of updates", "why_tests_cant": "Hook propagation over unbounded histories.", "anchors": ["quantizer/itcl_quantizer/tensor_extractor/keras/layers/keras_dense.py:KerasDense", "quantizer/itcl_quantizer/tensor_extractor/tensor.py:NodeTensorBase"]}
{"id": "C33", "title": "LUT nodes and stale tables", "statement": "A LUT node's table equals the one create_LUT gives for the parameters and policy seen at the last input-parameter update; updating the output parameters or the policy alone leaves the table stale.", "quantifier": "every history of node updates", "why_tests_cant": "Histories.", "anchors": ["quantizer/itcl_quantizer/tensor_extractor/tensor.py:NodeLUT"]}
{"id": "C34", "title": "Random perturbations keep parameters valid", "statement": "The parameter equalizer's zero-point perturbation always stays in the dtype range and its scale perturbation keeps a positive scale positive (changes it by less than 10%).", "quantifier": "every random draw, every current zero point and scale", "why_tests_cant": "All draws of the generator.", "anchors": ["quantizer/itcl_quantizer/equalizers/param_equalizer/abstract_param_optimizer.py"]}
{"id": "C35", "title": "Best-first equalizer never returns a worse network", "statement": "BFSEqualizer.optimize leaves the parameters at the best state seen, its returned cost is not above the initial cost, and it stops after more than max_retries consecutive non-improving moves.", "quantifier": "every cost function, every sequence of random moves", "why_tests_cant": "All random schedules.", "anchors": ["quantizer/itcl_quantizer/equalizers/param_equalizer/bfs_equalizer.py:BFSEqualizer.optimize"]}
{"id": "C36", "title": "Rounding annealer moves", "statement": "A move keeps every policy binary and of the same shape, and flips exactly one entry per tensor; entries of a matrix whose flat index is at least its row count can never change under any sequence of moves.", "quantifier": "every sequence of random draws, every policy", "why_tests_cant": "Unbounded random walks; unreachability cannot be tested.", "anchors": ["quantizer/itcl_quantizer/equalizers/adaround/annealer.py:RoundingAnnealer.move"]}
{"id": "C37", "title": "Annealer local search returns the best state", "statement": "The annealer's final descent never increases its cost and returns a state with the lowest cost seen; but an initial energy of exactly 0 is treated as infinite, so it can return a worse state than it was given.", "quantifier": "every energy function and random schedule", "why_tests_cant": "All schedules; the zero-energy corner is measure-zero.", "anchors": ["quantizer/itcl_quantizer/equalizers/adaround/annealer.py:RoundingAnnealer._to_minima"]}
{"id": "C38", "title": "QUBO energy is the layer's quantization MSE", "statement": "For every output neuron and every 0/1 assignment, the energy of the QUBO dictionary the optimizer builds equals the mean squared error over the data set between the layer's float output and the output with weights floor(W/s)+v, bias floor(b/s)+b' and rounded inputs, minus a constant that does not depend on the assignment.", "quantifier": "every data set, kernel, bias, scales (non-zero), neuron index and 0/1 assignment", "why_tests_cant": "2^(n+1) assignments per neuron, arbitrary real data.", "anchors": ["quantizer/itcl_quantizer/equalizers/adaround/Calculationsint.py:ADAInt", "quantizer/itcl_quantizer/equalizers/adaround/qubo.py:QUBOAnnealer._qubo_dense"]}
{"id": "C39", "title": "QUBO optimum beats every floor/ceil rounding", "statement": "A minimum-energy sample of the dictionary, decoded by the optimizer, gives an MSE not larger than any floor/ceil choice, in particular not larger than round-to-nearest.", "quantifier": "every instance, every exact minimizer", "why_tests_cant": "Optimality over exponentially many roundings.", "anchors": ["quantizer/itcl_quantizer/equalizers/adaround/qubo.py:QUBOAnnealer._qubo_dense"]}
{"id": "C40", "title": "The two QUBO pipelines agree", "statement": "For every neuron the class-based calculation and the free-function calculation (which reuses the quadratic terms computed for neuron 0) produce the same dictionary, in the same variable order.", "quantifier": "every instance and neuron", "why_tests_cant": "All data; the reuse is only correct because those terms do not depend on the neuron.", "anchors": ["quantizer/itcl_quantizer/equalizers/adaround/qubocalculation.py", "quantizer/itcl_quantizer/equalizers/adaround/Calculationsint.py"]}
{"id": "C41", "title": "Neuron subproblems are disjoint", "statement": "Keys written for different neurons are disjoint, within a neuron the four term dictionaries have disjoint keys, and the merged dictionary / dense matrix energy is the sum of the neurons' energies.", "quantifier": "every layer size", "why_tests_cant": "Index arithmetic over all sizes.", "anchors": ["quantizer/itcl_quantizer/equalizers/adaround/qubocalculation.py:Unir_Diccionarios", "quantizer/itcl_quantizer/equalizers/adaround/qubocalculation.py:Matrix_Calculation"]}
{"id": "C42", "title": "Samples are decoded to the right weights", "statement": "The sampler's variable order is the insertion order of the dictionary, which is always the n kernel variables in input order followed by the bias variable, so the decoded row and bias are the values of those variables; no variable is ever missing.", "quantifier": "every instance, including ones with zero coefficients", "why_tests_cant": "Zero coefficients are skipped, which would silently shift the decoding if a variable disappeared.", "anchors": ["quantizer/itcl_quantizer/equalizers/adaround/qubocalculation.py:Tensor_Redondeo", "quantizer/itcl_quantizer/equalizers/adaround/Calculationsint.py:ADAInt.tensor_redondeo"]}
{"id": "C43", "title": "Collision metric", "statement": "The collision figure of a tensor is the number of positions whose code is shared with another position, minus the number of positions beyond the distinct float values; it depends only on the floats and codes and not on their order. It is therefore not a ratio, and the documented reading (0 = no collisions) fails for repeated float data. A layer's figure is the sum over its tensors.", "quantifier": "every pair of tensors", "why_tests_cant": "All tensors.", "anchors": ["quantizer/itcl_quantizer/util/collisions.py"]}
{"id": "C44", "title": "Exported networks are well-formed", "statement": "The quantizer's network lists operators in layer order starting with the input quantize and ending with dequantize, each operator is fed by the output of the one before and shares no other node, and the operator count equals the graph length; unsupported layers and per-layer rounding optimizers are rejected; the engine loads the file exactly when every dense activation is one it can run; the input and output descriptions are the same constants for every model. keras2json keeps layer order and count.", "quantifier": "every supported sequential model", "why_tests_cant": "All layer lists.", "anchors": ["quantizer/itcl_quantizer/tensor_extractor/keras/keras_builder.py", "quantizer/itcl_quantizer/util/network.py:Network", "model_converters/keras2json/keras2json/_convert.py"]}
{"id": "C45", "title": "ONNX graph fusion", "statement": "The ONNX converter consumes every node exactly once and in order, replaces each maximal left-to-right occurrence of DequantizeLinear,Tanh,QuantizeLinear by one TanhLUT and leaves other nodes alone, and terminates; the prefix test is textual, so an operator whose name merely starts with QuantizeLinear is also fused.", "quantifier": "every node sequence", "why_tests_cant": "All sequences.", "anchors": ["model_converters/onnx2json/helpers/graph.py:OnnxGraph.build_graph", "model_converters/onnx2json/helpers/buildOperator.py:buildOperator"]}
{"id": "C46", "title": "ONNX converter node lookup", "statement": "A tensor listed in the graph's value_info resolves to its own entry; the first entry (index 0) is not found because the index is tested for truth; the exported output list is built from the graph inputs. A constant operand without dimensions (a scalar initializer) is refused with TypeError.", "quantifier": "every model", "why_tests_cant": "The failing index depends on the model.", "anchors": ["model_converters/onnx2json/helpers/nodeBuilders/buildBaseNode.py:build_base_node", "model_converters/onnx2json/2json.py:model2json"]}
{"id": "C47", "title": "FPGA batching preserves rows", "statement": "The MQTT inference client splits a batch into chunks whose concatenation is the batch, in order, with sizes differing by at most one; chunks may exceed max_batch_size and batches smaller than max_batch_size are not sent at all (the call returns None).", "quantifier": "every batch length and max_batch_size", "why_tests_cant": "All lengths.", "anchors": ["demo/demo_lib/demo_lib/fpga.py:InferFPGAMQTT.__call__"]}
{"id": "C48", "title": "FPGA result synchronisation", "statement": "Whatever the schedule of MQTT callbacks, an array returned by the inference client is the concatenation of one payload per request, received during this call, in order and each used at most once. If each reply arrives inside its own wait and nothing else arrives, the call returns all answers in order or None, and without timeouts returns the answers. Identifiers are not checked, so late replies are attributed to later requests; a message landing between the two reset steps makes the call give up. The loss client returns only a loss received since the call began, otherwise RuntimeError, but that loss may have been computed for the previous model.", "quantifier": "every arrival schedule", "why_tests_cant": "Schedules of callbacks.", "anchors": ["demo/demo_lib/demo_lib/fpga.py:InferFPGAMQTT", "demo/demo_lib/demo_lib/fpga.py:LossFPGA"]}
{"id": "C49", "title": "Configuration presets", "statement": "tflite() makes the default dense settings symmetric, removes the network equalizers, changes nothing else and is idempotent; layer lookup returns the specific configuration registered under the layer's name and the default otherwise; layers with a specific configuration are not made symmetric by tflite().", "quantifier": "every configuration and layer name", "why_tests_cant": "All configurations.", "anchors": ["quantizer/itcl_quantizer/config/models/keras.py"]}
{"id": "C50", "title": "Quantized dense layer tracks the float layer end to end", "statement": "Running the engine's fully connected layer on quantized inputs with weights/bias/params produced by the quantizer gives, after dequantization, a value within an explicit bound (input error, weight error, bias error, requantization error) of the float dense layer, when no saturation occurs.", "quantifier": "every layer size, weights, inputs, scales", "why_tests_cant": "Compositional error bound over all sizes.", "anchors": ["inference_engine/itcl_inference_engine/layers/tflite/fullyconnected.py:FullyConnected.infer", "quantizer/itcl_quantizer/tensor_extractor/keras/layers/keras_dense.py:KerasDense"]}
{"id": "C51", "title": "One LSTM step is accurate", "statement": "Under the scales its JSON nodes declare, every gate pre-activation the quantized LSTM computes is within 1 + recurrent_scale*hidden_scale/gate_scale codes of the clipped real-valued pre-activation, and each new cell and hidden state is within one code of the clipped real-valued update of the same operands, as long as 64-bit integers do not overflow. A file where a divisor scale (hidden state, cell state, recurrent kernel, recurrent add) is zero is refused on loading.", "quantifier": "all node scales, zero points, kernels, biases, inputs, hidden and cell codes", "why_tests_cant": "ranges over all reals/codes and all network parameters", "anchors": ["inference_engine/itcl_inference_engine/layers/itclq/lstm.py: LSTM.build, LSTM.infer"]}
{"id": "C52", "title": "LSTM initial state", "statement": "An LSTM must start from hidden and cell state 0.0. The engine starts from integer code 0, which is 0.0 only when the zero points are 0: with a cell zero point of 0 the first step ignores the forget gate, with other zero points it does not, and the hidden zero point is never subtracted before the recurrent product.", "quantifier": "all LSTM layers, all zero points", "why_tests_cant": "test networks happen to use zero zero-points; the claim ranges over all parameters", "anchors": ["inference_engine/itcl_inference_engine/layers/itclq/lstm.py: LSTM.infer"]}
{"id": "C53", "title": "Softmax layers", "statement": "The ONNX Softmax layer returns positive values that sum to 1 over the whole batch, so with two or more samples no sample's outputs sum to 1; the TFLite SOFTMAX layer returns its input codes unchanged.", "quantifier": "all batches, any positive exponential", "why_tests_cant": "ranges over all batches and inputs", "anchors": ["inference_engine/itcl_inference_engine/layers/onnx/softmax.py: Softmax.infer", "inference_engine/itcl_inference_engine/layers/tflite/softmax.py: SoftMax.infer"]}
{"id": "C54", "title": "Calibration of a fused ReLU / ReLU6", "statement": "For a layer whose activation is RELU or RELU6 the output range is taken from the positive part of the pre-activations (for RELU6 up to 6). The code slices the calibration histogram, so the reported range reaches at most one bin below 0 (above 6), is exact when no pre-activation is negative, and calibration raises IndexError when every pre-activation is negative.", "quantifier": "all calibration samples, any bin count", "why_tests_cant": "depends on where 0 and 6 fall relative to data-dependent bin edges, for every data set", "anchors": ["quantizer/itcl_quantizer/tensor_extractor/keras/layers/keras_dense.py: fused_relu", "quantizer/itcl_quantizer/quantizer/distributions/distribution.py: Distribution.__getitem__"]}
{"id": "C55", "title": "Entropy-calibration threshold", "statement": "KLDivergenceOptimizer.trim should cut the distribution at the candidate threshold with the least divergence. As written the threshold is (argmin + 1/2) bins measured from zero, ignoring the first candidate's offset and the distribution's minimum, so for every divergence function: non-positive data is never trimmed, positive data far from zero is either untouched or emptied (range [0,1]), data starting at zero always loses its top quant_bin_count bins, and bin_count <= quant_bin_count raises ValueError.", "quantifier": "all data sets, bin counts and divergence functions", "why_tests_cant": "universally quantified over data and over the divergence used to pick the candidate", "anchors": ["quantizer/itcl_quantizer/optimizers/kl_div_optimizer.py: KLDivergenceOptimizer.trim"]}
{"id": "C56", "title": "FixedPercentOptimizer", "statement": "FixedPercentOptimizer(p) should clip the lowest and highest p fraction of the samples. numpy percentiles are on a 0..100 scale, so for p in [0,1] every sample is clipped to the lowest 1% of the data (with up to 101 samples: to the second smallest), for p > 1 the call raises ValueError, and since the bin edges are kept the reported maximum does not change.", "quantifier": "all data sets and percentages", "why_tests_cant": "ranges over all data sets and p", "anchors": ["quantizer/itcl_quantizer/optimizers/fixed_percent.py: FixedPercentOptimizer.trim"]}
{"id": "C57", "title": "ONNX conversion preserves the network's function", "statement": "If an ONNX graph of the supported operators (QuantizeLinear, QLinearMatMul, QLinearAdd, QLinearSigmoid, the fused Dequantize-Tanh-Quantize triple, DequantizeLinear, Softmax) has uniquely named, typed constants, then converting it to JSON, loading that JSON and running the engine gives, for every input on which the ONNX reference semantics is defined, exactly the reference output. A graph that starts with the fused triple is instead run in the engine's legacy int8 mode.", "quantifier": "every supported graph and every input row", "why_tests_cant": "All graphs, constants and inputs.", "anchors": ["model_converters/onnx2json/helpers/graph.py:OnnxGraph.build_graph", "model_converters/onnx2json/2json.py:model2json", "inference_engine/itcl_inference_engine/network/sequential.py:Network"]}
{"id": "C58", "title": "End-to-end accuracy of a quantized dense network", "statement": "Quantizing a stack of dense layers (linear, softmax-as-logits, tanh, sigmoid) with calibration data always succeeds; the exported file loads in the inference engine; and for every batch of inputs whose intermediate values stay in the range seen in calibration, every output of the integer network is within an explicit bound, computed from the exported scales, of the float network (provided no multiplier is too small or too large, no bias saturates and accumulators fit 32 bits). The calibration rows themselves always satisfy the range condition.", "quantifier": "every network shape, weights, activation function, configuration, calibration set and input batch", "why_tests_cant": "Ranges over all networks and inputs.", "anchors": ["quantizer/itcl_quantizer/tensor_extractor/keras/keras_builder.py:build", "quantizer/itcl_quantizer/tensor_extractor/keras/layers/keras_dense.py:KerasDense.quantize", "quantizer/itcl_quantizer/tensor_extractor/keras/layers/activations.py:quantize_activation_node", "inference_engine/itcl_inference_engine/network/sequential.py:Network", "inference_engine/itcl_inference_engine/layers/tflite/fullyconnected.py:FullyConnected.infer"]}
{"id": "C59", "title": "Direct TANH and LOGISTIC layers", "statement": "The TANH and LOGISTIC layers return int8 codes whose value under the fixed output parameters (1/128, 0) resp. (1/256, -128) is within half an output step of the activation of the dequantized input (a whole step in the last half step below the top of the range, which int8 cannot represent), are monotone when the activation is, and agree code for code with the LUT layer built from the same parameters.", "quantifier": "every int8 input code, zero point and input scale; every activation with the stated range", "why_tests_cant": "All activations, scales and zero points.", "anchors": ["inference_engine/itcl_inference_engine/layers/tflite/tanh.py:Tanh.infer", "inference_engine/itcl_inference_engine/layers/tflite/logistic.py:Sigmoid.infer", "inference_engine/itcl_inference_engine/layers/common/lut.py:LUTActivation"]}
{"id": "C60", "title": "What breaks end-to-end accuracy", "statement": "The end-to-end bound does not extend to ReLU layers followed by others (the next layer is calibrated on pre-activations, so a network can leave its range on its own calibration rows) nor to activation dtypes wider than the bias-add dtype (the table saturates in the narrower dtype); and the output shape exported for every FULLY_CONNECTED operator is the layer's input size.", "quantifier": "existence of networks within the accepted configurations; every dense layer for the shape", "why_tests_cant": "Needs the semantics of calibration, export and inference together.", "anchors": ["quantizer/itcl_quantizer/tensor_extractor/keras/keras_builder.py:build", "quantizer/itcl_quantizer/tensor_extractor/keras/layers/keras_dense.py:KerasDense.quantize", "quantizer/itcl_quantizer/tensor_extractor/keras/layers/activations.py:quantize_activation_node", "inference_engine/itcl_inference_engine/network/sequential.py:Network", "inference_engine/itcl_inference_engine/layers/tflite/fullyconnected.py:FullyConnected.infer"]}
{"id": "C61", "title": "Quantizer LSTM: the float reference pass is the LSTM recurrence", "statement": "The float pass the quantizer runs on the calibration samples records, for every sample and time step, exactly the pre-activations, gates, cell state, activated cell state and hidden state of the textbook LSTM recurrence started from zeros, independently of the other samples in the batch; the data handed to the next layer are all hidden states (return_sequences) or the last one of each sample.", "quantifier": "every layer size, weights, batch of samples, number of steps; arbitrary sigmoid and tanh", "why_tests_cant": "All weights, batch sizes and sequence lengths; induction over time.", "anchors": ["quantizer/itcl_quantizer/tensor_extractor/keras/layers/keras_lstm.py:LSTM", "quantizer/itcl_quantizer/tensor_extractor/keras/layers/keras_lstm.py:KerasLSTM.quantize"]}
{"id": "C62", "title": "Quantizer LSTM: the exported operator", "statement": "Quantizing a well-shaped LSTM layer always succeeds and exports 32 inputs in the order the engine reads them: every kernel and recurrent weight code is within half a step of its weight, every unsaturated bias code within half a step under scale input*kernel and zero point 0, every value between the calibration values is represented within half a step by the pre-activation, gate, cell (zero point 0) and hidden nodes, and every table maps the code of v to the code of the activation of v. Layers without bias and empty sequences raise IndexError. Calibration samples are covered only for sequences no longer than the layer is wide; for longer ones the input gate's output can miss calibration values. The engine's LSTM layer refuses an operator with fewer than 32 inputs (IndexError below 22, ValueError from 22 to 31) and ignores any beyond the 32nd.", "quantifier": "every layer, calibration batch and dtype configuration of at most 16 bits (32 for the bias); all values between the calibration values", "why_tests_cant": "All weights and calibration data.", "anchors": ["quantizer/itcl_quantizer/tensor_extractor/keras/layers/keras_lstm.py:KerasLSTM.quantize", "quantizer/itcl_quantizer/tensor_extractor/keras/layers/keras_lstm.py:KerasLSTM._get_scale_zp", "quantizer/itcl_quantizer/tensor_extractor/keras/layers/activations.py:quantize_activation_node", "inference_engine/itcl_inference_engine/layers/itclq/lstm.py:LSTM.from_model"]}
{"id": "C63", "title": "LSTM end to end: quantize, export, load, infer", "statement": "The engine loads the exported LSTM operator, never raises on batches of the right shape, and every output code stands for a value within an explicit bound (a recursion over the steps, computed from the exported scales) of the float LSTM's hidden state, for every sample whose intermediate values stay between the calibration values. The bound contains the term scale*|zero point| of the hidden state on the recurrent operand, and this is real: with a non-zero hidden zero point the second step can be more than 25 steps off on the calibration sample itself.", "quantifier": "every well-shaped layer, calibration batch, input batch, number of steps; every sigmoid/tanh bounded by 1 and Lipschitz up to a constant", "why_tests_cant": "All inputs, lengths and weights; error accumulates over arbitrarily many steps.", "anchors": ["quantizer/itcl_quantizer/tensor_extractor/keras/layers/keras_lstm.py:KerasLSTM.quantize", "inference_engine/itcl_inference_engine/layers/itclq/lstm.py:LSTM.from_model", "inference_engine/itcl_inference_engine/layers/itclq/lstm.py:LSTM.infer"]}
{"id": "C64", "title": "ONNX QLinearSigmoid layer", "statement": "The direct QLinearSigmoid layer keeps the shape, returns bytes, and returns the best byte: no other code stands for a value closer to the sigmoid of the dequantized input; the error is at most half an output step for values in the output range (half a step resp. one step over [0,1] for the usual parameters 1/255 and 1/256), the layer is monotone when the activation is, and agrees code for code with the reduced table the converter exports in its place.", "quantifier": "every array of bytes, zero points, positive scales and every activation function", "why_tests_cant": "All inputs, parameters and activations.", "anchors": ["inference_engine/itcl_inference_engine/layers/onnx/q_linear_sigmoid.py:QLinearSigmoid.infer", "inference_engine/itcl_inference_engine/layers/onnx/quantize_linear.py:QuantizeLinear.infer", "inference_engine/itcl_inference_engine/layers/onnx/dequantize_linear.py:DequantizeLinear.infer", "inference_engine/itcl_inference_engine/layers/common/lut.py:LUTActivation"]}
{"id": "C65", "title": "Dense networks with ReLU layers, every input", "statement": "For a dense network with linear, softmax-logit, tanh/sigmoid-table, ReLU and ReLU6 layers, the exported file loads and every output of the integer network is within an explicit bound of the float network for EVERY input of the right length, calibrated or not: the bound is computed from the exported scales and the float intermediate values, and contains how far those values lie outside the range each exported node can hold and how far that range reaches below 0 (above 6) at a fused ReLU. Calibrating a ReLU layer whose pre-activations have both signs succeeds, hands the PRE-activations on as calibration data, makes that reach at most one histogram bin plus half a step, and lets every activation seen fit.", "quantifier": "every network of these layers, shapes, weights, calibration rows, batch of inputs", "why_tests_cant": "All networks, weights, calibration sets and inputs, including inputs outside the calibration range.", "anchors": ["quantizer/itcl_quantizer/tensor_extractor/keras/layers/keras_dense.py:KerasDense", "quantizer/itcl_quantizer/tensor_extractor/keras/keras_builder.py:build", "quantizer/itcl_quantizer/tensor_extractor/keras/layers/activations.py", "inference_engine/itcl_inference_engine/layers/tflite/fullyconnected.py:FullyConnected.infer", "inference_engine/itcl_inference_engine/network/sequential.py:SequentialNetwork.infer"]}
{"id": "C66", "title": "Quantize in double arithmetic", "statement": "Computed in IEEE-754 doubles (every division, addition and floor rounded), quantize returns a code of the dtype for every non-NaN double, saturates infinities, equals the exact-arithmetic result unless the real code is within 2^(k-49) of a tie, is never more than one code away from it, and the double-computed quantize/dequantize error is at most (1/2 + 2^(k-48)) steps, where codes and zero point lie within 2^k. It is not exactly nearest (0.49999999999999994 is coded 1) and NaN, or 0 with scale 0, becomes -2^31.", "quantifier": "every array of doubles incl. infinities and NaN, dtype up to int32, zero point, scale", "why_tests_cant": "Rounding errors depend on every combination of input, scale and zero point.", "anchors": ["core/itcl_quantization/quantization/operators.py:Quantization.quantize", "core/itcl_quantization/quantization/operators.py:Quantization.dequantize", "core/itcl_quantization/quantization/operators.py:Quantization.round"]}
{"id": "C67", "title": "Round trip, zero and order in double arithmetic", "statement": "In IEEE-754 doubles, quantize after dequantize returns every code for every positive double scale whose products do not overflow (subnormal scales included), fake quantization is bitwise idempotent, 0 is coded as the zero point and the zero point decoded as 0, quantize is monotone over all non-NaN doubles, and dequantize is off by at most one part in 2^53.", "quantifier": "every code, dtype, zero point and double scale", "why_tests_cant": "All codes times all scales; a floor after three roundings.", "anchors": ["core/itcl_quantization/quantization/operators.py:Quantization.quantize", "core/itcl_quantization/quantization/operators.py:Quantization.dequantize"]}
{"id": "C68", "title": "Rounding policies in double arithmetic", "statement": "In IEEE-754 doubles a 0/1 rounding policy means floor or floor+1 whenever the real code is more than 2^(k-49) from an integer, always stays within one code of the default rounding, and the round-to-nearest policy of get_base_rounding reproduces the default rounding away from integers and ties. On values that ARE dequantized codes it does not: scale 0.1, zero point -3, code -6 is re-quantized to -5.", "quantifier": "every array of doubles, policy, dtype, zero point, scale", "why_tests_cant": "The failing inputs are a thin set next to the integers.", "anchors": ["core/itcl_quantization/quantization/operators.py:Quantization.quantize", "quantizer/itcl_quantizer/equalizers/adaround/irounding_policy.py:get_base_rounding"]}
{"id": "C69", "title": "Activation tables in double arithmetic", "statement": "In IEEE-754 doubles an activation table has one entry per code, equal to quantize(f(dequantize(code))); monotone activations give monotone tables; a LUT node's look-up (built with the round-to-nearest policy) is within one code of that and equal to it away from integers and ties, but the identity table with scale 0.1 and zero point -3 maps -6 to -5.", "quantifier": "every double-valued activation function, dtype, scales and zero points, every code", "why_tests_cant": "All activations and parameters.", "anchors": ["core/itcl_quantization/quantization/operators.py:Quantization.create_LUT", "core/itcl_quantization/quantization/operators.py:Quantization.float_activation", "quantizer/itcl_quantizer/tensor_extractor/tensor.py:NodeLUT"]}
{"id": "C70", "title": "Calibration in float arithmetic", "statement": "With every operation of Distribution.quantize rounded in float32 or float64 (whichever NumPy's promotion picks), calibration still yields a positive scale and a zero point that is a code of the dtype; 0 is coded exactly; and every value of the reported range (widened to 0) survives quantize/dequantize in doubles with an error of at most half a step plus 2^(k+4-bits)+2^(k-48) of a step (k code bits, bits the significand of the narrower format), no intermediate result overflowing. Forced zero point 0: half a step when symmetric, one step otherwise. For int32 on float32 data the zero point can be 2^31, outside the dtype.", "quantifier": "every pair of IEEE formats, every finite minimum/maximum of the format within explicit underflow/overflow bounds, every dtype of up to 2^31-1 width, symmetric or not, every value of the range", "why_tests_cant": "Rounding errors depend on the bit pattern of every minimum, maximum and value.", "anchors": ["quantizer/itcl_quantizer/quantizer/distributions/distribution.py:Distribution.quantize", "core/itcl_quantization/quantization/operators.py:Quantization.quantize"]}
{"id": "C71", "title": "The TFLite converter exports the model", "statement": "tflite2json succeeds exactly when every referenced tensor is named, shaped, listed by the interpreter if it holds data, and quantized per tensor or not at all, and every TANH/LOGISTIC operator has an input and an output. The file then lists the operators in order, one each, TANH and LOGISTIC renamed to their table versions, every node carrying the name, type, shape, data and per-tensor scale and zero point of its tensor (provided tensor names are unique). Per-channel models are rejected; with duplicate names the data of the last tensor of that name is exported; fused activations and other builtin options are dropped.", "quantifier": "every model (any number of tensors and operators) and interpreter listing", "why_tests_cant": "All models.", "anchors": ["model_converters/tflite2json/itcl_tflite2json/__init__.py:convert", "model_converters/tflite2json/itcl_tflite2json/__init__.py:_build_from_operator", "model_converters/tflite2json/itcl_tflite2json/operators/BaseOperator.py:BaseOperator.build", "model_converters/tflite2json/itcl_tflite2json/operators/BaseOperator.py:BaseOperator.build_from_node", "model_converters/tflite2json/itcl_tflite2json/operators/TanhLUT.py:TanhLUT", "model_converters/tflite2json/itcl_tflite2json/operators/SigmoidLUT.py:SigmoidLUT"]}
{"id": "C72", "title": "A converted TFLite model computes the model", "statement": "For a TFLite model that starts with QUANTIZE and whose QUANTIZE, FULLY_CONNECTED, TANH, LOGISTIC, RELU (equal parameters) and DEQUANTIZE operators each read what the previous one wrote, converting, loading and running any batch succeeds and yields the value the operators give the model's output tensor (fully connected codes within the fixed-point error of the saturated exact result, all others exactly). Without chaining the engine still runs the operators in file order; fused activations, SOFTMAX and 16-bit TANH are computed wrongly; an unquantized QUANTIZE output raises TypeError at the first batch.", "quantifier": "every such model, of any length and width, every activation function, every batch", "why_tests_cant": "All models and batches.", "anchors": ["model_converters/tflite2json/itcl_tflite2json/__init__.py:convert", "inference_engine/itcl_inference_engine/network/sequential.py:SequentialNetwork", "inference_engine/itcl_inference_engine/layers/tflite/fullyconnected.py", "inference_engine/itcl_inference_engine/layers/tflite/quantize.py", "inference_engine/itcl_inference_engine/layers/tflite/dequantize.py", "inference_engine/itcl_inference_engine/layers/common/lut.py", "inference_engine/itcl_inference_engine/layers/common/relu.py"]}
{"id": "C73", "title": "ScipyOptimizer trims to a range no noisier than the whole", "statement": "trim searches from the full histogram range. A candidate range costs a fixed penalty unless it spans at least 1 inside the histogram, else the chosen metric between the normalized histograms of the data before and after storing all of it with the slice's parameters; with mse that is between 0 and 1. With a minimiser that never ends worse than it starts, the result is a slice by a feasible range, no noisier than not trimming, keeping every sample in the range and not widening the reported range (unless narrower than a bin). When the data spans less than 1 every candidate costs the same. The parameters measured are always int8's, whatever target dtype was given.", "quantifier": "every distribution built from data and slicing, every target dtype, metric and minimiser, every candidate range", "why_tests_cant": "All distributions, metrics and minimisers.", "anchors": ["quantizer/itcl_quantizer/optimizers/scipy_optimizer.py:ScipyOptimizer.trim", "quantizer/itcl_quantizer/quantizer/distributions/distribution.py:Distribution.compare", "quantizer/itcl_quantizer/quantizer/metrics/noise.py:mse"]}
{"id": "C74", "title": "The fully connected layer and the fixed-point multiplier in binary64", "statement": "Building the TFLite fully connected layer from double scales succeeds when the product of input and kernel scales is a normal double and the real multiplier M is between 1.000001e-6 and 2^30-1; each output is then within 1/2 + |acc|*M*(2^-31 + 2^-50) of the saturated real value zp + M*acc. Below 0.999999e-6 every output is the zero point. FloatingIntegerApprox of a double is exactly the rational construction (frexp, scaling and round lose nothing); infinities raise OverflowError and NaN ValueError. A zero output scale raises ZeroDivisionError, an overflowing product OverflowError, a NaN scale ValueError. When the product of the two scales underflows the layer is silently the constant zero point although M is in range, so the accuracy claim needs the normal-product condition.", "quantifier": "every triple of double scales, zero points, weights, biases and inputs whose accumulators fit 32 bits", "why_tests_cant": "All scales, weights and inputs; the failures sit at the ends of the double range.", "anchors": ["inference_engine/itcl_inference_engine/layers/tflite/fullyconnected.py:FullyConnectedQuantizedMultiplier", "inference_engine/itcl_inference_engine/layers/tflite/fullyconnected.py:FullyConnected", "inference_engine/itcl_inference_engine/util/floating.py:FloatingIntegerApprox"]}
{"id": "C75", "title": "A dense network run in doubles computes its real network up to an explicit error", "statement": "Loading a file QUANTIZE, FULLY_CONNECTED and table-activation operators in any number and order, DEQUANTIZE, whose neighbouring operators share parameters, and running any non-empty batch of doubles succeeds; every output is within the sum, layer by layer, of propagated input error (times the largest absolute weight sum), half an output step, one accumulator unit and the table error, of the real-valued network the file describes applied to the saturated input. Tables built by create_LUT in doubles meet the table condition with error half a step plus the function's own error; tables of the quantizer's activation nodes with one step more.", "quantifier": "every such network of any depth and widths, all double scales in range, every batch", "why_tests_cant": "All networks, depths, scales and batches.", "anchors": ["inference_engine/itcl_inference_engine/network/sequential.py:SequentialNetwork", "inference_engine/itcl_inference_engine/layers/tflite/quantize.py", "inference_engine/itcl_inference_engine/layers/tflite/dequantize.py", "inference_engine/itcl_inference_engine/layers/tflite/fullyconnected.py", "inference_engine/itcl_inference_engine/layers/common/lut.py", "core/itcl_quantization/quantization/operators.py:Quantization.create_LUT"]}
{"id": "C76", "title": "What QUBO rounding leaves in the exported network", "statement": "Adaptive rounding of a dense layer with the QUBO optimizer succeeds for every answer of the sampler and changes only the kernel and bias codes of that layer: each becomes its value divided by the scale, rounded down, plus the sampler's bit for that weight and the node's zero point, saturated to the dtype. If the sampler returns a minimum for each neuron, no chosen code leaves the dtype and no calibration input saturates or lies half way between codes, the mean squared difference between the given float outputs and the exported layer's exact integer result (on the codes the exported input quantizer produces) is not larger than for any other choice of rounding each weight and bias down or up, in particular not larger than before. Each of the side conditions is needed: with a weight at the top of the range (always present after symmetric calibration), with an activated layer (tanh, sigmoid: the float outputs given are the activated ones) or with half-way inputs an exact solver can make the layer worse. Rounding a whole network gives each layer exactly what rounding it alone would.", "quantifier": "every dense layer of any size, any scales, weights, biases and calibration rows, every sampler answer; every list of layers with distinct nodes", "why_tests_cant": "All layers, data sets and sampler answers; optimality over 2^(n+1) roundings per neuron.", "anchors": ["quantizer/itcl_quantizer/tensor_extractor/keras/layers/keras_dense.py:KerasDense.adaround", "quantizer/itcl_quantizer/equalizers/adaround/qubo.py:QUBOAnnealer", "quantizer/itcl_quantizer/equalizers/adaround/adaround.py:AdaRound.round", "quantizer/itcl_quantizer/equalizers/adaround/adaround.py:AdaroundNet.round", "quantizer/itcl_quantizer/tensor_extractor/tensor.py:NodeTensorTensor.rounding_policy"]}
{"id": "C77", "title": "The QAOA front end solves the annealers' problem", "statement": "For the dictionary of any neuron the QAOA front end declares one binary variable per kernel weight, in order, then the bias, declares every variable its objective mentions, and its objective has the same value as the annealers' energy at every assignment; decoding a solution gives the kernel row's directions and the bias direction, and an exact solution has the smallest mean squared error of all roundings. An empty dictionary is a ValueError, and the first of the two QAOA functions can never return (it uses a name that is not imported).", "quantifier": "every instance, neuron and assignment", "why_tests_cant": "All sizes, weights and assignments.", "anchors": ["quantizer/itcl_quantizer/equalizers/adaround/qubocalculation.py:QAOA_Solution2", "quantizer/itcl_quantizer/equalizers/adaround/qubocalculation.py:QAOA_Solution", "quantizer/itcl_quantizer/equalizers/adaround/qubocalculation.py:Tensor_Redondeo2", "quantizer/itcl_quantizer/equalizers/adaround/Calculationsint.py:ADAInt.qaoa_solution"]}
{"id": "C78", "title": "The annealing parameter equalizer tunes detached copies after its first rejected move", "statement": "Running the simulated-annealing parameter equalizer on any network at rest never raises. The network it leaves behind is the one after the first rejected perturbation (or after the last step if none is rejected), whatever the later steps draw; the cost it returns is the smallest loss among the networks up to that point. As soon as one perturbation is rejected the returned cost is strictly smaller than the loss of the network left behind; if the very first perturbation is rejected the network is strictly worse than the one given. The node objects it returns are copies that do not belong to the network.", "quantifier": "every network at rest, every set of tunable nodes, every loss of the exported network, every number of steps, all random draws and every outcome of the annealing tests (every temperature schedule)", "why_tests_cant": "All random histories and schedules; the loss of aliasing only shows after a rejection.", "anchors": ["quantizer/itcl_quantizer/equalizers/param_equalizer/annealer.py:ParamEqAnnealer", "quantizer/itcl_quantizer/equalizers/param_equalizer/abstract_param_optimizer.py:AbstractParamOptimizer.set_initial_neigh", "quantizer/itcl_quantizer/equalizers/param_equalizer/abstract_param_optimizer.py:AbstractParamOptimizer.move"]}
{"id": "C79", "title": "An error certificate for any dense file, whoever tuned it", "statement": "Any exported file of a dense network (QUANTIZE, FULLY_CONNECTED and table operators, DEQUANTIZE; usable dtypes, scales and zero points; matching shapes; multipliers in range; accumulators that fit) loads, and for every batch of inputs every output of the integer network is within a bound of the float network it is compared with; the bound is computed from the file alone: the distance of its weights, biases and table entries from the float ones, its scales, and how far values leave the nodes' ranges. This does not depend on how the file's numbers were chosen. Files of the builder qualify; so does any file whose weight and bias codes were re-rounded by any rounding policies in [0,1] (AdaRound, annealer, QUBO), which move a code by at most one and enlarge the operator's bound by at most one weight step per input and one accumulator step.", "quantifier": "every dense network, file, batch and input; every pair of rounding policies", "why_tests_cant": "All networks, files and inputs.", "anchors": ["inference_engine/itcl_inference_engine/layers/tflite/fullyconnected.py:FullyConnected", "inference_engine/itcl_inference_engine/layers/common/lut.py:LUTActivation", "inference_engine/itcl_inference_engine/network/sequential.py:SequentialNetwork", "quantizer/itcl_quantizer/tensor_extractor/tensor.py:NodeTensorTensor"]}
{"id": "C80", "title": "Whatever tuning does to a quantized network, its file is still covered by the certificate", "statement": "Take the node objects the quantizer creates for any dense network (whatever scales and zero points calibration chose) and tune them in any way: parameter updates with or without requantization, rounding policies, resets, complete runs of the BFS equalizer or of the parameter annealer, in any order and any number, with any losses and random draws. The file written afterwards always has the right shapes, codes in range and complete tables, so if its numbers pass the check of the certificate (scales positive, zero points representable, multipliers and accumulators in range) it loads and every output is within the certificate's bound. Serialising the untouched nodes gives exactly the file of the quantizer. If moreover every update requantizes, biases are left to their hooks, policies are in [0,1] and activation nodes keep their parameters, the bound can be stated by scales alone: one kernel step per input, one step for the bias, half an output step, one table step.", "quantifier": "every dense network, calibration result, tuning session, file and input", "why_tests_cant": "All networks, session lengths, random draws and inputs.", "anchors": ["quantizer/itcl_quantizer/tensor_extractor/tensor.py:NodeTensorTensor", "quantizer/itcl_quantizer/tensor_extractor/operator.py:Operator", "quantizer/itcl_quantizer/util/network.py:Network", "quantizer/itcl_quantizer/tensor_extractor/keras/keras_builder.py:build", "quantizer/itcl_quantizer/tensor_extractor/keras/layers/keras_dense.py:KerasDense"]}
{"id": "C81", "title": "Quantizing with a loss function never writes a worse network", "statement": "Calling build() with a loss function runs the parameter equalizer over the whole network and then AdaRound layer by layer, and writes the file. For every dense network, every loss computed from the network (in particular from the outputs of the inference engine on any data), every configuration and every sequence of random draws: the stage itself raises nothing (the loss is assumed to return a number for every network it is shown); if it ends, what it did is a tuning session, the written network has no larger loss than the one written without a loss function (unless a network of loss exactly 0, no worse than the untuned one, can be reached, which AdaRound mistakes for 'no energy'; a negative loss such as minus the number of hits rules this out), its file is covered by the error certificate if its numbers pass the check, and every weight and bias in it is one of the two codes next to the exact quotient, saturated. For integer losses bounded below, it ends within a number of turns fixed in advance. AdaRound alone changes no scale and no zero point and keeps the error bound stated by scales.", "quantifier": "every dense network, calibration result, loss function of the network, configuration and sequence of random draws", "why_tests_cant": "All networks, losses, configurations and random sequences; termination over all runs.", "anchors": ["quantizer/itcl_quantizer/tensor_extractor/keras/keras_builder.py:build", "quantizer/itcl_quantizer/equalizers/adaround/adaround.py:AdaroundNet", "quantizer/itcl_quantizer/equalizers/param_equalizer/param_equalizer.py:ParamEqualizerFullNet", "quantizer/itcl_quantizer/tensor_extractor/keras/layers/keras_dense.py:KerasDense"]}
{"id": "C82", "title": "Accuracy and mean squared error of the quantized network", "statement": "With the loss functions of the quantization scripts: (classification, minus the number of argmax hits) on every test set, the file of a dense network has at least as many hits as there are samples that the float network classifies correctly with a margin above twice the file's certified error, and misses every sample the float network assigns to another class with such a margin; a softmax after the scores changes nothing. Quantizing with this loss ends for every sequence of random draws and writes a file with at least as many hits as the untuned file (if that has one hit). (Regression) the mean squared error of the file differs from the float network's by at most an explicit amount computed from the certificate. With targets stored as a vector the scripts' mean squared error compares every prediction with every target, and is minimal for the constant prediction.", "quantifier": "every dense file, test set, labels or targets, tuning configuration and sequence of random draws", "why_tests_cant": "All files, test sets and random sequences; the margin and the certificate vary continuously with the weights.", "anchors": ["quantizer/quantize_mnist.py:loss", "quantizer/quantize_regression_x3.py:loss", "quantizer/qubo_adaround/quantize_regresion.py:loss", "demo/x3_fpga/quantize_x3.py:mse", "quantizer/itcl_quantizer/tensor_extractor/keras/keras_builder.py:build"]}
{"id": "C83", "title": "keras2json files hold the model", "statement": "Converting a model of supported layers to JSON succeeds exactly when every dense layer has a kernel and a named activation, every LSTM has its three arrays and a known three-axis input shape, and every convolution has a bias; a layer of another class makes the whole conversion fail with ValueError. The function of every stack of dense layers can be computed from its file (kernel rows times input plus bias, then the named activation); a dense layer without bias works only if it is square, otherwise its bias has the wrong length. Kernels are written transposed and entry by entry, convolution arrays as they are; padding is 0 exactly for 'valid'; an LSTM's twelve per-gate nodes are always zero and its weights are in the three 'complete' nodes. Two models with the same layer kinds and the same file have the same weights, activations, strides, windows, paddings, units and steps; an LSTM's activation and other options leave no trace. Transposed, depthwise and separable convolutions are silently written as ordinary ones. A layer whose class name contains both Dense and LSTM is converted as a dense layer.", "quantifier": "every list of layers, all weights, shapes, names and options", "why_tests_cant": "All models and weights; injectivity compares every pair of models.", "anchors": ["model_converters/keras2json/keras2json/_convert.py:keras2json", "model_converters/keras2json/keras2json/layers/dense.py:Dense", "model_converters/keras2json/keras2json/layers/lstm.py:LSTM", "model_converters/keras2json/keras2json/layers/conv2d.py:Conv2d", "model_converters/keras2json/keras2json/layers/maxpool2d.py:MaxPool2D", "model_converters/keras2json/keras2json/layers/_activations.py:get_activation_name"]}
{"id": "C84", "title": "Building with the QUBO optimizer, from the quantized network to the file", "statement": "With the QUBO rounding optimizer configured, build() on a dense network with at least one calibration row writes a file for every loss function, every draw of the equalizer and every answer of the QUBO sampler (it can fail to end only because of the equalizer); with no calibration rows and no equalizer problem it raises IndexError and writes nothing. Every weight and bias code of the file is one of the two next to the exact value, saturated; if the file's numbers pass the check, the engine loads it and the error certificates apply however bad the answers were, and without the equalizer no scale or zero point changes. If the sampler solves every neuron exactly, the calibration data of each layer (the float outputs of the previous one) neither saturate nor lie half way between codes and no chosen code leaves its dtype, every dense layer of the file fits the float layer's outputs on those data at least as well as with any other rounding of its weights and biases to neighbouring codes, equalized or not. Without the equalizer the loss function has no influence on the file. Without a loss function the optimizers are not run and the file is the one of the quantized network.", "quantifier": "every dense network the quantizer produces, every non-empty list of calibration rows, loss, equalizer run and sampler answers", "why_tests_cant": "All networks, data, random draws and sampler answers; optimality is against 2^(n+1) roundings of every neuron of every layer.", "anchors": ["quantizer/itcl_quantizer/tensor_extractor/keras/keras_builder.py:build", "quantizer/itcl_quantizer/equalizers/adaround/adaround.py:AdaroundNet", "quantizer/itcl_quantizer/equalizers/adaround/qubo.py:QUBOAnnealer", "quantizer/itcl_quantizer/tensor_extractor/keras/layers/keras_dense.py:KerasDense"]}
{"id": "C85", "title": "Keras models with LSTM layers, from build() to the engine", "statement": "A Keras model of LSTM layers (with bias, all but the last returning sequences) followed by dense layers, dropout anywhere, calibrated on sequences, is quantized and exported: a QUANTIZE operator, one LSTM operator per LSTM layer, the operators of the dense layers, a DEQUANTIZE operator; dropout leaves no trace. If the file's numbers are in range (no saturated bias, multipliers and accumulators), the engine loads it and for every batch of sequences of any length whose LSTM values stay within what calibration saw, every output is within a bound, computed from the file, of the float network; if the last LSTM returns sequences and there is no dense layer, every hidden state of every step is. The calibration samples qualify when sequences are no longer than the LSTM layers are wide. A dense layer applied to sequences is exported and loaded but no inference on the file ever succeeds (AssertionError). A model with an LSTM layer cannot be built with a loss function and an equalizer or rounding configuration: AttributeError. The layer that follows a dense layer on sequences is calibrated on that layer's output at every step of every sample.", "quantifier": "every such model, weights, calibration data, batch and sequence length, and every Lipschitz sigmoid and tanh bounded by 1", "why_tests_cant": "All weights, inputs, sequence lengths and stack depths; errors accumulate over time steps and over layers.", "anchors": ["quantizer/itcl_quantizer/tensor_extractor/keras/keras_builder.py:_quantize", "quantizer/itcl_quantizer/tensor_extractor/keras/keras_builder.py:build", "quantizer/itcl_quantizer/tensor_extractor/keras/layers/keras_lstm.py:KerasLSTM", "inference_engine/itcl_inference_engine/layers/itclq/lstm.py:LSTM", "inference_engine/itcl_inference_engine/layers/tflite/fullyconnected.py:FullyConnected"]}
{"id": "C86", "title": "Activation tables of arbitrary Python callables", "statement": "create_LUT(f, ...) on a Python callable that may raise and may return bools, ints or floats: if f returns a float on the lowest code, entry k is quantize(f(dequantize(min+k))) as in C09, whatever types f returns elsewhere; if it returns an int there, every value is truncated toward zero before it is quantized; if a bool, only zero or non-zero survives; if f raises on any code, so does create_LUT. Hence max(0, x) with negative codes gives the staircase of whole numbers (all inputs below 1 get the code of 0) where max(0.0, x) gives the ReLU. The converters' sigmoid 1/(1+math.exp(-x)) has a table exactly when the lowest representable input is at least -709.78...; otherwise conversion stops with OverflowError.", "quantifier": "every dtype within int32, every callable, every scale and zero point, every code", "why_tests_cant": "All callables and parameters; the deciding value is only the first of the table.", "anchors": ["core/itcl_quantization/quantization/operators.py:Quantization", "model_converters/tflite2json/itcl_tflite2json/operators/SigmoidLUT.py:sigmoid_fn", "model_converters/onnx2json/helpers/nodeBuilders/QLinearSigmoid.py:sigmoid"]}
{"id": "C87", "title": "LSTM inference in binary64", "statement": "The engine's LSTM with every float operation rounded to binary64: for positive double scales, each pre-activation code is within 1 + rks*hs/ras + 2^-49 * (magnitude of the summands) of the saturated real pre-activation (one code lost by each of the two truncations), and each new cell-state and hidden-state code is within 1 + 2^-50 * (magnitude of the summands) of the saturated real update; cell and hidden codes always lie in their dtype, even after overflow to inf or NaN. A run in which no truncated value comes within a relative 2^-50 of a nonzero integer gives exactly the codes of exact arithmetic, step records included. Near integers it need not: with scales 0.1, 0.7 and 0.35 the hidden code that is 4 in exact arithmetic comes out as 3.", "quantifier": "every exported layer with double scales between 2^-200 and 2^200, every input, every hidden and cell code, every number of steps and samples", "why_tests_cant": "All scales and codes; the deviation appears only for values within one rounding of an integer.", "anchors": ["inference_engine/itcl_inference_engine/layers/itclq/lstm.py:LSTM", "inference_engine/itcl_inference_engine/util/floating.py:FloatingIntegerApprox"]}
{"id": "C88", "title": "ONNX quantized add and matmul in binary64", "statement": "QLinearAdd and QLinearMatMul with every float operation rounded to binary64: for positive double scales and uint8 codes, every output code is a uint8 within 1/2 + 2^-50 * (sum of the absolute terms, in output steps) of the clipped real value, and it is the code of the exact computation unless the real quotient lies within that slack of a half-integer. Incompatible shapes are the addition's only error; a batch of rows is the rows one by one. A zero output scale makes the matrix product fail on load with ZeroDivisionError, while the addition answers without an exception: 255 for positive sums, 0 for negative ones, a platform-dependent value (NaN cast to uint8) for a zero sum. The slack is needed: with input scale 0.1 and five steps the exact code is 1 and the computed one 0.", "quantifier": "all uint8 tensors of any shape, all zero points, all double scales between 2^-200 and 2^200, all accumulators in int32", "why_tests_cant": "All scales and codes; the deviation appears only for values within one rounding of a half-integer.", "anchors": ["inference_engine/itcl_inference_engine/layers/onnx/q_linear_add.py:QLinearAdd", "inference_engine/itcl_inference_engine/layers/onnx/q_linear_mmul.py:QLinearMatMul"]}
{"id": "C89", "title": "The LSTM loop in binary64: causal, batch-independent, in range", "statement": "With every float operation in binary64, whatever the multipliers (infinite or NaN included): each sample of a batch gets the outputs and recorded tensors it gets alone, a batch fails only if one of its samples fails alone, the outputs up to step t depend on the first t inputs only, and return_sequences=False returns the last state of the full sequence. When the scales of the recurrent kernel, the hidden state and the pre-activation lie between 2^-200 and 2^200, every recorded pre-activation, cell and hidden state is a value of its dtype for every input, and inference never raises if the tables cover their dtypes. Without that condition the claim fails: scales whose quotient overflows give an infinite multiplier, 0 * inf is NaN, its code is -2^63 and the table lookup raises IndexError.", "quantifier": "every sequence length, batch, integer input, kernel, bias and table; every float multiplier (for the first part), every scale between 2^-200 and 2^200 (for the second)", "why_tests_cant": "Sequences and batches of unbounded size; NaN arises only for extreme scales.", "anchors": ["inference_engine/itcl_inference_engine/layers/itclq/lstm.py:LSTM.infer", "inference_engine/itcl_inference_engine/layers/itclq/lstm.py:LSTM.build"]}
{"id": "C90", "title": "Quantized LSTM end to end in binary64: error bound", "statement": "Take a Keras LSTM layer and a file for it: codes of at most 16 bits, each within (1/2 + rho) steps of the real value it stands for or saturated, with the scales, kernels, biases and tables of the 32 operator inputs; scales between 2^-200 and 2^200 whose products leave room in 53 bits. Then the engine, with every float operation in binary64, loads the file, never raises, returns the rows return_sequences asks for, and each hidden state it returns is in the output type and within an explicit bound of the textbook LSTM on the real inputs: the bound of C63 with every half step widened by rho and every truncation by sigma, the roundings of the engine. With rho = sigma = 0 it is the bound of C63. The file the quantizer exports is such a file with rho = 0, and still is, with an explicit rho, when each of its scales is moved by a relative u (stored as a double), and the samples its calibration covered stay in range.", "quantifier": "every layer (units, features, weights, bias), sequence length, batch, integer input and function pair (Lipschitz up to a constant), every file with those properties, every relative change of scale up to one half", "why_tests_cant": "Batches, lengths and sizes are unbounded, and rounding errors of all steps accumulate through the recurrence.", "anchors": ["inference_engine/itcl_inference_engine/layers/itclq/lstm.py:LSTM.from_model", "inference_engine/itcl_inference_engine/layers/itclq/lstm.py:LSTM.build", "inference_engine/itcl_inference_engine/layers/itclq/lstm.py:LSTM.infer", "quantizer/itcl_quantizer/tensor_extractor/keras/layers/keras_lstm.py:KerasLSTM.quantize"]}
{"id": "C91", "title": "ONNX networks in binary64: error bound", "statement": "A file of QuantizeLinear, any sequence of QLinearMatMul, QLinearAdd (bias vector), QLinearSigmoid, SigmoidLUT and TanhLUT operators, and DequantizeLinear, run on any batch of doubles with every float operation in binary64, is loaded, never raises, and every output is within an explicit bound of the real-valued network the file describes (products and sums of the represented weights, the activation, saturation at the ends of each node's range). Each product multiplies the error by its largest absolute weight sum and adds half an output step and 2^-19 of a product step; each sum adds half a step; each activation multiplies by its Lipschitz constant and adds its own float error and half a step. Tables the converter writes satisfy the bound whatever the depth of their reduced form; replacing QLinearSigmoid by its table, or a DequantizeLinear, Tanh, QuantizeLinear triple by TanhLUT, changes no bit of any answer. A batch of the wrong width raises ValueError, and nothing else does.", "quantifier": "every such file (widths up to 33025, scales 2^-200 to 2^200 that are doubles, byte codes and zero points, weights within 255 of their zero point), every number of operators, every batch, every activation computed up to eta and Lipschitz", "why_tests_cant": "Networks, batches and weights are unbounded, and roundings of each operator accumulate.", "anchors": ["inference_engine/itcl_inference_engine/layers/onnx/build_operator.py:build_operator", "inference_engine/itcl_inference_engine/layers/onnx/q_linear_mmul.py:QLinearMatMul.infer", "inference_engine/itcl_inference_engine/layers/onnx/q_linear_add.py:QLinearAdd.infer", "inference_engine/itcl_inference_engine/layers/onnx/q_linear_sigmoid.py:QLinearSigmoid.infer", "inference_engine/itcl_inference_engine/layers/common/lut.py:LUTActivation.infer", "inference_engine/itcl_inference_engine/network/sequential.py:SequentialNetwork.infer"]}
{"id": "C92", "title": "Dense networks quantized and run in binary64: end-to-end error bound", "statement": "Quantizing a stack of Keras dense layers (with any layers the builder skips between them) with floating-point calibration, exporting it and running the file in the engine, every float operation rounded to IEEE binary32 or binary64, never raises when every calibrated tensor has two different values that are floats and whose largest magnitude is neither tiny nor huge; the graph is QUANTIZE, one operator per layer (two with a table), DEQUANTIZE. If the exported multipliers and accumulators are in range and no bias is saturated, every batch of doubles is accepted and every output is within an explicit bound of the real network that saturates where the file's nodes do; where no node saturates (a fused ReLU's node rectifies) that is the Keras network itself. The bound is computed from the exported scales: half an input step, per layer the largest absolute weight sum times the incoming error plus the kernel, bias and output steps, per table its Lipschitz constant, its own float error and a step and a half. The input node covers every calibration value to half a step.", "quantifier": "every number, width and depth of layers, every weight and bias, every calibration data, every narrow dtype configuration (codes up to 2^17), symmetric or not, both IEEE formats of the calibration, every batch, every Lipschitz activation, whatever Keras's forward pass returns", "why_tests_cant": "Networks, weights, data and batches are unbounded, and the roundings of calibration, quantization, table building and inference accumulate.", "anchors": ["quantizer/itcl_quantizer/tensor_extractor/keras/keras_builder.py:build", "quantizer/itcl_quantizer/tensor_extractor/keras/layers/keras_dense.py:KerasDense", "quantizer/itcl_quantizer/tensor_extractor/keras/layers/activations.py:quantize_activation_node", "quantizer/itcl_quantizer/tensor_extractor/keras/layers/keras_input.py:KerasInput", "quantizer/itcl_quantizer/tensor_extractor/keras/layers/dequantize.py:Dequantize", "quantizer/itcl_quantizer/util/network.py", "inference_engine/itcl_inference_engine/network/sequential.py:SequentialNetwork.infer", "inference_engine/itcl_inference_engine/layers/tflite/fullyconnected.py"]}
{"id": "C93", "title": "The LSTM quantization-noise report (debug mode)", "statement": "In debug mode, quantizing an LSTM layer also prints a noise report. Debug mode never changes what the layer exports. Whenever the exported layer is one the engine accepts with no saturated bias, the report is produced: fifteen rows, one number per time step, each the mean over the calibration samples and units of the squared difference between the dequantized value the engine computes (bias add, recurrent add and activation of each gate, cell state, its activation, hidden state) and a value of the float LSTM. For all rows except the four bias-add rows the float value is the one the row names, every engine value is a value of its node's dtype, and each number is at most the square of an explicit bound computed from the exported scales. The four bias-add rows are compared with the pre-activations h U + (x K + b) instead of x K + b: right at the first step, refuted from the second step on.", "quantifier": "every LSTM layer with a bias, every dtype configuration up to 16 bits, every calibration batch, every number of units, features and time steps (the bounds: at most as many steps as units), every bounded Lipschitz sigmoid and tanh", "why_tests_cant": "The report compares two recurrences over unbounded time; its numbers look plausible whether or not they compare matching quantities.", "anchors": ["quantizer/itcl_quantizer/tensor_extractor/keras/layers/keras_lstm.py:_quantization_noise", "quantizer/itcl_quantizer/tensor_extractor/keras/layers/keras_lstm.py:quantize", "quantizer/itcl_quantizer/tensor_extractor/keras/layers/keras_lstm.py:LSTM", "inference_engine/itcl_inference_engine/layers/itclq/lstm.py:LSTMIntermediateTensors", "inference_engine/itcl_inference_engine/layers/itclq/lstm.py:infer"]}
{"id": "C94", "title": "Comparing the histograms of two distributions", "statement": "normalize() of a distribution with a sample between its outer edges is a probability vector: entry i is the fraction of those samples that bin i holds, all entries are non-negative and they add to 1 (every such sample is in exactly one bin; with the default edges every sample is). With explicit edges, decreasing edges raise ValueError, fewer than two IndexError, and samples outside change nothing; with no sample inside the fractions are NaN. compare() with mse is symmetric, never negative, at most 2/bins, and 0 exactly when every bin holds the same fraction in both, so the order of the samples and repeating all of them do not matter. Different numbers of bins raise ValueError unless one distribution has a single bin (as every slice narrower than a bin has), which is silently compared with every bin. compare() with kl_divergence is finite, never negative, and 0 for equal fractions; with norm=False the smoothing of empty bins is lost and a bin empty only in the second distribution gives infinity.", "quantifier": "every sample list, every edge list, every number of bins, every pair of distributions", "why_tests_cant": "Quantifies over all data and all edges; the one-bin and integer cases give plausible numbers instead of errors.", "anchors": ["quantizer/itcl_quantizer/quantizer/distributions/distribution.py:normalize", "quantizer/itcl_quantizer/quantizer/distributions/distribution.py:compare", "quantizer/itcl_quantizer/quantizer/distributions/distribution.py:__init__", "quantizer/itcl_quantizer/quantizer/metrics/noise.py:mse", "quantizer/itcl_quantizer/quantizer/metrics/noise.py:kl_divergence"]}
{"id": "C95", "title": "A batch is answered row by row", "statement": "Running a loaded dense file, or an ONNX file whose additions add vectors, on a batch gives one answer row per input row, and each answer row is exactly (in double arithmetic, bit for bit) what the file gives for that input row alone; a batch fails only if one of its rows fails alone. So order, grouping and cutting a batch in pieces do not change any answer, and the number of hits on a test set is the number of samples the file gets right one by one. The same holds in exact arithmetic, there also for converted TFLite models with ReLU layers. A QLinearAdd whose constant is a matrix breaks this: rows are then treated by their position, and a single row gives as many answers as the matrix has rows.", "quantifier": "every file, every non-empty rectangular batch", "why_tests_cant": "Ranges over every file and batch; the matrix constant passes tests run on the exported batch size.", "anchors": ["inference_engine/itcl_inference_engine/network/sequential.py:SequentialNetwork", "inference_engine/itcl_inference_engine/layers/onnx/q_linear_add.py:QLinearAdd", "inference_engine/itcl_inference_engine/layers/onnx/q_linear_mmul.py"]}
