{
 "C01": "All dtypes inside int32, any data/zp/scale/policy; uint32 counterexample (C01_uint32_refuted).",
 "C02": "Exact rational arithmetic; condition diff_in_int32 is the exact no-wrap condition of dequantize (covers int8/int16/uint16 with any in-range zp and int32 with zp 0).",
 "C03": "Round trip under the no-wrap condition; int32 with zp 1 refuted.",
 "C07": "Positive part for equal signedness up to 32 bits; mixed signedness, int64 and unsigned borrow refuted by witnesses.",
 "C12": "Saturation and asymmetric-mode bug proved as facts about the code.",
 "C26": "Exact-rational calibration; degenerate all-zero data shown to raise.",
 "C27": "Symmetric and forced zero point 0 proved; forced non-zero zero point, symmetric unsigned and unsigned forced are refuted/raise.",
 "C28": "Slices of include_partial_bins=True distributions (the only kind built by the repository).",
 "C54": "Exact bound of one bin, counterexamples for the leak, exactness for non-negative data.",
 "C55": "Facts about the code as written, for any divergence function.",
 "C56": "Facts about the code as written.",
 "C30": "For every history of operations over every hook graph; the bare reset setters and the frozen rounding policy are shown to break the expected reading.",
 "C31": "The exact error of the code and when it vanishes, plus a concrete refutation.",
 "C32": "For every network built from dense layers and every history of updates, with the reset setters as counterexample.",
 "C33": "Table determined by the last input update over every history; refutations for output-parameter and policy staleness.",
 "C34": "Exact effect of one move for every draw, and the reach of any number of moves; floor(log10) rounding error of the real code is covered by a separate theorem for any decade; drift outside the dtype range is shown.",
 "C35": "For every cost function, schedule and network of dense layers; an interrupted search is shown to leave the last trial in place.",
 "C36": "For every sequence of draws, plus reachability for one tensor and joint parity for several.",
 "C37": "For every cost function and schedule; simanneal's own loop is an external library modelled from its documentation; termination for every schedule; the zero-cost corner is refuted.",
 "C43": "Exact value of the figure for every pair of tensors; the documented meaning is refuted; layer totals.",
 "C44": "For every layer list and configuration: order, chaining, sharing, count, acceptance (iff) and first error, and loading by the engine (iff). keras2json: order and count, plus refutations (bias length, substring class names, not executable). Calibration numbers are treated in other properties.",
 "C49": "For every configuration and name; the unqualified reading (all layers symmetric) is refuted.",
 "C45": "For every node list: order, exactness and maximality of fusion, and the textual prefix test.",
 "C46": "For every model: exactly which names resolve, which constants, and the transposed layout.",
 "C57": "End-to-end over converter and engine models; ONNX semantics is an independent relation (ref_run) in PropConv.v. Real arithmetic in place of float32; tanh, exp and sigmoid are arbitrary functions.",
 "C47": "For every batch and limit; encoding round trip; requests sent under every schedule.",
 "C48": "Interleaving semantics of the calling thread and the MQTT thread at the granularity of accesses to the shared fields; all schedules. JSON text and the broker are not modelled.",
 "C59": "The float activation is an arbitrary function; float rounding of np.tanh is not modelled.",
 "C58": "Composition of calibration, export, JSON loading and batch inference models; real arithmetic in place of float32; equalizer/AdaRound passes excluded. Lipschitz constants of the activations are parameters.",
 "C60": "Refutations by concrete networks evaluated in the model; the shape statement is for all layers.",
 "C61": "Equality (not just closeness) with an independently written recurrence (KLstmSpec.v), for every sample, step and gate.",
 "C62": "Export always succeeds; half-step statements for all weights and all values in the calibration hull; the defect of the input gate's calibration is a refutation theorem.",
 "C63": "Composition of the quantizer's LSTM model and the engine's LSTM model through from_model; real arithmetic in place of float32; bound by induction over time; hidden zero point defect refuted by a concrete layer.",
 "C64": "The sigmoid is an arbitrary function; float rounding of np.exp is not modelled.",
 "C65": "Same models as C58. No coverage condition: saturation is part of the bound. Conditions on the exported file (multiplier range, unsaturated bias, 32-bit accumulator, positive scales) are checkable on the file; the last is proved for calibrated networks.",
 "C66": "binary64 modelled over Q (FloatModel.v): round to nearest even, overflow, infinities, NaN; the rounding function is proved to be nearest / ties-to-even (FloatProofs.v). Signed zeros are not modelled.",
 "C67": "Same binary64 model as C66.",
 "C68": "Same binary64 model as C66.",
 "C69": "Same binary64 model as C66.",
 "C70": "Float formats modelled over Q (FloatDistModel.v) with the rounding function of C66; overflow is excluded by C70_no_overflow rather than modelled; forced scales are not covered.",
 "C71": "Flatbuffer and interpreter are records; an out-of-range tensor or opcode index is an error in the model (flatbuffers does not check). Float constants are not modelled.",
 "C72": "Models of per-tensor quantized integer operators; the activation functions are arbitrary rational functions. RELU only with equal input and output parameters (others: C19).",
 "C73": "scipy.optimize.minimize is any function; an empty histogram (NaN in numpy) is an error in the model.",
 "C74": "Scales are doubles (Fin/Inf/NaN), integer arithmetic as in C16. C74_underflow_refuted is the counterexample that makes the normal-product hypothesis necessary.",
 "C75": "FULLY_CONNECTED and table operators only; no accumulator may leave 32 bits (hypothesis of means_fc). C75_example discharges every hypothesis for a 2-2-1 network.",
 "C76": "The sampler (neal) is an arbitrary assignment; the optimality theorem assumes it exact. The optimality is about the layer's integer result on directly quantized calibration inputs (in a deeper network the inputs come from the previous quantized layer). C76_saturation_refuted, C76_activation_refuted (for every activation with values in [-1,1]) and C76_ties_refuted show the side conditions are needed.",
 "C77": "QuadraticProgram and the solvers are external: declared names, objective and an arbitrary answer are modelled.",
 "C78": "simanneal's Annealer.anneal is external: its published loop (copy_strategy deepcopy) is transcribed; the acceptance test is an oracle.",
 "C79": "Exact rationals (C75 relates binary64). Table activations need a Lipschitz bound; accumulators must fit in 32 bits (else C16's wrap).",
 "C80": "Exact rationals. Attaching another table by hand is excluded; policies assigned to a table must have its length (assigning another length is accepted by the code and only fails at the next update).",
 "C81": "Exact rationals. The equalizer is the BFS one, the optimizer of AdaRound the rounding annealer or descent. The untuned file must pass the certificate's check. A loss may not depend on what the engine does not read (dates, shapes). Losses are total functions: a loss (or the engine's constructor inside it) that raises on some trial network ends build() with that exception, leaving the trial in place (C35_interrupted_refuted).",
 "C82": "Exact rationals. A network on which the loss function raises counts as worse than any other during tuning. Softmax enters as any order-preserving function of the scores.",
 "C83": "Weights are exact rationals; the timestamp and description fields are not modelled. A layer is its class name, weights and the attributes the converter reads.",
 "C84": "Float data is exact rational arithmetic, as in C46/C79; the sampler is an arbitrary function of (layer, neuron, variable). For layers with a table the data handed to the optimizer is the activated output, as in the code, and so is the fit that is minimised (see C76_activation_refuted).",
 "C85": "Exact rational arithmetic for floats, as in C61-C63 and C79. The LSTM operators take their dtypes from the defaults, as the builder does. Coverage of LSTM values is a hypothesis (the dense part needs none).",
 "C86": "np.vectorize's dtype rule is part of the model (first value decides, int() truncates, int64 range). The overflow limit of math.exp is a parameter. Floats are exact rationals.",
 "C87": "Integer sums are assumed below 2^51..2^52 (int8/int16 codes give far less), so their conversion to float64 is exact; scales are finite. The activation tables are as in C24/C25.",
 "C88": "The value a NaN takes when cast to uint8 is a parameter of the model. Integer parts (int32 wraparound, shapes) are those of C23.",
 "C89": "Counterpart of C24 and C25 for the binary64 model of C87.",
 "C90": "Counterpart of C63 for the binary64 model of C87 and C89; the quantizer's own float arithmetic enters through rho (the codes of the file), not as a model of its roundings.",
 "C91": "Batches are two-dimensional arrays; Softmax is not in the chain (C53 has it).",
 "C92": "The conditions on the exported file are decidable and shown to hold on a concrete network.",
 "C93": "The bias-add rows are refuted from the second step on (keras_lstm.py:691 hands the recurrent sums on as bias_add); the hypotheses are met by the example layer of C63.",
 "C94": "kl_divergence is proved for every function that is non-negative and vanishes on equal positive arguments, as x*log(x/y) - x + y is; NaN is modelled as an error.",
 "C95": "Binary64 models of the engine (C75, C91) and exact ones (C58, C72); LSTM files are C24 and C89. Softmax in ONNX files is outside this model (C53_onnx_softmax_not_rowwise shows that it does not work by rows)."
}