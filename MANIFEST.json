{
 "claims": [
  {
   "property": "C01",
   "status": "proved",
   "theorems": [
    "C01_quantize_in_range",
    "C01_quantize_in_range_parsed",
    "C01_shape",
    "C01_uint32_refuted"
   ],
   "note": "All dtypes inside int32, any data/zp/scale/policy; uint32 counterexample (C01_uint32_refuted)."
  },
  {
   "property": "C02",
   "status": "proved",
   "theorems": [
    "C02_half_step",
    "C02_no_code_closer",
    "C02_saturation"
   ],
   "note": "Exact rational arithmetic; condition diff_in_int32 is the exact no-wrap condition of dequantize (covers int8/int16/uint16 with any in-range zp and int32 with zp 0)."
  },
  {
   "property": "C03",
   "status": "proved",
   "theorems": [
    "C03_roundtrip",
    "C03_idempotent",
    "C03_int32_refuted"
   ],
   "note": "Round trip under the no-wrap condition; int32 with zp 1 refuted."
  },
  {
   "property": "C04",
   "status": "proved",
   "theorems": [
    "C04_monotone",
    "C04_zero"
   ],
   "note": ""
  },
  {
   "property": "C05",
   "status": "proved",
   "theorems": [
    "C05_policy_broadcasts",
    "C05_floor_or_ceil",
    "C05_error",
    "C05_base_policy_is_nearest",
    "C05_base_policy_binary",
    "C05_bad_shape_falls_back"
   ],
   "note": ""
  },
  {
   "property": "C06",
   "status": "proved",
   "theorems": [
    "C06_accepted",
    "C06_only_accepted",
    "C06_rejected",
    "C06_str_roundtrip",
    "C06_numpy_agrees_with_string",
    "C06_dec_adequate"
   ],
   "note": ""
  },
  {
   "property": "C07",
   "status": "proved",
   "theorems": [
    "C07_add_exact",
    "C07_mul_exact",
    "C07_sub_exact",
    "C07_add_plain",
    "C07_sub_mul_plain_raise",
    "C07_mixed_sign_refuted",
    "C07_int64_refuted",
    "C07_unsigned_sub_refuted"
   ],
   "note": "Positive part for equal signedness up to 32 bits; mixed signedness, int64 and unsigned borrow refuted by witnesses."
  },
  {
   "property": "C08",
   "status": "proved",
   "theorems": [
    "C08_int8",
    "C08_int16",
    "C08_int32"
   ],
   "note": ""
  },
  {
   "property": "C09",
   "status": "proved",
   "theorems": [
    "C09_length",
    "C09_entry",
    "C09_entry_policy",
    "C09_range",
    "C09_monotone"
   ],
   "note": ""
  },
  {
   "property": "C10",
   "status": "proved",
   "theorems": [
    "C10_index_lossless",
    "C10_iter_lossless"
   ],
   "note": ""
  },
  {
   "property": "C11",
   "status": "proved",
   "theorems": [
    "C11_lookup_preserved",
    "C11_lookup_lossless",
    "C11_serialize_stable",
    "C11_iter_lost_refuted"
   ],
   "note": ""
  },
  {
   "property": "C12",
   "status": "proved",
   "theorems": [
    "C12_saturates",
    "C12_never_raises",
    "C12_empty_raises",
    "C12_asymmetric_refuted"
   ],
   "note": "Saturation and asymmetric-mode bug proved as facts about the code."
  },
  {
   "property": "C13",
   "status": "proved",
   "theorems": [
    "C13_sizes"
   ],
   "note": ""
  },
  {
   "property": "C14",
   "status": "proved",
   "theorems": [
    "C14_accepted",
    "C14_error",
    "C14_tiny_is_zero",
    "C14_zero",
    "C14_within_one"
   ],
   "note": ""
  },
  {
   "property": "C15",
   "status": "proved",
   "theorems": [
    "C15_requantization",
    "C15_close_to_clipped_real",
    "C15_overflow_refuted",
    "C15_bias_broadcast",
    "C15_one_neuron_broadcast",
    "C15_bias_length_mismatch"
   ],
   "note": ""
  },
  {
   "property": "C16",
   "status": "proved",
   "theorems": [
    "C16_range",
    "C16_batch_is_rowwise",
    "C16_row_independent",
    "C16_total_on_good_shapes",
    "C16_more_dims_rejected"
   ],
   "note": ""
  },
  {
   "property": "C17",
   "status": "proved",
   "theorems": [
    "C17_silent",
    "C17_buildable_iff",
    "C17_zero_scale",
    "C17_big_multiplier_rejected"
   ],
   "note": ""
  },
  {
   "property": "C18",
   "status": "proved",
   "theorems": [
    "C18_plain_table",
    "C18_reduced_table",
    "C18_plain_wraps_below",
    "C18_plain_raises_outside",
    "C18_reduced_saturates",
    "C18_missing_table"
   ],
   "note": ""
  },
  {
   "property": "C19",
   "status": "proved",
   "theorems": [
    "C19_relu_same_parameters",
    "C19_relu_same_zero_point",
    "C19_relu_zero_point_refuted",
    "C19_relu_wraps_refuted"
   ],
   "note": ""
  },
  {
   "property": "C20",
   "status": "proved",
   "theorems": [
    "C20_infer_composes",
    "C20_one_intermediate_per_layer",
    "C20_failing_layer_aborts",
    "C20_history_independent",
    "C20_legacy_networks_quantize_first"
   ],
   "note": ""
  },
  {
   "property": "C21",
   "status": "proved",
   "theorems": [
    "C21_accepts_exactly",
    "C21_case_insensitive",
    "C21_emitted_names",
    "C21_dequantize_not_captured",
    "C21_unsupported_examples",
    "C21_onnx_exact"
   ],
   "note": ""
  },
  {
   "property": "C22",
   "status": "proved",
   "theorems": [
    "C22_success_iff",
    "C22_layers_match_graph",
    "C22_unknown_layer_rejected",
    "C22_unknown_engine_rejected",
    "C22_missing_parts"
   ],
   "note": ""
  },
  {
   "property": "C23",
   "status": "proved",
   "theorems": [
    "C23_add_half_unit",
    "C23_add_exact",
    "C23_add_dequantized",
    "C23_add_bad_shapes",
    "C23_matmul_half_unit",
    "C23_matmul_no_overflow",
    "C23_matmul_batch",
    "C23_matmul_bad_shape"
   ],
   "note": ""
  },
  {
   "property": "C24",
   "status": "proved",
   "theorems": [
    "C24_batch_independent",
    "C24_batch_succeeds_iff",
    "C24_causal",
    "C24_last_state",
    "C24_no_timesteps",
    "C24_empty_batch"
   ],
   "note": ""
  },
  {
   "property": "C25",
   "status": "proved",
   "theorems": [
    "C25_states_in_dtype",
    "C25_outputs_in_dtype",
    "C25_never_raises",
    "C25_luts_cover",
    "C25_cell_dtype_refuted"
   ],
   "note": ""
  },
  {
   "property": "C26",
   "status": "proved",
   "theorems": [
    "C26_calibration",
    "C26_data_roundtrip",
    "C26_degenerate_raises",
    "C26_saturation"
   ],
   "note": "Exact-rational calibration; degenerate all-zero data shown to raise."
  },
  {
   "property": "C27",
   "status": "proved",
   "theorems": [
    "C27_symmetric",
    "C27_unsymmetric_one_step",
    "C27_unsymmetric_tight",
    "C27_forced_used",
    "C27_unsigned_forced_raises",
    "C27_forced_nonzero_refuted",
    "C27_symmetric_unsigned_refuted"
   ],
   "note": "Symmetric and forced zero point 0 proved; forced non-zero zero point, symmetric unsigned and unsigned forced are refuted/raise."
  },
  {
   "property": "C28",
   "status": "proved",
   "theorems": [
    "C28_unsliced_range",
    "C28_histogram_mass",
    "C28_constant_range",
    "C28_slices_never_fail",
    "C28_slice_contents",
    "C28_index_keeps_bin",
    "C28_index_more_than_bin_refuted",
    "C28_narrow_slice_refuted",
    "C28_slice_below_refuted"
   ],
   "note": "Slices of include_partial_bins=True distributions (the only kind built by the repository)."
  },
  {
   "property": "C29",
   "status": "proved",
   "theorems": [
    "C29_reduce",
    "C29_mass_preserved"
   ],
   "note": ""
  },
  {
   "property": "C30",
   "status": "proved",
   "theorems": [
    "C30_created_in_step",
    "C30_in_step",
    "C30_update_resyncs",
    "C30_reset_stale_refuted",
    "C30_resets",
    "C30_nearest_lost_refuted",
    "C30_within_one_step"
   ],
   "note": "For every history of operations over every hook graph; the bare reset setters and the frozen rounding policy are shown to break the expected reading."
  },
  {
   "property": "C31",
   "status": "proved",
   "theorems": [
    "C31_dequantized",
    "C31_dequantized_refuted"
   ],
   "note": "The exact error of the code and when it vanishes, plus a concrete refutation."
  },
  {
   "property": "C32",
   "status": "proved",
   "theorems": [
    "C32_bias_follows",
    "C32_updates_never_raise",
    "C32_reset_refuted"
   ],
   "note": "For every network built from dense layers and every history of updates, with the reset setters as counterexample."
  },
  {
   "property": "C33",
   "status": "proved",
   "theorems": [
    "C33_table_of_last_input_update",
    "C33_output_and_policy_updates_ignored",
    "C33_fresh_lookup",
    "C33_rounding_a_lut_has_no_effect",
    "C33_output_node_update_ignored",
    "C33_output_update_refuted",
    "C33_stale_policy_refuted"
   ],
   "note": "Table determined by the last input update over every history; refutations for output-parameter and policy staleness."
  },
  {
   "property": "C34",
   "status": "proved",
   "theorems": [
    "C34_zero_point",
    "C34_zero_point_reaches_both",
    "C34_scale",
    "C34_scale_misrounded_log",
    "C34_scale_moves",
    "C34_any_number_of_moves",
    "C34_outside_drifts_refuted"
   ],
   "note": "Exact effect of one move for every draw, and the reach of any number of moves; floor(log10) rounding error of the real code is covered by a separate theorem for any decade; drift outside the dtype range is shown."
  },
  {
   "property": "C35",
   "status": "proved",
   "theorems": [
    "C35_best_state",
    "C35_dense_networks_settled",
    "C35_groups_ok",
    "C35_equalize_never_worse",
    "C35_dense_networks_never_worse",
    "C35_terminates",
    "C35_interrupted_refuted"
   ],
   "note": "For every cost function, schedule and network of dense layers; an interrupted search is shown to leave the last trial in place."
  },
  {
   "property": "C36",
   "status": "proved",
   "theorems": [
    "C36_move",
    "C36_any_number_of_moves",
    "C36_matrix_frozen",
    "C36_parity",
    "C36_joint_parity",
    "C36_single_tensor_reachable",
    "C36_degenerate"
   ],
   "note": "For every sequence of draws, plus reachability for one tensor and joint parity for several."
  },
  {
   "property": "C37",
   "status": "proved",
   "theorems": [
    "C37_descent",
    "C37_anneal_never_worse",
    "C37_anneal_zero_true_cost",
    "C37_zero_energy_refuted",
    "C37_descent_terminates",
    "C37_assignment_overwrites",
    "C37_adaround_never_worse",
    "C37_lut_rounding_has_no_effect"
   ],
   "note": "For every cost function and schedule; simanneal's own loop is an external library modelled from its documentation; termination for every schedule; the zero-cost corner is refuted."
  },
  {
   "property": "C38",
   "status": "proved",
   "theorems": [
    "C38_energy_is_mse_class",
    "C38_energy_is_mse"
   ],
   "note": ""
  },
  {
   "property": "C39",
   "status": "proved",
   "theorems": [
    "C39_optimum",
    "C39_beats_round_to_nearest",
    "C39_minimiser_exists",
    "C39_policy_link"
   ],
   "note": ""
  },
  {
   "property": "C40",
   "status": "proved",
   "theorems": [
    "C40_pipelines_agree",
    "C40_same_term_dictionaries"
   ],
   "note": ""
  },
  {
   "property": "C41",
   "status": "proved",
   "theorems": [
    "C41_neurons_disjoint",
    "C41_terms_disjoint",
    "C41_merged_energy",
    "C41_matrix_energy"
   ],
   "note": ""
  },
  {
   "property": "C42",
   "status": "proved",
   "theorems": [
    "C42_variable_order",
    "C42_decode"
   ],
   "note": ""
  },
  {
   "property": "C43",
   "status": "proved",
   "theorems": [
    "C43_rounded_to_nearest",
    "C43_no_tolerance",
    "C43_far_apart_differ",
    "C43_equal_merge",
    "C43_value",
    "C43_distinct_floats",
    "C43_function_of_floats",
    "C43_order_irrelevant",
    "C43_documented_meaning_refuted",
    "C43_layer_total",
    "C43_layer_empty_batch"
   ],
   "note": "Exact value of the figure for every pair of tensors; the documented meaning is refuted; layer totals."
  },
  {
   "property": "C44",
   "status": "proved",
   "theorems": [
    "C44_layer_order",
    "C44_types_determined",
    "C44_chain",
    "C44_nodes_not_shared",
    "C44_descriptions_are_constant",
    "C44_succeeds_iff",
    "C44_first_fault",
    "C44_engine_loads_iff",
    "C44_engine_mode",
    "C44_keras_activations",
    "C44_log_softmax_misread",
    "C44_keras2json_order",
    "C44_keras2json_concatenates",
    "C44_keras2json_missing_bias",
    "C44_keras2json_misread",
    "C44_keras2json_not_executable"
   ],
   "note": "For every layer list and configuration: order, chaining, sharing, count, acceptance (iff) and first error, and loading by the engine (iff). keras2json: order and count, plus refutations (bias length, substring class names, not executable). Calibration numbers are treated in other properties."
  },
  {
   "property": "C45",
   "status": "proved",
   "theorems": [
    "C45_every_node_once",
    "C45_fuses_exactly",
    "C45_none_missed",
    "C45_textual_prefix",
    "C45_exported_types",
    "C45_unknown_type"
   ],
   "note": "For every node list: order, exactness and maximality of fusion, and the textual prefix test."
  },
  {
   "property": "C46",
   "status": "proved",
   "theorems": [
    "C46_listed_tensor",
    "C46_first_entry_not_found",
    "C46_findable_iff",
    "C46_base_operator",
    "C46_output_is_input",
    "C46_missing_constant",
    "C46_last_duplicate_wins",
    "C46_raw_scale_rejected",
    "C46_scalar_operand_refused",
    "C46_matrix_transposed"
   ],
   "note": "For every model: exactly which names resolve, which constants, and the transposed layout."
  },
  {
   "property": "C47",
   "status": "proved",
   "theorems": [
    "C47_chunks",
    "C47_within_limit_iff",
    "C47_small_batch_dropped",
    "C47_sent_iff",
    "C47_bad_limit",
    "C47_worst_excess",
    "C47_round_trip",
    "C47_requests"
   ],
   "note": "For every batch and limit; encoding round trip; requests sent under every schedule."
  },
  {
   "property": "C48",
   "status": "proved",
   "theorems": [
    "C48_only_received",
    "C48_timely",
    "C48_ids_unchecked",
    "C48_late_reply_shifts",
    "C48_timely_completes",
    "C48_reset_race",
    "C48_loss_received",
    "C48_loss_timeout",
    "C48_loss_stale"
   ],
   "note": "Interleaving semantics of the calling thread and the MQTT thread at the granularity of accesses to the shared fields; all schedules. JSON text and the broker are not modelled."
  },
  {
   "property": "C49",
   "status": "proved",
   "theorems": [
    "C49_tflite",
    "C49_tflite_idempotent",
    "C49_lookup",
    "C49_tflite_unregistered_symmetric",
    "C49_tflite_registered_unchanged",
    "C49_all_symmetric_refuted",
    "C49_tflite_keeps_layer_optimizer",
    "C49_optimizer_choice",
    "C49_specific_entries_are_dense",
    "C49_specific_entry_fields",
    "C49_specific_entry_faults"
   ],
   "note": "For every configuration and name; the unqualified reading (all layers symmetric) is refuted."
  },
  {
   "property": "C50",
   "status": "proved",
   "theorems": [
    "C50_end_to_end",
    "C50_quantizer_codes"
   ],
   "note": ""
  },
  {
   "property": "C51",
   "status": "proved",
   "theorems": [
    "C51_preactivation",
    "C51_cell_state",
    "C51_hidden_state",
    "C51_divisors_nonzero",
    "C51_recorded_step"
   ],
   "note": ""
  },
  {
   "property": "C52",
   "status": "proved",
   "theorems": [
    "C52_first_step_forgets",
    "C52_zero_point_refuted",
    "C52_hidden_zero_point_refuted"
   ],
   "note": ""
  },
  {
   "property": "C53",
   "status": "proved",
   "theorems": [
    "C53_onnx_softmax_total",
    "C53_onnx_softmax_not_rowwise",
    "C53_tflite_softmax_identity"
   ],
   "note": ""
  },
  {
   "property": "C54",
   "status": "proved",
   "theorems": [
    "C54_fused_relu",
    "C54_negative_leak_refuted",
    "C54_nonnegative_exact",
    "C54_all_negative_raises",
    "C54_fused_relu6",
    "C54_above_six_refuted"
   ],
   "note": "Exact bound of one bin, counterexamples for the leak, exactness for non-negative data."
  },
  {
   "property": "C55",
   "status": "proved",
   "theorems": [
    "C55_negative_not_trimmed",
    "C55_far_positive",
    "C55_top_always_dropped",
    "C55_no_candidates_raises",
    "C55_divergence_arguments"
   ],
   "note": "Facts about the code as written, for any divergence function."
  },
  {
   "property": "C56",
   "status": "proved",
   "theorems": [
    "C56_upper_clip",
    "C56_second_smallest",
    "C56_above_one_raises",
    "C56_range_unchanged",
    "C56_histogram_mass"
   ],
   "note": "Facts about the code as written."
  },
  {
   "property": "C57",
   "status": "proved",
   "theorems": [
    "C57_conversion_correct",
    "C57_head_fusion_changes_mode"
   ],
   "note": "End-to-end over converter and engine models; ONNX semantics is an independent relation (ref_run) in PropConv.v. Real arithmetic in place of float32; tanh, exp and sigmoid are arbitrary functions."
  },
  {
   "property": "C58",
   "status": "proved",
   "theorems": [
    "C58_build_total",
    "C58_network_error",
    "C58_calibration_rows_covered"
   ],
   "note": "Composition of calibration, export, JSON loading and batch inference models; real arithmetic in place of float32; equalizer/AdaRound passes excluded. Lipschitz constants of the activations are parameters."
  },
  {
   "property": "C59",
   "status": "proved",
   "theorems": [
    "C59_in_range",
    "C59_tanh_error",
    "C59_logistic_error",
    "C59_top_is_one_step_off",
    "C59_monotone",
    "C59_lut_agrees"
   ],
   "note": "The float activation is an arbitrary function; float rounding of np.tanh is not modelled."
  },
  {
   "property": "C60",
   "status": "proved",
   "theorems": [
    "C60_relu_calibration_refuted",
    "C60_mixed_width_table_refuted",
    "C60_exported_fc_shape"
   ],
   "note": "Refutations by concrete networks evaluated in the model; the shape statement is for all layers."
  },
  {
   "property": "C61",
   "status": "proved",
   "theorems": [
    "C61_records",
    "C61_sizes",
    "C61_handed_on"
   ],
   "note": "Equality (not just closeness) with an independently written recurrence (KLstmSpec.v), for every sample, step and gate."
  },
  {
   "property": "C62",
   "status": "proved",
   "theorems": [
    "C62_export",
    "C62_bias_add_nodes",
    "C62_no_bias",
    "C62_no_steps",
    "C62_operator_inputs",
    "C62_calibration_covered",
    "C62_dtype_names",
    "C62_default_dtypes",
    "C62_input_gate_refuted"
   ],
   "note": "Export always succeeds; half-step statements for all weights and all values in the calibration hull; the defect of the input gate's calibration is a refutation theorem."
  },
  {
   "property": "C63",
   "status": "proved",
   "theorems": [
    "C63_error",
    "C63_hidden_zero_point_refuted"
   ],
   "note": "Composition of the quantizer's LSTM model and the engine's LSTM model through from_model; real arithmetic in place of float32; bound by induction over time; hidden zero point defect refuted by a concrete layer."
  },
  {
   "property": "C64",
   "status": "proved",
   "theorems": [
    "C64_shape_range",
    "C64_best_code",
    "C64_half_step",
    "C64_usual_parameters",
    "C64_monotone",
    "C64_table_agrees"
   ],
   "note": "The sigmoid is an arbitrary function; float rounding of np.exp is not modelled."
  },
  {
   "property": "C65",
   "status": "proved",
   "theorems": [
    "C65_network_error",
    "C65_relu_layer",
    "C65_build_total"
   ],
   "note": "Same models as C58. No coverage condition: saturation is part of the bound. Conditions on the exported file (multiplier range, unsaturated bias, 32-bit accumulator, positive scales) are checkable on the file; the last is proved for calibrated networks."
  },
  {
   "property": "C66",
   "status": "proved",
   "theorems": [
    "C66_in_range",
    "C66_infinities_saturate",
    "C66_agrees_away_from_ties",
    "C66_within_one_code",
    "C66_half_step",
    "C66_nearest_refuted",
    "C66_nan",
    "C66_zero_scale"
   ],
   "note": "binary64 modelled over Q (FloatModel.v): round to nearest even, overflow, infinities, NaN; the rounding function is proved to be nearest / ties-to-even (FloatProofs.v). Signed zeros are not modelled."
  },
  {
   "property": "C67",
   "status": "proved",
   "theorems": [
    "C67_roundtrip",
    "C67_idempotent",
    "C67_zero",
    "C67_zero_point_is_zero",
    "C67_monotone",
    "C67_dequantize_error",
    "C67_overflow_refuted"
   ],
   "note": "Same binary64 model as C66."
  },
  {
   "property": "C68",
   "status": "proved",
   "theorems": [
    "C68_floor_or_ceil",
    "C68_within_one_code",
    "C68_base_policy",
    "C68_base_policy_special",
    "C68_base_policy_refuted",
    "C68_floor_refuted"
   ],
   "note": "Same binary64 model as C66."
  },
  {
   "property": "C69",
   "status": "proved",
   "theorems": [
    "C69_table",
    "C69_monotone_table",
    "C69_node_lookup",
    "C69_identity_table_refuted"
   ],
   "note": "Same binary64 model as C66."
  },
  {
   "property": "C70",
   "status": "proved",
   "theorems": [
    "C70_calibration",
    "C70_forced_symmetric",
    "C70_forced_asymmetric",
    "C70_no_overflow",
    "C70_int32_float32_refuted",
    "C70_underflow",
    "C70_forced_asymmetric_reached"
   ],
   "note": "Float formats modelled over Q (FloatDistModel.v) with the rounding function of C66; overflow is excluded by C70_no_overflow rather than modelled; forced scales are not covered."
  },
  {
   "property": "C71",
   "status": "proved",
   "theorems": [
    "C71_succeeds_iff",
    "C71_faithful",
    "C71_per_channel_rejected",
    "C71_options_lost",
    "C71_duplicate_names_refuted"
   ],
   "note": "Flatbuffer and interpreter are records; an out-of-range tensor or opcode index is an error in the model (flatbuffers does not check). Float constants are not modelled."
  },
  {
   "property": "C72",
   "status": "proved",
   "theorems": [
    "C72_relu_rescaled",
    "C72_conversion_correct",
    "C72_wiring_ignored_refuted",
    "C72_fused_relu_refuted",
    "C72_softmax_refuted",
    "C72_int16_table_refuted",
    "C72_unquantized_raises"
   ],
   "note": "Models of per-tensor quantized integer operators; the activation functions are arbitrary rational functions. RELU only with equal input and output parameters (others: C19)."
  },
  {
   "property": "C73",
   "status": "proved",
   "theorems": [
    "C73_objective",
    "C73_short_range_blind",
    "C73_start",
    "C73_never_worse",
    "C73_mse_below_penalty",
    "C73_mse_never_worse",
    "C73_target_dtype_ignored_refuted"
   ],
   "note": "scipy.optimize.minimize is any function; an empty histogram (NaN in numpy) is an error in the model."
  },
  {
   "property": "C74",
   "status": "proved",
   "theorems": [
    "C74_accuracy",
    "C74_silent",
    "C74_approx_exact",
    "C74_approx_special",
    "C74_rejected",
    "C74_underflow_refuted"
   ],
   "note": "Scales are doubles (Fin/Inf/NaN), integer arithmetic as in C16. C74_underflow_refuted is the counterexample that makes the normal-product hypothesis necessary."
  },
  {
   "property": "C75",
   "status": "proved",
   "theorems": [
    "C75_network_error",
    "C75_default_table",
    "C75_node_table"
   ],
   "note": "FULLY_CONNECTED and table operators only; no accumulator may leave 32 bits (hypothesis of means_fc). C75_example discharges every hypothesis for a 2-2-1 network."
  },
  {
   "property": "C76",
   "status": "proved",
   "theorems": [
    "C76_codes",
    "C76_deployed_optimal",
    "C76_not_worse_than_before",
    "C76_fresh_codes",
    "C76_network",
    "C76_no_data",
    "C76_saturation_refuted",
    "C76_activation_refuted",
    "C76_ties_refuted"
   ],
   "note": "The sampler (neal) is an arbitrary assignment; the optimality theorem assumes it exact. The optimality is about the layer's integer result on directly quantized calibration inputs (in a deeper network the inputs come from the previous quantized layer). C76_saturation_refuted, C76_activation_refuted (for every activation with values in [-1,1]) and C76_ties_refuted show the side conditions are needed."
  },
  {
   "property": "C77",
   "status": "proved",
   "theorems": [
    "C77_program",
    "C77_decode",
    "C77_optimum",
    "C77_qaoa_solution_fails",
    "C77_empty_dictionary"
   ],
   "note": "QuadraticProgram and the solvers are external: declared names, objective and an arbitrary answer are modelled."
  },
  {
   "property": "C78",
   "status": "proved",
   "theorems": [
    "C78_what_is_left",
    "C78_reported_cost_is_not_the_networks",
    "C78_first_move_rejected_makes_it_worse",
    "C78_no_rejection",
    "C78_later_steps_are_wasted"
   ],
   "note": "simanneal's Annealer.anneal is external: its published loop (copy_strategy deepcopy) is transcribed; the acceptance test is an oracle."
  },
  {
   "property": "C79",
   "status": "proved",
   "theorems": [
    "C79_certificate",
    "C79_builder_files",
    "C79_policies_nudge",
    "C79_nudged_operator",
    "C79_nudged_file"
   ],
   "note": "Exact rationals (C75 relates binary64). Table activations need a Lipschitz bound; accumulators must fit in 32 bits (else C16's wrap)."
  },
  {
   "property": "C80",
   "status": "proved",
   "theorems": [
    "C80_tuned_file",
    "C80_session_file",
    "C80_step_bound",
    "C80_same_file",
    "C80_tuned_model"
   ],
   "note": "Exact rationals. Attaching another table by hand is excluded; policies assigned to a table must have its length (assigning another length is accepted by the code and only fails at the next update)."
  },
  {
   "property": "C81",
   "status": "proved",
   "theorems": [
    "C81_build_never_worse",
    "C81_build_file",
    "C81_engine_reads_network",
    "C81_output_losses",
    "C81_build_terminates",
    "C81_rounding_choice",
    "C81_adaround_bound"
   ],
   "note": "Exact rationals. The equalizer is the BFS one, the optimizer of AdaRound the rounding annealer or descent. The untuned file must pass the certificate's check. A loss may not depend on what the engine does not read (dates, shapes). Losses are total functions: a loss (or the engine's constructor inside it) that raises on some trial network ends build() with that exception, leaving the trial in place (C35_interrupted_refuted)."
  },
  {
   "property": "C82",
   "status": "proved",
   "theorems": [
    "C82_argmax",
    "C82_prediction",
    "C82_softmax",
    "C82_hits",
    "C82_mse",
    "C82_tuned_accuracy",
    "C82_flat_targets"
   ],
   "note": "Exact rationals. A network on which the loss function raises counts as worse than any other during tuning. Softmax enters as any order-preserving function of the scores."
  },
  {
   "property": "C83",
   "status": "proved",
   "theorems": [
    "C83_function",
    "C83_missing_bias",
    "C83_converts",
    "C83_unsupported",
    "C83_dense_contents",
    "C83_conv_contents",
    "C83_pool_contents",
    "C83_lstm_contents",
    "C83_determines",
    "C83_lost",
    "C83_lookalikes",
    "C83_name_precedence",
    "C83_example"
   ],
   "note": "Weights are exact rationals; the timestamp and description fields are not modelled. A layer is its class name, weights and the attributes the converter reads."
  },
  {
   "property": "C84",
   "status": "proved",
   "theorems": [
    "C84_build",
    "C84_no_data",
    "C84_loss_ignored",
    "C84_no_loss",
    "C84_build_file",
    "C84_bound",
    "C84_optimal"
   ],
   "note": "Float data is exact rational arithmetic, as in C46/C79; the sampler is an arbitrary function of (layer, neuron, variable). For layers with a table the data handed to the optimizer is the activated output, as in the code, and so is the fit that is minimised (see C76_activation_refuted)."
  },
  {
   "property": "C85",
   "status": "proved",
   "theorems": [
    "C85_dropout",
    "C85_error",
    "C85_sequences",
    "C85_calibration_covered",
    "C85_dense_on_sequences",
    "C85_empty_batch",
    "C85_dense_data",
    "C85_tuning"
   ],
   "note": "Exact rational arithmetic for floats, as in C61-C63 and C79. The LSTM operators take their dtypes from the defaults, as the builder does. Coverage of LSTM values is a hypothesis (the dense part needs none)."
  },
  {
   "property": "C86",
   "status": "proved",
   "theorems": [
    "C86_float_first",
    "C86_float_first_entry",
    "C86_int_first",
    "C86_int_first_entry",
    "C86_bool_first",
    "C86_raises",
    "C86_raises_first",
    "C86_no_codes",
    "C86_relu",
    "C86_sigmoid"
   ],
   "note": "np.vectorize's dtype rule is part of the model (first value decides, int() truncates, int64 range). The overflow limit of math.exp is a parameter. Floats are exact rationals."
  },
  {
   "property": "C87",
   "status": "proved",
   "theorems": [
    "C87_preactivation",
    "C87_cell_state",
    "C87_hidden_state",
    "C87_steady_run",
    "C87_states_in_dtype",
    "C87_truncation_refuted"
   ],
   "note": "Integer sums are assumed below 2^51..2^52 (int8/int16 codes give far less), so their conversion to float64 is exact; scales are finite. The activation tables are as in C24/C25."
  },
  {
   "property": "C88",
   "status": "proved",
   "theorems": [
    "C88_add_error",
    "C88_add_agrees",
    "C88_add_bad_shapes",
    "C88_matmul",
    "C88_matmul_batch",
    "C88_zero_scale",
    "C88_tie_refuted"
   ],
   "note": "The value a NaN takes when cast to uint8 is a parameter of the model. Integer parts (int32 wraparound, shapes) are those of C23."
  },
  {
   "property": "C89",
   "status": "proved",
   "theorems": [
    "C89_batch_independent",
    "C89_batch_succeeds_iff",
    "C89_causal",
    "C89_last_state",
    "C89_no_timesteps",
    "C89_empty_batch",
    "C89_states_in_dtype",
    "C89_outputs_in_dtype",
    "C89_never_raises",
    "C89_overflow_refuted"
   ],
   "note": "Counterpart of C24 and C25 for the binary64 model of C87."
  },
  {
   "property": "C90",
   "status": "proved",
   "theorems": [
    "C90_error",
    "C90_bound",
    "C90_exported",
    "C90_operator_inputs"
   ],
   "note": "Counterpart of C63 for the binary64 model of C87 and C89; the quantizer's own float arithmetic enters through rho (the codes of the file), not as a model of its roundings."
  },
  {
   "property": "C91",
   "status": "proved",
   "theorems": [
    "C91_network_error",
    "C91_table_lookup",
    "C91_exported_table",
    "C91_sigmoid_lut",
    "C91_tanh_fusion",
    "C91_bad_width"
   ],
   "note": "Batches are two-dimensional arrays; Softmax is not in the chain (C53 has it)."
  },
  {
   "property": "C92",
   "status": "proved",
   "theorems": [
    "C92_build_total",
    "C92_network_error",
    "C92_calibration_rows_covered",
    "C92_unsaturated",
    "C92_in_range",
    "C92_rectifies",
    "C92_float_network_error",
    "C92_plain_range"
   ],
   "note": "The conditions on the exported file are decidable and shown to hold on a concrete network."
  },
  {
   "property": "C93",
   "status": "proved",
   "theorems": [
    "C93_same_export",
    "C93_report",
    "C93_intermediate",
    "C93_bounded",
    "C93_bias_first_step",
    "C93_bias_rows_refuted",
    "C93_no_zero_point"
   ],
   "note": "The bias-add rows are refuted from the second step on (keras_lstm.py:691 hands the recurrent sums on as bias_add); the hypotheses are met by the example layer of C63."
  },
  {
   "property": "C94",
   "status": "proved",
   "theorems": [
    "C94_histogram",
    "C94_explicit_edges",
    "C94_normalized",
    "C94_nothing_inside",
    "C94_compare_mse",
    "C94_mse",
    "C94_order_and_repetition",
    "C94_outside_ignored",
    "C94_bins_mismatch",
    "C94_one_bin_broadcast",
    "C94_one_bin_broadcast_first",
    "C94_kl",
    "C94_kl_counts"
   ],
   "note": "kl_divergence is proved for every function that is non-negative and vanishes on equal positive arguments, as x*log(x/y) - x + y is; NaN is modelled as an error."
  },
  {
   "property": "C95",
   "status": "proved",
   "theorems": [
    "C95_dense_batch",
    "C95_onnx_batch",
    "C95_dense_split",
    "C95_onnx_split",
    "C95_matrix_addition_refuted",
    "C95_exact_batch",
    "C95_tflite_batch",
    "C95_hits_add_up"
   ],
   "note": "Binary64 models of the engine (C75, C91) and exact ones (C58, C72); LSTM files are C24 and C89. Softmax in ONNX files is outside this model (C53_onnx_softmax_not_rowwise shows that it does not work by rows)."
  }
 ]
}