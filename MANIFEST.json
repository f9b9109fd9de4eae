{
 "claims": [
  {
   "property": "C01",
   "status": "proved",
   "theorems": [
    "C01_output_representable"
   ],
   "note": ""
  },
  {
   "property": "C02",
   "status": "proved",
   "theorems": [
    "C02_idempotent",
    "C02_fixpoints_are_representable"
   ],
   "note": ""
  },
  {
   "property": "C03",
   "status": "proved",
   "theorems": [
    "C03_rounding_error",
    "C03_rounding_determined"
   ],
   "note": ""
  },
  {
   "property": "C04",
   "status": "proved",
   "theorems": [
    "C04_saturation",
    "C04_monotone"
   ],
   "note": ""
  },
  {
   "property": "C05",
   "status": "proved",
   "theorems": [
    "C05_wrap",
    "C05_wrap_identity_in_range"
   ],
   "note": ""
  },
  {
   "property": "C06",
   "status": "proved",
   "theorems": [
    "C06_bit_counts",
    "C06_bits_property",
    "C06_range_size_and_ends",
    "C06_wrap_zero_bits_refuted"
   ],
   "note": "proved as stated, which is the exact scope in which the code has the property; C06_wrap_zero_bits_refuted prove(s) of the modelled code that the property fails outside that scope"
  },
  {
   "property": "C07",
   "status": "proved",
   "theorems": [
    "C07_kif_tensor_calibration_safe",
    "C07_kif_calibration_safe",
    "C07_kif_calibrated_format_fits"
   ],
   "note": ""
  },
  {
   "property": "C08",
   "status": "proved",
   "theorems": [
    "C08_kbi_tensor_calibration_safe",
    "C08_kbi_calibration_safe",
    "C08_kbi_pruned_group_stays_zero",
    "C08_kbi_wide_refuted"
   ],
   "note": "proved as stated, which is the exact scope in which the code has the property; C08_kbi_wide_refuted prove(s) of the modelled code that the property fails outside that scope"
  },
  {
   "property": "C09",
   "status": "proved",
   "theorems": [
    "C09_kif_order_independent",
    "C09_kbi_width_order_independent",
    "C09_kbi_sign_order_refuted"
   ],
   "note": "proved as stated, which is the exact scope in which the code has the property; C09_kbi_sign_order_refuted prove(s) of the modelled code that the property fails outside that scope"
  },
  {
   "property": "C10",
   "status": "proved",
   "theorems": [
    "C10_kif_width_minimal",
    "C10_kif_tracing_monotone",
    "C10_kbi_tracing_monotone"
   ],
   "note": ""
  },
  {
   "property": "C11",
   "status": "proved",
   "theorems": [
    "C11_kbi_constraint_invariant",
    "C11_kif_inference_and_tracing",
    "C11_kif_training_refuted"
   ],
   "note": "proved as stated, which is the exact scope in which the code has the property; C11_kif_training_refuted prove(s) of the modelled code that the property fails outside that scope"
  },
  {
   "property": "C12",
   "status": "proved",
   "theorems": [
    "C12_kif_train_then_infer",
    "C12_kbi_train_then_infer"
   ],
   "note": "proved as stated, which is the exact scope in which the code has the property"
  },
  {
   "property": "C13",
   "status": "proved",
   "theorems": [
    "C13_axis_resolution",
    "C13_axes_partition",
    "C13_widths_per_group",
    "C13_absmax_per_group",
    "C13_sign_per_group",
    "C13_kif_call_groupwise",
    "C13_kbi_call_groupwise",
    "C13_float_bias_default_refuted"
   ],
   "note": "per-axis widths: bw/absmax/sign mapper proved for all ranks, shapes and axes"
  },
  {
   "property": "C14",
   "status": "proved",
   "theorems": [
    "C14_inference_formula",
    "C14_noise_one_is_full_quantization",
    "C14_noise_interpolates",
    "C14_noise_zero_with_scaler_refuted",
    "C14_scaled_idempotent",
    "C14_scaled_error"
   ],
   "note": "proved as stated, which is the exact scope in which the code has the property; C14_noise_zero_with_scaler_refuted prove(s) of the modelled code that the property fails outside that scope"
  },
  {
   "property": "C15",
   "status": "proved",
   "theorems": [
    "C15_scopes_restore",
    "C15_affected_restored_any_body",
    "C15_inside_nested_scopes",
    "C15_inside_default_type",
    "C15_construction_precedence",
    "C15_construction_axes_exclusive",
    "C15_scope_completes_widths",
    "C15_reentry_refuted"
   ],
   "note": "proved as stated, which is the exact scope in which the code has the property; C15_reentry_refuted prove(s) of the modelled code that the property fails outside that scope"
  },
  {
   "property": "C16",
   "status": "proved",
   "theorems": [
    "C16_layer_scopes_restore",
    "C16_inside_layer_scope",
    "C16_layer_reentry_refuted"
   ],
   "note": "nesting restored for distinct scope objects (the property's claim); the _refuted theorem shows that re-entering the same object is excluded for a reason"
  },
  {
   "property": "C17",
   "status": "proved",
   "theorems": [
    "C17_epoch_covers_once",
    "C17_batch_determines_samples",
    "C17_negative_index",
    "C17_index_out_of_range"
   ],
   "note": ""
  },
  {
   "property": "C18",
   "status": "proved",
   "theorems": [
    "C18_drop_last_full_disjoint"
   ],
   "note": ""
  },
  {
   "property": "C19",
   "status": "proved",
   "theorems": [
    "C19_value_at_knots",
    "C19_linear_segment",
    "C19_log_segment",
    "C19_constant_segment",
    "C19_after_last_knot",
    "C19_before_first_knot",
    "C19_log_from_zero_raises",
    "C19_scheduler_sets_every_layer"
   ],
   "note": ""
  },
  {
   "property": "C20",
   "status": "proved",
   "theorems": [
    "C20_beta_within_bounds",
    "C20_warmup_leaves_beta",
    "C20_rises_above_target",
    "C20_falls_below_target",
    "C20_no_steady_state_error",
    "C20_start_keeps_beta_log",
    "C20_start_jump_linear",
    "C20_start_keeps_beta_refuted",
    "C20_train_begin_raises_iff",
    "C20_base_controller_nonnegative"
   ],
   "note": "proved as stated, which is the exact scope in which the code has the property; C20_start_keeps_beta_refuted proves that in linear mode the controller does not start from the current beta"
  },
  {
   "property": "C21",
   "status": "proved",
   "theorems": [
    "C21_stops_iff_run_completed",
    "C21_documented_patience_refuted"
   ],
   "note": "proved as stated, which is the exact scope in which the code has the property; C21_documented_patience_refuted prove(s) of the modelled code that the property fails outside that scope"
  },
  {
   "property": "C22",
   "status": "proved",
   "theorems": [
    "C22_never_stops_above_threshold",
    "C22_is_early_stopping_within_threshold",
    "C22_whole_training"
   ],
   "note": ""
  },
  {
   "property": "C23",
   "status": "proved",
   "theorems": [
    "C23_pareto_front",
    "C23_no_dominated_checkpoint_refuted",
    "C23_repeated_file_name_refuted"
   ],
   "note": "proved as stated, which is the exact scope in which the code has the property; C23_no_dominated_checkpoint_refuted, C23_repeated_file_name_refuted prove(s) of the modelled code that the property fails outside that scope"
  },
  {
   "property": "C24",
   "status": "proved",
   "theorems": [
    "C24_dense_counts_multiplications",
    "C24_dense_multiplications",
    "C24_einsum_counts_multiplications",
    "C24_einsum_forward_uses_multiplications",
    "C24_conv_counts_multiplications",
    "C24_conv_multiplications_exist",
    "C24_nonnegative",
    "C24_monotone",
    "C24_zero_iff_pruned",
    "C24_elementwise_nonnegative",
    "C24_elementwise_monotone",
    "C24_conv_bias_count_refuted",
    "C24_merge_figures",
    "C24_sum_figure",
    "C24_batchnorm_figure",
    "C24_conv_geometry"
   ],
   "note": "proved as stated, which is the exact scope in which the code has the property; C24_conv_bias_count_refuted prove(s) of the modelled code that the property fails outside that scope"
  },
  {
   "property": "C25",
   "status": "proved",
   "theorems": [
    "C25_dense_factor_linear",
    "C25_dense_reuse_cost",
    "C25_einsum_factor_linear",
    "C25_conv_factor_linear",
    "C25_conv_bias_refuted",
    "C25_einsum_reuse_cost"
   ],
   "note": "proved as stated, which is the exact scope in which the code has the property; C25_conv_bias_refuted prove(s) of the modelled code that the property fails outside that scope"
  },
  {
   "property": "C26",
   "status": "proved",
   "theorems": [
    "C26_fused_dense_error",
    "C26_fused_dense_zero_mean",
    "C26_fused_dense_refuted",
    "C26_fused_einsum",
    "C26_fused_einsum_order_refuted",
    "C26_fused_einsum_epsilon_refuted"
   ],
   "note": "proved as stated, which is the exact scope in which the code has the property; C26_fused_dense_refuted, C26_fused_einsum_order_refuted, C26_fused_einsum_epsilon_refuted prove(s) of the modelled code that the property fails outside that scope"
  },
  {
   "property": "C27",
   "status": "proved",
   "theorems": [
    "C27_batchnorm",
    "C27_center_false_adds_one",
    "C27_center_flag_refuted"
   ],
   "note": "proved as stated, which is the exact scope in which the code has the property; C27_center_flag_refuted prove(s) of the modelled code that the property fails outside that scope"
  },
  {
   "property": "C28",
   "status": "proved",
   "theorems": [
    "C28_code_quantizer_is_arithmetic_quantizer",
    "C28_traced_kif_quantizer",
    "C28_traced_kbi_quantizer",
    "C28_scaler_is_not_undone_refuted",
    "C28_int8_widths_refuted"
   ],
   "note": "proved as stated, which is the exact scope in which the code has the property; C28_scaler_is_not_undone_refuted, C28_int8_widths_refuted prove(s) of the modelled code that the property fails outside that scope"
  },
  {
   "property": "C29",
   "status": "proved",
   "theorems": [
    "C29_replay_computes_the_graph",
    "C29_evaluated_once",
    "C29_evaluated_after_its_inputs",
    "C29_nested_multi_input_refuted"
   ],
   "note": "proved as stated, which is the exact scope in which the code has the property; C29_nested_multi_input_refuted prove(s) of the modelled code that the property fails outside that scope"
  },
  {
   "property": "C30",
   "status": "proved",
   "theorems": [
    "C30_record_is_complete",
    "C30_names_distinct",
    "C30_hash_in_name_refuted"
   ],
   "note": "proved as stated, which is the exact scope in which the code has the property; C30_hash_in_name_refuted prove(s) of the modelled code that the property fails outside that scope"
  },
  {
   "property": "C31",
   "status": "proved",
   "theorems": [
    "C31_row_major",
    "C31_patches",
    "C31_traced_convolution",
    "C31_what_groups_compute",
    "C31_grouped_refuted",
    "C31_index_encoding_refuted"
   ],
   "note": "proved as stated, which is the exact scope in which the code has the property; C31_grouped_refuted, C31_index_encoding_refuted prove(s) of the modelled code that the property fails outside that scope"
  },
  {
   "property": "C32",
   "status": "proved",
   "theorems": [
    "C32_spike_in_float32",
    "C32_spiking_replay",
    "C32_inhibition",
    "C32_one_winner",
    "C32_spike_is_threshold",
    "C32_time_order"
   ],
   "note": ""
  },
  {
   "property": "C33",
   "status": "proved",
   "theorems": [
    "C33_simple_rnn_replay",
    "C33_gru_replay"
   ],
   "note": ""
  },
  {
   "property": "C34",
   "status": "proved",
   "theorems": [
    "C34_lookup_is_the_function",
    "C34_unary_lut_layer",
    "C34_one_entry_per_code",
    "C34_dense_table",
    "C34_no_center_refuted",
    "C34_hard_silu_refuted",
    "C34_toq_scaler_refuted"
   ],
   "note": "proved as stated, which is the exact scope in which the code has the property; C34_no_center_refuted, C34_hard_silu_refuted, C34_toq_scaler_refuted prove(s) of the modelled code that the property fails outside that scope"
  },
  {
   "property": "C35",
   "status": "proved",
   "theorems": [
    "C35_exponent_is_rounded_log2",
    "C35_scale_within_sqrt2",
    "C35_scale_exact_iff_power_of_two",
    "C35_meanpow2",
    "C35_meanpow2_exact",
    "C35_meanpow2_stays_on_grid",
    "C35_averagepow2",
    "C35_axes"
   ],
   "note": ""
  },
  {
   "property": "C36",
   "status": "proved",
   "theorems": [
    "C36_masked_output_is_zero",
    "C36_independent_of_masked_values",
    "C36_same_as_deleting_masked_positions",
    "C36_unmasked_is_softmax",
    "C36_stable_arguments",
    "C36_replay_equals_layer",
    "C36_calibration_ignores_masked_refuted"
   ],
   "note": "proved as stated, which is the exact scope in which the code has the property; C36_calibration_ignores_masked_refuted prove(s) of the modelled code that the property fails outside that scope"
  },
  {
   "property": "C37",
   "status": "proved",
   "theorems": [
    "C37_exact_softmax_key_bias",
    "C37_exact_softmax_sums_to_one",
    "C37_quantized_weights",
    "C37_quantized_attention",
    "C37_unstable_softmax_refuted"
   ],
   "note": "proved as stated, which is the exact scope in which the code has the property; C37_unstable_softmax_refuted prove(s) of the modelled code that the property fails outside that scope"
  },
  {
   "property": "C38",
   "status": "proved",
   "theorems": [
    "C38_any_order_exact",
    "C38_backends_agree",
    "C38_operands_are_floats",
    "C38_without_bound_refuted"
   ],
   "note": "proved as stated, which is the exact scope in which the code has the property; C38_without_bound_refuted prove(s) of the modelled code that the property fails outside that scope"
  },
  {
   "property": "C39",
   "status": "proved",
   "theorems": [
    "C39_free_counts_every_layer_once",
    "C39_trace_sums_layers",
    "C39_repeated_name",
    "C39_totals_agree",
    "C39_difference",
    "C39_pid_uses_trace_total",
    "C39_linformer_refuted",
    "C39_shared_projection_refuted",
    "C39_recurrent_refuted",
    "C39_nested_refuted",
    "C39_pid_disabled_softmax_refuted"
   ],
   "note": "proved as stated, which is the exact scope in which the code has the property; C39_linformer_refuted, C39_shared_projection_refuted, C39_recurrent_refuted, C39_nested_refuted, C39_pid_disabled_softmax_refuted prove(s) of the modelled code that the property fails outside that scope"
  },
  {
   "property": "C40",
   "status": "proved",
   "theorems": [
    "C40_config",
    "C40_shipped_config",
    "C40_layer",
    "C40_complete_layer",
    "C40_package_defaults",
    "C40_symmetric_hard_tanh_refuted",
    "C40_float_bias_refuted",
    "C40_hard_dummy_refuted",
    "C40_left_out_refuted"
   ],
   "note": "proved as stated, which is the exact scope in which the code has the property; C40_symmetric_hard_tanh_refuted, C40_float_bias_refuted, C40_hard_dummy_refuted, C40_left_out_refuted prove(s) of the modelled code that the property fails outside that scope"
  },
  {
   "property": "C41",
   "status": "proved",
   "theorems": [
    "C41_range",
    "C41_call_without_noise_refuted",
    "C41_call_value",
    "C41_call_agrees_refuted",
    "C41_config",
    "C41_relu_arguments_refuted"
   ],
   "note": "proved as stated, which is the exact scope in which the code has the property; C41_call_without_noise_refuted, C41_call_agrees_refuted, C41_relu_arguments_refuted prove(s) of the modelled code that the property fails outside that scope"
  },
  {
   "property": "C42",
   "status": "proved",
   "theorems": [
    "C42_accepted",
    "C42_accepts",
    "C42_value",
    "C42_rejections",
    "C42_string_round_trip",
    "C42_trainable_string_refuted",
    "C42_negative_string_refuted",
    "C42_relu_string_refuted"
   ],
   "note": "proved as stated, which is the exact scope in which the code has the property; C42_trainable_string_refuted, C42_negative_string_refuted, C42_relu_string_refuted prove(s) of the modelled code that the property fails outside that scope"
  },
  {
   "property": "C43",
   "status": "proved",
   "theorems": [
    "C43_moving_variance",
    "C43_moving_mean_in_range"
   ],
   "note": ""
  },
  {
   "property": "C44",
   "status": "proved",
   "theorems": [
    "C44_traced_relu",
    "C44_threshold_off_grid_refuted",
    "C44_traced_leaky_relu",
    "C44_traced_prelu"
   ],
   "note": "proved as stated, which is the exact scope in which the code has the property; C44_threshold_off_grid_refuted prove(s) of the modelled code that the property fails outside that scope"
  },
  {
   "property": "C45",
   "status": "proved",
   "theorems": [
    "C45_max_pooling",
    "C45_average_pooling",
    "C45_window",
    "C45_windows_overlap",
    "C45_deep_negative_refuted"
   ],
   "note": "proved as stated, which is the exact scope in which the code has the property; C45_deep_negative_refuted prove(s) of the modelled code that the property fails outside that scope"
  },
  {
   "property": "C46",
   "status": "proved",
   "theorems": [
    "C46_cache_transparent",
    "C46_calls_right",
    "C46_stale_after_exception_refuted"
   ],
   "note": "proved as stated, which is the exact scope in which the code has the property; C46_stale_after_exception_refuted prove(s) of the modelled code that the property fails outside that scope"
  },
  {
   "property": "C47",
   "status": "proved",
   "theorems": [
    "C47_own_call",
    "C47_bases_unused",
    "C47_instantiated_first",
    "C47_values_never_wrong",
    "C47_inherited_count",
    "C47_super_count",
    "C47_package_classes",
    "C47_mean_after_sum",
    "C47_linformer_with_attention",
    "C47_table_convolution_with_dense_table",
    "C47_average_after_add",
    "C47_independent_of_history_refuted",
    "C47_inference_records_nothing"
   ],
   "note": "proved as stated, which is the exact scope in which the code has the property; C47_independent_of_history_refuted prove(s) of the modelled code that the property fails outside that scope"
  },
  {
   "property": "C48",
   "status": "proved",
   "theorems": [
    "C48_double",
    "C48_flags",
    "C48_quantizers",
    "C48_input_quantizer_refuted"
   ],
   "note": "proved as stated, which is the exact scope in which the code has the property; C48_input_quantizer_refuted prove(s) of the modelled code that the property fails outside that scope"
  },
  {
   "property": "C49",
   "status": "proved",
   "theorems": [
    "C49_merge",
    "C49_arithmetic",
    "C49_sum",
    "C49_reduction",
    "C49_concatenate",
    "C49_repeat",
    "C49_moveaxis",
    "C49_reshape",
    "C49_flatten",
    "C49_concatenate_layer",
    "C49_concatenate_positive_axis_refuted",
    "C49_transpose_refuted",
    "C49_repeat_vector_refuted",
    "C49_dot_dais",
    "C49_dot_dais_rank_refuted",
    "C49_dot_alkaid",
    "C49_dot_alkaid_2d_refuted",
    "C49_arithmetic_ranks_refuted"
   ],
   "note": "proved as stated, which is the exact scope in which the code has the property; the C49_*_refuted theorems prove of the modelled code that it fails outside that scope"
  },
  {
   "property": "C50",
   "status": "proved",
   "theorems": [
    "C50_traced_attention",
    "C50_traced_linformer",
    "C50_traced_salt",
    "C50_clusters",
    "C50_masked_positions_ignored",
    "C50_linformer_selection",
    "C50_cluster_selection",
    "C50_unequal_head_sizes_refuted",
    "C50_fused_different_arrays_refuted",
    "C50_no_input_quantizer_refuted",
    "C50_masks_of_two_shapes_refuted",
    "C50_salt_value_clusters_refuted"
   ],
   "note": "proved as stated, which is the exact scope in which the code has the property; the C50_*_refuted theorems prove of the modelled code that it fails outside that scope"
  },
  {
   "property": "C51",
   "status": "proved",
   "theorems": [
    "C51_einsum_functional",
    "C51_layer_computes_equation",
    "C51_ebops_total",
    "C51_ebops_defined",
    "C51_ebops_monotone",
    "C51_traced_einsum",
    "C51_reload",
    "C51_letter_clash_refuted",
    "C51_ebops_three_axes_refuted"
   ],
   "note": "proved as stated, which is the exact scope in which the code has the property; the C51_*_refuted theorems prove of the modelled code that it fails outside that scope"
  },
  {
   "property": "C52",
   "status": "proved",
   "theorems": [
    "C52_attention",
    "C52_attention_forward",
    "C52_attention_monotone",
    "C52_attention_axes",
    "C52_attention_axes_refuted",
    "C52_attention_factor_refuted",
    "C52_softmax",
    "C52_softmax_monotone",
    "C52_simple_cell",
    "C52_simple_cell_bias",
    "C52_simple_cell_bias_refuted",
    "C52_simple_rnn",
    "C52_simple_rnn_monotone",
    "C52_simple_rnn_steps_refuted",
    "C52_gru",
    "C52_gru_steps",
    "C52_gru_monotone",
    "C52_gru_bias_refuted",
    "C52_table",
    "C52_table_unit",
    "C52_table_monotone",
    "C52_spiking",
    "C52_spiking_monotone",
    "C52_spiking_accumulator",
    "C52_spiking_steps"
   ],
   "note": "proved as stated, which is the exact scope in which the code has the property; the C52_*_refuted theorems prove of the modelled code that it fails outside that scope"
  },
  {
   "property": "C53",
   "status": "proved",
   "theorems": [
    "C53_network",
    "C53_layer",
    "C53_no_bias_refuted",
    "C53_activation_refuted",
    "C53_plain_activation_refuted",
    "C53_scalar_result_refuted"
   ],
   "note": "proved as stated, which is the exact scope in which the code has the property; the C53_*_refuted theorems prove of the modelled code that it fails outside that scope"
  },
  {
   "property": "C54",
   "status": "proved",
   "theorems": [
    "C54_range",
    "C54_epsilon",
    "C54_bits",
    "C54_quantizer",
    "C54_call",
    "C54_constraints",
    "C54_pruned",
    "C54_pruned_bits_refuted",
    "C54_no_exponent_bits_refuted"
   ],
   "note": "proved as stated, which is the exact scope in which the code has the property; the C54_*_refuted theorems prove of the modelled code that it fails outside that scope"
  },
  {
   "property": "C55",
   "status": "proved",
   "theorems": [
    "C55_created",
    "C55_hard_tanh",
    "C55_hard_sigmoid",
    "C55_float_never_created",
    "C55_accepted_is_created_refuted"
   ],
   "note": "proved as stated, which is the exact scope in which the code has the property; the C55_*_refuted theorems prove of the modelled code that it fails outside that scope"
  },
  {
   "property": "C56",
   "status": "proved",
   "theorems": [
    "C56_builds",
    "C56_layer_is_table_einsum",
    "C56_ordinary_einsum",
    "C56_traced",
    "C56_bias_order_refuted",
    "C56_norm_order_refuted"
   ],
   "note": "proved as stated, which is the exact scope in which the code has the property; the C56_*_refuted theorems prove of the modelled code that it fails outside that scope"
  },
  {
   "property": "C57",
   "status": "proved",
   "theorems": [
    "C57_outputs_are_spikes",
    "C57_conservation",
    "C57_leaky_membrane_bounded",
    "C57_membrane_linear",
    "C57_zero_reset",
    "C57_membrane_width",
    "C57_chunks",
    "C57_leak_range",
    "C57_leaky_width_refuted",
    "C57_negative_threshold_refuted"
   ],
   "note": "proved as stated, which is the exact scope in which the code has the property; the C57_*_refuted theorems prove of the modelled code that it fails outside that scope"
  },
  {
   "property": "C58",
   "status": "proved",
   "theorems": [
    "C58_step_homogeneous_quantizer",
    "C58_output_is_causal_convolution",
    "C58_no_look_ahead",
    "C58_streaming",
    "C58_history_keeps_the_mode",
    "C58_inference_history",
    "C58_default_quantizer_refuted",
    "C58_retry_after_error_refuted",
    "C58_training_with_ebops_refuted"
   ],
   "note": "proved as stated, which is the exact scope in which the code has the property; the C58_*_refuted theorems prove of the modelled code that it fails outside that scope"
  },
  {
   "property": "C59",
   "status": "proved",
   "theorems": [
    "C59_calibrated",
    "C59_no_overflow",
    "C59_weight_inputs",
    "C59_operations",
    "C59_inference_layer",
    "C59_hardware",
    "C59_kbi_data_refuted"
   ],
   "note": "proved as stated, which is the exact scope in which the code has the property; the C59_*_refuted theorems prove of the modelled code that it fails outside that scope"
  },
  {
   "property": "C60",
   "status": "proved",
   "theorems": [
    "C60_attention_equivariant",
    "C60_self_attention_equivariant",
    "C60_pooled_invariant",
    "C60_key_order_irrelevant",
    "C60_linformer_queries_equivariant",
    "C60_hardware_equivariant",
    "C60_default_formats_refuted"
   ],
   "note": "proved as stated, which is the exact scope in which the code has the property; the C60_*_refuted theorems prove of the modelled code that it fails outside that scope"
  },
  {
   "property": "C61",
   "status": "proved",
   "theorems": [
    "C61_binary32",
    "C61_carried",
    "C61_sum",
    "C61_quantizer",
    "C61_network",
    "C61_backends_agree",
    "C61_hardware",
    "C61_dense",
    "C61_dense_layer",
    "C61_rnd_refuted",
    "C61_wrap_refuted"
   ],
   "note": "proved as stated, which is the exact scope in which the code has the property; the C61_*_refuted theorems prove of the modelled code that it fails outside that scope"
  },
  {
   "property": "C62",
   "status": "proved",
   "theorems": [
    "C62_argument_arrives",
    "C62_parameter_value",
    "C62_accepted_calls",
    "C62_sequence_argument_arrives",
    "C62_inner_accepted",
    "C62_inner_gets",
    "C62_patterns",
    "C62_positional",
    "C62_drop_in",
    "C62_standard_arguments",
    "C62_fuse_kept_refuted",
    "C62_unknown_keyword_rejected_refuted",
    "C62_softmax_input_quantizer_off",
    "C62_accepted_means_used_inside_refuted"
   ],
   "note": "proved as stated, which is the exact scope in which the code has the property; the C62_*_refuted theorems prove of the modelled code that it fails outside that scope"
  },
  {
   "property": "C63",
   "status": "proved",
   "theorems": [
    "C63_network",
    "C63_ranges_irrelevant",
    "C63_layer",
    "C63_list_einsum_refuted",
    "C63_reduction_refuted",
    "C63_table_without_iq_refuted",
    "C63_table_activation_refuted",
    "C63_fused_attention_refuted",
    "C63_array_keyword_refuted",
    "C63_noop"
   ],
   "note": "proved as stated, which is the exact scope in which the code has the property; the C63_*_refuted theorems prove of the modelled code that it fails outside that scope"
  },
  {
   "property": "C64",
   "status": "proved",
   "theorems": [
    "C64_gradient_of_the_reported_ebops",
    "C64_gradient_is_the_price_of_one_bit",
    "C64_gradient_between_bit_prices",
    "C64_no_gradient_for_a_pruned_width",
    "C64_training_never_fails",
    "C64_trainable_widths_never_grow",
    "C64_ebops_never_grow",
    "C64_mono_l1_reaches_the_lower_bound",
    "C64_gradient_descent_qualifies",
    "C64_price_at_a_pruned_width_refuted",
    "C64_unconstrained_width_refuted"
   ],
   "note": "proved as stated, which is the exact scope in which the code has the property; the C64_*_refuted theorems prove of the modelled code that it fails outside that scope"
  },
  {
   "property": "C65",
   "status": "proved",
   "theorems": [
    "C65_calibrated",
    "C65_no_overflow",
    "C65_inference",
    "C65_recorded",
    "C65_plain_layers",
    "C65_plain_values",
    "C65_simple_rnn_values",
    "C65_gru_values",
    "C65_spiking_values",
    "C65_softmax_values",
    "C65_attention_values",
    "C65_table_values",
    "C65_weight_inputs",
    "C65_simple_rnn_weights",
    "C65_gru_weights",
    "C65_spiking_weights",
    "C65_simple_rnn_inference",
    "C65_gru_inference",
    "C65_spiking_inference",
    "C65_softmax_inference",
    "C65_table_inference",
    "C65_simple_rnn_hardware",
    "C65_gru_hardware",
    "C65_spiking_hardware",
    "C65_kbi_state_refuted",
    "C65_attention_inference",
    "C65_attention_hardware",
    "C65_multihead_values",
    "C65_multihead_weights"
   ],
   "note": "proved as stated, which is the exact scope in which the code has the property; the C65_*_refuted theorems prove of the modelled code that it fails outside that scope"
  },
  {
   "property": "C66",
   "status": "proved",
   "theorems": [
    "C66_network",
    "C66_program_network",
    "C66_layer",
    "C66_quantizer",
    "C66_simple_rnn",
    "C66_gru",
    "C66_spiking",
    "C66_attention",
    "C66_batch_axis_widths_refuted",
    "C66_batch_sum_refuted"
   ],
   "note": "proved as stated, which is the exact scope in which the code has the property; the C66_*_refuted theorems prove of the modelled code that it fails outside that scope"
  },
  {
   "property": "C67",
   "status": "proved",
   "theorems": [
    "C67_no_bits",
    "C67_costless_multiplication",
    "C67_dense",
    "C67_conv",
    "C67_einsum",
    "C67_calibrated_kif",
    "C67_calibrated_kbi",
    "C67_signed_wrap_refuted"
   ],
   "note": "proved as stated, which is the exact scope in which the code has the property; the C67_*_refuted theorems prove of the modelled code that it fails outside that scope"
  },
  {
   "property": "C68",
   "status": "proved",
   "theorems": [
    "C68_error",
    "C68_layer",
    "C68_network",
    "C68_inverse",
    "C68_integer_bits_refuted",
    "C68_step_refuted"
   ],
   "note": "proved as stated, which is the exact scope in which the code has the property; the C68_*_refuted theorems prove of the modelled code that it fails outside that scope"
  },
  {
   "property": "C69",
   "status": "proved",
   "theorems": [
    "C69_dense",
    "C69_simple_rnn",
    "C69_gru",
    "C69_softmax",
    "C69_simple_rnn_limit",
    "C69_gru_limit",
    "C69_attention",
    "C69_attention_limit",
    "C69_dense_limit",
    "C69_masked_softmax",
    "C69_simple_rnn_last_limit",
    "C69_gru_last_limit",
    "C69_softmax_distribution",
    "C69_attention_distribution"
   ],
   "note": ""
  }
 ]
}