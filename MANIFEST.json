{
 "claims": [
  {
   "property": "C01",
   "status": "proved",
   "theorems": [
    "C01_conv_step_is_forward",
    "C01_conv_forward_accepts"
   ],
   "note": ""
  },
  {
   "property": "C02",
   "status": "proved",
   "theorems": [
    "C02_conv_pad_end_is_forward"
   ],
   "note": ""
  },
  {
   "property": "C03",
   "status": "proved",
   "theorems": [
    "C03_pool_step_is_forward"
   ],
   "note": ""
  },
  {
   "property": "C04",
   "status": "proved",
   "theorems": [
    "C04_pool_pad_end_is_forward",
    "C04_max_zero_fill_refuted"
   ],
   "note": "Positive for matching fill; max pooling with zero fill is refuted, as the property says."
  },
  {
   "property": "C05",
   "status": "proved",
   "theorems": [
    "C05_delay_fifo"
   ],
   "note": ""
  },
  {
   "property": "C06",
   "status": "proved",
   "theorems": [
    "C06_delay_pad_end",
    "C06_delay_no_pad"
   ],
   "note": ""
  },
  {
   "property": "C07",
   "status": "proved",
   "theorems": [
    "C07_delay_shrink",
    "C07_skip_step",
    "C07_skip_steps",
    "C07_centered_refuted"
   ],
   "note": ""
  },
  {
   "property": "C08",
   "status": "proved",
   "theorems": [
    "C08_chunking"
   ],
   "note": ""
  },
  {
   "property": "C09",
   "status": "proved",
   "theorems": [
    "C09_pad_end_is_forward",
    "C09_pad_end_after_steps",
    "C09_regular_networks",
    "C09_forward_accepts",
    "C09_pad_end_short_chunk_refuted"
   ],
   "note": ""
  },
  {
   "property": "C10",
   "status": "proved",
   "theorems": [
    "C10_step_schedule",
    "C10_step_pattern"
   ],
   "note": ""
  },
  {
   "property": "C11",
   "status": "proved",
   "theorems": [
    "C11_receptive_field",
    "C11_receptive_field_sharp",
    "C11_rnn_receptive_field_refuted"
   ],
   "note": ""
  },
  {
   "property": "C12",
   "status": "proved",
   "theorems": [
    "C12_sequential_stride",
    "C12_sequential_receptive_field",
    "C12_sequential_padding",
    "C12_sequential_delay",
    "C12_rebracketing",
    "C12_output_length_chain",
    "C12_output_length_network",
    "C12_delay_skip_reports_refuted"
   ],
   "note": ""
  },
  {
   "property": "C13",
   "status": "proved",
   "theorems": [
    "C13_peek_step_keeps_every_tensor",
    "C13_peek_steps_keeps_every_tensor",
    "C13_peek_step_result",
    "C13_peek_steps_result",
    "C13_peeks_can_be_erased"
   ],
   "note": ""
  },
  {
   "property": "C14",
   "status": "proved",
   "theorems": [
    "C14_peek_erasure",
    "C14_peek_value_step",
    "C14_peek_value_steps",
    "C14_conditional_peek_refuted"
   ],
   "note": ""
  },
  {
   "property": "C15",
   "status": "proved",
   "theorems": [
    "C15_clean_restores",
    "C15_conditional_clean_refuted"
   ],
   "note": ""
  },
  {
   "property": "C16",
   "status": "proved",
   "theorems": [
    "C16_delay_snapshot_refuted",
    "C16_pool_snapshot_refuted",
    "C16_eval_conv_snapshot_refuted",
    "C16_copied_snapshot_restores",
    "C16_training_conv_snapshot_restores"
   ],
   "note": ""
  },
  {
   "property": "C17",
   "status": "proved",
   "theorems": [
    "C17_leaf_end_not_saved",
    "C17_sequential_refuted"
   ],
   "note": ""
  },
  {
   "property": "C18",
   "status": "proved",
   "theorems": [
    "C18_clean_pad_end_peek",
    "C18_midstream_pad_end_peek_refuted"
   ],
   "note": ""
  },
  {
   "property": "C19",
   "status": "proved",
   "theorems": [
    "C19_broadcast_reduce_as_sequential",
    "C19_constructors",
    "C19_reports"
   ],
   "note": ""
  },
  {
   "property": "C20",
   "status": "proved",
   "theorems": [
    "C20_auto_delay",
    "C20_strided_auto_delay_refuted"
   ],
   "note": ""
  },
  {
   "property": "C21",
   "status": "proved",
   "theorems": [
    "C21_residual_step",
    "C21_centered_forward_steps_refuted",
    "C21_pad_end_shrink_refuted"
   ],
   "note": ""
  },
  {
   "property": "C22",
   "status": "proved",
   "theorems": [
    "C22_dispatch_routes",
    "C22_dispatch_out_of_range",
    "C22_dispatch_identity",
    "C22_dispatch_twice"
   ],
   "note": ""
  },
  {
   "property": "C23",
   "status": "proved",
   "theorems": [
    "C23_conditional_interleaves",
    "C23_conditional_selects",
    "C23_conditional_delays",
    "C23_conditional_pad_end_refuted",
    "C23_conditional_update_state_refuted",
    "C23_no_else_undelayed"
   ],
   "note": ""
  },
  {
   "property": "C24",
   "status": "proved",
   "theorems": [
    "C24_explicit_state",
    "C24_kernel_one_stride_refuted"
   ],
   "note": ""
  },
  {
   "property": "C25",
   "status": "proved",
   "theorems": [
    "C25_warm_up_emits",
    "C25_warm_up_values"
   ],
   "note": ""
  },
  {
   "property": "C26",
   "status": "proved",
   "theorems": [
    "C26_lambda_frame",
    "C26_lambda_takes_time",
    "C26_elementwise",
    "C26_forward_stepping",
    "C26_splits_is_framewise",
    "C26_lambda_in_networks",
    "C26_lambda_constructor",
    "C26_lambda_three_functions",
    "C26_lambda_clip_iff",
    "C26_linear",
    "C26_reshape",
    "C26_reshape_one_dim",
    "C26_time_mixing_refuted"
   ],
   "note": ""
  },
  {
   "property": "C27",
   "status": "proved",
   "theorems": [
    "C27_rnn_streams",
    "C27_rnn_accepts",
    "C27_rnn_clean_restarts",
    "C27_rnn_peek"
   ],
   "note": ""
  },
  {
   "property": "C28",
   "status": "proved",
   "theorems": [
    "C28_stream",
    "C28_clean_restarts",
    "C28_forward",
    "C28_too_long",
    "C28_peek",
    "C28_forward_pure",
    "C28_forward_pure_refuted",
    "C28_explicit_state_pure_refuted"
   ],
   "note": ""
  },
  {
   "property": "C29",
   "status": "proved",
   "theorems": [
    "C29_steps_are_window_attention",
    "C29_step_equals_forward_on_window",
    "C29_query_index_below_window_refuted"
   ],
   "note": ""
  },
  {
   "property": "C30",
   "status": "proved",
   "theorems": [
    "C30_steps_are_window_attention",
    "C30_step_equals_forward_on_window",
    "C30_length_one_raises"
   ],
   "note": ""
  },
  {
   "property": "C31",
   "status": "proved",
   "theorems": [
    "C31_chunks",
    "C31_peek_step",
    "C31_peek_steps",
    "C31_peeks_can_be_erased",
    "C31_peek_step_without_state_raises",
    "C31_peek_steps_without_state_raises",
    "C31_peek_without_state_refuted",
    "C31_empty_clip_raises",
    "C31_unsupported_options_raise",
    "C31_forward_with_options",
    "C31_clean_restarts"
   ],
   "note": ""
  },
  {
   "property": "C32",
   "status": "proved",
   "theorems": [
    "C32_mode_names",
    "C32_assignment_reaches_all",
    "C32_assignment_stops_at_conditional",
    "C32_method_runs_everywhere",
    "C32_assigned_mode_runs",
    "C32_conditional_forward_refuted",
    "C32_context_call",
    "C32_context_overrides_methods",
    "C32_flat_programs",
    "C32_nested_contexts",
    "C32_after_nesting",
    "C32_bad_mode_sticks",
    "C32_foreign_tensor_raises",
    "C32_copied_mode_of_stepping_module",
    "C32_forward_of_stepping_module",
    "C32_int_raises",
    "C32_broadcast_reduce_stepping_raises"
   ],
   "note": ""
  },
  {
   "property": "C33",
   "status": "proved",
   "theorems": [
    "C33_restores_object",
    "C33_restores_sequences",
    "C33_restores_attribute",
    "C33_exception_not_restored",
    "C33_container_restores",
    "C33_container_neutral",
    "C33_grandchildren_refuted",
    "C33_failing_child"
   ],
   "note": ""
  },
  {
   "property": "C34",
   "status": "proved",
   "theorems": [
    "C34_flat_name_parts",
    "C34_names_have_parts",
    "C34_flat_names",
    "C34_round_trip",
    "C34_save_unique",
    "C34_save_ambiguous",
    "C34_transfer",
    "C34_unflattened_dict_raises",
    "C34_unflattened_dict_ignored",
    "C34_collision",
    "C34_context",
    "C34_nested_context"
   ],
   "note": "Holds for all names, unique or not."
  },
  {
   "property": "C35",
   "status": "proved",
   "theorems": [
    "C35_unflatten_flatten",
    "C35_flatten_unflatten",
    "C35_same_as_forward_step",
    "C35_names",
    "C35_dynamic_flags",
    "C35_surplus_ignored",
    "C35_conditional_counts",
    "C35_conditional_refuted",
    "C35_bare_attention_raises"
   ],
   "note": "Leaves are arbitrary; not tied to the leaves of Net.v. A two-branch Conditional is refuted."
  },
  {
   "property": "C36",
   "status": "proved",
   "theorems": [
    "C36_conv_k1_emits_always",
    "C36_conv_k1_refuted",
    "C36_conv_k1_chunking_refuted"
   ],
   "note": ""
  },
  {
   "property": "C37",
   "status": "proved",
   "theorems": [
    "C37_conv_large_padding_steps",
    "C37_conv_large_padding_loses",
    "C37_pool_large_padding_raises",
    "C37_conv_large_padding_refuted"
   ],
   "note": "Statement made quantitative; the plain equality with forward is refuted."
  },
  {
   "property": "C38",
   "status": "proved",
   "theorems": [
    "C38_dilated_pool_schedule",
    "C38_dilated_pool_delay_refuted",
    "C38_dilated_pool_values_refuted"
   ],
   "note": ""
  },
  {
   "property": "C39",
   "status": "proved",
   "theorems": [
    "C39_stacked_parallel_refuted"
   ],
   "note": ""
  },
  {
   "property": "C40",
   "status": "proved",
   "theorems": [
    "C40_every_step",
    "C40_never_right_later",
    "C40_delay_zero_raises",
    "C40_delay_zero_steps"
   ],
   "note": ""
  },
  {
   "property": "C41",
   "status": "proved",
   "theorems": [
    "C41_once",
    "C41_each_exactly_once",
    "C41_unhashable_raises",
    "C41_other_ranks",
    "C41_collision_refuted"
   ],
   "note": "The original wording (no first occurrence is dropped) is false; statement amended, refutation included."
  },
  {
   "property": "C42",
   "status": "proved",
   "theorems": [
    "C42_converts",
    "C42_valid",
    "C42_forward_kept",
    "C42_weights_kept",
    "C42_again",
    "C42_stepping",
    "C42_again_refuted",
    "C42_sequential_converts_once",
    "C42_failure_keeps_changes",
    "C42_dtype_refuted",
    "C42_indices_refuted"
   ],
   "note": "The original wording (full idempotence) is false for in-place converted modules; statement amended, refutations included. RNN conversion is C62; transformer conversion not covered."
  },
  {
   "property": "C43",
   "status": "proved",
   "theorems": [
    "C43_mode_switches_do_not_matter",
    "C43_train_reaches_all"
   ],
   "note": ""
  },
  {
   "property": "C44",
   "status": "proved",
   "theorems": [
    "C44_heap_refines_values",
    "C44_construction_separates",
    "C44_no_interference",
    "C44_shared_state_refuted"
   ],
   "note": ""
  },
  {
   "property": "C45",
   "status": "proved",
   "theorems": [
    "C45_nesting_unobservable"
   ],
   "note": ""
  },
  {
   "property": "C46",
   "status": "proved",
   "theorems": [
    "C46_linear_default_raises",
    "C46_linear_succeeds",
    "C46_linear_default_refuted"
   ],
   "note": ""
  },
  {
   "property": "C47",
   "status": "proved",
   "theorems": [
    "C47_snapshot_after_start_up_restores",
    "C47_snapshot_during_start_up_refuted"
   ],
   "note": ""
  },
  {
   "property": "C48",
   "status": "proved",
   "theorems": [
    "C48_explicit_state_is_pure_after_start_up",
    "C48_explicit_state_reuse_refuted"
   ],
   "note": ""
  },
  {
   "property": "C49",
   "status": "proved",
   "theorems": [
    "C49_every_step",
    "C49_later_steps_refuted"
   ],
   "note": ""
  },
  {
   "property": "C50",
   "status": "proved",
   "theorems": [
    "C50_single_output_forward",
    "C50_default_is_last_of_forward",
    "C50_residual_not_delayed",
    "C50_residual_not_delayed_refuted"
   ],
   "note": ""
  },
  {
   "property": "C51",
   "status": "proved",
   "theorems": [
    "C51_one_layer",
    "C51_two_layers",
    "C51_two_layers_later_refuted",
    "C51_three_layers_raise",
    "C51_zero_layers_is_two"
   ],
   "note": ""
  },
  {
   "property": "C52",
   "status": "proved",
   "theorems": [
    "C52_time_shift",
    "C52_clean_mid_stream",
    "C52_phase",
    "C52_bound_sharp",
    "C52_rnn_refuted"
   ],
   "note": ""
  },
  {
   "property": "C53",
   "status": "proved",
   "theorems": [
    "C53_related_networks",
    "C53_related_explicit_state",
    "C53_batch_entry",
    "C53_no_leak",
    "C53_two_streams",
    "C53_conditional_leaks_refuted"
   ],
   "note": ""
  },
  {
   "property": "C54",
   "status": "proved",
   "theorems": [
    "C54_superposition",
    "C54_equivariance",
    "C54_bias_refuted"
   ],
   "note": ""
  },
  {
   "property": "C55",
   "status": "proved",
   "theorems": [
    "C55_step",
    "C55_pad_end",
    "C55_forward_shape",
    "C55_forward_entry",
    "C55_is_leaf",
    "C55_default_fill_refuted"
   ],
   "note": ""
  },
  {
   "property": "C56",
   "status": "proved",
   "theorems": [
    "C56_step",
    "C56_pad_end",
    "C56_forward_shape",
    "C56_ceil_harmless",
    "C56_forward_entry",
    "C56_divisor_override_refuted",
    "C56_count_include_pad_refuted",
    "C56_ceil_mode_refuted"
   ],
   "note": ""
  },
  {
   "property": "C57",
   "status": "proved",
   "theorems": [
    "C57_exported_is_forward",
    "C57_exported_object",
    "C57_states_exist",
    "C57_state_counts",
    "C57_before_first_output_refuted"
   ],
   "note": ""
  },
  {
   "property": "C58",
   "status": "proved",
   "theorems": [
    "C58_sequential",
    "C58_ordered_dict",
    "C58_append_is_constructor",
    "C58_append_broadcast_refuted",
    "C58_append",
    "C58_slice",
    "C58_append_to_slice",
    "C58_slices_compose"
   ],
   "note": ""
  },
  {
   "property": "C59",
   "status": "proved",
   "theorems": [
    "C59_broadcast_reduce",
    "C59_parallel",
    "C59_append",
    "C59_append_is_constructor",
    "C59_append_refuted",
    "C59_slice",
    "C59_slice_parallel",
    "C59_whole_slice_refuted",
    "C59_append_parallel_refuted"
   ],
   "note": ""
  },
  {
   "property": "C60",
   "status": "proved",
   "theorems": [
    "C60_window",
    "C60_steps",
    "C60_clip",
    "C60_longer_clip_refuted",
    "C60_constructor",
    "C60_forward_entry",
    "C60_padding_refuted"
   ],
   "note": ""
  },
  {
   "property": "C61",
   "status": "proved",
   "theorems": [
    "C61_forward",
    "C61_single_forward",
    "C61_single_steps",
    "C61_retro_steps",
    "C61_single_step_equals_forward",
    "C61_retro_step_equals_forward",
    "C61_single_clip",
    "C61_single_clip_time_first_refuted",
    "C61_retro_clip"
   ],
   "note": ""
  },
  {
   "property": "C62",
   "status": "proved",
   "theorems": [
    "C62_forward",
    "C62_stream",
    "C62_set_state",
    "C62_batch_change_raises",
    "C62_wrong_channels_raise",
    "C62_leaf_step",
    "C62_leaf_steps",
    "C62_build_from",
    "C62_build_bidirectional_one_layer",
    "C62_build_bidirectional_raises",
    "C62_build_bidirectional_two_layers",
    "C62_build_bidirectional_broadcast",
    "C62_build_bidirectional_refuted"
   ],
   "note": "Conversion of bidirectional modules preserves less than a user would expect: refutation included."
  },
  {
   "property": "C63",
   "status": "proved",
   "theorems": [
    "C63_same_results",
    "C63_sequential_forward_step",
    "C63_sequential_forward_steps",
    "C63_parallel_forward_step",
    "C63_parallel_forward_steps",
    "C63_broadcast_reduce_forward_step",
    "C63_broadcast_reduce_forward_steps",
    "C63_leaf_forward_step",
    "C63_leaf_forward_steps",
    "C63_atomic_refuted",
    "C63_peek_forward_step",
    "C63_peek_forward_steps",
    "C63_conditional_peek_refuted",
    "C63_clean_after_failures",
    "C63_reports",
    "C63_two_stages",
    "C63_streams_in_step",
    "C63_streams_lose_step"
   ],
   "note": "A second interpreter that returns the network with the exception, proved to agree with Net.v. Atomicity is refuted. Leaf modules are assumed to raise before they write to their buffers."
  },
  {
   "property": "C64",
   "status": "proved",
   "theorems": [
    "C64_memory",
    "C64_total",
    "C64_growth",
    "C64_single_output",
    "C64_retroactive"
   ],
   "note": ""
  },
  {
   "property": "C65",
   "status": "proved",
   "theorems": [
    "C65_forward_shape",
    "C65_step",
    "C65_reach",
    "C65_steps_no_pad",
    "C65_clip_then_frames",
    "C65_pad_end"
   ],
   "note": "Branches of a reduction must have the same delay, stride and output length; torch broadcasting between operands of different shapes, auto_shrink and pooling with ceil_mode are not in this model (C56 treats ceil_mode, C07 and C21 treat shrinking)."
  },
  {
   "property": "C66",
   "status": "proved",
   "theorems": [
    "C66_conv_frames",
    "C66_conv_calls",
    "C66_conv_raises",
    "C66_pool_frames",
    "C66_pool_calls",
    "C66_pool_raises",
    "C66_delay_frames",
    "C66_delay_calls",
    "C66_delay_raises"
   ],
   "note": "Batch broadcasting is torch's documented semantics, written into the model; convolutions with kernel size 1 and Delay(0) keep no buffer and take any batch size."
  },
  {
   "property": "C67",
   "status": "proved",
   "theorems": [
    "C67_forward",
    "C67_explicit_state",
    "C67_shared_stateless",
    "C67_bufferless",
    "C67_pad_end_is_forward",
    "C67_conditional_same_object",
    "C67_branches_same_object",
    "C67_delay_twice_refuted",
    "C67_shared_state_refuted"
   ],
   "note": "Objects are whole networks of the leaf model; construction of the containers (auto_delay) is not redone on shared trees."
  },
  {
   "property": "C68",
   "status": "proved",
   "theorems": [
    "C68_shaped_networks",
    "C68_networks",
    "C68_schedule",
    "C68_receptive_field",
    "C68_corrupted_frame",
    "C68_corrupted_clip",
    "C68_corrupted_rnn_refuted",
    "C68_influence",
    "C68_conv_step",
    "C68_conv_window",
    "C68_conv_exact_refuted",
    "C68_infinite_weight_refuted",
    "C68_pool_order",
    "C68_average_pool_refuted",
    "C68_exact_schedule",
    "C68_exact_pad_end",
    "C68_retroactive_memory",
    "C68_retroactive_window_refuted",
    "C68_retroactive_exact_refuted"
   ],
   "note": "Convolutions with kernel size 1 count as convolutions in the bit-for-bit result; a plain torch module or Lambda does not. Counterexamples use binary32 with a fixed order of summation inside one torch call."
  },
  {
   "property": "C69",
   "status": "proved",
   "theorems": [
    "C69_linear",
    "C69_linear_no_dimension",
    "C69_linear_framewise",
    "C69_reshape",
    "C69_reshape_one_dim"
   ],
   "note": "F.linear, swapaxes, moveaxis and reshape have the semantics of torch's documentation; tensors without dimensions are outside."
  },
  {
   "property": "C70",
   "status": "proved",
   "theorems": [
    "C70_observing",
    "C70_how_often",
    "C70_forward_runs_all",
    "C70_frame_hooks",
    "C70_schedule",
    "C70_reports",
    "C70_converted_twice",
    "C70_hook_meets_none",
    "C70_schedule_refuted"
   ],
   "note": "Hooks are functions of the values they see and may raise; which hooks ran with what is recorded. C70_schedule_refuted: with frame hooks on a converted module, a recurrent child or a Conditional branch, stepping and forward disagree. Backward, global hooks and tracing are not modelled; the state left by a step in which a hook raises is not modelled."
  },
  {
   "property": "C71",
   "status": "proved",
   "theorems": [
    "C71_single_layer",
    "C71_single_output_layer",
    "C71_retro_layer",
    "C71_one_layer",
    "C71_two_layers",
    "C71_two_layers_early",
    "C71_two_layers_late_refuted"
   ],
   "note": "The encoder norm and the layer norms are arbitrary functions on token vectors, dropout is that of eval mode. That the two-layer encoder keeps agreeing with forward is refuted (C71_two_layers_late_refuted); its exact outputs are given instead. Layers of more than two are not implemented in the code."
  },
  {
   "property": "C72",
   "status": "proved",
   "theorems": [
    "C72_step_context_refuted",
    "C72_steps_context"
   ],
   "note": "Negative result, stated exactly; both layers have the same window in the forward_steps case."
  },
  {
   "property": "C73",
   "status": "proved",
   "theorems": [
    "C73_build_from",
    "C73_raises",
    "C73_one_layer",
    "C73_two_layers",
    "C73_norm_first_refuted",
    "C73_activation_refuted"
   ],
   "note": "LayerNorm is any function of eps, weight, bias and a token that keeps its length; an activation module is the function of entries that it computes. Devices and dtypes are left out. norm_first and activations with weights are refuted."
  },
  {
   "property": "C74",
   "status": "proved",
   "theorems": [
    "C74_one_layer",
    "C74_two_layers",
    "C74_positions",
    "C74_step_is_forward_one_layer",
    "C74_step_is_forward_two_layers",
    "C74_long_clip_raises",
    "C74_fresh_forward_refuted",
    "C74_forward_moves_refuted"
   ],
   "note": "Encodings are any rows (nn.Embedding or CyclicPositionalEncoding's table; the construction of that table is not modelled). Agreement with a fresh network on later windows, and harmlessness of forward in mid-stream with the default index steps, are refuted. Two layers agree with forward before time 2(N-1) only (C71)."
  },
  {
   "property": "C75",
   "status": "proved",
   "theorems": [
    "C75_peek",
    "C75_alike",
    "C75_erase",
    "C75_one_layer",
    "C75_two_layers",
    "C75_fresh_peek_raises",
    "C75_pad_end_ignored",
    "C75_context_refuted",
    "C75_peek_pad_end_refuted",
    "C75_pad_end_refuted"
   ],
   "note": "Peeks inside of a call_mode context at a Lambda over a module with memory, results of peeks with pad_end, and pad_end of a single-output layer are refuted. pad_end of the two-layer encoder is not covered (padding frames are not tensors in this model)."
  },
  {
   "property": "C76",
   "status": "proved",
   "theorems": [
    "C76_single_steps",
    "C76_retro_steps",
    "C76_forward",
    "C76_single_output_forward",
    "C76_window",
    "C76_single_cheaper",
    "C76_retro_cheaper",
    "C76_retro_two_tokens",
    "C76_retro_two_tokens_adds_refuted",
    "C76_head_reports",
    "C76_module_reports",
    "C76_retro_report_covers",
    "C76_reports_cover_refuted",
    "C76_negative_refuted",
    "C76_flags_refuted",
    "C76_forward_steps_raises",
    "C76_context_refuted"
   ],
   "note": "Numbers of operations are those of the textbook formulas of the tensor operations (a sum of n numbers takes n - 1 additions, softmax without the subtraction of the maximum). The counters that ptflops itself provides for convolutions, pooling and linear layers are not part of the repository."
  },
  {
   "property": "C77",
   "status": "proved",
   "theorems": [
    "C77_own_tensors",
    "C77_fork",
    "C77_fork_runs",
    "C77_independent",
    "C77_by_name",
    "C77_call_raises",
    "C77_original",
    "C77_functions_stay",
    "C77_copy_forward",
    "C77_copy_in_context",
    "C77_training_has_no_effect",
    "C77_copy_steps",
    "C77_copy_never_steps",
    "C77_call_refuted",
    "C77_converted_refuted"
   ],
   "note": "Deep copying is Python's: every object once, tensors copied, functions returned as they are. Calls are made under torch.no_grad() (torch refuses to deepcopy tensors in a graph). Part 1 has all modules of Net.v with their buffers; part 2 has modules with parameters, call modes and stored functions, nested in Sequentials."
  },
  {
   "property": "C78",
   "status": "proved",
   "theorems": [
    "C78_masked_attention",
    "C78_wrong_shape_raises",
    "C78_hidden_is_missing",
    "C78_padding_is_missing",
    "C78_kept_rows",
    "C78_no_masks",
    "C78_stream_is_band",
    "C78_causal",
    "C78_retro_causal_newest",
    "C78_weights_sum_to_one",
    "C78_hidden_weighs_nothing",
    "C78_weights_explain_output",
    "C78_forward_arguments",
    "C78_steps_drop_arguments",
    "C78_padding_as_update_state",
    "C78_unpadded_token_is_forgotten",
    "C78_padding_refuted",
    "C78_retro_causal_refuted"
   ],
   "note": "The masked softmax is F.multi_head_attention_forward's as documented (masks merged, minus infinity before softmax); a row in which everything is hidden, NaN in torch, is 0/0 here. Dropout is not modelled."
  },
  {
   "property": "C79",
   "status": "proved",
   "theorems": [
    "C79_new_parameters",
    "C79_new_parameters_sharp",
    "C79_transition_is_neither",
    "C79_memory",
    "C79_load",
    "C79_rnn_forgets_refuted",
    "C79_online_learning"
   ],
   "note": "The parameters are the functions of the model (weights, bias, pointwise maps, cells); loading replaces them and keeps the buffers, which the code registers with persistent=False. Recurrent modules: C79_rnn_forgets_refuted."
  },
  {
   "property": "C80",
   "status": "proved",
   "theorems": [
    "C80_gradients",
    "C80_step_gradients",
    "C80_forward_gradients",
    "C80_steps_and_forward",
    "C80_dual_layers",
    "C80_integer_derivative_unique",
    "C80_detach_keeps_values",
    "C80_detach_recovers",
    "C80_truncated_gradient",
    "C80_detach_recovers_sharp",
    "C80_detach_rnn_refuted",
    "C80_max_without_ties",
    "C80_max_pool_ties_refuted",
    "C80_real_step_gradients",
    "C80_real_forward_gradients",
    "C80_real_derivative_unique",
    "C80_conv_rule",
    "C80_function_rule",
    "C80_linear_rule",
    "C80_average_rule",
    "C80_spatial_average_rule",
    "C80_reduction_rules",
    "C80_cell_rule"
   ],
   "note": "Forward-mode tangents stand for torch's reverse-mode graph; version counters, freed graphs and memory are not modelled. The theorems of PGradReal.v (real derivatives) rest on the axioms of Coq.Reals (sig_forall_dec, functional_extensionality_dep); all others on none. Max pooling with ties: C80_max_pool_ties_refuted. Recurrent modules and detach: C80_detach_rnn_refuted."
  },
  {
   "property": "C81",
   "status": "proved",
   "theorems": [
    "C81_numbers_with_tangents",
    "C81_retroactive_gradients",
    "C81_single_output_gradients",
    "C81_parameters_rule",
    "C81_derivative_unique"
   ],
   "note": "Forward-mode tangents as in C80, exact real arithmetic. The theorems about real derivatives rest on the axioms of Coq.Reals (sig_not_dec, sig_forall_dec, functional_extensionality_dep); C81_numbers_with_tangents on none."
  },
  {
   "property": "C82",
   "status": "proved",
   "theorems": [
    "C82_single_output_forgets",
    "C82_retroactive_forgets",
    "C82_retroactive_forgets_bits",
    "C82_new_parameters_single_output",
    "C82_new_parameters_retroactive",
    "C82_detached_single_output",
    "C82_detached_retroactive",
    "C82_one_token_fewer_refuted"
   ],
   "note": "Shapes of the memories are assumed to match the module; detaching is modelled as setting all tangents in the memory to zero. C82_one_token_fewer_refuted shows that the bound N is sharp for both kinds."
  },
  {
   "property": "C83",
   "status": "proved",
   "theorems": [
    "C83_evaluation_mode",
    "C83_single_output_training",
    "C83_no_draw_in_memory",
    "C83_retroactive_steps_ignore_dropout",
    "C83_mean_of_forward",
    "C83_mean_of_steps",
    "C83_retroactive_training_refuted"
   ],
   "note": "The generator is an arbitrary sequence of draws; F.dropout takes one draw per entry in the order of the tensor. nn.Dropout modules of the feed-forward part of encoder layers are not covered. C83_retroactive_training_refuted shows where retroactive steps and forward differ."
  },
  {
   "property": "C84",
   "status": "proved",
   "theorems": [
    "C84_training",
    "C84_frames_and_clips",
    "C84_evaluation",
    "C84_channel_dropout_refuted"
   ],
   "note": "The draws of a dropout module for its n-th frame are an arbitrary function on frames. Dropout modules stand between the networks of a Sequential, not inside their branches. C84_channel_dropout_refuted shows where channel dropout differs between steps and forward."
  },
  {
   "property": "C85",
   "status": "proved",
   "theorems": [
    "C85_evaluation",
    "C85_training",
    "C85_cumulative_mean",
    "C85_update_state_refuted",
    "C85_single_value_refuted",
    "C85_level_lost",
    "C85_steps_refuted",
    "C85_group_norm",
    "C85_group_norm_refuted"
   ],
   "note": "One channel (one group of one sample) in exact rational arithmetic. C85_update_state_refuted, C85_single_value_refuted, C85_steps_refuted and C85_group_norm_refuted show where the modules are not continual."
  },
  {
   "property": "C86",
   "status": "proved",
   "theorems": [
    "C86_entry",
    "C86_layer_norm_entry",
    "C86_dimension",
    "C86_wrong_dimension",
    "C86_other_dimensions",
    "C86_time_numbers",
    "C86_time",
    "C86_softmax_ones",
    "C86_layer_norm",
    "C86_layer_norm_time_refuted",
    "C86_softmax",
    "C86_softmax_time_refuted"
   ],
   "note": "C86_softmax_time_refuted and C86_layer_norm_time_refuted show that the steps are not forward when the dimensions include time."
  },
  {
   "property": "C87",
   "status": "proved",
   "theorems": [
    "C87_same_module",
    "C87_constructed",
    "C87_keyword_arguments",
    "C87_arguments",
    "C87_kdim_shared",
    "C87_kdim_separate_refuted"
   ],
   "note": "device, dtype and the keyword arguments that only the continual classes know are left out. C87_kdim_separate_refuted includes the case in which a wrong size is accepted."
  },
  {
   "property": "C88",
   "status": "proved",
   "theorems": [
    "C88_entry",
    "C88_other_dimensions",
    "C88_time_refuted",
    "C88_default_refuted"
   ],
   "note": "C88_time_refuted and C88_default_refuted show that a converted nn.GLU along time cannot be stepped."
  }
 ]
}