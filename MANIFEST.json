{
 "claims": [
  {
   "property": "C01",
   "status": "proved",
   "theorems": [
    "symmetric_quantizer_on_grid",
    "power_of_two_quantizer_on_grid",
    "power_of_two_quantizer_accepts_iff",
    "quantize_nearest"
   ],
   "note": ""
  },
  {
   "property": "C02",
   "status": "proved",
   "theorems": [
    "quantize_half_step",
    "quantize_saturates",
    "signed_range"
   ],
   "note": ""
  },
  {
   "property": "C03",
   "status": "proved",
   "theorems": [
    "quantize_idempotent",
    "quantize_monotone",
    "quantize_fixes_grid",
    "uniform_idempotent",
    "uniform_monotone"
   ],
   "note": ""
  },
  {
   "property": "C04",
   "status": "proved",
   "theorems": [
    "uniform_range_represents_zero",
    "uniform_zero_exact",
    "uniform_range_width",
    "uniform_range_one_sided",
    "uniform_range_not_covering_refuted"
   ],
   "note": ""
  },
  {
   "property": "C05",
   "status": "partial",
   "theorems": [
    "pot_no_clipping_least",
    "sym_no_clipping_least",
    "pot_no_clipping_error",
    "no_clipping_selection_total",
    "uni_no_clipping_covers",
    "uni_histogram_covers",
    "sym_histogram_covers_right_edges_partial",
    "pot_histogram_covers_right_edges_partial",
    "min_max_no_clipping_refuted",
    "histogram_no_clipping_refuted",
    "pot_search_non_power_of_two_refuted",
    "max_power_of_two_least"
   ],
   "note": "Proved for weights and for uniform activation ranges; refuted for symmetric/power-of-two activations from min/max or histograms (left edges ignored) and for a non power-of-two minimal threshold."
  },
  {
   "property": "C06",
   "status": "proved",
   "theorems": [
    "lut_quantizer_nearest",
    "lut_quantizer_total",
    "lut_quantizer_keeps_zero",
    "lut_built_contains_zero",
    "lut_built_in_range",
    "lut_built_size"
   ],
   "note": ""
  },
  {
   "property": "C07",
   "status": "proved",
   "theorems": [
    "pot_search_minimises",
    "pot_search_power_of_two",
    "pot_search_best_axis",
    "histogram_search_minimises"
   ],
   "note": ""
  },
  {
   "property": "C08",
   "status": "proved",
   "theorems": [
    "symmetric_search_no_worse",
    "uniform_search_no_worse",
    "symmetric_iterations_beat_all_evaluated",
    "uniform_iterations_beat_all_evaluated",
    "range_scale_window",
    "weight_searches_total"
   ],
   "note": ""
  },
  {
   "property": "C09",
   "status": "proved",
   "theorems": [
    "min_max_exact_per_channel",
    "min_max_exact_global",
    "min_max_initial_values_hide_observations",
    "min_max_initial_values_follow",
    "min_max_initial_values_dropped",
    "min_max_negative_scale_refuted"
   ],
   "note": "Positive scalings; a negative scaling breaks min<=max, and user-given initial values replace observed ones."
  },
  {
   "property": "C10",
   "status": "proved",
   "theorems": [
    "histogram_conserves_samples",
    "histogram_affine_moves_bins",
    "histogram_affine_vector_unavailable",
    "histogram_update_after_read_refuted",
    "histogram_max_below_observed_refuted"
   ],
   "note": "Holds until the histogram is first read; later batches are then lost (refuted)."
  },
  {
   "property": "C11",
   "status": "proved",
   "theorems": [
    "mean_of_equal_batches",
    "mean_within_extrema",
    "mean_of_unequal_batches_refuted",
    "mean_update_after_scale_refuted"
   ],
   "note": ""
  },
  {
   "property": "C12",
   "status": "proved",
   "theorems": [
    "clipped_counts_conserve_total",
    "smooth_distribution_positive",
    "smooth_distribution_rejects_zero",
    "kl_error_well_defined",
    "kl_error_nonneg",
    "kl_degenerate_range_refuted"
   ],
   "note": ""
  },
  {
   "property": "C13",
   "status": "proved",
   "theorems": [
    "hessian_fetch_exact_count",
    "hessian_fetch_prefix_stable",
    "hessian_cached_not_recomputed",
    "hessian_sufficient_entries_untouched",
    "hessian_fetch_no_assertion",
    "hessian_fetch_succeeds",
    "hessian_first_fetch_aligned",
    "hessian_alignment_after_earlier_fetch_refuted"
   ],
   "note": "Alignment across nodes holds on a first fetch and is refuted when some target has been fetched before."
  },
  {
   "property": "C14",
   "status": "proved",
   "theorems": [
    "max_cut_solution_valid",
    "max_cut_driver_valid",
    "max_cut_driver_returns",
    "max_cut_large_graph_unsolved",
    "execution_order_exists"
   ],
   "note": "every well-formed DAG, estimate, limit, tie-breaking and timeout pattern; with the default limit (1000) a model of 998 or more operations gets no schedule"
  },
  {
   "property": "C15",
   "status": "proved",
   "theorems": [
    "max_cut_solution_optimal",
    "max_cut_solver_terminates",
    "max_cut_single_op_bound",
    "max_cut_driver_optimal",
    "max_cut_driver_limit_refuted"
   ],
   "note": "driver optimality assumes the inner searches do not hit their limit; max_cut_driver_limit_refuted shows that this is needed"
  },
  {
   "property": "C16",
   "status": "proved",
   "theorems": [
    "searched_layers",
    "mp_search_fits",
    "mp_search_least_sensitive",
    "mp_search_succeeds",
    "exhaustive_solver_exact",
    "mp_search_least_raw_sensitivity",
    "max_bits_least_sensitive",
    "total_target_ignored_without_activations_refuted",
    "negative_sensitivity_refuted",
    "bops_target_exceeded_refuted",
    "min_candidate_found",
    "max_candidate_found"
   ],
   "note": "for every graph, candidates, target and solver meeting the stated contract; a total target without counted activations, negative metrics and coupled bit-operations are shown to be outside (refutations)"
  },
  {
   "property": "C17",
   "status": "proved",
   "theorems": [
    "refinement_only_raises",
    "refinement_fits_when_changed",
    "refinement_maximal",
    "refinement_skipped_for_bops",
    "refinement_round_least",
    "refinement_terminates",
    "refined_search_fits",
    "refinement_can_raise_sensitivity_refuted"
   ],
   "note": "the candidates of a node are assumed to have the same attributes"
  },
  {
   "property": "C18",
   "status": "proved",
   "theorems": [
    "weights_memory_is_sum",
    "weights_memory_order_independent",
    "activation_memory_is_peak",
    "total_memory_is_sum",
    "bops_is_sum",
    "utilization_monotone",
    "utilization_between_extremes",
    "satisfied_iff"
   ],
   "note": ""
  },
  {
   "property": "C19",
   "status": "proved",
   "theorems": [
    "parts_in_one_virtual_node",
    "reconstruction_faithful",
    "reconstruction_with_others",
    "reconstruction_separate",
    "every_configuration_reached",
    "assignment_determined",
    "composed_candidates",
    "same_bits_refuted",
    "include_non_configurable_refuted",
    "equal_candidates_refuted",
    "configured_twice_refused",
    "reconstruction_never_guesses"
   ],
   "note": "The split and composition of nodes, the candidates of the virtual nodes and both directions of the correspondence. Hypotheses: distinct candidates, and within a node with a kernel the number of bits determines the configuration; the refutations show what happens without them."
  },
  {
   "property": "C20",
   "status": "proved",
   "theorems": [
    "filtering_keeps_candidates",
    "filtering_removes_duplicates",
    "filtering_keeps_kernel_bits",
    "filtering_keeps_activation_bits",
    "filtering_succeeds",
    "unquantized_parts_are_float",
    "unique_activation_exact",
    "unique_weights_exact",
    "remove_duplicates_exact",
    "weights_only_filter",
    "activation_only_filter",
    "no_filter_otherwise",
    "restricted_filter_nonempty",
    "duplicates_remain_refuted",
    "positional_bits_dropped_refuted",
    "weights_only_loses_kernel_bits_refuted"
   ],
   "note": "bit-widths of the kernel and of the activations are kept; the refutations show what is not: duplicates among configurations that differ only in fields the code ignores, bit-widths of positional weights, and kernel bit-widths when the candidates are not all combinations"
  },
  {
   "property": "C21",
   "status": "proved",
   "theorems": [
    "manual_bit_widths",
    "manual_unsatisfiable_raises",
    "manual_succeeds",
    "activation_requests_recorded",
    "weights_requests_recorded",
    "manual_second_request_refuted",
    "manual_partial_name_refuted"
   ],
   "note": "exact effect of every successful run and sufficient conditions for success; refuted: a second request for a node raises when the first named a one-letter attribute; an attribute named in part is accepted and then raises"
  },
  {
   "property": "C22",
   "status": "proved",
   "theorems": [
    "restricted_options",
    "restriction_terminates",
    "loaded_within_consumers",
    "sorted_candidates",
    "base_above_limit_refuted"
   ],
   "note": "for every graph that loads; base_above_limit_refuted: the restriction step alone can keep a base configuration wider than all remaining options, in which case loading raises"
  },
  {
   "property": "C23",
   "status": "proved",
   "theorems": [
    "evaluation_configures_and_restores",
    "evaluation_accepted_iff",
    "evaluations_independent",
    "built_disabled",
    "rejected_configuration_stays_refuted",
    "second_quantizer_ignored_refuted"
   ],
   "note": "All sequences of evaluations whose configurations are accepted or empty, with a metric that may raise. A configuration rejected halfway stays applied, and only the first quantizer of a kind is set (refuted claims)."
  },
  {
   "property": "C24",
   "status": "proved",
   "theorems": [
    "channel_groups",
    "channel_grouping_succeeds",
    "grouping_partitions"
   ],
   "note": ""
  },
  {
   "property": "C25",
   "status": "proved",
   "theorems": [
    "mask_updates",
    "mask_updates_succeed",
    "greedy_within_target"
   ],
   "note": ""
  },
  {
   "property": "C26",
   "status": "proved",
   "theorems": [
    "greedy_within_target",
    "greedy_insufficient_raises",
    "greedy_succeeds",
    "greedy_stops_early_refuted",
    "greedy_nan_score_refuted",
    "greedy_group_order_refuted"
   ],
   "note": "refuted: the search can stop while a cheaper group still fits; a NaN score stops the search; with scores that increase from group to group the most important remaining group is not chosen"
  },
  {
   "property": "C27",
   "status": "proved",
   "theorems": [
    "sections_exact",
    "section_meaning",
    "section_complete",
    "sections_terminate",
    "memory_counts_once",
    "applies_unique",
    "charged_unique",
    "memory_bytes",
    "constant_weight_not_counted_refuted",
    "layer_name_confuses_count_refuted",
    "missing_channel_axis_refuted"
   ],
   "note": "Each node is charged once, with the masks that apply to it by its place in a prunable chain; padding included. Refutations: constants among the weights, layer names containing \"bias\"/\"kernel\", outputs without channel axis make the count raise."
  },
  {
   "property": "C28",
   "status": "proved",
   "theorems": [
    "unrolled_scores"
   ],
   "note": ""
  },
  {
   "property": "C29",
   "status": "proved",
   "theorems": [
    "fused_operations_consistent",
    "construction_consistent",
    "fused_operations_queries",
    "operation_activation_quantized",
    "add_operation",
    "remove_operation",
    "remove_unknown",
    "validate_exact",
    "overlapping_operations_refuted",
    "unmatched_operation_query_refuted"
   ],
   "note": "Consistency is kept by every operation whose nodes are not yet in another operation. Refuted: adding an operation that overlaps another is accepted and leaves the maps inconsistent; asking for the configuration of a manual operation that matches no pattern raises."
  },
  {
   "property": "C30",
   "status": "proved",
   "theorems": [
    "generated_operations",
    "generated_all",
    "generated_disjoint",
    "manual_operations",
    "generated_overlap_refuted",
    "shorter_pattern_missed_refuted",
    "manual_without_patterns_refuted",
    "fused_id_collision_refuted"
   ],
   "note": "Generated operations are disjoint when no interior node has other inputs; refuted in general (overlap), for shorter patterns hidden by a longer partial match, for manual operations without patterns and for colliding joined names."
  },
  {
   "property": "C31",
   "status": "proved",
   "theorems": [
    "fusing_group",
    "fusing_group_exact",
    "fusing_group_succeeds",
    "fusing_preserves_outputs",
    "fusing_all",
    "fusing_generated",
    "fusing_needs_current",
    "side_input_lost_refuted",
    "parallel_edges_confused_refuted",
    "repeated_output_dangles_refuted",
    "inner_output_changed_refuted",
    "input_node_not_fused_refuted",
    "fused_node_not_replaced_refuted"
   ],
   "note": "For groups whose ends have no parallel edges, that are not model inputs and give at most one output at the last node: every edge is kept except those entering behind the first node; with no side inputs exactly the inner edges vanish and the outputs of the model are preserved. All operations of a graph are fused without the intermediate check failing. Refuted: side inputs are lost, parallel edges share attributes, repeated/inner outputs go wrong, input nodes raise."
  },
  {
   "property": "C32",
   "status": "proved",
   "theorems": [
    "reconnect_out_moves",
    "reconnect_in_moves",
    "reconnect_never_fails",
    "remove_node_removes",
    "remove_node_succeeds",
    "replace_output_renames",
    "replace_input_renames",
    "replace_node_replaces",
    "replace_node_succeeds",
    "add_node_adds",
    "insert_between_inserts",
    "insert_after_inserts",
    "insert_before_inserts",
    "remove_between_removes",
    "replaced_input_moves_last_refuted",
    "inserted_node_indices_refuted",
    "removed_node_input_index_refuted"
   ],
   "note": "Edges and indices are preserved as multisets for any validation hook; refuted: replacing an input node changes the order of the model inputs, a node inserted between two others takes over the indices of the edge it splits, removing a node between two others gives the consumer the input index of the removed node."
  },
  {
   "property": "C33",
   "status": "proved",
   "theorems": [
    "identity_bypassed",
    "identity_left_alone",
    "identity_removal_preserves",
    "identity_removal_succeeds",
    "identity_of_second_output_refuted"
   ],
   "note": "The computed function is preserved when the readers of the identity use the output index that the identity reads from its producer (index 0 in practice); refuted for an identity that reads another output of a multi-output producer."
  },
  {
   "property": "C34",
   "status": "proved",
   "theorems": [
    "bn_folding",
    "bn_folding_in_graph",
    "merging",
    "merging_succeeds",
    "merging_preserves_outputs",
    "may_merge_exact",
    "merging_inner_output_refuted",
    "grouped_transposed_folding_refuted"
   ],
   "note": "All kernel sizes, strides, dilations, paddings and groups of Conv2D/DepthwiseConv2D/Conv2DTranspose and Conv2d/ConvTranspose2d, over the reals. Refuted for PyTorch ConvTranspose2d with groups of more than one input channel."
  },
  {
   "property": "C35",
   "status": "proved",
   "theorems": [
    "forward_folding",
    "forward_folding_in_graph",
    "forward_folding_depthwise_in_graph",
    "forward_folding_everywhere",
    "forward_folding_depthwise",
    "forward_folding_skipped",
    "padded_forward_folding_refuted",
    "strided_transposed_forward_folding_refuted",
    "depthwise_transposed_forward_folding_refuted",
    "multiplier_forward_folding_refuted",
    "strided_depthwise_forward_folding_refuted"
   ],
   "note": "Refuted: padding is not looked at, nor the stride of a transposed convolution or of a folded depthwise convolution; depthwise transposed convolutions and channel multipliers."
  },
  {
   "property": "C36",
   "status": "proved",
   "theorems": [
    "reconstructed_identity",
    "reconstruction_in_graph",
    "refusing_in_graph",
    "appending",
    "appending_succeeds",
    "appending_preserves_outputs",
    "refusing",
    "refused_quantization",
    "refusing_without_bias_refuted",
    "multiplier_threshold_refuted",
    "negative_threshold_refuted"
   ],
   "note": "Refuted: missing bias raises, thresholds of depthwise layers with a multiplier raise, negative scales make thresholds negative."
  },
  {
   "property": "C37",
   "status": "proved",
   "theorems": [
    "conv_collapsing",
    "conv_collapsing_in_graph",
    "collapsing_skips",
    "const_collapsing",
    "const_collapsing_in_graph",
    "joining",
    "joining_succeeds",
    "joining_preserves_outputs",
    "non_square_collapsing_refuted",
    "single_filter_bias_refuted",
    "constant_image_refuted"
   ],
   "note": "For all sizes, kernels, biases, inputs, Keras and PyTorch. Refuted: PyTorch kernels that are not square (height and width of the padding are exchanged), Keras single filter with only the first bias, constants that are not one number per channel."
  },
  {
   "property": "C38",
   "status": "proved",
   "theorems": [
    "residual_collapsing",
    "residual_collapsing_in_graph",
    "residual_preserves_outputs",
    "residual_source_exact",
    "residual_geometry_refuted",
    "residual_broadcast_refuted",
    "residual_other_output_refuted"
   ],
   "note": "For stride 1, no groups, as many inputs as outputs, centred kernels. Refuted: none of these is checked by the substitution, nor which output of the producer is added."
  },
  {
   "property": "C39",
   "status": "proved",
   "theorems": [
    "equalization",
    "equalization_pass",
    "equalization_factors",
    "equalization_skipped",
    "equalization_in_graph",
    "rescaling_chain",
    "walk_is_chain",
    "bounded_relu_refuted",
    "depthwise_second_refuted",
    "depthwise_transposed_first_refuted",
    "multiplier_first_refuted",
    "equalized_output_refuted"
   ],
   "note": "For all sizes, kernels, inputs, positive factors and chains of positively homogeneous channelwise nodes. Refuted: the pass also matches a ReLU with an upper bound, PyTorch depthwise second layers, depthwise transposed first layers, Keras channel multipliers, and first layers that are outputs of the model."
  },
  {
   "property": "C40",
   "status": "proved",
   "theorems": [
    "snc_layer",
    "snc_zero_padding",
    "snc_in_graph",
    "snc_zero_in_graph",
    "snc_edit_succeeds",
    "average_commutes",
    "snc_search",
    "snc_search_complete",
    "snc_search_ends",
    "dilated_same_padding_refuted",
    "strided_same_padding_refuted",
    "string_padding_refuted",
    "torch_zero_padding_refuted",
    "zero_padding_behind_node_refuted",
    "bypassed_output_refuted",
    "padded_average_refuted"
   ],
   "note": "Over the reals, for convolutions, depthwise convolutions and dense layers of both frameworks, any kernel, shift and input; padding moved to a node that pads with the shift.  Keras same padding: without dilation and with strides not larger than the kernel in one direction only; PyTorch: numeric padding.  The excluded cases are refuted with witnesses."
  },
  {
   "property": "C41",
   "status": "proved",
   "theorems": [
    "bias_correction_cancels",
    "bias_correction_at_mean",
    "bias_correction_of_candidates",
    "invalid_groups_not_corrected",
    "zero_correction_keeps_layer",
    "grouped_transposed_correction_refuted",
    "padded_correction_refuted",
    "strided_transposed_correction_refuted"
   ],
   "note": "For all kernels, quantized kernels, groups and means: the average output of the corrected quantized layer equals that of the float layer whenever every kernel position sees the mean; exactly at the mean input away from padding. Invalid groups: zero correction. Exceptions refuted: grouped ConvTranspose2d (wrong length, mixes groups), padded positions, strided transposed convolutions."
  },
  {
   "property": "C42",
   "status": "proved",
   "theorems": [
    "schedule_accepted",
    "schedule_endpoints",
    "schedule_between",
    "schedule_monotone",
    "gradual_accepted",
    "gradual_schedule_of_config",
    "gradual_mixture",
    "target_not_reached_in_training_refuted",
    "traced_schedule_refuted",
    "regularization_beta",
    "regularization_accepted"
   ],
   "note": "All steps and parameters. Two findings: without an end step the target fraction is never reached during training; inside a traced Keras step the count does not advance."
  },
  {
   "property": "C43",
   "status": "proved",
   "theorems": [
    "optimizers_partition",
    "optimizers_assigned",
    "optimizers_accepted",
    "override_needs_rest_refuted",
    "layer_variables_trained",
    "torch_groups",
    "shared_optimizer_refuted",
    "keras_gradients_of_parameters"
   ],
   "note": "All configurations and parameter lists. PyTorch: one object used for two groups loses the first group."
  },
  {
   "property": "C44",
   "status": "proved",
   "theorems": [
    "lookup_priority",
    "lookup_conflict_raises",
    "lookup_order_independent",
    "attached_tables"
   ],
   "note": ""
  },
  {
   "property": "C45",
   "status": "proved",
   "theorems": [
    "filter_is_boolean_formula",
    "filter_total",
    "layer_filter_selects",
    "filter_sees_call_arguments",
    "equal_layer_filters_match_alike",
    "layer_filter_eq_refl",
    "filter_operators",
    "layer_filter_eq_symmetric_refuted",
    "layer_filter_eq_same_layers_refuted",
    "layer_filter_eq_hash_refuted",
    "filter_operators_chain_refuted"
   ],
   "note": "boolean semantics proved for all expressions; equality of layer filters is shown not to be symmetric, hash-consistent or faithful in general (refutations), and is faithful under the hypotheses of equal_layer_filters_match_alike"
  },
  {
   "property": "C46",
   "status": "proved",
   "theorems": [
    "constructed_options_well_formed",
    "edit_keeps_options_well_formed",
    "edit_touches_only_named",
    "attribute_edit_touches_only_named",
    "weight_edit_all",
    "weight_edit_named",
    "renaming_keeps_configurations",
    "weight_edit_drops_others_refuted",
    "edit_input_bits_refuted",
    "renaming_collision_refuted"
   ],
   "note": "\"touches only what was named\" fails for edits of named weight attributes (the others are dropped), for renamings that collide, and edited values are not validated (refutations)"
  },
  {
   "property": "C47",
   "status": "proved",
   "theorems": [
    "upgrade_preserves",
    "loading_terminates",
    "upgrade_loses_name_and_padding_refuted",
    "upgrade_without_fusing_refuted"
   ],
   "note": "everything except the name and the padding mode is preserved; a description without fusing patterns cannot be upgraded (refutations)"
  },
  {
   "property": "C48",
   "status": "proved",
   "theorems": [
    "fusing_contains_is_contiguous",
    "fusing_contains_refl",
    "fusing_contains_trans",
    "fusing_contains_antisym"
   ],
   "note": "transitivity proved for groups too"
  },
  {
   "property": "C49",
   "status": "proved",
   "theorems": [
    "frozen_forever",
    "assignable_until_done",
    "deletion_unfreezes_refuted"
   ],
   "note": "for assignments and freezing; deletion of attributes is not guarded (refuted)"
  },
  {
   "property": "C50",
   "status": "proved",
   "theorems": [
    "filter_selects",
    "edit_is_rules_in_order",
    "edit_of_two_lists",
    "unmatched_unchanged",
    "action_writes",
    "action_goes_through",
    "last_rule_wins",
    "unwritten_unchanged",
    "edit_twice",
    "property_field_refuted",
    "partial_weight_name_refuted",
    "replaced_twice_refuted",
    "late_candidate_edit_refuted",
    "replaced_function_type_refuted"
   ],
   "note": "All graphs, rule lists, filters and the ten actions, with final configurations that are copies of a candidate or the candidate itself. A second run of the same rules changes nothing unless a rule replaces layers. Five findings are refuted with witnesses."
  },
  {
   "property": "C51",
   "status": "proved",
   "theorems": [
    "distances_nonneg",
    "mse_zero_iff_equal",
    "mae_zero_iff_equal",
    "lp_zero_iff_equal",
    "distances_of_whole_tensors",
    "weighted_mse_of_whole_tensors",
    "distances_per_sample",
    "distances_along_axis",
    "distances_per_sample_along_axis",
    "distances_order_independent",
    "cosine_between_0_and_1",
    "cosine_of_equal_tensors",
    "divergence_of_equal_tensors",
    "divergence_nonneg",
    "hmse_per_tensor",
    "hmse_per_channel_one_number",
    "hmse_same_halvings_for_all_channels",
    "lp_exponent_zero_refuted",
    "cosine_zero_tensors_refuted",
    "cosine_zero_sample_refuted",
    "cosine_axis_refuted",
    "divergence_whole_refuted",
    "divergence_per_sample_refuted",
    "divergence_negative_refuted",
    "hmse_per_channel_refuted",
    "hmse_scores_misaligned_refuted",
    "hmse_zero_tensor_refuted"
   ],
   "note": "mse (weighted or not), mae and lp, plain and normalised, over a whole tensor, per sample, along an axis and both. Cosine distance lies in [0, 1] without an axis; it is not zero on equal tensors. The divergence is zero on equal tensors and non-negative for lines of equal sum. HMSE per channel is one number for all channels because its arguments are passed by position (refuted claims)."
  },
  {
   "property": "C52",
   "status": "proved",
   "theorems": [
    "edge_equality",
    "edge_equality_not_reflexive_refuted",
    "edge_search",
    "walk_search",
    "walk_search_once",
    "single_node_pattern_refuted"
   ],
   "note": "Walks are found exactly when the first and inner nodes have one consumer. Refuted: edge equality is neither reflexive nor symmetric; one-node patterns miss nodes with several consumers or none."
  },
  {
   "property": "C53",
   "status": "proved",
   "theorems": [
    "images_are_first_requested",
    "images_count",
    "images_batches_of_source",
    "images_need_no_more"
   ],
   "note": "All sources whose batches have the same number of samples for every input; finite prefixes of endless sources included."
  },
  {
   "property": "C54",
   "status": "proved",
   "theorems": [
    "preserving_has_quantized_source",
    "loaded_modes"
   ],
   "note": ""
  },
  {
   "property": "C55",
   "status": "proved",
   "theorems": [
    "fusing_expansion"
   ],
   "note": ""
  },
  {
   "property": "C56",
   "status": "proved",
   "theorems": [
    "final_bit_widths",
    "assigned_once",
    "original_name_of_reused",
    "reused_layer_shares_configuration",
    "final_single_precision",
    "reused_activation_choice_ignored_refuted",
    "reused_weights_differ_refuted"
   ],
   "note": "refuted: the index searched for a reused layer is ignored; with an activation-only target a reused layer can get other weight bit-widths than its original"
  },
  {
   "property": "C57",
   "status": "proved",
   "theorems": [
    "definition_block",
    "defined_object_stays",
    "failed_block_stays_current_refuted",
    "second_block_stays_current_refuted"
   ],
   "note": "the last clause fails when the block fails (refuted): the object stays current"
  },
  {
   "property": "C58",
   "status": "proved",
   "theorems": [
    "pruned_graph_restricted",
    "pruned_graph_size",
    "pruned_graph_needs_every_mask",
    "pytorch_inner_weights_lost_refuted",
    "shared_name_not_pruned_refuted"
   ],
   "note": "For graphs with unique layer names whose bias attribute agrees with their weights. For PyTorch only when layers inside a chain carry no weights: pytorch_inner_weights_lost_refuted shows their weights are dropped."
  },
  {
   "property": "C59",
   "status": "proved",
   "theorems": [
    "shift_lifts_minimum",
    "corrected_nodes",
    "searched_params",
    "unlifted_minimum_refuted",
    "shifted_maximum_clipped_refuted",
    "searched_minimum_refuted"
   ],
   "note": "Exact rationals.  With a ratio above one minus one step, or with the parameter search, the minimum may stay negative (refuted with witnesses)."
  },
  {
   "property": "C60",
   "status": "proved",
   "theorems": [
    "points_evenly_spaced",
    "points_are_eligible",
    "points_share_counts_outputs_refuted"
   ],
   "note": "All lists and rational factors. The share counts output layers, which are removed afterwards (refuted claim)."
  },
  {
   "property": "C61",
   "status": "proved",
   "theorems": [
    "metric_within_distances",
    "metric_zero_of_equal_models",
    "metric_monotone",
    "exp_weighting_monotone_refuted",
    "exp_weighting_at_least_average",
    "metric_independent_of_batches",
    "metric_independent_of_image_order",
    "hessian_scores_scale",
    "hessian_zero_scores_refuted",
    "zero_batch_raises_refuted",
    "batches_of_cosine_refuted"
   ],
   "note": "All matrices of distances and weighting methods. Exponential weighting is not monotone; the cosine distance of an all-zero batch is one number, which makes evaluation raise or depend on the batches (refuted claims)."
  },
  {
   "property": "C62",
   "status": "proved",
   "theorems": [
    "pot_bound_exact",
    "relu_bound_preserves",
    "relu_bound_result",
    "relu_bound_left_alone",
    "relu_bound_once",
    "relu_bound_in_graph",
    "relu_threshold_refuted",
    "functional_hardtanh_refuted",
    "hardtanh_defaults_refuted",
    "relu_bound_raises_refuted"
   ],
   "note": "Keras ReLU with threshold 0, ReLU6, Hardtanh, functional relu6 for all layers. A Keras ReLU with another threshold and functional hardtanh with explicit bounds change the function, the defaults of functional hardtanh change for the whole process, and a layer without bias makes the pass raise (refuted claims)."
  },
  {
   "property": "C63",
   "status": "proved",
   "theorems": [
    "input_scaling_preserves",
    "input_scaling_left_alone",
    "input_scaling_in_graph",
    "several_inputs_refuted",
    "zero_input_refuted"
   ],
   "note": "One scaled input. With several inputs only the last factor is kept; an input that is always zero raises (refuted claims)."
  },
  {
   "property": "C64",
   "status": "proved",
   "theorems": [
    "softmax_shift_layer",
    "softmax_shift_preserves",
    "softmax_shift_left_alone",
    "softmax_shift_in_graph",
    "unbiased_shift_refuted",
    "shifted_output_refuted"
   ],
   "note": "The range claims for layers with a bias; a layer without one keeps its outputs while the recorded range moves, and a layer that is a model output changes that output (refuted claims)."
  },
  {
   "property": "C65",
   "status": "proved",
   "theorems": [
    "depthwise_to_grouped",
    "depthwise_left_alone",
    "depthwise_pass_preserves",
    "swap_preserves",
    "layer_swapped",
    "swap_succeeds",
    "depthwise_output_refuted",
    "separable_decomposed",
    "separable_pass_preserves",
    "split_preserves",
    "layer_split",
    "split_succeeds",
    "activation_pass_preserves",
    "activation_decomposed_iff",
    "append_preserves",
    "activation_appended",
    "append_succeeds"
   ],
   "note": "Grouped convolution, depthwise plus pointwise, and a separate activation compute the same function; the graph edits keep values and outputs. Refuted: depthwise layer among several outputs."
  },
  {
   "property": "C66",
   "status": "proved",
   "theorems": [
    "trained_weight_on_exported_grid",
    "trained_weight_neighbour",
    "soft_target_decides",
    "soft_rounding_starts_at_weight",
    "soft_rounding_starts_nearest",
    "soft_weight_between",
    "trained_uniform_weight_on_exported_grid",
    "uniform_soft_rounding_starts_at_weight",
    "keras_uniform_start_floors",
    "regularization_zero_iff_settled",
    "settled_means_exported",
    "regularization_needs_matching_weights",
    "ste_frameworks_agree",
    "ste_rounding_bounded",
    "ste_keras_any_shift",
    "soft_target_onto",
    "uniform_start_refuted",
    "keras_uniform_start_refuted",
    "ste_pytorch_shared_shift_refuted",
    "ste_per_tensor_limit_refuted"
   ],
   "note": "Real arithmetic, one tensor entry at a time. The uniform quantizers start at the float weight only in PyTorch and only on a range that already has zero on its grid; the refutations show the other cases."
  },
  {
   "property": "C67",
   "status": "proved",
   "theorems": [
    "converted_quantizer_same",
    "ste_weight_converted_same",
    "untrained_converted_same",
    "lsq_and_ste_agree",
    "trained_output_nearest",
    "converted_pot_threshold",
    "trained_pot_conversion_refuted",
    "one_bit_conversion_refuted"
   ],
   "note": "PyTorch quantizers; the inference quantizer is taken to compute quantize_tensor / uniform_quantize_tensor. A power-of-two threshold that was trained away from a power of two is exported rounded up (refutation). The Keras straight-through weights use a TensorFlow operation that is not modelled."
  },
  {
   "property": "C68",
   "status": "proved",
   "theorems": [
    "unread_constant_refused",
    "rebuilt_model_computes_traced",
    "running_the_program_is_traced",
    "traced_values_unique",
    "program_order_is_topological",
    "repeated_tensor_in_list_refuted",
    "repeated_tensor_order_refuted",
    "repeated_tensor_around_constant_refuted",
    "repeated_constant_refuted",
    "repeated_keyword_tensor_refuted",
    "nested_node_refuted",
    "keyword_list_refuted",
    "layer_arguments_refuted",
    "returned_twice_refuted",
    "list_output_refuted",
    "quantized_list_refuted"
   ],
   "note": "Reader and builder composed, for every program of plain calls and every topological order, against a relational semantics of the traced program which the fx interpreter meets and which determines the values. Refutations: the calls outside the plain forms which are rebuilt differently. Operations wrapped by the quantization wrapper and tensor shapes are not modelled."
  },
  {
   "property": "C69",
   "status": "proved",
   "theorems": [
    "unused_nodes_removed",
    "unused_removal_succeeds_iff",
    "unused_removal_preserves",
    "read_model_computes_traced",
    "output_with_unused_consumer_refuted",
    "input_of_unused_refuted",
    "unused_first_use_refuted",
    "returned_input_refuted"
   ],
   "note": "The end-to-end theorem composes the reader with the builder of C68; calls that are removed may have any form. Refutations: models that are refused although they are valid, and a layer whose first use has no effect."
  },
  {
   "property": "C70",
   "status": "proved",
   "theorems": [
    "outliers_by_z_score",
    "outlier_weight_bounded",
    "outlier_filter_keeps_something",
    "requested_sign_respected",
    "automatic_sign_correct",
    "uniform_range_covers_observed",
    "threshold_covers_observed_above",
    "bounded_parameters",
    "statistics_read",
    "low_threshold_removes_everything_refuted",
    "constant_batch_signed_refuted",
    "negative_side_clipped_refuted"
   ],
   "note": "The z-score theorem is on the reals and lists the axioms of the standard real numbers; the others are closed. Searches other than no-clipping are an arbitrary function that reports the signedness it was given. Refutations: a low z threshold can discard everything, a constant batch makes a non-negative activation signed, and no-clipping thresholds do not hold the most negative values."
  },
  {
   "property": "C71",
   "status": "proved",
   "theorems": [
    "each_candidate_own_parameters",
    "unconfigured_weight_refused",
    "only_requested_nodes",
    "hessian_requested_for",
    "empty_list_means_all_refuted",
    "no_channel_axis_refuted",
    "ambiguous_name_loses_tensor_refuted",
    "position_beside_name_refuted"
   ],
   "note": "Parameter functions are arbitrary. The theorem needs that no weight name is part of another weight name of the same node; the refutations show what happens otherwise."
  },
  {
   "property": "C72",
   "status": "proved",
   "theorems": [
    "statistics_collected_for",
    "own_tensor_collected",
    "collection_without_weights",
    "hessian_weights_of_own_tensor",
    "weighted_histogram_by_element",
    "weighted_histogram_unweighted",
    "weights_of_same_rank",
    "weights_of_higher_rank_rejected",
    "hessian_weights_node_order_refuted",
    "hessian_weights_reused_layer_refuted",
    "hessian_weights_multiple_outputs_refuted",
    "weights_of_lower_rank_refuted"
   ],
   "note": "Scores are an arbitrary function of the output tensors and the target tensor. Refutations: a collecting output that is not last among the graph's nodes (e.g. after batch-normalization folding), a layer used twice, a node with several outputs, and weights with fewer dimensions than the tensor."
  },
  {
   "property": "C73",
   "status": "proved",
   "theorems": [
    "batch_norm_statistics_required",
    "functional_batch_norm_replaced",
    "functional_layer_norm_replaced",
    "attention_decomposed",
    "causal_attention_refused",
    "unsupported_mask_refused",
    "training_batch_norm_refuted",
    "positional_eps_refuted",
    "omitted_affine_refuted",
    "keyword_order_statistics_refuted",
    "layer_norm_many_dimensions_refuted",
    "layer_norm_bias_only_refuted",
    "shared_query_key_refuted",
    "zero_scale_refuted",
    "attention_dropout_refuted",
    "computed_mask_refuted"
   ],
   "note": "On the reals; lists the axioms of the standard real numbers. Layers run in evaluation mode. The refutations are calls outside the supported form which are replaced by something else (training mode, positional eps, statistics by keyword in another order, several normalized dimensions, bias without weight, query and key shared, zero scale, dropout) or rejected (weight left out, computed mask)."
  },
  {
   "property": "C74",
   "status": "proved",
   "theorems": [
    "matmul_decomposed",
    "small_matmul_unchanged",
    "matmul_outputs",
    "matmul_with_itself_refuted",
    "matmul_constant_operand_refuted",
    "matmul_different_ranks_refuted",
    "matmul_other_outputs_refuted"
   ],
   "note": "On the reals; lists the axioms of the standard real numbers. The product is also linked to torch.matmul's broadcasting through a separate specification. Refutations: a tensor multiplied by itself (IndexError), a constant operand (ValueError), operands of different rank (refused), and a matmul among several outputs (the other outputs are lost)."
  },
  {
   "property": "C75",
   "status": "proved",
   "theorems": [
    "attention_layer_decomposed",
    "unsupported_attention_refused",
    "mismatched_attention_refused",
    "self_attention_refuted",
    "attention_batch_size_refuted",
    "attention_indexing_refuted",
    "attention_keyword_order_refuted"
   ],
   "note": "On the reals; lists the axioms of the standard real numbers. Dropout and masks are outside the model (evaluation mode; a mask is a fourth input, which raises). Refutations: self-attention raises ValueError, other batch sizes fail at run time, indexing the result with [0] takes the first sample, keyword arguments in another order exchange key and value."
  },
  {
   "property": "C76",
   "status": "proved",
   "theorems": [
    "activation_correction_residual",
    "activation_correction_cancels",
    "shift_estimate_close",
    "activation_correction_error",
    "both_corrections_residual",
    "corrected_layers",
    "uncorrected_layer_unchanged",
    "channel_shift_refuted",
    "bin_edges_refuted",
    "pooled_shift_refuted",
    "both_corrections_refuted",
    "padded_activation_correction_refuted",
    "grouped_transposed_activation_refuted"
   ],
   "note": "Over the reals. The residual theorem gives the exact remaining error for arbitrary shifts; the refutations show that the hypothesis (one shift for everything read) fails for channels that move differently, padding, pooling in between, and that the quantized kernel is not accounted for."
  },
  {
   "property": "C77",
   "status": "proved",
   "theorems": [
    "sizes_removed",
    "static_shapes_succeed",
    "static_shapes_preserve",
    "static_call",
    "static_shape_correct_iff",
    "size_used_twice_refuted",
    "size_used_again_refuted",
    "batch_elsewhere_refuted",
    "shape_keyword_refuted",
    "view_dtype_refuted",
    "size_input_refuted"
   ],
   "note": "Outputs are compared for any operations in which the static reshape agrees with the original on the values read; static_shape_correct_iff says for which shapes it does."
  },
  {
   "property": "C78",
   "status": "proved",
   "theorems": [
    "lfh_group_scores",
    "lfh_group_at_least_mean",
    "lfh_scores_succeed",
    "unimportant_channels_refuted",
    "group_scores_out_of_order_refuted"
   ],
   "note": "Exact arithmetic on rationals; the Hessian service is an argument (C13)."
  },
  {
   "property": "C79",
   "status": "proved",
   "theorems": [
    "framework_symmetric_quantizers",
    "framework_quantizers_refuse",
    "framework_uniform_quantizers",
    "framework_lut_quantizer",
    "torch_uniform_half_refuted",
    "torch_one_bit_half_refuted",
    "keras_half_refuted",
    "keras_positive_range_refuted",
    "keras_bit_widths_refuted"
   ],
   "note": "Exact arithmetic on rationals; torch.fake_quantize_per_tensor_affine and tf.quantization.fake_quant_with_min_max_vars are written down from their documented behaviour."
  },
  {
   "property": "C80",
   "status": "proved",
   "theorems": [
    "keras_model_read",
    "keras_model_accepted",
    "keras_graph_shape",
    "nested_skip_connection_refuted",
    "repeated_tensor_refuted",
    "nested_same_tensor_twice_refuted",
    "nested_model_called_twice_refuted",
    "nested_pass_through_refuted"
   ],
   "note": "Layer attributes and weights are not part of the model; layers called on one tensor at two positions, and nested models called twice or returning an input, are outside keras_model and covered by the refutations."
  },
  {
   "property": "C81",
   "status": "proved",
   "theorems": [
    "call_with_constants_rebuilt",
    "call_without_constants_rebuilt",
    "list_call_rebuilt",
    "layer_call_rebuilt",
    "number_before_tensor_refuted",
    "keyword_tensors_refuted",
    "left_out_parameter_refuted",
    "list_keyword_dropped_refuted",
    "list_number_dropped_refuted",
    "list_constant_keyword_refuted",
    "sequences_refuted",
    "single_list_refuted",
    "layer_keyword_tensor_refuted"
   ],
   "note": "Operations that are not wrapped; a constant and the numpy array made of it count as equal; calls outside the hypotheses are shown in the refutations."
  },
  {
   "property": "C82",
   "status": "proved",
   "theorems": [
    "keras_model_rebuilt",
    "built_model_runs",
    "level_names_found",
    "decomposed_name_found",
    "reused_name_taken_refuted",
    "output_names_clash_refuted",
    "shared_between_levels_refuted",
    "quantized_outputs_refuted",
    "constant_call_refuted"
   ],
   "note": "Layers are functions of the list of tensors they are called on (the arguments of the calls are C81); tf.keras.Model refusing two layers of one name is written down. Nodes of equal names and quantized nodes with several outputs are outside the hypotheses and covered by the refutations."
  },
  {
   "property": "C83",
   "status": "proved",
   "theorems": [
    "torch_search_serves",
    "keras_search_serves",
    "frameworks_quantize_alike",
    "keras_further_call_refuted",
    "same_bits_candidates_refuted",
    "crossed_bits_refuted",
    "other_weight_choice_refuted",
    "several_outputs_refuted",
    "keras_unused_refuted"
   ],
   "note": "What the quantizers of a candidate compute is C01-C05; the fields of a configuration other than the bit-width and the switch are one number; for Keras, further calls with a choice for their activation are excluded (refuted)."
  },
  {
   "property": "C84",
   "status": "proved",
   "theorems": [
    "torch_weights_scores",
    "keras_weights_scores",
    "torch_activation_scores",
    "keras_activation_scores",
    "weights_scores_unbiased",
    "activation_scores_unbiased",
    "weights_cells_cover",
    "activation_cells_cover",
    "weights_granularities_add_up",
    "torch_scores_per_image",
    "torch_unused_activations",
    "different_batches_refused",
    "inputs_get_their_images",
    "torch_weights_scale_refuted",
    "torch_channels_add_up_refuted",
    "weights_of_two_input_models_refuted",
    "keras_unused_activation_refuted",
    "scalar_output_refuted",
    "flat_activation_per_image_refuted"
   ],
   "note": "A network is given by the derivatives of its output elements; automatic differentiation is taken to return derivatives; real arithmetic. Expectation is the average over all sign vectors, for runs short enough that the early exit cannot happen where there is one."
  },
  {
   "property": "C85",
   "status": "proved",
   "theorems": [
    "other_ranks_left_alone",
    "two_tensors_left_alone",
    "conv_function_preserved",
    "conv_function_replaced",
    "depthwise_function_preserved",
    "depthwise_function_replaced",
    "addition_absorbed_iff",
    "not_followed_kept",
    "matmul_preserved",
    "matmul_replaced",
    "swish_function_preserved",
    "swish_replaced_iff",
    "explicit_padding_refuted",
    "channels_first_strides_refuted",
    "default_layout_refuted",
    "grouped_function_refuted",
    "depthwise_layout_refuted",
    "channels_first_addition_refuted",
    "single_addition_refuted",
    "output_absorbed_refuted",
    "transposed_operand_refuted",
    "adjoint_operand_refuted",
    "constant_first_refuted",
    "two_tensors_swish_refuted",
    "three_factors_refuted"
   ],
   "note": "Arrays of one sample over the reals; node names, shapes and the reuse group of the new node are not modelled. Settings given as arrays, explicit padding, grouped kernels, four strides in NCHW, depthwise calls in NCHW and transposed first operands are outside the hypotheses and covered by the refutations."
  },
  {
   "property": "C86",
   "status": "proved",
   "theorems": [
    "kmha_decomposed",
    "kmha_decomposed_two_inputs",
    "kmha_inputs_taken",
    "kmha_one_head_refuted",
    "kmha_without_bias_refuted",
    "kmha_inputs_exchanged_refuted",
    "kmha_key_of_query_refuted",
    "kmha_split_inputs_refuted"
   ],
   "note": "Real arithmetic. Layers with one head or without biases cannot be decomposed or run (refuted); the choice of the input tensors is proved for edges listed in input order and refuted otherwise. Arguments of the call (masks, return_attention_scores) are not read by the code and not modelled; the reconnection of the readers of the layer is not modelled."
  },
  {
   "property": "C87",
   "status": "proved",
   "theorems": [
    "exported_weights_match",
    "exported_activation_symmetric",
    "exported_activation_uniform",
    "exported_activation_lut",
    "exported_activation_holder",
    "kernel_in_layer_name_refuted",
    "exported_half_refuted",
    "exported_one_bit_refuted",
    "exported_positive_range_refuted",
    "weight_without_config_refused"
   ],
   "note": "Rational arithmetic. The inference quantizers of the mct_quantizers package are not in the repository; their computation is written from its documentation and is part of what is trusted. Half-way entries in Keras, bit widths outside 2 to 16 in Keras and layer names that contain a weight name are excluded by hypotheses and covered by the refutations."
  },
  {
   "property": "C88",
   "status": "proved",
   "theorems": [
    "schedule_made_iff",
    "rate_lowered_when_stalled",
    "rates_bounded",
    "reductions_bounded",
    "data_generation_rate",
    "flat_negative_loss_refuted",
    "improving_loss_keeps_rate"
   ],
   "note": "Rational arithmetic; losses that are not numbers and relative thresholds of one or more are outside the model. That a flat negative loss is never recognized as a plateau is a refutation."
  },
  {
   "property": "C89",
   "status": "proved",
   "theorems": [
    "torch_images_returned",
    "keras_images_returned",
    "keras_identity_returned",
    "smoothing_stays_in_range",
    "sizes_refused",
    "keras_remainder_refuted",
    "keras_clipping_refuted",
    "torch_identity_size_refuted",
    "no_iteration_refuted"
   ],
   "note": "Real arithmetic; the torchvision and TensorFlow operations are written from their documentation. Keras with clipping, Keras with a number of images that is no multiple of the batch size, the PyTorch identity pipeline and runs without iterations are excluded by hypotheses and covered by the refutations. Even filter sizes cannot be configured and are not covered."
  },
  {
   "property": "C90",
   "status": "proved",
   "theorems": [
    "torch_loss_all_images",
    "loss_of_batch",
    "loss_of_images",
    "loss_zero_iff",
    "keras_loss_all_images",
    "keras_needs_layers",
    "keras_first_weight",
    "updated_statistics_refuted",
    "unequal_batches_refuted",
    "keras_variance_refuted",
    "torch_matching_statistics_refuted",
    "torch_no_layers_refuted"
   ],
   "note": "Real arithmetic; half precision, gradients and the output loss are not modelled, and every listed layer takes part in the forward pass. The images compared with all images together are those fed to the model in the last step of each batch, before that step changed them: that they are the current images, that unequal batches are weighted by size, that Keras compares the variance of all values, that images with exactly the statistics of the model have no loss and that PyTorch refuses models without layers is false and refuted."
  },
  {
   "property": "C91",
   "status": "proved",
   "theorems": [
    "torch_step_loss",
    "zero_output",
    "keras_step_loss",
    "equal_step_loss",
    "unweighted_loss",
    "step_loss_zero_iff",
    "log_weights",
    "log_weights_order",
    "scaled_weights",
    "two_zero_scores",
    "equal_scores_scaled",
    "single_layer_refuted",
    "torch_hessian_loss",
    "column_weights",
    "torch_sla_loss",
    "keras_sla_loss",
    "sla_scale",
    "sla_zero_iff",
    "keras_normalized_refuted",
    "keras_batch_refuted",
    "torch_average_refuted",
    "column_weights_refuted",
    "least_layer_refuted",
    "keras_sla_rows_refuted"
   ],
   "note": "The weights, the losses and their broadcasting are modelled; gradients and optimizers are not. What does not hold (scaling with the batch size in Keras, the second division in PyTorch, weights without effect when log_norm is off, one trained layer, the layer of the least score, rows instead of channels in Keras) is refuted."
  },
  {
   "property": "C92",
   "status": "proved",
   "theorems": [
    "epoch_samples",
    "epoch_batches",
    "planned",
    "planned_refuted",
    "epoch_refused",
    "fixed_number",
    "sla_pairs",
    "no_samples",
    "no_channels"
   ],
   "note": "A tensor is the list of its rows; shuffling is any permutation; the data loaders of torch and TensorFlow are written from their documentation. Worker processes, devices and element types are not modelled. That unequal batches make the planned number of steps wrong is a refutation."
  },
  {
   "property": "C93",
   "status": "proved",
   "theorems": [
    "trained_graph",
    "trained_iff_admissible",
    "shared_name",
    "not_trained",
    "torch_reg_order",
    "keras_reg_order",
    "keras_reg_order_refuted",
    "trained_bias_refuted",
    "nothing_to_train",
    "trained_params_ambiguous"
   ],
   "note": "The outcome of training is arbitrary; the setting up of the optimizers is covered by C43. Aliasing of copied graphs is not modelled. The order of model.layers is written from the Keras source, which is not in the repository, for layers the outputs depend on. That attribute names occur in one key only is a hypothesis; what happens otherwise is a refutation, as is the order of the Keras regularization weights in branching models."
  },
  {
   "property": "C94",
   "status": "proved",
   "theorems": [
    "pointwise_is_dense",
    "pointwise_iff",
    "dense_exported_refuted"
   ],
   "note": "Dense, Conv2D, Reshape and the quantizers are written from their documentation, over real numbers; get_weights()[2] is taken to be the bias. The conversion by TensorFlow Lite is not modelled."
  },
  {
   "property": "C95",
   "status": "proved",
   "theorems": [
    "concat_thresholds",
    "one_threshold",
    "pot_input_refuted",
    "several_candidates_refuted",
    "nested_concat_refuted"
   ],
   "note": "Of a candidate the activation quantization parameters are modelled. That only the operations themselves match by name is a hypothesis; what happens otherwise is a refutation, as are mixed quantization methods and several candidates."
  },
  {
   "property": "C96",
   "status": "proved",
   "theorems": [
    "xquant_report",
    "xquant_duplicate",
    "xquant_no_data_refuted",
    "xquant_keras_outputs_refuted",
    "mse_metric",
    "sqnr_metric",
    "cs_torch_metric",
    "cs_keras_refuted",
    "mse_over_batches",
    "mse_unequal_batches_refuted",
    "keras_last_sample_refuted"
   ],
   "note": "Real arithmetic; what the models compute is arbitrary; the folding of the float model, TensorBoard and the files are not modelled. The losses of the libraries are written from their documentation. That a layer is not called like the key of the outputs is a hypothesis."
  },
  {
   "property": "C97",
   "status": "proved",
   "theorems": [
    "functional_conv_layer",
    "functional_linear_layer",
    "positional_stride_refuted",
    "positional_param_lost",
    "no_bias_refuted",
    "grouped_conv_refused",
    "weight_first_refuted",
    "dynamic_padding_right",
    "dynamic_padding_accepted",
    "static_padding_kept",
    "dilated_padding_refuted",
    "reused_padding_refuted"
   ],
   "note": "The functions and the layers are taken to compute the same function of weight, bias and parameters; constructors, load_state_dict and _output_padding are written from the PyTorch sources. Rewiring of the graph is not modelled; padding is one spatial dimension."
  },
  {
   "property": "C98",
   "status": "proved",
   "theorems": [
    "second_moment_statistics",
    "second_moment_keras_total",
    "moving_average_distance",
    "moving_average_between",
    "normalized_moments",
    "unfolded_bn_changed_refuted",
    "keras_training_mode_refuted",
    "single_position_refuted",
    "batch_statistics"
   ],
   "note": "Real arithmetic; batch normalization is written from the documentation of the frameworks (Keras without the correction of the fused kernel). Collecting new activation thresholds afterwards is not modelled; reconstruction and refusing are C36. Layers and nodes have unique names."
  },
  {
   "property": "C99",
   "status": "proved",
   "theorems": [
    "output_loss_value",
    "wider_spread_lower_loss",
    "output_loss_bounds",
    "keras_inverse_value",
    "keras_inverse_lengths_refused",
    "keras_inverse_above",
    "regularized_value",
    "regularized_linear_bounded",
    "keras_regularized_value",
    "linear_search",
    "chain_last_linear",
    "direct_outputs_in_order",
    "keras_extractor_outputs",
    "no_linear_no_loss",
    "shared_search_refuted",
    "doubled_layer_refuted",
    "keras_inverse_refuted",
    "keras_other_length_refuted",
    "keras_regularized_refused"
   ],
   "note": "Real arithmetic, kernels of Linear layers and 1x1 convolutions, gradients not modelled."
  },
  {
   "property": "C100",
   "status": "proved",
   "theorems": [
    "quantizer_class_exact",
    "qat_classes_available",
    "qat_wrapped_layer",
    "qat_wrap_succeeds",
    "qat_activation_quantizer",
    "qat_activation_succeeds",
    "qat_other_weights_refuted",
    "dqa_refuted",
    "qat_lut_refused",
    "qat_keras_outputs_refuted",
    "qat_freeze_lsq_refuted",
    "qat_equal_candidates",
    "gptq_ste_uniform_refuted"
   ],
   "note": "Attribute configurations are found by exact name; what the quantizers compute is another claim. Of the GPTQ builder only the choice of the class is modelled."
  },
  {
   "property": "C101",
   "status": "proved",
   "theorems": [
    "torch_prior_holds",
    "keras_prior_holds",
    "elu_prior_exact",
    "relu_prior_exact",
    "gelu_prior_refuted",
    "keras_activation_refuted",
    "reported_range_covers",
    "bounded_range_covers",
    "unknown_end_seen",
    "reported_defined",
    "reported_above_seen_refuted",
    "shifted_prior",
    "shifted_unknown"
   ],
   "note": "real arithmetic; operations written from the documentation of PyTorch and TensorFlow; GELU in its tanh form only, the exact GELU (error function) is not modelled; known means and deviations are part of C98"
  },
  {
   "property": "C102",
   "status": "proved",
   "theorems": [
    "onnx_fq_meaning",
    "onnx_fq_same",
    "onnx_fq_wide_refuted",
    "onnx_mctq_same",
    "torchscript_same",
    "fq_weights_final",
    "onnx_fq_succeeds",
    "torchscript_function_refuted",
    "torchscript_succeeds",
    "torchscript_constant_refuted",
    "onnx_names",
    "onnx_asked_names",
    "onnx_tensor_names_refuted",
    "metadata_first",
    "keras_fq_layers",
    "keras_fq_succeeds",
    "keras_fq_refuted",
    "keras_metadata_refuted",
    "keras_caller_layers"
   ],
   "note": "wrappers and holders of mct_quantizers are described from its documentation; tracing and the file formats themselves, modules under two names, nested Keras models and the order of copied Keras weights are not modelled"
  },
  {
   "property": "C103",
   "status": "proved",
   "theorems": [
    "single_precision_config",
    "single_precision_accepted",
    "request_needs_quantized_output",
    "hmse_needs_training",
    "requested_option_refuted"
   ],
   "note": "composes loading (C22, C44, C54), manual requests (C21) and candidate filtering; requests are assumed to select nodes by what the user sees of them (by_identity); which nodes a fused operation covers is a parameter"
  },
  {
   "property": "C104",
   "status": "proved",
   "theorems": [
    "own_single_precision",
    "own_mixed_precision",
    "switched_on_by_history",
    "answer_without_history",
    "later_call_refuted",
    "default_configuration_refuted",
    "given_choice_history_refuted",
    "given_choice_target_refuted",
    "no_configuration_refuted",
    "bypass_unchanged",
    "qat_bypass_refuted",
    "call_configuration"
   ],
   "note": "stages of a call are parameters that may return or raise anything; that the answer of a call is independent of history holds except for calls without a bounding target after a call with one on the same configuration object, where it is refuted"
  },
  {
   "property": "C105",
   "status": "proved",
   "theorems": [
    "standard_platform_attaches",
    "standard_names_exact",
    "unknown_set_refused",
    "operation_options",
    "row_of_kind",
    "kind_unique",
    "average_pooling_refuted",
    "max_pooling_refuted",
    "hard_tanh_refuted"
   ],
   "note": "tables generated from the source; different paths are taken to be different objects; without custom operator sets (those are C44); which operation belongs to which kind is a list of names shared by both frameworks"
  },
  {
   "property": "C106",
   "status": "proved",
   "theorems": [
    "saved_and_loaded",
    "loaded_again",
    "class_accepts",
    "saved_options_refuted",
    "saved_candidates_refuted",
    "activation_array_refuted",
    "same_names_refuted",
    "given_objects_first",
    "weight_names",
    "finished_weights",
    "finished_when",
    "finished_quantizers",
    "shared_weight_name_refuted"
   ],
   "note": "what a Keras file keeps and refuses is an assumption stated in SerModel.v; the constants of mct_quantizers are taken to be the names of the attributes; building the layer anew is outside the model"
  },
  {
   "property": "C107",
   "status": "proved",
   "theorems": [
    "pruned_model_fits",
    "pruned_model_follows_masks",
    "best_channels_kept",
    "unbounded_prunes_nothing",
    "reported_scores"
   ],
   "note": "composition of the models of C24-C28 and C58 into one call; the importance metric is any order of the channels and any numbers for the groups (no NaN); rebuilding of the framework model from the pruned graph is not included"
  },
  {
   "property": "C108",
   "status": "proved",
   "theorems": [
    "mean_of_rectified",
    "second_moment_of_rectified",
    "mean_after_relu",
    "second_moment_after_relu",
    "variance_after_relu_positive",
    "variance_after_relu",
    "factor_of_statistics",
    "equalization_of_statistics"
   ],
   "note": "erf is defined as the integral of the Gaussian and its limit is proved (GaussProofs.v); over the reals; a standard deviation of zero divides by zero in the code and is excluded"
  },
  {
   "property": "C109",
   "status": "proved",
   "theorems": [
    "platform_generated",
    "platform_options",
    "platform_fusing",
    "platform_attaches",
    "default_platform_nodes",
    "default_platform",
    "platform_chosen"
   ],
   "note": "configurations have distinct attribute names (Python dictionaries); the TFLite and QNNPACK descriptions are parameters of the choice here; see C110"
  },
  {
   "property": "C110",
   "status": "partial",
   "theorems": [
    "qnnpack_base_unused_refuted",
    "qnnpack_weights_refuted",
    "tflite_preserving_refuted",
    "tflite_loading_refuted",
    "tflite_linear_partial"
   ],
   "note": "the property as stated is refuted; what holds is that TFLite convolutions get the base configuration (depthwise and transposed ones do not); found by reading and proved in the model, not observed by running the code; a fixed scale 1/n is represented by n"
  }
 ]
}