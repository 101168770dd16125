# Formal model of sony/model_optimization (MCT): design

## Method

`/repo` is read as text only.  For each modelled function there is a small total Gallina function in a
`*Model.v` file whose comment cites the file and lines it mirrors and names every simplification.
Python exceptions are values (`result A := Ok a | Err e`), loops are structural recursion or recursion on
explicit fuel (running out of fuel is a distinct error value, excluded by statement or shown impossible),
mutation is state passing, external calls (error functions, Hessian back ends, memory functions, the LP
solver, k-means) are universally quantified arguments (section variables closed by the section).
Specifications live in separate small `*Spec.v` files or in the theorem statement itself.
`*Props.v` files contain only `Theorem ... exact lemma. Print Assumptions`.

Numbers: tensors elements are exact rationals (`Q`) or reals (`R`), never floats.  Floating point rounding error
is outside the model; properties that only concern exact arithmetic are proved for exact arithmetic.

## Plan per property (written before the proofs; see the status table in MANIFEST.json)

| id | what is modelled | how it is proved |
|----|------------------|------------------|
| C01-C03 | `quantize_tensor`, `calculate_delta`, `uniform_quantize_tensor` on one element over Q, round-half-even as in numpy | arithmetic on floor/round, `lia`/`lra` |
| C04 | `fix_range_to_include_zero`, `uniform_quantize_tensor` | arithmetic |
| C05 | `max_power_of_two` with exact integer log2 on Q; selection with `min_threshold` | induction on the exponent search; refutation for a non power of two minimal threshold |
| C06 | cluster assignment (argmin), int quantization, LUT construction from centres given by a k-means oracle | list induction; finite nearest argument |
| C07-C08 | threshold searches with an arbitrary error function | fold invariants (argmin) |
| C09-C11 | collectors as state machines over batches | induction over the batch list |
| C12 | slicing/smoothing of histograms | list induction |
| C13 | `HessianCache.update/fetch`, `_fetch_hessians_with_compute` as a state machine with an oracle for score computation | invariant over request histories |
| C14-C15 | memory graph, cuts, A* solve loop with open/closed lists, pivots, expansion limit, outer driver | invariant of the search loop: every open/closed cut has a valid route; frontier argument for optimality |
| C16 | LP formulation, decoding; the solver is an oracle returning an optimum | algebra on indicator vectors |
| C17 | greedy refinement loop with arbitrary RU function | invariant + measure |
| C18 | RU formulas | sums/max monotone |
| C19 | reconstruction helper on an abstract virtual graph | case analysis |
| C20 | candidate filters | list induction |
| C21 | `BitWidthConfig` + manual setters | induction over requests |
| C22 | `filter_node_qco_by_graph` | list reasoning; refutation of the base-config part |
| C23 | sensitivity context manager with failing evaluation | state restoration |
| C24-C28 | grouping, masks, greedy loop, memory calculator, unroll | permutations, invariants, sums over lists |
| C29-C31 | FusingInfo, generator, GraphFuser | invariants; refutations where the code breaks the property |
| C32-C33 | edges as a list with indices | list reasoning; refutation for identity removal |
| C34-C41 | layers as functions on finite-index real tensors | finite sums over R |
| C42 | schedules over Q | arithmetic |
| C43 | optimizer parameter grouping | list reasoning |
| C44-C49 | platform tables, filters, schema objects | list reasoning, refutations |
| C50 | network editor | fold |
| C51 | distances between tensors over R | sums, Cauchy-Schwarz, Gibbs inequality |
| C52 | walk filter | induction on the pattern |
| C53 | batching loop | list induction |
| C54-C55 | options of quantization-preserving operators, expansion of fusing patterns over operator sets | list reasoning, products of lists |
| C56 | writing the searched bit-widths back to the nodes, reused layers | fold over nodes; refutations for reused layers |
| C57 | `ImmutableClass`, the `with` block of a platform definition | case analysis on the state |
| C58 | pruned graph: attributes restricted by masks, size against the memory calculator | list induction, sums |
| C59 | shift of shift-negative correction over Q | arithmetic; refutations |
| C60-C61 | choice of points, distance matrix and weights of the mixed-precision metric | lists, weighted means over R |
| C62-C64 | ReLU bound to power of two, input scaling, softmax shift as real functions | algebra over R |
| C65 | decompositions of grouped, depthwise/separable convolutions and activations | finite sums; graph edits by list reasoning |
| C66-C67 | GPTQ/QAT quantizers: forward pass after training and conversion to inference parameters | real arithmetic per entry |
| C68-C69 | fx graph reader, dead-node removal, PyTorch builder | simulation between a relational semantics of the traced program and the built model |
| C70-C72 | activation parameters, parameters per candidate, statistics collection | case analysis, folds over nodes |
| C73-C75 | functional layer norm/batch norm/attention, large matmul, multi-head attention | reals; index arithmetic |
| C76 | activation bias correction | sums over R |
| C77 | static reshapes | simulation along the edited graph |
| C78 | LFH importance metric | lists, rationals |
| C79 | framework fake-quant calls against the numpy quantizers | arithmetic over Q |
| C80 | Keras reader: one level, then flattening of nested models | induction over the nesting, edge multisets |
| C81 | node builder and call of a Keras node: constants, keywords, lists | induction over argument lists |
| C82 | names of calls, lookup of layers, the building loop and the outputs | invariant of the loop; strings; composed with C80 |
| C83 | the model of the search: configurable layers, candidate lists, names of quantizers, requests of the search | two independent models joined by a relation between requests and quantizers in force; induction over layers |
| C84 | concatenation of outputs, random combinations, granularities, iterations and early exit of the four calculators of Hessian scores | sums over cells of positions, averages over all sign vectors, induction over iterations; partition of row-major positions |
| C85 | the three substitutions that turn calls of tf.nn.conv2d, tf.nn.convolution, tf.nn.depthwise_conv2d and tf.matmul into layers, the bias they absorb, and the swish substitution | what the reader makes of the call (C81) composed with the conversion; refinement of TensorFlow's rules for arguments; edge permutations of the edited graph |
| C86 | the Keras MultiHeadAttention decomposition: parameters, the tree of new nodes per head and iteration, what each node computes, the tensors taken as query, value and key | evaluation of the node tree compared with the layer's formula over positions; the key positions of a query are a permutation of the folded attention axis |
| C87 | which weights of a layer get a quantizer and under which name, the arguments passed to the inference quantizers, what those compute, the toolkit's own weight quantization, the activation quantizers and holders | entry-wise comparison of flattened per-channel parameters with broadcasting; the lookup by name finds the one entry; rounding lemmas |
| C88 | the plateau schedulers of data generation (both frameworks), their construction, one step, a run | invariant of the counters between two reductions; the cut of the losses at the stalls is unique; induction over the cut |
| C89 | sizes, initial images, batches, arbitrary optimization steps, smoothing, centre crop, clipping, splitting and collecting the result, in both frameworks | the list of batches stays the chunks of one list of images (induction over the steps); the convolution is the Gaussian mean around a pixel; extreme values of the grid |
| C90 | the statistics holders, accumulation over batches, alignment loss, layer weights and original statistics of data generation, in both frameworks | invariant: the statistics kept for a batch are those of the images fed in its last step; the average of equally large batch averages is the average of all values; sums of squares vanish termwise; false claims refuted by two batches of one-pixel images |
| C91 | the GPTQ losses of both frameworks with the broadcasting of stacked weights, the Hessian-based weights and sample-layer attention | sums over row-major indices; the sorted vector of the scores starts with the zeros; logarithms are monotone; sums of squares vanish termwise; false claims refuted by two layers of one element |
| C92 | the data sets and loaders of GPTQ training in both frameworks, with and without sample-layer attention, and the planned number of steps | induction over batches; a partition into batches of one size is unique; a permutation of the positions permutes the samples; the planned steps refuted by batches of one, two and two samples |
| C93 | the GPTQ trainer: compare points, wrapped layers, checks, update of the graph after training, order of the regularization weights, for both frameworks | induction over the trained layers with a relation between the nodes before and after; names are kept by each update; sorted lists with distinct keys are unique; the Keras order refuted by two branches |
| C94 | the pointwise convolution that replaces a dense layer in the INT8 TFLite exporter | flat indices of concatenated shapes; the convolution at the flattened position equals the dense layer at the position |
| C95 | the update of thresholds in front of concatenations, with the matching of node types and the application of a substitution | closed form of the graph after a list of previous nodes and after a list of concatenations, by induction; a node with one outgoing edge has one possible source of a threshold |
| C96 | the similarity metrics of the explainable quantization report: pairing of layers, metrics, averages | closed form of the dictionaries after a list of batches, by induction; Cauchy-Schwarz for lists; sums over concatenated batches |
| C97 | const_holder_conv.py, functional_linear.py, convtranspose_dynamic_padding.py, reading of the call, building of the layer | permutations of the tensor arguments of a valid call, arithmetic over Z |
| C98 | apply_second_moment_correction.py of both frameworks: training mode, running the data, storing the statistics | invariance of the outputs under moving statistics, induction over layers and batches |
| C99 | Output losses of data generation (both frameworks), search for the last linear layers, layers tapped by the Keras extractor | extremes by induction; tangent inequality for inverses; Cauchy-Schwarz; cost measure on acyclic graphs for the growing list |
| C100 | Choice of trainable quantizer classes, their configurations and candidates, wrapping of layers and activation holders for quantization-aware training (both frameworks) | filter/exactly-one characterisation, first occurrences by induction, iff for success |
| C101 | tables of known output ranges, ReLU thresholds of Keras, known ends in the reported minimum and maximum, shifted ranges | real analysis: bounds of the exponential by repeated squaring from 1 + y <= exp y, tangent line for SiLU |
| C102 | PyTorch and Keras exporters: setting quantized weights, unwrapping, wide activations, names and metadata in the file, fake-quant layers | induction over module trees; forward functions of blocks are arbitrary (functional extensionality) |
| C103 | PrepModel: graph preparation (fused overrides, manual requests, single precision, filtering) on top of Lookup/Manual/Cand | composition of the earlier theorems node by node |
| C104 | core_runner, the default configuration object and bypass of the six quantization functions | heap of configuration objects, induction over sessions |
| C105 | the tables of operations of Keras and PyTorch, attached by LookupModel.attach | keys of the table are distinct, induction over the operator sets of a description |
| C106 | Keras training quantizers: attribute dictionaries, serialization, loading by class name, finishing layers (SerModel) | case analysis on configurations, induction over parameter lists and over the variables written into the weight slots |
| C107 | one pruning call: entry layers, grouping, greedy masks, pruned graph, pruning information (PruneRunModel) | composition of the theorems on grouping, masks, memory and the pruned graph; charge of a layer bounds what is left of it; order of consecutive pieces of a list without repetitions |
| C108 | formulas of the moments after a ReLU (EqualizeModel), against integrals of the normal density (Coquelicot) | antiderivatives from the derivative of the error function, fundamental theorem of calculus; value of the Gaussian integral by differentiating a parameter integral, limits by explicit bounds, the variance by the mean value theorem |
| C109 | the default platform description (imx500), choice of the platform (ImxModel) | computation on the named sets with arbitrary configurations, invariants carried through attaching and lookup (C44, C105) |
| C110 | the QNNPACK and TFLite descriptions (TpcsModel) | refuted: the QNNPACK base configuration is unused, so no weight is quantized; the preserving sets of TFLite cannot be loaded (node_quantization_config.py L106-107). Found by reading, not by running the code |

## Trusted base

* The kernel of Coq 8.16.1 (and coqchk, which rechecks the compiled files).  No plugin, no kernel check switched off, no
  axiom of our own, no module functor.
* The axioms of the standard library listed per theorem below.  All theorems about rationals, lists and graphs are
  axiom-free; the theorems about layers as real functions, the KL divergence, bias correction, distances and the metric
  use the axioms of the standard library's real numbers.  coqchk reports the context of *all* loaded library files, so it
  also names constants of `Coq.ssr.ssrunder` and `Coq.Reals.Rdefinitions` which are module-type fields of the standard library;
  no theorem depends on them (see `Print Assumptions`).
* The reading of the Python source.  The code is never run; each definition cites the lines it mirrors.
* The meaning of framework operations, where the model needs one:
  * `Nd.v`: numpy arrays as a shape and a function of indices: transpose, reshape, flatten, sums over axes, broadcasting.
  * `LinSpec.v`: what a convolution, a depthwise and a transposed convolution and a dense layer compute in Keras and PyTorch,
    with strides, dilation, groups and zero padding.
  * `CollapseModel.v`: the convolution the substitutions call to compute the collapsed kernel.
  * networkx's `MultiDiGraph` as an insertion-ordered list of edges (`GraphModel.v`).
  * `FakeQModel.v`: `torch.fake_quantize_per_tensor_affine` and `tf.quantization.fake_quant_with_min_max_vars`, from their documentation.
  * `FxModel.v`: the node list of a `torch.fx` graph and the interpreter's rules; `KReadModel.v`: the call history of a Keras model
    (layer, input tensors, output tensors per call) and `tf.nest.flatten` ordering keyword arguments by name.
  * `KBuildModel.v`: `tf.keras.Model` raises ValueError on two layers of one name; an activation quantizer called on a list of tensors
    packs them into one tensor.
* Stated readings of the run-time: `tf.function` traces a Python schedule once (`AnnealModel.traced_calls`); iteration over
  a Python set has an arbitrary order (a parameter `ord` or `pick`); dictionaries keep insertion order; sorts are stable.

## Left out on purpose

* Floating point: rationals or reals replace it.  nan and inf appear only where the model names them (`E_zero_div`).
* The framework back ends: inference of a layer, gradients, Hessian computation, exporters (including the exporters' choice of
  quantizers, which belongs to mct_quantizers).  They are universally quantified arguments (oracles) where a property needs them.
  Reading models into graphs and building models from graphs is modelled (C68, C69, C80-C82), for operations that are not wrapped.
* Solvers: CBC (the integer program's solver) and scikit-learn's k-means are arguments; theorems assume of them only what they state.
* Logging, serialisation, visualisation, and the facade functions that only chain the modelled passes.
* Attaching quantization configurations: field names that are methods (EditModel), hashes finer than equality (CandModel).
* Shift negative correction: statistics, quantization configurations and fusing information updated by the pass.
* Sensitivity evaluation: building the mixed-precision model and the disabling of candidates; a custom metric function is not
  called in the theorems about the standard metric.
* Virtual graph: the non-configurable weights a composed node inherits from its activation node.
* Trainable quantizers: the Keras straight-through quantizers that call tf's fake_quant with trained variables, DQA, broadcasting of
  per-channel parameters (one entry with its own parameters is modelled).
* data_generation, xquant and the exporters, unless a file below says otherwise.

## Axioms per theorem (what Print Assumptions lists)

Axiom-free theorems ("Closed under the global context") and theorems over the real numbers.  The axioms are those of the
Coq standard library: `sig_forall_dec`, `sig_not_dec` (ClassicalDedekindReals), `functional_extensionality_dep`
(FunctionalExtensionality), `classic` (Classical_Prop).

### No axioms

* ActParamExProps: low_threshold_removes_everything_refuted, constant_batch_signed_refuted, negative_side_clipped_refuted
* ActParamProps: outlier_weight_bounded, outlier_filter_keeps_something, requested_sign_respected, automatic_sign_correct, uniform_range_covers_observed, threshold_covers_observed_above, bounded_parameters, statistics_read
* AnnealProps: schedule_accepted, schedule_endpoints, schedule_between, schedule_monotone, gradual_accepted, gradual_schedule_of_config, gradual_mixture, target_not_reached_in_training_refuted, traced_schedule_refuted, regularization_beta, regularization_accepted
* CalcExProps: empty_list_means_all_refuted, no_channel_axis_refuted, ambiguous_name_loses_tensor_refuted, position_beside_name_refuted
* CalcProps: each_candidate_own_parameters, unconfigured_weight_refused, only_requested_nodes, hessian_requested_for
* CandProps: filtering_keeps_candidates, filtering_removes_duplicates, filtering_keeps_kernel_bits, filtering_keeps_activation_bits, filtering_succeeds, unquantized_parts_are_float, unique_activation_exact, unique_weights_exact, remove_duplicates_exact, weights_only_filter, activation_only_filter, no_filter_otherwise, restricted_filter_nonempty, duplicates_remain_refuted, positional_bits_dropped_refuted, weights_only_loses_kernel_bits_refuted
* CollapseExProps: residual_other_output_refuted
* CollectProps: min_max_exact_per_channel, min_max_exact_global, min_max_initial_values_hide_observations, min_max_initial_values_follow, min_max_initial_values_dropped, min_max_negative_scale_refuted, histogram_conserves_samples, histogram_affine_moves_bins, histogram_affine_vector_unavailable, histogram_update_after_read_refuted, histogram_max_below_observed_refuted, mean_of_equal_batches, mean_within_extrema, mean_of_unequal_batches_refuted, mean_update_after_scale_refuted
* ConcatProps: concat_thresholds, one_threshold, pot_input_refuted, several_candidates_refuted, nested_concat_refuted
* DeadExProps: unused_first_use_refuted, returned_input_refuted
* DeadProps: unused_nodes_removed, unused_removal_succeeds_iff, unused_removal_preserves, output_with_unused_consumer_refuted, input_of_unused_refuted
* DeadReadProps: read_model_computes_traced
* DecompProps: depthwise_left_alone, swap_preserves, layer_swapped, swap_succeeds, depthwise_output_refuted, split_preserves, layer_split, split_succeeds, activation_pass_preserves, activation_decomposed_iff, append_preserves, activation_appended, append_succeeds
* EditProps: filter_selects, edit_is_rules_in_order, edit_of_two_lists, unmatched_unchanged, action_writes, action_goes_through, last_rule_wins, unwritten_unchanged, edit_twice, property_field_refuted, partial_weight_name_refuted, replaced_twice_refuted, late_candidate_edit_refuted, replaced_function_type_refuted
* EqualizeGraphProps: rescaling_chain, walk_is_chain
* ExportExProps: kernel_in_layer_name_refuted, exported_half_refuted, exported_one_bit_refuted, exported_positive_range_refuted
* ExportProps: exported_weights_match, exported_activation_symmetric, exported_activation_uniform, exported_activation_lut, exported_activation_holder, weight_without_config_refused
* FakeQExProps: torch_uniform_half_refuted, torch_one_bit_half_refuted, keras_half_refuted, keras_positive_range_refuted, keras_bit_widths_refuted
* FakeQProps: framework_symmetric_quantizers, framework_quantizers_refuse, framework_uniform_quantizers, framework_lut_quantizer
* FilterProps: filter_is_boolean_formula, filter_total, layer_filter_selects, filter_sees_call_arguments, equal_layer_filters_match_alike, layer_filter_eq_refl, filter_operators, layer_filter_eq_symmetric_refuted, layer_filter_eq_same_layers_refuted, layer_filter_eq_hash_refuted, filter_operators_chain_refuted
* FnConvProps: functional_conv_layer, functional_linear_layer, positional_stride_refuted, positional_param_lost, no_bias_refuted, grouped_conv_refused, weight_first_refuted, dynamic_padding_right, dynamic_padding_accepted, static_padding_kept, dilated_padding_refuted, reused_padding_refuted
* FnLayExProps: output_absorbed_refuted, two_tensors_swish_refuted, three_factors_refuted
* FnLayProps: other_ranks_left_alone, two_tensors_left_alone, addition_absorbed_iff, not_followed_kept, swish_replaced_iff
* FuncSubExProps: omitted_affine_refuted
* FuncSubProps: batch_norm_statistics_required
* FuseGenProps: overlapping_operations_refuted, unmatched_operation_query_refuted, generated_operations, generated_all, generated_disjoint, manual_operations, generated_overlap_refuted, shorter_pattern_missed_refuted, manual_without_patterns_refuted, fused_id_collision_refuted
* FuseProps: fused_operations_consistent, construction_consistent, fused_operations_queries, operation_activation_quantized, add_operation, remove_operation, remove_unknown, validate_exact
* FuserAllProps: fusing_all, fusing_generated, fusing_needs_current, side_input_lost_refuted, parallel_edges_confused_refuted, repeated_output_dangles_refuted, inner_output_changed_refuted, input_node_not_fused_refuted, fused_node_not_replaced_refuted
* FuserProps: fusing_group, fusing_group_exact, fusing_group_succeeds, fusing_preserves_outputs
* FxConstProps: unread_constant_refused
* FxExProps: repeated_tensor_in_list_refuted, repeated_tensor_order_refuted, repeated_tensor_around_constant_refuted, repeated_constant_refuted, repeated_keyword_tensor_refuted, nested_node_refuted, keyword_list_refuted, layer_arguments_refuted, returned_twice_refuted, list_output_refuted, quantized_list_refuted
* FxProps: rebuilt_model_computes_traced
* FxRunProps: running_the_program_is_traced, traced_values_unique, program_order_is_topological
* GTrainProps: trained_graph, trained_iff_admissible, shared_name, not_trained, torch_reg_order, keras_reg_order, keras_reg_order_refuted, trained_bias_refuted, nothing_to_train, trained_params_ambiguous
* GenStatProps: keras_needs_layers
* GraphFindProps: identity_bypassed, identity_left_alone, identity_removal_preserves, identity_removal_succeeds, identity_of_second_output_refuted, edge_equality, edge_equality_not_reflexive_refuted, edge_search, walk_search, walk_search_once, single_node_pattern_refuted
* GraphProps: reconnect_out_moves, reconnect_in_moves, reconnect_never_fails, remove_node_removes, remove_node_succeeds, replace_output_renames, replace_input_renames, replace_node_replaces, replace_node_succeeds, add_node_adds, insert_between_inserts, insert_after_inserts, insert_before_inserts, remove_between_removes, replaced_input_moves_last_refuted, inserted_node_indices_refuted, removed_node_input_index_refuted
* HessScoreExProps: inputs_get_their_images, weights_of_two_input_models_refuted
* HessScoreProps: weights_cells_cover, activation_cells_cover
* HessianProps: hessian_fetch_exact_count, hessian_fetch_prefix_stable, hessian_cached_not_recomputed, hessian_sufficient_entries_untouched, hessian_fetch_no_assertion, hessian_fetch_succeeds, hessian_first_fetch_aligned, hessian_alignment_after_earlier_fetch_refuted
* ImmutProps: frozen_forever, assignable_until_done, deletion_unfreezes_refuted, definition_block, defined_object_stays, failed_block_stays_current_refuted, second_block_stays_current_refuted
* ImxProps: platform_generated, platform_options, platform_fusing, platform_attaches, default_platform_nodes, default_platform, platform_chosen
* Int8Props: pointwise_iff
* JoinProps: joining, joining_succeeds, joining_preserves_outputs, residual_preserves_outputs, residual_source_exact
* KBuildExProps: reused_name_taken_refuted, output_names_clash_refuted, shared_between_levels_refuted, quantized_outputs_refuted, constant_call_refuted
* KBuildProps: keras_model_rebuilt, built_model_runs, level_names_found, decomposed_name_found
* KCallExProps: number_before_tensor_refuted, keyword_tensors_refuted, left_out_parameter_refuted, list_keyword_dropped_refuted, list_number_dropped_refuted, list_constant_keyword_refuted, sequences_refuted, single_list_refuted, layer_keyword_tensor_refuted
* KCallProps: call_with_constants_rebuilt, call_without_constants_rebuilt, list_call_rebuilt, layer_call_rebuilt
* KLProps: clipped_counts_conserve_total, smooth_distribution_positive, smooth_distribution_rejects_zero, kl_error_well_defined, kl_degenerate_range_refuted
* KMhaExProps: kmha_inputs_exchanged_refuted, kmha_key_of_query_refuted, kmha_split_inputs_refuted
* KMhaProps: kmha_inputs_taken
* KReadExProps: nested_skip_connection_refuted, repeated_tensor_refuted, nested_same_tensor_twice_refuted, nested_model_called_twice_refuted, nested_pass_through_refuted
* KReadProps: keras_model_read, keras_model_accepted, keras_graph_shape
* LfhExProps: unimportant_channels_refuted, group_scores_out_of_order_refuted
* LfhProps: lfh_group_scores, lfh_group_at_least_mean, lfh_scores_succeed
* LookupProps: restricted_options, restriction_terminates, loaded_within_consumers, sorted_candidates, base_above_limit_refuted, lookup_priority, lookup_conflict_raises, lookup_order_independent, attached_tables, preserving_has_quantized_source, loaded_modes, fusing_expansion
* LutProps: lut_quantizer_nearest, lut_quantizer_total, lut_quantizer_keeps_zero, lut_built_contains_zero, lut_built_in_range, lut_built_size
* MPSearchProps: mp_search_fits, mp_search_least_sensitive, mp_search_succeeds, exhaustive_solver_exact, mp_search_least_raw_sensitivity, max_bits_least_sensitive, total_target_ignored_without_activations_refuted, negative_sensitivity_refuted, bops_target_exceeded_refuted, min_candidate_found, max_candidate_found
* MPSearchedProps: searched_layers
* ManualProps: manual_bit_widths, manual_unsatisfiable_raises, manual_succeeds, activation_requests_recorded, weights_requests_recorded, manual_second_request_refuted, manual_partial_name_refuted
* MatMulProps: small_matmul_unchanged, matmul_outputs, matmul_with_itself_refuted, matmul_constant_operand_refuted, matmul_different_ranks_refuted, matmul_other_outputs_refuted
* MaxCutProps: max_cut_solution_valid, max_cut_driver_valid, max_cut_driver_returns, max_cut_large_graph_unsolved, execution_order_exists, max_cut_solution_optimal, max_cut_solver_terminates, max_cut_single_op_bound, max_cut_driver_optimal, max_cut_driver_limit_refuted
* MergeProps: merging, merging_succeeds, merging_preserves_outputs, may_merge_exact, merging_inner_output_refuted, appending, appending_succeeds, appending_preserves_outputs
* MpEvalExProps: keras_further_call_refuted, same_bits_candidates_refuted, crossed_bits_refuted, other_weight_choice_refuted, several_outputs_refuted, keras_unused_refuted
* MpEvalProps: torch_search_serves, keras_search_serves, frameworks_quantize_alike
* OptimProps: optimizers_partition, optimizers_assigned, optimizers_accepted, override_needs_rest_refuted, layer_variables_trained, torch_groups, shared_optimizer_refuted, keras_gradients_of_parameters
* OutLossProps: linear_search, chain_last_linear, keras_extractor_outputs, shared_search_refuted
* PlatProps: constructed_options_well_formed, edit_keeps_options_well_formed, edit_touches_only_named, attribute_edit_touches_only_named, weight_edit_all, weight_edit_named, renaming_keeps_configurations, weight_edit_drops_others_refuted, edit_input_bits_refuted, renaming_collision_refuted, upgrade_preserves, loading_terminates, upgrade_loses_name_and_padding_refuted, upgrade_without_fusing_refuted, fusing_contains_is_contiguous, fusing_contains_refl, fusing_contains_trans, fusing_contains_antisym
* PrepProps: single_precision_config, single_precision_accepted, request_needs_quantized_output, hmse_needs_training, requested_option_refuted
* PruneBuildProps: pruned_graph_restricted, pruned_graph_size, pruned_graph_needs_every_mask, pytorch_inner_weights_lost_refuted, shared_name_not_pruned_refuted
* PruneMemProps: sections_exact, section_meaning, section_complete, sections_terminate, memory_counts_once, applies_unique, charged_unique, memory_bytes, constant_weight_not_counted_refuted, layer_name_confuses_count_refuted, missing_channel_axis_refuted
* PruneProps: channel_groups, channel_grouping_succeeds, grouping_partitions, mask_updates, mask_updates_succeed, greedy_within_target, greedy_insufficient_raises, greedy_succeeds, greedy_stops_early_refuted, greedy_nan_score_refuted, greedy_group_order_refuted, unrolled_scores
* PruneRunProps: pruned_model_fits, pruned_model_follows_masks, best_channels_kept, unbounded_prunes_nothing, reported_scores
* QatProps: quantizer_class_exact, qat_classes_available, qat_wrapped_layer, qat_wrap_succeeds, qat_activation_quantizer, qat_activation_succeeds, qat_other_weights_refuted, dqa_refuted, qat_lut_refused, qat_keras_outputs_refuted, qat_freeze_lsq_refuted, qat_equal_candidates, gptq_ste_uniform_refuted
* QuantProps: symmetric_quantizer_on_grid, power_of_two_quantizer_on_grid, power_of_two_quantizer_accepts_iff, quantize_nearest, quantize_half_step, quantize_saturates, signed_range, quantize_idempotent, quantize_monotone, quantize_fixes_grid, uniform_idempotent, uniform_monotone, uniform_range_represents_zero, uniform_zero_exact, uniform_range_width, uniform_range_one_sided, uniform_range_not_covering_refuted
* RUProps: weights_memory_is_sum, weights_memory_order_independent, activation_memory_is_peak, total_memory_is_sum, bops_is_sum, utilization_monotone, utilization_between_extremes, satisfied_iff
* ReconProps: parts_in_one_virtual_node, reconstruction_faithful, reconstruction_with_others, reconstruction_separate, every_configuration_reached, assignment_determined, composed_candidates, same_bits_refuted, include_non_configurable_refuted, equal_candidates_refuted
* ReconRefuseProps: configured_twice_refused, reconstruction_never_guesses
* RefineProps: refinement_only_raises, refinement_fits_when_changed, refinement_maximal, refinement_skipped_for_bops, refinement_round_least, refinement_terminates, refined_search_fits, refinement_can_raise_sensitivity_refuted
* RunnerProps: own_single_precision, own_mixed_precision, switched_on_by_history, answer_without_history, later_call_refuted, default_configuration_refuted, given_choice_history_refuted, given_choice_target_refuted, no_configuration_refuted, bypass_unchanged, qat_bypass_refuted, call_configuration
* SaveProps: onnx_fq_wide_refuted, onnx_mctq_same, fq_weights_final, onnx_fq_succeeds, torchscript_function_refuted, torchscript_succeeds, torchscript_constant_refuted, onnx_names, onnx_asked_names, onnx_tensor_names_refuted, metadata_first, keras_fq_layers, keras_fq_succeeds, keras_fq_refuted, keras_metadata_refuted, keras_caller_layers
* SchedProps: schedule_made_iff, rate_lowered_when_stalled, rates_bounded, reductions_bounded, data_generation_rate, flat_negative_loss_refuted, improving_loss_keeps_rate
* SearchProps: pot_no_clipping_least, sym_no_clipping_least, pot_no_clipping_error, no_clipping_selection_total, uni_no_clipping_covers, uni_histogram_covers, sym_histogram_covers_right_edges_partial, pot_histogram_covers_right_edges_partial, min_max_no_clipping_refuted, histogram_no_clipping_refuted, pot_search_non_power_of_two_refuted, max_power_of_two_least, pot_search_minimises, pot_search_power_of_two, pot_search_best_axis, histogram_search_minimises, symmetric_search_no_worse, uniform_search_no_worse, symmetric_iterations_beat_all_evaluated, uniform_iterations_beat_all_evaluated, range_scale_window, weight_searches_total
* SensProps: evaluation_configures_and_restores, evaluation_accepted_iff, evaluations_independent, built_disabled, rejected_configuration_stays_refuted, second_quantizer_ignored_refuted, images_are_first_requested, images_count, images_batches_of_source, images_need_no_more, points_evenly_spaced, points_are_eligible, points_share_counts_outputs_refuted
* SerProps: saved_and_loaded, loaded_again, class_accepts, saved_options_refuted, saved_candidates_refuted, activation_array_refuted, same_names_refuted, given_objects_first, weight_names, finished_weights, finished_when, finished_quantizers, shared_weight_name_refuted
* SetterProps: final_bit_widths, assigned_once, original_name_of_reused, reused_layer_shares_configuration, final_single_precision, reused_activation_choice_ignored_refuted, reused_weights_differ_refuted
* ShapeExProps: size_used_twice_refuted, size_used_again_refuted, batch_elsewhere_refuted, shape_keyword_refuted, view_dtype_refuted, size_input_refuted
* ShapeProps: sizes_removed, static_shapes_succeed, static_shapes_preserve, static_call, static_shape_correct_iff
* SncExProps: zero_padding_behind_node_refuted
* SncGraphProps: snc_edit_succeeds, snc_search, snc_search_complete, snc_search_ends
* SncShiftProps: shift_lifts_minimum, corrected_nodes, searched_params, unlifted_minimum_refuted, shifted_maximum_clipped_refuted, searched_minimum_refuted
* StatsExProps: hessian_weights_node_order_refuted, hessian_weights_reused_layer_refuted, hessian_weights_multiple_outputs_refuted, weights_of_lower_rank_refuted
* StatsProps: statistics_collected_for, own_tensor_collected, collection_without_weights, hessian_weights_of_own_tensor, weighted_histogram_by_element, weighted_histogram_unweighted, weights_of_same_rank, weights_of_higher_rank_rejected
* TabProps: standard_platform_attaches, standard_names_exact, unknown_set_refused, operation_options, row_of_kind, kind_unique, average_pooling_refuted, max_pooling_refuted, hard_tanh_refuted
* TpcsProps: qnnpack_base_unused_refuted, qnnpack_weights_refuted, tflite_preserving_refuted, tflite_loading_refuted, tflite_linear_partial
* TrainDataProps: epoch_samples, epoch_batches, planned, planned_refuted, epoch_refused, fixed_number, no_samples

### `sig_forall_dec`

* ActBiasExProps: grouped_transposed_activation_refuted
* ActBiasProps: uncorrected_layer_unchanged
* BiasProps: invalid_groups_not_corrected
* CollapseExProps: non_square_collapsing_refuted, single_filter_bias_refuted, constant_image_refuted, residual_broadcast_refuted
* CollapseProps: collapsing_skips
* DecompProps: depthwise_to_grouped
* FnLayExProps: explicit_padding_refuted, channels_first_strides_refuted, default_layout_refuted, grouped_function_refuted, depthwise_layout_refuted, single_addition_refuted, transposed_operand_refuted, adjoint_operand_refuted, constant_first_refuted
* FnLayProps: conv_function_replaced, depthwise_function_replaced
* Int8Props: pointwise_is_dense, dense_exported_refuted
* MatMulProps: matmul_decomposed
* PriorProps: shifted_unknown
* SncExProps: dilated_same_padding_refuted, strided_same_padding_refuted, torch_zero_padding_refuted

### `functional_extensionality_dep`

* SaveProps: onnx_fq_meaning, onnx_fq_same, torchscript_same

### `sig_forall_dec`, `functional_extensionality_dep`

* ActBiasExProps: channel_shift_refuted, bin_edges_refuted, pooled_shift_refuted, both_corrections_refuted, padded_activation_correction_refuted
* ActBiasProps: activation_correction_residual, activation_correction_cancels, shift_estimate_close, activation_correction_error, both_corrections_residual, corrected_layers
* BiasProps: bias_correction_cancels, bias_correction_at_mean, bias_correction_of_candidates, zero_correction_keeps_layer, grouped_transposed_correction_refuted, padded_correction_refuted, strided_transposed_correction_refuted
* BnExProps: negative_threshold_refuted
* CollapseExProps: residual_geometry_refuted
* CollapseGraphProps: conv_collapsing_in_graph, const_collapsing_in_graph, residual_collapsing_in_graph
* CollapseProps: conv_collapsing, const_collapsing, residual_collapsing
* DecompProps: depthwise_pass_preserves, separable_decomposed, separable_pass_preserves
* DistExProps: lp_exponent_zero_refuted, hmse_per_channel_refuted, hmse_scores_misaligned_refuted, hmse_zero_tensor_refuted
* DistProps: distances_nonneg, mse_zero_iff_equal, mae_zero_iff_equal, lp_zero_iff_equal, distances_of_whole_tensors, weighted_mse_of_whole_tensors, distances_per_sample, distances_along_axis, distances_per_sample_along_axis, distances_order_independent, hmse_per_tensor, hmse_per_channel_one_number, hmse_same_halvings_for_all_channels
* EqualizeExProps: bounded_relu_refuted, depthwise_second_refuted, depthwise_transposed_first_refuted, multiplier_first_refuted, equalized_output_refuted
* EqualizeGraphProps: equalization_in_graph
* EqualizeProps: equalization
* FnLayExProps: channels_first_addition_refuted
* FnLayProps: conv_function_preserved, depthwise_function_preserved, matmul_preserved, matmul_replaced
* FuncSubExProps: computed_mask_refuted
* FuncSubProps: causal_attention_refused, unsupported_mask_refused
* GenStatProps: keras_loss_all_images, keras_first_weight, updated_statistics_refuted, unequal_batches_refuted, keras_variance_refuted, torch_no_layers_refuted
* GptqLossExProps: keras_normalized_refuted, keras_batch_refuted, torch_average_refuted, keras_sla_rows_refuted
* GptqLossProps: torch_step_loss, zero_output, keras_step_loss, equal_step_loss, unweighted_loss, step_loss_zero_iff, torch_sla_loss, keras_sla_loss, sla_scale, sla_zero_iff
* HessScoreExProps: torch_weights_scale_refuted, torch_channels_add_up_refuted, keras_unused_activation_refuted, scalar_output_refuted, flat_activation_per_image_refuted
* HessScoreProps: torch_weights_scores, keras_weights_scores, torch_activation_scores, keras_activation_scores, weights_scores_unbiased, activation_scores_unbiased, weights_granularities_add_up, torch_scores_per_image, torch_unused_activations, different_batches_refused
* OutLossProps: output_loss_value, wider_spread_lower_loss, output_loss_bounds, keras_inverse_value, keras_inverse_lengths_refused, keras_inverse_above, keras_inverse_refuted
* PriorProps: unknown_end_seen, reported_defined
* RescaleExProps: several_inputs_refuted, zero_input_refuted, unbiased_shift_refuted
* RescaleProps: input_scaling_preserves, input_scaling_left_alone, input_scaling_in_graph, softmax_shift_layer, softmax_shift_left_alone
* SmcProps: moving_average_distance, moving_average_between, batch_statistics
* SncExProps: string_padding_refuted, bypassed_output_refuted, padded_average_refuted
* SncGraphProps: snc_in_graph, snc_zero_in_graph, average_commutes
* SncProps: snc_layer, snc_zero_padding
* TrainDataProps: sla_pairs, no_channels
* TrainExportProps: lsq_and_ste_agree, trained_output_nearest
* XqSimProps: mse_metric, sqnr_metric, mse_over_batches, mse_unequal_batches_refuted

### `sig_not_dec`, `sig_forall_dec`, `functional_extensionality_dep`

* ActParamProps: outliers_by_z_score
* BnExProps: grouped_transposed_folding_refuted, padded_forward_folding_refuted, strided_transposed_forward_folding_refuted, depthwise_transposed_forward_folding_refuted, multiplier_forward_folding_refuted, strided_depthwise_forward_folding_refuted, refusing_without_bias_refuted, multiplier_threshold_refuted
* BnGraphProps: bn_folding_in_graph, forward_folding_in_graph, forward_folding_depthwise_in_graph, reconstruction_in_graph, refusing_in_graph
* BnProps: bn_folding, forward_folding, forward_folding_everywhere, forward_folding_depthwise, forward_folding_skipped, reconstructed_identity, refusing, refused_quantization
* DistExProps: cosine_zero_tensors_refuted, cosine_zero_sample_refuted, cosine_axis_refuted
* DistProps: cosine_between_0_and_1, cosine_of_equal_tensors
* EqualizeProps: equalization_pass, equalization_factors, equalization_skipped
* FnLayProps: swish_function_preserved
* FuncSubExProps: training_batch_norm_refuted, positional_eps_refuted, keyword_order_statistics_refuted, layer_norm_many_dimensions_refuted, layer_norm_bias_only_refuted, shared_query_key_refuted, attention_dropout_refuted
* FuncSubProps: functional_batch_norm_replaced, functional_layer_norm_replaced, attention_decomposed
* GenProps: torch_images_returned, keras_images_returned, keras_identity_returned, smoothing_stays_in_range, sizes_refused, keras_remainder_refuted, keras_clipping_refuted, torch_identity_size_refuted, no_iteration_refuted
* GenStatProps: torch_loss_all_images, loss_of_batch, loss_of_images, loss_zero_iff, torch_matching_statistics_refuted
* KMhaExProps: kmha_without_bias_refuted
* KMhaProps: kmha_decomposed, kmha_decomposed_two_inputs, kmha_one_head_refuted
* MetricProps: metric_monotone, metric_independent_of_batches, metric_independent_of_image_order, hessian_scores_scale, hessian_zero_scores_refuted, zero_batch_raises_refuted, batches_of_cosine_refuted
* MhaProps: attention_layer_decomposed, unsupported_attention_refused, mismatched_attention_refused, self_attention_refuted, attention_batch_size_refuted, attention_indexing_refuted, attention_keyword_order_refuted
* OutLossProps: regularized_value, regularized_linear_bounded, keras_regularized_value, direct_outputs_in_order, no_linear_no_loss, doubled_layer_refuted, keras_other_length_refuted, keras_regularized_refused
* RescaleExProps: shifted_output_refuted
* RescaleProps: softmax_shift_preserves, softmax_shift_in_graph
* SmcProps: second_moment_statistics, second_moment_keras_total, normalized_moments, unfolded_bn_changed_refuted, keras_training_mode_refuted, single_position_refuted
* SoftRoundProps: trained_uniform_weight_on_exported_grid
* XqSimProps: xquant_report, xquant_duplicate, xquant_no_data_refuted, xquant_keras_outputs_refuted, cs_torch_metric, cs_keras_refuted, keras_last_sample_refuted

### `sig_not_dec`, `sig_forall_dec`, `functional_extensionality_dep`, `classic`

* DistExProps: divergence_whole_refuted, divergence_per_sample_refuted, divergence_negative_refuted
* DistProps: divergence_of_equal_tensors, divergence_nonneg
* FuncSubExProps: zero_scale_refuted
* GptqLossExProps: column_weights_refuted, least_layer_refuted
* GptqLossProps: log_weights, log_weights_order, scaled_weights, two_zero_scores, equal_scores_scaled, single_layer_refuted, torch_hessian_loss, column_weights
* KLProps: kl_error_nonneg
* MetricProps: metric_within_distances, metric_zero_of_equal_models, exp_weighting_monotone_refuted, exp_weighting_at_least_average
* MomentLimProps: mean_after_relu, second_moment_after_relu, variance_after_relu_positive, equalization_of_statistics, variance_after_relu, factor_of_statistics
* MomentProps: mean_of_rectified, second_moment_of_rectified
* PriorProps: torch_prior_holds, keras_prior_holds, elu_prior_exact, relu_prior_exact, gelu_prior_refuted, keras_activation_refuted, reported_range_covers, bounded_range_covers, reported_above_seen_refuted, shifted_prior
* RescaleExProps: relu_threshold_refuted, functional_hardtanh_refuted, hardtanh_defaults_refuted, relu_bound_raises_refuted
* RescaleProps: pot_bound_exact, relu_bound_preserves, relu_bound_result, relu_bound_left_alone, relu_bound_once, relu_bound_in_graph
* SoftRoundProps: trained_weight_on_exported_grid, trained_weight_neighbour, soft_target_decides, soft_rounding_starts_at_weight, soft_rounding_starts_nearest, soft_weight_between, uniform_soft_rounding_starts_at_weight, keras_uniform_start_floors, regularization_zero_iff_settled, settled_means_exported, regularization_needs_matching_weights, ste_frameworks_agree, ste_rounding_bounded, ste_keras_any_shift, soft_target_onto
* TrainExportProps: converted_quantizer_same, ste_weight_converted_same, untrained_converted_same, converted_pot_threshold
* TrainQExProps: uniform_start_refuted, keras_uniform_start_refuted, ste_pytorch_shared_shift_refuted, ste_per_tensor_limit_refuted, trained_pot_conversion_refuted, one_bit_conversion_refuted

## What is modelled, file by file

(The first comment of each model file; every definition in it cites its lines.)

* ActBiasModel.v -- activation bias correction: the mean error of the activation quantizer in front of a linear layer, moved into the bias of the layer. Sources: core/common/statistics_correction/compute_activation_bias_correction_of_graph.py L24-179, core/common/statistics_correction/apply_activation_bias_correction_to_graph.py L23-77, core/common/statistics_correction/statistics_correction.py L97-110 (the order of the two corrections), core/common/graph/base_graph.py L701-716 (the node a preserving node takes its quantization from). Real numbers stand for floating point numbers. A histogram is its bin edges and the counts of the bins; the quantization function of the final activation configuration is a function on numbers. Where numpy would divide by a total count of zero (and go on with nan) the model raises.
* ActParamModel.v -- from the collected statistics of a node to its activation quantization parameters. Sources (model_compression_toolkit/core/common/): quantization/quantization_params_generation/outlier_filter.py z_score_filter L20-48 quantization/quantization_params_generation/qparams_activations_computation.py L26-155 node_prior_info.py is_output_bounded L68-74, collectors/statistics_collector.py is_number L179-191 quantization/quantization_params_fn_selection.py get_activation_quantization_params_fn L31-52 Simplifications: exact rationals; the square root in the z-score is removed by comparing squares (ActParamProps.outliers_by_z_score shows that this is the same comparison on the reals); an infinite z_threshold is [None]; an infinite or missing bound of the prior information is [None]; the histogram of HMSE (weighted_hc) is an arbitrary collector; the parameter searches other than no-clipping, and the look-up-table method, are one arbitrary function [search].
* AnnealModel.v -- annealing schedules and gradual activation quantization. Sources: trainable_infrastructure/common/annealing_schedulers.py L18-67, trainable_infrastructure/pytorch/annealing_schedulers.py and keras/annealing_schedulers.py (_compute_factor), gptq/common/gptq_config.py L60-87, gptq/common/gradual_activation_quantization.py L22-80, gptq/common/regularization_factory.py L25-58, gptq/keras/gptq_training.py (nano_training_step). Rational numbers stand for floating point numbers.
* Base.v -- shared vocabulary of the models: exceptions as values and a few list helpers. No part of /repo is modelled here.
* BiasModel.v -- bias correction: the correction term of a layer and its application. Sources: core/common/statistics_correction/compute_bias_correction_of_graph.py L43-204, core/common/statistics_correction/apply_bias_correction_to_graph.py L42-81, core/common/quantization/quantize_node.py L39-57 (the order of the channel axes). Real numbers stand for floating point numbers. The statistics collector is its mean; the quantization functions are a parameter of each candidate.
* BnModel.v -- folding batch normalization into a linear layer before or after it, reconstructing it and refusing it: the computation of the new weights. Sources: core/common/substitutions/batchnorm_folding.py L75-152 and L212-299, batchnorm_reconstruction.py L67-167, batchnorm_refusing.py L80-197, core/keras/graph_substitutions/substitutions/batchnorm_folding.py L30-150, core/pytorch/graph_substitutions/substitutions/batchnorm_folding.py L25-150. Real numbers stand for floating point numbers. The editing of the graph is MergeModel.v.
* CalcModel.v -- the loop that gives every node, candidate and weights attribute its quantization parameters. Sources (model_compression_toolkit/core/common/): quantization/quantization_params_generation/qparams_computation.py L34-139 quantization/quantization_params_generation/qparams_weights_computation.py get_weights_qparams L28-70 graph/base_node.py is_weights_quantization_enabled L223-245, _get_weight_name L292-304, get_weights_by_keys L306-322, get_node_weights_attributes L349-355, get_all_weights_attr_candidates L632-644 quantization/node_quantization_config.py get_attr_config L452-485, _extract_config_for_attributes_with_name L544-560 Simplifications: T is the type of tensors, P of weights parameters, X of the remaining fields of an attribute's configuration, C of an activation configuration and R of activation parameters; the parameter functions are arbitrary ([wfn]: get_weights_qparams, [afn]: get_activations_qparams on the node's own statistics; ActParamModel models the latter). No final configuration is set yet (L233). Fetching Hessian scores is the list of nodes they are requested for.
* CandModel.v -- filtering of a node's quantization candidates. Modelled (all under model_compression_toolkit/core/common/): quantization/filter_nodes_candidates.py _filter_bit_method_dups L41-70, filter_node_candidates L73-145 quantization/candidate_node_quantization_config.py remove_duplicates L92-100 mixed_precision/mixed_precision_candidates_filter.py filter_candidates_for_mixed_precision L19-60 graph/base_node.py _is_single_quant_mode L182-191, is_weights_quantization_enabled L223-245, is_configurable_weight L247-257, has_configurable_activation L267-274, is_all_activation_candidates_equal L475-485, is_all_weights_candidates_equal L487-502, get_unique_weights_candidates L580-603, get_unique_activation_candidates L605-619 graph/base_graph.py get_weights_configurable_nodes L554-572, get_activation_configurable_nodes L589-597 Candidates are those of LookupModel. Sets of configurations (seen_candidates) are lists searched with ==: the hashes only use fields that == compares (node_quantization_config.py L236-250, L365-374, L616-622). No final configuration has been chosen yet (L185-187, L233-235 do not apply). Resource targets are reduced to which of the four are restricted.
* CollapseModel.v -- collapsing two convolutions, a layer and a constant addition, a convolution and a residual connection: the computation of the new weights. Sources: core/common/substitutions/linear_collapsing.py L78-181 and L211-261, residual_collapsing.py L81-93, core/keras/graph_substitutions/substitutions/linear_collapsing.py L45-107 and L147-170, core/pytorch/graph_substitutions/substitutions/linear_collapsing.py L40-104, core/keras/graph_substitutions/substitutions/residual_collapsing.py L41-65, core/pytorch/graph_substitutions/substitutions/residual_collapsing.py L38-61. Real numbers stand for floating point numbers. The editing of the graph is JoinModel.v. The data format 'channels_first' (L105-111: nothing is done) and the names of the new nodes are left out.
* CollectModel.v -- statistics collectors. Sources (model_compression_toolkit/core/common/collectors/): min_max_per_channel_collector.py L22-143, mean_collector.py L23-95, histogram_collector.py L21-159, statistics_collector.py L52-122, L212-261, base_collector.py L60-70. Simplifications: exact rationals; a batch is the list of its channels (each the list of its values), the transpose/reshape to channel-major order being outside the model.
* ConcatModel.v -- C95: inputs of a concatenation get its threshold. Model of core/keras/graph_substitutions/substitutions/concat_threshold_update.py (ConcatThresholdUpdate L26-66), of its PyTorch counterpart (L27-65), of core/common/substitutions/apply_substitutions.py (substitute L21-37) and of the matching of node types (core/common/graph/graph_matchers.py NodeOperationMatcher L37-52, base_node.py is_match_type L646-656, functional_node.py L92-106). Of a candidate the activation quantization parameters are kept: the dictionary is a threshold and a rest that is not touched.
* DeadModel.v -- removing the nodes whose result is not used, when a PyTorch model is read. Sources: core/pytorch/reader/reader.py L121-155 (remove_broken_nodes_from_graph), L173-187 (model_reader). The loops run over lists which their bodies change, as in Python: a loop over a list looks at index 0, 1, ... of the list as it is at that moment. graph.out_degree is the one of networkx (out_degree of GraphSpec counts the same edges); graph.remove_edge and graph.remove_node are those of GraphModel.
* DecompModel.v -- layers replaced by equivalent layers when the graph is prepared. Sources: core/keras/graph_substitutions/substitutions/dwconv_to_conv.py L39-123, separableconv_decomposition.py L48-166 and activation_decomposition.py L29-107 of the same directory. A DepthwiseConv2D is a layer of kind K_dw; its depth multiplier is l_out / l_in. Initializers, regularizers, constraints, names and the reuse group of the new nodes are not modelled (they do not influence what the model computes unless a layer is reused).
* DistModel.v -- the distances that score a quantized tensor against the float tensor. Sources: core/common/similarity_analyzer.py L29-262 (all of it except the calls of Logger), core/common/quantization/quantization_params_generation/error_functions.py L404-426 and L482-497 (the distances as error functions of the threshold search), core/common/quantization/quantizers/ quantizers_helpers.py L254-270. Real numbers stand for floating point numbers. A mean over no elements, nan in numpy, is E_zero_div. The quotients of two arrays are the quotients of the real numbers: theorems say when a divisor is not zero. The exponent of compute_lp_norm is a natural number (annotated int in the source).
* EditModel.v -- the network editor: rules of a node filter and an action, applied to the nodes of a graph. Sources (under model_compression_toolkit/core/common): network_editors/edit_network.py L21-41, network_editors/actions.py (the ten actions), network_editors/node_filters.py, matchers/node_matcher.py L26-89, graph/graph_searches.py L30-41 (_node_filter), quantization/node_quantization_config.py L54-72, L144-150, L452-590, graph/base_node.py L646-656 and graph/functional_node.py L84-106 (is_match_type), quantization/quantization_params_fn_selection.py, quantization/quantization_fn_selection.py, mixed_precision/bit_width_setter.py L36-120 (which final configurations are the objects of a candidate); the editor runs twice: core/quantization_prep_runner.py L84 and core/runner.py L154. A configuration object is the list of its data fields; field names that are methods of the object are not modelled. Values of fields are opaque. An error aborts the run, so the partly edited graph is not returned.
* EqualizeModel.v -- scale equalization of two linear layers. Sources: core/common/substitutions/scale_equalization.py L32-235, core/keras/graph_substitutions/substitutions/scale_equalization.py L27-56 and the PyTorch file L24-41 (which nodes are matched: a walk of the graph, GraphModel.walk_filter). Real numbers stand for floating point numbers; scipy's erf is a parameter.
* ExportModel.v -- the quantizers put into the exported model: built from the final configurations of the nodes, with the weights the layers then compute with, beside the weights the toolkit itself quantizes. Sources (model_compression_toolkit/): exporter/model_wrapper/pytorch/builder/node_to_quantizer.py L31-170, keras/builder/node_to_quantizer.py L29-160, exporter/model_wrapper/fw_agnostic/get_inferable_quantizers.py L19-50, exporter/model_wrapper/{pytorch,keras}/builder/fully_quantized_model_builder.py (the wrappers and the activation holder), core/keras/keras_implementation.py L579-612, core/pytorch/pytorch_implementation.py L555-570, core/common/quantization/node_quantization_config.py L452-485 (get_attr_config), core/common/graph/base_node.py L223-245, core/common/quantization/quantize_graph_weights.py L38-56, quantize_node.py L22-58, core/common/quantization/quantizers/uniform_quantizers.py, lut_kmeans_quantizer.py. Simplifications: exact rationals for floats; the final configurations are set; the axis of the channels is not negative. The package mct_quantizers, which holds the classes of the exported quantizers, is not in the repository: what its classes check and compute is written down from their documented behaviour, over the two library functions of FakeQModel.v (and torch.fake_quantize_per_channel_affine, tf.quantization.fake_quant_with_min_max_vars_per_channel, which apply them with the parameters of the channel; TensorFlow's takes the channels from the last axis).
* FakeQModel.v -- activation quantizers that run inside the framework (mixed precision, shift negative correction). Sources (model_compression_toolkit/core/): pytorch/quantizer/fake_quant_builder.py L35-167, pytorch/quantizer/lut_fake_quant.py L21-115 keras/quantizer/fake_quant_builder.py L39-167, keras/quantizer/lut_fake_quant.py L24-118 common/quantization/node_quantization_config.py quantize_node_output L153-173 pytorch/default_framework_info.py L87-91, keras/default_framework_info.py L109-113 (the mapping from methods) Simplifications: exact rationals for floats; a tensor is the list of its elements. The two library functions are written down from their documented behaviour: torch.fake_quantize_per_tensor_affine (round half to even, add the zero point, clamp, subtract the zero point, scale; the zero point must lie in the range) and tf.quantization.fake_quant_with_min_max_vars (2 to 16 bits; the zero point is rounded half away from zero and the range shifted to it; clamp, then round half up).
* FilterModel.v -- attribute filters and layer filters of the platform description. Modelled (all under model_compression_toolkit/target_platform_capabilities/targetplatform2framework/): attribute_filter.py AttributeFilter L39-131, OrAttributeFilter L134-169, AndAttributeFilter L172-201, Greater .. Contains L204-282 layer_filter_params.py LayerFilterParams.__eq__ L48-74 (and the dictionary key equality, L39-46) and BaseNode.is_match_filter_params (core/common/graph/base_node.py L658-690), is_match_type L646-656, FunctionalNode.is_match_type (functional_node.py L92-106). Simplifications: attribute values are numbers (True/False are 1/0), strings, None or tuples of numbers; a filter's class name and repr are not modelled, except that hashing goes by the rendered name.
* FnConvModel.v -- C97: PyTorch functions replaced by layers, and the padding of transposed convolutions. Model of core/pytorch/graph_substitutions/substitutions/const_holder_conv.py (FunctionalConvSubstitution L27-91), functional_linear.py (FunctionalLinear L25-83), convtranspose_dynamic_padding.py (L25-77), of the reading of a function call (core/pytorch/reader/graph_builders.py L63-96, L237-251, L285-317) and of core/pytorch/back2framework/instance_builder.py (node_builder L23-39). torch.nn.Conv2d, ConvTranspose2d, Linear, their functions and load_state_dict are written from the PyTorch documentation: the layer and the function compute the same function of their parameters, which is arbitrary here.
* FnLayModel.v -- calls of TensorFlow functions replaced by Keras layers. Sources (under model_compression_toolkit/core/keras/graph_substitutions/substitutions): conv_funcs_to_layer.py L37-90, L106-199, L214-268; matmul_substitution.py L40-97; sigmoid_mul_to_swish.py L40-88. A functional node is what the reader makes of the call (KCallModel.v). Names of parameters are numbers in the order of the alphabet; True and False are the integers 1 and 0. Node names, shapes of the nodes, initializers, the reuse group and the number format of the arrays are not modelled.
* FuncSubModel.v -- replacing calls of torch.nn.functional by layers (PyTorch). Sources (model_compression_toolkit/core/pytorch/graph_substitutions/substitutions/): functional_batch_norm.py L41-106, functional_layer_norm.py L42-100, scaled_dot_product_attention.py L47-230. The fields of the node of a call (op_call_args, op_call_kwargs, tensor_input_allocs, weights) are those the reader computes (FxModel.v). Simplifications: real numbers; layers run in evaluation mode; weights are vectors indexed by number; attention works on one matrix per tensor, the leading dimensions being treated alike; output shapes are not modelled.
* FuseModel.v -- model of the book-keeping of fused operations and of fusing nodes of a graph. Sources (under model_compression_toolkit/core/common): fusion/fusing_info.py L29-371 (FusingInfo), L373-459 (FusingInfoGenerator), L462-525 (helpers), fusion/graph_fuser.py L34-165. Nodes are natural numbers as in GraphModel; name gives the name of a node. An element of a fusing pattern is a layer type or a LayerFilterParams; matches says whether a node matches it (L479-480, L509-510).
* FxModel.v -- reading a traced PyTorch model into a graph, and running the model rebuilt from a graph. Sources (under model_compression_toolkit/core): pytorch/reader/graph_builders.py L33-423, pytorch/reader/reader.py L68-93, common/graph/base_node.py L357-373 (positional weights), common/graph/functional_node.py, pytorch/back2framework/pytorch_model_builder.py L39-205 and L228-415. The traced model is a list of fx nodes. An fx node has an operation, a target, positional and keyword arguments; an argument is another fx node, a plain value, or a list of arguments (tuples, slices and dictionaries are lists here; the reader turns lists into tuples, L310, which is not distinguished). An fx node is identified by a number, which is also its name; plain values are numbers. Not modelled: the shapes (L128-159, L337: a placeholder stands for one tensor); layer attributes; the rejection of Tensor.to and of unknown operations (L223-226, L235); wrapped operations (PytorchQuantizationWrapper), whose call belongs to another package.
* GTrainModel.v -- C93: where the outcome of GPTQ training goes. Model of gptq/common/gptq_training.py (__init__ L63-136, gptq_training L302-318), gptq/common/gptq_graph.py (get_compare_points), gptq/runner.py (_apply_gptq), of gptq_wrapper, get_gptq_trainable_parameters, get_weights_for_loss and update_graph in both frameworks (gptq/{pytorch,keras}/{gptq_training,graph_info}.py), of update_layer_quantization_params and of the order in which the regularization goes through the layers (soft_quantizer_reg.py). What the optimizers do is arbitrary: the outcome of training is any value for each trained variable. The optimizers' setting up is in OptimModel.v, losses and data in GptqLossModel.v and TrainDataModel.v. The names of TensorFlowOpLayers (keras L423-424) are left out, they have no kernel. Aliasing of the copied graphs is not modelled.
* GenModel.v -- C89: the images data generation returns. Model of data_generation/common/image_pipeline.py, data_generation/{pytorch,keras}/image_pipeline.py, image_operations.py, optimization_functions/image_initilization.py and the parts of optimization_utils.py and *_data_generation.py that make the batches, replace the images and collect the result. A PyTorch image is an array [channel; row; column], a Keras image [row; column; channel]. Arithmetic is real. The optimizer is arbitrary: each step assigns new values to the images of one batch. The torchvision and TensorFlow operations (Normalize, CenterCrop, conv2d, depthwise_conv2d, TensorArray) are written from their documentation. Negative sizes and crops larger than the image (padded by torchvision) are not modelled: sizes are natural numbers, so the image to crop is never smaller. Statistics and losses are in GenStatModel.v; the random flip and crop of the images fed to the model (image_input_manipulation) do not change the images.
* GenStatModel.v -- C90: the statistics and the batch-normalization loss of data generation. Model of data_generation/common/optimization_utils.py, data_generation/{pytorch,keras}/optimization_utils.py (the statistics holders, get_layer_accumulated_stats, compute_bn_loss, update_statistics), the loops of *_data_generation.py, batchnorm_alignment_functions.py, bn_layer_weighting_functions.py and the original statistics of model_info_exctractors.py. Arithmetic is real: half precision (autocast, clip_inf_values_float16) is not modelled. A network is given by the values each batch-normalization layer is fed with for an image, per channel; the image itself is the key K_image. The image pipeline and the optimizer are arbitrary functions. Every listed layer takes part in the forward pass, so its activations are present (pytorch L354). The output loss and the gradients are not modelled.
* GptqLossModel.v -- C91: the loss GPTQ training minimizes and the weights of the layers in it. Model of gptq/{pytorch,keras}/gptq_loss.py, of compute_hessian_based_weights in gptq/common/gptq_training.py, normalize_scores in core/common/hessian/hessian_info_utils.py and the loss weights prepared by _prepare_train_dataloader_for_non_sla in gptq/{pytorch,keras}/gptq_training.py. Arithmetic is real; Err E_zero_div stands for a value that is nan or infinite. The output of a layer in the two models has the same shape. Gradients and optimizers are not modelled; the regularization is in SoftRoundModel.v.
* GraphModel.v -- the computation graph and the primitives that edit it. Sources (under model_compression_toolkit/core/common): graph/base_graph.py L43-60, L161-181, L310-343, L345-535, L737-752, L894-915, graph/edge.py, graph/graph_searches.py L36-122, substitutions/remove_identity.py L21-59, substitutions/shift_negative_activation.py L90-182 (inserting and removing a node between two nodes). A graph is a networkx.MultiDiGraph. Nodes are natural numbers (object identity; BaseNode does not define equality). g_edges lists the edges in the order in which they were added: networkx keeps the edges of a node grouped by the other end, in order of insertion, and removes parallel edges last-in first-out, so that this list determines everything the code can observe.
* * Hessian-approximation scores of weights and activations (C84). Sources (model_compression_toolkit/core): - common/hessian/hessian_scores_calculator.py (unfold_tensors_list); - pytorch/hessian/hessian_scores_calculator_pytorch.py, keras/hessian/hessian_scores_calculator_keras.py (concatenation of the outputs, random vectors); - pytorch/hessian/weights_hessian_scores_calculator_pytorch.py, keras/hessian/weights_hessian_scores_calculator_keras.py; - pytorch/hessian/activation_hessian_scores_calculator_pytorch.py, keras/hessian/activation_hessian_scores_calculator_keras.py. What is simplified. A run of the network is represented by its derivatives: an element of an output is an abstract value [o], and a target tensor (a kernel, or an activation) comes with the derivative of [o] by each of its elements. [autograd.grad] and [tape.gradient] return the derivative of the scalar they are given; that scalar is linear in the outputs, so the result is the same linear combination of the derivatives of the elements. Arithmetic is over the reals. Random vectors are arguments: one list of signs for each iteration, in the order of the elements of the concatenated output.
* HessianModel.v -- the Hessian information service and its cache. Source: model_compression_toolkit/core/common/hessian/hessian_info_service.py L33-40 (Query), L42-109 (HessianCache), L112-321 (HessianInfoService). Simplifications: a tensor of scores is the list of its per-sample entries; the framework calculator is an arbitrary function [calc] of the request's mode, granularity, target nodes and the batch (it may depend on all of them jointly); the data loader is the finite list of batches it would yield, restarted at every request.
* ImmutModel.v -- freezing of platform objects and the block that defines one. Modelled (under model_compression_toolkit/target_platform_capabilities/): immutable.py ImmutableClass L20-55 targetplatform2framework/framework_quantization_capabilities.py append_component L137-148, __enter__ L150-155, __exit__ L157-170 targetplatform2framework/operations_to_layers.py OperationsSetToLayers.__init__ L31-46, OperationsToLayers.__add__, validate_op_sets L105-150 targetplatform2framework/current_tpc.py _CurrentTPC L30-62 Attributes are a dictionary from names to values; only the truth value of _initialized matters. object.__setattr__ called from outside is not modelled. Layers are numbers (for layer filters == is more subtle, see FilterModel).
* ImxModel.v -- C109: the default platform description (IMX500). Modelled (under model_compression_toolkit/target_platform_capabilities/tpc_models/): imx500_tpc/v1/tpc.py L31-249, get_target_platform_capabilities.py L27-58 (the choice of the platform) on top of PlatModel.v. QuantizationMethod.POWER_OF_TWO is 0, SYMMETRIC is 1; Signedness.AUTO is 0. The names of operator sets are the values of OperatorSetNames (schema/v2.py L35-95). The TFLite and QNNPACK descriptions are parameters of the choice.
* Int8Model.v -- C94: the pointwise convolution that stands for a dense layer in an INT8 TFLite model. Model of exporter/model_exporter/keras/int8_tflite_exporter.py (_get_pointwise_layer_to_replace_dense L77-149, _substitute_model L156-167). The Keras layers Dense, Conv2D and Reshape and the weight quantizers of mct_quantizers are written from their documentation: a quantizer applies a scalar function to each weight that depends on the threshold of its channel. Arithmetic is real. The conversion by TFLiteConverter is not modelled, nor are initializers, regularizers and constraints.
* JoinModel.v -- how the collapsing substitutions edit the graph. Sources (core/common/substitutions): linear_collapsing.py L96-111, L149-181 and L229-261, residual_collapsing.py L61-110.
* KBuildModel.v -- the names of the nodes of a Keras graph, and the Keras model built back from the graph. Sources (under model_compression_toolkit/core/keras): reader/node_builder.py L205-306 (names and reuse), reader/connectivity_handler.py L225-237, back2framework/instance_builder.py L30-125, back2framework/keras_model_builder.py L111-326, graph_substitutions/substitutions/separableconv_decomposition.py L114-132 (names of decomposed nodes). A tensor is a value of V, and building the model and calling it on the inputs are one step. op l n gives what the layer object l returns when it is called with the arguments of node n (KCallModel.v has the arguments); quant n is the activation quantizer attached after n, if there is one. Simplifications: tf.keras.Model is taken to raise ValueError when two of the built layers have one name (Keras checks those between the inputs and the outputs); a quantizer called on a list of tensors packs them into one tensor; wrappers of layers are part of op.
* KCallModel.v -- what the Keras reader keeps of one call of a function or a layer, and the call the model builder makes of it. Sources (under model_compression_toolkit/core): keras/reader/node_builder.py L48-50, L65-202, L247-303, L309-343; keras/tf_tensor_numpy.py (tf_tensor_to_numpy with is_single_tensor); common/graph/functional_node.py L78-81; common/graph/base_node.py L357-373; keras/back2framework/keras_model_builder.py L213-280 for an operation that is not wrapped. The parameters of the function (tf_inspect.getfullargspec(function).args) are a list of names; names are numbers, in the order of the alphabet. The weights of a node are its positional constants (a functional node has no others, L261-262); they are used as they were read.
* KLModel.v -- the KL-divergence error used by threshold selection. Source: model_compression_toolkit/core/common/quantization/quantization_params_generation/error_functions.py L185-375. Simplifications: exact rationals; the final sum p*log(p/q) is taken over the reals in KLProofs.v.
* KMhaModel.v -- the Keras layer MultiHeadAttention replaced by elementary layers (core/keras/graph_substitutions/substitutions/multi_head_attention_decomposition.py). A node of the new part of the graph is its operation and the nodes its in-edges come from, in order (add_node_with_in_edges): a node that feeds two others is written twice. Names of the new nodes and the input_shape/output_shape fields that are only carried along are left out. Sizes recorded on the node are natural numbers (an unknown size other than the batch makes the products of L63-67 raise TypeError).
* KReadModel.v -- reading a Keras model, with the models nested in it, into one flat graph. Sources (under model_compression_toolkit/core): keras/reader/reader.py L36-183, keras/reader/connectivity_handler.py L45-252, keras/reader/nested_model/{nested_model_handler.py L24-64, nodes_merger.py L24-46, outputs_merger.py L26-52, edges_merger.py L25-169}, common/graph/edge.py L59-75 (equality of edges), common/graph/base_graph.py L71-103 (construction of a graph). A Keras model is the list of its nodes (the values of _nodes_by_depth, one after another), its input tensors and its output tensors; tensors are numbers. A node is one call of a layer: it has the layer's name, and the layer is an input layer, an operation or a model. u_id stands for the internal node object that build_node creates for it (node_builder.py); objects are distinct, so these are. Simplifications: the attributes and weights of the layers are not modelled; a layer called twice is recognised by its name (node_builder.py L231-245 gives the second call the name <name>_reused_<i>, and no layer of the model is taken to bear such a name).
* LfhModel.v -- importance of the channels to prune from Hessian scores and weights. Sources (under model_compression_toolkit/core/common/pruning): importance_metrics/lfh_importance_metric.py L61-277. Numbers are rationals; the square of np.linalg.norm is the sum of the squares. The Hessian service is the argument [fetch]: the scores of one node, one list per sample (C13). A kernel is its shape and its entries in row-major order. [argsort] is np.argsort(-scores) of channels_grouping.py (see PruneModel).
* LookupModel.v -- choosing quantization options for a node and restricting them by the graph. Modelled (under model_compression_toolkit/): target_platform_capabilities/targetplatform2framework/attach2fw.py AttachTpcToFramework.attach L22-66 .../operations_to_layers.py validate_op_sets L127-152, get_layers_by_op L76-97 .../framework_quantization_capabilities.py _get_config_options_mapping L184-214, get_fusing_patterns L100-119 quantization_preparation/load_fqc.py L51-139, L161-230 core/common/quantization/set_node_quantization_config.py filter_node_qco_by_graph L31-102 core/common/quantization/candidate_node_quantization_config.py L61-71, L79-90, L102-141 core/common/quantization/node_quantization_config.py constructors L82-114, L253-277, L377-444; get_attr_config L452-485; __eq__ L208-234, L342-363, L592-614 core/common/graph/base_node.py sort_node_candidates L712-729 Simplifications: two LayerFilterParams objects are the same dictionary key iff they carry the same number [i]; the default of an attribute-name mapping is a name (None is not modelled); the quantization functions are determined by the quantization method; fields that set_qc fills later are None in all candidates here.
* LutModel.v -- look-up-table quantization. Sources: model_compression_toolkit/core/common/quantization/quantizers/quantizers_helpers.py L127-190, .../quantizers/lut_kmeans_quantizer.py L24-57, .../quantization_params_generation/lut_kmeans_params.py L34-101. Simplifications: exact rationals; the k-means fit itself (scikit-learn) is an arbitrary list of centres; one channel, i.e. one threshold shared by the listed elements.
* MPModel.v -- nodes, quantization candidates and the resource-utilization calculator used by the mixed-precision search. Sources (under model_compression_toolkit/core/common): graph/base_node.py, graph/base_graph.py, quantization/node_quantization_config.py, mixed_precision/resource_utilization_tools/resource_utilization.py and resource_utilization_calculator.py, mixed_precision/mixed_precision_ru_helper.py. Names of nodes and of weight attributes are natural numbers. A weight attribute is looked up by its exact name (the substring matching of get_attr_config, node_quantization_config.py L544-560, is not modelled). The node list of a graph stands both for graph.nodes and for its topological order.
* MPSearchModel.v -- the mixed-precision search: configurable nodes, extreme candidates, sensitivity table, the integer program and the reading of its solution, and the greedy refinement. Sources (under model_compression_toolkit/core/common): graph/base_graph.py, graph/base_node.py, mixed_precision/mixed_precision_search_manager.py, mixed_precision/search_methods/linear_programming.py, mixed_precision/solution_refinement_procedure.py. The search below is the one on the original graph (no virtual graph, mixed_precision_search_manager.py L262-270 with the condition false). The solver (PuLP/CBC) is a parameter: a function from the program to the values of the indicator variables, or None when its status is not Optimal.
* ManualModel.v -- manually requested bit-widths. Modelled (under model_compression_toolkit/core/common/quantization/): bit_width_config.py BitWidthConfig L51-245 set_node_quantization_config.py set_manual_bitwidth_config L105-120, _set_manual_activation_bitwidths L124-151, _set_manual_weights_bitwidths L155-199 A node matcher is any predicate on nodes; Graph.filter lists the nodes it accepts. Nodes are dictionary keys by identity, here their number. Logging is not modelled.
* MatMulModel.v -- decomposing a matmul of tensors with more than three dimensions into matmuls of 3-D tensors (PyTorch). Source: model_compression_toolkit/core/pytorch/graph_substitutions/substitutions/matmul_decomposition.py L29-499. A dimension given as -1 is None. The added nodes are listed in the order of creation with the sources of their inputs: a node of the graph or an added node, by number. Node names, classes and recorded shapes are not modelled. Tensors (at the end) are functions on multi-indices; torch.reshape keeps the row-major order of the elements.
* MaxCutModel.v -- activation-memory scheduling (max cut of the memory graph). Sources (model_compression_toolkit/core/common/graph/memory_graph/): memory_graph.py L38-140, bipartite_graph.py, memory_element.py L60-115, cut.py L24-80, max_cut_astar.py L84-331, L390-425, compute_graph_max_cut.py L28-75. Simplifications: - operations are natural numbers (distinct names), the dummy operations / tensors are separate constructors (the code recognises them by a substring of their name); the getitem re-indexing of out edges is left out; - tensor sizes are natural numbers given by a function; - [Cut.__hash__] is [id], so membership of a fresh cut in open_list / closed_list / costs is always false: the cost and the route are stored with the open cut and the closed list, which can never contain a fresh cut, is left out; - the order of python sets and the last component of the sorting key (the signature string) only break ties; they are replaced by an arbitrary tie-breaking function [pick], over which all theorems quantify; - op_record always holds the same operations as op_order; both are kept.
* MergeModel.v -- how substitutions edit the graph: two consecutive nodes become one, a node is appended. Sources (core/common/substitutions): batchnorm_folding.py L90-101 and L131-152, L225-236 and L285-299, batchnorm_refusing.py L94-113 and L142-163, batchnorm_reconstruction.py L157-167, linear_collapsing.py (the same edits).
* MetricModel.v -- the mixed-precision metric as a function of the distances at the points. Source: model_compression_toolkit/core/common/mixed_precision/sensitivity_eval/metric_calculators.py _compute_points_distance L192-217, _compute_distance L219-257, _compute_mp_distance_measure L259-282, _compute_ipts_distance_measure L284-316. Simplifications: floats are reals (so a weight is zero only for a distance zero), and a division by a zero sigma raises instead of producing nan.
* MhaModel.v -- decomposing a multi-head attention layer (PyTorch). Source: model_compression_toolkit/core/pytorch/graph_substitutions/substitutions/multi_head_attention_decomposition.py L34-749. The added nodes are listed in the order of creation with the sources of their inputs (MatMulModel.msrc). Not modelled: node names and classes, the recorded input and output shapes of the added nodes.
* MpEvalModel.v -- the model that the mixed-precision search evaluates: which quantizers it contains, which candidates they hold, and which layers are switched for a node. Sources (under model_compression_toolkit/core): common/mixed_precision/sensitivity_eval/sensitivity_evaluation.py L75-119, common/mixed_precision/configurable_quantizer_utils.py L24-110, {keras,pytorch}/mixed_precision/configurable_{weights,activation}_quantizer.py, {keras,pytorch}/back2framework/mixed_precision_model_builder.py, common/graph/base_node.py L182-274, L475-502, L565-578, L632-644, L712-729, common/graph/base_graph.py L554-630, pytorch/back2framework/pytorch_model_builder.py L270-354, L421-429. Simplifications: the attribute of a weight is looked up by its exact name (names that contain each other are C71); the fields that the configurations' __eq__ compares, other than the bit-width and the switch, are one number; objects are numbered by the node they are built for; a further call names the node of the first call of its layer (finding it is C68 for PyTorch and C82 for Keras); node names are distinct, so that dictionaries keyed by names are lists.
* Nd.v -- arrays of real numbers with the numpy operations used by the graph substitutions: broadcasting, reshape, sums over axes, transposition. No part of /repo is modelled here; numpy (and the tensor functions of the frameworks with the same meaning) belongs to the trusted base.
* OptimModel.v -- which optimizer trains which parameter. Sources: gptq/common/gptq_training.py L97-229 (get_optimizer_with_param and its caller), gptq/pytorch/graph_info.py L25-58, gptq/keras/graph_info.py L28-64 (get_gptq_trainable_parameters), gptq/pytorch/gptq_training.py (train), gptq/keras/gptq_training.py (compute_gradients). Parameters and optimizer objects are numbers.
* OutLossModel.v -- C99: the output losses of data generation and the search for the last linear layers. Model of data_generation/{pytorch,keras}/optimization_functions/output_loss_functions.py and of the parts of data_generation/{pytorch,keras}/model_info_exctractors.py that find the last linear layers. Arithmetic is real (no half precision). A tensor is a list of images; an image is a list of values (reshaped), or a list of channels, each with its values over the positions. Among equal extremes the first position is taken (PyTorch leaves it open). Kernels are those of Linear layers and 1x1 convolutions, after the squeeze a matrix with a row for each output. Batches are not empty. Gradients are not modelled.
* PlatModel.v -- the platform description (TPC) schema: configurations, editing, fusing patterns, upgrading. Modelled (under model_compression_toolkit/target_platform_capabilities/): schema/v1.py AttributeQuantizationConfig L104-139, OpQuantizationConfig L142-226, QuantizationConfigOptions L229-395 (validation, clone_and_edit, clone_and_edit_weight_attribute, clone_and_map_weights_attr_keys), OperatorsSet L422-447, OperatorSetGroup L450-502, Fusing.contains L557-581 (v2.py L157-181 is the same code) schema/v2.py Fusing L102-114, TargetPlatformCapabilities L205-264 schema/schema_compatability.py _schema_v1_to_v2 L44-86, tpc_to_current_schema_version L102-124 schema/schema_functions.py L22-51 Simplifications: quantization methods, signedness and the fixed scale are opaque numbers; pydantic's own type coercion is not modelled; objects are values, since every one of these classes is frozen.
* PrepModel.v -- the quantization configurations of a graph when its preparation ends. Modelled (under model_compression_toolkit/): core/graph_prep_runner.py get_finalized_graph L113-190: the check of the error method L113-118, loading the configurations L155, manual bit-widths L158-159, single precision L173-175, filtering L187 core/common/graph/base_graph.py override_fused_node_activation_quantization_candidates L864-892 quantization_preparation/load_fqc.py load_fqc_configuration L33-48, _set_fusion_info L142-158 on top of LookupModel.load_graph, ManualModel.set_manual and CandModel.filter_node. Simplifications: the graph is the one after the substitutions (they run before the configurations are loaded, except channel equalization, which does not touch the number or the bit-widths of the candidates); the settings that set_qc copies into every configuration (L166-171) are the same everywhere and are left out; which nodes lie inside a fused operation, and the configuration of that operation, are parameters (FuseModel computes them).
* PriorModel.v -- C101: output ranges known in advance. Model of the tables in core/{pytorch,keras}/default_framework_info.py with core/common/framework_info.py get_layer_min_max, of core/pytorch/pytorch_node_prior_info.py L38 and core/keras/keras_node_prior_info.py L43-59, of core/common/node_prior_info.py, and of what is made of the range in core/common/collectors/statistics_collector.py L104-122 (the collector with scaling and shifting is in CollectModel.v; this is it before those). The operations are written from the documentation of PyTorch and TensorFlow, in real arithmetic; a tensor is a list of rows along the softmax axis. GELU is its tanh form (approximate); the exact GELU is not part of this model, nor are means and standard deviations (batch normalization: C98).
* PruneBuildModel.v -- building the pruned graph. Sources (under model_compression_toolkit/core): common/pruning/prune_graph.py L28-69, common/pruning/pruning_section.py L77-96, keras/pruning/pruning_keras_implementation.py L38-87 and L198-236, pytorch/pruning/pruning_pytorch_implementation.py L39-99 and L216-265, common/graph/base_node.py L292-339 (weights by name). Not modelled: the input shapes that the code edits next to the weights, and the attributes that PyTorch edits on layers inside a section (num_features, num_parameters).
* PruneMemModel.v -- pruning sections of a graph, the memory of a graph under pruning masks, and the pruned graph itself. Sources (under model_compression_toolkit/core): common/graph/base_graph.py L754-861 (pruning sections), common/pruning/memory_calculator.py, common/pruning/prune_graph.py, common/pruning/pruning_section.py, keras/pruning/pruning_keras_implementation.py, pytorch/pruning/pruning_pytorch_implementation.py, keras/default_framework_info.py L45-75, pytorch/default_framework_info.py L38-60 (kernel tables). Both frameworks are modelled; tensors carry their shape and their values.
* PruneModel.v -- choosing the channels to prune: SIMD grouping of the channels of a layer, the per-group and per-channel masks, the greedy choice of the groups that remain, and the unrolling of group scores to channels. Sources (under model_compression_toolkit/core/common): pruning/channels_grouping.py, pruning/mask/per_channel_mask.py, pruning/mask/per_simd_group_mask.py, pruning/greedy_mask_calculator.py, pruning/pruning_info.py, graph/base_node.py (get_simd). Nodes are natural numbers (their identity); a Python dict keyed by nodes is an association list in insertion order (HessianModel.dict_get/dict_set). Importance scores are rationals.
* PruneRunModel.v -- one call of the pruner: entry layers, groups of channels, masks, pruned graph and pruning information. core/common/pruning/pruner.py
* QatModel.v -- C100: preparing a model for quantization-aware training. Model of trainable_infrastructure/common/{get_quantizers,get_quantizer_config,base_trainable_quantizer}.py, qat/common/qat_config.py, qat/{pytorch,keras}/quantizer/quantization_builder.py and the wrapper functions of qat/{pytorch,keras}/quantization_facade.py; the class choice of gptq/{pytorch,keras}/quantizer/quantization_builder.py. Simplified: values that are only passed on (quantization parameters, minimal thresholds, functions, error methods) are numbers standing for them; attribute configurations are found by their exact names (the search by part of a name is not modelled here); the checks of signatures and of @mark_quantizer (base_trainable_quantizer L55-71), which all built-in classes pass, are left out. What the quantizers compute is in TrainQModel.
* QuantModel.v -- fake-quantization arithmetic, function by function. Source: model_compression_toolkit/core/common/quantization/quantizers/quantizers_helpers.py model_compression_toolkit/core/common/quantization/quantizers/uniform_quantizers.py Simplifications: exact rationals for floats; a tensor is the list of its elements sharing one threshold (one channel, or the whole tensor when per_channel is False).
* ReconModel.v -- the virtual graph of the bit-operations search and the way back from its configurations. Sources (model_compression_toolkit/core/common/): substitutions/weights_activation_split.py L34-87, substitutions/virtual_activation_weights_composition.py L27-92, graph/virtual_activation_weights_node.py L26-205, graph/base_node.py L247-274, L475-502, L580-619 (configurable, unique candidates), mixed_precision/mixed_precision_search_manager.py L335-526 (ConfigReconstructionHelper). Simplifications: an activation configuration is a number, and so is the configuration of the kernel, the only weight whose configuration may vary between the candidates (L138-141 of the virtual node raises otherwise); number 0 is the disabled configuration written by the split. Nodes are identified by their names. The weights which the activation node adds to a composed node are never configurable and are left out.
* RefineModel.v -- greedy refinement of a mixed-precision solution. Source: model_compression_toolkit/core/common/mixed_precision/solution_refinement_procedure.py L27-194
* RescaleModel.v -- rewrites that rescale or shift a layer and compensate for it in its neighbours. Sources: core/keras/graph_substitutions/substitutions/relu_bound_to_power_of_2.py L29-97 and the PyTorch file L30-118, core/keras/graph_substitutions/substitutions/input_scaling.py L27-135, core/common/user_info.py L34-42, gptq/common/gptq_training.py L97-102, gptq/keras/gptq_training.py L393 (use of the input scale), core/common/substitutions/softmax_shift.py L41-72, core/common/collectors/min_max_per_channel_collector.py L45-90 (scale, shift). Which nodes are handed to a rewrite is a walk of the graph (GraphModel.walk_filter). Real numbers stand for floating point numbers. Of the statistics of a node only the observed range is kept. The new quantization parameters that input scaling computes for the kernel are not modelled.
* RoundQ.v -- exact rational rounding: numpy's np.round (round half to even) on Q, np.clip, and ceil(log2 x). These are the numeric primitives of model_compression_toolkit/core/common/quantization/quantizers/quantizers_helpers.py. Simplification: floats are exact rationals.
* RunnerModel.v -- what one call of a quantization function does with its configuration and its target, and sequences of calls. Modelled (under model_compression_toolkit/): core/runner.py core_runner L78-189, _set_final_resource_utilization L192-219 core/common/quantization/core_config.py CoreConfig L42-49 core/common/mixed_precision/mixed_precision_quantization_config.py set_mixed_precision_enable L117-121 core/common/mixed_precision/mixed_precision_search_facade.py search_bit_width: the assertion L67 core/common/mixed_precision/resource_utilization_tools/resource_utilization.py get_restricted_targets L99-101, is_any_restricted L103-104 ptq|gptq|qat/pytorch|keras/quantization_facade.py the default argument core_config=CoreConfig() and the bypass (ptq pytorch L53, L103-104; ptq keras L56, L129-130; gptq pytorch L150, L213-214; gptq keras L160, L235-236; qat pytorch L81; qat keras L93) A default argument of a Python function is evaluated once, so that every call of the function without a configuration gets the same object; configurations are therefore addresses of a heap. Each stage (graph preparation, parameters, filtering, search, setting, activation bias correction and editing, measuring) is a parameter of the call: it is modelled elsewhere (PrepModel, CandModel, MPSearchModel, SetterModel, EditModel, RUModel) and takes part here with whatever it returns or raises. Left out: logging, TensorBoard, the simulated scheduler, and what happens after core_runner.
* SDict.v -- Python dictionaries with string keys as insertion-ordered association lists, and their order-insensitive equality (dict.__eq__). No part of /repo is modelled here.
* SaveModel.v -- C102: writing a quantized model to a file. Model of exporter/model_exporter/pytorch/base_pytorch_exporter.py, fakely_quant_onnx_pytorch_exporter.py L68-172, fakely_quant_torchscript_pytorch_exporter.py L49-75, exporter/model_wrapper/pytorch/validate_layer.py, and of exporter/model_exporter/keras/fakely_quant_keras_exporter.py L64-219, mctq_keras_exporter.py, fakely_quant_tflite_exporter.py L54-64 and the facades of both frameworks. A PyTorch model is a tree of modules; a block calls its children by name, in any way (forward). Wrappers and holders are those of the package mct_quantizers, written from its documentation: a wrapper quantizes its weights, puts them into the layer or among the arguments, and calls the layer. Tracing and the file formats are not part of the model: the file is taken to compute what the module computes that is handed to torch.onnx.export, torch.jit or keras save_model. Not modelled: modules registered under two names, nested Keras models, the copying of Keras weights that are not kernel or bias, devices.
* SchedModel.v -- C88: the learning-rate schedule of data generation. Model of data_generation/pytorch/optimization_functions/lr_scheduler.py (ReduceLROnPlateauWithReset) and data_generation/keras/optimization_functions/lr_scheduler.py (ReduceLROnPlateau), which are the same up to the number of parameter groups, and of the arguments chosen in scheduler_step_functions.py. Numbers are rational. The infinities the best value starts from are the value None, so the products with them are those for a relative threshold below one (lr_scheduler.py L174-176); not-a-number losses are outside the model. The messages of `verbose`, `state_dict`, `last_epoch` and `_last_lr` are not modelled: nothing reads them.
* SearchModel.v -- quantization-parameter searches. Sources (model_compression_toolkit/core/common/quantization/quantization_params_generation/): qparams_search.py, power_of_two_selection.py, symmetric_selection.py, uniform_selection.py Simplifications: exact rationals; a tensor seen along an axis is the list of its channels (each the list of its elements; per_channel = False is the case of one channel), the numpy reshape/transpose being outside the model; the error function is an arbitrary function [loss channel quantized parameter].
* SensModel.v -- the sensitivity evaluation of mixed precision: the images it runs on, the points it looks at and the switching of the configurable quantizers. Sources (model_compression_toolkit/core/common/mixed_precision/sensitivity_eval/): metric_calculators.py L318-419, sensitivity_evaluation.py L75-163, set_layer_to_bitwidth.py L22-56; core/{keras,pytorch}/mixed_precision/configurable_{activation,weights}_quantizer.py (the setters). Simplifications: factors are exact rationals; the framework model is the map from quantization layers to their active candidate, and inference is a function of that map; the configurable quantizers of one weights layer, always set together, are one setting; a tensor is the list of its samples.
* SerModel.v -- training quantizers of Keras written to a file and read back, and layers whose training is finished. Modelled (under model_compression_toolkit/trainable_infrastructure/): common/trainable_quantizer_config.py TrainableQuantizerActivationConfig L40-65, TrainableQuantizerWeightsConfig L68-98 common/base_trainable_quantizer.py BaseTrainableQuantizer.__init__ L54-88, validate_weights L150-151, validate_activation L158-159 keras/config_serialization.py transform_enum L40-42, config_serialization L54-57, config_deserialization L69-89 keras/base_keras_quantizer.py get_config L42, from_config L54-57 keras/load_model.py the dictionary of classes L45-57 keras/quantize_wrapper.py _weight_name L39, convert_to_inferable_quantizers L77-96 Outside the library, and assumed: the constants of mct_quantizers used as keys are the names of the attributes; the members of QuantizationMethod have different values; a file of Keras keeps None, booleans, numbers, strings, lists and dictionaries as they are, keeps an array either as nested lists or as {"config": {"value": nested lists}}, and refuses other objects. Numbers are rational; weights parameters are numbers and arrays of numbers (V_zero is only what the code would make of others); an array is its shape and its elements. Left out: the variables a quantizer creates, the building of the layer by Keras.
* SetterModel.v -- finalising the bit-widths of the nodes after the mixed-precision search. Modelled (under model_compression_toolkit/core/common/): mixed_precision/bit_width_setter.py set_bit_widths L24-80, _get_node_qc_by_bit_widths L83-109, _set_node_final_qc L112-133 graph/base_graph.py get_configurable_sorted_nodes L610-630 (with L537-552), include_reused_nodes = False graph/base_node.py has_any_weight_attr_to_quantize L512-521, is_quantization_preserving L205-209 The graph is the list of its nodes in topological order; the loop over graph.nodes treats each node on its own, so its order does not matter. Configurations are lists of natural numbers (a negative index is not modelled). Deep copies are values. No final configuration is set beforehand.
* ShapeModel.v -- replacing the sizes a PyTorch reshape or view reads from the graph by the sizes seen when tracing. Sources: core/pytorch/graph_substitutions/substitutions/reshape_with_static_shapes.py L26-108, core/pytorch/back2framework/pytorch_model_builder.py L84-104 (how the call is put together afterwards). The graph is that of GraphModel. networkx raises for the edges of a node that is not in the graph; the recursion is bounded by the number of nodes. Logger.error (builder L89) only logs.
* SmcModel.v -- C98: the statistics second moment correction collects. Model of core/pytorch/statistics_correction/apply_second_moment_correction.py (L27-73) and core/keras/statistics_correction/ apply_second_moment_correction.py (L26-66). Creating the batch normalizations and fusing them again is in ReconModel.v (C36); new thresholds of the activations (apply_second_moment_correction_to_graph.py L32-59) are not part of this model. Real arithmetic; a tensor is the list of its positions (samples and pixels), each with a number for every channel. Batch normalization is written from the documentation of PyTorch and Keras: PyTorch refuses a batch of one position and takes n/(n-1) times the variance of the batch into the moving variance, Keras takes the variance of the batch.
* SncModel.v -- shift negative correction: the corrected layer, its padding, and the editing of the graph. Sources: core/common/substitutions/shift_negative_activation.py L46-87, L247-505, core/keras/graph_substitutions/substitutions/shift_negative_activation.py L150-230, core/pytorch/graph_substitutions/substitutions/shift_negative_activation.py L180-222. Real numbers stand for floating point numbers. The choice of the shift is SncShiftModel.v; the statistics, quantization configurations and fusing information that the pass updates are not modelled.
* SncShiftModel.v -- shift negative correction: whether a node is corrected, and the shift. Source: core/common/substitutions/shift_negative_activation.py L285-353. Exact rationals.
* StatsModel.v -- which nodes collect activation statistics, and which tensor and which Hessian weights each collector receives. Sources (model_compression_toolkit/core/common/): model_collector.py L32-73 (create_stats_collector_for_node, create_tensor2node), L76-113 (ensure_matching_data_lengths), L138-204 (ModelCollector.__init__), L206-257 (infer); graph/base_graph.py L183-240 (set_out_stats_collector_to_node, out-collectors only); hessian/hessian_info_service.py L142-191 (fetch_hessian with compute_from_tensors), L277-304 (_compute_hessian_for_batch), L306-321 (_get_primary_node); pytorch/hessian/activation_hessian_scores_calculator_pytorch.py L82-138 (_prep_tensors_for_compute, compute); collectors/weighted_histogram_collector.py L21-114. Simplifications: nodes are numbers (a node's name is its number); tensors are opaque; the gradient-based score of a target tensor with respect to a list of output tensors is an opaque function; the float model returns, for the list of nodes it is asked to output, the value of each of these nodes.
* TabModel.v -- the tables that say which operations of a framework belong to which operator set. Modelled (under model_compression_toolkit/target_platform_capabilities/): targetplatform2framework/attach2keras.py AttachTpcToKeras L40-123 targetplatform2framework/attach2pytorch.py AttachTpcToPytorch L38-111 schema/v2.py OperatorSetNames L35-95 used by LookupModel.attach. The rows are generated from the source, with every name replaced by the path it is imported from. Assumption: two different paths of a table are two different objects (true for the versions of the frameworks that the library supports; otherwise attaching raises). The number of an object is its first position in the table, the number of a LayerFilterParams object likewise.
* TpcsModel.v -- C110: the TFLite and QNNPACK platform descriptions. Modelled (under model_compression_toolkit/target_platform_capabilities/tpc_models/): qnnpack_tpc/v1/tpc.py L28-186, tflite_tpc/v1/tpc.py L28-226 on top of PlatModel.v; a node is configured as in LookupModel.v (node_quantization_config.py L106-107 raises). QuantizationMethod.POWER_OF_TWO is 0, SYMMETRIC 1, UNIFORM 2; a fixed scale 1/n is the number n.
* TrainDataModel.v -- C92: the batches GPTQ trains on, made of those the user's generator yields. Model of core/{pytorch,keras}/data_util.py, of _prepare_train_dataloader_sla and _prepare_train_dataloader_for_non_sla in gptq/{pytorch,keras}/gptq_training.py and of get_total_grad_steps in trainable_infrastructure/common/util.py. A tensor is the list of its rows; a call of the generator factory yields a finite list of batches, each a list of input tensors. Shuffling is an arbitrary permutation. Dtypes, devices and the number of workers are not modelled.
* TrainQModel.v -- quantizers with trained parameters: soft rounding and straight-through rounding of GPTQ, and the QAT weight / trainable activation quantizers, with the parameters they export. Sources (model_compression_toolkit/): gptq/pytorch/quantizer/quant_utils.py L20-109, gptq/keras/quantizer/quant_utils.py L21-150, gptq/pytorch/quantizer/soft_rounding/symmetric_soft_quantizer.py L38-247, uniform_soft_quantizer.py L37-193, soft_quantizer_reg.py L42-72, and the Keras files of the same names, gptq/pytorch/quantizer/ste_rounding/symmetric_ste.py L37-181, gptq/keras/quantizer/ste_rounding/symmetric_ste.py L36-181, trainable_infrastructure/pytorch/quantizer_utils.py L20-226, qat/pytorch/quantizer/{lsq,ste_rounding}/{symmetric,uniform}_{lsq,ste}.py, trainable_infrastructure/pytorch/activation_quantizers/{lsq,ste}/{symmetric,uniform}_{lsq,ste}.py, core/common/quantization/quantizers/quantizers_helpers.py L25-124 and L273-299 (what the exported quantizer computes). One tensor entry at a time: reshaping and broadcasting the per-channel parameters over the tensor is not modelled, the parameters below are those of the entry's channel. Real numbers stand for floating point numbers; only forward values are modelled, no gradients. The number of bits is positive.
* XqSimModel.v -- C96: the similarity metrics of the explainable quantization report. Model of xquant/common/similarity_calculator.py (compute_tensors_similarity L55-70, _get_float_to_quantized_compare_points L72-108, compute_similarity_metrics L110-194), xquant/{pytorch,keras}/similarity_functions.py, xquant/common/similarity_functions.py (get_default_similarity_metrics L69-80) and the extraction of activations in xquant/{pytorch,keras}/model_analyzer.py. Real arithmetic; a tensor is the list of its samples, each the list of its values. What the two models compute is a function of the batch; folding the float model is not part of this model. The library functions are written from their documentation: torch.nn.functional.mse_loss and cosine_similarity (eps = 1e-8), tf.keras.losses.MeanSquaredError and CosineSimilarity (which is the negative of the cosine, of vectors scaled with tf.math.l2_normalize, epsilon = 1e-12), keras.Model (a list of one output is unpacked).
* ActBiasSpec.v -- quantized activations in front of a linear layer, and averages of what is read and put out.
* ActParamSpec.v -- weighted samples on the reals, and what a set of activation parameters can represent
* BiasSpec.v -- averages of a layer's outputs.
* BnSpec.v -- batch normalization.
* CalcSpec.v -- what it means that a candidate's weights attribute got its own parameters
* CandSpec.v -- what filtering a candidate list may and may not do.
* CollapseSpec.v -- when and how linear operations may be collapsed.
* CollectSpec.v -- what has been observed, independently of the collectors
* ConcatSpec.v -- what C95 is stated with.
* DeadSpec.v -- which nodes of a graph contribute to its outputs.
* DecompSpec.v -- what a separable convolution computes.
* DistSpec.v -- what the distances of two tensors are: means over a tensor, a sample, or a line of it
* EditSpec.v -- what an edit rule is supposed to do, in terms of the readable fields of a node.
* EqualizeSpec.v -- layers and functions through which a scale of the channels can be moved.
* ExportSpec.v -- what the exported weights have to be.
* FakeQSpec.v -- rounding to the nearest value of an integer grid.
* FilterSpec.v -- what a filter means, independently of how it is evaluated.
* FnConvSpec.v -- C97: what a call of torch.nn.functional.conv2d, conv_transpose2d or linear means.
* FnLaySpec.v -- what the TensorFlow functions and the Keras layers that replace them compute. Arrays are those of one sample: height, width, channels (NHWC) or channels, height, width (NCHW); entries outside an array are 0. None stands for a call that is refused.
* FuncSubSpec.v -- what torch.nn.functional.batch_norm, layer_norm and scaled_dot_product_attention compute.
* FuseSpec.v -- what is promised about fused operations.
* FxSpec.v -- what a traced PyTorch model computes, and which calls the toolkit can rebuild.
* GTrainSpec.v -- C93: what training has to leave in the graph.
* GenSpec.v -- C89: what the returned images are.
* GenStatSpec.v -- C90: which images the loss looks at, and what it compares.
* GptqLossSpec.v -- C91: distances between outputs, and how layers and samples are to be weighted.
* GraphSpec.v -- what editing a graph should do, and what a graph computes.
* * Specification of the Hessian scores (C84), independent of how they are computed. An entry of a score covers a set of elements of the target tensor (its "cell"): all of them, those of one output channel, one element — and, for activations, those of one image. The true score of a cell is the sum, over the elements of the cell and the elements of the outputs, of the squared derivatives.
* Int8Spec.v -- what C94 is stated with.
* JoinSpec.v -- joining two nodes when the second has further inputs.
* KBuildSpec.v -- what a graph of layers computes when it is run, and which names of layers are considered.
* KCallSpec.v -- which parameter of a function a call gives which value.
* KMhaSpec.v -- the layer keras.layers.MultiHeadAttention (no mask, no dropout) on inputs with any number of axes between batch and channels. An attention axis is one the attention runs over; along the other axes ("iteration" axes) every position has its own attention. Axes are counted from 1, 0 being the batch.
* KReadSpec.v -- what a Keras model and a flat graph compute, and which models are considered.
* LfhSpec.v -- the importance of a set of output channels of a layer.
* LinSpec.v -- what the linear layers, batch normalization and their neighbours compute. A tensor assigns a number to each channel and position; sample by sample, so there is no batch axis.
* LookupSpec.v -- which options apply to a node, and which nodes consume its output.
* MPSearchSpec.v -- what "an admissible choice of bit-widths" and "its total sensitivity" mean.
* MPSpec.v -- what resource utilization means, written without the calculator's helpers.
* ManualSpec.v -- what a list of manual bit-width requests asks of a node.
* MatMulSpec.v -- torch.matmul of tensors of the same number of dimensions.
* MaxCutSpec.v -- execution orders of a model graph and their peak activation memory, stated on the graph alone.
* MergeSpec.v -- merging two nodes of a graph.
* MetricSpec.v -- vocabulary for the properties of the mixed-precision metric.
* MhaSpec.v -- multi-head attention of torch.nn.MultiheadAttention (batch first, no masks, no dropout).
* MpEvalSpec.v -- the graphs that can be searched, and what a request of the search asks for.
* OutLossSpec.v -- what the output losses of data generation are to measure.
* PlatSpec.v -- what it means for platform configurations to be the same and well formed.
* PrepSpec.v -- the configuration a node should end up with when the graph is prepared for single precision.
* PriorSpec.v -- C101: values within a range, ranges that hold for every input
* PruneBuildSpec.v -- what is left of a weight and of a layer when channels are removed.
* PruneMemSpec.v -- pruning sections and the parameters a layer has left, stated without the code's counting: a parameter is a position of a weight tensor, and it is left when the channels it belongs to remain.
* PruneSpec.v -- what is promised about the choice of the channels to prune.
* QatSpec.v -- C100: when a class suits a request, the configuration of an attribute, first occurrences
* QuantSpec.v -- what n-bit quantization means, independently of the code.
* ReconSpec.v -- what it means that a configuration of the virtual graph and a configuration of the original graph agree.
* RescaleSpec.v -- what the activation functions compute, and the softmax function.
* RunnerSpec.v -- what a caller expects from a sequence of quantization calls.
* SaveSpec.v -- C102: what an exported file should compute
* SchedSpec.v -- C88: when the rate is to be lowered, and to what.
* SensSpec.v -- what the sensitivity evaluation must do with images, points and quantizers.
* SerSpec.v -- what must survive saving and loading a training quantizer, and which weights a finished layer must have.
* SetterSpec.v -- which candidate a mixed-precision configuration gives to a node.
* ShapeSpec.v -- reshaping, and the graph without the edges into n that carry sizes.
* SmcSpec.v -- C98: moving averages and what a layer sees
* SncSpec.v -- images shifted by a constant and padded with a constant.
* StatsSpec.v -- what statistics collection promises, in terms of nodes and tensors.
* TabSpec.v -- the operator set of an operation, by the name of what it computes; one list for both frameworks.
* TrainDataSpec.v -- C92: the samples of the user's batches, and what a partition into batches is.
* TrainQSpec.v -- what rounding training may do to a weight. A quantizer with step d, integer levels lo..hi and offset z has the grid { z + d k | lo <= k <= hi }.
* XqSimSpec.v -- what C96 is stated with.

## Findings: claims the code does not meet

Each is a theorem with a concrete witness in the model (name ends in `_refuted`, or is listed under the property).

### C04 Uniform quantization range always represents zero exactly

* `uniform_range_not_covering_refuted`: the adjusted range may fail to cover the requested one: clipping by up to half a step at one end

### C05 Power-of-two threshold is the least power of two covering the data

* `min_max_no_clipping_refuted`: finding: "no clipping" on observed min/max clips the minimum when it has the larger magnitude
* `histogram_no_clipping_refuted`: the same for a many-bin histogram whose leftmost bin is its largest in magnitude
* `pot_search_non_power_of_two_refuted`: finding: a minimal threshold that is not a power of two makes the "power of two" search return a non power of two, which the power-of-two quantizer then rejects

### C09 Min/max statistics cover every value ever observed

* `min_max_negative_scale_refuted`: A negative scaling factor (e.g. a batch-norm with a negative gamma) leaves the reported minimum above the maximum.

### C10 Histogram statistics conserve the number of observed samples

* `histogram_update_after_read_refuted`: Reading the histogram freezes it: a batch observed afterwards is lost.
* `histogram_max_below_observed_refuted`: The collector's own maximum is the left edge of the last occupied bin, below observed values.

### C11 Mean statistics equal the mean over all observed batches

* `mean_of_unequal_batches_refuted`: With batches of different sizes (a shorter last batch) the reported mean is not the mean of the data.
* `mean_update_after_scale_refuted`: A batch observed after a scaling silently undoes the scaling of the mean.

### C12 KL error helpers conserve probability mass

* `kl_degenerate_range_refuted`: finding: a range narrower than one bin gets error 0, the least possible value, although it clips nearly the whole histogram

### C13 Hessian service returns exactly the requested number of scores, aligned across nodes

* `hessian_alignment_after_earlier_fetch_refuted`: Alignment is lost when one node was asked for earlier: node 7 gets the first sample twice and never the third, so the i-th scores of the two nodes belong to different samples.

### C14 Activation-memory scheduler returns a complete valid execution order

* `max_cut_large_graph_unsolved`: ... and never below that: with the default limit of 1000 expansions no model of 998 or more operations gets a schedule.

### C15 Activation-memory scheduler finds the minimal peak

* `max_cut_driver_limit_refuted`: C15 finding: an inner search that runs into its expansion limit is taken as proof that no order fits the estimate; the driver then returns an order that is not the best one, although the limit exceeds the number of operations by three.

### C16 Mixed-precision solver returns a feasible, least-sensitive configuration

* `total_target_ignored_without_activations_refuted`: Without any counted activation a total-memory target puts no constraint at all: the search returns a configuration above the target although another one fits.
* `negative_sensitivity_refuted`: The per-layer objective variables are declared non-negative: with a (custom) metric that is negative for every candidate of a layer the search fails although every configuration fits.
* `bops_target_exceeded_refuted`: With both the input's and the kernel's bit-widths configurable the bit-operations are not the sum of the single changes. When the activation feeds two kernels no virtual node joins them (virtual nodes are made for single consumers only), and the program can accept a configuration above the target.

### C17 Greedy refinement never violates the target nor lowers a bit-width

* `refinement_can_raise_sensitivity_refuted`: Raising bit-widths need not lower the measured sensitivity: if the metric prefers fewer bits somewhere, refinement turns the least sensitive solution into a more sensitive one.

### C19 Bit-width configuration of the original graph is faithfully reconstructed from the virtual graph

* `same_bits_refuted`: The check that a node may be split compares numbers of bits, the reconstruction compares configurations: with two activation configurations of 8 bits the check passes, and an assignment of the virtual graph has no counterpart.
* `include_non_configurable_refuted`: Asked to include the nodes that are not configurable, the reconstruction leaves out such a node exactly when both its activation and its weights have been assigned.
* `equal_candidates_refuted`: Two equal candidates in a node make every assignment of that activation fail.

### C20 Candidate filtering keeps at least one candidate, in order and without duplicates

* `duplicates_remain_refuted`: finding: duplicates are not removed from a node with quantized kernel and activation
* `positional_bits_dropped_refuted`: finding: the bit-widths of weights other than the kernel are dropped although they are quantized
* `weights_only_loses_kernel_bits_refuted`: finding: with a weights-only target, a kernel bit-width that only occurs together with another activation bit-width is lost

### C21 Manual bit-width requests are honoured with last-request-wins semantics

* `manual_second_request_refuted`: a second request for the same node raises when the attribute of the first one is a single letter, although either request alone is honoured and the node has candidates for both
* `manual_partial_name_refuted`: part of an attribute's name is enough for the request to be accepted, but applying it raises

### C22 A node never outputs more bits than its consumers accept

* `base_above_limit_refuted`: finding: when the consumer's base option accepts the bits and another option of it does not, the base configuration is kept although no remaining option has that many bits; loading such a graph raises

### C23 Sensitivity evaluation leaves the model unquantized afterwards

* `rejected_configuration_stays_refuted`: A configuration that is rejected while it is applied (here: no layer for the second name) leaves the layers that were already set configured, so a later evaluation of a valid configuration sees them.
* `second_quantizer_ignored_refuted`: A node with two activation quantizers (a layer called twice: both holders follow the same wrapper) has only the first one set; the second call is evaluated without quantization.

### C26 Greedy pruning respects the memory budget

* `greedy_stops_early_refuted`: A cheaper group that would still fit is left pruned: the search stops at the first overflow.
* `greedy_nan_score_refuted`: A score that is not a number (or -inf) for the only remaining group ends in an error although the group would fit.
* `greedy_group_order_refuted`: A group with a higher score can stay pruned while a lower one of the same layer remains: groups of a layer are taken in the order of the channel scores, not of the group scores.

### C27 Pruned memory counts every parameter once

* `constant_weight_not_counted_refuted`: a layer with a constant among its weights has no name for it: the count raises for every mask
* `layer_name_confuses_count_refuted`: in Keras a weight is recognised by a part of its name, which contains the name of the layer: a layer called "bias..." makes the count raise
* `missing_channel_axis_refuted`: the number of output channels is looked up even when no padding is counted: a layer whose output has no channel axis makes the count raise

### C29 Fused-operation bookkeeping is a consistent bijection

* `overlapping_operations_refuted`: registering an operation that shares a node with another is accepted; when it is removed again the node is no longer found although the first operation still lists it, and asking for it raises
* `unmatched_operation_query_refuted`: an operation that matches no pattern (one asked for by hand) has no entry among the configurations, and the question whether its nodes are quantized raises

### C30 Generated fusions are disjoint genuine chains matching a platform pattern

* `generated_overlap_refuted`: two layers that feed the same addition are both fused with it: the operations overlap and the graph no longer validates
* `shorter_pattern_missed_refuted`: following a longer pattern that fails in the end, a shorter one that matches is missed
* `manual_without_patterns_refuted`: without patterns of the platform, operations asked for by hand are ignored
* `fused_id_collision_refuted`: different nodes can give the same id: the names are joined by "_"

### C31 Fusing nodes preserves graph connectivity

* `side_input_lost_refuted`: an input of a later node of the group from outside is dropped (B and the addition C both read A)
* `parallel_edges_confused_refuted`: of two edges between the same nodes the attributes of the first are used twice
* `repeated_output_dangles_refuted`: an output listed twice is replaced once: the other names a node that is gone
* `inner_output_changed_refuted`: a model output taken from the first node of the group becomes the output of the group
* `input_node_not_fused_refuted`: a group that begins with a model input cannot be fused
* `fused_node_not_replaced_refuted`: replacing a node that belongs to a fused operation is refused half way

### C32 Graph surgery primitives move exactly the intended edges

* `replaced_input_moves_last_refuted`: replacing the first of two inputs of the model changes the order of its inputs
* `inserted_node_indices_refuted`: a node inserted before the second input of another node gets its only input at input index 1, and one inserted after the second output of a node has its own output at index 1
* `removed_node_input_index_refuted`: removing a node between two others gives its consumer the input index the removed node had

### C33 Removing identity nodes preserves the computed function

* `identity_of_second_output_refuted`: (see GraphFindProps.v)

### C34 Folding batch-norm into the preceding linear layer preserves the function

* `merging_inner_output_refuted`: it does not ask whether the first node is an output of the model
* `grouped_transposed_folding_refuted`: a transposed convolution with groups of two input channels: rows of the kernel are scaled by the channel of another group

### C35 Folding batch-norm into the following linear layer preserves the function

* `padded_forward_folding_refuted`: zero padding is not looked at: padded positions get the shift
* `strided_transposed_forward_folding_refuted`: neither is the stride of a transposed convolution
* `depthwise_transposed_forward_folding_refuted`: a depthwise transposed convolution: every output gets the shifts of all inputs
* `multiplier_forward_folding_refuted`: a depthwise convolution with two outputs per input: an error instead of a folding
* `strided_depthwise_forward_folding_refuted`: the stride of a folded depthwise convolution is lost

### C36 Batch-norm reconstruction starts as an identity and refusing is exact

* `refusing_without_bias_refuted`: refusing: a convolution without bias raises; a channel multiplier makes the new thresholds fail; a negative scale makes them negative
* `multiplier_threshold_refuted`: (see BnExProps.v)
* `negative_threshold_refuted`: (see BnExProps.v)

### C37 Collapsing consecutive linear operations preserves the function

* `non_square_collapsing_refuted`: PyTorch: the padding of the unit images has height and width exchanged; a kernel 2x3 becomes a kernel 4x1, a kernel 1x3 an error
* `single_filter_bias_refuted`: Keras: one filter and only the first bias: the new bias is a scalar, not a vector of one number
* `constant_image_refuted`: a constant image is accepted like a constant vector

### C38 Collapsing a residual connection preserves the function

* `residual_geometry_refuted`: only reuse and connections are looked at. The output has the size of the input in the first two cases, yet another position is added
* `residual_broadcast_refuted`: an addition that repeats the output of the convolution along positions or channels is collapsed to its smaller operand; groups raise
* `residual_other_output_refuted`: the node that is added must be the same, but which of its outputs is not looked at

### C39 Scale equalization preserves the function through positively homogeneous activations

* `bounded_relu_refuted`: a ReLU with an upper bound does not commute with the factors; Keras' pass matches it (scale_equalization.py L27-34 of the Keras substitutions, ReLU without a test of max_value)
* `depthwise_second_refuted`: PyTorch: the second layer is a depthwise convolution: its kernel grows to one weight per pair of channels
* `depthwise_transposed_first_refuted`: PyTorch: the first layer is a depthwise transposed convolution
* `multiplier_first_refuted`: Keras: the first layer is a depthwise convolution with a multiplier: an error, or a kernel of another shape
* `equalized_output_refuted`: a first layer that is an output of the model itself is matched too, and that output changes

### C40 Shift-negative correction preserves the function

* `dilated_same_padding_refuted`: dilation is not part of the computed padding: the output of the layer has another extent
* `strided_same_padding_refuted`: a stride larger than the kernel in one direction hides the padding of the other: the sum of the four numbers is tested
* `string_padding_refuted`: PyTorch padding='same' stays, and adds zeros to the shifted image
* `torch_zero_padding_refuted`: PyTorch ZeroPad2d: an exception
* `zero_padding_behind_node_refuted`: zero padding and another node before the layer: the search accepts the chain, the edit raises
* `bypassed_output_refuted`: a bypassed node that is an output of the model: the output is shifted
* `padded_average_refuted`: averages over padded positions do not commute with the shift

### C41 Bias correction cancels the expected quantization error

* `grouped_transposed_correction_refuted`: a transposed PyTorch convolution in groups: the term has the length of one group and mixes the groups
* `padded_correction_refuted`: at padded positions the whole sum of the error is subtracted, though part of the kernel reads zeros
* `strided_transposed_correction_refuted`: a transposed convolution with stride: no position reads through the whole kernel

### C42 Annealing schedules stay between their endpoints and are monotone

* `target_not_reached_in_training_refuted`: without an end step the fraction stays below its target in every step of the training
* `traced_schedule_refuted`: inside a traced function the count does not advance: with the default configuration activations are never quantized

### C43 Trained parameters are partitioned over optimizers

* `override_needs_rest_refuted`: an optimizer for the quantization parameters does not make optimizer_rest unnecessary, though nothing is left for it
* `shared_optimizer_refuted`: one object for the weights and for the rest: the weights are no longer trained

### C45 Layer filters compose as boolean logic

* `layer_filter_eq_symmetric_refuted`: C45 refuted: equality is not symmetric
* `layer_filter_eq_same_layers_refuted`: C45 refuted: equal filters with the same rendered name (so the same hash) select different layers when two layer types share their __name__
* `layer_filter_eq_hash_refuted`: C45 refuted: equal filters have different rendered names (hash inputs): more conditions are ignored
* `filter_operators_chain_refuted`: C45 refuted: the operators do not nest: a combination can be combined no further

### C46 Editing quantization options keeps them well formed and touches only what was named

* `weight_edit_drops_others_refuted`: C46 refuted: editing one named attribute removes the others
* `edit_input_bits_refuted`: C46 refuted: an edit is not validated: the supported input bits, an int in a constructor, stay an int in an edit and make the maximum unusable
* `renaming_collision_refuted`: C46 refuted: renaming two attributes to the same name loses one of them silently

### C47 Upgrading a platform description to the current schema loses nothing

* `upgrade_loses_name_and_padding_refuted`: C47 refuted: the name and the padding mode of the platform are lost
* `upgrade_without_fusing_refuted`: C47 refuted: a valid description without fusing patterns cannot be loaded

### C49 Frozen platform objects cannot be modified

* `deletion_unfreezes_refuted`: deleting attributes is not guarded: deleting the mark makes the object assignable again

### C50 Network-edit rules are applied in order

* `property_field_refuted`: A rule that sets enable_activation_quantization or quantization_preserving of the candidates fails on every node that has candidates: both are properties without a setter, and hasattr does not tell them from fields.
* `partial_weight_name_refuted`: An attribute name that is part of the names of two weights is an error, even when the rule is meant for nodes of one layer type: 'kernel' of a separable convolution.
* `replaced_twice_refuted`: Because the editor runs twice, a replacement whose node still matches is applied twice: weights 5 become 7, not 6.
* `late_candidate_edit_refuted`: A rule on candidates, applied after the bit widths were chosen, changes the final configuration of a configurable node of a mixed-precision run, because that configuration is the candidate itself, but not of the same node outside of mixed precision, where it is a copy.
* `replaced_function_type_refuted`: Replacing a functional layer leaves its type: later rules for the new type do not see it, rules for the old one do.

### C51 Distance metrics are zero exactly on equal tensors and non-negative

* `lp_exponent_zero_refuted`: the exponent 0: equal tensors are at distance one
* `cosine_zero_tensors_refuted`: equal tensors of zeros are at the largest cosine distance
* `cosine_zero_sample_refuted`: a sample of zeros in a batch is at distance 1/2 from itself, and at distance 1 when it is compared alone
* `cosine_axis_refuted`: with an axis and no batch the sum of the products runs over everything and the norms over lines: above one
* `divergence_whole_refuted`: the divergence needs an axis or a batch; with a batch only it is one number for all the samples
* `divergence_per_sample_refuted`: (see DistExProps.v)
* `divergence_negative_refuted`: lines with different sums: below zero
* `hmse_per_channel_refuted`: HMSE per channel: MSE prefers the first threshold for channel 0 and the second for channel 1, HMSE with equal scores takes the same for both
* `hmse_scores_misaligned_refuted`: channels on the last axis: the score 0 of an element does not hide an error in that element
* `hmse_zero_tensor_refuted`: per channel, the error of a tensor of zeros is a quotient by zero

### C52 Edge equality and graph pattern matching are sound

* `edge_equality_not_reflexive_refuted`: equal edges have the same ends and source index; edges with sink index equal to source index on both sides are equal exactly when all four agree; but an edge whose two indices differ is not equal to itself
* `single_node_pattern_refuted`: finding: a pattern of a single node is not found at a node with two consumers, or at the last node

### C56 The model gets the bit-widths the search chose

* `reused_activation_choice_ignored_refuted`: the configuration has an index of its own for a reused layer whose activations are searched, but it is ignored: here the search gave 4 activation bits to the reused layer and the model gets 8
* `reused_weights_differ_refuted`: when only activations are restricted, the candidates of the original layer are filtered but not those of the layer that reuses it; the same index then gives the two different bit-widths for the weights they share

### C57 A platform definition block is all or nothing

* `failed_block_stays_current_refuted`: a block that fails leaves its object current: the next component created outside any block is silently added to it
* `second_block_stays_current_refuted`: so does a second block on an object already defined

### C58 A pruned model is the original restricted to the kept channels and has the counted size

* `pytorch_inner_weights_lost_refuted`: PyTorch: the weights of a layer inside a section are replaced by an empty dictionary before they are read, so the pruned batch normalization has no parameters at all
* `shared_name_not_pruned_refuted`: masks are matched with sections by layer name: with two layers of one name nothing is built although the count succeeds

### C59 The shift lifts the observed minimum to zero or above

* `unlifted_minimum_refuted`: ratio 1 and a minimum that no point lifts: the shift is zero, and the node counts as unsigned
* `shifted_maximum_clipped_refuted`: the shifted maximum need not fit: values up to the threshold are clipped after the shift
* `searched_minimum_refuted`: with the search of parameters the minimum may stay negative

### C60 The points of the mixed-precision metric are an evenly spaced part of the eligible layers

* `points_share_counts_outputs_refuted`: The factor is a share of all eligible nodes, output nodes included, so fewer points may remain than the share of the nodes that can be points: with a half of two eligible nodes, of which the first is an output of the model, no point is left.

### C61 The mixed-precision metric is a mean of the distances

* `exp_weighting_monotone_refuted`: With exponential weighting a point that gets worse can lower the metric.
* `hessian_zero_scores_refuted`: Scores that are all zero (no point influences the output) make the metric raise.
* `zero_batch_raises_refuted`: A dense layer (cosine distance) whose outputs are all zero for a whole batch, next to any other point: the cosine distance is one number, the others one number per image, and no matrix can be built.
* `batches_of_cosine_refuted`: With the cosine distance the metric depends on the batches: two images with zero outputs count once when they are a batch of their own and twice when they are separate.

### C62 Replacing the bound of a ReLU by a power of two preserves the function

* `relu_threshold_refuted`: a Keras ReLU whose threshold is not 0 is changed too, and only its bound is moved (relu_bound_to_power_of_2.py L76-84 of the Keras substitutions)
* `functional_hardtanh_refuted`: functional.hardtanh with its bounds written as keyword arguments: the weights are rescaled but the node is called with the old bounds (PyTorch file L98-104)
* `hardtanh_defaults_refuted`: replacing functional.relu6 changes the default bounds of functional.hardtanh: other nodes that call it without bounds compute another function afterwards (PyTorch file L85-88)
* `relu_bound_raises_refuted`: a first layer without a bias, and functional.hardtanh without keyword arguments: the pass raises

### C63 Input scaling is undone by the first layer

* `several_inputs_refuted`: two inputs with different factors: only the last factor is kept, and it is applied to every input (gptq_training.py L393)
* `zero_input_refuted`: an input that was always zero: the pass raises

### C64 Shifting the layer before a softmax preserves the softmax and centres the range

* `unbiased_shift_refuted`: a layer without bias: its outputs stay where they were (use_bias is not set) but the recorded range moves, so that it no longer contains them (softmax_shift.py L64-70)
* `shifted_output_refuted`: a layer that is an output of the model besides being read by the softmax is matched too, and that output changes

### C65 Decomposing layers preserves the model

* `depthwise_output_refuted`: a depthwise layer that is one of several outputs of the model: all others are dropped

### C66 Rounding training ends on the quantization grid, next to the original weight

* `uniform_start_refuted`: FINDING (gptq/pytorch/quantizer/soft_rounding/uniform_soft_quantizer.py L124-127): the initial soft targets are computed on the stored range, the weights are quantized on the range moved to include zero; unless the stored range was adjusted already, training does not start at the float weight. Here 2 bits on [-0.7, 2.3]: the weight 0 starts at 0.7
* `keras_uniform_start_refuted`: FINDING (gptq/keras/quantizer/soft_rounding/uniform_soft_quantizer.py L146): the start is neither the float weight nor the nearest grid point, even on an adjusted range. Here 2 bits on [-1, 2]: the weight 3/4 starts, soft and hard, at 0
* `ste_pytorch_shared_shift_refuted`: FINDING (gptq/pytorch/quantizer/ste_rounding/symmetric_ste.py L125): the auxiliary variable has the shape of the thresholds, so all the weights of a channel are shifted together; shifts that Keras reaches are out of reach. Here 3 bits, threshold 4: the weights 0 and 1 cannot become 1 and 0
* `ste_per_tensor_limit_refuted`: FINDING (symmetric_ste.py L176-181, Keras L163-168): with one threshold for the tensor the limit max_lsbs_change is not passed on; a weight that must not move moves by a step

### C67 Finalizing a trained quantizer keeps the function that was trained

* `trained_pot_conversion_refuted`: FINDING (convert2inferable of qat/pytorch/quantizer/lsq/symmetric_lsq.py L107-113 and of the activation quantizers lsq L102-107, ste L101-106): with a power-of-two method the threshold is trained freely but exported rounded up to a power of two, so the exported model computes other values than the trained one. Here 2 bits, trained threshold 3: 1.5 stays 1.5 in training and becomes 2
* `one_bit_conversion_refuted`: the number of bits matters: with one signed bit a value half way between the two levels is rounded up by the trained quantizer and down by quantize_tensor

### C68 The model rebuilt from a graph computes the traced PyTorch model

* `repeated_tensor_in_list_refuted`: FINDING (graph_builders.py L381-390): a tensor that occurs twice gets consecutive input indices, which clash with the index of the tensor in between: cat([x, y, x]) is rebuilt as cat([x, x, y]).
* `repeated_tensor_order_refuted`: FINDING (graph_builders.py L381-390): the outcome depends on which tensor was computed first: cat([x, x, y]) is rebuilt as cat([x, y, x]) if y was computed before x.
* `repeated_tensor_around_constant_refuted`: FINDING (graph_builders.py L87-94, L248-251): where(x, c, x) with a constant c is rebuilt as where(x, x, c).
* `repeated_constant_refuted`: FINDING (graph_builders.py L248-251): a constant used twice in a call is recorded once; the call loses an argument (the mismatch is only logged, pytorch_model_builder.py L88).
* `repeated_keyword_tensor_refuted`: FINDING (graph_builders.py L381): edges are counted over the positional arguments only: f(x, o=x) loses the keyword argument.
* `nested_node_refuted`: FINDING (graph_builders.py L308): a node inside a tuple argument, as in reshape(x, (n, 3)), is left in place: the rebuilt call receives the fx node itself.
* `keyword_list_refuted`: FINDING (graph_builders.py L290-294): a list of tensors passed by keyword, as in cat(tensors=[x, y]), is passed twice, as tensors in front and as fx nodes by keyword.
* `layer_arguments_refuted`: FINDING (graph_builders.py L322-323): the arguments of a layer which are not tensors, positional or by keyword, are dropped.
* `returned_twice_refuted`: FINDING (graph_builders.py L214): a tensor returned twice is returned once by the rebuilt model.
* `list_output_refuted`: FINDING (pytorch_model_builder.py L63-66): a Python list returned by a node is passed on element by element: g(f(x)) is rebuilt as g(a, b) when f returns [a, b].
* `quantized_list_refuted`: FINDING (pytorch_model_builder.py L158-159): quantizing the outputs of a node that returns a list joins them into one tensor.

### C69 Reading a PyTorch model removes exactly what has no effect on its outputs

* `output_with_unused_consumer_refuted`: FINDING (reader.py L146): an output is treated like any other node once its consumers are removed, and then it cannot be removed: a model which returns x and also passes x to a node without output, such as an assertion, is refused.
* `input_of_unused_refuted`: FINDING (reader.py L150): an input that only feeds nodes without effect on the outputs stops the reader.
* `unused_first_use_refuted`: FINDING (reader.py L130-154, pytorch_model_builder.py L311-313): of two uses of one layer the second refers to the first for the operation to run. When the first has no effect on the outputs it is removed, the second is still marked as reused, and building the model from the graph fails.
* `returned_input_refuted`: FINDING (reader.py L176-178): a model that returns one of its inputs unchanged, without using it elsewhere, is refused as having a disconnected input.

### C70 Activation parameters reflect the statistics: sign, range, outliers and known bounds

* `low_threshold_removes_everything_refuted`: FINDING (outlier_filter.py L45): a z_threshold below 1 may mark every bin as an outlier; the parameter selection then fails on an empty array (ValueError).
* `constant_batch_signed_refuted`: FINDING (qparams_activations_computation.py L83 with histogram_collector.py L150-159): a constant batch is given the range value -+ 0.5, so a batch of zeros extends the histogram below zero; after merging with another batch part of its weight lies in a bin with a negative left edge, and an activation that was never negative gets signed parameters.
* `negative_side_clipped_refuted`: FINDING (symmetric_selection.py L131, power_of_two_selection.py L131): "no clipping" looks at the right edges of the non-empty bins only, so the most negative values fall outside the range.

### C71 Every quantization candidate gets parameters computed for its own configuration

* `empty_list_means_all_refuted`: FINDING (qparams_computation.py L83): an empty list of nodes is read as "all nodes".
* `no_channel_axis_refuted`: FINDING (qparams_computation.py L105-108, L129): the loop allows for an attribute without channel axes (output_channels_axis = None) and then reads .input of the missing mapping: AttributeError, whatever the parameter function returned.
* `ambiguous_name_loses_tensor_refuted`: FINDING (base_node.py L306-322 against node_quantization_config.py L472-480): when the name of an attribute is part of another attribute's name, the configuration falls back to the exact name but the tensor does not, so the parameter function is called on None.
* `position_beside_name_refuted`: FINDING (base_node.py L302-304): looking up the constant at a position in a node that also has a named weight compares an integer with a string by "in": TypeError.

### C72 Activation statistics: each collector sees its own tensor, with the right weights

* `hessian_weights_node_order_refuted`: FINDING (model_collector.py L193-204, hessian/activation_hessian_scores_calculator_pytorch.py L82-94): with Hessian-weighted activation statistics the scores are computed by taking the first tensors of the collected list as the targets and the remaining ones as the model outputs, but the list follows the order of the graph's nodes. After batch-normalization folding the folded convolution is the last node of the graph, behind the model's output: here input 0, output layer 1, folded convolution 2 (0 -> 2 -> 1). The input's weights are then taken with respect to the convolution instead of the model's output, the output layer is weighted, and the convolution is not.
* `hessian_weights_reused_layer_refuted`: FINDING (hessian_info_service.py L173-191, L301-303): when a layer is used twice, both uses are requested under the name of the layer, the scores are collected in a dictionary keyed by that name, and the list of its values is one element short: the first use gets the score of the second, and every node after the second use gets its successor's score or none. Here 0 -> 1 -> 2 -> 3 -> 4 where 1 and 2 are uses of one layer: node 1 is weighted by the score of node 2, node 2 by that of node 3, node 3 not at all.
* `hessian_weights_multiple_outputs_refuted`: FINDING (model_collector.py L248-251): ensure_matching_data_lengths is called with its arguments in another order than it declares them, and the Hessian score of a node with several outputs is one array: Hessian-weighted statistics stop with an error on any model where such a node collects, e.g. a split (0 -> 1 -> 2) feeding a convolution under bias correction. Without Hessian weighting the same model is processed.
* `weights_of_lower_rank_refuted`: FINDING (collectors/weighted_histogram_collector.py L41 against L101-105): weights with fewer dimensions than the tensor are checked with their dimensions aligned at the end and applied with their dimensions aligned at the beginning: weights for the columns of a 2x3 tensor pass the check and then raise, weights for the columns of a 2x2 tensor are applied to its rows.

### C73 Functional normalization and attention keep their meaning when turned into layers (PyTorch)

* `training_batch_norm_refuted`: FINDING (functional_batch_norm.py L73-104): training=True is not looked at. F.batch_norm(x, mean, var, w, None, training=True) normalizes by the statistics of the batch; it becomes a BatchNorm2d using the running statistics.
* `positional_eps_refuted`: FINDING (functional_batch_norm.py L86-91): eps is read from the keyword arguments only; given by position it is lost and the layer uses 1e-5. Here F.batch_norm(x, mean, var, w, b, False, 0.1, 3.0).
* `omitted_affine_refuted`: FINDING (functional_batch_norm.py L60-69): F.batch_norm(x, mean, var), with weight and bias left out, raises KeyError; only weight=None given by keyword is understood. Likewise F.layer_norm(x, shape) (functional_layer_norm.py L60-69).
* `keyword_order_statistics_refuted`: FINDING (functional_batch_norm.py L56-58): the statistics are taken by the order in which the tensors appear: F.batch_norm(x, running_var=v, running_mean=m, weight=w, bias=None) uses the variance as mean and the mean as variance.
* `layer_norm_many_dimensions_refuted`: FINDING (functional_layer_norm.py L85-89): normalized_shape is not read, the layer normalizes over the last dimension. F.layer_norm(x, (2, 2), w, None) on x = [[0, 0], [1, 1]] becomes a LayerNorm(2).
* `layer_norm_bias_only_refuted`: FINDING (functional_layer_norm.py L60-69): F.layer_norm(x, shape, bias=b), without weight, takes b as the weight too.
* `shared_query_key_refuted`: FINDING (scaled_dot_product_attention.py L60-64): query, key and value are the inputs in the order of the incoming edges. When query and key are the same tensor q and q is computed after the value v, attention(q, q, v) is computed as attention(q, v, q).
* `zero_scale_refuted`: FINDING (scaled_dot_product_attention.py L86-87): scale=0.0 is taken for an absent scale and replaced by 1/sqrt(d).
* `attention_dropout_refuted`: FINDING (scaled_dot_product_attention.py L176-184): F.scaled_dot_product_attention applies dropout_p whenever it is positive; the nn.Dropout put in its place does nothing in evaluation mode.
* `computed_mask_refuted`: FINDING (scaled_dot_product_attention.py L226-229): a mask that is computed in the model stays connected to the call, and removing the call fails with AssertionError.

### C74 A large matmul is decomposed into the same product (PyTorch)

* `matmul_with_itself_refuted`: FINDING (matmul_decomposition.py L136): input_shape holds one shape per distinct input tensor, so torch.matmul(x, x) of any number of dimensions raises IndexError.
* `matmul_constant_operand_refuted`: FINDING (matmul_decomposition.py L490): a constant operand has no edge; unpacking the incoming edges raises ValueError.
* `matmul_different_ranks_refuted`: FINDING (matmul_decomposition.py L139-140): torch.matmul of operands with different numbers of dimensions, such as (2, 3, 4, 5) x (5, 6), is valid but refused.
* `matmul_other_outputs_refuted`: FINDING (matmul_decomposition.py L208): when the matmul is one of several outputs of the model, the other outputs are lost.

### C75 A multi-head attention layer keeps its meaning when decomposed (PyTorch)

* `self_attention_refuted`: FINDING (multi_head_attention_decomposition.py L73): input_shape holds one shape per distinct input tensor, so self-attention, mha(x, x, x), raises ValueError; so does attention whose key and value are one tensor.
* `attention_batch_size_refuted`: FINDING (multi_head_attention_decomposition.py L84-111): the reshapes keep the batch size of tracing, so the model fails on any other batch size (the substitution making reshapes independent of the batch size runs before).
* `attention_indexing_refuted`: FINDING (multi_head_attention_decomposition.py L690): the layer returns a pair (output, weights), the node replacing it a tensor; indexing it with [0], which took the output, now takes the first sample of the batch.
* `attention_keyword_order_refuted`: (see MhaProps.v)

### C76 Activation bias correction cancels the mean activation error

* `channel_shift_refuted`: FINDING (compute_activation_bias_correction_of_graph.py L102-144): one shift, that of the whole tensor, is used for all input channels. Two channels that move in opposite directions: the estimated shift is zero and the error stays
* `bin_edges_refuted`: FINDING (compute_activation_bias_correction_of_graph.py L107-114): the centre of a quantized bin is the middle of its quantized edges, not the quantized centre. All data at 1/4 in the bin [0, 1]: quantized to 0, estimated shift 0
* `pooled_shift_refuted`: FINDING (compute_activation_bias_correction_of_graph.py L43-47, L102): the histogram is that of the quantized node, also when a pooling or padding layer that keeps the quantization lies in between and changes the distribution. The layer of ab_g behind a maximum over 1/4 and 3/4 reads 3/4 only
* `both_corrections_refuted`: FINDING (compute_activation_bias_correction_of_graph.py L128-144, statistics_correction.py L97-110): the term is computed with the float kernel but the exported layer reads the shifted activations through the quantized one. With both corrections on and every activation moved by exactly d the average is still off
* `padded_activation_correction_refuted`: FINDING (compute_activation_bias_correction_of_graph.py L91, L142): a 1x1 convolution with padding is corrected at the padded positions too, where it reads zeros that no quantizer moves
* `grouped_transposed_activation_refuted`: FINDING (compute_activation_bias_correction_of_graph.py L134-144): the kernel of a transposed PyTorch convolution in groups holds the output channels of one group only; the term is too short for the bias and subtracting it raises

### C77 Reshapes with static sizes give the same outputs, and the size computations go

* `size_used_twice_refuted`: FINDING (reshape_with_static_shapes.py L80-84): a size used for two axes, as in x.view(b, n, n), is cleaned twice; the second time it is no longer in the graph and networkx raises.
* `size_used_again_refuted`: FINDING (same lines): a size used directly and in a computed size, as in x.view(2 * b, b), stops the conversion in the same way, while x.view(b, 2 * b) does not.
* `batch_elsewhere_refuted`: FINDING (L60): the first axis is taken to be the batch. A model that moves the batch elsewhere, such as x.reshape(5, b) traced with b = 1, keeps the traced 1: with two samples the result is [10, 1] instead of [5, 2].
* `shape_keyword_refuted`: FINDING (L66): the keywords of the call stay. torch.reshape(x, shape=(2, 3)) becomes a call with the shape both as second positional argument and as keyword, which Python refuses.
* `view_dtype_refuted`: FINDING (L66): x.view(torch.int32) changes the element type, not the shape; its argument is replaced by a shape and the element type is lost.
* `size_input_refuted`: FINDING (L105): a size which is an input of the model, used for nothing else, stops the conversion: inputs cannot be removed.

### C78 Channels are pruned by the importance the metric promises

* `unimportant_channels_refuted`: FINDING (lfh_importance_metric.py L95-97): the sums over a group are multiplied, not the terms. Two channels of importance zero, one with zero weights and one with zero Hessian score, form a group of positive importance.
* `group_scores_out_of_order_refuted`: FINDING (same lines): for the same reason the groups, which are in the order of their channels' importance, need not be in the order of their own; the greedy search, which always keeps the first group of a layer and takes the groups of a layer in turn, keeps the group of lower score.

### C79 Activation quantizers run in the framework agree with the quantizers used to choose their parameters

* `torch_uniform_half_refuted`: FINDING (pytorch/quantizer/fake_quant_builder.py L141-167): an element half-way between two grid values goes to the even multiple of the step in PyTorch and to the even offset from the bottom of the range in numpy, so the two differ whenever the zero point is odd: range [-1, 2], two bits, element 1/2.
* `torch_one_bit_half_refuted`: FINDING (pytorch/quantizer/fake_quant_builder.py L51-54): the same for one signed bit.
* `keras_half_refuted`: FINDING (keras/quantizer/fake_quant_builder.py L164): TensorFlow rounds half up, so a model quantized in Keras differs from the numpy quantizer, and from PyTorch, on elements half-way between two grid values.
* `keras_positive_range_refuted`: FINDING (keras/quantizer/fake_quant_builder.py L137-144): PyTorch first extends the range to contain zero, Keras does not, and TensorFlow then moves the range instead of extending it: with range [2, 5] every element above 3 is cut to 3.
* `keras_bit_widths_refuted`: FINDING (keras/quantizer/fake_quant_builder.py L147-167): one bit, or more than sixteen, cannot be run in Keras.

### C80 A Keras model with nested models is read as one flat graph that computes the same

* `nested_skip_connection_refuted`: (see KReadExProps.v)
* `repeated_tensor_refuted`: (see KReadExProps.v)
* `nested_same_tensor_twice_refuted`: (see KReadExProps.v)
* `nested_model_called_twice_refuted`: FINDING (reader.py L163): a nested model called twice: the node of the second call is named <name>_reused_1 and the model is looked up under that name -- ValueError.
* `nested_pass_through_refuted`: FINDING (outputs_merger.py L47-51, nodes_merger.py L42-43): a nested model that returns one of its inputs: the input layer is removed from the nodes, and the output of the whole model refers to it.

### C81 Calls of functions and layers in a Keras model are rebuilt with the same arguments

* `number_before_tensor_refuted`: FINDING (core/keras/reader/node_builder.py L174-180, core/keras/back2framework/keras_model_builder.py L274): without constants the tensors are put in front of the other arguments: tf.subtract(2.0, x) becomes tf.subtract(x, 2.0), and tf.einsum('ij,jk->ik', a, b) is called with the equation last.
* `keyword_tensors_refuted`: FINDING (node_builder.py L106-107, keras_model_builder.py L274): tensors given by keyword are passed by position, in the order of their names: f(d=x) becomes f(x); tf.gather(params=x, indices=i) becomes tf.gather(i, x).
* `left_out_parameter_refuted`: FINDING (node_builder.py L103, keras_model_builder.py L250-259): a constant keyword is stored under the index of its parameter and looked up under its position among the arguments given. When a parameter in front of it is left out, the two differ: f(x, c=const) is refused, and in f(x, c=const, d=y) the constant and the tensor change places.
* `list_keyword_dropped_refuted`: FINDING (node_builder.py L106-107): the positions of constants in a list are taken for indices of parameters: with a constant in second place, the keyword axis (second parameter of tf.concat and tf.stack) is dropped -- tf.stack([x, const], axis=1) is built as tf.stack([x, const]).
* `list_number_dropped_refuted`: FINDING (node_builder.py L164-176): a number in the list is neither a tensor nor a constant and disappears: tf.stack([x, 1.0]) is built as tf.stack([x]).
* `list_constant_keyword_refuted`: FINDING (node_builder.py L100-103, base_node.py L367-371): a keyword of a list function given as an array is stored under the index of its parameter and put into the list: tf.stack([x, y], axis=array) stacks [x, axis, y].
* `sequences_refuted`: FINDING (node_builder.py L48-49): the first element of an empty list is looked at -- tf.reshape(x, []) raises an IndexError; a tuple of tensors is taken for a constant -- tf.concat((x, y), 0) raises in numpy.
* `single_list_refuted`: FINDING (keras_model_builder.py L275-280): a layer that is not a merge layer and is called on a list of one tensor is called on the tensor.
* `layer_keyword_tensor_refuted`: FINDING (node_builder.py L286-303, keras_model_builder.py L275-280): the keywords of a layer call are not read (a BatchNormalization called with training=True is built as a call without it), and a tensor among them becomes an element of the list of inputs: layer(x, mask=m) is built as layer([x, m]).

### C82 A Keras model read into a graph and built again computes the same

* `reused_name_taken_refuted`: FINDING (node_builder.py L231-239, instance_builder.py L66-67): a layer that the user named "a_reused_1", called after the second call of a layer "a", is taken for a further call of a layer of its own name, and building the model stops with an IndexError.
* `output_names_clash_refuted`: FINDING (keras_model_builder.py L183-187): the outputs are looked up by the names of the nodes. With a layer named "a_reused_1" inside a nested model and a layer "a" called twice outside, two nodes have one name, no error is raised, and the model built returns the nested layer's tensor in place of the output of the second call of "a".
* `shared_between_levels_refuted`: FINDING (connectivity_handler.py L232, node_builder.py L231): further calls of a layer are recognised within one level only. A layer called both in a model and in a model nested in it becomes two nodes of one name, two layers of one name are built, and Keras refuses them.
* `quantized_outputs_refuted`: FINDING (keras_model_builder.py L299-326, L152-157): an activation quantizer is called on all the tensors of a node at once and gives one tensor; a layer that reads the second output of a quantized node then fails with an IndexError.
* `constant_call_refuted`: FINDING (keras_model_builder.py L233-234): a node without incoming edges is taken for an input; a call on constants only is a KeyError.

### C83 The model of the mixed-precision search quantizes exactly what the search asks for

* `keras_further_call_refuted`: FINDING (core/keras/back2framework/mixed_precision_model_builder.py L193-196): the activation holders of a node are found by the name of the layer before them. All calls of a layer have the same layer before their holders, and a further call has a name that no layer has: the search cannot set the activation bit-width of a further call of a layer, and asking for it raises a ValueError.
* `same_bits_candidates_refuted`: FINDING (core/common/mixed_precision/configurable_quantizer_utils.py L48-57): a node whose candidates have the same bit-widths but are otherwise different counts as configurable, and then fails the check that bit-widths decrease.
* `crossed_bits_refuted`: FINDING (core/common/graph/base_node.py L565-578): if no candidate has the most bits for the weights and for the activation, the model of the search cannot be built, even when only the weights are searched.
* `other_weight_choice_refuted`: FINDING (core/common/mixed_precision/sensitivity_eval/sensitivity_evaluation.py L101-105): quantization of the weights of a node is kept if any of them offers a choice, but only the kernel can be configured: with a choice for another weight and a kernel that is quantized in one way the model of the search cannot be built.
* `several_outputs_refuted`: FINDING (core/pytorch/back2framework/mixed_precision_model_builder.py L126-170, same in Keras): a node with several outputs and a choice for its activation cannot be in the model of the search.
* `keras_unused_refuted`: FINDING (core/keras/back2framework/mixed_precision_model_builder.py L161-163): only layers on the way to an output are layers of the Keras model; a configurable node elsewhere has no quantizer, and asking for it raises a ValueError.

### C84 Hessian scores estimate the squared derivatives of all outputs

* `torch_weights_scale_refuted`: * FINDING (pytorch/hessian/weights_hessian_scores_calculator_pytorch.py L90): the scalar whose gradient is taken is the mean over the rows of the concatenated output, where Keras takes the sum. The rows are the classes when the model returns one tensor (a single output is not put in a list, and iterating over it goes through the images), and the images otherwise. So the scores of the weights of one and the same network differ by the square of the number of classes between the frameworks, and between returning the output alone or with a second output.
* `torch_channels_add_up_refuted`: * FINDING (pytorch/hessian/activation_hessian_scores_calculator_pytorch.py L131): scores of the output channels of an activation are means over the positions of the channel, while scores of tensors are sums (and Keras sums in both): in PyTorch the scores of the channels do not add up to the score of the tensor.
* `weights_of_two_input_models_refuted`: * FINDING (pytorch/hessian/weights_hessian_scores_calculator_pytorch.py L77): the list of the images is passed to the model as one argument (the calculator of activations spreads it). With one input it works, because a list returned by an operation is taken for the list of its outputs; with two inputs the first one gets both images and the second one raises.
* `keras_unused_activation_refuted`: * FINDING (keras/hessian/activation_hessian_scores_calculator_keras.py L101, L116-119, L152): an activation on which the outputs do not depend keeps its initial score, of one element, "considered to be 0"; but the scores of all activations are stacked, and those of the others have one element for each image: with more than one image the computation raises. (PyTorch returns the zero.)
* `scalar_output_refuted`: * FINDING (pytorch/hessian/hessian_scores_calculator_pytorch.py L53 and keras/hessian/hessian_scores_calculator_keras.py L72): a model whose single output has one value for each image (shape [batch]) gets no scores for its weights: the iteration goes over the values, which have no first axis.
* `flat_activation_per_image_refuted`: * FINDING (pytorch/hessian/activation_hessian_scores_calculator_pytorch.py L129): an activation with one value for each image (shape [batch]) has no axis to sum over, and a sum over an empty tuple of axes is a sum over all of them, the images included: one score for the whole batch.

### C85 TensorFlow function calls turned into Keras layers keep their meaning

* `explicit_padding_refuted`: FINDING (conv_funcs_to_layer.py L147, keras/reader/node_builder.py L48-49): padding given as a list of lists is taken for a constant array and stored with the weights, so the conversion finds no padding and builds a layer with padding "valid": the padding of the model is dropped without a message
* `channels_first_strides_refuted`: FINDING (conv_funcs_to_layer.py L195-198): four strides of a call in NCHW are read at the places of NHWC, and the check that the others are 1 asks for both to be larger: the layer gets the stride of the channels and of the height
* `default_layout_refuted`: FINDING (conv_funcs_to_layer.py L164-165): a layout given as None, the default of tf.nn.convolution, is looked up in a table of names: the conversion stops with a key error
* `grouped_function_refuted`: FINDING (conv_funcs_to_layer.py L167): the layer always has one group: a grouped convolution, whose kernel has fewer input channels than the image, becomes a layer that refuses the image
* `depthwise_layout_refuted`: FINDING (conv_funcs_to_layer.py L228-265): the layout of a depthwise convolution is not looked at: the layer takes the last axis for the channels
* `channels_first_addition_refuted`: FINDING (conv_funcs_to_layer.py L50-57): tf.add of a vector behind a convolution in NCHW adds along the width; the conversion makes it the bias of the channels
* `single_addition_refuted`: FINDING (conv_funcs_to_layer.py L50-57): a vector of one entry is added to all channels; the conversion makes it the bias of a layer with more channels, which is refused
* `output_absorbed_refuted`: FINDING (conv_funcs_to_layer.py L40-44, L87-90): whether the convolution is itself an output of the model is not looked at; if it is, absorbing the addition stops when the node is removed
* `transposed_operand_refuted`: FINDING (matmul_substitution.py L62-66): the flags transpose_a, adjoint_a and adjoint_b are looked up in the configuration of the layer around the function, not among the arguments of the call, so they are ignored
* `adjoint_operand_refuted`: (see FnLayExProps.v)
* `constant_first_refuted`: FINDING (matmul_substitution.py L68-73): a constant in the first place, tf.matmul(w, x), stops the conversion
* `two_tensors_swish_refuted`: FINDING (sigmoid_mul_to_swish.py L63-66): the nodes are compared, not the tensors: a product of one output of a node with the sigmoid of another of its outputs is replaced, and the first output is no longer read
* `three_factors_refuted`: FINDING (sigmoid_mul_to_swish.py L63-88): the number of tensors multiplied is not looked at: with a third one the node that is to be removed still has an edge, and the substitution stops

### C86 The layers a Keras MultiHeadAttention is broken into compute the attention

* `kmha_one_head_refuted`: FINDING (core/keras/graph_substitutions/substitutions/multi_head_attention_decomposition.py L347-350 with core/keras/back2framework/keras_model_builder.py L278-279): a layer with one head is replaced by nodes that cannot be run: the single head is passed to Concatenate as a tensor, which Concatenate refuses.
* `kmha_without_bias_refuted`: FINDING (multi_head_attention_decomposition.py L231-233): a layer without biases (use_bias=False) stops with an IndexError: the bias weights are looked up whatever use_bias says.
* `kmha_inputs_exchanged_refuted`: FINDING (multi_head_attention_decomposition.py L417): the inputs of the layer are told apart by the order in which the edges are listed, not by their input index. The reader lists edges source by source, so a layer called with a query that comes from a node read after the node of the value has the two exchanged: here the layer (node 2) reads its query (input 0) from node 1 and its value (input 1) from node 0.
* `kmha_key_of_query_refuted`: FINDING (multi_head_attention_decomposition.py L417): a layer called with query and key from one tensor and another value: the edges come grouped by source, so value and key are exchanged even if the edges were added in order.
* `kmha_split_inputs_refuted`: FINDING (multi_head_attention_decomposition.py L422-425): with query and value two outputs of one node (a split), both are read from the output of the first edge: get_edge_data(u, v, 0).

### C87 The exported model computes with the weights and activations the configuration stands for

* `kernel_in_layer_name_refuted`: FINDING (core/keras/keras_implementation.py L605-612 with node_quantization_config.py L468-483): the exporter looks a weight up by the last part of its name, among all names that contain it. The full name starts with the name of the layer, so a layer whose own name contains "kernel" cannot be exported, although its weights are quantized.
* `exported_half_refuted`: FINDING (exporter/model_wrapper/keras/builder/node_to_quantizer.py L52-59): an entry half-way between two grid values is rounded up by the exported Keras layer and to the even value by the toolkit, so the exported weights are not those on which bias correction and the mixed-precision search were based.
* `exported_one_bit_refuted`: FINDING (the same lines): the toolkit quantizes weights to one bit, or to more than sixteen; TensorFlow's quantizer of the exported layer takes two to sixteen.
* `exported_positive_range_refuted`: FINDING (exporter/model_wrapper/keras/builder/node_to_quantizer.py L100-105 with core/keras/quantizer/fake_quant_builder.py L137-144): for a range that does not contain zero the exported quantizer and the one used inside the toolkit differ.

### C88 Data generation lowers a learning rate exactly when the losses have stalled

* `flat_negative_loss_refuted`: FINDING (data_generation/pytorch/optimization_functions/lr_scheduler.py L174-176, keras L152-154): the relative threshold is applied to the signed loss. For a negative loss "better than the best" asks for less than an improvement, so a loss that stays at the same negative value counts as improving forever and the rate is never lowered; the loss of the default output loss (negative_min_max_diff) is negative.

### C89 Data generation returns the asked number of images, of the asked size, with valid pixels

* `keras_remainder_refuted`: FINDING (data_generation/keras/optimization_utils.py L282): the last batch is split into batch_size pieces too, so generating a number of images that is not a multiple of the batch size fails after the whole optimization.
* `keras_clipping_refuted`: FINDING (data_generation/keras/image_operations.py L96-110): clipping indexes rows of the image as if they were channels. With image_clipping every image comes back black from the fourth row on, whatever was optimized.
* `torch_identity_size_refuted`: FINDING (data_generation/pytorch/optimization_functions/image_initilization.py L106, L123): 32 pixels are always added to the initial size. The smoothing pipeline cuts them off; with the identity pipeline the images come back 32 pixels larger in each direction than asked for, and image_clipping has no effect.
* `no_iteration_refuted`: FINDING (data_generation/pytorch/pytorch_data_generation.py L361): the last loss is read after the loops, so a run of zero iterations fails instead of returning the initial images.

### C90 The batch-normalization loss of data generation compares the statistics of the chosen images with those of the model

* `updated_statistics_refuted`: FINDING (pytorch_data_generation.py L346-352, keras_data_generation.py L264-269): after a step the statistics of the batch are "updated" without another forward pass, so those of the layers stay the ones of the images before the step. Here batch 0 has become 2 and batch 1 is 0: their mean is 1, but the loss of the next step compares the mean 0.
* `unequal_batches_refuted`: FINDING (pytorch optimization_utils.py L140-162, keras L147-167): the means of the batches are averaged whatever their sizes, so a smaller last batch weighs more. Batches 0, 0 and 3: the mean is 1, the loss compares 3/2.
* `keras_variance_refuted`: FINDING (keras optimization_utils.py L394, L400, L147-167): the variance of each batch is kept as "second moment" and averaged: batches 1, 1 and 3, 3 have variance 1 together, the loss compares 0.
* `torch_matching_statistics_refuted`: FINDING (pytorch model_info_exctractors.py L68, optimization_utils.py L161, L326): 1e-6 is added to the variance of the images but not to the variance of the model, so images with exactly the statistics of the model still have a loss.
* `torch_no_layers_refuted`: FINDING (pytorch model_info_exctractors.py L63, pytorch_data_generation.py L227-229): the image counts as a layer, so a model without batch normalization is not refused by PyTorch, and "first layer" weighting favours the image, never the first layer (bn_layer_weighting_functions.py L43-61).

### C91 The loss of GPTQ training weights the error of each layer as its score asks for

* `single_layer_refuted`: FINDING (gptq/common/gptq_training.py L216-219): np.squeeze removes the axis of the layers as well when there is one layer, and np.partition refuses the number that is left: GPTQ with Hessian weights stops on a model with one trained layer.
* `keras_normalized_refuted`: FINDING (gptq/keras/gptq_loss.py L32): The Keras mse_loss divides by the mean square when it is not to be normalized.
* `keras_batch_refuted`: FINDING (gptq/keras/gptq_loss.py L65, L147): The same outputs in each of the samples, a batch twice as large: the Keras loss is twice as large, and with it the share of the loss against the rounding regularization.
* `torch_average_refuted`: FINDING (gptq/pytorch/gptq_loss.py L63, gptq_training.py L141): The equal weights 1 / n do not give the average error: the mean divides by the number of layers once more.
* `column_weights_refuted`: FINDING (gptq/common/gptq_training.py L212-213): With log_norm switched off the scores do not weight their layers.
* `least_layer_refuted`: FINDING (gptq/common/gptq_training.py L229): The layer of the least score has weight zero: with the default configuration its error has no part in the loss, which is zero although the outputs of that layer differ.
* `keras_sla_rows_refuted`: FINDING (gptq/keras/gptq_loss.py L93): the intended distance per sample is not what Keras computes.

### C92 Every GPTQ epoch trains on each representative sample once, beside its own weights

* `planned_refuted`: FINDING (trainable_infrastructure/common/util.py L22-27; gptq/common/gptq_training.py L69-70; core/pytorch/data_util.py L134-153): the schedules count the batches of the generator, training makes its own of the size of the first one: for batches of one, two and two samples there are five steps an epoch where three are planned, so annealing ends before the epochs do.

### C93 GPTQ training gives every trained layer its own results and leaves the rest of the model as it was

* `keras_reg_order_refuted`: FINDING (gptq/keras/quantizer/soft_rounding/soft_quantizer_reg.py L53-75; gptq/keras/gptq_training.py L135-143): the weights are in the topological order of the compare points, the layers in the order of model.layers, by distance to the outputs: with a branch of one layer beside a branch of two the weights of layers are exchanged.
* `trained_bias_refuted`: FINDING (core/common/graph/base_node.py L303-304, L334-339; gptq/keras/gptq_training.py L446): the bias goes to the only weight whose name has "bias" in it; in Keras that name has the name of the layer in it: for a layer called bias_conv the trained bias is added as another weight, and the old one stays.

### C94 The INT8 TFLite exporter replaces a dense layer by a pointwise convolution with the same output

* `dense_exported_refuted`: FINDING (exporter/model_exporter/keras/int8_tflite_exporter.py L115, L123-124, L142-143): dense layers with a uniform weight quantizer, with a kernel that is not quantized, or with an input of unknown inner dimensions are not exported but make the export fail.

### C95 With concat_threshold_update the layers that feed only a concatenation are quantized with its threshold, all others as before

* `pot_input_refuted`: FINDING (core/keras/graph_substitutions/substitutions/concat_threshold_update.py L63-64, core/pytorch/.../concat_threshold_update.py L62-63): the quantization method of the previous node is not looked at; a power-of-two node whose concatenation is symmetric gets a threshold that is no power of two, which a power-of-two quantizer refuses.
* `several_candidates_refuted`: FINDING (concat_threshold_update.py, Keras L63-64, PyTorch L62-63): contrary to the description (no change for several candidates, no change for uniform quantization) a previous node with several candidates gets the threshold in its first candidate only, and a previous node with uniform quantization gets a threshold besides its range.
* `nested_concat_refuted`: FINDING (concat_threshold_update.py L63, functional_node.py L105-106): a node is taken for a concatenation by the name of its function, but a previous node is left alone only if its type is the very object; with another function object of this name the threshold of a concatenation that feeds a concatenation is overwritten, and its inputs are left with a threshold that is not its own any more.

### C96 The explainable quantization report contains, for every quantized layer with a float counterpart and for the outputs, the averages of the metrics of the right pair of tensors

* `xquant_no_data_refuted`: FINDING (xquant/common/similarity_calculator.py L184-185): without data the outputs are averaged first, so that the report fails with a division by zero; the message for an empty list (L190-191) is never reached.
* `xquant_keras_outputs_refuted`: FINDING (xquant/keras/model_analyzer.py L65, L73, L85-89): the predictions of a Keras model with several outputs are a list, on which numpy() is called; the concatenation that follows is never reached.
* `cs_keras_refuted`: FINDING (xquant/keras/similarity_functions.py L55): tf.keras.losses.CosineSimilarity is a loss, the negative of the cosine; what Keras reports as cosine similarity is the negative of what PyTorch reports, and -1 for equal tensors.
* `mse_unequal_batches_refuted`: FINDING (xquant/common/similarity_calculator.py L184-192): batches are not weighted by their size; with a smaller last batch the reported MSE is not that of the data set.
* `keras_last_sample_refuted`: FINDING (xquant/keras/model_analyzer.py L65-73): if no layer is compared, the Keras model that is built has one output and returns the tensor itself; its element [-1] is the last sample of the batch, and the output metrics are computed from this sample alone.

### C97 PyTorch functions that are replaced by layers: the layer computes what the call computed, and a transposed convolution keeps the size of its output

* `positional_stride_refuted`: FINDING (const_holder_conv.py L71): the attributes of the layer are those of the keyword arguments; stride, padding, dilation and groups given by position are dropped, so conv2d(x, w, b, 2) becomes a convolution with stride 1
* `no_bias_refuted`: FINDING (const_holder_conv.py L71-80, instance_builder.py L35-37): the flag bias is not set, and a layer has a bias by default; for a call without bias the missing entry is ignored when the weights are loaded, and the layer keeps the random bias it was created with
* `weight_first_refuted`: FINDING (const_holder_conv.py L61, functional_linear.py L51): the weight is required at index 1 of the inputs; linear(weight=w, input=x) is a critical error
* `dilated_padding_refuted`: FINDING (convtranspose_dynamic_padding.py L51-57): PyTorch accepts an output padding below the stride or below the dilation, but only sizes less than a stride above the smallest one are accepted here: with a dilation above the stride, a layer that works is refused with ValueError, for every input size
* `reused_padding_refuted`: FINDING (convtranspose_dynamic_padding.py L74): a layer that is used twice with different output sizes keeps the padding of its first use

### C98 Second moment correction gives batch normalizations the moving statistics of the calibration data and touches nothing else

* `unfolded_bn_changed_refuted`: FINDING (apply_second_moment_correction.py PyTorch L47-52, L64-71, Keras L44-49, L58-65; node_quantization_config.py L449): the flag is that of the configuration for every node, and only convolutions without a folded batch normalization lose it; a batch normalization of the user's model that was not folded is put into training mode as well, and its trained statistics are replaced: the layer computes something else afterwards though it has no quantized weight
* `keras_training_mode_refuted`: FINDING (Keras apply_second_moment_correction.py L52): the whole model runs in training mode, so layers that behave differently in training, like dropout, are active while the statistics are collected: the statistics are not those of the tensors the model computes in inference
* `single_position_refuted`: FINDING (PyTorch apply_second_moment_correction.py L54-56): representative batches of one sample that reach a batch normalization with a single pixel stop the run with ValueError

### C99 The output losses of data generation fall as the outputs of the model spread wider, and the regularized loss is measured against the last linear layers

* `shared_search_refuted`: FINDING (pytorch model_info_exctractors.py L161-176): there is one flag and one list for all outputs. With the outputs (fc1, relu(fc0)) the search ends with fc1; with the outputs (relu(fc0), fc1) it finds fc1 before fc0, so that the output relu(fc0) is compared with the kernel and the input of fc1.
* `doubled_layer_refuted`: FINDING (pytorch model_info_exctractors.py L169-171): weights are kept in a list, inputs in a dictionary by name. A layer that two outputs lead to is found twice: two kernels, one input, and the second output does not count.
* `keras_inverse_refuted`: FINDING (keras output_loss_functions.py L105): without a mean over the images an image with a constant output dominates the inverse loss of Keras whatever the other images do; in PyTorch it does not.
* `keras_other_length_refuted`: FINDING (keras output_loss_functions.py L53-55): the length that is compared with is that of the input of the last batch normalization, not of the input of the linear layer: two such inputs give the same outputs of the same layer different losses.

### C100 Preparing a model for quantization-aware training gives each quantized kernel one trainable quantizer that fits the training method and carries its final configuration

* `qat_other_weights_refuted`: FINDING (qat/{pytorch,keras}/quantization_facade.py qat_wrapper, the TODO there): weights other than the kernel are never wrapped, though their quantization is enabled -- the bias of this convolution stays in float, and so do the constants of a node without kernel; post-training quantization of the same node quantizes them
* `dqa_refuted`: FINDING (qat/pytorch/quantizer/__init__.py): TrainingMethod.DQA is offered, but the module with its class is not imported (and there is none for Keras or for activations): every layer with a quantized kernel is refused
* `qat_keras_outputs_refuted`: FINDING (qat/keras/quantizer/quantization_builder.py L108): the Keras builder makes a quantizer for each output, which the holder then refuses: a node with several quantized outputs cannot be prepared in Keras; in PyTorch the same node can
* `qat_freeze_lsq_refuted`: FINDING (trainable_infrastructure/{pytorch,keras}/activation_quantizers/lsq): freezing the quantization parameters of activations, which the base class provides for, is refused for LSQ because its constructors do not take the argument; STE takes it
* `gptq_ste_uniform_refuted`: GPTQ: soft rounding exists for the three methods; straight-through rounding only for the symmetric ones FINDING (gptq/{pytorch,keras}/quantizer/ste_rounding): uniform kernels are refused with RoundingType.STE

### C101 Output ranges taken as known in advance hold for every input, and the reported minimum and maximum then cover every value seen

* `gelu_prior_refuted`: FINDING (core/pytorch/default_framework_info.py L76, core/keras/default_framework_info.py L99): GELU in its tanh form goes below the -0.17 of the tables (by about 4e-5).
* `keras_activation_refuted`: FINDING (core/keras/default_framework_info.py L128): nothing is ever known of an Activation layer, the sigmoid, tanh and softmax included, though there is a table for them: the class of the node is asked whether it is an instance of Activation, which no class is. What the table says would be right of all but GELU.
* `reported_above_seen_refuted`: FINDING (core/common/collectors/statistics_collector.py L104-122): the known end takes the place of the one seen, even if a smaller value has been seen: an ELU layer with alpha 2 whose outputs include a value below -1 has -1 reported for its minimum; a ReLU layer with threshold 1 and output zero has 1 reported.

### C102 A quantized model written to a file computes in the file what it computes in memory, as far as the format allows

* `onnx_fq_wide_refuted`: FINDING (exporter/model_exporter/pytorch/fakely_quant_onnx_pytorch_exporter.py L76-94): activations quantized to 16 bits are not quantized at all in the fakely-quant ONNX file, which then computes something else than the model.
* `torchscript_function_refuted`: FINDING (exporter/model_exporter/pytorch/base_pytorch_exporter.py L149-151): TorchScript besides needs every wrapped child to be a module: a model with a quantized constant, where a function is wrapped, cannot be exported, the function being assigned in the place of a module.
* `torchscript_constant_refuted`: (see SaveProps.v)
* `onnx_tensor_names_refuted`: FINDING (fakely_quant_onnx_pytorch_exporter.py L123): for a dataset that gives a single tensor, which the exporter otherwise allows for (L120), the inputs are counted by the batch size: the one input has as many names as there are samples in the batch.
* `keras_fq_refuted`: FINDING (exporter/model_exporter/keras/fakely_quant_keras_exporter.py L96-103, L165-185): a model with a quantized constant (another layer wrapped) or with an activation quantized by a lookup table has no fakely-quant file.
* `keras_metadata_refuted`: FINDING (exporter/model_exporter/keras/fakely_quant_keras_exporter.py L124-127, fakely_quant_tflite_exporter.py L54-57): the metadata is deleted from the model of the caller: a model exported in a fakely-quant format, and afterwards with its quantizers, has lost its metadata in the second file too.

### C103 Prepared for single precision, a model has one configuration per layer: the platform's, with the requested bit-widths

* `requested_option_refuted`: FINDING (set_node_quantization_config.py L151, graph_prep_runner.py L174): a manual request only overwrites the bit-width of the base configuration, and in single precision the base configuration is all that is kept. When the options of the platform differ in more than their bit-widths, the node ends up with a combination (here 4 bits with the quantization method of the 8-bit option) that is not an option of the platform; in mixed precision the same request selects the 4-bit option.

### C104 A quantization call is made in the precision that its own target asks for

* `later_call_refuted`: FINDING (core/runner.py L93; quantization_facade.py of ptq, gptq and qat, default core_config=CoreConfig()): a call with a target switches mixed precision on in the configuration object of the caller and nothing switches it off, and the functions share one default object between all calls. After one call with a target, every later call with the same object and no target raises, whatever the model; so does every later call whose target bounds nothing, unless the configuration gives the choice.
* `default_configuration_refuted`: FINDING (the same default object): with no configuration passed, the second of two calls raises, though alone it returns.
* `given_choice_history_refuted`: FINDING (core/runner.py L93, L128-131): with a choice given in the configuration, a later call whose target bounds nothing is quantized with that choice in mixed precision, though alone it is quantized in single precision.
* `given_choice_target_refuted`: FINDING (core/runner.py L128-131, L192-219): a choice given in the configuration is not compared with the target; the call returns and reports a use of memory above the bound.
* `no_configuration_refuted`: FINDING (core_config.py L31-32): the documentation says that with mixed_precision_config=None a default configuration is used; a call with a target raises instead.
* `qat_bypass_refuted`: FINDING (qat/pytorch|keras/quantization_facade.py): the functions for quantization-aware training ignore the bypass.

### C105 Every operation of a framework gets the options of the operator set of its kind

* `average_pooling_refuted`: FINDING (attach2keras.py L82): tf.nn.avg_pool2d is listed with the maximum pooling. On every platform it gets the options of the operator set MaxPool (none if there is none), and never those of AvgPool, which the layer AveragePooling2D gets.
* `max_pooling_refuted`: FINDING (attach2keras.py L82): the function tf.nn.max_pool2d is in no row of the Keras table, so that on every platform it falls back to the default options, unlike the layer MaxPooling2D and unlike max_pool2d in PyTorch.
* `hard_tanh_refuted`: FINDING (attach2pytorch.py L56-57): the operator set HardTanh means different functions in the two frameworks: in Keras the hard tanh itself, in PyTorch only Hardtanh(min_val=0), so that hard tanh with its default range is in no operator set.

### C106 Saving and loading a training quantizer keeps it, and finishing training keeps the right weights

* `saved_options_refuted`: FINDING (trainable_infrastructure/keras/base_keras_quantizer.py L42, L57): the keyword arguments of a quantizer (freeze_quant_params, or what QATConfig passes as weight_quantizer_params_override and activation_quantizer_params_override) are not saved: a quantizer made with frozen parameters is loaded as one whose parameters are not frozen.
* `saved_candidates_refuted`: FINDING (trainable_infrastructure/keras/config_serialization.py L54, L75-87; qat/keras/quantizer/quantization_builder.py L73-91): the list of candidates of a quantizer is handed over as objects that a file cannot hold, so that a model being trained after a mixed-precision search (whose quantizers have candidates) cannot be saved. A layer copied through its configuration, without a file, loses the list.
* `activation_array_refuted`: FINDING (trainable_infrastructure/keras/config_serialization.py L74, L85): arrays of a file that keeps them as dictionaries are unpacked for weights only; an array among the parameters of an output is loaded as that dictionary, not as numbers.
* `same_names_refuted`: FINDING (trainable_infrastructure/keras/load_model.py L45-52): the classes are put into a dictionary under their names before the names are compared, so that the refusal of classes with the same name never happens: the last one is used for every quantizer of that name, and get_all_subclasses, a set, does not say which one is last.
* `shared_weight_name_refuted`: FINDING (trainable_infrastructure/keras/quantize_wrapper.py L87-94): weights are told apart by the last part of their names, so that a layer with two weights of the same last part (kernels of two inner layers) can never be finished.

### C110 The QNNPACK and TFLite platform descriptions configure the operations they describe

* `qnnpack_base_unused_refuted`: FINDING (qnnpack_tpc/v1/tpc.py L120-186): the base configuration with the quantized kernel is not used: whatever it is, every operation gets the default options.
* `qnnpack_weights_refuted`: FINDING (same): on this platform no weight of any node is quantized, in neither framework, although kernels should have 8 bits; activations are quantized with powers of two, not uniformly.
* `tflite_preserving_refuted`: FINDING (tflite_tpc/v1/tpc.py L148 with node_quantization_config.py L106-107): the operations declared to preserve the quantization of their input keep their own quantization enabled; the constructor of the configuration of a node refuses that combination with a ValueError.
* `tflite_loading_refuted`: FINDING (same): so a model with a node for which this platform asks to preserve the quantization cannot be loaded, whatever the rest of the model is.

