{"id": "C01", "title": "Symmetric fake-quantization lands on the integer grid and inside the range", "statement": "For every tensor, positive threshold t, bit-width n and signedness, every element returned by symmetric / power-of-two fake-quantization is k*delta with delta = t/2^(n-s), where k is an integer in [-2^(n-1), 2^(n-1)-1] when signed and in [0, 2^n-1] when unsigned; so the output can be stored in n bits without loss and has at most 2^n distinct values.", "quantifier": "every rational input value, every threshold > 0, every bit-width >= 1, both signedness modes", "why_tests_cant": "A test samples finitely many values/thresholds/bit-widths; off-by-one in the clip bound only shows at the saturation edge.", "anchors": ["model_compression_toolkit/core/common/quantization/quantizers/quantizers_helpers.py:quantize_tensor", "model_compression_toolkit/core/common/quantization/quantizers/quantizers_helpers.py:calculate_delta", "model_compression_toolkit/core/common/quantization/quantizers/uniform_quantizers.py:power_of_two_quantizer"]}
{"id": "C02", "title": "Fake-quantization error is at most half a step inside the range and saturates outside", "statement": "Whenever the input lies between the smallest and the largest grid point, |Q(x)-x| <= delta/2; an input above (below) the range maps exactly to the largest (smallest) grid point.", "quantifier": "every input value, threshold, bit-width, signedness", "why_tests_cant": "Bound over a continuum of inputs; rounding ties and clip boundary are measure-zero cases.", "anchors": ["model_compression_toolkit/core/common/quantization/quantizers/quantizers_helpers.py:quantize_tensor", "model_compression_toolkit/core/common/quantization/quantizers/quantizers_helpers.py:uniform_quantize_tensor"]}
{"id": "C03", "title": "Fake-quantization is idempotent and monotone", "statement": "Quantizing an already quantized tensor with the same parameters returns it unchanged (so the exported quantizer can be re-applied), and x <= y implies Q(x) <= Q(y), for both the symmetric and the uniform quantizer.", "quantifier": "all pairs of inputs and all parameters", "why_tests_cant": "Relational property over all pairs of inputs.", "anchors": ["model_compression_toolkit/core/common/quantization/quantizers/quantizers_helpers.py:quantize_tensor", "model_compression_toolkit/core/common/quantization/quantizers/quantizers_helpers.py:uniform_quantize_tensor"]}
{"id": "C04", "title": "Uniform quantization range always represents zero exactly", "statement": "For every range with min < max, the adjusted range returned for uniform quantization contains 0, has 0 as one of its 2^n points, its width is preserved when the original range straddles zero, and quantizing 0 gives exactly 0; every output lies inside the adjusted range.", "quantifier": "every (min,max) pair with min<max, every bit-width, every input", "why_tests_cant": "The zero-point rounding has infinitely many boundary cases.", "anchors": ["model_compression_toolkit/core/common/quantization/quantizers/quantizers_helpers.py:fix_range_to_include_zero", "model_compression_toolkit/core/common/quantization/quantizers/quantizers_helpers.py:uniform_quantize_tensor"]}
{"id": "C05", "title": "Power-of-two threshold is the least power of two covering the data", "statement": "The threshold selected without clipping for power-of-two quantization is the least power of two whose signed integer range contains every value of the tensor (raised to the minimal threshold), so no value is clipped; the ranges selected from observed min/max or histograms cover the observed data; a user minimal threshold that is not a power of two must not make the result a non power of two.", "quantifier": "every non-empty tensor, every positive minimal threshold", "why_tests_cant": "Covers all magnitudes; ceil(log2) boundaries are unbounded in number.", "anchors": ["model_compression_toolkit/core/common/quantization/quantizers/quantizers_helpers.py:max_power_of_two", "model_compression_toolkit/core/common/quantization/quantization_params_generation/power_of_two_selection.py:power_of_two_no_clipping_selection_min_max", "model_compression_toolkit/core/common/quantization/quantization_params_generation/qparams_search.py:qparams_selection_tensor_search"]}
{"id": "C06", "title": "Look-up-table quantization assigns the nearest representable centre", "statement": "LUT quantization returns for each weight threshold*c/2^(b-1) for a LUT entry c, and no other LUT entry is closer to the scaled weight; the LUT is integer, within the multiplier bit range and contains 0 so that exactly zero weights stay zero when the LUT is built from the k-means centres.", "quantifier": "every tensor, LUT, threshold and multiplier bit-width", "why_tests_cant": "Nearest-neighbour claims quantify over all entries and all weights, ties included.", "anchors": ["model_compression_toolkit/core/common/quantization/quantizers/quantizers_helpers.py:kmeans_assign_clusters", "model_compression_toolkit/core/common/quantization/quantizers/quantizers_helpers.py:int_quantization_with_threshold", "model_compression_toolkit/core/common/quantization/quantizers/lut_kmeans_quantizer.py:lut_kmeans_quantizer", "model_compression_toolkit/core/common/quantization/quantization_params_generation/lut_kmeans_params.py:lut_kmeans_tensor"]}
{"id": "C07", "title": "Power-of-two threshold search returns a minimiser of the error over the searched thresholds", "statement": "For every error function, the threshold returned by the tensor search has error no larger than every one of the n_iter examined thresholds, per tensor and per channel, unless that minimiser lies below the minimal threshold, in which case the minimal threshold is returned.", "quantifier": "every error function, tensor, number of channels, number of iterations", "why_tests_cant": "The claim ranges over all error functions and tensors.", "anchors": ["model_compression_toolkit/core/common/quantization/quantization_params_generation/qparams_search.py:qparams_selection_tensor_search", "model_compression_toolkit/core/common/quantization/quantization_params_generation/qparams_search.py:qparams_selection_histogram_search"]}
{"id": "C08", "title": "Iterative symmetric/uniform range search never returns a range worse than one it evaluated", "statement": "For every error function, the range returned by the iterative decreasing-grid search has error no larger than every range it evaluated, in particular no larger than the initial no-clipping range; the loop stops after at most the configured number of iterations.", "quantifier": "every error function, data vector, grid, iteration budget", "why_tests_cant": "Unbounded number of search histories.", "anchors": ["model_compression_toolkit/core/common/quantization/quantization_params_generation/qparams_search.py:qparams_symmetric_iterative_minimization", "model_compression_toolkit/core/common/quantization/quantization_params_generation/qparams_search.py:qparams_uniform_iterative_minimization"]}
{"id": "C09", "title": "Min/max statistics cover every value ever observed", "statement": "After any sequence of batches, positive scalings and shifts the reported per-channel and global minimum and maximum are exactly the extrema of all observed (transformed) data, so every observed activation lies inside the reported range; user-given initial values replace them as documented.", "quantifier": "every finite sequence of batches of any shape", "why_tests_cant": "Quantifies over all histories of collector updates.", "anchors": ["model_compression_toolkit/core/common/collectors/min_max_per_channel_collector.py:MinMaxPerChannelCollector", "model_compression_toolkit/core/common/collectors/statistics_collector.py:StatsCollector"]}
{"id": "C10", "title": "Histogram statistics conserve the number of observed samples", "statement": "After any sequence of batches the merged histogram returned to threshold selection has strictly increasing bins spanning the global min/max, non-negative counts, and total count equal to the number of observed values.", "quantifier": "every finite sequence of batches, any bin count", "why_tests_cant": "Merging re-bins arbitrarily many histograms with different supports.", "anchors": ["model_compression_toolkit/core/common/collectors/histogram_collector.py:HistogramCollector", "model_compression_toolkit/core/common/collectors/histogram_collector.py:interpolate_histogram"]}
{"id": "C11", "title": "Mean statistics equal the mean over all observed batches", "statement": "After any sequence of equally sized batches the reported per-channel mean equals the arithmetic mean of all observed values in the channel, and is always within the observed min and max.", "quantifier": "every finite sequence of batches", "why_tests_cant": "Running-average recurrences drift only after particular histories.", "anchors": ["model_compression_toolkit/core/common/collectors/mean_collector.py:MeanCollector"]}
{"id": "C12", "title": "KL error helpers conserve probability mass", "statement": "For every histogram and threshold, moving outliers into the edge bins preserves the total count, and smoothing returns a strictly positive distribution with unchanged total whenever it returns one.", "quantifier": "every histogram (list of counts) and every clip window", "why_tests_cant": "All histograms of all sizes.", "anchors": ["model_compression_toolkit/core/common/quantization/quantization_params_generation/error_functions.py:_get_sliced_histogram", "model_compression_toolkit/core/common/quantization/quantization_params_generation/error_functions.py:_get_bins_indices_from_threshold", "model_compression_toolkit/core/common/quantization/quantization_params_generation/error_functions.py:_smooth_distribution"]}
{"id": "C13", "title": "Hessian service returns exactly the requested number of scores, aligned across nodes", "statement": "For every history of fetch requests (any mix of targets, sample counts and granularities), a successful fetch of k samples returns for every target node exactly k scores; the first k scores returned by a later larger request are the same as those returned earlier; scores already cached are never recomputed; the internal completeness assertion never fires.", "quantifier": "every sequence of fetch requests and every batch size / data source", "why_tests_cant": "Cache behaviour depends on the whole request history.", "anchors": ["model_compression_toolkit/core/common/hessian/hessian_info_service.py:HessianCache", "model_compression_toolkit/core/common/hessian/hessian_info_service.py:HessianInfoService.fetch_hessian"]}
{"id": "C14", "title": "Activation-memory scheduler returns a complete valid execution order", "statement": "For every DAG, whenever the max-cut solver returns, the schedule executes every operation exactly once, each after all producers of its inputs, and the reported cost is the maximum over the returned cuts of the total size of simultaneously live tensors along that schedule. A schedule is returned exactly when the expansion limit exceeds the number of operations by three (first bisection step).", "quantifier": "every memory graph (DAG of ops and tensors), every estimate, every iteration limit", "why_tests_cant": "Search histories over arbitrary graphs.", "anchors": ["model_compression_toolkit/core/common/graph/memory_graph/max_cut_astar.py:MaxCutAstar", "model_compression_toolkit/core/common/graph/memory_graph/cut.py:Cut", "model_compression_toolkit/core/common/graph/memory_graph/memory_element.py:MemoryElements"]}
{"id": "C15", "title": "Activation-memory scheduler finds the minimal peak", "statement": "If the returned peak exceeds the estimate it was given then no valid execution order has a smaller peak; more generally the returned peak is at most max(estimate, peak of any valid schedule); the outer driver therefore returns the true minimum within its (1+eps) tolerance, as long as no inner search runs into its expansion limit or timeout (when one does, the result can be worse: shown by a counterexample).", "quantifier": "every memory graph and every alternative schedule", "why_tests_cant": "Optimality quantifies over all n! schedules.", "anchors": ["model_compression_toolkit/core/common/graph/memory_graph/max_cut_astar.py:MaxCutAstar.solve", "model_compression_toolkit/core/common/graph/memory_graph/compute_graph_max_cut.py:compute_graph_max_cut"]}
{"id": "C16", "title": "Mixed-precision solver returns a feasible, least-sensitive configuration", "statement": "Given an optimal solution of the integer program it builds, the returned configuration picks exactly one candidate per layer, satisfies every resource constraint, and no configuration satisfying the constraints has smaller total sensitivity; infeasible targets raise instead of returning a configuration.", "quantifier": "all numbers of layers/candidates, all sensitivities, all resource matrices and targets", "why_tests_cant": "Optimality over exponentially many configurations.", "anchors": ["model_compression_toolkit/core/common/mixed_precision/solution_refinement_procedure.py", "model_compression_toolkit/core/common/mixed_precision/mixed_precision_search_manager.py:MixedPrecisionSearchManager", "model_compression_toolkit/core/common/mixed_precision/search_methods/linear_programming.py:MixedPrecisionIntegerLPSolver"]}
{"id": "C17", "title": "Greedy refinement never violates the target nor lowers a bit-width", "statement": "Refining a mixed-precision solution terminates, never lowers the bit-width of any layer, and the refined configuration satisfies the target whenever a change was made, otherwise it is the input configuration.", "quantifier": "all starting configurations, all candidate sets, all resource functions", "why_tests_cant": "The refinement loop has unboundedly many trajectories.", "anchors": ["model_compression_toolkit/core/common/mixed_precision/solution_refinement_procedure.py:greedy_solution_refinement_procedure"]}
{"id": "C18", "title": "Resource utilization is additive, order independent and monotone in bit-width", "statement": "Weights memory is the sum over nodes of parameters*bits/8, counted once per node whatever the node order; raising the bit-width of any node never lowers the weights, activation, total or BOPS utilization; a utilization is reported satisfied iff every restricted target is at least its value.", "quantifier": "all graphs, all bit-width assignments, all targets", "why_tests_cant": "Monotonicity is relational over all assignments.", "anchors": ["model_compression_toolkit/core/common/mixed_precision/resource_utilization_tools/resource_utilization_calculator.py:ResourceUtilizationCalculator", "model_compression_toolkit/core/common/mixed_precision/resource_utilization_tools/resource_utilization.py:ResourceUtilization"]}
{"id": "C19", "title": "Bit-width configuration of the original graph is faithfully reconstructed from the virtual graph", "statement": "For every assignment of candidates in the virtual (BOPS) graph the reconstructed configuration of the original graph assigns to each configurable node the weights bit-width of the virtual node that contains its weights and the activation bit-width of the virtual node that contains its activation.", "quantifier": "all graphs with split/composed virtual nodes and all assignments", "why_tests_cant": "Case analysis over all graph shapes.", "anchors": ["model_compression_toolkit/core/common/mixed_precision/mixed_precision_search_manager.py:ConfigReconstructionHelper"]}
{"id": "C20", "title": "Candidate filtering keeps at least one candidate, in order and without duplicates", "statement": "Filtering a node's candidate list (weights-only, activation-only or no configurable part, or by unrestricted targets) yields a non-empty sub-list in the original order with no two candidates agreeing on the configurable part, and every configurable bit-width of the original list is still available.", "quantifier": "all candidate lists", "why_tests_cant": "All lists of candidates of any length.", "anchors": ["model_compression_toolkit/core/common/quantization/filter_nodes_candidates.py:filter_node_candidates", "model_compression_toolkit/core/common/mixed_precision/mixed_precision_candidates_filter.py:filter_candidates_for_mixed_precision", "model_compression_toolkit/core/common/graph/base_node.py:BaseNode.get_unique_weights_candidates"]}
{"id": "C21", "title": "Manual bit-width requests are honoured with last-request-wins semantics", "statement": "After any sequence of manual activation/weights bit-width requests, a node matched by several requests gets the bit-width of the last one; every surviving candidate of a matched node has exactly the requested bit-width and a request no candidate satisfies raises rather than being ignored.", "quantifier": "all sequences of requests, all graphs and filters", "why_tests_cant": "Quantifies over all request histories.", "anchors": ["model_compression_toolkit/core/common/quantization/bit_width_config.py:BitWidthConfig", "model_compression_toolkit/core/common/quantization/set_node_quantization_config.py:set_manual_bitwidth_config"]}
{"id": "C22", "title": "A node never outputs more bits than its consumers accept", "statement": "After candidates are restricted by the graph, each remaining activation candidate of a node (and its base configuration) has bit-width no larger than the input bit-width supported by each quantized consumer, looking through quantization-preserving nodes.", "quantifier": "all graphs, all platform descriptions", "why_tests_cant": "All graph topologies and platform tables.", "anchors": ["model_compression_toolkit/core/common/quantization/set_node_quantization_config.py:filter_node_qco_by_graph"]}
{"id": "C23", "title": "Sensitivity evaluation leaves the model unquantized afterwards", "statement": "Evaluating the sensitivity of any configuration, in any order and even if evaluation raises, leaves every configurable quantizer with the setting it had before, so each evaluated metric depends only on its own configuration.", "quantifier": "all sequences of evaluations including failing ones", "why_tests_cant": "History- and crash-dependent.", "anchors": ["model_compression_toolkit/core/common/mixed_precision/sensitivity_eval/sensitivity_evaluation.py:SensitivityEvaluation"]}
{"id": "C24", "title": "Channel grouping partitions the channels by SIMD size in score order", "statement": "For every score vector and SIMD size, the groups returned are disjoint, cover every channel exactly once, all have SIMD size except possibly the last one, and every channel in an earlier group has score at least that of every channel in a later group.", "quantifier": "all score vectors and SIMD sizes >= 1", "why_tests_cant": "All vectors of any length, with ties.", "anchors": ["model_compression_toolkit/core/common/pruning/channels_grouping.py:ChannelGrouping"]}
{"id": "C25", "title": "Pruning masks stay consistent", "statement": "After any sequence of keep/prune decisions the per-channel mask equals the expansion of the per-group mask, untouched layers are unchanged, and at least one group of channels remains in every pruned layer.", "quantifier": "all sequences of mask updates", "why_tests_cant": "All histories.", "anchors": ["model_compression_toolkit/core/common/pruning/mask/per_simd_group_mask.py:PerSIMDGroupMask", "model_compression_toolkit/core/common/pruning/mask/per_channel_mask.py:PerChannelMask"]}
{"id": "C26", "title": "Greedy pruning respects the memory budget", "statement": "When greedy mask selection returns, the estimated memory of the pruned graph does not exceed the target, provided the mandatory minimal masks fit (otherwise it raises); adding any rejected next-best group would have exceeded the target.", "quantifier": "all score functions, memory functions and targets", "why_tests_cant": "All trajectories of the greedy loop.", "anchors": ["model_compression_toolkit/core/common/pruning/greedy_mask_calculator.py:GreedyMaskCalculator.compute_mask"]}
{"id": "C27", "title": "Pruned memory counts every parameter once", "statement": "The memory reported for a pruned graph equals the sum over nodes of the parameters left after removing masked input and output channels, each node counted exactly once even when it is the exit of one pruning section and the entry of another.", "quantifier": "all sets of pruning sections and masks", "why_tests_cant": "Inclusion-exclusion over arbitrary section chains.", "anchors": ["model_compression_toolkit/core/common/pruning/memory_calculator.py:MemoryCalculator"]}
{"id": "C28", "title": "Channel scores are unrolled back to the right channels", "statement": "The per-channel scores and masks reported to the user assign to each channel of each layer the score/mask of the group containing it; every channel receives a value.", "quantifier": "all groupings and masks", "why_tests_cant": "Permutation round-trip for all groupings.", "anchors": ["model_compression_toolkit/core/common/pruning/pruning_info.py:unroll_simd_scores_to_per_channel_scores"]}
{"id": "C29", "title": "Fused-operation bookkeeping is a consistent bijection", "statement": "After any sequence of registering and removing fused operations, a node is reported in a fused operation iff that operation lists it, no node belongs to two operations, removing an operation removes all trace of it, and registering an operation overlapping an existing one raises without change.", "quantifier": "all sequences of add/remove calls", "why_tests_cant": "State-machine histories.", "anchors": ["model_compression_toolkit/core/common/fusion/fusing_info.py:FusingInfo"]}
{"id": "C30", "title": "Generated fusions are disjoint genuine chains matching a platform pattern", "statement": "Every fused operation generated for a graph is a path of consecutive nodes, each interior node having a single consumer/producer, whose node types match one of the platform's fusing patterns in full; distinct fused operations never share a node.", "quantifier": "all graphs and pattern lists", "why_tests_cant": "All graph topologies.", "anchors": ["model_compression_toolkit/core/common/fusion/fusing_info.py:FusingInfoGenerator.generate_fusing_info"]}
{"id": "C31", "title": "Fusing nodes preserves graph connectivity", "statement": "Replacing the nodes of a fused operation by one node keeps every data dependency between the fused group and the rest of the graph (and all dependencies elsewhere): for every edge crossing the group boundary there is a corresponding edge at the fused node.", "quantifier": "all graphs and all registered fused operations", "why_tests_cant": "All graph topologies incl. multi-edges and side inputs.", "anchors": ["model_compression_toolkit/core/common/fusion/graph_fuser.py:GraphFuser"]}
{"id": "C32", "title": "Graph surgery primitives move exactly the intended edges", "statement": "Reconnecting out/in edges from one node to another, replacing a node and removing a node keep the multiset of all other edges and their tensor indices unchanged, and graph inputs/outputs are updated accordingly.", "quantifier": "all graphs", "why_tests_cant": "All multigraphs.", "anchors": ["model_compression_toolkit/core/common/graph/base_graph.py:Graph.reconnect_out_edges", "model_compression_toolkit/core/common/graph/base_graph.py:Graph.replace_node", "model_compression_toolkit/core/common/graph/base_graph.py:Graph.remove_node"]}
{"id": "C33", "title": "Removing identity nodes preserves the computed function", "statement": "After removing an identity node each consumer reads the same tensor (same producer and same producer output index) that the identity forwarded, for producers with one or several outputs, including when the identity is a graph output.", "quantifier": "all graphs containing an identity node", "why_tests_cant": "All graph topologies and output indices.", "anchors": ["model_compression_toolkit/core/common/substitutions/remove_identity.py:remove_identity_node"]}
{"id": "C34", "title": "Folding batch-norm into the preceding linear layer preserves the function", "statement": "For every kernel, bias (or none), batch-norm parameters with var+eps>0 and every input, the folded layer's output equals batch-norm applied to the original layer's output.", "quantifier": "all real parameters and inputs", "why_tests_cant": "Identity over reals, all channel counts and kernel sizes.", "anchors": ["model_compression_toolkit/core/common/substitutions/batchnorm_folding.py:BatchNormalizationFolding"]}
{"id": "C35", "title": "Folding batch-norm into the following linear layer preserves the function", "statement": "For every batch-norm (or 1x1 depthwise convolution) followed by a 1x1 convolution, folding scale into kernel input channels and shift into the bias preserves the output for all inputs at every output position that reads an input position (all positions, without padding); any other kernel or group structure leaves the graph as it is.", "quantifier": "all real parameters and inputs", "why_tests_cant": "Identity over reals.", "anchors": ["model_compression_toolkit/core/common/substitutions/batchnorm_folding.py:BatchNormalizationForwardFolding"]}
{"id": "C36", "title": "Batch-norm reconstruction starts as an identity and refusing is exact", "statement": "The batch-norm node reconstructed from stored prior statistics is the identity at creation; refusing a modified batch-norm into the linear layer computes the same function as linear layer followed by batch-norm; and the scaled quantization parameters quantize the refused kernel to exactly the scaled quantized kernel.", "quantifier": "all real parameters with non-negative std", "why_tests_cant": "Identity over reals.", "anchors": ["model_compression_toolkit/core/common/substitutions/batchnorm_reconstruction.py:BatchNormalizationReconstruction", "model_compression_toolkit/core/common/substitutions/batchnorm_refusing.py:BatchNormalizationRefusing"]}
{"id": "C37", "title": "Collapsing consecutive linear operations preserves the function", "statement": "Collapsing two consecutive convolutions (second 1x1), or a convolution followed by addition of a constant, into a single convolution gives the same output for every input.", "quantifier": "all kernels, biases and inputs", "why_tests_cant": "Identity over reals, all sizes.", "anchors": ["model_compression_toolkit/core/common/substitutions/linear_collapsing.py:Conv2DCollapsing", "model_compression_toolkit/core/common/substitutions/linear_collapsing.py:Op2DAddConstCollapsing"]}
{"id": "C38", "title": "Collapsing a residual connection preserves the function", "statement": "Replacing Add(conv(x), x) by a convolution whose kernel has 1 added at the centre of the diagonal gives the same output for every input.", "quantifier": "all kernels of odd size, all inputs", "why_tests_cant": "Identity over reals, all sizes.", "anchors": ["model_compression_toolkit/core/common/substitutions/residual_collapsing.py:ResidualCollapsing"]}
{"id": "C39", "title": "Scale equalization preserves the function through positively homogeneous activations", "statement": "Dividing output channels of one layer and multiplying the matching input channels of the next by the same positive factors preserves the network output for every input, when the non-linearity between is ReLU-like.", "quantifier": "all kernels, inputs, positive scales", "why_tests_cant": "Identity over reals.", "anchors": ["model_compression_toolkit/core/common/substitutions/scale_equalization.py:BaseScaleEqualization", "model_compression_toolkit/core/common/substitutions/scale_equalization.py:scale_reshaping"]}
{"id": "C40", "title": "Shift-negative correction preserves the function", "statement": "Adding a constant after a non-linear activation and correcting the bias of the following linear node by minus the shift times the kernel sums preserves the output of the linear node for every input, including padding with the shift value.", "quantifier": "all kernels, shifts, inputs", "why_tests_cant": "Identity over reals.", "anchors": ["model_compression_toolkit/core/common/substitutions/shift_negative_activation.py:op2d_bias_correction", "model_compression_toolkit/core/common/substitutions/shift_negative_activation.py:shift_negative_function"]}
{"id": "C41", "title": "Bias correction cancels the expected quantization error", "statement": "For every kernel, quantized kernel, group count and mean input, the corrected layer (quantized kernel and corrected bias) has, at the mean input, exactly the output of the float layer; invalid group geometry yields a zero correction.", "quantifier": "all kernels, group counts, channel counts and means", "why_tests_cant": "All shapes; index arithmetic for groups.", "anchors": ["model_compression_toolkit/core/common/statistics_correction/compute_bias_correction_of_graph.py:_compute_bias_correction", "model_compression_toolkit/core/common/statistics_correction/apply_bias_correction_to_graph.py:_apply_bias_correction_to_node"]}
{"id": "C42", "title": "Annealing schedules stay between their endpoints and are monotone", "statement": "For every step the linear annealing factor lies between the initial and target values, equals them before start and after end, is monotone in the step; gradual activation quantization is a convex combination of the float and quantized tensor that becomes the quantized tensor.", "quantifier": "all steps and schedule parameters", "why_tests_cant": "All naturals as steps.", "anchors": ["model_compression_toolkit/trainable_infrastructure/common/annealing_schedulers.py:BaseLinearAnnealingScheduler", "model_compression_toolkit/gptq/common/gradual_activation_quantization.py:GradualActivationQuantizerWrapper", "model_compression_toolkit/gptq/common/regularization_factory.py"]}
{"id": "C43", "title": "Trained parameters are partitioned over optimizers", "statement": "Every trainable GPTQ parameter is handed to exactly one optimizer, with the learning rate configured for its group, for any combination of optional bias/quantization-parameter training settings.", "quantifier": "all configurations and parameter lists", "why_tests_cant": "All combinations.", "anchors": ["model_compression_toolkit/gptq/common/gptq_training.py:GPTQTrainer.get_optimizer_with_param"]}
{"id": "C44", "title": "Platform configuration lookup has a deterministic priority", "statement": "A node's quantization options are those of a matching layer filter if any, else of a matching operator set, else the platform default; two matching entries with different options raise instead of choosing one arbitrarily, so the result does not depend on registration order.", "quantifier": "all platform tables, all nodes, all registration orders", "why_tests_cant": "All permutations of tables.", "anchors": ["model_compression_toolkit/quantization_preparation/load_fqc.py:fetch_qc_options_for_node", "model_compression_toolkit/target_platform_capabilities/targetplatform2framework/framework_quantization_capabilities.py:FrameworkQuantizationCapabilities"]}
{"id": "C45", "title": "Layer filters compose as boolean logic", "statement": "A conjunction/disjunction of attribute filters matches a layer configuration iff all/any components match it, for any nesting; two layer filters compare equal only if they match the same layers, and equality is symmetric and consistent with hashing.", "quantifier": "all filter expressions and layer configurations", "why_tests_cant": "Infinitely many filter expressions.", "anchors": ["model_compression_toolkit/target_platform_capabilities/targetplatform2framework/attribute_filter.py:AttributeFilter", "model_compression_toolkit/target_platform_capabilities/targetplatform2framework/layer_filter_params.py:LayerFilterParams"]}
{"id": "C46", "title": "Editing quantization options keeps them well formed and touches only what was named", "statement": "Cloning a set of quantization options with an edit keeps the base configuration a member of the options, keeps their number, changes only the named fields/attributes, and never mutates the original.", "quantifier": "all option sets and edits", "why_tests_cant": "All edits of all option sets.", "anchors": ["model_compression_toolkit/target_platform_capabilities/schema/v1.py:QuantizationConfigOptions", "model_compression_toolkit/target_platform_capabilities/schema/v1.py:OpQuantizationConfig.clone_and_edit"]}
{"id": "C47", "title": "Upgrading a platform description to the current schema loses nothing", "statement": "Converting a platform description of an older schema version to the current one terminates and preserves operator sets, default options, fusing patterns, name, padding mode and versions.", "quantifier": "all descriptions in the old schema", "why_tests_cant": "All descriptions.", "anchors": ["model_compression_toolkit/target_platform_capabilities/schema/schema_compatability.py"]}
{"id": "C48", "title": "Fusing-pattern containment is contiguous sub-sequence matching", "statement": "One fusing pattern contains another iff the operator sets of the other appear contiguously (each equal to, or a member of, the corresponding group) in it; every pattern contains itself and containment is transitive for plain operator sets.", "quantifier": "all pairs of patterns", "why_tests_cant": "All pairs of lists.", "anchors": ["model_compression_toolkit/target_platform_capabilities/schema/v1.py:Fusing.contains", "model_compression_toolkit/target_platform_capabilities/schema/v2.py:Fusing.contains"]}
{"id": "C49", "title": "Frozen platform objects cannot be modified", "statement": "Once a platform component is marked initialised, every later attribute assignment raises and leaves it unchanged.", "quantifier": "all sequences of assignments", "why_tests_cant": "All histories.", "anchors": ["model_compression_toolkit/target_platform_capabilities/immutable.py:ImmutableClass"]}
{"id": "C50", "title": "Network-edit rules are applied in order", "statement": "Applying a list of edit rules is equivalent to applying each rule, in order, to exactly the nodes its filter matches at that time; nodes matched by no rule are unchanged and the last matching rule wins for a field.", "quantifier": "all rule lists and graphs", "why_tests_cant": "All sequences of rules.", "anchors": ["model_compression_toolkit/core/common/network_editors/edit_network.py:edit_network_graph"]}
{"id": "C51", "title": "Distance metrics are zero exactly on equal tensors and non-negative", "statement": "Mean-squared, mean-absolute and normalised distances used to score quantization are >= 0 for all tensor pairs, zero when the tensors are equal, and zero only then for mse/mae; per-sample averaging is order independent.", "quantifier": "all tensor pairs", "why_tests_cant": "All vectors.", "anchors": ["model_compression_toolkit/core/common/similarity_analyzer.py:compute_mse", "model_compression_toolkit/core/common/similarity_analyzer.py:compute_mae"]}
{"id": "C52", "title": "Edge equality and graph pattern matching are sound", "statement": "Every match returned for a walk/edge pattern is a real path of the graph whose nodes satisfy the matchers in order, all such paths are returned, and two edges compare equal iff they connect the same endpoints and indices.", "quantifier": "all graphs and patterns", "why_tests_cant": "All graphs.", "anchors": ["model_compression_toolkit/core/common/graph/graph_searches.py:_walk_filter", "model_compression_toolkit/core/common/graph/edge.py:Edge"]}
{"id": "C53", "title": "Representative-image batching uses exactly the requested number of images", "statement": "For every data source and requested count, the batches used for sensitivity evaluation contain in total exactly the requested number of images in order, or all available ones with a warning when the source is too small.", "quantifier": "all batch-size sequences and counts", "why_tests_cant": "All generators.", "anchors": ["model_compression_toolkit/core/common/mixed_precision/sensitivity_eval/metric_calculators.py:DistanceMetricCalculator._get_images_batches", "model_compression_toolkit/core/common/hessian/hessian_info_service.py"]}
{"id": "C54", "title": "A quantization-preserving node always has a quantized source", "statement": "After the platform configuration is attached to a graph, every node's activation is either not quantized at all, quantized by the node itself, or preserved from exactly one input whose own value was quantized (through any number of preserving nodes); the mode is the one its options call for.", "quantifier": "all graphs in topological order, all platform tables", "why_tests_cant": "Chains of preserving nodes of any length and any branching.", "anchors": ["model_compression_toolkit/quantization_preparation/load_fqc.py:_disable_unsupported_quant_preserving", "model_compression_toolkit/quantization_preparation/load_fqc.py:set_quantization_configs_to_node"]}
{"id": "C55", "title": "Fusing patterns expand to exactly the layer combinations of the operator sets", "statement": "For every platform description attached to a framework, the list of fused layer patterns contains a sequence of framework layers exactly when some fusing pattern of the platform has, position by position, an operator set (or group containing a set) implemented by that layer, with that pattern's own output configuration.", "quantifier": "all platform fusing lists, all operator-set-to-layer tables", "why_tests_cant": "All pattern lengths and group sizes.", "anchors": ["model_compression_toolkit/target_platform_capabilities/targetplatform2framework/framework_quantization_capabilities.py:FrameworkQuantizationCapabilities.get_fusing_patterns", "model_compression_toolkit/target_platform_capabilities/targetplatform2framework/operations_to_layers.py:OperationsToLayers.get_layers_by_op"]}
{"id": "C56", "title": "The model gets the bit-widths the search chose", "statement": "After the mixed-precision search every configurable node is finalised with exactly the candidate its index in the chosen configuration denotes, a node that reuses a layer with the candidate at the index of the original layer, and every other node with its first candidate; without mixed precision each node gets its only candidate.", "quantifier": "all graphs, candidate lists, names and configurations", "why_tests_cant": "Indices are matched to nodes by name and position over arbitrary graphs with reused layers.", "anchors": ["model_compression_toolkit/core/common/mixed_precision/bit_width_setter.py:set_bit_widths"]}
{"id": "C57", "title": "A platform definition block is all or nothing", "statement": "Defining the mapping of operator sets to layers in a block succeeds exactly when the sets have distinct names and share no layer; it then records all of them in order, freezes the object against every later event, touches no other object, and leaves no object current.", "quantifier": "all sequences of components and all later events", "why_tests_cant": "Any number of components and any later history of entering, defining and leaving blocks.", "anchors": ["model_compression_toolkit/target_platform_capabilities/targetplatform2framework/framework_quantization_capabilities.py:FrameworkQuantizationCapabilities", "model_compression_toolkit/target_platform_capabilities/targetplatform2framework/operations_to_layers.py:OperationsToLayers.validate_op_sets"]}
{"id": "C58", "title": "A pruned model is the original restricted to the kept channels and has the counted size", "statement": "When a pruning mask has been chosen for every prunable chain of layers, the pruned model has the same layers in the same places; every weight of every layer holds exactly the original entries whose output channel (and, behind a pruned layer, input channel) is kept, in the original order; layers outside the pruned chains are unchanged; and the number of parameters of the pruned model is exactly the number that was counted for these masks before building it.", "quantifier": "for every network graph of either framework with uniquely named layers, every number, length and placement of prunable chains, every kernel shape and value, and every mask per chain (including masks that keep everything)", "why_tests_cant": "tests prune a few fixed networks with a few masks and compare shapes; that entries are kept in order on every axis, that chains that share a layer compose, and that the estimate equals the result for all masks needs an argument over all graphs and masks", "anchors": ["model_compression_toolkit/core/common/pruning/prune_graph.py:build_pruned_graph", "model_compression_toolkit/core/common/pruning/pruning_section.py:PruningSection.apply_inner_section_mask", "model_compression_toolkit/core/keras/pruning/pruning_keras_implementation.py", "model_compression_toolkit/core/pytorch/pruning/pruning_pytorch_implementation.py"]}
{"id": "C59", "title": "The shift lifts the observed minimum to zero or above", "statement": "A node is corrected only if its observed minimum is negative and the ratio of its magnitude to the threshold does not exceed shift_negative_activation_ratio; the shift is then a quantization point of the unsigned grid, the shifted minimum is at least zero and less than one step, and no smaller point has that property (for ratios up to one minus one step). With the search of parameters the pair of threshold and shift has the least error of all candidates.", "quantifier": "all minima, thresholds, bit widths and ratios", "why_tests_cant": "Range over rationals and an arg-min with infinities; boundary cases are not sampled.", "anchors": ["model_compression_toolkit/core/common/substitutions/shift_negative_activation.py:shift_negative_function"]}
{"id": "C60", "title": "The points of the mixed-precision metric are an evenly spaced part of the eligible layers", "statement": "For every list of eligible layers and every factor, the points at which the float and quantized models are compared are eligible non-output layers in topological order without repetition; with a factor below one they are exactly the requested share of the eligible layers, evenly spaced up to rounding, always with the first eligible layer and, from two points on, the last.", "quantifier": "all graphs, classifiers and factors", "why_tests_cant": "Rounding collisions depend on length and factor; all pairs have to be covered.", "anchors": ["model_compression_toolkit/core/common/mixed_precision/sensitivity_eval/metric_calculators.py:DistanceMetricCalculator.get_mp_interest_points", "model_compression_toolkit/core/common/mixed_precision/sensitivity_eval/metric_calculators.py:DistanceMetricCalculator.bound_num_interest_points"]}
{"id": "C61", "title": "The mixed-precision metric is a mean of the distances", "statement": "For every weighting method the metric of a configuration lies between the smallest and the largest distance at the compared points, is zero when nothing differs, does not shrink when distances grow, and does not depend on how the images are batched or ordered.", "quantifier": "all numbers of points and images, all distances, all weighting methods", "why_tests_cant": "Real-valued distances and all batchings.", "anchors": ["model_compression_toolkit/core/common/mixed_precision/sensitivity_eval/metric_calculators.py:DistanceMetricCalculator._compute_mp_distance_measure", "model_compression_toolkit/core/common/mixed_precision/sensitivity_eval/metric_calculators.py:DistanceMetricCalculator._compute_ipts_distance_measure", "model_compression_toolkit/core/common/mixed_precision/sensitivity_eval/metric_calculators.py:DistanceMetricCalculator._compute_distance"]}
{"id": "C62", "title": "Replacing the bound of a ReLU by a power of two preserves the function", "statement": "With relu_bound_to_power_of_2 switched on, a bounded activation between two linear layers whose bound is not a power of two gets the bound 8 and the two layers are rescaled so that the model computes exactly the function it computed before; a bound that is a power of two is left alone, and a second run changes nothing.", "quantifier": "all layers and weights, all bounds and slopes, all inputs, all models in which the pattern occurs", "why_tests_cant": "Real-valued weights, bounds and inputs; positions of the pattern in arbitrary graphs.", "anchors": ["model_compression_toolkit/core/keras/graph_substitutions/substitutions/relu_bound_to_power_of_2.py:ReLUBoundToPowerOfTwo.substitute", "model_compression_toolkit/core/pytorch/graph_substitutions/substitutions/relu_bound_to_power_of_2.py:ReLUBoundToPowerOfTwo.substitute"]}
{"id": "C63", "title": "Input scaling is undone by the first layer", "statement": "With input_scaling switched on, a model that is given its input multiplied by the reported input scale has exactly the outputs that it had on the original input; the scaled input range reaches the quantization threshold, and inputs that reach it already (or have no threshold) are left alone.", "quantifier": "all layers and weights, all thresholds and observed ranges, all inputs, all models in which an input is followed by a linear layer", "why_tests_cant": "Real-valued thresholds and ranges; arbitrary graphs with several inputs.", "anchors": ["model_compression_toolkit/core/keras/graph_substitutions/substitutions/input_scaling.py:BaseInputScaling.substitute", "model_compression_toolkit/core/common/user_info.py:UserInformation.set_input_scale"]}
{"id": "C64", "title": "Shifting the layer before a softmax preserves the softmax and centres the range", "statement": "With softmax_shift switched on, the layer in front of a softmax is shifted by a constant: the softmax gives the same result along every axis, the recorded range of the layer's output is shifted with the values, becomes symmetric about zero and has the least possible maximal absolute value among all shifts.", "quantifier": "all layers, weights, observed ranges and inputs; all axes of the softmax; all models in which the pattern occurs", "why_tests_cant": "Equality of real functions over all inputs; optimality over all shifts.", "anchors": ["model_compression_toolkit/core/common/substitutions/softmax_shift.py:SoftmaxShift.substitute", "model_compression_toolkit/core/keras/graph_substitutions/substitutions/softmax_shift.py:keras_softmax_shift"]}
{"id": "C65", "title": "Decomposing layers preserves the model", "statement": "When the graph is prepared, a DepthwiseConv2D with several filters per channel is replaced by a grouped Conv2D, a SeparableConv2D by a DepthwiseConv2D followed by a 1x1 Conv2D, and the activation of a layer by a node behind it. The new layers compute the same function of the same input for every kernel, stride, dilation, padding and image size; every other node keeps its value, the outputs of the model keep theirs, and the edit does not fail on a layer of the graph that reads one tensor. The exception is stated: a depthwise layer that is one of several model outputs makes the others disappear.", "quantifier": "all layers of the three kinds with consistent shapes, all images and output positions, all finite graphs and all places of the layer in it, all functions computed by the other nodes, all activation names", "why_tests_cant": "tests compare a few layers on random inputs; the claim is about all shapes, multipliers, strides and paddings, all graphs and the wiring of parallel edges and outputs", "anchors": ["model_compression_toolkit/core/keras/graph_substitutions/substitutions/dwconv_to_conv.py:DwconvToConv", "model_compression_toolkit/core/keras/graph_substitutions/substitutions/separableconv_decomposition.py:SeparableConvDecomposition", "model_compression_toolkit/core/keras/graph_substitutions/substitutions/activation_decomposition.py:ActivationDecomposition"]}
{"id": "C66", "title": "Rounding training ends on the quantization grid, next to the original weight", "statement": "With GPTQ, whatever values the trained variables take, every exported weight is a point of the grid of the exported quantization parameters (quantizing it again with them changes nothing) and, up to the learned scale, one of the two grid points around the original weight. With soft rounding, training starts from the float weight clamped to the representable range, and exporting before any step gives plain nearest rounding; during training the weight stays between the two candidates; the regularization term is never negative and is zero exactly when the trained weights are the exported ones. With straight-through rounding the weight moves by at most the allowed number of steps.", "quantifier": "all weights, thresholds, ranges, bit widths, trained variables, numbers of layers and regularization weights", "why_tests_cant": "The trained variables are arbitrary reals reached by gradient descent; tests see a few of their values, and the start of training is not visible in the exported model.", "anchors": ["model_compression_toolkit/gptq/pytorch/quantizer/soft_rounding/symmetric_soft_quantizer.py:SymmetricSoftRoundingGPTQ", "model_compression_toolkit/gptq/pytorch/quantizer/soft_rounding/uniform_soft_quantizer.py:UniformSoftRoundingGPTQ", "model_compression_toolkit/gptq/keras/quantizer/soft_rounding/", "model_compression_toolkit/gptq/pytorch/quantizer/soft_rounding/soft_quantizer_reg.py:SoftQuantizerRegularization", "model_compression_toolkit/gptq/pytorch/quantizer/ste_rounding/symmetric_ste.py:STEWeightGPTQQuantizer", "model_compression_toolkit/gptq/pytorch/quantizer/quant_utils.py"]}
{"id": "C67", "title": "Finalizing a trained quantizer keeps the function that was trained", "statement": "Converting a trained weight or activation quantizer (LSQ or straight-through, symmetric, power-of-two or uniform) to its inference form gives a quantizer that maps every input to the value the trained one produced, and the outputs are nearest grid points; for power-of-two methods this holds when the trained threshold is a power of two, otherwise the exported threshold is the next power of two.", "quantifier": "all trained thresholds and ranges, bit widths from 2, gradient scales and inputs", "why_tests_cant": "Equality of two quantizers is a statement about every real input and every trained parameter; rounding ties, range adjustment and threshold rounding only show at particular values.", "anchors": ["model_compression_toolkit/qat/pytorch/quantizer/lsq/", "model_compression_toolkit/qat/pytorch/quantizer/ste_rounding/", "model_compression_toolkit/trainable_infrastructure/pytorch/quantizer_utils.py", "model_compression_toolkit/trainable_infrastructure/pytorch/activation_quantizers/", "model_compression_toolkit/core/common/quantization/quantizers/quantizers_helpers.py:quantize_tensor, uniform_quantize_tensor"]}
{"id": "C68", "title": "The model rebuilt from a graph computes the traced PyTorch model", "statement": "When a PyTorch model is traced, read into the toolkit's graph and rebuilt, the rebuilt model, run on any inputs, returns exactly the tensors which the traced program returns when every operation is followed by its activation quantizer (or, with float outputs requested, the values before the last quantizer). Positional and keyword arguments, plain arguments, tensors passed in a list, constants held by the model and layers used several times reach every operation as in the original call. This holds for calls in which each tensor is passed once (the last one may be repeated) as an argument of its own, or all in a first list argument; other calls are rebuilt differently.", "quantifier": "all traced programs of any length with calls of that form, all operations (not depending on the order of keyword arguments), constants, quantizers and inputs, all topological execution orders, quantized and float outputs", "why_tests_cant": "Tests run a handful of networks; how arguments, constants and repeated tensors interleave has unboundedly many cases, and the reader and the builder each get it right only for some.", "anchors": ["model_compression_toolkit/core/pytorch/reader/graph_builders.py:nodes_builder", "model_compression_toolkit/core/pytorch/reader/graph_builders.py:edges_builder", "model_compression_toolkit/core/pytorch/reader/graph_builders.py:_build_input_alloc_and_call_args", "model_compression_toolkit/core/common/graph/base_node.py:BaseNode.insert_positional_weights_to_input_list", "model_compression_toolkit/core/pytorch/back2framework/pytorch_model_builder.py:PytorchModel.forward", "model_compression_toolkit/core/pytorch/back2framework/pytorch_model_builder.py:_run_operation"]}
{"id": "C69", "title": "Reading a PyTorch model removes exactly what has no effect on its outputs", "statement": "When a PyTorch model is read, a node of the traced model is removed exactly when no path leads from it to an output; every connection between remaining nodes stays, the outputs keep their values, and the model rebuilt from what remains returns, on any inputs, exactly the tensors the traced model returns, provided calls sharing an operation with weights are kept or removed together. Reading succeeds exactly when every input has an effect on an output and every output that is consumed at all is consumed by something that has an effect.", "quantifier": "all traced programs and all acyclic graphs of any size, all operations, constants, quantizers, inputs and topological execution orders", "why_tests_cant": "The removal works through the graph with a list that grows while it is traversed; that it always terminates, stops exactly at the nodes in use and never changes a result ranges over all graph shapes, and the failing shapes are easy to miss with sample networks.", "anchors": ["model_compression_toolkit/core/pytorch/reader/reader.py:remove_broken_nodes_from_graph", "model_compression_toolkit/core/pytorch/reader/reader.py:model_reader", "model_compression_toolkit/core/common/graph/base_graph.py:Graph.remove_node", "model_compression_toolkit/core/pytorch/back2framework/pytorch_model_builder.py:PytorchModel.forward"]}
{"id": "C70", "title": "Activation parameters reflect the statistics: sign, range, outliers and known bounds", "statement": "Histogram bins are discarded exactly when their z-score exceeds the threshold; the share of observations discarded is at most 1/z^2, and with a threshold of at least 1 something always remains. A requested signedness is always respected; without one, unsigned parameters are chosen only if no negative value was observed, and always when none was and no batch was constant. Without clipping or outlier removal the uniform range holds every observed value and a symmetric or power-of-two threshold is at least every observed value. For an operation with a known output range the parameters are those of that range whatever was observed, and hold it whenever the upper bound has the larger magnitude.", "quantifier": "all sequences of non-empty batches of rational values of any length, all numbers of bins, all thresholds, all error methods, arbitrary search procedures, all known bounds", "why_tests_cant": "The statistics of several batches are merged by interpolating cumulative histograms; whether a value survives the merging and the bin containing it counts as occupied depends on all batches and on the bin grid, not on sample data.", "anchors": ["model_compression_toolkit/core/common/quantization/quantization_params_generation/outlier_filter.py:z_score_filter", "model_compression_toolkit/core/common/quantization/quantization_params_generation/qparams_activations_computation.py:get_activations_qparams", "model_compression_toolkit/core/common/quantization/quantization_params_generation/qparams_activations_computation.py:determine_signedness", "model_compression_toolkit/core/common/quantization/quantization_params_generation/qparams_activations_computation.py:update_activation_quantization_params_fn", "model_compression_toolkit/core/common/collectors/histogram_collector.py:HistogramCollector", "model_compression_toolkit/core/common/node_prior_info.py:NodePriorInfo.is_output_bounded"]}
{"id": "C71", "title": "Every quantization candidate gets parameters computed for its own configuration", "statement": "After the parameter search each candidate of each node has, for every quantized weights attribute, parameters computed from that attribute's tensor under the candidate's own configuration (with MSE in place of HMSE for attributes other than the kernel) and, for a quantized activation, parameters computed under its own activation configuration; attributes that are not quantized and all other settings are unchanged, and only the requested nodes are touched. Hessian scores are requested for exactly the nodes with a quantized kernel whose candidates all ask for HMSE.", "quantifier": "all nodes with any number of candidates and attributes (named or positional), arbitrary parameter functions, all subsets of nodes", "why_tests_cant": "Configurations and tensors are found by substring matching of attribute names and updated in place across nested loops; that no entry is mixed up ranges over all sets of names and candidates.", "anchors": ["model_compression_toolkit/core/common/quantization/quantization_params_generation/qparams_computation.py:calculate_quantization_params", "model_compression_toolkit/core/common/quantization/quantization_params_generation/qparams_computation.py:_collect_nodes_for_hmse", "model_compression_toolkit/core/common/quantization/node_quantization_config.py:NodeWeightsQuantizationConfig.get_attr_config", "model_compression_toolkit/core/common/graph/base_node.py:BaseNode.get_weights_by_keys", "model_compression_toolkit/core/common/graph/base_node.py:BaseNode.is_weights_quantization_enabled"]}
{"id": "C72", "title": "Activation statistics: each collector sees its own tensor, with the right weights", "statement": "A node collects activation statistics exactly when its activation is quantized (by itself or as the quantized member of a fused pattern) or, under bias correction, when it feeds a node with a quantized kernel; its prior output range is used only in the first case. Each batch updates the collectors of each such node exactly once with that node's own output and updates no other collector. With Hessian weighting every collecting inner node is weighted by the score of its own tensor with respect to the model's outputs and output nodes are unweighted, provided the graph lists collecting outputs last, no layer is used twice and inner nodes have one output. The weighted histogram puts the weight of each element into the bin of that element and conserves the total.", "quantifier": "all graphs of any size with any topological order and any order of insertion, all quantization settings, all node values, all score functions, all tensor shapes and weights", "why_tests_cant": "Tensors, scores and collectors are paired by position in three lists built by different filters; whether they stay aligned depends on the order in which graph substitutions inserted nodes.", "anchors": ["model_compression_toolkit/core/common/model_collector.py:ModelCollector.__init__", "model_compression_toolkit/core/common/model_collector.py:ModelCollector.infer", "model_compression_toolkit/core/common/model_collector.py:create_tensor2node", "model_compression_toolkit/core/common/hessian/hessian_info_service.py:HessianInfoService.fetch_hessian", "model_compression_toolkit/core/pytorch/hessian/activation_hessian_scores_calculator_pytorch.py:ActivationHessianScoresCalculatorPytorch.compute", "model_compression_toolkit/core/common/collectors/weighted_histogram_collector.py:WeightedHistogramCollector.update"]}
{"id": "C73", "title": "Functional normalization and attention keep their meaning when turned into layers (PyTorch)", "statement": "A call of torch.nn.functional.batch_norm on 4-dimensional input with constant statistics, outside training, is replaced by a layer that computes the same output for every batch, wherever its weight and bias are given (by position, by keyword in any order, or as None); for other ranks it is left alone. A call of layer_norm over the last dimension is replaced by a layer computing the same. A call of scaled_dot_product_attention that is not causal and has no dropout is replaced by nodes computing softmax(q kT scale + mask) v with the given scale (or 1/sqrt(d)) and constant mask; causal calls and boolean or infinite masks are refused.", "quantifier": "all calls of the supported form (any keyword order, any optional argument, shared key and value), all traced programs containing them, all parameter and input values, all sizes", "why_tests_cant": "Each argument can be given by position, by keyword or left out, and constants are looked up by their position among the tensors of the call; the combinations multiply, and most wrong look-ups still produce a model that runs.", "anchors": ["model_compression_toolkit/core/pytorch/graph_substitutions/substitutions/functional_batch_norm.py:FunctionalBatchNorm.substitute", "model_compression_toolkit/core/pytorch/graph_substitutions/substitutions/functional_layer_norm.py:FunctionalLayerNorm.substitute", "model_compression_toolkit/core/pytorch/graph_substitutions/substitutions/scaled_dot_product_attention.py:ScaledDotProductDecomposition.substitute", "model_compression_toolkit/core/pytorch/reader/graph_builders.py:nodes_builder"]}
{"id": "C74", "title": "A large matmul is decomposed into the same product (PyTorch)", "statement": "torch.matmul of two tensors with the same number of dimensions, at least four, is replaced by expand, reshape, unbind, 3-D matmuls, stack and reshape that together compute the same product for every input and every run-time batch size, with broadcasting of the middle dimensions and whatever the order in which the operands are connected. Matmuls of at most three dimensions are left alone. Outputs of the model other than the matmul are unaffected when it is not an output itself.", "quantifier": "all operand shapes of equal rank with broadcastable dimensions, all batch sizes at tracing and at run time, all element values", "why_tests_cant": "The dimension lists, the row-major grouping of the middle dimensions and the wiring of a growing number of nodes must agree for all ranks and sizes; tests fix a few shapes.", "anchors": ["model_compression_toolkit/core/pytorch/graph_substitutions/substitutions/matmul_decomposition.py:MatMulDecomposition.substitute", "model_compression_toolkit/core/pytorch/graph_substitutions/substitutions/matmul_decomposition.py:MatMulParams"]}
{"id": "C75", "title": "A multi-head attention layer keeps its meaning when decomposed (PyTorch)", "statement": "A torch.nn.MultiheadAttention layer that is batch first, used once and without zero attention or key/value biases is replaced by projections, per-head matmuls, softmax and an output projection that together compute the layer: softmax(q kT / sqrt(d)) v per head, heads side by side, output projection. This holds for weights stored together or apart, with or without biases, for key and value dimensions different from the embedding. Layers with unsupported options, and inputs contradicting the layer, are refused.", "quantifier": "all numbers of heads, embedding, key and value dimensions, batch and sequence sizes, all weights and inputs", "why_tests_cant": "The wiring, the slicing of the stacked weights, the scale moved into the query weights and the order of axes before grouping the heads must agree for all sizes; a wrong axis order is invisible when two sizes coincide.", "anchors": ["model_compression_toolkit/core/pytorch/graph_substitutions/substitutions/multi_head_attention_decomposition.py:MultiHeadAttentionDecomposition.substitute", "model_compression_toolkit/core/pytorch/graph_substitutions/substitutions/multi_head_attention_decomposition.py:MHAParams"]}
{"id": "C76", "title": "Activation bias correction cancels the mean activation error", "statement": "With activation_bias_correction on, a dense or 1x1 convolution layer fed by one quantized activation (possibly through layers that keep the quantization) whose relative mean shift reaches the threshold gets its bias reduced by the mean quantization error of that activation, propagated through the kernel. If everything the layer reads moves by the estimated mean, the average output on quantized activations equals the average output on float activations, for every channel. The estimate from the histogram differs from the actual mean error by at most half a bin width plus half the width of its quantized image. Other layers are left as they are.", "quantifier": "all layer kinds (with groups, depth multipliers, with or without bias), kernels, quantizers, histograms, data sets, thresholds and graphs", "why_tests_cant": "Tests look at a term being set or at similarity of some outputs; that the average output is restored, what error remains, and for which layers, ranges over all kernels and data.", "anchors": ["model_compression_toolkit/core/common/statistics_correction/compute_activation_bias_correction_of_graph.py:compute_activation_bias_correction", "model_compression_toolkit/core/common/statistics_correction/compute_activation_bias_correction_of_graph.py:compute_activation_bias_correction_of_graph", "model_compression_toolkit/core/common/statistics_correction/apply_activation_bias_correction_to_graph.py:apply_activation_bias_correction_to_graph"]}
{"id": "C77", "title": "Reshapes with static sizes give the same outputs, and the size computations go", "statement": "When a PyTorch model is converted, a reshape or view whose sizes are computed in the model is called with the traced sizes instead, with the first axis left open; the nodes that only computed sizes, and no others, disappear, and the outputs of the model are the same on every input for which the intended shape agrees with the traced one on all axes but the first. The conversion stops when a size is used twice or is an input of the model.", "quantifier": "all graphs (any number of nodes and edges, any chain of size computations), all shapes, all operations, all batch sizes", "why_tests_cant": "Tests convert a few models with one trace shape; which graphs lose which nodes, and at which other shapes the static sizes agree, ranges over all graphs and shapes.", "anchors": ["model_compression_toolkit/core/pytorch/graph_substitutions/substitutions/reshape_with_static_shapes.py:ReshapeWithStaticShapes", "model_compression_toolkit/core/pytorch/graph_substitutions/substitutions/reshape_with_static_shapes.py:clean_graph_from_nodes_without_out_edges"]}
{"id": "C78", "title": "Channels are pruned by the importance the metric promises", "statement": "With the LFH metric, the channels of each layer to prune are split into SIMD groups in the order of (mean Hessian score) x (squared norm of the channel weights) / (number of weights), for kernels of any shape and any output channel axis; each group gets as score the sum of its Hessian scores times the sum of its squared weights over its number of weights, which with non-negative Hessian scores is at least the mean importance of its channels. The scores exist whenever the Hessian service returns one score per channel.", "quantifier": "all sets of layers, kernel shapes and values, channel axes, SIMD sizes, numbers of samples and Hessian scores", "why_tests_cant": "Tests look at a few small kernels; that slices, groups and Hessian scores refer to the same channels ranges over all shapes, axes and orders.", "anchors": ["model_compression_toolkit/core/common/pruning/importance_metrics/lfh_importance_metric.py:LFHImportanceMetric"]}
{"id": "C79", "title": "Activation quantizers run in the framework agree with the quantizers used to choose their parameters", "statement": "When a model is run with quantized activations in PyTorch or Keras (mixed precision, shift negative correction), the symmetric, power-of-two and uniform quantizers map every element to a nearest value of the same n-bit grid as the numpy quantizer under which the threshold or range was selected, and the results are equal except for elements exactly half-way between two grid values; the table quantizer returns a nearest table value. A power-of-two quantizer with another threshold, or a quantizer with a missing parameter, is refused.", "quantifier": "all elements, thresholds, ranges with a positive width, signs, tables, and bit-widths the framework supports (in Keras uniform ranges that contain zero)", "why_tests_cant": "Rounding at the clip bounds and on half-way points are isolated points of a continuum; the three implementations round differently and clip at different stages.", "anchors": ["model_compression_toolkit/core/pytorch/quantizer/fake_quant_builder.py:symmetric_quantization", "model_compression_toolkit/core/pytorch/quantizer/fake_quant_builder.py:uniform_quantization", "model_compression_toolkit/core/keras/quantizer/fake_quant_builder.py:quantizer_min_max_calculator", "model_compression_toolkit/core/keras/quantizer/fake_quant_builder.py:uniform_quantization", "model_compression_toolkit/core/pytorch/quantizer/lut_fake_quant.py:PytorchLUTFakeQuant", "model_compression_toolkit/core/keras/quantizer/lut_fake_quant.py:LUTFakeQuant", "model_compression_toolkit/core/common/quantization/node_quantization_config.py:NodeActivationQuantizationConfig"]}
{"id": "C80", "title": "A Keras model with nested models is read as one flat graph that computes the same", "statement": "When the toolkit reads a Keras functional model, the graph it works on gives the same outputs on the same inputs as the model, whatever the layers compute; its nodes are the input layers of the model and one node per call of an operation at any nesting depth, and no nested model is left in it. The models that are read are exactly those in whose nested models the operations read the input layers at their first position; the others stop with a ValueError.", "quantifier": "all functional models, layers of any numbers of inputs and outputs, any nesting depth, any values and operations", "why_tests_cant": "Which edge of a nested model is connected to which tensor depends on positions at every level at once; test models nest once or twice with one input and one output.", "anchors": ["model_compression_toolkit/core/keras/reader/reader.py:model_reader", "model_compression_toolkit/core/keras/reader/reader.py:flatten_nested_model", "model_compression_toolkit/core/keras/reader/connectivity_handler.py:ConnectivityHandler", "model_compression_toolkit/core/keras/reader/nested_model/nested_model_handler.py:merge_graphs", "model_compression_toolkit/core/keras/reader/nested_model/edges_merger.py:merge_models_edges", "model_compression_toolkit/core/keras/reader/nested_model/nodes_merger.py:merge_models_nodes", "model_compression_toolkit/core/keras/reader/nested_model/outputs_merger.py:merge_models_outputs", "model_compression_toolkit/core/common/graph/edge.py:Edge"]}
{"id": "C81", "title": "Calls of functions and layers in a Keras model are rebuilt with the same arguments", "statement": "The model the toolkit builds back calls each TensorFlow function of a Keras model with the same value for every parameter: the constants in the call are stored as weights of the node and come back at the place they were taken from, and the tensors come back at theirs. Without constants this holds when the tensors are the first arguments; with constants, when no parameter in front of a constant keyword is left out and tensor keywords are ordered; for concat, stack and add_n the list is put together again from its tensors and constants. Layers get the tensor, or the list of tensors and constants, they were called on.", "quantifier": "all functions and numbers of parameters, all positional and keyword arguments, lists of any length, constants at any positions", "why_tests_cant": "The mix of tensors, constants and plain values over positions and keywords is unbounded; tests call a few functions with one constant each.", "anchors": ["model_compression_toolkit/core/keras/reader/node_builder.py:build_node", "model_compression_toolkit/core/keras/reader/node_builder.py:_extract_const_attrs_from_args", "model_compression_toolkit/core/keras/reader/node_builder.py:_extract_const_attrs_from_kwargs", "model_compression_toolkit/core/keras/reader/node_builder.py:_build_arguments_alloc", "model_compression_toolkit/core/keras/back2framework/keras_model_builder.py:KerasModelBuilder", "model_compression_toolkit/core/common/graph/base_node.py:BaseNode", "model_compression_toolkit/core/common/graph/functional_node.py:FunctionalNode"]}
{"id": "C82", "title": "A Keras model read into a graph and built again computes the same", "statement": "Reading a Keras model into a graph and building a Keras model from the graph gives a model that returns, on every list of inputs, exactly the outputs of the original model in the same order, with layers called several times and with nested models, provided that no two levels use one layer name and that no layer is named like a further call of another. Every node finds the layer it calls by name, every layer is run on the tensors its edges point to in the order of their input indices, quantized nodes hand on quantized tensors, and the outputs are the quantized tensors, the tensors before quantization on request, or the tensors of the nodes asked for.", "quantifier": "all Keras models of any depth of nesting and any number of calls, all functions computed by the layers, all inputs, all topological orders, all activation quantizers of nodes with one output", "why_tests_cant": "Architectures, names and numbers of calls are unbounded; tests compare a few networks on random inputs.", "anchors": ["model_compression_toolkit/core/keras/back2framework/keras_model_builder.py:KerasModelBuilder", "model_compression_toolkit/core/keras/back2framework/instance_builder.py:OperationHandler", "model_compression_toolkit/core/keras/reader/node_builder.py:build_node", "model_compression_toolkit/core/keras/reader/reader.py:model_reader", "model_compression_toolkit/core/common/back2framework/base_model_builder.py:BaseModelBuilder"]}
{"id": "C83", "title": "The model of the mixed-precision search quantizes exactly what the search asks for", "statement": "The sensitivity evaluation of a mixed-precision search builds one model whose quantizers it switches. This model can be built whenever the candidates of every configurable node are in strictly descending order of bits and one of them has the most bits everywhere. The layers that can be configured are exactly those that offer a choice for the kernel or for a searched activation. For every request of the search the metric is computed on a model in which each activation is quantized by the candidate requested for its layer call, each kernel by the candidate requested for its layer in all calls of that layer, and nothing else is quantized; before and afterwards nothing is quantized. The Keras and the PyTorch model agree on what is quantized by what.", "quantifier": "all graphs with any number of layers, calls of shared layers, candidates and bit-widths, all names, all requests of weights and activation candidates, both frameworks, searches with and without activations", "why_tests_cant": "The pairing of quantizers with layers goes through names and the order of candidates; tests look at single networks with a few candidates and cannot cover all combinations of shared layers, names and candidate lists.", "anchors": ["model_compression_toolkit/core/common/mixed_precision/sensitivity_eval/sensitivity_evaluation.py:SensitivityEvaluation", "model_compression_toolkit/core/common/mixed_precision/configurable_quantizer_utils.py:verify_candidates_descending_order", "model_compression_toolkit/core/keras/back2framework/mixed_precision_model_builder.py:MixedPrecisionKerasModelBuilder", "model_compression_toolkit/core/pytorch/back2framework/mixed_precision_model_builder.py:MixedPrecisionPyTorchModelBuilder", "model_compression_toolkit/core/keras/mixed_precision/configurable_activation_quantizer.py:ConfigurableActivationQuantizer", "model_compression_toolkit/core/pytorch/mixed_precision/configurable_weights_quantizer.py:ConfigurableWeightsQuantizer", "model_compression_toolkit/core/common/graph/base_node.py:BaseNode"]}
{"id": "C84", "title": "Hessian scores estimate the squared derivatives of all outputs", "statement": "The score a request for Hessian information returns for a kernel or an activation is, entry by entry, the average over the random vectors used of the squared derivatives of a random combination of all elements of all outputs of the model, summed over the elements the entry covers: the whole tensor, one output channel or one element, and for activations those of one image. All random vectors are used, or at least twelve. Averaged over all sign vectors an entry is the sum of the squared derivatives of every output element by every element it covers. At each granularity the entries cover every element exactly once, so finer scores of a kernel add up to coarser ones. In PyTorch the scores of an image do not depend on the other images of the batch. Outputs with different numbers of images are refused.", "quantifier": "all models given by the derivatives of their outputs, any number and shapes of outputs (single tensors, lists, nodes with several outputs), all kernels and activations of any shape and channel axis, all sequences of random vectors, all granularities, both frameworks", "why_tests_cant": "The scores are random; a test sees some draws of a small network and can only compare with a tolerance, while the expectation and the assignment of elements to entries are statements about all draws and shapes.", "anchors": ["model_compression_toolkit/core/common/hessian/hessian_scores_calculator.py:HessianScoresCalculator", "model_compression_toolkit/core/pytorch/hessian/hessian_scores_calculator_pytorch.py:HessianScoresCalculatorPytorch", "model_compression_toolkit/core/pytorch/hessian/weights_hessian_scores_calculator_pytorch.py:WeightsHessianScoresCalculatorPytorch", "model_compression_toolkit/core/pytorch/hessian/activation_hessian_scores_calculator_pytorch.py:ActivationHessianScoresCalculatorPytorch", "model_compression_toolkit/core/keras/hessian/hessian_scores_calculator_keras.py:HessianScoresCalculatorKeras", "model_compression_toolkit/core/keras/hessian/weights_hessian_scores_calculator_keras.py:WeightsHessianScoresCalculatorKeras", "model_compression_toolkit/core/keras/hessian/activation_hessian_scores_calculator_keras.py:ActivationHessianScoresCalculatorKeras"]}
{"id": "C85", "title": "TensorFlow function calls turned into Keras layers keep their meaning", "statement": "A call of tf.nn.conv2d, tf.nn.convolution, tf.nn.depthwise_conv2d or tf.matmul with a constant kernel in a Keras model is replaced, before quantization, by a Conv2D, DepthwiseConv2D or Dense layer that computes what the call computed with its strides, padding, dilations, layout and transposition, however the arguments are passed; an addition of a constant vector, or a bias addition, that is the only reader of the convolution becomes the bias of the layer. A product of a tensor and its sigmoid is replaced by swish exactly when the sigmoid is read by nothing else. The outputs of the model and all remaining tensors keep their values.", "quantifier": "all well-formed graphs, all positions of the call, all valid calls by position or by name whose settings are not arrays, all kernels, strides, dilations, image sizes and (for conv2d) both layouts, all values of the tensors", "why_tests_cant": "The forms a call can take, the layouts and the surrounding graphs are unbounded; a test compares a few models with a tolerance.", "anchors": ["model_compression_toolkit/core/keras/graph_substitutions/substitutions/conv_funcs_to_layer.py:Conv2dFuncToConv2dLayer", "model_compression_toolkit/core/keras/graph_substitutions/substitutions/conv_funcs_to_layer.py:DwConv2dFuncToDwConv2dLayer", "model_compression_toolkit/core/keras/graph_substitutions/substitutions/matmul_substitution.py:MatmulToDenseSubstitution", "model_compression_toolkit/core/keras/graph_substitutions/substitutions/sigmoid_mul_to_swish.py:MulSigmoidToSwish"]}
{"id": "C86", "title": "The layers a Keras MultiHeadAttention is broken into compute the attention", "statement": "Before quantization a MultiHeadAttention layer of a Keras model (with biases, at least two heads, no mask) is replaced by permutations, reshapes, 1x1 convolutions, slices, matrix products, softmax, stacking and concatenation. On every input the result has the shape and, at every position, the value of the layer: each query position attends, in each head, to exactly the key positions that agree with it along the axes that are not attention axes, with softmax weights of the scaled scores, and the heads are projected to the output channels. This holds with the key given or taken to be the value, and the tensors read as query, value and key are those the layer was called with.", "quantifier": "all numbers of inner axes, all subsets and orders of attention axes, all sizes (also different for query and key along the attention axes), all numbers of heads from two up, all key, value and output sizes, all weights and inputs", "why_tests_cant": "The combinations of ranks, attention axes and sizes are unbounded, and a test compares a few of them with a tolerance; an exchange of axes of equal size or of equal weights stays invisible.", "anchors": ["model_compression_toolkit/core/keras/graph_substitutions/substitutions/multi_head_attention_decomposition.py:MHAParams", "model_compression_toolkit/core/keras/graph_substitutions/substitutions/multi_head_attention_decomposition.py:MultiHeadAttentionDecomposition"]}
{"id": "C87", "title": "The exported model computes with the weights and activations the configuration stands for", "statement": "When a fully quantized model is built, each layer gets one quantizer per weight whose quantization is enabled and the tensors around layers get activation quantizers. Each quantized weight of the exported PyTorch or Keras layer is, at every entry, the value the toolkit itself quantizes that entry to (in Keras up to entries half-way between two grid values), weights that are not quantized stay as they are, no other weight is touched, and building never fails, as long as each weight has one configuration with valid parameters and, in Keras, the short name of a weight does not occur in another name. An exported activation quantizer returns the value the configuration stands for: the nearest grid value of the clipped number, with the range moved to contain zero for uniform quantization, or the table value. A disabled activation gets no quantizer.", "quantifier": "both frameworks, all weight shapes, all channel axes, all bit widths the inference quantizers take, all thresholds, ranges and tables, all quantization methods, all numbers of weights per layer, all inputs", "why_tests_cant": "The mapping goes through two naming schemes, flattened parameters and a transposition of the channel axis; a test sees a few layers, names and axes, and equality of quantized values on all inputs cannot be sampled.", "anchors": ["model_compression_toolkit/core/keras/keras_implementation.py:KerasImplementation.get_inferable_quantizers", "model_compression_toolkit/core/pytorch/pytorch_implementation.py:PytorchImplementation.get_inferable_quantizers", "model_compression_toolkit/exporter/model_wrapper/keras/builder/node_to_quantizer.py:get_weights_quantizer_for_node", "model_compression_toolkit/exporter/model_wrapper/keras/builder/node_to_quantizer.py:get_activations_quantizer_for_node", "model_compression_toolkit/exporter/model_wrapper/pytorch/builder/node_to_quantizer.py:get_weights_quantizer_for_node", "model_compression_toolkit/exporter/model_wrapper/pytorch/builder/node_to_quantizer.py:get_activations_quantizer_for_node", "model_compression_toolkit/exporter/model_wrapper/fw_agnostic/get_inferable_quantizers.py:get_inferable_quantizers"]}
{"id": "C88", "title": "Data generation lowers a learning rate exactly when the losses have stalled", "statement": "While images are generated each batch has a learning rate that is lowered on a plateau. After any sequence of losses the rate has been multiplied by the factor exactly once for each time the last patience+1 losses failed to improve on the best loss since the last reduction (not counting the cooldown), never below the floor; it never rises and a too small change is not made. A run of data generation lowers a rate fewer than fifty times. A schedule is refused exactly when the factor is one or more or the floors do not fit the parameter groups.", "quantifier": "all sequences of losses of any length, all factors, patiences, thresholds, cooldowns, floors, both directions and both kinds of threshold, all numbers of parameter groups", "why_tests_cant": "The behaviour depends on the whole history of losses; a test feeds a handful of histories.", "anchors": ["model_compression_toolkit/data_generation/pytorch/optimization_functions/lr_scheduler.py:ReduceLROnPlateauWithReset", "model_compression_toolkit/data_generation/keras/optimization_functions/lr_scheduler.py:ReduceLROnPlateau", "model_compression_toolkit/data_generation/pytorch/optimization_functions/scheduler_step_functions.py:get_reduce_lr_on_plateau_with_reset_scheduler", "model_compression_toolkit/data_generation/keras/optimization_functions/scheduler_step_functions.py:get_reduce_lr_on_plateau_scheduler"]}
{"id": "C89", "title": "Data generation returns the asked number of images, of the asked size, with valid pixels", "statement": "Generating n images of a given size returns exactly n images of that size, in the order of their batches. Whatever the optimizer did, each returned image is the last state of its own place in its own batch, smoothed by a Gaussian mean that treats the outside as black, cut out of the middle (margins differing by at most one pixel) and, if clipping is asked for (PyTorch), moved to the nearest value of the range of valid pixels of its channel. Smoothing never leaves a range that contains black and the image. Sizes that are neither a number nor one or two numbers are refused.", "quantifier": "all numbers of images, batch sizes, image sizes, extra pixels, odd filter sizes and widths, normalizations, initial values, all iterations and everything an optimizer may do; both frameworks", "why_tests_cant": "The optimizer moves the images anywhere; tests look at the outcome of a few short runs with even batches and one configuration.", "anchors": ["model_compression_toolkit/data_generation/common/image_pipeline.py:BaseImagePipeline", "model_compression_toolkit/data_generation/pytorch/image_pipeline.py:PytorchSmoothAugmentationImagePipeline", "model_compression_toolkit/data_generation/pytorch/image_pipeline.py:PytorchIdentityImagePipeline", "model_compression_toolkit/data_generation/keras/image_pipeline.py:TensorflowSmoothAugmentationImagePipeline", "model_compression_toolkit/data_generation/keras/image_pipeline.py:TensorflowIdentityImagePipeline", "model_compression_toolkit/data_generation/pytorch/image_operations.py:Smoothing", "model_compression_toolkit/data_generation/pytorch/image_operations.py:create_valid_grid", "model_compression_toolkit/data_generation/keras/image_operations.py:clip_images", "model_compression_toolkit/data_generation/pytorch/optimization_functions/image_initilization.py:default_data_init_fn", "model_compression_toolkit/data_generation/pytorch/optimization_utils.py:PytorchImagesOptimizationHandler", "model_compression_toolkit/data_generation/keras/optimization_utils.py:KerasImagesOptimizationHandler", "model_compression_toolkit/data_generation/pytorch/pytorch_data_generation.py:pytorch_data_generation_experimental", "model_compression_toolkit/data_generation/keras/keras_data_generation.py:keras_data_generation_experimental"]}
{"id": "C90", "title": "The batch-normalization loss of data generation compares the statistics of the chosen images with those of the model", "statement": "In every step of every data-generation run the batch-normalization loss is the weighted sum, over the layers, of the squared distances of mean and deviation of the values fed to the layer from the running mean and deviation of the model. With all images together (PyTorch) these are the mean and the variance of all values of all batches, when the batches give equally many values; Keras falls short of the variance by the variance of the batch means. Batch by batch and image by image they are those of the batch, or of each image, of the step only, whatever happened before. The loss is never negative and vanishes exactly when all compared statistics coincide. Keras refuses a model without batch-normalization layers and gives its first layer ten times the weight of the others.", "quantifier": "all numbers of layers, channels, batches and images, all values the layers are fed with, all running statistics and weights, all histories of steps on any batches with any image preparation and any optimizer", "why_tests_cant": "The statistics are kept over batches and steps; tests run a few steps of one model and do not compare the stored numbers with the images they stand for.", "anchors": ["model_compression_toolkit/data_generation/common/optimization_utils.py:ImagesOptimizationHandler", "model_compression_toolkit/data_generation/common/model_info_exctractors.py:OriginalBNStatsHolder", "model_compression_toolkit/data_generation/common/optimization_utils.py:BatchStatsHolder", "model_compression_toolkit/data_generation/pytorch/optimization_utils.py:PytorchBatchStatsHolder", "model_compression_toolkit/data_generation/pytorch/optimization_utils.py:PytorchImagesOptimizationHandler", "model_compression_toolkit/data_generation/keras/optimization_utils.py:KerasBatchStatsHolder", "model_compression_toolkit/data_generation/keras/optimization_utils.py:KerasImagesOptimizationHandler", "model_compression_toolkit/data_generation/pytorch/model_info_exctractors.py:PytorchOriginalBNStatsHolder", "model_compression_toolkit/data_generation/keras/model_info_exctractors.py:KerasOriginalBNStatsHolder", "model_compression_toolkit/data_generation/pytorch/optimization_functions/batchnorm_alignment_functions.py:l2_square", "model_compression_toolkit/data_generation/pytorch/optimization_functions/bn_layer_weighting_functions.py:first_bn_multiplier_weighting_fn"]}
{"id": "C91", "title": "The loss of GPTQ training weights the error of each layer as its score asks for", "statement": "In a training step the default PyTorch loss is the average over the compared layers of weight times relative squared error, whatever the batch size; the Keras loss is the weighted sum of the squared errors times the batch size. It is never negative, and zero exactly if the outputs agree in all layers of positive weight. With the default Hessian weights the weight of a layer is the logarithm of its average share of the scores, relative to the least one (and to the largest one if scaling is asked for); a zero score counts as the least positive one, two zero scores or a single layer leave no weights. With scores per sample and layer the loss sums, over the layers, the mean of score times squared distance of the outputs, relative to the largest mean score, and is not changed by scaling all scores. Without logarithmic normalization the layers are in fact not weighted: the loss is the product of average weight and average error.", "quantifier": "all numbers of layers, batch sizes, output shapes and values, all scores of all images, all settings of the normalization", "why_tests_cant": "Tests check that training runs and that accuracy does not drop; the weights enter a product of tensors whose shapes broadcast silently, so any vector gives some loss.", "anchors": ["model_compression_toolkit/gptq/pytorch/gptq_loss.py:multiple_tensors_mse_loss", "model_compression_toolkit/gptq/pytorch/gptq_loss.py:sample_layer_attention_loss", "model_compression_toolkit/gptq/keras/gptq_loss.py:GPTQMultipleTensorsLoss", "model_compression_toolkit/gptq/keras/gptq_loss.py:multiple_tensors_mse_loss", "model_compression_toolkit/gptq/keras/gptq_loss.py:sample_layer_attention_loss", "model_compression_toolkit/gptq/common/gptq_training.py:GPTQTrainer.compute_hessian_based_weights", "model_compression_toolkit/core/common/hessian/hessian_info_utils.py:normalize_scores", "model_compression_toolkit/gptq/pytorch/gptq_training.py:PytorchGPTQTrainer._prepare_train_dataloader_for_non_sla", "model_compression_toolkit/gptq/keras/gptq_training.py:KerasGPTQTrainer._prepare_train_dataloader_for_non_sla"]}
{"id": "C92", "title": "Every GPTQ epoch trains on each representative sample once, beside its own weights", "statement": "Without sample-layer attention each epoch goes through a fresh pass of the representative data generator: every sample is used once and in order, with all its inputs together, in batches of the size of the first one (the last may be smaller); a generator of equal batches is reproduced batch for batch, and then the annealing schedules reckon with the number of steps really made. With sample-layer attention every sample is used once in any shuffled order, beside its own weight for each layer: the largest of its scores over the channels, whatever the batch size of the Hessian computation; the regularization weights are the means of these. A data set of a fixed number of samples holds the first ones yielded, independently of what would follow; too few samples, an empty generator and empty batches are refused. For batches of unequal sizes the planned number of steps is not the real one.", "quantifier": "all generators (any number of batches, batch sizes, inputs and values, possibly different in every pass), all epochs, batch sizes, scores, numbers of layers and shuffling orders", "why_tests_cant": "Tests use a generator that yields the same random batch a fixed number of times; a sample that is skipped, repeated or paired with the weights of another one changes the result only slightly.", "anchors": ["model_compression_toolkit/core/pytorch/data_util.py:FixedDatasetFromGenerator", "model_compression_toolkit/core/pytorch/data_util.py:IterableSampleWithConstInfoDataset", "model_compression_toolkit/core/pytorch/data_util.py:FixedSampleInfoDataset", "model_compression_toolkit/core/keras/data_util.py:FixedTFDataset", "model_compression_toolkit/core/keras/data_util.py:IterableSampleWithConstInfoDataset", "model_compression_toolkit/core/keras/data_util.py:FixedSampleInfoDataset", "model_compression_toolkit/gptq/pytorch/gptq_training.py:PytorchGPTQTrainer._prepare_train_dataloader_sla", "model_compression_toolkit/gptq/keras/gptq_training.py:KerasGPTQTrainer._prepare_train_dataloader_sla", "model_compression_toolkit/trainable_infrastructure/common/util.py:get_total_grad_steps"]}
{"id": "C93", "title": "GPTQ training gives every trained layer its own results and leaves the rest of the model as it was", "statement": "Whatever the optimizers do, if gradient-based quantization returns, then every layer with a quantized kernel that is not a repeated use has got the quantized kernel computed from its own float kernel and its own trained variables, its own quantization parameters and, if biases are trained, its own bias; all its other weights, all other layers and the structure are unchanged, in whatever order the layers of the trained model are visited. It returns exactly if a Hessian service is there when scores are asked for, the input scales agree, float and quantized graph have equally many layers to train, scores per sample are not to be normalized, and (PyTorch) there is something to train; names that are not unique are refused; without configuration or epochs nothing is changed. In PyTorch the regularization weight of a compared layer meets this layer; in Keras only if each compared layer is nearer to the outputs than the one before. A Keras layer with \"bias\" in its name does not get its trained bias.", "quantifier": "all graphs (any number of nodes, attribute names, reused nodes), all outcomes of training, all settings, all orders of the layers, all branching structures", "why_tests_cant": "Tests compare the accuracy or some weights of small sequential models; a kernel written to a wrong node, a weight that meets another layer or a reused node that is overwritten needs particular names and branches.", "anchors": ["model_compression_toolkit/gptq/common/gptq_training.py:GPTQTrainer.__init__", "model_compression_toolkit/gptq/common/gptq_training.py:gptq_training", "model_compression_toolkit/gptq/common/gptq_graph.py:get_compare_points", "model_compression_toolkit/gptq/runner.py:_apply_gptq", "model_compression_toolkit/gptq/pytorch/gptq_training.py:PytorchGPTQTrainer.update_graph", "model_compression_toolkit/gptq/keras/gptq_training.py:KerasGPTQTrainer.update_graph", "model_compression_toolkit/gptq/pytorch/graph_info.py:get_gptq_trainable_parameters", "model_compression_toolkit/gptq/keras/graph_info.py:get_gptq_trainable_parameters", "model_compression_toolkit/gptq/keras/quantizer/soft_rounding/soft_quantizer_reg.py:SoftQuantizerRegularization", "model_compression_toolkit/core/common/graph/base_node.py:BaseNode.set_weights_by_keys"]}
{"id": "C94", "title": "The INT8 TFLite exporter replaces a dense layer by a pointwise convolution with the same output", "statement": "For every dense layer whose kernel quantizer is given by thresholds (one per output channel, or one for the tensor), every number of inputs, units and inner dimensions, with or without bias, and every activation function of the channels of a position (softmax included), the reshaping, 1x1 convolution and reshaping that replace the layer in the exported model have the shape and the values of the dense layer with its quantized kernel. The replacement is built exactly if the kernel is quantized by thresholds and the inner dimensions of the input are known; a uniform quantizer, a kernel that is not quantized or an unknown dimension makes the export fail.", "quantifier": "all kernels, biases, thresholds, scalar quantization functions, activation functions over channels, inputs of every rank", "why_tests_cant": "Tests export one or two dense layers and compare on random inputs; a wrong channel axis or a wrong reshape can agree when sizes or thresholds coincide, and higher ranks are not tried.", "anchors": ["model_compression_toolkit/exporter/model_exporter/keras/int8_tflite_exporter.py:INT8TFLiteExporter._get_pointwise_layer_to_replace_dense", "model_compression_toolkit/exporter/model_exporter/keras/int8_tflite_exporter.py:INT8TFLiteExporter.export"]}
{"id": "C95", "title": "With concat_threshold_update the layers that feed only a concatenation are quantized with its threshold, all others as before", "statement": "In every graph in which only the concatenation operations themselves are taken for concatenations, the update succeeds; a layer that is no concatenation and whose only outgoing edge leads to a concatenation with a single quantization candidate and a threshold gets this threshold; its other settings, all other layers, all other candidates and the structure are unchanged, and no layer could be given two thresholds, so the order of the layers does not matter. The quantization method of the layer is not looked at: a power-of-two layer can get a threshold that is no power of two, of several candidates only the first is changed, a uniform layer gets a threshold besides its range. If another function has the name of the concatenation, chains of concatenations are not left alone.", "quantifier": "all graphs (any number of nodes, parallel edges, nested concatenations), candidates, methods and thresholds", "why_tests_cant": "Tests use one or two concatenations with power-of-two quantizers everywhere; mixed methods, several candidates, double edges and chains are not tried.", "anchors": ["model_compression_toolkit/core/keras/graph_substitutions/substitutions/concat_threshold_update.py:ConcatThresholdUpdate.substitute", "model_compression_toolkit/core/pytorch/graph_substitutions/substitutions/concat_threshold_update.py:ConcatThresholdUpdate.substitute", "model_compression_toolkit/core/common/substitutions/apply_substitutions.py:substitute", "model_compression_toolkit/core/common/graph/graph_matchers.py:NodeOperationMatcher", "model_compression_toolkit/core/common/graph/functional_node.py:FunctionalNode.is_match_type"]}
{"id": "C96", "title": "The explainable quantization report contains, for every quantized layer with a float counterpart and for the outputs, the averages of the metrics of the right pair of tensors", "statement": "For two models with one output and a data set with at least one batch, the report has the default metrics and the custom ones (which replace defaults of the same name), for the outputs and for exactly the quantized layers whose float layer exists; every value is the average over the batches of the metric of the float and the quantized tensor of this layer; two quantized layers for one float layer are refused. The MSE is never negative, symmetric and zero exactly for equal values, with equal batches it is the MSE of the whole data set; SQNR times MSE is the mean square of the float tensor and a common scale does not matter; the cosine similarity of PyTorch lies between -1 and 1 and is 1 for equal tensors. In Keras the cosine similarity is reported with the opposite sign, models with several outputs fail, and without compared layers only the last sample of a batch is looked at; unequal batches are not weighted; an empty data set fails with a division by zero.", "quantifier": "all layer names and correspondences, all batches, all custom metrics, all tensors of equal size", "why_tests_cant": "Tests check that the keys are there and that a few values are numbers; pairing by names, replacement of metrics, signs and averages over unequal batches are not checked.", "anchors": ["model_compression_toolkit/xquant/common/similarity_calculator.py:SimilarityCalculator.compute_similarity_metrics", "model_compression_toolkit/xquant/common/similarity_calculator.py:SimilarityCalculator._get_float_to_quantized_compare_points", "model_compression_toolkit/xquant/pytorch/similarity_functions.py:PytorchSimilarityFunctions", "model_compression_toolkit/xquant/keras/similarity_functions.py:KerasSimilarityFunctions", "model_compression_toolkit/xquant/keras/model_analyzer.py:KerasModelAnalyzer.extract_model_activations", "model_compression_toolkit/xquant/pytorch/model_analyzer.py:PytorchModelAnalyzer.extract_model_activations"]}
{"id": "C97", "title": "PyTorch functions that are replaced by layers: the layer computes what the call computed, and a transposed convolution keeps the size of its output", "statement": "A call of torch.nn.functional.linear with a constant weight becomes a Linear layer with the same weight and the same bias (or none), however the arguments are written, provided the input is written first. A call of conv2d or conv_transpose2d becomes a layer with the same weight, bias, stride, padding, dilation and output padding when these parameters are given by keyword, there is one group, and a bias is given (or bias=None by keyword). Parameters given by position are lost; without a bias the layer keeps the random bias it was created with; a grouped conv2d is refused; a weight written before the input is a critical error. The output padding computed for a ConvTranspose2d is the only one below the stride that gives the recorded output size; layers with an output padding between stride and dilation are refused although PyTorch accepts them; a layer used with two output sizes keeps the padding of the first use.", "quantifier": "all calls Python accepts (any mix of positional and keyword arguments, in any order), all tensors and shapes, all initial values of layers; all strides, paddings, kernel sizes, dilations and sizes", "why_tests_cant": "A few calls are tested, with square kernels, a bias and keyword parameters; the orders of arguments, positional parameters and missing biases are unboundedly many, and a random bias is close to zero.", "anchors": ["model_compression_toolkit/core/pytorch/graph_substitutions/substitutions/const_holder_conv.py:FunctionalConvSubstitution.substitute", "model_compression_toolkit/core/pytorch/graph_substitutions/substitutions/functional_linear.py:FunctionalLinear.substitute", "model_compression_toolkit/core/pytorch/graph_substitutions/substitutions/convtranspose_dynamic_padding.py:ConvtransposeDynamicPadding.calc_dynamic_output_size", "model_compression_toolkit/core/pytorch/reader/graph_builders.py:nodes_builder", "model_compression_toolkit/core/pytorch/back2framework/instance_builder.py:node_builder"]}
{"id": "C98", "title": "Second moment correction gives batch normalizations the moving statistics of the calibration data and touches nothing else", "statement": "With second moment correction on, the representative data is run through the model with quantized weights. Every batch normalization whose node has the correction switched on keeps its scale and shift and ends with a mean and a variance that are the moving averages, in the order of the batches, of the means and variances of the tensor it gets for each batch, as computed from the model before the run; all other nodes keep their weights. If all batches have the same statistics the distance to them shrinks by the same factor (nine tenths for the reconstructed layers) with each batch, so one batch corrects a tenth; an average never leaves the range of its values; a layer whose moving statistics are those of its data has an output with the mean and standard deviation of its shift and scale. Keras always goes through, PyTorch stops on a batch with one position. Batch normalizations of the user that were not folded get new statistics as well, and in Keras layers like dropout are active while statistics are collected.", "quantifier": "all models (any layers in topological order, any wiring), all weights, any number of batches of any size, both frameworks", "why_tests_cant": "Tests run one small model for a few batches and check that statistics changed; that they depend on the original model only, for every architecture and number of batches, cannot be sampled.", "anchors": ["model_compression_toolkit/core/pytorch/statistics_correction/apply_second_moment_correction.py:pytorch_apply_second_moment_correction", "model_compression_toolkit/core/keras/statistics_correction/apply_second_moment_correction.py:keras_apply_second_moment_correction", "model_compression_toolkit/core/common/statistics_correction/apply_second_moment_correction_to_graph.py:apply_second_moment_correction_to_graph", "model_compression_toolkit/core/common/quantization/node_quantization_config.py:NodeWeightsQuantizationConfig"]}
{"id": "C99", "title": "The output losses of data generation fall as the outputs of the model spread wider, and the regularized loss is measured against the last linear layers", "statement": "The output loss of data generation depends on the images only through the spread (largest minus smallest value) of each output. The negative loss is minus the mean spread and never positive, the inverse loss of PyTorch the inverse of the mean spread, positive and bounded; both are sums over the outputs and strictly fall when a spread grows and none shrinks. In Keras the inverse loss has an entry for each image, its mean is never below the loss of PyTorch and equal for single images. The regularized loss adds the distance of the largest and of the smallest output from half (Keras: the whole of) the product of the lengths of the input and of the row of the kernel; for a linear layer without bias at any number of positions this lies between zero and half the product. The layers compared with are linear layers met first going back from the outputs: for one output behind layers with one input exactly the last linear layer, for outputs that are linear layers these in order. Several outputs share one search, so others can be missed or paired in the wrong order, and a layer behind two outputs counts for one; without linear layers the loss of PyTorch is zero and Keras refuses. Keras stores with every batch normalization its input and takes the last linear layer without batch normalization behind it, but compares with the input of the last batch normalization.", "quantifier": "all numbers and sizes of outputs, all images and values, all kernels, all acyclic graphs of models, all lists of layers", "why_tests_cant": "Tests run a few iterations of data generation on one network and check the shape of the images; the value of the loss, the pairing of layers with outputs and monotonicity for every model are never compared with anything.", "anchors": ["model_compression_toolkit/data_generation/pytorch/optimization_functions/output_loss_functions.py:regularized_min_max_diff", "model_compression_toolkit/data_generation/pytorch/optimization_functions/output_loss_functions.py:inverse_min_max_diff", "model_compression_toolkit/data_generation/keras/optimization_functions/output_loss_functions.py:regularized_min_max_diff", "model_compression_toolkit/data_generation/pytorch/model_info_exctractors.py:PytorchActivationExtractor", "model_compression_toolkit/data_generation/keras/model_info_exctractors.py:KerasActivationExtractor"]}
{"id": "C100", "title": "Preparing a model for quantization-aware training gives each quantized kernel one trainable quantizer that fits the training method and carries its final configuration", "statement": "A layer is wrapped when, and only when, its kernel is quantized; it then has exactly one trainable quantizer, of the one built-in class that fits the training method, the target and the quantization method, configured with the final method, bits, parameters, output channel axis and minimal threshold of the kernel, and with the first of each set of equal candidates. Activations of a quantized node get the quantizer of their own final configuration in the same way. Preparation succeeds exactly when the candidates agree on their methods, the training methods are STE or LSQ, the methods are power-of-two, symmetric or uniform, and the overriding arguments are ones the constructors take. Weights other than the kernel stay in float, DQA and lookup tables are refused, nodes with several quantized outputs are refused in Keras only, freezing is refused for LSQ, and GPTQ with straight-through rounding refuses uniform kernels.", "quantifier": "all nodes, candidates, final configurations, training methods, overriding arguments and sets of quantizer classes, in both frameworks", "why_tests_cant": "Tests prepare small models with default settings; that exactly one class is found for every accepted setting, that the configuration is that of the right candidate and which weights are left in float is never compared.", "anchors": ["model_compression_toolkit/trainable_infrastructure/common/get_quantizers.py:get_trainable_quantizer_class", "model_compression_toolkit/trainable_infrastructure/common/get_quantizer_config.py:get_trainable_quantizer_quantization_candidates", "model_compression_toolkit/qat/pytorch/quantizer/quantization_builder.py:quantization_builder", "model_compression_toolkit/qat/keras/quantizer/quantization_builder.py:quantization_builder", "model_compression_toolkit/qat/common/qat_config.py:is_qat_applicable", "model_compression_toolkit/trainable_infrastructure/common/base_trainable_quantizer.py:BaseTrainableQuantizer"]}
{"id": "C101", "title": "Output ranges taken as known in advance hold for every input, and the reported minimum and maximum then cover every value seen", "statement": "Some operations have their output range, or one end of it, looked up in place of being measured: softmax, sigmoid, hard sigmoid, tanh, ReLU, ReLU6, SELU, SiLU, softplus, ELU and GELU. For every input all outputs are within the range looked up, and the minimum and maximum reported for the quantization parameters then cover every value seen while collecting statistics; with both ends known they cover every value there can be; an end that is not known is a value that was seen. Shifting outputs by a constant shifts the range, which stays right. The range is wrong for Keras ELU layers exactly when alpha exceeds one, for Keras ReLU layers without slope exactly when the threshold is positive, and (slightly) for GELU in its tanh form, and then a minimum above observed values is reported. Keras Activation layers never have a known range.", "quantifier": "all inputs of any size, all alphas, slopes, thresholds and maximum values, all sequences of observed outputs, in both frameworks", "why_tests_cant": "The ranges are statements about real functions on all inputs (the SiLU minimum is -0.2785, the table says -0.279); tests look at a few batches and at layers with default arguments.", "anchors": ["model_compression_toolkit/core/pytorch/default_framework_info.py:PyTorchInfo", "model_compression_toolkit/core/keras/default_framework_info.py:KerasInfo", "model_compression_toolkit/core/keras/keras_node_prior_info.py:_get_min_max_outputs", "model_compression_toolkit/core/pytorch/pytorch_node_prior_info.py:create_node_prior_info", "model_compression_toolkit/core/common/node_prior_info.py:NodePriorInfo", "model_compression_toolkit/core/common/collectors/statistics_collector.py:StatsCollector"]}
{"id": "C102", "title": "A quantized model written to a file computes in the file what it computes in memory, as far as the format allows", "statement": "The model handed to ONNX or TorchScript by the PyTorch exporter gives for every input the same output as the quantized model, with the weights replaced by their quantized values and no quantizer of weights left in the fakely-quant formats; the only difference in fakely-quant ONNX is that activations of more than eight bits are not quantized. Export succeeds exactly when every wrapped layer has its quantizers and weights. Inputs and outputs get one name each, all different, for samples that are lists; metadata is the first found in the model. The Keras fakely-quant exporter writes every layer with its quantized kernel and its bias and every activation quantizer as a fake-quant operation of the same range and bits, and succeeds exactly when each layer can be written so. TorchScript and Keras fakely-quant export are refused for models with quantized constants, the batch size is taken for the number of inputs when a sample is a single tensor, and fakely-quant Keras export deletes the metadata of the model of the caller.", "quantifier": "all models (module trees of any depth, any forward function), wrappers, quantizers, bit-widths, inputs, samples and metadata, all formats", "why_tests_cant": "Tests export a few models and compare outputs on a random batch; wide activations, quantized constants, nested modules and repeated exports of one model are not combined, and equality for all inputs cannot be tested.", "anchors": ["model_compression_toolkit/exporter/model_exporter/pytorch/base_pytorch_exporter.py:BasePyTorchExporter", "model_compression_toolkit/exporter/model_exporter/pytorch/base_pytorch_exporter.py:find_and_assign_metadata_attr", "model_compression_toolkit/exporter/model_exporter/pytorch/fakely_quant_onnx_pytorch_exporter.py:FakelyQuantONNXPyTorchExporter", "model_compression_toolkit/exporter/model_exporter/pytorch/fakely_quant_torchscript_pytorch_exporter.py:FakelyQuantTorchScriptPyTorchExporter", "model_compression_toolkit/exporter/model_exporter/keras/fakely_quant_keras_exporter.py:FakelyQuantKerasExporter", "model_compression_toolkit/exporter/model_exporter/pytorch/pytorch_export_facade.py:pytorch_export_model", "model_compression_toolkit/exporter/model_exporter/keras/keras_export_facade.py:keras_export_model"]}
{"id": "C103", "title": "Prepared for single precision, a model has one configuration per layer: the platform's, with the requested bit-widths", "statement": "When a model is prepared without mixed precision, every layer ends with exactly one candidate. Its output is not quantized at all, follows its input, or is quantized with the method of an option that the platform offers for the layer and with the bit-width of that option or, if the user asked for one, of the last request; every quantized weight likewise. Layers inside a fused operation follow the configuration of the operation. The bit-width of an output, requested or not, is one that the platform offers for the layer and that every consumer of the output accepts. A request for the output of a layer that does not quantize its own output raises, and so does the HMSE error method when no gradient-based training follows. A request changes the bit-width of the base option only, so that in single precision the layer may end with a combination of method and bit-width that is not an option of the platform.", "quantifier": "all platforms, graphs, fused operations, sequences of requests and error methods", "why_tests_cant": "Unit tests check hand-made nodes one step at a time (loading, requests, filtering); the composition over all platforms, graphs and request sequences, in particular options that differ in more than the bit-width, is not reachable by examples.", "anchors": ["model_compression_toolkit/core/graph_prep_runner.py:get_finalized_graph", "model_compression_toolkit/core/common/graph/base_graph.py:Graph.override_fused_node_activation_quantization_candidates", "model_compression_toolkit/quantization_preparation/load_fqc.py:load_fqc_configuration", "model_compression_toolkit/core/common/quantization/set_node_quantization_config.py:set_manual_bitwidth_config", "model_compression_toolkit/core/common/quantization/filter_nodes_candidates.py:filter_nodes_candidates"]}
{"id": "C104", "title": "A quantization call is made in the precision that its own target asks for", "statement": "A call whose target bounds some resource is made in mixed precision for that target: it returns the choice of candidates given in the configuration or, without one, the choice found for the target, and reports exactly the bounded quantities, measured on the returned model. A call without such a target and with a configuration that was not used for mixed precision before is made in single precision, with nothing searched, nothing reported and no configuration changed. The answer to a call does not depend on the calls before it if its target bounds something or if none of them used its configuration with a bounding target. A bypass returns the model as it is (post-training and gradient-based quantization only). Does not hold: after one call with a target, every later call with the same configuration object -- in particular with the default one, which all calls of a function share -- and no target raises; a given choice is not compared with the target.", "quantifier": "all sequences of calls of the six quantization functions, all configuration objects shared between them in any way, all targets, and all behaviours of the stages (including raising)", "why_tests_cant": "Unit tests make a fresh configuration for every call and check one call at a time; dependence on the history of calls through a shared (default) object ranges over all sequences of calls.", "anchors": ["model_compression_toolkit/core/runner.py:core_runner", "model_compression_toolkit/core/runner.py:_set_final_resource_utilization", "model_compression_toolkit/core/common/quantization/core_config.py:CoreConfig", "model_compression_toolkit/core/common/mixed_precision/mixed_precision_quantization_config.py:MixedPrecisionQuantizationConfig.set_mixed_precision_enable", "model_compression_toolkit/core/common/mixed_precision/resource_utilization_tools/resource_utilization.py:ResourceUtilization", "model_compression_toolkit/ptq/pytorch/quantization_facade.py:pytorch_post_training_quantization", "model_compression_toolkit/gptq/pytorch/quantization_facade.py:pytorch_gradient_post_training_quantization", "model_compression_toolkit/qat/pytorch/quantization_facade.py:pytorch_quantization_aware_training_init_experimental"]}
{"id": "C105", "title": "Every operation of a framework gets the options of the operator set of its kind", "statement": "A platform description whose operator sets have standard names, each used once, can be attached to Keras and to PyTorch, and a description that can be attached has only operator sets that the framework knows. In the attached platform an operation listed by the library has exactly the options of the operator set of its row, with kernel and bias under the names that the framework gives them, and none if the description has no such set. Each listed operation is in the row of the operator set of what it computes, the same for both frameworks. Does not hold for tf.nn.avg_pool2d, which gets the options of maximum pooling on every platform, for tf.nn.max_pool2d, which is in no set, and for the hard tanh, which the frameworks list under different conditions.", "quantifier": "all platform descriptions (any operator sets with any options), both frameworks, all listed operations", "why_tests_cant": "Unit tests attach a handful of platform descriptions and look up a few layers; that every selection of operator sets attaches and that every listed operation is routed to the set of its kind ranges over all descriptions.", "anchors": ["model_compression_toolkit/target_platform_capabilities/targetplatform2framework/attach2fw.py:AttachTpcToFramework.attach", "model_compression_toolkit/target_platform_capabilities/targetplatform2framework/attach2keras.py:AttachTpcToKeras", "model_compression_toolkit/target_platform_capabilities/targetplatform2framework/attach2pytorch.py:AttachTpcToPytorch", "model_compression_toolkit/target_platform_capabilities/schema/v2.py:OperatorSetNames"]}
{"id": "C106", "title": "Saving and loading a training quantizer keeps it, and finishing training keeps the right weights", "statement": "A training quantizer of Keras without a list of candidates can be saved, and is loaded as a quantizer of the same class with the same method, number of bits, axis and numbers; saving and loading again changes nothing more. A class accepts exactly the configurations of its kind with one of its methods. On loading a model, objects given by the caller take precedence for their names. When training is finished, a layer gets, for each of its weights, the last variable of the trained layer with that name, and the converted quantizer of each weight whose quantizer can be converted; it can be finished exactly when no conversion raises, its weights have different names and all are present. Does not hold for: keyword options of quantizers (loaded with defaults), quantizers with candidates (cannot be saved), arrays among the parameters of an output (loaded as dictionaries from files that pack arrays), classes with the same name (the announced refusal never happens), layers with two weights of the same last name (always refused).", "quantifier": "all quantizer classes, configurations, parameter dictionaries and options, both ways of keeping arrays in a file, all lists of classes, weights and variables", "why_tests_cant": "Unit tests save and load a few models with the built-in quantizers and default options; that every configuration survives, and which variable a finished layer takes for every list of names, ranges over unbounded dictionaries and lists.", "anchors": ["model_compression_toolkit/trainable_infrastructure/keras/config_serialization.py:config_serialization", "model_compression_toolkit/trainable_infrastructure/keras/config_serialization.py:config_deserialization", "model_compression_toolkit/trainable_infrastructure/keras/base_keras_quantizer.py:BaseKerasTrainableQuantizer.from_config", "model_compression_toolkit/trainable_infrastructure/keras/load_model.py:keras_load_quantized_model", "model_compression_toolkit/trainable_infrastructure/keras/quantize_wrapper.py:KerasTrainableQuantizationWrapper.convert_to_inferable_quantizers", "model_compression_toolkit/trainable_infrastructure/common/base_trainable_quantizer.py:BaseTrainableQuantizer.__init__"]}
{"id": "C107", "title": "The model returned by a pruning call is within the requested memory and is the original without the reported channels", "statement": "When a pruning call returns, four bytes for each parameter of the returned model is not more than the weights memory asked for, whether or not the platform pads channels to SIMD groups. Every layer of the returned model is the original layer with exactly the channels removed that the returned pruning information marks as pruned. In the first layer of every section that can be pruned at least the highest ranked channel remains, and a channel is never kept while a higher ranked one of the same layer is removed. The score reported for a channel is that of its group. With no bound on the memory the model is returned unchanged and all masks are ones.", "quantifier": "all graphs with unique layer identities and names and consistent biases (PyTorch: without parameters inside the sections, see C58), both frameworks, padded and unpadded platforms, all importance metrics that order the channels, all targets", "why_tests_cant": "Unit tests prune a few small networks to a few targets. The claim joins section finding, grouping, the greedy search, the memory estimate and the rebuilding of the graph, and ranges over all graphs, metrics and targets.", "anchors": ["model_compression_toolkit/core/common/pruning/pruner.py:Pruner.prune_graph", "model_compression_toolkit/core/common/pruning/pruner.py:Pruner.get_pruning_info", "model_compression_toolkit/core/common/pruning/mask/per_channel_mask.py:PerChannelMask", "model_compression_toolkit/core/common/pruning/greedy_mask_calculator.py:GreedyMaskCalculator.compute_mask", "model_compression_toolkit/core/common/pruning/prune_graph.py:build_pruned_graph"]}
{"id": "C108", "title": "The moments behind the scale equalization factors are those of a rectified normal variable", "statement": "For a channel with mean mu and standard deviation sd > 0 before a ReLU, the mean and the second moment from which scale equalization computes its factor are those of max(X, 0) for a normal variable X with these parameters: the integrals of x and of x squared times the normal density from 0 to b are the two formulas less a rest, whose exact value is given and which consists of the density at b and of the probability mass above b. The rest vanishes as b grows, so the formulas are the limits of the integrals. The variance computed from them is that of max(X, 0) and positive; a channel is divided by the standard deviation after the ReLU if that is above one and left alone otherwise. So for every mean and every nonzero standard deviation the factor lies in (0, 1] and equalizing the two layers with it leaves their composed outputs unchanged.", "quantifier": "all real mu, b and sd > 0", "why_tests_cant": "Tests compare a few factors with stored numbers; that the closed formulas are the integrals is an identity between real functions.", "anchors": ["model_compression_toolkit/core/common/substitutions/scale_equalization.py:fixed_mean_after_relu", "model_compression_toolkit/core/common/substitutions/scale_equalization.py:fixed_second_moment_after_relu", "model_compression_toolkit/core/common/substitutions/scale_equalization.py:calculate_scale_correction"]}
{"id": "C109", "title": "The default platform description assigns the documented options to every node", "statement": "The description that generate_tpc builds is valid exactly if the base configuration is one of the given options. In it the operations that only move or select values are not quantized at all, convolutions and fully connected layers get the given list of options and every other operation the default one; the fused pairs of operations are the listed ones and have no configuration of their own; it can be attached to both frameworks. For the default platform, every node of any model, in Keras and PyTorch, has options that use 8 bit power-of-two activations, and quantize a weight only symmetrically per channel with 8, 4 or 2 bits. The platform returned for a name is the one of that name; other names, versions and frameworks are refused.", "quantifier": "all default and base configurations and option lists, all operator set names, all nodes of both frameworks", "why_tests_cant": "Tests look at some layers; which options a node gets depends on its type, its attributes and the tables of the framework.", "anchors": ["model_compression_toolkit/target_platform_capabilities/tpc_models/imx500_tpc/v1/tpc.py:generate_tpc", "model_compression_toolkit/target_platform_capabilities/tpc_models/imx500_tpc/v1/tpc.py:get_op_quantization_configs", "model_compression_toolkit/target_platform_capabilities/tpc_models/get_target_platform_capabilities.py:get_target_platform_capabilities"]}
{"id": "C110", "title": "The QNNPACK and TFLite platform descriptions configure the operations they describe", "statement": "The description built from a base configuration should give that configuration to the linear operations, and a model with any described operation should be loadable. Both fail. FINDING: the QNNPACK description never uses its base configuration: whatever it is, every operation gets the default options, so on the default QNNPACK platform no weight of any node is quantized, in neither framework, and activations use powers of two instead of the uniform method. FINDING: the TFLite description marks reshape, transpose, pooling, concatenation and similar operations as preserving quantization but leaves their own activation quantization enabled; the constructor of a node configuration refuses this combination with a ValueError, so no model that has a node whose options all preserve quantization can be loaded with this platform.", "quantifier": "all default and base configurations and option lists, all nodes of both frameworks, all graphs", "why_tests_cant": "Tests of the descriptions build them and compare tables; the consequence for a node is only visible after attaching the description and loading a graph.", "anchors": ["model_compression_toolkit/target_platform_capabilities/tpc_models/qnnpack_tpc/v1/tpc.py:generate_tpc", "model_compression_toolkit/target_platform_capabilities/tpc_models/tflite_tpc/v1/tpc.py:generate_tpc", "model_compression_toolkit/core/common/quantization/node_quantization_config.py:NodeActivationQuantizationConfig", "model_compression_toolkit/quantization_preparation/load_fqc.py:set_quantization_configs_to_node"]}
