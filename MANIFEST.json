{
 "claims": [
  {
   "property": "C01",
   "status": "proved",
   "theorems": [
    "C01_rhg_exact_lattice"
   ],
   "note": "all documented sizes (open axes >=2, periodic >=1)"
  },
  {
   "property": "C02",
   "status": "proved",
   "theorems": [
    "C02_periodic_size_and_degree"
   ],
   "note": ""
  },
  {
   "property": "C03",
   "status": "proved",
   "theorems": [
    "C03_alternating_polarity_balanced",
    "C03_any_polarity"
   ],
   "note": ""
  },
  {
   "property": "C04",
   "status": "proved",
   "theorems": [
    "C04_stabilizers_are_cube_faces"
   ],
   "note": ""
  },
  {
   "property": "C05",
   "status": "proved",
   "theorems": [
    "C05_qubits_checked_once_or_twice"
   ],
   "note": ""
  },
  {
   "property": "C06",
   "status": "proved",
   "theorems": [
    "C06_low_high_halves"
   ],
   "note": ""
  },
  {
   "property": "C07",
   "status": "proved",
   "theorems": [
    "C07_even_syndrome_without_boundary"
   ],
   "note": ""
  },
  {
   "property": "C08",
   "status": "proved",
   "theorems": [
    "C08_stabilizer_graph_edges"
   ],
   "note": ""
  },
  {
   "property": "C09",
   "status": "proved",
   "theorems": [
    "C09_stabilizer_graph_connected"
   ],
   "note": ""
  },
  {
   "property": "C10",
   "status": "proved",
   "theorems": [
    "C10_parallel_planes_agree"
   ],
   "note": ""
  },
  {
   "property": "C11",
   "status": "proved",
   "theorems": [
    "C11_code_distance"
   ],
   "note": ""
  },
  {
   "property": "C12",
   "status": "proved",
   "theorems": [
    "C12_gauge_invariance"
   ],
   "note": ""
  },
  {
   "property": "C13",
   "status": "proved",
   "theorems": [
    "C13_recovery_flips_exactly"
   ],
   "note": ""
  },
  {
   "property": "C14",
   "status": "proved",
   "theorems": [
    "C14_mwpm_clears_syndrome"
   ],
   "note": "shortest paths and matchings are oracles with the libraries' contracts; C14_nonvacuous shows the contracts satisfiable"
  },
  {
   "property": "C15",
   "status": "proved",
   "theorems": [
    "C15_mwpm_corrects_small_errors"
   ],
   "note": "uniform weights"
  },
  {
   "property": "C16",
   "status": "proved",
   "theorems": [
    "C16_matching_graph"
   ],
   "note": ""
  },
  {
   "property": "C17",
   "status": "partial",
   "theorems": [
    "C17_paths_stay_inside_partial",
    "C17_rustworkx_fractional_weights_refuted"
   ],
   "note": "holds when reported lengths are exact (networkx, or integer weights) and weights are positive; refuted for rustworkx with fractional weights, where _path_weight truncates each weight; C49_truncated_weights bounds what is lost then"
  },
  {
   "property": "C18",
   "status": "proved",
   "theorems": [
    "C18_lemon_matching_is_best",
    "C18_lemon_single_precision"
   ],
   "note": "C18_lemon_single_precision covers the float32 cast of the weights."
  },
  {
   "property": "C19",
   "status": "proved",
   "theorems": [
    "C19_clusters_are_a_partition"
   ],
   "note": "All histories of Node/Root creation, find_root and union on the model of uf_classes.py; the relation 'united' is the equivalence closure of the union calls made."
  },
  {
   "property": "C20",
   "status": "proved",
   "theorems": [
    "C20_growth_ends_even"
   ],
   "note": "All codes, syndromes, erasure patterns, set orders; rustworkx functions enter through the contracts lib_ok, met by a Kruskal instance (UfInst.kruskal_lib_ok). Termination: a number of rounds of 2|E|+2 always suffices."
  },
  {
   "property": "C21",
   "status": "proved",
   "theorems": [
    "C21_peeling_matches_parities"
   ],
   "note": "All forests, parities and orders of leaves and edges."
  },
  {
   "property": "C22",
   "status": "proved",
   "theorems": [
    "C22_uf_clears_syndrome",
    "C22_no_syndrome_no_flip"
   ],
   "note": "Also: the recovery set consists of syndrome qubits, only those are flipped, correct() does not raise, and with a trivial syndrome no qubit is flipped."
  },
  {
   "property": "C23",
   "status": "proved",
   "theorems": [
    "C23_uniform_mwpm",
    "C23_uniform_uf",
    "C23_blueprint",
    "C23_blueprint_uf_refused",
    "C23_history_independent",
    "C23_unknown_method_refuted",
    "C23_correct_mwpm",
    "C23_correct_uf",
    "C23_correct_blueprint_integer"
   ],
   "note": "real-number weights; for the documented methods 'uniform' and 'blueprint'.  An undocumented method name is silently accepted and keeps the old weights (C23_unknown_method_refuted).  The C23_correct_* theorems compose weight assignment with the decoders"
  },
  {
   "property": "C24",
   "status": "proved",
   "theorems": [
    "C24_row_reduction"
   ],
   "note": "All binary matrices with n columns (any number of rows), max_cols None, at most n or beyond n."
  },
  {
   "property": "C25",
   "status": "proved",
   "theorems": [
    "C25_nullspace_basis"
   ],
   "note": "All binary matrices: independent, inside the null space, spanning."
  },
  {
   "property": "C26",
   "status": "proved",
   "theorems": [
    "C26_lc_sound",
    "C26_sizes"
   ],
   "note": "All pairs of loop-free undirected graphs; entries of the adjacency matrices 0 or 1. Stabilizer groups in the binary (z|x) picture, signs ignored as in the code."
  },
  {
   "property": "C27",
   "status": "partial",
   "theorems": [
    "C27_criterion",
    "C27_lc_complete_partial",
    "C27_lc_complete_refuted",
    "C27_unknown_form"
   ],
   "note": "The full statement is false of the code: the ring of 5 qubits is declared inequivalent to itself (refuted). Proved: the constraint system is an exact criterion, and the answer is True iff some equivalence is the sum of two distinct vectors of the computed basis. For the graph states of graph_states.py the answers are determined for every size in C69."
  },
  {
   "property": "C28",
   "status": "proved",
   "theorems": [
    "C28_indices_sorted_bijection",
    "C28_macronode_indices"
   ],
   "note": "All graphs with distinct coordinate nodes; macronode graphs whose dictionary lists every node once."
  },
  {
   "property": "C29",
   "status": "proved",
   "theorems": [
    "C29_dictionaries_survive",
    "C29_nodes",
    "C29_edges",
    "C29_macronodes"
   ],
   "note": "All histories of add_qubit, remove_qubit, index_generator, adj_generator calls (successful, or failing calls other than add_qubit), neighbours given as positions being nodes."
  },
  {
   "property": "C30",
   "status": "partial",
   "theorems": [
    "C30_adjacency_current_partial",
    "C30_adjacency_refuted"
   ],
   "note": "Full statement false: KeyError after removing a qubit that is not the last one (refuted). Proved: every returned matrix is current, and the exact conditions of failure."
  },
  {
   "property": "C31",
   "status": "partial",
   "theorems": [
    "C31_add_failure_partial",
    "C31_add_failure_refuted",
    "C31_stale_matrix"
   ],
   "note": "Full statement false (refuted: unknown neighbour index leaves the node added and the cached matrix stale). Proved: exactly which failures leave which trace."
  },
  {
   "property": "C32",
   "status": "partial",
   "theorems": [
    "C32_macronize_partial",
    "C32_large_displacement_refuted",
    "C32_padding_refuted",
    "C32_errors",
    "C32_macro_egraph"
   ],
   "note": "All RHG lattices of documented size, all edge orders/orientations, all displacements 0 < disp < 0.495 (with padding: that do not round to 0.05). The full statement is false: disp in [0.495,0.5) is rounded to 0.50 and edges become self-loops; pad_boundary with disp rounding to 0.05 collides with padding nodes (both witnessed). Exact rational arithmetic instead of floats."
  },
  {
   "property": "C33",
   "status": "proved",
   "theorems": [
    "C33_integer_fractional",
    "C33_negative_alpha_refuted"
   ],
   "note": "exact arithmetic over Coq's reals; alpha > 0 is needed: for alpha < 0 the remainder can exceed |alpha|/2"
  },
  {
   "property": "C34",
   "status": "partial",
   "theorems": [
    "C34_binning_partial",
    "C34_boundary_to_0_refuted"
   ],
   "note": "parity, periodicity and flip proved for every real; the documented 'values on the boundary are binned to 0' is false for half of the boundaries"
  },
  {
   "property": "C35",
   "status": "partial",
   "theorems": [
    "C35_probability_partial",
    "C35_value_partial",
    "C35_array_partial",
    "C35_bin_location_partial",
    "C35_use_hom_val_refuted",
    "C35_use_hom_val_partial",
    "C35_use_hom_val_value_partial",
    "C35_use_hom_val_sharp_refuted"
   ],
   "note": "in [0,1] for use_hom_val=False (the default), for exp and every non-negative non-decreasing stand-in; with use_hom_val=True in [0,1], and the ratio wrong/all of the summed Gaussians, whenever the nearest multiple k of sqrt(pi) has -var_num <= k < var_num; beyond, for every var_num >= 2, it exceeds 1 at k = var_num for some variance"
  },
  {
   "property": "C36",
   "status": "proved",
   "theorems": [
    "C36_z_err_probability",
    "C36_bins_are_those_of_bit_0",
    "C36_z_err_is_missed_mass",
    "C36_z_err_array"
   ],
   "note": "for erf and every non-decreasing stand-in with values in [-1,1]; also what the value is"
  },
  {
   "property": "C37",
   "status": "proved",
   "theorems": [
    "C37_scz_symplectic",
    "C37_scz_apply_consistent"
   ],
   "note": "exact arithmetic; symplectic if and only if the adjacency matrix is symmetric"
  },
  {
   "property": "C38",
   "status": "proved",
   "theorems": [
    "C38_four_splitter",
    "C38_invert_permutation"
   ],
   "note": "also the exact entries of the four-splitter; the thewalrus functions beam_splitter and expand are modelled from their documentation"
  },
  {
   "property": "C39",
   "status": "partial",
   "theorems": [
    "C39_constructor",
    "C39_labels_after_every_call",
    "C39_partition_partial",
    "C39_partition_refuted"
   ],
   "note": "The labels are right after every call history; the index lists partition range(N) after the first assignment; false afterwards: without swap-out the second call lists no GKP state at all (_generate_gkp_indices counts the old GKP list as used)."
  },
  {
   "property": "C40",
   "status": "partial",
   "theorems": [
    "C40_noise_partial",
    "C40_surface_code",
    "C40_every_second_trial_noiseless_refuted",
    "C40_default_layer_refuted"
   ],
   "note": "Every trial succeeds with the documented standard deviations for listed qubits, and all qubits are noisy in the first trial; false for later trials: on every surface code with default arguments every second trial is noise-free."
  },
  {
   "property": "C41",
   "status": "proved",
   "theorems": [
    "C41_star_selection"
   ],
   "note": "For every surface code, after every number of trials: the micronodes of a macronode, GKP states first, have body indices 1..4, and the reduced node has the state of the first."
  },
  {
   "property": "C42",
   "status": "proved",
   "theorems": [
    "C42_probability_checked",
    "C42_one_draw_per_node",
    "C42_extreme_probabilities"
   ],
   "note": "all codes, streams and probabilities (exact real comparison)"
  },
  {
   "property": "C43",
   "status": "proved",
   "theorems": [
    "C43_each_trial_one_rank",
    "C43_errors_at_root",
    "C43_errors_single_process",
    "C43_other_ranks_refuted",
    "C43_default_communicator_fails",
    "C43_iid_mwpm_simulation",
    "C43_no_noise_no_errors",
    "C43_iid_mpi_simulation"
   ],
   "note": "all worlds of ranks and outcomes; ranks other than 0 report errors = trials; ec_monte_carlo with default world_comm fails if mpi4py is importable. End to end with IID noise and MWPM: errors <= number of trials with d/2 or more flips."
  },
  {
   "property": "C44",
   "status": "partial",
   "theorems": [
    "C44_one_row_partial",
    "C44_table_partial",
    "C44_tuple_refuted",
    "C44_broken_row_refuted",
    "C44_list_refuted",
    "C44_failure_leaves_files"
   ],
   "note": "Full statement false: a tuple argument (distance=(3,3,3)) raises TypeError after the simulation and leaves a broken row; lists add columns. Proved for non-tuple values printed without comma, quote, line break (weight_opts may contain commas), for all histories of simulations."
  },
  {
   "property": "C45",
   "status": "partial",
   "theorems": [
    "C45_arguments",
    "C45_linear_cluster",
    "C45_star_graph",
    "C45_ring_graph_partial",
    "C45_complete_graph_partial",
    "C45_large_refuted",
    "C45_bell"
   ],
   "note": "linear and star: all n (exact coordinates); ring and complete: proved for n <= 444288; false for n >= 630000, where two nodes get the same coordinates rounded to five decimals (between the two bounds: not decided)"
  },
  {
   "property": "C46",
   "status": "proved",
   "theorems": [
    "C46_any_history",
    "C46_code_graphs_agree",
    "C46_assigned_weights_agree",
    "C46_to_nx",
    "C46_missing_edge_refuted",
    "C46_networkx_any_calls",
    "C46_repeated_calls_refuted"
   ],
   "note": "Proved for every surface code of sizes >= 2, every choice of popped vertices and any number of assign_weights calls: same nodes, edges (as a permutation), edge data, neighbours, out_edges, searched subgraph, and to_nx keeps nodes, edges and weights. Also for any sequence of add_node/add_edge calls that adds nodes once and edges once. Differs: for a missing edge between existing nodes rustworkx raises NoEdgeBetweenNodes, not the documented KeyError. rustworkx's unspecified orders are arbitrary permutations."
  },
  {
   "property": "C47",
   "status": "partial",
   "theorems": [
    "C47_custom_network_refuted",
    "C47_default_network_partial"
   ],
   "note": "False for every network: the argument is discarded and the first apply_noise raises AttributeError. Proved for the default network."
  },
  {
   "property": "C48",
   "status": "proved",
   "theorems": [
    "C48_trees_stay_shallow"
   ],
   "note": "All histories."
  },
  {
   "property": "C49",
   "status": "proved",
   "theorems": [
    "C49_mwpm_minimum_weight",
    "C49_condition",
    "C49_mwpm_near_minimum_weight",
    "C49_truncated_weights"
   ],
   "note": "near: reported lengths that are smaller than the true ones by a bounded factor (rustworkx with fractional weights >= n) give a recovery at most (n+1)/n times as heavy as the lightest."
  },
  {
   "property": "C50",
   "status": "partial",
   "theorems": [
    "C40_surface_code",
    "C50_delta_zero_refuted",
    "C50_no_code_refuted",
    "C50_list_states_refuted",
    "C50_unknown_order_refuted",
    "C50_two_step_refuted",
    "C50_unknown_order_code_refuted"
   ],
   "note": "Proved for the initial order, delta > 0, states given as arrays; refuted (for every code) for delta = 0, sampling_order two-step, list-valued states, an EGraph instead of a code; unknown orders are accepted and noise-free."
  },
  {
   "property": "C51",
   "status": "proved",
   "theorems": [
    "C51_every_trial_succeeds"
   ],
   "note": ""
  },
  {
   "property": "C52",
   "status": "partial",
   "theorems": [
    "C52_bits",
    "C52_small_noise_is_harmless",
    "C52_only_noise_matters",
    "C52_default_polarity",
    "C52_negative_weights_refuted"
   ],
   "note": "Proved when edges at p-squeezed micronodes have weight 1 (always so with the default polarity). False with weights of -1: the reduction ignores edge weights, and one p-squeezed micronode behind such an edge flips exactly one bit without noise."
  },
  {
   "property": "C53",
   "status": "proved",
   "theorems": [
    "C53_decoder_names"
   ],
   "note": ""
  },
  {
   "property": "C54",
   "status": "proved",
   "theorems": [
    "C54_uf_corrects_small_errors",
    "C54_contracts_met",
    "C54_iid_uf_simulation"
   ],
   "note": "Contract on rustworkx used in addition to C20-C22: out_edges(u) lists a neighbour once."
  },
  {
   "property": "C55",
   "status": "partial",
   "theorems": [
    "C55_uf_erasures_and_errors",
    "C55_uf_textbook_bound_closed_codes",
    "C55_uf_textbook_bound_open_codes_refuted",
    "C55_uf_textbook_bound_size_two_refuted"
   ],
   "note": "Refuted as stated: on codes with open boundaries two erased qubits at distance 3 (both clusters contain a boundary point but are listed as odd and grow together), and on periodic codes of size 2 (one of two shared qubits has no edge, its erasure is invisible). Proved: 2s+t<d on codes without open boundary and periodic sizes >= 3; 2(2s+t)+tb<2d in general, tb = erased qubits on the boundary."
  },
  {
   "property": "C56",
   "status": "proved",
   "theorems": [
    "C56_clusters_deterministic",
    "C56_result_schedule_free"
   ],
   "note": ""
  },
  {
   "property": "C57",
   "status": "proved",
   "theorems": [
    "C57_correct_modulo_gauge",
    "C57_small_errors_modulo_gauge",
    "C57_cv_macro_trial",
    "C57_cv_layer_trial"
   ],
   "note": "CVLayer: initial sampling order, delta > 0, documented states, edge weights 1 or -1; noise is called large if it is sqrt(pi)/10 or more (momentum), or that far from every multiple of sqrt(pi) (position of a neighbour). CVMacroLayer: under the hypotheses of C52 (every macronode has a GKP state, edges at p-squeezed micronodes have weight 1), bound sqrt(pi)/20."
  },
  {
   "property": "C58",
   "status": "partial",
   "theorems": [
    "C58_figure",
    "C58_rustworkx_unchanged",
    "C58_networkx_loses_connectors",
    "C58_decoding_after_drawing",
    "C58_drawing_while_decoding",
    "C58_labels",
    "C58_open_networkx_refuted",
    "C58_labels_redrawn_refuted"
   ],
   "note": "Proved for rustworkx (drawings leave no trace) and, for networkx, of the figure, of Union-Find, of MWPM on codes without boundary points and of the decoding that draws (positive weights). Refuted for MWPM on every open-boundary code with the networkx backend and for the labels of a second drawing. The picture itself (matplotlib) is not modelled, only the graph handed to it."
  },
  {
   "property": "C59",
   "status": "partial",
   "theorems": [
    "C59_lemon_decoding",
    "C59_lemon_corrects_small_errors",
    "C59_lemon_minimum_refuted"
   ],
   "note": "Proved: syndrome cleared, weight within the rounding factor, fewer than d/2 errors corrected. Refuted: minimum weight. Overflow and subnormal numbers of float32 and rounding inside the C++ library are not modelled."
  },
  {
   "property": "C60",
   "status": "proved",
   "theorems": [
    "C60_slices",
    "C60_code_slices",
    "C60_macronodes_flag"
   ],
   "note": "Coordinates in units of 1/U. A plane other than x, y, z raises KeyError, which the type of the model excludes."
  },
  {
   "property": "C61",
   "status": "proved",
   "theorems": [
    "C61_verdict_exact",
    "C61_classes",
    "C61_distance",
    "C61_success_exact"
   ],
   "note": "The first homology of the product of three lines or circles, relative to the open boundary, computed by pushing chains along the axes."
  },
  {
   "property": "C62",
   "status": "proved",
   "theorems": [
    "C62_errors_are_logical_failures",
    "C62_gauge_noise",
    "C62_cv_errors_are_logical_failures",
    "C62_cv_error_bound",
    "C62_state_after_trial",
    "C62_cv_state_after_trial",
    "C62_macro_errors_are_logical_failures",
    "C62_macro_error_bound",
    "C62_macro_state_after_trial"
   ],
   "note": "One process and MPI worlds, for IidNoise, CVLayer and CVMacroLayer."
  },
  {
   "property": "C63",
   "status": "partial",
   "theorems": [
    "C63_multiples",
    "C63_labels_distinct",
    "C63_others",
    "C63_exact",
    "C63_no_decimals_refuted",
    "C63_ticks",
    "C63_tick_labels",
    "C63_unsorted_refuted",
    "C63_fixed_ticks"
   ],
   "note": "Proved as stated (at least one decimal, values in ascending order). Without these two conditions it is refuted: to_pi_string(0.3, d=0) is '0'; values in descending order give ValueError."
  },
  {
   "property": "C64",
   "status": "partial",
   "theorems": [
    "C64_syndrome_drawn",
    "C64_boxes",
    "C64_boxes_apart",
    "C64_graph",
    "C64_code",
    "C64_limits_primal",
    "C64_limits_dual_refuted",
    "C64_diagonal_cells",
    "C64_misplaced_refuted",
    "C64_recovery_lines",
    "C64_wrapped_lines_refuted",
    "C64_syndrome_title"
   ],
   "note": "Boxes, colours, dots and edges are proved. Refuted: boxes of every dual code stick out of the axes limits; with show_nodes the dots have y and z exchanged but the boxes have not, so some stabilizer's qubits are shown away from its box in every code; lines of steps across a periodic boundary do not pass through their qubit."
  },
  {
   "property": "C65",
   "status": "partial",
   "theorems": [
    "C65_colors",
    "C65_titles",
    "C65_titles_refuted",
    "C65_labels",
    "C65_index_labels",
    "C65_untitled_refuted",
    "C65_text_labels_refuted",
    "C65_list_label_refuted",
    "C65_list_colors_refuted",
    "C65_plotly",
    "C65_backends_agree",
    "C65_hover_refuted",
    "C65_layer_colors",
    "C65_plotly_edges_refuted",
    "C65_legend",
    "C65_title_shown",
    "C65_hover_substring_refuted"
   ],
   "note": "Proved for the documented options. Refuted: a string title is ignored with several labels; without a title a label that is missing somewhere raises AttributeError instead of printing a message; string-valued attributes and lists of labels raise TypeError (matplotlib); the documentation's own list-form of color_nodes is ignored; plotly with label=None, or with the default label on a graph without indices, raises TypeError. The plotly backend ignores color_edges: all edges are black."
  },
  {
   "property": "C66",
   "status": "proved",
   "theorems": [
    "C66_reduced_values"
   ],
   "note": "exp is an arbitrary function of a real; the values recorded (p_hom, q_hom) are those of C51."
  },
  {
   "property": "C67",
   "status": "proved",
   "theorems": [
    "C67_cv_simulation",
    "C67_macro_simulation",
    "C67_wrong_precomputed_raises",
    "C67_iid_simulation",
    "C67_iid_blueprint_raises"
   ],
   "note": "Weight assignment inside every trial. Lightest recovery: in the units of the matching functions, with networkx, or with rustworkx and integer weights (rustworkx truncates others, see C17). Blueprint with prob_precomputed opposite to the noise layer raises: C67_wrong_precomputed_raises. IidNoise: uniform weights (C67_iid_simulation); blueprint raises because the states are missing."
  },
  {
   "property": "C68",
   "status": "partial",
   "theorems": [
    "C68_shape",
    "C68_untouched",
    "C68_last_trial",
    "C68_p_inds",
    "C68_gkp_inds_partial",
    "C68_gkp_inds_refuted",
    "C68_macro_bits_refuted"
   ],
   "note": "Proved for every history, except: gkp_inds is empty after the second trial without swap-out (same defect as C39); bit_values() of a CVMacroLayer is None for every mode, because the bits are on the reduced graph."
  },
  {
   "property": "C69",
   "status": "partial",
   "theorems": [
    "C69_star_complete",
    "C69_bipartite_self",
    "C69_self",
    "C69_star_differs",
    "C69_odd_ring_refuted",
    "C69_large_refuted",
    "C69_example"
   ],
   "note": "The full statement is false: every odd ring with at least five nodes is declared inequivalent to itself, and from n = 630000 the star and the complete graph state 'differ' because complete_graph loses nodes (C45). Proved: star, complete (n <= 444288), linear cluster, even rings, every connected bipartite graph against itself; star against linear and ring for n >= 4 (False, and they are inequivalent). Star vs complete is bounded by 444288 only because complete_graph is."
  },
  {
   "property": "C70",
   "status": "partial",
   "theorems": [
    "C70_uncheckable_qubit",
    "C70_mwpm_refuted",
    "C70_uf_never_ends_refuted"
   ],
   "note": "refuted: the qubits that separate cells along the short axis lie in one stabilizer only although the code has no boundary; a single error there is not cleared by MWPM (verdict False), and the growth loop of Union-Find never ends if another axis has at least two cells (proved for every number of rounds)"
  },
  {
   "property": "C71",
   "status": "proved",
   "theorems": [
    "C71_draw_probability",
    "C71_bits_independent",
    "C71_failure_rate",
    "C71_unbiased",
    "C71_distribution",
    "C71_mpi_distribution"
   ],
   "note": "the generator is modelled as one that returns equally likely multiples of 1/M (numpy: M = 2^53); that numpy's generator does so is not proved"
  },
  {
   "property": "C72",
   "status": "proved",
   "theorems": [
    "C72_one_class",
    "C72_sharp",
    "C72_rate_at_least",
    "C72_coin"
   ],
   "note": "for p = 1/2 the grid of draws has an even number of points; the generator is that of C71"
  },
  {
   "property": "C73",
   "status": "partial",
   "theorems": [
    "C73_rhg_arguments",
    "C73_rhg_call",
    "C73_rhg_refused",
    "C73_list_boundaries_refuted",
    "C73_numpy_integer_refuted",
    "C73_surface_code",
    "C73_surface_refused",
    "C73_distance_refuted",
    "C73_size_refuted"
   ],
   "note": "Accepted arguments and their meaning are characterised exactly. Refuted: the documented list of three names raises AttributeError (only numpy arrays work); numpy integers are refused by RHG_graph with TypeError; a distance of another length or type surfaces as AttributeError; sizes are not checked, SurfaceCode(0), SurfaceCode(-3) and SurfaceCode(1) with open boundaries are accepted, have no qubits and report success. Not modelled: booleans, nested sequences, a single boundary name, numpy arrays as ec or boundaries of SurfaceCode."
  },
  {
   "property": "C74",
   "status": "partial",
   "theorems": [
    "C74_integer_fractional_partial",
    "C74_power_of_two_refuted",
    "C74_bins",
    "C74_documented_bit",
    "C74_multiples",
    "C74_boundary_to_0_refuted",
    "C74_nonvacuous"
   ],
   "note": "Proved in IEEE double arithmetic (Flocq) with numpy's divmod algorithm. The integer part is exact for positive x, or when alpha is not a power of two (sqrt(pi) is not); refuted for a negative x and a power of two: integer_fractional(-(0.5-2**-54), 1.0) = (-1, 0.5). Bounds |x| <= 2^48 alpha and alpha >= 2^-1000. Overflow, nan and signed zeros are not modelled."
  },
  {
   "property": "C75",
   "status": "proved",
   "theorems": [
    "C75_samples",
    "C75_independent",
    "C75_marginal",
    "C75_extremes",
    "C75_macro"
   ],
   "note": "The numpy generator is represented by its documented distributions: binomial(N, p) and uniform samples without replacement (all ordered samples equally likely). Independence between trials is the quantification over every history before the trial."
  },
  {
   "property": "C76",
   "status": "partial",
   "theorems": [
    "C76_seeds",
    "C76_repeated_run_refuted",
    "C76_rank_collision",
    "C76_parallel_refuted",
    "C76_common_draws"
   ],
   "note": "seeds of different start times differ; the full statement is refuted: a second call in one process repeats the first, and MPI ranks can share a seed"
  },
  {
   "property": "C77",
   "status": "partial",
   "theorems": [
    "C77_one_shot",
    "C77_blockwise_values",
    "C77_blockwise_shapes",
    "C77_blockwise_refuted",
    "C77_integer_vector_refuted",
    "C77_splitter_size",
    "C77_invert_indices"
   ],
   "note": "proved for one_shot=True; one_shot=False accepts rectangular and one-row arrays (exact characterisation proved) and drops the fractions for integer vectors; splitter_symp(n) is too small unless 4 divides n"
  },
  {
   "property": "C78",
   "status": "partial",
   "theorems": [
    "C78_adjacency",
    "C78_noise",
    "C78_integer_weights",
    "C78_fractions_refuted"
   ],
   "note": "weights are cut to int8: proved for integer weights from -128 to 127, with the fraction dropped otherwise; refuted for every graph with weights in (-1, 1)"
  },
  {
   "property": "C79",
   "status": "proved",
   "theorems": [
    "C79_failure_rate_exponential",
    "C79_threshold",
    "C79_monte_carlo"
   ],
   "note": "Uniform weights and the MWPM decoder; the constant is that of the usual path-counting argument (5 continuations per step, 2^l subsets of a trail)."
  },
  {
   "property": "C80",
   "status": "proved",
   "theorems": [
    "C80_estimate_converges",
    "C80_mpi_estimate_converges"
   ],
   "note": "Draws are equally likely multiples of 1/M; in an MPI world they are assumed independent between ranks (C76 says when the seeds differ)."
  },
  {
   "property": "C81",
   "status": "proved",
   "theorems": [
    "C81_twice",
    "C81_common_recovery",
    "C81_memory",
    "C81_memory_open",
    "C81_small_rounds"
   ],
   "note": "Second call may use another decoder, weights and library choices. Toric and periodic codes: the verdict is the conjunction over the checked directions; only 'all rounds good alone implies all verdicts True' is stated for them."
  },
  {
   "property": "C82",
   "status": "proved",
   "theorems": [
    "C82_weight_enumerator",
    "C82_leading_order",
    "C82_trials"
   ],
   "note": "Draws are multiples of 1/M, all equally likely (numpy: M = 2^53), as in C71. The F_k are not computed."
  },
  {
   "property": "C83",
   "status": "proved",
   "theorems": [
    "C83_sanity_check",
    "C83_unsatisfied",
    "C83_script",
    "C83_script_success",
    "C83_other_names"
   ],
   "note": "printed text of correct(sanity_check=True) and of examples/decoding.py decode_surface_code with draw=False, show=False"
  },
  {
   "property": "C84",
   "status": "proved",
   "theorems": [
    "C84_relabelling",
    "C84_translation",
    "C84_mirror",
    "C84_exchange",
    "C84_primal_dual"
   ],
   "note": "translations by even vectors on the periodic axes; the odd translations are the passage between primal and dual complexes (C84_primal_dual)"
  },
  {
   "property": "C85",
   "status": "partial",
   "theorems": [
    "C85_example",
    "C85_marks_refuted",
    "C85_toric_refuted",
    "C85_sizes_refuted"
   ],
   "note": "proved: the program runs for integer sizes, which vertices and edges it draws and which points it marks; refuted: the marks are not where draw() shows the qubits, toric codes get the layers of the third axis too, sequences of sizes fail"
  }
 ]
}