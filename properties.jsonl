{"id": "C01", "title": "RHG_graph builds exactly the RHG lattice", "statement": "RHG_graph(dims, boundaries) has exactly the vertices and edges of the geometric RHG lattice: vertices are the in-range integer points with two odd coordinates (labelled primal) or one odd coordinate (labelled dual), two vertices are joined iff one is primal, the other dual and they differ by one step along a single axis (with wrap-around on periodic axes), and an edge carries periodic=True iff it is a wrap-around edge.", "quantifier": "every lattice size (each dimension >= 2), every boundary choice and every iteration order of the Python sets involved", "why_tests_cant": "tests build lattices of size 2 to 4 and compare counts; the shape must be right for every size, every one of the 27 boundary combinations and every set iteration order", "anchors": ["flamingpy/codes/surface_code.py:RHG_graph", "flamingpy/codes/surface_code.py:dual_neighbours", "flamingpy/codes/surface_code.py:str_to_bound"]}
{"id": "C02", "title": "Periodic lattice size and degree", "statement": "With all-periodic boundaries the lattice has exactly 6*dx*dy*dz vertices and every vertex has exactly four neighbours.", "quantifier": "all dx, dy, dz >= 2", "why_tests_cant": "tests check a few sizes", "anchors": ["flamingpy/codes/surface_code.py:RHG_graph"]}
{"id": "C03", "title": "Alternating polarity is balanced", "statement": "With polarity=alternating_polarity every edge weight is +1 or -1 and on the all-periodic lattice every vertex has exactly two +1 and two -1 edges.", "quantifier": "all dims >= 2, all set orders", "why_tests_cant": "tests check sizes 2..4", "anchors": ["flamingpy/codes/surface_code.py:alternating_polarity", "flamingpy/codes/surface_code.py:RHG_graph"]}
{"id": "C04", "title": "Stabilizers are exactly the cube faces", "statement": "For every SurfaceCode, the stabilizers of the chosen error complex correspond one-to-one to the in-range cell centres (all-odd points for primal, all-even for dual); the qubits of each stabilizer are exactly the in-range lattice vertices one step away (with wrap-around) from its midpoint, without repetition, and all of them are nodes of code.graph of the type ec.", "quantifier": "all dims >= 2, ec in {primal, dual}, boundaries in {open, toric, periodic}, all set orders", "why_tests_cant": "tests sample sizes 2..4", "anchors": ["flamingpy/codes/surface_code.py:SurfaceCode.identify_stabilizers", "flamingpy/codes/surface_code.py:SurfaceCode.periodic_boundary_stabilizers", "flamingpy/codes/surface_code.py:SurfaceCode.six_body_dual_stabilizers", "flamingpy/codes/stabilizer.py:Stabilizer.midpoint"]}
{"id": "C05", "title": "Every syndrome qubit is checked once or twice", "statement": "The syndrome coordinates are exactly the graph nodes of type ec; each belongs to exactly two stabilizers, except the boundary points, which belong to exactly one; codes without boundary (toric, periodic) have no boundary points.", "quantifier": "all dims >= 2, ec, boundaries, set orders", "why_tests_cant": "must hold for every qubit of every lattice", "anchors": ["flamingpy/codes/surface_code.py:SurfaceCode.set_ec_stabilizers_and_syndrome", "flamingpy/codes/surface_code.py:SurfaceCode.identify_boundary"]}
{"id": "C06", "title": "Low and high boundary halves", "statement": "Splitting the list of boundary points in the middle, as the stabilizer graph does, separates exactly the points of the low boundary plane from those of the high boundary plane (the two planes hold the same number of syndrome qubits).", "quantifier": "all dims >= 2, ec, open boundaries, set orders", "why_tests_cant": "depends on a counting identity for every size", "anchors": ["flamingpy/codes/surface_code.py:SurfaceCode._get_ec_bounds", "flamingpy/codes/graphs/stabilizer_graph.py:StabilizerGraph.__init__"]}
{"id": "C07", "title": "Even syndrome without boundary", "statement": "For codes without boundary points the number of odd-parity stabilizers is even for every assignment of bit values.", "quantifier": "all dims, all bit assignments, toric and periodic", "why_tests_cant": "exponentially many bit assignments", "anchors": ["flamingpy/codes/surface_code.py:SurfaceCode", "flamingpy/codes/graphs/stabilizer_graph.py:StabilizerGraph.odd_parity_stabilizers"]}
{"id": "C08", "title": "Stabilizer graph edges", "statement": "In the stabilizer graph two stabilizers are adjacent iff they share a qubit, the stored common vertex is a shared qubit, a boundary point is adjacent exactly to its stabilizer and to its own (low or high) connector; different edges between real nodes have different common vertices; when all periodic dimensions are >= 3 two stabilizers share at most one qubit.", "quantifier": "all codes, all choices made by set.pop", "why_tests_cant": "tests check that the attribute is not None", "anchors": ["flamingpy/codes/graphs/stabilizer_graph.py:StabilizerGraph.connect_nodes", "flamingpy/codes/graphs/stabilizer_graph.py:StabilizerGraph.add_low_bound_points"]}
{"id": "C09", "title": "Stabilizer graph is connected", "statement": "Any two stabilizers are joined by a path of the stabilizer graph that avoids the low and high connectors, so the shortest-path lookups of the matching decoder never miss a key.", "quantifier": "all dims >= 2, ec, boundaries", "why_tests_cant": "needs an inductive path construction", "anchors": ["flamingpy/codes/graphs/stabilizer_graph.py:StabilizerGraph.shortest_paths_without_high_low", "flamingpy/decoders/mwpm/matching.py:MatchingGraph._with_edges_between_real_odd_nodes"]}
{"id": "C10", "title": "Parallel correlation surfaces agree", "statement": "Whenever no stabilizer is odd, check_correction with sanity_check=True reports the same parity on all parallel planes of every checked direction (so checking only the first plane is enough).", "quantifier": "all dims >= 2, ec, boundaries, all bit assignments with trivial syndrome", "why_tests_cant": "exponentially many bit assignments", "anchors": ["flamingpy/decoders/decoder.py:check_correction"]}
{"id": "C11", "title": "Code distance", "statement": "Any pattern of flipped syndrome qubits with trivial syndrome for which check_correction reports failure flips at least d qubits, d being the smallest checked dimension, and some pattern of exactly that weight does so.", "quantifier": "all dims >= 2, all bit assignments", "why_tests_cant": "exponentially many patterns", "anchors": ["flamingpy/codes/surface_code.py:SurfaceCode", "flamingpy/decoders/decoder.py:check_correction"]}
{"id": "C12", "title": "Gauge invariance of the verdict", "statement": "Flipping the bit values of all syndrome qubits adjacent to any one vertex of the opposite type changes neither the syndrome nor the result of check_correction.", "quantifier": "all dims, all opposite-type vertices, all bit assignments", "why_tests_cant": "all patterns", "anchors": ["flamingpy/decoders/decoder.py:check_correction", "flamingpy/codes/surface_code.py:RHG_graph"]}
{"id": "C13", "title": "recovery flips exactly the given qubits", "statement": "recovery(qubits, code, ec) toggles the bit value of each listed qubit and of no other, and applying it twice restores the state; a coordinate outside the graph raises KeyError.", "quantifier": "all qubit sets and states", "why_tests_cant": "all inputs", "anchors": ["flamingpy/decoders/decoder.py:recovery"]}
{"id": "C14", "title": "MWPM decoding clears the syndrome", "statement": "After mwpm_decoder and recovery no stabilizer has odd parity.", "quantifier": "all codes, bit assignments, positive weights, all shortest-path tie breaks and all maximum-cardinality matchings returned by the matching library", "why_tests_cant": "tests sample noise at d=2..4", "anchors": ["flamingpy/decoders/mwpm/algos.py:mwpm_decoder", "flamingpy/decoders/mwpm/matching.py:MatchingGraph.with_edges_from", "flamingpy/decoders/decoder.py:recovery"]}
{"id": "C15", "title": "MWPM corrects all errors of weight < d/2", "statement": "With uniform weights, correct(code, decoder='MWPM') returns True for every error pattern flipping fewer than d/2 syndrome qubits.", "quantifier": "all codes, all error patterns below half the distance, all tie breaks", "why_tests_cant": "combinatorially many patterns", "anchors": ["flamingpy/decoders/decoder.py:correct", "flamingpy/decoders/mwpm/algos.py:mwpm_decoder", "flamingpy/decoders/mwpm/matching.py:MatchingGraph"]}
{"id": "C16", "title": "Matching graph is well formed", "statement": "The matching graph joins every pair of odd stabilizers by an edge weighted with the shortest-path length, joins the i-th odd stabilizer to its own virtual point at the closer boundary, joins virtual points pairwise with weight 0, and always has a perfect matching.", "quantifier": "all codes, bit assignments", "why_tests_cant": "all syndromes", "anchors": ["flamingpy/decoders/mwpm/matching.py:MatchingGraph._with_edges_between_real_odd_nodes", "flamingpy/decoders/mwpm/matching.py:MatchingGraph._with_edges_from_low_or_high_connector"]}
{"id": "C17", "title": "Boundary paths stay on their side", "statement": "The path stored for a boundary match never runs through the other connector, so its consecutive pairs all carry a qubit.", "quantifier": "all weights", "why_tests_cant": "needs tie-breaking corner cases: float weights truncated by the rustworkx backend", "anchors": ["flamingpy/decoders/mwpm/matching.py:MatchingGraph._with_edges_from_low_or_high_connector", "flamingpy/codes/graphs/stabilizer_graph.py:RxStabilizerGraph._path_weight"]}
{"id": "C18", "title": "Lemon backend returns a minimum-weight perfect matching of the matching graph", "statement": "Given a correct complete-graph matcher, the lemon wrapper returns pairs of nodes of the matching graph forming a perfect matching using only real edges, of minimum weight, whenever one exists and weights are below the non-edge sentinel.", "quantifier": "all matching graphs with bounded weights", "why_tests_cant": "all weights", "anchors": ["flamingpy/decoders/mwpm/lemon.py:min_weight_matching", "flamingpy/cpp/lemonpy.cpp:mwpm"]}
{"id": "C19", "title": "Cluster trees implement a partition", "statement": "After any sequence of union and find_root calls: two nodes have the same root iff they were connected by unions, a root's size is the number of members, its parity the sum mod 2 of the members' parities and its boundary is set iff some member is a boundary node; find_root never changes the partition.", "quantifier": "all histories of operations, all set orders", "why_tests_cant": "all histories", "anchors": ["flamingpy/decoders/unionfind/uf_classes.py:Node.find_root", "flamingpy/decoders/unionfind/uf_classes.py:Root", "flamingpy/decoders/unionfind/algos.py:union"]}
{"id": "C20", "title": "Union-Find growth terminates with even clusters", "statement": "The growth loop terminates and at its end every cluster has even parity or touches a boundary.", "quantifier": "all codes with valid syndrome, all erasure patterns, all set iteration orders", "why_tests_cant": "all histories/schedules", "anchors": ["flamingpy/decoders/unionfind/algos.py:union_find", "flamingpy/decoders/unionfind/algos.py:initialize_cluster_trees", "flamingpy/decoders/unionfind/uf_classes.py:Support.grow", "flamingpy/decoders/unionfind/uf_classes.py:Boundary"]}
{"id": "C21", "title": "Peeling returns the syndrome's boundary", "statement": "For any forest and any parity labelling that is even on every tree, peeling terminates and the returned set of edges has odd degree exactly at the nodes of parity 1, for any order in which leaves are processed.", "quantifier": "all forests, parities, orders", "why_tests_cant": "all forests", "anchors": ["flamingpy/decoders/unionfind/algos.py:peeling", "flamingpy/decoders/unionfind/algos.py:trim_forest"]}
{"id": "C22", "title": "UF decoding clears the syndrome", "statement": "After uf_decoder and recovery no stabilizer has odd parity.", "quantifier": "all codes, all bit assignments, all erasure patterns, all set orders and spanning forests", "why_tests_cant": "tests sample", "anchors": ["flamingpy/decoders/unionfind/algos.py:uf_decoder", "flamingpy/decoders/unionfind/algos.py:uf_decode", "flamingpy/decoders/unionfind/algos.py:obtain_spanning_forest", "flamingpy/decoders/decoder.py:recovery"]}
{"id": "C23", "title": "Weight assignment", "statement": "assign_weights gives weight 1 to every syndrome qubit (uniform, MWPM), -1 to those with at least two p-squeezed neighbours and 2 to the others (uniform, UF); blueprint weights are positive and blueprint with UF is refused; the result does not depend on weights left over from earlier calls; each stabilizer-graph edge gets the weight of its common vertex and connector edges get 0.", "quantifier": "all codes, states, previous weights", "why_tests_cant": "all histories", "anchors": ["flamingpy/decoders/decoder.py:assign_weights", "flamingpy/codes/graphs/stabilizer_graph.py:StabilizerGraph.assign_weights"]}
{"id": "C24", "title": "Row reduction", "statement": "reduce_RREform_mod2(M, max_cols) returns a matrix with the same row space as M whose first max_cols columns are in reduced row echelon form with exactly p pivots, and rows p.. vanish there.", "quantifier": "all binary matrices of every shape, all max_cols", "why_tests_cant": "all sizes", "anchors": ["flamingpy/utils/linalg.py:reduce_RREform_mod2"]}
{"id": "C25", "title": "Nullspace basis", "statement": "The rows of nullspace_basis(M) are linearly independent, each lies in the right nullspace of M mod 2 and every nullspace vector is a sum of a subset of them.", "quantifier": "all binary matrices", "why_tests_cant": "all sizes", "anchors": ["flamingpy/utils/linalg.py:nullspace_basis"]}
{"id": "C26", "title": "LC-equivalence verdict is sound", "statement": "If is_lc_equivalent returns True, the returned Clifford has 2x2 factors of determinant 1 mod 2 and maps the stabilizer space of the first graph onto that of the second; tensor and global forms describe the same operator.", "quantifier": "all pairs of graphs on n nodes", "why_tests_cant": "all graphs", "anchors": ["flamingpy/utils/linalg.py:are_lc_equivalent", "flamingpy/utils/linalg.py:lc_constraint_system", "flamingpy/utils/linalg.py:search_nullspace", "flamingpy/utils/linalg.py:clifford_vec_to_tensors", "flamingpy/utils/linalg.py:clifford_vec_to_global"]}
{"id": "C27", "title": "LC-equivalence verdict is complete", "statement": "If two graphs are LC-equivalent (in particular a graph and itself) is_lc_equivalent returns True.", "quantifier": "all pairs of graphs", "why_tests_cant": "a universal negative", "anchors": ["flamingpy/utils/linalg.py:search_nullspace", "flamingpy/utils/linalg.py:are_lc_equivalent"]}
{"id": "C28", "title": "Indices are a sorted bijection", "statement": "index_generator assigns the indices 0..N-1 to the N nodes in sorted order; to_points and to_indices are inverse to each other; for macronode graphs the micronodes of a macronode get consecutive indices; calling it again changes nothing.", "quantifier": "all graphs", "why_tests_cant": "all graphs", "anchors": ["flamingpy/codes/graphs/egraph.py:EGraph.index_generator"]}
{"id": "C29", "title": "Index dictionaries survive edits", "statement": "After any sequence of successful add_qubit and remove_qubit calls (neighbours existing nodes), to_points and to_indices are inverse bijections between the nodes of the graph and distinct indices, and surviving nodes keep their index.", "quantifier": "all histories", "why_tests_cant": "all histories", "anchors": ["flamingpy/codes/graphs/egraph.py:EGraph.add_qubit", "flamingpy/codes/graphs/egraph.py:EGraph.remove_qubit"]}
{"id": "C30", "title": "Adjacency matrix stays available and current", "statement": "After any history of add_qubit/remove_qubit calls adj_generator returns the current adjacency matrix ordered by index.", "quantifier": "all histories", "why_tests_cant": "history dependent: removal of a non-last qubit, failed calls, inherited mutators", "anchors": ["flamingpy/codes/graphs/egraph.py:EGraph.adj_generator", "flamingpy/codes/graphs/egraph.py:EGraph.remove_qubit"]}
{"id": "C31", "title": "add_qubit failure atomicity", "statement": "A call to add_qubit that raises leaves the graph and its dictionaries unchanged.", "quantifier": "all calls and failures", "why_tests_cant": "failure points", "anchors": ["flamingpy/codes/graphs/egraph.py:EGraph.add_qubit"]}
{"id": "C32", "title": "Macronization", "statement": "macronize replaces every vertex of degree k by k micronodes (padded to 4 if requested), each edge becomes an edge between one micronode of either end with the same attributes, each micronode has at most one neighbour, and rounding a micronode gives back its vertex.", "quantifier": "all lattices, all displacements in (0, 0.5)", "why_tests_cant": "all sizes and displacements", "anchors": ["flamingpy/codes/graphs/egraph.py:macronize"]}
{"id": "C33", "title": "Integer/fractional decomposition", "statement": "integer_fractional(x, alpha) returns an integer n and f with x = n*alpha + f and |f| <= alpha/2.", "quantifier": "all real x and alpha > 0 (exact arithmetic)", "why_tests_cant": "continuum of inputs", "anchors": ["flamingpy/cv/gkp.py:integer_fractional"]}
{"id": "C34", "title": "GKP binning", "statement": "GKP_binner returns the parity of the multiple of sqrt(pi) nearest to the outcome: it is 2*sqrt(pi)-periodic and flips under a shift by sqrt(pi); as documented, values on a bin boundary are binned to 0.", "quantifier": "all real outcomes (exact arithmetic)", "why_tests_cant": "continuum", "anchors": ["flamingpy/cv/gkp.py:GKP_binner"]}
{"id": "C35", "title": "Conditional error probability is a probability", "statement": "Z_err_cond returns a value in [0, 1].", "quantifier": "all homodyne values and positive variances (exact arithmetic)", "why_tests_cant": "continuum", "anchors": ["flamingpy/cv/gkp.py:Z_err_cond"]}
{"id": "C36", "title": "Z_err is a probability", "statement": "Z_err returns values in [0,1] for every list of positive variances: for each variance one minus the probability of the bins of bit 0 within var_num times the largest variance of the list; an empty list is refused.", "quantifier": "all variance lists", "why_tests_cant": "continuum", "anchors": ["flamingpy/cv/gkp.py:Z_err"]}
{"id": "C37", "title": "CZ matrices are symplectic and SCZ_apply is consistent", "statement": "SCZ_mat of a symmetric adjacency matrix is symplectic; SCZ_apply with one_shot=True and one_shot=False agree on vectors and on matrices.", "quantifier": "all sizes, matrices", "why_tests_cant": "all sizes", "anchors": ["flamingpy/cv/ops.py:SCZ_mat", "flamingpy/cv/ops.py:SCZ_apply"]}
{"id": "C38", "title": "Four-splitter and permutations", "statement": "splitter_symp() is orthogonal and symplectic; invert_permutation(p) is the inverse of p, so permuting and un-permuting quadratures is the identity.", "quantifier": "all permutations", "why_tests_cant": "all sizes", "anchors": ["flamingpy/cv/ops.py:splitter_symp", "flamingpy/cv/ops.py:invert_permutation"]}
{"id": "C39", "title": "State labels partition the qubits on every call", "statement": "After every populate_states/apply_noise call, the p and GKP index lists partition range(N) and the node labels agree with them.", "quantifier": "all call histories, swap-out choices", "why_tests_cant": "needs repeated calls on one object, as ec_monte_carlo does", "anchors": ["flamingpy/noise/cv.py:CVLayer._generate_gkp_indices", "flamingpy/noise/cv.py:CVLayer.populate_states"]}
{"id": "C40", "title": "Noise covers every qubit on every trial", "statement": "In the 'initial' sampling order, on every apply_noise call every non-perfect qubit gets strictly positive noise.", "quantifier": "all call histories", "why_tests_cant": "repeated calls", "anchors": ["flamingpy/noise/cv.py:CVLayer._covs_sampler", "flamingpy/noise/cv.py:CVLayer._generate_gkp_indices"]}
{"id": "C41", "title": "Star selection", "statement": "In every macronode exactly one micronode has body index 1; the permuted indices are a permutation of range(N) that keeps macronodes together; the reduced node is labelled GKP iff the macronode contains a GKP state.", "quantifier": "all N divisible by 4, all state labellings", "why_tests_cant": "all labellings", "anchors": ["flamingpy/noise/cv.py:CVMacroLayer._permute_star_inds", "flamingpy/noise/cv.py:CVMacroLayer._apply_macro_and_reduced_labels"]}
{"id": "C42", "title": "IID noise", "statement": "apply_noise sets every node's bit_val to 0 or 1 from one fresh draw per node; probability 0 gives all 0, probability 1 all 1; probabilities outside [0,1] are refused at construction.", "quantifier": "all graphs, probabilities, random streams", "why_tests_cant": "all streams", "anchors": ["flamingpy/noise/iid.py:IidNoise"]}
{"id": "C43", "title": "Monte Carlo bookkeeping", "statement": "For every number of ranks, each trial is run by exactly one rank, and the number of errors reported by rank 0 is the number of failed trials, between 0 and trials.", "quantifier": "all trials, mpi sizes, outcomes", "why_tests_cant": "all schedules", "anchors": ["flamingpy/simulations.py:ec_monte_carlo"]}
{"id": "C44", "title": "Every simulation leaves one complete result row", "statement": "run_ec_simulation appends exactly one row, with as many fields as the header it writes, whatever the arguments.", "quantifier": "all argument dictionaries", "why_tests_cant": "depends on argument value types", "anchors": ["flamingpy/simulations.py:run_ec_simulation"]}
{"id": "C45", "title": "Named graph states", "statement": "linear_cluster(n), ring_graph(n), star_graph(n), complete_graph(n) have n nodes and exactly the edges of the named graph; n < 1 or non-integer n raises ValueError.", "quantifier": "all n >= 1", "why_tests_cant": "all n", "anchors": ["flamingpy/utils/graph_states.py"]}
{"id": "C46", "title": "Stabilizer-graph backends agree", "statement": "The networkx and rustworkx stabilizer graphs built from the same code have the same nodes, edges, edge data, neighbours; to_nx of the rustworkx graph has the same edges and weights.", "quantifier": "all codes", "why_tests_cant": "all codes", "anchors": ["flamingpy/codes/graphs/stabilizer_graph.py:NxStabilizerGraph", "flamingpy/codes/graphs/stabilizer_graph.py:RxStabilizerGraph", "flamingpy/codes/graphs/stabilizer_graph.py:StabilizerGraph.to_nx"]}
{"id": "C47", "title": "Custom beamsplitter network is used", "statement": "A bs_network passed to CVMacroLayer is used by apply_noise.", "quantifier": "all networks", "why_tests_cant": "one unusual argument", "anchors": ["flamingpy/noise/cv.py:CVMacroLayer.__init__"]}
{"id": "C48", "title": "Weighted union keeps trees shallow", "statement": "After any history of unions (without path compression even) the depth of a cluster tree is at most log2 of its size.", "quantifier": "all histories", "why_tests_cant": "all histories", "anchors": ["flamingpy/decoders/unionfind/algos.py:union"]}
{"id": "C49", "title": "The MWPM recovery has minimum weight", "statement": "For every surface code, every pattern of measured bit values, every assignment of non-negative qubit weights (when reported path lengths are exact), the set of qubits returned by mwpm_decoder is a correction of minimum total weight: no set of syndrome qubits whose flipping gives every stabilizer even parity has a smaller sum of weights. (When a periodic axis has size two, two stabilizers share two qubits and the stabilizer graph keeps one of them; the claim then needs the kept one to be a lightest one, as with uniform weights.)", "quantifier": "all sizes, boundaries and error complexes, all bit patterns, all non-negative weights, all shortest-path and matching answers allowed by the library contracts, all competing corrections", "why_tests_cant": "the number of competing corrections is exponential in the number of qubits, and minimality must hold against all of them for every syndrome and weighting", "anchors": ["flamingpy/decoders/mwpm/algos.py:mwpm_decoder", "flamingpy/decoders/mwpm/matching.py:MatchingGraph.with_edges_from", "flamingpy/codes/graphs/stabilizer_graph.py:StabilizerGraph"]}
{"id": "C50", "title": "CVLayer works for every documented argument", "statement": "For every surface code and every documented combination of delta, states, p_swap, sampling order and translator, the layer can be constructed, apply_noise succeeds on every call and leaves every syndrome qubit with a homodyne outcome and the bit to which the translator maps it; arguments outside the documented ones are rejected.", "quantifier": "all code sizes, boundaries and complexes, all argument values, all draws, all numbers of trials", "why_tests_cant": "the arguments, lattice sizes, random draws and call counts are unbounded; failures show up only for particular combinations (e.g. the two-step order on a code, or list-valued states)", "anchors": ["flamingpy/noise/cv.py:CVLayer.__init__", "flamingpy/noise/cv.py:CVLayer.apply_noise", "flamingpy/noise/cv.py:CVLayer.measure_hom", "flamingpy/noise/cv.py:CVLayer._covs_sampler"]}
{"id": "C51", "title": "CVMacroLayer works for every code and every draw", "statement": "For every surface code, finite-energy parameter, set of perfect points and documented choice of states, CVMacroLayer(code, ...) is constructed and every call of apply_noise succeeds; after each call every node of the code's graph has a state (GKP or p), a bit value 0 or 1 and an error probability p_phase_cond between 0 and 1/2.", "quantifier": "all sizes, boundaries and complexes, all orders of the lattice's edges, all documented arguments, all random draws, any number of calls", "why_tests_cant": "the draws, sizes and call histories are unbounded", "anchors": ["flamingpy/noise/cv.py:CVMacroLayer.__init__", "flamingpy/noise/cv.py:CVMacroLayer.apply_noise", "flamingpy/noise/cv.py:CVMacroLayer._reduce_jth_macronode"]}
{"id": "C52", "title": "Macronode reduction transfers only measurement noise to the code", "statement": "After apply_noise of a CVMacroLayer the bit of a qubit is the parity of values attached to its neighbours plus an error bit that depends only on the locations of the p-squeezed states and on the measurement noise, so the drawn states do not influence the syndrome or the verdict on a logical error, and with no noise, noise within the bins or all points perfect every stabilizer is even and there is no logical error.", "quantifier": "all surface codes, delta, perfect points, states, draws and numbers of trials; every macronode containing a GKP state", "why_tests_cant": "ranges over all lattices, all real-valued draws and all histories", "anchors": ["flamingpy/noise/cv.py:CVMacroLayer._entangle_states", "flamingpy/noise/cv.py:CVMacroLayer._measure_syndrome", "flamingpy/noise/cv.py:CVMacroLayer._process_neighboring_outcomes", "flamingpy/noise/cv.py:CVMacroLayer._reduce_jth_macronode", "flamingpy/decoders/decoder.py:check_correction"]}
{"id": "C53", "title": "Decoder names on the command line", "statement": "The command line of simulations.py accepts exactly the documented spellings of the two decoders, in any mixture of upper and lower case, and turns them into the names that correct() knows; every other name raises ValueError before anything is computed.", "quantifier": "all strings", "why_tests_cant": "ranges over all strings", "anchors": ["flamingpy/simulations.py:__main__"]}
{"id": "C54", "title": "Union-Find corrects every error of weight below half the distance", "statement": "correct(code, 'UF') of a surface code whose qubits carry errors on fewer than d/2 of them, and none of which is erased, returns True (no logical error), where d is the smallest extent of the code along an axis with a logical plane.", "quantifier": "all sizes, boundaries and complexes, all error patterns, all orders in which Python sets are visited, all answers of rustworkx allowed by its documentation", "why_tests_cant": "infinitely many codes and exponentially many error patterns and schedules; the property needs an argument relating cluster growth to error weight", "anchors": ["flamingpy/decoders/unionfind/algos.py:union_find", "flamingpy/decoders/unionfind/algos.py:initialize_cluster_trees", "flamingpy/decoders/unionfind/algos.py:peeling", "flamingpy/decoders/unionfind/uf_classes.py:Support.grow", "flamingpy/decoders/decoder.py:correct"]}
{"id": "C55", "title": "Union-Find corrects erasures together with errors", "statement": "correct(code, 'UF') returns True whenever 2s + t < d, where t qubits are erased and s of the others are in error, as for the algorithm of arXiv:1709.06218 the code implements.", "quantifier": "all surface codes, all erasures, all errors, all schedules", "why_tests_cant": "infinitely many codes, exponentially many erasures and errors", "anchors": ["flamingpy/decoders/unionfind/algos.py:union_find", "flamingpy/decoders/unionfind/algos.py:initialize_cluster_trees", "flamingpy/decoders/unionfind/algos.py:peeling", "flamingpy/decoders/unionfind/uf_classes.py:Support.grow", "flamingpy/decoders/decoder.py:correct"]}
{"id": "C56", "title": "Union-Find growth does not depend on the order of set iteration", "statement": "Two runs of the Union-Find decoder on the same code, bits and erasures fully grow the same edges, whatever the order in which sets of nodes and clusters and the lists of rustworkx are visited; hence with the same spanning-forest function the recovery and the verdict are the same.", "quantifier": "all surface codes, bits, erasures, and pairs of schedules", "why_tests_cant": "set order of objects depends on memory addresses and changes from run to run; tests see one order", "anchors": ["flamingpy/decoders/unionfind/algos.py:union_find", "flamingpy/decoders/unionfind/algos.py:initialize_cluster_trees", "flamingpy/decoders/unionfind/algos.py:peeling", "flamingpy/decoders/unionfind/uf_classes.py:Support.grow", "flamingpy/decoders/decoder.py:correct"]}
{"id": "C57", "title": "Decoding depends on the error only up to gauge", "statement": "Adding to the bits, at every qubit, the parity of arbitrary bits attached to its neighbours in the lattice (the effect of an X on a graph-state qubit) does not change what correct(code, decoder) returns; so bits that are such a pattern plus fewer than d/2 flipped qubits are corrected. In particular a trial of CVMacroLayer or CVLayer in which large measurement noise touches fewer than d/2 syndrome qubits is corrected by MWPM and by Union-Find, whatever the number of earlier trials and whatever the GKP states and swap-outs drawn.", "quantifier": "all surface codes, gauge patterns, errors, draws and histories of trials, all oracles meeting the contracts of the libraries", "why_tests_cant": "infinitely many codes, exponentially many patterns, continuous noise", "anchors": ["flamingpy/decoders/decoder.py:correct", "flamingpy/noise/cv.py:CVLayer.apply_noise", "flamingpy/noise/cv.py:CVMacroLayer.apply_noise", "flamingpy/codes/surface_code.py:SurfaceCode"]}
{"id": "C58", "title": "Drawing a code or a decoding does not change the code", "statement": "code.draw_stabilizer_graph(ec) and correct(..., draw=True) only draw: the figure shows every stabilizer, every boundary point and every edge between them with the current weights, nodes are labelled by their position, and decoding afterwards gives what it gives without the drawing. (False for backend='networkx': drawing removes the nodes 'low' and 'high' from the code's own graph, after which MWPM raises on every open-boundary code with a non-trivial syndrome, and labels in a second drawing are shifted. True for rustworkx; for networkx true of Union-Find, of codes without boundary points, and of the very call that draws when weights are positive.)", "quantifier": "all surface codes, both backends, every sequence of weight assignments and drawings, every syndrome, all answers of the path and matching libraries", "why_tests_cant": "the effect shows only in a later call on the same code object; tests draw once, on the default backend", "anchors": ["flamingpy/utils/viz.py:draw_dec_graph", "flamingpy/utils/viz.py:draw_decoding", "flamingpy/codes/graphs/stabilizer_graph.py:StabilizerGraph.draw", "flamingpy/codes/graphs/stabilizer_graph.py:StabilizerGraph.to_nx", "flamingpy/codes/surface_code.py:SurfaceCode.draw_stabilizer_graph", "flamingpy/decoders/mwpm/algos.py:mwpm_decoder"]}
{"id": "C59", "title": "Decoding with the lemon backend", "statement": "correct(code, decoder='MWPM', decoder_opts={'backend': 'lemon'}) clears every syndrome; its recovery weighs at most (2^24+1)/(2^24-1) times the lightest correction (the weights are converted to single precision before the matching); with uniform weights every error on fewer than d/2 qubits (and fewer than 2^23) is corrected. (The stronger claim, that the recovery is of minimum weight as with the other backends, is false for weights of more than 24 significant bits: there is an error that networkx corrects and lemon does not.)", "quantifier": "all surface codes, syndromes, non-negative weights, all answers of the path and matching libraries within their contracts", "why_tests_cant": "the effect of rounding depends on the weights; infinitely many codes and exponentially many errors", "anchors": ["flamingpy/decoders/mwpm/lemon.py:min_weight_matching", "flamingpy/cpp/lemonpy.cpp:mwpm", "flamingpy/decoders/mwpm/matching.py:LemonMatchingGraph", "flamingpy/decoders/decoder.py:correct"]}
{"id": "C60", "title": "Slices of a graph, and the macronodes flag", "statement": "EGraph.slice_coords(plane, number) lists every node with that coordinate exactly once and nothing else, at every moment of the life of the graph, so the slices of one direction partition the nodes; on the graph of a surface code a slice is non-empty exactly for the coordinates in the range of its boundary kind. An EGraph built without macronodes=True ignores the macro_dict of the networkx graph: nodes are indexed by their own coordinates and add_qubit(..., add_to_macronode=True) raises ValueError leaving the graph unchanged.", "quantifier": "all graphs and histories of calls, planes and numbers; all surface codes", "why_tests_cant": "infinitely many graphs and histories", "anchors": ["flamingpy/codes/graphs/egraph.py:EGraph.slice_coords", "flamingpy/codes/graphs/egraph.py:EGraph.__init__", "flamingpy/codes/graphs/egraph.py:EGraph.add_qubit"]}
{"id": "C61", "title": "The verdict of check_correction is exact", "statement": "Bits whose syndrome is trivial pass check_correction exactly if they are a gauge pattern (each bit the parity of bits attached to the neighbouring vertices of the lattice, the effect of X operators on graph-state qubits): success is never reported for a pattern that acts on the encoded information and failure never for one that does not. Hence correct(code, decoder) returns True exactly if error and recovery differ by a gauge pattern, for MWPM and Union-Find. Two patterns with the same syndrome are equivalent up to gauge exactly if all their checked planes have the same parities, and all combinations of parities occur; the smallest undetected pattern that is not gauge has the size of the code in a checked direction.", "quantifier": "all surface codes (every size >= 2, error complex, boundary), all bit patterns, all decoder oracles within their contracts", "why_tests_cant": "a statement about all subsets of the qubits of all codes, with an existential over gauge patterns", "anchors": ["flamingpy/decoders/decoder.py:check_correction", "flamingpy/decoders/decoder.py:correct", "flamingpy/codes/surface_code.py:SurfaceCode", "flamingpy/codes/surface_code.py:RHG_graph"]}
{"id": "C62", "title": "A simulation reports exactly the number of logical failures", "statement": "run_ec_simulation's Monte Carlo loop on a surface code runs to its end whatever the random values are, and the error count it reports (returned alone, or at rank 0 of an MPI world of any size after the sum over all ranks) is exactly the number of trials in which noise and recovery together act on the encoded information (are not a gauge pattern). In every trial the noise bits are those of that trial's own random draws, the recovery flips only syndrome qubits and clears the syndrome. Holds for IidNoise, for CVLayer noise (fixed or swapped-out states, finite squeezing) and for CVMacroLayer noise, MWPM and Union-Find. With CVLayer or CVMacroLayer noise and uniform weights the count is at most the number of trials with d/2 or more unreliable measurements.", "quantifier": "all surface codes, all numbers of trials, all generator states and draws, all MPI world sizes, all decoder oracles within their contracts, all histories of earlier trials on the same code object", "why_tests_cant": "the count is a statement about every sequence of random draws and about the logical class of every remaining pattern", "anchors": ["flamingpy/simulations.py:ec_monte_carlo", "flamingpy/simulations.py:ec_mc_trial", "flamingpy/decoders/decoder.py:correct", "flamingpy/noise/iid.py:IidNoise", "flamingpy/noise/cv.py:CVLayer", "flamingpy/noise/cv.py:CVMacroLayer"]}
{"id": "C63", "title": "Axis labels of GKP plots name the right multiples of half sqrt(pi)", "statement": "to_pi_string returns the label of the k-th multiple of sqrt(pi)/2 exactly for the values within 1e-8 of it (given at least one decimal), different multiples have different labels, and all other values are given as decimal numbers. The tick positions computed for a plot over increasing values are the consecutive multiples of alpha from the last one not above the first value to the first one above the last value, and with alpha = sqrt(pi) each is labelled with its own multiple.", "quantifier": "all real values, all k, all numbers of decimals >= 1, both tex and plain output, all value lists with first <= last", "why_tests_cant": "ranges over all real numbers and tolerances; the boundary cases are irrational", "anchors": ["flamingpy/utils/viz.py:to_pi_string", "flamingpy/utils/viz.py:plot_integer_part", "flamingpy/utils/viz.py:plot_fractional_part", "flamingpy/utils/viz.py:plot_GKP_bins"]}
{"id": "C64", "title": "Pictures of a code show its syndrome, lattice and recovery where they are", "statement": "syndrome_plot on a surface code draws exactly one box per stabilizer of the chosen complex, coloured by that stabilizer's parity, centred on the stabilizer, boxes of different stabilizers apart from each other; draw_EGraph draws exactly one dot per vertex and one line per edge of the lattice at the documented place and in the colour of its attributes; draw_decoding draws for every matched pair lines through the qubits that the recovery flips.", "quantifier": "all surface codes, all measured bits, all drawing options, all matchings returned by any backend within its contract", "why_tests_cant": "tests compare no pictures; must hold for every code size, boundary and syndrome", "anchors": ["flamingpy/utils/viz.py:syndrome_plot", "flamingpy/utils/viz.py:_plot_cubes_at", "flamingpy/utils/viz.py:draw_EGraph_matplotlib", "flamingpy/utils/viz.py:add_recovery_drawing"]}
{"id": "C65", "title": "Titles, colours, labels and hover texts of graph pictures are the documented ones", "statement": "draw_EGraph colours every node and edge according to the documented meaning of color_nodes and color_edges; with a title, label=s writes exactly the values of attribute s next to the nodes where it is set, and label='index' each node's index; titles follow the documented rules; plotly hover texts list coordinates, index and the requested attributes in the requested (or alphabetical) order; the matplotlib and plotly backends show the same nodes, edges and colours.", "quantifier": "all graphs with any attribute values, all colour options, labels and titles of the documented types", "why_tests_cant": "ranges over all attribute dictionaries and option values; tests compare no pictures", "anchors": ["flamingpy/utils/viz.py:draw_EGraph", "flamingpy/utils/viz.py:_get_title", "flamingpy/utils/viz.py:_get_node_color", "flamingpy/utils/viz.py:_get_edge_color", "flamingpy/utils/viz.py:_get_node_info", "flamingpy/utils/viz.py:_plot_EGraph_nodes", "flamingpy/noise/cv.py:CVLayer.draw"]}
{"id": "C66", "title": "The reduced bit and error probability of a macronode are the documented function of the recorded homodyne outcomes", "statement": "After every CVMacroLayer.apply_noise, for every vertex of the code: four micronodes, one of them the star (body index 1); the reduced state is the star's state; the reduced bit_val is, mod 2, the binned value of (2 * p-outcome of the star - the sum over the p-squeezed neighbouring micronodes of what their macronode tells about them) plus the binned values of what the macronodes of the GKP neighbouring micronodes tell; what a macronode tells is 0, q2 - q4, q3 - q4 or q2 + q3 by the body index of the micronode; p_phase_cond is the clamped sum of the conditional error probabilities of these values with variances 2 delta for the GKP neighbours and 2 (2 + number of p-squeezed neighbours) delta for the outcome, and 0 without noise.", "quantifier": "all surface codes, squeezing parameters, placements of p-squeezed micronodes, perfect qubits, numbers of trials on the same object, and random draws", "why_tests_cant": "tests check a handful of fixed outcomes on one macronode; must hold for every lattice, placement, permutation and draw", "anchors": ["flamingpy/noise/cv.py:CVMacroLayer._reduce_jth_macronode", "flamingpy/noise/cv.py:CVMacroLayer._hom_outcomes", "flamingpy/noise/cv.py:CVMacroLayer._process_neighboring_outcomes", "flamingpy/noise/cv.py:CVMacroLayer._neighbor_of_micro_i_macro_j", "flamingpy/cv/gkp.py:Z_err_cond"]}
{"id": "C67", "title": "Whole simulations: weights, decoding and verdict follow the noise of each trial", "statement": "In every trial of ec_monte_carlo with CVLayer or CVMacroLayer noise and the MWPM or UF decoder, correct() gives every syndrome qubit the documented weight computed from the states, outcomes or error probabilities of that very trial (1 for uniform MWPM; -ln of the error probability for blueprint; -1 or 2 for UF), flips a set of qubits that clears the measured syndrome (the lightest one for MWPM), and the number of reported errors is exactly the number of trials after which the remaining pattern is not a gauge pattern; UF keeps the encoded information whenever twice the errors plus the erased qubits are fewer than the distance. No weights of an earlier trial matter.", "quantifier": "all surface codes, noise parameters, decoder options, random draws, numbers of trials and MPI ranks, matching and shortest path functions that meet their documentation", "why_tests_cant": "ranges over all draws, placements and histories of trials on the same objects", "anchors": ["flamingpy/simulations.py:ec_mc_trial", "flamingpy/simulations.py:ec_monte_carlo", "flamingpy/decoders/decoder.py:correct", "flamingpy/decoders/decoder.py:assign_weights", "flamingpy/noise/cv.py:CVLayer.apply_noise", "flamingpy/noise/cv.py:CVMacroLayer.apply_noise"]}
{"id": "C68", "title": "The getters of a CV layer report what the layer recorded", "statement": "hom_outcomes and bit_values give, for every list of modes and in its order, the outcomes of the last measurement and their translated bits; None for modes never measured; KeyError for an index that is no mode; p_inds and gkp_inds are the modes labelled 'p' and 'GKP'.", "quantifier": "all layers, all histories of public calls (successful or not), all index lists", "why_tests_cant": "must hold after every history of calls and for every index list and draw", "anchors": ["flamingpy/noise/cv.py:CVLayer.hom_outcomes", "flamingpy/noise/cv.py:CVLayer.bit_values", "flamingpy/noise/cv.py:CVLayer.p_inds", "flamingpy/noise/cv.py:CVLayer.gkp_inds"]}
{"id": "C69", "title": "LC-equivalence answers for the named graph states of every size", "statement": "is_lc_equivalent on the graph states of graph_states.py: a star and the complete graph with the same number of qubits are found equivalent, each of linear_cluster, star_graph, ring_graph, complete_graph (and every connected bipartite graph state) is found equivalent to itself, and a star with at least four qubits is reported inequivalent to the linear cluster and to the ring, which is true.", "quantifier": "all numbers of qubits, all clifford_form values that are accepted, all connected bipartite graphs, all node orders", "why_tests_cant": "all sizes; the answer depends on the basis that the row reduction happens to produce", "anchors": ["flamingpy/utils/linalg.py:are_lc_equivalent", "flamingpy/codes/graphs/egraph.py:EGraph.is_lc_equivalent", "flamingpy/utils/graph_states.py", "flamingpy/examples/lc_equivalence.py"]}
{"id": "C70", "title": "Codes with a periodic axis of one cell", "statement": "RHG_graph and SurfaceCode accept a dimension of 1 along a periodic axis (only open axes are documented to need more). On such a code every qubit should still be checked like the others, and both decoders should end and clear the syndrome of every error.", "quantifier": "all codes with boundaries 'toric' or 'periodic' and a periodic axis of size 1, both complexes, all such qubits, both decoders, all schedules and library choices", "why_tests_cant": "ranges over all dimensions; non-termination cannot be observed by a test", "anchors": ["flamingpy/codes/surface_code.py:RHG_graph", "flamingpy/codes/surface_code.py:SurfaceCode", "flamingpy/decoders/decoder.py:correct", "flamingpy/decoders/unionfind/algos.py:union_find"]}
{"id": "C71", "title": "Distribution of errors and failures under IidNoise", "statement": "With draws that are equally likely multiples of 1/M, IidNoise flips the bits of the nodes independently, each with probability p (up to 1/M); a Monte Carlo trial with uniform weights fails with a probability of at most the binomial tail from ceil(d/2) errors among the m syndrome qubits, hence at most C(m, ceil(d/2)) p^ceil(d/2), with either decoder; and over all draws the mean of errors/trials that ec_monte_carlo reports is exactly the failure probability of one trial.", "quantifier": "all surface codes with dimensions at least 2, all p in [0,1], all M, all numbers of trials, all initial bit values, both decoders, all schedules and library choices", "why_tests_cant": "a statement about a probability distribution over all draws and all sizes", "anchors": ["flamingpy/noise/iid.py:IidNoise.apply_noise", "flamingpy/simulations.py:ec_monte_carlo", "flamingpy/simulations.py:ec_mc_trial", "flamingpy/decoders/decoder.py:correct"]}
{"id": "C72", "title": "Limits of decoding: the bound d/2 is sharp", "statement": "Of two error patterns with the same syndrome, at most those that differ by a gauge pattern are both corrected by correct(code, decoder). Hence along every shortest logical direction there is a line of d qubits such that every error on more than half of it is reported as a failure, by MWPM and by Union-Find with uniform weights; the failure probability of a Monte Carlo trial with IidNoise is at least C(d,k) p^k (1-p)^(m-k) for every k > d/2, and at least 1/2 for p = 1/2.", "quantifier": "all surface codes with dimensions at least 2, all error patterns, all k, all p, both decoders, all schedules and library choices", "why_tests_cant": "a statement about all errors with the same syndrome, all tie-breaks and about probabilities over all draws", "anchors": ["flamingpy/decoders/decoder.py: correct, check_correction", "flamingpy/simulations.py: ec_mc_trial", "flamingpy/noise/iid.py: IidNoise.apply_noise"]}
{"id": "C73", "title": "Arguments of RHG_graph and SurfaceCode", "statement": "RHG_graph(dims, boundaries) accepts an integer or three integers and a documented name or a list of three names, with the documented meaning (an integer d stands for (d, d, d)); SurfaceCode(distance, ec, boundaries, polarity, backend) accepts an integer or three integers, the documented names and the two backends; every other argument, and every size for which there is no code, is refused with TypeError or ValueError.", "quantifier": "all integers, all sequences of any length, all strings, None and floats, as each argument", "why_tests_cant": "ranges over all values and types of the arguments", "anchors": ["flamingpy/codes/surface_code.py: RHG_graph, str_to_bound, SurfaceCode.__init__"]}
{"id": "C74", "title": "GKP binning in machine arithmetic", "statement": "Computed with float64 numbers, integer_fractional(x, alpha) returns the integer part that the exact real numbers x and alpha have and a fractional part within 2^-53 alpha of the exact one (exactly it for x >= 0). GKP_binner uses bins whose width is within 2^-52 of sqrt(pi); its bit is the documented one for every outcome that is not within (|x|+1) 2^-52 of a bin boundary, and the bit of n*np.sqrt(np.pi) is n mod 2 (the caution in the source about multiples n ~ 100 is unfounded).", "quantifier": "all float64 numbers x with |x| <= 2^48 alpha, all float64 alpha >= 2^-1000; all n with |n| <= 2^47", "why_tests_cant": "rounding errors show up at single numbers among 2^64 inputs; a test on samples does not find the numbers next to a bin boundary", "anchors": ["flamingpy/cv/gkp.py: integer_fractional, GKP_binner"]}
{"id": "C75", "title": "Swap-out probability", "statement": "With p_swap = p, in every trial each qubit of a CVLayer is a p-squeezed state with probability p independently of the other qubits and of earlier trials, although the code draws the number of swap-outs and then the indices: the qubits of A are all p-squeezed and those of B all GKP states with probability p^|A| (1-p)^|B|. With a CVMacroLayer the same holds for the nodes of the reduced lattice with p^4 instead of p. p_swap = 1 makes every state p-squeezed, p_swap = 0 none besides the given ones.", "quantifier": "all layers on all graphs (CVMacroLayer: all surface codes), all p in (0,1), all disjoint sets A, B of nodes, all earlier histories of calls, all other draws", "why_tests_cant": "a statement about the joint distribution over exponentially many patterns; sampling can only estimate single frequencies", "anchors": ["flamingpy/noise/cv.py: CVLayer.populate_states, _generate_squeezed_indices, _apply_state_labels, CVMacroLayer._apply_macro_and_reduced_labels"]}
{"id": "C76", "title": "Seeds and independence of simulations", "statement": "Every simulation uses fresh random numbers: two calls of ec_monte_carlo or run_ec_simulation, and two ranks of one MPI run, are statistically independent. In fact the seed is the import time of flamingpy.simulations plus the rank: processes started in different microseconds have different seeds, but a second call in the same process repeats the first (same errors for the same arguments; a longer run extends a shorter one; runs at two error probabilities use common draws), and ranks whose import times differ by the difference of their ranks run identical trials.", "quantifier": "all surface codes, both decoders with uniform weights, all generators and seeding functions, all import times, all numbers of trials and ranks, all earlier histories of the code object", "why_tests_cant": "independence cannot be observed from finitely many runs, and the collision depends on the start times of processes", "anchors": ["flamingpy/simulations.py: int_time, ec_monte_carlo, run_ec_simulation"]}
{"id": "C77", "title": "Arguments of the CZ functions, the splitter and the permutations", "statement": "SCZ_apply accepts exactly an n by n adj with a vector of length 2n or a 2n by 2n matrix, refuses everything else with ValueError, and returns S x or S Q S^T in the same shape for one_shot=True and one_shot=False and for every dtype of quads; splitter_symp(n) acts on n modes; invert_permutation inverts every array whose entries are indices of different positions, and refuses indices out of range.", "quantifier": "all shapes of adj and quads (any number of axes), integer and real quads, both values of one_shot, all n, all index arrays with negative entries", "why_tests_cant": "numpy broadcasting and slicing accept many shapes silently; tests use square symmetric matrices and float data", "anchors": ["flamingpy/cv/ops.py: SCZ_mat, SCZ_apply, splitter_symp, invert_permutation"]}
{"id": "C78", "title": "Weights of the CZ gates", "statement": "The CZ gates that a noise layer applies have the weights of the edges of the graph state (for instance those given by a polarity function): after any sequence of trials the outcome of every measured qubit is its own momentum noise plus the weighted position noise of its neighbours. In fact adj_generator converts weights to int8, so fractions are dropped and weights between -1 and 1 give no gates at all; integers from -128 to 127 are kept.", "quantifier": "all graphs with arbitrary real weights, all states, all sequences of trials and all draws of the CVLayer", "why_tests_cant": "the statement ranges over all weighted graphs and histories; tests only use weights 1 and -1", "anchors": ["flamingpy/codes/graphs/egraph.py: EGraph.adj_generator", "flamingpy/noise/cv.py: CVLayer.__init__, _measure_hom", "flamingpy/cv/ops.py: SCZ_apply"]}
{"id": "C79", "title": "Threshold theorem for minimum-weight decoding", "statement": "With IidNoise and correct() with MWPM and uniform weights, the failure rate of a surface code whose size is at least d in every direction of a logical operator is at most (6/5) N (10 sqrt r)^d / (1 - 10 sqrt r), where N is the number of stabilizers and r the probability of an error per qubit. So below an error probability of one percent the failure rate goes to zero as codes grow, for every complex, every kind of boundaries, both backends and every choice of shortest paths and matchings; and the mean of errors / trials of ec_monte_carlo obeys the same bound.", "quantifier": "all sizes, complexes, boundaries, polarities, enumerations of the stabilizers, error probabilities below 1/100 (drawn on a grid of M equally likely values, M arbitrary), shortest-path and matching oracles, numbers of trials", "why_tests_cant": "a statement about all code sizes and about probabilities; a simulation estimates one rate for one size with sampling error, and cannot resolve exponentially small rates", "anchors": ["flamingpy/simulations.py: ec_monte_carlo, ec_mc_trial", "flamingpy/noise/iid.py: IidNoise.apply_noise", "flamingpy/decoders/decoder.py: correct", "flamingpy/decoders/mwpm/algos.py: mwpm_decoder", "flamingpy/codes/surface_code.py: SurfaceCode"]}
{"id": "C80", "title": "The estimate of a simulation converges to the failure rate", "statement": "errors / trials, as reported by ec_monte_carlo in one process or by the root of an MPI world, differs from the failure rate of one trial by eps or more for at most a fraction rate (1 - rate) / (trials eps^2), hence at most 1 / (4 trials eps^2), of all equally likely draws.", "quantifier": "all codes, both decoders, all error probabilities, numbers of trials, eps > 0, world sizes and initial bit values", "why_tests_cant": "a statement about the distribution over all draws; a test sees one sequence of draws", "anchors": ["flamingpy/simulations.py: ec_monte_carlo, ec_mc_trial", "flamingpy/noise/iid.py: IidNoise.apply_noise"]}
{"id": "C81", "title": "Decoding again and again", "statement": "After correct(code, decoder) a second call of correct, with either decoder and any weights, changes no bit and returns the same verdict. Two errors with the same syndrome are corrected by flipping the same qubits. If errors are added round after round and correct() is called after every round, with any mixture of decoders, every call returns normally and leaves no odd stabilizer; if every round would be corrected on its own, every verdict is True (errors of different rounds do not add up); and on codes with open boundaries the verdict of a round is True exactly if the number of rounds so far that would fail on their own is even.", "quantifier": "all codes, both decoders, all weights, library choices, initial errors and numbers of rounds", "why_tests_cant": "ranges over all errors, all histories of rounds and all choices of the matching library and of set iteration", "anchors": ["flamingpy/decoders/decoder.py: correct, recovery, check_correction", "flamingpy/decoders/mwpm/algos.py: mwpm_decoder", "flamingpy/decoders/unionfind/algos.py: union_find"]}
{"id": "C82", "title": "The failure rate as a polynomial; small error probabilities", "statement": "With IidNoise and correct() (MWPM or Union-Find with uniform weights) the failure rate of one Monte Carlo trial is exactly the sum over k of F_k r^k (1-r)^(m-k), where m is the number of syndrome qubits, r the probability of an error per qubit and F_k the number of sets of k syndrome qubits that correct() does not correct. F_k = 0 below half the code distance d, and F_k + F_(d-k) >= C(d,k) for every length d of a logical direction. Hence for small r the failure rate divided by r^t tends to F_t > 0, where t is half the distance rounded up: the exponent of the logical error rate is exactly t for every complex, boundary and decoder.", "quantifier": "all codes, both decoders, all choices of shortest paths, matchings and set iteration, all error probabilities, numbers of equally likely draws and initial bit values", "why_tests_cant": "an identity for the distribution over all draws and a limit; a simulation only samples it", "anchors": ["flamingpy/simulations.py: ec_mc_trial", "flamingpy/noise/iid.py: IidNoise.apply_noise", "flamingpy/decoders/decoder.py: correct, check_correction"]}
{"id": "C83", "title": "What correct() prints with sanity_check, and the decoding example", "statement": "correct(..., sanity_check=True) leaves the same bits and returns the same verdict as with sanity_check=False, and prints exactly three lines: the recovery succeeded (no unsatisfied stabilizers), an empty line, and the dictionary of the verdicts of all parallel planes, in which the list of every checked direction has one entry per cell, all entries of a direction are equal, the other lists are empty, and the value returned is True exactly if every printed entry is True. For bits with a syndrome, recovery names exactly the stabilizers of odd parity with their qubits. The program decode_surface_code (draw=False) always runs to its end for noise \"cv\" or \"dv\" and decoder \"MWPM\" or \"UF\", prints these lines and `Success: ` with the verdict, and returns it; with \"dv\" noise on fewer than half the distance of the syndrome qubits it always succeeds; any other noise ends in UnboundLocalError and any other decoder in KeyError.", "quantifier": "all codes, both decoders, all weights, library choices, bits and random values", "why_tests_cant": "ranges over all codes, all random values and all choices of the libraries", "anchors": ["flamingpy/decoders/decoder.py: correct, recovery, check_correction", "flamingpy/codes/stabilizer.py: Stabilizer.__repr__", "flamingpy/examples/decoding.py: decode_surface_code"]}
{"id": "C84", "title": "No place, direction or kind of qubit is special: the symmetries of the codes", "statement": "A relabelling of the lattice points that respects neighbours and the kinds of the points turns one SurfaceCode into another: vertices, neighbourhoods, syndrome qubits, boundary qubits and stabilizers (with their multiplicity) correspond, every error pattern has the corresponding syndrome, and every pattern without syndrome gets the same verdict from check_correction, whatever the polarities. Such relabellings are: translations by even distances along the periodic axes; mirrors along any set of axes of any code; the exchange of the first two axes and sizes of toric and periodic codes; and the passage from the primal code of each boundary kind to the dual one (shift by one; for open codes with the first two axes and sizes exchanged). So primal and dual codes of one kind have the same distances, syndromes and failure patterns up to names.", "quantifier": "all codes, all sizes at least 2, all polarities, all translations, mirrors and patterns", "why_tests_cant": "ranges over all sizes, translations and error patterns", "anchors": ["flamingpy/codes/surface_code.py: RHG_graph, SurfaceCode, str_to_bound, dual_neighbours", "flamingpy/decoders/decoder.py: check_correction"]}
{"id": "C85", "title": "The example program for drawing a code and its stabilizers", "statement": "illustrate_surface_code runs for every code with an integer size of at least 2: for toric and periodic codes (and only for them) it draws the vertices on the first and last layers with all edges between them, among them every edge that closes a periodic axis, and then it marks for each cell of the code exactly the qubits on its faces, at the positions where draw() shows these qubits. Full statement refuted: every marked stabilizer, of any code, has a qubit whose mark is not where draw() shows it (the second and third coordinates are exchanged by draw() but not by the marks); for toric codes the layers of the non-periodic third axis are drawn as well (`if \"periodic\"` is always true); and a sequence of three sizes ends in TypeError for toric and periodic codes.", "quantifier": "all sizes, boundaries, complexes, polarities and stabilizer indices", "why_tests_cant": "ranges over all sizes and index lists", "anchors": ["flamingpy/examples/surface_code.py: illustrate_surface_code", "flamingpy/codes/graphs/egraph.py: slice_coords", "flamingpy/utils/viz.py: _plot_EGraph_nodes"]}
