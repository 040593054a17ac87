# Formal model of flamingpy in Rocq (Coq 8.16.1)

Everything is in `rocq/theories` (logical name `Verif`), listed in `rocq/_CoqProject`; build with
`coq_makefile -f _CoqProject -o Makefile && make -j4` in `rocq/`. The properties are in `properties.jsonl`,
the theorem names per property in `MANIFEST.json`, the mutation tests in `seeded/LOG.jsonl`.

## How to read it

Each area has up to four kinds of file:

* `...Model.v` - the program, function by function. Every definition cites the file and lines of `/repo`
  that it models and says where it simplifies.
* `...Spec.v` - the vocabulary of the theorem statements, written without the model's helpers (geometry of
  the lattice, well-formed histories, linear algebra over GF(2), named graphs, CSV rows, ...).
* `...Proofs.v` and others - lemmas.
* `Props...v` - the theorems `Cnn_...` of the manifest, each with `Print Assumptions` and, next to it, an
  `Example Cnn_nonvacuous...` in which a concrete case meets the hypotheses.

Conventions of the model:

* Python values are plain inductive types, lists, `nat`, `Z`, `bool`, and Coq's `R` for the continuous-variable parts.
* An exception is a value: `res A = Ok a | Err e`. Methods that can fail half-way return the state reached
  together with the result, so that partial effects are visible (C29-C31, C44).
* Python sets: any enumeration without repetition (`set_enum`) or any choice function for `set.pop`
  (`valid_choice`); the theorems quantify over all of them.
* Random numbers: universally quantified streams or draws; a theorem holds for every draw.
* Library functions (shortest paths, matching, spanning trees, `exp`, `erf`, MPI) are universally quantified
  functions with a contract as hypothesis (`oracle_ok`, `best_matching`, `lib_ok` with `NoDup (l_out lib u)`, monotone functions with
  range ...). For each contract an instance is proved (`MwpmInst.search_oracle_ok`, `search_match_ok`,
  `MwpmLemon.lemon_ok`, `UfInst.kruskal_lib_ok`, Coq's own `exp` and an `erf`-like function), so the hypotheses are satisfiable.
* `while` loops take fuel; where a theorem claims termination it says that an explicit number of rounds is enough (C20, C21).
* A property that is false of the code is stated in full, refuted by a witness (`..._refuted`), and the
  strongest positive statement found is proved beside it (status `partial` in the manifest).

## Trusted base

1. Coq 8.16.1's kernel (`coqc`; no plugin of our own, no kernel check switched off, no `Admitted`,
   no axiom, no functor or module type of our own, no section-less `Variable`/`Hypothesis`).
   `vm_compute` is used for concrete examples and witnesses and is part of that kernel.
2. The axioms below, all from Coq's standard library, as printed by `Print Assumptions` for every theorem of the manifest. Besides the standard library, `GkpFloat` and `PropsGkpFloat` use definitions and lemmas of Flocq, which adds no axiom.
3. The faithfulness of the models to `/repo` and of the contracts to the external libraries: read by a human, tested by
   mutating the models (see `seeded/LOG.jsonl`), but not proved.

`vcheck` also lists `Coq.ssr.ssrunder.Under_rel.*` and `RbaseSymbolsImpl.*`/`RinvImpl.*` under `library_axioms`:
these are the opaque module-type fields inside Coq's own `ssreflect` and `Reals` libraries that are loaded; none
appears in the `Print Assumptions` output of a theorem.

### Print Assumptions of every theorem of the manifest

Closed under the global context (no axiom):

C01_rhg_exact_lattice, C02_periodic_size_and_degree, C03_alternating_polarity_balanced, C03_any_polarity, C04_stabilizers_are_cube_faces, C05_qubits_checked_once_or_twice, C06_low_high_halves, C07_even_syndrome_without_boundary, C08_stabilizer_graph_edges, C09_stabilizer_graph_connected, C10_parallel_planes_agree, C11_code_distance, C12_gauge_invariance, C13_recovery_flips_exactly, C14_mwpm_clears_syndrome, C15_mwpm_corrects_small_errors, C16_matching_graph, C17_paths_stay_inside_partial, C17_rustworkx_fractional_weights_refuted, C18_lemon_matching_is_best, C18_lemon_single_precision, C19_clusters_are_a_partition, C20_growth_ends_even, C21_peeling_matches_parities, C22_uf_clears_syndrome, C22_no_syndrome_no_flip, C24_row_reduction, C25_nullspace_basis, C26_lc_sound, C26_sizes, C27_criterion, C27_lc_complete_partial, C27_lc_complete_refuted, C27_unknown_form, C28_indices_sorted_bijection, C28_macronode_indices, C29_dictionaries_survive, C29_nodes, C29_edges, C29_macronodes, C30_adjacency_current_partial, C30_adjacency_refuted, C31_add_failure_partial, C31_add_failure_refuted, C31_stale_matrix, C32_macronize_partial, C32_large_displacement_refuted, C32_padding_refuted, C32_errors, C32_macro_egraph, C38_invert_permutation, C43_each_trial_one_rank, C43_errors_at_root, C43_errors_single_process, C43_other_ranks_refuted, C43_default_communicator_fails, C44_one_row_partial, C44_table_partial, C44_tuple_refuted, C44_broken_row_refuted, C44_list_refuted, C44_failure_leaves_files, C46_any_history, C46_code_graphs_agree, C46_assigned_weights_agree, C46_to_nx, C46_missing_edge_refuted, C46_networkx_any_calls, C46_repeated_calls_refuted, C48_trees_stay_shallow, C49_mwpm_minimum_weight, C49_condition, C49_mwpm_near_minimum_weight, C49_truncated_weights, C53_decoder_names, C54_uf_corrects_small_errors, C54_contracts_met, C55_uf_erasures_and_errors, C55_uf_textbook_bound_closed_codes, C55_uf_textbook_bound_open_codes_refuted, C55_uf_textbook_bound_size_two_refuted, C56_clusters_deterministic, C56_result_schedule_free, C58_figure, C58_rustworkx_unchanged, C58_networkx_loses_connectors, C58_decoding_after_drawing, C58_drawing_while_decoding, C58_labels, C58_open_networkx_refuted, C58_labels_redrawn_refuted, C59_lemon_decoding, C59_lemon_corrects_small_errors, C59_lemon_minimum_refuted, C60_slices, C60_code_slices, C60_macronodes_flag, C61_verdict_exact, C61_classes, C61_distance, C61_success_exact, C62_gauge_noise, C63_labels_distinct, C64_syndrome_drawn, C64_boxes, C64_boxes_apart, C64_graph, C64_code, C64_limits_primal, C64_limits_dual_refuted, C64_diagonal_cells, C64_misplaced_refuted, C64_recovery_lines, C64_wrapped_lines_refuted, C64_syndrome_title, C65_colors, C65_titles, C65_titles_refuted, C65_labels, C65_index_labels, C65_untitled_refuted, C65_text_labels_refuted, C65_list_label_refuted, C65_list_colors_refuted, C65_plotly, C65_backends_agree, C65_hover_refuted, C65_layer_colors, C65_plotly_edges_refuted, C65_legend, C65_title_shown, C65_hover_substring_refuted, C69_bipartite_self, C70_uncheckable_qubit, C70_mwpm_refuted, C70_uf_never_ends_refuted, C73_rhg_arguments, C73_rhg_call, C73_rhg_refused, C73_list_boundaries_refuted, C73_numpy_integer_refuted, C73_surface_code, C73_surface_refused, C73_distance_refuted, C73_size_refuted, C75_samples, C76_seeds, C76_rank_collision, C77_splitter_size, C77_invert_indices, C83_sanity_check, C83_unsatisfied, C84_relabelling, C84_translation, C84_mirror, C84_exchange, C84_primal_dual, C85_example, C85_marks_refuted, C85_sizes_refuted, C85_toric_refuted.

Axioms `FunctionalExtensionality.functional_extensionality_dep`:

C57_correct_modulo_gauge, C57_small_errors_modulo_gauge, C72_one_class, C72_sharp, C81_twice, C81_common_recovery, C81_memory, C81_memory_open, C81_small_rounds.

Axioms `ClassicalDedekindReals.sig_forall_dec`, `FunctionalExtensionality.functional_extensionality_dep`:

C33_integer_fractional, C33_negative_alpha_refuted, C37_scz_symplectic, C37_scz_apply_consistent, C42_probability_checked, C42_one_draw_per_node, C42_extreme_probabilities, C43_iid_mwpm_simulation, C43_no_noise_no_errors, C43_iid_mpi_simulation, C45_linear_cluster, C45_bell, C54_iid_uf_simulation, C62_errors_are_logical_failures, C62_state_after_trial, C63_ticks, C63_unsorted_refuted, C63_fixed_ticks, C71_draw_probability, C71_bits_independent, C71_failure_rate, C71_unbiased, C71_distribution, C71_mpi_distribution, C72_rate_at_least, C72_coin, C76_repeated_run_refuted, C76_parallel_refuted, C76_common_draws, C77_one_shot, C77_blockwise_values, C77_blockwise_shapes, C77_blockwise_refuted, C77_integer_vector_refuted, C78_adjacency, C80_estimate_converges, C80_mpi_estimate_converges, C82_weight_enumerator, C82_leading_order, C82_trials.

Axioms `ClassicalDedekindReals.sig_forall_dec`, `ClassicalDedekindReals.sig_not_dec`, `FunctionalExtensionality.functional_extensionality_dep`:

C34_binning_partial, C34_boundary_to_0_refuted, C35_probability_partial, C35_value_partial, C35_array_partial, C35_bin_location_partial, C35_use_hom_val_partial, C35_use_hom_val_value_partial, C36_z_err_probability, C36_bins_are_those_of_bit_0, C36_z_err_is_missed_mass, C36_z_err_array, C38_four_splitter, C39_constructor, C39_labels_after_every_call, C39_partition_partial, C39_partition_refuted, C40_noise_partial, C40_surface_code, C40_every_second_trial_noiseless_refuted, C40_default_layer_refuted, C41_star_selection, C45_arguments, C47_custom_network_refuted, C47_default_network_partial, C40_surface_code, C50_delta_zero_refuted, C50_no_code_refuted, C50_list_states_refuted, C50_unknown_order_refuted, C50_two_step_refuted, C50_unknown_order_code_refuted, C51_every_trial_succeeds, C52_bits, C52_small_noise_is_harmless, C52_only_noise_matters, C52_default_polarity, C52_negative_weights_refuted, C57_cv_macro_trial, C57_cv_layer_trial, C62_cv_errors_are_logical_failures, C62_cv_error_bound, C62_cv_state_after_trial, C62_macro_errors_are_logical_failures, C62_macro_error_bound, C62_macro_state_after_trial, C63_others, C66_reduced_values, C68_shape, C68_untouched, C68_last_trial, C68_p_inds, C68_gkp_inds_partial, C68_gkp_inds_refuted, C68_macro_bits_refuted, C75_independent, C75_marginal, C75_extremes, C75_macro, C78_noise, C78_integer_weights, C78_fractions_refuted, C79_failure_rate_exponential, C79_threshold, C79_monte_carlo.

Axioms `ClassicalDedekindReals.sig_forall_dec`, `ClassicalDedekindReals.sig_not_dec`, `Classical_Prop.classic`, `FunctionalExtensionality.functional_extensionality_dep`:

C23_uniform_mwpm, C23_uniform_uf, C23_blueprint, C23_blueprint_uf_refused, C23_history_independent, C23_unknown_method_refuted, C23_correct_mwpm, C23_correct_uf, C23_correct_blueprint_integer, C35_use_hom_val_refuted, C35_use_hom_val_sharp_refuted, C45_star_graph, C45_ring_graph_partial, C45_complete_graph_partial, C45_large_refuted, C63_multiples, C63_exact, C63_no_decimals_refuted, C63_tick_labels, C67_cv_simulation, C67_macro_simulation, C67_wrong_precomputed_raises, C67_iid_simulation, C67_iid_blueprint_raises, C69_star_complete, C69_self, C69_star_differs, C69_odd_ring_refuted, C69_large_refuted, C69_example, C74_integer_fractional_partial, C74_power_of_two_refuted, C74_bins, C74_documented_bit, C74_multiples, C74_boundary_to_0_refuted, C74_nonvacuous, C83_script, C83_script_success, C83_other_names.


## What is modelled

| File of /repo | Modelled | Not modelled |
|---|---|---|
| `codes/surface_code.py` | all of `RHG_graph`, `dual_neighbours`, `alternating_polarity`, `str_to_bound`, `SurfaceCode.__init__` and its helpers, `{ec}_syndrome_coords`, stabilizers, boundary points (C01-C06), the effect of `draw_stabilizer_graph` on the graph (C58) | the pictures of `draw*`; `backend` choice is a separate model (C46) |
| `codes/stabilizer.py` | `parity`, `coords` | `midpoint` only as doubled integer coordinates; `plot` |
| `codes/graphs/egraph.py` | `EGraph` (indices, dictionaries, adjacency matrix, `add_qubit`, `remove_qubit`, `slice_coords`, `macronize`), the function `macronize` | `heat`, `draw*`; dense/sparse storage except where it decides an error (C27) |
| `codes/graphs/stabilizer_graph.py` | `StabilizerGraph`, both backends (C08, C09, C46), truncation in `_path_weight` (C17) | the Dijkstra implementations (contract) |
| `decoders/decoder.py` | `assign_weights`, `recovery`, `check_correction`, `correct` for both decoders | drawing options |
| `decoders/mwpm/*`, `cpp/lemonpy.cpp` | matching graph, `mwpm_decoder`, lemon wrapper incl. the sentinel for missing edges and the float32 conversion of weights (MwpmFloat) | the blossom algorithms (contract, exact arithmetic inside); float32 overflow and subnormals |
| `decoders/unionfind/*` | all: tree classes, support table, growth, forest, peeling | rustworkx spanning tree and degree functions (contract) |
| `cv/gkp.py`, `cv/ops.py` | all numerical functions; `integer_fractional` and `GKP_binner` also in float64 arithmetic (C74) | float rounding elsewhere, integer overflow, sparse storage (shapes, integer vectors and int8 weights: C77, C78); `thewalrus` functions from their documentation |
| `noise/cv.py` | `CVLayer`, `CVMacroLayer` including the reduction of macronodes, the getters | float rounding; `draw_SB`, drawing |
| `noise/iid.py`, `simulations.py` | `IidNoise`, `ec_mc_trial`, `ec_monte_carlo` (serial and MPI), `run_ec_simulation`, command-line decoder names, result file, seeds | timing values are arbitrary strings; `argparse` itself; operating-system failures while writing |
| `utils/linalg.py` | all functions used by `is_lc_equivalent` | numpy dtypes |
| `utils/graph_states.py` | all | float rounding inside `cos`, `sin` |
| `utils/viz.py` | the effect of `draw_dec_graph` and `draw_decoding` on the graphs, the graph drawn, the node labels (C58); tick positions and labels of GKP plots (C63); boxes, dots, lines, colours and limits of `syndrome_plot`, `draw_EGraph_matplotlib` and the recovery lines (C64); titles, colours, labels, plotly hover texts (C65) | rendering by matplotlib and plotly |
| `benchmarks`, `examples` | `lc_equivalence.py` (C69_example) | the others: they time or demonstrate |

## Properties: model and proof idea

| Properties | Files | Proof idea |
|---|---|---|
| C01-C03 | RhgModel, RhgSpec, RhgProofs, RhgDegree, PropsRhg | the calls of `add_node`/`add_edge` as lists; membership characterised axis by axis with parity and range arithmetic |
| C04-C07, C10-C12 | SurfaceModel, SurfaceSpec, SurfaceProofs, SurfaceIncidence, SurfaceTheorems, SurfaceGauge, PropsSurface | incidence of qubits and cells, exchange of xor-sums, slabs of cells between two planes, counting for the distance |
| C08, C09, C46 | StabGraphModel, Complex, SurfaceComplex, BackendModel/Spec/Proofs, PropsBackend, PropsBackend2 | incidence; walking cells axis by axis; representation invariants of the two backends over call histories |
| C13-C18, C49 | MwpmModel, MwpmProofs, MwpmInst, MwpmSides, MwpmLemon, PropsMwpm, PropsMwpm2 | xor-sums along paths; any correction decomposes into paths, hence a perfect matching of at most its weight; distance of C11 |
| C59 | MwpmFloat, MwpmApprox, PropsLemon | relative error 2^-24 of the rounding, added over a perfect matching; composition with C15 |
| C19, C48 | UfModel, UfTrees, PropsUfTrees | invariants over histories of unions and finds |
| C20-C22 | UfSpec, UfPeel, UfGrow, UfDecode, UfInst, PropsUf | invariants of the growth loop, a decreasing measure, induction over peeling |
| C54-C56 | UfSync, UfArcs, UfDistance, UfGeometry, UfDet, PropsUfDist | every cluster of the growth is covered by arcs of the error: a potential argument bounds the fully grown edges of an odd cluster by the error edges in it plus the erasure; two schedules run in lockstep round by round |
| C57 | PropsGauge, PropsCvDecode, PropsSimUf | the decoders read the bits only through stabilizer parities; the verdict is invariant under gauge (C52); CV outcomes are a gauge pattern plus the errors of loud qubits; PropsSimUf composes with C42/C43 for Union-Find and MPI |
| C61 | Homology, Homology2, PropsHomology | the lattice is a product of three lines or circles; an explicit chain homotopy pushes a pattern along one axis after the other until one qubit per plane is left |
| C63 | TickModel, PropsTicks | rounding and distinctness of the labels; reals |
| C64 | VizModel, PropsViz, PropsViz2, PropsViz3 | pictures as lists of shapes; geometry of the cells (C04-C06) |
| C65 | VizModel, PropsText, PropsText2 | relation between attributes and shapes, node by node; the two backends compared |
| C62 | PropsCount, CvTrial, PropsCountCv, PropsCountState, PropsCountCvState, CvMacroCount, PropsCountMacro | the trials of a run as a list of outcomes (C43) with the noise, the recovery and the verdict of each (C14, C22, C61); for CVLayer the invariant of C39/C40 links the trials, for CVMacroLayer the layout of C51/C52 |
| C66 | CvMacroSpec, CvMacroReduce, PropsMacroValues | the reduction loop computes sums over the four neighbouring positions; the recorded values read back from the graph |
| C67 | FullModel, PropsFull | composition of C23 (weights), C66 and C40 (what the noise layers leave on the nodes), C49/C55/C61 (decoders) through the generic trial counting of C62 |
| C68 | GetterModel, PropsGetters | frame lemmas over call histories; read-back of the last measurement |
| C69 | LcPivot, LcGraphs, LcGraphs2, LcNamedModel/Spec, PropsLcNamed | the basis found is the reduced row echelon one, so that a solution is found iff exactly two of its ones lie in leading columns of the solution space; explicit solution spaces of star, complete, bipartite, triangle-free graphs |
| C70 | PropsThin (over SurfaceModel, MwpmModel, UfModel) | a qubit along an axis of one periodic cell lies on one cell; the total parity of the syndrome is then odd and no boundary exists, so the growth loop keeps an odd cluster in every round |
| C71 | CountDraws, PropsIidRate, PropsBinomial | counting of vectors of draws by induction over the nodes; the outcome of a trial depends on its own draws only (C42, C57); C15 and C54 bound the failing vectors |
| C72 | CountDraws, PropsLimits | the recovery is a function of the syndrome; two classes of errors with one syndrome cannot both be corrected (C61); complement within a logical line (C11, C15, C54); an involution of the draws for p = 1/2 |
| C73 | ArgModel, PropsArgs | case analysis over the values of the arguments |
| C74 | GkpFloat, PropsGkpFloat | numpy's divmod over Flocq's rounding: fmod is exact, the rounded quotient is within 1/8 of an integer, Sterbenz for the remainders; the width differs from sqrt(pi) by at most 2^-52 |
| C75 | PropsSwap, PropsSwapMacro | the labels are a function of the drawn indices (C39, C41); counting of ordered samples with a given set; induction over the nodes that are in neither set |
| C76 | SeedModel, PropsSeed | arithmetic of the printed time; runs from equal generator states have equal outcomes (C42, C57), C43 adds up the ranks |
| C77 | OpsNdModel, PropsOpsNd | numpy's shape rules as functions; case analysis on shapes, C37 for the values, C38 for the permutations |
| C78 | WeightedModel, PropsWeighted | the matrix of the converted graph (C30), the layer built from it (C39), outcomes (C40) |
| C79 | Walks, PropsThreshold | the qubits that are wrong after recovery contain a closed trail through stabilizers (induction on the set, parity invariant) on which the check is odd, at least d long (C11); flipping it gives another correction, so half of it are errors (C49); at most 6*5^(l-1) trails of length l per stabilizer, union bound over the draws (C71), geometric series |
| C80 | PropsConverge | mean and variance of the number of failures by induction over the trials (C71), Markov's inequality on the squares |
| C81 | PropsRounds | the recovery is a function of the syndrome (shift lemmas of C72); without odd stabilizers the matching graph is empty and Union-Find flips nothing (C22); induction over the rounds with the parity of the checked planes as invariant |
| C82 | PropsEnumerator | induction over the nodes: draws grouped by the set of struck syndrome qubits, then by its size; complement of a subset of a logical line (C72); expansion of the polynomial at 0 |
| C83 | ScriptModel, PropsScript | the lines are a function of the bits after the recovery; quiet bits have constant planes (C10), so the printed lists are constant; the program composes C40/C67 (noise), C23 (weights) and the decoders; uniqueness of the verdict by C61, small errors by C49 and C55 |
| C84 | SymSpec, SymProofs, PropsSym | C01, C04 and C05 describe graph, stabilizers and qubits by coordinates, so a bijection of the points that keeps steps and kinds carries them over; gauge patterns are carried over too, and C61 says that the verdict depends on nothing else; the instances are products of bijections of single axes |
| C85 | ExampleModel, PropsExample | slices and subgraph by membership, periodic edges end on the first and last layer (C01), stabilizers are cells (C04); each cell has a qubit one step along the second axis, whose second and third coordinates have different parities, so the exchange moves it |
| C58 | DrawModel, DrawProofs, PropsDraw | removal of nodes commutes with assign_weights; the drawn networkx graph is the undrawn one minus the connectors; union-find reads only real edges; MWPM through C14, C17 |
| C23 | WeightModel, PropsWeight | case analysis; composition with the decoders |
| C24-C27 | LinModel, LinSpec, LinProofs, LinNull, LinLc, PropsLin | loop invariant of the row reduction; free columns; constraint system of the local Clifford |
| C28-C31 | EgraphModel, EgraphSpec, EgraphProofs, EgraphInv, PropsEgraph | state machine, invariants over histories |
| C60 | EgraphModel, PropsSlice | filters of distinct nodes; C01, C28, C29 |
| C32 | MacroModel, MacroSpec, MacroArith, MacroProofs, MacroMain, PropsMacro | exact rational displacements, rounding to two decimals |
| C33-C36 | GkpModel, PropsGkp, PropsGkp2 | real arithmetic |
| C37, C38 | OpsModel, PropsOps | finite sums |
| C39, C40, C50 | CvModel, CvSpec, CvProofs, CvNoise, CvSurface, PropsCv, PropsCv2 | state machine over calls |
| C41, C47, C51, C52 | CvMacro*, PropsCvMacro | layout of four micronodes per vertex, algebra of the four-splitter |
| C42, C43 | SimModel, SimSpec, SimProofs, SimTrial, PropsSim | induction over trials and ranks; composition with C15 |
| C44, C53 | SimCsv, PropsCsv | strings and file contents |
| C45 | GraphStateModel/Spec/Proofs, PropsGraphState | distinctness of rounded points on a circle |

## Defects found in the code while proving

* C17: rustworkx's `_path_weight` truncates each weight to an integer; with fractional weights the reported length can be wrong.
* C23: an unknown weight method is silently accepted and the old weights stay.
* C27: `is_lc_equivalent(ring_graph(5), ring_graph(5))` is `(False, None)`, as for every odd ring with at least five nodes (C69); an invalid `clifford_form` gives
  `UnboundLocalError`; a cached sparse adjacency matrix gives `ValueError`.
* C70: a periodic axis of size 1 is accepted, but its qubits are in one stabilizer and no boundary exists: one error leaves an odd syndrome
  that MWPM does not clear and on which the growth loop of Union-Find never ends (C05, C07, C14, C22 are stated for sizes of at least 2).
* C73: sizes are not checked: `SurfaceCode(0)`, `SurfaceCode(-3)`, and `SurfaceCode(1)` with open boundaries give codes without qubits for which every correction
  succeeds; a distance of a wrong length or type ends in `AttributeError`; `RHG_graph(np.int64(3))` raises `TypeError`; the documented
  list of three boundary names raises `AttributeError`.
* C65: with plotly, an attribute whose name merely contains "index" cannot be shown without `to_indices` (`TypeError`).
* C30, C31: removing a qubit that is not the last makes `adj_generator` raise `KeyError`; the inherited `add_edge` leaves the cached matrix
  stale; `add_qubit` on an empty graph fails in `max()`; neighbours that are not in the graph become nodes without index; a failing
  `add_qubit` leaves the node added and the matrix stale.
* C32: a displacement rounding to 0.05 collides with the padding nodes; `disp=0` passes the check and then overflows; isolated
  nodes give `KeyError` when padding; displacements in [0.495, 0.5) round to 0.5 and edges become self-loops.
* C34, C35: values on half of the bin boundaries are not binned to 0; `use_hom_val=True` can exceed 1; scalar `bin_location` returns a string;
  array `bin_location` raises `ValueError` when only some denominators vanish.
* C74: `integer_fractional(-(0.5 - 2**-54), 1.0)` is (-1, 0.5) although 0 is nearer (only when alpha is a power of two).
* C39, C40, C50: `_generate_gkp_indices` counts the old GKP list as used: with no p states every second trial is noise-free.
  `delta=0` gives `ZeroDivisionError` in the initial order; the two-step order on a code gives `ValueError`; `CVLayer(EGraph)` gives `AttributeError`;
  list-valued states give `TypeError`; an unknown sampling order is silently noise-free; the caller's `states` dict is changed.
* C43, C44: ranks other than 0 report errors = trials; the default `world_comm=None` with mpi4py installed raises `AttributeError` after all
  trials; the documented tuple `distance` raises `TypeError` after the simulation and leaves half a row to which the next row is glued; list and
  dict values add columns; `fname=""` falls back to the default name.
* C76: `int_time` is read once per import and `ec_monte_carlo` makes a new generator from it in every call: a second call in one process repeats the
  first; MPI ranks read the clock each for itself and add their rank, so ranks started in consecutive microseconds (last first) run the same trials.
* C77: `SCZ_apply(one_shot=False)` broadcasts: a 2n by n+1 array becomes 2n by 2n, an adjacency matrix with one row is applied to n modes; with an
  integer vector the new momenta lose their fractions; arrays with three axes give `UnboundLocalError`; `splitter_symp(n)` has 8*(n//4) rows.
* C78: `adj_generator` uses `dtype=np.int8`: edge weights lose their fractions, so a graph with weights in (-1, 1) gets no CZ gates.
* C45: `ring_graph` and `complete_graph` round to five decimals: from n = 630000 two nodes coincide (up to 444288 none do).
* C46: `RxStabilizerGraph.edge_data` raises `NoEdgeBetweenNodes`, not the documented `KeyError`.
* C46: calling `add_edge` again for a pair gives rustworkx a second, parallel edge (networkx updates the edge), and `add_node` again a second node.
* C58: `draw_dec_graph` removes "low" and "high" from the graph it draws, and `NxStabilizerGraph.to_nx` returns the graph itself: after one drawing of a code built with `backend="networkx"`, MWPM decoding of an open code raises `NodeNotFound` on every non-trivial syndrome, and a second drawing mislabels the stabilizers.
* C59: `lemonpy` converts weights to float32: with weights of more than 24 significant bits the matching need not be of minimum weight.
* C47: any `bs_network` given to `CVMacroLayer` makes the first `apply_noise` raise `AttributeError`.
* C55: `initialize_cluster_trees` lists clusters with a boundary point as odd, so two erased boundary clusters grow together and 2s+t<d
  is not enough on open codes; on periodic codes of size 2 one of two shared qubits has no edge and its erasure is ignored.
* C49: in periodic codes of size 2 two stabilizers share two qubits and `set.pop` may keep the heavier one.
* C52: the macronode reduction ignores edge weights: one p-squeezed micronode behind a weight -1 edge flips exactly one bit without noise.
* C63: `to_pi_string(0.3, d=0)` is "0"; values in descending order give `ValueError` in the GKP plots.
* C64: the syndrome boxes of every dual code stick out of the axes limits (x < 0); with `show_nodes` the dots have y and z exchanged but the
  boxes have not; recovery lines of steps across a periodic boundary do not pass through their qubit.
* C67: `weight_opts={'method': 'blueprint'}` needs the undocumented `prob_precomputed=True` exactly with `CVMacroLayer`: otherwise `KeyError` or `TypeError` in the first trial with a qubit that has fewer than two p-squeezed neighbours; `run_ec_simulation` uses the rustworkx backend, which truncates
  non-integer blueprint weights in path lengths (C17).
* C68: `CVMacroLayer.bit_values()` is None for every mode: bits are written to the reduced graph.
* C65: `draw_EGraph` with a label that is not set on some node and no title raises `AttributeError` (`None.lower()`); string-valued labels and lists
  of labels raise `TypeError`; the documented example `color_nodes=["state", {...}]` (a list) colours everything black; a string title is ignored
  with several labels; plotly with `label=None`, or with the default label on a graph without `index_generator()`, raises `TypeError`; plotly ignores `color_edges` (the colours go to markers that mode "lines" does not show).
* Others: `{ec}_syndrome_inds` contains duplicates; `to_nx()` loses the stabilizer and boundary lists; `trim_forest` is recursive; `SCZ_apply` on 3-D arrays raises
  `UnboundLocalError`; `splitter_symp(n)` with n not divisible by 4 gives a matrix smaller than 2n.

## Status per property

| Property | Status | Note |
|---|---|---|
| C01 RHG_graph builds exactly the RHG lattice | proved | all documented sizes (open axes >=2, periodic >=1) |
| C02 Periodic lattice size and degree | proved |  |
| C03 Alternating polarity is balanced | proved |  |
| C04 Stabilizers are exactly the cube faces | proved |  |
| C05 Every syndrome qubit is checked once or twice | proved |  |
| C06 Low and high boundary halves | proved |  |
| C07 Even syndrome without boundary | proved |  |
| C08 Stabilizer graph edges | proved |  |
| C09 Stabilizer graph is connected | proved |  |
| C10 Parallel correlation surfaces agree | proved |  |
| C11 Code distance | proved |  |
| C12 Gauge invariance of the verdict | proved |  |
| C13 recovery flips exactly the given qubits | proved |  |
| C14 MWPM decoding clears the syndrome | proved | shortest paths and matchings are oracles with the libraries' contracts; C14_nonvacuous shows the contracts satisfiable |
| C15 MWPM corrects all errors of weight < d/2 | proved | uniform weights |
| C16 Matching graph is well formed | proved |  |
| C17 Boundary paths stay on their side | partial | holds when reported lengths are exact (networkx, or integer weights) and weights are positive; refuted for rustworkx with fractional weights, where _path_weight truncates each weight; C49_truncated_weights bounds what is lost then |
| C18 Lemon backend returns a minimum-weight perfect matching of the matching graph | proved | C18_lemon_single_precision covers the float32 cast of the weights. |
| C19 Cluster trees implement a partition | proved | All histories of Node/Root creation, find_root and union on the model of uf_classes.py; the relation 'united' is the equivalence closure of the union calls made. |
| C20 Union-Find growth terminates with even clusters | proved | All codes, syndromes, erasure patterns, set orders; rustworkx functions enter through the contracts lib_ok, met by a Kruskal instance (UfInst.kruskal_lib_ok). Termination: a number of rounds of 2/E/+2 always suffices. |
| C21 Peeling returns the syndrome's boundary | proved | All forests, parities and orders of leaves and edges. |
| C22 UF decoding clears the syndrome | proved | Also: the recovery set consists of syndrome qubits, only those are flipped, correct() does not raise, and with a trivial syndrome no qubit is flipped. |
| C23 Weight assignment | proved | real-number weights; for the documented methods 'uniform' and 'blueprint'.  An undocumented method name is silently accepted and keeps the old weights (C23_unknown_method_refuted).  The C23_correct_* theorems compose weight assignment with the decoders |
| C24 Row reduction | proved | All binary matrices with n columns (any number of rows), max_cols None, at most n or beyond n. |
| C25 Nullspace basis | proved | All binary matrices: independent, inside the null space, spanning. |
| C26 LC-equivalence verdict is sound | proved | All pairs of loop-free undirected graphs; entries of the adjacency matrices 0 or 1. Stabilizer groups in the binary (z/x) picture, signs ignored as in the code. |
| C27 LC-equivalence verdict is complete | partial | The full statement is false of the code: the ring of 5 qubits is declared inequivalent to itself (refuted). Proved: the constraint system is an exact criterion, and the answer is True iff some equivalence is the sum of two distinct vectors of the computed basis. For the graph states of graph_states.py the answers are determined for every size in C69. |
| C28 Indices are a sorted bijection | proved | All graphs with distinct coordinate nodes; macronode graphs whose dictionary lists every node once. |
| C29 Index dictionaries survive edits | proved | All histories of add_qubit, remove_qubit, index_generator, adj_generator calls (successful, or failing calls other than add_qubit), neighbours given as positions being nodes. |
| C30 Adjacency matrix stays available and current | partial | Full statement false: KeyError after removing a qubit that is not the last one (refuted). Proved: every returned matrix is current, and the exact conditions of failure. |
| C31 add_qubit failure atomicity | partial | Full statement false (refuted: unknown neighbour index leaves the node added and the cached matrix stale). Proved: exactly which failures leave which trace. |
| C32 Macronization | partial | All RHG lattices of documented size, all edge orders/orientations, all displacements 0 < disp < 0.495 (with padding: that do not round to 0.05). The full statement is false: disp in [0.495,0.5) is rounded to 0.50 and edges become self-loops; pad_boundary with disp rounding to 0.05 collides with padding nodes (both witnessed). Exact rational arithmetic instead of floats. |
| C33 Integer/fractional decomposition | proved | exact arithmetic over Coq's reals; alpha > 0 is needed: for alpha < 0 the remainder can exceed /alpha//2 |
| C34 GKP binning | partial | parity, periodicity and flip proved for every real; the documented 'values on the boundary are binned to 0' is false for half of the boundaries |
| C35 Conditional error probability is a probability | partial | in [0,1] for use_hom_val=False (the default), for exp and every non-negative non-decreasing stand-in; with use_hom_val=True in [0,1], and the ratio wrong/all of the summed Gaussians, whenever the nearest multiple k of sqrt(pi) has -var_num <= k < var_num; beyond, for every var_num >= 2, it exceeds 1 at k = var_num for some variance |
| C36 Z_err is a probability | proved | for erf and every non-decreasing stand-in with values in [-1,1]; also what the value is |
| C37 CZ matrices are symplectic and SCZ_apply is consistent | proved | exact arithmetic; symplectic if and only if the adjacency matrix is symmetric |
| C38 Four-splitter and permutations | proved | also the exact entries of the four-splitter; the thewalrus functions beam_splitter and expand are modelled from their documentation |
| C39 State labels partition the qubits on every call | partial | The labels are right after every call history; the index lists partition range(N) after the first assignment; false afterwards: without swap-out the second call lists no GKP state at all (_generate_gkp_indices counts the old GKP list as used). |
| C40 Noise covers every qubit on every trial | partial | Every trial succeeds with the documented standard deviations for listed qubits, and all qubits are noisy in the first trial; false for later trials: on every surface code with default arguments every second trial is noise-free. |
| C41 Star selection | proved | For every surface code, after every number of trials: the micronodes of a macronode, GKP states first, have body indices 1..4, and the reduced node has the state of the first. |
| C42 IID noise | proved | all codes, streams and probabilities (exact real comparison) |
| C43 Monte Carlo bookkeeping | proved | all worlds of ranks and outcomes; ranks other than 0 report errors = trials; ec_monte_carlo with default world_comm fails if mpi4py is importable. End to end with IID noise and MWPM: errors <= number of trials with d/2 or more flips. |
| C44 Every simulation leaves one complete result row | partial | Full statement false: a tuple argument (distance=(3,3,3)) raises TypeError after the simulation and leaves a broken row; lists add columns. Proved for non-tuple values printed without comma, quote, line break (weight_opts may contain commas), for all histories of simulations. |
| C45 Named graph states | partial | linear and star: all n (exact coordinates); ring and complete: proved for n <= 444288; false for n >= 630000, where two nodes get the same coordinates rounded to five decimals (between the two bounds: not decided) |
| C46 Stabilizer-graph backends agree | proved | Proved for every surface code of sizes >= 2, every choice of popped vertices and any number of assign_weights calls: same nodes, edges (as a permutation), edge data, neighbours, out_edges, searched subgraph, and to_nx keeps nodes, edges and weights. Also for any sequence of add_node/add_edge calls that adds nodes once and edges once. Differs: for a missing edge between existing nodes rustworkx raises NoEdgeBetweenNodes, not the documented KeyError. rustworkx's unspecified orders are arbitrary permutations. |
| C47 Custom beamsplitter network is used | partial | False for every network: the argument is discarded and the first apply_noise raises AttributeError. Proved for the default network. |
| C48 Weighted union keeps trees shallow | proved | All histories. |
| C49 The MWPM recovery has minimum weight | proved | near: reported lengths that are smaller than the true ones by a bounded factor (rustworkx with fractional weights >= n) give a recovery at most (n+1)/n times as heavy as the lightest. |
| C50 CVLayer works for every documented argument | partial | Proved for the initial order, delta > 0, states given as arrays; refuted (for every code) for delta = 0, sampling_order two-step, list-valued states, an EGraph instead of a code; unknown orders are accepted and noise-free. |
| C51 CVMacroLayer works for every code and every draw | proved |  |
| C52 Macronode reduction transfers only measurement noise to the code | partial | Proved when edges at p-squeezed micronodes have weight 1 (always so with the default polarity). False with weights of -1: the reduction ignores edge weights, and one p-squeezed micronode behind such an edge flips exactly one bit without noise. |
| C53 Decoder names on the command line | proved |  |
| C54 Union-Find corrects every error of weight below half the distance | proved | Contract on rustworkx used in addition to C20-C22: out_edges(u) lists a neighbour once. |
| C55 Union-Find corrects erasures together with errors | partial | Refuted as stated: on codes with open boundaries two erased qubits at distance 3 (both clusters contain a boundary point but are listed as odd and grow together), and on periodic codes of size 2 (one of two shared qubits has no edge, its erasure is invisible). Proved: 2s+t<d on codes without open boundary and periodic sizes >= 3; 2(2s+t)+tb<2d in general, tb = erased qubits on the boundary. |
| C56 Union-Find growth does not depend on the order of set iteration | proved |  |
| C57 Decoding depends on the error only up to gauge | proved | CVLayer: initial sampling order, delta > 0, documented states, edge weights 1 or -1; noise is called large if it is sqrt(pi)/10 or more (momentum), or that far from every multiple of sqrt(pi) (position of a neighbour). CVMacroLayer: under the hypotheses of C52 (every macronode has a GKP state, edges at p-squeezed micronodes have weight 1), bound sqrt(pi)/20. |
| C58 Drawing a code or a decoding does not change the code | partial | Proved for rustworkx (drawings leave no trace) and, for networkx, of the figure, of Union-Find, of MWPM on codes without boundary points and of the decoding that draws (positive weights). Refuted for MWPM on every open-boundary code with the networkx backend and for the labels of a second drawing. The picture itself (matplotlib) is not modelled, only the graph handed to it. |
| C59 Decoding with the lemon backend | partial | Proved: syndrome cleared, weight within the rounding factor, fewer than d/2 errors corrected. Refuted: minimum weight. Overflow and subnormal numbers of float32 and rounding inside the C++ library are not modelled. |
| C60 Slices of a graph, and the macronodes flag | proved | Coordinates in units of 1/U. A plane other than x, y, z raises KeyError, which the type of the model excludes. |
| C61 The verdict of check_correction is exact | proved | The first homology of the product of three lines or circles, relative to the open boundary, computed by pushing chains along the axes. |
| C62 A simulation reports exactly the number of logical failures | proved | One process and MPI worlds, for IidNoise, CVLayer and CVMacroLayer. |
| C63 Axis labels of GKP plots name the right multiples of half sqrt(pi) | partial | Proved as stated (at least one decimal, values in ascending order). Without these two conditions it is refuted: to_pi_string(0.3, d=0) is '0'; values in descending order give ValueError. |
| C64 Pictures of a code show its syndrome, lattice and recovery where they are | partial | Boxes, colours, dots and edges are proved. Refuted: boxes of every dual code stick out of the axes limits; with show_nodes the dots have y and z exchanged but the boxes have not, so some stabilizer's qubits are shown away from its box in every code; lines of steps across a periodic boundary do not pass through their qubit. |
| C65 Titles, colours, labels and hover texts of graph pictures are the documented ones | partial | Proved for the documented options. Refuted: a string title is ignored with several labels; without a title a label that is missing somewhere raises AttributeError instead of printing a message; string-valued attributes and lists of labels raise TypeError (matplotlib); the documentation's own list-form of color_nodes is ignored; plotly with label=None, or with the default label on a graph without indices, raises TypeError. The plotly backend ignores color_edges: all edges are black. |
| C66 The reduced bit and error probability of a macronode are the documented function of the recorded homodyne outcomes | proved | exp is an arbitrary function of a real; the values recorded (p_hom, q_hom) are those of C51. |
| C67 Whole simulations: weights, decoding and verdict follow the noise of each trial | proved | Weight assignment inside every trial. Lightest recovery: in the units of the matching functions, with networkx, or with rustworkx and integer weights (rustworkx truncates others, see C17). Blueprint with prob_precomputed opposite to the noise layer raises: C67_wrong_precomputed_raises. IidNoise: uniform weights (C67_iid_simulation); blueprint raises because the states are missing. |
| C68 The getters of a CV layer report what the layer recorded | partial | Proved for every history, except: gkp_inds is empty after the second trial without swap-out (same defect as C39); bit_values() of a CVMacroLayer is None for every mode, because the bits are on the reduced graph. |
| C69 LC-equivalence answers for the named graph states of every size | partial | The full statement is false: every odd ring with at least five nodes is declared inequivalent to itself, and from n = 630000 the star and the complete graph state 'differ' because complete_graph loses nodes (C45). Proved: star, complete (n <= 444288), linear cluster, even rings, every connected bipartite graph against itself; star against linear and ring for n >= 4 (False, and they are inequivalent). Star vs complete is bounded by 444288 only because complete_graph is. |
| C70 Codes with a periodic axis of one cell | partial | refuted: the qubits that separate cells along the short axis lie in one stabilizer only although the code has no boundary; a single error there is not cleared by MWPM (verdict False), and the growth loop of Union-Find never ends if another axis has at least two cells (proved for every number of rounds) |
| C71 Distribution of errors and failures under IidNoise | proved | the generator is modelled as one that returns equally likely multiples of 1/M (numpy: M = 2^53); that numpy's generator does so is not proved |
| C72 Limits of decoding: the bound d/2 is sharp | proved | for p = 1/2 the grid of draws has an even number of points; the generator is that of C71 |
| C73 Arguments of RHG_graph and SurfaceCode | partial | Accepted arguments and their meaning are characterised exactly. Refuted: the documented list of three names raises AttributeError (only numpy arrays work); numpy integers are refused by RHG_graph with TypeError; a distance of another length or type surfaces as AttributeError; sizes are not checked, SurfaceCode(0), SurfaceCode(-3) and SurfaceCode(1) with open boundaries are accepted, have no qubits and report success. Not modelled: booleans, nested sequences, a single boundary name, numpy arrays as ec or boundaries of SurfaceCode. |
| C74 GKP binning in machine arithmetic | partial | Proved in IEEE double arithmetic (Flocq) with numpy's divmod algorithm. The integer part is exact for positive x, or when alpha is not a power of two (sqrt(pi) is not); refuted for a negative x and a power of two: integer_fractional(-(0.5-2**-54), 1.0) = (-1, 0.5). Bounds /x/ <= 2^48 alpha and alpha >= 2^-1000. Overflow, nan and signed zeros are not modelled. |
| C75 Swap-out probability | proved | The numpy generator is represented by its documented distributions: binomial(N, p) and uniform samples without replacement (all ordered samples equally likely). Independence between trials is the quantification over every history before the trial. |
| C76 Seeds and independence of simulations | partial | seeds of different start times differ; the full statement is refuted: a second call in one process repeats the first, and MPI ranks can share a seed |
| C77 Arguments of the CZ functions, the splitter and the permutations | partial | proved for one_shot=True; one_shot=False accepts rectangular and one-row arrays (exact characterisation proved) and drops the fractions for integer vectors; splitter_symp(n) is too small unless 4 divides n |
| C78 Weights of the CZ gates | partial | weights are cut to int8: proved for integer weights from -128 to 127, with the fraction dropped otherwise; refuted for every graph with weights in (-1, 1) |
| C79 Threshold theorem for minimum-weight decoding | proved | Uniform weights and the MWPM decoder; the constant is that of the usual path-counting argument (5 continuations per step, 2^l subsets of a trail). |
| C80 The estimate of a simulation converges to the failure rate | proved | Draws are equally likely multiples of 1/M; in an MPI world they are assumed independent between ranks (C76 says when the seeds differ). |
| C81 Decoding again and again | proved | Second call may use another decoder, weights and library choices. Toric and periodic codes: the verdict is the conjunction over the checked directions; only 'all rounds good alone implies all verdicts True' is stated for them. |
| C82 The failure rate as a polynomial; small error probabilities | proved | Draws are multiples of 1/M, all equally likely (numpy: M = 2^53), as in C71. The F_k are not computed. |
| C83 What correct() prints with sanity_check, and the decoding example | proved | printed text of correct(sanity_check=True) and of examples/decoding.py decode_surface_code with draw=False, show=False |
| C84 No place, direction or kind of qubit is special: the symmetries of the codes | proved | translations by even vectors on the periodic axes; the odd translations are the passage between primal and dual complexes (C84_primal_dual) |
| C85 The example program for drawing a code and its stabilizers | partial | proved: the program runs for integer sizes, which vertices and edges it draws and which points it marks; refuted: the marks are not where draw() shows the qubits, toric codes get the layers of the third axis too, sequences of sizes fail |
