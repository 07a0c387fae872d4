# Formal model of cda-tum/fiction in Rocq (Coq 8.16.1)

## 1. Organisation

`rocq/theories/` holds, per area, up to four kinds of files:

* `*Model.v`  – executable Gallina transcriptions of the C++ functions. Every definition cites file and lines in `/repo`.
* `*Spec.v`   – the small, independent vocabulary used to state properties (what a neighbour, a path, a box ... *is*).
* `*Proofs*.v` – lemmas and proofs; no property is stated only there.
* `*Props.v`  – the theorems of each property (`Cnn_...`), non-vacuity `Example`s beside them and `Print Assumptions` below them.

Conventions: machine integers are `Z` with explicit wraps wherever the C++ type can wrap in the property's range;
undefined behaviour (out-of-range access, division by zero, failed `at`) is an explicit error result (`None`);
loops without a structural measure get fuel, and running out of fuel is a distinct result that the theorems exclude.
Where the English property is false of the code, the full statement is refuted by a concrete witness
(`..._refuted`) and the strongest true part is proved (`..._partial`).

`properties.jsonl` lists the properties, `MANIFEST.json` the theorems for each, `seeded/LOG.jsonl` the wrong programs the theorems were tested against.

## 2. Plan per property

| id | model | proof idea |
|----|-------|-----------|
| C01 | shifts/masks of the 64-bit packing on `Z` | bit-field arithmetic, div/mod |
| C02 | comparison operators of the three coordinate kinds | case analysis, lia |
| C03 | `wrap`, iterator constructor and `++`, range loop with fuel | rank function row-major, induction on rank |
| C04/C05 | conversions and arithmetic on Z with int32 ranges | div/mod arithmetic, lia |
| C06 | `area`/`volume` versus iteration | corollary of the enumeration of C03 |
| C07/C08 | Cartesian direction functions, adjacency enumeration | case analysis on borders |
| C09/C10 | hexagonal conversion and neighbour enumeration with C++ truncating division and 31-bit casts | div/mod arithmetic |
| C11-C16 | clocking schemes as functions of coordinates plus override map | periodicity: finite sweep over residues lifted to all coordinates; potential functions for acyclicity |
| C17 | heap with shared storage cells | aliasing refuted by witness, remaining part by frame lemma |
| C18-C25 | gate-level layout as a state record and operations; histories = lists of operations | invariants by induction over histories |
| C26/C27 | cell-level layout state and histories | refinement to abstract map |
| C28/C29 | obstruction and synchronization-element layouts | last-write-wins refinement |
| C30 | bounding box update loop | fold invariants |
| C31-C35, C45 | iterators, combinatorics, searches | bit arithmetic, induction |
| C36-C41, C46 | distances, A*, path enumeration, Yen over an arbitrary finite neighbour function | loop invariants, well-founded induction; counterexample by computation for optimality |
| C42 | creation functions and compute of single nodes | case analysis over gate types and operand values |
| C43/C44 | clock zones of the cells of a tile; directional signal queries | div/mod arithmetic; case analysis |
| C47 | design rule checks as filters over tiles and nodes | each counter is zero iff the rule holds; sum of non-negative counters |
| C48 | memoised recursion with fuel | induction over fuel with cache invariant: every cached value is the exact longest path |
| C49-C51 | routing, clearing, objective extraction | frame lemmas over single node creations; depth-first search invariant with visited set |
| C52 | is_crossable_wire as step predicate of the path finders | instance of the generic path finding theorems |
| C53 | to_hex with 31-bit truncation | div/mod arithmetic on hexagon centres |
| C54 | hexagonalization as folds over inputs, diagonals, outputs | generic theory of layouts built node by node on free tiles (BuildProofs); diagonals are topological; mutual induction on values |
| C55/C56 | charge distribution surface as a record; every call a function; digits written over the charge vector | invariant over histories of calls; digit arithmetic by induction on the digits |
| C57 | exhaustive simulation as a loop with fuel over charge indices | loop invariant: results are the valid distributions with smaller number |
| C58/C60 | stored potentials, thresholds, energy and validity as functions of charges, defects and external potential | every operation rewritten as an equation; quadratic form of the energy; witnesses by computation |
| C61/C62 | QuickExact: set-up calls, detection of certainly negative SiDBs, two-state and three-state loops over Gray codes with a dependent SiDB and incremental potentials | refinement: every incremental update equals recomputation from the charges; loop invariants over the Gray code; the reduction to the remaining SiDBs preserves validity in both directions; witnesses by computation |
| C63/C64/C65 | results as lists of surfaces; sets of indices and energies as sorted lists; find_if, sort and insertion as list functions | charge numbers are injective, so that indices stand for distributions; sorted lists with the same elements are equal; numbers in base 2 and 3 compare like their digits; double counting; witnesses by computation |
| C66 | surface with negative SiDBs only and the threshold test | the potential is least if all SiDBs are negative, because the interaction is repulsive |
| C67/C68 | orthogonal: edge colouring with fuel, node colours, layout size, wires, placement of inputs, gates and outputs on the gate-level layout model | colouring: induction over the painted edges; placement: invariant over the nodes (a map from tiles to what is on them, free rows and columns for every open connection, values of the placed nodes); outputs: invariant over the list of outputs; the final map is related to the gate-level layout; witnesses by computation |
| C69/C70/C71 | fanout_substitution on technology networks: the three tree strategies with queues of buffers, get_fanout, copying of gates and outputs; random numbers are an arbitrary sequence | invariant: every node of the new network stands for one of the source (its root or a buffer of its tree); the uses of a tree add up to its buffers and the references so far, so that a free buffer is left; the queue holds each buffer as often as it has free outputs; witnesses by computation |
| C72/C73 | orthogonal as called: fan-out substitution with its default parameters, listing of the result in topological order, placement and routing | composition of C69-C71 with C67/C68: the substituted network satisfies the conditions of placement (uses, fan-ins, size), values agree along the listing |
| C74/C75 | network_balancing and is_balanced on technology networks, with the levels of a depth view (unsigned 32-bit arithmetic) | heights: every node of the result has a height, which non-constant fan-ins are one below; images of source nodes have their level as height; values as in C69; every gate of the result leads to an output |
| C76 | static_depth_view: recursive level computation with visited marks, marking of critical paths, on_add | invariant: nodes with a level have the largest cost over paths to them; marked nodes are closed under tight fan-ins |
| C77/C78 | virtual_pi_network as a technology network with a list of virtual inputs; creation calls; delete_virtual_pis gate by gate | invariant over call sequences; a generic copying lemma: gates copied in topological order have the values of the originals under related assignments |
| C79/C80 | virtual_miter (copying both networks, exclusive ors, tree of ors) and the decision procedure of equivalence_checking over an arbitrary solver | the copying lemma twice; induction over the outputs and over the tree; case analysis of the verdict |
| C81 | technology_network::substitute_po_signals output by output | the reference counts of old nodes do not change and new buffers are used once, so every decision is that of the original network |
| C82 | the three neighbourhood functions on step points | the counter in base three enumerates all offsets; membership and absence of duplicates by induction over the dimensions |
| C83/C84 | threads as a transition system over a shared map: slices of the points, and the worker loop of flood_fill with its mutex, condition variable and counters | invariant over all interleavings; a decreasing measure for termination; a stuck state has all workers returned |
| C85/C86 | contour tracing in two dimensions, boundary collection in any number, inference by flooding inside the contour; loops with fuel | orbits of an injective step function return to their start; invariants of the work lists |
| C87 | the labelled paths with their lookup set, the graph built objective by objective on top of the models of path enumeration and Yen's algorithm | induction over the objectives; C40, C41 and C45 for the paths and the shared segments |
| C88 | the constraints for k colors as formulas, the three searches over k, extraction and check; the solver is an argument assumed to be right | a satisfying assignment is a proper coloring; a proper coloring can be renamed to satisfy the symmetry breaking; the searches find the least satisfiable k by monotonicity |
| C89 | run and conduct_routing on top of the models of the edge intersection graph, of coloring and of route_path; hash map orders, solver and heuristics are arguments | vertices of one color are one route per objective at most, pairwise compatible; laying them by induction with C49; a complete routing gives a coloring with a common color, which C88 finds |
| C90 | the constraints as formulas over pairs of a tile and a clock number, including the default variable for tiles without one, the recursion that breaks the symmetry, and the writes of the clock numbers | a model of the constraints is a function from tiles to clock numbers; a valid clocking, turned so that the first input has clock 0, is a model of them |
| C91 | libraries as functions from layouts and tiles to arrays of cell types; the positions of cells with 31-bit wrap-around, the aspect ratio, and the assignments of cell types and names in the order of the nodes | the last assignment to a cell decides; different tiles have different cells; half and quarter tiles by arithmetic |
| C92 | the arrays and tables of the library, rotations, port routing, set_up_gate, and the creation of vias | the tables are finite and checked by computation against the sides in use; the rest is about positions of cells and, for vias, about what the optimization leaves unchanged while it runs |
| C93 | the file as the tree of its XML elements with their texts; numbers as decimal strings and their parsing; the topological order as a depth-first search along the fan-ins; the reader with the exceptions it throws | texts of numbers are parsed back by induction on their digits; the order lists drivers first and is complete, by induction on the search with a rank that data flow increases; the reader then creates one node per tile, which the results on building layouts describe |
| C94 | the file as the list of its characters; the writer with its labels for named and primary cells; the reader line by line with its regular expressions as functions on characters and the exceptions it throws | the text of the writer is a list of lines given in closed form by induction on layers, rows and columns; the reader run over these lines keeps an invariant that says which cells have been assigned; the section of labels is parsed back by induction on the labels, which are distinct |
| C95 | the reader of C94; FQCA files as a grammar of lines, without reference to the reader | the functions for the regular expressions decide the grammar, by induction on texts; the lines are read by induction with the set of labels seen so far |
| C96 | QuickSim on the charge distribution surface of C55; random numbers and the clock as arguments, the results as interleavings of what the threads append | an invariant of the surface of a thread (potentials, energy and validity are those of the distribution it holds) is kept by every step; for reachability, the random numbers that place the electrons of a given distribution one after the other are constructed by induction |
| C97 | the defect surface as a finite map from coordinates to defects with its calls, and the surface analysis on the cell positions of C91; functions and ports are arbitrary types | refinement of the map to a board of defects over histories of calls; arithmetic with 31-bit coordinates for the rectangles; induction over tiles, functions and implementations for the black list |
| C98 | the rank view as network, depth view (as in C76), finite map of positions, lists of ranks and width, with all its calls; sorting is any function that permutes into order | an invariant between positions, ranks, levels and width, kept by each call; levels are longest paths by C76; induction over sequences of calls |
| C99 | mincross on the rank views of C98: counting by penalties, medians, reordering, transpositions, iterations and passes; rounding, convergence test and sorting are arbitrary functions; failed assertions and accesses out of bounds are None | crossings are specified as pairs of wires in opposite order; the penalty loops count them by induction over ranks and nodes; an invariant (ranks permuted, levels kept, positions of the nodes not yet visited unchanged) shows that no assertion fails; the best ranks and their number go together through all passes |
| C100 | bfs_topo_view over the networks of C98: queue, counters of fan-ins not yet seen (32 bit), order, and the iterations over it | an invariant of the queue loop: the counters equal the fan-ins minus those already listed, the queue is the unprocessed suffix of the order and spans at most two levels; by induction on fan-ins every node without repeated fan-ins below it is listed |
| C101 | detect_bdl_pairs over the cell-level layouts of C26: collecting dots, pairwise distances, sorting, the pairing loop, the operators of bdl_pair; distance, sorting and order of visits are arbitrary functions | induction over the sorted list of distances shows disjointness and that of each pair in range one dot is in a pair at most as far apart; uniqueness by induction on the number of closer pairs |
| C102 | convert_network for different types of networks, over an arbitrary record of destination operations; the creation functions of technology networks as an instance | invariant over the gates in topological order: each converted signal has the value of its node; the instance by showing that each creation function adds one gate and keeps all values, tree_reduce by induction on its depth |
| C103 | calculate_energy_and_state_type (kinks accepted and rejected), the occupation probabilities and both simulations of critical_temperature over arbitrary charge distributions and Boltzmann factors | the list of states is a permutation of the charge distributions; sums and minima do not depend on the order; induction over temperatures and patterns, with the invariant that the current value is the maximum or on the grid |
| C104 | calculate_defect_clearance over arbitrary distances, with infinity as a value | induction over cells for the minimum and over the points for the maximum; independence of orders from uniqueness |
| C105 | truth table cache with complemented storage, creation functions with their literals, gate type tests and counters | invariant over histories: the cache extends the initial one, has no duplicates and only normal entries, so literals and functions correspond; counters are filters |
| C106 | log_stats over any order of the stored points, operational_domain_ratio after the concurrent flood fill of OpDomModel | counters as lengths of filters; the domain from C84_flood_fill; reached operational points are the island of the given point |

## 3. Trusted base

### 3.1 Tools

* Coq's kernel (8.16.1), including its conversion with `vm_compute` in some closed Boolean computations; `coqchk` rechecks all files without the VM.
* The libraries used are the standard library and std++ (finite maps, lists). No axiom of either is used, see 3.3. (`coqchk`
  lists seven constants of `Coq.ssr.ssrunder`, the parameters of a module type of the standard distribution that std++ loads; no theorem depends on them.) No own axioms, no `Admitted`, no switched-off
  checks, no functors or module types, no plugins.

### 3.2 What has to be believed beyond Coq

* That the definitions in `*Model.v` say what the cited C++ lines do. They are transcribed by hand; nothing was compiled or run. The comments say where they simplify.
* The semantics of C++ and of the standard library that the model assumes: two's complement and modular unsigned arithmetic, bit-field truncation on assignment,
  `std::sort`, `std::push_heap`/`pop_heap` (modelled after libstdc++ where it matters), unordered containers (any iteration order is either proved irrelevant or quantified over).
* The third-party libraries mockturtle, kitty, phmap, whose sources are not part of the repository: hash maps behave like finite maps; truth tables like bit vectors;
  the truth table cache returns equal literals for equal functions.
* That the vocabulary of the `*Spec.v` files says what the English properties mean.

### 3.3 Print Assumptions

`Print Assumptions` stands below every property theorem. It prints `Closed under the global context` for each of the following theorems: no axiom is used, neither an own one nor one of the standard library or of another library.

* C01: C01_packing_lossless, C01_packing_layout, C01_get_dead
* C02: C02_strict_total_order, C02_ranking
* C03: C03_iteration_exact, C03_iteration_range, C03_max_width_never_terminates_refuted
* C04: C04_siqad_roundtrip, C04_siqad_saturates, C04_dead_not_preserved_refuted
* C05: C05_siqad_arithmetic, C05_sub_add
* C06: C06_volume_counts, C06_area_counts_ground, C06_siqad_area_counts, C06_siqad_ground_refuted
* C07: C07_directions, C07_inverse, C07_borders
* C08: C08_adjacency, C08_symmetric_irreflexive, C08_opposites, C08_elevation
* C09: C09_cube_roundtrip, C09_cube_geometry, C09_offset_roundtrip
* C10: C10_adjacency, C10_symmetric_irreflexive, C10_directions, C10_opposites
* C11: C11_valid_phase, C11_valid_phase_history, C11_periodic, C11_linear_waves, C11_negative_three_phase_refuted
* C12: C12_flow_exact, C12_directed
* C13: C13_degrees_bounded_partial, C13_cartesian, C13_hexagonal_refuted
* C14: C14_linear_names, C14_acyclic, C14_path_length, C14_hex_2ddwave3_refuted
* C15: C15_last_write_wins, C15_std_schemes_clean
* C16: C16_lookup, C16_hex_on_cartesian_refuted
* C17: C17_clone_independent_partial, C17_clone_shares_clocking_refuted
* C18: C18_bijection, C18_range
* C19: C19_counters, C19_is_empty, C19_constant_moved_refuted
* C20: C20_crossings_partial, C20_crossings_refuted
* C21: C21_duality, C21_fanout_sound, C21_layer_clocks_refuted
* C22: C22_io_exact_partial, C22_overwrite_refuted, C22_unplaced_refuted
* C23: C23_move
* C24: C24_alive_iff_placed_partial, C24_foreach_partial, C24_underflow_refuted, C24_connect_refuted, C24_unplaced_refuted
* C25: C25_clear
* C26: C26_last_assignment_counts, C26_enumerations
* C27: C27_delete_partial, C27_name_survives_refuted
* C28: C28_coordinates_gate, C28_coordinates_cell, C28_plain, C28_connections_gate
* C29: C29_elements_history, C29_flow, C29_degree_refuted
* C30: C30_cells, C30_sizes, C30_defects, C30_siqad_defects_partial, C30_siqad_defects_refuted, C30_gates, C30_empty, C30_stale_sizes_refuted, C30_outside_refuted
* C31: C31_one_bit_per_step, C31_every_code_once, C31_position_decides, C31_moves_cancel, C31_order_refuted
* C32: C32_enumerates, C32_start_zero, C32_order_refuted, C32_copies_refuted
* C33: C33_binomial, C33_symmetric, C33_overflow_refuted, C33_diverges_refuted
* C34: C34_choices_partial, C34_nothing_refuted
* C35: C35_positions, C35_members, C35_once
* C36: C36_metrics, C36_squared_euclidean, C36_manhattan_bound, C36_manhattan_permitted, C36_manhattan_hex_refuted, C36_twoddwave_exact, C36_distance_map_partial, C36_distance_map_refuted, C36_sparse_map, C36_cache_partial, C36_cache_refuted, C36_map_in_a_star_refuted
* C37: C37_a_star_valid, C37_a_star_ground, C37_heap_is_queue
* C38: C38_a_star_complete, C38_a_star_ground, C38_a_star_distance
* C39: C39_heap_refuted, C39_lowest_first_partial, C39_zero_partial, C39_linear_partial
* C40: C40_enumerates, C40_enumerates_ground
* C41: C41_yen_partial, C41_yen_ground_partial, C41_source_refuted, C41_zero_refuted
* C42: C42_functions_partial, C42_comparisons_refuted, C42_function_kept
* C43: C43_cells_of_a_tile, C43_negative_refuted
* C44: C44_signals, C44_directions, C44_opposite
* C45: C45_first_shared_pair, C45_empty_refuted
* C46: C46_linear_partial, C46_complete_refuted
* C47: C47_clean_iff, C47_sites, C47_constant_output_refuted
* C48: C48_critical_path, C48_terminates_partial, C48_balanced_throughput_partial, C48_throughput_partial, C48_cyclic_refuted
* C49: C49_route_path, C49_data_flow
* C50: C50_clear_routing_partial, C50_routed_refuted, C50_order_refuted
* C51: C51_objectives, C51_two_drivers_refuted
* C52: C52_step, C52_a_star, C52_yen, C52_enumerate
* C53: C53_turned, C53_fits, C53_injective, C53_adjacency, C53_clocking
* C54: C54_hexagonalization, C54_same_function, C54_output_fanout_refuted, C54_majority_refuted, C54_crossing_layer_refuted
* C55: C55_charge_index
* C56: C56_enumeration
* C57: C57_exhaustive
* C58: C58_validity_partial, C58_population, C58_validity_refuted
* C60: C60_energy_partial, C60_exhaustive_energy_partial, C60_energy_refuted
* C61: C61_sound, C61_local_potential_refuted, C61_single_refuted, C61_energy_partial, C61_energy_refuted
* C62: C62_complete_partial, C62_complete_refuted, C62_detection_refuted
* C63: C63_groundstates, C63_exhaustive_partial, C63_comparison_partial, C63_comparison_refuted
* C64: C64_distribution, C64_total_partial, C64_nth_state, C64_degeneracy_refuted, C64_total_refuted
* C65: C65_equivalence
* C66: C66_no_positive, C66_two_states
* C67: C67_layout_implements_network_partial, C67_shared_outputs_partial, C67_high_degree_rejected, C67_equal_fanins_refuted, C67_operand_order_refuted, C67_tapped_output_refuted
* C68: C68_layout_is_clean_partial, C68_equal_fanins_refuted
* C69: C69_substitution_preserves_function_partial, C69_degree_one_refuted
* C70: C70_limits_hold_partial, C70_check_exact, C70_equal_fanins_refuted, C70_threshold_above_degree_refuted
* C71: C71_number_of_buffers, C71_fewest_buffers
* C72: C72_layout_of_source_partial, C72_creation_order, C72_shared_outputs_partial, C72_shared_outputs_refuted
* C73: C73_layout_of_source_clean_partial
* C74: C74_balancing_preserves_function, C74_no_outputs_refuted
* C75: C75_result_is_balanced, C75_check_exact_partial, C75_balanced_networks_pass, C75_dangling_refuted
* C76: C76_levels_exact, C76_added_level_partial, C76_added_depth_refuted
* C77: C77_virtual_inputs
* C78: C78_deletion_partial, C78_virtual_output_zero, C78_virtual_output_refuted
* C79: C79_no_miter, C79_miter_exact
* C80: C80_verdict, C80_strong_refuted
* C81: C81_substituted_outputs
* C82: C82_moore, C82_moore_2d, C82_von_neumann
* C83: C83_points, C83_grid_search, C83_terminates
* C84: C84_flood_fill, C84_schedule_independent, C84_simulated_once, C84_terminates, C84_once_refuted
* C85: C85_trace_ends_iff, C85_closed_curve, C85_ends_partial, C85_statuses, C85_isolated_refuted, C85_inferred_refuted
* C86: C86_statuses, C86_boundary
* C87: C87_graph, C87_crossings, C87_limit_refuted
* C88: C88_minimal_coloring, C88_common_color, C88_most_frequent, C88_validity_check, C88_descending_refuted, C88_empty_graph_refuted
* C89: C89_sound, C89_exact, C89_limit_refuted, C89_flat_refuted
* C90: C90_sound, C90_exact_partial, C90_unclocked, C90_fanout_refuted, C90_bridge_refuted, C90_loop_refuted
* C91: C91_applies, C91_cells, C91_hexagons, C91_aspect_ratio, C91_pins, C91_clock_numbers, C91_hexagon_clocks_refuted, C91_shifted_clocks_refuted
* C92: C92_rotations, C92_supported, C92_vias, C92_ports, C92_borders, C92_joined, C92_crossed, C92_separate, C92_pins, C92_conducts, C92_centre, C92_votes, C92_swap_refuted
* C93: C93_round_trip, C93_output_order, C93_topology, C93_three_phases_refuted, C93_crossing_clocks_refuted, C93_unused_refuted, C93_cleared_input_refuted, C93_unconnected_refuted, C93_output_order_refuted, C93_numbering_refuted
* C94: C94_round_trip, C94_vias, C94_modes_refuted, C94_constant_clock_refuted, C94_named_constant_refuted, C94_names_refuted, C94_line_feed_refuted, C94_dimensions_refuted, C94_vias_refuted, C94_labels_refuted
* C95: C95_accepts, C95_exceptions
* C96: C96_sound, C96_reach, C96_positive_refuted
* C97: C97_store, C97_store_total, C97_genuine, C97_move_refuted, C97_frame, C97_counts, C97_sum, C97_sum_refuted, C97_affected, C97_affected_signed, C97_all_affected, C97_all_affected_signed, C97_overwrite_refuted, C97_analysis, C97_analysis_fails
* C98: C98_create, C98_create_with, C98_invariant, C98_swap, C98_set_ranks, C98_set_all_ranks, C98_sort, C98_inputs, C98_foreach, C98_add, C98_check, C98_unused_refuted, C98_check_refuted, C98_create_pi_refuted
* C99: C99_mincross, C99_number, C99_current, C99_comparison, C99_outdated_refuted
* C100: C100_order, C100_all, C100_view, C100_twice_refuted
* C101: C101_pairs, C101_all_types, C101_unique, C101_deterministic, C101_operators, C101_ties_refuted, C101_logic_refuted, C101_greater_refuted
* C102: C102_convert, C102_technology, C102_unsupported_refuted
* C103: C103_states, C103_critical, C103_kinks_partial, C103_layout, C103_kinks_refuted
* C104: C104_clearance, C104_order, C104_position_refuted
* C105: C105_function, C105_counts, C105_total
* C106: C106_stats, C106_ratio

## 4. Modelled and not modelled

| file in include/fiction | modelled (file) | not modelled |
|---|---|---|
| layouts/coordinates.hpp | all three coordinate kinds, packing, comparisons, arithmetic, conversions, iteration, area, volume (CoordModel) | printing, hashing |
| layouts/cartesian_layout.hpp, hexagonal_layout.hpp | directions, adjacency, opposite coordinates, borders (GridModel) | templates over other coordinate types |
| layouts/clocking_scheme.hpp, clocked_layout.hpp, synchronization_element_layout.hpp | all predefined schemes, overrides, shared storage, in/out queries (ClockModel) | |
| layouts/gate_level_layout.hpp, tile_based_layout.hpp | nodes, tiles, creation, moving, connecting, clearing, counters, I/O, fan-in/out, data flow, node functions, simulation of one node (GateModel, CellModel) | events, simulation with kitty types, foreach with early exit |
| layouts/cell_level_layout.hpp, obstruction_layout.hpp, bounding_box.hpp | cell types, modes, names, I/O, obstructions, bounding boxes (CellModel) | |
| algorithms/iter/gray_code_iterator.hpp, aspect_ratio_iterator.hpp, utils/math_utils.hpp, combination_utils.hpp, stl_utils.hpp | all iterator operations, log/ceil/binomial, combinations and distributions, searches (UtilModel) | |
| algorithms/path_finding/* | distances, distance maps, costs, A*, enumeration, Yen (PathModel) | jump_point_search is not part of this commit |
| utils/routing_utils.hpp | is_crossable_wire, route_path, extract_routing_objectives, clear_routing (PathModel, RouteModel) | path collection classes |
| algorithms/properties/critical_path_length_and_throughput.hpp, algorithms/verification/design_rule_violations.hpp | all (RouteModel) | textual reports |
| algorithms/physical_design/hexagonalization.hpp, utils/placement_utils.hpp (place), utils/name_utils.hpp | default parameters (HexaModel) | pin extension modes, statistics |
| technology/charge_distribution_surface.hpp | charge states, charge indices, potentials, thresholds, energy, validity, defects, external potentials, dependent SiDB, Gray code stepping (SidbModel). Doubles are exact rationals; the potential between two positions is an arbitrary symmetric function that vanishes on the diagonal | copying of the base layout, distances, printing |
| algorithms/simulation/sidb/exhaustive_ground_state_simulation.hpp | all (SidbModel) | run time statistics |
| algorithms/simulation/sidb/quickexact.hpp | all of the algorithm (SidbModel) | layouts that are already charge distribution surfaces; run time statistics |
| algorithms/simulation/sidb/sidb_simulation_result.hpp, minimum_energy.hpp, calculate_energy_distribution.hpp, energy_distribution.hpp, is_ground_state.hpp, equivalence_check_for_simulation_results.hpp, can_positive_charges_occur.hpp | groundstates, minimum_energy, energy distribution, comparisons (ResultModel) | run time, additional parameters; the infinite minimum of an empty result |
| algorithms/physical_design/orthogonal.hpp, utils/placement_utils.hpp (reserve_input_nodes) | all of the algorithm on fan-out substituted networks in topological order (OrthoModel), composed with fan-out substitution (FlowModel) | constants, conversion to a technology network, statistics; restore_names is modelled as lists of names |
| algorithms/network_transformation/fanout_substitution.hpp | all on technology networks (FanoutModel) | conversion to a technology network, the order of the topological view (argument), restore_names |
| algorithms/network_transformation/network_balancing.hpp | all on technology networks (DepthModel) | conversion, restore_names; mockturtle's depth_view is taken to compute levels like static_depth_view |
| networks/views/static_depth_view.hpp | levels, depth, critical path, on_add (DepthModel) | complemented signals and registers (technology networks have none), copying and moving |
| networks/virtual_pi_network.hpp | virtual_pi_network (VirtModel) | clone; the identical functions for combinational inputs |
| algorithms/network_transformation/delete_virtual_pis.hpp | all (VirtModel) | names, rank views |
| algorithms/verification/virtual_miter.hpp | virtual_miter (VirtModel) | external don't cares; mockturtle's cleanup_dangling as copying |
| algorithms/verification/equivalence_checking.hpp | run (VirtModel) | the SAT solver is an argument; run time |
| networks/technology_network.hpp | also substitute_po_signals (VirtModel) | |
| algorithms/simulation/sidb/operational_domain.hpp | neighbourhoods, parallel simulation, grid search, random sampling, flood fill with its worker threads (OpDomModel); contour tracing, boundary surface, inference (ContourModel) | floating-point parameter values (step points are identified with parameter points), operational_domain_stats, physically valid parameters; whether a point is operational is an argument |
| algorithms/graph/generate_edge_intersection_graph.hpp | all (EpgModel) | runtime statistics |
| algorithms/graph/graph_coloring.hpp | the SAT engine with its three tactics, extraction, validity check, fallback to a heuristic (ColorModel, EpgModel) | the heuristic engines (vendors/graph-coloring) and the SAT solver (bill), which are arguments; clauses of Tseytin encodings are replaced by the formulas they stand for |
| algorithms/physical_design/color_routing.hpp | all (EpgModel) | runtime statistics |
| algorithms/physical_design/determine_clocking.hpp | all (DetclkModel) | runtime statistics, choice of the solver |
| algorithms/physical_design/apply_gate_library.hpp, utils/layout_utils.hpp (relative_to_absolute_cell_position), technology/fcn_gate_library.hpp | apply_gate_library, positions, gate transformations (LibModel) | parameterized libraries, defect surfaces, layout names, progress bars; other coordinate types than offset coordinates |
| technology/qca_one_library.hpp | set_up_gate, port routing, all gates set_up_gate can return, post_layout_optimization (LibModel) | the eight bent wires of the header that no function uses |
| io/write_fgl_layout.hpp, io/read_fgl_layout.hpp | write_fgl_layout, read_fgl_layout for Cartesian and hexagonal layouts, with mockturtle's topo_view (FglModel) | the characters of the file (tinyxml2), the meta data, shifted Cartesian layouts, gate types given by truth tables |
| io/write_fqca_layout.hpp, io/read_fqca_layout.hpp | write_fqca_layout, read_fqca_layout on the characters of the file (FqcaModel) | the streams and files, locales other than "C", std::regex itself (its five patterns are modelled as functions) |
| algorithms/simulation/sidb/quicksim.hpp, technology/charge_distribution_surface.hpp (adjacent_search) | all of the algorithm (QsimModel) | the data race on the static random number generator of adjacent_search; run time; surfaces with defects in the theorems |
| technology/sidb_defects.hpp, technology/sidb_defect_surface.hpp, technology/sidb_surface_analysis.hpp | all functions (DefectModel) | permittivity and screening distance are rationals; overflow of signed coordinates |
| networks/views/mutable_rank_view.hpp | all methods except the callbacks of iteration (RankModel) | event registration; removal of nodes |
| algorithms/graph/mincross.hpp | all (MincrossModel); medians are rounded by an arbitrary function, the convergence test is arbitrary | bound 2^64 of the total; mockturtle's fanout_view (its order of fan-outs is that of the gates) |
| networks/views/bfs_topo_view.hpp | all (BfsModel) | the specialization for networks already sorted (it forwards); mockturtle's fanout_view, which is taken to list each fan-out gate of a node once |
| algorithms/simulation/sidb/detect_bdl_pairs.hpp | all (BdlModel); distances are an arbitrary symmetric function into the rationals | floating-point rounding of sidb_nm_distance; wrap-around of 32-bit loop counters |
| algorithms/network_transformation/network_conversion.hpp | conversion between different types (ConvModel); technology networks as a destination | conversion to the same type (mockturtle cleanup_dangling); names; reference counters and events |
| algorithms/simulation/sidb/calculate_energy_and_state_type.hpp, occupation_probability_of_excited_states.hpp, critical_temperature.hpp | all but statistics (CritModel); the Boltzmann factor, the simulation engine and verify_logic_match are arbitrary | statistics, floating-point rounding, input patterns of bdl_input_iterator |
| algorithms/simulation/sidb/defect_clearance.hpp | all (ClearModel) | floating-point rounding of distances |
| networks/technology_network.hpp (creation functions, gate type tests, cache), algorithms/properties/count_gate_types.hpp | all but create_nary_* and clone_node (TallyModel) | layouts as inputs, progress bars |
| algorithms/simulation/sidb/operational_domain_ratio.hpp, operational_domain.hpp (log_stats) | all but the numbers of evaluated points and simulator invocations (RatioModel) | floating-point rounding |

## 5. Findings and limits per property

Where a property is false of the code, a theorem with suffix `_refuted` proves it with a concrete witness.

* **C03** (Coordinate iteration visits every coordinate of the layout exactly once and stops; proved): Holds for all layouts of width below 2^31; C03_max_width_never_terminates_refuted shows that at the maximal 31-bit width iteration does not terminate.
* **C04** (SiQAD and Cartesian cell coordinates convert back and forth without loss; proved): Round trip proved for live coordinates without saturation, saturation characterised; C04_dead_not_preserved_refuted: the conversion to SiQAD coordinates drops deadness.
* **C06** (Area and volume count the coordinates; proved): C06_siqad_ground_refuted: the ground iteration of SiQAD layouts stops after the first row.
* **C11** (Clock numbers are always valid phases; proved): Periodicity for non-negative coordinates; C11_negative_three_phase_refuted: three-phase schemes are not periodic across zero on signed coordinates.
* **C13** (Declared in/out degrees bound the actual degrees; partial): Proved for all Cartesian layouts and for all hexagonal pairs outside degree_exception; C13_hexagonal_refuted shows that every pair in degree_exception violates the declared degrees.
* **C14** (Linear clocking schemes admit no feedback; proved): Proved for all Cartesian layouts (the property) and extended to hexagonal ones; C14_hex_2ddwave3_refuted shows feedback for three-phase 2DDWave on hexagonal layouts.
* **C16** (Scheme lookup by name is case-insensitive and returns the scheme of that name; proved): C16_hex_on_cartesian_refuted: 2DDWAVEHEX3 on Cartesian layouts yields the four-phase 2DDWAVE.
* **C17** (Cloned layouts are independent; partial): Proved for all histories that assign clock numbers only after replacing the scheme; C17_clone_shares_clocking_refuted shows the full property is false: clones share the clocking scheme object.
* **C19** (Gate and wire counters are exact; proved): For histories that move no constant node; C19_constant_moved_refuted shows the exception.
* **C20** (The crossing counter is exact; partial): Proved for histories in which no gate ever shares its position with something in the other layer; C20_crossings_refuted shows that the counter drifts otherwise.
* **C21** (Fan-in and fan-out of a gate-level layout are dual; proved): Under clocking it needs clock numbers that do not depend on the layer; C21_layer_clocks_refuted shows that per-layer overrides break the duality.
* **C22** (Primary inputs and outputs are never lost or invented; partial): Proved for histories that never overwrite an occupied tile and place every node; C22_overwrite_refuted and C22_unplaced_refuted show that outputs are lost otherwise.
* **C24** (Reference counts never report a placed node dead; partial): Proved for histories without connect that never place a node where another node still points to; C24_underflow_refuted, C24_connect_refuted and C24_unplaced_refuted show the exceptions.
* **C27** (Deleting a cell removes all its attributes; partial): Type, mode and I/O role are removed; C27_name_survives_refuted shows that the name survives, so the full property is false.
* **C29** (Synchronization elements extend flow consistently; proved): C29_degree_refuted: degree() is not the documented sum of in- and out-degree when elements are present.
* **C30** (The bounding box is the smallest box enclosing all occupied coordinates; partial): Proved for cell-level layouts of all coordinate kinds, Cartesian defect surfaces and gate-level layouts with all nodes inside the bounds. C30_siqad_defects_refuted, C30_stale_sizes_refuted and C30_outside_refuted show where the full property is false.
* **C31** (Gray-code iteration flips exactly one bit per step and visits every code once; proved): C31_order_refuted: the order operators between iterators compare Gray codes rather than positions.
* **C32** (Aspect-ratio iteration enumerates exactly the factorisations; proved): For all areas up to 2^31 (dimensions fit into 31 bits). C32_order_refuted: < is not the iteration order and <= is not antisymmetric; C32_copies_refuted: copies and results of postfix increments point into the vector of the original.
* **C33** (binomial_coefficient computes C(n,k); proved): C33_overflow_refuted: the intermediate product overflows although the result fits; C33_diverges_refuted: the loop does not end for the largest arguments.
* **C34** (Combination enumeration is exact; partial): Proved for k > 0 and every n; C34_nothing_refuted: for k = 0 no combination is returned instead of the empty one.
* **C36** (Distance functions are lower bounds and caches are transparent; partial): Metric laws, lower bounds on Cartesian layouts, exactness of the 2DDWave distance and sparse maps are proved. C36_manhattan_hex_refuted: Manhattan overestimates on hexagonal layouts. C36_distance_map_refuted: the dense map is written out of bounds if the layout has a crossing layer (the partial theorem excludes that). C36_cache_refuted: the cache serves stale values after the layout changed (the partial theorem fixes the layout). C36_map_in_a_star_refuted: A* slices a map functor and uses distance 0.
* **C39** (A* paths are shortest; partial): C39_heap_refuted: with the standard library's heap and the default heuristic, A* returns a longer path than necessary on a 7x7 layout, because f values are lowered in place without restoring the heap. Proved: shortest with any queue that delivers a lowest entry (C39_lowest_first_partial), with the heap and a zero heuristic (C39_zero_partial), and on linear clocking schemes with any queue and heuristic (C39_linear_partial).
* **C41** (Yen's algorithm returns distinct loop-less valid paths and leaves obstructions untouched; partial): Proved if the source is not itself marked as obstructed. C41_source_refuted: such a mark is lost. C41_zero_refuted: k = 0 returns one path.
* **C42** (Creation functions compute the Boolean function they are named after; partial): Proved for all creation functions but the four comparisons, which C42_comparisons_refuted shows to compute the swapped comparison.
* **C43** (All cells of a tile are in the clock zone of the tile; proved): For non-negative coordinates (the property); C43_negative_refuted shows that it fails on signed ones.
* **C45** (find_first_two_of finds the first shared pair; proved): C45_empty_refuted: empty ranges are undefined behaviour.
* **C46** (Yen's algorithm returns k paths if there are k, and the shortest ones; partial): Proved on linear clocking schemes. C46_complete_refuted: on an unclocked 3x3 layout fewer than k paths are returned and a shorter path than a returned one is missed.
* **C47** (Design-rule check is exact; proved): For layouts without an output on the tile of constant 1. C47_constant_output_refuted: such an output has no place and is not reported.
* **C48** (Critical path length is the longest data path; partial): The length is proved exact whenever the computation ends. It ends on linear clocking schemes; C48_cyclic_refuted: it never ends on a feedback loop that passes all design-rule checks. Throughput: exact if all data enters in one clock phase (C48_throughput_partial), 1 if balanced.
* **C50** (clear_routing removes exactly the routing; partial): Proved for layouts built without connect() whose fan-out wires are older than what they feed. C50_routed_refuted: the last wire of a route laid by route_path is not removed (connect does not count references). C50_order_refuted: a younger fan-out wire is removed.
* **C51** (Routing objectives are exact; proved): Completeness for layouts in which no wire has two drivers; C51_two_drivers_refuted shows that this is needed.
* **C54** (Hexagonalization preserves the circuit; proved): Default parameters (no pin extension). The input class is the record convertible (HexaSpec.v). Outside of it the code silently returns a different circuit: C54_output_fanout_refuted (an output that also drives a tile), C54_majority_refuted (gates with three inputs vanish), C54_crossing_layer_refuted (crossing-layer node left of the ground layer wraps around).
* **C58** (Reported validity is physical validity; partial): Proved for external potentials that are equal at all SiDBs. C58_validity_refuted: with a local external potential the hop energy counts the external potential twice, and a distribution is reported valid although a hop lowers the energy. C58_population: the population part holds for all external potentials.
* **C60** (Reported energy is the electrostatic energy; partial): Proved for defects with the permittivity and screening length of the simulation. C60_energy_refuted: with other material parameters, the reported energy differences are not the energy differences (half of the defect interaction is computed with the parameters of the defect, half with those of the simulation).
* **C61** (QuickExact is sound; partial): C61_sound: without local external potentials, every result is physically valid and there is no undefined behaviour. C61_energy_partial: the stored energies, except for all-negative results under a global external potential without automatic base number detection. Refuted: C61_local_potential_refuted (a local potential at a certainly negative SiDB is written out of bounds), C61_single_refuted (one SiDB, global potential, detection off: an invalid distribution is reported), C61_energy_refuted (detection off, all SiDBs certainly negative: the stored energy ignores the global potential).
* **C62** (QuickExact is complete; partial): Completeness is proved for distributions whose neutral SiDBs are not within the numerical tolerance of a transition level, uniqueness without restriction. C62_complete_refuted: a valid distribution within the tolerance is not found although the exhaustive simulation finds it. C62_detection_refuted: with base number 2 and automatic detection, the ground state with one positive SiDB is missed.
* **C63** (Ground states; partial): C63_groundstates: all results. C63_exhaustive_partial: defects with the material parameters of the simulation. C63_comparison_partial: is_ground_state for results with the same base number. C63_comparison_refuted: QuickExact with automatic base number detection and the exhaustive simulation return the same distributions and energies, but is_ground_state is false because the charge indices are in different bases.
* **C64** (Energy distribution; partial): C64_distribution: entries, energies and order for all results. C64_total_partial: the numbers add up if different energies differ by the tolerance at least. C64_total_refuted: otherwise a distribution may be counted twice. C64_degeneracy_refuted: degeneracy(e) returns the position of the energy, not the number of states.
* **C67** (Orthogonal physical design implements the network; partial): Proved for networks whose gates are symmetric with two different fan-ins and whose outputs are used for nothing else (C67_layout_implements_network_partial), or, more generally, for which no output has to leave an eastern node towards the south (C67_shared_outputs_partial). The rest is false of the code: C67_equal_fanins_refuted (a gate reads its own tile), C67_operand_order_refuted (lt/gt/le/ge get their operands in tile order), C67_tapped_output_refuted (wires of an output overwrite others). Constants are not modelled. C67_high_degree_rejected: the exception for gates with more than two fan-ins is thrown exactly then.
* **C68** (Orthogonal layouts obey the design rules; partial): Same restrictions as C67, and every input is used; C68_equal_fanins_refuted shows that gates with equal fan-ins give violations.
* **C69** (Fan-out substitution preserves the network's functions; partial): Proved for degrees of at least 2 (any threshold, any strategy) and counters below 2^31. For degree 1 it is false: C69_degree_one_refuted (front of an empty queue). The converted source network and the order of its topological view are arguments of the model.
* **C70** (Fan-out substitution keeps its limits, and the check is exact; partial): Limits proved for degree >= 2, 1 <= threshold <= degree and gates without repeated fan-ins. The rest is false of the code: C70_equal_fanins_refuted, C70_threshold_above_degree_refuted. C70_check_exact: the check is exact for all networks (degree and threshold at least 1).
* **C72** (orthogonal lays out the network it is given; partial): Proved for networks of buffers, inverters and symmetric two-input gates with two different fan-ins and without constants, in which every gate is used and outputs are used for nothing else; fan-outs are unrestricted. C72_shared_outputs_partial relaxes the condition on outputs. In general it is false of the code: C72_shared_outputs_refuted (an output that is used elsewhere gets a wrong function), and the other counterexamples of C67. The listing by the topological view is any topological one.
* **C73** (orthogonal's layouts of arbitrary networks pass the design rule check; partial): As C72: proved for networks of buffers, inverters and symmetric two-input gates with two different fan-ins, without constants, in which every gate and input is used and outputs are used for nothing else. C68_equal_fanins_refuted shows that repeated fan-ins break the rules.
* **C74** (Balancing keeps the function of a network; proved): For networks with at least one output; the gates of the topological view are those that outputs depend on, and inputs and gates can be counted in 32 bits. Without outputs the largest of no levels is dereferenced (C74_no_outputs_refuted).
* **C75** (Balancing makes all paths equally long, and is_balanced checks exactly that; partial): Balancing: proved in full (C75_result_is_balanced, C75_balanced_networks_pass). The check is exact for networks without dangling gates (C75_check_exact_partial) and wrong otherwise: a gate that nothing depends on has level 0, and the difference of levels wraps around (C75_dangling_refuted).
* **C76** (Levels, depth and critical path of a depth view are exact; partial): Exact after construction and update_levels, for sums of costs below 2^32; nodes that no output depends on have no level (level throws). on_add gives a new gate its level (C76_added_level_partial) but counts new inputs as gates in the depth (C76_added_depth_refuted).
* **C77** (Virtual inputs always belong to real inputs; proved): For sequences of calls that meet the assertion of create_virtual_pi (the given node is a real input).
* **C78** (Deleting virtual inputs keeps the function; partial): Proved unless a virtual input drives an output directly: such outputs are not remapped and become the constant 0 (C78_virtual_output_zero, C78_virtual_output_refuted).
* **C79** (A miter is 1 exactly where two networks differ; proved): For networks in which virtual inputs do not drive outputs directly (see C78). Copying of networks into the miter is modelled after what mockturtle documents.
* **C80** (The verdict of equivalence checking is right; partial): Proved for every solver whose answers are right (C80_verdict); with a logic network as specification the documented meaning of STRONG and WEAK holds (C80_network_specification). For two layouts STRONG only means equal throughputs: two layouts with throughput 1/2 are called strongly equivalent, contrary to the documentation (C80_strong_refuted).
* **C81** (Every output gets a buffer of its own; proved): For technology networks whose fan-ins precede their gates, which creation calls guarantee.
* **C82** (Neighbourhoods of sample points are complete; proved): Step points only; the map from steps to parameter values is arithmetic on doubles and not modelled.
* **C83** (Grid search simulates every point once on any number of threads; proved): Threads are interleaved at the granularity of the mutex-free hash map operations; whether a point is operational is an arbitrary function.
* **C84** (Flood fill finds whole regions whatever the schedule; partial): Everything is proved for pairwise distinct samples. If a given starting point is also drawn as a random sample, two threads may simulate it both, contrary to the documentation (C84_once_refuted).
* **C85** (Two-dimensional contour tracing; partial): The trace of a contour ends exactly if its starting point has an operational neighbour (C85_trace_ends_iff); on an isolated operational point contour tracing never ends (C85_isolated_refuted). The trace stops on returning to its starting point even if the contour goes on, after which non-operational points may be inferred to be operational (C85_inferred_refuted).
* **C86** (Boundary surfaces in three and more dimensions; proved): Boundary and inference claims assume, as the documentation does, regions without holes (hole_free in OpDomSpec.v).
* **C87** (Edge intersection graphs list all routes and all conflicts; partial): Exact for all paths (with and without crossings) and for limited numbers of paths with crossings. With a limit and without crossings, conflicts between objectives are overlooked (C87_limit_refuted). The ends of objectives must be occupied and different.
* **C88** (SAT-based coloring is proper and minimal; partial): Proper, minimal and complete for all tactics; with the frequency constraint for the ascending and the binary tactic. The descending tactic dereferences a null pointer if the constraint cannot be met (C88_descending_refuted) and does not return on the empty graph (C88_empty_graph_refuted). The SAT solver is an argument assumed to be right.
* **C89** (Color routing lays disjoint routes and finds a complete routing if there is one; partial): Sound for all engines and exact for the SAT engine, without crossings and without a path limit. With a path limit crossings are used although they are not allowed (C89_limit_refuted). With crossings on a layout of one layer a later route overwrites an earlier one (C89_flat_refuted). Missing: soundness with crossings on layouts of two layers.
* **C90** (Determining clock numbers makes data flow along every connection, or proves that no clocking can; partial): Sound for all layouts whose crossing layer holds wires only. Exact if nothing is above empty tiles and the old clocking, which should be disregarded, is absent (C90_unclocked) or neither branches nor loops (C90_exact_partial). Otherwise it is not: C90_fanout_refuted, C90_bridge_refuted, C90_loop_refuted.
* **C91** (Applying a gate library shows every gate on its tile, and nothing else; partial): All of it on Cartesian layouts. On shifted Cartesian layouts all but the clock numbers, on hexagonal layouts cells are exact wherever at most one gate has a cell (the tiles overlap). Clock numbers of cells are wrong on both: C91_hexagon_clocks_refuted, C91_shifted_clocks_refuted.
* **C92** (QCA ONE realises gates, and the connections between them, on the cell level; partial): All of it, except that connections between layers have a via only if no wire passes the same side of the crossing layer; otherwise signals are swapped on a layout without design rule violations (C92_swap_refuted). C92_separate is for layouts without crossing layer.
* **C93** (A gate-level layout written to an FGL file is read back unchanged; partial): All of it for clocking schemes that are the ones known by their names, with clock numbers changed in the ground layer. Otherwise layouts do not survive: three-phase schemes become four-phase ones, clock numbers of the crossing layer are lost, gates that lead to no output are lost, cleared inputs reappear, gates without incoming signals make the reader throw, and a file that numbers gates in another order is read without the connections (the _refuted theorems). Gates with other functions than the named ones, and shifted Cartesian layouts, are not modelled.
* **C94** (A cell-level QCA layout written to an FQCA file is read back with the same cells; proved): The statement as listed. The file does not keep more: modes, clock numbers of constants, white space in names, names of constants (which come back as normal cells), empty columns and rows at the far ends; line feeds in names make it unreadable, a 53rd labelled cell makes the writer throw, and with vias the crossing layer overwrites the ground layer in coordinates with one layer bit (the _refuted theorems).
* **C96** (QuickSim returns physically valid charge distributions only and can find each one with negative and neutral SiDBs; proved): The statement as listed. C96_positive_refuted: the distribution of the lowest energy is out of reach if it has a positively charged SiDB. Not modelled: the data race on the random number generator that all threads share.
* **C97** (Defect surfaces store, count and locate defects faithfully, and the black list names exactly the gates that defects compromise; proved): The statement as listed, for surfaces with offset coordinates below 2^31 - 2^16 (C97_affected_signed: with signed coordinates also negative positions are reported). C97_move_refuted: a defect moved onto itself or onto another one is lost. C97_sum_refuted: a dangling bond without a charge is counted neither as charged nor as neutral. C97_overwrite_refuted: only 16 bits of an overwritten distance count.
* **C98** (Rank views hold every input and gate at its level, whatever is reordered or added; proved): The statement as listed for networks all of whose inputs and gates are used; of other networks no view can be made (C98_create, C98_unused_refuted). Added nodes are announced by on_add, as network events do. C98_check_refuted: check_validity does not notice missing nodes. C98_create_pi_refuted: an input made by create_pi of the view itself is not ranked, and listing the inputs then throws.
* **C99** (Crossing minimization permutes ranks, counts exactly and never adds crossings; proved): The statement as listed (C99_mincross); C99_current says which calls leave a view up to date. The total of crossings is not bounded by 2^64 in the model. C99_outdated_refuted: after adding an input to a view of a network without gates, counting reads a rank that does not exist unless the ranks are updated first.
* **C100** (Breadth-first topological views list nodes once, after their fan-ins and by levels; proved): The statement as listed (C100_order, C100_all, C100_view). C100_twice_refuted: a gate that has a fan-in twice is not listed and nothing that depends on it is, because its fan-ins are counted by edges but reported once per distinct fan-in.
* **C101** (BDL pairs are disjoint, within the given distances, and the closest dots are paired; proved): The statement as listed. Distances are an arbitrary symmetric function into the rationals. C101_ties_refuted: with equal distances the result depends on the order of visits. C101_logic_refuted: without a type, pairs of logic dots are left out although the documentation promises all types. C101_greater_refuted: two pairs that differ only in type are each greater than the other.
* **C102** (Network conversion preserves inputs, outputs and functions; proved): The statement as listed. C102_unsupported_refuted: a gate that the destination cannot build (no create_node) is silently replaced by the default signal, constant 0.
* **C103** (State types and the critical temperature of a gate are exact; partial): Proved as listed with kinks accepted (C103_states, C103_critical) and for layouts that are no gates (C103_layout; a state counts as excited if its energy, rounded to microelectronvolts, is more than one above the lowest, as in the code), for energies that are equal or further apart than the error margin. With kinks rejected it is false (C103_kinks_refuted): wrong states are listed as accepted as well, so a gate whose only state is wrong does not get 0; C103_kinks_partial proves it for patterns all of whose states match the logic. The Boltzmann factor is an arbitrary function of energy and temperature; rounding of doubles is not modelled.
* **C104** (Defect clearance is the largest distance at which a defect still has influence; proved): The statement as listed; distances are an arbitrary function into the rationals. C104_position_refuted: without the condition, a domain whose only influential position is that of a cell gets the default position, which need not be influential.
* **C105** (Gates of technology networks have the functions they were made with, and are counted by them; proved): The statement as listed. The cache and the first ten cached functions belong to mockturtle, whose source is not available here: they are an assumption of the model, checked only against the numbers in the repository's gate type tests. xor3 has a creation function and a test but no counter, and is counted as other.
* **C106** (The operational ratio is the share of operational points connected with the given point; proved): The statement as listed, on the flood fill of C84; the quotient is exact instead of a rounded double.

## 6. Further findings

Noticed while modelling; each is visible in the model.

* `gate_level_layout(const ClockedLayout&)` (lines 215-221) does not initialise the truth table cache, unlike the other constructors.
* `clear_tile` on the tile of a constant loses the mapping of constant 1.
* `twoddwave_distance` reports 2^32-1 as infinite distance, which is a finite number for the searches that use it.
* The critical path computation sorts the incoming paths by length but subtracts their delays.
* Yen's algorithm removes the obstruction of its source while searching.
* `hexagonalization` computes `x + y` in `int`: layouts with `x + y >= 2^31` overflow.
* `charge_distribution_surface::operator=` copies the storage but not the base layout (lines 402-410).
* `assign_physical_parameters` with another base number leaves the charge index of the old base behind.
* A local external potential on a position that is neither SiDB nor charged defect is written out of bounds (`update_local_external_potential` uses `cell_to_index` without check).
* `is_ground_state` compares charge indices that may be numbers in different bases (C63_comparison_refuted); `energy_distribution::degeneracy` returns the position of an energy instead of its number of states (C64_degeneracy_refuted).
* `orthogonal` accepts networks it cannot lay out: gates with two equal fan-ins, comparison gates with fan-ins in the wrong order, and outputs leaving eastern nodes to the south (C67 refutations). In all three cases it returns a layout of a different circuit without an error.
* `fanout_substitution` accepts degree 1, for which it reads the front of an empty queue (C69_degree_one_refuted), and gives a buffer too many outputs if a gate has the same fan-in twice (C70_equal_fanins_refuted), so that `is_fanout_substituted` rejects its result.
* `network_balancing` dereferences the maximum of an empty vector for networks without outputs (C74_no_outputs_refuted); `is_balanced` computes `0 - 0 - 1` in unsigned arithmetic for gates nothing depends on and rejects balanced networks (C75_dangling_refuted); `static_depth_view::on_add` raises the depth for inputs (C76_added_depth_refuted).
* `delete_virtual_pis` does not remap outputs: an output driven by a virtual input becomes the constant 0 (C78_virtual_output_refuted). `equivalence_checking` calls two layouts of equal throughput 1/x strongly equivalent although the documentation requires 1/1 (C80_strong_refuted).
* `operational_domain_contour_tracing` never ends if a sampled operational point has no operational neighbour (C85_isolated_refuted): the loop waits for the trace to come back to its start, but the trace never leaves it. If the start is a cut point of the contour, the trace stops early and the inference leaks out of the region (C85_inferred_refuted). `operational_domain_flood_fill` may simulate a given starting point twice (C84_once_refuted).
* `generate_edge_intersection_graph` with a path limit and without crossings misses all conflicts between objectives (C87_limit_refuted): the paths found by `yen_k_shortest_paths` are filled without `append`, so the set that `has_intersection_with` looks coordinates up in stays empty.
* The linearly descending tactic of the SAT coloring dereferences a null pointer if already |V| colors do not satisfy the frequency constraint (C88_descending_refuted) and counts below zero on an empty graph (C88_empty_graph_refuted). The lexicographic symmetry breaking constraints are tautologies (lexicographical_holds in ColorProofs.v): v2 runs up to v1 and c2 starts below c1.
* `color_routing` inherits the fault of the limited edge intersection graph: with a path limit and crossings switched off, it lays crossing routes (C89_limit_refuted). With crossings on a layout with one layer, `route_path` has no layer to move to and overwrites the wire of an earlier route, yet success is reported (C89_flat_refuted).
* `determine_clocking` breaks the symmetry by counting clock numbers up along a depth-first search of the fan-outs of the first input under the *old* clocking, one count for all branches. A layout that is already clocked and whose first input has two fan-outs is thus reported not to be clockable (C90_fanout_refuted), and on a clocked loop the search never ends (C90_loop_refuted). A wire in the crossing layer above an empty tile is tied to variable 0, so that the layout is reported not to be clockable (C90_bridge_refuted).
* Cell-level layouts made from hexagonal or shifted Cartesian gate-level layouts look up clock numbers by dividing by the tile size, as if tiles were not interleaved: C91_hexagon_clocks_refuted, C91_shifted_clocks_refuted.
* QCA ONE places vias where a wire of the crossing layer ends in *cells*. Where two wires change layers in opposite directions at the same place, neither ends, and the signals are swapped although design rule checking finds nothing: C92_swap_refuted.
* FGL files name the clocking scheme without its number of phases, so a layout on three-phase 2DDWAVE clocking is read back with four phases: C93_three_phases_refuted. Clock numbers of the crossing layer are not written: C93_crossing_clocks_refuted. What does not lead to an output is not written: C93_unused_refuted. Inputs whose tiles were cleared are written with the coordinates of the dead tile and come back on tile (0,0,0): C93_cleared_input_refuted. A gate with no incoming data is written, but the reader refuses the file: C93_unconnected_refuted. Outputs that drive earlier outputs change places: C93_output_order_refuted. A file whose identifiers are not in topological order is read without an error and without its connections: C93_numbering_refuted.
* The reader takes the *character code* of the clock number of a zone. The result is right only because 48 is a multiple of 3 and of 4.
* FQCA files hold neither modes nor clock numbers of constants, and the reader removes all white space, also from names: C94_modes_refuted, C94_constant_clock_refuted, C94_names_refuted. A constant with a name is written as a label and comes back as a normal cell: C94_named_constant_refuted. Writing layouts with vias and reading them with offset coordinates (one layer bit) puts the crossing layer onto the ground layer: C94_vias_refuted. Line feeds in names make files unreadable: C94_line_feed_refuted.
* `quicksim` never finds distributions with positively charged SiDBs, also if they have the lowest energy: C96_positive_refuted. All its threads draw from the function-local static generator of `adjacent_search` without synchronization, which is a data race. Its check of the distribution with all SiDBs neutral runs only if some SiDB is certainly negative, in which case it cannot be valid.
* `sidb_defect_surface::move_sidb_defect` inserts without overwriting and then erases the source: a defect that is moved onto itself, or onto another defect, is lost (C97_move_refuted). A dangling bond, vacancy or arsenic defect with charge 0 counts neither as charged nor as neutral (C97_sum_refuted). `all_affected_sidbs` and `sidb_surface_analysis` take 64-bit distances, but only 16 bits of them are used (C97_overwrite_refuted).
* `mutable_rank_view` cannot be made of a network with an unused input or gate: such a node has no level (C98_unused_refuted). Its `create_pi` announces nothing although its comment says so; `foreach_pi` then throws (C98_create_pi_refuted). `check_validity` does not notice nodes that given ranks lack (C98_check_refuted).
* `mincross`: after adding an input to a rank view of a network without gates the depth is 1 but there is one rank, and counting crossings reads out of bounds (C99_outdated_refuted); `update_ranks` repairs this (C99_current). `transpose_step` works on a copy of the rank that its own swaps do not change, so it may exchange nodes that are not neighbours, and `r + 1 < depth()` leaves out the crossings with the last rank; both affect only the quality of the result (C99_mincross).
* `bfs_topo_view` counts the fan-ins of a gate by edges, but a gate appears once among the fan-outs of a node. A gate that has a fan-in twice therefore never becomes ready: it and all that depends on it are missing from the order (C100_twice_refuted).
* `detect_bdl_pairs`: with equal distances the result depends on the order in which the hash set of cells is visited (C101_ties_refuted). If no type is given, pairs of logic dots are not reported (C101_logic_refuted). `bdl_pair::operator>` is the negation of `operator<=`, which compares types too, whereas `operator<` ignores them: two pairs that differ only in type are each greater than the other (C101_greater_refuted).
* `convert_network`: a gate that is none of the known ones is dropped without an error if the destination has no `create_node`; everything that depends on it reads the default signal instead (C102_unsupported_refuted).
* `calculate_energy_and_state_type_with_kinks_rejected` lists every state as accepted before it is checked, lists a wrong state a second time as rejected, and then skips all other charge distributions of the same energy. A gate whose only state is wrong therefore gets a critical temperature above 0 (C103_kinks_refuted).
* `calculate_energy_and_state_type_with_kinks_accepted` reads a positively charged output dot as 1, like a negatively charged one; `critical_temperature_gate_based` excludes positive charges beforehand.
* `calculate_defect_clearance`: if all influential positions have distance 0, the default-constructed position is reported, which need not be influential (C104_position_refuted).
