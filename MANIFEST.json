{
 "claims": [
  {
   "property": "C01",
   "status": "proved",
   "theorems": [
    "C01_packing_lossless",
    "C01_packing_layout",
    "C01_get_dead"
   ],
   "note": ""
  },
  {
   "property": "C02",
   "status": "proved",
   "theorems": [
    "C02_strict_total_order",
    "C02_ranking"
   ],
   "note": ""
  },
  {
   "property": "C03",
   "status": "proved",
   "theorems": [
    "C03_iteration_exact",
    "C03_iteration_range",
    "C03_max_width_never_terminates_refuted"
   ],
   "note": "Holds for all layouts of width below 2^31; C03_max_width_never_terminates_refuted shows that at the maximal 31-bit width iteration does not terminate."
  },
  {
   "property": "C04",
   "status": "proved",
   "theorems": [
    "C04_siqad_roundtrip",
    "C04_siqad_saturates",
    "C04_dead_not_preserved_refuted"
   ],
   "note": "Round trip proved for live coordinates without saturation, saturation characterised; C04_dead_not_preserved_refuted: the conversion to SiQAD coordinates drops deadness."
  },
  {
   "property": "C05",
   "status": "proved",
   "theorems": [
    "C05_siqad_arithmetic",
    "C05_sub_add"
   ],
   "note": ""
  },
  {
   "property": "C06",
   "status": "proved",
   "theorems": [
    "C06_volume_counts",
    "C06_area_counts_ground",
    "C06_siqad_area_counts",
    "C06_siqad_ground_refuted"
   ],
   "note": "C06_siqad_ground_refuted: the ground iteration of SiQAD layouts stops after the first row."
  },
  {
   "property": "C07",
   "status": "proved",
   "theorems": [
    "C07_directions",
    "C07_inverse",
    "C07_borders"
   ],
   "note": ""
  },
  {
   "property": "C08",
   "status": "proved",
   "theorems": [
    "C08_adjacency",
    "C08_symmetric_irreflexive",
    "C08_opposites",
    "C08_elevation"
   ],
   "note": ""
  },
  {
   "property": "C09",
   "status": "proved",
   "theorems": [
    "C09_cube_roundtrip",
    "C09_cube_geometry",
    "C09_offset_roundtrip"
   ],
   "note": ""
  },
  {
   "property": "C10",
   "status": "proved",
   "theorems": [
    "C10_adjacency",
    "C10_symmetric_irreflexive",
    "C10_directions",
    "C10_opposites"
   ],
   "note": ""
  },
  {
   "property": "C11",
   "status": "proved",
   "theorems": [
    "C11_valid_phase",
    "C11_valid_phase_history",
    "C11_periodic",
    "C11_linear_waves",
    "C11_negative_three_phase_refuted"
   ],
   "note": "Periodicity for non-negative coordinates; C11_negative_three_phase_refuted: three-phase schemes are not periodic across zero on signed coordinates."
  },
  {
   "property": "C12",
   "status": "proved",
   "theorems": [
    "C12_flow_exact",
    "C12_directed"
   ],
   "note": ""
  },
  {
   "property": "C13",
   "status": "partial",
   "theorems": [
    "C13_degrees_bounded_partial",
    "C13_cartesian",
    "C13_hexagonal_refuted"
   ],
   "note": "Proved for all Cartesian layouts and for all hexagonal pairs outside degree_exception; C13_hexagonal_refuted shows that every pair in degree_exception violates the declared degrees."
  },
  {
   "property": "C14",
   "status": "proved",
   "theorems": [
    "C14_linear_names",
    "C14_acyclic",
    "C14_path_length",
    "C14_hex_2ddwave3_refuted"
   ],
   "note": "Proved for all Cartesian layouts (the property) and extended to hexagonal ones; C14_hex_2ddwave3_refuted shows feedback for three-phase 2DDWave on hexagonal layouts."
  },
  {
   "property": "C15",
   "status": "proved",
   "theorems": [
    "C15_last_write_wins",
    "C15_std_schemes_clean"
   ],
   "note": ""
  },
  {
   "property": "C16",
   "status": "proved",
   "theorems": [
    "C16_lookup",
    "C16_hex_on_cartesian_refuted"
   ],
   "note": "C16_hex_on_cartesian_refuted: 2DDWAVEHEX3 on Cartesian layouts yields the four-phase 2DDWAVE."
  },
  {
   "property": "C17",
   "status": "partial",
   "theorems": [
    "C17_clone_independent_partial",
    "C17_clone_shares_clocking_refuted"
   ],
   "note": "Proved for all histories that assign clock numbers only after replacing the scheme; C17_clone_shares_clocking_refuted shows the full property is false: clones share the clocking scheme object."
  },
  {
   "property": "C18",
   "status": "proved",
   "theorems": [
    "C18_bijection",
    "C18_range"
   ],
   "note": ""
  },
  {
   "property": "C19",
   "status": "proved",
   "theorems": [
    "C19_counters",
    "C19_is_empty",
    "C19_constant_moved_refuted"
   ],
   "note": "For histories that move no constant node; C19_constant_moved_refuted shows the exception."
  },
  {
   "property": "C20",
   "status": "partial",
   "theorems": [
    "C20_crossings_partial",
    "C20_crossings_refuted"
   ],
   "note": "Proved for histories in which no gate ever shares its position with something in the other layer; C20_crossings_refuted shows that the counter drifts otherwise."
  },
  {
   "property": "C21",
   "status": "proved",
   "theorems": [
    "C21_duality",
    "C21_fanout_sound",
    "C21_layer_clocks_refuted"
   ],
   "note": "Under clocking it needs clock numbers that do not depend on the layer; C21_layer_clocks_refuted shows that per-layer overrides break the duality."
  },
  {
   "property": "C22",
   "status": "partial",
   "theorems": [
    "C22_io_exact_partial",
    "C22_overwrite_refuted",
    "C22_unplaced_refuted"
   ],
   "note": "Proved for histories that never overwrite an occupied tile and place every node; C22_overwrite_refuted and C22_unplaced_refuted show that outputs are lost otherwise."
  },
  {
   "property": "C23",
   "status": "proved",
   "theorems": [
    "C23_move"
   ],
   "note": ""
  },
  {
   "property": "C24",
   "status": "partial",
   "theorems": [
    "C24_alive_iff_placed_partial",
    "C24_foreach_partial",
    "C24_underflow_refuted",
    "C24_connect_refuted",
    "C24_unplaced_refuted"
   ],
   "note": "Proved for histories without connect that never place a node where another node still points to; C24_underflow_refuted, C24_connect_refuted and C24_unplaced_refuted show the exceptions."
  },
  {
   "property": "C25",
   "status": "proved",
   "theorems": [
    "C25_clear"
   ],
   "note": ""
  },
  {
   "property": "C26",
   "status": "proved",
   "theorems": [
    "C26_last_assignment_counts",
    "C26_enumerations"
   ],
   "note": ""
  },
  {
   "property": "C27",
   "status": "partial",
   "theorems": [
    "C27_delete_partial",
    "C27_name_survives_refuted"
   ],
   "note": "Type, mode and I/O role are removed; C27_name_survives_refuted shows that the name survives, so the full property is false."
  },
  {
   "property": "C28",
   "status": "proved",
   "theorems": [
    "C28_coordinates_gate",
    "C28_coordinates_cell",
    "C28_plain",
    "C28_connections_gate"
   ],
   "note": ""
  },
  {
   "property": "C29",
   "status": "proved",
   "theorems": [
    "C29_elements_history",
    "C29_flow",
    "C29_degree_refuted"
   ],
   "note": "C29_degree_refuted: degree() is not the documented sum of in- and out-degree when elements are present."
  },
  {
   "property": "C30",
   "status": "partial",
   "theorems": [
    "C30_cells",
    "C30_sizes",
    "C30_defects",
    "C30_siqad_defects_partial",
    "C30_siqad_defects_refuted",
    "C30_gates",
    "C30_empty",
    "C30_stale_sizes_refuted",
    "C30_outside_refuted"
   ],
   "note": "Proved for cell-level layouts of all coordinate kinds, Cartesian defect surfaces and gate-level layouts with all nodes inside the bounds. C30_siqad_defects_refuted, C30_stale_sizes_refuted and C30_outside_refuted show where the full property is false."
  },
  {
   "property": "C31",
   "status": "proved",
   "theorems": [
    "C31_one_bit_per_step",
    "C31_every_code_once",
    "C31_position_decides",
    "C31_moves_cancel",
    "C31_order_refuted"
   ],
   "note": "C31_order_refuted: the order operators between iterators compare Gray codes rather than positions."
  },
  {
   "property": "C32",
   "status": "proved",
   "theorems": [
    "C32_enumerates",
    "C32_start_zero",
    "C32_order_refuted",
    "C32_copies_refuted"
   ],
   "note": "For all areas up to 2^31 (dimensions fit into 31 bits). C32_order_refuted: < is not the iteration order and <= is not antisymmetric; C32_copies_refuted: copies and results of postfix increments point into the vector of the original."
  },
  {
   "property": "C33",
   "status": "proved",
   "theorems": [
    "C33_binomial",
    "C33_symmetric",
    "C33_overflow_refuted",
    "C33_diverges_refuted"
   ],
   "note": "C33_overflow_refuted: the intermediate product overflows although the result fits; C33_diverges_refuted: the loop does not end for the largest arguments."
  },
  {
   "property": "C34",
   "status": "partial",
   "theorems": [
    "C34_choices_partial",
    "C34_nothing_refuted"
   ],
   "note": "Proved for k > 0 and every n; C34_nothing_refuted: for k = 0 no combination is returned instead of the empty one."
  },
  {
   "property": "C35",
   "status": "proved",
   "theorems": [
    "C35_positions",
    "C35_members",
    "C35_once"
   ],
   "note": ""
  },
  {
   "property": "C36",
   "status": "partial",
   "theorems": [
    "C36_metrics",
    "C36_squared_euclidean",
    "C36_manhattan_bound",
    "C36_manhattan_permitted",
    "C36_manhattan_hex_refuted",
    "C36_twoddwave_exact",
    "C36_distance_map_partial",
    "C36_distance_map_refuted",
    "C36_sparse_map",
    "C36_cache_partial",
    "C36_cache_refuted",
    "C36_map_in_a_star_refuted"
   ],
   "note": "Metric laws, lower bounds on Cartesian layouts, exactness of the 2DDWave distance and sparse maps are proved. C36_manhattan_hex_refuted: Manhattan overestimates on hexagonal layouts. C36_distance_map_refuted: the dense map is written out of bounds if the layout has a crossing layer (the partial theorem excludes that). C36_cache_refuted: the cache serves stale values after the layout changed (the partial theorem fixes the layout). C36_map_in_a_star_refuted: A* slices a map functor and uses distance 0."
  },
  {
   "property": "C37",
   "status": "proved",
   "theorems": [
    "C37_a_star_valid",
    "C37_a_star_ground",
    "C37_heap_is_queue"
   ],
   "note": ""
  },
  {
   "property": "C38",
   "status": "proved",
   "theorems": [
    "C38_a_star_complete",
    "C38_a_star_ground",
    "C38_a_star_distance"
   ],
   "note": ""
  },
  {
   "property": "C39",
   "status": "partial",
   "theorems": [
    "C39_heap_refuted",
    "C39_lowest_first_partial",
    "C39_zero_partial",
    "C39_linear_partial"
   ],
   "note": "C39_heap_refuted: with the standard library's heap and the default heuristic, A* returns a longer path than necessary on a 7x7 layout, because f values are lowered in place without restoring the heap. Proved: shortest with any queue that delivers a lowest entry (C39_lowest_first_partial), with the heap and a zero heuristic (C39_zero_partial), and on linear clocking schemes with any queue and heuristic (C39_linear_partial)."
  },
  {
   "property": "C40",
   "status": "proved",
   "theorems": [
    "C40_enumerates",
    "C40_enumerates_ground"
   ],
   "note": ""
  },
  {
   "property": "C41",
   "status": "partial",
   "theorems": [
    "C41_yen_partial",
    "C41_yen_ground_partial",
    "C41_source_refuted",
    "C41_zero_refuted"
   ],
   "note": "Proved if the source is not itself marked as obstructed. C41_source_refuted: such a mark is lost. C41_zero_refuted: k = 0 returns one path."
  },
  {
   "property": "C42",
   "status": "partial",
   "theorems": [
    "C42_functions_partial",
    "C42_comparisons_refuted",
    "C42_function_kept"
   ],
   "note": "Proved for all creation functions but the four comparisons, which C42_comparisons_refuted shows to compute the swapped comparison."
  },
  {
   "property": "C43",
   "status": "proved",
   "theorems": [
    "C43_cells_of_a_tile",
    "C43_negative_refuted"
   ],
   "note": "For non-negative coordinates (the property); C43_negative_refuted shows that it fails on signed ones."
  },
  {
   "property": "C44",
   "status": "proved",
   "theorems": [
    "C44_signals",
    "C44_directions",
    "C44_opposite"
   ],
   "note": ""
  },
  {
   "property": "C45",
   "status": "proved",
   "theorems": [
    "C45_first_shared_pair",
    "C45_empty_refuted"
   ],
   "note": "C45_empty_refuted: empty ranges are undefined behaviour."
  },
  {
   "property": "C46",
   "status": "partial",
   "theorems": [
    "C46_linear_partial",
    "C46_complete_refuted"
   ],
   "note": "Proved on linear clocking schemes. C46_complete_refuted: on an unclocked 3x3 layout fewer than k paths are returned and a shorter path than a returned one is missed."
  },
  {
   "property": "C47",
   "status": "proved",
   "theorems": [
    "C47_clean_iff",
    "C47_sites",
    "C47_constant_output_refuted"
   ],
   "note": "For layouts without an output on the tile of constant 1. C47_constant_output_refuted: such an output has no place and is not reported."
  },
  {
   "property": "C48",
   "status": "partial",
   "theorems": [
    "C48_critical_path",
    "C48_terminates_partial",
    "C48_balanced_throughput_partial",
    "C48_throughput_partial",
    "C48_cyclic_refuted"
   ],
   "note": "The length is proved exact whenever the computation ends. It ends on linear clocking schemes; C48_cyclic_refuted: it never ends on a feedback loop that passes all design-rule checks. Throughput: exact if all data enters in one clock phase (C48_throughput_partial), 1 if balanced."
  },
  {
   "property": "C49",
   "status": "proved",
   "theorems": [
    "C49_route_path",
    "C49_data_flow"
   ],
   "note": ""
  },
  {
   "property": "C50",
   "status": "partial",
   "theorems": [
    "C50_clear_routing_partial",
    "C50_routed_refuted",
    "C50_order_refuted"
   ],
   "note": "Proved for layouts built without connect() whose fan-out wires are older than what they feed. C50_routed_refuted: the last wire of a route laid by route_path is not removed (connect does not count references). C50_order_refuted: a younger fan-out wire is removed."
  },
  {
   "property": "C51",
   "status": "proved",
   "theorems": [
    "C51_objectives",
    "C51_two_drivers_refuted"
   ],
   "note": "Completeness for layouts in which no wire has two drivers; C51_two_drivers_refuted shows that this is needed."
  },
  {
   "property": "C52",
   "status": "proved",
   "theorems": [
    "C52_step",
    "C52_a_star",
    "C52_yen",
    "C52_enumerate"
   ],
   "note": ""
  },
  {
   "property": "C53",
   "status": "proved",
   "theorems": [
    "C53_turned",
    "C53_fits",
    "C53_injective",
    "C53_adjacency",
    "C53_clocking"
   ],
   "note": ""
  },
  {
   "property": "C54",
   "status": "proved",
   "theorems": [
    "C54_hexagonalization",
    "C54_same_function",
    "C54_output_fanout_refuted",
    "C54_majority_refuted",
    "C54_crossing_layer_refuted"
   ],
   "note": "Default parameters (no pin extension). The input class is the record convertible (HexaSpec.v). Outside of it the code silently returns a different circuit: C54_output_fanout_refuted (an output that also drives a tile), C54_majority_refuted (gates with three inputs vanish), C54_crossing_layer_refuted (crossing-layer node left of the ground layer wraps around)."
  },
  {
   "property": "C55",
   "status": "proved",
   "theorems": [
    "C55_charge_index"
   ],
   "note": ""
  },
  {
   "property": "C56",
   "status": "proved",
   "theorems": [
    "C56_enumeration"
   ],
   "note": ""
  },
  {
   "property": "C57",
   "status": "proved",
   "theorems": [
    "C57_exhaustive"
   ],
   "note": ""
  },
  {
   "property": "C58",
   "status": "partial",
   "theorems": [
    "C58_validity_partial",
    "C58_population",
    "C58_validity_refuted"
   ],
   "note": "Proved for external potentials that are equal at all SiDBs. C58_validity_refuted: with a local external potential the hop energy counts the external potential twice, and a distribution is reported valid although a hop lowers the energy. C58_population: the population part holds for all external potentials."
  },
  {
   "property": "C60",
   "status": "partial",
   "theorems": [
    "C60_energy_partial",
    "C60_exhaustive_energy_partial",
    "C60_energy_refuted"
   ],
   "note": "Proved for defects with the permittivity and screening length of the simulation. C60_energy_refuted: with other material parameters, the reported energy differences are not the energy differences (half of the defect interaction is computed with the parameters of the defect, half with those of the simulation)."
  },
  {
   "property": "C61",
   "status": "partial",
   "theorems": [
    "C61_sound",
    "C61_local_potential_refuted",
    "C61_single_refuted",
    "C61_energy_partial",
    "C61_energy_refuted"
   ],
   "note": "C61_sound: without local external potentials, every result is physically valid and there is no undefined behaviour. C61_energy_partial: the stored energies, except for all-negative results under a global external potential without automatic base number detection. Refuted: C61_local_potential_refuted (a local potential at a certainly negative SiDB is written out of bounds), C61_single_refuted (one SiDB, global potential, detection off: an invalid distribution is reported), C61_energy_refuted (detection off, all SiDBs certainly negative: the stored energy ignores the global potential)."
  },
  {
   "property": "C62",
   "status": "partial",
   "theorems": [
    "C62_complete_partial",
    "C62_complete_refuted",
    "C62_detection_refuted"
   ],
   "note": "Completeness is proved for distributions whose neutral SiDBs are not within the numerical tolerance of a transition level, uniqueness without restriction. C62_complete_refuted: a valid distribution within the tolerance is not found although the exhaustive simulation finds it. C62_detection_refuted: with base number 2 and automatic detection, the ground state with one positive SiDB is missed."
  },
  {
   "property": "C63",
   "status": "partial",
   "theorems": [
    "C63_groundstates",
    "C63_exhaustive_partial",
    "C63_comparison_partial",
    "C63_comparison_refuted"
   ],
   "note": "C63_groundstates: all results. C63_exhaustive_partial: defects with the material parameters of the simulation. C63_comparison_partial: is_ground_state for results with the same base number. C63_comparison_refuted: QuickExact with automatic base number detection and the exhaustive simulation return the same distributions and energies, but is_ground_state is false because the charge indices are in different bases."
  },
  {
   "property": "C64",
   "status": "partial",
   "theorems": [
    "C64_distribution",
    "C64_total_partial",
    "C64_nth_state",
    "C64_degeneracy_refuted",
    "C64_total_refuted"
   ],
   "note": "C64_distribution: entries, energies and order for all results. C64_total_partial: the numbers add up if different energies differ by the tolerance at least. C64_total_refuted: otherwise a distribution may be counted twice. C64_degeneracy_refuted: degeneracy(e) returns the position of the energy, not the number of states."
  },
  {
   "property": "C65",
   "status": "proved",
   "theorems": [
    "C65_equivalence"
   ],
   "note": ""
  },
  {
   "property": "C66",
   "status": "proved",
   "theorems": [
    "C66_no_positive",
    "C66_two_states"
   ],
   "note": ""
  },
  {
   "property": "C67",
   "status": "partial",
   "theorems": [
    "C67_layout_implements_network_partial",
    "C67_shared_outputs_partial",
    "C67_high_degree_rejected",
    "C67_equal_fanins_refuted",
    "C67_operand_order_refuted",
    "C67_tapped_output_refuted"
   ],
   "note": "Proved for networks whose gates are symmetric with two different fan-ins and whose outputs are used for nothing else (C67_layout_implements_network_partial), or, more generally, for which no output has to leave an eastern node towards the south (C67_shared_outputs_partial). The rest is false of the code: C67_equal_fanins_refuted (a gate reads its own tile), C67_operand_order_refuted (lt/gt/le/ge get their operands in tile order), C67_tapped_output_refuted (wires of an output overwrite others). Constants are not modelled. C67_high_degree_rejected: the exception for gates with more than two fan-ins is thrown exactly then."
  },
  {
   "property": "C68",
   "status": "partial",
   "theorems": [
    "C68_layout_is_clean_partial",
    "C68_equal_fanins_refuted"
   ],
   "note": "Same restrictions as C67, and every input is used; C68_equal_fanins_refuted shows that gates with equal fan-ins give violations."
  },
  {
   "property": "C69",
   "status": "partial",
   "theorems": [
    "C69_substitution_preserves_function_partial",
    "C69_degree_one_refuted"
   ],
   "note": "Proved for degrees of at least 2 (any threshold, any strategy) and counters below 2^31. For degree 1 it is false: C69_degree_one_refuted (front of an empty queue). The converted source network and the order of its topological view are arguments of the model."
  },
  {
   "property": "C70",
   "status": "partial",
   "theorems": [
    "C70_limits_hold_partial",
    "C70_check_exact",
    "C70_equal_fanins_refuted",
    "C70_threshold_above_degree_refuted"
   ],
   "note": "Limits proved for degree >= 2, 1 <= threshold <= degree and gates without repeated fan-ins. The rest is false of the code: C70_equal_fanins_refuted, C70_threshold_above_degree_refuted. C70_check_exact: the check is exact for all networks (degree and threshold at least 1)."
  },
  {
   "property": "C71",
   "status": "proved",
   "theorems": [
    "C71_number_of_buffers",
    "C71_fewest_buffers"
   ],
   "note": ""
  },
  {
   "property": "C72",
   "status": "partial",
   "theorems": [
    "C72_layout_of_source_partial",
    "C72_creation_order",
    "C72_shared_outputs_partial",
    "C72_shared_outputs_refuted"
   ],
   "note": "Proved for networks of buffers, inverters and symmetric two-input gates with two different fan-ins and without constants, in which every gate is used and outputs are used for nothing else; fan-outs are unrestricted. C72_shared_outputs_partial relaxes the condition on outputs. In general it is false of the code: C72_shared_outputs_refuted (an output that is used elsewhere gets a wrong function), and the other counterexamples of C67. The listing by the topological view is any topological one."
  },
  {
   "property": "C73",
   "status": "partial",
   "theorems": [
    "C73_layout_of_source_clean_partial"
   ],
   "note": "As C72: proved for networks of buffers, inverters and symmetric two-input gates with two different fan-ins, without constants, in which every gate and input is used and outputs are used for nothing else. C68_equal_fanins_refuted shows that repeated fan-ins break the rules."
  },
  {
   "property": "C74",
   "status": "proved",
   "theorems": [
    "C74_balancing_preserves_function",
    "C74_no_outputs_refuted"
   ],
   "note": "For networks with at least one output; the gates of the topological view are those that outputs depend on, and inputs and gates can be counted in 32 bits. Without outputs the largest of no levels is dereferenced (C74_no_outputs_refuted)."
  },
  {
   "property": "C75",
   "status": "partial",
   "theorems": [
    "C75_result_is_balanced",
    "C75_check_exact_partial",
    "C75_balanced_networks_pass",
    "C75_dangling_refuted"
   ],
   "note": "Balancing: proved in full (C75_result_is_balanced, C75_balanced_networks_pass). The check is exact for networks without dangling gates (C75_check_exact_partial) and wrong otherwise: a gate that nothing depends on has level 0, and the difference of levels wraps around (C75_dangling_refuted)."
  },
  {
   "property": "C76",
   "status": "partial",
   "theorems": [
    "C76_levels_exact",
    "C76_added_level_partial",
    "C76_added_depth_refuted"
   ],
   "note": "Exact after construction and update_levels, for sums of costs below 2^32; nodes that no output depends on have no level (level throws). on_add gives a new gate its level (C76_added_level_partial) but counts new inputs as gates in the depth (C76_added_depth_refuted)."
  },
  {
   "property": "C77",
   "status": "proved",
   "theorems": [
    "C77_virtual_inputs"
   ],
   "note": "For sequences of calls that meet the assertion of create_virtual_pi (the given node is a real input)."
  },
  {
   "property": "C78",
   "status": "partial",
   "theorems": [
    "C78_deletion_partial",
    "C78_virtual_output_zero",
    "C78_virtual_output_refuted"
   ],
   "note": "Proved unless a virtual input drives an output directly: such outputs are not remapped and become the constant 0 (C78_virtual_output_zero, C78_virtual_output_refuted)."
  },
  {
   "property": "C79",
   "status": "proved",
   "theorems": [
    "C79_no_miter",
    "C79_miter_exact"
   ],
   "note": "For networks in which virtual inputs do not drive outputs directly (see C78). Copying of networks into the miter is modelled after what mockturtle documents."
  },
  {
   "property": "C80",
   "status": "partial",
   "theorems": [
    "C80_verdict",
    "C80_strong_refuted"
   ],
   "note": "Proved for every solver whose answers are right (C80_verdict); with a logic network as specification the documented meaning of STRONG and WEAK holds (C80_network_specification). For two layouts STRONG only means equal throughputs: two layouts with throughput 1/2 are called strongly equivalent, contrary to the documentation (C80_strong_refuted)."
  },
  {
   "property": "C81",
   "status": "proved",
   "theorems": [
    "C81_substituted_outputs"
   ],
   "note": "For technology networks whose fan-ins precede their gates, which creation calls guarantee."
  },
  {
   "property": "C82",
   "status": "proved",
   "theorems": [
    "C82_moore",
    "C82_moore_2d",
    "C82_von_neumann"
   ],
   "note": "Step points only; the map from steps to parameter values is arithmetic on doubles and not modelled."
  },
  {
   "property": "C83",
   "status": "proved",
   "theorems": [
    "C83_points",
    "C83_grid_search",
    "C83_terminates"
   ],
   "note": "Threads are interleaved at the granularity of the mutex-free hash map operations; whether a point is operational is an arbitrary function."
  },
  {
   "property": "C84",
   "status": "partial",
   "theorems": [
    "C84_flood_fill",
    "C84_schedule_independent",
    "C84_simulated_once",
    "C84_terminates",
    "C84_once_refuted"
   ],
   "note": "Everything is proved for pairwise distinct samples. If a given starting point is also drawn as a random sample, two threads may simulate it both, contrary to the documentation (C84_once_refuted)."
  },
  {
   "property": "C85",
   "status": "partial",
   "theorems": [
    "C85_trace_ends_iff",
    "C85_closed_curve",
    "C85_ends_partial",
    "C85_statuses",
    "C85_isolated_refuted",
    "C85_inferred_refuted"
   ],
   "note": "The trace of a contour ends exactly if its starting point has an operational neighbour (C85_trace_ends_iff); on an isolated operational point contour tracing never ends (C85_isolated_refuted). The trace stops on returning to its starting point even if the contour goes on, after which non-operational points may be inferred to be operational (C85_inferred_refuted)."
  },
  {
   "property": "C86",
   "status": "proved",
   "theorems": [
    "C86_statuses",
    "C86_boundary"
   ],
   "note": "Boundary and inference claims assume, as the documentation does, regions without holes (hole_free in OpDomSpec.v)."
  },
  {
   "property": "C87",
   "status": "partial",
   "theorems": [
    "C87_graph",
    "C87_crossings",
    "C87_limit_refuted"
   ],
   "note": "Exact for all paths (with and without crossings) and for limited numbers of paths with crossings. With a limit and without crossings, conflicts between objectives are overlooked (C87_limit_refuted). The ends of objectives must be occupied and different."
  },
  {
   "property": "C88",
   "status": "partial",
   "theorems": [
    "C88_minimal_coloring",
    "C88_common_color",
    "C88_most_frequent",
    "C88_validity_check",
    "C88_descending_refuted",
    "C88_empty_graph_refuted"
   ],
   "note": "Proper, minimal and complete for all tactics; with the frequency constraint for the ascending and the binary tactic. The descending tactic dereferences a null pointer if the constraint cannot be met (C88_descending_refuted) and does not return on the empty graph (C88_empty_graph_refuted). The SAT solver is an argument assumed to be right."
  },
  {
   "property": "C89",
   "status": "partial",
   "theorems": [
    "C89_sound",
    "C89_exact",
    "C89_limit_refuted",
    "C89_flat_refuted"
   ],
   "note": "Sound for all engines and exact for the SAT engine, without crossings and without a path limit. With a path limit crossings are used although they are not allowed (C89_limit_refuted). With crossings on a layout of one layer a later route overwrites an earlier one (C89_flat_refuted). Missing: soundness with crossings on layouts of two layers."
  },
  {
   "property": "C90",
   "status": "partial",
   "theorems": [
    "C90_sound",
    "C90_exact_partial",
    "C90_unclocked",
    "C90_fanout_refuted",
    "C90_bridge_refuted",
    "C90_loop_refuted"
   ],
   "note": "Sound for all layouts whose crossing layer holds wires only. Exact if nothing is above empty tiles and the old clocking, which should be disregarded, is absent (C90_unclocked) or neither branches nor loops (C90_exact_partial). Otherwise it is not: C90_fanout_refuted, C90_bridge_refuted, C90_loop_refuted."
  },
  {
   "property": "C91",
   "status": "partial",
   "theorems": [
    "C91_applies",
    "C91_cells",
    "C91_hexagons",
    "C91_aspect_ratio",
    "C91_pins",
    "C91_clock_numbers",
    "C91_hexagon_clocks_refuted",
    "C91_shifted_clocks_refuted"
   ],
   "note": "All of it on Cartesian layouts. On shifted Cartesian layouts all but the clock numbers, on hexagonal layouts cells are exact wherever at most one gate has a cell (the tiles overlap). Clock numbers of cells are wrong on both: C91_hexagon_clocks_refuted, C91_shifted_clocks_refuted."
  },
  {
   "property": "C92",
   "status": "partial",
   "theorems": [
    "C92_rotations",
    "C92_supported",
    "C92_vias",
    "C92_ports",
    "C92_borders",
    "C92_joined",
    "C92_crossed",
    "C92_separate",
    "C92_pins",
    "C92_conducts",
    "C92_centre",
    "C92_votes",
    "C92_swap_refuted"
   ],
   "note": "All of it, except that connections between layers have a via only if no wire passes the same side of the crossing layer; otherwise signals are swapped on a layout without design rule violations (C92_swap_refuted). C92_separate is for layouts without crossing layer."
  },
  {
   "property": "C93",
   "status": "partial",
   "theorems": [
    "C93_round_trip",
    "C93_output_order",
    "C93_topology",
    "C93_three_phases_refuted",
    "C93_crossing_clocks_refuted",
    "C93_unused_refuted",
    "C93_cleared_input_refuted",
    "C93_unconnected_refuted",
    "C93_output_order_refuted",
    "C93_numbering_refuted"
   ],
   "note": "All of it for clocking schemes that are the ones known by their names, with clock numbers changed in the ground layer. Otherwise layouts do not survive: three-phase schemes become four-phase ones, clock numbers of the crossing layer are lost, gates that lead to no output are lost, cleared inputs reappear, gates without incoming signals make the reader throw, and a file that numbers gates in another order is read without the connections (the _refuted theorems). Gates with other functions than the named ones, and shifted Cartesian layouts, are not modelled."
  },
  {
   "property": "C94",
   "status": "proved",
   "theorems": [
    "C94_round_trip",
    "C94_vias",
    "C94_modes_refuted",
    "C94_constant_clock_refuted",
    "C94_named_constant_refuted",
    "C94_names_refuted",
    "C94_line_feed_refuted",
    "C94_dimensions_refuted",
    "C94_vias_refuted",
    "C94_labels_refuted"
   ],
   "note": "The statement as listed. The file does not keep more: modes, clock numbers of constants, white space in names, names of constants (which come back as normal cells), empty columns and rows at the far ends; line feeds in names make it unreadable, a 53rd labelled cell makes the writer throw, and with vias the crossing layer overwrites the ground layer in coordinates with one layer bit (the _refuted theorems)."
  },
  {
   "property": "C95",
   "status": "proved",
   "theorems": [
    "C95_accepts",
    "C95_exceptions"
   ],
   "note": ""
  },
  {
   "property": "C96",
   "status": "proved",
   "theorems": [
    "C96_sound",
    "C96_reach",
    "C96_positive_refuted"
   ],
   "note": "The statement as listed. C96_positive_refuted: the distribution of the lowest energy is out of reach if it has a positively charged SiDB. Not modelled: the data race on the random number generator that all threads share."
  },
  {
   "property": "C97",
   "status": "proved",
   "theorems": [
    "C97_store",
    "C97_store_total",
    "C97_genuine",
    "C97_move_refuted",
    "C97_frame",
    "C97_counts",
    "C97_sum",
    "C97_sum_refuted",
    "C97_affected",
    "C97_affected_signed",
    "C97_all_affected",
    "C97_all_affected_signed",
    "C97_overwrite_refuted",
    "C97_analysis",
    "C97_analysis_fails"
   ],
   "note": "The statement as listed, for surfaces with offset coordinates below 2^31 - 2^16 (C97_affected_signed: with signed coordinates also negative positions are reported). C97_move_refuted: a defect moved onto itself or onto another one is lost. C97_sum_refuted: a dangling bond without a charge is counted neither as charged nor as neutral. C97_overwrite_refuted: only 16 bits of an overwritten distance count."
  },
  {
   "property": "C98",
   "status": "proved",
   "theorems": [
    "C98_create",
    "C98_create_with",
    "C98_invariant",
    "C98_swap",
    "C98_set_ranks",
    "C98_set_all_ranks",
    "C98_sort",
    "C98_inputs",
    "C98_foreach",
    "C98_add",
    "C98_check",
    "C98_unused_refuted",
    "C98_check_refuted",
    "C98_create_pi_refuted"
   ],
   "note": "The statement as listed for networks all of whose inputs and gates are used; of other networks no view can be made (C98_create, C98_unused_refuted). Added nodes are announced by on_add, as network events do. C98_check_refuted: check_validity does not notice missing nodes. C98_create_pi_refuted: an input made by create_pi of the view itself is not ranked, and listing the inputs then throws."
  },
  {
   "property": "C99",
   "status": "proved",
   "theorems": [
    "C99_mincross",
    "C99_number",
    "C99_current",
    "C99_comparison",
    "C99_outdated_refuted"
   ],
   "note": "The statement as listed (C99_mincross); C99_current says which calls leave a view up to date. The total of crossings is not bounded by 2^64 in the model. C99_outdated_refuted: after adding an input to a view of a network without gates, counting reads a rank that does not exist unless the ranks are updated first."
  },
  {
   "property": "C100",
   "status": "proved",
   "theorems": [
    "C100_order",
    "C100_all",
    "C100_view",
    "C100_twice_refuted"
   ],
   "note": "The statement as listed (C100_order, C100_all, C100_view). C100_twice_refuted: a gate that has a fan-in twice is not listed and nothing that depends on it is, because its fan-ins are counted by edges but reported once per distinct fan-in."
  },
  {
   "property": "C101",
   "status": "proved",
   "theorems": [
    "C101_pairs",
    "C101_all_types",
    "C101_unique",
    "C101_deterministic",
    "C101_operators",
    "C101_ties_refuted",
    "C101_logic_refuted",
    "C101_greater_refuted"
   ],
   "note": "The statement as listed. Distances are an arbitrary symmetric function into the rationals. C101_ties_refuted: with equal distances the result depends on the order of visits. C101_logic_refuted: without a type, pairs of logic dots are left out although the documentation promises all types. C101_greater_refuted: two pairs that differ only in type are each greater than the other."
  },
  {
   "property": "C102",
   "status": "proved",
   "theorems": [
    "C102_convert",
    "C102_technology",
    "C102_unsupported_refuted"
   ],
   "note": "The statement as listed. C102_unsupported_refuted: a gate that the destination cannot build (no create_node) is silently replaced by the default signal, constant 0."
  },
  {
   "property": "C103",
   "status": "partial",
   "theorems": [
    "C103_states",
    "C103_critical",
    "C103_kinks_partial",
    "C103_layout",
    "C103_kinks_refuted"
   ],
   "note": "Proved as listed with kinks accepted (C103_states, C103_critical) and for layouts that are no gates (C103_layout; a state counts as excited if its energy, rounded to microelectronvolts, is more than one above the lowest, as in the code), for energies that are equal or further apart than the error margin. With kinks rejected it is false (C103_kinks_refuted): wrong states are listed as accepted as well, so a gate whose only state is wrong does not get 0; C103_kinks_partial proves it for patterns all of whose states match the logic. The Boltzmann factor is an arbitrary function of energy and temperature; rounding of doubles is not modelled."
  },
  {
   "property": "C104",
   "status": "proved",
   "theorems": [
    "C104_clearance",
    "C104_order",
    "C104_position_refuted"
   ],
   "note": "The statement as listed; distances are an arbitrary function into the rationals. C104_position_refuted: without the condition, a domain whose only influential position is that of a cell gets the default position, which need not be influential."
  },
  {
   "property": "C105",
   "status": "proved",
   "theorems": [
    "C105_function",
    "C105_counts",
    "C105_total"
   ],
   "note": "The statement as listed. The cache and the first ten cached functions belong to mockturtle, whose source is not available here: they are an assumption of the model, checked only against the numbers in the repository's gate type tests. xor3 has a creation function and a test but no counter, and is counted as other."
  },
  {
   "property": "C106",
   "status": "proved",
   "theorems": [
    "C106_stats",
    "C106_ratio"
   ],
   "note": "The statement as listed, on the flood fill of C84; the quotient is exact instead of a rounded double."
  }
 ]
}