{"id": "C01", "title": "64-bit packing of offset coordinates is lossless", "statement": "Converting an offset coordinate to its 64-bit integer and constructing a coordinate from that integer gives back an equal coordinate, and constructing a coordinate from any 64-bit integer and converting it back gives the same integer; hence two coordinates are equal exactly when their integers are equal.", "quantifier": "every offset coordinate (both deadness values, all 31/31/1-bit fields) and every 64-bit integer", "why_tests_cant": "2^64 values; layouts use the integer as the key of every tile and cell map, so one colliding pair silently merges two tiles", "anchors": ["include/fiction/layouts/coordinates.hpp: offset::ucoord_t::ucoord_t(uint64_t), operator uint64_t"]}
{"id": "C02", "title": "Coordinate comparison is a strict total order compatible with equality", "statement": "For each of the three coordinate kinds, operator< on live coordinates is irreflexive, transitive and total, exactly one of a<b, a==b, b<a holds, and >, <=, >= agree with it; for offset coordinates the order ranks by z, then y, then x, for SiQAD coordinates by y, then z, then x.", "quantifier": "all pairs and triples of live coordinates of a kind", "why_tests_cant": "ordering laws over triples of 2^63 coordinates; std::set and sorting rely on them", "anchors": ["include/fiction/layouts/coordinates.hpp: operator== / operator< / operator> / operator<= / operator>= of ucoord_t, coord_t (cube), coord_t (siqad)"]}
{"id": "C03", "title": "Coordinate iteration visits every coordinate of the layout exactly once and stops", "statement": "Iterating over a layout's coordinates from the origin to the end yields precisely the in-bounds coordinates, each exactly once, in increasing order, and terminates.", "quantifier": "all aspect ratios (non-negative bounds; for offset coordinates x below the 31-bit maximum, for SiQAD coordinates with the second dimer row present)", "why_tests_cant": "aspect ratios are unbounded; the successor function has carry/wrap branches that only trigger at borders", "anchors": ["include/fiction/layouts/coordinates.hpp: coord_iterator, ucoord_t::wrap, cube::coord_t::wrap, siqad::coord_t::wrap", "include/fiction/layouts/cartesian_layout.hpp: foreach_coordinate, coordinates"]}
{"id": "C04", "title": "SiQAD and Cartesian cell coordinates convert back and forth without loss", "statement": "Converting a live SiQAD coordinate to a Cartesian one and back is the identity, and converting a Cartesian coordinate to a SiQAD one and back is the identity as long as the dimer row fits the 32-bit range; outside this range the row saturates.", "quantifier": "all 32-bit coordinates including negative ones", "why_tests_cant": "negative rows, truncating division/remainder and the 32-bit limits", "anchors": ["include/fiction/layouts/coordinates.hpp: siqad::to_fiction_coord, siqad::to_siqad_coord"]}
{"id": "C05", "title": "SiQAD coordinate addition and subtraction are exact vector arithmetic", "statement": "Adding or subtracting SiQAD coordinates yields the coordinate whose column and absolute dimer row (2y+z) are the sum or difference of the operands' columns and rows.", "quantifier": "all pairs of SiQAD coordinates whose results fit the range", "why_tests_cant": "carry between z and y for every parity combination and sign", "anchors": ["include/fiction/layouts/coordinates.hpp: siqad::coord_t::operator+, operator-"]}
{"id": "C06", "title": "Area and volume count the coordinates", "statement": "The area of an aspect ratio equals the number of ground-layer coordinates a ground iteration visits, and its volume equals the number of all coordinates an iteration visits.", "quantifier": "all aspect ratios", "why_tests_cant": "unbounded sizes", "anchors": ["include/fiction/layouts/coordinates.hpp: area, volume", "include/fiction/layouts/cartesian_layout.hpp: area, foreach_ground_coordinate, foreach_coordinate"]}
{"id": "C07", "title": "Cartesian direction functions are mutually inverse and stay in bounds", "statement": "For in-bounds coordinates, moving north/south, east/west, north-east/south-west, south-east/north-west and above/below are inverse of each other whenever the move changes the coordinate, and no move leaves the layout.", "quantifier": "all aspect ratios and all in-bounds coordinates", "why_tests_cant": "borders and corners of every size", "anchors": ["include/fiction/layouts/cartesian_layout.hpp: north, east, south, west, north_east, south_east, south_west, north_west, above, below"]}
{"id": "C08", "title": "Cartesian adjacency is exactly unit Manhattan distance", "statement": "The enumeration of adjacent coordinates yields exactly the in-bounds coordinates of the same layer at Manhattan distance one, without repetition, and is_adjacent_of agrees with it; adjacency is symmetric and irreflexive.", "quantifier": "all aspect ratios and all pairs of in-bounds coordinates", "why_tests_cant": "every border case of every size", "anchors": ["include/fiction/layouts/cartesian_layout.hpp: foreach_adjacent_coordinate, adjacent_coordinates, is_adjacent_of, is_adjacent_elevation_of"]}
{"id": "C09", "title": "Hexagonal offset/cube conversion is a bijection", "statement": "Converting an offset coordinate to cube coordinates gives components that sum to zero, and converting back gives the original coordinate, in all four hexagonal arrangements.", "quantifier": "all offset coordinates (x, y below 2^31) and all four arrangements", "why_tests_cant": "parity-dependent integer division for all values", "anchors": ["include/fiction/layouts/hexagonal_layout.hpp: to_cube_coordinate, to_offset_coordinate"]}
{"id": "C10", "title": "Hexagonal adjacency is exactly cube distance one", "statement": "The enumeration of a hexagonal tile's neighbours yields exactly the in-bounds coordinates at cube distance one, each once, at most six, and adjacency is symmetric; opposite pairs lie on opposite sides.", "quantifier": "all aspect ratios, arrangements and in-bounds coordinates", "why_tests_cant": "the negative intermediate coordinates at the left and top border wrap around 31 bits and are divided with truncation", "anchors": ["include/fiction/layouts/hexagonal_layout.hpp: foreach_adjacent_coordinate, is_adjacent_of, foreach_adjacent_opposite_coordinates"]}
{"id": "C11", "title": "Clock numbers are always valid phases", "statement": "Every pre-defined clocking scheme assigns every coordinate a clock number smaller than its number of clocks, and the assignment is periodic in x and y with the period of its cut-out.", "quantifier": "all pre-defined schemes and all coordinates", "why_tests_cant": "infinitely many coordinates", "anchors": ["include/fiction/layouts/clocking_scheme.hpp: columnar_clocking … bancs_clocking, get_clocking_scheme"]}
{"id": "C12", "title": "Information flow is directed", "statement": "Clock zone a feeds zone b exactly when b accepts from a; with at least three phases two zones never feed each other; no zone feeds itself; the lists of incoming and outgoing zones are dual.", "quantifier": "all layouts, clocking schemes (also irregular ones) and pairs of zones", "why_tests_cant": "quantifies over arbitrary clock assignments", "anchors": ["include/fiction/layouts/clocked_layout.hpp: is_incoming_clocked, is_outgoing_clocked, foreach_incoming_clocked_zone, foreach_outgoing_clocked_zone"]}
{"id": "C13", "title": "Declared in/out degrees bound the actual degrees", "statement": "On a layout clocked by a pre-defined regular scheme no zone has more incoming (outgoing) zones than the scheme's declared maximum in (out) degree.", "quantifier": "all pre-defined schemes, aspect ratios and zones", "why_tests_cant": "all sizes and positions; needs the full periodic pattern", "anchors": ["include/fiction/layouts/clocking_scheme.hpp: clocking_scheme::max_in_degree, max_out_degree", "include/fiction/layouts/clocked_layout.hpp: in_degree, out_degree"]}
{"id": "C14", "title": "Linear clocking schemes admit no feedback", "statement": "On Cartesian layouts clocked by Columnar, Row or 2DDWave schemes (3 or 4 phases), no sequence of outgoing zones returns to its start, however large the layout.", "quantifier": "all aspect ratios, all cycles of any length", "why_tests_cant": "cycle freedom over unbounded grids", "anchors": ["include/fiction/layouts/clocking_scheme.hpp: is_linear_scheme, columnar_clocking, row_clocking, twoddwave_clocking"]}
{"id": "C15", "title": "Clock overrides follow last-write-wins and affect nothing else", "statement": "After any sequence of clock number assignments, the clock number of a zone is the last number assigned to it modulo the number of clocks, or the scheme's original number if none was assigned.", "quantifier": "all schemes, all histories of assignments", "why_tests_cant": "unbounded histories", "anchors": ["include/fiction/layouts/clocking_scheme.hpp: clocking_scheme::override_clock_number, operator()", "include/fiction/layouts/clocked_layout.hpp: assign_clock_number, get_clock_number"]}
{"id": "C16", "title": "Scheme lookup by name is case-insensitive and returns the scheme of that name", "statement": "Looking up a clocking scheme by any capitalisation of a known name returns the scheme with the documented number of clocks and name; unknown names return nothing.", "quantifier": "all strings", "why_tests_cant": "all strings and capitalisations", "anchors": ["include/fiction/layouts/clocking_scheme.hpp: get_clocking_scheme, ptr, is_linear_scheme"]}
{"id": "C17", "title": "Cloned layouts are independent", "statement": "Mutating a clone of a layout never changes what the original reports.", "quantifier": "all layouts and all sequences of mutations of the clone", "why_tests_cant": "all histories; aliasing shows only for particular mutators", "anchors": ["include/fiction/layouts/clocked_layout.hpp: clone", "include/fiction/layouts/gate_level_layout.hpp: clone", "include/fiction/layouts/cell_level_layout.hpp: clone"]}
{"id": "C18", "title": "Tiles and nodes of a gate-level layout stay in one-to-one correspondence", "statement": "After any sequence of create, move, clear, connect operations, every non-empty tile's node reports that tile and every placed node's tile reports that node, so no node is on two tiles and no tile hosts two nodes.", "quantifier": "all histories of operations with arbitrary arguments", "why_tests_cant": "invariant over unbounded histories including overwriting placements", "anchors": ["include/fiction/layouts/gate_level_layout.hpp: assign_node, clear_tile, move_node, create_pi, create_po, create_node, get_node, get_tile"]}
{"id": "C19", "title": "Gate and wire counters are exact", "statement": "After any history, the reported numbers of gates and wires equal the numbers of non-empty tiles hosting a gate and a wire.", "quantifier": "all histories", "why_tests_cant": "counters are maintained incrementally; drift appears only for particular histories", "anchors": ["include/fiction/layouts/gate_level_layout.hpp: num_gates, num_wires, assign_node, clear_tile"]}
{"id": "C20", "title": "The crossing counter is exact", "statement": "After any history the reported number of crossings equals the number of positions where a crossing-layer wire runs above an occupied ground tile.", "quantifier": "all histories", "why_tests_cant": "drift appears only for particular orders of placement and removal", "anchors": ["include/fiction/layouts/gate_level_layout.hpp: num_crossings, assign_node, clear_tile"]}
{"id": "C21", "title": "Fan-in and fan-out of a gate-level layout are dual", "statement": "A node lists a placed node among its fan-outs exactly when that node lists it among its fan-ins, whatever the clocking and placement.", "quantifier": "all reachable layouts and pairs of placed nodes", "why_tests_cant": "relates two independently coded traversals over all placements, layers and clockings", "anchors": ["include/fiction/layouts/gate_level_layout.hpp: foreach_fanin, foreach_fanout, fanins, fanouts"]}
{"id": "C22", "title": "Primary inputs and outputs are never lost or invented", "statement": "The lists of PIs and POs after any history of creations, moves and removals contain exactly the created I/O nodes that have not been removed (overwritten or cleared).", "quantifier": "all histories", "why_tests_cant": "unbounded histories", "anchors": ["include/fiction/layouts/gate_level_layout.hpp: create_pi, create_po, foreach_pi, foreach_po, num_pis, num_pos, clear_tile, move_node"]}
{"id": "C23", "title": "Moving a node keeps its identity and function", "statement": "Moving a node to a free tile changes only the node's tile and fan-in: its function, all other nodes' tiles and I/O lists (up to the moved output's tile) are unchanged.", "quantifier": "all reachable layouts, nodes and free tiles", "why_tests_cant": "frame property over all states", "anchors": ["include/fiction/layouts/gate_level_layout.hpp: move_node"]}
{"id": "C24", "title": "Reference counts never report a placed node dead", "statement": "A node that is placed on a tile is never reported dead.", "quantifier": "all histories of creations, connections, moves and clears", "why_tests_cant": "wrap-around of reference counts shows only after specific histories", "anchors": ["include/fiction/layouts/gate_level_layout.hpp: is_dead, connect, move_node, clear_tile, create_node"]}
{"id": "C25", "title": "Clearing a tile affects only that tile", "statement": "Clearing a tile empties it and leaves the content of every other tile unchanged.", "quantifier": "all reachable layouts and tiles", "why_tests_cant": "frame property over all states", "anchors": ["include/fiction/layouts/gate_level_layout.hpp: clear_tile, is_empty_tile"]}
{"id": "C26", "title": "Cell-level layouts behave as a map from coordinates to cells", "statement": "After any history of assignments, the type, mode and name of every cell is the last one assigned, the number of cells is the number of non-empty cells, and the PI/PO lists are exactly the cells of input/output type.", "quantifier": "all histories", "why_tests_cant": "unbounded histories with re-assignment and deletion", "anchors": ["include/fiction/layouts/cell_level_layout.hpp: assign_cell_type, assign_cell_mode, assign_cell_name, num_cells, num_pis, num_pos, foreach_pi, foreach_po"]}
{"id": "C27", "title": "Deleting a cell removes all its attributes", "statement": "Assigning the empty cell type removes the cell's mode and name too.", "quantifier": "all histories and cells", "why_tests_cant": "needs all attribute histories before deletion", "anchors": ["include/fiction/layouts/cell_level_layout.hpp: assign_cell_type, get_cell_name, get_cell_mode"]}
{"id": "C28", "title": "Obstructions are exactly the marked or occupied coordinates", "statement": "After any history of obstruct/clear operations a coordinate (connection) is reported obstructed exactly if its last operation marked it or the underlying layout occupies it.", "quantifier": "all histories", "why_tests_cant": "unbounded histories", "anchors": ["include/fiction/layouts/obstruction_layout.hpp: obstruct_coordinate, clear_obstructed_coordinate, is_obstructed_coordinate, obstruct_connection, clear_obstructed_connection, is_obstructed_connection"]}
{"id": "C29", "title": "Synchronization elements extend flow consistently", "statement": "A synchronization element zone accepts from and feeds every adjacent zone, other zones follow the clocking, flow stays dual, and setting an element to zero restores normal clocking.", "quantifier": "all schemes, histories of element assignments and zones", "why_tests_cant": "unbounded histories; overridden functions must stay mutually dual", "anchors": ["include/fiction/layouts/synchronization_element_layout.hpp: assign_synchronization_element, is_incoming_clocked, is_outgoing_clocked, degree"]}
{"id": "C30", "title": "The bounding box is the smallest box enclosing all occupied coordinates", "statement": "After construction or update, every occupied tile/cell lies in the bounding box and each side touches an occupied one; sizes are the differences of the corners.", "quantifier": "all sets of occupied coordinates", "why_tests_cant": "all placements", "anchors": ["include/fiction/layouts/bounding_box.hpp: bounding_box_2d"]}
{"id": "C31", "title": "Gray-code iteration flips exactly one bit per step and visits every code once", "statement": "Consecutive iterator values differ in exactly one bit, the first n-bit values enumerate all n-bit words exactly once, and advancing/retreating are inverse.", "quantifier": "all 64-bit positions and widths", "why_tests_cant": "2^64 positions", "anchors": ["include/fiction/algorithms/iter/gray_code_iterator.hpp: gray_code_iterator"]}
{"id": "C32", "title": "Aspect-ratio iteration enumerates exactly the factorisations", "statement": "For each area n the iterator yields exactly the aspect ratios (x,y) with (x+1)(y+1)=n, each once, before moving to area n+1.", "quantifier": "all start areas and all steps", "why_tests_cant": "unbounded areas", "anchors": ["include/fiction/algorithms/iter/aspect_ratio_iterator.hpp: aspect_ratio_iterator"]}
{"id": "C33", "title": "binomial_coefficient computes C(n,k)", "statement": "The function returns the mathematical binomial coefficient whenever no intermediate product overflows 64 bits; in particular it is symmetric and 0 for k>n.", "quantifier": "all n,k", "why_tests_cant": "all pairs; integer division must always be exact", "anchors": ["include/fiction/utils/math_utils.hpp: binomial_coefficient"]}
{"id": "C34", "title": "Combination enumeration is exact", "statement": "Distributing k entities on n positions enumerates every k-element subset of positions exactly once.", "quantifier": "all n and k", "why_tests_cant": "unbounded", "anchors": ["include/fiction/utils/combination_utils.hpp: determine_all_combinations_of_distributing_k_entities_on_n_positions"]}
{"id": "C35", "title": "cartesian_combinations is the Cartesian product", "statement": "The result contains exactly the tuples choosing one element per input set, in lexicographic order, once per choice.", "quantifier": "all lists of lists", "why_tests_cant": "unbounded", "anchors": ["include/fiction/utils/math_utils.hpp: cartesian_combinations"]}
{"id": "C36", "title": "Distance functions are lower bounds and caches are transparent", "statement": "Manhattan distance is a metric and never exceeds the length of any path of adjacent tiles on a Cartesian layout; 2DDWave distance equals the exact number of steps on a 2DDWave-clocked layout; pre-computed and cached distance maps return the same value as the distance function.", "quantifier": "all coordinates, paths and query histories", "why_tests_cant": "all paths and all cache histories", "anchors": ["include/fiction/algorithms/path_finding/distance.hpp: manhattan_distance, twoddwave_distance, chebyshev_distance, squared_euclidean_distance", "include/fiction/algorithms/path_finding/distance_map.hpp: initialize_distance_map, distance_map_functor, smart_distance_cache_functor"]}
{"id": "C37", "title": "A* returns only valid paths", "statement": "A non-empty A* result starts at the source, ends at the target, takes only permitted steps, visits no coordinate twice and avoids obstructed coordinates and connections.", "quantifier": "all layouts, obstructions, heuristics, costs and objectives", "why_tests_cant": "all graphs and tie-breakings", "anchors": ["include/fiction/algorithms/path_finding/a_star.hpp: a_star"]}
{"id": "C38", "title": "A* finds a path whenever one exists and always terminates", "statement": "A* terminates and returns an empty path only if no permitted path exists.", "quantifier": "all layouts, obstructions, heuristics and costs", "why_tests_cant": "all graphs", "anchors": ["include/fiction/algorithms/path_finding/a_star.hpp: a_star, a_star_distance"]}
{"id": "C39", "title": "A* paths are shortest", "statement": "With unit costs and the default Manhattan heuristic on Cartesian layouts, the returned path has minimum length.", "quantifier": "all Cartesian layouts and obstructions", "why_tests_cant": "optimality quantifies over all alternative paths and queue states", "anchors": ["include/fiction/algorithms/path_finding/a_star.hpp: a_star", "include/fiction/utils/stl_utils.hpp: searchable_priority_queue"]}
{"id": "C40", "title": "Path enumeration is sound, complete and duplicate-free", "statement": "The collection contains exactly the loop-less permitted paths from source to target, each once.", "quantifier": "all layouts, clockings, obstructions and objectives", "why_tests_cant": "all graphs", "anchors": ["include/fiction/algorithms/path_finding/enumerate_all_paths.hpp: enumerate_all_paths"]}
{"id": "C41", "title": "Yen's algorithm returns distinct loop-less valid paths and leaves obstructions untouched", "statement": "The result contains at most k pairwise different loop-less permitted paths from source to target and the layout's obstructions afterwards are those before the call.", "quantifier": "all layouts, obstructions, k", "why_tests_cant": "all graphs; temporary obstructions must be fully undone", "anchors": ["include/fiction/algorithms/path_finding/k_shortest_paths.hpp: yen_k_shortest_paths"]}
{"id": "C42", "title": "Creation functions compute the Boolean function they are named after", "statement": "A node made by a creation function (and, nand, or, nor, lt, le, gt, ge, xor, xnor, not, buf, maj) computes that Boolean function of its fan-ins in the given order, and keeps doing so through any later history.", "quantifier": "all layouts, creation functions, fan-ins and histories", "why_tests_cant": "the function must survive every later history", "anchors": ["include/fiction/layouts/gate_level_layout.hpp: create_and, create_lt, compute", "include/fiction/utils/truth_table_utils.hpp: create_lt_tt"]}
{"id": "C43", "title": "All cells of a tile are in the clock zone of the tile", "statement": "On a cell-level layout with tile size sx by sy, every cell of the tile in column tx and row ty reports the clock number that the clocking scheme assigns to that tile, after any history of calls.", "quantifier": "all clocked layouts, tile sizes and their changes, tiles and cells (non-negative coordinates)", "why_tests_cant": "the relation holds for infinitely many cells, tile sizes and schemes; tests sample a handful of cells", "anchors": ["include/fiction/layouts/cell_level_layout.hpp: get_clock_number, set_tile_size_x, set_tile_size_y"]}
{"id": "C44", "title": "Directional signal queries agree with the data flow", "statement": "is_incoming_signal and is_outgoing_signal hold exactly for the spots data flows from and to; has_northern/eastern/southern/western_incoming/outgoing_signal ask about the neighbouring spot in that direction (never about the tile itself at a border); has_no_* holds exactly without data flow; has_opposite_incoming_and_outgoing_signals holds exactly if data flows straight through the tile.", "quantifier": "all reachable gate-level layouts (Cartesian and hexagonal), tiles and directions", "why_tests_cant": "the statement quantifies over all layouts, crossings and border positions", "anchors": ["include/fiction/layouts/gate_level_layout.hpp: is_incoming_signal, is_outgoing_signal, has_northern_incoming_signal, has_opposite_incoming_and_outgoing_signals"]}
{"id": "C45", "title": "find_first_two_of finds the first shared pair", "statement": "Given two non-empty ranges, the function returns the first position of the first range where two consecutive elements occur consecutively somewhere in the second range, and the end of the first range exactly if there is none.", "quantifier": "all non-empty ranges and element types with equality", "why_tests_cant": "unbounded ranges", "anchors": ["include/fiction/utils/stl_utils.hpp: find_first_two_of"]}
{"id": "C46", "title": "Yen's algorithm returns k paths if there are k, and the shortest ones", "statement": "Fewer than k paths are returned only if there are no further loop-less permitted paths, and no returned path is longer than one that was not returned.", "quantifier": "all layouts, obstructions, k", "why_tests_cant": "quantifies over all alternative paths", "anchors": ["include/fiction/algorithms/path_finding/k_shortest_paths.hpp: yen_k_shortest_paths"]}
{"id": "C47", "title": "Design-rule check is exact", "statement": "gate_level_drvs reports zero violations exactly if the layout hosts no node or: connected tiles touch, data flows along the clocking, every occupied tile receives data or is an input and passes data on or is an output, crossing wires run above wires, and there are inputs and outputs, all placed. It reports zero warnings exactly if all alive nodes are placed, all placed nodes are alive, and inputs and outputs are wires at the border.", "quantifier": "all layouts reachable by any history of construction calls, all topologies, sizes and clockings", "why_tests_cant": "soundness and completeness of a checker quantify over all layouts", "anchors": ["include/fiction/algorithms/verification/design_rule_violations.hpp:gate_level_drvs"]}
{"id": "C48", "title": "Critical path length is the longest data path", "statement": "The reported critical path length is the number of tiles of a longest data path ending on an output; the computation ends; layouts whose data is balanced have throughput 1.", "quantifier": "all layouts reachable by construction calls", "why_tests_cant": "the maximum ranges over all (exponentially many) paths of all layouts", "anchors": ["include/fiction/algorithms/properties/critical_path_length_and_throughput.hpp:critical_path_length_and_throughput"]}
{"id": "C49", "title": "route_path lays exactly the wires of the path", "statement": "Routing along a path puts one new wire on every inner coordinate (in the crossing layer if the ground is taken), each fed by its predecessor, connects the last one to the target and changes nothing else; if the path follows the clocking, data flows along it.", "quantifier": "all layouts, all paths with free inner tiles", "why_tests_cant": "all paths on all layouts", "anchors": ["include/fiction/utils/routing_utils.hpp:route_path"]}
{"id": "C50", "title": "clear_routing removes exactly the routing", "statement": "clear_routing removes exactly the wires that only forward data; gates, fan-outs, inputs and outputs stay where they are without connections.", "quantifier": "all layouts", "why_tests_cant": "all layouts, including how they were built", "anchors": ["include/fiction/utils/routing_utils.hpp:clear_routing"]}
{"id": "C51", "title": "Routing objectives are exact", "statement": "extract_routing_objectives ends, and returns exactly the pairs (a, b) of tiles such that data from an input passes through a, and from a through wires without fan-out to b, where b is no such wire.", "quantifier": "all layouts", "why_tests_cant": "all layouts, recursion over shared and cyclic structures", "anchors": ["include/fiction/utils/routing_utils.hpp:extract_routing_objectives"]}
{"id": "C52", "title": "Crossings are legal and complete", "statement": "When path finding is allowed to use crossings on a gate-level layout, every step it takes into the crossing layer runs above a wire that is neither input nor output, that receives data and passes it on, and that is not fed from the position the path comes from; and every such free position is considered.", "quantifier": "all gate-level layouts reachable by API calls, all obstructions, sources, targets, heuristics and costs; A*, path enumeration and Yen", "why_tests_cant": "An illegal crossing (above a gate, an I/O pin, a dangling fan-out, or along a wire) can arise from any combination of wires and search order", "anchors": ["include/fiction/utils/routing_utils.hpp: is_crossable_wire", "include/fiction/algorithms/path_finding/a_star.hpp: a_star", "include/fiction/algorithms/path_finding/enumerate_all_paths.hpp: enumerate_all_paths", "include/fiction/algorithms/path_finding/k_shortest_paths.hpp: yen_k_shortest_paths"]}
{"id": "C53", "title": "The 45 degree turn is a geometric embedding", "statement": "The map from Cartesian to even-row hexagonal tiles used by hexagonalization turns the plane by 45 degrees: centres go to turned centres, different tiles to different tiles inside the hexagonal layout, tiles sharing an edge to tiles sharing an edge, and the row clock zone of the image is the 2DDWave clock zone of the tile.", "quantifier": "all Cartesian layouts with representable dimensions, all tiles, all layers, three and four phases", "why_tests_cant": "all aspect ratios, odd and even heights", "anchors": ["include/fiction/algorithms/physical_design/hexagonalization.hpp: to_hex"]}
{"id": "C54", "title": "Hexagonalization preserves the circuit", "statement": "Hexagonalization (default parameters) of a 2DDWave-clocked Cartesian layout of inputs, outputs, buffers, inverters and two-input gates succeeds and returns a hexagonal, row-clocked layout with the same nodes, functions, data flow, inputs, outputs and names, each node where the 45 degree turn puts it, cut to the bounding box; under every input assignment each output carries the same value.", "quantifier": "all such layouts of all sizes, however they were built; all input assignments", "why_tests_cant": "the order in which tiles are placed must be topological for every layout, the offset must fit every shape", "anchors": ["include/fiction/algorithms/physical_design/hexagonalization.hpp: hexagonalization, get_offset, to_hex", "include/fiction/utils/placement_utils.hpp: place", "include/fiction/utils/name_utils.hpp: restore_names"]}
{"id": "C55", "title": "Charge indices number the charge distributions", "statement": "At any time a charge distribution surface holds the charge states that were assigned last, and its charge index is the number whose digits, in the base of the simulation, are the charges of the SiDBs in the order of their positions; assigning a charge index yields the distribution with that number; two distributions have different numbers.", "quantifier": "all layouts with at most 33 SiDBs, all histories of assignments, index assignments, stepping, parameter changes, defects and external potentials, bases two and three", "why_tests_cant": "all histories and all distributions; the digit loops skip leading zeroes", "anchors": ["include/fiction/technology/charge_distribution_surface.hpp: assign_charge_state, assign_charge_index, charge_distribution_to_index, index_to_charge_distribution"]}
{"id": "C56", "title": "Stepping enumerates every charge distribution once", "statement": "Starting at charge index 0, calling increase_charge_index_by_one visits every charge distribution of the layout exactly once, namely after as many steps as its number.", "quantifier": "all layouts with at most 33 SiDBs, all surfaces, all distributions, both bases", "why_tests_cant": "exponentially many distributions; each step only rewrites the low digits", "anchors": ["include/fiction/technology/charge_distribution_surface.hpp: increase_charge_index_by_one"]}
{"id": "C57", "title": "Exhaustive simulation is sound and complete", "statement": "exhaustive_ground_state_simulation returns exactly the physically valid charge distributions (population stable, and no hop of one electron lowers the energy), each of them once, and never runs into undefined behaviour.", "quantifier": "all non-empty layouts with at most 33 SiDBs, with defects beside the SiDBs, all parameters with base two or three, all symmetric potentials", "why_tests_cant": "quantifies over all layouts and all exponentially many distributions", "anchors": ["include/fiction/algorithms/simulation/sidb/exhaustive_ground_state_simulation.hpp: exhaustive_ground_state_simulation"]}
{"id": "C58", "title": "Reported validity is physical validity", "statement": "After update_after_charge_change, is_physically_valid() is true if and only if the current charge distribution is population stable and no hop of one electron lowers the energy, for the current parameters, defects and external potentials.", "quantifier": "all layouts, all histories of calls", "why_tests_cant": "validity depends on potentials that are updated incrementally by every call of the history", "anchors": ["include/fiction/technology/charge_distribution_surface.hpp: validity_check, is_configuration_stable, update_local_internal_potential, update_local_external_potential"]}
{"id": "C60", "title": "Reported energy is the electrostatic energy", "statement": "After update_after_charge_change, get_electrostatic_potential_energy() is the sum over all pairs of SiDBs and charged defects of their interaction energies plus the energy of the SiDBs in the external potential.", "quantifier": "all layouts, all histories of calls", "why_tests_cant": "energy is assembled from incrementally maintained potentials", "anchors": ["include/fiction/technology/charge_distribution_surface.hpp: recompute_electrostatic_potential_energy"]}
{"id": "C61", "title": "QuickExact is sound", "statement": "Every charge distribution that quickexact returns is physically valid (population stable, and no hop of one electron lowers the energy), the run never has undefined behaviour, and the stored energy of each result is its electrostatic energy.", "quantifier": "all non-empty layouts with at most 33 SiDBs, with defects beside the SiDBs, all parameters with base two or three, all global external potentials, all symmetric non-negative potentials", "why_tests_cant": "quantifies over all layouts; the search steps through a Gray code, skips certainly negative SiDBs and derives the state of one SiDB from the others, so that a single wrong incremental update shows up only in particular layouts", "anchors": ["include/fiction/algorithms/simulation/sidb/quickexact.hpp: quickexact", "include/fiction/technology/charge_distribution_surface.hpp: increase_charge_index_by_one, assign_dependent_cell, negative_sidb_detection, is_three_state_simulation_required"]}
{"id": "C62", "title": "QuickExact is complete", "statement": "quickexact returns every physically valid charge distribution, and none of them twice.", "quantifier": "all non-empty layouts with at most 33 SiDBs, all distributions with the allowed charge states, all parameters and global external potentials", "why_tests_cant": "pruning must not lose any of the exponentially many distributions, for any layout", "anchors": ["include/fiction/algorithms/simulation/sidb/quickexact.hpp: quickexact, two_state_simulation, three_state_simulation"]}
{"id": "C63", "title": "Ground states", "statement": "groundstates() returns exactly one representative of each charge distribution of the result whose energy is lowest (up to the numerical tolerance); for the exhaustive simulation these are the physically valid distributions of least energy; is_ground_state tells whether the ground states of a heuristic and of an exact simulation are the same.", "quantifier": "all simulation results (any order, any repetitions), all layouts with at most 33 SiDBs", "why_tests_cant": "all lists of distributions, with ties and duplicates", "anchors": ["include/fiction/algorithms/simulation/sidb/sidb_simulation_result.hpp: groundstates", "include/fiction/algorithms/simulation/sidb/minimum_energy.hpp: minimum_energy", "include/fiction/algorithms/simulation/sidb/is_ground_state.hpp: is_ground_state"]}
{"id": "C64", "title": "Energy distribution", "statement": "calculate_energy_distribution lists the energies of the results in increasing order, each (up to the numerical tolerance) once, with the number of distinct distributions of that energy; the numbers add up to the number of distinct distributions, and degeneracy(e) is the number of states of energy e.", "quantifier": "all simulation results", "why_tests_cant": "all lists of distributions and energies, with ties and duplicates", "anchors": ["include/fiction/algorithms/simulation/sidb/calculate_energy_distribution.hpp: calculate_energy_distribution", "include/fiction/algorithms/simulation/sidb/energy_distribution.hpp: energy_distribution"]}
{"id": "C65", "title": "Equivalence of simulation results", "statement": "check_simulation_results_for_equivalence is true exactly if no distribution occurs twice in either result, both results have the same distributions and the energies agree within the numerical tolerance, whatever order and base number the simulations used.", "quantifier": "all pairs of simulation results of a layout", "why_tests_cant": "all pairs of lists", "anchors": ["include/fiction/algorithms/simulation/sidb/equivalence_check_for_simulation_results.hpp: check_simulation_results_for_equivalence"]}
{"id": "C66", "title": "Absence of positive charges is reliable", "statement": "If can_positive_charges_occur returns false, then no physically valid charge distribution has a positively charged SiDB, and the simulation with two charge states finds the same distributions as that with three.", "quantifier": "all layouts, defects and parameters", "why_tests_cant": "ranges over exponentially many distributions", "anchors": ["include/fiction/algorithms/simulation/sidb/can_positive_charges_occur.hpp: can_positive_charges_occur"]}
{"id": "C67", "title": "Orthogonal physical design implements the network", "statement": "For every network of buffers, inverters and two-input gates, orthogonal returns a 2DDWave-clocked layout with the inputs and outputs of the network in the same order and with the same names, inputs on the western and outputs on the eastern border, in which every output carries exactly the value the network computes, under every input assignment.", "quantifier": "all fan-out substituted networks, both numbers of clock phases, all input assignments", "why_tests_cant": "networks are unbounded; colouring, placement and routing interact over the whole layout", "anchors": ["include/fiction/algorithms/physical_design/orthogonal.hpp: orthogonal, east_south_edge_coloring, determine_layout_size, place_outputs", "include/fiction/utils/placement_utils.hpp: reserve_input_nodes"]}
{"id": "C68", "title": "Orthogonal layouts obey the design rules", "statement": "The layout orthogonal returns has no design rule violation: gate_level_drvs reports zero violations.", "quantifier": "all fan-out substituted networks with used inputs and at least one output", "why_tests_cant": "networks are unbounded; a violation may appear at any tile", "anchors": ["include/fiction/algorithms/physical_design/orthogonal.hpp: orthogonal", "include/fiction/algorithms/verification/design_rule_violations.hpp: gate_level_drvs"]}
{"id": "C69", "title": "Fan-out substitution preserves the network's functions", "statement": "For every technology network, every strategy, every sequence of random numbers and all parameters, fanout_substitution returns a network with the same inputs and outputs whose outputs have the same values under every input assignment.", "quantifier": "all networks, topological orders, strategies, random sequences, degrees and thresholds, all input assignments", "why_tests_cant": "networks and random sequences are unbounded", "anchors": ["include/fiction/algorithms/network_transformation/fanout_substitution.hpp: fanout_substitution", "include/fiction/networks/technology_network.hpp: create_buf, is_fanout"]}
{"id": "C70", "title": "Fan-out substitution keeps its limits, and the check is exact", "statement": "In the network fanout_substitution returns, every buffer is used at most degree times and every other node at most threshold times. is_fanout_substituted is true exactly for networks with this property.", "quantifier": "all networks, strategies, random sequences, degrees and thresholds", "why_tests_cant": "the limit could be broken at any node of any network", "anchors": ["include/fiction/algorithms/network_transformation/fanout_substitution.hpp: fanout_substitution, is_fanout_substituted"]}
{"id": "C71", "title": "Fan-out substitution adds as few buffers as possible", "statement": "fanout_substitution adds ceil((uses - threshold) / (degree - 1)) buffers for each node that is used more than threshold times (none for buffers within the degree), whatever the strategy, and no tree of buffers within the limits serves as many uses with fewer.", "quantifier": "all networks, strategies, random sequences, thresholds and degrees of at least two; all trees of buffers", "why_tests_cant": "optimality quantifies over all trees", "anchors": ["include/fiction/algorithms/network_transformation/fanout_substitution.hpp: generate_fanout_tree"]}
{"id": "C72", "title": "orthogonal lays out the network it is given", "statement": "For every logic network of gates with at most two fan-ins, orthogonal returns a layout with the network's inputs and outputs (and their names) whose outputs have, under every input assignment, the values of the network's outputs - through fan-out substitution, placement and routing.", "quantifier": "all networks (any size, any fan-out), topological orders, clock numbers and input assignments", "why_tests_cant": "networks are unbounded and the composition of two transformations is observed only at the end", "anchors": ["include/fiction/algorithms/physical_design/orthogonal.hpp: orthogonal", "include/fiction/algorithms/network_transformation/fanout_substitution.hpp: fanout_substitution"]}
{"id": "C73", "title": "orthogonal's layouts of arbitrary networks pass the design rule check", "statement": "For every logic network with an output in which every input is used, the layout orthogonal returns satisfies all gate-level design rules, and gate_level_drvs reports no violation.", "quantifier": "all networks (any size, any fan-out), topological orders and clock numbers", "why_tests_cant": "networks are unbounded", "anchors": ["include/fiction/algorithms/physical_design/orthogonal.hpp: orthogonal", "include/fiction/algorithms/verification/design_rule_violations.hpp: gate_level_drvs"]}
{"id": "C74", "title": "Balancing keeps the function of a network", "statement": "network_balancing returns a network with the same inputs and outputs in the same order, whose outputs have the same values as the source's under every input assignment, with and without unified outputs.", "quantifier": "all networks with an output (any size and depth), topological orders and input assignments", "why_tests_cant": "networks, their depth and the number of inserted buffers are unbounded", "anchors": ["include/fiction/algorithms/network_transformation/network_balancing.hpp: network_balancing"]}
{"id": "C75", "title": "Balancing makes all paths equally long, and is_balanced checks exactly that", "statement": "In the network that network_balancing returns all paths from inputs to a gate have the same length, with unify_outputs also all paths from inputs to outputs, and the depth of the network is that of the source; is_balanced returns true exactly for networks with this property.", "quantifier": "all networks (any size and depth) and both settings of unify_outputs", "why_tests_cant": "paths are exponentially many and networks unbounded", "anchors": ["include/fiction/algorithms/network_transformation/network_balancing.hpp: network_balancing", "include/fiction/algorithms/network_transformation/network_balancing.hpp: is_balanced"]}
{"id": "C76", "title": "Levels, depth and critical path of a depth view are exact", "statement": "static_depth_view gives every node that an output depends on the cost of the most expensive path leading to it, the depth is the largest level of an output, and is_on_critical_path holds exactly for the nodes on some most expensive path to an output; adding nodes keeps this up to date.", "quantifier": "all networks, cost functions and both settings of pi_cost", "why_tests_cant": "there are exponentially many paths, and the recursion visits nodes in an order that depends on the network", "anchors": ["include/fiction/networks/views/static_depth_view.hpp: static_depth_view"]}
{"id": "C77", "title": "Virtual inputs always belong to real inputs", "statement": "After any sequence of create_pi, create_virtual_pi, gate and output creations the inputs of the network are partitioned into real and virtual ones; num_real_pis and num_virtual_pis are the numbers of the respective calls, is_virtual_pi holds exactly for the nodes created by create_virtual_pi, and get_real_pi returns the real input that call was given.", "quantifier": "all sequences of creation calls, of any length", "why_tests_cant": "the bookkeeping is kept apart from the network and has to agree with it after every history of calls; tests run a few short histories", "anchors": ["include/fiction/networks/virtual_pi_network.hpp: create_virtual_pi, is_virtual_pi, is_real_pi, get_real_pi, num_real_pis, num_virtual_pis, real_size, foreach_real_pi"]}
{"id": "C78", "title": "Deleting virtual inputs keeps the function", "statement": "delete_virtual_pis returns a network over the real inputs, in their order, with as many outputs, whose outputs have the values of the given network's outputs whenever every virtual input carries the value of its real input.", "quantifier": "all networks with virtual inputs (any size), topological orders and input assignments", "why_tests_cant": "networks and assignments are unbounded; a single wrongly remapped edge shows only for some assignments of some networks", "anchors": ["include/fiction/algorithms/network_transformation/delete_virtual_pis.hpp: delete_virtual_pis, delete_virtual_pis_impl::run"]}
{"id": "C79", "title": "A miter is 1 exactly where two networks differ", "statement": "virtual_miter returns nothing exactly if the numbers of real inputs or of outputs differ; otherwise its result has the real inputs and one output, which is 1 for exactly those assignments for which some output of the two networks differs.", "quantifier": "all pairs of networks with or without virtual inputs, and all input assignments", "why_tests_cant": "the miter has to be right for all assignments of all pairs of networks; tests compare a few", "anchors": ["include/fiction/algorithms/verification/virtual_miter.hpp: virtual_miter", "include/fiction/networks/technology_network.hpp: create_xor, create_nary_or"]}
{"id": "C80", "title": "The verdict of equivalence checking is right", "statement": "equivalence_checking returns NO exactly if a design has design rule violations, the numbers of inputs or outputs differ, or some assignment makes outputs differ (and then reports such an assignment); otherwise STRONG if all layouts have throughput 1/1 and WEAK if not.", "quantifier": "all pairs of networks and layouts, all right solvers", "why_tests_cant": "equivalence quantifies over all assignments, the verdict over all pairs of designs", "anchors": ["include/fiction/algorithms/verification/equivalence_checking.hpp: equivalence_checking, equivalence_checking_impl::run, eq_type"]}
{"id": "C81", "title": "Every output gets a buffer of its own", "statement": "After substitute_po_signals every output is driven by a buffer that drives nothing else, the network computes the same functions, existing nodes are unchanged and outputs that had a buffer of their own keep it.", "quantifier": "all networks of any size", "why_tests_cant": "the outputs are changed one after the other while reference counts change; whether a buffer is shared depends on all outputs and gates", "anchors": ["include/fiction/networks/technology_network.hpp: substitute_po_signals, is_buf, is_fanout"]}
{"id": "C82", "title": "Neighbourhoods of sample points are complete", "statement": "The neighbourhood of a sample point used by operational domain computation lists every point of the sweep at most one step away in every dimension (or one step away in exactly one dimension) exactly once and no other point; the clockwise list for two dimensions has the same points.", "quantifier": "all numbers of dimensions and steps, all points", "why_tests_cant": "the enumeration counts in base three and clips at the borders; tests use two and three dimensions with few steps", "anchors": ["include/fiction/algorithms/simulation/sidb/operational_domain.hpp: moore_neighborhood, moore_neighborhood_2d, von_neumann_neighborhood"]}
{"id": "C83", "title": "Grid search simulates every point once on any number of threads", "statement": "Whatever the number of threads and their schedule, parallel simulation stores exactly the given points with their statuses; operational_domain_grid_search stores every point of the sweep, each simulated once, and always ends.", "quantifier": "all sweeps, thread counts and interleavings of the threads", "why_tests_cant": "the interleavings of threads cannot be enumerated by tests", "anchors": ["include/fiction/algorithms/simulation/sidb/operational_domain.hpp: operational_domain_grid_search, operational_domain_random_sampling, simulate_operational_status_in_parallel, is_step_point_operational"]}
{"id": "C84", "title": "Flood fill finds whole regions whatever the schedule", "statement": "operational_domain_flood_fill stores exactly the samples and all points reached from operational samples through operational points, each with its status; the result does not depend on the threads, no point is simulated twice, and the workers never wait for each other for good.", "quantifier": "all sweeps, samples, thread counts, interleavings and spurious wake-ups", "why_tests_cant": "a lost wake-up or a double simulation shows only in rare interleavings of worker threads", "anchors": ["include/fiction/algorithms/simulation/sidb/operational_domain.hpp: operational_domain_flood_fill, flood_fill"]}
{"id": "C85", "title": "Two-dimensional contour tracing", "statement": "operational_domain_contour_tracing traces a closed curve of adjacent operational points from every sampled region, records only right statuses, ends, and infers only points that are operational.", "quantifier": "all sweeps, samples and shapes of the operational region", "why_tests_cant": "termination and inference depend on the shape of the region, of which there are unboundedly many", "anchors": ["include/fiction/algorithms/simulation/sidb/operational_domain.hpp: operational_domain_contour_tracing, contour_tracing, find_operational_contour_step_point, infer_operational_status_in_enclosing_contour"]}
{"id": "C86", "title": "Boundary surfaces in three and more dimensions", "statement": "In any number of dimensions contour tracing ends, records only right statuses and all samples, and for samples whose region has no holes records the whole boundary of the region with all its neighbours and infers only operational points of the region.", "quantifier": "all numbers of dimensions, sweeps, samples and regions", "why_tests_cant": "regions are arbitrary sets of points; tests use a few gates", "anchors": ["include/fiction/algorithms/simulation/sidb/operational_domain.hpp: operational_domain_contour_tracing, collect_boundary_surface, infer_operational_status_in_enclosing_contour"]}
{"id": "C87", "title": "Edge intersection graphs list all routes and all conflicts", "statement": "generate_edge_intersection_graph has one vertex for every route of every objective and no other; two vertices are joined iff they belong to the same objective or their routes have the same ends or conflict: without crossings, if they share a tile between their ends; with crossings, if they share a segment. The cliques are the labels of the routes of each objective, and objectives without a route are counted.", "quantifier": "all layouts, occupations, clockings and lists of objectives", "why_tests_cant": "the number of routes is exponential in the size of the layout", "anchors": ["include/fiction/algorithms/graph/generate_edge_intersection_graph.hpp: generate_edge_intersection_graph, has_intersection_with, has_overlap_with, connect_clique, create_intersection_edges"]}
{"id": "C88", "title": "SAT-based coloring is proper and minimal", "statement": "determine_vertex_coloring with the SAT engine paints every vertex, gives joined vertices different colors and uses the least possible number of colors, for every search tactic, every set of known cliques and every order of the vertices. If some color is required to occur in every clique, such a coloring is found iff there is one. The reported most frequent color is one, and the check of a coloring is exact.", "quantifier": "all graphs, cliques, vertex orders, tactics and right SAT solvers", "why_tests_cant": "minimality speaks about all colorings of all graphs; symmetry breaking must not lose the only solutions", "anchors": ["include/fiction/algorithms/graph/graph_coloring.hpp: determine_vertex_coloring, sat_coloring_handler, graph_coloring_impl::is_valid_vertex_coloring"]}
{"id": "C89", "title": "Color routing lays disjoint routes and finds a complete routing if there is one", "statement": "color_routing without crossings returns false and leaves the layout as it is, or returns true and adds wires along routes of the objectives and nothing else: the routes share no tile, data flows along each of them, and the statistics count exactly the objectives left without a route, which are none unless partial routing is allowed. With the SAT engine it routes all objectives whenever routes without shared tiles exist for all of them.", "quantifier": "all layouts reachable through the interface, clockings, lists of objectives, hash map orders, right SAT solvers and right coloring heuristics", "why_tests_cant": "completeness speaks about all combinations of all routes", "anchors": ["include/fiction/algorithms/physical_design/color_routing.hpp: color_routing, color_routing_impl::run, conduct_routing", "include/fiction/utils/routing_utils.hpp: route_path"]}
{"id": "C90", "title": "Determining clock numbers makes data flow along every connection, or proves that no clocking can", "statement": "determine_clocking returns false and leaves the layout as it is, or returns true and changes nothing but clock numbers, after which data flows along every connection of the layout, all numbers are in range and tiles above each other have the same one. For layouts without a clocking it returns true exactly if there is such a clocking.", "quantifier": "all layouts reachable through the interface, numbers of clocks, and right SAT solvers", "why_tests_cant": "it speaks about all clock assignments of all layouts", "anchors": ["include/fiction/algorithms/physical_design/determine_clocking.hpp: determine_clocking, sat_clocking_handler"]}
{"id": "C91", "title": "Applying a gate library shows every gate on its tile, and nothing else", "statement": "The cell layout created by apply_gate_library has, on every tile that carries a node, the cells of the gate the library returns for it, cell by cell, and no cells anywhere else; it lies inside an aspect ratio that is as small as the tiles allow; its inputs and outputs are the input and output cells of the gates and have the names of their nodes; and cells have the clock numbers of their tiles.", "quantifier": "all gate-level layouts reachable through the interface, gate libraries, tile sizes, technologies, and Cartesian, shifted and hexagonal arrangements", "why_tests_cant": "it speaks about all layouts and all libraries", "anchors": ["include/fiction/algorithms/physical_design/apply_gate_library.hpp: apply_gate_library", "include/fiction/utils/layout_utils.hpp: relative_to_absolute_cell_position", "include/fiction/technology/fcn_gate_library.hpp: fcn_gate_library"]}
{"id": "C92", "title": "QCA ONE realises gates, and the connections between them, on the cell level", "statement": "With the QCA ONE library, the call succeeds exactly if there is a gate for the kind of every node and the sides its data enters and leaves; data passes every side through a cell in its middle, which faces the cell of the connected tile or, between layers, a via; tiles that are not connected do not touch, but for constants; inputs and outputs are the centres of the wires without incoming and outgoing data.", "quantifier": "all Cartesian layouts reachable through the interface with at least three clocks and a clocking that does not depend on the layer", "why_tests_cant": "it speaks about all layouts", "anchors": ["include/fiction/technology/qca_one_library.hpp: qca_one_library, set_up_gate, post_layout_optimization, determine_port_routing", "include/fiction/technology/fcn_gate_library.hpp: rotate_90, rotate_180, rotate_270", "include/fiction/algorithms/physical_design/apply_gate_library.hpp: apply_gate_library"]}
{"id": "C93", "title": "A gate-level layout written to an FGL file is read back unchanged", "statement": "Writing a finished layout with write_fgl_layout succeeds, and read_fgl_layout creates from the file, in an empty layout of the same topology, the same layout: dimension, clocking scheme and clock numbers, gates and their tiles, data flow, inputs and outputs with their names, counts of gates and wires, and the name of the layout. Inputs keep their order, and so do outputs if none drives anything. A file for another topology is refused.", "quantifier": "all layouts reachable through the interface in which every gate has one of the named functions with all its incoming signals and leads to an output, all names that XML can hold, and all empty target layouts", "why_tests_cant": "it speaks about all layouts and the files written for them", "anchors": ["include/fiction/io/write_fgl_layout.hpp: write_fgl_layout_impl::run", "include/fiction/io/read_fgl_layout.hpp: read_fgl_layout_impl::run"]}
{"id": "C94", "title": "A cell-level QCA layout written to an FQCA file is read back with the same cells", "statement": "Writing a QCA cell-level layout with write_fqca_layout succeeds, and read_fqca_layout creates from the text a layout with the same cells: their types, inputs and outputs, names up to white space and, except for constants, clock numbers. The dimensions are the smallest ones around the cells and the modes those of the layers. With inter-layer vias, layer z becomes layer 2z and the only other cells are normal cells above vertical ones, with their clock numbers.", "quantifier": "all QCA cell-level layouts reachable through the interface that are inside their dimensions, have at most 52 labelled cells, no named constants and no line feeds in names, on at most four clocks, and all names of the layout", "why_tests_cant": "it speaks about all layouts and the texts written for them", "anchors": ["include/fiction/io/write_fqca_layout.hpp: write_fqca_layout_impl::run", "include/fiction/io/read_fqca_layout.hpp: read_fqca_layout_impl::run"]}
{"id": "C95", "title": "The FQCA reader accepts exactly the FQCA files", "statement": "read_fqca_layout returns a layout if and only if the text consists of a section of comments, layer separators and rows of cells and, after a line with a dollar sign, of definitions of labels that occur as cells; otherwise it throws the exception for an unsupported character, an undefined label or an unrecognized definition, which names an offending character, label or line.", "quantifier": "all texts", "why_tests_cant": "it speaks about all texts", "anchors": ["include/fiction/io/read_fqca_layout.hpp: read_fqca_layout_impl::run, parse_cell"]}
{"id": "C96", "title": "QuickSim returns physically valid charge distributions only and can find each one with negative and neutral SiDBs", "statement": "Whatever random numbers are drawn, however many threads run, whenever they run into the time limit and in whatever order they append their findings: QuickSim accesses no memory out of bounds, and every charge distribution it returns is a physically valid one of negative and neutral SiDBs with its energy and its charge index. Without a time limit and with alpha 0, every physically valid distribution of negative and neutral SiDBs is returned for some random numbers.", "quantifier": "all SiDB layouts without defects, all parameters, random numbers, interleavings of threads and points in time", "why_tests_cant": "the search is randomized and multi-threaded; tests see single runs", "anchors": ["include/fiction/algorithms/simulation/sidb/quicksim.hpp: quicksim", "include/fiction/technology/charge_distribution_surface.hpp: adjacent_search"]}
{"id": "C97", "title": "Defect surfaces store, count and locate defects faithfully, and the black list names exactly the gates that defects compromise", "statement": "After any sequence of assignments and moves (of defects to defect-free coordinates), each coordinate of an SiDB defect surface shows the defect that was last put there, and neither defects of type none nor ignored ones; the numbers of all, charged, positively and negatively charged and neutral defects are those of the coordinates that show one. The affected positions are exactly those on the surface within the distance to keep from some defect. The black list of the surface analysis holds, for each tile and function, the ports of exactly those implementations one of whose cells is affected.", "quantifier": "all sizes of surfaces and layouts, histories of calls, ignored types, overwritten distances, gate libraries, tilings", "why_tests_cant": "no finite number of surfaces covers all positions of defects relative to all cells of all gates on all tiles", "anchors": ["include/fiction/technology/sidb_defects.hpp: defect_extent, is_charged_defect_type, is_neutral_defect_type", "include/fiction/technology/sidb_defect_surface.hpp: assign_sidb_defect, move_sidb_defect, get_sidb_defect, num_defects, affected_sidbs, all_affected_sidbs", "include/fiction/technology/sidb_surface_analysis.hpp: sidb_surface_analysis"]}
{"id": "C98", "title": "Rank views hold every input and gate at its level, whatever is reordered or added", "statement": "A mutable rank view of a network lists each input and each gate exactly once, in the rank that is the length of the longest path to it and at the position that it reports; its width is that of the widest rank. This holds after creation, also from given ranks, and after any sequence of swaps, replaced and sorted ranks, rearranged inputs, updates and additions of inputs, gates and outputs. Swapping exchanges two nodes of a rank and moves no other; ranks can be replaced by exactly their permutations; a new node is put last into the rank of its level. Iterating over the nodes visits each after its fan-ins, and iterating over the inputs follows rank 0.", "quantifier": "all networks of fewer than 2^32 nodes, sequences of calls, comparison functions", "why_tests_cant": "no finite number of networks and sequences of calls covers all reorderings", "anchors": ["include/fiction/networks/views/mutable_rank_view.hpp: mutable_rank_view, rank_position, check_validity, set_ranks, set_all_ranks, get_ranks, at_rank_position, width, swap, sort_rank, foreach_node, foreach_gate, foreach_pi, foreach_ci, rearrange_pis, update_ranks, on_add", "include/fiction/networks/views/static_depth_view.hpp: update_levels, on_add"]}
{"id": "C99", "title": "Crossing minimization permutes ranks, counts exactly and never adds crossings", "statement": "On a rank view that is up to date, crossing minimization succeeds exactly if the network is path balanced. It returns a view of the same network whose ranks are those of the given view in another order and which is again in order. The number of crossings it reports is exactly that of the returned view, and at most that of the given one. With fixed inputs rank 0 stays as it is, and if only counting is asked for the view is unchanged. The comparison it sorts by is a strict weak ordering.", "quantifier": "all rank views of fewer than 2^32 nodes, parameters, sorting algorithms, roundings of medians and convergence tests", "why_tests_cant": "the heuristic runs through unboundedly many orders, and exact counts and absence of failed assertions must hold for each", "anchors": ["include/fiction/algorithms/graph/mincross.hpp: mincross, mincross_params, mincross_stats, mincross_impl", "include/fiction/networks/views/mutable_rank_view.hpp: set_all_ranks, set_ranks, swap", "include/fiction/algorithms/network_transformation/network_balancing.hpp: is_balanced"]}
{"id": "C100", "title": "Breadth-first topological views list nodes once, after their fan-ins and by levels", "statement": "A breadth-first topological view of a network lists the two constants, then the inputs in order, then gates. No node is listed twice, every node comes after all of its fan-ins, and levels never decrease along the order. It lists exactly the nodes that depend on no gate that has the same fan-in twice; hence all nodes if no gate does. Size and number of gates agree with what the iterations visit, indices and nodes correspond, reverse iterations visit the same nodes backwards.", "quantifier": "all complete networks of fewer than 2^32 nodes whose gates have fewer than 2^32 fan-ins", "why_tests_cant": "order and completeness depend on unboundedly many shapes of networks", "anchors": ["include/fiction/networks/views/bfs_topo_view.hpp: bfs_topo_view, size, num_gates, node_to_index, index_to_node, foreach_node, foreach_gate, foreach_node_reverse, foreach_gate_reverse, update_bfs_topo"]}
{"id": "C101", "title": "BDL pairs are disjoint, within the given distances, and the closest dots are paired", "statement": "Detecting the BDL pairs of a type returns a sorted list of pairs of dots of this type, upper before lower. Every pair is within the minimum and maximum distance and no dot is in two pairs. Of any two dots in range, at least one is in a pair that is at most as far apart. If no two distances in range are equal, these properties determine the result, so it depends neither on the order in which the layout visits its cells nor on the sorting algorithm. Without a type the pairs of inputs, outputs and normal dots are returned one after another.", "quantifier": "all SiDB layouts, histories of assignments, distances, parameters, types, orders of visits and sorting algorithms", "why_tests_cant": "the greedy matching depends on all pairwise distances of arbitrarily many dots and on unspecified orders", "anchors": ["include/fiction/algorithms/simulation/sidb/detect_bdl_pairs.hpp: detect_bdl_pairs, detect_bdl_pairs_params, bdl_pair"]}
{"id": "C102", "title": "Network conversion preserves inputs, outputs and functions", "statement": "Converting a logic network, possibly with complemented edges, to another type of networks returns a network with the same number of inputs and outputs, in which each output has exactly the value of the source's output under every assignment. This holds for every destination type whose operations compute their functions and that can build the gates that occur in the source. Technology networks are such a type and can represent every source.", "quantifier": "all source networks, topological orders, assignments and destination types", "why_tests_cant": "networks are unbounded and source and destination types are template parameters", "anchors": ["include/fiction/algorithms/network_transformation/network_conversion.hpp: convert_network", "include/fiction/networks/technology_network.hpp: create_not, create_nary_and, create_nary_or, create_nary_xor, create_node"]}
{"id": "C103", "title": "State types and the critical temperature of a gate are exact", "statement": "With kinks accepted, every charge distribution of an input pattern is listed once with its energy and whether all outputs are as wanted, in ascending order of energies. The critical temperature of a gate is 0 if for some input pattern positive charges can occur, there is no physically valid charge distribution, or no ground state is right. Otherwise it is the lowest multiple of 0.01 K up to the maximum at which, for some pattern, the probability of a wrong state exceeds one minus the confidence level, or the maximum temperature if there is none. The same holds with kinks rejected. For layouts that are no gates it is the lowest such temperature at which an excited state is too probable, or the maximum.", "quantifier": "all gates and layouts, input patterns, simulation results, truth tables, confidence levels, maximum temperatures and Boltzmann factors", "why_tests_cant": "the result depends on unboundedly many charge distributions, patterns and temperatures", "anchors": ["include/fiction/algorithms/simulation/sidb/critical_temperature.hpp: critical_temperature_gate_based, critical_temperature_non_gate_based", "include/fiction/algorithms/simulation/sidb/calculate_energy_and_state_type.hpp: calculate_energy_and_state_type_with_kinks_accepted, calculate_energy_and_state_type_with_kinks_rejected", "include/fiction/algorithms/simulation/sidb/occupation_probability_of_excited_states.hpp: occupation_probability_gate_based, occupation_probability_non_gate_based"]}
{"id": "C104", "title": "Defect clearance is the largest distance at which a defect still has influence", "statement": "For a layout with cells and a defect influence domain, the clearance is the largest distance of an influential position to its closest cell, or 0 if there is none. The distance does not depend on the order in which cells and points are visited. Unless it is 0, the reported position is an influential one at that distance.", "quantifier": "all layouts, defect influence domains, distance functions and orders of visits", "why_tests_cant": "domains and layouts are unbounded and are stored in hash maps with unspecified orders", "anchors": ["include/fiction/algorithms/simulation/sidb/defect_clearance.hpp: calculate_defect_clearance, defect_clearance"]}
{"id": "C105", "title": "Gates of technology networks have the functions they were made with, and are counted by them", "statement": "After any sequence of creations of inputs, outputs, gates by name and gates by truth table, each gate has the function that its creation asked for, and the number of gates reported for each gate type is the number of gates with that function: buffers with more than one fan-out are fan-outs, gates with functions without an own counter are other gates, inputs and constants are not counted. The reported total is the number of gates.", "quantifier": "all sequences of operations with well-formed truth tables of any size", "why_tests_cant": "functions are stored in a shared cache under numbers that the gate type tests compare with; any history of truth tables may precede", "anchors": ["include/fiction/networks/technology_network.hpp: create_buf, create_not, create_and, create_node, is_buf, is_and, is_gamble, add_additional_functions", "include/fiction/algorithms/properties/count_gate_types.hpp: count_gate_types, count_gate_types_stats"]}
{"id": "C106", "title": "The operational ratio is the share of operational points connected with the given point", "statement": "The statistics of an operational domain count exactly the points stored as operational, those stored as non-operational and all points of the sweep. The operational ratio around a point is the number of operational points connected with it through adjacent operational points, divided by the number of points of the sweep. It lies between 0 and 1 and is 0 exactly if the point is not operational. It does not depend on the number of threads or their schedule.", "quantifier": "all sweeps of any number of dimensions and sizes, operational statuses, points, numbers of threads and schedules", "why_tests_cant": "threads interleave in arbitrarily many ways and sweeps are unbounded", "anchors": ["include/fiction/algorithms/simulation/sidb/operational_domain_ratio.hpp: operational_domain_ratio", "include/fiction/algorithms/simulation/sidb/operational_domain.hpp: operational_domain_stats"]}
