{
 "claims": [
  {
   "property": "C01",
   "status": "proved",
   "theorems": [
    "C01_directed_views"
   ],
   "note": "all histories"
  },
  {
   "property": "C02",
   "status": "proved",
   "theorems": [
    "C02_undirected_views",
    "C02_default_type"
   ],
   "note": "all histories without del_node"
  },
  {
   "property": "C03",
   "status": "proved",
   "theorems": [
    "C03_add_node_duplicate",
    "C03_add_edge_duplicate",
    "C03_add_node_fresh",
    "C03_add_edge_fresh"
   ],
   "note": ""
  },
  {
   "property": "C04",
   "status": "proved",
   "theorems": [
    "C04_del_add_edge",
    "C04_del_absent",
    "C04_del_present"
   ],
   "note": ""
  },
  {
   "property": "C05",
   "status": "proved",
   "theorems": [
    "C05_del_node_directed",
    "C05_del_node_missing",
    "C05_del_node_undirected_raises"
   ],
   "note": "undirected: every call raises"
  },
  {
   "property": "C06",
   "status": "proved",
   "theorems": [
    "C06_node_attr",
    "C06_edge_attr",
    "C06_undirected_symmetric",
    "C06_missing"
   ],
   "note": ""
  },
  {
   "property": "C07",
   "status": "proved",
   "theorems": [
    "C07_counts",
    "C07_degrees_undirected",
    "C07_degrees_directed",
    "C07_untyped_raises"
   ],
   "note": ""
  },
  {
   "property": "C08",
   "status": "proved",
   "theorems": [
    "C08_no_clusters",
    "C08_clusters",
    "C08_unknown_cluster_node"
   ],
   "note": "exact text for graphs without clusters; with disjoint clusters the lines are permutations of the node and edge lists. The graph name is a parameter"
  },
  {
   "property": "C09",
   "status": "proved",
   "theorems": [
    "C09_undirected_cluster_edge"
   ],
   "note": "cluster attributes must be strings and cluster nodes must exist, otherwise an earlier exception is raised (C08_unknown_cluster_node)"
  },
  {
   "property": "C10",
   "status": "proved",
   "theorems": [
    "C10_quoting",
    "C10_injective",
    "C10_quoted",
    "C10_special",
    "C10_collision",
    "C10_trailing_backslash",
    "C10_numbers_with_colons",
    "C10_not_identifiers",
    "C10_numbers_and_strings",
    "C10_constants"
   ],
   "note": "dot_id in S_Dot.v is the reading of DOT identifiers (Graphviz documentation) the theorem refers to; code points above 255 are represented by 128..255"
  },
  {
   "property": "C11",
   "status": "proved",
   "theorems": [
    "C11_search_reachable"
   ],
   "note": "any bag-like frontier; Dijkstra/Prim need integer costs on the arcs as looked up (see C53)"
  },
  {
   "property": "C12",
   "status": "proved",
   "theorems": [
    "C12_search_path",
    "C12_selfloop_refuted"
   ],
   "note": "self-loops off the source excluded for DFS/Prim (negative ones for Dijkstra); the divergence with such a loop is C12_selfloop_refuted"
  },
  {
   "property": "C13",
   "status": "proved",
   "theorems": [
    "C13_bfs_shortest"
   ],
   "note": "any FIFO frontier"
  },
  {
   "property": "C14",
   "status": "proved",
   "theorems": [
    "C14_bfs_distance"
   ],
   "note": "any FIFO frontier, any earlier attributes"
  },
  {
   "property": "C15",
   "status": "proved",
   "theorems": [
    "C15_bfs_visits",
    "C15_bfs_distance_refuted",
    "C15_bfs_depth",
    "C15_dfs_depth"
   ],
   "note": "visited set proved; the documented breadth-first distances refuted; what the labels are instead (depths in the predecessor tree, upper bounds on the distance) proved for graphs without self-loops"
  },
  {
   "property": "C16",
   "status": "proved",
   "theorems": [
    "C16_dijkstra_tree",
    "C16_dijkstra_path",
    "C16_selfloop_refuted"
   ],
   "note": "self-loop at the source excluded; shown necessary by C16_selfloop_refuted"
  },
  {
   "property": "C17",
   "status": "proved",
   "theorems": [
    "C17_prim_mst"
   ],
   "note": "loop-free undirected graphs, negative costs allowed"
  },
  {
   "property": "C18",
   "status": "proved",
   "theorems": [
    "C18_label_components",
    "C18_label_directed"
   ],
   "note": ""
  },
  {
   "property": "C19",
   "status": "proved",
   "theorems": [
    "C19_search_frame"
   ],
   "note": "all graphs and arguments, also when search raises"
  },
  {
   "property": "C20",
   "status": "proved",
   "theorems": [
    "C20_dfs",
    "C20_transpose_diverges"
   ],
   "note": "every display mode, counters, component, transpose, earlier attribute contents; frame included. transpose=True needs a component other than None (C20_transpose_diverges) and integer finish times"
  },
  {
   "property": "C21",
   "status": "proved",
   "theorems": [
    "C21_topological_order"
   ],
   "note": "reachable part acyclic and without disc_time"
  },
  {
   "property": "C22",
   "status": "proved",
   "theorems": [
    "C22_acyclic_shortest_path",
    "C22_second_call",
    "C22_interior_source_raises"
   ],
   "note": "integer costs of any sign; also the predecessor tree when the destination is None or not a node. C22_second_call and C22_interior_source_raises: outside the hypotheses the call raises"
  },
  {
   "property": "C23",
   "status": "proved",
   "theorems": [
    "C23_strong_components",
    "C23_second_call",
    "C23_incremental_refuted"
   ],
   "note": "directed or undirected, self-loops allowed; C23_second_call and C23_incremental_refuted show what the hypothesis on 'index' is for"
  },
  {
   "property": "C24",
   "status": "proved",
   "theorems": [
    "C24_kruskal_mst",
    "C24_kruskal_frame"
   ],
   "note": "directed and undirected graphs, negative costs and self-loops allowed"
  },
  {
   "property": "C25",
   "status": "proved",
   "theorems": [
    "C25_union_find",
    "C25_reused_item_refuted",
    "C25_repeated_item_refuted"
   ],
   "note": "all histories with fresh items, including calls that raise; C25_reused_item_refuted and C25_repeated_item_refuted show that freshness is needed"
  },
  {
   "property": "C26",
   "status": "proved",
   "theorems": [
    "C26_feasible",
    "C26_same_endpoints"
   ],
   "note": "any bag-like container, integer non-negative or missing capacities; antiparallel arcs allowed; includes termination and frame. source = sink raises KeyError (C26_same_endpoints)"
  },
  {
   "property": "C27",
   "status": "proved",
   "theorems": [
    "C27_maximum",
    "C27_antiparallel_refuted"
   ],
   "note": "without antiparallel arcs, as documented; with them the flow can be smaller than maximum (C27_antiparallel_refuted)"
  },
  {
   "property": "C28",
   "status": "proved",
   "theorems": [
    "C28_missing_capacity",
    "C28_unlimited_refuted"
   ],
   "note": "capacity 10000 proved; C28_unlimited_refuted shows it is not unlimited"
  },
  {
   "property": "C29",
   "status": "proved",
   "theorems": [
    "C29_preflow_maximum",
    "C29_preflow_terminates",
    "C29_unknown_algo",
    "C29_unknown_algo_raises",
    "C29_antiparallel_refuted",
    "C29_source_loop_refuted"
   ],
   "note": "all three selection rules; partial correctness on every directed graph without a loop at the source; termination without antiparallel arcs when the sink can be reached from the source and from the heads of its arcs of nonzero capacity (dead ends further on are allowed; a dead end right after the source is not covered); C29_antiparallel_refuted and C29_source_loop_refuted show that the call can run for ever otherwise; any other algo raises NameError, with the arcs out of the source already filled"
  },
  {
   "property": "C30",
   "status": "proved",
   "theorems": [
    "C30_floyd_warshall",
    "C30_selfloop_refuted",
    "C30_undirected_refuted"
   ],
   "note": "negative costs and self-loops allowed; C30_selfloop_refuted and C30_undirected_refuted show what the hypotheses are for"
  },
  {
   "property": "C31",
   "status": "proved",
   "theorems": [
    "C31_get_path",
    "C31_same_node_raises",
    "C31_path_refuted"
   ],
   "note": "exact result of the call; the documented result is C31_path_refuted"
  },
  {
   "property": "C32",
   "status": "proved",
   "theorems": [
    "C32_cycle",
    "C32_negative_refuted",
    "C32_positive_refuted",
    "C32_finds_refuted",
    "C32_negative_loop_raises",
    "C32_empty_raises"
   ],
   "note": "C32_negative_refuted, C32_positive_refuted: the returned cycle may have cost 0 or a positive cost; C32_finds_refuted: the call may raise although there is a negative cycle; termination of the recursion is not claimed (fuel)"
  },
  {
   "property": "C33",
   "status": "proved",
   "theorems": [
    "C33_py3_raises",
    "C33_py3_first",
    "C33_py3_isolated",
    "C33_unknown_source"
   ],
   "note": "fifo_label_correcting compares the string 'inf' with a number: under Python 3 it raises TypeError for every source with a neighbour other than itself. The remaining calls (isolated source, unknown source) are characterised too."
  },
  {
   "property": "C34",
   "status": "proved",
   "theorems": [
    "C34_residual",
    "C34_antiparallel_raises",
    "C34_undirected_raises"
   ],
   "note": "Exact arcs, capacities and costs whenever no two opposite arcs compete for one residual arc; otherwise MultipleEdgeException (C34_antiparallel_raises); undirected graphs raise."
  },
  {
   "property": "C35",
   "status": "proved",
   "theorems": [
    "C35_conserves",
    "C35_capacity",
    "C35_bounds",
    "C35_empty_raises"
   ],
   "note": "Conservation for every closed sequence of nodes whose pairs are arcs in either direction, exact change per arc, bounds kept when the amount is at most the cycle capacity in the residual graph; empty cycle raises IndexError."
  },
  {
   "property": "C36",
   "status": "proved",
   "theorems": [
    "C36_supply",
    "C36_feasible",
    "C36_shortfall_refuted",
    "C36_no_supply_raises",
    "C36_no_demand_raises"
   ],
   "note": "Full decision theorem when demands add up to zero (C36_feasible) and the weaker guarantee otherwise (C36_supply); C36_shortfall_refuted: True although demand exceeds supply; error cases without supply or demand node."
  },
  {
   "property": "C37",
   "status": "proved",
   "theorems": [
    "C37_outcomes",
    "C37_cycle_canceling",
    "C37_termination_refuted",
    "C37_raises_refuted"
   ],
   "note": "Partial correctness: whatever is returned is right (no bound on iterations). Termination is false: C37_termination_refuted gives a feasible instance on which cycle_canceling never returns. C37_outcomes covers every way the call ends; C37_raises_refuted gives a feasible instance on which it raises."
  },
  {
   "property": "C38",
   "status": "proved",
   "theorems": [
    "C38_decides",
    "C38_optimal"
   ],
   "note": "Exactness of the test (C38_decides) and optimality of accepted tree solutions (C38_optimal)."
  },
  {
   "property": "C39",
   "status": "proved",
   "theorems": [
    "C39_dantzig",
    "C39_last_eligible",
    "C39_none",
    "C39_unknown_rule"
   ],
   "note": "dantzig, first_eligible (which returns the last eligible arc), no eligible arc (UnboundLocalError) and unknown rules."
  },
  {
   "property": "C40",
   "status": "proved",
   "theorems": [
    "C40_diameter"
   ],
   "note": "the maximum distance, not the minimum eccentricity of the docstring"
  },
  {
   "property": "C41",
   "status": "proved",
   "theorems": [
    "C41_page_rank",
    "C41_fixed_point",
    "C41_never_raises",
    "C41_undirected",
    "C41_residual",
    "C41_converges",
    "C41_unique",
    "C41_total"
   ],
   "note": "Ranks are exact rationals instead of floats. C41_residual, C41_converges, C41_total: a sweep (which updates the values in place) multiplies the total residual by at most the damping factor. C41_fixed_point: a rank vector that a further sweep does not change satisfies each equation up to d*|min_delta|."
  },
  {
   "property": "C42",
   "status": "proved",
   "theorems": [
    "C42_reused_name_refuted",
    "C42_only_exception",
    "C42_default_shared_refuted",
    "C42_default_across_graphs",
    "C42_own_dictionaries",
    "C42_number"
   ],
   "note": "the documented behaviour is refuted; positive part: with a dictionary of its own each call makes a new cluster"
  },
  {
   "property": "C43",
   "status": "proved",
   "theorems": [
    "C43_tree_structure",
    "C43_parent_keyword_refuted"
   ],
   "note": "all histories of add_root/add_child incl. raising calls; add_root must not be given parent=..., shown necessary by C43_parent_keyword_refuted"
  },
  {
   "property": "C44",
   "status": "proved",
   "theorems": [
    "C44_named_root",
    "C44_default_root_refuted"
   ],
   "note": "visit order fully characterised; the default root is refuted for every tree with a root"
  },
  {
   "property": "C45",
   "status": "proved",
   "theorems": [
    "C45_child_slots",
    "C45_reused_name_refuted",
    "C45_deletion_refuted"
   ],
   "note": "histories with add_root, add_left/right_child and del_node in which no call raises MultipleNodeException; both exclusions are shown necessary by the refutations"
  },
  {
   "property": "C46",
   "status": "proved",
   "theorems": [
    "C46_print_nodes"
   ],
   "note": "the display mode must be a true value ('off' is)"
  },
  {
   "property": "C47",
   "status": "proved",
   "theorems": [
    "C47_traversals",
    "C47_dfs_priority_refuted"
   ],
   "note": "bfs as documented; dfs explores the other child first, refuting the documentation"
  },
  {
   "property": "C48",
   "status": "proved",
   "theorems": [
    "C48_postordereval",
    "C48_numerals",
    "C48_zero_name_refuted"
   ],
   "note": "for every arithmetic (record arith), so independent of float rounding; names must be true values, see C48_zero_name_refuted"
  },
  {
   "property": "C49",
   "status": "proved",
   "theorems": [
    "C49_printexp"
   ],
   "note": "uniqueness needs labels other than parentheses"
  },
  {
   "property": "C50",
   "status": "proved",
   "theorems": [
    "C50_hamiltonian",
    "C50_documented_refuted"
   ],
   "note": "complete description of the result of every call; the documented one is refuted"
  },
  {
   "property": "C51",
   "status": "proved",
   "theorems": [
    "C51_degree_mode",
    "C51_density_mode",
    "C51_no_length_no_edges",
    "C51_no_labels_raises",
    "C51_euclidean_closest",
    "C51_euclidean_density",
    "C51_euclidean_random_raises",
    "C51_taken_name_raises",
    "C51_bad_degree_range_raises",
    "C51_undirected_parallel_refuted",
    "C51_defaults"
   ],
   "note": "All modes of random(), for every random stream; floats (coordinates and distances) are opaque. Degree mode: nodes, no self-loops, costs in range, labels, no reversed pair without parallel_allowed, at most degree_range[1] edges leave a node, no edge enters node 0. Raising runs and the refuted undirected parallel case are separate theorems."
  },
  {
   "property": "C52",
   "status": "proved",
   "theorems": [
    "C52_prim_method_mst",
    "C52_second_call_empty",
    "C52_after_search_refuted",
    "C52_other_queue_raises"
   ],
   "note": "For any priority queue satisfying the laws of S_Frontier.v; peek(n)[0] is taken to be the priority held for n. After search() or a previous call the result is empty (C52_after_search_refuted, C52_second_call_empty)."
  },
  {
   "property": "C53",
   "status": "proved",
   "theorems": [
    "C53_reverse_dijkstra_refuted",
    "C53_reverse_dijkstra",
    "C53_at_source",
    "C53_one_way"
   ],
   "note": "C53_reverse_dijkstra is the dichotomy; between the two sufficient conditions the outcome depends on the order in which the queue returns nodes"
  },
  {
   "property": "C54",
   "status": "proved",
   "theorems": [
    "C54_dfs_priority_queue_refuted",
    "C54_dfs_priority_queue",
    "C54_depth_two"
   ],
   "note": "C54_dfs_priority_queue is the dichotomy; between the two sufficient conditions the outcome depends on the order in which the queue returns nodes"
  },
  {
   "property": "C55",
   "status": "proved",
   "theorems": [
    "C55_py2",
    "C55_py2_frame",
    "C55_py2_decides"
   ],
   "note": "under Python 2, where a string compares greater than every number, the method is correct: least costs and predecessors, or a negative cycle; it terminates (fuel bound exists) on every input."
  },
  {
   "property": "C56",
   "status": "proved",
   "theorems": [
    "C56_network_simplex",
    "C56_termination_refuted",
    "C56_terminates"
   ],
   "note": "both pivot rules, any root, any bag frontier: never raises, True means optimal, False means infeasible; C56_terminates: returns on every nondegenerate problem (positive capacities, no proper set of nodes whose demand is carried exactly by arcs at full capacity); C56_termination_refuted: without this a zero-capacity arc makes it pivot for ever"
  },
  {
   "property": "C57",
   "status": "proved",
   "theorems": [
    "C57_dispatch",
    "C57_optimal",
    "C57_terminates"
   ],
   "note": "C57_terminates: with the simplex method it returns on nondegenerate problems; the printed messages are not modelled"
  },
  {
   "property": "C58",
   "status": "proved",
   "theorems": [
    "C58_labels",
    "C58_blue_min_cut"
   ],
   "note": "C58_labels needs no assumption on antiparallel arcs; C58_blue_min_cut does (see C27_antiparallel_refuted)"
  },
  {
   "property": "C59",
   "status": "proved",
   "theorems": [
    "C59_preflow_picture"
   ],
   "note": "partial correctness in the same form as C29 (returns or is still running); termination is C29_preflow_terminates"
  },
  {
   "property": "C60",
   "status": "proved",
   "theorems": [
    "C60_off",
    "C60_set_display_mode",
    "C60_frame",
    "C60_mode",
    "C60_highlight",
    "C60_unknown_node",
    "C60_restore_refuted"
   ],
   "note": "C60_restore_refuted: the color of highlighted nodes is not restored."
  },
  {
   "property": "C61",
   "status": "proved",
   "theorems": [
    "C61_create",
    "C61_create_kept",
    "C61_create_leaks",
    "C61_write",
    "C61_display_file",
    "C61_display_picture",
    "C61_display_xdot",
    "C61_display_kept"
   ],
   "note": "C61_create_leaks: the temporary file stays when Graphviz is absent or fails. Premise on the environment: mkstemp gives a path that does not exist."
  },
  {
   "property": "C62",
   "status": "proved",
   "theorems": [
    "C62_bound",
    "C62_optimal",
    "C62_tree",
    "C62_children",
    "C62_infinity_refuted",
    "C62_key"
   ],
   "note": "M_BB.v models examples/BB.py with rational LP values; the LP solver (PuLP) and the queue (blimpy) are parameters constrained by 'exact' and 'queue_laws'. C62_infinity_refuted: optimum below -9999 is missed."
  },
  {
   "property": "C63",
   "status": "proved",
   "theorems": [
    "C63_depth_first",
    "C63_best_first",
    "C63_best_first_refuted"
   ],
   "note": "C63_depth_first confirms the strategy; C63_best_first proves, and C63_best_first_refuted shows on a concrete program, that BEST_FIRST continues with the worst bound."
  },
  {
   "property": "C64",
   "status": "proved",
   "theorems": [
    "C64_solve",
    "C64_obj_value",
    "C64_instance",
    "C64_script",
    "C64_message_refuted",
    "C64_truncation_refuted"
   ],
   "note": "the LP solver is a parameter with the law `solves` (S_LP.v), PuLP floats are rationals; P_LP.v contains a solver that satisfies the law. C64_message_refuted and C64_truncation_refuted: weaknesses of the comparison"
  },
  {
   "property": "C65",
   "status": "proved",
   "theorems": [
    "C65_generate",
    "C65_balanced",
    "C65_problem",
    "C65_too_many",
    "C65_balanced_refuted"
   ],
   "note": "C65_balanced_refuted: an unbalanced instance, on which the script dies"
  },
  {
   "property": "C66",
   "status": "proved",
   "theorems": [
    "C66_repr",
    "C66_repr_str",
    "C66_repr_injective",
    "C66_repr_refuted",
    "C66_get_node",
    "C66_print_flow",
    "C66_print_flow_missing"
   ],
   "note": "control characters other than newline, carriage return and tab in repr of a str are not escaped in the model; text written by print is a string in the state"
  },
  {
   "property": "C67",
   "status": "proved",
   "theorems": [
    "C67_prim_returns",
    "C67_prim_history",
    "C67_prim_leftover",
    "C67_prim_history_refuted",
    "C67_tree_traverse",
    "C67_binary_traverse",
    "C67_binary_traverse_refuted"
   ],
   "note": "M_Shared.v has the shared queue in the state. C67_prim_history_refuted, C67_binary_traverse_refuted: an exception in one call breaks a later call on another object."
  },
  {
   "property": "C68",
   "status": "proved",
   "theorems": [
    "C68_contents",
    "C68_separate",
    "C68_live_lists",
    "C68_node_objects",
    "C68_add_node_object",
    "C68_detached",
    "C68_delete_while_iterating",
    "C68_delete_all_refuted",
    "C68_write_refuted"
   ],
   "note": "M_Heap.v has lists and Node objects on a heap; C68_contents ties it to M_Graph.v. C68_delete_all_refuted: deleting all edges in a loop over get_neighbors leaves every second one. C68_write_refuted: writing to the returned list breaks the graph."
  },
  {
   "property": "C69",
   "status": "proved",
   "theorems": [
    "C69_unknown_algorithm",
    "C69_unknown_source",
    "C69_wrong_queue",
    "C69_same_node",
    "C69_leftover"
   ],
   "note": "Exact results and the reset state after the call; for leftovers in q the call raises or runs on (any fuel), which exception is not said."
  },
  {
   "property": "C70",
   "status": "proved",
   "theorems": [
    "C70_problem_unchanged",
    "C70_max_flow_methods",
    "C70_shortest_path_methods",
    "C70_spanning_tree_methods",
    "C70_min_cost_methods",
    "C70_min_cost_calls",
    "C70_mixed_sessions",
    "C70_min_cost_again",
    "C70_max_flow_again"
   ],
   "note": "Every call listed in S_Session.v, in any state, with any arguments. Agreement is stated with hypotheses on the first graph only; preflow-push and the two minimum cost methods when they return. cycle_canceling and network_simplex are not calls of a session (they add and remove nodes)."
  },
  {
   "property": "C71",
   "status": "proved",
   "theorems": [
    "C71_simplex_search",
    "C71_unknown_source",
    "C71_undirected"
   ],
   "note": "The preorder is proved for the tree of predecessors of any graph, not only when the graph is itself a tree. Names that are strings of digits, which int() would accept, are outside the model."
  },
  {
   "property": "C72",
   "status": "proved",
   "theorems": [
    "C72_potentials",
    "C72_pivot_cycle",
    "C72_solution_graph",
    "C72_find_tree",
    "C72_pivot"
   ],
   "note": "Each function on its own, for any tree a caller brings; C56 is about the whole method. The bound on the fuel of simplex_find_tree in the statement bounds the number of cycles broken."
  },
  {
   "property": "C73",
   "status": "proved",
   "theorems": [
    "C73_redraw",
    "C73_mark",
    "C73_find_cycle",
    "C73_find_cycle_simple_refuted",
    "C73_find_cycle_empty",
    "C73_amount",
    "C73_amount_empty",
    "C73_connect",
    "C73_connect_empty"
   ],
   "note": "Loops terminate within the stated fuel. C73_find_cycle_simple_refuted: the returned list is not always a simple cycle. The text of the exception of simplex_mark_st_arcs is part of the theorem."
  },
  {
   "property": "C74",
   "status": "proved",
   "theorems": [
    "C74_graph",
    "C74_empty",
    "C74_tree"
   ],
   "note": "No hypotheses on the graph's state; keyword names of a tree are distinct, as Python enforces."
  }
 ]
}