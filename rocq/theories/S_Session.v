(* Specification for C70: sessions of algorithm calls on one graph, and what "the same problem" means. *)
From Verif Require Import Py M_Graph M_Metrics M_Search M_Flow M_Preflow M_Dfs M_Prim M_Kruskal M_LabelCorr M_Floyd M_PageRank M_MinCost M_Simplex M_NetSimplex.
Local Open Scope string_scope. Local Open Scope list_scope.

(* the attributes in which the algorithms keep their notes and results *)
Definition node_marks : list string :=
  ["label"; "color"; "distance"; "priority"; "depth"; "component"; "disc_time"; "finish_time"; "index"; "lowlink"; "visited"; "excess"; "pred"; "thread"; "potential"].
Definition edge_marks : list string := ["color"; "label"; "flow"].

(* h states the same problem as g: only marks and the display mode differ, and arcs without a capacity may have got the default *)
Definition same_problem (g h : graph) : Prop :=
  get_node_list h = get_node_list g /\ get_edge_list h = get_edge_list g /\ g_type h = g_type g /\
  (forall n, obs (get_neighbors n) h = obs (get_neighbors n) g) /\
  (forall n, obs (get_in_neighbors n) h = obs (get_in_neighbors n) g) /\
  (forall n a, ~ In a node_marks -> obs (get_node_attr n a) h = obs (get_node_attr n a) g) /\
  (forall n m a, ~ In a edge_marks -> a <> "capacity" -> obs (get_edge_attr n m a) h = obs (get_edge_attr n m a) g) /\
  (forall n m, obs (get_edge_attr n m "capacity") h = obs (get_edge_attr n m "capacity") g \/
     obs (get_edge_attr n m "capacity") g = Err KeyError /\ obs (get_edge_attr n m "capacity") h = Ok (VI 10000)) /\
  (forall a, a <> "display" -> dget (g_attr h) a = dget (g_attr g) a).

(* one call on the graph, with any arguments (cancel and pivot_step are the second phase of cycle_canceling and one iteration of
   network_simplex; the first phase of both, which adds two nodes and deletes them again, is not among the calls); the graph afterwards, whether the call returns or raises.
   A call that runs out of fuel stands for one that is interrupted between two iterations of a loop. *)
Inductive call (g : graph) : graph -> Prop :=
| call_search (fr : frontier) fuel source dest component (q : fq fr) al rev : call g (fst (search fuel source dest component q al rev g))
| call_bfs (fr : frontier) fuel root component (q : fq fr) : call g (fst (bfs fuel root component q g))
| call_components (fr : frontier) fuel (q : fq fr) : call g (fst (label_components fuel q g))
| call_diameter (fr : frontier) fuel (q : fq fr) : call g (fst (get_diameter fuel q g))
| call_dfs fuel root disc finish component transpose display l : call g (fst (dfs fuel root disc finish component transpose display l g))
| call_hamiltonian source dest distance display pred : call g (fst (hamiltonian source dest distance display pred g))
| call_acyclic fuel source dest : call g (fst (acyclic_shortest_path fuel source dest g))
| call_strong fuel : call g (fst (label_strong_component fuel g))
| call_kruskal fuel d : call g (fst (kruskal fuel d g))
| call_prim (fr : frontier) peek fuel source display (q : fq fr) : call g (fst (minimum_spanning_tree_prim peek fuel source display q g))
| call_label_correcting py fuel source : call g (fst (fifo_label_correcting py fuel source g))
| call_floyd : call g (fst (floyd_warshall g))
| call_floyd_path fuel d n i j : call g (fst (floyd_warshall_get_path fuel d n i j g))
| call_negative_cycle fuel : call g (fst (get_negative_cycle fuel g))
| call_page_rank damping k delta : call g (fst (page_rank damping k delta g))
| call_degrees : call g (fst (get_degrees g))
| call_max_flow (fr : frontier) fuel (q : fq fr) source sink display : call g (fst (max_flow fuel q source sink display g))
| call_preflow (frs fr : frontier) held fuel (s : fq frs) (q : fq fr) source sink al display : call g (fst (max_flow_preflowpush held fuel s q source sink al display g))
| call_residual : call g (fst (create_residual_graph g))
| call_cycle_capacity cycle : call g (fst (find_cycle_capacity cycle g))
| call_augment_cycle amount cycle : call g (fst (augment_cycle amount cycle g))
| call_cancel fuel : call g (fst (cancel fuel g))
| call_simplex_search fuel source component_nr : call g (fst (simplex_search fuel source component_nr g))
| call_solution_graph : call g (fst (get_simplex_solution_graph g))
| call_find_cycle fuel : call g (fst (simplex_find_cycle fuel g))
| call_simplex_amount cycle : call g (fst (simplex_augment_cycle cycle g))
| call_connect fuel r : call g (fst (simplex_connect fuel r g))
| call_find_tree fuel : call g (fst (simplex_find_tree fuel g))
| call_mark_arcs t : call g (fst (simplex_mark_st_arcs t g))
| call_redraw fuel display root : call g (fst (simplex_redraw fuel display root g))
| call_potentials fuel t root : call g (fst (simplex_compute_potentials fuel t root g))
| call_identify_cycle fuel t k l : call g (fst (simplex_identify_cycle fuel t k l g))
| call_optimal t : call g (fst (simplex_optimal t g))
| call_entering_arc t pivot : call g (fst (simplex_select_entering_arc t pivot g))
| call_leaving_arc fuel t k l : call g (fst (simplex_determine_leaving_arc fuel t k l g))
| call_remove_arc t p q amount cycle : call g (fst (simplex_remove_arc t p q amount cycle g))
| call_pivot fuel display pivot root t : call g (fst (pivot_step fuel display pivot root t g))
| call_display_mode v : call g (fst (set_graph_attr "display" v g)).

Inductive session (g : graph) : graph -> Prop :=
| session_nil : session g g
| session_call h k : session g h -> call h k -> session g k.
