(* Specification for C72: spanning tree solutions of a minimum cost flow problem. *)
From Verif Require Import Py Util M_Graph M_Flow Spec S_Span S_Flow S_GraphFlow S_MinCost S_SimplexSearch.
Local Open Scope string_scope. Local Open Scope list_scope.

(* the flow of g satisfies the demands and the bounds, t is a spanning tree of arcs of g, and the arcs outside t are at a bound *)
Record tree_solution (demand : name -> Z) (g t : graph) : Prop := {
  sol_flow : feasible (get_node_list g) (get_edge_list g) (cap_of g) demand (flow_of g);
  sol_nodes : forall x, In x (get_node_list t) <-> In x (get_node_list g);
  sol_arcs : incl (get_edge_list t) (get_edge_list g);
  sol_acyclic : acyclic (get_edge_list t);
  sol_spans : forall x y, In x (get_node_list g) -> In y (get_node_list g) -> reach (linked t) x y;
  sol_bounds : forall e, In e (get_edge_list g) -> ~ In e (get_edge_list t) -> (flow_of g e = 0 \/ flow_of g e = cap_of g e)%Z
}.
(* h is g with other flows: nodes, arcs, and the costs and capacities of the arcs are those of g, and every arc has a flow *)
Definition reflowed (g h : graph) : Prop :=
  get_node_list h = get_node_list g /\ get_edge_list h = get_edge_list g /\
  (forall x y, In (x, y) (get_edge_list g) ->
    obs (get_edge_attr x y "capacity") h = obs (get_edge_attr x y "capacity") g /\ obs (get_edge_attr x y "cost") h = obs (get_edge_attr x y "cost") g /\
    exists z, obs (get_edge_attr x y "flow") h = Ok (VI z)).
(* the arcs of t carry the flow, the capacity, the cost and the label of those of g *)
Definition tree_shows (g t : graph) : Prop := forall x y, In (x, y) (get_edge_list t) -> forall a, In a ["flow"; "capacity"; "cost"; "label"] ->
  obs (get_edge_attr x y a) t = obs (get_edge_attr x y a) g.
(* the label reads flow/capacity/cost *)
Definition flow_labelled (g : graph) (x y : name) : Prop :=
  obs (get_edge_attr x y "label") g = Ok (VS (str_int (flow_of g (x, y)) ++ "/" ++ str_int (cap_of g (x, y)) ++ "/" ++ str_int (edge_cost g x y))).
