(* Capacities and flows of a graph, read through the API. *)
From Verif Require Import Py Util M_Graph M_Flow P_Attr S_Flow.
Set Implicit Arguments. Unset Strict Implicit.
Local Open Scope string_scope. Local Open Scope list_scope.

(* get_edge_attr(i, j, 'capacity'), or 10000 when the arc has no capacity *)
Definition cap_of (g : graph) (e : name * name) : Z :=
  match eattr g (fst e) (snd e) "capacity" with Some (VI z) => z | _ => INF end.
(* get_edge_attr(i, j, 'flow') *)
Definition flow_of (h : graph) (e : name * name) : Z := match eattr h (fst e) (snd e) "flow" with Some (VI z) => z | _ => 0 end.
(* capacities are ints where they are present *)
Definition int_caps (g : graph) : Prop :=
  forall x y, In (x, y) (get_edge_list g) -> eattr g x y "capacity" = None \/ exists z, eattr g x y "capacity" = Some (VI z).
Definition nonneg_caps (g : graph) : Prop := forall e, In e (get_edge_list g) -> (0 <= cap_of g e)%Z.
(* there are no two nodes with arcs in both directions *)
Definition no_antiparallel (g : graph) : Prop := forall x y, In (x, y) (get_edge_list g) -> In (y, x) (get_edge_list g) -> x = y.
(* a bound on the number of iterations of each loop: 2 #nodes + the sum of all capacities *)
Definition flow_fuel (g : graph) : nat := 2 * length (get_node_list g) + Z.to_nat (zsum (cap_of g) (get_edge_list g)).
(* get_node_attr(i, 'demand') *)
Definition demand_of (g : graph) (x : name) : Z := match obs (get_node_attr x "demand") g with Ok (VI z) => z | _ => 0 end.
Definition int_demands (g : graph) : Prop := forall x, In x (get_node_list g) -> exists z, obs (get_node_attr x "demand") g = Ok (VI z).
(* get_edge_attr(i, j, a) is an int for every arc (i, j) *)
Definition int_attr (g : graph) (a : string) : Prop := forall x y, In (x, y) (get_edge_list g) -> exists z, obs (get_edge_attr x y a) g = Ok (VI z).
