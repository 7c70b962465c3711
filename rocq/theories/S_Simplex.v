(* What the network simplex method looks at, in terms of the observers of the API. *)
From Verif Require Import Py Util M_Graph Spec S_Flow S_GraphFlow.
Set Implicit Arguments. Unset Strict Implicit.
Local Open Scope string_scope. Local Open Scope list_scope.

(* get_node_attr(n, 'potential') *)
Definition int_potentials (g : graph) : Prop := forall x, In x (get_node_list g) -> exists z, obs (get_node_attr x "potential") g = Ok (VI z).
Definition pot_of (g : graph) (x : name) : Z := match obs (get_node_attr x "potential") g with Ok (VI z) => z | _ => 0%Z end.
(* cost(i, j) - potential(i) + potential(j) *)
Definition reduced_cost (g : graph) (e : name * name) : Z := (edge_cost g (fst e) (snd e) - pot_of g (fst e) + pot_of g (snd e))%Z.
(* an arc outside the tree at a bound whose flow should change *)
Definition eligible (g t : graph) (e : name * name) : Prop := In e (get_edge_list g) /\ ~ In e (get_edge_list t) /\
  (flow_of g e = 0 /\ reduced_cost g e < 0 \/ flow_of g e <> 0 /\ flow_of g e = cap_of g e /\ 0 < reduced_cost g e)%Z.
