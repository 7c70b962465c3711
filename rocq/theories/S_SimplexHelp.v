(* Specification for C73: closed walks and the flow that can be pushed around them. *)
From Verif Require Import Py Util M_Graph M_Flow Spec S_Flow S_GraphFlow S_MinCost.
Local Open Scope string_scope. Local Open Scope list_scope.

(* what can be sent from i to j: the unused capacity of the arc (i, j), or else the flow of the arc (j, i) *)
Definition room_of (g : graph) (p : name * name) : Z :=
  if mem p (get_edge_list g) then (cap_of g p - flow_of g p)%Z else flow_of g (snd p, fst p).
(* a closed walk along arcs, in either direction, that takes no step twice; its last step, back to the first node, is taken in one direction only *)
Definition closed_walk (g : graph) (l : list name) : Prop :=
  NoDup (cycle_pairs l) /\ (forall i j, In (i, j) (cycle_pairs l) -> In (i, j) (get_edge_list g) \/ In (j, i) (get_edge_list g)) /\
  exists x t, l = x :: t /\ ~ In (x, last l x) (cycle_pairs l).
