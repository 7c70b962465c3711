(* Specification of the random instances of simplex_test.py. *)
From Verif Require Import Py Util M_Graph P_Graph M_Search M_Random M_SimplexTest Spec S_Flow S_MinCost.
Set Implicit Arguments. Unset Strict Implicit.
Local Open Scope string_scope. Local Open Scope list_scope. Local Open Scope Z_scope.

(* d.get(n, 0), and the sum of the values of d *)
Definition amount_at (d : dict Z Z) (n : Z) : Z := match dget d n with Some a => a | None => 0 end.
Definition total (d : dict Z Z) : Z := zsum (amount_at d) (dkeys d).
Definition within (r : Z * Z) (z : Z) : Prop := fst r <= z <= snd r.
(* d has [count] different keys, all in range(numnodes), with values of at least [lo] *)
Definition chosen (n : Z) (count : nat) (lo : Z) (d : dict Z Z) : Prop :=
  NoDup (dkeys d) /\ length d = count /\ (forall z, In z (dkeys d) -> 0 <= z < n) /\ forall z a, dget d z = Some a -> lo <= a.
(* the demand of node n when d holds the demands and s the supplies *)
Definition demand_from (d s : dict Z Z) (n : Z) : Z := if dmem d n then - amount_at d n else amount_at s n.

Record generated (p : tparams) (g : graph) (d s : dict Z Z) : Prop := {
  gn_wf : wf g;
  gn_dir : g_type g = Directed;
  (* the nodes are the ends of the arcs, and among range(numnodes) *)
  gn_nodes : forall x, In x (get_node_list g) <-> exists y, In (x, y) (get_edge_list g) \/ In (y, x) (get_edge_list g);
  gn_range : forall x, In x (get_node_list g) -> exists z, x = NI z /\ 0 <= z < tnumnodes p;
  gn_asym : asymmetric (get_edge_list g);
  gn_attr : forall x y, In (x, y) (get_edge_list g) ->
    (exists c, obs (get_edge_attr x y "capacity") g = Ok (VI c) /\ within (capacity_range p) c) /\
    (exists k, obs (get_edge_attr x y "cost") g = Ok (VI k) /\ within (cost_range p) k);
  gn_demand : chosen (tnumnodes p) (demand_numnodes p) (fst (demand_range p)) d;
  gn_supply : chosen (tnumnodes p) (supply_numnodes p) (fst (demand_range p)) s;
  gn_disjoint : forall z, In z (dkeys d) -> ~ In z (dkeys s);
  gn_total : (0 < demand_numnodes p)%nat -> (0 < supply_numnodes p)%nat -> total d = total s;
  gn_attrs : forall z, In (NI z) (get_node_list g) -> obs (get_node_attr (NI z) "demand") g = Ok (VI (demand_from d s z))
}.
