(* Specification for C71: the tree that simplex_search lays over the nodes it reaches. *)
From Verif Require Import Py M_Graph Spec S_MinCost.
Local Open Scope string_scope. Local Open Scope list_scope.

(* an arc in one of the two directions *)
Definition linked (g : graph) (x y : name) : Prop := In (x, y) (get_edge_list g) \/ In (y, x) (get_edge_list g).
(* the arcs of the tree given by a predecessor dictionary *)
Definition tree_arc (pred : dict name (option name)) (x y : name) : Prop := dget pred y = Some (Some x).
(* order lists every subtree as one block that begins with its root, and the block of x ends where the depth falls back to that of x or less *)
Definition preorder (pred : dict name (option name)) (depth : name -> Z) (order : list name) : Prop :=
  forall s1 x s2, order = s1 ++ x :: s2 -> exists sub rest, s2 = sub ++ rest /\
    (forall y, In y (x :: sub) <-> reach (tree_arc pred) x y) /\ (forall y, In y sub -> (depth x < depth y)%Z) /\
    match rest with [] => True | y :: _ => (depth y <= depth x)%Z end.
