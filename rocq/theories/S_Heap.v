(* The graph of contents behind a graph of objects (M_Heap.v). *)
From Verif Require Import Py M_Graph M_Heap.
Set Implicit Arguments. Unset Strict Implicit.
Local Open Scope string_scope. Local Open Scope list_scope.

(* every reference of a dictionary replaced by the contents of the object *)
Definition contents {K V} (h : nat -> V) (d : dict K nat) : dict K V := map (fun p => (fst p, h (snd p))) d.
Definition graph_of (s : ograph) : graph :=
  mkGraph (o_type s) (o_attr s) (contents (o_lists s) (o_nbrs s)) (contents (o_lists s) (o_in s)) (contents (o_objs s) (o_nodes s))
    (o_edges s) (o_cluster s) (o_ncomp s).
(* every second element, from the second one on *)
Fixpoint odds {A} (l : list A) : list A := match l with _ :: y :: t => y :: odds t | _ => [] end.
(* the states a program can bring a graph into: calls of M_Graph.v, and set_attr on Node objects that it got from get_node or
   add_node, of this graph or not. The lists that get_neighbors returns are only read *)
Inductive reach : ograph -> Prop :=
| r_new ty kw : reach (o_new ty kw)
| r_call o s : reach s -> reach (fst (o_exec o s))
| r_set x a v s : reach s -> reach (fst (node_set x a v s)).
