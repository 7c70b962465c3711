(* Specification vocabulary: walks, reachability, hop distance and walk cost over an arbitrary
   relation between names. Nothing here refers to the algorithms. *)
From Verif Require Import Py M_Graph.
Set Implicit Arguments. Unset Strict Implicit.

Section Walks.
  Variable E : name -> name -> Prop.
  (* [walk a p b]: p is the list of nodes visited going from a to b along E *)
  Inductive walk : name -> list name -> name -> Prop :=
  | walk_one a : walk a [a] a
  | walk_step a b p c : E a b -> walk b p c -> walk a (a :: p) c.
  Definition reach (a b : name) : Prop := exists p, walk a p b.
  (* k is the least number of edges of a walk from a to b *)
  Definition hops (a b : name) (k : nat) : Prop :=
    (exists p, walk a p b /\ length p = S k) /\ forall p, walk a p b -> S k <= length p.

  Variable c : name -> name -> Z.
  Fixpoint wcost (p : list name) : Z :=
    match p with
    | a :: ((b :: _) as t) => (c a b + wcost t)%Z
    | _ => 0%Z
    end.
  (* z is the least cost of a walk from a to b *)
  Definition least_cost (a b : name) (z : Z) : Prop :=
    (exists p, walk a p b /\ wcost p = z) /\ forall p, walk a p b -> (z <= wcost p)%Z.
End Walks.

(* the arcs of a graph, as reported by check_edge (symmetric on undirected graphs) *)
Definition arc (g : graph) (x y : name) : Prop := check_edge g x y = true.
(* the arcs followed by search(..., reverse=rev) *)
Definition sarc (g : graph) (rev : bool) (x y : name) : Prop :=
  match g_type g, rev with Directed, true => arc g y x | _, _ => arc g x y end.
(* the 'cost' of an edge, read through the API (0 when it is not an int) *)
Definition edge_cost (g : graph) (x y : name) : Z :=
  match obs (get_edge_attr x y "cost") g with Ok (VI z) => z | _ => 0%Z end.
(* get_edge_attr(x, y, 'cost') is an int for every arc x -> y that search follows *)
Definition has_costs (g : graph) (rev : bool) : Prop :=
  forall x y, sarc g rev x y -> exists z, obs (get_edge_attr x y "cost") g = Ok (VI z).
Definition nonneg_costs (g : graph) (rev : bool) : Prop :=
  forall x y, sarc g rev x y -> exists z, obs (get_edge_attr x y "cost") g = Ok (VI z) /\ (0 <= z)%Z.
(* p is a node's predecessor in a predecessor dictionary *)
Definition pred_arc (pred : dict name name) (p n : name) : Prop := dget pred n = Some p.
