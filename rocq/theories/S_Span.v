(* Specification vocabulary for spanning trees: sets of edges (pairs of node names, read without
   orientation), what they connect, forests, and spanning forests of least total cost. *)
From Verif Require Import Py M_Graph Spec.
Set Implicit Arguments. Unset Strict Implicit.

Definition edge := (name * name)%type.
(* some edge of F joins x and y *)
Definition adj (F : list edge) (x y : name) : Prop := In (x, y) F \/ In (y, x) F.
(* x and y are connected by edges of F *)
Definition conn (F : list edge) (x y : name) : Prop := reach (adj F) x y.
(* no cycle: no edge joins nodes that the other edges connect *)
Definition acyclic (F : list edge) : Prop :=
  forall l1 e l2, F = l1 ++ e :: l2 -> ~ conn (l1 ++ l2) (fst e) (snd e).
(* F uses edges of E and connects everything that E connects *)
Definition spanning (E F : list edge) : Prop := incl F E /\ forall x y, conn E x y -> conn F x y.
Definition total (c : edge -> Z) (F : list edge) : Z := fold_right (fun e z => (c e + z)%Z) 0%Z F.
(* T is a spanning forest of E, and no spanning forest of E costs less *)
Definition min_spanning_forest (c : edge -> Z) (E T : list edge) : Prop :=
  spanning E T /\ acyclic T /\
  forall F, spanning E F -> acyclic F -> (total c T <= total c F)%Z.
(* with non-negative costs: no connecting set of edges at all costs less *)
Definition min_connecting (c : edge -> Z) (E T : list edge) : Prop :=
  forall F, spanning E F -> (total c T <= total c F)%Z.
(* the edge joining x and y as get_edge_list reports it *)
Definition listed (g : graph) (x y : name) : edge := if mem (x, y) (get_edge_list g) then (x, y) else (y, x).
(* the edges described by a predecessor dictionary *)
Definition pred_edges (g : graph) (pred : dict name name) : list edge := map (fun e => listed g (snd e) (fst e)) pred.
(* Es lists the edges of the connected component of s *)
Definition component_edges (g : graph) (s : name) (Es : list edge) : Prop :=
  forall e, In e Es <-> In e (get_edge_list g) /\ reach (arc g) s (fst e).
