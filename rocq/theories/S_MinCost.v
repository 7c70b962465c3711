(* Specification of minimum cost flow problems, on a list of arcs and functions from arcs or nodes to integers. No reference to the model. *)
From Coq Require Import QArith.
From Verif Require Import Py Util S_Flow.
Set Implicit Arguments. Unset Strict Implicit.
Local Open Scope Z_scope. Local Open Scope list_scope.

(* f respects the capacities c and sends demand x out of each node x (supply when positive) *)
Record feasible (nodes : list name) (es : arcs) (c : name * name -> Z) (demand : name -> Z) (f : name * name -> Z) : Prop := {
  fs_bounds : forall e, In e es -> 0 <= f e <= c e;
  fs_demand : forall x, In x nodes -> outflow es f x - inflow es f x = demand x
}.
(* as above, but a node with negative demand may receive less than it asks for *)
Record weakly_feasible (nodes : list name) (es : arcs) (c : name * name -> Z) (demand : name -> Z) (f : name * name -> Z) : Prop := {
  wf_bounds : forall e, In e es -> 0 <= f e <= c e;
  wf_supply : forall x, In x nodes -> 0 <= demand x -> outflow es f x - inflow es f x = demand x;
  wf_demand : forall x, In x nodes -> demand x < 0 -> demand x <= outflow es f x - inflow es f x <= 0
}.
Definition flow_cost (es : arcs) (cost : name * name -> Z) (f : name * name -> Z) : Z := zsum (fun e => cost e * f e) es.
(* the same for flows of rational amounts *)
Definition qsum {A} (f : A -> Q) (l : list A) : Q := fold_right (fun e z => (f e + z)%Q) 0%Q l.
Definition qinflow (es : arcs) (f : name * name -> Q) (x : name) : Q := qsum f (filter (fun e => eqb (snd e) x) es).
Definition qoutflow (es : arcs) (f : name * name -> Q) (x : name) : Q := qsum f (filter (fun e => eqb (fst e) x) es).
Record qfeasible (nodes : list name) (es : arcs) (c : name * name -> Z) (demand : name -> Z) (f : name * name -> Q) : Prop := {
  qf_bounds : forall e, In e es -> (0 <= f e <= inject_Z (c e))%Q;
  qf_demand : forall x, In x nodes -> (qoutflow es f x - qinflow es f x == inject_Z (demand x))%Q
}.
Definition qflow_cost (es : arcs) (cost : name * name -> Z) (f : name * name -> Q) : Q := qsum (fun e => inject_Z (cost e) * f e)%Q es.
(* f is a feasible flow in integers, and no feasible flow, also in fractions, costs less *)
Definition min_cost (nodes : list name) (es : arcs) (c : name * name -> Z) (demand : name -> Z) (cost f : name * name -> Z) : Prop :=
  feasible nodes es c demand f /\ forall f', qfeasible nodes es c demand f' -> (inject_Z (flow_cost es cost f) <= qflow_cost es cost f')%Q.
(* no arc is a self-loop or has an arc in the opposite direction *)
Definition asymmetric (es : arcs) : Prop := forall x y, In (x, y) es -> ~ In (y, x) es.
(* the pairs of successive nodes of a cycle given as a list, the closing pair included *)
Definition cycle_pairs (l : list name) : list (name * name) :=
  match l with [] => [] | x :: t => combine l (t ++ [x]) end.
(* Nondegenerate problems: capacities are positive, and arcs used at full capacity never carry exactly the demand of a set of nodes
   that is neither empty nor everything *)
Definition nondegenerate (nodes : list name) (es : arcs) (c : name * name -> Z) (demand : name -> Z) : Prop :=
  (forall e, In e es -> 0 < c e) /\
  forall (S : name -> bool) (full : name * name -> bool), (exists x, In x nodes /\ S x = true) -> (exists y, In y nodes /\ S y = false) ->
    let carried := fun e => if full e then c e else 0 in
    zsum demand (filter S nodes) <> cut_capacity es carried S - cut_capacity es carried (fun x => negb (S x)).
