(* Specification of flows, on a list of arcs (pairs of nodes) and functions from arcs to integers. No reference to the model. *)
From Verif Require Import Py Util.
Set Implicit Arguments. Unset Strict Implicit.
Local Open Scope Z_scope.

Definition arcs := list (name * name).
Definition inflow (es : arcs) (f : name * name -> Z) (x : name) : Z := zsum f (filter (fun e => eqb (snd e) x) es).
Definition outflow (es : arcs) (f : name * name -> Z) (x : name) : Z := zsum f (filter (fun e => eqb (fst e) x) es).
(* what enters x minus what leaves x *)
Definition net (es : arcs) (f : name * name -> Z) (x : name) : Z := inflow es f x - outflow es f x.
(* f is a feasible flow from s to t for the capacities c *)
Record is_flow (es : arcs) (c : name * name -> Z) (s t : name) (f : name * name -> Z) : Prop := {
  flow_bounds : forall e, In e es -> 0 <= f e <= c e;
  flow_balance : forall x, x <> s -> x <> t -> net es f x = 0
}.
(* the amount arriving at t *)
Definition value (es : arcs) (t : name) (f : name * name -> Z) : Z := net es f t.
(* capacity of the arcs leaving the set of nodes S *)
Definition cut_capacity (es : arcs) (c : name * name -> Z) (S : name -> bool) : Z :=
  zsum c (filter (fun e => S (fst e) && negb (S (snd e))) es).
