(* What a populated graph is, for the theorems about Graph.random. *)
From Verif Require Import Py M_Graph M_Search P_Graph.
Set Implicit Arguments. Unset Strict Implicit.
Local Open Scope string_scope.
Local Open Scope list_scope.
Local Open Scope Z_scope.

(* the attributes of an edge created from the format [fmt]: its cost when it has one, and str(cost) as
   its label when labels are asked for *)
Definition fmt_attr (fmt : attrs) (a : string) : res val := match dget fmt a with Some v => Ok v | None => Err KeyError end.
Definition edge_attr_of (fmt : attrs) (cost : option Z) (labels : bool) (a : string) : res val :=
  match cost with
  | Some z => if eqb a "label" && labels then Ok (VS (str_of_Z z)) else if eqb a "cost" then Ok (VI z) else fmt_attr fmt a
  | None => fmt_attr fmt a
  end.
Definition node_attr_of (fmt : attrs) (a : string) : res val := Ok (match dget fmt a with Some v => v | None => VNone end).

(* h is g with the nodes 0..n-1 (node i formatted by [nf i]) and the edges [new] added: they join
   distinct new nodes and carry their format, and a cost allowed by [cost_ok]; everything in g is kept *)
Record populated (g h : graph) (n : Z) (nf : Z -> attrs) (fmt : attrs) (labels : bool) (cost_ok : Z -> Z -> option Z -> Prop)
    (new : list (name * name)) : Prop := {
  pop_wf : wf h;
  pop_type : g_type h = g_type g;
  pop_nodes : get_node_list h = get_node_list g ++ map NI (map Z.of_nat (seq 0 (Z.to_nat n)));
  pop_edges : get_edge_list h = get_edge_list g ++ new;
  pop_node_new : forall i a, 0 <= i < n -> obs (get_node_attr (NI i) a) h = node_attr_of (nf i) a;
  pop_node_old : forall x a, In x (get_node_list g) -> obs (get_node_attr x a) h = obs (get_node_attr x a) g;
  pop_edge_new : forall x y, In (x, y) new -> exists i j c, x = NI i /\ y = NI j /\ 0 <= i < n /\ 0 <= j < n /\ i <> j /\ cost_ok i j c /\
     forall a, obs (get_edge_attr x y a) h = edge_attr_of fmt c labels a;
  pop_edge_old : forall x y a, check_edge g x y = true -> obs (get_edge_attr x y a) h = obs (get_edge_attr x y a) g
}.
(* none of the names 0..n-1 is taken *)
Definition free_names (g : graph) (n : Z) : Prop := forall i, 0 <= i < n -> ~ In (NI i) (get_node_list g).
(* costs drawn from an interval *)
Definition cost_in (r : option (Z * Z)) (i j : Z) (c : option Z) : Prop :=
  match r with Some (lo, hi) => exists z, c = Some z /\ lo <= z <= hi | None => c = None end.
Definition no_reversed (new : list (name * name)) : Prop := forall x y, In (x, y) new -> ~ In (y, x) new.
Definition tails (m : name) (new : list (name * name)) : nat := length (filter (fun e => eqb (fst e) m) new).
