(* Model of the residual graph, the feasible flow and the cycle canceling algorithm
   (graph.py:1537-1652, 2192-2215, 2321-2354). *)
From Verif Require Import Py M_Graph M_Search M_Flow M_Floyd.
Set Implicit Arguments. Unset Strict Implicit.
Local Open Scope string_scope. Local Open Scope list_scope.

(* a call on another graph object, from inside a method of self: its exceptions propagate *)
Definition on {A} (m : M graph A) (r : graph) : M graph graph :=
  fun g => match m r with (r', Ok _) => (g, Ok r') | (_, Err e) => (g, Err e) end.
(* the result of a call on another graph object that does not change it *)
Definition ask {A} (m : M graph A) (r : graph) : M graph A := fun g => (g, snd (m r)).

(* graph.py:1552-1561 the body of the loop over the arcs; flows, capacities and costs are ints (see as_int) *)
Definition residual_step (r : graph) (e : name * name) : M graph graph :=
  capacity_e <- get_edge_attr (fst e) (snd e) "capacity" ;;
  flow_e <- get_edge_attr (fst e) (snd e) "flow" ;;
  cost_e <- get_edge_attr (fst e) (snd e) "cost" ;;
  capacity_e <- as_int capacity_e ;; flow_e <- as_int flow_e ;; cost_e <- as_int cost_e ;;
  r <- (if (flow_e >? 0)%Z then on (add_edge (snd e) (fst e) [("cost", VI (-1 * cost_e)); ("capacity", VI flow_e)]) r else ret r) ;;
  if (capacity_e - flow_e >? 0)%Z then on (add_edge (fst e) (snd e) [("cost", VI cost_e); ("capacity", VI (capacity_e - flow_e))]) r else ret r.
(* graph.py:1537-1562 create_residual_graph *)
Definition create_residual_graph : M graph graph :=
  t <- gets g_type ;;
  match t with
  | Undirected => fail (PyException "residual graph is defined for directed graphs.")
  | Directed =>
      es <- gets get_edge_list ;;
      foldM residual_step es (new_graph (Some Directed) [])
  end.

(* the pairs of consecutive elements of a list (the while loops of graph.py:2209-2214 and 2337-2346) *)
Fixpoint consecutive (l : list name) : list (name * name) :=
  match l with
  | x :: ((y :: _) as t) => (x, y) :: consecutive t
  | _ => []
  end.
(* graph.py:2192-2215 find_cycle_capacity; cycle[k-1] of an empty list raises IndexError *)
Definition find_cycle_capacity (cycle : list name) : M graph Z :=
  match cycle with
  | [] => fail IndexError
  | x :: _ =>
      c <- get_edge_attr (last cycle x) x "capacity" ;;
      c <- as_int c ;;
      foldM (fun capacity e =>
        c <- get_edge_attr (fst e) (snd e) "capacity" ;; c <- as_int c ;;
        ret (if (capacity >? c)%Z then c else capacity)) (consecutive cycle) c
  end.
(* graph.py:2340-2345 and 2349-2354 *)
Definition augment_pair (amount : Z) (p : name * name) : M graph unit :=
  let '(i, j) := p in
  b <- gets (fun g => dmem (g_edges g) (i, j)) ;;
  if b : bool then
    f <- edge_get (i, j) "flow" ;; f <- as_int f ;; edge_set (i, j) "flow" (VI (f + amount)%Z)
  else
    f <- edge_get (j, i) "flow" ;; f <- as_int f ;; edge_set (j, i) "flow" (VI (f - amount)%Z).
(* graph.py:2321-2354 augment_cycle *)
Definition augment_cycle (amount : Z) (cycle : list name) : M graph unit :=
  forM_ (consecutive cycle) (augment_pair amount) ;;
  match cycle with
  | [] => fail IndexError
  | x :: _ => augment_pair amount (last cycle x, x)
  end.

(* graph.py:1630-1637 the arc added for node i; demands are ints *)
Definition demand_arc (i : name) : M graph unit :=
  b_i <- get_node_attr i "demand" ;;
  b_i <- as_int b_i ;;
  if (b_i >? 0)%Z then add_edge (NS "s") i [("capacity", VI b_i)]
  else if (b_i <? 0)%Z then add_edge i (NS "t") [("capacity", VI (-1 * b_i))]
  else ret tt.
(* graph.py:1642-1648 the test that every arc leaving s is saturated *)
Fixpoint saturated (l : list name) : M graph bool :=
  match l with
  | [] => ret true
  | i :: l =>
      flow <- get_edge_attr (NS "s") i "flow" ;;
      capacity <- get_edge_attr (NS "s") i "capacity" ;;
      if eqb flow capacity then saturated l else ret false
  end.

Section MinCost.
  Variable fr : frontier.
  Notation Q := (fq fr).
  (* graph.py:1606-1652 find_feasible_flow; max_flow uses its default algo 'DFS', the frontier Stack *)
  Definition find_feasible_flow (fuel : nat) (q0 : Q) : M graph bool :=
    nl <- gets get_node_list ;;
    forM_ nl demand_arc ;;
    max_flow fuel q0 (NS "s") (NS "t") (Some (VS "off")) ;;
    l <- nbr_list (NS "s") ;;
    b <- saturated l ;;
    del_node (NS "s") ;;
    del_node (NS "t") ;;
    ret b.
  (* graph.py:1588-1604 *)
  Definition cancel (fuel : nat) : M graph bool :=
    residual_g <- create_residual_graph ;;
    ncycle <- ask (get_negative_cycle fuel) residual_g ;;
    loop fuel (fun s : graph * option (list name) =>
      let '(residual_g, ncycle) := s in
      match ncycle with
      | None => ret (inr true)
      | Some ncycle =>
          cap <- ask (find_cycle_capacity ncycle) residual_g ;;
          augment_cycle cap ncycle ;;
          residual_g <- create_residual_graph ;;
          ncycle <- ask (get_negative_cycle fuel) residual_g ;;
          ret (inl (residual_g, ncycle))
      end) (residual_g, ncycle).
  (* graph.py:1564-1604 cycle_canceling *)
  Definition cycle_canceling (fuel : nat) (q0 : Q) : M graph bool :=
    b <- find_feasible_flow fuel q0 ;;
    if b : bool then cancel fuel else ret false.
End MinCost.
