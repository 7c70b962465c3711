(* Model of the network simplex method (graph.py:2356-3086). The spanning tree t is another Graph object: it is passed as a
   value, and returned by the functions that change it. *)
From Verif Require Import Py M_Graph M_Search M_Flow M_MinCost.
Set Implicit Arguments. Unset Strict Implicit.
Local Open Scope string_scope. Local Open Scope list_scope.

(* graph.py:2743-2755, 2683-2696, 2706-2721: the reduced cost of the arc e when the arc violates the optimality conditions, that is
   at flow 0 when negative, at the capacity when positive; the numbers are ints (see as_int) *)
Definition violation (e : name * name) : M graph (option Z) :=
  flow_ij <- edge_get e "flow" ;;
  potential_i <- get_node_attr (fst e) "potential" ;;
  potential_j <- get_node_attr (snd e) "potential" ;;
  capacity_ij <- edge_get e "capacity" ;;
  c_ij <- edge_get e "cost" ;;
  c_ij <- as_int c_ij ;; potential_i <- as_int potential_i ;; potential_j <- as_int potential_j ;;
  let cpi_ij := (c_ij - potential_i + potential_j)%Z in
  if eqb flow_ij (VI 0) then ret (if (cpi_ij <? 0)%Z then Some cpi_ij else None)
  else if eqb flow_ij capacity_ij then ret (if (cpi_ij >? 0)%Z then Some cpi_ij else None)
  else ret None.
(* graph.py:2727-2757 simplex_optimal; the list is self.edge_attr *)
Fixpoint optimal_from (t : graph) (l : list (name * name)) : M graph bool :=
  match l with
  | [] => ret true
  | e :: l =>
      if dmem (g_edges t) e then optimal_from t l
      else v <- violation e ;; match v with Some _ => ret false | None => optimal_from t l end
  end.
Definition simplex_optimal (t : graph) : M graph bool := es <- gets get_edge_list ;; optimal_from t es.
(* graph.py:2679-2704: the candidates with their reduced costs, then the one with the largest absolute value, the first in case of ties *)
Definition candidates (t : graph) : M graph (list (name * name * Z)) :=
  es <- gets get_edge_list ;;
  foldM (fun l e => if dmem (g_edges t) e then ret l
                    else v <- violation e ;; match v with Some z => ret (l ++ [(e, z)]) | None => ret l end) es [].
Fixpoint max_violation (l : list (name * name * Z)) (best : (name * name) * Z) : (name * name) * Z :=
  match l with
  | [] => best
  | (e, z) :: l => max_violation l (if (snd best <? Z.abs z)%Z then (e, Z.abs z) else best)
  end.
(* graph.py:2665-2725 simplex_select_entering_arc; max_c is unbound when there is no eligible arc (UnboundLocalError, a NameError) *)
Definition simplex_select_entering_arc (t : graph) (pivot : string) : M graph (name * name) :=
  if String.eqb pivot "dantzig" then
    l <- candidates t ;;
    match l with
    | [] => fail NameError
    | (e, z) :: _ => ret (fst (max_violation l (e, Z.abs z)))
    end
  else if String.eqb pivot "first_eligible" then
    es <- gets get_edge_list ;;
    r <- foldM (fun r e => if dmem (g_edges t) e then ret r
                           else v <- violation e ;; match v with Some _ => ret (Some e) | None => ret r end) es None ;;
    lift r NameError
  else fail (PyException "Unknown pivot rule.").
