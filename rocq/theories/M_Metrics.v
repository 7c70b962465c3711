(* Model of the degree methods of class Graph (graph.py:3362-3416). *)
From Verif Require Import Py M_Graph.

(* self.attr['type']: KeyError if the graph was built without type= *)
Definition attr_type : M graph val := fun g =>
  (g, match dget (g_attr g) "type"%string with Some v => Ok v | None => Err KeyError end).
Definition is_directed_val (v : val) : bool := eqb v (VS "digraph").

(* the common loop   for n in self.get_node_list(): degree[n] = ...   *)
Definition degree_loop (deg : name -> M graph nat) : M graph (dict name nat) :=
  ns <- gets get_node_list ;;
  foldM (fun d n => x <- deg n ;; ret (dset d n x)) ns [].

(* graph.py:3362-3380 get_degrees; falling off the end returns None *)
Definition get_degrees : M graph (option (dict name nat)) :=
  t <- attr_type ;;
  if negb (is_directed_val t) then
    d <- degree_loop (fun n => l <- get_neighbors n ;; ret (length l)) ;; ret (Some d)
  else
    d <- degree_loop (fun n => li <- get_in_neighbors n ;; lo <- get_out_neighbors n ;; ret (length li + length lo)) ;;
    ret None.

(* graph.py:3382-3398 get_in_degrees (print is not modelled) *)
Definition get_in_degrees : M graph (option (dict name nat)) :=
  t <- attr_type ;;
  if negb (is_directed_val t) then ret None
  else d <- degree_loop (fun n => l <- get_in_neighbors n ;; ret (length l)) ;; ret (Some d).

(* graph.py:3400-3416 get_out_degrees *)
Definition get_out_degrees : M graph (option (dict name nat)) :=
  t <- attr_type ;;
  if negb (is_directed_val t) then ret None
  else d <- degree_loop (fun n => l <- get_out_neighbors n ;; ret (length l)) ;; ret (Some d).
