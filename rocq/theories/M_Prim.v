(* Model of Graph.minimum_spanning_tree_prim (graph.py:1243-1295). *)
From Verif Require Import Py M_Graph M_Search M_Dfs.
Set Implicit Arguments. Unset Strict Implicit.
Local Open Scope string_scope.
Local Open Scope list_scope.

Section PrimMethod.
  Variable fr : frontier.
  Notation Q := (fq fr).
  (* peek(n)[0] (graph.py:1284): the priority the queue holds for n, in the blimpy version whose
     peek(item) returns a (priority, item) pair. blimpy is not part of /repo, so this is a parameter. *)
  Variable peek_item : Q -> name -> res Z.

  (* graph.py:1279-1292, one neighbour n of current *)
  Definition prim_edge (current : name) (st : dict name name * Q) (n : name) : M graph (dict name name * Q) :=
    let '(pred, q) := st in
    c <- get_node_attr n "color" ;;
    if eqb c (VS "green") then ret (pred, q) else
    set_edge_attr current n "color" (VS "yellow") ;;
    ne <- get_edge_attr current n "cost" ;;
    better <- (if negb (dmem pred n) then ret true
               else p <- (fun g => (g, peek_item q n)) ;; ne <- as_int ne ;; ret (ne <? p)%Z) ;;
    st' <- (if better : bool then
              set_node_attr n "color" (VS "red") ;;
              set_node_attr n "label" ne ;;
              p <- as_int ne ;;
              set_node_attr n "color" (VS "black") ;;
              ret (dset pred n current, fq_push q n (Some p))
            else ret (pred, q)) ;;
    set_edge_attr current n "color" (VS "black") ;;
    ret st'.

  (* graph.py:1271-1294, one turn of the while loop. q.pop() is a peek and a removal. pred[current] is
     only read for current other than the source. *)
  Definition prim_body (source : name) (st : dict name name * Q) : M graph (dict name name * Q + dict name name) :=
    let '(pred, q) := st in
    if fq_isEmpty q then ret (inr pred) else
    current <- lift (fq_peek q) IndexError ;;
    q <- lift (fq_remove q current) KeyError ;;
    set_node_attr current "color" (VS "blue") ;;
    (if eqb current source then ret tt else
     p <- lift (dget pred current) KeyError ;;
     set_edge_attr p current "color" (VS "green")) ;;
    l <- nbr_list current ;;
    st <- foldM (prim_edge current) l (pred, q) ;;
    set_node_attr current "color" (VS "green") ;;
    ret (inl st).

  (* graph.py:1243-1295. A q that is no PriorityQueue leaves addToQ unbound (UnboundLocalError, a
     NameError). Not modelled: display(). *)
  Definition minimum_spanning_tree_prim (fuel : nat) (source : name) (display : option val) (q0 : Q) : M graph (dict name name) :=
    enter_display display ;;
    if fq_is_pq fr then loop fuel (prim_body source) ([], fq_push q0 source None) else fail NameError.
End PrimMethod.
