(* The methods whose default argument q is one queue object, created when the class is defined and used by
   every call that is not given a q: Graph.minimum_spanning_tree_prim (graph.py:1243-1244), Tree.traverse
   (tree.py:145) and BinaryTree.traverse (tree.py:382). Here that object is part of the state, so what a call
   leaves in it is seen by the next call, on whatever graph or tree that is. *)
From Verif Require Import Py M_Graph M_Search M_Dfs M_Prim.
From Verif Require M_Tree.
Set Implicit Arguments. Unset Strict Implicit.
Local Open Scope string_scope.
Local Open Scope list_scope.

Section PrimShared.
  Variable fr : frontier.
  Notation Q := (fq fr).
  (* as in M_Prim.v: peek(n)[0] *)
  Variable peek_item : Q -> name -> res Z.
  Notation dicts := (dict name name).

  (* a call of a method of the graph; the queue stays as it is *)
  Definition onG {A} (m : M graph A) : M (graph * Q) A := fun s => let '(g, r) := m (fst s) in ((g, snd s), r).
  Definition setq (f : Q -> Q) : M (graph * Q) unit := modify (fun s => (fst s, f (snd s))).

  (* graph.py:1279-1292, one neighbour n of current *)
  Definition shared_edge (current : name) (pred : dicts) (n : name) : M (graph * Q) dicts :=
    c <- onG (get_node_attr n "color") ;;
    if eqb c (VS "green") then ret pred else
    onG (set_edge_attr current n "color" (VS "yellow")) ;;
    ne <- onG (get_edge_attr current n "cost") ;;
    better <- (if negb (dmem pred n) then ret true
               else p <- (fun s => (s, peek_item (snd s) n)) ;; ne <- onG (as_int ne) ;; ret (ne <? p)%Z) ;;
    pred' <- (if better : bool then
                onG (set_node_attr n "color" (VS "red")) ;;
                onG (set_node_attr n "label" ne) ;;
                p <- onG (as_int ne) ;;
                setq (fun q => fq_push q n (Some p)) ;;
                onG (set_node_attr n "color" (VS "black")) ;;
                ret (dset pred n current)
              else ret pred) ;;
    onG (set_edge_attr current n "color" (VS "black")) ;;
    ret pred'.

  (* graph.py:1271-1294, one turn of the while loop *)
  Definition shared_body (source : name) (pred : dicts) : M (graph * Q) (dicts + dicts) :=
    e <- gets (fun s => fq_isEmpty (snd s)) ;;
    if e : bool then ret (inr pred) else
    current <- (fun s => (s, match fq_peek (snd s) with Some x => Ok x | None => Err IndexError end)) ;;
    (fun s => match fq_remove (snd s) current with Some q => ((fst s, q), Ok tt) | None => (s, Err KeyError) end) ;;
    onG (set_node_attr current "color" (VS "blue")) ;;
    (if eqb current source then ret tt else
     p <- lift (dget pred current) KeyError ;;
     onG (set_edge_attr p current "color" (VS "green"))) ;;
    l <- onG (nbr_list current) ;;
    pred <- foldM (shared_edge current) l pred ;;
    onG (set_node_attr current "color" (VS "green")) ;;
    ret (inl pred).

  (* graph.py:1243-1295 without an argument q: the queue is the second part of the state. Not modelled: display(). *)
  Definition prim_shared (fuel : nat) (source : name) (display : option val) : M (graph * Q) dicts :=
    onG (enter_display display) ;;
    setq (fun q => fq_push q source None) ;;
    loop fuel (shared_body source) [].

  (* A history of calls of minimum_spanning_tree_prim(source, display) without q, each on some graph (the program
     may have changed or built it in any way since the last call): the contents of the default queue afterwards, and
     the result of every call with the graph it left. fuel bounds the turns of every while loop. *)
  Record prim_call := { c_graph : graph; c_source : name; c_display : option val }.
  Fixpoint prim_calls (fuel : nat) (cs : list prim_call) (q : Q) : Q * list (graph * res dicts) :=
    match cs with
    | [] => (q, [])
    | c :: cs => let '((h, q), r) := prim_shared fuel (c_source c) (c_display c) (c_graph c, q) in
                 let '(q, rs) := prim_calls fuel cs q in (q, (h, r) :: rs)
    end.
End PrimShared.

Import M_Tree.
Section TreeShared.
  (* a call of a method of the tree; the stack stays as it is *)
  Definition onT {A} (m : M tree A) : M (tree * list item) A := fun s => let '(t, r) := m (fst s) in ((t, snd s), r).
  Definition setk (f : list item -> list item) : M (tree * list item) unit := modify (fun s => (fst s, f (snd s))).
  (* while not q.isEmpty(): current = removeFromQ(); visit current *)
  Definition drain (fuel : nat) (visit : item -> M (tree * list item) unit) : M (tree * list item) unit :=
    loop fuel (fun _ : unit =>
      k <- gets snd ;;
      match k with
      | [] => ret (inr tt)
      | current :: k => setk (fun _ => k) ;; visit current ;; ret (inl tt)
      end) tt.
  (* tree.py:145-178 Tree.traverse without an argument q: the Stack is the second part of the state *)
  Definition tree_traverse_shared (fuel : nat) (root : option name) : M (tree * list item) unit :=
    r <- onT (root_item root) ;;
    setk (cons r) ;;
    drain fuel (fun current =>
      onT (emit (EHigh current)) ;;
      l <- onT (get_children_i current) ;;
      forM_ l (fun n => setk (cons (IName n)))).
  (* tree.py:382-432 BinaryTree.traverse without an argument q *)
  Definition bin_traverse_shared (fuel : nat) (s : side) (display : option val) (root : option name) : M (tree * list item) unit :=
    r <- onT (root_item root) ;;
    '(dsp, old) <- onT (M_Tree.enter_display display) ;;
    let add (c : side) (current : item) :=
      v <- onT (get_child c current) ;;
      match v with
      | VNone => ret tt
      | _ => m <- onT (as_name v) ;; setk (cons (IName m))
      end in
    setk (cons r) ;;
    drain fuel (fun current =>
      onT (show dsp current) ;;
      add s current ;;
      add (other s) current) ;;
    onT (leave_display old).
End TreeShared.
