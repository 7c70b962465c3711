(* The core of class Graph (/repo/src/gimpy/graph.py) with object identity: neighbour lists and Node objects live in a heap
   and the dictionaries of the graph hold references to them, as in Python. M_Graph.v is the same code with the contents in
   place of the references. The attribute dictionaries of edges and of the graph are never returned to a caller and stay
   values here. *)
From Verif Require Import Py M_Graph.
Set Implicit Arguments. Unset Strict Implicit.
Local Open Scope string_scope. Local Open Scope list_scope.

(* graph.py:199-242 (Graph.__init__): as the record graph of M_Graph.v, with references (natural numbers) in the dictionaries
   self.neighbors, self.in_neighbors and self.nodes. o_lists: the contents of every list object; o_objs: the attribute
   dictionary of every Node object; o_next: the first reference not in use *)
Record ograph := mkO {
  o_type : gtype;
  o_attr : attrs;
  o_nbrs : dict name nat;
  o_in : dict name nat;
  o_nodes : dict name nat;
  o_edges : dict (name * name) attrs;
  o_cluster : dict val cluster;
  o_ncomp : option Z;
  o_lists : nat -> list name;
  o_objs : nat -> attrs;
  o_next : nat
}.
Definition o_put_nbrs x s := mkO (o_type s) (o_attr s) x (o_in s) (o_nodes s) (o_edges s) (o_cluster s) (o_ncomp s) (o_lists s) (o_objs s) (o_next s).
Definition o_put_in x s := mkO (o_type s) (o_attr s) (o_nbrs s) x (o_nodes s) (o_edges s) (o_cluster s) (o_ncomp s) (o_lists s) (o_objs s) (o_next s).
Definition o_put_nodes x s := mkO (o_type s) (o_attr s) (o_nbrs s) (o_in s) x (o_edges s) (o_cluster s) (o_ncomp s) (o_lists s) (o_objs s) (o_next s).
Definition o_put_edges x s := mkO (o_type s) (o_attr s) (o_nbrs s) (o_in s) (o_nodes s) x (o_cluster s) (o_ncomp s) (o_lists s) (o_objs s) (o_next s).
Definition o_put_lists x s := mkO (o_type s) (o_attr s) (o_nbrs s) (o_in s) (o_nodes s) (o_edges s) (o_cluster s) (o_ncomp s) x (o_objs s) (o_next s).
Definition o_put_objs x s := mkO (o_type s) (o_attr s) (o_nbrs s) (o_in s) (o_nodes s) (o_edges s) (o_cluster s) (o_ncomp s) (o_lists s) x (o_next s).
Definition o_tick s := mkO (o_type s) (o_attr s) (o_nbrs s) (o_in s) (o_nodes s) (o_edges s) (o_cluster s) (o_ncomp s) (o_lists s) (o_objs s) (S (o_next s)).

(* the heap with another object at one reference *)
Definition hset {V} (h : nat -> V) (a : nat) (v : V) : nat -> V := fun b => if Nat.eqb a b then v else h b.

(* graph.py:199-242 Graph(attr): no list or Node object yet *)
Definition o_new (ty : option gtype) (kw : attrs) : ograph :=
  let g := new_graph ty kw in mkO (g_type g) (g_attr g) [] [] [] [] [] None (fun _ => []) (fun _ => []) 0.

(* list() (graph.py:297, 299) and Node(name, attr) (graph.py:300, 116-129): fresh objects *)
Definition new_list : M ograph nat := fun s => (o_tick (o_put_lists (hset (o_lists s) (o_next s) []) s), Ok (o_next s)).
Definition new_node (a : attrs) : M ograph nat := fun s => (o_tick (o_put_objs (hset (o_objs s) (o_next s) (dupdate [] a)) s), Ok (o_next s)).

(* self.neighbors[n], self.in_neighbors[n]: the list object itself *)
Definition o_nbr (n : name) : M ograph nat := fun s => (s, match dget (o_nbrs s) n with Some a => Ok a | None => Err KeyError end).
Definition o_inn (n : name) : M ograph nat := fun s =>
  match o_type s with
  | Directed => (s, match dget (o_in s) n with Some a => Ok a | None => Err KeyError end)
  | Undirected => (s, Err AttributeError)
  end.
(* l.append(m), l.remove(m) on a list object *)
Definition list_append (a : nat) (m : name) : M ograph unit := modify (fun s => o_put_lists (hset (o_lists s) a (o_lists s a ++ [m])) s).
Definition list_remove (a : nat) (m : name) : M ograph unit := fun s =>
  match lremove m (o_lists s a) with Some l => (o_put_lists (hset (o_lists s) a l) s, Ok tt) | None => (s, Err ValueError) end.
(* for x in l on a list object: Python iterates by index over the object *)
Fixpoint list_for (fuel i : nat) (a : nat) (body : name -> M ograph unit) : M ograph unit :=
  match fuel with
  | O => fail OutOfFuel
  | S f => l <- gets (fun s => o_lists s a) ;;
           match nth_error l i with
           | None => ret tt
           | Some x => body x ;; list_for f (S i) a body
           end
  end.
(* del self.edge_attr[e] *)
Definition o_edge_del (e : name * name) : M ograph unit := fun s =>
  if dmem (o_edges s) e then (o_put_edges (ddel (o_edges s) e) s, Ok tt) else (s, Err KeyError).

(* graph.py:281-303 Graph.add_node: returns the Node object *)
Definition o_add_node (n : name) (a : attrs) : M ograph nat := fun s =>
  if dmem (o_nbrs s) n then (s, Err MultipleNodeException)
  else
    (l <- new_list ;;
     modify (fun s => o_put_nbrs (dset (o_nbrs s) n l) s) ;;
     (match o_type s with
      | Directed => i <- new_list ;; modify (fun s => o_put_in (dset (o_in s) n i) s)
      | Undirected => ret tt
      end) ;;
     x <- new_node a ;;
     modify (fun s => o_put_nodes (dset (o_nodes s) n x) s) ;;
     ret x) s.

(* graph.py:305-331 Graph.del_node *)
Definition o_del_node (n : name) : M ograph unit := fun s =>
  if negb (dmem (o_nbrs s) n) then (s, Err (PyException "Node does not exist!"))
  else
    (a <- o_nbr n ;;
     l <- gets (fun s => o_lists s a) ;;
     list_for (S (length l)) 0 a
       (fun m => o_edge_del (n, m) ;;
                 t <- gets o_type ;;
                 match t with
                 | Undirected => b <- o_nbr m ;; list_remove b n
                 | Directed => b <- o_inn m ;; list_remove b n
                 end) ;;
     t <- gets o_type ;;
     match t with
     | Directed =>
       a <- o_inn n ;;
       l <- gets (fun s => o_lists s a) ;;
       list_for (S (length l)) 0 a (fun m => o_edge_del (m, n) ;; b <- o_nbr m ;; list_remove b n)
     | Undirected => ret tt
     end ;;
     modify (fun s => o_put_nbrs (ddel (o_nbrs s) n) s) ;;
     t <- gets o_type ;;
     (match t with
      | Directed => d <- gets o_in ;; if dmem d n then modify (fun s => o_put_in (ddel (o_in s) n) s) else fail KeyError
      | Undirected => fail AttributeError
      end) ;;
     d <- gets o_nodes ;;
     (if dmem d n then modify (fun s => o_put_nodes (ddel (o_nodes s) n) s) else fail KeyError)) s.

(* graph.py:333-365 Graph.add_edge *)
Definition o_add_edge (n m : name) (a : attrs) : M ograph unit := fun s =>
  if dmem (o_edges s) (n, m) then (s, Err MultipleEdgeException)
  else if match o_type s with Undirected => dmem (o_edges s) (m, n) | Directed => false end
  then (s, Err MultipleEdgeException)
  else
    (modify (fun s => o_put_edges (dset (o_edges s) (n, m) (dupdate [] a)) s) ;;
     d <- gets o_nodes ;;
     (if dmem d n then ret tt else o_add_node n [] ;; ret tt) ;;
     d <- gets o_nodes ;;
     (if dmem d m then ret tt else o_add_node m [] ;; ret tt) ;;
     b <- o_nbr n ;; list_append b m ;;
     t <- gets o_type ;;
     match t with
     | Undirected => b <- o_nbr m ;; list_append b n
     | Directed => b <- o_inn m ;; list_append b n
     end) s.

(* graph.py:367-395 Graph.del_edge *)
Definition o_del_edge (n m : name) : M ograph unit := fun s =>
  match o_type s with
  | Directed =>
    if dmem (o_edges s) (n, m) then
      (modify (fun s => o_put_edges (ddel (o_edges s) (n, m)) s) ;; b <- o_nbr n ;; list_remove b m ;; b <- o_inn m ;; list_remove b n) s
    else (s, Err (PyException "Edge does not exists!"))
  | Undirected =>
    if dmem (o_edges s) (n, m) then
      (modify (fun s => o_put_edges (ddel (o_edges s) (n, m)) s) ;; b <- o_nbr n ;; list_remove b m ;; b <- o_nbr m ;; list_remove b n) s
    else if dmem (o_edges s) (m, n) then
      (modify (fun s => o_put_edges (ddel (o_edges s) (m, n)) s) ;; b <- o_nbr n ;; list_remove b m ;; b <- o_nbr m ;; list_remove b n) s
    else (s, Err (PyException "Edge does not exists!"))
  end.

(* graph.py:397-410 get_node: the Node object, None if there is none *)
Definition o_get_node (n : name) (s : ograph) : option nat := dget (o_nodes s) n.
(* graph.py:131-144 Node.get_attr, graph.py:147-158 Node.set_attr, on a Node object *)
Definition node_get (x : nat) (a : string) (s : ograph) : val := match dget (o_objs s x) a with Some v => v | None => VNone end.
Definition node_set (x : nat) (a : string) (v : val) : M ograph unit := modify (fun s => o_put_objs (hset (o_objs s) x (dset (o_objs s x) a v)) s).
(* graph.py:518-531 set_node_attr *)
Definition o_set_node_attr (n : name) (a : string) (v : val) : M ograph unit := fun s =>
  match o_get_node n s with None => (s, Err AttributeError) | Some x => node_set x a v s end.
(* graph.py:533-554 set_edge_attr *)
Definition o_set_edge_attr (n m : name) (a : string) (v : val) : M ograph unit := fun s =>
  let put e d := (o_put_edges (dset (o_edges s) e (dset d a v)) s, Ok tt) in
  match dget (o_edges s) (n, m) with
  | Some d => put (n, m) d
  | None => match o_type s with
            | Directed => (s, Err KeyError)
            | Undirected => match dget (o_edges s) (m, n) with
                            | Some d => put (m, n) d
                            | None => (s, Err KeyError)
                            end
            end
  end.
(* graph.py:556-596 get_neighbors, get_in_neighbors, get_out_neighbors: the list objects themselves *)
Definition o_get_neighbors (n : name) : M ograph nat := o_nbr n.
Definition o_get_out_neighbors (n : name) : M ograph nat := o_nbr n.
Definition o_get_in_neighbors (n : name) : M ograph nat := o_inn n.

(* The calls of M_Graph.v *)
Definition o_exec (o : op) : M ograph unit :=
  match o with
  | OAddNode n a => o_add_node n a ;; ret tt
  | ODelNode n => o_del_node n
  | OAddEdge n m a => o_add_edge n m a
  | ODelEdge n m => o_del_edge n m
  | OSetNodeAttr n a v => o_set_node_attr n a v
  | OSetEdgeAttr n m a v => o_set_edge_attr n m a v
  end.
Definition o_history (s : ograph) (os : list op) : ograph := fold_left (fun s o => fst (o_exec o s)) os s.
Definition o_obs {A} (m : M ograph A) (s : ograph) : res A := snd (m s).

(* A caller's loop  for m in g.get_neighbors(n): g.del_edge((n, m)) *)
Definition delete_while_iterating (n : name) : M ograph unit := fun s =>
  (a <- o_get_neighbors n ;; l <- gets (fun s => o_lists s a) ;; list_for (S (length l)) 0 a (fun m => o_del_edge n m)) s.
