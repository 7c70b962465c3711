(* Model of the data-structure core of class Graph, /repo/src/gimpy/graph.py.
   Every method is a function  graph -> graph * res A  (monad M of Py.v). *)
From Verif Require Export Py.

(* graph.py uses the strings 'digraph' / 'graph' (global_constants.py:59-60) *)
Inductive gtype := Directed | Undirected.
Global Instance EqDec_gtype : EqDec gtype.
Proof. intros [] []; (left; reflexivity) || (right; discriminate). Defined.

(* graph.py:3476-3478: the value stored under self.cluster[name] *)
Record cluster := mkCluster { c_nodes : list name; c_attrs : attrs; c_node_attrs : attrs }.

(* graph.py:199-242 (Graph.__init__) creates these instance attributes.
   - g_attr: self.attr;  g_nbrs: self.neighbors (out_neighbors is the same object);
   - g_in: self.in_neighbors, which exists only on directed graphs: every access
     below goes through [in_dict], which raises AttributeError on undirected ones;
   - g_nodes: self.nodes, a Node object is represented by its attribute dictionary
     (Node.name always equals the key);  g_edges: self.edge_attr;
   - g_cluster: self.cluster;  g_ncomp: self.num_components (None = not set yet). *)
Record graph := mkGraph {
  g_type : gtype;
  g_attr : attrs;
  g_nbrs : dict name (list name);
  g_in : dict name (list name);
  g_nodes : dict name attrs;
  g_edges : dict (name * name) attrs;
  g_cluster : dict val cluster;
  g_ncomp : option Z
}.

Definition with_attr g x := mkGraph (g_type g) x (g_nbrs g) (g_in g) (g_nodes g) (g_edges g) (g_cluster g) (g_ncomp g).
Definition with_nbrs g x := mkGraph (g_type g) (g_attr g) x (g_in g) (g_nodes g) (g_edges g) (g_cluster g) (g_ncomp g).
Definition with_in g x := mkGraph (g_type g) (g_attr g) (g_nbrs g) x (g_nodes g) (g_edges g) (g_cluster g) (g_ncomp g).
Definition with_nodes g x := mkGraph (g_type g) (g_attr g) (g_nbrs g) (g_in g) x (g_edges g) (g_cluster g) (g_ncomp g).
Definition with_edges g x := mkGraph (g_type g) (g_attr g) (g_nbrs g) (g_in g) (g_nodes g) x (g_cluster g) (g_ncomp g).
Definition with_cluster g x := mkGraph (g_type g) (g_attr g) (g_nbrs g) (g_in g) (g_nodes g) (g_edges g) x (g_ncomp g).
Definition with_ncomp g x := mkGraph (g_type g) (g_attr g) (g_nbrs g) (g_in g) (g_nodes g) (g_edges g) (g_cluster g) x.

Definition type_string (t : gtype) : string := match t with Directed => "digraph" | Undirected => "graph" end.

(* graph.py:199-242 Graph(attr): DEFAULT_GRAPH_ATTRIBUTES is {} (global_constants.py:31).
   [kw] are the keyword arguments other than type; [ty] is type=..., None if absent. *)
Definition new_graph (ty : option gtype) (kw : attrs) : graph :=
  let a := match ty with Some t => dset kw "type"%string (VS (type_string t)) | None => kw end in
  let a := if dmem a "display"%string then a else dset a "display"%string (VS "off") in
  let a := if dmem a "layout"%string then a else dset a "layout"%string (VS "fdp") in
  let a := dset a "cluster_count"%string (VI 0) in
  mkGraph (match ty with Some t => t | None => Undirected end) a [] [] [] [] [] None.

(* self.in_neighbors: AttributeError when the graph is undirected (graph.py:234-235) *)
Definition in_dict : M graph (dict name (list name)) := fun g =>
  match g_type g with Directed => (g, Ok (g_in g)) | Undirected => (g, Err AttributeError) end.

(* d[k] on self.neighbors / self.in_neighbors: KeyError if missing *)
Definition nbr_list (n : name) : M graph (list name) := fun g => (g, match dget (g_nbrs g) n with Some l => Ok l | None => Err KeyError end).
Definition in_list (n : name) : M graph (list name) :=
  d <- in_dict ;; lift (dget d n) KeyError.

(* self.neighbors[n].append(m), self.in_neighbors[n].append(m) *)
Definition nbr_append (n m : name) : M graph unit :=
  l <- nbr_list n ;; modify (fun g => with_nbrs g (dset (g_nbrs g) n (l ++ [m]))).
Definition in_append (n m : name) : M graph unit :=
  l <- in_list n ;; modify (fun g => with_in g (dset (g_in g) n (l ++ [m]))).
(* self.neighbors[n].remove(m), self.in_neighbors[n].remove(m): ValueError if absent *)
Definition nbr_remove (n m : name) : M graph unit :=
  l <- nbr_list n ;; l' <- lift (lremove m l) ValueError ;; modify (fun g => with_nbrs g (dset (g_nbrs g) n l')).
Definition in_remove (n m : name) : M graph unit :=
  l <- in_list n ;; l' <- lift (lremove m l) ValueError ;; modify (fun g => with_in g (dset (g_in g) n l')).
(* del self.edge_attr[e]: KeyError if absent *)
Definition edge_del (e : name * name) : M graph unit := fun g =>
  if dmem (g_edges g) e then (with_edges g (ddel (g_edges g) e), Ok tt) else (g, Err KeyError).

(* graph.py:281-303 Graph.add_node; Node(name, attr) (graph.py:116-129) copies attr
   into an empty dict (DEFAULT_NODE_ATTRIBUTES is {}); keyword names are distinct.
   The returned Node object is not modelled. *)
Definition add_node (n : name) (a : attrs) : M graph unit := fun g =>
  if dmem (g_nbrs g) n then (g, Err MultipleNodeException)
  else
    let g := with_nbrs g (dset (g_nbrs g) n []) in
    let g := match g_type g with Directed => with_in g (dset (g_in g) n []) | Undirected => g end in
    (with_nodes g (dset (g_nodes g) n (dupdate [] a)), Ok tt).

(* for x in <live list>: Python iterates by index over the list object, so removals
   made by the body shift what is seen next. [get] re-reads the list. *)
Fixpoint live_for (fuel i : nat) (get : graph -> list name) (body : name -> M graph unit) : M graph unit :=
  match fuel with
  | O => fail OutOfFuel
  | S f => l <- gets get ;;
           match nth_error l i with
           | None => ret tt
           | Some x => body x ;; live_for f (S i) get body
           end
  end.
Definition list_at (d : dict name (list name)) (n : name) : list name :=
  match dget d n with Some l => l | None => [] end.

(* graph.py:305-331 Graph.del_node *)
Definition del_node (n : name) : M graph unit := fun g =>
  if negb (dmem (g_nbrs g) n) then (g, Err (PyException "Node does not exist!"))
  else
    (live_for (S (length (list_at (g_nbrs g) n))) 0 (fun g => list_at (g_nbrs g) n)
       (fun m => edge_del (n, m) ;;
                 t <- gets g_type ;;
                 match t with Undirected => nbr_remove m n | Directed => in_remove m n end) ;;
     t <- gets g_type ;;
     match t with
     | Directed =>
       l <- in_list n ;;
       live_for (S (length l)) 0 (fun g => list_at (g_in g) n)
         (fun m => edge_del (m, n) ;; nbr_remove m n)
     | Undirected => ret tt
     end ;;
     modify (fun g => with_nbrs g (ddel (g_nbrs g) n)) ;;
     d <- in_dict ;;
     (if dmem d n then modify (fun g => with_in g (ddel (g_in g) n)) else fail KeyError) ;;
     nd <- gets g_nodes ;;
     (if dmem nd n then modify (fun g => with_nodes g (ddel (g_nodes g) n)) else fail KeyError)) g.

(* graph.py:333-365 Graph.add_edge (DEFAULT_EDGE_ATTRIBUTES is {}) *)
Definition add_edge (n m : name) (a : attrs) : M graph unit := fun g =>
  if dmem (g_edges g) (n, m) then (g, Err MultipleEdgeException)
  else if match g_type g with Undirected => dmem (g_edges g) (m, n) | Directed => false end
  then (g, Err MultipleEdgeException)
  else
    (modify (fun g => with_edges g (dset (g_edges g) (n, m) (dupdate [] a))) ;;
     nd <- gets g_nodes ;;
     (if dmem nd n then ret tt else add_node n []) ;;
     nd <- gets g_nodes ;;
     (if dmem nd m then ret tt else add_node m []) ;;
     nbr_append n m ;;
     t <- gets g_type ;;
     match t with Undirected => nbr_append m n | Directed => in_append m n end) g.

(* graph.py:367-395 Graph.del_edge *)
Definition del_edge (n m : name) : M graph unit := fun g =>
  match g_type g with
  | Directed =>
    if dmem (g_edges g) (n, m) then
      (modify (fun g => with_edges g (ddel (g_edges g) (n, m))) ;; nbr_remove n m ;; in_remove m n) g
    else (g, Err (PyException "Edge does not exists!"))
  | Undirected =>
    if dmem (g_edges g) (n, m) then
      (modify (fun g => with_edges g (ddel (g_edges g) (n, m))) ;; nbr_remove n m ;; nbr_remove m n) g
    else if dmem (g_edges g) (m, n) then
      (modify (fun g => with_edges g (ddel (g_edges g) (m, n))) ;; nbr_remove n m ;; nbr_remove m n) g
    else (g, Err (PyException "Edge does not exists!"))
  end.

(* graph.py:261-279 Graph.__contains__ *)
Definition contains_node (g : graph) (n : name) : bool := dmem (g_nodes g) n.
Definition contains_edge (g : graph) (n m : name) : bool :=
  match g_type g with
  | Directed => dmem (g_edges g) (n, m)
  | Undirected => dmem (g_edges g) (n, m) || dmem (g_edges g) (m, n)
  end.
(* graph.py:424-439 Graph.check_edge *)
Definition check_edge (g : graph) (n m : name) : bool :=
  match g_type g with
  | Directed => dmem (g_edges g) (n, m)
  | Undirected => dmem (g_edges g) (n, m) || dmem (g_edges g) (m, n)
  end.
(* graph.py:441-479 *)
Definition get_node_list (g : graph) : list name := dkeys (g_nbrs g).
Definition get_edge_list (g : graph) : list (name * name) := dkeys (g_edges g).
Definition get_node_num (g : graph) : nat := length (g_nbrs g).
Definition get_edge_num (g : graph) : nat := length (g_edges g).

(* graph.py:481-494 get_node_attr: get_node returns None on a missing node, and None has no
   get_attr; Node.get_attr (graph.py:131-144) returns None on a missing attribute *)
Definition get_node_attr (n : name) (a : string) : M graph val := fun g =>
  (g, match dget (g_nodes g) n with
      | None => Err AttributeError
      | Some d => Ok (match dget d a with Some v => v | None => VNone end)
      end).
(* graph.py:496-516 get_edge_attr *)
Definition get_edge_attr (n m : name) (a : string) : M graph val := fun g =>
  let look e := match dget (g_edges g) e with
                | None => None
                | Some d => dget d a
                end in
  (g, match g_type g with
      | Directed => match look (n, m) with Some v => Ok v | None => Err KeyError end
      | Undirected => match look (n, m) with
                      | Some v => Ok v
                      | None => match look (m, n) with Some v => Ok v | None => Err KeyError end
                      end
      end).
(* graph.py:412-422 get_edge_cost *)
Definition get_edge_cost (e : name * name) : M graph val := get_edge_attr (fst e) (snd e) "cost"%string.
(* graph.py:518-531 set_node_attr; Node.set_attr (graph.py:147-158) *)
Definition set_node_attr (n : name) (a : string) (v : val) : M graph unit := fun g =>
  match dget (g_nodes g) n with
  | None => (g, Err AttributeError)
  | Some d => (with_nodes g (dset (g_nodes g) n (dset d a v)), Ok tt)
  end.
(* graph.py:533-554 set_edge_attr *)
Definition set_edge_attr (n m : name) (a : string) (v : val) : M graph unit := fun g =>
  let put e d := (with_edges g (dset (g_edges g) e (dset d a v)), Ok tt) in
  match dget (g_edges g) (n, m) with
  | Some d => put (n, m) d
  | None => match g_type g with
            | Directed => (g, Err KeyError)
            | Undirected => match dget (g_edges g) (m, n) with
                            | Some d => put (m, n) d
                            | None => (g, Err KeyError)
                            end
            end
  end.
(* self.get_node(i).attr.pop(a, None), used by search (graph.py:1036) *)
Definition pop_node_attr (n : name) (a : string) : M graph unit := fun g =>
  match dget (g_nodes g) n with
  | None => (g, Err AttributeError)
  | Some d => (with_nodes g (dset (g_nodes g) n (ddel d a)), Ok tt)
  end.
(* graph.py:556-596 get_neighbors, get_in_neighbors, get_out_neighbors *)
Definition get_neighbors (n : name) : M graph (list name) := nbr_list n.
Definition get_out_neighbors (n : name) : M graph (list name) := nbr_list n.
Definition get_in_neighbors (n : name) : M graph (list name) := in_list n.

(* graph.py:1867-1878 and 1654-1676: only the attribute update *)
Definition set_graph_attr (a : string) (v : val) : M graph unit := modify (fun g => with_attr g (dset (g_attr g) a v)).

(* The mutating part of the public core API, for quantifying over call histories. *)
Inductive op :=
| OAddNode (n : name) (a : attrs)
| ODelNode (n : name)
| OAddEdge (n m : name) (a : attrs)
| ODelEdge (n m : name)
| OSetNodeAttr (n : name) (a : string) (v : val)
| OSetEdgeAttr (n m : name) (a : string) (v : val).
Definition exec (o : op) : M graph unit :=
  match o with
  | OAddNode n a => add_node n a
  | ODelNode n => del_node n
  | OAddEdge n m a => add_edge n m a
  | ODelEdge n m => del_edge n m
  | OSetNodeAttr n a v => set_node_attr n a v
  | OSetEdgeAttr n m a v => set_edge_attr n m a v
  end.
(* run a history of calls; a raising call leaves its partial effects and the history goes on *)
Definition history (g : graph) (os : list op) : graph := fold_left (fun g o => fst (exec o g)) os g.
(* the value (or exception) a call returns in state g *)
Definition obs {A} (m : M graph A) (g : graph) : res A := snd (m g).
