(* Model of Graph.dfs, acyclic_shortest_path, hamiltonian and Tarjan's algorithm (graph.py:724-972). *)
From Verif Require Import Py M_Graph M_Search M_Flow.
Set Implicit Arguments. Unset Strict Implicit.
Local Open Scope string_scope. Local Open Scope list_scope.

(* the display argument (graph.py:829-832, 892-895): None reads self.attr['display'], anything else is stored there *)
Definition enter_display (display : option val) : M graph unit :=
  match display with
  | None => d <- gets (fun g => dget (g_attr g) "display") ;; d <- lift d KeyError ;; ret tt
  | Some v => set_graph_attr "display" v
  end.

Definition quote : string := """".
(* [f(x) for x in l] *)
Definition mapM {A B} (f : A -> M graph B) (l : list A) : M graph (list B) := foldM (fun acc x => y <- f x ;; ret (acc ++ [y])) l [].

(* sorted(fTime, key=operator.itemgetter(1)): stable; times are ints, and with two elements or more
   anything else is taken to raise TypeError (so is None in Python) *)
Fixpoint insert_time (x : name * Z) (l : list (name * Z)) : list (name * Z) :=
  match l with
  | [] => [x]
  | y :: t => if (snd x <? snd y)%Z then x :: y :: t else y :: insert_time x t
  end.
Definition sort_times (l : list (name * Z)) : list (name * Z) := fold_left (fun acc x => insert_time x acc) l [].
(* graph.py:844-850: the neighbours by decreasing finish time *)
Definition by_finish (l : list name) : M graph (list name) :=
  ft <- mapM (fun n => t <- get_node_attr n "finish_time" ;; ret (n, t)) l ;;
  match ft with
  | _ :: _ :: _ =>
      ts <- mapM (fun nt => z <- as_int (snd nt) ;; ret (fst nt, z)) ft ;;
      ret (rev (map fst (sort_times ts)))
  | _ => ret (map fst ft)
  end.

(* the mutable objects shared by the recursive calls: pred and topological_order *)
Definition dloc := (dict name name * option (list name))%type.
(* graph.py:803-874 dfs; component is any value, [pred] = [] stands for pred=None, and [fuel] bounds the
   depth of the recursion. Returns the two counters and the final contents of the shared objects. *)
Fixpoint dfs (fuel : nat) (root : name) (disc_count finish_count : Z) (component : val) (transpose : bool) (display : option val) (l : dloc)
    : M graph (Z * Z * dloc) :=
  match fuel with
  | 0 => fail OutOfFuel
  | S fuel =>
      let '(pred, topological_order) := l in
      enter_display display ;;
      t <- gets g_type ;;
      set_node_attr root "component" component ;;
      let disc_count := (disc_count + 1)%Z in
      set_node_attr root "disc_time" (VI disc_count) ;;
      set_node_attr root "label" (VS (str_int disc_count ++ ",-")) ;;
      set_node_attr root "color" (VS "blue") ;;
      match dget pred root with Some p => set_edge_attr p root "color" (VS "green") | None => ret tt end ;;
      neighbors <- match t, transpose with Directed, true => in_list root | _, _ => nbr_list root end ;;
      neighbor_list <- (if transpose then by_finish neighbors else ret neighbors) ;;
      s <- foldM (fun (s : Z * Z * dloc) i =>
             let '(d, f, (pred, topo)) := s in
             m <- get_node_attr i (if transpose then "component" else "disc_time") ;;
             if eqb m VNone then dfs fuel i d f component transpose None (if transpose then pred else dset pred i root, topo)
             else ret s) neighbor_list (disc_count, finish_count, (pred, topological_order)) ;;
      let '(d, f, (pred, topo)) := s in
      set_node_attr root "finish_time" (VI f) ;;
      let topo := option_map (cons root) topo in
      d_time <- get_node_attr root "disc_time" ;;
      set_node_attr root "label" (VS (quote ++ str_val d_time ++ "," ++ str_int f ++ quote)) ;;
      set_node_attr root "color" (VS "green") ;;
      ret (d, (f + 1)%Z, (pred, topo))
  end.

(* graph.py:876-929 hamiltonian: a node that is not visited yet leads to the call of self.tsp, which no
   class defines *)
Definition hamiltonian (source : name) (destination : option name) (distance : Z) (display : option val) (pred : dict name name) : M graph bool :=
  enter_display display ;;
  (if (distance =? 0)%Z then ns <- gets get_node_list ;; forM_ ns (fun i => set_node_attr i "label" (VS "-")) else ret tt) ;;
  n <- gets (fun g => Z.of_nat (length (get_node_list g))) ;;
  if match destination with
     | Some d => eqb source d && (distance =? n - 1)%Z
     | None => (distance =? n)%Z
     end then ret true
  else
    set_node_attr source "visited" (VBool true) ;;
    set_node_attr source "label" (VS (str_int distance)) ;;
    set_node_attr source "color" (VS "blue") ;;
    match dget pred source with Some p => set_edge_attr p source "color" (VS "green") | None => ret tt end ;;
    l <- get_neighbors source ;;
    forM_ l (fun i =>
      v <- get_node_attr i "visited" ;;
      if eqb v VNone then fail AttributeError else ret tt) ;;
    match dget pred source with
    | Some p =>
        set_node_attr source "color" (VS "black") ;;
        set_edge_attr p source "color" (VS "black") ;;
        set_node_attr source "visited" VNone ;;
        set_node_attr source "label" (VS "-")
    | None => ret tt
    end ;;
    ret false.

(* graph.py:946-972 acyclic_shortest_path: the locals dist, pred; [inl] goes on, [inr] is the break *)
Definition asp_relax (m : name) (s : dict name Z * dict name name) (n : name) : M graph (dict name Z * dict name name) :=
  let '(dist, pred) := s in
  dm <- lift (dget dist m) KeyError ;;
  c <- get_edge_attr m n "cost" ;; c <- as_int c ;;
  let estimate := (dm + c)%Z in
  if match dget dist n with None => true | Some z => (z >? estimate)%Z end
  then ret (dset dist n estimate, dset pred n m) else ret s.
Definition asp_node (m : name) (s : dict name Z * dict name name) : M graph (dict name Z * dict name name) :=
  let '(dist, pred) := s in
  inn <- get_in_neighbors m ;;
  let dist := match inn with [] => dset dist m 0%Z | _ => dist end in
  out <- get_out_neighbors m ;;
  foldM (asp_relax m) out (dist, pred).
(* for j in range(k): m = order[j] ...; the result is (found, pred) *)
Fixpoint asp_loop (k : nat) (order : list name) (destination : option name) (s : dict name Z * dict name name) : M graph (bool * dict name name) :=
  match k with
  | 0 => ret (false, snd s)
  | S k =>
      match order with
      | [] => fail IndexError
      | m :: order =>
          if match destination with Some d => eqb m d | None => false end then ret (true, snd s)
          else s <- asp_node m s ;; asp_loop k order destination s
      end
  end.
Definition acyclic_shortest_path (fuel : nat) (source : name) (destination : option name) : M graph (list name + dict name name) :=
  r <- dfs fuel source 0 1 VNone false None ([], Some []) ;;
  let order := match snd (snd r) with Some o => o | None => [] end in
  k <- gets (fun g => length (get_node_list g)) ;;
  r <- asp_loop k order destination ([], []) ;;
  match r, destination with
  | (true, pred), Some d => p <- walk_back fuel source d pred ;; ret (inl p)
  | (_, pred), _ => ret (inr pred)
  end.

(* graph.py:743-785 strong_connect; the list q (its end is the top of the stack) is shared by the recursive
   calls, so it is returned with the two counters *)
Fixpoint pop_component (q : list name) (node : name) (component : Z) : M graph (list name) :=
  (* graph.py:776-781, on the reversed list: pop and label until node is popped *)
  match q with
  | [] => fail IndexError
  | m :: q => set_node_attr m "component" (VI component) ;; if eqb node m then ret q else pop_component q node component
  end.
Definition lower (node : name) (v : val) : M graph unit :=
  a <- get_node_attr node "lowlink" ;; a <- as_int a ;; b <- as_int v ;; set_node_attr node "lowlink" (VI (Z.min a b)).
Fixpoint strong_connect (fuel : nat) (q : list name) (node : name) (index component : Z) : M graph (Z * Z * list name) :=
  match fuel with
  | 0 => fail OutOfFuel
  | S fuel =>
      set_node_attr node "index" (VI index) ;;
      set_node_attr node "lowlink" (VI index) ;;
      l <- get_neighbors node ;;
      s <- foldM (fun (s : Z * Z * list name) m =>
             let '(index, component, q) := s in
             i <- get_node_attr m "index" ;;
             if eqb i VNone then
               s <- strong_connect fuel q m index component ;;
               v <- get_node_attr m "lowlink" ;; lower node v ;; ret s
             else if mem m q then v <- get_node_attr m "index" ;; lower node v ;; ret s
             else ret s) l ((index + 1)%Z, component, q ++ [node]) ;;
      let '(index, component, q) := s in
      a <- get_node_attr node "lowlink" ;; b <- get_node_attr node "index" ;;
      if eqb a b then
        q <- pop_component (rev q) node component ;;
        modify (fun g => with_ncomp g (Some (component + 1)%Z)) ;;
        ret (index, (component + 1)%Z, rev q)
      else ret (index, component, q)
  end.
(* graph.py:724-741 tarjan *)
Definition tarjan (fuel : nat) : M graph unit :=
  ns <- gets get_node_list ;;
  s <- foldM (fun (s : Z * Z * list name) n =>
         let '(index, component, q) := s in
         i <- get_node_attr n "index" ;;
         if eqb i VNone then strong_connect fuel q n index component else ret s) ns (0%Z, 0%Z, []) ;;
  ret tt.
(* graph.py:787-801 label_strong_component *)
Definition label_strong_component (fuel : nat) : M graph unit :=
  modify (fun g => with_ncomp g (Some 0%Z)) ;; tarjan fuel.
