(* Model of the network simplex method (graph.py:2356-3163), but for the optimality test and the choice of
   the entering arc, which are in M_Simplex.v. The spanning tree t and the solution graph are other Graph
   objects: they are passed as values, and returned by the functions that change them. [is] on node names is
   modelled as equality (true of the ints CPython caches). display() is a no-op. Flows, capacities, costs,
   depths and potentials used in arithmetic are ints, anything else raises TypeError (see as_int). Stacks
   (lists used with append and pop) are kept with the top first. *)
From Verif Require Import Py M_Graph M_Search M_Flow M_Dfs M_MinCost M_Simplex.
Set Implicit Arguments. Unset Strict Implicit.
Local Open Scope string_scope. Local Open Scope list_scope.

(* a call on another graph object that changes it and returns a value *)
Definition call {A} (m : M graph A) (r : graph) : M graph (graph * A) :=
  fun g => match m r with (r', Ok a) => (g, Ok (r', a)) | (_, Err e) => (g, Err e) end.
(* int(n); a string is taken to raise ValueError (int of a string of digits is left out) *)
Definition int_name (n : name) : M graph Z := match n with NI z => ret z | NS _ => fail ValueError end.
(* self.get_node(v) on an attribute value: None is no node, and get_node(...) is None then *)
Definition node_of (v : val) : M graph name := lift (nameof v) AttributeError.
(* "%d/%d/%d" %(flow, capacity, cost) *)
Definition flow_label (e : name * name) : M graph (val * val * val * val) :=
  flow <- edge_get e "flow" ;; capacity <- edge_get e "capacity" ;; cost <- edge_get e "cost" ;;
  f <- as_int flow ;; c <- as_int capacity ;; k <- as_int cost ;;
  ret (flow, capacity, cost, VS (str_int f ++ "/" ++ str_int c ++ "/" ++ str_int k)).

(** * The search that goes both ways along arcs *)
(* graph.py:2861-2877; in_neighbors exists on directed graphs only *)
Definition ss_visit (component_nr : val) (current : name) (s : list name * dict name (option name) * dict name Z) (n : name)
    : M graph (list name * dict name (option name) * dict name Z) :=
  let '(q, pred, depth) := s in
  if dmem pred n then ret s
  else
    set_node_attr n "component" component_nr ;;
    d <- lift (dget depth current) KeyError ;;
    ret (n :: q, dset pred n (Some current), dset depth n (d + 1)%Z).
Definition ss_loop (fuel : nat) (component_nr : val) (source : name) : M graph (dict name (option name) * dict name Z * list name) :=
  loop fuel (fun s : (list name * dict name (option name) * dict name Z) * list name =>
    let '((q, pred, depth), sequence) := s in
    match q with
    | [] => ret (inr (pred, depth, sequence))
    | current :: q =>
        set_node_attr current "component" component_nr ;;
        l1 <- in_list current ;;
        l2 <- nbr_list current ;;
        s' <- foldM (ss_visit component_nr current) (l1 ++ l2) (q, pred, depth) ;;
        ret (inl (s', sequence ++ [current]))
    end) (([source], [(source, None)], [(source, 0%Z)]), []).
(* graph.py:2837-2882 simplex_search *)
Definition simplex_search (fuel : nat) (source : name) (component_nr : val) : M graph (dict name (option name)) :=
  nl <- gets get_node_list ;;
  forM_ nl (fun n => set_node_attr n "component" VNone) ;;
  '(pred, depth, sequence) <- ss_loop fuel component_nr source ;;
  forM_ (consecutive sequence) (fun p => z <- int_name (snd p) ;; set_node_attr (fst p) "thread" (VI z)) ;;
  match sequence with
  | [] => fail IndexError
  | x :: _ => z <- int_name x ;; set_node_attr (last sequence x) "thread" (VI z)
  end ;;
  forM_ pred (fun np =>
    set_node_attr (fst np) "pred" (voname (snd np)) ;;
    d <- lift (dget depth (fst np)) KeyError ;;
    set_node_attr (fst np) "depth" (VI d)) ;;
  ret pred.

(** * The initial tree *)
(* graph.py:2988-3013 get_simplex_solution_graph; [and] is lazy *)
Definition get_simplex_solution_graph : M graph graph :=
  nl <- gets get_node_list ;;
  r <- foldM (fun r i => on (add_node i []) r) nl (new_graph (Some Directed) []) ;;
  es <- gets get_edge_list ;;
  foldM (fun r e =>
    flow_e <- edge_get e "flow" ;; capacity_e <- edge_get e "capacity" ;;
    f <- as_int flow_e ;;
    if (f >? 0)%Z then
      c <- as_int capacity_e ;;
      if (f <? c)%Z then on (add_edge (fst e) (snd e) []) r else ret r
    else ret r) es r.

(* graph.py:2957-2963: temp and its predecessors up to the root *)
Definition up_chain (fuel : nat) (pred : dict name (option name)) (n : name) : M graph (list name) :=
  loop fuel (fun s : list name * option name =>
    let '(l, temp) := s in
    match temp with
    | None => ret (inr l)
    | Some temp => p <- lift (dget pred temp) KeyError ;; ret (inl (l ++ [temp], p))
    end) ([], Some n).
(* the locals of simplex_find_cycle: q, visited, depth (only its keys matter), pred *)
Notation fc_state := (list name * list name * dict name Z * dict name (option name))%type.
(* graph.py:2947-2976: the loop over the neighbours; inr stands for the early return *)
Fixpoint fc_scan (fuel : nat) (component_nr : Z) (current : name) (l : list name) (s : fc_state) : M graph (fc_state + list name) :=
  match l with
  | [] => ret (inl s)
  | n :: l =>
      let '(q, visited, depth, pred) := s in
      p <- lift (dget pred current) KeyError ;;
      if eqb (Some n) p then fc_scan fuel component_nr current l s
      else
        set_node_attr n "component" (VI component_nr) ;;
        if dmem depth n then
          cycle1 <- up_chain fuel pred n ;;
          cycle2 <- up_chain fuel pred current ;;
          ret (inr (cycle2 ++ rev (removelast cycle1)))
        else
          d <- lift (dget depth current) KeyError ;;
          let q := if mem n visited then q else n :: q in
          fc_scan fuel component_nr current l (q, visited, dset depth n (d + 1)%Z, dset pred n (Some current))
  end.
(* graph.py:2942-2976: the inner while loop *)
Definition fc_component (fuel : nat) (component_nr : Z) (s : fc_state) : M graph (option (list name)) :=
  loop fuel (fun s : fc_state =>
    let '(q, visited, depth, pred) := s in
    match q with
    | [] => ret (inr None)
    | current :: q =>
        l1 <- in_list current ;;
        l2 <- nbr_list current ;;
        r <- fc_scan fuel component_nr current (l1 ++ l2) (q, visited ++ [current], depth, pred) ;;
        match r with inl s' => ret (inl s') | inr cycle => ret (inr (Some cycle)) end
    end) s.
(* graph.py:2977-2984: the first node without a component *)
Fixpoint fresh_node (nl : list name) : M graph (option name) :=
  match nl with
  | [] => ret None
  | n :: nl => c <- get_node_attr n "component" ;; if eqb c VNone then ret (Some n) else fresh_node nl
  end.
(* graph.py:2921-2986 simplex_find_cycle *)
Definition simplex_find_cycle (fuel : nat) : M graph (option (list name)) :=
  nl <- gets get_node_list ;;
  match nl with
  | [] => fail IndexError
  | x :: _ =>
      forM_ nl (fun n => set_node_attr n "component" VNone) ;;
      loop fuel (fun n =>
        component_nr <- int_name n ;;
        set_node_attr n "component" (VI component_nr) ;;
        r <- fc_component fuel component_nr ([n], [], [(n, 0%Z)], [(n, None)]) ;;
        match r with
        | Some cycle => ret (inr (Some cycle))
        | None => m <- fresh_node nl ;; match m with Some m => ret (inl m) | None => ret (inr None) end
        end) x
  end.

(* graph.py:2900-2917: what can be sent from i to j *)
Definition pair_room (i j : name) : M graph Z :=
  b <- gets (fun g => dmem (g_edges g) (i, j)) ;;
  if b : bool then
    c <- edge_get (i, j) "capacity" ;; f <- edge_get (i, j) "flow" ;; c <- as_int c ;; f <- as_int f ;; ret (c - f)%Z
  else f <- edge_get (j, i) "flow" ;; as_int f.
(* graph.py:2884-2919 simplex_augment_cycle *)
Definition simplex_augment_cycle (cycle : list name) : M graph Z :=
  match cycle with
  | [] => fail IndexError
  | x :: _ =>
      min_capacity <- pair_room (last cycle x) x ;;
      foldM (fun min_capacity p => c <- pair_room (fst p) (snd p) ;; ret (if (min_capacity >? c)%Z then c else min_capacity)) (consecutive cycle) min_capacity
  end.

(* graph.py:2824-2834: the arc between n and a node of [separated] *)
Fixpoint find_link (n : name) (separated : list name) : M graph (option (name * name)) :=
  match separated with
  | [] => ret None
  | m :: l =>
      b <- gets (fun g => dmem (g_edges g) (n, m)) ;;
      if b : bool then ret (Some (n, m))
      else
        b <- gets (fun g => dmem (g_edges g) (m, n)) ;;
        if b : bool then ret (Some (m, n)) else find_link n l
  end.
Fixpoint find_new_link (r : graph) (current : name) (separated nl : list name) : M graph (option (name * name)) :=
  match nl with
  | [] => ret None
  | n :: nl =>
      c <- ask (get_node_attr n "component") r ;;
      if eqb c (vname current) then find_new_link r current separated nl
      else
        e <- find_link n separated ;;
        match e with Some e => ret (Some e) | None => find_new_link r current separated nl end
  end.
(* graph.py:2801-2835 simplex_connect *)
Definition simplex_connect (fuel : nat) (r : graph) : M graph (graph * bool) :=
  match get_node_list r with
  | [] => fail IndexError
  | (current :: _) as nl =>
      '(r, pred) <- call (simplex_search fuel current (vname current)) r ;;
      e <- find_new_link r current (dkeys pred) nl ;;
      match e with
      | Some (n, m) => r <- on (add_edge n m []) r ;; ret (r, true)
      | None => ret (r, false)
      end
  end.

(* graph.py:2788-2799: copy the attributes of the arc to the arc of the tree *)
Definition copy_attrs (r : graph) (e : name * name) : M graph graph :=
  '(flow, capacity, cost, label) <- flow_label e ;;
  edge_set e "label" label ;;
  if dmem (g_edges r) e then on (edge_set e "flow" flow ;; edge_set e "capacity" capacity ;; edge_set e "cost" cost ;; edge_set e "label" label) r
  else ret r.
(* graph.py:2773-2784: cycles are broken until there is none *)
Definition break_cycles (fuel : nat) : M graph graph :=
  loop fuel (fun _ : unit =>
    solution_g <- get_simplex_solution_graph ;;
    '(solution_g, cycle) <- call (simplex_find_cycle fuel) solution_g ;;
    match cycle with
    | None => ret (inr solution_g)
    | Some cycle =>
        amount <- simplex_augment_cycle cycle ;;
        augment_cycle amount cycle ;;
        ret (inl tt)
    end) tt.
(* graph.py:2759-2799 simplex_find_tree *)
Definition simplex_find_tree (fuel : nat) : M graph graph :=
  solution_g <- break_cycles fuel ;;
  solution_g <- loop fuel (fun r => '(r, b) <- simplex_connect fuel r ;; ret (if b : bool then inl r else inr r)) solution_g ;;
  es <- gets get_edge_list ;;
  foldM copy_attrs es solution_g.

(** * One pivot *)
(* graph.py:2506-2542 simplex_mark_st_arcs *)
Definition simplex_mark_st_arcs (t : graph) : M graph unit :=
  es <- gets get_edge_list ;;
  forM_ es (fun e =>
    flow_e <- edge_get e "flow" ;; capacity_e <- edge_get e "capacity" ;;
    if dmem (g_edges t) e then edge_set e "color" (VS "blue")
    else if eqb flow_e (VI 0) then edge_set e "color" (VS "black")
    else if eqb flow_e capacity_e then edge_set e "color" (VS "black")
    else fail (PyException "Arc is not in ST but has flow between bounds.")).

(* graph.py:2573-2575, 2586-2589 *)
Definition redraw_node (n : name) (new : graph) : M graph graph :=
  pred_i <- get_node_attr n "pred" ;; thread_i <- get_node_attr n "thread" ;; depth_i <- get_node_attr n "depth" ;;
  on (add_node n [("pred", pred_i); ("thread", thread_i); ("depth", depth_i)]) new.
(* graph.py:2585-2598 *)
Definition redraw_visit (el : list (name * name)) (visited : list name) (name_ : name) (s : list name * graph) (n : name) : M graph (list name * graph) :=
  let '(q, new) := s in
  new <- (if mem n (get_node_list new) then ret new else redraw_node n new) ;;
  new <- (if mem (name_, n) el then
            if dmem (g_edges new) (name_, n) then ret new else on (add_edge name_ n []) new
          else
            if dmem (g_edges new) (n, name_) then ret new else on (add_edge n name_ []) new) ;;
  ret (if mem n visited then q else n :: q, new).
(* graph.py:2556-2606 simplex_redraw; the graph it returns is not used by network_simplex *)
Definition simplex_redraw (fuel : nat) (display : val) (root : name) : M graph graph :=
  el <- gets get_edge_list ;;
  new <- redraw_node root (new_graph (Some Directed) [("layout", VS "dot"); ("display", display)]) ;;
  new <- loop fuel (fun s : list name * list name * graph =>
    let '(q, visited, new) := s in
    match q with
    | [] => ret (inr new)
    | name_ :: q =>
        let visited := visited ++ [name_] in
        l1 <- nbr_list name_ ;;
        l2 <- in_list name_ ;;
        '(q, new) <- foldM (redraw_visit el visited name_) (l1 ++ l2) (q, new) ;;
        ret (inl (q, visited, new))
    end) ([root], [root], new) ;;
  foldM (fun new e =>
    '(flow, capacity, cost, label) <- flow_label e ;;
    on (edge_set e "flow" flow ;; edge_set e "capacity" capacity ;; edge_set e "cost" cost ;; edge_set e "label" label) new) el new.

(* graph.py:3015-3044 simplex_compute_potentials *)
Definition simplex_compute_potentials (fuel : nat) (t : graph) (root : name) : M graph unit :=
  set_node_attr root "potential" (VI 0) ;;
  j <- ask (get_node_attr root "thread") t ;;
  loop fuel (fun j : val =>
    if eqb j (vname root) then ret (inr tt)
    else
      j <- node_of j ;;
      i <- ask (get_node_attr j "pred") t ;;
      i <- node_of i ;;
      potential_i <- get_node_attr i "potential" ;;
      b <- gets (fun g => dmem (g_edges g) (i, j)) ;;
      (if b : bool then
         c_ij <- edge_get (i, j) "cost" ;; p <- as_int potential_i ;; c <- as_int c_ij ;; set_node_attr j "potential" (VI (p - c)%Z)
       else ret tt) ;;
      b <- gets (fun g => dmem (g_edges g) (j, i)) ;;
      (if b : bool then
         c_ji <- edge_get (j, i) "cost" ;; p <- as_int potential_i ;; c <- as_int c_ji ;; set_node_attr j "potential" (VI (p + c)%Z)
       else ret tt) ;;
      j <- ask (get_node_attr j "thread") t ;;
      ret (inl j)) j.

(* graph.py:3046-3086 simplex_identify_cycle; a predecessor None raises here (AttributeError), in the code
   at the next get_node(None) *)
Definition tree_pred (t : graph) (n : name) : M graph name := p <- ask (get_node_attr n "pred") t ;; node_of p.
Definition simplex_identify_cycle (fuel : nat) (t : graph) (k l : name) : M graph (list name) :=
  '(li, lj) <- loop fuel (fun s : (name * name) * (list name * list name) =>
    let '((i, j), (li, lj)) := s in
    if eqb i j then ret (inr (li, lj))
    else
      depth_i <- ask (get_node_attr i "depth") t ;; depth_j <- ask (get_node_attr j "depth") t ;;
      di <- as_int depth_i ;; dj <- as_int depth_j ;;
      if (di >? dj)%Z then i <- tree_pred t i ;; ret (inl ((i, j), (li ++ [i], lj)))
      else if (di <? dj)%Z then j <- tree_pred t j ;; ret (inl ((i, j), (li, lj ++ [j])))
      else i <- tree_pred t i ;; j <- tree_pred t j ;; ret (inl ((i, j), (li ++ [i], lj ++ [j])))) ((k, l), ([k], [l])) ;;
  ret (lj ++ rev (removelast li)).

(* graph.py:2463-2474, 2477-2488: one pair of the cycle *)
Definition leaving_step (tel : list (name * name)) (s : option (name * name) * Z) (p : name * name) : M graph (option (name * name) * Z) :=
  let '(candidate, min_capacity) := s in
  if mem p tel then
    flow <- edge_get p "flow" ;; capacity <- edge_get p "capacity" ;; f <- as_int flow ;; c <- as_int capacity ;;
    ret (if (min_capacity >=? c - f)%Z then (Some p, (c - f)%Z) else s)
  else
    let p' := (snd p, fst p) in
    flow <- edge_get p' "flow" ;; f <- as_int flow ;;
    ret (if (min_capacity >=? f)%Z then (Some p', f) else s).
(* graph.py:2436-2490 simplex_determine_leaving_arc; candidate may be unbound (UnboundLocalError, a NameError) *)
Definition simplex_determine_leaving_arc (fuel : nat) (t : graph) (k l : name) : M graph (graph * ((name * name) * Z * list name)) :=
  cycle <- simplex_identify_cycle fuel t k l ;;
  flow_kl <- get_edge_attr k l "flow" ;;
  capacity_kl <- get_edge_attr k l "capacity" ;;
  let cycle := if eqb flow_kl capacity_kl then rev cycle else cycle in
  t <- on (add_edge k l []) t ;;
  let tel := get_edge_list t in
  c <- as_int capacity_kl ;;
  match cycle with
  | [] => fail IndexError
  | x :: _ =>
      s <- foldM (leaving_step tel) (consecutive cycle) (None, c) ;;
      '(candidate, min_capacity) <- leaving_step tel s (last cycle x, x) ;;
      candidate <- lift candidate NameError ;;
      ret (t, (candidate, min_capacity, cycle))
  end.

(* graph.py:2629-2639, 2641-2648: one pair of the cycle *)
Definition pivot_pair (tel : list (name * name)) (min_capacity : Z) (p : name * name) : M graph unit :=
  if mem p tel then f <- edge_get p "flow" ;; f <- as_int f ;; edge_set p "flow" (VI (f + min_capacity)%Z)
  else f <- edge_get (snd p, fst p) "flow" ;; f <- as_int f ;; edge_set (snd p, fst p) "flow" (VI (f - min_capacity)%Z).
(* graph.py:2656-2663 *)
Definition update_attrs (t : graph) (e : name * name) : M graph graph :=
  '(flow, capacity, cost, label) <- flow_label e ;;
  t <- on (edge_set e "flow" flow ;; edge_set e "capacity" capacity ;; edge_set e "cost" cost ;; edge_set e "label" label) t ;;
  edge_set e "label" label ;;
  ret t.
(* graph.py:2607-2663 simplex_remove_arc *)
Definition simplex_remove_arc (t : graph) (p q : name) (min_capacity : Z) (cycle : list name) : M graph graph :=
  let tel := get_edge_list t in
  forM_ (consecutive cycle) (pivot_pair tel min_capacity) ;;
  match cycle with
  | [] => fail IndexError
  | x :: _ => pivot_pair tel min_capacity (last cycle x, x)
  end ;;
  t <- on (del_edge p q) t ;;
  flow_pq <- get_edge_attr p q "flow" ;; capacity_pq <- get_edge_attr p q "capacity" ;; cost_pq <- get_edge_attr p q "cost" ;;
  f <- as_int flow_pq ;; c <- as_int capacity_pq ;; k <- as_int cost_pq ;;
  set_edge_attr p q "label" (VS (str_int f ++ "/" ++ str_int c ++ "/" ++ str_int k)) ;;
  foldM update_attrs (get_edge_list t) t.

(** * The method *)
Section NetSimplex.
  Variable fr : frontier.
  Notation Q := (fq fr).
  (* graph.py:2402-2419: the body of the while loop *)
  Definition pivot_step (fuel : nat) (display : val) (pivot : string) (root : name) (t : graph) : M graph (graph + bool) :=
    b <- simplex_optimal t ;;
    if b : bool then ret (inr true)
    else
      '(k, l) <- simplex_select_entering_arc t pivot ;;
      (* simplex_mark_entering_arc (graph.py:2492-2504) *)
      set_edge_attr k l "color" (VS "green") ;;
      '(t, ((p, q), capacity, cycle)) <- simplex_determine_leaving_arc fuel t k l ;;
      (* simplex_mark_leaving_arc (graph.py:2422-2434) *)
      set_edge_attr p q "color" (VS "red") ;;
      t <- simplex_remove_arc t p q capacity cycle ;;
      simplex_mark_st_arcs t ;;
      ask (simplex_redraw fuel display root) t ;;
      t <- on (simplex_search fuel root (VI 1)) t ;;
      simplex_compute_potentials fuel t root ;;
      ret (inl t).
  (* graph.py:2356-2420 network_simplex *)
  Definition network_simplex (fuel : nat) (q0 : Q) (display : val) (pivot : string) (root : name) : M graph bool :=
    b <- find_feasible_flow fuel q0 ;;
    if b : bool then
      t <- simplex_find_tree fuel ;;
      set_graph_attr "display" display ;;
      simplex_mark_st_arcs t ;;
      ask (simplex_redraw fuel display root) t ;;
      t <- on (set_graph_attr "display" display) t ;;
      t <- on (simplex_search fuel root (VI 1)) t ;;
      simplex_compute_potentials fuel t root ;;
      loop fuel (pivot_step fuel display pivot root) t
    else ret false.
  (* graph.py:3088-3163 min_cost_flow; the printed messages are not modelled *)
  Definition min_cost_flow (fuel : nat) (q0 : Q) (display : option val) (algo pivot : option string) (root : option name) : M graph unit :=
    display <- match display with
               | None => d <- gets (fun g => dget (g_attr g) "display") ;; lift d KeyError
               | Some v => ret v
               end ;;
    let algorithm := match algo with Some a => a | None => "simplex" end in
    if String.eqb algorithm "simplex" then
      nl <- gets get_node_list ;;
      root <- match root with Some r => ret r | None => match nl with r :: _ => ret r | [] => fail NameError end end ;;
      b <- network_simplex fuel q0 display (match pivot with Some p => p | None => "dantzig" end) root ;;
      ret tt
    else if String.eqb algorithm "cycle_canceling" then b <- cycle_canceling fuel q0 ;; ret tt
    else ret tt.
End NetSimplex.
