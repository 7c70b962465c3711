(* Model of examples/simplex_test.py: random minimum cost flow instances, solved with the network simplex
   method and with a linear programming solver, and compared.
   PuLP's objects are the data they hold: a problem is its variables with their bounds, its objective and its
   constraints. The solver behind p.solve() is a parameter: a function from problems to values of the
   variables (rationals; PuLP's floats are taken to be exact). Variables are identified by their arc, as in
   the dictionary x; the names "x(1,_2)" PuLP gives them are not modelled. *)
From Coq Require Import QArith.
From Verif Require Import Py M_Graph M_Search M_Flow M_MinCost M_Simplex M_NetSimplex M_Random.
Set Implicit Arguments. Unset Strict Implicit.
Local Open Scope string_scope.
Local Open Scope list_scope.
Local Open Scope Z_scope.

Notation edge := (name * name)%type.

(* simplex_test.py:28-37 get_solution: the dictionary sol *)
Definition get_solution : M graph (dict edge val) :=
  el <- gets get_edge_list ;;
  foldM (fun sol e => f <- get_edge_attr (fst e) (snd e) "flow" ;; ret (dset sol e f)) el [].

(* simplex_test.py:101-108 get_obj_value; costs and flows are ints (see as_int) *)
Definition get_obj_value : M graph Z :=
  el <- gets get_edge_list ;;
  foldM (fun cost e =>
    cost_e <- get_edge_attr (fst e) (snd e) "cost" ;;
    flow_e <- get_edge_attr (fst e) (snd e) "flow" ;;
    k <- as_int cost_e ;; f <- as_int flow_e ;;
    ret (cost + k * f)) el 0.

(** * The linear program *)
(* a sum of variables with coefficients *)
Definition linear := list (Z * edge).
Record lp := {
  lp_vars : list (edge * (Z * Z));  (* LpVariable(name, low, up) *)
  lp_obj : linear;                  (* LpMinimize *)
  lp_cons : list (linear * Z)       (* equations *)
}.
Definition linear_value (x : edge -> Q) (l : linear) : Q := fold_right (fun t z => (inject_Z (fst t) * x (snd t) + z)%Q) 0%Q l.
(* x[e]: KeyError when there is no variable for e *)
Definition var (x : dict edge (Z * Z)) (e : edge) : M graph edge := if dmem x e then ret e else fail KeyError.
(* simplex_test.py:129-133: the flow constraint of node i *)
Definition flow_constraint (x : dict edge (Z * Z)) (demand : dict name Z) (i : name) : M graph (linear * Z) :=
  out_neig <- get_out_neighbors i ;;
  in_neig <- get_in_neighbors i ;;
  l1 <- foldM (fun l j => e <- var x (i, j) ;; ret (l ++ [(1, e)])) out_neig [] ;;
  l2 <- foldM (fun l j => e <- var x (j, i) ;; ret (l ++ [(-1, e)])) in_neig [] ;;
  d <- lift (dget demand i) KeyError ;;
  ret (l1 ++ l2, d).
(* simplex_test.py:110-133: the problem p. Capacities, costs and demands are ints: LpVariable and the products
   and comparisons of PuLP are modelled on ints only, anything else is a TypeError here *)
Definition build_lp : M graph lp :=
  el <- gets get_edge_list ;;
  nl <- gets get_node_list ;;
  '(capacity, cost) <- foldM (fun (s : dict edge Z * dict edge Z) e =>
    capacity_e <- get_edge_attr (fst e) (snd e) "capacity" ;; c <- as_int capacity_e ;;
    cost_e <- get_edge_attr (fst e) (snd e) "cost" ;; k <- as_int cost_e ;;
    ret (dset (fst s) e c, dset (snd s) e k)) el ([], []) ;;
  demand <- foldM (fun d i => v <- get_node_attr i "demand" ;; b <- as_int v ;; ret (dset d i b)) nl [] ;;
  x <- foldM (fun x e => c <- lift (dget capacity e) KeyError ;; ret (dset x e (0, c))) el [] ;;
  objective <- foldM (fun l e => k <- lift (dget cost e) KeyError ;; e <- var x e ;; ret (l ++ [(k, e)])) el [] ;;
  cons <- foldM (fun cs i => c <- flow_constraint x demand i ;; ret (cs ++ [c])) nl [] ;;
  ret {| lp_vars := x; lp_obj := objective; lp_cons := cons |}.
(* simplex_test.py:110-135 solve: the values of the variables after p.solve() and value(objective) *)
Definition solve (solver : lp -> edge -> Q) : M graph ((edge -> Q) * Q) :=
  p <- build_lp ;;
  let x := solver p in
  ret (x, linear_value x (lp_obj p)).
(* int(v): truncation towards zero *)
Definition int_of (v : Q) : Z := Z.quot (Qnum v) (Zpos (Qden v)).

(** * mGraph.network_simplex; mGraph.__init__ (simplex_test.py:139-140) is Graph.__init__ *)
Section MGraph.
  Variable fr : frontier.
  (* simplex_test.py:181-203: the body of the while loop. The script passes display = 'off', so that
     self.display() returns at once (graph.py:1761-1762); the display mode is set as in the code *)
  Definition mpivot_step (fuel : nat) (display : val) (pivot : string) (root : name) (t : graph) : M graph (graph + bool * Z) :=
    b <- simplex_optimal t ;;
    if b : bool then ret (inr (true, 0))
    else
      set_graph_attr "display" display ;;
      set_graph_attr "display" (VS "off") ;;
      '(k, l) <- simplex_select_entering_arc t pivot ;;
      set_edge_attr k l "color" (VS "green") ;;
      '(t, ((p, q), capacity, cycle)) <- simplex_determine_leaving_arc fuel t k l ;;
      set_edge_attr p q "color" (VS "red") ;;
      set_graph_attr "display" display ;;
      simplex_mark_st_arcs t ;;
      set_graph_attr "display" (VS "off") ;;
      t <- simplex_remove_arc t p q capacity cycle ;;
      t <- on (simplex_search fuel root (VI 1)) t ;;
      simplex_compute_potentials fuel t root ;;
      ret (inl t).
  (* simplex_test.py:142-204 network_simplex; iter stays 0 *)
  Definition mnetwork_simplex (fuel : nat) (q0 : fq fr) (display : val) (pivot : string) (root : name) : M graph (bool * Z) :=
    b <- find_feasible_flow fuel q0 ;;
    if b : bool then
      t <- simplex_find_tree fuel ;;
      simplex_mark_st_arcs t ;;
      set_graph_attr "display" display ;;
      set_graph_attr "display" (VS "off") ;;
      t <- on (simplex_search fuel root (VI 1)) t ;;
      simplex_compute_potentials fuel t root ;;
      loop fuel (mpivot_step fuel display pivot root) t
    else ret (false, 0).

  (* simplex_test.py:216-255: what is done with one instance; None: skipped. The result holds the numbers of
     the two lines written (tup[1], eligible_obj_value, pulp_obj_value; tup[1], dantzig_obj_value) and the two
     values of flag. dantzig_obj_value is unbound when the second call returns False on the first instance
     (NameError); on a later one it is the value of the instance before, which is the argument [stale] *)
  Record outcome := { eligible_iter : Z; eligible_obj : Z; pulp_obj : Z; eligible_flag : bool; dantzig_iter : Z; dantzig_obj : Z; dantzig_flag : bool }.
  Definition instance (solver : lp -> edge -> Q) (fuel : nat) (q0 : fq fr) (root : name) (stale : option Z) : M graph (option outcome) :=
    tup <- mnetwork_simplex fuel q0 (VS "off") "first_eligible" root ;;
    if fst tup : bool then
      sol <- get_solution ;;
      eligible_obj_value <- get_obj_value ;;
      '(x, v) <- solve solver ;;
      let pulp_obj_value := int_of v in
      tup2 <- mnetwork_simplex fuel q0 (VS "off") "dantzig" root ;;
      dantzig_obj_value <- (if fst tup2 : bool then sol <- get_solution ;; z <- get_obj_value ;; ret (Some z) else ret stale) ;;
      z <- lift dantzig_obj_value NameError ;;
      ret (Some {| eligible_iter := snd tup; eligible_obj := eligible_obj_value; pulp_obj := pulp_obj_value; eligible_flag := eligible_obj_value =? pulp_obj_value;
                   dantzig_iter := snd tup2; dantzig_obj := z; dantzig_flag := z =? pulp_obj_value |})
    else ret None.
End MGraph.

(** * Random instances *)
(* simplex_test.py:14-21: the module's parameters; [density] is in the coin of the oracle *)
Record tparams := {
  capacity_range : Z * Z;
  cost_range : Z * Z;
  demand_range : Z * Z;
  demand_numnodes : nat;
  supply_numnodes : nat;
  tnumnodes : Z
}.
Definition the_params : tparams := {| capacity_range := (10, 20); cost_range := (30, 50); demand_range := (10, 15); demand_numnodes := 3; supply_numnodes := 2; tnumnodes := 6 |}.

Section Generate.
  Variable o : oracle.
  Variable p : tparams.
  Notation rstate := (graph * nat)%type.
  (* simplex_test.py:45-54 *)
  Definition try_arc (i j : Z) : M rstate unit :=
    if i =? j then ret tt else
    el <- gets (fun s : rstate => get_edge_list (fst s)) ;;
    if mem (NI i, NI j) el then ret tt else
    if mem (NI j, NI i) el then ret tt else
    b <- draw_coin o ;;
    if b : bool then
      cap <- randint o (fst (capacity_range p)) (snd (capacity_range p)) ;;
      cos <- randint o (fst (cost_range p)) (snd (cost_range p)) ;;
      ong (add_edge (NI i) (NI j) [("cost", VI cos); ("capacity", VI cap)])
    else ret tt.
  (* simplex_test.py:57-62 (taken = {}), 64-69 (taken = demand_node) *)
  Definition draw_nodes (fuel : nat) (count : nat) (taken : dict Z Z) : M rstate (dict Z Z) :=
    loop fuel (fun d : dict Z Z =>
      if Nat.ltb (length d) count then
        n <- randint o 0 (tnumnodes p - 1) ;;
        if dmem taken n || dmem d n then ret (inl d) else ret (inl (dset d n 0))
      else ret (inr d)) [].
  (* simplex_test.py:71-74, 76-79 *)
  Definition draw_amounts (d : dict Z Z) : M rstate (dict Z Z * Z) :=
    foldM (fun (s : dict Z Z * Z) n =>
      a <- randint o (fst (demand_range p)) (snd (demand_range p)) ;;
      ret (dset (fst s) n a, snd s + a)) (dkeys d) (d, 0).
  (* simplex_test.py:82-85, 87-90: the first key gets the excess *)
  Definition add_first (d : dict Z Z) (excess : Z) : M rstate (dict Z Z) :=
    match dkeys d with
    | [] => ret d
    | n :: _ => v <- lift (dget d n) KeyError ;; ret (dset d n (v + excess))
    end.
  (* simplex_test.py:93-98 *)
  Definition set_demand (demand_node supply_node : dict Z Z) (n : name) : M rstate unit :=
    let v := match n with
             | NI z => match dget demand_node z with
                       | Some a => - 1 * a
                       | None => match dget supply_node z with Some a => a | None => 0 end
                       end
             | NS _ => 0
             end in
    ong (set_node_attr n "demand" (VI v)).
  (* simplex_test.py:39-99 generate_graph *)
  Definition generate_body (fuel : nat) : M rstate (dict Z Z * dict Z Z) :=
    forM_ (zrange (tnumnodes p)) (fun i => forM_ (zrange (tnumnodes p)) (fun j => try_arc i j)) ;;
    demand_node <- draw_nodes fuel (demand_numnodes p) [] ;;
    supply_node <- draw_nodes fuel (supply_numnodes p) demand_node ;;
    '(demand_node, total_demand) <- draw_amounts demand_node ;;
    '(supply_node, total_supply) <- draw_amounts supply_node ;;
    '(demand_node, supply_node) <-
      (if total_demand >? total_supply then s <- add_first supply_node (total_demand - total_supply) ;; ret (demand_node, s)
       else if total_demand <? total_supply then d <- add_first demand_node (total_supply - total_demand) ;; ret (d, supply_node)
       else ret (demand_node, supply_node)) ;;
    nl <- gets (fun s : rstate => get_node_list (fst s)) ;;
    forM_ nl (set_demand demand_node supply_node) ;;
    ret (demand_node, supply_node).
  (* seed(seed_i) makes the stream start anew: [o] is the stream of that seed *)
  Definition generate_graph (fuel : nat) : res (graph * dict Z Z * dict Z Z) :=
    match generate_body fuel (new_graph (Some Directed) [("splines", VS "true"); ("layout", VS "dot")], 0%nat) with
    | ((g, _), Ok (d, s)) => Ok (g, d, s)
    | (_, Err e) => Err e
    end.
End Generate.

(** * The script *)
Section Main.
  Variable fr : frontier.
  (* simplex_test.py:206-257: the instances one after the other, with the outcomes so far (None: skipped) and
     the value of dantzig_obj_value. What is returned is the list of the outcomes *)
  Fixpoint instances (solver : lp -> edge -> Q) (fuel : nat) (q0 : fq fr) (p : tparams) (seeds : list oracle) (stale : option Z) : res (list (option outcome)) :=
    match seeds with
    | [] => Ok []
    | o :: seeds =>
        match generate_graph o p fuel with
        | Err e => Err e
        | Ok (g, _, _) =>
            match instance solver fuel q0 (NI 0) stale g with
            | (_, Err e) => Err e
            | (_, Ok r) =>
                match instances solver fuel q0 p seeds (match r with Some r => Some (dantzig_obj r) | None => stale end) with
                | Ok l => Ok (r :: l)
                | Err e => Err e
                end
            end
        end
    end.
  (* simplex_test.py:258-259: whether 'All problems solved accurately.' is printed: the last value of flag;
     flag is unbound (NameError) when every instance was skipped *)
  Definition final_flag (l : list (option outcome)) : res bool :=
    match fold_left (fun f r => match r with Some r => Some (dantzig_flag r) | None => f end) l None with
    | Some b => Ok b
    | None => Err NameError
    end.
End Main.
