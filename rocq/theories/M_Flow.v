(* Model of max_flow (graph.py:1880-2043). *)
From Verif Require Import Py M_Graph M_Search.
From Coq Require Import DecimalString.
Set Implicit Arguments. Unset Strict Implicit.
Local Open Scope string_scope. Local Open Scope list_scope.

(* global_constants.py: INF = 10000 *)
Definition INF : Z := 10000.
(* str(v) *)
Definition str_int (z : Z) : string := NilZero.string_of_int (Z.to_int z).
Definition str_val (v : val) : string :=
  match v with VNone => "None" | VBool true => "True" | VBool false => "False" | VI z => str_int z | VS s => s end.

(* self.edge_attr[e][a] and self.edge_attr[e][a] = v *)
Definition edge_get (e : name * name) (a : string) : M graph val := fun g =>
  (g, match dget (g_edges g) e with
      | Some d => match dget d a with Some v => Ok v | None => Err KeyError end
      | None => Err KeyError
      end).
Definition edge_set (e : name * name) (a : string) (v : val) : M graph unit := fun g =>
  match dget (g_edges g) e with
  | Some d => (with_edges g (dset (g_edges g) e (dset d a v)), Ok tt)
  | None => (g, Err KeyError)
  end.
(* a in self.edge_attr[e] *)
Definition edge_has (e : name * name) (a : string) : M graph bool := fun g =>
  (g, match dget (g_edges g) e with Some d => Ok (dmem d a) | None => Err KeyError end).

(* graph.py:1902-1909: all flows are set to 0, missing capacities to INF *)
Definition init_flow : M graph unit :=
  es <- gets get_edge_list ;;
  forM_ es (fun e =>
    edge_set e "flow" (VI 0) ;;
    b <- edge_has e "capacity" ;;
    if b : bool then
      c <- edge_get e "capacity" ;;
      edge_set e "label" (VS (str_val c ++ "/0"))
    else
      edge_set e "capacity" (VI INF) ;;
      edge_set e "label" (VS "INF/0")).
(* graph.py:1919-1927 *)
Definition paint : M graph unit :=
  ns <- gets get_node_list ;;
  forM_ ns (fun n => set_node_attr n "color" (VS "black")) ;;
  es <- gets get_edge_list ;;
  forM_ es (fun e =>
    f <- edge_get e "flow" ;;
    if eqb f (VI 0) then edge_set e "color" (VS "black")
    else
      c <- edge_get e "capacity" ;;
      if eqb f c then edge_set e "color" (VS "red") else edge_set e "color" (VS "green")).

Section Flow.
  Variable fr : frontier.
  Notation Q := (fq fr).

  (* graph.py:1957-1964 and 1967-1974: the color of an arc without available capacity *)
  Definition repaint (x y : name) : M graph unit :=
    f <- get_edge_attr x y "flow" ;;
    c <- get_edge_attr x y "capacity" ;;
    if eqb f c then set_edge_attr x y "color" (VS "red")
    else
      f <- get_edge_attr x y "flow" ;;
      if eqb f (VI 0) then set_edge_attr x y "color" (VS "black") else ret tt.
  (* the locals of the search: q, pred, explored *)
  Notation st := (Q * dict name (option name) * list name)%type.
  (* graph.py:1937-1976: one neighbour m of current; [out] is self.neighbors[current].
     Capacities and flows are ints, anything else raises TypeError (see as_int). *)
  Definition scan (current : name) (out : list name) (s : st) (m : name) : M graph st :=
    let '(q, pred, explored) := s in
    if mem m explored then ret s
    else
      set_node_attr m "color" (VS "yellow") ;;
      available_capacity <-
        (if mem m out then
           set_edge_attr current m "color" (VS "yellow") ;;
           c <- get_edge_attr current m "capacity" ;;
           f <- get_edge_attr current m "flow" ;;
           c <- as_int c ;; f <- as_int f ;; ret (c - f)%Z
         else
           set_edge_attr m current "color" (VS "yellow") ;;
           f <- get_edge_attr m current "flow" ;; as_int f) ;;
      if (available_capacity >? 0)%Z then
        set_node_attr m "color" (VS "blue") ;;
        (if mem m out then set_edge_attr current m "color" (VS "blue") else set_edge_attr m current "color" (VS "blue")) ;;
        ret (fq_push q m None, dset pred m (Some current), explored ++ [m])
      else
        set_node_attr m "color" (VS "black") ;;
        (if mem m out then repaint current m else repaint m current) ;;
        ret s.
  (* graph.py:1912-1918, 1929-1977: the search for an augmenting path; [q0] is the fresh container.
     q.peek() and q.remove() of blimpy raise an IndexError when there is nothing to return or remove. *)
  Definition augmenting_search (fuel : nat) (q0 : Q) (source sink : name) : M graph (dict name (option name)) :=
    loop fuel (fun s : st =>
      let '(q, pred, explored) := s in
      if fq_isEmpty q then ret (inr pred)
      else
        current <- lift (fq_peek q) IndexError ;;
        q <- lift (fq_remove q current) IndexError ;;
        if eqb current sink then ret (inr pred)
        else
          out <- nbr_list current ;;
          inn <- in_list current ;;
          s <- foldM (scan current out) (out ++ inn) (q, pred, explored) ;;
          ret (inl s)) (fq_push q0 source None, [(source, None)], [source]).

  (* m = pred[current]; when m is None, (None, current) is no arc and neither is (current, None) *)
  Definition pred_of (pred : dict name (option name)) (current : name) : M graph name :=
    m <- lift (dget pred current) KeyError ;; lift m KeyError.
  (* graph.py:1981-2002 capacity of the path; None stands for 'infinite' *)
  Definition path_capacity (fuel : nat) (pred : dict name (option name)) (source sink : name) : M graph Z :=
    loop fuel (fun s : name * option Z =>
      let '(current, min_capacity) := s in
      m <- pred_of pred current ;;
      b <- gets (fun g => dmem (g_edges g) (m, current)) ;;
      potential <-
        (if b : bool then
           c <- edge_get (m, current) "capacity" ;; f <- edge_get (m, current) "flow" ;;
           c <- as_int c ;; f <- as_int f ;; ret (c - f)%Z
         else f <- edge_get (current, m) "flow" ;; as_int f) ;;
      let min_capacity := match min_capacity with None => potential | Some z => if (z >? potential)%Z then potential else z end in
      if eqb m source then ret (inr min_capacity) else ret (inl (m, Some min_capacity))) (sink, None).
  (* graph.py:2010-2024 and 2026-2039: the new flow of the arc e; [full] is the value that gives the color red *)
  Definition put_flow (e : name * name) (delta : Z) (full : Z -> Z) : M graph unit :=
    f <- edge_get e "flow" ;;
    c <- edge_get e "capacity" ;;
    f <- as_int f ;; c <- as_int c ;;
    let new_flow := (f + delta)%Z in
    edge_set e "flow" (VI new_flow) ;;
    edge_set e "label" (VS ((if (c =? INF)%Z then "INF" else str_int c) ++ "/" ++ str_int new_flow)) ;;
    if (new_flow =? full c)%Z then edge_set e "color" (VS "red") else edge_set e "color" (VS "green").
  (* graph.py:2004-2041 update of the flows on the path *)
  Definition path_update (fuel : nat) (pred : dict name (option name)) (source sink : name) (min_capacity : Z) : M graph unit :=
    loop fuel (fun current : name =>
      m <- pred_of pred current ;;
      b <- gets (fun g => dmem (g_edges g) (m, current)) ;;
      (if b : bool then put_flow (m, current) min_capacity (fun c => c)
       else put_flow (current, m) (- min_capacity)%Z (fun _ => 0%Z)) ;;
      if eqb m source then ret (inr tt) else ret (inl m)) sink.
  (* graph.py:1910-2041 the loop over augmenting paths *)
  Definition augment (fuel : nat) (q0 : Q) (source sink : name) : M graph unit :=
    loop fuel (fun _ : unit =>
      paint ;;
      pred <- augmenting_search fuel q0 source sink ;;
      if dmem pred sink then
        d <- path_capacity fuel pred source sink ;;
        path_update fuel pred source sink d ;;
        ret (inl tt)
      else ret (inr tt)) tt.
  (* graph.py:1880-2043 max_flow. algo='DFS' is the frontier Stack, algo='BFS' the frontier Queue (any other
     string leaves q unbound; not modelled). *)
  Definition max_flow (fuel : nat) (q0 : Q) (source sink : name) (display : option val) : M graph unit :=
    old <- match display with
           | Some v => d <- gets (fun g => dget (g_attr g) "display") ;; d <- lift d KeyError ;; set_graph_attr "display" v ;; ret (Some d)
           | None => ret None
           end ;;
    init_flow ;;
    augment fuel q0 source sink ;;
    match old with Some d => set_graph_attr "display" d | None => ret tt end.
End Flow.
