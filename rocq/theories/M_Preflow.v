(* Model of max_flow_preflowpush (graph.py:1339-1445), process_edge_flow (1447-1484), relabel (1486-1506)
   and show_flow (1508-1535). display() is a no-op. *)
From Verif Require Import Py M_Graph M_Metrics M_Search M_Flow.
Set Implicit Arguments. Unset Strict Implicit.
Local Open Scope string_scope. Local Open Scope list_scope.

Inductive pf_algo := FIFO | SAP | HighestLabel | OtherPreflow.

(* get_node_attr(n, a) used as a number *)
Definition node_int (n : name) (a : string) : M graph Z := v <- get_node_attr n a ;; as_int v.
(* get_edge_attr(i, j, a) used as a number *)
Definition edge_int (i j : name) (a : string) : M graph Z := v <- get_edge_attr i j a ;; as_int v.

(* graph.py:1508-1535 show_flow *)
Definition show_flow : M graph unit :=
  ns <- gets get_node_list ;;
  forM_ ns (fun n =>
    excess <- get_node_attr n "excess" ;;
    distance <- get_node_attr n "distance" ;;
    set_node_attr n "label" (VS (str_val excess ++ "/" ++ str_val distance)) ;;
    l <- get_neighbors n ;;
    forM_ l (fun m =>
      capacity <- get_edge_attr n m "capacity" ;;
      flow <- get_edge_attr n m "flow" ;;
      (if eqb capacity (VI INF) then set_edge_attr n m "label" (VS ("INF" ++ "/" ++ str_val flow))
       else set_edge_attr n m "label" (VS (str_val capacity ++ "/" ++ str_val flow))) ;;
      if eqb capacity flow then set_edge_attr n m "color" (VS "red")
      else
        z <- as_int flow ;;
        if (z >? 0)%Z then set_edge_attr n m "color" (VS "green") else set_edge_attr n m "color" (VS "black"))).

(* graph.py:1447-1484 process_edge_flow; source, sink, algo and q are not used by the method *)
Definition process_edge_flow (i j : name) : M graph bool :=
  di <- get_node_attr i "distance" ;;
  dj <- node_int j "distance" ;;
  if negb (eqb di (VI (dj + 1))) then ret false
  else
    b <- gets (fun g => dmem (g_edges g) (i, j)) ;;
    '(edge, capacity, mult) <-
      (if b : bool then c <- edge_int i j "capacity" ;; ret ((i, j), c, 1%Z) else ret ((j, i), 0%Z, (-1)%Z)) ;;
    fl <- edge_get edge "flow" ;;
    fl <- as_int fl ;;
    let flow := (mult * fl)%Z in
    let residual_capacity := (capacity - flow)%Z in
    if (residual_capacity =? 0)%Z then ret false
    else
      excess_i <- node_int i "excess" ;;
      excess_j <- node_int j "excess" ;;
      let push_amount := Z.min excess_i residual_capacity in
      edge_set edge "flow" (VI (mult * (flow + push_amount))) ;;
      set_node_attr i "excess" (VI (excess_i - push_amount)) ;;
      set_node_attr j "excess" (VI (excess_j + push_amount)) ;;
      ret true.

(* graph.py:1486-1506 relabel; [and] is lazy: the flow and the capacity are read only for a smaller distance *)
Definition relabel (i : name) : M graph unit :=
  ns <- gets get_node_list ;;
  out <- get_neighbors i ;;
  md <- foldM (fun md j =>
    dj <- node_int j "distance" ;;
    if (dj <? md)%Z then
      f <- edge_int i j "flow" ;; c <- edge_int i j "capacity" ;;
      if (f <? c)%Z then ret dj else ret md
    else ret md) out (2 * Z.of_nat (length ns) + 1)%Z ;;
  inn <- get_in_neighbors i ;;
  md <- foldM (fun md j =>
    dj <- node_int j "distance" ;;
    if (dj <? md)%Z then
      f <- edge_int j i "flow" ;;
      if (f >? 0)%Z then ret dj else ret md
    else ret md) inn md ;;
  set_node_attr i "distance" (VI (md + 1)).

Section Preflow.
  (* the container of the search from the sink (a Queue) and the container of active nodes *)
  Variables frs fr : frontier.
  Notation Q := (fq fr).
  (* q.peek(n) is not None *)
  Variable held : Q -> name -> bool.

  (* q.push(n) for Queue and Stack, q.push(n, p) for PriorityQueue *)
  Definition pf_push (al : pf_algo) (q : Q) (n : name) (p : Z) : M graph Q :=
    match al with
    | FIFO | SAP => ret (fq_push q n None)
    | HighestLabel => push_prio q n p
    | OtherPreflow => ret q
    end.
  (* graph.py:1412-1431: the loop over the neighbours of current. The result is the container, the last
     values of pushed and n, and the value of relabel. *)
  Fixpoint push_loop (al : pf_algo) (source sink current : name) (l : list name) (q : Q) (last : option (bool * name))
      : M graph (Q * option (bool * name) * bool) :=
    match l with
    | [] => ret (q, last, true)
    | n :: l =>
      pushed <- process_edge_flow current n ;;
      if pushed : bool then
        show_flow ;;
        match al with
        | FIFO =>
          let q := if negb (held q n) && negb (eqb n source) && negb (eqb n sink) then fq_push q n None else q in
          e <- node_int current "excess" ;;
          if (e >? 0)%Z then push_loop al source sink current l q (Some (true, n)) else ret (q, Some (true, n), false)
        | _ => ret (q, Some (true, n), false)
        end
      else push_loop al source sink current l q (Some (false, n))
    end.
  (* graph.py:1407-1445: one iteration of the while loop. pushed is unbound before the first neighbour is
     processed: an UnboundLocalError, which is a NameError. *)
  Definition preflow_iter (al : pf_algo) (source sink : name) (st : Q * option (bool * name)) : M graph (Q * option (bool * name) + unit) :=
    let '(q, last) := st in
    if fq_isEmpty q then ret (inr tt)
    else
      current <- lift (fq_peek q) IndexError ;;
      out <- get_neighbors current ;;
      inn <- get_in_neighbors current ;;
      '(q, last, rl) <- push_loop al source sink current (out ++ inn) q last ;;
      q <- lift (fq_remove q current) ValueError ;;
      q <- (if eqb current sink then ret q
            else
              (if rl : bool then relabel current ;; show_flow else ret tt) ;;
              e <- node_int current "excess" ;;
              if (e >? 0)%Z then
                match al with
                | HighestLabel => d <- node_int current "distance" ;; pf_push al q current (- d)%Z
                | _ => pf_push al q current 0%Z
                end
              else ret q) ;;
      '(pushed, n) <- lift last NameError ;;
      if pushed && negb (held q n) && negb (eqb n source) then
        match al with
        | SAP => q <- pf_push al q n 0%Z ;; ret (inl (q, last))
        | HighestLabel => d <- node_int n "distance" ;; q <- pf_push al q n (- d)%Z ;; ret (inl (q, last))
        | _ => ret (inl (q, last))
        end
      else ret (inl (q, last)).

  (* graph.py:1382-1388: unreachable nodes get a large distance; the warning is not modelled *)
  Definition label_disconnected (nl : list name) : M graph unit :=
    forM_ nl (fun n =>
      d <- get_node_attr n "distance" ;;
      if eqb d VNone then set_node_attr n "distance" (VI (2 * Z.of_nat (length nl) + 1)) else ret tt).
  (* graph.py:1394-1403: saturate the arcs out of the source *)
  Definition saturate (al : pf_algo) (source : name) (q0 : Q) : M graph Q :=
    l <- get_neighbors source ;;
    foldM (fun q n =>
      capacity <- get_edge_attr source n "capacity" ;;
      set_edge_attr source n "flow" capacity ;;
      set_node_attr n "excess" capacity ;;
      excess <- node_int source "excess" ;;
      capacity <- as_int capacity ;;
      set_node_attr source "excess" (VI (excess - capacity)) ;;
      pf_push al q n (-1)%Z) l q0.

  (* graph.py:1339-1445. [s0] is the empty Queue search creates, [q0] the empty container created for algo
     (any other algo leaves q unbound, a NameError at q.isEmpty()). *)
  Definition max_flow_preflowpush (fuel : nat) (s0 : fq frs) (q0 : Q) (source sink : name) (al : pf_algo) (display : option val) : M graph unit :=
    display <- match display with
               | None => d <- gets (fun g => dget (g_attr g) "display") ;; lift d KeyError
               | Some v => set_graph_attr "display" v ;; ret v
               end ;;
    nl <- gets get_node_list ;;
    forM_ nl (fun n => set_node_attr n "excess" (VI 0)) ;;
    init_flow ;;
    set_graph_attr "display" (VS "off") ;;
    search fuel sink None None s0 UnweightedSPT true ;;
    set_graph_attr "display" display ;;
    label_disconnected nl ;;
    q <- saturate al source q0 ;;
    set_node_attr source "distance" (VI (Z.of_nat (length nl))) ;;
    show_flow ;;
    match al with
    | OtherPreflow => fail NameError
    | _ => loop fuel (preflow_iter al source sink) (q, None)
    end.
End Preflow.
