(* Model of Graph.search and its helpers (graph.py:931-1241), label_components
   (graph.py:694-722) and get_diameter (graph.py:3418-3449). *)
From Coq Require Import DecimalString.
From Verif Require Import Py M_Graph M_Metrics.
Set Implicit Arguments. Unset Strict Implicit.

(* str(z) for an int *)
Definition str_of_Z (z : Z) : string := NilZero.string_of_int (Z.to_int z).

(* coinor.blimpy's Stack / Queue / PriorityQueue are not part of /repo: the search
   methods are parameterised by any implementation of the operations they call.
   [fq_is_pq] is isinstance(q, PriorityQueue); [fq_peek] on an empty container and
   [fq_remove] of an absent item return None (they raise). [fq_push q x None] is
   q.push(x), [fq_push q x (Some p)] is q.push(x, p). *)
Record frontier := {
  fq : Type;
  fq_is_pq : bool;
  fq_isEmpty : fq -> bool;
  fq_peek : fq -> option name;
  fq_push : fq -> name -> option Z -> fq;
  fq_remove : fq -> name -> option fq;
  fq_prio : fq -> name -> option Z
}.

Inductive algo := DFS | BFS | UnweightedSPT | Dijkstra | Prim | OtherAlgo.
Definition is_bfs (al : algo) : bool := match al with BFS | UnweightedSPT => true | _ => false end.

(* the three kinds of values search returns *)
Inductive sres := RPath (p : list name) | RPred (d : dict name name) | RNone.

Definition voZ (o : option Z) : val := match o with Some z => VI z | None => VNone end.

Section Search.
  Variable fr : frontier.
  Notation Q := (fq fr).
  Notation locals := (dict name name * Q)%type.

  (* q.get_priority(x): Stack and Queue have no such method *)
  Definition get_priority (q : Q) (x : name) : M graph (option Z) :=
    if fq_is_pq fr then ret (fq_prio q x) else fail AttributeError.
  (* q.push(x, p): Stack.push and Queue.push take one argument *)
  Definition push_prio (q : Q) (x : name) (p : Z) : M graph Q :=
    if fq_is_pq fr then ret (fq_push q x (Some p)) else fail TypeError.
  (* arithmetic and comparison are on ints only; None (and anything else) raises TypeError.
     Python also accepts bools and floats here; those values are not modelled as numbers. *)
  Definition as_int (v : val) : M graph Z := match v with VI z => ret z | _ => fail TypeError end.
  Definition as_int_o (o : option Z) : M graph Z := match o with Some z => ret z | None => fail TypeError end.

  (* self.set_edge_attr(current, n, 'color', c), with the arc's ends swapped when reverse
     (graph.py:1040-1042, 1061-1064, 1072-1082) *)
  Definition color_edge (reverse : bool) (x y : name) (c : string) : M graph unit :=
    if reverse then set_edge_attr y x "color" (VS c) else set_edge_attr x y "color" (VS c).

  (* graph.py:1095-1109 process_node_search *)
  Definition process_node_search (x : name) (q : Q) : M graph unit :=
    if fq_is_pq fr then set_node_attr x "priority" (voZ (fq_prio q x)) else ret tt.

  (* graph.py:1111-1142 process_edge_dijkstra, current is None *)
  Definition process_source_pq (x : name) (st : locals) : M graph locals :=
    let '(pred, q) := st in
    set_node_attr x "color" (VS "red") ;;
    set_node_attr x "label" (VI 0) ;;
    q <- push_prio q x 0%Z ;;
    set_node_attr x "color" (VS "black") ;;
    ret (pred, q).
  (* the common tail of process_edge_dijkstra / process_edge_prim *)
  Definition relax_pq (cur n : name) (ne : Z) (st : locals) : M graph locals :=
    let '(pred, q) := st in
    better <- (if negb (dmem pred n) then ret true
               else p <- get_priority q n ;; p <- as_int_o p ;; ret (ne <? p)%Z) ;;
    if better : bool then
      let pred := dset pred n cur in
      set_node_attr n "color" (VS "red") ;;
      set_node_attr n "label" (VI ne) ;;
      q <- push_prio q n ne ;;
      set_node_attr n "color" (VS "black") ;;
      ret (pred, q)
    else ret (pred, q).
  (* graph.py:1111-1142 process_edge_dijkstra *)
  Definition process_edge_dijkstra (cur n : name) (st : locals) : M graph locals :=
    pc <- get_priority (snd st) cur ;; 
    c <- get_edge_attr cur n "cost" ;;
    pc <- as_int_o pc ;; c <- as_int c ;;
    relax_pq cur n (pc + c)%Z st.
  (* graph.py:1144-1174 process_edge_prim *)
  Definition process_edge_prim (cur n : name) (st : locals) : M graph locals :=
    c <- get_edge_attr cur n "cost" ;;
    c <- as_int c ;;
    relax_pq cur n c st.

  Definition set_component (n : name) (component : option Z) : M graph unit :=
    match component with
    | Some c => set_node_attr n "component" (VI c) ;; set_node_attr n "label" (VI c)
    | None => ret tt
    end.

  (* graph.py:1176-1241 process_edge_search, current is None (the source) *)
  Definition process_source (al : algo) (component : option Z) (n : name) (st : locals) : M graph locals :=
    match al with
    | Dijkstra | Prim => process_source_pq n st
    | _ =>
      let '(pred, q) := st in
      set_node_attr n "distance" (VI 0) ;;
      let q := if fq_is_pq fr then fq_push q n (Some 0%Z) else fq_push q n None in
      match component with
      | Some c => set_node_attr n "component" (VI c) ;; set_node_attr n "label" (VI c)
      | None => set_node_attr n "label" (VI 0)
      end ;;
      ret (pred, q)
    end.
  (* the common end of process_edge_search (graph.py:1235-1241) *)
  Definition finish_edge (component : option Z) (cur n : name) (st : locals) : M graph locals :=
    let '(pred, q) := st in
    set_node_attr n "color" (VS "red") ;;
    set_component n component ;;
    ret (dset pred n cur, q).
  (* graph.py:1176-1241 process_edge_search, current is a node. With algo outside
     the known ones this is not reached from search. *)
  Definition process_edge (al : algo) (component : option Z) (cur n : name) (st : locals) : M graph locals :=
    match al with
    | Dijkstra => process_edge_dijkstra cur n st
    | Prim => process_edge_prim cur n st
    | _ =>
      let '(pred, q) := st in
      if fq_is_pq fr then
        let cp := fq_prio q n in
        d <- get_node_attr cur "distance" ;;
        d <- as_int d ;;
        let priority := if is_bfs al then (d + 1)%Z else (- d - 1)%Z in
        if match cp with Some c => (priority >=? c)%Z | None => false end then ret (pred, q)
        else
          let q := fq_push q n (Some priority) in
          (if is_bfs al then set_node_attr n "distance" (VI priority)
           else set_node_attr n "depth" (VI (- priority))) ;;
          finish_edge component cur n (pred, q)
      else
        d <- get_node_attr cur "distance" ;;
        d <- as_int d ;;
        let distance := (d + 1)%Z in
        dn <- get_node_attr n "distance" ;;
        if is_bfs al && negb (eqb dn VNone) then ret (pred, q)
        else
          set_node_attr n "distance" (VI distance) ;;
          set_node_attr n "label" (VS (str_of_Z distance)) ;;
          finish_edge component cur n (pred, fq_push q n None)
    end.

  (* graph.py:1032-1042: the initialisation loop of search *)
  Definition init_search (reverse : bool) (nb : dict name (list name)) : M graph unit :=
    ns <- gets get_node_list ;;
    forM_ ns (fun i =>
      set_node_attr i "label" (VS "-") ;;
      pop_node_attr i "priority" ;;
      set_node_attr i "distance" VNone ;;
      set_node_attr i "color" (VS "black") ;;
      l <- lift (dget nb i) KeyError ;;
      forM_ l (fun j => color_edge reverse i j "black")).

  (* graph.py:1067-1082: the loop over the neighbours of current *)
  Definition scan_neighbors (al : algo) (component : option Z) (reverse : bool) (cur : name)
      (l : list name) (st : locals) : M graph locals :=
    foldM (fun st n =>
      c <- get_node_attr n "color" ;;
      if eqb c (VS "green") then ret st
      else
        color_edge reverse cur n "yellow" ;;
        st <- process_edge al component cur n st ;;
        color_edge reverse cur n "black" ;;
        ret st) l st.

  (* graph.py:1049-1085: one iteration of  while not q.isEmpty() and not found.
     inr (found, pred) leaves the loop. *)
  Definition search_iter (al : algo) (component : option Z) (reverse : bool) (source : name) (dest : option name)
      (nb : dict name (list name)) (st : locals) : M graph (locals + (bool * dict name name)) :=
    let '(pred, q) := st in
    if fq_isEmpty q then ret (inr (false, pred))
    else
      cur <- lift (fq_peek q) IndexError ;;
      c <- get_node_attr cur "color" ;;
      if eqb c (VS "green") then
        q <- lift (fq_remove q cur) ValueError ;; ret (inl (pred, q))
      else
        process_node_search cur q ;;
        set_node_attr cur "color" (VS "blue") ;;
        (if eqb cur source then ret tt
         else p <- lift (dget pred cur) KeyError ;; color_edge reverse p cur "green") ;;
        if eqb (Some cur) dest then ret (inr (true, pred))
        else
          l <- lift (dget nb cur) KeyError ;;
          '(pred, q) <- scan_neighbors al component reverse cur l (pred, q) ;;
          q <- lift (fq_remove q cur) ValueError ;;
          set_node_attr cur "color" (VS "green") ;;
          ret (inl (pred, q)).

  (* graph.py:1086-1092: walking pred back from destination *)
  Definition walk_back (fuel : nat) (source dest : name) (pred : dict name name) : M graph (list name) :=
    loop fuel (fun st : name * list name =>
      let '(cur, path) := st in
      if eqb cur source then ret (inr path)
      else p <- lift (dget pred cur) KeyError ;; ret (inl (p, p :: path))) (dest, [dest]).

  (* graph.py:974-1093 search. [q0] is the q argument (or the freshly created default);
     display and kargs are not modelled. [fuel] bounds both while loops. *)
  Definition search (fuel : nat) (source : name) (dest : option name) (component : option Z) (q0 : Q)
      (al : algo) (reverse : bool) : M graph sres :=
    match al with
    | OtherAlgo => ret RNone
    | _ =>
      (match al with
       | Dijkstra | Prim => ret tt
       | _ => set_node_attr source "component" (voZ component)
       end) ;;
      t <- gets g_type ;;
      nb <- (match t, reverse with Directed, true => in_dict | _, _ => gets g_nbrs end) ;;
      init_search reverse nb ;;
      st <- process_source al component source ([], q0) ;;
      '(found, pred) <- (if eqb (Some source) dest then ret (true, fst st)
                         else loop fuel (search_iter al component reverse source dest nb) st) ;;
      match dest with
      | Some d => if found : bool then p <- walk_back fuel source d pred ;; ret (RPath p) else ret RNone
      | None => ret (RPred pred)
      end
    end.

  (* graph.py:931-944 bfs: search with the default algo 'DFS' and the Queue [q0]; returns None *)
  Definition bfs (fuel : nat) (root : name) (component : option Z) (q0 : Q) : M graph unit :=
    search fuel root None component q0 DFS false ;; ret tt.

  (* graph.py:694-722 label_components; a new Stack [q0] for each search *)
  Definition label_components (fuel : nat) (q0 : Q) : M graph unit :=
    t <- gets g_type ;;
    match t with
    | Directed => fail (PyException "label_components only works for undirected graphs")
    | Undirected =>
      modify (fun g => with_ncomp g (Some 0%Z)) ;;
      ns <- gets get_node_list ;;
      forM_ ns (fun n => set_node_attr n "component" VNone) ;;
      forM_ ns (fun n => set_node_attr n "label" (VS "-")) ;;
      forM_ ns (fun n =>
        c <- get_node_attr n "component" ;;
        if eqb c VNone then
          k <- gets g_ncomp ;;
          search fuel n None k q0 DFS false ;;
          modify (fun g => with_ncomp g (match g_ncomp g with Some k => Some (k + 1)%Z | None => None end))
        else ret tt)
    end.

  (* graph.py:3418-3449 get_diameter; the result is an int or the string 'infinity'
     (None when the graph is not undirected). eccentricity_n is not reset between rows. *)
  Inductive diam := DInf | DNum (k : nat).
  Definition diam_row (fuel : nat) (q0 : Q) (n : name) (ns : list name) (ecc : nat) : M graph (option nat) :=
    foldM (fun (acc : option nat) m =>
      match acc with
      | None => ret None        (* 'infinity' has already been returned *)
      | Some ecc =>
        r <- search fuel n (Some m) None q0 BFS false ;;
        match r with
        | RNone => ret None
        | RPath p => ret (Some (Nat.max ecc (length p - 1)))
        | RPred _ => fail TypeError
        end
      end) ns (Some ecc).
  Definition get_diameter (fuel : nat) (q0 : Q) : M graph (option diam) :=
    t <- attr_type ;;
    if negb (eqb t (VS "graph")) then ret None
    else
      ns <- gets get_node_list ;;
      r <- foldM (fun (acc : option (diam * nat)) n =>
        match acc with
        | None => ret None
        | Some (dm, ecc) =>
          ecc' <- diam_row fuel q0 n ns ecc ;;
          match ecc' with
          | None => ret None
          | Some ecc' =>
            ret (Some (match dm with DInf => DNum ecc' | DNum k => if k <? ecc' then DNum ecc' else DNum k end, ecc'))
          end
        end) ns (Some (DInf, 0)) ;;
      ret (Some (match r with None => DInf | Some (dm, _) => dm end)).
End Search.
