(* Model of Graph.random (graph.py:3165-3316).
   Python's random module is an arbitrary stream: the k-th call to it finds [rnd k] (for randint, reduced
   to the requested interval), [coin k] (whether random.random() < density) or [coord k] (the float
   random.random()*scale), whatever these are. Floats are opaque values; the arithmetic on coordinates is
   the parameters [scaled] (int(round(distance*scale_cost, 0))), [plain] (int(round(distance, 0))) and
   [pos_str]. Format dictionaries are assumed not to contain the parameter names of add_node/add_edge. *)
From Verif Require Import Py M_Graph M_Search.
Set Implicit Arguments. Unset Strict Implicit.
Local Open Scope string_scope.
Local Open Scope list_scope.
Local Open Scope Z_scope.

Record oracle := {
  rnd : nat -> Z;
  coin : nat -> bool;
  coord : nat -> val;
  scaled : val * val -> val * val -> Z;
  plain : val * val -> val * val -> Z;
  pos_str : val -> val -> string
}.
(* the arguments; [density] says whether a density is given, None formats are the default dictionaries
   (graph.py:3195-3206; 0.5 is kept as its text) *)
Record params := {
  numnodes : Z;
  degree_range : option (Z * Z);
  length_range : option (Z * Z);
  density : bool;
  edge_format : attrs;
  node_format : attrs;
  euclidean : bool;
  add_labels : bool;
  parallel_allowed : bool;
  node_selection : string
}.
Definition default_edge_format : attrs := [("fontsize", VI 10); ("fontcolor", VS "blue")].
Definition default_node_format : attrs :=
  [("height", VS "0.5"); ("width", VS "0.5"); ("fixedsize", VS "true"); ("fontsize", VI 10); ("fontcolor", VS "red"); ("shape", VS "circle")].

(* range(n) *)
Definition zrange (n : Z) : list Z := map Z.of_nat (seq 0 (Z.to_nat n)).

Section Random.
  Variable o : oracle.
  (* the graph and the number of calls made to the random module *)
  Notation rstate := (graph * nat)%type.
  Definition ong {A} (m : M graph A) : M rstate A := fun s => let '(g, r) := m (fst s) in ((g, snd s), r).
  (* random.randint(a, b): ValueError on an empty range *)
  Definition randint (a b : Z) : M rstate Z := fun s =>
    if b <? a then (s, Err ValueError) else ((fst s, S (snd s)), Ok (a + rnd o (snd s) mod (b - a + 1))).
  Definition draw_coin : M rstate bool := fun s => ((fst s, S (snd s)), Ok (coin o (snd s))).
  Definition draw_coord : M rstate val := fun s => ((fst s, S (snd s)), Ok (coord o (snd s))).
  (* (n, m) in self.edge_attr *)
  Definition has_key (m n : Z) : M rstate bool := gets (fun s => dmem (g_edges (fst s)) (NI m, NI n)).

  (* f(..., k1 = v1, ..., **fmt): a repeated keyword is a TypeError *)
  Definition kwargs (kw fmt : attrs) : M rstate attrs :=
    if existsb (fun k => dmem fmt k) (dkeys kw) then fail TypeError else ret (kw ++ fmt).
  (* self.add_edge(m, n, cost = length, **edge_format) (graph.py:3221, 3242, 3286, 3302, 3314) *)
  Definition add_cost_edge (p : params) (m n len : Z) : M rstate unit :=
    kw <- kwargs [("cost", VI len)] (edge_format p) ;; ong (add_edge (NI m) (NI n) kw).
  Definition set_label (m n len : Z) : M rstate unit := ong (set_edge_attr (NI m) (NI n) "label" (VS (str_of_Z len))).

  (* graph.py:3213-3227: one turn of the while loop, which always advances i *)
  Definition degree_try (p : params) (m : Z) : M rstate unit :=
    n <- randint 1 (numnodes p - 1) ;;
    b1 <- has_key m n ;; b2 <- has_key n m ;;
    if (negb b1 && negb (m =? n)) && (parallel_allowed p || negb b2) then
      match length_range p with
      | Some (lo, hi) =>
        len <- randint lo hi ;;
        add_cost_edge p m n len ;;
        if add_labels p then set_label m n len else ong (add_edge (NI m) (NI n) (edge_format p))
      | None => ret tt
      end
    else ret tt.
  (* graph.py:3209-3227 *)
  Definition degree_node (p : params) (d1 d2 m : Z) : M rstate unit :=
    degree <- randint d1 d2 ;; forM_ (zrange degree) (fun _ => degree_try p m).
  (* graph.py:3235-3247 *)
  Definition density_try (p : params) (m n : Z) : M rstate unit :=
    b <- has_key n m ;;
    if (parallel_allowed p || negb b) && negb (m =? n) then
      c <- draw_coin ;;
      if c : bool then
        match length_range p with
        | Some (lo, hi) =>
          len <- randint lo hi ;;
          add_cost_edge p m n len ;;
          if add_labels p then set_label m n len else ret tt
        | None => ong (add_edge (NI m) (NI n) (edge_format p))
        end
      else ret tt
    else ret tt.
  (* graph.py:3230-3234, 3294-3298: the candidates for the other end *)
  Definition others (p : params) (m : Z) : M rstate (list Z) :=
    t <- gets (fun s => g_type (fst s)) ;;
    ret (match t with Directed => zrange (numnodes p) | Undirected => zrange m end).

  (* graph.py:3251-3259 *)
  Definition place_node (p : params) (m : Z) : M rstate unit :=
    x <- draw_coord ;; y <- draw_coord ;;
    kw <- kwargs [("locationx", x); ("locationy", y); ("pos", VS (pos_str o x y))] (node_format p) ;;
    ong (add_node (NI m) kw).
  Definition location (n : Z) : M rstate (val * val) :=
    x <- ong (get_node_attr (NI n) "locationx") ;; y <- ong (get_node_attr (NI n) "locationy") ;; ret (x, y).
  (* lengths.sort(key = lambda l : l[1]), a stable sort *)
  Fixpoint insert_by (x : Z * Z) (l : list (Z * Z)) : list (Z * Z) :=
    match l with
    | [] => [x]
    | y :: t => if snd x <? snd y then x :: y :: t else y :: insert_by x t
    end.
  Definition sort_by (l : list (Z * Z)) : list (Z * Z) := fold_left (fun acc x => insert_by x acc) l [].
  (* graph.py:3277-3289 *)
  Definition closest_node (p : params) (m degree : Z) : M rstate unit :=
    lengths <- foldM (fun l n => ln <- location n ;; lm <- location m ;; ret (l ++ [(n, scaled o ln lm)])) (zrange (numnodes p)) [] ;;
    let lengths := sort_by lengths in
    forM_ (zrange (degree + 1)) (fun i =>
      e <- lift (nth_error lengths (Z.to_nat i)) IndexError ;;
      (* lengths[i][0] == m or self.check_edge(m, lengths[i][0]) *)
      b <- gets (fun s => check_edge (fst s) (NI m) (NI (fst e))) ;;
      if (fst e =? m) || b then ret tt else
      add_cost_edge p m (fst e) (snd e) ;;
      if add_labels p then set_label m (fst e) (snd e) else ret tt).
  (* graph.py:3300-3314 *)
  Definition euclid_density_try (p : params) (m n : Z) : M rstate unit :=
    b <- has_key n m ;;
    if (parallel_allowed p || negb b) && negb (m =? n) then
      c <- draw_coin ;;
      if c : bool then
        match length_range p with
        | None =>
          ln <- location n ;; lm <- location m ;;
          let len := plain o ln lm in
          add_cost_edge p m n len ;;
          if add_labels p then set_label m n len else ret tt
        | Some _ => ong (add_edge (NI m) (NI n) (edge_format p))
        end
      else ret tt
    else ret tt.
  (* one turn of the loop at graph.py:3261-3292; true means the method returns. With
     node_selection = 'random' the name n is read before it is bound. *)
  Definition euclid_degree_node (p : params) (d1 d2 m : Z) : M rstate bool :=
    degree <- randint d1 d2 ;;
    if eqb (node_selection p) "random" then if 0 <? degree then fail NameError else ret false
    else if eqb (node_selection p) "closest" then closest_node p m degree ;; ret false
    else ret true.

  (* graph.py:3165-3316; the seed and the printed messages are not modelled *)
  Definition random (p : params) : M rstate unit :=
    if negb (euclidean p) then
      forM_ (zrange (numnodes p)) (fun m => ong (add_node (NI m) (node_format p))) ;;
      match degree_range p, density p with
      | Some (d1, d2), false => forM_ (zrange (numnodes p)) (degree_node p d1 d2)
      | _, true => forM_ (zrange (numnodes p)) (fun m => l <- others p m ;; forM_ l (density_try p m))
      | None, false => ret tt
      end
    else
      forM_ (zrange (numnodes p)) (place_node p) ;;
      match degree_range p, density p with
      | Some (d1, d2), false =>
        stop <- foldM (fun stop m => if stop : bool then ret true else euclid_degree_node p d1 d2 m) (zrange (numnodes p)) false ;; ret tt
      | _, true => forM_ (zrange (numnodes p)) (fun m => l <- others p m ;; forM_ l (euclid_density_try p m))
      | None, false => ret tt
      end.
End Random.
