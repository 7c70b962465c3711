(* Model of class DisjointSet (graph.py:3482-3565) and of minimum_spanning_tree_kruskal (graph.py:1297-1337). *)
From Verif Require Import Py M_Graph.
Set Implicit Arguments. Unset Strict Implicit.

(* DisjointSet inherits Graph and adds self.sizes and self.optimize (graph.py:3486-3501);
   ds_g is the inherited part *)
Record dsj := mkDsj { ds_g : graph; ds_sizes : dict name Z; ds_opt : bool }.
(* graph.py:3486-3501 DisjointSet.__init__: attrs['type'] is set to 'digraph' *)
Definition new_ds (opt : bool) (kw : attrs) : dsj := mkDsj (new_graph (Some Directed) kw) [] opt.
(* calling an inherited Graph method on the DisjointSet *)
Definition ong {A} (m : M graph A) : M dsj A := fun d => let (g, r) := m (ds_g d) in (mkDsj g (ds_sizes d) (ds_opt d), r).
Definition set_size (r : name) (z : Z) : M dsj unit := modify (fun d => mkDsj (ds_g d) (dset (ds_sizes d) r z) (ds_opt d)).
Definition get_size (r : name) : M dsj Z := s <- gets ds_sizes ;; lift (dget s r) KeyError.

(* graph.py:3503-3517 DisjointSet.add; aList[0] raises IndexError on an empty list *)
Definition ds_add (l : list name) : M dsj unit :=
  match l with
  | [] => fail IndexError
  | a :: t =>
    ong (add_node a []) ;;
    forM_ t (fun x => ong (add_edge x a [])) ;;
    set_size a (Z.of_nat (length l))
  end.

(* graph.py:3554-3559: the while loop of find; [fuel] bounds it *)
Definition ds_climb (fuel : nat) (i : name) : M dsj (name * list (name * name)) :=
  loop fuel (fun st : name * list (name * name) =>
    let '(current, edge_list) := st in
    l <- ong (get_neighbors current) ;;
    match l with
    | [] => ret (inr (current, edge_list))
    | successor :: _ => ret (inl (successor, edge_list ++ [(current, successor)]))
    end) (i, []).
(* graph.py:3543-3565 DisjointSet.find *)
Definition ds_find (fuel : nat) (i : name) : M dsj name :=
  '(current, edge_list) <- ds_climb fuel i ;;
  opt <- gets ds_opt ;;
  (if opt : bool then
     forM_ edge_list (fun e =>
       if eqb (snd e) current then ret tt
       else ong (del_edge (fst e) (snd e)) ;; ong (add_edge (fst e) current []))
   else ret tt) ;;
  ret current.

(* graph.py:3519-3541 DisjointSet.union *)
Definition ds_union (fuel : nat) (i j : name) : M dsj bool :=
  r0 <- ds_find fuel i ;;
  r1 <- ds_find fuel j ;;
  if eqb r0 r1 then ret false
  else
    s0 <- get_size r0 ;;
    s1 <- get_size r1 ;;
    opt <- gets ds_opt ;;
    if (s0 <=? s1)%Z || negb opt then
      ong (add_edge r0 r1 []) ;;
      s1 <- get_size r1 ;; s0 <- get_size r0 ;;
      set_size r1 (s1 + s0)%Z ;;
      ret true
    else
      ong (add_edge r1 r0 []) ;;
      s0 <- get_size r0 ;; s1 <- get_size r1 ;;
      set_size r0 (s0 + s1)%Z ;;
      ret true.

(* sorted(l, key=...): Python's sort is stable; insertion sort gives the same (unique) stable result *)
Fixpoint insert_by {A} (key : A -> Z) (x : A) (l : list A) : list A :=
  match l with
  | [] => [x]
  | y :: t => if (key x <=? key y)%Z then x :: y :: t else y :: insert_by key x t
  end.
Definition sort_by {A} (key : A -> Z) (l : list A) : list A := fold_right (insert_by key) [] l.

(* key=self.get_edge_cost: the keys are computed first, in order; KeyError if an edge has no cost.
   Simplification: costs are ints; any other value raises TypeError here (Python would compare, e.g.,
   strings with each other). *)
Definition edge_costs (es : list (name * name)) : M graph (list ((name * name) * Z)) :=
  foldM (fun acc e => c <- get_edge_cost e ;; match c with VI z => ret (acc ++ [(e, z)]) | _ => fail TypeError end) es [].

(* running a DisjointSet method on the local variable [components] *)
Definition withD {A} (m : M dsj A) (d : dsj) : M graph (A * dsj) :=
  match m d with (d', Ok a) => ret (a, d') | (_, Err e) => fail e end.

(* graph.py:1322-1336: the loop over the sorted edges; leaves when the tree is complete *)
Fixpoint kruskal_loop (fuel : nat) (l : list (name * name)) (edges : list (name * name)) (d : dsj) : M graph (list (name * name)) :=
  match l with
  | [] => ret edges
  | e :: t =>
    ns <- gets get_node_list ;;
    if (Z.of_nat (length edges) =? Z.of_nat (length ns) - 1)%Z then ret edges
    else
      set_edge_attr (fst e) (snd e) "color" (VS "yellow") ;;
      '(b, d) <- withD (ds_union fuel (fst e) (snd e)) d ;;
      if b : bool then
        set_edge_attr (fst e) (snd e) "color" (VS "green") ;;
        kruskal_loop fuel t (edges ++ [e]) d
      else
        set_edge_attr (fst e) (snd e) "color" (VS "black") ;;
        kruskal_loop fuel t edges d
  end.
(* graph.py:1297-1337 minimum_spanning_tree_kruskal; [d0] is the components argument, or the fresh
   DisjointSet(optimize=False) made when it is None. Not modelled: display; the state of a
   user-supplied components object after an exception. *)
Definition kruskal (fuel : nat) (d0 : dsj) : M graph (list (name * name)) :=
  es <- gets get_edge_list ;;
  ks <- edge_costs es ;;
  ns <- gets get_node_list ;;
  d <- foldM (fun d n => '(_, d) <- withD (ds_add [n]) d ;; ret d) ns d0 ;;
  kruskal_loop fuel (map fst (sort_by snd ks)) [] d.
