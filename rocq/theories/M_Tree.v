(* Model of /repo/src/gimpy/tree.py: classes Tree and BinaryTree. *)
From Verif Require Import Py M_Graph.
Set Implicit Arguments. Unset Strict Implicit.
Local Open Scope string_scope. Local Open Scope list_scope.

(* What the traversals take as a node: a node name, a Node object, or None. A Node object is
   identified with its name: Tree.root is the object stored in self.nodes under that name. *)
Inductive item := IName (n : name) | INode (n : name) | INone.
(* The observable effects of traversals: the calls self.display(highlight=[x]) and the printed tokens.
   display() itself is a no-op here. *)
Inductive event := EHigh (x : item) | EPrint (v : val).

(* tree.py:22-34: a Graph plus self.root; t_trace records the events *)
Record tree := mkTree { t_g : graph; t_root : option name; t_trace : list event }.
(* tree.py:22-34 Tree.__init__ and 186-195 BinaryTree.__init__: [kw] are the keyword arguments *)
Definition new_tree (kw : attrs) : tree :=
  let kw := ddel kw "type" in
  mkTree (new_graph (Some Directed) (if dmem kw "layout" then kw else dset kw "layout" (VS "dot"))) None [].

(* calling a Graph method on the tree *)
Definition ong {A} (m : M graph A) : M tree A := fun t =>
  let '(g, r) := m (t_g t) in (mkTree g (t_root t) (t_trace t), r).
Definition emit (e : event) : M tree unit := modify (fun t => mkTree (t_g t) (t_root t) (t_trace t ++ [e])).
Definition set_root (n : name) : M tree unit := modify (fun t => mkTree (t_g t) (Some n) (t_trace t)).

(* tree.py:36-47 Tree.get_children *)
Definition get_children (n : name) : M tree (list name) := ong (get_neighbors n).
(* tree.py:49-65 Tree.get_parent: get_node returns None for a missing node *)
Definition get_parent (n : name) : M tree val := ong (get_node_attr n "parent").
(* tree.py:67-83 Tree.add_root; tree.py:197-208 BinaryTree.add_root *)
Definition add_root (n : name) (a : attrs) : M tree unit :=
  ong (add_node n (dset a "level" (VI 0))) ;; set_root n.
(* tree.py:85-105 Tree.add_child; None + 1 (and anything that is not an int) raises TypeError *)
Definition add_child (n parent : name) (a : attrs) : M tree unit :=
  v <- ong (get_node_attr parent "level") ;;
  l <- match v with VI z => ret z | _ => fail TypeError end ;;
  let a := dset a "level" (VI (l + 1)) in
  let a := dset a "parent" (vname parent) in
  ong (add_node n a) ;;
  ong (add_edge parent n []).

(* blimpy's Stack.push/pop and Queue.enqueue/dequeue (not in /repo): a list whose head is the next item *)
Definition put (fifo : bool) (q : list item) (x : item) : list item := if fifo then q ++ [x] else x :: q.

(* self.get_children(x) when x may be a Node object or None: no such key in self.neighbors *)
Definition get_children_i (x : item) : M tree (list name) :=
  match x with IName n => get_children n | INode _ | INone => fail KeyError end.
(* the argument root, None meaning self.root *)
Definition root_item (root : option name) : M tree item :=
  match root with
  | Some n => ret (IName n)
  | None => o <- gets t_root ;; ret (match o with Some n => INode n | None => INone end)
  end.
(* tree.py:145-178 Tree.traverse, q a fresh Queue (fifo = true) or Stack; every mode of self.attr['display']
   that set_display_mode accepts, 'off' included, is a true value, so display() is called on each visit *)
Definition tree_traverse (fuel : nat) (fifo : bool) (root : option name) : M tree unit :=
  r <- root_item root ;;
  loop fuel (fun q : list item =>
    match q with
    | [] => ret (inr tt)
    | current :: q =>
      emit (EHigh current) ;;
      l <- get_children_i current ;;
      ret (inl (fold_left (put fifo) (map IName l) q))
    end) (put fifo [] r).
(* tree.py:107-124 Tree.dfs, 126-143 Tree.bfs *)
Definition tree_dfs (fuel : nat) (root : option name) : M tree unit := tree_traverse fuel false root.
Definition tree_bfs (fuel : nat) (root : option name) : M tree unit := tree_traverse fuel true root.

(** * BinaryTree *)
Inductive side := L | R.
Definition slot (s : side) : string := match s with L => "Lchild" | R => "Rchild" end.
Definition dir (s : side) : val := match s with L => VS "L" | R => VS "R" end.
Definition other (s : side) : side := match s with L => R | R => L end.

(* tree.py:248-263 get_right_child, 265-280 get_left_child *)
Definition get_child (s : side) (x : item) : M tree val :=
  match x with
  | IName n | INode n => ong (get_node_attr n (slot s))
  | INone => fail AttributeError
  end.
(* a non-None child used as a node; a bool is not a node name *)
Definition as_name (v : val) : M tree name := lift (nameof v) AttributeError.

(* tree.py:210-227 add_right_child, 229-246 add_left_child (both raise with the same text) *)
Definition add_side_child (s : side) (n parent : name) (a : attrs) : M tree unit :=
  v <- get_child s (IName parent) ;;
  match v with
  | VNone =>
    let a := dset a "direction" (dir s) in
    ong (set_node_attr parent (slot s) (vname n)) ;;
    add_child n parent a
  | _ => fail (PyException "Right child already exists")
  end.
(* tree.py:282-297 BinaryTree.del_node; set_node_attr(None, ...) raises AttributeError because get_node(None)
   is None *)
Definition bdel_node (n : name) : M tree unit :=
  p <- ong (get_node_attr n "parent") ;;
  d <- ong (get_node_attr n "direction") ;;
  let s := if eqb d (VS "R") then R else L in
  match nameof p with
  | Some p => ong (set_node_attr p (slot s) VNone)
  | None => fail AttributeError
  end ;;
  ong (del_node n).

Definition truthy (v : val) : bool :=
  match v with VNone => false | VBool b => b | VI z => negb (z =? 0)%Z | VS s => negb (s =? "")%string end.
(* the beginning and the end of print_nodes and traverse (tree.py:317-324, 345-346, 405-412, 431-432):
   returns (display, old_display) *)
Definition enter_display (display : option val) : M tree (val * val) :=
  d <- gets (fun t => dget (g_attr (t_g t)) "display") ;;
  d <- lift d KeyError ;;
  match display with
  | None => ret (d, VNone)
  | Some v => ong (set_graph_attr "display" v) ;; ret (v, d)
  end.
Definition leave_display (old : val) : M tree unit :=
  if truthy old then ong (set_graph_attr "display" old) else ret tt.
Definition show (display : val) (x : item) : M tree unit := if truthy display then emit (EHigh x) else ret tt.

Inductive order := PreOrder | InOrder | PostOrder.
(* tree.py:299-346 print_nodes; [s] is the prioritised side; fuel bounds the recursion depth *)
Fixpoint print_nodes (fuel : nat) (o : order) (s : side) (display : option val) (root : option name) : M tree unit :=
  match fuel with
  | O => fail OutOfFuel
  | S f =>
    n <- match root with Some n => ret n | None => r <- gets t_root ;; lift r AttributeError end ;;
    '(dsp, old) <- enter_display display ;;
    let visit (c : side) :=
      v <- get_child c (IName n) ;;
      match v with
      | VNone => ret tt
      | _ => show dsp (IName n) ;; m <- as_name v ;; print_nodes f o s (Some dsp) (Some m)
      end in
    let print_if (p : order) := match o, p with
      | PreOrder, PreOrder | InOrder, InOrder | PostOrder, PostOrder => emit (EPrint (vname n))
      | _, _ => ret tt
      end in
    print_if PreOrder ;;
    visit s ;;
    print_if InOrder ;;
    visit (other s) ;;
    print_if PostOrder ;;
    show dsp (IName n) ;;
    leave_display old
  end.

(* tree.py:382-432 BinaryTree.traverse, q a fresh Queue (fifo = true) or Stack *)
Definition bin_traverse (fuel : nat) (fifo : bool) (s : side) (display : option val) (root : option name) : M tree unit :=
  r <- root_item root ;;
  '(dsp, old) <- enter_display display ;;
  let push (c : side) (current : item) (q : list item) :=
    v <- get_child c current ;;
    match v with
    | VNone => ret q
    | _ => m <- as_name v ;; ret (put fifo q (IName m))
    end in
  loop fuel (fun q : list item =>
    match q with
    | [] => ret (inr tt)
    | current :: q =>
      show dsp current ;;
      q <- push s current q ;;
      q <- push (other s) current q ;;
      ret (inl q)
    end) (put fifo [] r) ;;
  leave_display old.
(* tree.py:348-363 BinaryTree.dfs, 365-380 BinaryTree.bfs *)
Definition bin_dfs (fuel : nat) (s : side) (display : option val) (root : option name) : M tree unit := bin_traverse fuel false s display root.
Definition bin_bfs (fuel : nat) (s : side) (display : option val) (root : option name) : M tree unit := bin_traverse fuel true s display root.

(* the label looked up by printexp and postordereval (tree.py:443-450, 479-486): on a Node object a missing
   'label' gives the name, on a name a None 'label' gives the name *)
Definition root_label (x : item) : M tree val :=
  match x with
  | INode n => fun t => (t, match dget (g_nodes (t_g t)) n with
                           | Some d => Ok (match dget d "label" with Some v => v | None => vname n end)
                           | None => Err AttributeError
                           end)
  | IName n => v <- ong (get_node_attr n "label") ;; ret (match v with VNone => vname n | _ => v end)
  | INone => fail AttributeError
  end.

(* tree.py:434-463 printexp(display=None, root) *)
Fixpoint printexp (fuel : nat) (x : item) : M tree unit :=
  match fuel with
  | O => fail OutOfFuel
  | S f =>
    v <- get_child L x ;;
    (if truthy v then emit (EPrint (VS "(")) ;; c <- as_name v ;; printexp f (IName c) else ret tt) ;;
    l <- root_label x ;;
    emit (EPrint l) ;;
    v <- get_child R x ;;
    (if truthy v then c <- as_name v ;; printexp f (IName c) ;; emit (EPrint (VS ")")) else ret tt)
  end.

(* Python numbers produced by + - * and true division of ints, and their truth value. int/int is a float: the
   theorems hold for any such arithmetic, so they do not depend on rounding. Overflow errors are not modelled. *)
Record arith := {
  num : Type;
  of_int : Z -> num;
  n_add : num -> num -> num; n_sub : num -> num -> num; n_mul : num -> num -> num; n_div : num -> num -> num;
  nonzero : num -> bool
}.
(* tree.py:470-471 the dictionary opers *)
Definition oper (A : arith) (v : val) : option (num A -> num A -> num A) :=
  match v with
  | VS s => if (s =? "+")%string then Some (@n_add A) else if (s =? "-")%string then Some (@n_sub A)
            else if (s =? "*")%string then Some (@n_mul A) else if (s =? "/")%string then Some (@n_div A) else None
  | _ => None
  end.
(* int(x): on a str an optional sign and decimal digits. Surrounding blanks and '_' between digits, which Python
   also accepts, are not modelled. *)
Fixpoint digits (s : string) (acc : Z) : option Z :=
  match s with
  | EmptyString => Some acc
  | String c s =>
    let k := nat_of_ascii c in
    if (48 <=? k)%nat && (k <=? 57)%nat then digits s (10 * acc + Z.of_nat (k - 48))%Z else None
  end.
Definition int_of_string (s : string) : option Z :=
  match s with
  | EmptyString => None
  | String c r =>
    let neg := (c =? "-")%char in
    let r := if neg || (c =? "+")%char then r else s in
    match r with EmptyString => None | _ => option_map (fun z => if neg then (- z)%Z else z) (digits r 0) end
  end.
Definition int_of (v : val) : res Z :=
  match v with
  | VI z => Ok z
  | VBool b => Ok (if b then 1 else 0)%Z
  | VS s => match int_of_string s with Some z => Ok z | None => Err ValueError end
  | VNone => Err TypeError
  end.
(* tree.py:465-503 postordereval(display=None, root); the printing is not modelled *)
Fixpoint postordereval (A : arith) (fuel : nat) (x : item) : M tree (num A) :=
  match fuel with
  | O => fail OutOfFuel
  | S f =>
    v <- get_child L x ;;
    res1 <- (if truthy v then c <- as_name v ;; r <- postordereval A f (IName c) ;; ret (Some r) else ret None) ;;
    l <- root_label x ;;
    v <- get_child R x ;;
    res2 <- (if truthy v then c <- as_name v ;; r <- postordereval A f (IName c) ;; ret (Some r) else ret None) ;;
    let leaf := fun t => (t, match int_of l with Ok z => Ok (of_int A z) | Err e => Err e end) in
    match res1, res2 with
    | Some a, Some b =>
      if nonzero a && nonzero b then op <- lift (oper A l) KeyError ;; ret (op a b) else leaf
    | _, _ => leaf
    end
  end.

(* mutating API calls, for quantifying over histories *)
Inductive top := TRoot (n : name) (a : attrs) | TChild (n parent : name) (a : attrs).
Definition texec (o : top) : M tree unit :=
  match o with TRoot n a => add_root n a | TChild n p a => add_child n p a end.
Definition thistory (t : tree) (os : list top) : tree := fold_left (fun t o => fst (texec o t)) os t.
Inductive bop := BRoot (n : name) (a : attrs) | BChild (s : side) (n parent : name) (a : attrs) | BDel (n : name).
Definition bexec (o : bop) : M tree unit :=
  match o with BRoot n a => add_root n a | BChild s n p a => add_side_child s n p a | BDel n => bdel_node n end.
Definition bhistory (t : tree) (os : list bop) : tree := fold_left (fun t o => fst (bexec o t)) os t.
Definition tobs {A} (m : M tree A) (t : tree) : res A := snd (m t).
