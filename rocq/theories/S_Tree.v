(* Specification vocabulary for trees: ordered trees, binary trees, expression trees, and what it means that a
   Tree or BinaryTree object has such a shape, in terms of get_children / get_left_child / get_right_child. *)
From Verif Require Import Py M_Graph M_Tree.
Set Implicit Arguments. Unset Strict Implicit.
Local Open Scope string_scope. Local Open Scope list_scope.

(** * Ordered trees *)
Inductive rose := Rose (n : name) (ts : list rose).
Definition rroot (r : rose) : name := match r with Rose n _ => n end.
Definition rkids (r : rose) : list rose := match r with Rose _ ts => ts end.
Fixpoint rnodes (r : rose) : list name := match r with Rose n ts => n :: flat_map rnodes ts end.
(* a node, then the subtrees of its children, last child first *)
Fixpoint pre_last_first (r : rose) : list name :=
  match r with Rose n ts => n :: (fix go l := match l with [] => [] | t :: l => go l ++ pre_last_first t end) ts end.
(* the nodes at distance d below the root, left to right *)
Fixpoint at_depth (d : nat) (r : rose) : list name :=
  match d with O => [rroot r] | S d => flat_map (at_depth d) (rkids r) end.
Fixpoint rheight (r : rose) : nat := match r with Rose _ ts => S (fold_right (fun t h => Nat.max (rheight t) h) 0 ts) end.
Definition level_order (r : rose) : list name := flat_map (fun d => at_depth d r) (seq 0 (rheight r)).
(* the tree object t has shape r below rroot r *)
Fixpoint tshape (t : tree) (r : rose) : Prop :=
  match r with Rose n ts => tobs (get_children n) t = Ok (map rroot ts) /\
    (fix all l := match l with [] => True | x :: l => tshape t x /\ all l end) ts end.
Definition child_of (t : tree) (p c : name) : Prop := exists l, tobs (get_children p) t = Ok l /\ List.In c l.

(** * Binary trees *)
Inductive bt := BL | BN (n : name) (l r : bt).
Fixpoint bnodes (b : bt) : list name := match b with BL => [] | BN n l r => n :: bnodes l ++ bnodes r end.
Definition bsub (s : side) (l r : bt) : bt := match s with L => l | R => r end.
(* pre-, in- and post-order, the children on side s first *)
Fixpoint blist (o : order) (s : side) (b : bt) : list name :=
  match b with
  | BL => []
  | BN n l r =>
    let first := match s with L => blist o s l | R => blist o s r end in
    let second := match s with L => blist o s r | R => blist o s l end in
    match o with
    | PreOrder => n :: first ++ second
    | InOrder => first ++ n :: second
    | PostOrder => first ++ second ++ [n]
    end
  end.
Fixpoint bat_depth (s : side) (d : nat) (b : bt) : list name :=
  match b with
  | BL => []
  | BN n l r => match d with
                | O => [n]
                | S d => match s with L => bat_depth s d l ++ bat_depth s d r | R => bat_depth s d r ++ bat_depth s d l end
                end
  end.
Fixpoint bheight (b : bt) : nat := match b with BL => 0 | BN _ l r => S (Nat.max (bheight l) (bheight r)) end.
Definition blevel_order (s : side) (b : bt) : list name := flat_map (fun d => bat_depth s d b) (seq 0 (bheight b)).
(* v is None and b is empty, or v names a node whose left and right children have the shapes of b's subtrees *)
Inductive bshape (t : tree) : val -> bt -> Prop :=
| bs_none : bshape t VNone BL
| bs_node n vl vr l r : tobs (get_child L (IName n)) t = Ok vl -> bshape t vl l ->
    tobs (get_child R (IName n)) t = Ok vr -> bshape t vr r -> bshape t (vname n) (BN n l r).
Definition bchild_of (t : tree) (p c : name) : Prop := exists s, tobs (get_child s (IName p)) t = Ok (vname c).

(** * Events *)
Definition prints (es : list event) : list val := flat_map (fun e => match e with EPrint v => [v] | EHigh _ => [] end) es.
Definition visits (es : list event) : list name :=
  flat_map (fun e => match e with EHigh (IName n) => [n] | EHigh (INode n) => [n] | _ => [] end) es.

(** * Expressions *)
Inductive opr := Add | Sub | Mul | Div.
Definition opr_label (o : opr) : string := match o with Add => "+" | Sub => "-" | Mul => "*" | Div => "/" end.
Inductive exp := ENum (z : Z) | EOp (o : opr) (l r : exp).
Definition app_op (A : arith) (o : opr) : num A -> num A -> num A :=
  match o with Add => @n_add A | Sub => @n_sub A | Mul => @n_mul A | Div => @n_div A end.
Fixpoint eval (A : arith) (e : exp) : num A :=
  match e with ENum z => of_int A z | EOp o l r => app_op o (eval A l) (eval A r) end.
(* e' is a subexpression of e other than e itself *)
Inductive psub : exp -> exp -> Prop :=
| ps_l o l r : psub l (EOp o l r)
| ps_r o l r : psub r (EOp o l r)
| ps_ll e o l r : psub e l -> psub e (EOp o l r)
| ps_rr e o l r : psub e r -> psub e (EOp o l r).
(* the label of a node: its 'label' attribute if it is set (and not None), its name otherwise *)
Definition label_of (t : tree) (n : name) : val := match tobs (root_label (IName n)) t with Ok v => v | Err _ => VNone end.
(* the node n of the tree object t represents the expression e: leaves are labelled by numbers and have no children,
   other nodes are labelled by an operator and have two children with true (non-zero, non-empty) names *)
Inductive eshape (t : tree) : name -> exp -> Prop :=
| es_num n z : tobs (get_child L (IName n)) t = Ok VNone -> tobs (get_child R (IName n)) t = Ok VNone ->
    tobs (root_label (IName n)) t = Ok (VI z) -> eshape t n (ENum z)
| es_str n s z : tobs (get_child L (IName n)) t = Ok VNone -> tobs (get_child R (IName n)) t = Ok VNone ->
    tobs (root_label (IName n)) t = Ok (VS s) -> int_of_string s = Some z -> eshape t n (ENum z)
| es_op n o l r el er : tobs (get_child L (IName n)) t = Ok (vname l) -> tobs (get_child R (IName n)) t = Ok (vname r) ->
    truthy (vname l) = true -> truthy (vname r) = true ->
    tobs (root_label (IName n)) t = Ok (VS (opr_label o)) -> eshape t l el -> eshape t r er -> eshape t n (EOp o el er).

(* full binary trees with arbitrary labels, for printexp *)
Inductive lt := LLeaf (v : val) | LNode (v : val) (l r : lt).
Fixpoint infix (x : lt) : list val :=
  match x with LLeaf v => [v] | LNode v l r => VS "(" :: infix l ++ v :: infix r ++ [VS ")"] end.
Fixpoint no_parens (x : lt) : Prop :=
  match x with LLeaf v => v <> VS "(" /\ v <> VS ")" | LNode v l r => (v <> VS "(" /\ v <> VS ")") /\ no_parens l /\ no_parens r end.
Inductive lshape (t : tree) : name -> lt -> Prop :=
| ls_leaf n v : tobs (get_child L (IName n)) t = Ok VNone -> tobs (get_child R (IName n)) t = Ok VNone ->
    tobs (root_label (IName n)) t = Ok v -> lshape t n (LLeaf v)
| ls_node n v l r xl xr : tobs (get_child L (IName n)) t = Ok (vname l) -> tobs (get_child R (IName n)) t = Ok (vname r) ->
    truthy (vname l) = true -> truthy (vname r) = true ->
    tobs (root_label (IName n)) t = Ok v -> lshape t l xl -> lshape t r xr -> lshape t n (LNode v xl xr).

(** * Histories *)
(* keyword arguments have distinct names; add_root is not given a parent=... attribute *)
Definition top_ok (o : top) : Prop :=
  match o with TRoot n a => NoDup (dkeys a) /\ ~ List.In "parent" (dkeys a) | TChild n p a => NoDup (dkeys a) end.
(* the names successfully added by add_root, in order *)
Fixpoint troots (t : tree) (os : list top) : list name :=
  match os with
  | [] => []
  | o :: os =>
    match o, tobs (texec o) t with TRoot n _, Ok _ => [n] | _, _ => [] end ++ troots (fst (texec o t)) os
  end.

(* keyword arguments are distinct and are not the names of the child slots *)
Definition bop_ok (o : bop) : Prop :=
  match o with
  | BRoot _ a | BChild _ _ _ a => NoDup (dkeys a) /\ ~ List.In "Lchild" (dkeys a) /\ ~ List.In "Rchild" (dkeys a)
  | BDel _ => True
  end.
(* no call of the history raises MultipleNodeException (other exceptions are allowed) *)
Fixpoint bclean (t : tree) (os : list bop) : Prop :=
  match os with
  | [] => True
  | o :: os => tobs (bexec o) t <> Err MultipleNodeException /\ bclean (fst (bexec o t)) os
  end.
Definition is_del (o : bop) : bool := match o with BDel _ => true | _ => false end.
Fixpoint esize (e : exp) : nat := match e with ENum _ => 1 | EOp _ l r => S (esize l + esize r) end.
Fixpoint lsize (x : lt) : nat := match x with LLeaf _ => 1 | LNode _ l r => S (lsize l + lsize r) end.
