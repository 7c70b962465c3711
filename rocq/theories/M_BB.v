(* Model of examples/BB.py: LP-based branch and bound for 0-1 programs, drawn with a BinaryTree.
   Numbers produced by the LP solver are rationals (float rounding is not modelled). Printing, display, the
   timer, layout 'bak' (package grumpy) and display mode 'svg' are not modelled. The data of the instance, which
   the script makes at random or imports (BB.py:70-92), are arguments. *)
From Coq Require Import QArith Qround Qminmax.
From Verif Require Import Py M_Graph M_Flow M_Dot M_Tree.
Set Implicit Arguments. Unset Strict Implicit.
Local Open Scope string_scope. Local Open Scope list_scope.

(* BB.py:70-92 VARIABLES, OBJ, and for each constraint the coefficients MAT[.][j] and RHS[j] *)
Record instance := { VARIABLES : list string; OBJ : string -> Z; ROWS : list ((string -> Z) * Z) }.
(* x <= r and x >= r for a variable x *)
Inductive con := CLe (x : string) (r : Z) | CGe (x : string) (r : Z).
(* prob.solve(): the status with the objective value and the values of the variables. Other statuses ('Not
   Solved', 'Unbounded', 'Undefined') are taken to leave varValue None. *)
Inductive lp_result := LpOptimal (obj : Q) (values : string -> Q) | LpInfeasible | LpOther.
(* what is pushed on the queue: the index and, except for the first item, parent, branch_var, sense and rhs. The
   index is 0 for the first item only, so [cur_index is not 0] (BB.py:164, 186) is the case Some. *)
Definition item : Type := Z * option (Z * string * string * Z).
(* blimpy's PriorityQueue (not in /repo) *)
Record pqueue := {
  pq : Type; pq_empty : pq; pq_isEmpty : pq -> bool;
  pq_push : pq -> item -> Q -> pq; pq_pop : pq -> option (item * pq)
}.
Inductive branching := Fixed | MostFrac | OtherBranching.
Inductive searching := DepthFirst | BestFirst | OtherSearch.

Section BB.
  Variable P : instance.
  (* prob.solve() for the instance with all variables in [0, 1] (BB.py:94, 178-182) and the given constraints;
     the number is that of the call *)
  Variable solve : Z -> list con -> lp_result.
  Variable PQ : pqueue.
  Variable branch_strategy : branching.
  Variable search_strategy : searching.
  Variable complete_enumeration : bool.
  (* layout == 'ladot' *)
  Variable ladot : bool.
  (* the attribute value for a float, and "%.1f" % x *)
  Variable num : Q -> val.
  Variable fmt : Q -> string.

  (* BB.py:116 *)
  Definition INFINITY : Q := 9999 # 1.
  (* the variables of the script: Q, LB, opt, node_count, iter_count, lp_count, color (unbound: None) *)
  Record bb := mkBB { b_q : pq PQ; b_lb : Q; b_opt : dict string Q; b_nodes : Z; b_iter : Z; b_lps : Z; b_color : option string }.

  (* BB.py:43-68 the tree with the key *)
  Definition key_attrs (label color : string) : attrs := [("label", VS label); ("style", VS "filled"); ("color", VS color); ("fillcolor", VS color)].
  Definition key_edge : attrs := [("style", VS "invisible"); ("arrowhead", VS "none")].
  Definition bb_setup : M tree unit :=
    ong (add_node (NS "C") (key_attrs "Candidate" "yellow")) ;;
    ong (add_node (NS "I") (key_attrs "Infeasible" "orange")) ;;
    ong (add_node (NS "S") (key_attrs "Solution" "lightblue")) ;;
    ong (add_node (NS "P") (key_attrs "Pruned" "red")) ;;
    ong (add_edge (NS "C") (NS "I") key_edge) ;;
    ong (add_edge (NS "I") (NS "S") key_edge) ;;
    ong (add_edge (NS "S") (NS "P") key_edge) ;;
    ong (fun g => let '((g', _), r) := create_cluster [NS "C"; NS "I"; NS "S"; NS "P"] (Some [("name", VS "Key"); ("label", VS "Key"); ("fontsize", VS "12")]) [] (g, []) in
                  (g', match r with Ok _ => Ok tt | Err e => Err e end)).
  (* BB.py:119-158 *)
  Definition bb_init : bb :=
    mkBB (pq_push (pq_empty PQ) (0%Z, None) INFINITY) (- INFINITY) (map (fun i => (i, 0)) (VARIABLES P)) 1 0 0 None.

  (* var[x], a dictionary with the keys VARIABLES *)
  Definition var (x : string) : M tree string := if mem x (VARIABLES P) then ret x else fail KeyError.
  (* T.get_node_attr(pred, a), where pred was read from the tree *)
  Definition attr_of (pred : val) (a : string) : M tree val := n <- lift (nameof pred) AttributeError ;; ong (get_node_attr n a).
  (* BB.py:194-205 the constraints of the ancestors *)
  Definition ancestors (fuel : nat) (parent : Z) : M tree (list con) :=
    loop fuel (fun s : val * list con =>
      let '(pred, cs) := s in
      if eqb (str_val pred) "0" then ret (inr cs)
      else
        pred_branch_var <- attr_of pred "branch_var" ;;
        pred_rhs <- attr_of pred "rhs" ;;
        pred_sense <- attr_of pred "sense" ;;
        x <- match pred_branch_var with VS x => var x | _ => fail KeyError end ;;
        r <- match pred_rhs with VI r => ret r | _ => fail TypeError end ;;
        let c := if eqb pred_sense (VS "<=") then CLe x r else CGe x r in
        pred <- attr_of pred "parent" ;;
        ret (inl (pred, cs ++ [c]))) (VI parent, []).
  (* BB.py:185-205 *)
  Definition constraints (fuel : nat) (it : item) : M tree (list con) :=
    match it with
    | (_, None) => ret []
    | (_, Some (parent, branch_var, sense, rhs)) =>
      x <- var branch_var ;;
      cs <- ancestors fuel parent ;;
      ret ((if eqb sense ">=" then CGe x rhs else CLe x rhs) :: cs)
    end.
  (* var[i].varValue *)
  Definition varValue (r : lp_result) (i : string) : M tree Q := match r with LpOptimal _ v => ret (v i) | _ => fail TypeError end.
  (* BB.py:349-350: the distance to the nearest integer *)
  Definition frac (q : Q) : Q := Qmin (q - inject_Z (Qfloor q)) (inject_Z (Qceiling q) - q).
  (* BB.py:348-354 *)
  Fixpoint first_frac (r : lp_result) (l : list string) : M tree (option string) :=
    match l with
    | [] => ret None
    | i :: l => v <- varValue r i ;; if negb (Qle_bool (frac v) 0) then ret (Some i) else first_frac r l
    end.
  (* BB.py:357-363 *)
  Definition most_frac (r : lp_result) : M tree (option string) :=
    b <- foldM (fun (s : Q * option string) i =>
      v <- varValue r i ;;
      if negb (Qle_bool (frac v) (fst s)) then ret (frac v, Some i) else ret s) (VARIABLES P) (-(1), None) ;;
    ret (snd b).
  (* BB.py:343-367; exit() is SystemExit *)
  Definition choose (r : lp_result) : M tree (option string) :=
    match branch_strategy with
    | Fixed => first_frac r (VARIABLES P)
    | MostFrac => most_frac r
    | OtherBranching => fail (PyException "SystemExit")
    end.

  (* BB.py:230-239: all values are 0 or 1 *)
  Definition integral (values : string -> Q) : bool := forallb (fun i => Qeq_bool (values i) 0 || Qeq_bool (values i) 1) (VARIABLES P).
  (* BB.py:341-383; [priority] is unbound for another search strategy *)
  Definition branch (s : bb) (cur_index cur_depth : Z) (r : lp_result) (relax : Q) : M tree bb :=
    branching_var <- choose r ;;
    priority <- match search_strategy with
                | DepthFirst => ret (inject_Z (- cur_depth - 1))
                | BestFirst => ret relax
                | OtherSearch => fail NameError
                end ;;
    x <- lift branching_var KeyError ;;
    v <- varValue r x ;;
    let n := b_nodes s in
    let q := pq_push (b_q s) ((n + 1)%Z, Some (cur_index, x, "<=", Qfloor v)) priority in
    let q := pq_push q ((n + 2)%Z, Some (cur_index, x, ">=", Qceiling v)) priority in
    color <- lift (b_color s) NameError ;;
    ong (set_node_attr (NI cur_index) color (VS "green")) ;;
    ret (mkBB q (b_lb s) (b_opt s) (n + 2) (b_iter s) (b_lps s) (b_color s)).
  (* BB.py:264-286: status and color; None: the color is not assigned *)
  Definition classify (int infeasible : bool) (relax lb : Q) (cur_depth : Z) : string * option string :=
    if int then ("S", Some "lightblue")
    else if infeasible then ("I", Some "orange")
    else if negb complete_enumeration && Qle_bool relax lb then ("P", Some "red")
    else if (Z.of_nat (length (VARIABLES P)) <=? cur_depth)%Z then ("L", None)
    else ("C", Some "yellow").
  (* BB.py:294-327: the node is added to the tree *)
  Definition add_to_tree (s : bb) (it : item) (status label color : string) (relax : Q) : M tree unit :=
    let looks := [("status", VS status); ("obj", num relax); ("color", VS color); ("style", VS "filled"); ("fillcolor", VS color)] in
    if (b_iter s =? 0)%Z then add_root (NI 0) (("label", VS label) :: looks)
    else match it with
         | (cur_index, Some (parent, branch_var, sense, rhs)) =>
           add_child (NI cur_index) (NI parent) (("label", VS label) :: ("branch_var", VS branch_var) :: ("sense", VS sense) :: ("rhs", VI rhs) :: looks) ;;
           ong (set_edge_attr (NI parent) (NI cur_index) "label"
             (VS (if ladot then "$" ++ branch_var ++ (if eqb sense ">=" then " \geq " else " \leq ") ++ str_int rhs ++ "$"
                  else branch_var ++ sense ++ str_int rhs)))
         | (_, None) => fail AttributeError
         end.
  (* BB.py:161-383 one iteration *)
  Definition bb_iter (fuel : nat) (s : bb) : M tree (bb + bb) :=
    if pq_isEmpty (b_q s) then ret (inr s)
    else
      '(it, q) <- lift (pq_pop (b_q s)) IndexError ;;
      cur_depth <- match it with
                   | (_, Some (parent, _, _, _)) => v <- ong (get_node_attr (NI parent) "level") ;; z <- match v with VI z => ret z | _ => fail TypeError end ;; ret (z + 1)%Z
                   | (_, None) => ret 0%Z
                   end ;;
      cs <- constraints fuel it ;;
      let r := solve (b_lps s) cs in
      let infeasible := match r with LpInfeasible => true | _ => false end in
      let relax := match r with LpOptimal obj _ => obj | _ => INFINITY end in
      let int := match r with LpOptimal _ values => integral values | _ => false end in
      let better := int && negb (Qle_bool relax (b_lb s)) in
      let lb := if better then relax else b_lb s in
      let opt := match r with
                 | LpOptimal _ values => if better then fold_left (fun d i => dset d i (values i)) (VARIABLES P) (b_opt s) else b_opt s
                 | _ => b_opt s
                 end in
      let relax := if complete_enumeration then lb - 1 else relax in
      let '(status, col) := classify int infeasible relax lb cur_depth in
      let color := match col with Some c => Some c | None => b_color s end in
      let label := if eqb status "I" then "I" else fmt relax in
      c <- lift color NameError ;;
      add_to_tree s it status label c relax ;;
      let s := mkBB q lb opt (b_nodes s) (b_iter s + 1) (b_lps s + 1) color in
      if eqb status "C" then s <- branch s (fst it) cur_depth r relax ;; ret (inl s) else ret (inl s).
  (* BB.py, the script; the result are the variables at the end *)
  Definition branch_and_bound (fuel : nat) : M tree bb := bb_setup ;; loop fuel (bb_iter fuel) bb_init.
End BB.
