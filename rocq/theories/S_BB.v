(* Specification of branch and bound (C62): 0-1 programs, their LP relaxations, exact LP solvers, queues. *)
From Coq Require Import QArith Permutation.
From Verif Require Import Py M_Graph M_Flow M_Dot P_Attr M_BB.
Set Implicit Arguments. Unset Strict Implicit.
Local Open Scope string_scope. Local Open Scope list_scope.

(* sum of c[i] * x[i] over the variables *)
Definition lin (l : list string) (c : string -> Z) (x : string -> Q) : Q := fold_right (fun i s => inject_Z (c i) * x i + s) 0 l.
Definition objective (P : instance) (x : string -> Q) : Q := lin (VARIABLES P) (OBJ P) x.
Definition rows_hold (P : instance) (x : string -> Q) : Prop := forall row, In row (ROWS P) -> lin (VARIABLES P) (fst row) x <= inject_Z (snd row).
(* a solution of the 0-1 program: maximize objective over these *)
Definition solution (P : instance) (x : string -> Q) : Prop :=
  (forall i, In i (VARIABLES P) -> x i == 0 \/ x i == 1) /\ rows_hold P x.
(* the LP relaxation with additional bounds *)
Definition satisfies (x : string -> Q) (c : con) : Prop := match c with CLe v r => x v <= inject_Z r | CGe v r => inject_Z r <= x v end.
Definition lp_feasible (P : instance) (cs : list con) (x : string -> Q) : Prop :=
  (forall i, In i (VARIABLES P) -> 0 <= x i <= 1) /\ rows_hold P x /\ Forall (satisfies x) cs.
(* the bounds that a program may add: x <= 0 or x >= 1 *)
Definition fixing (P : instance) (c : con) : Prop := exists x, In x (VARIABLES P) /\ (c = CLe x 0 \/ c = CGe x 1).
(* the LP solver is exact: an optimal solution if there is one, 'Infeasible' otherwise *)
Definition exact (P : instance) (solve : Z -> list con -> lp_result) : Prop := forall k cs, Forall (fixing P) cs ->
  match solve k cs with
  | LpOptimal obj v => lp_feasible P cs v /\ obj == objective P v /\ forall y, lp_feasible P cs y -> objective P y <= obj
  | LpInfeasible => forall y, ~ lp_feasible P cs y
  | LpOther => False
  end.
(* a queue holds what was pushed and not yet popped; in which order it is popped does not matter *)
Record queue_laws (PQ : pqueue) (items : pq PQ -> list item) : Prop := {
  ql_empty : items (pq_empty PQ) = [];
  ql_isEmpty : forall q, pq_isEmpty q = true <-> items q = [];
  ql_push : forall q i p, Permutation (items (pq_push q i p)) (i :: items q);
  ql_pop : forall q, items q <> [] -> exists i q', pq_pop q = Some (i, q') /\ Permutation (items q) (i :: items q')
}.
(* a priority queue: pop returns an item with the least priority *)
Record min_queue (PQ : pqueue) (pitems : pq PQ -> list (item * Q)) : Prop := {
  mq_empty : pitems (pq_empty PQ) = [];
  mq_isEmpty : forall q, pq_isEmpty q = true <-> pitems q = [];
  mq_push : forall q i p, Permutation (pitems (pq_push q i p)) ((i, p) :: pitems q);
  mq_pop : forall q, pitems q <> [] -> exists i p q', pq_pop q = Some (i, q') /\ Permutation (pitems q) ((i, p) :: pitems q') /\ forall e, In e (pitems q) -> p <= snd e
}.

(** * The drawn tree *)
Definition bound_var (c : con) : string := match c with CLe x _ => x | CGe x _ => x end.
Definition bound_sense (c : con) : string := match c with CLe _ _ => "<=" | CGe _ _ => ">=" end.
Definition bound_rhs (c : con) : Z := match c with CLe _ r => r | CGe _ r => r end.
Definition bound_label (ladot : bool) (c : con) : string :=
  (match ladot, c with
   | false, CLe x r => x ++ "<=" ++ str_int r
   | false, CGe x r => x ++ ">=" ++ str_int r
   | true, CLe x r => "$" ++ x ++ " \leq " ++ str_int r ++ "$"
   | true, CGe x r => "$" ++ x ++ " \geq " ++ str_int r ++ "$"
   end)%string.
(* node i of the drawn tree shows the program with the additional bounds cs, the last one first: the root shows the
   program itself, and a child adds the bound that its attributes and the label of the edge to it show *)
Inductive subproblem (ladot : bool) (g : graph) : Z -> list con -> Prop :=
| sub_root : In (NI 0) (get_node_list g) -> nattr g (NI 0) "level" = VI 0 -> nattr g (NI 0) "parent" = VNone -> subproblem ladot g 0 []
| sub_child i p c cs : (0 < i)%Z -> In (NI i) (list_at (g_nbrs g) (NI p)) ->
    nattr g (NI i) "branch_var" = VS (bound_var c) -> nattr g (NI i) "sense" = VS (bound_sense c) -> nattr g (NI i) "rhs" = VI (bound_rhs c) ->
    nattr g (NI i) "parent" = VI p -> nattr g (NI i) "level" = VI (Z.of_nat (length (c :: cs))) ->
    eattr g (NI p) (NI i) "label" = Some (VS (bound_label ladot c)) ->
    subproblem ladot g p cs -> subproblem ladot g i (c :: cs).
(* all variables have the value 0 or 1 *)
Definition zero_one (P : instance) (v : string -> Q) : Prop := forall i, In i (VARIABLES P) -> v i == 0 \/ v i == 1.
(* what an LP result means for a node when the best objective value so far is lb: the status and the new best value *)
Inductive verdict (P : instance) (complete_enumeration : bool) (lb : Q) : lp_result -> string -> Q -> Prop :=
| v_infeasible : verdict P complete_enumeration lb LpInfeasible "I" lb
| v_better obj v : zero_one P v -> lb < obj -> verdict P complete_enumeration lb (LpOptimal obj v) "S" obj
| v_solution obj v : zero_one P v -> obj <= lb -> verdict P complete_enumeration lb (LpOptimal obj v) "S" lb
| v_pruned obj v : ~ zero_one P v -> complete_enumeration = false -> obj <= lb -> verdict P complete_enumeration lb (LpOptimal obj v) "P" lb
| v_candidate obj v : ~ zero_one P v -> (complete_enumeration = true \/ lb < obj) -> verdict P complete_enumeration lb (LpOptimal obj v) "C" lb.
(* the nodes of the search, in the order in which they were solved, and the best value after them *)
Inductive visits (P : instance) (solve : Z -> list con -> lp_result) (complete_enumeration ladot : bool) (g : graph) : list Z -> Q -> Prop :=
| vs_start : visits P solve complete_enumeration ladot g [] (-9999 # 1)
| vs_node ids lb i cs st lb' : visits P solve complete_enumeration ladot g ids lb ->
    subproblem ladot g i cs -> verdict P complete_enumeration lb (solve (Z.of_nat (length ids)) cs) st lb' ->
    nattr g (NI i) "status" = VS st -> nattr g (NI i) "fillcolor" = nattr g (NS st) "fillcolor" ->
    visits P solve complete_enumeration ladot g (ids ++ [i]) lb'.
