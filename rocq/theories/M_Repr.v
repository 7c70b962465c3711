(* Text for the terminal: Graph.__repr__, Node.__repr__ and print_flow; get_node. *)
From Coq Require Import Ascii.
From Verif Require Import Py M_Graph M_Flow M_Dot.
Set Implicit Arguments. Unset Strict Implicit.
Local Open Scope string_scope. Local Open Scope list_scope.

(* repr(s) of Python for a str: enclosed in single quotes, or in double quotes if it contains single but no double quotes;
   backslash, the enclosing quote, newline, carriage return and tab are escaped. Simplification: the other control
   characters, which Python writes as \xhh, are left as they are. *)
Definition squote : ascii := ascii_of_nat 39.
Definition tab : ascii := ascii_of_nat 9.
Fixpoint escape (q : ascii) (s : string) : string :=
  match s with
  | EmptyString => EmptyString
  | String c t =>
      if Ascii.eqb c backslash || Ascii.eqb c q then String backslash (String c (escape q t))
      else if Ascii.eqb c newline then String backslash (String (ch "n") (escape q t))
      else if Ascii.eqb c carriage then String backslash (String (ch "r") (escape q t))
      else if Ascii.eqb c tab then String backslash (String (ch "t") (escape q t))
      else String c (escape q t)
  end.
Definition repr_str (s : string) : string :=
  let q := if some_char (fun c => Ascii.eqb c squote) s && negb (some_char (fun c => Ascii.eqb c dquote) s) then dquote else squote in
  String q (escape q s ++ String q EmptyString).
(* repr(n) of a name *)
Definition repr_name (n : name) : string := match n with NI z => str_int z | NS s => repr_str s end.
(* repr(l) of a list of names *)
Definition repr_list (l : list name) : string := ("[" ++ String.concat ", " (map repr_name l) ++ "]")%string.

(* graph.py:244-259 Graph.__repr__; data[:-1] of the empty str is the empty str *)
Definition graph_repr : M graph string :=
  nodes <- gets (fun g => dkeys (g_nodes g)) ;;
  data <- foldM (fun data n =>
    nb <- nbr_list n ;;
    ret (data ++ str_name n ++ " -> " ++ repr_list nb ++ nl)%string) nodes EmptyString ;;
  ret (but_last data).

(* graph.py:397-410 get_node; a Node is its name and its attributes *)
Definition get_node (n : name) : M graph (option (name * attrs)) := gets (fun g =>
  match dget (g_nodes g) n with Some d => Some (n, d) | None => None end).
(* graph.py:183-192 Node.__repr__ *)
Definition node_repr (x : name * attrs) : string := node_to_string (fst x) (snd x).

(* str(s).ljust(4) *)
Fixpoint spaces (n : nat) : string := match n with O => EmptyString | S n => String space (spaces n) end.
Definition ljust4 (s : string) : string := (s ++ spaces (4 - String.length s))%string.
(* str(e) of a pair of names *)
Definition str_pair (e : name * name) : string := ("(" ++ repr_name (fst e) ++ ", " ++ repr_name (snd e) ++ ")")%string.
(* v != 0, where False == 0 *)
Definition nonzero (v : val) : bool := match v with VI z => negb (Z.eqb z 0) | VBool b => b | _ => true end.
(* graph.py:2542-2554 print_flow. The state is the text printed so far and the graph. *)
Definition printed (s : string) : M (string * graph) unit := modify (fun p => ((fst p ++ s)%string, snd p)).
Definition from_graph {A} (m : M graph A) : M (string * graph) A := fun p =>
  let (g, r) := m (snd p) in ((fst p, g), r).
Definition print_flow : M (string * graph) unit :=
  printed ("printing current edge, flow, capacity" ++ nl) ;;
  es <- gets (fun p => dkeys (g_edges (snd p))) ;;
  forM_ es (fun e =>
    f <- from_graph (edge_get e "flow") ;;
    if nonzero f then
      f <- from_graph (edge_get e "flow") ;;
      printed (str_pair e ++ " " ++ ljust4 (str_val f) ++ " ") ;;
      c <- from_graph (edge_get e "capacity") ;;
      printed (ljust4 (str_val c) ++ nl)
    else ret tt).
