(* Model of the DOT writer: quoting (global_constants.py:121-174), Node.to_string,
   Graph.edge_to_string, Graph.to_string and Graph.create_cluster (graph.py).
   Characters are the 256 values of Coq's [ascii]: code points above 255, which the
   code only ever compares with 0x7f, are represented by those in 128..255. *)
From Verif Require Import Py M_Graph M_Flow.
From Coq Require Import Ascii.
Set Implicit Arguments. Unset Strict Implicit.
Local Open Scope string_scope. Local Open Scope list_scope.

(** ** Characters and the regular expressions, global_constants.py:123-128 *)
Definition ch (c : string) : ascii := match c with String a _ => a | EmptyString => zero end.
Definition between (lo hi c : ascii) : bool := (nat_of_ascii lo <=? nat_of_ascii c)%nat && (nat_of_ascii c <=? nat_of_ascii hi)%nat.
Definition is_digit (c : ascii) : bool := between (ch "0") (ch "9") c.
(* [_a-zA-Z] *)
Definition is_alpha (c : ascii) : bool := Ascii.eqb c (ch "_") || between (ch "a") (ch "z") c || between (ch "A") (ch "Z") c.
Definition comma : ascii := ch ",".
Definition colon : ascii := ch ":".
Definition space : ascii := ch " ".
Definition dquote : ascii := ascii_of_nat 34.
Definition backslash : ascii := ascii_of_nat 92.
Definition newline : ascii := ascii_of_nat 10.
Definition carriage : ascii := ascii_of_nat 13.
Fixpoint all_chars (p : ascii -> bool) (s : string) : bool :=
  match s with EmptyString => true | String c t => p c && all_chars p t end.
Definition some_char (p : ascii -> bool) (s : string) : bool := negb (all_chars (fun c => negb (p c)) s).
Fixpoint last_char (s : string) : option ascii :=
  match s with EmptyString => None | String c EmptyString => Some c | String _ t => last_char t end.
Fixpoint but_last (s : string) : string :=
  match s with EmptyString => EmptyString | String _ EmptyString => EmptyString | String c t => String c (but_last t) end.
(* '$' also matches just before a newline that ends the string *)
Definition chop (s : string) : string :=
  match last_char s with Some c => if Ascii.eqb c newline then but_last s else s | None => s end.
Definition dollar (m : string -> bool) (s : string) : bool := m s || m (chop s).

(* ^[_a-zA-Z][a-zA-Z0-9_,]*$ *)
Definition re_alpha_nums : string -> bool := dollar (fun s =>
  match s with String c t => is_alpha c && all_chars (fun c => is_alpha c || is_digit c || Ascii.eqb c comma) t | EmptyString => false end).
(* ^[_a-zA-Z][a-zA-Z0-9_,:"]*[a-zA-Z0-9_,"]+$ *)
Definition re_with_ports : string -> bool := dollar (fun s =>
  match s with
  | String c t =>
      is_alpha c && all_chars (fun c => is_alpha c || is_digit c || Ascii.eqb c comma || Ascii.eqb c colon || Ascii.eqb c dquote) t &&
      match last_char t with Some l => is_alpha l || is_digit l || Ascii.eqb l comma || Ascii.eqb l dquote | None => false end
  | EmptyString => false
  end).
(* ^[0-9,]+$ *)
Definition re_num : string -> bool := dollar (fun s =>
  match s with EmptyString => false | _ => all_chars (fun c => is_digit c || Ascii.eqb c comma) s end).
(* ^".*"$ and ^<.*>$ where '.' matches every character *)
Definition re_delimited (a b : ascii) : string -> bool := dollar (fun s =>
  match s with String c t => Ascii.eqb c a && match last_char t with Some l => Ascii.eqb l b | None => false end | EmptyString => false end).
Definition re_dbl_quoted : string -> bool := re_delimited dquote dquote.
Definition re_html : string -> bool := re_delimited (ch "<") (ch ">").
(* ID_RE_WITH_PORT, two groups of non-colons around a colon: the groups, when there is
   exactly one colon *)
Fixpoint re_with_port (s : string) : option (string * string) :=
  match s with
  | EmptyString => None
  | String c t =>
      if Ascii.eqb c colon then (if all_chars (fun c => negb (Ascii.eqb c colon)) t then Some (EmptyString, t) else None)
      else match re_with_port t with Some (a, b) => Some (String c a, b) | None => None end
  end.

(* global_constants.py:122 *)
Definition DOT_KEYWORDS : list string := ["graph"; "subgraph"; "digraph"; "node"; "edge"; "strict"].

(* global_constants.py:162-170: the part of needs_quotes before the last regular
   expression; None = none of the tests applied *)
Definition needs_quotes_plain (s : string) : option bool :=
  if mem s DOT_KEYWORDS then Some false else
  if some_char (fun c => (127 <? nat_of_ascii c)%nat || (nat_of_ascii c =? 0)%nat) s && negb (re_dbl_quoted s) && negb (re_html s) then Some true else
  if re_alpha_nums s || re_num s || re_dbl_quoted s || re_html s || re_with_ports s then Some false else
  None.
(* global_constants.py:148-174 needs_quotes. The recursive calls are on strings without
   a colon, on which the last regular expression does not match: the call then returns True *)
Definition needs_quotes_group (s : string) : bool := match needs_quotes_plain s with Some b => b | None => true end.
Definition needs_quotes (s : string) : bool :=
  match needs_quotes_plain s with
  | Some b => b
  | None => match re_with_port s with Some (a, b) => needs_quotes_group a || needs_quotes_group b | None => true end
  end.

(* s.replace(a, b) for a one-character a *)
Fixpoint replace_char (a : ascii) (b s : string) : string :=
  match s with EmptyString => EmptyString | String c t => if Ascii.eqb c a then b ++ replace_char a b t else String c (replace_char a b t) end.
(* s.replace(backslash space, b) *)
Fixpoint replace_bs_space (b s : string) : string :=
  match s with
  | EmptyString => EmptyString
  | String c t =>
      match t with
      | String d u => if Ascii.eqb c backslash && Ascii.eqb d space then b ++ replace_bs_space b u else String c (replace_bs_space b t)
      | EmptyString => String c EmptyString
      end
  end.
Definition bs (s : string) : string := String backslash s.
Definition dq : string := String dquote EmptyString.
(* global_constants.py:130-146 quote_if_necessary of a string *)
Definition quote_string (s : string) : string :=
  match s with
  | EmptyString => s
  | _ =>
      if needs_quotes s then
        let s := replace_char dquote (bs dq) s in
        let s := replace_char newline (bs "n") s in
        let s := replace_char carriage (bs "r") s in
        let s := replace_bs_space (bs (bs " ")) s in
        dq ++ s ++ dq
      else s
  end.
(* global_constants.py:130-146 quote_if_necessary of any value: numbers and None come
   back unchanged *)
Definition quote_if_necessary (v : val) : val :=
  match v with VBool true => VS "True" | VBool false => VS "False" | VS s => VS (quote_string s) | v => v end.

(** ** Writing, graph.py *)
Definition nl : string := String newline EmptyString.
Definition str_name (n : name) : string := str_val (vname n).

(* the loop "append a, '=', quoted value, ', '" of graph.py:176-183 and :619-624;
   [edge[:-1]] drops the last separator *)
Definition attr_pieces (d : attrs) : list string :=
  flat_map (fun p => [fst p; "="; quote_string (str_val (snd p)); ", "]) d.
Definition join (l : list string) : string := fold_right String.append "" l.

(* graph.py:170-187 Node.to_string *)
Definition node_to_string (n : name) (d : attrs) : string :=
  let node := [quote_string (str_name n); " ["] in
  let node := node ++ attr_pieces d in
  let node := match d with [] => node | _ => removelast node end in
  join (node ++ ["]"]).

Definition connect_symbol (t : gtype) : string := match t with Directed => " -> " | Undirected => " -- " end.

(* graph.py:598-625 Graph.edge_to_string: KeyError when e is not a key *)
Definition edge_to_string (g : graph) (e : name * name) : res string :=
  let edge := [quote_string (str_name (fst e)); connect_symbol (g_type g); quote_string (str_name (snd e))] in
  match dget (g_edges g) e with
  | None => Err KeyError
  | Some [] => Ok (join edge)
  | Some d => Ok (join (removelast (edge ++ ["  ["] ++ attr_pieces d) ++ ["]"]))
  end.

(* The local variables of to_string: the list "graph" and the keys of processed_edges *)
Record dot_state := mkDot { d_out : list string; d_done : list (name * name) }.
Definition put (s : string) : M dot_state unit := modify (fun d => mkDot (d_out d ++ [s]) (d_done d)).
(* graph.pop() *)
Definition unput : M dot_state unit := modify (fun d => mkDot (removelast (d_out d)) (d_done d)).
Definition processed (e : name * name) : M dot_state unit := modify (fun d => mkDot (d_out d) (d_done d ++ [e])).
Definition of_res {S A} (r : res A) : M S A := fun s => (s, r).
(* the operand of '+' after a string: TypeError unless it is a string *)
Definition plus_str (v : val) : M dot_state string := match v with VS s => ret s | _ => fail TypeError end.

(* global_constants.py:14-30 *)
Definition GRAPH_ATTRIBUTES : list string := [
  "Damping"; "K"; "URL"; "aspect"; "bb"; "bgcolor"; "center"; "charset"; "clusterrank"; "colorscheme"; "comment"; "compound";
  "concentrate"; "defaultdist"; "dim"; "dimen"; "diredgeconstraints"; "dpi"; "epsilon"; "esep"; "fontcolor"; "fontname"; "fontnames";
  "fontpath"; "fontsize"; "id"; "label"; "labeljust"; "labelloc"; "landscape"; "layers"; "layersep"; "layout"; "levels"; "levelsgap";
  "lheight"; "lp"; "lwidth"; "margin"; "maxiter"; "mclimit"; "mindist"; "mode"; "model"; "mosek"; "nodesep"; "nojustify"; "normalize"; "nslimit";
  "nslimit1"; "ordering"; "orientation"; "outputorder"; "overlap"; "overlap_scaling"; "pack"; "packmode"; "pad"; "page"; "pagedir";
  "quadtree"; "quantum"; "rankdir"; "ranksep"; "ratio"; "remincross"; "repulsiveforce"; "resolution"; "root"; "rotate"; "searchsize"; "sep";
  "showboxes"; "size"; "smoothing"; "sortv"; "splines"; "start"; "stylesheet"; "target"; "truecolor"; "viewport"; "voro_margin";
  "d2tgraphstyle"; "rank"].

(* graph.py:640-648 *)
Definition put_graph_attr (av : string * val) : M dot_state unit :=
  let '(a, v) := av in
  if negb (mem a GRAPH_ATTRIBUTES) then ret tt else
  (match v with VNone => put a | _ => put (a ++ "=" ++ str_val (quote_if_necessary v))%string end) ;;
  put (";" ++ nl)%string.

(* self.get_node(n).to_string(): get_node returns None for an unknown name, which has no
   method to_string *)
Definition put_node (g : graph) (n : name) : M dot_state unit :=
  match dget (g_nodes g) n with
  | Some d => put (node_to_string n d ++ ";" ++ nl)%string
  | None => fail AttributeError
  end.
Definition put_edge (g : graph) (e : name * name) : M dot_state unit :=
  s <- of_res (edge_to_string g e) ;; put (s ++ ";" ++ nl)%string.

(* graph.py:652-656 *)
Definition put_cluster_attr (av : string * val) : M dot_state unit :=
  let '(a, v) := av in
  s <- plus_str (if Py.eqb a "label" then quote_if_necessary v else v) ;;
  put (a ++ "=" ++ s ++ ";" ++ nl)%string.
(* graph.py:657-664 *)
Definition put_cluster_node_attrs (d : attrs) : M dot_state unit :=
  (match d with [] => ret tt | _ => put "node [" end) ;;
  forM_ d (fun av => s <- plus_str (snd av) ;; put (fst av ++ "=" ++ s)%string ;; put ",") ;;
  match d with [] => ret tt | _ => unput ;; put ("];" ++ nl)%string end.
(* graph.py:650-677 *)
Definition put_cluster (g : graph) (c : val * cluster) : M dot_state unit :=
  put ("subgraph cluster_" ++ str_val (fst c) ++ " {" ++ nl)%string ;;
  forM_ (c_attrs (snd c)) put_cluster_attr ;;
  put_cluster_node_attrs (c_node_attrs (snd c)) ;;
  forM_ (c_nodes (snd c)) (put_node g) ;;
  forM_ (c_nodes (snd c)) (fun n => forM_ (c_nodes (snd c)) (fun m =>
    if check_edge g n m then put_edge g (n, m) ;; processed (n, m) else ret tt)) ;;
  put ("}" ++ nl)%string.

Definition in_some_cluster (g : graph) (n : name) : bool := existsb (fun c => mem n (c_nodes (snd c))) (g_cluster g).

(* graph.py:627-692 Graph.to_string; [gname] is str(self.name), fixed by the constructor *)
Definition write_dot (gname : string) (g : graph) : M dot_state unit :=
  put (type_string (g_type g) ++ " " ++ gname ++ " {" ++ nl)%string ;;
  forM_ (g_attr g) put_graph_attr ;;
  forM_ (g_cluster g) (put_cluster g) ;;
  forM_ (dkeys (g_nbrs g)) (fun n => if in_some_cluster g n then ret tt else put_node g n) ;;
  forM_ (dkeys (g_edges g)) (fun e =>
    done <- gets d_done ;; if mem e done then ret tt else put_edge g e) ;;
  put ("}" ++ nl)%string.
Definition to_string (gname : string) (g : graph) : res string :=
  let '(d, r) := write_dot gname g (mkDot [] []) in
  match r with Ok _ => Ok (join (d_out d)) | Err e => Err e end.

(** ** Graph.create_cluster, graph.py:3451-3479 *)
(* The default value of cluster_attrs is one dictionary shared by all calls that do not
   pass one, on every graph: it is the second component of the state. [ca] = None is
   a call without cluster_attrs. The result is the caller's dictionary after the call
   (the code may add 'name' to it). The list object node_list is stored, not copied:
   later changes of that list by the caller are not modelled. *)
Definition cluster_count : M (graph * attrs) Z := fun s =>
  (s, match dget (g_attr (fst s)) "cluster_count" with
      | Some (VI z) => Ok z | Some (VBool b) => Ok (if b then 1 else 0)%Z | Some _ => Err TypeError | None => Err KeyError end).
Definition create_cluster (nodes : list name) (ca : option attrs) (na : attrs) : M (graph * attrs) attrs :=
  dflt <- gets snd ;;
  let cluster_attrs := match ca with Some d => d | None => dflt end in
  match dget cluster_attrs "name" with
  | Some nm =>
      cl <- gets (fun s => g_cluster (fst s)) ;;
      if dmem cl (VS "name") then fail (PyException "A cluster with name %s already exists!") else
      modify (fun s => (with_cluster (fst s) (dset (g_cluster (fst s)) nm (mkCluster nodes cluster_attrs na)), snd s)) ;;
      ret cluster_attrs
  | None =>
      k <- cluster_count ;;
      let nm := VS ("c" ++ str_int k)%string in
      modify (fun s => (with_attr (fst s) (dset (g_attr (fst s)) "cluster_count" (VI (k + 1))), snd s)) ;;
      let cluster_attrs := dset cluster_attrs "name" nm in
      modify (fun s => (fst s, match ca with Some _ => snd s | None => cluster_attrs end)) ;;
      modify (fun s => (with_cluster (fst s) (dset (g_cluster (fst s)) nm (mkCluster nodes cluster_attrs na)), snd s)) ;;
      ret cluster_attrs
  end.
