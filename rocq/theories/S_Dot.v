(* Specification of DOT text: what a statement looks like, and which tokens are DOT
   identifiers. Nothing here refers to the writer in M_Dot.v except the quoting function,
   whose meaning is the subject of [dot_id]. *)
From Verif Require Import Py M_Graph M_Flow M_Dot.
From Coq Require Import Ascii.
Set Implicit Arguments. Unset Strict Implicit.
Local Open Scope string_scope. Local Open Scope list_scope.

(** ** Statements *)
Definition eol : string := (";" ++ nl)%string.
Definition lines {A} (f : A -> string) (l : list A) : string := String.concat "" (map f l).
Definition attr_text (d : attrs) : string :=
  String.concat ", " (map (fun p => (fst p ++ "=" ++ quote_string (str_val (snd p)))%string) d).
(* n [a=1, b=2]; *)
Definition node_line (n : name) (d : attrs) : string := (quote_string (str_name n) ++ " [" ++ attr_text d ++ "]" ++ eol)%string.
(* n -> m  [a=1, b=2];    or, without attributes,    n -> m; *)
Definition edge_line (t : gtype) (e : name * name) (d : attrs) : string :=
  (quote_string (str_name (fst e)) ++ (match t with Directed => " -> " | Undirected => " -- " end) ++ quote_string (str_name (snd e)) ++
   match d with [] => "" | _ => "  [" ++ attr_text d ++ "]" end ++ eol)%string.
(* the graph attributes that are written, as documented by Graphviz at the time (global_constants.py:14-30) *)
Definition known_attributes : list string := [
  "Damping"; "K"; "URL"; "aspect"; "bb"; "bgcolor"; "center"; "charset"; "clusterrank"; "colorscheme"; "comment"; "compound";
  "concentrate"; "d2tgraphstyle"; "defaultdist"; "dim"; "dimen"; "diredgeconstraints"; "dpi"; "epsilon"; "esep"; "fontcolor";
  "fontname"; "fontnames"; "fontpath"; "fontsize"; "id"; "label"; "labeljust"; "labelloc"; "landscape"; "layers"; "layersep";
  "layout"; "levels"; "levelsgap"; "lheight"; "lp"; "lwidth"; "margin"; "maxiter"; "mclimit"; "mindist"; "mode"; "model"; "mosek";
  "nodesep"; "nojustify"; "normalize"; "nslimit"; "nslimit1"; "ordering"; "orientation"; "outputorder"; "overlap";
  "overlap_scaling"; "pack"; "packmode"; "pad"; "page"; "pagedir"; "quadtree"; "quantum"; "rank"; "rankdir"; "ranksep"; "ratio";
  "remincross"; "repulsiveforce"; "resolution"; "root"; "rotate"; "searchsize"; "sep"; "showboxes"; "size"; "smoothing"; "sortv";
  "splines"; "start"; "stylesheet"; "target"; "truecolor"; "viewport"; "voro_margin"].
(* a graph attribute: a=v; or a; for None; attributes DOT does not know are left out *)
Definition graph_attr_line (av : string * val) : string :=
  if mem (fst av) known_attributes
  then match snd av with VNone => (fst av ++ eol)%string | v => (fst av ++ "=" ++ str_val (quote_if_necessary v) ++ eol)%string end
  else "".
Definition raw (v : val) : string := match v with VS s => s | _ => "" end.
Definition cluster_attr_line (av : string * val) : string :=
  (fst av ++ "=" ++ (if Py.eqb (fst av) "label" then str_val (quote_if_necessary (snd av)) else raw (snd av)) ++ eol)%string.
Definition cluster_node_attrs_line (d : attrs) : string :=
  match d with [] => "" | _ => ("node [" ++ String.concat "," (map (fun p => fst p ++ "=" ++ raw (snd p)) d) ++ "]" ++ eol)%string end.

(* Node n of g and edge e of g as statements *)
Definition attrs_of {K} {E : EqDec K} (d : dict K attrs) (k : K) : attrs := match dget d k with Some a => a | None => [] end.
Definition g_node_line (g : graph) (n : name) : string := node_line n (attrs_of (g_nodes g) n).
Definition g_edge_line (g : graph) (e : name * name) : string := edge_line (g_type g) e (attrs_of (g_edges g) e).

(* One subgraph, with the edges written inside it *)
Definition subgraph_text (g : graph) (c : val * cluster) (edges : list (name * name)) : string :=
  ("subgraph cluster_" ++ str_val (fst c) ++ " {" ++ nl ++ lines cluster_attr_line (c_attrs (snd c)) ++
   cluster_node_attrs_line (c_node_attrs (snd c)) ++ lines (g_node_line g) (c_nodes (snd c)) ++ lines (g_edge_line g) edges ++ "}" ++ nl)%string.
(* The whole text: header, graph attributes, subgraphs, other nodes, other edges *)
Definition graph_text (gname : string) (g : graph) (subs : list ((val * cluster) * list (name * name)))
    (nodes : list name) (edges : list (name * name)) : string :=
  ((match g_type g with Directed => "digraph" | Undirected => "graph" end) ++ " " ++ gname ++ " {" ++ nl ++
   lines graph_attr_line (g_attr g) ++ lines (fun s => subgraph_text g (fst s) (snd s)) subs ++
   lines (g_node_line g) nodes ++ lines (g_edge_line g) edges ++ "}" ++ nl)%string.

(* Attribute values of a cluster that can be written: strings; label may also be a bool *)
Definition writable (c : cluster) : Prop :=
  (forall a v, In (a, v) (c_attrs c) -> (exists s, v = VS s) \/ (a = "label" /\ exists b, v = VBool b)) /\
  (forall a v, In (a, v) (c_node_attrs c) -> exists s, v = VS s).

(** ** DOT identifiers (graphviz.org/doc/info/lang.html) *)
(* "Any string of alphabetic ([a-zA-Z\200-\377]) characters, underscores or digits, not
   beginning with a digit", which is not one of the case-independent keywords *)
Definition id_start (c : ascii) : bool := is_alpha c || (127 <? nat_of_ascii c)%nat.
Definition lower (c : ascii) : ascii := if between (ch "A") (ch "Z") c then ascii_of_nat (nat_of_ascii c + 32) else c.
Fixpoint lower_string (s : string) : string := match s with EmptyString => EmptyString | String c t => String (lower c) (lower_string t) end.
Definition keyword (s : string) : bool := mem (lower_string s) ["node"; "edge"; "graph"; "digraph"; "subgraph"; "strict"].
Definition plain_id (s : string) : bool :=
  match s with String c t => id_start c && all_chars (fun c => id_start c || is_digit c) t && negb (keyword s) | EmptyString => false end.
(* "A numeral": here an unsigned integer *)
Definition numeral (s : string) : bool := match s with EmptyString => false | _ => all_chars is_digit s end.
(* "Any double-quoted string possibly containing escaped quotes": the contents after the
   opening quote. The only escaped character is the double quote; the closing quote ends
   the token. *)
Fixpoint quoted_body (s : string) : option string :=
  match s with
  | EmptyString => None
  | String c t =>
      if Ascii.eqb c dquote then match t with EmptyString => Some EmptyString | _ => None end
      else match t with
           | String d u => if Ascii.eqb c backslash && Ascii.eqb d dquote
                           then option_map (String dquote) (quoted_body u)
                           else option_map (String c) (quoted_body t)
           | EmptyString => None
           end
  end.
(* The string denoted by t, if t is exactly one identifier token (HTML strings apart) *)
Definition dot_id (t : string) : option string :=
  if plain_id t || numeral t then Some t else
  match t with String c u => if Ascii.eqb c dquote then quoted_body u else None | EmptyString => None end.

(* Strings that are safe to use as names and attribute values *)
Definition ordinary_char (c : ascii) : bool :=
  (32 <=? nat_of_ascii c)%nat && negb (nat_of_ascii c =? 127)%nat && negb (Ascii.eqb c backslash) && negb (Ascii.eqb c dquote) &&
  negb (Ascii.eqb c comma) && negb (Ascii.eqb c colon) && negb (Ascii.eqb c (ch "<")) && negb (Ascii.eqb c (ch ">")).
Definition ordinary (s : string) : Prop := s <> EmptyString /\ all_chars ordinary_char s = true /\ keyword s = false.
(* Characters that end an unquoted token: everything but letters, digits, underscore, comma and colon *)
Definition breaks_token (c : ascii) : bool :=
  let n := nat_of_ascii c in
  negb ((48 <=? n) && (n <=? 58) || (65 <=? n) && (n <=? 90) || (97 <=? n) && (n <=? 122) || (n =? 95) || (n =? 44))%nat.
(* Characters that quoting handles, other than double quotes: no backslash, no line end, no angle bracket on the left *)
Definition clean_char (c : ascii) : bool :=
  negb (Ascii.eqb c backslash) && negb (Ascii.eqb c dquote) && negb (Ascii.eqb c newline) && negb (Ascii.eqb c carriage) && negb (Ascii.eqb c (ch "<")).
