(* DOT output: C08, C09, C10; clusters: C42. *)
From Verif Require Import Py Util M_Graph P_Graph M_Flow M_Dot S_Dot P_Quote P_Dot.
From Coq Require Import Ascii Permutation DecimalString DecimalZ.
Local Open Scope string_scope. Local Open Scope list_scope.

(** * C08 *)
(* Without clusters: header and graph attributes, one line per node in the order of the
   node list, one line per edge in the order of the edge list, closing brace. *)
Theorem C08_no_clusters : forall gname g, wf g -> g_cluster g = [] ->
  to_string gname g = Ok (graph_text gname g [] (get_node_list g) (get_edge_list g)).
Proof.
  intros gname g W C. rewrite to_string_ok; [|rewrite C; intros c []|exact (wf_nodes W)]. rewrite C. cbn [map]. unfold in_some_cluster. rewrite C. cbn [existsb flat_map].
  assert (F : forall A (l : list A), filter (fun _ => negb false) l = l) by (induction l as [|x t IH]; cbn [filter negb] in *; [|rewrite IH]; reflexivity).
  unfold get_node_list, get_edge_list. rewrite F. f_equal. f_equal. induction (dkeys (g_edges g)) as [|x t IH]; [reflexivity|]. cbn [filter mem negb] in *. rewrite IH. reflexivity.
Qed.
Print Assumptions C08_no_clusters.

(* With clusters of existing nodes, no node in two of them (or twice in one): the text has
   one subgraph per cluster; every node has exactly one line, in its cluster if it is in
   one; every edge has exactly one line, in the cluster that contains both ends if there
   is one. On undirected graphs this needs that no cluster contains the two ends of an
   edge that is not a loop: otherwise see C09. *)
Theorem C08_clusters : forall gname g, wf g ->
  NoDup (flat_map (fun c => c_nodes (snd c)) (g_cluster g)) ->
  (forall c, In c (g_cluster g) -> writable (snd c) /\ forall n, In n (c_nodes (snd c)) -> In n (get_node_list g)) ->
  (g_type g = Undirected -> forall c n m, In c (g_cluster g) -> In n (c_nodes (snd c)) -> In m (c_nodes (snd c)) -> check_edge g n m = true -> n = m) ->
  exists inner nodes edges,
    to_string gname g = Ok (graph_text gname g (combine (g_cluster g) inner) nodes edges) /\
    Forall2 (fun c es => forall n m, In (n, m) es <-> In n (c_nodes (snd c)) /\ In m (c_nodes (snd c)) /\ check_edge g n m = true) (g_cluster g) inner /\
    Permutation (flat_map (fun c => c_nodes (snd c)) (g_cluster g) ++ nodes) (get_node_list g) /\
    Permutation (concat inner ++ edges) (get_edge_list g).
Proof.
  intros gname g W ND HC HU.
  assert (CO : forall c, In c (g_cluster g) -> cluster_ok g (snd c)).
  { intros c Hc. destruct (HC c Hc) as [Wr Nn]. constructor; [exact Wr| |].
    - intros n Hn. rewrite (wf_nodes W). exact (Nn n Hn).
    - intros n m Hn Hm Ck. unfold check_edge in Ck. destruct (g_type g) eqn:T; [apply dmem_In; exact Ck|].
      assert (n = m) by (eapply HU; eauto; unfold check_edge; rewrite T; exact Ck). subst m. rewrite orb_diag in Ck. apply dmem_In. exact Ck. }
  exists (map (fun c => inner_edges g (snd c)) (g_cluster g)),
    (filter (fun n => negb (in_some_cluster g n)) (dkeys (g_nbrs g))),
    (filter (fun e => negb (mem e (flat_map (fun c => inner_edges g (snd c)) (g_cluster g)))) (dkeys (g_edges g))).
  split; [|split; [|split]].
  - rewrite to_string_ok; [|exact CO|exact (wf_nodes W)]. f_equal. f_equal. clear. induction (g_cluster g) as [|c t IH]; [reflexivity|]. cbn. rewrite IH. reflexivity.
  - clear. induction (g_cluster g) as [|c t IH]; constructor; [|exact IH]. intros n m. exact (inner_In g (snd c) (n, m)).
  - apply NoDup_Permutation.
    + apply NoDup_app_iff. split; [exact ND|]. split; [apply NoDup_filter, (wf_nd W)|]. intros n A B. apply in_some_cluster_spec in A. apply filter_In in B as [_ B].
      rewrite A in B. discriminate.
    + exact (wf_nd W).
    + intros n. rewrite in_app_iff, filter_In. split.
      * intros [A|[A _]]; [|exact A]. apply in_flat_map in A as (c & Hc & A). exact (proj2 (HC c Hc) n A).
      * intros A. destruct (in_some_cluster g n) eqn:E; [left; apply in_some_cluster_spec; exact E|right; split; [exact A|reflexivity]].
  - rewrite <- flat_map_concat_map. apply NoDup_Permutation.
    + apply NoDup_app_iff. split; [apply inner_NoDup; exact ND|]. split; [apply NoDup_filter, (wf_ne W)|].
      intros e A B. apply filter_In in B as [_ B]. apply negb_true_iff, mem_nIn in B. contradiction.
    + exact (wf_ne W).
    + intros e. rewrite in_app_iff, filter_In. split.
      * intros [A|[A _]]; [|exact A]. apply in_flat_map in A as (c & Hc & A). apply inner_In in A as (A & B & C). destruct e as [n m].
        exact (co_inner (CO c Hc) A B C).
      * intros A. destruct (mem e (flat_map (fun c => inner_edges g (snd c)) (g_cluster g))) eqn:E; [left; apply mem_In; exact E|right; split; [exact A|reflexivity]].
Qed.
Print Assumptions C08_clusters.

(* a node outside the graph in a cluster: nothing is written *)
Theorem C08_unknown_cluster_node : forall gname g c n, wf g -> g_cluster g = [c] -> writable (snd c) ->
  In n (c_nodes (snd c)) -> ~ In n (get_node_list g) -> to_string gname g = Err AttributeError.
Proof.
  intros gname g c n W C Wr Hn Hg. unfold to_string, write_dot. unfold bind at 1. rewrite (emits_put _ _).
  assert (A : exists ps, emits (forM_ (g_attr g) put_graph_attr) ps []).
  { destruct (@emits_forM_ex _ put_graph_attr graph_attr_line (fun _ => []) (g_attr g)) as (pa & Ea & Ja); [intros x _; apply graph_attr_emits|].
    rewrite flat_nil in Ea. eauto. }
  destruct A as [ps A]. unfold bind at 1. rewrite A. cbn [d_out d_done]. rewrite C. unfold forM_ at 1. cbn [foldM]. unfold bind at 1. unfold bind at 1.
  assert (S : forall d, snd (put_cluster g c d) = Err AttributeError).
  { intros d. unfold put_cluster. unfold bind at 1. rewrite (emits_put _ _).
    assert (B : exists qs, emits (forM_ (c_attrs (snd c)) put_cluster_attr) qs []).
    { exists (flat_map (fun av => [cluster_attr_line av]) (c_attrs (snd c))). rewrite <- (flat_nil (B := name * name) (c_attrs (snd c))). apply emits_forM. intros [a v] H. apply cluster_attr_emits.
      exact (proj1 Wr a v H). }
    destruct B as [qs B]. unfold bind at 1. rewrite B. destruct (node_attrs_emits (proj2 Wr)) as (pn & En & _). unfold bind at 1. rewrite En. cbn [d_out d_done].
    assert (N : forall l d, In n l -> snd (forM_ l (put_node g) d) = Err AttributeError).
    { clear - W Hg. induction l as [|x t IH]; intros d H; [destruct H|]. unfold forM_ in *. cbn [foldM]. unfold bind, put_node at 1.
      destruct (dget (g_nodes g) x) as [v|] eqn:E; [|reflexivity]. destruct H as [->|H]; [|apply IH; exact H].
      exfalso. apply Hg. apply dget_Some_keys in E. rewrite (wf_nodes W) in E. exact E. }
    unfold bind at 1. set (d1 := mkDot _ _). pose proof (N (c_nodes (snd c)) d1 Hn) as X. destruct (forM_ (c_nodes (snd c)) (put_node g) d1) as [d2 [u|e]]; cbn in *; [discriminate|exact X]. }
  match goal with |- context [put_cluster g c ?d] => pose proof (S d) as X; destruct (put_cluster g c d) as [d2 [u|e]]; cbn in X |- * end; [discriminate|congruence].
Qed.
Print Assumptions C08_unknown_cluster_node.

Definition dot_ex : graph :=
  fst (run (create_cluster [NI 1; NS "a b"] (Some [("label", VS "left part")]) [("color", VS "red")])
    (history (new_graph (Some Directed) []) [OAddEdge (NI 1) (NS "a b") [("cost", VI 3)]; OAddEdge (NI 1) (NI 2) []; OAddEdge (NI 2) (NI 2) [("label", VS "it's")]], [])).
Definition q (s : string) : string := (dq ++ s ++ dq)%string.
Definition text (l : list string) : string := String.concat nl (l ++ [""]).
Example C08_nonvacuous :
  wf dot_ex /\ NoDup (flat_map (fun c => c_nodes (snd c)) (g_cluster dot_ex)) /\
  (forall c, In c (g_cluster dot_ex) -> writable (snd c) /\ forall n, In n (c_nodes (snd c)) -> In n (get_node_list dot_ex)) /\
  to_string "G" dot_ex = Ok (text [
    "digraph G {"; "layout=fdp;"; "subgraph cluster_c0 {"; "label=" ++ q "left part" ++ ";"; "name=c0;"; "node [color=red];"; "1 [];"; q "a b" ++ " [];";
    "1 -> " ++ q "a b" ++ "  [cost=3];"; "}"; "2 [];"; "1 -> 2;"; "2 -> 2  [label=" ++ q "it's" ++ "];"; "}"])%string /\
  to_string "G" (history (new_graph None []) [OAddEdge (NI 1) (NI 2) []]) = Ok (text ["graph G {"; "layout=fdp;"; "1 [];"; "2 [];"; "1 -- 2;"; "}"]).
Proof.
  split.
  { pose proof (proj1 (wf_history (wf_new (Some Directed) []) (os := [OAddEdge (NI 1) (NS "a b") [("cost", VI 3)]; OAddEdge (NI 1) (NI 2) []; OAddEdge (NI 2) (NI 2) [("label", VS "it's")]]) ltac:(discriminate))) as W.
    destruct W. constructor; assumption. }
  assert (E : exists a b, g_cluster dot_ex = [(VS "c0", mkCluster [NI 1; NS "a b"] a b)] /\ a = [("label", VS "left part"); ("name", VS "c0")] /\ b = [("color", VS "red")]).
  { eexists _, _. split; [vm_compute; reflexivity|]. split; reflexivity. }
  destruct E as (a & b & E & -> & ->). rewrite E. split; [|split; [|split]].
  - cbn. repeat constructor; cbn; intuition discriminate.
  - intros c [<-|[]]. cbn [snd c_nodes]. split.
    + split; cbn; intros x v; intuition; match goal with H : (_, _) = _ |- _ => injection H as <- <- end; eauto.
    + assert (G : get_node_list dot_ex = [NI 1; NS "a b"; NI 2]) by (vm_compute; reflexivity). rewrite G. cbn. intuition.
  - vm_compute. reflexivity.
  - vm_compute. reflexivity.
Qed.

(** * C09 *)
Theorem C09_undirected_cluster_edge : forall gname g c n m, wf g -> g_type g = Undirected ->
  (forall c, In c (g_cluster g) -> writable (snd c) /\ forall n, In n (c_nodes (snd c)) -> In n (get_node_list g)) ->
  In c (g_cluster g) -> In n (c_nodes (snd c)) -> In m (c_nodes (snd c)) -> n <> m -> check_edge g n m = true ->
  to_string gname g = Err KeyError.
Proof.
  intros gname g c n m W T HC Hc Hn Hm Ne Ck.
  assert (HC' : forall c, In c (g_cluster g) -> writable (snd c) /\ forall n, In n (c_nodes (snd c)) -> In n (dkeys (g_nodes g))).
  { intros x Hx. destruct (HC x Hx) as [A B]. split; [exact A|]. intros y Hy. rewrite (wf_nodes W). exact (B y Hy). }
  assert (Ck' : check_edge g m n = true) by (unfold check_edge in *; rewrite T in *; rewrite orb_comm; exact Ck).
  destruct (mem_spec (n, m) (dkeys (g_edges g))) as [A|A].
  - apply (@to_string_stops gname g c m n HC' Hc Hm Hn Ck'). exact (@wf_anti g W T n m Ne A).
  - exact (@to_string_stops gname g c n m HC' Hc Hn Hm Ck A).
Qed.
Print Assumptions C09_undirected_cluster_edge.
Example C09_nonvacuous :
  let g := fst (run (create_cluster [NI 1; NI 2] None []) (history (new_graph None []) [OAddEdge (NI 1) (NI 2) []], [])) in
  g_type g = Undirected /\ In (NI 1) (get_node_list g) /\ check_edge g (NI 1) (NI 2) = true /\ map (fun c => c_nodes (snd c)) (g_cluster g) = [[NI 1; NI 2]] /\
  to_string "G" g = Err KeyError.
Proof. vm_compute. repeat split. left. reflexivity. Qed.

(** * C10 *)
(* An ordinary string is written as one token that denotes it. *)
Theorem C10_quoting : forall s, ordinary s -> dot_id (quote_string s) = Some s.
Proof. exact ordinary_ok. Qed.
Print Assumptions C10_quoting.
(* so different ordinary strings are never confused *)
Theorem C10_injective : forall s s', ordinary s -> ordinary s' -> quote_string s = quote_string s' -> s = s'.
Proof. intros s s' H H' E. apply ordinary_ok in H, H'. rewrite E in H. congruence. Qed.
Print Assumptions C10_injective.
(* and so is every string that gets quotes, unless it has a backslash or a line end *)
Theorem C10_quoted : forall s, s <> "" -> quote_string s <> s -> all_chars (isnt backslash) s = true ->
  all_chars (isnt newline) s = true -> all_chars (isnt carriage) s = true -> dot_id (quote_string s) = Some s.
Proof.
  intros s N D B L C. destruct (needs_quotes s) eqn:Q; [apply quoted_ok; assumption|]. exfalso. apply D. unfold quote_string. rewrite Q. destruct s; reflexivity.
Qed.
Print Assumptions C10_quoted.
(* A string with a character that ends a token gets quotes and denotes itself, whatever commas and colons it has *)
Theorem C10_special : forall s c, all_chars clean_char s = true -> In c (list_ascii_of_string s) -> breaks_token c = true ->
  quote_string s = q s /\ dot_id (quote_string s) = Some s.
Proof. exact breaks_ok. Qed.
Print Assumptions C10_special.
Example C10_special_nonvacuous : Forall (fun s => all_chars clean_char s = true /\ existsb breaks_token (list_ascii_of_string s) = true)
  ["a b:c"; "x y,z"; "a:b c:d"; "1:2 3"; "x-y:z"; "(0, 1)"; "a>b"] /\ map quote_string ["a b:c"; "a:b c"] = [q "a b:c"; q "a:b c"].
Proof. split; [repeat constructor|vm_compute; reflexivity]. Qed.
(* Outside that class: a string between double quotes denotes the same as the string itself *)
Theorem C10_collision : forall s, ordinary s -> q s <> s /\ dot_id (quote_string (q s)) = Some s /\ dot_id (quote_string s) = Some s.
Proof.
  intros s H. split; [|split].
  - destruct H as (_ & Ch & _). intros E. destruct s as [|c t]; [discriminate|]. cbn [q dq String.append] in E. injection E as Ec _. subst c.
    cbn [all_chars] in Ch. discriminate.
  - unfold q. rewrite already_quoted. destruct H as (_ & Ch & _). change (dq ++ s ++ dq)%string with (String dquote (s ++ dq)). rewrite dquote_token.
    pose proof (body_esc (all_chars_impl oc_backslash Ch)) as X. rewrite (esc_id (all_chars_impl oc_dquote Ch)) in X. exact X.
  - exact (ordinary_ok H).
Qed.
Print Assumptions C10_collision.
(* a string ending in a backslash is written as an unterminated token *)
Theorem C10_trailing_backslash : forall s, all_chars ordinary_char s = true -> dot_id (quote_string (s ++ bs "")) = None.
Proof. exact backslash_end. Qed.
Print Assumptions C10_trailing_backslash.
(* Numbers with colons: with one colon the string is written as it is, and is no identifier; with two it gets quotes and denotes itself *)
Theorem C10_numbers_with_colons : forall a b c, all_chars is_digit a = true -> a <> "" -> all_chars is_digit b = true -> b <> "" -> all_chars is_digit c = true ->
  (quote_string (a ++ ":" ++ b) = (a ++ ":" ++ b)%string /\ dot_id (quote_string (a ++ ":" ++ b)) = None) /\
  (quote_string (a ++ ":" ++ b ++ ":" ++ c) = q (a ++ ":" ++ b ++ ":" ++ c) /\ dot_id (quote_string (a ++ ":" ++ b ++ ":" ++ c)) = Some (a ++ ":" ++ b ++ ":" ++ c)%string).
Proof.
  intros a b c Ha Na Hb Nb Hc. split; [|exact (port_numbers Ha Na Hb Hc)].
  destruct (port_number Ha Na Hb Nb) as [E1 E2]. split; [exact E1|]. change (a ++ ":" ++ b)%string with (a ++ String colon b)%string. rewrite E1. exact E2.
Qed.
Print Assumptions C10_numbers_with_colons.
Example C10_numbers_with_colons_nonvacuous : map quote_string ["10:30"; "10:30:05"] = ["10:30"; q "10:30:05"] /\ Forall (fun s => all_chars is_digit s = true /\ s <> "") ["10"; "30"; "05"].
Proof. split; [vm_compute; reflexivity|]. repeat constructor; discriminate. Qed.
(* keywords and the empty string are written as they are, and are not identifiers; nor are names with commas or ports *)
Theorem C10_not_identifiers : (forall s, In s ["graph"; "subgraph"; "digraph"; "node"; "edge"; "strict"; ""] -> quote_string s = s /\ dot_id (quote_string s) = None) /\
  (forall a b, plain_id a = true -> all_chars is_alpha a = true -> all_chars is_alpha b = true -> b <> "" ->
     forall sep, sep = "," \/ sep = ":" -> quote_string (a ++ sep ++ b) = (a ++ sep ++ b)%string /\ dot_id (quote_string (a ++ sep ++ b)) = None).
Proof.
  split; [intros s H; repeat (destruct H as [<-|H]; [vm_compute; auto|]); destruct H|].
  intros a b Pa Ha Hb Nb sep Hs.
  destruct a as [|c t]; [discriminate|]. cbn [all_chars] in Ha. apply andb_true_iff in Ha as [Hc Ht].
  assert (X : exists k, sep = String k "" /\ id_start k = false /\ is_digit k = false /\ (Ascii.eqb k comma || Ascii.eqb k colon) = true /\ (127 <? nat_of_ascii k)%nat || (nat_of_ascii k =? 0)%nat = false).
  { destruct Hs as [->| ->]; eexists; repeat split; vm_compute; reflexivity. }
  destruct X as (k & -> & K1 & K2 & K3 & K4). set (u := (t ++ String k "" ++ b)%string).
  change (String c t ++ String k "" ++ b)%string with (String c u).
  assert (L : exists l, last_char u = Some l /\ is_alpha l = true).
  { unfold u. destruct b as [|d b']; [congruence|]. clear - Hb. assert (E : exists l, last_char (String d b') = Some l).
    { clear. revert d. induction b' as [|e b IH]; intros d; [exists d; reflexivity|]. destruct (IH e) as [l Hl]. exists l. exact Hl. }
    destruct E as [l El]. exists l. split; [|exact (last_char_all Hb El)]. induction t as [|x t IH]; [exact El|]. cbn [String.append last_char] in *.
    destruct (t ++ String k (String d b'))%string eqn:F; [destruct t; discriminate|exact IH]. }
  destruct L as (l & L1 & L2).
  assert (W : re_with_ports (String c u) = true).
  { apply dollar_true. rewrite Hc, L1, L2. cbn [andb orb]. rewrite andb_true_r. unfold u. rewrite !all_chars_app. cbn [all_chars].
    rewrite (@all_chars_impl is_alpha (fun c => is_alpha c || is_digit c || Ascii.eqb c comma || Ascii.eqb c colon || Ascii.eqb c dquote) t) by (assumption || (intros x ->; reflexivity)).
    rewrite (@all_chars_impl is_alpha (fun c => is_alpha c || is_digit c || Ascii.eqb c comma || Ascii.eqb c colon || Ascii.eqb c dquote) b) by (assumption || (intros x ->; reflexivity)).
    rewrite <- (orb_assoc (is_alpha k || is_digit k)), K3, orb_true_r. reflexivity. }
  assert (A0 : forall x, is_alpha x = true -> negb ((127 <? nat_of_ascii x)%nat || (nat_of_ascii x =? 0)%nat) = true).
  { intros x Hx. destruct (Ascii.eqb_spec x (ch "_")) as [->|Nx]; [reflexivity|]. unfold is_alpha in Hx. apply Ascii.eqb_neq in Nx. rewrite Nx in Hx. cbn [orb] in Hx.
    apply negb_true_iff, orb_false_iff. unfold between in Hx. change (nat_of_ascii (ch "a")) with 97 in Hx. change (nat_of_ascii (ch "z")) with 122 in Hx.
    change (nat_of_ascii (ch "A")) with 65 in Hx. change (nat_of_ascii (ch "Z")) with 90 in Hx. rewrite orb_true_iff, !andb_true_iff, !Nat.leb_le in Hx.
    rewrite Nat.ltb_ge, Nat.eqb_neq. lia. }
  assert (S : some_char (fun c => (127 <? nat_of_ascii c)%nat || (nat_of_ascii c =? 0)%nat) (String c u) = false).
  { unfold some_char. apply negb_false_iff. cbn [all_chars]. rewrite (A0 c Hc). unfold u. rewrite !all_chars_app. cbn [all_chars andb]. rewrite K4.
    rewrite (all_chars_impl A0 Ht), (all_chars_impl A0 Hb). reflexivity. }
  assert (N : needs_quotes (String c u) = false).
  { unfold needs_quotes, needs_quotes_plain. destruct (mem (String c u) DOT_KEYWORDS); [reflexivity|]. rewrite S. cbn [andb]. rewrite W, !orb_true_r. reflexivity. }
  assert (E : quote_string (String c u) = String c u) by (unfold quote_string; rewrite N; reflexivity).
  split; [exact E|]. rewrite E. unfold dot_id.
  assert (U : forall p, p k = false -> all_chars p u = false).
  { intros p Hp. unfold u. rewrite !all_chars_app. cbn [all_chars]. rewrite Hp. cbn [andb]. apply andb_false_r. }
  assert (P : plain_id (String c u) = false).
  { unfold plain_id. rewrite U by (rewrite K1, K2; reflexivity). rewrite andb_false_r. reflexivity. }
  assert (M : numeral (String c u) = false).
  { unfold numeral. cbn [all_chars]. rewrite U by exact K2. apply andb_false_r. }
  rewrite P, M. cbn [orb]. destruct (Ascii.eqb_spec c dquote) as [->|_]; [discriminate|reflexivity].
Qed.
Print Assumptions C10_not_identifiers.
(* the number 1 and the string '1' are different node names with the same statement *)
Theorem C10_numbers_and_strings : forall z d, NI z <> NS (str_int z) /\ node_line (NI z) d = node_line (NS (str_int z)) d.
Proof. intros z d. split; [discriminate|reflexivity]. Qed.
Print Assumptions C10_numbers_and_strings.
(* the values None, True and False are written as these words, as the strings of the same letters are *)
Theorem C10_constants : forall n a v s, In (v, s) [(VNone, "None"); (VBool true, "True"); (VBool false, "False"); (VI 0, "0"); (VI 10000, "10000")] ->
  node_to_string n [(a, v)] = (quote_string (str_name n) ++ " [" ++ a ++ "=" ++ s ++ "]")%string /\
  node_to_string n [(a, v)] = node_to_string n [(a, VS s)].
Proof. intros n a v s H. cbn in H. repeat destruct H as [[= <- <-]|H]; [..|destruct H]; split; reflexivity. Qed.
Print Assumptions C10_constants.
Example C10_nonvacuous : Forall ordinary ["x"; "x1"; "12"; "a b"; "1.5"; "-3"; "it's"; "2x"; "{set}"; "Node_1"] /\
  map quote_string ["x"; "12"; "a b"; "1.5"] = ["x"; "12"; q "a b"; q "1.5"] /\
  quote_string (("say " ++ q "hi")%string) = q ("say " ++ bs dq ++ "hi" ++ bs dq)%string.
Proof. split; [repeat constructor; discriminate|]. vm_compute. auto. Qed.

(** * C42 *)
(* Two dictionaries passed by the caller: a name that is in use is taken over silently *)
Theorem C42_reused_name_refuted : forall g dflt nodes d na nm old,
  dget d "name" = Some nm -> dget (g_cluster g) nm = Some old -> ~ In (VS "name") (dkeys (g_cluster g)) ->
  exists g', create_cluster nodes (Some d) na (g, dflt) = ((g', dflt), Ok d) /\
    dget (g_cluster g') nm = Some (mkCluster nodes d na) /\ length (g_cluster g') = length (g_cluster g) /\
    get_node_list g' = get_node_list g /\ get_edge_list g' = get_edge_list g.
Proof.
  intros g dflt nodes d na nm old Hd Ho Hn. eexists. split.
  { unfold create_cluster, bind at 1, gets at 1. rewrite Hd. unfold bind at 1, gets. cbn [fst snd]. apply dmem_nIn in Hn. rewrite Hn. reflexivity. }
  cbn [g_cluster with_cluster fst]. split; [apply dget_dset_eq|]. split; [|split; reflexivity].
  apply dget_Some_keys in Ho. clear - Ho. induction (g_cluster g) as [|[k v] t IH]; [destruct Ho|]. cbn [dset length dkeys map fst] in *.
  destruct eq_dec as [E|N]; [reflexivity|]. destruct Ho as [->|Ho]; [congruence|]. cbn [length]. rewrite IH by exact Ho. reflexivity.
Qed.
Print Assumptions C42_reused_name_refuted.
(* the documented exception comes exactly when some cluster is called 'name' *)
Theorem C42_only_exception : forall g dflt nodes d na nm, dget d "name" = Some nm ->
  create_cluster nodes (Some d) na (g, dflt) =
    if dmem (g_cluster g) (VS "name") then ((g, dflt), Err (PyException "A cluster with name %s already exists!"))
    else ((with_cluster g (dset (g_cluster g) nm (mkCluster nodes d na)), dflt), Ok d).
Proof.
  intros g dflt nodes d na nm Hd. unfold create_cluster, bind at 1, gets at 1. rewrite Hd. unfold bind at 1, gets. cbn [fst snd].
  destruct (dmem (g_cluster g) (VS "name")); reflexivity.
Qed.
Print Assumptions C42_only_exception.

(* A sequence of calls on one graph *)
Definition calls (ca : option attrs) (l : list (list name * attrs)) : M (graph * attrs) unit :=
  forM_ l (fun c => create_cluster (fst c) ca (snd c) ;; ret tt).
(* that all rely on the default: only the last cluster survives *)
Theorem C42_default_shared_refuted : forall l nodes na g k, dget (g_attr g) "cluster_count" = Some (VI k) -> g_cluster g = [] ->
  exists g' d, calls None (l ++ [(nodes, na)]) (g, []) = ((g', d), Ok tt) /\ map (fun c => c_nodes (snd c)) (g_cluster g') = [nodes] /\
    dkeys (g_cluster g') = [VS ("c" ++ str_int k)].
Proof.
  intros l nodes na g k Hk Hc. set (nm := VS ("c" ++ str_int k)). set (d := [("name", nm)]).
  assert (Nn : nm <> VS "name") by (unfold nm; discriminate).
  assert (Step : forall h x, g_cluster h = [] \/ (exists c, g_cluster h = [(nm, c)]) ->
     exists h', (create_cluster (fst x) None (snd x) ;; ret tt) (h, d) = ((h', d), Ok tt) /\ g_cluster h' = [(nm, mkCluster (fst x) d (snd x))]).
  { intros h x Hh. eexists. split.
    - unfold create_cluster, bind at 1, bind at 1, gets at 1. cbn [snd]. change (dget d "name") with (Some nm). unfold bind at 1, gets. cbn [fst].
      assert (E : dmem (g_cluster h) (VS "name") = false).
      { apply dmem_nIn. destruct Hh as [-> |[c ->]]; cbn; [tauto|]. intros [E|[]]. exact (Nn E). }
      rewrite E. reflexivity.
    - cbn [fst g_cluster with_cluster]. destruct Hh as [-> |[c ->]]; cbn [dset]; [reflexivity|]. destruct (eq_dec nm nm); [reflexivity|congruence]. }
  assert (Run : forall l h x, g_cluster h = [] \/ (exists c, g_cluster h = [(nm, c)]) ->
     exists h', calls None (l ++ [x]) (h, d) = ((h', d), Ok tt) /\ g_cluster h' = [(nm, mkCluster (fst x) d (snd x))]).
  { clear l. induction l as [|y t IH]; intros h x Hh.
    - destruct (Step h x Hh) as (h' & E & C). exists h'. split; [|exact C]. unfold calls, forM_. cbn [app foldM]. rewrite (bind_ok _ E). reflexivity.
    - destruct (Step h y Hh) as (h' & E & C). destruct (IH h' x) as (h'' & E2 & C2); [right; eauto|]. exists h''. split; [|exact C2].
      unfold calls, forM_ in *. cbn [app foldM]. rewrite (bind_ok _ E). exact E2. }
  (* the first call puts the name into the shared dictionary *)
  assert (First : forall x, exists h, (create_cluster (fst x) None (snd x) ;; ret tt) (g, []) = ((h, d), Ok tt) /\ g_cluster h = [(nm, mkCluster (fst x) d (snd x))]).
  { intros x. eexists. split.
    - unfold create_cluster, bind at 1, bind at 1, gets. cbn [snd dget]. unfold bind at 1, cluster_count. cbn [fst]. rewrite Hk. cbn. reflexivity.
    - cbn. rewrite Hc. reflexivity. }
  destruct l as [|y t].
  - destruct (First (nodes, na)) as (h & E & C). exists h, d. split; [|rewrite C; split; reflexivity]. unfold calls, forM_. cbn [app foldM]. rewrite (bind_ok _ E). reflexivity.
  - destruct (First y) as (h & E & C). destruct (Run t h (nodes, na)) as (h' & E2 & C2); [right; eauto|]. exists h', d. split; [|rewrite C2; split; reflexivity].
    unfold calls, forM_ in *. cbn [app foldM]. rewrite (bind_ok _ E). exact E2.
Qed.
Print Assumptions C42_default_shared_refuted.
(* on another graph too the default is the name the first graph gave *)
Theorem C42_default_across_graphs : forall g g2 nodes na nodes2 na2 k, dget (g_attr g) "cluster_count" = Some (VI k) -> g_cluster g2 = [] ->
  let '((_, d), _) := create_cluster nodes None na (g, []) in
  exists g2' r, create_cluster nodes2 None na2 (g2, d) = ((g2', d), Ok r) /\ dkeys (g_cluster g2') = [VS ("c" ++ str_int k)] /\
    dget (g_attr g2') "cluster_count" = dget (g_attr g2) "cluster_count".
Proof.
  intros g g2 nodes na nodes2 na2 k Hk Hc. unfold create_cluster at 1, bind at 1, gets. cbn [snd dget]. unfold bind at 1, cluster_count. cbn [fst]. rewrite Hk. cbn [bind modify fst snd ret dset].
  eexists _, _. split.
  - unfold create_cluster, bind at 1, gets at 1. cbn [snd]. match goal with |- context [dget ?d "name"] => change (dget d "name") with (Some (VS ("c" ++ str_int k))) end.
    unfold bind at 1, gets. cbn [fst]. rewrite Hc. cbn [dmem dget]. reflexivity.
  - cbn. rewrite Hc. split; reflexivity.
Qed.
Print Assumptions C42_default_across_graphs.

(* With a dictionary of its own for each call every cluster gets a new name and is kept *)
Lemma str_int_inj a b : str_int a = str_int b -> a = b.
Proof.
  unfold str_int. intros H.
  assert (N : forall z, NilZero.int_of_string (NilZero.string_of_int (Z.to_int z)) = Some (Z.to_int z)).
  { intros z. apply NilZero.isi; destruct z; cbn; try discriminate; intros [= E]; revert E; apply DecimalPos.Unsigned.to_uint_nonnil. }
  pose proof (N a) as A. rewrite H, N in A. injection A as A. apply DecimalZ.to_int_inj. symmetry. exact A.
Qed.
Theorem C42_own_dictionaries : forall l g k dflt, dget (g_attr g) "cluster_count" = Some (VI k) -> g_cluster g = [] ->
  exists g', calls (Some []) l (g, dflt) = ((g', dflt), Ok tt) /\
    map (fun c => (fst c, c_nodes (snd c), c_node_attrs (snd c))) (g_cluster g') =
    map (fun ic => (VS ("c" ++ str_int (k + Z.of_nat (fst ic))), fst (snd ic), snd (snd ic))) (combine (seq 0 (length l)) l) /\
    NoDup (dkeys (g_cluster g')).
Proof.
  set (nm := fun k (i : nat) => VS ("c" ++ str_int (k + Z.of_nat i))).
  assert (Inj : forall k i j, nm k i = nm k j -> i = j).
  { intros k i j E. unfold nm in E. injection E as E. apply str_int_inj in E. lia. }
  assert (G : forall l g k j dflt, dget (g_attr g) "cluster_count" = Some (VI (k + Z.of_nat j)) -> dkeys (g_cluster g) = map (nm k) (seq 0 j) ->
    exists g', calls (Some []) l (g, dflt) = ((g', dflt), Ok tt) /\
      map (fun c => (fst c, c_nodes (snd c), c_node_attrs (snd c))) (g_cluster g') =
      map (fun c => (fst c, c_nodes (snd c), c_node_attrs (snd c))) (g_cluster g) ++ map (fun ic => (nm k (fst ic), fst (snd ic), snd (snd ic))) (combine (seq j (length l)) l) /\
      dkeys (g_cluster g') = map (nm k) (seq 0 (j + length l))).
  { induction l as [|x t IH]; intros g k j dflt Hk Hc.
    - exists g. split; [reflexivity|]. cbn. rewrite app_nil_r, Nat.add_0_r. auto.
    - set (cl := mkCluster (fst x) [("name", nm k j)] (snd x)).
      assert (S : exists g', (create_cluster (fst x) (Some []) (snd x) ;; ret tt) (g, dflt) = ((g', dflt), Ok tt) /\
        dget (g_attr g') "cluster_count" = Some (VI (k + Z.of_nat (S j))) /\ g_cluster g' = g_cluster g ++ [(nm k j, cl)]).
      { eexists. split; [|split].
        - unfold create_cluster, bind at 1, bind at 1, gets. cbn [snd dget]. unfold bind at 1, cluster_count. cbn [fst]. rewrite Hk. cbn [bind modify fst snd ret dset]. reflexivity.
        - cbn [with_cluster with_attr g_attr]. rewrite dget_dset_eq. f_equal. f_equal. lia.
        - cbn [with_cluster with_attr g_cluster]. fold (nm k j). apply dkeys_dset_nin. rewrite Hc. rewrite in_map_iff. intros (i & E & Hi). apply Inj in E. apply in_seq in Hi. lia. }
      destruct S as (g' & E & Hk' & Hc'). destruct (IH g' k (S j) dflt Hk') as (g'' & E2 & M & D).
      { rewrite Hc'. unfold dkeys in *. rewrite map_app, Hc. rewrite seq_S, map_app. reflexivity. }
      exists g''. split; [unfold calls, forM_ in *; cbn [foldM]; rewrite (bind_ok _ E); exact E2|]. split.
      + rewrite M, Hc', map_app. cbn [length seq combine map]. rewrite <- app_assoc. reflexivity.
      + rewrite D. cbn [length]. f_equal. f_equal. lia. }
  intros l g k dflt Hk Hc. destruct (G l g k 0 dflt) as (g' & E & M & D); [rewrite Hk; f_equal; f_equal; lia|rewrite Hc; reflexivity|].
  exists g'. split; [exact E|]. split; [rewrite M, Hc; reflexivity|]. rewrite D. apply FinFun.Injective_map_NoDup; [|apply seq_NoDup]. intros i j. apply Inj.
Qed.
Print Assumptions C42_own_dictionaries.
(* one call with a dictionary of its own and no name in it, whatever value the user has set as cluster_count *)
Theorem C42_number : forall g dflt nodes d na v, dget d "name" = None -> dget (g_attr g) "cluster_count" = Some v ->
  (forall k, v = VI k \/ (v = VBool true /\ k = 1%Z) \/ (v = VBool false /\ k = 0%Z) ->
    let nm := VS ("c" ++ str_int k) in
    exists g', create_cluster nodes (Some d) na (g, dflt) = ((g', dflt), Ok (dset d "name" nm)) /\
      dget (g_cluster g') nm = Some (mkCluster nodes (dset d "name" nm) na) /\
      (forall c, c <> nm -> dget (g_cluster g') c = dget (g_cluster g) c) /\
      dget (g_attr g') "cluster_count" = Some (VI (k + 1)) /\
      (forall a, a <> "cluster_count" -> dget (g_attr g') a = dget (g_attr g) a) /\
      g_type g' = g_type g /\ get_node_list g' = get_node_list g /\ get_edge_list g' = get_edge_list g) /\
  ((v = VNone \/ exists x, v = VS x) -> create_cluster nodes (Some d) na (g, dflt) = ((g, dflt), Err TypeError)).
Proof.
  intros g dflt nodes d na v Hd Hv. split.
  - intros k Hk nm. exists (with_cluster (with_attr g (dset (g_attr g) "cluster_count" (VI (k + 1)))) (dset (g_cluster g) nm (mkCluster nodes (dset d "name" nm) na))).
    split; [|cbn [with_cluster with_attr g_cluster g_attr g_type]; repeat split].
    + assert (C : cluster_count (g, dflt) = ((g, dflt), Ok k)).
      { unfold cluster_count. cbn [fst]. rewrite Hv. destruct Hk as [->|[[-> ->]|[-> ->]]]; reflexivity. }
      unfold create_cluster, bind at 1, gets. cbn [snd]. rewrite Hd. rewrite (bind_ok _ C). reflexivity.
    + apply dget_dset_eq.
    + intros c Hc. rewrite dget_dset. destruct (eq_dec nm c); congruence.
    + apply dget_dset_eq.
    + intros a Ha. rewrite dget_dset. destruct (eq_dec "cluster_count" a); congruence.
  - intros H. unfold create_cluster, bind at 1, gets. cbn [snd]. rewrite Hd. unfold bind at 1, cluster_count. cbn [fst]. rewrite Hv.
    destruct H as [->|[x ->]]; reflexivity.
Qed.
Print Assumptions C42_number.
Example C42_number_nonvacuous : let g := run (set_graph_attr "cluster_count" (VBool true)) (new_graph (Some Directed) []) in
  dget (g_attr g) "cluster_count" = Some (VBool true) /\
  map (fun c => (fst c, c_nodes (snd c))) (g_cluster (fst (run (create_cluster [NI 1] (Some []) []) (g, [])))) = [(VS "c1", [NI 1])].
Proof. vm_compute. auto. Qed.
Example C42_nonvacuous : let g := new_graph (Some Directed) [] in
  dget (g_attr g) "cluster_count" = Some (VI 0) /\ g_cluster g = [] /\
  map (fun c => c_nodes (snd c)) (g_cluster (fst (run (calls None [([NI 1], []); ([NI 2], [])]) (g, [])))) = [[NI 2]] /\
  map (fun c => (fst c, c_nodes (snd c))) (g_cluster (fst (run (calls (Some []) [([NI 1], []); ([NI 2], [])]) (g, [])))) = [(VS "c0", [NI 1]); (VS "c1", [NI 2])] /\
  let g1 := fst (run (create_cluster [NI 1] (Some [("name", VS "x")]) []) (g, [])) in
  dget (g_cluster g1) (VS "x") <> None /\ ~ In (VS "name") (dkeys (g_cluster g1)).
Proof. vm_compute. repeat split; [discriminate|]. intros [E|[]]. discriminate. Qed.
