(* Property theorems C66: text for the terminal. *)
From Coq Require Import Ascii.
From Verif Require Import Py Util M_Graph P_Graph P_GraphLaws P_Attr M_Flow M_Dot M_Repr S_Repr P_Repr P_BB.
Local Open Scope string_scope. Local Open Scope list_scope.

(** C66: repr(graph) *)
(* one line for every node, in the order of the nodes, with the list of its neighbors; the graph is left alone *)
Theorem C66_repr : forall (g : graph) (nb : name -> list name), wf g -> (forall x, In x (get_node_list g) -> obs (get_neighbors x) g = Ok (nb x)) ->
  graph_repr g = (g, Ok (String.concat nl (map (fun x => str_name x ++ " -> " ++ repr_list (nb x))%string (get_node_list g)))).
Proof.
  intros g nb W H. rewrite (graph_repr_ok W), repr_text. do 2 f_equal. f_equal. apply map_ext_in. intros x Hx. specialize (H x Hx). rewrite (obs_neighbors_in Hx) in H. injection H as H. unfold line. rewrite H. reflexivity.
Qed.
Print Assumptions C66_repr.
(* the text of a str name is a Python literal for it: single quotes unless only single quotes occur in it *)
Theorem C66_repr_str : forall s : string, read_literal (repr_name (NS s)) = Some s /\
  exists q body, repr_name (NS s) = String q (body ++ String q EmptyString) /\
    (q = ascii_of_nat 34 <-> In (ascii_of_nat 39) (list_ascii_of_string s) /\ ~ In (ascii_of_nat 34) (list_ascii_of_string s)).
Proof.
  intros s. cbn [repr_name]. unfold repr_str. set (b := _ && _). pose (q := if b then dquote else squote). fold q. split.
  - unfold read_literal. assert (Hq : q = squote \/ q = dquote) by (unfold q; destruct b; auto).
    rewrite (read_escape s Hq). clearbody q. destruct Hq as [-> | ->]; reflexivity.
  - exists q, (escape q s). split; [reflexivity|].
    assert (Hsome : forall c, some_char (fun d => Ascii.eqb d c) s = true <-> In c (list_ascii_of_string s)).
    { intros c. clear. induction s as [|d t IH]; [split; [discriminate|intros []]|]. unfold some_char in *. cbn [all_chars list_ascii_of_string In]. destruct (Ascii.eqb_spec d c) as [->|Hd]; [cbn; tauto|].
      rewrite <- IH. cbn [negb andb]. split; [auto|intros [?|?]; [contradiction|assumption]]. }
    change (ascii_of_nat 39) with squote. change (ascii_of_nat 34) with dquote. rewrite <- !Hsome. unfold q, b.
    destruct (some_char (fun c => Ascii.eqb c squote) s), (some_char (fun c => Ascii.eqb c dquote) s); cbn; split; intros H; try discriminate H; auto;
      try (split; [reflexivity|discriminate]); destruct H as [H1 H2]; congruence.
Qed.
Print Assumptions C66_repr_str.
(* the text says everything about nodes and neighbors *)
Theorem C66_repr_injective : forall (g g' : graph), wf g -> wf g' ->
  (forall x, In x (get_node_list g) -> plain x) -> (forall x, In x (get_node_list g') -> plain x) ->
  obs graph_repr g = obs graph_repr g' ->
  get_node_list g = get_node_list g' /\ forall x, obs (get_neighbors x) g = obs (get_neighbors x) g'.
Proof.
  intros g g' W W' P P' E. unfold obs in E at 1 2. rewrite (graph_repr_ok W), (graph_repr_ok W') in E. cbn [snd] in E. injection E as E.
  assert (T : text (list_at (g_nbrs g)) (get_node_list g) = text (list_at (g_nbrs g')) (get_node_list g')).
  { rewrite !repr_text in E. set (l := get_node_list g) in *. set (l' := get_node_list g') in *.
    assert (Ne : forall nb x t, String.concat nl (map (line nb) (x :: t)) <> "") by (intros nb x t K; cbn [map String.concat] in K; unfold line in K; destruct t; destruct (str_name x); discriminate).
    destruct l as [|x l], l' as [|y l']; [reflexivity|symmetry in E; destruct (Ne _ _ _ E)|destruct (Ne _ _ _ E)|]. rewrite !text_concat by discriminate. rewrite E. reflexivity. }
  assert (Nb : forall h, wf h -> (forall x, In x (get_node_list h) -> plain x) -> forall n m, In n (get_node_list h) -> In m (list_at (g_nbrs h) n) -> plain m) by (intros h Wh Ph n m Hn Hm; apply Ph, (nbr_node Wh Hm)).
  apply text_unique in T as [El Hn]; auto; [|apply Nb; assumption|apply Nb; assumption]. split; [exact El|]. intros x. rewrite !obs_neighbors. specialize (Hn x). unfold list_at in Hn.
  change (get_node_list g) with (dkeys (g_nbrs g)) in *. change (get_node_list g') with (dkeys (g_nbrs g')) in *.
  destruct (dget (g_nbrs g) x) as [l1|] eqn:E1, (dget (g_nbrs g') x) as [l2|] eqn:E2; [|exfalso|exfalso|reflexivity].
  - rewrite Hn; [reflexivity|]. apply dget_Some_keys in E1. exact E1.
  - apply dget_None in E2. apply E2. rewrite <- El. apply dget_Some_keys in E1. exact E1.
  - apply dget_None in E1. apply E1. rewrite El. apply dget_Some_keys in E2. exact E2.
Qed.
Print Assumptions C66_repr_injective.
(* but not about the type of the graph, and other names can be confused *)
Theorem C66_repr_refuted :
  (exists g g', wf g /\ wf g' /\ (forall x, In x (get_node_list g) -> plain x) /\ (forall x, In x (get_node_list g') -> plain x) /\ obs graph_repr g = obs graph_repr g' /\ g_type g <> g_type g') /\
  (exists g g', wf g /\ wf g' /\ obs graph_repr g = obs graph_repr g' /\ get_node_list g <> get_node_list g') /\
  (exists g g', wf g /\ wf g' /\ obs graph_repr g = obs graph_repr g' /\ get_node_num g <> get_node_num g').
Proof.
  assert (W : forall t l, forallb (fun o => negb (is_del_node o)) l = true -> wf (history (new_graph t []) l)) by (intros t l H; apply (wf_history (wf_new t [])); auto).
  split; [|split].
  - exists (history (new_graph (Some Directed) []) [OAddEdge (NI 1) (NI 2) []; OAddEdge (NI 2) (NI 1) []]), (history (new_graph (Some Undirected) []) [OAddEdge (NI 1) (NI 2) []]).
    split; [apply W; reflexivity|]. split; [apply W; reflexivity|]. split; [|split; [|split; [vm_compute; reflexivity|vm_compute; discriminate]]]; intros x Hx; vm_compute in Hx; destruct Hx as [<-|[<-|[]]]; exact Logic.I.
  - exists (history (new_graph (Some Directed) []) [OAddNode (NI 1) []]), (history (new_graph (Some Directed) []) [OAddNode (NS "1") []]). split; [apply W; reflexivity|]. split; [apply W; reflexivity|]. split; [vm_compute; reflexivity|vm_compute; discriminate].
  - exists (history (new_graph (Some Directed) []) [OAddNode (NI 1) []; OAddNode (NI 2) []]), (history (new_graph (Some Directed) []) [OAddNode (NS ("1 -> []" ++ nl ++ "2")) []]). split; [apply W; reflexivity|]. split; [apply W; reflexivity|]. split; [vm_compute; reflexivity|vm_compute; discriminate].
Qed.
Print Assumptions C66_repr_refuted.
Example C66_repr_nonvacuous : obs graph_repr (history (new_graph (Some Directed) []) [OAddEdge (NI 1) (NS "b") []; OAddEdge (NI 1) (NI (-3)) []]) = Ok ("1 -> ['b', -3]" ++ nl ++ "b -> []" ++ nl ++ "-3 -> []")%string /\
  plain (NS "b_1") /\ obs graph_repr (new_graph None []) = Ok "" /\ repr_name (NS ("it's" ++ nl)) = """it's\n""".
Proof. split; [vm_compute; reflexivity|]. split; [split; [vm_compute; reflexivity|]; intros d [<-|[<-|[]]]; vm_compute; auto|]. split; vm_compute; reflexivity. Qed.

(* get_node gives the node with all its attributes, whose repr is its line in the DOT text *)
Theorem C66_get_node : forall (g : graph) (n : name), wf g ->
  exists o, get_node n g = (g, Ok o) /\ (o = None <-> ~ In n (get_node_list g)) /\
  (forall x d, o = Some (x, d) -> x = n /\ (forall a, obs (get_node_attr n a) g = Ok (match dget d a with Some v => v | None => VNone end)) /\ node_repr (x, d) = node_to_string n d).
Proof.
  intros g n W. unfold get_node, gets. destruct (dget (g_nodes g) n) as [d|] eqn:E; eexists; (split; [reflexivity|]); split.
  - split; [discriminate|]. intros K. exfalso. apply K. change (In n (dkeys (g_nbrs g))). rewrite <- (wf_nodes W). apply dget_Some_keys in E. exact E.
  - intros x d' [= <- <-]. split; [reflexivity|]. split; [|reflexivity]. intros a. rewrite obs_node_attr, E. reflexivity.
  - split; [|reflexivity]. intros _. apply dget_None in E. rewrite (wf_nodes W) in E. exact E.
  - discriminate.
Qed.
Print Assumptions C66_get_node.
Example C66_get_node_nonvacuous : let g := history (new_graph (Some Directed) []) [OAddNode (NI 1) [("color", VS "red")]] in
  match obs (get_node (NI 1)) g with Ok (Some x) => node_repr x | _ => "" end = "1 [color=red]" /\ obs (get_node (NI 2)) g = Ok None.
Proof. vm_compute. auto. Qed.

(* print_flow: what is printed for one arc *)
Definition flow_line (e : name * name) (f c : Z) : string := ("(" ++ repr_name (fst e) ++ ", " ++ repr_name (snd e) ++ ") " ++ ljust4 (str_int f) ++ " " ++ ljust4 (str_int c) ++ nl)%string.
Definition flow_header : string := ("printing current edge, flow, capacity" ++ nl)%string.
Lemma edge_get_listed g e a : wf g -> In e (get_edge_list g) -> edge_get e a g = get_edge_attr (fst e) (snd e) a g.
Proof.
  intros W He. destruct e as [x y]. unfold edge_get, get_edge_attr. cbn [fst snd]. pose proof He as H. apply dget_exists in H as [d Ed]. rewrite Ed. destruct (g_type g) eqn:D; destruct (dget d a) as [v|] eqn:Ea; try reflexivity.
  destruct (eq_dec x y) as [->|Hn]; [rewrite Ed, Ea; reflexivity|]. rewrite (proj2 (dget_None _ _) (wf_anti W D Hn He)). reflexivity.
Qed.
Lemma from_graph_get g e a v out (Q : val -> string * graph -> Prop) : wf g -> In e (get_edge_list g) -> obs (get_edge_attr (fst e) (snd e) a) g = Ok v -> Q v (out, g) -> ok (from_graph (edge_get e a)) (out, g) Q.
Proof.
  intros W He E H. assert (E' : edge_get e a g = (g, Ok v)) by (rewrite (edge_get_listed g e a W He), (surjective_pairing (get_edge_attr (fst e) (snd e) a g)); unfold obs in E; rewrite E; reflexivity).
  eapply ok_intro; [unfold from_graph; cbn [fst snd]; rewrite E'; reflexivity|exact H].
Qed.
(* every arc with a flow other than 0, in the order of the arcs, and nothing else *)
Theorem C66_print_flow : forall (g : graph) (f c : name * name -> Z) (out : string), wf g ->
  (forall e, In e (get_edge_list g) -> obs (get_edge_attr (fst e) (snd e) "flow") g = Ok (VI (f e)) /\ (f e <> 0%Z -> obs (get_edge_attr (fst e) (snd e) "capacity") g = Ok (VI (c e)))) ->
  print_flow (out, g) = ((out ++ flow_header ++ String.concat "" (map (fun e => flow_line e (f e) (c e)) (filter (fun e => negb (f e =? 0)%Z) (get_edge_list g))), g)%string, Ok tt).
Proof.
  intros g f c out W H.
  set (body := fun l => String.concat "" (map (fun e => flow_line e (f e) (c e)) (filter (fun e => negb (f e =? 0)%Z) l))).
  assert (Snoc : forall l e, body (l ++ [e]) = (body l ++ (if negb (f e =? 0)%Z then flow_line e (f e) (c e) else ""))%string).
  { assert (Cat : forall l m : list string, String.concat "" (l ++ m) = (String.concat "" l ++ String.concat "" m)%string).
    { assert (C1 : forall a l, String.concat "" (a :: l) = (a ++ String.concat "" l)%string) by (intros a [|b l]; [cbn; rewrite app_nil_s; reflexivity|reflexivity]). induction l as [|a l IH]; intros m; [reflexivity|]. rewrite <- app_comm_cons, !C1, IH, app_assoc_s. reflexivity. }
    intros l e. unfold body. rewrite filter_app, map_app, Cat. cbn [filter]. destruct (negb (f e =? 0)%Z); reflexivity. }
  assert (K : ok print_flow (out, g) (fun _ p => p = ((out ++ flow_header ++ body (get_edge_list g))%string, g))).
  { unfold print_flow. apply ok_bind. unfold printed at 1. apply ok_modify. cbn [fst snd]. apply ok_bind, ok_gets. cbn [snd]. change (dkeys (g_edges g)) with (get_edge_list g).
    eapply ok_forM with (I := fun pre p => p = ((out ++ flow_header ++ body pre)%string, g)).
    - unfold body. cbn [filter map String.concat]. rewrite app_nil_s. reflexivity.
    - intros pre e post p Hl ->. assert (He : In e (get_edge_list g)) by (rewrite Hl; apply in_elt). destruct (H e He) as [Hf Hc].
      apply ok_bind, (from_graph_get g e "flow" _ _ _ W He Hf). cbn [nonzero]. rewrite Snoc. destruct (Z.eqb_spec (f e) 0) as [Z0|Z0]; cbn [negb].
      + apply ok_ret. rewrite app_nil_s. reflexivity.
      + apply ok_bind, (from_graph_get g e "flow" _ _ _ W He Hf). apply ok_bind. unfold printed at 1. apply ok_modify. cbn [fst snd]. apply ok_bind, (from_graph_get g e "capacity" _ _ _ W He (Hc Z0)). unfold printed. apply ok_modify. cbn [fst snd].
        unfold flow_line, str_pair. cbn [str_val]. rewrite !app_assoc_s. reflexivity.
    - auto. }
  apply ok_ex in K as (p & [] & E & ->). exact E.
Qed.
Print Assumptions C66_print_flow.
(* an arc without 'flow' stops it with a KeyError after the arcs before it; the graph is left alone *)
Theorem C66_print_flow_missing : forall (g : graph) (out : string) (l1 l2 : list (name * name)) (e : name * name), wf g -> get_edge_list g = l1 ++ e :: l2 ->
  (forall e', In e' l1 -> exists f c, obs (get_edge_attr (fst e') (snd e') "flow") g = Ok (VI f) /\ obs (get_edge_attr (fst e') (snd e') "capacity") g = Ok (VI c)) ->
  (forall v, obs (get_edge_attr (fst e) (snd e) "flow") g <> Ok v) ->
  exists out', print_flow (out, g) = ((out', g), Err KeyError).
Proof.
  intros g out l1 l2 e W El H1 He.
  assert (Ee : edge_get e "flow" g = (g, Err KeyError)).
  { unfold edge_get. destruct (dget (g_edges g) e) as [d|] eqn:Ed; [|reflexivity]. destruct (dget d "flow") as [v|] eqn:Ea; [|reflexivity]. exfalso. assert (Hin : In e (get_edge_list g)) by (rewrite El; apply in_elt).
    apply (He v). unfold obs. rewrite <- (edge_get_listed g e "flow" W Hin). unfold edge_get. rewrite Ed, Ea. reflexivity. }
  unfold print_flow. erewrite bind_ok by reflexivity. cbn [fst snd]. erewrite bind_ok by reflexivity. cbn [fst snd]. change (dkeys (g_edges g)) with (get_edge_list g). rewrite El.
  match goal with |- context [forM_ _ ?b] => set (body := b) end. unfold forM_. generalize (out ++ "printing current edge, flow, capacity" ++ nl)%string. 
  assert (Hl : forall x, In x l1 -> In x (get_edge_list g)) by (intros x Hx; rewrite El; apply in_or_app; left; exact Hx). clear El.
  induction l1 as [|a l1 IH]; intros o; cbn [app].
  - exists o. assert (Eb : body e (o, g) = ((o, g), Err KeyError)) by (unfold body, bind, from_graph; cbn [fst snd]; rewrite Ee; reflexivity). cbn [foldM]. rewrite (bind_err _ Eb). reflexivity.
  - destruct (H1 a (or_introl eq_refl)) as (f & c & Hf & Hc).
    assert (Ea : ok (body a) (o, g) (fun _ p => exists o', p = (o', g))).
    { unfold body. assert (Hin := Hl a (or_introl eq_refl)). apply ok_bind, (from_graph_get g a "flow" _ _ _ W Hin Hf). destruct (nonzero (VI f)); [|apply ok_ret; eauto]. apply ok_bind, (from_graph_get g a "flow" _ _ _ W Hin Hf). apply ok_bind. unfold printed at 1. apply ok_modify. cbn [fst snd]. apply ok_bind, (from_graph_get g a "capacity" _ _ _ W Hin Hc). unfold printed. apply ok_modify. cbn [fst snd]. eauto. }
    apply ok_ex in Ea as (p & [] & Ea & o' & ->). cbn [foldM]. rewrite (bind_ok _ Ea). apply (IH (fun x Hx => H1 x (or_intror Hx)) (fun x Hx => Hl x (or_intror Hx)) o').
Qed.
Print Assumptions C66_print_flow_missing.
(* negative flows are printed although only positive ones are announced *)
Example C66_print_flow_nonvacuous : let g := history (new_graph (Some Directed) []) [OAddEdge (NI 1) (NI 2) [("flow", VI 3); ("capacity", VI 10000)]; OAddEdge (NI 2) (NI 3) [("flow", VI 0)]; OAddEdge (NI 3) (NI 1) [("flow", VI (-1)); ("capacity", VI 4)]] in
  fst (fst (print_flow ("", g))) = ("printing current edge, flow, capacity" ++ nl ++ "(1, 2) 3    10000" ++ nl ++ "(3, 1) -1   4   " ++ nl)%string /\
  snd (print_flow ("", history g [OAddEdge (NI 1) (NI 4) []])) = Err KeyError /\
  (* None is not 0, so an arc whose flow is None is printed; False is 0 and is not *)
  fst (fst (print_flow ("", history g [OAddEdge (NI 1) (NI 4) [("flow", VNone); ("capacity", VI 1)]; OAddEdge (NI 1) (NI 5) [("flow", VBool false)]]))) =
    ("printing current edge, flow, capacity" ++ nl ++ "(1, 2) 3    10000" ++ nl ++ "(3, 1) -1   4   " ++ nl ++ "(1, 4) None 1   " ++ nl)%string.
Proof. vm_compute. auto. Qed.
