(* Property theorems C74: what the constructors set up, and that building a graph or a tree leaves it in place. *)
From Verif Require Import Py Util M_Graph M_Tree P_Graph P_Metrics.
Local Open Scope string_scope. Local Open Scope list_scope.

(* the value of a keyword argument, or a default *)
Definition kwarg (kw : attrs) (a : string) (default : val) : option val := match dget kw a with Some v => Some v | None => Some default end.

(* calls that change neither the type nor the attributes of the graph itself *)
Definition ka {A} (m : M graph A) : Prop := forall g, g_attr (fst (m g)) = g_attr g /\ g_type (fst (m g)) = g_type g.
Lemma ka_bind {A B} (m : M graph A) (f : A -> M graph B) : ka m -> (forall x, ka (f x)) -> ka (bind m f).
Proof. intros Hm Hf g. unfold bind. specialize (Hm g). destruct (m g) as [h [x|e]]; cbn [fst] in *; [|exact Hm]. destruct Hm as [<- <-]. apply Hf. Qed.
Lemma ka_read {A} (m : M graph A) : (forall g, fst (m g) = g) -> ka m.
Proof. intros H g. rewrite H. auto. Qed.
Lemma ka_lift {A} (o : option A) e : ka (lift o e).
Proof. apply ka_read. intros g. destruct o; reflexivity. Qed.
Lemma ka_in_dict : ka in_dict. Proof. apply ka_read. intros g. unfold in_dict. destruct (g_type g); reflexivity. Qed.
Ltac kas := repeat first [apply ka_lift | apply ka_in_dict | apply ka_bind; [|intros ?] | (intros ?; split; reflexivity) | match goal with |- ka (match ?x with _ => _ end) => destruct x end].
Lemma ka_nbr_list n : ka (nbr_list n). Proof. intros g. split; reflexivity. Qed.
Lemma ka_in_list n : ka (in_list n).
Proof. unfold in_list. kas. Qed.
Lemma ka_nbr_append n m : ka (nbr_append n m). Proof. unfold nbr_append. kas. Qed.
Lemma ka_in_append n m : ka (in_append n m). Proof. unfold in_append. kas. Qed.
Lemma ka_nbr_remove n m : ka (nbr_remove n m). Proof. unfold nbr_remove. kas. Qed.
Lemma ka_in_remove n m : ka (in_remove n m). Proof. unfold in_remove. kas. Qed.
Lemma ka_edge_del e : ka (edge_del e). Proof. intros g. unfold edge_del. destruct (dmem (g_edges g) e); split; reflexivity. Qed.
Lemma ka_live_for get body : (forall x, ka (body x)) -> forall fuel i, ka (live_for fuel i get body).
Proof. intros H. induction fuel as [|f IH]; intros i; [intros g; split; reflexivity|]. cbn [live_for]. kas; [apply H|apply IH]. Qed.
Ltac kaz := repeat first [apply ka_edge_del | apply ka_nbr_remove | apply ka_in_remove | apply ka_in_list | apply ka_in_dict | apply ka_nbr_append | apply ka_in_append | apply ka_live_for; intros ?
  | apply ka_bind; [|intros ?] | (intros ?; split; reflexivity) | match goal with |- ka (match ?x with _ => _ end) => destruct x end].
Lemma ka_add_node n a : ka (add_node n a).
Proof. intros g. unfold add_node. destruct (dmem (g_nbrs g) n); [auto|]. simpl. destruct (g_type g) eqn:E; simpl; auto. Qed.
Lemma ka_del_node n : ka (del_node n).
Proof.
  intros g. unfold del_node. destruct (negb (dmem (g_nbrs g) n)); [auto|]. match goal with |- context [fst (?m g)] => assert (K : ka m); [|apply K] end.
  kaz.
Qed.
Lemma ka_add_edge n m a : ka (add_edge n m a).
Proof.
  intros g. unfold add_edge. destruct (dmem (g_edges g) (n, m)); [auto|]. destruct (match g_type g with Undirected => _ | Directed => _ end); [auto|].
  match goal with |- context [fst (?k g)] => assert (K : ka k); [|apply K] end. kaz; apply ka_add_node.
Qed.
Lemma ka_del_edge n m : ka (del_edge n m).
Proof.
  intros g. unfold del_edge. destruct (g_type g) eqn:E; repeat match goal with |- context [if ?b then _ else _] => destruct b end; try (cbn [fst]; auto; fail);
    match goal with |- context [fst (?k g)] => assert (K : ka k); [|rewrite <- E; apply K] end; kaz.
Qed.
Lemma ka_exec o : ka (exec o).
Proof.
  destruct o; simpl; [apply ka_add_node|apply ka_del_node|apply ka_add_edge|apply ka_del_edge| |].
  - intros g. unfold set_node_attr. destruct (dget (g_nodes g) n); split; reflexivity.
  - intros g. unfold set_edge_attr. destruct (dget (g_edges g) (n, m)); [split; reflexivity|]. destruct (g_type g) eqn:E; [auto|]. destruct (dget (g_edges g) (m, n)); split; auto.
Qed.
Lemma ka_history os : forall g, g_attr (history g os) = g_attr g /\ g_type (history g os) = g_type g.
Proof. induction os as [|o os IH]; intros g; [auto|]. simpl. destruct (IH (fst (exec o g))) as [H1 H2]. destruct (ka_exec o g) as [H3 H4]. split; congruence. Qed.

(* the same for trees *)
Definition kat {A} (m : M tree A) : Prop := forall t, g_attr (t_g (fst (m t))) = g_attr (t_g t) /\ g_type (t_g (fst (m t))) = g_type (t_g t).
Lemma kat_bind {A B} (m : M tree A) (f : A -> M tree B) : kat m -> (forall x, kat (f x)) -> kat (bind m f).
Proof. intros Hm Hf t. unfold bind. specialize (Hm t). destruct (m t) as [h [x|e]]; cbn [fst] in *; [|exact Hm]. destruct Hm as [<- <-]. apply Hf. Qed.
Lemma kat_ong {A} (m : M graph A) : ka m -> kat (ong m).
Proof. intros H t. unfold ong. specialize (H (t_g t)). destruct (m (t_g t)) as [g r]. exact H. Qed.
Lemma kat_texec o : kat (texec o).
Proof.
  destruct o as [n a|n p a]; simpl; [unfold add_root|unfold add_child].
  - apply kat_bind; [apply kat_ong, ka_add_node|]. intros _ t. split; reflexivity.
  - apply kat_bind; [apply kat_ong; intros g; split; reflexivity|]. intros v. apply kat_bind; [destruct v; intros t; split; reflexivity|]. intros z.
    apply kat_bind; [apply kat_ong, ka_add_node|]. intros _. apply kat_ong, ka_add_edge.
Qed.
Lemma kat_history os : forall t, g_attr (t_g (thistory t os)) = g_attr (t_g t) /\ g_type (t_g (thistory t os)) = g_type (t_g t).
Proof. induction os as [|o os IH]; intros t; [auto|]. simpl. destruct (IH (fst (texec o t))) as [H1 H2]. destruct (kat_texec o t) as [H3 H4]. split; congruence. Qed.

Lemma new_attr ty kw a : ~ In "type" (dkeys kw) -> dget (g_attr (new_graph ty kw)) a =
  if eq_dec a "cluster_count" then Some (VI 0) else if eq_dec a "type" then match ty with Some t => Some (VS (type_string t)) | None => None end
  else if eq_dec a "display" then kwarg kw "display" (VS "off") else if eq_dec a "layout" then kwarg kw "layout" (VS "fdp") else dget kw a.
Proof.
  intros Ht. unfold new_graph, kwarg. cbn [g_attr].
  set (a1 := match ty with Some t => dset kw "type" (VS (type_string t)) | None => kw end).
  assert (G1 : forall b, dget a1 b = if eq_dec b "type" then match ty with Some t => Some (VS (type_string t)) | None => None end else dget kw b).
  { intros b. unfold a1. apply dget_None in Ht. destruct ty; [rewrite dget_dset; destruct (eq_dec "type" b), (eq_dec b "type"); congruence|destruct (eq_dec b "type"); congruence]. }
  set (a2 := if dmem a1 "display" then a1 else dset a1 "display" (VS "off")).
  assert (G2 : forall b, dget a2 b = if eq_dec b "display" then match dget kw "display" with Some v => Some v | None => Some (VS "off") end else dget a1 b).
  { intros b. unfold a2, dmem. pose proof (G1 "display") as H. destruct (eq_dec "display" "type") as [X|_]; [discriminate|]. rewrite H. destruct (dget kw "display") eqn:E.
    - destruct (eq_dec b "display") as [->|]; [exact H|reflexivity].
    - rewrite dget_dset. destruct (eq_dec "display" b), (eq_dec b "display"); congruence. }
  set (a3 := if dmem a2 "layout" then a2 else dset a2 "layout" (VS "fdp")).
  assert (G3 : forall b, dget a3 b = if eq_dec b "layout" then match dget kw "layout" with Some v => Some v | None => Some (VS "fdp") end else dget a2 b).
  { intros b. unfold a3, dmem. pose proof (G2 "layout") as H. destruct (eq_dec "layout" "display") as [X|_]; [discriminate|]. rewrite G1 in H. destruct (eq_dec "layout" "type") as [X|_]; [discriminate|].
    rewrite H. destruct (dget kw "layout") eqn:E.
    - destruct (eq_dec b "layout") as [->|]; [exact H|reflexivity].
    - rewrite dget_dset. destruct (eq_dec "layout" b), (eq_dec b "layout"); congruence. }
  rewrite dget_dset, G3, G2, G1. destruct (eq_dec "cluster_count" a), (eq_dec a "cluster_count"), (eq_dec a "layout"), (eq_dec a "display"), (eq_dec a "type"); congruence.
Qed.

(** Graph(type=..., kw): after any calls that add, delete or change nodes and edges, the type and the attributes of the graph are those of the constructor *)
Theorem C74_graph : forall ty kw os, ~ In "type" (dkeys kw) -> let g := history (new_graph ty kw) os in
  g_type g = match ty with Some t => t | None => Undirected end /\
  dget (g_attr g) "type" = match ty with Some Directed => Some (VS "digraph") | Some Undirected => Some (VS "graph") | None => None end /\
  dget (g_attr g) "display" = kwarg kw "display" (VS "off") /\ dget (g_attr g) "layout" = kwarg kw "layout" (VS "fdp") /\ dget (g_attr g) "cluster_count" = Some (VI 0) /\
  (forall a, ~ In a ["type"; "display"; "layout"; "cluster_count"] -> dget (g_attr g) a = dget kw a).
Proof.
  intros ty kw os Ht. cbv zeta. destruct (ka_history os (new_graph ty kw)) as [-> ->]. split; [reflexivity|]. rewrite !new_attr by exact Ht.
  split; [destruct ty as [[]|]; reflexivity|]. split; [reflexivity|]. split; [reflexivity|]. split; [reflexivity|].
  intros a Ha. rewrite new_attr by exact Ht. destruct (eq_dec a "cluster_count"), (eq_dec a "type"), (eq_dec a "display"), (eq_dec a "layout"); subst; try reflexivity; exfalso; apply Ha; simpl; tauto.
Qed.
Print Assumptions C74_graph.

(** a new graph has no nodes, edges or clusters *)
Theorem C74_empty : forall ty kw, get_node_list (new_graph ty kw) = [] /\ get_edge_list (new_graph ty kw) = [] /\ g_cluster (new_graph ty kw) = [] /\
  (forall n a, obs (get_node_attr n a) (new_graph ty kw) = Err AttributeError) /\ (forall n m, check_edge (new_graph ty kw) n m = false) /\ wf (new_graph ty kw).
Proof. intros ty kw. repeat (split; [reflexivity|]). split; [intros n m; unfold check_edge, new_graph; destruct ty as [[]|]; reflexivity|apply wf_new]. Qed.
Print Assumptions C74_empty.

(** Tree(kw) and BinaryTree(kw): directed whatever type= says, drawn with the layout dot unless another is given; no root *)
Theorem C74_tree : forall kw os, NoDup (dkeys kw) -> t_root (new_tree kw) = None /\ get_node_list (t_g (new_tree kw)) = [] /\ let g := t_g (thistory (new_tree kw) os) in
  g_type g = Directed /\ dget (g_attr g) "type" = Some (VS "digraph") /\
  dget (g_attr g) "display" = kwarg kw "display" (VS "off") /\ dget (g_attr g) "layout" = kwarg kw "layout" (VS "dot") /\ dget (g_attr g) "cluster_count" = Some (VI 0) /\
  (forall a, ~ In a ["type"; "display"; "layout"; "cluster_count"] -> dget (g_attr g) a = dget kw a).
Proof.
  intros kw os Nd. split; [reflexivity|]. split; [reflexivity|]. cbv zeta. destruct (kat_history os (new_tree kw)) as [-> ->]. unfold new_tree. cbn [t_g].
  set (k1 := ddel kw "type"). set (k2 := if dmem k1 "layout" then k1 else dset k1 "layout" (VS "dot")).
  assert (G1 : forall b, b <> "type" -> dget k1 b = dget kw b) by (intros b Hb; apply dget_ddel_ne; congruence).
  assert (G2 : forall b, dget k2 b = if eq_dec b "layout" then kwarg kw "layout" (VS "dot") else dget k1 b).
  { intros b. unfold k2, kwarg, dmem. pose proof (G1 "layout" ltac:(discriminate)) as H. rewrite H. destruct (dget kw "layout") eqn:E.
    - destruct (eq_dec b "layout") as [->|]; [exact H|reflexivity].
    - rewrite dget_dset. destruct (eq_dec "layout" b), (eq_dec b "layout"); congruence. }
  assert (Ht : ~ In "type" (dkeys k2)) by (apply dget_None; rewrite G2; destruct (eq_dec "type" "layout") as [X|_]; [discriminate|]; apply dget_ddel_eq, Nd).
  destruct (C74_graph (Some Directed) k2 [] Ht) as (H1 & H2 & H3 & H4 & H5 & H6). cbn [history fold_left] in *.
  split; [exact H1|]. split; [exact H2|]. 
  assert (D2 : dget k2 "display" = dget kw "display") by (rewrite G2; destruct (eq_dec "display" "layout") as [X|_]; [discriminate|apply G1; discriminate]).
  assert (L2 : dget k2 "layout" = kwarg kw "layout" (VS "dot")) by (rewrite G2; destruct (eq_dec "layout" "layout"); congruence).
  unfold kwarg in H3, H4. rewrite D2 in H3. rewrite L2 in H4.
  split; [exact H3|]. split; [etransitivity; [exact H4|]; unfold kwarg; destruct (dget kw "layout"); reflexivity|]. split; [exact H5|].
  intros a Ha. etransitivity; [exact (H6 a Ha)|]. rewrite G2. destruct (eq_dec a "layout") as [->|]; [exfalso; apply Ha; simpl; tauto|]. apply G1. intros ->. apply Ha. simpl. tauto.
Qed.
Print Assumptions C74_tree.

(* a graph with two attributes of its own after calls that return and calls that raise, and a tree to which type= and layout= were given *)
Example C74_nonvacuous :
  let kw := [("display", VS "file"); ("rankdir", VS "LR")] in let os := [OAddEdge (NI 1) (NI 2) []; OAddNode (NI 1) []; ODelNode (NI 2)] in
  let kt := [("type", VS "graph"); ("layout", VS "fdp")] in
  ~ In "type" (dkeys kw) /\ length (get_node_list (history (new_graph None kw) os)) = 2 /\ obs (exec (OAddNode (NI 1) [])) (history (new_graph None kw) os) = Err MultipleNodeException /\
  NoDup (dkeys kt) /\ map (dget (g_attr (t_g (thistory (new_tree kt) [TRoot (NI 0) []; TChild (NI 1) (NI 0) []])))) ["type"; "layout"; "display"] = [Some (VS "digraph"); Some (VS "fdp"); Some (VS "off")].
Proof.
  cbv zeta. split; [vm_compute; intuition discriminate|]. split; [vm_compute; reflexivity|]. split; [vm_compute; reflexivity|]. split; [repeat constructor; vm_compute; intuition discriminate|vm_compute; reflexivity].
Qed.
