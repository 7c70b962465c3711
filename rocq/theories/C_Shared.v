(* Property theorem C67: the queue objects that are default arguments. minimum_spanning_tree_prim, Tree.traverse and
   BinaryTree.traverse have a queue as default value of q. Python creates it once, so all calls without q, on all graphs
   or trees of the program, use the same object. [prim_shared fuel source display (g, q)] and the like run a call on g when that
   object holds q; the second part of the state afterwards is what the next call finds. *)
From Verif Require Import Py Util M_Graph M_Search M_Dfs M_Prim M_Shared P_Graph Spec P_Walk S_Span S_Frontier P_Frontier P_Attr P_Shared P_SharedTree C_Search C_Prim.
From Verif Require M_Tree.
Local Open Scope string_scope. Local Open Scope list_scope.

(** a call that returns does what a call with its own queue does, and leaves the shared queue empty *)
Theorem C67_prim_returns : forall (fr : frontier) (els : fq fr -> list name) (peek_item : fq fr -> name -> res Z) (g : graph) (q : fq fr)
    (source : name) (display : option val) (fuel : nat) s' pred,
  bag els -> fq_is_pq fr = true -> prim_shared peek_item fuel source display (g, q) = (s', Ok pred) ->
  minimum_spanning_tree_prim peek_item fuel source display q g = (fst s', Ok pred) /\ els (snd s') = [].
Proof.
  intros fr els pk g q source display fuel s' pred Hb Hp E. pose proof (sim_prim els pk fuel source display g q Hp) as H. unfold sim in H.
  destruct (minimum_spanning_tree_prim pk fuel source display q g) as [h [a|e]].
  - destruct H as (a' & q' & H & -> & He). rewrite E in H. injection H as -> ->. split; [reflexivity|]. cbn [snd]. apply (bag_empty Hb). exact He.
  - destruct H as (q' & H). rewrite E in H. discriminate H.
Qed.
Print Assumptions C67_prim_returns.

(* what minimum_spanning_tree_prim needs (see C52) *)
Definition valid_call (c : prim_call) : Prop :=
  let g := c_graph c in
  wf g /\ g_type g = Undirected /\ has_costs g false /\ (forall x, ~ arc g x x) /\
  (forall x, In x (get_node_list g) -> obs (get_node_attr x "color") g <> Ok (VS "green")) /\
  In (c_source c) (get_node_list g) /\ (c_display c = None -> dget (g_attr g) "display" <> None).
(* what it promises *)
Definition correct_call (c : prim_call) (r : res (dict name name)) : Prop :=
  let g := c_graph c in
  exists pred, r = Ok pred /\ forall Es, component_edges g (c_source c) Es ->
      min_spanning_forest (fun e => edge_cost g (fst e) (snd e)) Es (pred_edges g pred) /\
      (forall x, In x (dkeys pred) <-> x <> c_source c /\ reach (arc g) (c_source c) x).

(** in a history of valid calls on any graphs, every call is right although all use the same queue *)
Theorem C67_prim_history : forall (fr : frontier) (els : fq fr -> list name) (peek_item : fq fr -> name -> res Z) (q0 : fq fr) (cs : list prim_call) (fuel : nat),
  prioq els -> (forall q x p, fq_prio q x = Some p -> peek_item q x = Ok p) -> els q0 = [] ->
  (forall c, In c cs -> valid_call c /\ length (get_node_list (c_graph c)) < fuel) ->
  exists q rs, prim_calls peek_item fuel cs q0 = (q, rs) /\ els q = [] /\ Forall2 (fun c r => correct_call c (snd r)) cs rs.
Proof.
  intros fr els pk q0 cs fuel Hp Hk. revert q0. induction cs as [|c cs IH]; intros q0 Hq Hv; [exists q0, []; repeat split; [assumption|constructor]|].
  destruct (Hv c (or_introl eq_refl)) as [(W & Hu & Hc & Hl & Hg & Hs & Hd) Hf].
  destruct (C52_prim_method_mst fr els pk (c_graph c) (c_source c) (c_display c) q0 fuel Hp Hk W Hu Hc Hl Hg Hs Hq Hd Hf) as (h & pred & E & R).
  pose proof (sim_prim els pk fuel (c_source c) (c_display c) (c_graph c) q0 (pq_is_pq Hp)) as S. unfold sim in S. rewrite E in S.
  destruct S as (a & q' & S & -> & He). apply (bag_empty (pq_bag Hp)) in He.
  destruct (IH q' He (fun c' Hi => Hv c' (or_intror Hi))) as (q & rs & Er & Eq & F).
  exists q, ((h, Ok pred) :: rs). cbn [prim_calls]. rewrite S, Er. repeat split; [assumption|]. constructor; [|assumption].
  exists pred. split; [reflexivity|]. intros Es HE. destruct (R Es HE) as (R1 & _ & R3). auto.
Qed.
Print Assumptions C67_prim_history.

(** but an exception leaves the nodes that were waiting in the queue. A call that finds a node there which it cannot
    reach from its source never returns: it raises, or runs on. *)
Theorem C67_prim_leftover : forall (fr : frontier) (els : fq fr -> list name) (peek_item : fq fr -> name -> res Z) (g : graph) (q : fq fr)
    (source x : name) (display : option val) (fuel : nat),
  bag els -> fq_is_pq fr = true -> wf g -> In x (els q) -> ~ reach (arc g) source x ->
  exists s' e, prim_shared peek_item fuel source display (g, q) = (s', Err e).
Proof.
  intros fr els pk g q source x display fuel Hb Hp W Hx Hr.
  destruct (prim_shared pk fuel source display (g, q)) as [s' [pred|e]] eqn:E; [|eauto]. exfalso.
  destruct (C67_prim_returns _ _ _ _ _ _ _ _ _ _ Hb Hp E) as [E' _]. unfold minimum_spanning_tree_prim in E'. rewrite Hp in E'.
  unfold bind at 1 in E'. destruct (enter_display display g) as [g1 [u|e]] eqn:Ed; [|discriminate E'].
  assert (Hn : g_nbrs g1 = g_nbrs g).
  { unfold enter_display in Ed. destruct display as [v|]; [injection Ed as <- _; reflexivity|]. unfold bind, gets in Ed. destruct (dget (g_attr g) "display"); injection Ed; intros; subst; reflexivity. }
  assert (L : (forall y, In y [x] -> y = source \/ In y (dkeys pred)) /\ (forall y, In y (dkeys pred) -> reach (arc g) source y)).
  { refine (leftover_loop (els := els) (peek_item := pk) Hb W (source := source) (old := [x]) (fuel := fuel) (pred := []) (q := fq_push q source None) (h := g1) _ E').
    split; [exact Hn|]. cbn [fst snd]. split; [|intros y []]. intros y [<-|[]]. left. apply (bag_push Hb). auto. }
  destruct L as [L1 L2]. destruct (L1 x (or_introl eq_refl)) as [->|H]; [apply Hr, reach_refl|apply Hr, L2, H].
Qed.
Print Assumptions C67_prim_leftover.

(** so a valid call can raise because of an earlier call on another graph: the first call finds an edge without a cost
    after putting node 7 into the queue, and the second, on a graph without a node 7, finds it there *)
Definition no_cost : graph := history (new_graph (Some Undirected) []) [OAddEdge (NI 1) (NI 7) [("cost", VI 5)]; OAddEdge (NI 1) (NI 3) []].
Definition call_on (g : graph) : prim_call := {| c_graph := g; c_source := NI 1; c_display := None |}.
Theorem C67_prim_history_refuted : exists c1 c2 : prim_call, valid_call c2 /\ wf (c_graph c1) /\
  map snd (snd (prim_calls pq_peek_item 20 [c2] empty_pq)) = [Ok [(NI 2, NI 1); (NI 3, NI 2); (NI 4, NI 3)]] /\
  map snd (snd (prim_calls pq_peek_item 20 [c1; c2] empty_pq)) = [Err KeyError; Err AttributeError].
Proof.
  exists (call_on no_cost), (call_on exu).
  split; [|split; [refine (proj1 (wf_history (wf_new (Some Undirected) []) _)); reflexivity|split; vm_compute; reflexivity]].
  destruct C52_nonvacuous as (H1 & H2 & H3 & H4 & H5 & H6 & _). repeat (split; [assumption|]). split; [vm_compute; auto|]. intros _. exact H6.
Qed.
Print Assumptions C67_prim_history_refuted.

(** Tree.traverse(root) without q: on every tree, when the shared stack is empty, the call does what a call with a new Stack
    does, and the stack is empty again when it returns and also when it raises *)
Theorem C67_tree_traverse : forall (fuel : nat) (root : option name) (t : M_Tree.tree), wf (M_Tree.t_g t) ->
  exists t' k r, tree_traverse_shared fuel root (t, []) = ((t', k), r) /\ M_Tree.tree_traverse fuel false root t = (t', r) /\ (r <> Err OutOfFuel -> k = []).
Proof.
  intros fuel root t W. pose proof (tree_shared fuel root W) as H. unfold simt in H. destruct (M_Tree.tree_traverse fuel false root t) as [t' [u|e]].
  - destruct H as (u' & k & H & ->). exists t', [], (Ok u). split; [rewrite H; destruct u, u'; reflexivity|]. auto.
  - destruct H as (k & H & He). exists t', k, (Err e). split; [assumption|]. split; [reflexivity|]. intros Hn. apply He. congruence.
Qed.
Print Assumptions C67_tree_traverse.
(** the same for BinaryTree.traverse if the children recorded at the nodes are nodes *)
Theorem C67_binary_traverse : forall (fuel : nat) (s : M_Tree.side) (display : option val) (root : option name) (t : M_Tree.tree), wf (M_Tree.t_g t) ->
  (forall n c v, In n (get_node_list (M_Tree.t_g t)) -> obs (get_node_attr n (M_Tree.slot c)) (M_Tree.t_g t) = Ok v ->
     v = VNone \/ exists m, v = vname m /\ In m (get_node_list (M_Tree.t_g t))) ->
  exists t' k r, bin_traverse_shared fuel s display root (t, []) = ((t', k), r) /\ M_Tree.bin_traverse fuel false s display root t = (t', r) /\ (r <> Err OutOfFuel -> k = []).
Proof.
  intros fuel s display root t W Hc. assert (B : bin_ok (M_Tree.t_g t)).
  { intros n c Hn. rewrite (wf_nodes W) in Hn. destruct (Hc n c (nattr (M_Tree.t_g t) n (M_Tree.slot c)) Hn) as [H|(m & H & Hm)].
    - rewrite obs_nattr; [reflexivity|]. rewrite (wf_nodes W). exact Hn.
    - left. exact H.
    - right. exists m. split; [exact H|]. rewrite (wf_nodes W). exact Hm. }
  pose proof (bin_shared fuel s display root B) as H. unfold simt in H. destruct (M_Tree.bin_traverse fuel false s display root t) as [t' [u|e]].
  - destruct H as (u' & k & H & ->). exists t', [], (Ok u). split; [rewrite H; destruct u, u'; reflexivity|]. auto.
  - destruct H as (k & H & He). exists t', k, (Err e). split; [assumption|]. split; [reflexivity|]. intros Hn. apply He. congruence.
Qed.
Print Assumptions C67_binary_traverse.

(** without that the stack need not be empty. add_left_child and add_right_child on a node without a level raise TypeError but
    record the child. traverse then raises with a name left in the stack, and a traversal of another tree
    visits the node of that name once more. *)
Import M_Tree.
Definition broken : tree :=
  let t0 := fst (ong (add_node (NI 0) []) (new_tree [])) in
  let t1 := fst (add_side_child L (NI 1) (NI 0) [] t0) in
  fst (add_side_child R (NI 2) (NI 0) [] t1).
Definition sound : tree :=
  let t0 := fst (add_root (NI 0) [] (new_tree [])) in
  fst (add_side_child L (NI 1) (NI 0) [] t0).
Theorem C67_binary_traverse_refuted : exists t t' : tree, wf (t_g t) /\ wf (t_g t') /\
  snd (add_side_child L (NI 1) (NI 0) [] (fst (ong (add_node (NI 0) []) (new_tree [])))) = Err TypeError /\
  match bin_traverse_shared 20 L None (Some (NI 0)) (t, []) with
  | ((_, k), r) => r = Err AttributeError /\ k = [IName (NI 1)] /\
      map (fun h => match h with EHigh x => x | _ => INone end) (t_trace (fst (fst (bin_traverse_shared 20 L None (Some (NI 0)) (t', []))))) = [IName (NI 0); IName (NI 1)] /\
      map (fun h => match h with EHigh x => x | _ => INone end) (t_trace (fst (fst (bin_traverse_shared 20 L None (Some (NI 0)) (t', k))))) = [IName (NI 0); IName (NI 1); IName (NI 1)]
  end.
Proof.
  exists broken, sound. split; [|split; [|vm_compute; auto]].
  - replace (t_g broken) with (history (new_graph (Some Directed) [("layout", VS "dot")]) [OAddNode (NI 0) []; OSetNodeAttr (NI 0) "Lchild" (VI 1); OSetNodeAttr (NI 0) "Rchild" (VI 2)]) by (vm_compute; reflexivity).
    apply (wf_history (wf_new (Some Directed) [("layout", VS "dot")])). discriminate.
  - replace (t_g sound) with (history (new_graph (Some Directed) [("layout", VS "dot")]) [OAddNode (NI 0) [("level", VI 0)]; OSetNodeAttr (NI 0) "Lchild" (VI 1);
      OAddNode (NI 1) [("direction", VS "L"); ("level", VI 1); ("parent", VI 0)]; OAddEdge (NI 0) (NI 1) []]) by (vm_compute; reflexivity).
    apply (wf_history (wf_new (Some Directed) [("layout", VS "dot")])). discriminate.
Qed.
Print Assumptions C67_binary_traverse_refuted.

(* the hypotheses of the theorems above can be met, for traversals by [sound] and by any tree built with the API *)
Example C67_nonvacuous : valid_call (call_on exu) /\ length (get_node_list exu) < 20 /\ (forall q x p, fq_prio q x = Some p -> pq_peek_item q x = Ok p) /\
  bag (fr := pqueue) (fun q => dkeys (proj1_sig q)) /\
  (forall n c v, In n (get_node_list (t_g sound)) -> obs (get_node_attr n (slot c)) (t_g sound) = Ok v -> v = VNone \/ exists m, v = vname m /\ In m (get_node_list (t_g sound))).
Proof.
  destruct C52_nonvacuous as (H1 & H2 & H3 & H4 & H5 & H6 & H7 & _). split; [|split; [vm_compute; repeat constructor|split; [exact H7|split]]].
  - repeat (split; [assumption|]). split; [vm_compute; auto|]. intros _. exact H6.
  - apply pq_bag, pqueue_prioq.
  - intros n c v Hn. vm_compute in Hn. destruct Hn as [<-|[<-|[]]]; destruct c; vm_compute; intros [= <-]; auto; right; exists (NI 1); auto.
Qed.
