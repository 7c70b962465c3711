(* Property theorem C52: Graph.minimum_spanning_tree_prim.
   [minimum_spanning_tree_prim peek_item fuel source display q0 g] runs the modelled method in state g
   with the priority queue [q0]; [peek_item q n] is what peek(n)[0] gives for that queue, assumed to be
   the priority of an item held. [prioq els] are the priority queue laws of S_Frontier.v. *)
From Verif Require Import Py Util M_Graph M_Search M_Dfs M_Prim P_Graph Spec P_Walk S_Span S_Frontier P_Frontier P_Attr P_PrimMethod C_Search.
Local Open Scope string_scope. Local Open Scope list_scope.

(** C52: a minimum spanning tree of the component of the source *)
Theorem C52_prim_method_mst : forall (fr : frontier) (els : fq fr -> list name) (peek_item : fq fr -> name -> res Z) (g : graph)
    (source : name) (display : option val) (q0 : fq fr) (fuel : nat),
  prioq els -> (forall q x p, fq_prio q x = Some p -> peek_item q x = Ok p) ->
  wf g -> g_type g = Undirected -> has_costs g false -> (forall x, ~ arc g x x) ->
  (forall x, In x (get_node_list g) -> obs (get_node_attr x "color") g <> Ok (VS "green")) ->
  In source (get_node_list g) -> els q0 = [] -> (display = None -> dget (g_attr g) "display" <> None) -> length (get_node_list g) < fuel ->
  exists h pred, minimum_spanning_tree_prim peek_item fuel source display q0 g = (h, Ok pred) /\
    forall Es, component_edges g source Es ->
      min_spanning_forest (fun e => edge_cost g (fst e) (snd e)) Es (pred_edges g pred) /\
      ((forall e, In e Es -> 0 <= edge_cost g (fst e) (snd e))%Z ->
         min_connecting (fun e => edge_cost g (fst e) (snd e)) Es (pred_edges g pred)) /\
      (forall x, In x (dkeys pred) <-> x <> source /\ reach (arc g) source x).
Proof.
  intros fr els pk g s d q0 fuel Hp Hk W Hu Hc Hl Hg Hs Hq Hd Hf.
  assert (Hg' : forall x, In x (get_node_list g) -> nattr g x "color" <> VS "green").
  { intros x Hx H. apply (Hg x Hx). rewrite obs_nattr, H; [reflexivity|]. apply (in_nodes W). assumption. }
  exact (prim_method_mst Hp Hk W Hu Hc Hl Hs Hq Hg' Hd Hf).
Qed.
Print Assumptions C52_prim_method_mst.

(* a second call in the resulting state returns the empty dictionary *)
Theorem C52_second_call_empty : forall (fr : frontier) (els : fq fr -> list name) (peek_item : fq fr -> name -> res Z) (g : graph)
    (source : name) (display : option val) (q0 : fq fr) (fuel : nat),
  prioq els -> (forall q x p, fq_prio q x = Some p -> peek_item q x = Ok p) ->
  wf g -> g_type g = Undirected -> has_costs g false -> (forall x, ~ arc g x x) ->
  (forall x, In x (get_node_list g) -> obs (get_node_attr x "color") g <> Ok (VS "green")) ->
  In source (get_node_list g) -> els q0 = [] -> (display = None -> dget (g_attr g) "display" <> None) -> length (get_node_list g) < fuel ->
  exists h pred, minimum_spanning_tree_prim peek_item fuel source display q0 g = (h, Ok pred) /\
    forall display' fuel', (display' = None -> dget (g_attr g) "display" <> None) -> 2 <= fuel' ->
      obs (minimum_spanning_tree_prim peek_item fuel' source display' q0) h = Ok [].
Proof.
  intros fr els pk g s d q0 fuel Hp Hk W Hu Hc Hl Hg Hs Hq Hd Hf.
  assert (Hg' : forall x, In x (get_node_list g) -> nattr g x "color" <> VS "green").
  { intros x Hx H. apply (Hg x Hx). rewrite obs_nattr, H; [reflexivity|]. apply (in_nodes W). assumption. }
  destruct (prim_twice Hp Hk W Hu Hc Hl Hs Hq Hg' Hd Hf) as (h & pred & Hr & H). exists h, pred. split; [assumption|].
  intros d' f' Hd' Hf'. destruct (H d' f' Hd' Hf') as [k Hk']. unfold obs. rewrite Hk'. reflexivity.
Qed.
Print Assumptions C52_second_call_empty.

(* without the condition on colours the dictionary need not reach every node of the component: after
   search() has run, the method returns an empty dictionary although the source has neighbours *)
Definition pq_peek_item (q : fq pqueue) (x : name) : res Z := match fq_prio q x with Some p => Ok p | None => Err KeyError end.
Theorem C52_after_search_refuted : exists (g h : graph) (pred : dict name name) (source : name),
  wf g /\ g_type g = Undirected /\ has_costs g false /\ (forall x, ~ arc g x x) /\ In source (get_node_list g) /\
  search 20 source None None ([] : fq queue) BFS false g = (h, Ok (RPred pred)) /\ length pred = 3 /\
  obs (minimum_spanning_tree_prim pq_peek_item 20 source None empty_pq) h = Ok [].
Proof.
  do 2 eexists. eexists. exists (NI 1). split; [exact exu_wf|]. split; [reflexivity|].
  destruct C17_nonvacuous as (H1 & H2 & _). split; [exact H1|]. split; [exact H2|]. split; [vm_compute; auto|].
  split; [vm_compute; reflexivity|]. split; vm_compute; reflexivity.
Qed.
Print Assumptions C52_after_search_refuted.

(* a queue that is no PriorityQueue is rejected, after the display mode was set *)
Theorem C52_other_queue_raises : forall (fr : frontier) (peek_item : fq fr -> name -> res Z) (g : graph) (source : name) (display : option val) (q0 : fq fr) (fuel : nat),
  fq_is_pq fr = false -> (display = None -> dget (g_attr g) "display" <> None) ->
  obs (minimum_spanning_tree_prim peek_item fuel source display q0) g = Err NameError.
Proof.
  intros fr pk g s d q0 fuel Hp Hd. unfold obs, minimum_spanning_tree_prim, enter_display. rewrite Hp. destruct d as [v|]; [reflexivity|].
  unfold bind, gets, lift. destruct (dget (g_attr g) "display"); [reflexivity|]. destruct (Hd eq_refl eq_refl).
Qed.
Print Assumptions C52_other_queue_raises.

Example C52_nonvacuous :
  wf exu /\ g_type exu = Undirected /\ has_costs exu false /\ (forall x, ~ arc exu x x) /\
  (forall x, In x (get_node_list exu) -> obs (get_node_attr x "color") exu <> Ok (VS "green")) /\
  dget (g_attr exu) "display" <> None /\
  (forall q x p, fq_prio q x = Some p -> pq_peek_item q x = Ok p) /\
  obs (minimum_spanning_tree_prim pq_peek_item 20 (NI 1) None empty_pq) exu = Ok [(NI 2, NI 1); (NI 3, NI 2); (NI 4, NI 3)] /\
  (exists Es, component_edges exu (NI 1) Es).
Proof.
  destruct C17_nonvacuous as (H1 & H2 & _ & H4).
  split; [exact exu_wf|]. split; [reflexivity|]. split; [exact H1|]. split; [exact H2|]. split.
  { intros x Hx. vm_compute in Hx. repeat (destruct Hx as [<-|Hx]; [vm_compute; discriminate|]). destruct Hx. }
  split; [vm_compute; discriminate|]. split; [intros q x p Hq; unfold pq_peek_item; rewrite Hq; reflexivity|].
  split; [vm_compute; reflexivity|]. eauto.
Qed.
