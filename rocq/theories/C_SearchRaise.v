(* C53, C54: calls of search that raise. *)
From Verif Require Import Py Util M_Graph M_Search P_Graph Spec P_Walk S_Frontier P_Frontier P_SearchTop P_SearchRaise P_SearchDepth.
Local Open Scope string_scope. Local Open Scope list_scope.

(* y can be reached from x along arcs that exist in both directions *)
Definition two_way (g : graph) (x y : name) : Prop := arc g x y /\ arc g y x.

(** C53: Dijkstra with reverse=True looks up the cost of every arc the wrong way round. It returns or raises KeyError. *)
Theorem C53_reverse_dijkstra : forall (fr : frontier) (els : fq fr -> list name) (g : graph) (component : option Z) (source : name) (q0 : fq fr) (fuel : nat),
  prioq els -> wf g -> g_type g = Directed -> has_costs g false -> In source (get_node_list g) -> els q0 = [] -> enough g fuel ->
  (exists h, search fuel source None component q0 Dijkstra true g = (h, Err KeyError) /\
     exists x n, reach (two_way g) source x /\ arc g n x /\ ~ arc g x n) \/
  (exists h pred, search fuel source None component q0 Dijkstra true g = (h, Ok (RPred pred)) /\
     (forall x, In x (dkeys pred) -> reach (two_way g) source x) /\
     (forall x, reach (fun a b => arc g b a) source x -> reach (two_way g) source x) /\
     (forall n, arc g n source -> arc g source n)).
Proof.
  intros fr els g component source q0 fuel P W Hd Hc Hs Hq Hf.
  destruct (reverse_dijkstra P W Hd Hc component Hs Hq Hf) as [H|[[h H] X]].
  - right. destruct (ok_ex H) as (h & r & E & pred & -> & A & B & C). exists h, pred. split; [exact E|]. split; [exact A|]. split; [exact B|].
    intros n Hn. destruct (eq_dec n source) as [->|Hne]; [exact Hn|]. exact (C n Hn Hne).
  - left. exists h. split; [exact H|]. exact X.
Qed.
Print Assumptions C53_reverse_dijkstra.
(* so it raises whenever an arc enters the source and none goes back, *)
Theorem C53_at_source : forall (fr : frontier) (els : fq fr -> list name) (g : graph) (component : option Z) (source n : name) (q0 : fq fr) (fuel : nat),
  prioq els -> wf g -> g_type g = Directed -> has_costs g false -> In source (get_node_list g) -> els q0 = [] -> enough g fuel ->
  arc g n source -> ~ arc g source n ->
  exists h, search fuel source None component q0 Dijkstra true g = (h, Err KeyError).
Proof.
  intros fr els g component source n q0 fuel P W Hd Hc Hs Hq Hf Hn Hno.
  destruct (C53_reverse_dijkstra fr els g component source q0 fuel P W Hd Hc Hs Hq Hf) as [(h & E & _)|(h & pred & _ & _ & _ & C)]; [eauto|].
  exfalso. apply Hno, C, Hn.
Qed.
Print Assumptions C53_at_source.
(* or a node from which source can be reached is only reached by going against an arc that has no opposite *)
Theorem C53_one_way : forall (fr : frontier) (els : fq fr -> list name) (g : graph) (component : option Z) (source x : name) (q0 : fq fr) (fuel : nat),
  prioq els -> wf g -> g_type g = Directed -> has_costs g false -> In source (get_node_list g) -> els q0 = [] -> enough g fuel ->
  reach (fun a b => arc g b a) source x -> ~ reach (two_way g) source x ->
  exists h, search fuel source None component q0 Dijkstra true g = (h, Err KeyError).
Proof.
  intros fr els g component source x q0 fuel P W Hd Hc Hs Hq Hf Hx Hno.
  destruct (C53_reverse_dijkstra fr els g component source q0 fuel P W Hd Hc Hs Hq Hf) as [(h & E & _)|(h & pred & _ & _ & C & _)]; [eauto|].
  exfalso. apply Hno, C, Hx.
Qed.
Print Assumptions C53_one_way.

(** C54: depth-first search with a priority queue. It returns or raises TypeError. *)
Theorem C54_dfs_priority_queue : forall (fr : frontier) (els : fq fr -> list name) (g : graph) (rev : bool) (component : option Z) (source : name) (q0 : fq fr) (fuel : nat),
  prioq els -> wf g -> In source (get_node_list g) -> els q0 = [] -> enough g fuel ->
  (exists h, search fuel source None component q0 DFS rev g = (h, Err TypeError) /\
     exists c x, sarc g rev source c /\ c <> source /\ sarc g rev c x /\ x <> source) \/
  (exists h pred, search fuel source None component q0 DFS rev g = (h, Ok (RPred pred)) /\
     (forall n, n <> source -> In n (dkeys pred) <-> sarc g rev source n) /\ (forall n, In n (dkeys pred) -> dget pred n = Some source) /\
     (forall c x, sarc g rev source c -> c <> source -> sarc g rev c x -> x = source \/ sarc g rev source x)).
Proof.
  intros fr els g rev component source q0 fuel P W Hs Hq Hf. destruct (dfs_pq P W rev component Hs Hq Hf) as [H|[[h H] X]].
  - right. destruct (ok_ex H) as (h & r & E & pred & -> & A & B & C). exists h, pred. auto.
  - left. exists h. split; [exact H|]. exact X.
Qed.
Print Assumptions C54_dfs_priority_queue.
(* so it raises whenever some node is two arcs away from the source *)
Theorem C54_depth_two : forall (fr : frontier) (els : fq fr -> list name) (g : graph) (rev : bool) (component : option Z) (source x : name) (q0 : fq fr) (fuel : nat),
  prioq els -> wf g -> In source (get_node_list g) -> els q0 = [] -> enough g fuel -> hops (sarc g rev) source x 2 ->
  exists h, search fuel source None component q0 DFS rev g = (h, Err TypeError).
Proof.
  intros fr els g rev component source x q0 fuel P W Hs Hq Hf Hx.
  destruct (C54_dfs_priority_queue fr els g rev component source q0 fuel P W Hs Hq Hf) as [(h & E & _)|(h & pred & _ & _ & _ & C)]; [eauto|]. exfalso.
  destruct Hx as [(p & Hw & Hl) Hmin]. inversion Hw as [a E1 E2|a c p' b Hac Hcb]; subst; [discriminate|].
  inversion Hcb as [a E1 E2|a y p'' b Hcy Hyb]; subst; [discriminate|]. inversion Hyb as [a E1 E2|a z p3 b Hyz Hzb]; subst; [|destruct (walk_hd Hzb) as [t ->]; discriminate].
  assert (S1 : sarc g rev source x -> False) by (intros H; specialize (Hmin [source; x] (walk_step H (walk_one _ _))); simpl in Hmin; lia).
  destruct (C c x Hac) as [->|H]; [intros ->; apply S1; exact Hcy|exact Hcy| |exact (S1 H)].
  specialize (Hmin [source] (walk_one _ _)). simpl in Hmin. lia.
Qed.
Print Assumptions C54_depth_two.

(* a complete case of each kind *)
Definition empty_pq : fq pqueue := exist _ [] (NoDup_nil name).
Definition both_ways : graph := history (new_graph (Some Directed) [])
  [OAddEdge (NI 1) (NI 2) [("cost", VI 1)]; OAddEdge (NI 2) (NI 1) [("cost", VI 5)]; OAddEdge (NI 3) (NI 2) [("cost", VI 2)]].
Lemma both_ways_costs : has_costs both_ways false.
Proof.
  intros x y H. unfold sarc, arc in H. change (g_type both_ways) with Directed in H. cbv iota in H.
  assert (Hi : In (x, y) (get_edge_list both_ways)) by (apply dmem_In; exact H). vm_compute in Hi.
  repeat (destruct Hi as [[= <- <-]|Hi]; [eexists; vm_compute; reflexivity|]). destruct Hi.
Qed.
Example C53_nonvacuous : wf both_ways /\ has_costs both_ways false /\ enough both_ways 20 /\ prioq (fr := pqueue) (fun q => dkeys (proj1_sig q)) /\
  (* 3 -> 2 has no opposite *)
  obs (search 20 (NI 1) None None empty_pq Dijkstra true) both_ways = Err KeyError /\ arc both_ways (NI 3) (NI 2) /\ ~ arc both_ways (NI 2) (NI 3) /\
  reach (two_way both_ways) (NI 1) (NI 2) /\
  (* nothing enters 3; 3 -> 2 enters 2 *)
  obs (search 20 (NI 3) None None empty_pq Dijkstra true) both_ways = Ok (RPred []) /\
  obs (search 20 (NI 2) None None empty_pq Dijkstra true) both_ways = Err KeyError.
Proof.
  split; [refine (proj1 (wf_history (wf_new (Some Directed) []) _)); discriminate|]. split; [apply both_ways_costs|]. split; [vm_compute; lia|]. split; [apply pqueue_prioq|].
  split; [vm_compute; reflexivity|]. split; [vm_compute; reflexivity|]. split; [vm_compute; discriminate|].
  split; [exists [NI 1; NI 2]; apply walk_step with (b := NI 2); [split; vm_compute; reflexivity|apply walk_one]|]. split; vm_compute; reflexivity.
Qed.
Example C54_nonvacuous : enough both_ways 20 /\ hops (sarc both_ways false) (NI 3) (NI 1) 2 /\
  obs (search 20 (NI 3) None None empty_pq DFS false) both_ways = Err TypeError /\
  obs (search 20 (NI 1) None None empty_pq DFS false) both_ways = Ok (RPred [(NI 2, NI 1)]).
Proof.
  split; [vm_compute; lia|]. split; [|split; vm_compute; reflexivity].
  assert (A : forall y, sarc both_ways false (NI 3) y -> y = NI 2).
  { intros y H. unfold sarc, arc in H. change (g_type both_ways) with Directed in H. cbv iota in H.
    assert (Hi : In (NI 3, y) (get_edge_list both_ways)) by (apply dmem_In; exact H). vm_compute in Hi. intuition congruence. }
  split.
  - exists [NI 3; NI 2; NI 1]. split; [|reflexivity]. apply walk_step with (b := NI 2); [vm_compute; reflexivity|]. apply walk_step with (b := NI 1); [vm_compute; reflexivity|apply walk_one].
  - intros p H. inversion H as [|a c p' b Hac Hcb]; subst. apply A in Hac. subst c. inversion Hcb as [|a y p'' b Hcy Hyb]; subst. destruct (walk_hd Hyb) as [t ->]. simpl. lia.
Qed.
