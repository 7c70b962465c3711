(* Property theorems C11-C19, C40, C53, C54: Graph.search and the methods built on it.
   [search fuel source dest component q0 al rev g] runs the modelled search in state g; [fuel] bounds
   its while loops and [enough g fuel] says it is at least #nodes + 2 #edges + 2, so every theorem
   below also says that the loops end. The frontier [fr] is any container satisfying the laws of
   S_Frontier.v ([bag]: items are held until removed; [fifo]; [prioq]); [els q0 = []] is an empty one. *)
From Verif Require Import Py Util M_Graph M_Metrics M_Search P_Graph P_Metrics Spec P_Walk S_Span S_Frontier P_Frontier P_Attr P_SearchAbs P_Search P_SearchTop
  P_SearchThm P_SearchMore P_SearchFrame P_SearchBad P_Depth.
Local Open Scope string_scope. Local Open Scope list_scope.

(** C11: exactly the reachable nodes are found, with any frontier *)
Theorem C11_search_reachable : forall (fr : frontier) (els : fq fr -> list name) (al : algo) (g : graph) (rev : bool)
    (component : option Z) (source : name) (q0 : fq fr) (fuel : nat),
  bag els -> al <> OtherAlgo ->
  fq_is_pq fr = is_pq_algo al -> (is_pq_algo al = true -> prioq els /\ has_costs g rev) ->
  wf g -> In source (get_node_list g) -> els q0 = [] -> enough g fuel ->
  exists h pred,
    search fuel source None component q0 al rev g = (h, Ok (RPred pred)) /\
    (forall n, n = source \/ In n (dkeys pred) <-> reach (sarc g rev) source n) /\
    (forall n p, dget pred n = Some p -> sarc g rev p n).
Proof.
  intros fr els al g rev component source q0 fuel Hb Ha Hp Hc W Hs Hq Hf.
  exact (search_reach Hb Ha Hp (fun H => proj1 (Hc H)) W (fun H => proj2 (Hc H)) component Hs Hq Hf).
Qed.
Print Assumptions C11_search_reachable.

(* the example graphs: 1 -> 2 -> 3 -> 1, 1 -> 3, 4 -> 1 with costs, and an undirected one *)
Definition exd : graph := history (new_graph (Some Directed) [])
  [OAddEdge (NI 1) (NI 2) [("cost", VI 1)]; OAddEdge (NI 2) (NI 3) [("cost", VI 1)]; OAddEdge (NI 3) (NI 1) [("cost", VI 4)];
   OAddEdge (NI 1) (NI 3) [("cost", VI 5)]; OAddEdge (NI 4) (NI 1) [("cost", VI 2)]].
Definition exu : graph := history (new_graph (Some Undirected) [])
  [OAddEdge (NI 1) (NI 2) [("cost", VI 1)]; OAddEdge (NI 2) (NI 3) [("cost", VI 1)]; OAddEdge (NI 3) (NI 1) [("cost", VI 4)];
   OAddEdge (NI 3) (NI 4) [("cost", VI (-2))]; OAddEdge (NI 5) (NI 6) [("cost", VI 2)]].
Definition empty_pq : fq pqueue := exist _ [] (NoDup_nil name).
Lemma exd_wf : wf exd.
Proof. refine (proj1 (wf_history (wf_new (Some Directed) []) _)). discriminate. Qed.
Lemma exu_wf : wf exu.
Proof. refine (proj1 (wf_history (wf_new (Some Undirected) []) _)). reflexivity. Qed.
Example C11_nonvacuous :
  (exists pred, obs (search 20 (NI 1) None None ([] : fq stack) DFS false) exd = Ok (RPred pred) /\ dkeys pred = [NI 2; NI 3]) /\
  (exists pred, obs (search 20 (NI 1) None None ([] : fq stack) DFS true) exd = Ok (RPred pred) /\ dkeys pred = [NI 3; NI 4; NI 2]) /\
  obs (search 20 (NI 1) None None empty_pq Dijkstra false) exd = Ok (RPred [(NI 2, NI 1); (NI 3, NI 2)]) /\
  enough exd 20 /\ In (NI 1) (get_node_list exd) /\ bag (fr := stack) (fun q => q).
Proof.
  split; [eexists; split; vm_compute; reflexivity|]. split; [eexists; split; vm_compute; reflexivity|].
  split; [vm_compute; reflexivity|]. split; [vm_compute; lia|]. split; [vm_compute; auto|apply stack_bag].
Qed.

(** C12: a path, or None *)
Theorem C12_search_path : forall (fr : frontier) (els : fq fr -> list name) (al : algo) (g : graph) (rev : bool)
    (component : option Z) (source d : name) (q0 : fq fr) (fuel : nat),
  bag els -> al <> OtherAlgo ->
  fq_is_pq fr = is_pq_algo al -> (is_pq_algo al = true -> prioq els /\ has_costs g rev) ->
  wf g -> In source (get_node_list g) -> els q0 = [] -> enough g fuel -> loops_ok al g rev source ->
  exists h,
    (exists l, search fuel source (Some d) component q0 al rev g = (h, Ok (RPath l)) /\ walk (sarc g rev) source l d /\ NoDup l) \/
    (search fuel source (Some d) component q0 al rev g = (h, Ok RNone) /\ ~ reach (sarc g rev) source d).
Proof.
  intros fr els al g rev component source d q0 fuel Hb Ha Hp Hc W Hs Hq Hf HL.
  exact (search_path Hb Ha Hp (fun H => proj1 (Hc H)) W (fun H => proj2 (Hc H)) component Hs Hq Hf d HL).
Qed.
Print Assumptions C12_search_path.
Example C12_nonvacuous :
  obs (search 20 (NI 4) (Some (NI 3)) None ([] : fq stack) DFS false) exd = Ok (RPath [NI 4; NI 1; NI 3]) /\
  obs (search 20 (NI 1) (Some (NI 4)) None ([] : fq stack) DFS false) exd = Ok RNone /\
  loops_ok DFS exd false (NI 4).
Proof.
  split; [vm_compute; reflexivity|]. split; [vm_compute; reflexivity|].
  intros x _ Hx. apply (check_edge_nodes exd_wf) in Hx as Hn. unfold arc in Hx. destruct Hn as [Hn _]. vm_compute in Hn.
  repeat (destruct Hn as [<-|Hn]; [vm_compute in Hx; discriminate Hx|]). destruct Hn.
Qed.
(* without the restriction on self-loops: s -> a -> d with a self-loop at a *)
Theorem C12_selfloop_refuted : exists g s d,
  wf g /\ reach (arc g) s d /\ forall fuel, obs (search fuel s (Some d) None ([] : fq stack) DFS false) g = Err OutOfFuel.
Proof.
  exists loop_graph, (NS "s"), (NS "d"). split; [|split; [|exact loop_diverges]].
  - refine (proj1 (wf_history (wf_new (Some Directed) []) _)). discriminate.
  - exists [NS "s"; NS "a"; NS "d"]. apply walk_step with (b := NS "a"); [vm_compute; reflexivity|]. apply walk_step with (b := NS "d"); [vm_compute; reflexivity|apply walk_one].
Qed.
Print Assumptions C12_selfloop_refuted.

(** C13: BFS paths are shortest *)
Theorem C13_bfs_shortest : forall (fr : frontier) (els : fq fr -> list name) (al : algo) (g : graph) (rev : bool)
    (component : option Z) (source d : name) (q0 : fq fr) (fuel : nat),
  fifo els -> fq_is_pq fr = false -> is_bfs al = true ->
  wf g -> In source (get_node_list g) -> els q0 = [] -> enough g fuel ->
  exists h,
    (exists l, search fuel source (Some d) component q0 al rev g = (h, Ok (RPath l)) /\
       walk (sarc g rev) source l d /\ forall p, walk (sarc g rev) source p d -> length l <= length p) \/
    (search fuel source (Some d) component q0 al rev g = (h, Ok RNone) /\ ~ reach (sarc g rev) source d).
Proof. intros fr els al g rev component source d q0 fuel Hb Hn Hbf W Hs Hq Hf. exact (bfs_path Hb Hn Hbf W rev component Hs Hq Hf d). Qed.
Print Assumptions C13_bfs_shortest.
Example C13_nonvacuous : fifo (fr := queue) (fun q => q) /\
  obs (search 20 (NI 2) (Some (NI 4)) None ([] : fq queue) BFS false) exu = Ok (RPath [NI 2; NI 3; NI 4]) /\
  obs (search 20 (NI 2) (Some (NI 5)) None ([] : fq queue) BFS false) exu = Ok RNone.
Proof. split; [apply queue_fifo|]. split; vm_compute; reflexivity. Qed.

(** C14: BFS distances *)
Theorem C14_bfs_distance : forall (fr : frontier) (els : fq fr -> list name) (al : algo) (g : graph) (rev : bool)
    (component : option Z) (source : name) (q0 : fq fr) (fuel : nat),
  fifo els -> fq_is_pq fr = false -> is_bfs al = true ->
  wf g -> In source (get_node_list g) -> els q0 = [] -> enough g fuel ->
  exists h pred, search fuel source None component q0 al rev g = (h, Ok (RPred pred)) /\
    forall n, In n (get_node_list g) ->
      (reach (sarc g rev) source n ->
         exists k, hops (sarc g rev) source n k /\ obs (get_node_attr n "distance") h = Ok (VI (Z.of_nat k))) /\
      (~ reach (sarc g rev) source n -> obs (get_node_attr n "distance") h = Ok VNone).
Proof. intros fr els al g rev component source q0 fuel Hb Hn Hbf W Hs Hq Hf. exact (bfs_dist Hb Hn Hbf W rev component Hs Hq Hf). Qed.
Print Assumptions C14_bfs_distance.
Example C14_nonvacuous :
  let h := fst (search 20 (NI 1) None None ([] : fq queue) BFS false exd) in
  map (fun n => obs (get_node_attr n "distance") h) [NI 1; NI 2; NI 3; NI 4] = [Ok (VI 0); Ok (VI 1); Ok (VI 1); Ok VNone].
Proof. vm_compute. reflexivity. Qed.

(** C15: bfs() visits the reachable nodes, but its distances are not hop distances *)
Theorem C15_bfs_visits : forall (fr : frontier) (els : fq fr -> list name) (g : graph) (component : option Z) (root : name) (q0 : fq fr) (fuel : nat),
  bag els -> fq_is_pq fr = false -> wf g -> In root (get_node_list g) -> els q0 = [] -> enough g fuel ->
  exists h, bfs fuel root component q0 g = (h, Ok tt) /\
    forall n, In n (get_node_list g) ->
      (obs (get_node_attr n "distance") h <> Ok VNone <-> reach (arc g) root n) /\
      (obs (get_node_attr n "color") h = Ok (VS "green") <-> reach (arc g) root n).
Proof. intros fr els g component root q0 fuel Hb Hn W Hs Hq Hf. exact (bfs_marks Hb Hn Hq component W Hs Hf). Qed.
Print Assumptions C15_bfs_visits.
Definition bfs_bad : graph := history (new_graph (Some Directed) []) [OAddEdge (NS "s") (NS "a") []; OAddEdge (NS "s") (NS "b") []; OAddEdge (NS "a") (NS "b") []].
(* a node that is not reached keeps the distance None and stays black *)
Example C15_nonvacuous : let g := history bfs_bad [OAddEdge (NS "c") (NS "s") []] in wf g /\ In (NS "s") (get_node_list g) /\ enough g 30 /\
  map (fun n => obs (get_node_attr n "color") (fst (bfs 30 (NS "s") None ([] : fq queue) g))) [NS "s"; NS "a"; NS "b"; NS "c"] = [Ok (VS "green"); Ok (VS "green"); Ok (VS "green"); Ok (VS "black")] /\
  obs (get_node_attr (NS "c") "distance") (fst (bfs 30 (NS "s") None ([] : fq queue) g)) = Ok VNone.
Proof.
  split; [apply (wf_history (g := bfs_bad)); [refine (proj1 (wf_history (wf_new (Some Directed) []) _)); discriminate|discriminate]|]. split; [vm_compute; auto|]. split; [vm_compute; lia|]. split; vm_compute; reflexivity.
Qed.
Theorem C15_bfs_distance_refuted : exists g root n k, wf g /\ hops (arc g) root n k /\
  forall fuel, enough g fuel -> exists h, bfs fuel root None ([] : fq queue) g = (h, Ok tt) /\ obs (get_node_attr n "distance") h <> Ok (VI (Z.of_nat k)).
Proof.
  exists bfs_bad, (NS "s"), (NS "b"), 1. split; [|split].
  - refine (proj1 (wf_history (wf_new (Some Directed) []) _)). discriminate.
  - split.
    + exists [NS "s"; NS "b"]. split; [|reflexivity]. apply walk_step with (b := NS "b"); [vm_compute; reflexivity|apply walk_one].
    + intros p Hp. inversion Hp; subst. match goal with H : walk _ _ _ _ |- _ => inversion H; subst; simpl; lia end.
  - intros fuel Hf. vm_compute in Hf. replace fuel with (9 + (fuel - 9)) by lia. generalize (fuel - 9) as j. intros j.
    eexists. split; [unfold bfs; erewrite bind_ok; [reflexivity|]|].
    + unfold search. do 5 (erewrite bind_ok by (vm_compute; reflexivity)).
      destruct (eqb _ _) eqn:He; [discriminate|]. clear He.
      erewrite bind_ok; [|apply loop_mono; [vm_compute; reflexivity|discriminate]]. cbv iota beta. reflexivity.
    + vm_compute. discriminate.
Qed.
Print Assumptions C15_bfs_distance_refuted.

(* What the labels do mean: without edges from a node to itself, every reached node is the end of a
   simple path from the root on which the labels are 0, 1, 2, ... So a label is the length of some
   path from the root, never less than the distance. *)
Theorem C15_bfs_depth : forall (fr : frontier) (els : fq fr -> list name) (g : graph) (component : option Z) (root : name) (q0 : fq fr) (fuel : nat),
  bag els -> fq_is_pq fr = false -> wf g -> (forall x, ~ arc g x x) -> In root (get_node_list g) -> els q0 = [] -> enough g fuel ->
  exists h, bfs fuel root component q0 g = (h, Ok tt) /\
    forall n, reach (arc g) root n ->
      (exists l, walk (arc g) root l n /\ NoDup l /\
         forall i x, nth_error l i = Some x -> obs (get_node_attr x "distance") h = Ok (VI (Z.of_nat i))) /\
      (forall k, hops (arc g) root n k -> exists d, obs (get_node_attr n "distance") h = Ok (VI d) /\ (Z.of_nat k <= d < Z.of_nat (length (get_node_list g)))%Z).
Proof.
  intros fr els g component root q0 fuel Hb Hn W HL Hs Hq Hf. destruct (bfs_depth Hb Hn Hq component W HL Hs Hf) as (h & Hr & H).
  exists h. split; [assumption|]. intros n Hrn. split; [apply H; assumption|]. intros k [_ Hk].
  destruct (H n Hrn) as (l & Hw & Hnd & Hi). assert (Hne : l <> []) by (intros ->; inversion Hw).
  assert (Hlast : nth_error l (length l - 1) = Some n).
  { clear - Hw. induction Hw as [a|a b l c Hab Hw IH]; [reflexivity|]. simpl. rewrite Nat.sub_0_r. destruct l as [|x l]; [inversion Hw|].
    simpl in *. rewrite Nat.sub_0_r in IH. exact IH. }
  exists (Z.of_nat (length l - 1)). split; [apply Hi; assumption|].
  assert (Hin : incl l (get_node_list g)).
  { clear - Hw W Hs. induction Hw as [a|a b l c Hab Hw IH]; intros x; [intros [<-|[]]; assumption|].
    intros [<-|Hx]; [assumption|]. apply IH; [|assumption]. apply (check_edge_nodes W) in Hab. unfold get_node_list; tauto. }
  pose proof (NoDup_incl_length Hnd Hin). specialize (Hk l Hw). destruct l; [congruence|]. simpl in *. lia.
Qed.
Print Assumptions C15_bfs_depth.
(* the same for search() with the depth-first edge rule, in either direction, with the dictionary it returns *)
Theorem C15_dfs_depth : forall (fr : frontier) (els : fq fr -> list name) (g : graph) (rev : bool) (component : option Z) (source : name) (q0 : fq fr) (fuel : nat),
  bag els -> fq_is_pq fr = false -> wf g -> (forall x, ~ arc g x x) -> In source (get_node_list g) -> els q0 = [] -> enough g fuel ->
  exists h pred, search fuel source None component q0 DFS rev g = (h, Ok (RPred pred)) /\
    obs (get_node_attr source "distance") h = Ok (VI 0) /\
    (forall n p, dget pred n = Some p -> exists d, obs (get_node_attr p "distance") h = Ok (VI d) /\ obs (get_node_attr n "distance") h = Ok (VI (d + 1))).
Proof.
  intros fr els g rev component source q0 fuel Hb Hn W HL Hs Hq Hf.
  destruct (dfs_depth Hb Hn Hq rev component W HL Hs Hf) as (h & pred & Hr & _ & H0 & H1 & _). exists h, pred. auto.
Qed.
Print Assumptions C15_dfs_depth.
(* both hypotheses on a graph with a cycle; node b, one step from s, is labelled 2 *)
Example C15_depth_nonvacuous : let g := history bfs_bad [OAddEdge (NS "b") (NS "s") []] in wf g /\ forallb (fun x => negb (check_edge g x x)) (get_node_list g) = true /\ enough g 30 /\
  map (fun n => obs (get_node_attr n "distance") (fst (bfs 30 (NS "s") None ([] : fq queue) g))) [NS "s"; NS "a"; NS "b"] = [Ok (VI 0); Ok (VI 1); Ok (VI 2)].
Proof.
  split; [refine (proj1 (wf_history (proj1 (wf_history (wf_new (Some Directed) []) _)) _)); discriminate|].
  repeat split; vm_compute; try reflexivity; lia.
Qed.

(** C16: Dijkstra *)
Theorem C16_dijkstra_tree : forall (fr : frontier) (els : fq fr -> list name) (g : graph) (rev : bool)
    (component : option Z) (source : name) (q0 : fq fr) (fuel : nat),
  prioq els -> wf g -> nonneg_costs g rev -> In source (get_node_list g) -> ~ arc g source source -> els q0 = [] -> enough g fuel ->
  exists h pred, search fuel source None component q0 Dijkstra rev g = (h, Ok (RPred pred)) /\
    forall n, reach (sarc g rev) source n ->
      exists z, least_cost (sarc g rev) (edge_cost g) source n z /\
        obs (get_node_attr n "priority") h = Ok (VI z) /\
        (exists l, walk (pred_arc pred) source l n) /\
        (forall l, walk (pred_arc pred) source l n -> walk (sarc g rev) source l n /\ wcost (edge_cost g) l = z).
Proof. intros fr els g rev component source q0 fuel Hp W Hc Hs Hl Hq Hf. exact (dij_all Hp W Hc component Hs Hl Hq Hf). Qed.
Print Assumptions C16_dijkstra_tree.
Theorem C16_dijkstra_path : forall (fr : frontier) (els : fq fr -> list name) (g : graph) (rev : bool)
    (component : option Z) (source d : name) (q0 : fq fr) (fuel : nat),
  prioq els -> wf g -> nonneg_costs g rev -> In source (get_node_list g) -> ~ arc g source source -> els q0 = [] -> enough g fuel ->
  exists h,
    (exists l, search fuel source (Some d) component q0 Dijkstra rev g = (h, Ok (RPath l)) /\ walk (sarc g rev) source l d /\
        forall p, walk (sarc g rev) source p d -> (wcost (edge_cost g) l <= wcost (edge_cost g) p)%Z) \/
    (search fuel source (Some d) component q0 Dijkstra rev g = (h, Ok RNone) /\ ~ reach (sarc g rev) source d).
Proof. intros fr els g rev component source d q0 fuel Hp W Hc Hs Hl Hq Hf. exact (dij_path Hp W Hc component Hs Hl Hq Hf d). Qed.
Print Assumptions C16_dijkstra_path.
Lemma exd_costs : nonneg_costs exd false.
Proof.
  intros x y H. unfold sarc, arc in H. change (g_type exd) with Directed in H. cbv iota in H.
  assert (Hi : In (x, y) (get_edge_list exd)) by (apply dmem_In; exact H). vm_compute in Hi.
  repeat (destruct Hi as [[= <- <-]|Hi]; [eexists; split; [vm_compute; reflexivity|lia]|]). destruct Hi.
Qed.
Example C16_nonvacuous :
  obs (search 20 (NI 1) (Some (NI 3)) None empty_pq Dijkstra false) exd = Ok (RPath [NI 1; NI 2; NI 3]) /\
  (let h := fst (search 20 (NI 4) None None empty_pq Dijkstra false exd) in map (fun n => obs (get_node_attr n "priority") h) [NI 1; NI 2; NI 3] = [Ok (VI 2); Ok (VI 3); Ok (VI 4)]) /\
  nonneg_costs exd false /\ ~ arc exd (NI 1) (NI 1) /\ prioq (fr := pqueue) (fun q => dkeys (proj1_sig q)).
Proof. repeat split; try (eexists; vm_compute; reflexivity); try (vm_compute; reflexivity); [apply exd_costs|vm_compute; discriminate|apply pqueue_prioq..]. Qed.
(* a self-loop at the source *)
Definition dij_bad : graph := history (new_graph (Some Directed) []) [OAddEdge (NS "s") (NS "s") [("cost", VI 1)]; OAddEdge (NS "s") (NS "a") [("cost", VI 1)]].
Theorem C16_selfloop_refuted : exists g s n z, wf g /\ nonneg_costs g false /\ least_cost (arc g) (edge_cost g) s n z /\
  exists h pred, search 10 s None None empty_pq Dijkstra false g = (h, Ok (RPred pred)) /\ enough g 10 /\ obs (get_node_attr n "priority") h <> Ok (VI z).
Proof.
  exists dij_bad, (NS "s"), (NS "a"), 1%Z. split; [|split; [|split]].
  - refine (proj1 (wf_history (wf_new (Some Directed) []) _)). discriminate.
  - intros x y H. unfold sarc, arc in H. change (g_type dij_bad) with Directed in H. cbv iota in H.
    assert (Hi : In (x, y) (get_edge_list dij_bad)) by (apply dmem_In; exact H). vm_compute in Hi.
    repeat (destruct Hi as [[= <- <-]|Hi]; [eexists; split; [vm_compute; reflexivity|lia]|]). destruct Hi.
  - split.
    + exists [NS "s"; NS "a"]. split; [|vm_compute; reflexivity]. apply walk_step with (b := NS "a"); [vm_compute; reflexivity|apply walk_one].
    + assert (He : forall x y, arc dij_bad x y -> x = NS "s" /\ edge_cost dij_bad x y = 1%Z).
      { intros x y H. assert (Hi : In (x, y) (get_edge_list dij_bad)) by (apply dmem_In; exact H). vm_compute in Hi.
        repeat (destruct Hi as [[= <- <-]|Hi]; [split; vm_compute; reflexivity|]). destruct Hi. }
      assert (H0 : forall x p y, walk (arc dij_bad) x p y -> (0 <= wcost (edge_cost dij_bad) p)%Z).
      { intros x p y. apply wcost_nonneg. intros a b Hab. apply He in Hab as [_ ->]. lia. }
      intros p Hp. inversion Hp as [|a b q c Hab Hq]; subst. pose proof (H0 _ _ _ Hq). destruct (walk_hd Hq) as [t ->].
      rewrite wcost_cons2. apply He in Hab as [_ ->]. lia.
  - do 2 eexists. split; [vm_compute; reflexivity|]. split; [vm_compute; lia|]. vm_compute. discriminate.
Qed.
Print Assumptions C16_selfloop_refuted.

(** C17: Prim *)
Theorem C17_prim_mst : forall (fr : frontier) (els : fq fr -> list name) (g : graph) (rev : bool)
    (component : option Z) (source : name) (q0 : fq fr) (fuel : nat),
  prioq els -> wf g -> g_type g = Undirected -> has_costs g rev -> In source (get_node_list g) -> (forall x, ~ arc g x x) -> els q0 = [] -> enough g fuel ->
  exists h pred, search fuel source None component q0 Prim rev g = (h, Ok (RPred pred)) /\
    forall Es, component_edges g source Es ->
      min_spanning_forest (fun e => edge_cost g (fst e) (snd e)) Es (pred_edges g pred) /\
      ((forall e, In e Es -> 0 <= edge_cost g (fst e) (snd e))%Z ->
         min_connecting (fun e => edge_cost g (fst e) (snd e)) Es (pred_edges g pred)).
Proof. intros fr els g rev component source q0 fuel Hp W Hu Hc Hs Hl Hq Hf. exact (prim_mst Hp W Hu Hc component Hs Hl Hq Hf). Qed.
Print Assumptions C17_prim_mst.
Lemma exu_edges x y : arc exu x y -> In (x, y) (get_edge_list exu) \/ In (y, x) (get_edge_list exu).
Proof.
  intros H. unfold arc, check_edge in H. change (g_type exu) with Undirected in H. cbv iota in H. apply orb_prop in H as [H|H]; [left|right]; apply dmem_In; exact H.
Qed.
Example C17_nonvacuous : has_costs exu false /\ (forall x, ~ arc exu x x) /\
  obs (search 20 (NI 1) None None empty_pq Prim false) exu = Ok (RPred [(NI 2, NI 1); (NI 3, NI 2); (NI 4, NI 3)]) /\
  component_edges exu (NI 1) [(NI 1, NI 2); (NI 2, NI 3); (NI 3, NI 1); (NI 3, NI 4)].
Proof.
  split; [|split; [|split]].
  - intros x y H. apply exu_edges in H. vm_compute in H.
    repeat match goal with H : _ \/ _ |- _ => destruct H as [H|H] end; try contradiction; injection H as <- <-; eexists; vm_compute; reflexivity.
  - intros x H. apply exu_edges in H. vm_compute in H. repeat match goal with H : _ \/ _ |- _ => destruct H as [H|H] end; try contradiction; congruence.
  - vm_compute. reflexivity.
  - assert (R12 : reach (arc exu) (NI 1) (NI 2)) by (exists [NI 1; NI 2]; apply walk_step with (b := NI 2); [vm_compute; reflexivity|apply walk_one]).
    assert (R13 : reach (arc exu) (NI 1) (NI 3)) by (exists [NI 1; NI 3]; apply walk_step with (b := NI 3); [vm_compute; reflexivity|apply walk_one]).
    intros e. split.
    + intros H. split.
      * vm_compute. simpl in H. tauto.
      * simpl in H. repeat (destruct H as [<-|H]; [simpl; first [assumption|apply reach_refl]|]). destruct H.
    + intros [H Hr]. vm_compute in H. simpl. repeat (destruct H as [<-|H]; [auto|]). 2: { destruct H. }
      exfalso. simpl in Hr. assert (Hc : forall y, reach (arc exu) (NI 1) y -> In y [NI 1; NI 2; NI 3; NI 4]).
      { intros y' Hy'. refine (reach_closed (P := fun y => In y [NI 1; NI 2; NI 3; NI 4]) _ _ Hy'); [simpl; auto|]. intros y z Hy Hz. apply exu_edges in Hz. vm_compute in Hz. simpl in Hy.
        repeat match goal with H : _ \/ _ |- _ => destruct H as [H|H] end; try contradiction; injection Hz as ? ?; subst; try congruence; simpl; auto. }
      specialize (Hc _ Hr). simpl in Hc. repeat (destruct Hc as [Hc|Hc]; [discriminate|]). destruct Hc.
Qed.

(** C18: components *)
Theorem C18_label_components : forall (fr : frontier) (els : fq fr -> list name) (g : graph) (q0 : fq fr) (fuel : nat),
  bag els -> fq_is_pq fr = false -> els q0 = [] -> wf g -> g_type g = Undirected -> enough g fuel ->
  exists h, label_components fuel q0 g = (h, Ok tt) /\ same_shape g h /\ exists k, g_ncomp h = Some k /\
    (forall n, In n (get_node_list g) -> exists z, obs (get_node_attr n "component") h = Ok (VI z) /\ (0 <= z < k)%Z) /\
    (forall n m, In n (get_node_list g) -> In m (get_node_list g) ->
       obs (get_node_attr n "component") h = obs (get_node_attr m "component") h <-> reach (arc g) n m) /\
    (forall z, (0 <= z < k)%Z -> exists n, In n (get_node_list g) /\ obs (get_node_attr n "component") h = Ok (VI z)).
Proof. intros fr els g q0 fuel Hb Hn Hq W Hu Hf. exact (label_ok Hb Hn Hq W Hu Hf). Qed.
Print Assumptions C18_label_components.
Theorem C18_label_directed : forall fr fuel (q0 : fq fr) g, g_type g = Directed ->
  label_components fuel q0 g = (g, Err (PyException "label_components only works for undirected graphs")).
Proof. exact label_directed. Qed.
Print Assumptions C18_label_directed.
Example C18_nonvacuous :
  let h := fst (label_components 20 ([] : fq stack) exu) in
  g_ncomp h = Some 2%Z /\ map (fun n => obs (get_node_attr n "component") h) (get_node_list exu) = [Ok (VI 0); Ok (VI 0); Ok (VI 0); Ok (VI 0); Ok (VI 1); Ok (VI 1)] /\ enough exu 20.
Proof. vm_compute. repeat split; lia. Qed.

(** C19: what search may change; any graph, any arguments, also when it raises *)
Theorem C19_search_frame : forall (fr : frontier) fuel source dest component (q0 : fq fr) al rev g,
  let h := fst (search fuel source dest component q0 al rev g) in
  get_node_list h = get_node_list g /\ get_edge_list h = get_edge_list g /\
  (forall n, obs (get_neighbors n) h = obs (get_neighbors n) g) /\
  (forall n, obs (get_out_neighbors n) h = obs (get_out_neighbors n) g) /\
  (forall n, obs (get_in_neighbors n) h = obs (get_in_neighbors n) g) /\
  (forall x y a, a <> "color" -> obs (get_edge_attr x y a) h = obs (get_edge_attr x y a) g) /\
  (forall x a, ~ In a ["label"; "priority"; "distance"; "color"; "component"; "depth"] ->
     obs (get_node_attr x a) h = obs (get_node_attr x a) g) /\
  g_type h = g_type g /\ g_attr h = g_attr g /\ g_cluster h = g_cluster g /\ g_ncomp h = g_ncomp g.
Proof.
  intros fr fuel source dest component q0 al rev g h. destruct (search_frame fuel source dest component q0 al rev g) as [[S1 S2 S3 S4 S5 S6] A N E X].
  fold h in S1, S2, S3, S4, S5, S6, A, N, E, X.
  assert (HN : forall n, obs (get_neighbors n) h = obs (get_neighbors n) g) by (intros n; unfold obs, get_neighbors, nbr_list; cbn [snd]; rewrite S2; reflexivity).
  assert (HI : forall n, obs (get_in_neighbors n) h = obs (get_in_neighbors n) g).
  { intros n. unfold obs, get_in_neighbors, in_list, in_dict, bind, lift. rewrite S1, S3. destruct (g_type g); [|destruct (dget (g_in g) n)]; try reflexivity.
    destruct (dget (g_in g) n); reflexivity. }
  split; [unfold get_node_list; rewrite S2; reflexivity|]. split; [exact S5|]. auto 12.
Qed.
Print Assumptions C19_search_frame.
Example C19_nonvacuous : exists h e, search 20 (NI 1) (Some (NI 9)) None ([] : fq stack) Dijkstra false exd = (h, Err e) /\ h <> exd.
Proof. do 2 eexists. split; [vm_compute; reflexivity|]. intros H. apply (f_equal (fun g => obs (get_node_attr (NI 2) "label") g)) in H. vm_compute in H. discriminate. Qed.

(** C40: get_diameter *)
Theorem C40_diameter : forall (fr : frontier) (els : fq fr -> list name) (g : graph) (q0 : fq fr) (fuel : nat),
  fifo els -> fq_is_pq fr = false -> els q0 = [] -> wf g -> g_type g = Undirected -> typed g -> enough g fuel ->
  exists h r, get_diameter fuel q0 g = (h, Ok (Some r)) /\
    match r with
    | DInf => get_node_list g = [] \/ exists n m, In n (get_node_list g) /\ In m (get_node_list g) /\ ~ reach (arc g) n m
    | DNum k => (forall n m, In n (get_node_list g) -> In m (get_node_list g) -> exists j, hops (arc g) n m j /\ j <= k) /\
                exists n m, In n (get_node_list g) /\ In m (get_node_list g) /\ hops (arc g) n m k
    end.
Proof. intros fr els g q0 fuel Hb Hn Hq W Hu Ht Hf. exact (diameter_ok Hb Hn Hq W Hu Ht Hf). Qed.
Print Assumptions C40_diameter.
Definition path3 : graph := history (new_graph (Some Undirected) []) [OAddEdge (NI 1) (NI 2) []; OAddEdge (NI 2) (NI 3) []].
(* the largest distance (2), not the documented smallest eccentricity (1) *)
Example C40_nonvacuous : obs (get_diameter 20 ([] : fq queue)) path3 = Ok (Some (DNum 2)) /\
  obs (get_diameter 20 ([] : fq queue)) exu = Ok (Some DInf) /\ enough path3 20 /\ typed path3.
Proof. split; [vm_compute; reflexivity|]. split; [vm_compute; reflexivity|]. split; [vm_compute; lia|vm_compute; reflexivity]. Qed.

(** C53: reverse=True with Dijkstra looks up the cost of the arc the wrong way round *)
Theorem C53_reverse_dijkstra_refuted : exists g s, wf g /\ In s (get_node_list g) /\ nonneg_costs g false /\
  forall fuel, exists h, search (S fuel) s None None empty_pq Dijkstra true g = (h, Err KeyError).
Proof.
  exists exd, (NI 1). split; [apply exd_wf|]. split; [vm_compute; auto|]. split; [apply exd_costs|].
  intros fuel. unfold search. eexists.
  do 5 (erewrite bind_ok by (vm_compute; reflexivity)). destruct (eqb _ _) eqn:He; [discriminate|]. clear He.
  erewrite bind_err; [reflexivity|]. change (S fuel) with (1 + fuel). apply loop_mono; [vm_compute; reflexivity|discriminate].
Qed.
Print Assumptions C53_reverse_dijkstra_refuted.

(** C54: DFS with a priority queue fails beyond the first level *)
Theorem C54_dfs_priority_queue_refuted : exists g s, wf g /\ In s (get_node_list g) /\
  forall fuel, exists h, search (2 + fuel) s None None empty_pq DFS false g = (h, Err TypeError).
Proof.
  exists exd, (NI 4). split; [apply exd_wf|]. split; [vm_compute; auto|].
  intros fuel. unfold search. eexists.
  do 5 (erewrite bind_ok by (vm_compute; reflexivity)). destruct (eqb _ _) eqn:He; [discriminate|]. clear He.
  erewrite bind_err; [reflexivity|]. apply loop_mono; [vm_compute; reflexivity|discriminate].
Qed.
Print Assumptions C54_dfs_priority_queue_refuted.
