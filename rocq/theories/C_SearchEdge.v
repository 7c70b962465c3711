(* Property theorems C69: calls of Graph.search outside its documented preconditions. *)
From Verif Require Import Py Util M_Graph M_Search P_Graph P_GraphLaws Spec P_Walk S_Frontier P_Frontier P_Attr P_Search P_SearchAbs P_SearchTop P_Residual P_SearchEdge C_Search.
Local Open Scope string_scope. Local Open Scope list_scope.

(* node n looks as search leaves it before it visits anything *)
Definition node_reset (h : graph) (n : name) : Prop :=
  obs (get_node_attr n "label") h = Ok (VS "-") /\ obs (get_node_attr n "distance") h = Ok VNone /\ obs (get_node_attr n "color") h = Ok (VS "black").
(* every edge of g is black in h *)
Definition edges_black (g h : graph) : Prop := forall x y, check_edge g x y = true -> obs (get_edge_attr x y "color") h = Ok (VS "black").

Lemma obs_h g h x a : wf g -> same_shape g h -> In x (get_node_list g) -> obs (get_node_attr x a) h = Ok (nattr h x a).
Proof. intros W S Hx. apply obs_nattr. rewrite (ss_nodes S), (wf_nodes W). exact Hx. Qed.
Lemma black_all g h rev : wf g -> (forall x y, sarc g rev x y -> black_edge rev h x y) -> edges_black g h.
Proof.
  intros W H x y Hxy. destruct rev.
  - assert (A : sarc g true y x) by (unfold sarc, arc; destruct (g_type g) eqn:T; [|rewrite check_edge_sym by exact T]; exact Hxy).
    specialize (H _ _ A). unfold black_edge in H. rewrite eattr_obs in H. destruct obs; congruence.
  - assert (A : sarc g false x y) by (unfold sarc, arc; destruct (g_type g); exact Hxy).
    specialize (H _ _ A). unfold black_edge in H. rewrite eattr_obs in H. destruct obs; congruence.
Qed.
Lemma fresh_nodes g rev h n : wf g -> fresh_state g rev h -> In n (get_node_list g) -> node_reset h n.
Proof.
  intros W H Hn. unfold node_reset. rewrite !(obs_h g h n _ W (wi_ss H) Hn), (wi_label H Hn), (wi_dist H Hn), (wi_color H Hn). auto.
Qed.
Lemma fresh_sarc g rev h : wf g -> fresh_state g rev h -> forall x y, sarc g rev x y -> black_edge rev h x y.
Proof. intros W H x y Hxy. apply (wi_edge H). split; [exact (proj1 (sarc_V W Hxy))|]. apply (nbd_sarc rev x y W), Hxy. Qed.

(** an unknown algorithm: nothing happens, None is returned *)
Theorem C69_unknown_algorithm : forall (fr : frontier) fuel source dest component (q0 : fq fr) rev g,
  search fuel source dest component q0 OtherAlgo rev g = (g, Ok RNone).
Proof. reflexivity. Qed.
Print Assumptions C69_unknown_algorithm.

(** a source that is not a node: AttributeError. DFS, BFS and UnweightedSPT change nothing; Dijkstra and Prim have reset every node and edge by then *)
Theorem C69_unknown_source : forall (fr : frontier) fuel source dest component (q0 : fq fr) al rev g,
  wf g -> al <> OtherAlgo -> ~ In source (get_node_list g) ->
  exists h, search fuel source dest component q0 al rev g = (h, Err AttributeError) /\
    (al = DFS \/ al = BFS \/ al = UnweightedSPT -> h = g) /\
    (al = Dijkstra \/ al = Prim -> (forall n, In n (get_node_list g) -> node_reset h n) /\ edges_black g h).
Proof.
  intros fr fuel source dest component q0 al rev g W Ha Hs. destruct (is_pq_algo al) eqn:P.
  - destruct (@search_reset fr g W al Ha rev component source q0) as (h & H & E); [congruence|]. exists h. rewrite E.
    split; [exact (source_missing W Ha component q0 fuel dest H P Hs)|]. split; [intros [->|[->| ->]]; discriminate|]. intros _.
    split; [intros n Hn; exact (fresh_nodes g rev h n W H Hn)|exact (black_all g h rev W (fresh_sarc g rev h W H))].
  - exists g. split; [|split; [reflexivity|intros [->| ->]; discriminate]].
    assert (M : set_node_attr source "component" (voZ component) g = (g, Err AttributeError)) by (apply set_missing; rewrite (wf_nodes W); exact Hs).
    destruct al; try discriminate; try congruence; cbn [search]; apply bind_err; exact M.
Qed.
Print Assumptions C69_unknown_source.
Example C69_unknown_source_nonvacuous :
  wf exd /\ ~ In (NI 9) (get_node_list exd) /\ search 20 (NI 9) None None ([] : fq stack) DFS false exd = (exd, Err AttributeError) /\
  exists h, search 20 (NI 9) None None empty_pq Dijkstra false exd = (h, Err AttributeError) /\ node_reset h (NI 1) /\ obs (get_node_attr (NI 1) "label") exd <> Ok (VS "-").
Proof.
  split; [apply exd_wf|]. split; [vm_compute; intuition discriminate|]. split; [vm_compute; reflexivity|].
  eexists. split; [vm_compute; reflexivity|]. split; [vm_compute; auto|vm_compute; discriminate].
Qed.

(** Dijkstra and Prim with a Stack or Queue as q: TypeError from the first push. The source is left red with label 0, everything else reset *)
Theorem C69_wrong_queue : forall (fr : frontier) fuel source dest component (q0 : fq fr) al rev g,
  wf g -> al = Dijkstra \/ al = Prim -> fq_is_pq fr = false -> In source (get_node_list g) ->
  exists h, search fuel source dest component q0 al rev g = (h, Err TypeError) /\
    (forall n, In n (get_node_list g) -> n <> source -> node_reset h n) /\ edges_black g h /\
    obs (get_node_attr source "label") h = Ok (VI 0) /\ obs (get_node_attr source "color") h = Ok (VS "red") /\ obs (get_node_attr source "distance") h = Ok VNone.
Proof.
  intros fr fuel source dest component q0 al rev g W Ha Q Hs.
  assert (P : is_pq_algo al = true) by (destruct Ha as [-> | ->]; reflexivity). assert (O : al <> OtherAlgo) by (destruct Ha; congruence).
  destruct (@search_reset fr g W al O rev component source q0) as (h0 & H & E); [congruence|].
  destruct (source_queue W O component q0 fuel dest H P Q Hs) as (h & Eh & S & Ee & En). exists h. rewrite E.
  assert (S' : same_shape g h) by exact (ss_trans (wi_ss H) S).
  split; [exact Eh|]. split; [|split; [|split; [|split]]].
  - intros n Hn Hne. unfold node_reset. rewrite !(obs_h g h n _ W S' Hn), !En. destruct (eqb_spec n source); [contradiction|].
    rewrite (wi_label H Hn), (wi_dist H Hn), (wi_color H Hn). auto.
  - apply (black_all g h rev W). intros x y Hxy. unfold black_edge. rewrite Ee. exact (fresh_sarc g rev h0 W H x y Hxy).
  - rewrite (obs_h g h _ _ W S' Hs), En, eqb_refl. reflexivity.
  - rewrite (obs_h g h _ _ W S' Hs), En, eqb_refl. reflexivity.
  - rewrite (obs_h g h _ _ W S' Hs), En, eqb_refl. cbn. rewrite (wi_dist H Hs). reflexivity.
Qed.
Print Assumptions C69_wrong_queue.
Example C69_wrong_queue_nonvacuous : fq_is_pq stack = false /\ wf exd /\ In (NI 1) (get_node_list exd) /\ exists h, search 20 (NI 1) None None ([] : fq stack) Prim false exd = (h, Err TypeError) /\ h <> exd.
Proof.
  split; [reflexivity|]. split; [apply exd_wf|]. split; [vm_compute; auto|]. eexists. split; [vm_compute; reflexivity|].
  intros H. apply (f_equal (obs (get_node_attr (NI 1) "label"))) in H. vm_compute in H. discriminate.
Qed.

(** source = destination: the path of one node, with any queue, also a non-empty one, and any costs; nothing is searched *)
Theorem C69_same_node : forall (fr : frontier) fuel source component (q0 : fq fr) al rev g,
  wf g -> al <> OtherAlgo -> (al = Dijkstra \/ al = Prim -> fq_is_pq fr = true) -> In source (get_node_list g) ->
  exists h, search (S fuel) source (Some source) component q0 al rev g = (h, Ok (RPath [source])) /\
    (forall n, In n (get_node_list g) -> n <> source -> node_reset h n) /\ edges_black g h /\
    obs (get_node_attr source "color") h = Ok (VS "black") /\
    (al = DFS \/ al = BFS \/ al = UnweightedSPT ->
       obs (get_node_attr source "distance") h = Ok (VI 0) /\
       obs (get_node_attr source "label") h = Ok (VI (match component with Some c => c | None => 0%Z end))) /\
    (al = Dijkstra \/ al = Prim -> obs (get_node_attr source "distance") h = Ok VNone /\ obs (get_node_attr source "label") h = Ok (VI 0)).
Proof.
  intros fr fuel source component q0 al rev g W Ha Q Hs.
  destruct (@search_reset fr g W al Ha rev component source q0) as (h0 & H & E); [intros _; exact Hs|].
  destruct (@source_there fr g W al Ha rev component source q0 h0 fuel H) as (h & Eh & S & Ee & En & L & D & C); [intros P; apply Q; destruct al; try discriminate; auto|exact Hs|].
  exists h. rewrite E. split; [exact Eh|]. split; [|split; [exact (black_all g h rev W Ee)|]].
  - intros n Hn Hne. unfold node_reset. rewrite !(obs_h g h n _ W S Hn). destruct (En n Hn Hne) as (-> & -> & ->). auto.
  - rewrite !(obs_h g h source _ W S Hs), L, D, C. unfold start_label, start_dist. split; [reflexivity|].
    split; [intros [->|[->| ->]]; destruct component; auto|intros [->| ->]; auto].
Qed.
Print Assumptions C69_same_node.
Example C69_same_node_nonvacuous :
  obs (search 1 (NI 1) (Some (NI 1)) (Some 7%Z) ([NI 9; NI 4] : fq stack) DFS false) exd = Ok (RPath [NI 1]) /\ wf exd /\ In (NI 1) (get_node_list exd).
Proof. split; [vm_compute; reflexivity|]. split; [apply exd_wf|vm_compute; auto]. Qed.

(** a queue that still holds an item which cannot be reached from the source: unless a reachable destination is asked for,
    the call does not return. The item need not be a node of the graph. *)
Theorem C69_leftover : forall (fr : frontier) (els : fq fr -> list name) fuel source dest component (q0 : fq fr) al rev g (z : name),
  bag els -> wf g -> al <> OtherAlgo -> In z (els q0) -> ~ reach (sarc g rev) source z ->
  (forall d, dest = Some d -> ~ reach (sarc g rev) source d) ->
  exists h e, search fuel source dest component q0 al rev g = (h, Err e).
Proof.
  intros fr els fuel source dest component q0 al rev g z Hb W Ha Hq Hz Hd.
  destruct (search fuel source dest component q0 al rev g) as [h [r|e]] eqn:E; [|eauto]. exfalso.
  destruct (leftover_search Hb W Hz Ha Hq E) as (d & Ed & Hr). exact (Hd d Ed Hr).
Qed.
Print Assumptions C69_leftover.
(* the node 4 in the stack, with no way from 1 to 4 *)
Example C69_leftover_nonvacuous :
  obs (search 20 (NI 1) None None ([NI 4] : fq stack) DFS false) exd = Err KeyError /\ bag (fr := stack) (fun q => q) /\ wf exd /\ ~ reach (sarc exd false) (NI 1) (NI 4).
Proof.
  split; [vm_compute; reflexivity|]. split; [apply stack_bag|]. split; [apply exd_wf|]. intros H.
  assert (C : forall x y, sarc exd false x y -> In y [NI 1; NI 2; NI 3]).
  { intros x y Hxy. apply (nbd_sarc false x y exd_wf) in Hxy. unfold list_at in Hxy. destruct (dget (nbd exd false) x) as [l|] eqn:E; [|destruct Hxy].
    apply dget_In in E. vm_compute in E.
    repeat (destruct E as [E|E]; [injection E as <- <-; vm_compute in Hxy |- *; tauto|]). destruct E. }
  assert (K : In (NI 4) [NI 1; NI 2; NI 3]) by (apply (reach_closed (P := fun n => In n [NI 1; NI 2; NI 3]) (a := NI 1) (E := sarc exd false)); [left; reflexivity|intros a b _ E; exact (C a b E)|exact H]).
  vm_compute in K. intuition discriminate.
Qed.
