(* Property theorems C26-C28 and C58: Graph.max_flow. The container is any one with the laws [bag] of S_Frontier.v
   (Stack for algo='DFS', Queue for algo='BFS'); fuel bounds the while loops and is any number above
   2 #nodes + the sum of the capacities, so the theorems include termination. *)
From Verif Require Import Py Util M_Graph M_Search M_Flow P_Graph P_Attr S_Frontier P_Frontier S_Flow S_GraphFlow P_Flow P_EdgeFrame P_MaxFlow.
Local Open Scope string_scope. Local Open Scope list_scope.

(** C26: a feasible flow, on every directed graph (antiparallel arcs included) *)
Theorem C26_feasible : forall (fr : frontier) (els : fq fr -> list name) (g : graph) (q0 : fq fr) (source sink : name) (display : option val) (fuel : nat),
  bag els -> els q0 = [] -> wf g -> g_type g = Directed -> int_caps g -> nonneg_caps g ->
  In source (get_node_list g) -> source <> sink -> (display = None \/ dget (g_attr g) "display" <> None) -> flow_fuel g < fuel ->
  exists h, max_flow fuel q0 source sink display g = (h, Ok tt) /\
    (forall x y, In (x, y) (get_edge_list g) -> exists f, obs (get_edge_attr x y "flow") h = Ok (VI f)) /\
    (forall x y, In (x, y) (get_edge_list g) -> obs (get_edge_attr x y "capacity") h = Ok (VI (cap_of g (x, y)))) /\
    is_flow (get_edge_list g) (cap_of g) source sink (flow_of h) /\
    (* nothing else changes, but for colors and labels *)
    g_attr h = g_attr g /\ get_node_list h = get_node_list g /\ get_edge_list h = get_edge_list g /\
    (forall x a, a <> "color" -> obs (get_node_attr x a) h = obs (get_node_attr x a) g) /\
    (forall x y a, ~ In a ["flow"; "capacity"; "label"; "color"] -> eattr h x y a = eattr g x y a).
Proof.
  intros fr els g q0 source sink display fuel Hb Hq W D IC NC Hs Hst Hd Hf.
  pose proof (max_flow_ok Hb W D IC NC Hs Hst Hq Hd Hf) as H. apply ok_ex in H as (h & [] & E & Fr & f & F & Fl & _).
  exists h. split; [exact E|]. split.
  { intros x y He. exists (f (x, y)). pose proof (fi_flow F He) as A. unfold eattr in A. destruct (obs (get_edge_attr x y "flow") h); congruence. }
  split. { intros x y He. pose proof (fi_cap F He) as A. unfold eattr in A. destruct (obs (get_edge_attr x y "capacity") h); congruence. }
  split; [apply (is_flow_ext (f := f) (c := cap_of g)); [intros e He; symmetry; apply (FI_flow_of F), He|reflexivity|exact Fl]|].
  split; [apply (ef_attr Fr)|]. split; [apply (efr_node_list Fr)|]. split; [apply (efr_edges Fr)|]. split; [|apply (ef_edges Fr)].
  intros x a Ha. pose proof (ef_nodes Fr x Ha) as A.
  unfold nattr in A. unfold obs, get_node_attr. simpl. pose proof (ss_nodes (ef_shape Fr)) as K.
  destruct (dget (g_nodes h) x) as [d|] eqn:E1, (dget (g_nodes g) x) as [d'|] eqn:E2; try reflexivity.
  - rewrite A. reflexivity.
  - apply dget_Some_keys in E1. apply dget_None in E2. rewrite K in E1. contradiction.
  - apply dget_Some_keys in E2. apply dget_None in E1. rewrite K in E1. contradiction.
Qed.
Print Assumptions C26_feasible.

(* 4 units through a network with a cancelling step *)
Definition exf : graph := history (new_graph (Some Directed) [])
  [OAddEdge (NS "s") (NS "x") [("capacity", VI 2)]; OAddEdge (NS "s") (NS "a") [("capacity", VI 2)]; OAddEdge (NS "x") (NS "b") [("capacity", VI 2)];
   OAddEdge (NS "a") (NS "y") [("capacity", VI 2)]; OAddEdge (NS "a") (NS "b") [("capacity", VI 2)]; OAddEdge (NS "y") (NS "t") [("capacity", VI 2)];
   OAddEdge (NS "b") (NS "t") [("capacity", VI 2)]].
Lemma exf_wf : wf exf.
Proof. refine (proj1 (wf_history (wf_new (Some Directed) []) _)). discriminate. Qed.
Lemma all_caps g : forallb (fun e => match eattr g (fst e) (snd e) "capacity" with None => true | Some (VI z) => (0 <=? z)%Z | _ => false end) (get_edge_list g) = true ->
  int_caps g /\ nonneg_caps g.
Proof.
  intros H. rewrite forallb_forall in H. split.
  - intros x y He. specialize (H _ He). cbn [fst snd] in H. destruct (eattr g x y "capacity") as [[]|]; try discriminate; eauto.
  - intros [x y] He. specialize (H _ He). unfold cap_of. cbn [fst snd] in *. destruct (eattr g x y "capacity") as [[]|]; try discriminate; unfold INF; lia.
Qed.
Lemma all_single g : forallb (fun e => negb (mem (snd e, fst e) (get_edge_list g))) (get_edge_list g) = true -> no_antiparallel g.
Proof.
  intros K x y A B. exfalso. rewrite forallb_forall in K. specialize (K _ A). cbn [fst snd] in K. destruct (mem_spec (y, x) (get_edge_list g)); [discriminate|contradiction].
Qed.
Example C26_nonvacuous : int_caps exf /\ nonneg_caps exf /\ In (NS "s") (get_node_list exf) /\ flow_fuel exf < 30 /\ g_type exf = Directed /\
  dget (g_attr exf) "display" <> None /\ no_antiparallel exf /\
  map (flow_of (fst (max_flow 30 ([] : fq stack) (NS "s") (NS "t") None exf))) (get_edge_list exf) = [2; 2; 2; 2; 0; 2; 2]%Z /\
  map (flow_of (fst (max_flow 30 ([] : fq queue) (NS "s") (NS "t") (Some (VS "file")) exf))) (get_edge_list exf) = [2; 2; 2; 2; 0; 2; 2]%Z.
Proof.
  destruct (all_caps exf) as [H1 H2]; [vm_compute; reflexivity|]. split; [exact H1|]. split; [exact H2|]. split; [vm_compute; auto|].
  split; [vm_compute; lia|]. split; [vm_compute; reflexivity|]. split; [vm_compute; discriminate|]. split; [|split; vm_compute; reflexivity].
  apply all_single. vm_compute. reflexivity.
Qed.
(* the endpoints must differ: otherwise the call raises KeyError *)
Theorem C26_same_endpoints : forall (fr : frontier) (els : fq fr -> list name) (g : graph) (q0 : fq fr) (source : name) (fuel : nat),
  bag els -> els q0 = [] -> wf g -> g_type g = Directed -> int_caps g -> In source (get_node_list g) -> 0 < fuel ->
  obs (max_flow fuel q0 source source None) g = Err KeyError.
Proof.
  intros fr els g q0 source fuel Hb Hq W D IC Hs Hf. unfold obs, max_flow. erewrite bind_ok by reflexivity.
  pose proof (init_flow_ok W D IC) as H. apply ok_ex in H as (h & [] & E & F). erewrite bind_ok by exact E.
  enough (snd (augment fuel q0 source source h) = Err KeyError) as A.
  { destruct (augment fuel q0 source source h) as [h' r] eqn:Ea. simpl in A. subst r. erewrite bind_err by exact Ea. reflexivity. }
  destruct fuel as [|fuel]; [lia|]. unfold augment. cbn [loop].
  pose proof (paint_ok W D F) as P. apply ok_ex in P as (h1 & [] & E1 & _).
  assert (S : augmenting_search (S fuel) q0 source source h1 = (h1, Ok [(source, None)])).
  { unfold augmenting_search. cbn [loop]. destruct (fq_isEmpty (fq_push q0 source None)) eqn:Em.
    - apply (bag_empty Hb) in Em. assert (In source (els (fq_push q0 source None))) as K by (apply (bag_push Hb); auto). rewrite Em in K. destruct K.
    - assert (Hne : els (fq_push q0 source None) <> []). { intros K. apply (bag_empty Hb) in K. congruence. }
      destruct (bag_peek Hb Hne) as (x & Hp & Hx). pose proof Hx as Hx'. apply (bag_push Hb) in Hx'. rewrite Hq in Hx'. destruct Hx' as [->|[]].
      destruct (bag_remove Hb Hx) as (q' & Hr & _). unfold lift. rewrite Hp. unfold bind, ret at 1 2 3. rewrite Hr. unfold ret. rewrite eqb_refl. reflexivity. }
  match goal with |- snd (bind ?b _ h) = _ => assert (B : snd (b h) = Err KeyError) end.
  { erewrite bind_ok by exact E1. erewrite bind_ok by exact S. 
    assert (G : dget [(source, @None name)] source = Some None) by (simpl; destruct (eq_dec source source); [reflexivity|congruence]).
    unfold dmem. rewrite G. cbv beta iota. erewrite bind_err; [reflexivity|]. unfold path_capacity. cbn [loop]. unfold pred_of. rewrite G. reflexivity. }
  match goal with |- snd (bind ?b _ h) = _ => destruct (b h) as [h' r] eqn:Eb end. simpl in B. subst r. erewrite bind_err by exact Eb. reflexivity.
Qed.
Print Assumptions C26_same_endpoints.

(** C27: the flow is maximum and its value is the capacity of a cut *)
Theorem C27_maximum : forall (fr : frontier) (els : fq fr -> list name) (g : graph) (q0 : fq fr) (source sink : name) (display : option val) (fuel : nat),
  bag els -> els q0 = [] -> wf g -> g_type g = Directed -> int_caps g -> nonneg_caps g -> no_antiparallel g ->
  In source (get_node_list g) -> source <> sink -> (display = None \/ dget (g_attr g) "display" <> None) -> flow_fuel g < fuel ->
  exists h, max_flow fuel q0 source sink display g = (h, Ok tt) /\
    (forall f, is_flow (get_edge_list g) (cap_of g) source sink f ->
       (value (get_edge_list g) sink f <= value (get_edge_list g) sink (flow_of h))%Z) /\
    (exists S, S source = true /\ S sink = false /\ value (get_edge_list g) sink (flow_of h) = cut_capacity (get_edge_list g) (cap_of g) S).
Proof.
  intros fr els g q0 source sink display fuel Hb Hq W D IC NC NA Hs Hst Hd Hf.
  pose proof (max_flow_ok Hb W D IC NC Hs Hst Hq Hd Hf) as H. apply ok_ex in H as (h & [] & E & Fr & f & F & Fl & S & S1 & S2 & S3 & _).
  exists h. split; [exact E|].
  assert (V : value (get_edge_list g) sink (flow_of h) = cut_capacity (get_edge_list g) (cap_of g) (fun x => mem x S)).
  { unfold value. rewrite (net_ext (h := f) sink (FI_flow_of F)). apply (cut_is_tight W D NA Fl S1 S2 S3). }
  assert (A : mem source S = true) by (destruct (mem_spec source S); [reflexivity|contradiction]).
  assert (B : mem sink S = false) by (destruct (mem_spec sink S); [contradiction|reflexivity]).
  split; [|exists (fun x => mem x S); auto]. intros f' Fl'. rewrite V. apply (weak_duality Fl' (S := fun x => mem x S) A B).
Qed.
Print Assumptions C27_maximum.
Example C27_nonvacuous : value (get_edge_list exf) (NS "t") (flow_of (fst (max_flow 30 ([] : fq stack) (NS "s") (NS "t") None exf))) = 4%Z.
Proof. vm_compute. reflexivity. Qed.
(* with arcs a -> b and b -> a the flow can be smaller than another feasible flow (3 against 4) *)
Definition exanti : graph := history exf [OAddEdge (NS "b") (NS "a") [("capacity", VI 1)]].
Theorem C27_antiparallel_refuted : exists g h f,
  wf g /\ g_type g = Directed /\ int_caps g /\ nonneg_caps g /\
  max_flow 30 ([] : fq stack) (NS "s") (NS "t") None g = (h, Ok tt) /\
  is_flow (get_edge_list g) (cap_of g) (NS "s") (NS "t") f /\
  (value (get_edge_list g) (NS "t") (flow_of h) < value (get_edge_list g) (NS "t") f)%Z.
Proof.
  exists exanti, (fst (max_flow 30 ([] : fq stack) (NS "s") (NS "t") None exanti)), (fun e => if mem e [(NS "a", NS "b"); (NS "b", NS "a")] then 0 else 2)%Z.
  split; [refine (proj1 (wf_history exf_wf _)); intros K; vm_compute in K; discriminate K|]. split; [vm_compute; reflexivity|].
  destruct (all_caps exanti) as [H1 H2]; [vm_compute; reflexivity|]. split; [exact H1|]. split; [exact H2|].
  split; [vm_compute; reflexivity|]. split; [apply is_flow_check; vm_compute; reflexivity|vm_compute; reflexivity].
Qed.
Print Assumptions C27_antiparallel_refuted.

(** C28: an arc without a capacity gets capacity 10000 *)
Theorem C28_missing_capacity : forall (fr : frontier) (els : fq fr -> list name) (g : graph) (q0 : fq fr) (source sink : name) (display : option val) (fuel : nat) (x y : name),
  bag els -> els q0 = [] -> wf g -> g_type g = Directed -> int_caps g -> nonneg_caps g ->
  In source (get_node_list g) -> source <> sink -> (display = None \/ dget (g_attr g) "display" <> None) -> flow_fuel g < fuel ->
  In (x, y) (get_edge_list g) -> obs (get_edge_attr x y "capacity") g = Err KeyError ->
  exists h f, max_flow fuel q0 source sink display g = (h, Ok tt) /\
    obs (get_edge_attr x y "capacity") h = Ok (VI 10000) /\ obs (get_edge_attr x y "flow") h = Ok (VI f) /\ (0 <= f <= 10000)%Z.
Proof.
  intros fr els g q0 source sink display fuel x y Hb Hq W D IC NC Hs Hst Hd Hf He Hc.
  destruct (C26_feasible fr els g q0 source sink display fuel Hb Hq W D IC NC Hs Hst Hd Hf) as (h & E & H1 & H2 & H3 & _).
  destruct (H1 x y He) as [f Hfl]. exists h, f. split; [exact E|].
  assert (C : cap_of g (x, y) = 10000%Z) by (unfold cap_of, eattr; simpl; rewrite Hc; reflexivity).
  split; [rewrite (H2 x y He), C; reflexivity|]. split; [exact Hfl|]. pose proof (flow_bounds H3 He) as B. rewrite C in B. unfold flow_of, eattr in B. simpl in B. rewrite Hfl in B. exact B.
Qed.
Print Assumptions C28_missing_capacity.
Lemma get_edge_attr_edge g x y a v : g_type g = Directed -> obs (get_edge_attr x y a) g = Ok v -> In (x, y) (get_edge_list g).
Proof.
  intros D H. unfold obs, get_edge_attr in H. rewrite D in H. simpl in H. destruct (dget (g_edges g) (x, y)) eqn:E; [|discriminate]. apply (dget_Some_keys E).
Qed.
(* so it is not unlimited: s -> a with capacity 20000, a -> t without one *)
Definition exinf : graph := history (new_graph (Some Directed) []) [OAddEdge (NS "s") (NS "a") [("capacity", VI 20000)]; OAddEdge (NS "a") (NS "t") []].
Example C28_nonvacuous : wf exinf /\ int_caps exinf /\ nonneg_caps exinf /\ In (NS "a", NS "t") (get_edge_list exinf) /\ obs (get_edge_attr (NS "a") (NS "t") "capacity") exinf = Err KeyError /\
  obs (get_edge_attr (NS "a") (NS "t") "capacity") (fst (max_flow 20 ([] : fq stack) (NS "s") (NS "t") None exinf)) = Ok (VI 10000).
Proof.
  split; [refine (proj1 (wf_history (wf_new (Some Directed) []) _)); discriminate|]. destruct (all_caps exinf) as [H1 H2]; [vm_compute; reflexivity|]. split; [exact H1|]. split; [exact H2|]. split; [vm_compute; auto|]. split; vm_compute; reflexivity.
Qed.
Theorem C28_unlimited_refuted : exists g h f,
  wf g /\ g_type g = Directed /\ int_caps g /\ nonneg_caps g /\ no_antiparallel g /\
  max_flow 20 ([] : fq stack) (NS "s") (NS "t") None g = (h, Ok tt) /\
  (* f respects the capacities the user gave and conserves flow, but carries more *)
  (forall x y z, obs (get_edge_attr x y "capacity") g = Ok (VI z) -> (0 <= f (x, y) <= z)%Z) /\
  is_flow (get_edge_list g) f (NS "s") (NS "t") f /\
  value (get_edge_list g) (NS "t") (flow_of h) = 10000%Z /\ value (get_edge_list g) (NS "t") f = 20000%Z.
Proof.
  exists exinf, (fst (max_flow 20 ([] : fq stack) (NS "s") (NS "t") None exinf)), (fun e => if mem e (get_edge_list exinf) then 20000 else 0)%Z.
  assert (W : wf exinf) by (refine (proj1 (wf_history (wf_new (Some Directed) []) _)); discriminate).
  split; [exact W|]. split; [vm_compute; reflexivity|]. destruct (all_caps exinf) as [H1 H2]; [vm_compute; reflexivity|]. split; [exact H1|]. split; [exact H2|].
  split; [apply all_single; vm_compute; reflexivity|].
  split; [vm_compute; reflexivity|]. split.
  { intros x y z Hz. destruct (mem_spec (x, y) (get_edge_list exinf)) as [Hi|Hi].
    - change (get_edge_list exinf) with [(NS "s", NS "a"); (NS "a", NS "t")] in Hi. destruct Hi as [[= <- <-]|[[= <- <-]|[]]]; vm_compute in Hz; [injection Hz as <-; lia|discriminate].
    - exfalso. apply Hi. apply (get_edge_attr_edge exinf x y "capacity" (VI z) eq_refl Hz). }
  split; [apply is_flow_check; vm_compute; reflexivity|]. split; vm_compute; reflexivity.
Qed.
Print Assumptions C28_unlimited_refuted.

(** C58: what max_flow leaves on the picture. Every arc is labelled capacity/flow. *)
Theorem C58_labels : forall (fr : frontier) (els : fq fr -> list name) (g : graph) (q0 : fq fr) (source sink : name) (display : option val) (fuel : nat),
  bag els -> els q0 = [] -> wf g -> g_type g = Directed -> int_caps g -> nonneg_caps g ->
  In source (get_node_list g) -> source <> sink -> (display = None \/ dget (g_attr g) "display" <> None) -> flow_fuel g < fuel ->
  exists h, max_flow fuel q0 source sink display g = (h, Ok tt) /\
    forall x y, In (x, y) (get_edge_list g) -> exists c f shown,
      obs (get_edge_attr x y "capacity") h = Ok (VI c) /\ obs (get_edge_attr x y "flow") h = Ok (VI f) /\
      obs (get_edge_attr x y "label") h = Ok (VS (shown ++ "/" ++ str_val (VI f))) /\
      (shown = str_val (VI c) \/ (shown = "INF" /\ c = 10000%Z)).
Proof.
  intros fr els g q0 source sink display fuel Hb Hq W D IC NC Hs Hst Hd Hf.
  pose proof (max_flow_ok Hb W D IC NC Hs Hst Hq Hd Hf) as H. apply ok_ex in H as (h & [] & E & Fr & f & F & Fl & _).
  exists h. split; [exact E|]. intros x y He.
  assert (G : forall a v, eattr h x y a = Some v -> obs (get_edge_attr x y a) h = Ok v) by (intros a v A; unfold eattr in A; destruct (obs (get_edge_attr x y a) h); congruence).
  destruct (fi_lab F He) as [L|[C L]]; [exists (cap_of g (x, y)), (f (x, y)), (str_int (cap_of g (x, y)))|exists (cap_of g (x, y)), (f (x, y)), "INF"].
  - split; [apply G, (fi_cap F He)|]. split; [apply G, (fi_flow F He)|]. split; [apply G, L|left; reflexivity].
  - split; [apply G, (fi_cap F He)|]. split; [apply G, (fi_flow F He)|]. split; [apply G, L|right; split; [reflexivity|exact C]].
Qed.
Print Assumptions C58_labels.
(* The source and the blue nodes are the source side of a minimum cut; the others are black. *)
Theorem C58_blue_min_cut : forall (fr : frontier) (els : fq fr -> list name) (g : graph) (q0 : fq fr) (source sink : name) (display : option val) (fuel : nat),
  bag els -> els q0 = [] -> wf g -> g_type g = Directed -> int_caps g -> nonneg_caps g -> no_antiparallel g ->
  In source (get_node_list g) -> In sink (get_node_list g) -> source <> sink -> (display = None \/ dget (g_attr g) "display" <> None) -> flow_fuel g < fuel ->
  exists h, max_flow fuel q0 source sink display g = (h, Ok tt) /\
    obs (get_node_attr source "color") h = Ok (VS "black") /\ obs (get_node_attr sink "color") h = Ok (VS "black") /\
    exists S : name -> bool, S source = true /\ S sink = false /\
    (forall x, In x (get_node_list g) -> x <> source -> obs (get_node_attr x "color") h = Ok (VS (if S x then "blue" else "black"))) /\
    (* the arcs leaving S are full and those entering it are empty *)
    (forall x y, In (x, y) (get_edge_list g) -> S x = true -> S y = false -> flow_of h (x, y) = cap_of g (x, y)) /\
    (forall x y, In (x, y) (get_edge_list g) -> S x = false -> S y = true -> flow_of h (x, y) = 0%Z) /\
    (forall T, T source = true -> T sink = false -> (cut_capacity (get_edge_list g) (cap_of g) S <= cut_capacity (get_edge_list g) (cap_of g) T)%Z).
Proof.
  intros fr els g q0 source sink display fuel Hb Hq W D IC NC NA Hs Ht Hst Hd Hf.
  pose proof (max_flow_ok Hb W D IC NC Hs Hst Hq Hd Hf) as H. apply ok_ex in H as (h & [] & E & Fr & f & F & Fl & S & S1 & S2 & S3 & S4 & P).
  exists h. split; [exact E|].
  assert (G : forall x v, In x (get_node_list g) -> nattr h x "color" = VS v -> obs (get_node_attr x "color") h = Ok (VS v)).
  { intros x v Hx A. unfold nattr in A. unfold obs, get_node_attr. simpl. destruct (dget (g_nodes h) x) as [d|]; [|discriminate]. destruct (dget d "color"); [congruence|discriminate]. }
  assert (A : mem source S = true) by (destruct (mem_spec source S); [reflexivity|contradiction]).
  assert (B : mem sink S = false) by (destruct (mem_spec sink S); [contradiction|reflexivity]).
  unfold painted, ncol in P.
  split; [apply (G _ _ Hs); rewrite (P _ Hs), eqb_refl, andb_false_r; reflexivity|].
  split; [apply (G _ _ Ht); rewrite (P _ Ht), B; reflexivity|].
  exists (fun x => mem x S). split; [exact A|]. split; [exact B|]. split.
  { intros x Hx Hne. apply (G _ _ Hx). rewrite (P _ Hx). destruct (eqb_spec x source) as [->|]; [congruence|]. destruct (mem x S); reflexivity. }
  split; [|split].
  - intros x y He Hx Hy. rewrite (FI_flow_of F) by exact He. destruct (mem_spec x S) as [Hx'|]; [|discriminate]. destruct (mem_spec y S) as [|Hy']; [discriminate|].
    pose proof (flow_bounds Fl He). destruct (Z.eq_dec (f (x, y)) (cap_of g (x, y))) as [|Hne]; [assumption|]. exfalso. apply Hy', (S3 x y Hx'). split; [left; exact He|].
    unfold avail. destruct (mem_spec (x, y) (get_edge_list g)); [lia|contradiction].
  - intros x y He Hx Hy. rewrite (FI_flow_of F) by exact He. destruct (mem_spec x S) as [|Hx']; [discriminate|]. destruct (mem_spec y S) as [Hy'|]; [|discriminate].
    pose proof (flow_bounds Fl He). destruct (Z.eq_dec (f (x, y)) 0) as [|Hne]; [assumption|]. exfalso. apply Hx', (S3 y x Hy'). split; [right; exact He|].
    unfold avail. destruct (mem_spec (y, x) (get_edge_list g)) as [Hi|]; [|lia]. pose proof (NA _ _ He Hi). congruence.
  - intros T T1 T2. rewrite <- (cut_is_tight W D NA Fl S1 S2 S3). apply (weak_duality Fl T1 T2).
Qed.
Print Assumptions C58_blue_min_cut.
(* s -> a has room left, a -> t is full, s -> b has no capacity attribute *)
Definition excut : graph := history (new_graph (Some Directed) [])
  [OAddEdge (NS "s") (NS "a") [("capacity", VI 5)]; OAddEdge (NS "a") (NS "t") [("capacity", VI 3)]; OAddEdge (NS "s") (NS "b") []; OAddEdge (NS "b") (NS "t") [("capacity", VI 4)]].
Example C58_nonvacuous : wf excut /\ g_type excut = Directed /\ int_caps excut /\ nonneg_caps excut /\ no_antiparallel excut /\
  In (NS "s") (get_node_list excut) /\ In (NS "t") (get_node_list excut) /\
  let h := fst (max_flow 30 ([] : fq queue) (NS "s") (NS "t") None excut) in
  map (fun x => obs (get_node_attr (NS x) "color") h) ["s"; "a"; "b"; "t"] = map (fun c => Ok (VS c)) ["black"; "blue"; "blue"; "black"] /\
  map (fun e => obs (get_edge_attr (NS (fst e)) (NS (snd e)) "label") h) [("s", "a"); ("a", "t"); ("s", "b"); ("b", "t")] = map (fun l => Ok (VS l)) ["5/3"; "3/3"; "INF/4"; "4/4"].
Proof.
  split; [refine (proj1 (wf_history (wf_new (Some Directed) []) _)); discriminate|]. split; [reflexivity|]. destruct (all_caps excut) as [H1 H2]; [vm_compute; reflexivity|].
  split; [exact H1|]. split; [exact H2|]. split; [apply all_single; vm_compute; reflexivity|]. split; [vm_compute; auto|]. split; [vm_compute; auto|]. split; vm_compute; reflexivity.
Qed.
