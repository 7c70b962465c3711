(* Property theorems C30-C32: Graph.floyd_warshall and the methods that read its result.
   A distance None stands for the string 'infinity'. *)
From Verif Require Import Py Util M_Graph P_Graph P_GraphLaws M_Search M_Floyd Spec P_Walk P_Attr P_FloydAbs P_Floyd.
Local Open Scope string_scope. Local Open Scope list_scope.

(** C30: validity and least distances; self-loops allowed except for the distance from a node to itself *)
Theorem C30_floyd_warshall : forall g, wf g -> g_type g = Directed -> has_costs g false ->
  exists valid distance nextn, floyd_warshall g = (g, Ok (valid, distance, nextn)) /\
    (valid = true <-> forall a p, walk (arc g) a p a -> (0 <= wcost (edge_cost g) p)%Z) /\
    (valid = true -> forall i j, In i (get_node_list g) -> In j (get_node_list g) -> i <> j \/ ~ arc g i i ->
       match dget distance (i, j) with
       | Some (Some z) => least_cost (arc g) (edge_cost g) i j z
       | Some None => ~ reach (arc g) i j
       | None => False
       end).
Proof.
  intros g W Dir HC. pose proof (floyd_warshall_ok W Dir HC) as H. apply ok_ex in H as (h & [[v d] n] & E & -> & S & R). cbn [fst snd] in R.
  exists v, d, n. split; [exact E|]. pose proof (arc_nl W Dir) as HA. split.
  { destruct R as (s0 & [I0 _] & -> & Rep & Hv). destruct v.
    - split; [intros _|reflexivity]. intros a p Hw. destruct (Z.ltb_spec (wcost (edge_cost g) p) 0) as [Hn|]; [|lia].
      destruct (proj2 (fin_neg HA I0)) as (i & z & Hi & Hz & Hneg); [exists a, p; auto|]. specialize (Hv i z Hi Hz). lia.
    - split; [discriminate|]. intros K. exfalso. destruct (proj1 (fin_neg HA I0) Hv) as (a & p & H1 & H2). specialize (K a p H1). lia. }
  intros -> i j Hi Hj Hij. pose proof (valid_nc W Dir R) as NC. destruct R as (s0 & [I0 _] & -> & Rep & Hv). destruct (Rep i j Hi Hj) as [Rd _]. cbn [fst] in Rd. rewrite Rd.
  destruct (eq_dec i j) as [->|Hne].
  - destruct Hij as [|Hl]; [congruence|]. destruct (fin_diag I0 Hj Hl) as (z & Hz & Hle). rewrite Hz. specialize (Hv j z Hj Hz). assert (z = 0%Z) as -> by lia.
    split; [exists [j]; split; [constructor|reflexivity]|]. intros p Hp. apply (NC j p Hp).
  - destruct (fst _ i j) as [z|] eqn:Hz; [apply (fin_least HA NC I0 Hi Hj Hne Hz)|].
    intros Hr. apply (fin_reach HA I0 Hi Hj Hne) in Hr as [z Hz']. congruence.
Qed.
Print Assumptions C30_floyd_warshall.

Definition exfw : graph := history (new_graph (Some Directed) [])
  [OAddNode (NI 1) []; OAddEdge (NI 1) (NI 2) [("cost", VI 4)]; OAddEdge (NI 1) (NI 3) [("cost", VI 1)]; OAddEdge (NI 3) (NI 2) [("cost", VI (-2))];
   OAddEdge (NI 2) (NI 4) [("cost", VI 3)]; OAddEdge (NI 4) (NI 3) [("cost", VI 0)]].
Lemma exfw_wf : wf exfw.
Proof. refine (proj1 (wf_history (wf_new (Some Directed) []) _)). discriminate. Qed.
Lemma all_costs g : g_type g = Directed -> forallb (fun e => match obs (get_edge_attr (fst e) (snd e) "cost") g with Ok (VI _) => true | _ => false end) (get_edge_list g) = true -> has_costs g false.
Proof.
  intros D H x y Hs. unfold sarc, arc, check_edge in Hs. rewrite D in Hs. apply dmem_In in Hs. rewrite forallb_forall in H. specialize (H _ Hs). cbn [fst snd] in H.
  destruct (obs (get_edge_attr x y "cost") g) as [[]|]; try discriminate. eauto.
Qed.
Definition dist_of (g : graph) (i j : name) : option (option Z) := match snd (floyd_warshall g) with Ok (_, d, _) => dget d (i, j) | Err _ => None end.
Example C30_nonvacuous : wf exfw /\ g_type exfw = Directed /\ has_costs exfw false /\
  (exists d n, snd (floyd_warshall exfw) = Ok (true, d, n)) /\
  dist_of exfw (NI 1) (NI 2) = Some (Some (-1)%Z) /\ dist_of exfw (NI 1) (NI 4) = Some (Some 2%Z) /\ dist_of exfw (NI 2) (NI 1) = Some None /\ dist_of exfw (NI 2) (NI 2) = Some (Some 0%Z).
Proof.
  split; [apply exfw_wf|]. split; [vm_compute; reflexivity|]. split; [apply all_costs; vm_compute; reflexivity|].
  split; [eexists; eexists; vm_compute; reflexivity|]. repeat split; vm_compute; reflexivity.
Qed.

(* a self-loop of cost 5: the distance from the node to itself is 5, although the empty path costs 0 *)
Definition exloop : graph := history (new_graph (Some Directed) []) [OAddEdge (NI 1) (NI 1) [("cost", VI 5)]].
Theorem C30_selfloop_refuted : ~ (forall g, wf g -> g_type g = Directed -> has_costs g false ->
  exists valid distance nextn, floyd_warshall g = (g, Ok (valid, distance, nextn)) /\
    (valid = true -> forall i z, In i (get_node_list g) -> dget distance (i, i) = Some (Some z) -> least_cost (arc g) (edge_cost g) i i z)).
Proof.
  intros H. destruct (H exloop) as (v & d & n & E & K).
  - refine (proj1 (wf_history (wf_new (Some Directed) []) _)). discriminate.
  - vm_compute; reflexivity.
  - apply all_costs; vm_compute; reflexivity.
  - assert (Ev : v = true /\ dget d (NI 1, NI 1) = Some (Some 5%Z)).
    { assert (E' : snd (floyd_warshall exloop) = Ok (v, d, n)) by (rewrite E; reflexivity). vm_compute in E'. injection E' as <- <- <-. vm_compute. auto. }
    destruct Ev as [Ev Ed]. destruct (K Ev (NI 1) 5%Z) as [_ L]; [vm_compute; auto|exact Ed|]. specialize (L [NI 1] (walk_one _ _)). simpl in L. lia.
Qed.
Print Assumptions C30_selfloop_refuted.

(* undirected graphs: an edge is used in one direction only, so the distances are not those of the graph *)
Definition exund : graph := history (new_graph (Some Undirected) []) [OAddEdge (NI 1) (NI 2) [("cost", VI 5)]].
Theorem C30_undirected_refuted : exists g, wf g /\ g_type g = Undirected /\ has_costs g false /\
  reach (arc g) (NI 1) (NI 2) /\ reach (arc g) (NI 2) (NI 1) /\ dist_of g (NI 1) (NI 2) = Some (Some 5%Z) /\ dist_of g (NI 2) (NI 1) = Some None.
Proof.
  exists exund. split; [refine (proj1 (wf_history (wf_new (Some Undirected) []) _)); reflexivity|]. split; [vm_compute; reflexivity|]. split.
  { intros x y Hs. unfold sarc, arc in Hs. change (g_type exund) with Undirected in Hs. cbv iota beta in Hs.
    assert (Hxy : (x, y) = (NI 1, NI 2) \/ (x, y) = (NI 2, NI 1)).
    { unfold check_edge in Hs. change (g_type exund) with Undirected in Hs. cbv iota beta in Hs. apply orb_true_iff in Hs as [Hs|Hs]; apply dmem_In in Hs; vm_compute in Hs; destruct Hs as [Hs|[]]; injection Hs as <- <-; auto. }
    destruct Hxy as [[= -> ->]|[= -> ->]]; eexists; vm_compute; reflexivity. }
  split; [exists [NI 1; NI 2]; apply walk_step with (b := NI 2); [vm_compute; reflexivity|constructor]|].
  split; [exists [NI 2; NI 1]; apply walk_step with (b := NI 1); [vm_compute; reflexivity|constructor]|]. split; vm_compute; reflexivity.
Qed.
Print Assumptions C30_undirected_refuted.

(** C31: the list returned by floyd_warshall_get_path is a shortest path in which every intermediate node is written three times *)
Theorem C31_get_path : forall g valid distance nextn, wf g -> g_type g = Directed -> has_costs g false -> floyd_warshall g = (g, Ok (valid, distance, nextn)) -> valid = true ->
  forall i j fuel, In i (get_node_list g) -> In j (get_node_list g) -> i <> j -> length (get_node_list g) < fuel ->
  (~ reach (arc g) i j -> floyd_warshall_get_path fuel distance nextn i j g = (g, Ok None)) /\
  (reach (arc g) i j -> exists mids, walk (arc g) i (i :: mids ++ [j]) j /\ NoDup (i :: mids ++ [j]) /\
     least_cost (arc g) (edge_cost g) i j (wcost (edge_cost g) (i :: mids ++ [j])) /\
     floyd_warshall_get_path fuel distance nextn i j g = (g, Ok (Some (i :: flat_map (fun v => [v; v; v]) mids ++ [j])))).
Proof.
  intros g v d n W Dir HC E -> i j fuel Hi Hj Hne Hf. pose proof (floyd_warshall_ok W Dir HC) as H. apply ok_ex in H as (h & r & E' & -> & S & R).
  rewrite E in E'. injection E' as <-. cbn [fst snd] in R. pose proof (arc_nl W Dir) as HA. pose proof (valid_nc W Dir R) as NC. split.
  - intros Hr. destruct R as (s0 & [I0 _] & -> & Rep & _). destruct (fst (pfw (get_node_list g) (get_node_list g) s0) i j) as [z|] eqn:Hz.
    { exfalso. apply Hr, (fin_reach HA I0 Hi Hj Hne). eauto. }
    destruct fuel as [|fuel]; [lia|]. cbn [floyd_warshall_get_path]. destruct (Rep i j Hi Hj) as [R1 _]. cbn [fst] in R1. rewrite Hz in R1. unfold look, lift. rewrite R1. reflexivity.
  - intros Hr. pose proof R as (s0 & [I0 _] & ES & Rep & _). destruct (proj2 (fin_reach HA I0 Hi Hj Hne) Hr) as [z Hz]. pose proof Hz as Hz'. rewrite <- ES in Hz'.
    destruct (get_path_ok W Dir R Hi Hj Hne Hz' Hf) as (mids & M1 & M2 & M3 & M4). exists mids. split; [exact M1|]. split; [exact M3|]. split; [rewrite M2; apply (fin_least HA NC I0 Hi Hj Hne Hz)|].
    apply ok_eq. eapply ok_weaken; [exact M4|]. intros r h [-> ->]. split; reflexivity.
Qed.
Print Assumptions C31_get_path.

(* from a node to itself (no self-loop there) the call raises KeyError: nextn is None *)
Theorem C31_same_node_raises : forall g valid distance nextn, wf g -> g_type g = Directed -> has_costs g false -> floyd_warshall g = (g, Ok (valid, distance, nextn)) -> valid = true ->
  forall i fuel, In i (get_node_list g) -> ~ arc g i i -> 0 < fuel -> floyd_warshall_get_path fuel distance nextn i i g = (g, Err KeyError).
Proof.
  intros g v d n W Dir HC E -> i fuel Hi Hl Hf. destruct (C30_floyd_warshall g W Dir HC) as (v & d' & n' & E' & _ & K). rewrite E in E'. injection E' as <- <- <-.
  assert (Hn : dget n (i, i) = Some None).
  { pose proof (floyd_warshall_ok W Dir HC) as H. apply ok_ex in H as (h & r & E' & -> & S & R). rewrite E in E'. injection E' as <-. cbn [fst snd] in R. pose proof (valid_nc W Dir R) as NC.
    destruct R as (s0 & [I0 I1] & -> & Rep & _). destruct (Rep i i Hi Hi) as [_ R2]. cbn [snd] in R2. rewrite (fin_self NC I0 Hi Hl (I1 i Hi)) in R2. exact R2. }
  specialize (K eq_refl i i Hi Hi (or_intror Hl)). destruct fuel as [|fuel]; [lia|]. cbn [floyd_warshall_get_path]. unfold look, lift, bind.
  destruct (dget d (i, i)) as [[z|]|]; [|exfalso; apply K; exists [i]; constructor|destruct K]. cbn [ret]. rewrite Hn. reflexivity.
Qed.
Print Assumptions C31_same_node_raises.
Definition path_of (g : graph) (fuel : nat) (i j : name) : res (option (list name)) :=
  match snd (floyd_warshall g) with Ok (_, d, n) => snd (floyd_warshall_get_path fuel d n i j g) | Err e => Err e end.
Example C31_nonvacuous : reach (arc exfw) (NI 1) (NI 4) /\ length (get_node_list exfw) < 5 /\ path_of exfw 5 (NI 1) (NI 3) = Ok (Some [NI 1; NI 3]) /\
  path_of exfw 5 (NI 1) (NI 4) = Ok (Some [NI 1; NI 3; NI 3; NI 3; NI 2; NI 2; NI 2; NI 4]) /\ path_of exfw 5 (NI 2) (NI 1) = Ok None /\ path_of exfw 5 (NI 1) (NI 1) = Err KeyError.
Proof.
  split.
  { exists [NI 1; NI 2; NI 4]. apply walk_step with (b := NI 2); [vm_compute; reflexivity|]. apply walk_step with (b := NI 4); [vm_compute; reflexivity|]. constructor. }
  split; [vm_compute; lia|]. repeat split; vm_compute; reflexivity.
Qed.
(* the documented result, the list of nodes on the path, is wrong as soon as the path has two arcs *)
Theorem C31_path_refuted : ~ (forall g i j p fuel, wf g -> g_type g = Directed -> has_costs g false -> path_of g fuel i j = Ok (Some p) -> walk (arc g) i p j).
Proof.
  intros H. assert (K : walk (arc exfw) (NI 1) [NI 1; NI 3; NI 3; NI 3; NI 2; NI 2; NI 2; NI 4] (NI 4)).
  { apply (H exfw (NI 1) (NI 4) _ 5 exfw_wf); [vm_compute; reflexivity|apply all_costs; vm_compute; reflexivity|vm_compute; reflexivity]. }
  inversion K as [|? b ? ? _ K2]; subst. inversion K2 as [|? b' ? ? E2 K3]; subst. inversion K3; subst. clear - E2. vm_compute in E2. discriminate E2.
Qed.
Print Assumptions C31_path_refuted.

(** C32: the lists returned by get_negative_cycle are cycles of the graph; None iff there is no negative cycle.
    [Err]: with fuel for the recursion the only other outcome is an explicit Exception of the code, never a KeyError *)
Theorem C32_cycle : forall g fuel, wf g -> g_type g = Directed -> has_costs g false -> get_node_list g <> [] -> (forall i, arc g i i -> (0 <= edge_cost g i i)%Z) ->
  fst (get_negative_cycle fuel g) = g /\
  match snd (get_negative_cycle fuel g) with
  | Ok None => forall a p, walk (arc g) a p a -> (0 <= wcost (edge_cost g) p)%Z
  | Ok (Some r) => (exists a p, walk (arc g) a p a /\ (wcost (edge_cost g) p < 0)%Z) /\
                   exists e rest, r = e :: rest /\ NoDup r /\ walk (arc g) e (r ++ [e]) e
  | Err x => (exists a p, walk (arc g) a p a /\ (wcost (edge_cost g) p < 0)%Z) /\ (x = OutOfFuel \/ exists m, x = PyException m)
  end.
Proof.
  intros g fuel W Dir HC Hne PL. pose proof (floyd_warshall_ok W Dir HC) as H. apply ok_ex in H as (h & [[v d] n] & E & -> & S & R). cbn [fst snd] in R.
  unfold get_negative_cycle. erewrite bind_ok by reflexivity. destruct (get_node_list g) as [|x0 l0] eqn:El; [congruence|]. rewrite <- El in *. rewrite (bind_ok _ E). destruct v.
  - split; [reflexivity|]. exact (valid_nc W Dir R).
  - assert (Neg : exists a p, walk (arc g) a p a /\ (wcost (edge_cost g) p < 0)%Z).
    { destruct R as (s0 & [I0 _] & -> & Rep & Hv). apply (fin_neg (arc_nl W Dir) I0), Hv. }
    destruct (get_cycle_when W Dir R PL fuel (el' := None) I) as [H1 H2].
    destruct (floyd_warshall_get_cycle fuel d n None g) as [h r] eqn:Er. simpl in H1, H2. subst h. destruct r as [r|x].
    + rewrite (bind_ok _ Er). split; [reflexivity|]. split; [exact Neg|exact H2].
    + rewrite (bind_err _ Er). split; [reflexivity|]. split; [exact Neg|exact H2].
Qed.
Print Assumptions C32_cycle.

Definition exneg : graph := history (new_graph (Some Directed) [])
  [OAddEdge (NI 1) (NI 2) [("cost", VI 1)]; OAddEdge (NI 2) (NI 3) [("cost", VI 2)]; OAddEdge (NI 3) (NI 2) [("cost", VI 5)]; OAddEdge (NI 3) (NI 4) [("cost", VI 1)]; OAddEdge (NI 4) (NI 2) [("cost", VI (-4))]].
Example C32_nonvacuous : g_type exneg = Directed /\ has_costs exneg false /\ get_node_list exneg <> [] /\ (forall i, arc exneg i i -> (0 <= edge_cost exneg i i)%Z) /\
  snd (get_negative_cycle 6 exneg) = Ok (Some [NI 2; NI 3; NI 4]) /\ snd (get_negative_cycle 6 exfw) = Ok None.
Proof.
  split; [vm_compute; reflexivity|]. split; [apply all_costs; vm_compute; reflexivity|]. split; [vm_compute; discriminate|]. split; [|split; vm_compute; reflexivity].
  intros i Hi. unfold arc, check_edge in Hi. change (g_type exneg) with Directed in Hi. cbv iota beta in Hi. apply dmem_In in Hi. vm_compute in Hi.
  repeat destruct Hi as [Hi|Hi]; try (injection Hi; intros; congruence); destruct Hi.
Qed.

(* the returned cycle need not be negative *)
Definition exzero : graph := history (new_graph (Some Directed) [])
  [OAddNode (NI 0) []; OAddNode (NI 1) []; OAddNode (NI 2) []; OAddNode (NI 3) []; OAddNode (NI 4) [];
   OAddEdge (NI 0) (NI 3) [("cost", VI 0)]; OAddEdge (NI 1) (NI 0) [("cost", VI 0)]; OAddEdge (NI 1) (NI 2) [("cost", VI (-1))]; OAddEdge (NI 2) (NI 1) [("cost", VI 0)];
   OAddEdge (NI 3) (NI 0) [("cost", VI 0)]; OAddEdge (NI 3) (NI 4) [("cost", VI 0)]; OAddEdge (NI 4) (NI 2) [("cost", VI 0)]].
Theorem C32_negative_refuted : ~ (forall g fuel r, wf g -> g_type g = Directed -> has_costs g false -> snd (get_negative_cycle fuel g) = Ok (Some r) ->
  exists e rest, r = e :: rest /\ (wcost (edge_cost g) (r ++ [e]) < 0)%Z).
Proof.
  intros H. assert (Er : snd (get_negative_cycle 20 exzero) = Ok (Some [NI 0; NI 3])) by (vm_compute; reflexivity).
  destruct (H exzero 20 [NI 0; NI 3]) as (e & rest & E1 & E2); [| | |exact Er|].
  - refine (proj1 (wf_history (wf_new (Some Directed) []) _)). discriminate.
  - vm_compute; reflexivity.
  - apply all_costs; vm_compute; reflexivity.
  - injection E1 as <- <-. vm_compute in E2. discriminate.
Qed.
Print Assumptions C32_negative_refuted.

(* the cycle can even have a positive cost: here 0, 3, 0 of cost 6 is returned, and 1, 2, 1 costs -4 *)
Definition expos : graph := history (new_graph (Some Directed) [])
  [OAddNode (NI 0) []; OAddNode (NI 1) []; OAddNode (NI 2) []; OAddNode (NI 3) []; OAddNode (NI 4) [];
   OAddEdge (NI 0) (NI 3) [("cost", VI 2)]; OAddEdge (NI 1) (NI 2) [("cost", VI (-1))]; OAddEdge (NI 4) (NI 1) [("cost", VI 0)]; OAddEdge (NI 3) (NI 4) [("cost", VI (-3))]; OAddEdge (NI 2) (NI 0) [("cost", VI 1)]; OAddEdge (NI 3) (NI 0) [("cost", VI 4)]; OAddEdge (NI 2) (NI 1) [("cost", VI (-3))]].
Theorem C32_positive_refuted : exists g fuel r e rest, wf g /\ g_type g = Directed /\ has_costs g false /\ (forall i, ~ arc g i i) /\
  (exists a p, walk (arc g) a p a /\ (wcost (edge_cost g) p < 0)%Z) /\
  snd (get_negative_cycle fuel g) = Ok (Some r) /\ r = e :: rest /\ (0 < wcost (edge_cost g) (r ++ [e]))%Z.
Proof.
  exists expos, 20, [NI 0; NI 3], (NI 0), [NI 3].
  assert (W : wf expos) by (refine (proj1 (wf_history (wf_new (Some Directed) []) _)); discriminate).
  split; [exact W|]. split; [vm_compute; reflexivity|]. split; [apply all_costs; vm_compute; reflexivity|]. split; [|split; [|split; [|split]]].
  - intros i Hi. pose proof (proj1 (check_edge_nodes W Hi)) as Hn. change (In i (get_node_list expos)) in Hn. vm_compute in Hn.
    repeat (destruct Hn as [<-|Hn]; [vm_compute in Hi; discriminate|]). destruct Hn.
  - exists (NI 1), [NI 1; NI 2; NI 1]. split; [|vm_compute; reflexivity].
    apply walk_step with (b := NI 2); [vm_compute; reflexivity|]. apply walk_step with (b := NI 1); [vm_compute; reflexivity|constructor].
  - vm_compute; reflexivity.
  - reflexivity.
  - vm_compute; reflexivity.
Qed.
Print Assumptions C32_positive_refuted.
(* and the call can fail although there is a negative cycle: the search for it moves to a node that is on none *)
Definition exraise : graph := history (new_graph (Some Directed) [])
  [OAddNode (NI 0) []; OAddNode (NI 1) []; OAddNode (NI 2) []; OAddNode (NI 3) []; OAddNode (NI 4) []; OAddNode (NI 5) []; OAddNode (NI 6) [];
   OAddEdge (NI 0) (NI 3) [("cost", VI 2)]; OAddEdge (NI 0) (NI 4) [("cost", VI 1)]; OAddEdge (NI 0) (NI 5) [("cost", VI 2)]; OAddEdge (NI 1) (NI 4) [("cost", VI 1)]; OAddEdge (NI 2) (NI 3) [("cost", VI (-1))]; OAddEdge (NI 3) (NI 0) [("cost", VI (-1))]; OAddEdge (NI 3) (NI 2) [("cost", VI 0)]; OAddEdge (NI 4) (NI 6) [("cost", VI (-1))]; OAddEdge (NI 5) (NI 1) [("cost", VI (-1))]; OAddEdge (NI 6) (NI 0) [("cost", VI 1)]].
Theorem C32_finds_refuted : exists g fuel m, wf g /\ g_type g = Directed /\ has_costs g false /\ (forall i, ~ arc g i i) /\
  (exists a p, walk (arc g) a p a /\ (wcost (edge_cost g) p < 0)%Z) /\
  snd (get_negative_cycle fuel g) = Err (PyException m).
Proof.
  exists exraise, 10, "Graph does not have a negative cycle that contains node".
  assert (W : wf exraise) by (refine (proj1 (wf_history (wf_new (Some Directed) []) _)); discriminate).
  split; [exact W|]. split; [vm_compute; reflexivity|]. split; [apply all_costs; vm_compute; reflexivity|]. split; [|split].
  - intros i Hi. pose proof (proj1 (check_edge_nodes W Hi)) as Hn. change (In i (get_node_list exraise)) in Hn. vm_compute in Hn.
    repeat (destruct Hn as [<-|Hn]; [vm_compute in Hi; discriminate|]). destruct Hn.
  - exists (NI 2), [NI 2; NI 3; NI 2]. split; [|vm_compute; reflexivity].
    apply walk_step with (b := NI 3); [vm_compute; reflexivity|]. apply walk_step with (b := NI 2); [vm_compute; reflexivity|constructor].
  - vm_compute. reflexivity.
Qed.
Print Assumptions C32_finds_refuted.

(* a negative self-loop: KeyError *)
Theorem C32_negative_loop_raises : exists g, wf g /\ g_type g = Directed /\ has_costs g false /\ (exists a p, walk (arc g) a p a /\ (wcost (edge_cost g) p < 0)%Z) /\
  forall fuel, snd (get_negative_cycle (S fuel) g) = Err KeyError.
Proof.
  exists (history (new_graph (Some Directed) []) [OAddEdge (NI 1) (NI 1) [("cost", VI (-1))]]).
  split; [refine (proj1 (wf_history (wf_new (Some Directed) []) _)); discriminate|]. split; [vm_compute; reflexivity|]. split; [apply all_costs; vm_compute; reflexivity|]. split.
  - exists (NI 1), [NI 1; NI 1]. split; [apply walk_step with (b := NI 1); [vm_compute; reflexivity|constructor]|vm_compute; reflexivity].
  - intros fuel. vm_compute. reflexivity.
Qed.
Print Assumptions C32_negative_loop_raises.
(* the empty graph: IndexError (nl[0]) *)
Theorem C32_empty_raises : forall g fuel, get_node_list g = [] -> get_negative_cycle fuel g = (g, Err IndexError).
Proof. intros g fuel H. unfold get_negative_cycle. erewrite bind_ok by reflexivity. rewrite H. reflexivity. Qed.
Print Assumptions C32_empty_raises.
