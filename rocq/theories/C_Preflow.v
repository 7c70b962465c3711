(* Property theorems C29 and C59: Graph.max_flow_preflowpush. [frs] is the container of the search from the sink
   (a Queue: [fifo]), [fr] the container of active nodes (Queue, Stack or PriorityQueue: [bag]) and
   [held q x] says that q.peek(x) is not None. *)
From Verif Require Import Py Util M_Graph M_Search M_Flow M_Preflow P_Graph P_GraphLaws P_Attr Spec P_Walk S_Frontier P_Frontier P_SearchTop S_Flow S_GraphFlow P_Flow P_EdgeFrame P_MaxFlow P_Residual P_Fuel P_PreflowAbs P_Preflow P_PreflowTop C_Flow C_Search.
Local Open Scope string_scope. Local Open Scope list_scope.

(* what the call leaves behind *)
Definition preflow_result (g : graph) (source sink : name) (display : option val) (h : graph) : Prop :=
  (forall x y, In (x, y) (get_edge_list g) -> exists f, obs (get_edge_attr x y "flow") h = Ok (VI f)) /\
  (forall x y, In (x, y) (get_edge_list g) -> obs (get_edge_attr x y "capacity") h = Ok (VI (cap_of g (x, y)))) /\
  (* the stored flow is feasible, maximum, and its value is the capacity of a cut *)
  is_flow (get_edge_list g) (cap_of g) source sink (flow_of h) /\
  (forall f, is_flow (get_edge_list g) (cap_of g) source sink f -> (value (get_edge_list g) sink f <= value (get_edge_list g) sink (flow_of h))%Z) /\
  (exists S, S source = true /\ S sink = false /\ value (get_edge_list g) sink (flow_of h) = cut_capacity (get_edge_list g) (cap_of g) S) /\
  (* what else changes *)
  get_node_list h = get_node_list g /\ get_edge_list h = get_edge_list g /\ g_type h = g_type g /\
  (forall x a, ~ In a ["excess"; "distance"; "label"; "color"; "component"; "priority"; "depth"] -> obs (get_node_attr x a) h = obs (get_node_attr x a) g) /\
  (forall x y a, ~ In a ["flow"; "capacity"; "label"; "color"] -> obs (get_edge_attr x y a) h = obs (get_edge_attr x y a) g) /\
  (forall a, a <> "display" -> dget (g_attr h) a = dget (g_attr g) a) /\
  dget (g_attr h) "display" = match display with Some v => Some v | None => dget (g_attr g) "display" end.

Lemma obs_of_eattr g x y a : obs (get_edge_attr x y a) g = match eattr g x y a with Some v => Ok v | None => Err KeyError end.
Proof. rewrite eattr_obs. unfold obs, get_edge_attr. cbn [snd]. destruct (g_type g), (match dget (g_edges g) (x, y) with Some d => dget d a | None => None end); try reflexivity.
  destruct (match dget (g_edges g) (y, x) with Some d => dget d a | None => None end); reflexivity. Qed.
Lemma done_result g s t display h : wf g -> g_type g = Directed -> nonneg_caps g -> In s (get_node_list g) -> In t (get_node_list g) -> s <> t ->
  done g s t display h -> preflow_result g s t display h.
Proof.
  intros W D NC Hs Ht Hst (f & e & d & [P _] & I & Hx).
  pose proof (final (wf_nd W) (arc_nodes W D) Hs Ht Hst I Hx) as [Fl (S & S1 & S2 & Hv)].
  pose proof (pf_fr P) as Fr.
  assert (Ef : forall a, In a (get_edge_list g) -> f a = flow_of h a) by (intros [x y] Ha; unfold flow_of; cbn [fst snd]; rewrite (pf_flow P Ha); reflexivity).
  assert (Fl' : is_flow (get_edge_list g) (cap_of g) s t (flow_of h)) by (apply (is_flow_ext (f := f) (c := cap_of g)); [exact Ef|reflexivity|exact Fl]).
  assert (Ev : value (get_edge_list g) t (flow_of h) = value (get_edge_list g) t f) by (unfold value; symmetry; apply (net_ext t Ef)).
  assert (Cut : value (get_edge_list g) t (flow_of h) = cut_capacity (get_edge_list g) (cap_of g) S) by congruence.
  assert (Ok_of : forall x y a v, eattr h x y a = Some v -> obs (get_edge_attr x y a) h = Ok v) by (intros x y a v; rewrite eattr_obs; destruct (obs (get_edge_attr x y a) h); congruence).
  split; [intros x y He; exists (f (x, y)); apply Ok_of, (pf_flow P He)|]. split; [intros x y He; apply Ok_of, (pf_cap P He)|].
  split; [exact Fl'|]. split. { intros f' Hf'. rewrite Cut. apply (weak_duality Hf' S1 S2). }
  split; [exists S; auto|]. split; [apply (ss_node_list (pr_shape Fr))|]. split; [unfold get_edge_list; apply (ss_edges (pr_shape Fr))|]. split; [apply (ss_type (pr_shape Fr))|].
  split. { intros x a Ha. pose proof (pr_nodes Fr x Ha) as A. pose proof (ss_nodes (pr_shape Fr)) as K. rewrite !obs_node_attr. unfold nattr in A.
    destruct (dget (g_nodes h) x) as [dh|] eqn:E1, (dget (g_nodes g) x) as [dg|] eqn:E2; try reflexivity.
    - rewrite A. reflexivity.
    - apply dget_Some_keys in E1. apply dget_None in E2. rewrite K in E1. contradiction.
    - apply dget_Some_keys in E2. apply dget_None in E1. rewrite K in E1. contradiction. }
  split. { intros x y a Ha. rewrite !obs_of_eattr, (pr_edges Fr x y Ha). reflexivity. }
  split; [apply (pr_attr Fr)|]. exact (pf_dm P).
Qed.

(** C29: when the call returns, the flow is feasible and maximum - for all three selection rules, with
    antiparallel arcs and nodes not connected to the sink allowed; it raises no exception *)
Theorem C29_preflow_maximum : forall (frs fr : frontier) (elss : fq frs -> list name) (els : fq fr -> list name) (held : fq fr -> name -> bool)
    (al : pf_algo) (g : graph) (s0 : fq frs) (q0 : fq fr) (source sink : name) (display : option val) (fuel : nat),
  fifo elss -> fq_is_pq frs = false -> elss s0 = [] ->
  bag els -> (forall q x, held q x = true <-> In x (els q)) -> els q0 = [] -> (al = HighestLabel -> fq_is_pq fr = true) ->
  al <> OtherPreflow -> wf g -> g_type g = Directed -> int_caps g -> nonneg_caps g ->
  In source (get_node_list g) -> In sink (get_node_list g) -> source <> sink -> ~ In (source, source) (get_edge_list g) ->
  (display = None -> dget (g_attr g) "display" <> None) -> enough g fuel ->
  obs (max_flow_preflowpush held fuel s0 q0 source sink al display) g = Err OutOfFuel \/
  exists h, max_flow_preflowpush held fuel s0 q0 source sink al display g = (h, Ok tt) /\ preflow_result g source sink display h.
Proof.
  intros frs fr elss els held al g s0 q0 s t display fuel Fs Fnp Hs0 B Held Hq0 Hpq Hal W D IC NC Hs Ht Hst Hss Hdm Hf.
  destruct (preflow_partial Fs Fnp B Held Hal Hpq W D IC NC Hs Ht Hst Hss Hf Hs0 Hq0 Hdm) as [O|O]; [left; exact O|right].
  apply ok_ex in O as (h & [] & E & Hd). exists h. split; [exact E|]. apply (done_result g s t display h W D NC Hs Ht Hst Hd).
Qed.
Print Assumptions C29_preflow_maximum.
(** it returns if no two nodes have arcs in both directions, the source reaches the sink, and so does every node that an arc
    from the source leads to (an arc of capacity 0 does not count); dead ends further on are allowed *)
Theorem C29_preflow_terminates : forall (frs fr : frontier) (elss : fq frs -> list name) (els : fq fr -> list name) (held : fq fr -> name -> bool)
    (al : pf_algo) (g : graph) (s0 : fq frs) (q0 : fq fr) (source sink : name) (display : option val),
  fifo elss -> fq_is_pq frs = false -> elss s0 = [] ->
  bag els -> (forall q x, held q x = true <-> In x (els q)) -> els q0 = [] -> (al = HighestLabel -> fq_is_pq fr = true) ->
  al <> OtherPreflow -> wf g -> g_type g = Directed -> int_caps g -> nonneg_caps g ->
  In source (get_node_list g) -> In sink (get_node_list g) -> source <> sink -> ~ In (source, source) (get_edge_list g) ->
  (display = None -> dget (g_attr g) "display" <> None) ->
  no_antiparallel g -> reach (arc g) source sink ->
  (forall x, arc g source x -> obs (get_edge_attr source x "capacity") g <> Ok (VI 0) -> reach (arc g) x sink) ->
  exists k, forall fuel, k <= fuel ->
    exists h, max_flow_preflowpush held fuel s0 q0 source sink al display g = (h, Ok tt) /\ preflow_result g source sink display h.
Proof.
  intros frs fr elss els held al g s0 q0 s t display Fs Fnp Hs0 B Held Hq0 Hpq Hal W D IC NC Hs Ht Hst Hss Hdm NA Hr Hall'.
  assert (Hall : forall x, In (s, x) (get_edge_list g) -> (0 < cap_of g (s, x))%Z -> reach (arc g) x t).
  { intros x Hx Hc. apply Hall'; [apply (arc_listed _ _ D), Hx|]. intros E. unfold cap_of in Hc. cbn [fst snd] in Hc. rewrite eattr_obs, E in Hc. lia. }
  exists (length (get_node_list g) + 2 * length (get_edge_list g) + 2 + S (Z.to_nat (mu_max g))). intros fuel Hk.
  assert (Hf : enough g fuel) by (unfold enough; lia). assert (Hmu : (mu_max g < Z.of_nat fuel)%Z) by lia.
  pose proof (preflow_total Fs Fnp B Held Hal Hpq W D IC NC Hs Ht Hst Hss Hf Hs0 Hq0 Hdm NA Hr Hall Hmu) as O.
  apply ok_ex in O as (h & [] & E & Hd). exists h. split; [exact E|]. apply (done_result g s t display h W D NC Hs Ht Hst Hd).
Qed.
Print Assumptions C29_preflow_terminates.

(** C59: what the call leaves on the picture (whatever show_flow wrote last is up to date): every node is
    labelled excess/distance and every arc capacity/flow; a full arc is red, any other arc is green if it
    carries flow and black if not *)
Definition preflow_picture (g : graph) (source sink : name) (h : graph) : Prop :=
  (forall x, In x (get_node_list g) -> exists e d : Z,
     obs (get_node_attr x "excess") h = Ok (VI e) /\ obs (get_node_attr x "distance") h = Ok (VI d) /\
     obs (get_node_attr x "label") h = Ok (VS (str_val (VI e) ++ "/" ++ str_val (VI d))) /\
     (* the excess is what enters minus what leaves *)
     e = net (get_edge_list g) (flow_of h) x /\ (x <> source -> x <> sink -> e = 0%Z) /\
     (0 <= d)%Z /\ (x = source -> d = Z.of_nat (length (get_node_list g))) /\ (x = sink -> d = 0%Z)) /\
  (forall x y, In (x, y) (get_edge_list g) -> exists c f : Z,
     obs (get_edge_attr x y "capacity") h = Ok (VI c) /\ obs (get_edge_attr x y "flow") h = Ok (VI f) /\
     obs (get_edge_attr x y "label") h = Ok (VS ((if (c =? 10000)%Z then "INF" else str_val (VI c)) ++ "/" ++ str_val (VI f))) /\
     (f = c -> obs (get_edge_attr x y "color") h = Ok (VS "red")) /\
     (f <> c -> (0 < f)%Z -> obs (get_edge_attr x y "color") h = Ok (VS "green")) /\
     (f <> c -> (f <= 0)%Z -> obs (get_edge_attr x y "color") h = Ok (VS "black"))).
Lemma done_picture g s t display h : wf g -> s <> t -> done g s t display h -> preflow_picture g s t h.
Proof.
  intros W Hst (f & e & d & [P [Sn Sa]] & I & Hx).
  assert (Ef : forall a, In a (get_edge_list g) -> f a = flow_of h a) by (intros [x y] Ha; unfold flow_of; cbn [fst snd]; rewrite (pf_flow P Ha); reflexivity).
  split.
  - intros x Hn. assert (Hk : In x (dkeys (g_nodes h))) by (apply (pf_node_keys W P Hn)). exists (e x), (d x). rewrite !(obs_nattr _ Hk).
    split; [rewrite (pf_ex P Hn); reflexivity|]. split; [rewrite (pf_di P Hn); reflexivity|]. split; [rewrite (Sn x Hn); reflexivity|].
    split; [rewrite (iv_excess I Hn); apply (net_ext x Ef)|]. split; [|split; [apply (iv_dpos I Hn)|split; intros ->; [apply (iv_s I)|apply (iv_t I)]]].
    intros H1 H2. pose proof (iv_pos I Hn H1). pose proof (Hx x Hn H1 H2). lia.
  - intros x y He. exists (cap_of g (x, y)), (f (x, y)). destruct (Sa x y He) as [L C]. rewrite !obs_of_eattr, (pf_cap P He), (pf_flow P He), L, C.
    split; [reflexivity|]. split; [reflexivity|]. split; [reflexivity|]. unfold arc_color. destruct (Z.eqb_spec (cap_of g (x, y)) (f (x, y))) as [K|K].
    + split; [reflexivity|]. split; intros; congruence.
    + split; [congruence|]. split; intros _ Hf; destruct (Z.gtb_spec (f (x, y)) 0); try reflexivity; lia.
Qed.
Theorem C59_preflow_picture : forall (frs fr : frontier) (elss : fq frs -> list name) (els : fq fr -> list name) (held : fq fr -> name -> bool)
    (al : pf_algo) (g : graph) (s0 : fq frs) (q0 : fq fr) (source sink : name) (display : option val) (fuel : nat),
  fifo elss -> fq_is_pq frs = false -> elss s0 = [] ->
  bag els -> (forall q x, held q x = true <-> In x (els q)) -> els q0 = [] -> (al = HighestLabel -> fq_is_pq fr = true) ->
  al <> OtherPreflow -> wf g -> g_type g = Directed -> int_caps g -> nonneg_caps g ->
  In source (get_node_list g) -> In sink (get_node_list g) -> source <> sink -> ~ In (source, source) (get_edge_list g) ->
  (display = None -> dget (g_attr g) "display" <> None) -> enough g fuel ->
  obs (max_flow_preflowpush held fuel s0 q0 source sink al display) g = Err OutOfFuel \/
  exists h, max_flow_preflowpush held fuel s0 q0 source sink al display g = (h, Ok tt) /\ preflow_picture g source sink h.
Proof.
  intros frs fr elss els held al g s0 q0 s t display fuel Fs Fnp Hs0 B Held Hq0 Hpq Hal W D IC NC Hs Ht Hst Hss Hdm Hf.
  destruct (preflow_partial Fs Fnp B Held Hal Hpq W D IC NC Hs Ht Hst Hss Hf Hs0 Hq0 Hdm) as [O|O]; [left; exact O|right].
  apply ok_ex in O as (h & [] & E & Hd). exists h. split; [exact E|]. apply (done_picture g s t display h W Hst Hd).
Qed.
Print Assumptions C59_preflow_picture.

(* the three containers, and the network of C26 *)
Definition held_list (q : list name) (x : name) : bool := mem x q.
Definition held_pq (q : fq pqueue) (x : name) : bool := mem x (dkeys (proj1_sig q)).
Example C29_nonvacuous :
  fifo (fr := queue) (fun q => q) /\ fq_is_pq queue = false /\ bag (fr := queue) (fun q => q) /\ bag (fr := stack) (fun q => q) /\ (bag (fr := pqueue) (fun q => dkeys (proj1_sig q)) /\ fq_is_pq pqueue = true) /\
  (forall q x, held_list q x = true <-> In x q) /\ (forall q x, held_pq q x = true <-> In x (dkeys (proj1_sig q))) /\
  wf exf /\ g_type exf = Directed /\ int_caps exf /\ nonneg_caps exf /\ no_antiparallel exf /\ In (NS "s") (get_node_list exf) /\ In (NS "t") (get_node_list exf) /\
  ~ In (NS "s", NS "s") (get_edge_list exf) /\ (forall x, In x (get_node_list exf) -> reach (arc exf) x (NS "t")) /\ enough exf 60 /\
  map (flow_of (fst (max_flow_preflowpush (fr := queue) held_list 60 ([] : fq queue) [] (NS "s") (NS "t") FIFO None exf))) (get_edge_list exf) = [2; 2; 2; 2; 0; 2; 2]%Z /\
  map (flow_of (fst (max_flow_preflowpush (fr := stack) held_list 60 ([] : fq queue) [] (NS "s") (NS "t") SAP None exf))) (get_edge_list exf) = [2; 2; 2; 2; 0; 2; 2]%Z /\
  map (flow_of (fst (max_flow_preflowpush held_pq 60 ([] : fq queue) empty_pq (NS "s") (NS "t") HighestLabel (Some (VS "off")) exf))) (get_edge_list exf) = [2; 2; 2; 2; 0; 2; 2]%Z /\
  obs (max_flow_preflowpush held_pq 60 ([] : fq queue) empty_pq (NS "s") (NS "t") HighestLabel (Some (VS "off"))) exf = Ok tt.
Proof.
  destruct (all_caps exf) as [H1 H2]; [vm_compute; reflexivity|].
  refine (conj queue_fifo (conj eq_refl (conj (fifo_bag queue_fifo) (conj stack_bag (conj (conj (pq_bag pqueue_prioq) eq_refl) (conj _ (conj _ (conj exf_wf (conj _ (conj H1 (conj H2 (conj _ (conj _ (conj _ (conj _ (conj _ (conj _ _))))))))))))))))).
  - intros q x. unfold held_list. destruct (mem_spec x q); intuition congruence.
  - intros q x. unfold held_pq. destruct (mem_spec x (dkeys (proj1_sig q))); intuition congruence.
  - vm_compute; reflexivity.
  - apply all_single. vm_compute. reflexivity.
  - vm_compute; auto.
  - vm_compute; auto 10.
  - vm_compute. intuition congruence.
  - assert (R : forall x y, check_edge exf x y = true -> reach (arc exf) y (NS "t") -> reach (arc exf) x (NS "t")) by (intros x y H [p Hp]; exists (x :: p); econstructor; [exact H|exact Hp]).
    assert (Rt : reach (arc exf) (NS "t") (NS "t")) by (exists [NS "t"]; constructor).
    assert (Ry : reach (arc exf) (NS "y") (NS "t")) by (apply (R _ (NS "t")); [vm_compute; reflexivity|exact Rt]).
    assert (Rb : reach (arc exf) (NS "b") (NS "t")) by (apply (R _ (NS "t")); [vm_compute; reflexivity|exact Rt]).
    assert (Ra : reach (arc exf) (NS "a") (NS "t")) by (apply (R _ (NS "y")); [vm_compute; reflexivity|exact Ry]).
    assert (Rx : reach (arc exf) (NS "x") (NS "t")) by (apply (R _ (NS "b")); [vm_compute; reflexivity|exact Rb]).
    assert (Rs : reach (arc exf) (NS "s") (NS "t")) by (apply (R _ (NS "a")); [vm_compute; reflexivity|exact Ra]).
    intros x Hx. vm_compute in Hx. repeat (destruct Hx as [<-|Hx]; [assumption|]). destruct Hx.
  - vm_compute. lia.
  - split; [vm_compute; reflexivity|]. split; [vm_compute; reflexivity|]. split; vm_compute; reflexivity.
Qed.

(* the termination theorem with a dead end behind a and an arc of capacity 0 from s into another one *)
Definition exdead : graph := history (new_graph (Some Directed) [])
  [OAddEdge (NS "s") (NS "a") [("capacity", VI 5)]; OAddEdge (NS "a") (NS "z") [("capacity", VI 2)]; OAddEdge (NS "z") (NS "w") [];
   OAddEdge (NS "s") (NS "w") [("capacity", VI 0)]; OAddEdge (NS "a") (NS "t") [("capacity", VI 2)]].
Example C29_terminates_nonvacuous :
  wf exdead /\ g_type exdead = Directed /\ int_caps exdead /\ nonneg_caps exdead /\ no_antiparallel exdead /\
  In (NS "s") (get_node_list exdead) /\ In (NS "t") (get_node_list exdead) /\ ~ In (NS "s", NS "s") (get_edge_list exdead) /\
  reach (arc exdead) (NS "s") (NS "t") /\
  (forall x, arc exdead (NS "s") x -> obs (get_edge_attr (NS "s") x "capacity") exdead <> Ok (VI 0) -> reach (arc exdead) x (NS "t")) /\
  ~ reach (arc exdead) (NS "z") (NS "t") /\
  map (flow_of (fst (max_flow_preflowpush (fr := queue) held_list 60 ([] : fq queue) [] (NS "s") (NS "t") FIFO None exdead))) (get_edge_list exdead) = [2; 0; 0; 0; 2]%Z /\
  obs (max_flow_preflowpush (fr := queue) held_list 60 ([] : fq queue) [] (NS "s") (NS "t") FIFO None) exdead = Ok tt.
Proof.
  destruct (all_caps exdead) as [H1 H2]; [vm_compute; reflexivity|].
  assert (R : forall x y, check_edge exdead x y = true -> reach (arc exdead) y (NS "t") -> reach (arc exdead) x (NS "t")) by (intros x y H [p Hp]; exists (x :: p); econstructor; [exact H|exact Hp]).
  assert (Rt : reach (arc exdead) (NS "t") (NS "t")) by (exists [NS "t"]; constructor).
  assert (Ra : reach (arc exdead) (NS "a") (NS "t")) by (apply (R _ (NS "t")); [vm_compute; reflexivity|exact Rt]).
  assert (W : wf exdead) by (refine (proj1 (wf_history (wf_new (Some Directed) []) _)); discriminate).
  assert (D : g_type exdead = Directed) by reflexivity.
  refine (conj W (conj D (conj H1 (conj H2 (conj _ (conj _ (conj _ (conj _ (conj _ (conj _ (conj _ (conj _ _)))))))))))).
  - apply all_single. vm_compute. reflexivity.
  - vm_compute; auto.
  - vm_compute; auto 10.
  - vm_compute. intuition congruence.
  - apply (R _ (NS "a")); [vm_compute; reflexivity|exact Ra].
  - intros x Hx Hc. apply (arc_listed _ _ D) in Hx. vm_compute in Hx.
    repeat (destruct Hx as [Hx|Hx]; [try discriminate Hx; injection Hx as <-; first [exact Ra | exfalso; apply Hc; vm_compute; reflexivity]|]). destruct Hx.
  - intros [p Hp].
    assert (K : forall x y q, walk (arc exdead) x q y -> In x [NS "z"; NS "w"] -> In y [NS "z"; NS "w"]).
    { induction 1 as [|x y z q Ha Hw IH]; [auto|]. intros Hx. apply IH. apply (arc_listed _ _ D) in Ha. vm_compute in Ha. destruct Hx as [<-|[<-|[]]]; intuition congruence || (simpl; intuition congruence). }
    specialize (K _ _ _ Hp (or_introl eq_refl)). simpl in K. intuition congruence.
  - vm_compute. reflexivity.
  - vm_compute. reflexivity.
Qed.

(* C59 on the network of C58 and on the network of C26, whose hypotheses are those of C29_nonvacuous *)
Example C59_nonvacuous :
  let h := fst (max_flow_preflowpush (fr := queue) held_list 60 ([] : fq queue) [] (NS "s") (NS "t") FIFO None excut) in
  obs (max_flow_preflowpush (fr := queue) held_list 60 ([] : fq queue) [] (NS "s") (NS "t") FIFO None) excut = Ok tt /\ enough excut 60 /\
  map (fun x => obs (get_node_attr (NS x) "label") h) ["s"; "a"; "b"; "t"] = map (fun l => Ok (VS l)) ["-7/4"; "0/5"; "0/5"; "7/0"] /\
  map (fun e => obs (get_edge_attr (NS (fst e)) (NS (snd e)) "label") h) [("s", "a"); ("a", "t"); ("s", "b"); ("b", "t")] = map (fun l => Ok (VS l)) ["5/3"; "3/3"; "INF/4"; "4/4"] /\
  map (fun e => obs (get_edge_attr (NS (fst e)) (NS (snd e)) "color") h) [("s", "a"); ("a", "t"); ("s", "b"); ("b", "t")] = map (fun l => Ok (VS l)) ["green"; "red"; "green"; "red"].
Proof. split; [vm_compute; reflexivity|]. split; [vm_compute; lia|]. split; [vm_compute; reflexivity|]. split; vm_compute; reflexivity. Qed.

(* every other value of algo raises NameError *)
Theorem C29_unknown_algo : forall (frs fr : frontier) held (g : graph) (s0 : fq frs) (q0 : fq fr) source sink display fuel h,
  snd (max_flow_preflowpush held fuel s0 q0 source sink OtherPreflow display g) <> Ok h.
Proof.
  intros frs fr held g s0 q0 source sink display fuel h. unfold max_flow_preflowpush.
  assert (K : forall A B (m : M graph A) (k : A -> M graph B) x, (forall a s, snd (k a s) <> Ok x) -> forall s, snd (bind m k s) <> Ok x).
  { intros A B m k x Hk s. unfold bind. destruct (m s) as [s' [a|e]]; [apply Hk|discriminate]. }
  repeat (apply K; intros ? ?). discriminate.
Qed.
Print Assumptions C29_unknown_algo.
(* where the container is created and nothing else happens differently *)
Definition same_but {A B} (m : M graph A) (m' : M graph B) : Prop :=
  forall h, fst (m h) = fst (m' h) /\ match snd (m h), snd (m' h) with Ok _, Ok _ => True | Err e, Err e' => e = e' | _, _ => False end.
Lemma same_but_bind {A B C} (m : M graph A) (k : A -> M graph B) (k' : A -> M graph C) : (forall a, same_but (k a) (k' a)) -> same_but (bind m k) (bind m k').
Proof. intros H h. unfold bind. destruct (m h) as [h' [a|e]]; [apply H|split; reflexivity]. Qed.
Lemma same_but_bind2 {A A' B C} (m : M graph A) (m' : M graph A') (k : A -> M graph B) (k' : A' -> M graph C) :
  same_but m m' -> (forall a b, same_but (k a) (k' b)) -> same_but (bind m k) (bind m' k').
Proof. intros Hm H h. destruct (Hm h) as [H1 H2]. unfold bind. destruct (m h) as [h1 [a|e]], (m' h) as [h2 [b|e']]; cbn [fst snd] in *; subst; try contradiction; [apply H|split; reflexivity]. Qed.
Lemma saturate_same (fr : frontier) s (q0 : fq fr) (q1 : fq queue) : same_but (saturate OtherPreflow s q0) (saturate (fr := queue) FIFO s q1).
Proof.
  unfold saturate. apply same_but_bind. intros l. revert q0 q1. induction l as [|n l IH]; intros q0 q1; [intros h; split; [reflexivity|exact I]|]. cbn [foldM].
  apply same_but_bind2; [|intros; apply IH]. repeat (apply same_but_bind; intros ?). intros h1. split; [reflexivity|exact I].
Qed.
(* with the hypotheses of C29_preflow_maximum it is a NameError, and it is raised after the arcs out of the source have been filled *)
Theorem C29_unknown_algo_raises : forall (frs fr : frontier) (elss : fq frs -> list name) held (g : graph) (s0 : fq frs) (q0 : fq fr) source sink display fuel,
  fifo elss -> fq_is_pq frs = false -> elss s0 = [] -> wf g -> g_type g = Directed -> int_caps g -> nonneg_caps g ->
  In source (get_node_list g) -> In sink (get_node_list g) -> source <> sink -> ~ In (source, source) (get_edge_list g) ->
  (display = None -> dget (g_attr g) "display" <> None) -> enough g fuel ->
  exists h, max_flow_preflowpush held fuel s0 q0 source sink OtherPreflow display g = (h, Err NameError) /\
    get_node_list h = get_node_list g /\ get_edge_list h = get_edge_list g /\
    forall x y, In (x, y) (get_edge_list g) -> flow_of h (x, y) = if eqb x source then cap_of g (x, y) else 0%Z.
Proof.
  intros frs fr elss held g s0 q0 s t display fuel Fs Fnp Hs0 W D IC NC Hs Ht Hst Hss Hdm Hf.
  destruct (ok_ex (prelude_ok (al := FIFO) (q0 := ([] : fq queue)) Fs Fnp (fifo_bag queue_fifo) ltac:(discriminate) ltac:(discriminate) W D IC NC Hs Ht Hst Hss Hf Hs0 eq_refl Hdm)) as (h & q & E & d & f & e & L & [P _] & I & G1 & G2 & _).
  exists h. split.
  - assert (K : same_but (max_flow_preflowpush held fuel s0 q0 s t OtherPreflow display) (bind (prelude (fr := queue) FIFO s t fuel s0 [] display) (fun _ => fail NameError : M graph unit))).
    { unfold max_flow_preflowpush, prelude. do 8 (intros h0; rewrite bind_assoc; revert h0; apply same_but_bind; intros ?).
      intros h0; rewrite bind_assoc; revert h0. apply same_but_bind2; [apply saturate_same|]. intros q' q''.
      do 2 (intros h0; rewrite bind_assoc; revert h0; apply same_but_bind; intros ?). intros h0. split; reflexivity. }
    destruct (K g) as [K1 K2]. rewrite (bind_ok _ E) in K1, K2. cbn [fst snd fail] in K1, K2.
    destruct (max_flow_preflowpush held fuel s0 q0 s t OtherPreflow display g) as [h' [u|e']]; cbn [fst snd] in *; [contradiction|]. rewrite K1, K2. reflexivity.
  - pose proof (pf_fr P) as Fr. split; [apply (ss_node_list (pr_shape Fr))|]. split; [unfold get_edge_list; apply (ss_edges (pr_shape Fr))|].
    intros x y Ha. unfold flow_of. cbn [fst snd]. rewrite (pf_flow P Ha). destruct (eqb_spec x s) as [->|Hx]; [apply G2, Ha|].
    pose proof (iv_bounds (P_PreflowLoop.li_inv I) Ha). destruct (Z_lt_le_dec 0 (f (x, y))) as [K|K]; [apply (G1 _ _ Ha) in K; contradiction|lia].
Qed.
Print Assumptions C29_unknown_algo_raises.
(* on the network of C29_nonvacuous, which meets the hypotheses *)
Example C29_unknown_nonvacuous :
  obs (max_flow_preflowpush (fr := queue) held_list 60 ([] : fq queue) [] (NS "s") (NS "t") OtherPreflow None) exf = Err NameError /\
  map (flow_of (fst (max_flow_preflowpush (fr := queue) held_list 60 ([] : fq queue) [] (NS "s") (NS "t") OtherPreflow None exf))) (get_edge_list exf) = [2; 2; 0; 0; 0; 0; 0]%Z.
Proof. split; vm_compute; reflexivity. Qed.

(* the call does not return on 0 -> 1, 1 -> 0, 1 -> 2 with capacities 2, 1, 0: the arc 1 -> 0 hides the residual arc of 0 -> 1 *)
Definition pf_anti : graph := history (new_graph (Some Directed) [])
  [OAddEdge (NI 0) (NI 1) [("capacity", VI 2)]; OAddEdge (NI 1) (NI 0) [("capacity", VI 1)]; OAddEdge (NI 1) (NI 2) [("capacity", VI 0)]].
(* nor on 0 -> 0, 0 -> 1, 1 -> 2 with capacities 0, 1, 0: the source is relabelled *)
Definition pf_self : graph := history (new_graph (Some Directed) [])
  [OAddEdge (NI 0) (NI 0) [("capacity", VI 0)]; OAddEdge (NI 0) (NI 1) [("capacity", VI 1)]; OAddEdge (NI 1) (NI 2) [("capacity", VI 0)]].
Lemma search_more (fr : frontier) k j s dest co (q0 : fq fr) al rev : k <= j -> more (search k s dest co q0 al rev) (search j s dest co q0 al rev).
Proof.
  intros H. unfold search. destruct al; try apply more_refl;
  (apply more_bind; [apply more_refl|]; intros ?; apply more_bind; [apply more_refl|]; intros ?; apply more_bind; [apply more_refl|]; intros ?;
   apply more_bind; [apply more_refl|]; intros ?; apply more_bind; [apply more_refl|]; intros ?;
   apply more_bind; [destruct (eqb _ _); [apply more_refl|apply more_loop; [intros; apply more_refl|exact H]]|];
   intros [found pred]; destruct dest; [|apply more_refl]; destruct found; [|apply more_refl];
   apply more_bind; [apply more_loop; [intros; apply more_refl|exact H]|intros; apply more_refl]).
Qed.
Lemma prelude_more (frs fr : frontier) al s t k j (s0 : fq frs) (q0 : fq fr) display : k <= j -> more (prelude al s t k s0 q0 display) (prelude al s t j s0 q0 display).
Proof.
  intros H. unfold prelude. do 5 (apply more_bind; [apply more_refl|]; intros ?). apply more_bind; [apply search_more, H|]. intros ?. apply more_refl.
Qed.
Lemma three_steps {S L R} (body : L -> M S (L + R)) l s l1 s1 l2 s2 l3 s3 fuel : body l s = (s1, Ok (inl l1)) -> body l1 s1 = (s2, Ok (inl l2)) -> body l2 s2 = (s3, Ok (inl l3)) ->
  body l3 s3 = (s3, Ok (inl l3)) -> snd (loop fuel body l s) = Err OutOfFuel.
Proof.
  intros H1 H2 H3 H4. destruct fuel as [|fuel]; [reflexivity|]. cbn [loop]. rewrite (bind_ok _ H1). destruct fuel as [|fuel]; [reflexivity|]. cbn [loop]. rewrite (bind_ok _ H2).
  destruct fuel as [|fuel]; [reflexivity|]. cbn [loop]. rewrite (bind_ok _ H3). rewrite (loop_fixed fuel H4). reflexivity.
Qed.
Lemma pf_diverges (g : graph) (fuel : nat) : g = pf_anti \/ g = pf_self ->
  obs (max_flow_preflowpush (fr := queue) held_list fuel ([] : fq queue) [] (NI 0) (NI 2) FIFO None) g = Err OutOfFuel.
Proof.
  intros Hg. destruct (le_lt_dec fuel 19) as [Hle|Hlt].
  { destruct Hg as [-> | ->]; do 20 (destruct fuel as [|fuel]; [vm_compute; reflexivity|]); lia. }
  unfold obs. rewrite method_eq by discriminate.
  assert (M : more (prelude FIFO (NI 0) (NI 2) 20 ([] : fq queue) ([] : fq queue) None) (prelude FIFO (NI 0) (NI 2) fuel ([] : fq queue) ([] : fq queue) None)) by (apply prelude_more; lia).
  destruct Hg as [-> | ->]; (erewrite bind_ok; [|apply (more_ok M); vm_compute; reflexivity]); (eapply three_steps; vm_compute; reflexivity).
Qed.
Theorem C29_antiparallel_refuted : exists g source sink,
  wf g /\ g_type g = Directed /\ int_caps g /\ nonneg_caps g /\ In source (get_node_list g) /\ In sink (get_node_list g) /\ source <> sink /\ ~ In (source, source) (get_edge_list g) /\
  forall fuel, obs (max_flow_preflowpush (fr := queue) held_list fuel ([] : fq queue) [] source sink FIFO None) g = Err OutOfFuel.
Proof.
  exists pf_anti, (NI 0), (NI 2). destruct (all_caps pf_anti) as [H1 H2]; [vm_compute; reflexivity|].
  split; [refine (proj1 (wf_history (wf_new (Some Directed) []) _)); discriminate|]. split; [vm_compute; reflexivity|]. split; [exact H1|]. split; [exact H2|]. split; [vm_compute; auto|]. split; [vm_compute; auto|].
  split; [discriminate|]. split; [vm_compute; intuition congruence|]. intros fuel. apply pf_diverges. auto.
Qed.
Print Assumptions C29_antiparallel_refuted.
Theorem C29_source_loop_refuted : exists g source sink,
  wf g /\ g_type g = Directed /\ int_caps g /\ nonneg_caps g /\ no_antiparallel g /\ In source (get_node_list g) /\ In sink (get_node_list g) /\ source <> sink /\
  forall fuel, obs (max_flow_preflowpush (fr := queue) held_list fuel ([] : fq queue) [] source sink FIFO None) g = Err OutOfFuel.
Proof.
  exists pf_self, (NI 0), (NI 2). destruct (all_caps pf_self) as [H1 H2]; [vm_compute; reflexivity|].
  split; [refine (proj1 (wf_history (wf_new (Some Directed) []) _)); discriminate|]. split; [vm_compute; reflexivity|]. split; [exact H1|]. split; [exact H2|].
  split. { intros x y A C. vm_compute in A, C. intuition congruence. }
  split; [vm_compute; auto|]. split; [vm_compute; auto|]. split; [discriminate|]. intros fuel. apply pf_diverges. auto.
Qed.
Print Assumptions C29_source_loop_refuted.
