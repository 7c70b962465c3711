(* Property theorems C01-C07: the Graph data structure.
   [history g os] runs any list of API calls, including calls that raise;
   [obs call g] is the value (or exception) the API call returns in state g. *)
From Verif Require Import Py Util M_Graph M_Metrics P_Graph P_GraphLaws P_Metrics.

(** C01 *)
Theorem C01_directed_views : forall kw os,
  let g := history (new_graph (Some Directed) kw) os in
  forall n m,
  ((exists l, obs (get_out_neighbors n) g = Ok l /\ In m l) <-> check_edge g n m = true) /\
  ((exists l, obs (get_in_neighbors m) g = Ok l /\ In n l) <-> check_edge g n m = true) /\
  (In (n, m) (get_edge_list g) <-> check_edge g n m = true) /\
  contains_edge g n m = check_edge g n m /\
  (contains_node g n = true <-> In n (get_node_list g)) /\
  (In (n, m) (get_edge_list g) -> In n (get_node_list g) /\ In m (get_node_list g)) /\
  (In n (get_node_list g) -> exists lo li,
      obs (get_out_neighbors n) g = Ok lo /\ obs (get_in_neighbors n) g = Ok li /\ NoDup lo /\ NoDup li) /\
  NoDup (get_node_list g) /\ NoDup (get_edge_list g).
Proof.
  intros kw os g.
  exact (directed_views
    (proj1 (wf_history (os := os) (wf_new (Some Directed) kw) (fun H => match Bool.diff_true_false (f_equal (fun t => match t with Directed => true | Undirected => false end) H) with end)))
    (proj2 (wf_history (os := os) (wf_new (Some Directed) kw) (fun H => match Bool.diff_true_false (f_equal (fun t => match t with Directed => true | Undirected => false end) H) with end)))).
Qed.
Print Assumptions C01_directed_views.

Local Open Scope string_scope. Local Open Scope list_scope.
(* a history with duplicate and missing operations, deletions and a self-loop *)
Definition ex_ops : list op :=
  [OAddNode (NI 1) []; OAddEdge (NI 1) (NI 2) [("cost", VI 3)]; OAddEdge (NI 1) (NI 2) []; OAddEdge (NI 2) (NI 2) [];
   OAddEdge (NI 2) (NS "x") [("cost", VI 1)]; OAddEdge (NS "x") (NI 1) []; ODelEdge (NI 7) (NI 8); OSetNodeAttr (NI 1) "label" (VS "-")].
Definition ex_dir : graph := history (new_graph (Some Directed) []) ex_ops.
Definition ex_und : graph := history (new_graph (Some Undirected) []) ex_ops.
Example C01_nonvacuous :
  get_edge_list ex_dir = [(NI 1, NI 2); (NI 2, NI 2); (NI 2, NS "x"); (NS "x", NI 1)] /\
  obs (get_in_neighbors (NI 2)) ex_dir = Ok [NI 1; NI 2] /\ obs (get_out_neighbors (NI 2)) ex_dir = Ok [NI 2; NS "x"].
Proof. vm_compute. auto. Qed.

(** C02 *)
Theorem C02_undirected_views : forall kw os, forallb (fun o => negb (is_del_node o)) os = true ->
  let g := history (new_graph (Some Undirected) kw) os in
  forall n m,
  ((exists l, obs (get_neighbors n) g = Ok l /\ In m l) <-> check_edge g n m = true) /\
  check_edge g m n = check_edge g n m /\
  (check_edge g n m = true <-> In (n, m) (get_edge_list g) \/ In (m, n) (get_edge_list g)) /\
  contains_edge g n m = check_edge g n m /\
  (n <> m -> ~ (In (n, m) (get_edge_list g) /\ In (m, n) (get_edge_list g))) /\
  (forall l, obs (get_neighbors n) g = Ok l -> n <> m -> count_occ eq_dec l m = if check_edge g n m then 1 else 0) /\
  (forall l, obs (get_neighbors n) g = Ok l -> count_occ eq_dec l n = if check_edge g n n then 2 else 0) /\
  (In (n, m) (get_edge_list g) -> In n (get_node_list g) /\ In m (get_node_list g)) /\
  NoDup (get_node_list g) /\ NoDup (get_edge_list g).
Proof.
  intros kw os H g.
  exact (undirected_views (proj1 (wf_history (os := os) (wf_new (Some Undirected) kw) (fun _ => H)))
                          (proj2 (wf_history (os := os) (wf_new (Some Undirected) kw) (fun _ => H)))).
Qed.
Print Assumptions C02_undirected_views.
(* a graph built without type= is undirected too *)
Theorem C02_default_type : forall kw os, forallb (fun o => negb (is_del_node o)) os = true ->
  let g := history (new_graph None kw) os in
  g_type g = Undirected /\ forall n m,
  ((exists l, obs (get_neighbors n) g = Ok l /\ In m l) <-> check_edge g n m = true) /\
  check_edge g m n = check_edge g n m /\
  (check_edge g n m = true <-> In (n, m) (get_edge_list g) \/ In (m, n) (get_edge_list g)) /\
  contains_edge g n m = check_edge g n m /\
  (n <> m -> ~ (In (n, m) (get_edge_list g) /\ In (m, n) (get_edge_list g))) /\
  (forall l, obs (get_neighbors n) g = Ok l -> n <> m -> count_occ eq_dec l m = if check_edge g n m then 1 else 0) /\
  (forall l, obs (get_neighbors n) g = Ok l -> count_occ eq_dec l n = if check_edge g n n then 2 else 0) /\
  (In (n, m) (get_edge_list g) -> In n (get_node_list g) /\ In m (get_node_list g)) /\
  NoDup (get_node_list g) /\ NoDup (get_edge_list g).
Proof.
  intros kw os H g. split; [exact (proj2 (wf_history (os := os) (wf_new None kw) (fun _ => H)))|].
  exact (undirected_views (proj1 (wf_history (os := os) (wf_new None kw) (fun _ => H)))
                          (proj2 (wf_history (os := os) (wf_new None kw) (fun _ => H)))).
Qed.
Print Assumptions C02_default_type.
Example C02_nonvacuous : forallb (fun o => negb (is_del_node o)) ex_ops = true /\
  obs (get_neighbors (NI 2)) ex_und = Ok [NI 1; NI 2; NI 2; NS "x"] /\ check_edge ex_und (NI 1) (NS "x") = true.
Proof. vm_compute. auto. Qed.

(** Every graph the API can build satisfies [wf] (used as a hypothesis below). *)
Theorem reachable_wf : forall ty kw os,
  (ty <> Some Directed -> forallb (fun o => negb (is_del_node o)) os = true) ->
  wf (history (new_graph ty kw) os).
Proof.
  intros ty kw os H. apply wf_history; [apply wf_new|]. intros Hu. apply H. intros ->. discriminate.
Qed.
Print Assumptions reachable_wf.

(** C03 *)
Theorem C03_add_node_duplicate : forall g n kw, In n (get_node_list g) -> add_node n kw g = (g, Err MultipleNodeException).
Proof. exact add_node_eq. Qed.
Print Assumptions C03_add_node_duplicate.
Theorem C03_add_edge_duplicate : forall g n m kw, check_edge g n m = true -> add_edge n m kw g = (g, Err MultipleEdgeException).
Proof. exact add_edge_dup. Qed.
Print Assumptions C03_add_edge_duplicate.
Theorem C03_add_node_fresh : forall g n kw, wf g -> NoDup (dkeys kw) -> ~ In n (get_node_list g) ->
  exists g', add_node n kw g = (g', Ok tt) /\ wf g' /\ g_type g' = g_type g /\
    get_node_list g' = get_node_list g ++ [n] /\ get_edge_list g' = get_edge_list g /\
    (forall a, obs (get_node_attr n a) g' = Ok (match dget kw a with Some v => v | None => VNone end)) /\
    (forall x a, x <> n -> obs (get_node_attr x a) g' = obs (get_node_attr x a) g) /\
    (forall x y a, obs (get_edge_attr x y a) g' = obs (get_edge_attr x y a) g) /\
    obs (get_neighbors n) g' = Ok [] /\
    (forall x, x <> n -> obs (get_neighbors x) g' = obs (get_neighbors x) g) /\
    (forall x, x <> n -> obs (get_in_neighbors x) g' = obs (get_in_neighbors x) g).
Proof. exact add_node_views. Qed.
Print Assumptions C03_add_node_fresh.
Theorem C03_add_edge_fresh : forall g n m kw, wf g -> NoDup (dkeys kw) -> check_edge g n m = false ->
  exists g', add_edge n m kw g = (g', Ok tt) /\ wf g' /\ g_type g' = g_type g /\
    get_node_list g' = get_node_list g ++ (if mem n (get_node_list g) then [] else [n])
                                       ++ (if mem m (get_node_list g ++ [n]) then [] else [m]) /\
    get_edge_list g' = get_edge_list g ++ [(n, m)] /\
    (forall a, obs (get_edge_attr n m a) g' = match dget kw a with Some v => Ok v | None => Err KeyError end) /\
    (forall x y a, check_edge g x y = true -> obs (get_edge_attr x y a) g' = obs (get_edge_attr x y a) g) /\
    (forall x a, In x (get_node_list g) -> obs (get_node_attr x a) g' = obs (get_node_attr x a) g) /\
    (forall x a, In x (get_node_list g') -> ~ In x (get_node_list g) -> obs (get_node_attr x a) g' = Ok VNone) /\
    (forall x, In x (get_node_list g') -> obs (get_neighbors x) g' =
        Ok (old_list (obs (get_neighbors x) g) ++ (if eq_dec x n then [m] else []) ++
            match g_type g with Undirected => if eq_dec x m then [n] else [] | Directed => [] end)) /\
    (forall x, In x (get_node_list g') -> g_type g = Directed -> obs (get_in_neighbors x) g' =
        Ok (old_list (obs (get_in_neighbors x) g) ++ (if eq_dec x m then [n] else []))).
Proof. exact add_edge_views. Qed.
Print Assumptions C03_add_edge_fresh.
Example C03_nonvacuous : check_edge ex_dir (NI 1) (NI 2) = true /\ check_edge ex_dir (NI 2) (NI 1) = false /\ In (NI 1) (get_node_list ex_dir).
Proof. vm_compute. auto. Qed.

(** C04 *)
Theorem C04_del_add_edge : forall g n m kw, wf g ->
  In n (get_node_list g) -> In m (get_node_list g) -> check_edge g n m = false ->
  exists g', add_edge n m kw g = (g', Ok tt) /\ del_edge n m g' = (g, Ok tt).
Proof. exact del_add_edge. Qed.
Print Assumptions C04_del_add_edge.
Theorem C04_del_absent : forall g n m, check_edge g n m = false -> del_edge n m g = (g, Err (PyException "Edge does not exists!")).
Proof. exact del_edge_missing. Qed.
Print Assumptions C04_del_absent.
Theorem C04_del_present : forall g n m, wf g -> check_edge g n m = true ->
  exists g', del_edge n m g = (g', Ok tt) /\ wf g' /\ g_type g' = g_type g /\
    get_node_list g' = get_node_list g /\ check_edge g' n m = false /\
    get_edge_list g' = filter (fun e => negb (eqb e (n, m) || match g_type g with Undirected => eqb e (m, n) | Directed => false end)) (get_edge_list g) /\
    (forall x y a, check_edge g' x y = true -> obs (get_edge_attr x y a) g' = obs (get_edge_attr x y a) g) /\
    (forall x a, obs (get_node_attr x a) g' = obs (get_node_attr x a) g) /\
    (* the neighbour lists lose that edge and keep their order *)
    (forall x l, obs (get_neighbors x) g = Ok l -> obs (get_neighbors x) g' = Ok (filter (fun y => check_edge g' x y) l)) /\
    (forall x l, g_type g = Directed -> obs (get_in_neighbors x) g = Ok l -> obs (get_in_neighbors x) g' = Ok (filter (fun y => check_edge g' y x) l)).
Proof. exact del_edge_views. Qed.
Print Assumptions C04_del_present.
Example C04_nonvacuous : check_edge ex_und (NI 1) (NI 1) = false /\ check_edge ex_und (NI 2) (NI 1) = true /\ In (NI 1) (get_node_list ex_und).
Proof. vm_compute. auto. Qed.

(** C05 *)
Theorem C05_del_node_directed : forall g n, wf g -> g_type g = Directed -> In n (get_node_list g) ->
  exists g', del_node n g = (g', Ok tt) /\ wf g' /\ g_type g' = Directed /\
    get_node_list g' = filter (fun x => negb (eqb n x)) (get_node_list g) /\
    get_edge_list g' = filter (fun e => negb (eqb n (fst e)) && negb (eqb n (snd e))) (get_edge_list g) /\
    (forall x a, x <> n -> obs (get_node_attr x a) g' = obs (get_node_attr x a) g) /\
    (forall x y a, x <> n -> y <> n -> obs (get_edge_attr x y a) g' = obs (get_edge_attr x y a) g) /\
    (forall x l, x <> n -> obs (get_out_neighbors x) g = Ok l -> obs (get_out_neighbors x) g' = Ok (filter (fun y => negb (eqb n y)) l)) /\
    (forall x l, x <> n -> obs (get_in_neighbors x) g = Ok l -> obs (get_in_neighbors x) g' = Ok (filter (fun y => negb (eqb n y)) l)).
Proof. exact del_node_views. Qed.
Print Assumptions C05_del_node_directed.
Theorem C05_del_node_missing : forall g n, ~ In n (get_node_list g) -> del_node n g = (g, Err (PyException "Node does not exist!")).
Proof. exact del_node_missing. Qed.
Print Assumptions C05_del_node_missing.
(* the documented behaviour fails on undirected graphs: every call raises a genuine Python exception *)
Theorem C05_del_node_undirected_raises : forall g n, g_type g = Undirected ->
  exists g' e, del_node n g = (g', Err e) /\ e <> OutOfFuel.
Proof. exact del_node_undirected. Qed.
Print Assumptions C05_del_node_undirected_raises.
Example C05_nonvacuous : get_edge_list (fst (del_node (NI 2) ex_dir)) = [(NS "x", NI 1)] /\
  snd (del_node (NI 1) ex_und) = Err KeyError.
Proof. vm_compute. auto. Qed.

(** C06 *)
Theorem C06_node_attr : forall g n a v, In n (dkeys (g_nodes g)) ->
  exists g', set_node_attr n a v g = (g', Ok tt) /\
    obs (get_node_attr n a) g' = Ok v /\
    (forall x b, (x, b) <> (n, a) -> obs (get_node_attr x b) g' = obs (get_node_attr x b) g) /\
    (forall x y b, obs (get_edge_attr x y b) g' = obs (get_edge_attr x y b) g) /\
    get_node_list g' = get_node_list g /\ get_edge_list g' = get_edge_list g /\
    (forall x, obs (get_neighbors x) g' = obs (get_neighbors x) g) /\
    (forall x, obs (get_in_neighbors x) g' = obs (get_in_neighbors x) g) /\
    g_type g' = g_type g.
Proof. exact set_node_attr_views. Qed.
Print Assumptions C06_node_attr.
Theorem C06_edge_attr : forall g n m a v, wf g -> check_edge g n m = true ->
  exists g', set_edge_attr n m a v g = (g', Ok tt) /\
    obs (get_edge_attr n m a) g' = Ok v /\
    (g_type g = Undirected -> obs (get_edge_attr m n a) g' = Ok v) /\
    (forall x y b, ((x, y) <> (n, m) /\ (g_type g = Undirected -> (x, y) <> (m, n))) \/ b <> a ->
        obs (get_edge_attr x y b) g' = obs (get_edge_attr x y b) g) /\
    (forall x b, obs (get_node_attr x b) g' = obs (get_node_attr x b) g) /\
    get_node_list g' = get_node_list g /\ get_edge_list g' = get_edge_list g /\
    (forall x, obs (get_neighbors x) g' = obs (get_neighbors x) g) /\
    (forall x, obs (get_in_neighbors x) g' = obs (get_in_neighbors x) g) /\
    g_type g' = g_type g.
Proof. exact set_edge_attr_views. Qed.
Print Assumptions C06_edge_attr.
Theorem C06_undirected_symmetric : forall g n m a, wf g -> g_type g = Undirected ->
  obs (get_edge_attr n m a) g = obs (get_edge_attr m n a) g.
Proof. exact get_edge_attr_sym. Qed.
Print Assumptions C06_undirected_symmetric.
(* a node or an edge that is not there: reading and writing raise, and nothing changes *)
Theorem C06_missing : forall g, wf g ->
  (forall n a v, ~ In n (get_node_list g) -> set_node_attr n a v g = (g, Err AttributeError) /\ obs (get_node_attr n a) g = Err AttributeError) /\
  (forall n m a v, check_edge g n m = false -> set_edge_attr n m a v g = (g, Err KeyError) /\ obs (get_edge_attr n m a) g = Err KeyError).
Proof.
  intros g W. split.
  - intros n a v H. assert (E : dget (g_nodes g) n = None) by (apply dget_None; rewrite (wf_nodes W); exact H). unfold set_node_attr, obs, get_node_attr. rewrite E. split; reflexivity.
  - intros n m a v H. unfold check_edge, dmem in H. unfold set_edge_attr, obs, get_edge_attr. destruct (g_type g).
    + destruct (dget (g_edges g) (n, m)); [discriminate|]. split; reflexivity.
    + destruct (dget (g_edges g) (n, m)); [discriminate|]. destruct (dget (g_edges g) (m, n)); [discriminate|]. split; reflexivity.
Qed.
Print Assumptions C06_missing.
Example C06_nonvacuous : In (NI 1) (dkeys (g_nodes ex_und)) /\ obs (get_edge_attr (NI 2) (NI 1) "cost") ex_und = Ok (VI 3).
Proof. vm_compute. auto. Qed.

(** C07 *)
Theorem C07_counts : forall g, get_node_num g = length (get_node_list g) /\ get_edge_num g = length (get_edge_list g).
Proof. intros g. unfold get_node_num, get_edge_num, get_node_list, get_edge_list, dkeys. rewrite !map_length. auto. Qed.
Print Assumptions C07_counts.
Theorem C07_degrees_undirected : forall kw os, forallb (fun o => negb (is_del_node o)) os = true ->
  let g := history (new_graph (Some Undirected) kw) os in
  exists d, get_degrees g = (g, Ok (Some d)) /\ dkeys d = get_node_list g /\
    (forall n k, dget d n = Some k -> exists l, obs (get_neighbors n) g = Ok l /\ k = length l) /\
    list_sum (map snd d) = 2 * get_edge_num g.
Proof.
  intros kw os H g.
  exact (get_degrees_undirected (proj1 (wf_history (os := os) (wf_new (Some Undirected) kw) (fun _ => H)))
           (proj2 (wf_history (os := os) (wf_new (Some Undirected) kw) (fun _ => H))) (typed_history kw (t := Undirected) (fun _ => H))).
Qed.
Print Assumptions C07_degrees_undirected.
Lemma dir_und : Directed = Undirected -> False. Proof. discriminate. Qed.
Theorem C07_degrees_directed : forall kw os,
  let g := history (new_graph (Some Directed) kw) os in
  get_degrees g = (g, Ok None) /\
  (exists d, get_in_degrees g = (g, Ok (Some d)) /\ dkeys d = get_node_list g /\
    (forall n k, dget d n = Some k -> exists l, obs (get_in_neighbors n) g = Ok l /\ k = length l) /\
    list_sum (map snd d) = get_edge_num g) /\
  (exists d, get_out_degrees g = (g, Ok (Some d)) /\ dkeys d = get_node_list g /\
    (forall n k, dget d n = Some k -> exists l, obs (get_out_neighbors n) g = Ok l /\ k = length l) /\
    list_sum (map snd d) = get_edge_num g).
Proof.
  intros kw os g.
  pose proof (wf_history (os := os) (wf_new (Some Directed) kw) (fun H => match dir_und H with end)) as [W T].
  pose proof (typed_history kw (t := Directed) (os := os) (fun H => match dir_und H with end)) as Y.
  exact (conj (get_degrees_directed W T Y) (conj (get_in_degrees_directed W T Y) (get_out_degrees_directed W T Y))).
Qed.
Print Assumptions C07_degrees_directed.
Theorem C07_untyped_raises : forall kw os, forallb (fun o => negb (is_del_node o)) os = true -> ~ In "type" (dkeys kw) ->
  let g := history (new_graph None kw) os in
  get_degrees g = (g, Err KeyError) /\ get_in_degrees g = (g, Err KeyError) /\ get_out_degrees g = (g, Err KeyError).
Proof. exact untyped_degrees. Qed.
Print Assumptions C07_untyped_raises.
Example C07_nonvacuous : obs get_degrees ex_und = Ok (Some [(NI 1, 2); (NI 2, 4); (NS "x", 2)]) /\ get_edge_num ex_und = 4.
Proof. vm_compute. auto. Qed.
