(* Property theorems C72: the potentials and the pivot cycle that the network simplex method reads off a spanning tree. *)
From Verif Require Import Py Util M_Graph P_Graph Spec P_Walk P_Attr M_Search M_Flow M_MinCost M_NetSimplex P_Residual P_MinCostAbs S_Span S_Flow S_MinCost P_EdgeFrame P_NetTree P_NetSearch P_NetPot P_Pok
  P_Flow P_PreflowTop P_NetCycle S_GraphFlow S_SimplexSearch S_SimplexTree P_SimplexSearch P_GraphLaws P_NetPivot P_NetLoop P_NetInit C_MinCost C_SimplexSearch C_Dfs C_NetSimplex.
Local Open Scope string_scope. Local Open Scope list_scope.

Lemma acyclic_forest es : NoDup es -> S_Span.acyclic es -> forest es.
Proof.
  intros Nd A x y He C. apply in_split in He as (l1 & l2 & E). apply (A l1 (x, y) l2 E). cbn [fst snd]. revert C. apply reach_mono. intros a b [H|H]; [left|right].
  - apply filter_In in H as [H K]. rewrite E in H. apply in_app_iff in H as [H|[H|H]]; [apply in_app_iff; auto| |apply in_app_iff; auto]. rewrite H, eqb_refl in K. discriminate.
  - apply filter_In in H as [H K]. rewrite E in H. apply in_app_iff in H as [H|[H|H]]; [apply in_app_iff; auto| |apply in_app_iff; auto]. rewrite H, eqb_refl in K. discriminate.
Qed.

Section Prepared.
  Variables (t : graph) (root : name) (nr : val) (fuel : nat).
  Hypothesis Wt : wf t.
  Hypothesis Dt : g_type t = Directed.
  Hypothesis It : forall x, In x (get_node_list t) -> exists z, x = NI z.
  Hypothesis Rt : In root (get_node_list t).
  Hypothesis Cn : forall x, In x (get_node_list t) -> reach (linked t) root x.
  Hypothesis Hf : length (get_node_list t) < fuel.
  Lemma prepared : exists t' seq P D, fst (simplex_search fuel root nr t) = t' /\ wf t' /\ g_type t' = g_type t /\ get_edge_list t' = get_edge_list t /\ get_node_list t' = get_node_list t /\
    tree_info (get_edge_list t') t' root nr seq P D /\ (forall x, In x (get_node_list t') -> In x seq) /\ length seq <= length (get_node_list t).
  Proof.
    destruct (search_t Wt Dt It Rt nr fuel) as [[K _]|(pred & t' & E & F & seq & P & D & TI & Hk & Hp)]; [lia|].
    exists t', seq, P, D. rewrite E. split; [reflexivity|]. split; [apply (nfr_wf F Wt)|]. split; [rewrite Dt; apply (nfr_type F Dt)|]. split; [apply (nfr_edges F)|]. split; [apply (nfr_nodes F)|].
    split; [rewrite (nfr_edges F); exact TI|]. split.
    - intros x Hx. rewrite (nfr_nodes F) in Hx. apply (seq_reach TI Hk Hp (g := t)); [reflexivity|apply Cn, Hx].
    - apply NoDup_incl_length; [apply (ti_nd TI)|]. rewrite <- (nfr_nodes F). apply (ti_V TI).
  Qed.
End Prepared.

(** the potentials: 0 at the root, and reduced cost 0 on every arc of the tree *)
Theorem C72_potentials : forall (g t : graph) (root : name) (nr : val) (fuel : nat),
  wf g -> g_type g = Directed -> has_costs g false -> asymmetric (get_edge_list g) ->
  wf t -> g_type t = Directed -> (forall x, In x (get_node_list t) -> exists z, x = NI z) -> In root (get_node_list t) ->
  incl (get_node_list t) (get_node_list g) -> incl (get_edge_list t) (get_edge_list g) ->
  (forall x, In x (get_node_list t) -> reach (linked t) root x) -> S_Span.acyclic (get_edge_list t) -> length (get_node_list t) < fuel ->
  exists h pi, simplex_compute_potentials fuel (fst (simplex_search fuel root nr t)) root g = (h, Ok tt) /\
    (forall x, In x (get_node_list t) -> obs (get_node_attr x "potential") h = Ok (VI (pi x))) /\ pi root = 0%Z /\
    (forall i j, In (i, j) (get_edge_list t) -> (edge_cost g i j - pi i + pi j = 0)%Z) /\
    get_node_list h = get_node_list g /\ get_edge_list h = get_edge_list g /\
    (forall x a, a <> "potential" -> obs (get_node_attr x a) h = obs (get_node_attr x a) g) /\ (forall x y a, obs (get_edge_attr x y a) h = obs (get_edge_attr x y a) g).
Proof.
  intros g t root nr fuel W Dr HC As Wt Dt It Rt Vi Ei Cn Ac Hf.
  destruct (prepared t root nr fuel Wt Dt It Rt Cn Hf) as (t' & seq & P & D & -> & Wt' & Dtt & Et & Nt & TI & Cov & Ln).
  assert (Hk : forall e, In e (get_edge_list g) -> eattr g (fst e) (snd e) "cost" = Some (VI (edge_cost g (fst e) (snd e)))).
  { intros e He. apply int_cost; assumption. }
  assert (Vs : incl seq (get_node_list g)) by (intros x Hx; apply Vi; rewrite <- Nt; apply (ti_V TI Hx)).
  assert (Es : incl (get_edge_list t') (get_edge_list g)) by (rewrite Et; exact Ei).
  destruct (potentials_t (k := fun e => edge_cost g (fst e) (snd e)) Wt' TI Cov W Dr Vs Es As Hk fuel) as [[K _]|([] & h & E & F & R)]; [lia|].
  destruct (nfr_same _ _ _ F) as [S1 S2]. pose proof (ss_wf (nf_shape F) W) as Wh.
  assert (Fo : forest (get_edge_list t')) by (rewrite Et; apply acyclic_forest; [apply (wf_ne Wt)|exact Ac]).
  exists h, (pt h). split; [exact E|]. split; [|split; [|split; [|split; [apply (nfr_nodes F)|split; [apply (nfr_edges F)|split; [|exact S2]]]]]].
  - intros x Hx. destruct (R x) as [[z Ez] _]; [apply Cov; rewrite Nt; exact Hx|]. rewrite obs_nattr; [unfold pt; rewrite Ez; reflexivity|]. rewrite (wf_nodes Wh). change (In x (get_node_list h)). rewrite (nfr_nodes F). apply Vi, Hx.
  - destruct (R root) as (_ & _ & K); [apply Cov; rewrite Nt; exact Rt|]. unfold pt. rewrite (K eq_refl). reflexivity.
  - intros i j He. rewrite <- Et in He.
    assert (Hn : In i seq /\ In j seq). { rewrite Et in He. destruct (edge_nodes Wt Dt He). split; apply Cov; rewrite Nt; assumption. }
    apply (tight_tree (g := g) (k := fun e => edge_cost g (fst e) (snd e)) TI Es Fo (fun x Hx => proj1 (proj2 (R x Hx))) He (proj1 Hn) (proj2 Hn)).
  - intros x a Ha. apply S1. simpl. intuition congruence.
Qed.
Print Assumptions C72_potentials.

(** the pivot cycle: the path of the tree from l to k, which the arc (k, l) closes; nothing changes *)
Theorem C72_pivot_cycle : forall (g t : graph) (root k l : name) (nr : val) (fuel : nat),
  wf t -> g_type t = Directed -> (forall x, In x (get_node_list t) -> exists z, x = NI z) -> In root (get_node_list t) ->
  (forall x, In x (get_node_list t) -> reach (linked t) root x) -> In k (get_node_list t) -> In l (get_node_list t) -> 2 * length (get_node_list t) < fuel ->
  exists cycle, simplex_identify_cycle fuel (fst (simplex_search fuel root nr t)) k l g = (g, Ok cycle) /\ NoDup cycle /\ walk (linked t) l cycle k.
Proof.
  intros g t root k l nr fuel Wt Dt It Rt Cn Hk Hl Hf.
  destruct (prepared t root nr fuel Wt Dt It Rt Cn ltac:(lia)) as (t' & seq & P & D & -> & Wt' & Dtt & Et & Nt & TI & Cov & Ln).
  rewrite <- Nt in Hk, Hl. destruct (identify_t Wt' TI fuel g (Cov _ Hk) (Cov _ Hl)) as [[K _]|(c & h & E & -> & Nd & Wk)]; [lia|].
  exists c. split; [exact E|]. split; [exact Nd|]. rewrite Et in Wk. exact Wk.
Qed.
Print Assumptions C72_pivot_cycle.

Lemma forest_acyclic es : NoDup es -> forest es -> S_Span.acyclic es.
Proof.
  intros Nd F l1 [x y] l2 E C. assert (He : In (x, y) es) by (rewrite E; apply in_app_iff; right; left; reflexivity). apply (F x y He). cbn [fst snd] in C. revert C. apply reach_mono.
  assert (K : forall e, In e (l1 ++ l2) -> In e (without (x, y) es)).
  { intros e H. apply in_without. split; [rewrite E; apply in_app_iff in H as [H|H]; apply in_app_iff; simpl; auto|]. intros ->. rewrite E in Nd. apply NoDup_remove_2 in Nd. contradiction. }
  intros a b [H|H]; [left|right]; apply K, H.
Qed.
Section Problem.
  Variable g : graph.
  Hypothesis W : wf g.
  Hypothesis D : g_type g = Directed.
  Hypothesis IC : int_attr g "capacity".
  Hypothesis IF : int_attr g "flow".
  Hypothesis HC : has_costs g false.
  Notation V := (get_node_list g).
  Notation es := (get_edge_list g).
  Notation k := (fun e => edge_cost g (fst e) (snd e)).
  Lemma problem_self : self V es (cap_of g) k (flow_of g) g.
  Proof.
    constructor; try assumption; try reflexivity.
    - intros [x y] He. destruct (IC x y He) as [z Hz]. unfold cap_of. cbn [fst snd]. rewrite eattr_obs, Hz. reflexivity.
    - intros [x y] He. destruct (IF x y He) as [z Hz]. unfold flow_of. cbn [fst snd]. rewrite eattr_obs, Hz. reflexivity.
    - intros e He. apply int_cost; assumption.
  Qed.
  Lemma self_reflowed f h : self V es (cap_of g) k f h -> reflowed g h /\ (forall e, In e es -> flow_of h e = f e) /\ (forall e, In e es -> cap_of h e = cap_of g e).
  Proof.
    intros S. pose proof problem_self as S0. split; [split; [apply (sf_nodes S)|]; split; [apply (sf_edges S)|]|split].
    - intros x y He. pose proof (sf_cap S He) as K1. pose proof (sf_cap S0 He) as K1'. pose proof (sf_cost S He) as K2. pose proof (sf_cost S0 He) as K2'. pose proof (sf_flow S He) as K3. cbn [fst snd] in *.
      rewrite (obs_eattr _ _ _ _ _ K1), (obs_eattr _ _ _ _ _ K1'), (obs_eattr _ _ _ _ _ K2), (obs_eattr _ _ _ _ _ K2'), (obs_eattr _ _ _ _ _ K3). eauto.
    - intros e He. unfold flow_of. rewrite (sf_flow S He). reflexivity.
    - intros e He. unfold cap_of at 1. rewrite (sf_cap S He). reflexivity.
  Qed.
  Lemma self_shows f h t : self V es (cap_of g) k f h -> incl (get_edge_list t) es -> shows (cap_of g) k f t -> (forall e, In e (get_edge_list t) -> eattr h (fst e) (snd e) "label" = Some (flow_text (cap_of g) k f e)) -> tree_shows h t.
  Proof.
    intros S Hi Sh Lb x y He a Ha. pose proof (Sh _ He a Ha) as K. cbn [fst snd] in K. rewrite (obs_eattr _ _ _ _ _ K). symmetry. apply obs_eattr. pose proof (Hi _ He) as He'.
    destruct Ha as [<-|[<-|[<-|[<-|[]]]]]; [apply (sf_flow S He')|apply (sf_cap S He')|apply (sf_cost S He')|apply (Lb _ He)].
  Qed.
  Lemma self_labelled f h : self V es (cap_of g) k f h -> forall x y, In (x, y) es -> eattr h x y "label" = Some (flow_text (cap_of g) k f (x, y)) -> flow_labelled h x y.
  Proof.
    intros S x y He K. destruct (self_reflowed f h S) as ((_ & _ & R) & Hf & Hc). unfold flow_labelled. rewrite (obs_eattr _ _ _ _ _ K), (Hf _ He), (Hc _ He). unfold edge_cost. destruct (R x y He) as (_ & -> & _). reflexivity.
  Qed.
  Lemma net_ext f f' x : (forall e, In e es -> f e = f' e) -> (outflow es f x = outflow es f' x /\ inflow es f x = inflow es f' x)%Z.
  Proof. intros H. unfold outflow, inflow. split; apply zsum_ext; intros e He; rewrite ?(H e) by (revert He; try (intros He; apply filter_In in He; tauto); auto); reflexivity. Qed.
  Lemma self_solution demand f t h : tsol V es (cap_of g) k demand f t h -> tree_solution demand h t.
  Proof.
    intros T. destruct (self_reflowed f h (ts_self T)) as ((Hn & He & _) & Hf & Hc). pose proof (ts_feas T) as F.
    constructor; rewrite ?Hn, ?He.
    - constructor; [intros e Hi; rewrite (Hf e Hi), (Hc e Hi); apply (fs_bounds F Hi)|]. intros x Hx. rewrite <- (fs_demand F Hx). destruct (net_ext (flow_of h) f x Hf) as [-> ->]. reflexivity.
    - apply (ts_nodes T).
    - apply (ts_es T).
    - apply forest_acyclic; [apply (wf_ne (ts_wf T))|apply (ts_forest T)].
    - apply (ts_spans T).
    - intros e Hi Ho. rewrite (Hf e Hi), (Hc e Hi). apply (ts_out T Hi Ho).
  Qed.
End Problem.

(** the arcs with flow strictly between the bounds *)
Theorem C72_solution_graph : forall g, wf g -> g_type g = Directed -> int_attr g "capacity" -> int_attr g "flow" -> has_costs g false ->
  exists r, get_simplex_solution_graph g = (g, Ok r) /\ wf r /\ g_type r = Directed /\ get_node_list r = get_node_list g /\
    forall e, In e (get_edge_list r) <-> In e (get_edge_list g) /\ (0 < flow_of g e < cap_of g e)%Z.
Proof.
  intros g W D IC IF HC. pose proof (problem_self g W D IC IF HC) as S.
  assert (EV : forall e, In e (get_edge_list g) -> In (fst e) (get_node_list g) /\ In (snd e) (get_node_list g)) by (intros [x y] He; apply (edge_nodes W D He)).
  pose proof (solution_ok (c := cap_of g) (fun _ => 0%Z) (wf_ne W) (wf_nd W) EV S) as H. apply ok_ex in H as (h & r & E & (-> & H1 & H2 & H3 & H4 & _)). eauto 7.
Qed.
Print Assumptions C72_solution_graph.

(** simplex_find_tree turns a feasible flow into a spanning tree solution *)
Theorem C72_find_tree : forall (g : graph) (demand : name -> Z),
  wf g -> g_type g = Directed -> int_attr g "capacity" -> int_attr g "flow" -> has_costs g false -> asymmetric (get_edge_list g) ->
  (forall x, In x (get_node_list g) -> exists z, x = NI z) -> get_node_list g <> [] -> connected g ->
  feasible (get_node_list g) (get_edge_list g) (cap_of g) demand (flow_of g) ->
  forall fuel, (length (get_edge_list g) + 1) * (list_max (map (fun e => Z.to_nat (cap_of g e)) (get_edge_list g)) + 1) + length (get_edge_list g) + length (get_node_list g) < fuel ->
  exists h t, simplex_find_tree fuel g = (h, Ok t) /\ wf h /\ wf t /\ g_type t = Directed /\
    tree_solution demand h t /\ reflowed g h /\ tree_shows h t /\ forall x y, In (x, y) (get_edge_list h) -> flow_labelled h x y.
Proof.
  intros g demand W D IC IF HC As Names Ne Con F fuel Hf. pose proof (problem_self g W D IC IF HC) as S.
  assert (EV : forall e, In e (get_edge_list g) -> In (fst e) (get_node_list g) /\ In (snd e) (get_node_list g)) by (intros [x y] He; apply (edge_nodes W D He)).
  pose proof (find_tree_t (b := demand) As (wf_ne W) (wf_nd W) EV Names Ne (connected_spans g D Con) fuel S F) as H.
  apply tpk_elim in H as [[K _]|(h & t & E & f' & T & Sh & Lb)]; [exfalso; unfold tree_bound, break_bound, cap_max in K; change (dkeys (g_nbrs g)) with (get_node_list g) in K; nia|]. exists h, t. split; [exact E|]. split; [apply (sf_wf (ts_self T))|]. split; [apply (ts_wf T)|]. split; [apply (ts_dir T)|].
  split; [apply (self_solution g W D IC IF HC demand f' t h T)|]. split; [apply (self_reflowed g W D IC IF HC f' h (ts_self T))|].
  split; [apply (self_shows g f' h t (ts_self T) (ts_es T) Sh); intros e He; apply Lb, (ts_es T He)|]. intros x y He. rewrite (sf_edges (ts_self T)) in He. apply (self_labelled g W D IC IF HC f' h (ts_self T) x y He), (Lb _ He).
Qed.
Print Assumptions C72_find_tree.

(** a pivot: the entering arc replaces the leaving one, and the cost changes by the amount pushed times the reduced cost *)
Theorem C72_pivot : forall (g t : graph) (demand : name -> Z) (root : name) (nr : val) (k l : name) (fuel : nat),
  wf g -> g_type g = Directed -> int_attr g "capacity" -> int_attr g "flow" -> has_costs g false -> asymmetric (get_edge_list g) ->
  (forall x, In x (get_node_list g) -> exists z, x = NI z) -> In root (get_node_list g) ->
  wf t -> g_type t = Directed -> tree_solution demand g t -> In (k, l) (get_edge_list g) -> ~ In (k, l) (get_edge_list t) -> 2 * length (get_node_list t) < fuel ->
  exists t1 p q m cycle h t2,
    simplex_determine_leaving_arc fuel (fst (simplex_search fuel root nr t)) k l g = (g, Ok (t1, ((p, q), m, cycle))) /\
    simplex_remove_arc t1 p q m cycle g = (h, Ok t2) /\
    wf h /\ wf t2 /\ g_type t2 = Directed /\ tree_solution demand h t2 /\ reflowed g h /\ tree_shows h t2 /\ (forall x y, In (x, y) (get_edge_list t) \/ (x, y) = (k, l) -> flow_labelled h x y) /\
    (forall e, In e (get_edge_list t2) <-> (In e (get_edge_list t) \/ e = (k, l)) /\ e <> (p, q)) /\ (0 <= m)%Z /\
    forall pi, (forall i j, In (i, j) (get_edge_list t) -> (edge_cost g i j - pi i + pi j = 0)%Z) ->
      (flow_cost (get_edge_list h) (fun e => edge_cost h (fst e) (snd e)) (flow_of h) = flow_cost (get_edge_list g) (fun e => edge_cost g (fst e) (snd e)) (flow_of g) +
        (if flow_of g (k, l) =? cap_of g (k, l) then - m else m) * (edge_cost g k l - pi k + pi l))%Z.
Proof.
  intros g t demand root nr x y fuel W D IC IF HC As Names Rt Wt Dt Sol He Ht Hf. pose proof (problem_self g W D IC IF HC) as S.
  assert (EV : forall e, In e (get_edge_list g) -> In (fst e) (get_node_list g) /\ In (snd e) (get_node_list g)) by (intros [a b] Hab; apply (edge_nodes W D Hab)).
  pose proof (sol_nodes _ _ _ Sol) as Hn. pose proof (sol_arcs _ _ _ Sol) as Ha. pose proof (sol_flow _ _ _ Sol) as F.
  destruct (prepared t root nr fuel Wt Dt) as (t' & seq & P & Dp & -> & Wt' & Dtt & Et & Nt & TI & Cov & Ln).
  { intros z Hz. apply Names, Hn, Hz. }
  { apply Hn, Rt. }
  { intros z Hz. apply (sol_spans _ _ _ Sol); [exact Rt|apply Hn, Hz]. }
  { lia. }
  assert (Dt' : g_type t' = Directed) by (rewrite Dtt; exact Dt).
  assert (Hn' : forall z, In z (get_node_list t') <-> In z (get_node_list g)) by (rewrite Nt; exact Hn).
  rewrite <- Et in Ha, Ht.
  assert (Hb : (flow_of g (x, y) = 0 \/ flow_of g (x, y) = cap_of g (x, y))%Z) by (apply (sol_bounds _ _ _ Sol); [exact He|rewrite <- Et; exact Ht]).
  pose proof (leaving_t (c := cap_of g) As Wt' Dt' TI (fun z Hz => Cov z (proj2 (Hn' z) Hz)) Hn' Ha EV (fs_bounds F) fuel S He Ht Hb) as H.
  apply tpk_elim in H as [[K _]|(h0 & [t1 [[[p q] m] cyc]] & E & -> & L)]; [lia|].
  pose proof (remove_ok As Ha L He S) as H. apply ok_ex in H as (h & t2 & E2 & (_ & _ & S2 & W2 & D2 & N2 & Ed2 & Sh2 & Lb2)). cbn [fst snd] in E2. pose proof (shows_int Sh2) as I2.
  set (f' := fold_left (push (get_edge_list g) m) (cycle_pairs cyc) (flow_of g)) in *.
  assert (Fo : forest (get_edge_list t')) by (rewrite Et; apply (acyclic_forest _ (wf_ne Wt) (sol_acyclic _ _ _ Sol))).
  destruct (new_tree (V := get_node_list g) (fun e => edge_cost g (fst e) (snd e)) root L Ht Fo) as [Fo2 Sp2].
  { intros a b Va Vb. pose proof (sol_spans _ _ _ Sol a b Va Vb) as K. revert K. apply reach_mono. intros u v. unfold linked. rewrite Et. auto. }
  pose proof (new_feasible As (wf_ne W) Ha L He F) as F'. fold f' in F'.
  assert (T : tsol (get_node_list g) (get_edge_list g) (cap_of g) (fun e => edge_cost g (fst e) (snd e)) demand f' t2 h).
  { constructor; try assumption; rewrite ?Ed2, ?N2; try assumption.
    - intros e Hi. apply in_without in Hi. apply (tel_es Ha He), Hi.
    - apply (new_bounds As Ha L He). intros e Hi Ho. apply (sol_bounds _ _ _ Sol); [exact Hi|rewrite <- Et; exact Ho]. }
  destruct (self_reflowed g W D IC IF HC f' h S2) as (Rf & Hfl & Hcp).
  exists t1, p, q, m, cyc, h, t2. split; [exact E|]. split; [exact E2|]. split; [apply (sf_wf S2)|]. split; [exact W2|]. split; [exact D2|].
  split; [apply (self_solution g W D IC IF HC demand f' t2 h T)|]. split; [exact Rf|].
  split; [apply (self_shows g f' h t2 S2 (ts_es T) Sh2); intros e Hi; apply Lb2; rewrite Ed2 in Hi; apply in_without in Hi; tauto|].
  split; [intros a b Hi; assert (Hi' : In (a, b) (get_edge_list t' ++ [(x, y)])) by (apply in_app_iff; rewrite Et; simpl; intuition); apply (self_labelled g W D IC IF HC f' h S2 a b (tel_es Ha He Hi')), (Lb2 _ Hi')|]. split.
  { intros e. rewrite Ed2, in_without, in_app_iff, Et. simpl. intuition. }
  split; [apply (lv_pos L)|]. intros pi Tight.
  set (k := fun e => edge_cost g (fst e) (snd e)) in *.
  assert (Ec : flow_cost (get_edge_list h) (fun e => edge_cost h (fst e) (snd e)) (flow_of h) = flow_cost (get_edge_list g) k f').
  { rewrite (sf_edges S2). unfold flow_cost. apply zsum_ext. intros [u v] Huv. rewrite (Hfl _ Huv). unfold k, edge_cost. cbn [fst snd]. destruct Rf as (_ & _ & Rf). destruct (Rf u v Huv) as (_ & -> & _). reflexivity. }
  rewrite Ec. change (fun e : name * name => edge_cost g (fst e) (snd e)) with k.
  assert (Z0 : zsum (fun e => (pi (snd e) - pi (fst e)) * (f' e - flow_of g e))%Z (get_edge_list g) = 0%Z).
  { rewrite (potential_sum (fun e => f' e - flow_of g e)%Z pi (wf_nd W) EV). apply zsum_zero. intros z Hz. rewrite net_sub. pose proof (fs_demand F Hz). pose proof (fs_demand F' Hz). rewrite out_in in *. replace (net (get_edge_list g) f' z - net (get_edge_list g) (flow_of g) z)%Z with 0%Z by lia. lia. }
  assert (Dif : (flow_cost (get_edge_list g) k f' - flow_cost (get_edge_list g) k (flow_of g) = zsum (fun e => if eqb e (x, y) then (k (x, y) - pi x + pi y) * (f' (x, y) - flow_of g (x, y)) else 0) (get_edge_list g))%Z).
  { unfold flow_cost. rewrite <- zsum_sub. match goal with |- ?A = _ => transitivity (A + zsum (fun e => (pi (snd e) - pi (fst e)) * (f' e - flow_of g e))%Z (get_edge_list g))%Z; [rewrite Z0; ring|] end. rewrite <- zsum_add. apply zsum_ext. intros [u v] Huv. cbn [fst snd]. destruct (eqb_spec (u, v) (x, y)) as [[= -> ->]|Hne]; [lia|].
    destruct (in_dec eq_dec (u, v) (get_edge_list t)) as [Htr|Htr].
    - pose proof (Tight u v Htr) as K. unfold k. cbn [fst snd]. replace (edge_cost g u v) with (pi u - pi v)%Z by lia. lia.
    - unfold f'. rewrite (other_flow As Ha L He Huv); [ring|]. intros K. apply in_app_iff in K as [K|[K|[]]]; [rewrite Et in K; contradiction|congruence]. }
  rewrite zsum_delta in Dif by apply (wf_ne W). rewrite (proj2 (mem_In _ _) He) in Dif. unfold f' in Dif at 2. rewrite (flow_at As L He) in Dif. cbn [fst snd] in Dif. unfold k in Dif at 3. cbn [fst snd] in Dif.
  destruct (lv_enter L) as [[K Kf]|[K Kf]].
  - rewrite (proj2 (mem_In _ _) K), (proj2 (mem_nIn _ _) (lv_asym L K)) in Dif. destruct (Z.eqb_spec (flow_of g (x, y)) (cap_of g (x, y))) as [Eq|_]; [|nia].
    pose proof (lv_room L K) as R. unfold room in R. rewrite (proj2 (mem_In _ _) He) in R. pose proof (lv_pos L). assert (m = 0)%Z by lia. nia.
  - rewrite (proj2 (mem_In _ _) K), (proj2 (mem_nIn _ _) (lv_asym L K)) in Dif. rewrite (proj2 (Z.eqb_eq _ _) Kf). nia.
Qed.
Print Assumptions C72_pivot.

(* flow on all three arcs of a cycle: it is pushed around until the arc (1, 3) is empty; entering that arc again costs 2 per unit, and (1, 2) leaves *)
Definition exfl : graph := history (new_graph (Some Directed) [])
  [OAddNode (NI 1) []; OAddNode (NI 2) []; OAddNode (NI 3) [];
   OAddEdge (NI 1) (NI 2) [("cost", VI 1); ("capacity", VI 10); ("flow", VI 1)]; OAddEdge (NI 2) (NI 3) [("cost", VI 1); ("capacity", VI 10); ("flow", VI 5)]; OAddEdge (NI 1) (NI 3) [("cost", VI 4); ("capacity", VI 10); ("flow", VI 2)]].
Definition exdem (x : name) : Z := if eqb x (NI 1) then 3%Z else if eqb x (NI 2) then 4%Z else if eqb x (NI 3) then (-7)%Z else 0%Z.
Lemma all_ints g a : forallb (fun e => match obs (get_edge_attr (fst e) (snd e) a) g with Ok (VI _) => true | _ => false end) (get_edge_list g) = true -> int_attr g a.
Proof. intros H x y He. rewrite forallb_forall in H. specialize (H _ He). cbn [fst snd] in H. destruct (obs (get_edge_attr x y a) g) as [[]|]; try discriminate. eauto. Qed.
Lemma all_feasible g c d f : forallb (fun e => (0 <=? f e)%Z && (f e <=? c e)%Z) (get_edge_list g) && forallb (fun x => (outflow (get_edge_list g) f x - inflow (get_edge_list g) f x =? d x)%Z) (get_node_list g) = true ->
  feasible (get_node_list g) (get_edge_list g) c d f.
Proof.
  intros H. apply andb_true_iff in H as [H1 H2]. rewrite forallb_forall in H1, H2. constructor.
  - intros e He. specialize (H1 e He). apply andb_true_iff in H1 as [H H']. apply Z.leb_le in H, H'. lia.
  - intros x Hx. apply Z.eqb_eq, H2, Hx.
Qed.
Example C72_nonvacuous : wf exfl /\ g_type exfl = Directed /\ int_attr exfl "capacity" /\ int_attr exfl "flow" /\ has_costs exfl false /\ asymmetric (get_edge_list exfl) /\
  (forall x, In x (get_node_list exfl) -> exists z, x = NI z) /\ get_node_list exfl <> [] /\ connected exfl /\
  feasible (get_node_list exfl) (get_edge_list exfl) (cap_of exfl) exdem (flow_of exfl) /\
  match simplex_find_tree 60 exfl with
  | (h, Ok t) => wf h /\ wf t /\ g_type t = Directed /\ tree_solution exdem h t /\ get_edge_list t = [(NI 1, NI 2); (NI 2, NI 3)] /\ map (flow_of h) (get_edge_list h) = [3; 7; 0]%Z /\
      let t := fst (simplex_search 20 (NI 3) (VI 1) t) in let h := fst (simplex_compute_potentials 20 t (NI 3) h) in
      map (fun x => obs (get_node_attr x "potential") h) (get_node_list h) = [Ok (VI 2); Ok (VI 1); Ok (VI 0)] /\
      obs (simplex_identify_cycle 20 t (NI 1) (NI 3)) h = Ok [NI 3; NI 2; NI 1] /\
      match simplex_determine_leaving_arc 20 t (NI 1) (NI 3) h with
      | (h, Ok (t, ((p, q), m, cycle))) => (p, q) = (NI 1, NI 2) /\ m = 3%Z /\
          match simplex_remove_arc t p q m cycle h with (h, Ok t) => get_edge_list t = [(NI 2, NI 3); (NI 1, NI 3)] /\ map (flow_of h) (get_edge_list h) = [0; 4; 3]%Z | _ => False end
      | _ => False
      end
  | _ => False
  end.
Proof.
  assert (W : wf exfl) by (refine (proj1 (wf_history (wf_new (Some Directed) []) _)); discriminate).
  assert (D : g_type exfl = Directed) by (vm_compute; reflexivity). assert (IC : int_attr exfl "capacity") by (apply all_ints; vm_compute; reflexivity). assert (IF : int_attr exfl "flow") by (apply all_ints; vm_compute; reflexivity).
  assert (HC : has_costs exfl false) by (apply all_costs; vm_compute; reflexivity). assert (As : asymmetric (get_edge_list exfl)) by (apply all_asym; vm_compute; reflexivity).
  assert (Nm : forall x, In x (get_node_list exfl) -> exists z, x = NI z) by (apply all_names; vm_compute; reflexivity). assert (Ne : get_node_list exfl <> []) by (vm_compute; discriminate).
  assert (Cn : connected exfl) by (apply (all_connected _ (NI 1) [[]; [NI 2]; [NI 3]]); vm_compute; reflexivity).
  assert (F : feasible (get_node_list exfl) (get_edge_list exfl) (cap_of exfl) exdem (flow_of exfl)) by (apply all_feasible; vm_compute; reflexivity).
  split; [exact W|]. split; [exact D|]. split; [exact IC|]. split; [exact IF|]. split; [exact HC|]. split; [exact As|]. split; [exact Nm|]. split; [exact Ne|]. split; [exact Cn|]. split; [exact F|].
  assert (Hf : (length (get_edge_list exfl) + 1) * (list_max (map (fun e => Z.to_nat (cap_of exfl e)) (get_edge_list exfl)) + 1) + length (get_edge_list exfl) + length (get_node_list exfl) < 60) by (vm_compute; lia).
  destruct (C72_find_tree exfl exdem W D IC IF HC As Nm Ne Cn F 60 Hf) as (h & t & E & Wh & Wt & Dt & Sol & _).
  assert (Eh : h = fst (simplex_find_tree 60 exfl)) by (rewrite E; reflexivity). assert (Et : Ok t = snd (simplex_find_tree 60 exfl)) by (rewrite E; reflexivity).
  rewrite E. split; [exact Wh|]. split; [exact Wt|]. split; [exact Dt|]. split; [exact Sol|]. clear E Wh Wt Dt Sol Hf F Cn Ne Nm As HC IF IC D W.
  vm_compute in Eh, Et. injection Et as ->. subst h. vm_compute. repeat split.
Qed.
