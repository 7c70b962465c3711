(* Property theorems C70: sessions of algorithm calls on one graph (S_Session.v), and the agreement of different methods
   for the same problem, each run after any session. *)
From Coq Require QArith.
From Verif Require Import Py Util M_Graph M_Search M_Flow M_Preflow M_Dfs M_Prim M_Kruskal M_LabelCorr M_Floyd M_MinCost M_NetSimplex P_Graph P_GraphLaws P_Attr Spec P_Walk S_Span S_Frontier P_Frontier
  P_SearchTop P_SearchMore S_Flow S_GraphFlow S_MinCost P_Flow P_MaxFlow P_MinCostAbs P_PreflowTop P_EdgeFrame S_Session P_Session P_SessionUse C_Search C_Sets C_Flow C_Preflow C_Floyd C_LabelCorr C_MinCost C_NetSimplex.
Local Open Scope string_scope. Local Open Scope list_scope.

(** C70: whatever is called, with whatever arguments, and whether it returns or raises: the problem stays the same *)
Theorem C70_problem_unchanged : forall g h, wf g -> session g h -> wf h /\ same_problem g h.
Proof. intros g h W H. apply session_sp in H. split; [apply (u_wf H W)|apply (same_problem_sp H W)]. Qed.
Print Assumptions C70_problem_unchanged.

(** the two methods for maximum flows *)
Theorem C70_max_flow_methods : forall (fr1 frs fr2 : frontier) (els1 : fq fr1 -> list name) (elss : fq frs -> list name) (els2 : fq fr2 -> list name) (held : fq fr2 -> name -> bool)
    (al : pf_algo) (q1 : fq fr1) (s2 : fq frs) (q2 : fq fr2) (source sink : name) (d1 d2 : option val) (fuel1 fuel2 : nat) (g h1 h2 : graph),
  bag els1 -> els1 q1 = [] -> fifo elss -> fq_is_pq frs = false -> elss s2 = [] ->
  bag els2 -> (forall q x, held q x = true <-> In x (els2 q)) -> els2 q2 = [] -> (al = HighestLabel -> fq_is_pq fr2 = true) -> al <> OtherPreflow ->
  wf g -> g_type g = Directed -> int_caps g -> nonneg_caps g -> no_antiparallel g -> dget (g_attr g) "display" <> None ->
  In source (get_node_list g) -> In sink (get_node_list g) -> source <> sink -> ~ In (source, source) (get_edge_list g) ->
  flow_fuel g < fuel1 -> enough g fuel2 -> session g h1 -> session g h2 ->
  exists k1, max_flow fuel1 q1 source sink d1 h1 = (k1, Ok tt) /\ is_flow (get_edge_list g) (cap_of g) source sink (flow_of k1) /\
    forall k2, max_flow_preflowpush held fuel2 s2 q2 source sink al d2 h2 = (k2, Ok tt) ->
      is_flow (get_edge_list g) (cap_of g) source sink (flow_of k2) /\
      value (get_edge_list g) sink (flow_of k1) = value (get_edge_list g) sink (flow_of k2) /\
      forall f, is_flow (get_edge_list g) (cap_of g) source sink f -> (value (get_edge_list g) sink f <= value (get_edge_list g) sink (flow_of k1))%Z.
Proof.
  intros fr1 frs fr2 els1 elss els2 held al q1 s2 q2 source sink d1 d2 fuel1 fuel2 g h1 h2 B1 Q1 Fs Fnp Hs0 B2 Held Q2 Hpq Hal W D IC NC NA Dm Hs Ht Hst Hss F1 F2 S1 S2.
  apply session_sp in S1, S2.
  assert (Ff : flow_fuel h1 < fuel1).
  { unfold flow_fuel in *. rewrite (u_nodes S1), (u_edges S1), (zsum_ext (f := cap_of h1) (h := cap_of g)); [exact F1|]. intros e _. apply (u_cap S1 W). }
  assert (Hs1 : In source (get_node_list h1)) by (rewrite (u_nodes S1); exact Hs). assert (D1 : g_type h1 = Directed) by (rewrite (u_type S1); exact D).
  assert (Hd1 : d1 = None \/ dget (g_attr h1) "display" <> None) by (right; apply (sp_disp S1 Dm)).
  destruct (C26_feasible fr1 els1 h1 q1 source sink d1 fuel1 B1 Q1 (u_wf S1 W) D1 (u_int_caps S1 W IC) (u_nonneg_caps S1 W NC) Hs1 Hst Hd1 Ff) as (k1 & E1 & _ & _ & Fl1 & _).
  destruct (C27_maximum fr1 els1 h1 q1 source sink d1 fuel1 B1 Q1 (u_wf S1 W) D1 (u_int_caps S1 W IC) (u_nonneg_caps S1 W NC) (u_anti S1 NA) Hs1 Hst Hd1 Ff) as (k1' & E1' & Mx1 & _).
  rewrite E1' in E1. injection E1 as ->. rewrite (u_edges S1) in Fl1, Mx1. apply (u_is_flow S1 W) in Fl1.
  exists k1. split; [exact E1'|]. split; [exact Fl1|]. intros k2 E2.
  assert (Hs2 : In source (get_node_list h2)) by (rewrite (u_nodes S2); exact Hs). assert (Ht2 : In sink (get_node_list h2)) by (rewrite (u_nodes S2); exact Ht).
  assert (D2 : g_type h2 = Directed) by (rewrite (u_type S2); exact D). assert (Hss2 : ~ In (source, source) (get_edge_list h2)) by (rewrite (u_edges S2); exact Hss).
  destruct (C29_preflow_maximum frs fr2 elss els2 held al h2 s2 q2 source sink d2 fuel2 Fs Fnp Hs0 B2 Held Q2 Hpq Hal (u_wf S2 W) D2 (u_int_caps S2 W IC) (u_nonneg_caps S2 W NC) Hs2 Ht2 Hst Hss2
    (fun _ => sp_disp S2 Dm) (enough_ss (sp_shape S2) F2)) as [O|(k2' & E2' & R)]; [unfold obs in O; rewrite E2 in O; discriminate|].
  rewrite E2' in E2. injection E2 as ->. destruct R as (_ & _ & Fl2 & Mx2 & _). rewrite (u_edges S2) in Fl2, Mx2. apply (u_is_flow S2 W) in Fl2.
  split; [exact Fl2|]. assert (L1 : forall f, is_flow (get_edge_list g) (cap_of g) source sink f -> (value (get_edge_list g) sink f <= value (get_edge_list g) sink (flow_of k1))%Z) by (intros f Hf; apply Mx1, (u_is_flow S1 W), Hf).
  split; [|exact L1]. specialize (L1 _ Fl2). specialize (Mx2 (flow_of k1)). pose proof (proj2 (u_is_flow S2 W source sink (flow_of k1)) Fl1) as K. specialize (Mx2 K). lia.
Qed.
Print Assumptions C70_max_flow_methods.

(** the three methods for shortest paths *)
Theorem C70_shortest_path_methods : forall (fr : frontier) (els : fq fr -> list name) (q : fq fr) (component : option Z) (source : name) (fuel : nat) (g h1 h2 h3 : graph),
  prioq els -> els q = [] -> wf g -> g_type g = Directed -> nonneg_costs g false -> In source (get_node_list g) -> ~ arc g source source -> enough g fuel ->
  session g h1 -> session g h2 -> session g h3 ->
  exists k1 pred distance nextn N,
    search fuel source None component q Dijkstra false h1 = (k1, Ok (RPred pred)) /\
    floyd_warshall h2 = (h2, Ok (true, distance, nextn)) /\
    forall fuel3, N <= fuel3 -> exists k3 pred3, fifo_label_correcting Py2 fuel3 source h3 = (k3, Ok (inl pred3)) /\
      forall n, reach (arc g) source n -> exists z, least_cost (arc g) (edge_cost g) source n z /\
        obs (get_node_attr n "priority") k1 = Ok (VI z) /\ dget distance (source, n) = Some (Some z) /\ obs (get_node_attr n "distance") k3 = Ok (VI z).
Proof.
  intros fr els q component source fuel g h1 h2 h3 Hp Hq W D NC Hs Hl Hf S1 S2 S3. apply session_sp in S1, S2, S3.
  assert (Sa : forall x y, sarc g false x y <-> arc g x y) by (intros x y; unfold sarc; rewrite D; reflexivity).
  assert (HC : has_costs g false) by (intros x y A; destruct (NC x y A) as (z & Hz & _); exists z; exact Hz).
  assert (Pos : forall a p b, walk (arc g) a p b -> (0 <= wcost (edge_cost g) p)%Z).
  { intros a p b. apply wcost_nonneg. intros x y A. destruct (NC x y) as (z & Hz & Hz0); [apply Sa, A|]. unfold edge_cost. rewrite Hz. exact Hz0. }
  assert (Hs1 : In source (get_node_list h1)) by (rewrite (u_nodes S1); exact Hs). assert (Hl1 : ~ arc h1 source source) by (rewrite (u_arc S1); exact Hl).
  destruct (C16_dijkstra_tree fr els h1 false component source q fuel Hp (u_wf S1 W) (u_nonneg_costs S1 NC) Hs1 Hl1 Hq (enough_ss (sp_shape S1) Hf)) as (k1 & pred & E1 & R1).
  assert (D2 : g_type h2 = Directed) by (rewrite (u_type S2); exact D).
  destruct (C30_floyd_warshall h2 (u_wf S2 W) D2 (u_has_costs S2 HC)) as (v & dist & nx & E2 & V & R2).
  assert (v = true) as ->. { apply V. intros a p Hp'. rewrite (u_wcost S2). apply (Pos a p a), (walk_iff a p a (u_arc S2)), Hp'. }
  specialize (R2 eq_refl).
  assert (Hs3 : In source (get_node_list h3)) by (rewrite (u_nodes S3); exact Hs).
  destruct (C55_py2 h3 source (u_wf S3 W) (u_has_costs S3 HC) Hs3) as (N & R3).
  exists k1, pred, dist, nx, N. split; [exact E1|]. split; [exact E2|]. intros fuel3 Hf3. destruct (R3 fuel3 Hf3) as (k3 & r & E3 & H3). destruct r as [pred3|cycle].
  2:{ exfalso. destruct H3 as (j & b & _ & _ & _ & Wk & Neg). rewrite (u_wcost S3) in Neg. apply (walk_iff _ _ _ (u_arc S3)) in Wk. pose proof (Pos _ _ _ Wk). lia. }
  exists k3, pred3. split; [exact E3|]. destruct H3 as (_ & H3 & _). intros n Rn.
  assert (Hn : In n (get_node_list g)).
  { assert (K : forall x y, arc g x y -> In y (get_node_list g)) by (intros x y A; apply (arc_listed x y D) in A; apply (edge_nodes W D A)).
    destruct Rn as [p Hp']. clear - Hs K Hp'. induction Hp' as [|a b p c A _ IH]; [exact Hs|]. apply IH, (K _ _ A). }
  destruct (R1 n) as (z & Lz & Ez & _). { apply (reach_iff source n (u_sarc S1 false)), (reach_iff source n Sa), Rn. }
  apply (u_least S1 false) in Lz. assert (Lz' : least_cost (arc g) (edge_cost g) source n z).
  { destruct Lz as [(p & Hp' & Hc) Hm]. split; [exists p; split; [apply (walk_iff source p n Sa), Hp'|exact Hc]|]. intros p' Hp''. apply Hm, (walk_iff source p' n Sa), Hp''. }
  assert (Un : forall z', least_cost (arc g) (edge_cost g) source n z' -> z' = z).
  { intros z' [(p' & Hp' & Hc') Hm']. destruct Lz' as [(p & Hp0 & Hc) Hm]. specialize (Hm' p Hp0). specialize (Hm p' Hp'). lia. }
  exists z. split; [exact Lz'|]. split; [exact Ez|]. split.
  - assert (Hn2 : In n (get_node_list h2)) by (rewrite (u_nodes S2); exact Hn). assert (Hs2 : In source (get_node_list h2)) by (rewrite (u_nodes S2); exact Hs).
    specialize (R2 source n Hs2 Hn2). rewrite (u_arc S2) in R2. specialize (R2 (or_intror Hl)). destruct (dget dist (source, n)) as [[z'|]|].
    + apply (u_least' S2) in R2. rewrite (Un z' R2). reflexivity.
    + exfalso. apply R2, (u_reach S2), Rn.
    + destruct R2.
  - assert (Hn3 : In n (get_node_list h3)) by (rewrite (u_nodes S3); exact Hn). destruct (H3 n Hn3) as [K _]. destruct K as (z' & p & Ez' & Lz3 & _); [apply (u_reach S3), Rn|].
    apply (u_least' S3) in Lz3. rewrite (Un z' Lz3) in Ez'. exact Ez'.
Qed.
Print Assumptions C70_shortest_path_methods.

(** Kruskal's method and Prim's *)
Theorem C70_spanning_tree_methods : forall (fr : frontier) (els : fq fr -> list name) (q : fq fr) (component : option Z) (source : name) (opt : bool) (kw : attrs) (fuel1 fuel2 : nat) (rev : bool) (g h1 h2 : graph),
  prioq els -> els q = [] -> wf g -> g_type g = Undirected -> has_costs g rev -> In source (get_node_list g) -> (forall x, ~ arc g x x) ->
  (forall x, In x (get_node_list g) -> reach (arc g) source x) -> length (get_node_list g) <= fuel1 -> enough g fuel2 -> session g h1 -> session g h2 ->
  exists k1 T k2 pred, kruskal fuel1 (new_ds opt kw) h1 = (k1, Ok T) /\ search fuel2 source None component q Prim rev h2 = (k2, Ok (RPred pred)) /\
    min_spanning_forest (fun e => edge_cost g (fst e) (snd e)) (get_edge_list g) T /\
    min_spanning_forest (fun e => edge_cost g (fst e) (snd e)) (get_edge_list g) (pred_edges g pred) /\
    total (fun e => edge_cost g (fst e) (snd e)) T = total (fun e => edge_cost g (fst e) (snd e)) (pred_edges g pred).
Proof.
  intros fr els q component source opt kw fuel1 fuel2 rev g h1 h2 Hp Hq W U HC Hs Hl Hr F1 F2 S1 S2. apply session_sp in S1, S2.
  assert (Ar : forall x y, In (x, y) (get_edge_list g) -> arc g x y).
  { intros x y H. unfold arc, check_edge. rewrite U. apply dmem_In in H. rewrite H. reflexivity. }
  assert (Hc1 : forall x y, In (x, y) (get_edge_list h1) -> exists z, obs (get_edge_attr x y "cost") h1 = Ok (VI z)).
  { intros x y H. rewrite (u_edges S1) in H. rewrite (u_cost_obs S1). apply HC. unfold sarc. rewrite U. apply Ar, H. }
  assert (F1' : length (get_node_list h1) <= fuel1) by (rewrite (u_nodes S1); exact F1).
  destruct (C24_kruskal_mst h1 opt kw fuel1 (u_wf S1 W) Hc1 F1') as (k1 & T & E1 & M1 & _). rewrite (u_edges S1) in M1. apply (u_msf S1) in M1.
  assert (Hs2 : In source (get_node_list h2)) by (rewrite (u_nodes S2); exact Hs). assert (U2 : g_type h2 = Undirected) by (rewrite (u_type S2); exact U).
  assert (Hl2 : forall x, ~ arc h2 x x) by (intros x; rewrite (u_arc S2); apply Hl).
  destruct (C17_prim_mst fr els h2 rev component source q fuel2 Hp (u_wf S2 W) U2 (u_has_costs S2 HC) Hs2 Hl2 Hq (enough_ss (sp_shape S2) F2)) as (k2 & pred & E2 & M2).
  destruct (M2 (get_edge_list g)) as [M2' _].
  { intros e. rewrite (u_edges S2), (u_reach S2). split; [|tauto]. intros He. split; [exact He|]. apply Hr. destruct e as [x y]. apply (wf_edge_l W He). }
  apply (u_msf S2) in M2'. rewrite (u_pred_edges S2) in M2'.
  exists k1, T, k2, pred. split; [exact E1|]. split; [exact E2|]. split; [exact M1|]. split; [exact M2'|].
  destruct M1 as (A1 & A2 & A3), M2' as (B1 & B2 & B3). specialize (A3 _ B1 B2). specialize (B3 _ A1 A2). lia.
Qed.
Print Assumptions C70_spanning_tree_methods.

(** cycle canceling and the network simplex method *)
Theorem C70_min_cost_methods : forall (fr1 fr2 : frontier) (els1 : fq fr1 -> list name) (els2 : fq fr2 -> list name) (q1 : fq fr1) (q2 : fq fr2) (fuel1 fuel2 : nat) (display : val) (pivot : string) (root : name)
    (g h1 h2 k1 k2 : graph) (r1 r2 : bool),
  bag els1 -> els1 q1 = [] -> bag els2 -> els2 q2 = [] -> wf g -> g_type g = Directed -> int_demands g -> int_caps g -> nonneg_caps g -> has_costs g false -> asymmetric (get_edge_list g) ->
  (forall x, In x (get_node_list g) -> exists z, x = NI z) -> connected g -> In root (get_node_list g) -> pivot = "dantzig" \/ pivot = "first_eligible" ->
  dget (g_attr g) "display" <> None -> zsum (demand_of g) (get_node_list g) = 0%Z -> (exists i, In i (get_node_list g) /\ demand_of g i <> 0%Z) ->
  session g h1 -> session g h2 -> cycle_canceling fuel1 q1 h1 = (k1, Ok r1) -> network_simplex fuel2 q2 display pivot root h2 = (k2, Ok r2) ->
  r1 = r2 /\ (r1 = true ->
    min_cost (get_node_list g) (get_edge_list g) (cap_of g) (demand_of g) (fun e => edge_cost g (fst e) (snd e)) (flow_of k1) /\
    min_cost (get_node_list g) (get_edge_list g) (cap_of g) (demand_of g) (fun e => edge_cost g (fst e) (snd e)) (flow_of k2) /\
    flow_cost (get_edge_list g) (fun e => edge_cost g (fst e) (snd e)) (flow_of k1) = flow_cost (get_edge_list g) (fun e => edge_cost g (fst e) (snd e)) (flow_of k2)).
Proof.
  intros fr1 fr2 els1 els2 q1 q2 fuel1 fuel2 display pivot root g h1 h2 k1 k2 r1 r2 B1 Q1 B2 Q2 W D ID IC NC HC As Nm Cn Hr Hp Dm Hz Hi S1 S2 E1 E2. apply session_sp in S1, S2.
  assert (Hi1 : forall h, sp g h -> exists i, In i (get_node_list h) /\ demand_of h i <> 0%Z).
  { intros h S. destruct Hi as (i & I1 & I2). exists i. rewrite (u_nodes S), (u_demand S). auto. }
  assert (Hz1 : forall h, sp g h -> zsum (demand_of h) (get_node_list h) = 0%Z) by (intros h S; rewrite (u_nodes S), (u_zsum_demand S); exact Hz).
  assert (As1 : forall h, sp g h -> asymmetric (get_edge_list h)) by (intros h S; rewrite (u_edges S); exact As).
  assert (D1 : forall h, sp g h -> g_type h = Directed) by (intros h S; rewrite (u_type S); exact D).
  assert (N1 : ~ In (NS "s") (get_node_list h1)) by (rewrite (u_nodes S1); intros H; destruct (Nm _ H); discriminate).
  assert (N2 : ~ In (NS "t") (get_node_list h1)) by (rewrite (u_nodes S1); intros H; destruct (Nm _ H); discriminate).
  destruct (C37_cycle_canceling fr1 els1 h1 q1 fuel1 k1 r1 B1 Q1 (u_wf S1 W) (D1 _ S1) (u_int_demands S1 ID) (u_int_caps S1 W IC) (u_nonneg_caps S1 W NC) (u_has_costs S1 HC) (As1 _ S1) N1 N2 (sp_disp S1 Dm) (Hz1 _ S1) (Hi1 _ S1) E1) as (T1 & X1 & _).
  assert (Nm2 : forall x, In x (get_node_list h2) -> exists z, x = NI z) by (rewrite (u_nodes S2); exact Nm).
  assert (Cn2 : connected h2).
  { intros x y Hx Hy. rewrite (u_nodes S2) in Hx, Hy. apply (reach_iff (E := fun a b => arc g a b \/ arc g b a)); [|apply Cn; assumption]. intros a b. rewrite !(u_arc S2). reflexivity. }
  assert (Hr2 : In root (get_node_list h2)) by (rewrite (u_nodes S2); exact Hr).
  destruct (C56_network_simplex fr2 els2 h2 q2 fuel2 display pivot root B2 Q2 (u_wf S2 W) (D1 _ S2) (u_int_demands S2 ID) (u_int_caps S2 W IC) (u_nonneg_caps S2 W NC) (u_has_costs S2 HC) (As1 _ S2) Nm2 Cn2 Hr2 Hp (sp_disp S2 Dm) (Hz1 _ S2) (Hi1 _ S2))
    as [O|(k2' & r2' & E2' & T2 & X2 & _)]; [unfold obs in O; rewrite E2 in O; discriminate|]. rewrite E2' in E2. injection E2 as -> ->.
  rewrite (u_nodes S1), (u_edges S1) in T1, X1. rewrite (u_nodes S2), (u_edges S2) in T2, X2.
  assert (T1' : r1 = true -> min_cost (get_node_list g) (get_edge_list g) (cap_of g) (demand_of g) (fun e => edge_cost g (fst e) (snd e)) (flow_of k1)) by (intros H; apply (u_min_cost S1 W), T1, H).
  assert (T2' : r2 = true -> min_cost (get_node_list g) (get_edge_list g) (cap_of g) (demand_of g) (fun e => edge_cost g (fst e) (snd e)) (flow_of k2)) by (intros H; apply (u_min_cost S2 W), T2, H).
  assert (X1' : r1 = false -> forall f, ~ qfeasible (get_node_list g) (get_edge_list g) (cap_of g) (demand_of g) f) by (intros H f Hf; apply (X1 H f), (u_qfeasible S1 W), Hf).
  assert (X2' : r2 = false -> forall f, ~ qfeasible (get_node_list g) (get_edge_list g) (cap_of g) (demand_of g) f) by (intros H f Hf; apply (X2 H f), (u_qfeasible S2 W), Hf).
  assert (Er : r1 = r2).
  { destruct r1, r2; try reflexivity; exfalso.
    - destruct (T1' eq_refl) as [Hf _]. apply (X2' eq_refl _ (feasible_q Hf)).
    - destruct (T2' eq_refl) as [Hf _]. apply (X1' eq_refl _ (feasible_q Hf)). }
  split; [exact Er|]. intros H. pose proof (T1' H) as M1. rewrite Er in H. pose proof (T2' H) as M2. split; [exact M1|]. split; [exact M2|].
  destruct M1 as [F1 L1], M2 as [F2 L2]. specialize (L1 _ (feasible_q F2)). specialize (L2 _ (feasible_q F1)). rewrite qflow_cost_int in L1, L2.
  rewrite <- QArith_base.Zle_Qle in L1, L2. lia.
Qed.
Print Assumptions C70_min_cost_methods.

(* sessions on the example graphs: calls that return, calls that raise, and a call cut short *)
Definition sess_f : graph :=
  let g1 := fst (max_flow 30 ([] : fq stack) (NS "s") (NS "t") None exf) in
  let g2 := fst (search 3 (NS "s") None (Some 7%Z) ([] : fq stack) DFS false g1) in
  let g3 := fst (kruskal 20 (new_ds true []) g2) in
  let g4 := fst (set_graph_attr "display" (VS "file") g3) in
  fst (max_flow_preflowpush held_pq 60 ([] : fq queue) empty_pq (NS "a") (NS "t") HighestLabel None g4).
Lemma sess_f_session : session exf sess_f.
Proof. unfold sess_f. cbv zeta. eapply session_call; [|apply call_preflow]. eapply session_call; [|apply call_display_mode]. eapply session_call; [|apply call_kruskal]. eapply session_call; [|apply call_search]. eapply session_call; [|apply call_max_flow]. apply session_nil. Qed.
(* the flow of another problem lies on the arcs, the components and colours are set, and both methods find the value 4 *)
Example C70_max_flow_nonvacuous : session exf sess_f /\ map (flow_of sess_f) (get_edge_list exf) <> map (flow_of exf) (get_edge_list exf) /\
  obs (search 3 (NS "s") None (Some 7%Z) ([] : fq stack) DFS false) exf = Err OutOfFuel /\ obs (kruskal 20 (new_ds true [])) exf = Err KeyError /\
  flow_fuel exf < 30 /\ enough exf 60 /\
  value (get_edge_list exf) (NS "t") (flow_of (fst (max_flow 30 ([] : fq stack) (NS "s") (NS "t") None sess_f))) = 4%Z /\
  (let (k, r) := max_flow_preflowpush (fr := stack) held_list 60 ([] : fq queue) [] (NS "s") (NS "t") SAP None sess_f in r = Ok tt /\ value (get_edge_list exf) (NS "t") (flow_of k) = 4%Z).
Proof. split; [exact sess_f_session|]. vm_compute. repeat split; try discriminate; lia. Qed.

Definition sess_d : graph :=
  let g1 := fst (label_strong_component 30 exd) in
  let g2 := fst (fifo_label_correcting Py2 40 (NI 4) g1) in
  let g3 := fst (search 20 (NI 4) None None empty_pq Dijkstra true g2) in
  fst (max_flow 10 ([] : fq queue) (NI 4) (NI 3) (Some (VS "off")) g3).
Lemma sess_d_session : session exd sess_d.
Proof. unfold sess_d. cbv zeta. eapply session_call; [|apply call_max_flow]. eapply session_call; [|apply call_search]. eapply session_call; [|apply call_label_correcting]. eapply session_call; [|apply call_strong]. apply session_nil. Qed.
Example C70_shortest_path_nonvacuous : session exd sess_d /\ wf exd /\ g_type exd = Directed /\ nonneg_costs exd false /\ ~ arc exd (NI 4) (NI 4) /\ enough exd 20 /\ reach (arc exd) (NI 4) (NI 3) /\
  prioq (fr := pqueue) (fun q => dkeys (proj1_sig q)) /\
  obs (get_node_attr (NI 3) "priority") (fst (search 20 (NI 4) None None empty_pq Dijkstra false sess_d)) = Ok (VI 4) /\
  (exists d n, obs floyd_warshall sess_d = Ok (true, d, n) /\ dget d (NI 4, NI 3) = Some (Some 4%Z)) /\
  obs (get_node_attr (NI 3) "distance") (fst (fifo_label_correcting Py2 40 (NI 4) sess_d)) = Ok (VI 4) /\
  obs (get_edge_attr (NI 1) (NI 2) "capacity") exd = Err KeyError /\ obs (get_edge_attr (NI 1) (NI 2) "capacity") sess_d = Ok (VI 10000).
Proof.
  split; [exact sess_d_session|]. split; [exact exd_wf|]. split; [reflexivity|]. split; [apply exd_costs|]. split; [vm_compute; discriminate|]. split; [vm_compute; lia|].
  split; [exists [NI 4; NI 1; NI 3]; apply walk_step with (b := NI 1); [vm_compute; reflexivity|]; apply walk_step with (b := NI 3); [vm_compute; reflexivity|]; apply walk_one|]. split; [apply pqueue_prioq|].
  split; [vm_compute; reflexivity|]. split; [eexists _, _; split; vm_compute; reflexivity|]. repeat split; vm_compute; reflexivity.
Qed.

(* exu with its components joined *)
Definition exj : graph := history exu [OAddEdge (NI 4) (NI 5) [("cost", VI 3)]].
Definition sess_j : graph :=
  let g1 := fst (label_components 30 ([] : fq queue) exj) in
  let g2 := fst (minimum_spanning_tree_prim (fr := pqueue) (fun q x => match fq_prio q x with Some p => Ok p | None => Err KeyError end) 2 (NI 6) (Some (VS "off")) empty_pq g1) in
  let g3 := fst (get_diameter 30 ([] : fq queue) g2) in
  fst (dfs 30 (NI 3) 0 0 VNone false None ([], None) g3).
Lemma sess_j_session : session exj sess_j.
Proof. unfold sess_j. cbv zeta. eapply session_call; [|apply call_dfs]. eapply session_call; [|apply call_diameter]. eapply session_call; [|apply call_prim]. eapply session_call; [|apply call_components]. apply session_nil. Qed.
Lemma und_edges g x y : g_type g = Undirected -> arc g x y -> In (x, y) (get_edge_list g) \/ In (y, x) (get_edge_list g).
Proof. intros U H. unfold arc, check_edge in H. rewrite U in H. apply orb_prop in H as [H|H]; [left|right]; apply dmem_In; exact H. Qed.
Example C70_spanning_tree_nonvacuous : session exj sess_j /\ wf exj /\ g_type exj = Undirected /\ has_costs exj false /\ (forall x, ~ arc exj x x) /\
  (forall x, In x (get_node_list exj) -> reach (arc exj) (NI 1) x) /\ enough exj 30 /\
  (let c := fun e => edge_cost exj (fst e) (snd e) in
   match kruskal 20 (new_ds true []) sess_j, search 30 (NI 1) None None empty_pq Prim false sess_j with
   | (_, Ok T), (_, Ok (RPred pred)) => total c T = 5%Z /\ total c (pred_edges exj pred) = 5%Z
   | _, _ => False
   end).
Proof.
  split; [exact sess_j_session|]. split; [refine (proj1 (wf_history exu_wf _)); reflexivity|]. split; [vm_compute; reflexivity|].
  split. { intros x y H. apply (und_edges exj _ _ eq_refl) in H. vm_compute in H. repeat match goal with H : _ \/ _ |- _ => destruct H as [H|H] end; try contradiction; injection H as <- <-; eexists; vm_compute; reflexivity. }
  split. { intros x H. apply (und_edges exj _ _ eq_refl) in H. vm_compute in H. repeat match goal with H : _ \/ _ |- _ => destruct H as [H|H] end; try contradiction; congruence. }
  split.
  { assert (R : forall x y, reach (arc exj) (NI 1) x -> check_edge exj x y = true -> reach (arc exj) (NI 1) y) by (intros x y [p Hp] H; exists (p ++ [y]); eapply walk_snoc; [exact Hp|exact H]).
    assert (R1 : reach (arc exj) (NI 1) (NI 1)) by apply reach_refl.
    assert (R2 : reach (arc exj) (NI 1) (NI 2)) by (apply (R _ _ R1); vm_compute; reflexivity).
    assert (R3 : reach (arc exj) (NI 1) (NI 3)) by (apply (R _ _ R1); vm_compute; reflexivity).
    assert (R4 : reach (arc exj) (NI 1) (NI 4)) by (apply (R _ _ R3); vm_compute; reflexivity).
    assert (R5 : reach (arc exj) (NI 1) (NI 5)) by (apply (R _ _ R4); vm_compute; reflexivity).
    assert (R6 : reach (arc exj) (NI 1) (NI 6)) by (apply (R _ _ R5); vm_compute; reflexivity).
    intros x Hx. vm_compute in Hx. repeat (destruct Hx as [<-|Hx]; [assumption|]). destruct Hx. }
  split; [vm_compute; lia|]. vm_compute. split; reflexivity.
Qed.

(* the graph of C36, C37 and C56, after a maximum flow between two of its nodes, searches and the tree of the simplex method: both methods find the cost 14 *)
Definition sess_m : graph :=
  let g1 := fst (max_flow 40 ([] : fq queue) (NI 1) (NI 3) (Some (VS "off")) (exff (-3))) in
  let g2 := fst (search 30 (NI 2) None None ([] : fq queue) BFS false g1) in
  let g3 := fst (simplex_search 30 (NI 2) (VI 1) g2) in let g4 := fst (simplex_find_tree 60 g3) in
  fst (floyd_warshall g4).
Lemma sess_m_session : session (exff (-3)) sess_m.
Proof. unfold sess_m. cbv zeta. eapply session_call; [|apply call_floyd]. eapply session_call; [|apply call_find_tree]. eapply session_call; [|apply call_simplex_search]. eapply session_call; [|apply call_search]. eapply session_call; [|apply call_max_flow]. apply session_nil. Qed.
Example C70_min_cost_nonvacuous : session (exff (-3)) sess_m /\ map (flow_of sess_m) (get_edge_list sess_m) <> map (flow_of (exff (-3))) (get_edge_list sess_m) /\
  (let c := fun e => edge_cost (exff (-3)) (fst e) (snd e) in
   match cycle_canceling 50 ([] : fq stack) sess_m, network_simplex 50 ([] : fq stack) (VS "off") "dantzig" (NI 2) sess_m with
   | (k1, Ok r1), (k2, Ok r2) => r1 = true /\ r2 = true /\ flow_cost (get_edge_list (exff (-3))) c (flow_of k1) = 14%Z /\ flow_cost (get_edge_list (exff (-3))) c (flow_of k2) = 14%Z
   | _, _ => False
   end).
Proof. split; [exact sess_m_session|]. split; [vm_compute; discriminate|]. vm_compute. repeat split; reflexivity. Qed.
