(* Sessions of algorithm calls leave the problem as it is. *)
From Verif Require Import Py Util M_Graph M_Metrics M_Search M_Flow M_Preflow M_Dfs M_Prim M_Kruskal M_LabelCorr M_Floyd M_PageRank M_MinCost M_Simplex M_NetSimplex P_Graph P_GraphLaws P_Attr P_Search P_SearchFrame S_Session.
Set Implicit Arguments. Unset Strict Implicit.
Local Open Scope string_scope. Local Open Scope list_scope.

Record sp (g h : graph) : Prop := {
  sp_shape : same_shape g h;
  sp_attr : forall a, a <> "display" -> dget (g_attr h) a = dget (g_attr g) a;
  sp_disp : dget (g_attr g) "display" <> None -> dget (g_attr h) "display" <> None;
  sp_node : forall n d, dget (g_nodes g) n = Some d -> exists d', dget (g_nodes h) n = Some d' /\ forall a, ~ In a node_marks -> dget d' a = dget d a;
  sp_edge : forall e d, dget (g_edges g) e = Some d -> exists d', dget (g_edges h) e = Some d' /\
    (forall a, ~ In a edge_marks -> a <> "capacity" -> dget d' a = dget d a) /\
    (dget d' "capacity" = dget d "capacity" \/ dget d "capacity" = None /\ dget d' "capacity" = Some (VI 10000))
}.
Lemma sp_refl g : sp g g.
Proof. constructor; auto; [apply ss_refl| |]; intros k d H; exists d; auto. Qed.
Lemma sp_trans g h k : sp g h -> sp h k -> sp g k.
Proof.
  intros [A1 A2 A3 A4 A5] [B1 B2 B3 B4 B5]. constructor; auto.
  - apply (ss_trans A1 B1).
  - intros a Ha. rewrite B2, A2 by exact Ha. reflexivity.
  - intros n d Hd. destruct (A4 _ _ Hd) as (d1 & H1 & K1). destruct (B4 _ _ H1) as (d2 & H2 & K2). exists d2. split; [exact H2|]. intros a Ha. rewrite K2, K1 by exact Ha. reflexivity.
  - intros e d Hd. destruct (A5 _ _ Hd) as (d1 & H1 & K1 & C1). destruct (B5 _ _ H1) as (d2 & H2 & K2 & C2). exists d2. split; [exact H2|]. split.
    + intros a Ha Hc. rewrite K2, K1 by assumption. reflexivity.
    + destruct C1 as [C1|[C1 C1']], C2 as [C2|[C2 C2']]; [left; congruence|right; split; congruence|right; split; congruence|congruence].
Qed.

Definition keeps {A} (m : M graph A) : Prop := forall h, sp h (fst (m h)).
Lemma kp_ret {A} (a : A) : keeps (ret a).
Proof. intros h. apply sp_refl. Qed.
Lemma kp_fail {A} e : keeps (fail e : M graph A).
Proof. intros h. apply sp_refl. Qed.
Lemma kp_gets {A} (f : graph -> A) : keeps (gets f).
Proof. intros h. apply sp_refl. Qed.
Lemma kp_lift {A} (o : option A) e : keeps (lift o e : M graph A).
Proof. intros h. destruct o; apply sp_refl. Qed.
Lemma kp_bind {A B} (m : M graph A) (f : A -> M graph B) : keeps m -> (forall a, keeps (f a)) -> keeps (bind m f).
Proof. intros Hm Hf h. specialize (Hm h). unfold bind. destruct (m h) as [h' [a|e]]; [|exact Hm]. apply (sp_trans Hm (Hf a h')). Qed.
Lemma kp_foldM {A B} (f : B -> A -> M graph B) l b : (forall b a, keeps (f b a)) -> keeps (foldM f l b).
Proof. intros Hf. revert b. induction l as [|a l IH]; intros b; [apply kp_ret|]. cbn [foldM]. apply kp_bind; auto. Qed.
Lemma kp_forM {A} (f : A -> M graph unit) l : (forall a, keeps (f a)) -> keeps (forM_ l f).
Proof. intros Hf. apply kp_foldM. auto. Qed.
Lemma kp_loop {L R} fuel (body : L -> M graph (L + R)) l : (forall l, keeps (body l)) -> keeps (loop fuel body l).
Proof. intros Hf. revert l. induction fuel as [|fuel IH]; intros l; [apply kp_fail|]. cbn [loop]. apply kp_bind; [apply Hf|]. intros [l'|r]; [apply IH|apply kp_ret]. Qed.
Lemma kp_pure {A} (f : graph -> res A) : keeps (fun g => (g, f g)).
Proof. intros h. apply sp_refl. Qed.
Lemma sp_put_node h n d d' : dget (g_nodes h) n = Some d -> (forall b, ~ In b node_marks -> dget d' b = dget d b) -> sp h (with_nodes h (dset (g_nodes h) n d')).
Proof.
  intros Hd Hb. assert (Hn : In n (dkeys (g_nodes h))) by (eapply dget_Some_keys; eauto). constructor; auto.
  - constructor; try reflexivity. simpl. apply dkeys_dset_in; assumption.
  - intros m dm Hm. simpl. rewrite dget_dset. destruct (eq_dec n m) as [<-|]; [|exists dm; auto]. exists d'. split; [reflexivity|]. intros a Ha. rewrite Hb by exact Ha. congruence.
  - intros e de He. exists de. auto.
Qed.
Lemma sp_put_edge h e d d' : dget (g_edges h) e = Some d -> (forall b, ~ In b edge_marks -> b <> "capacity" -> dget d' b = dget d b) ->
  (dget d' "capacity" = dget d "capacity" \/ dget d "capacity" = None /\ dget d' "capacity" = Some (VI 10000)) -> sp h (with_edges h (dset (g_edges h) e d')).
Proof.
  intros Hd Hb Hc. assert (Hn : In e (dkeys (g_edges h))) by (eapply dget_Some_keys; eauto). constructor; auto.
  - constructor; try reflexivity. simpl. apply dkeys_dset_in; assumption.
  - intros m dm Hm. exists dm. auto.
  - intros m dm Hm. simpl. rewrite dget_dset. destruct (eq_dec e m) as [<-|]; [|exists dm; auto]. assert (dm = d) by congruence. subst dm. exists d'. auto.
Qed.
Lemma kp_set_node n a v : In a node_marks -> keeps (set_node_attr n a v).
Proof.
  intros Ha h. unfold set_node_attr. destruct (dget (g_nodes h) n) as [d|] eqn:Hd; [|apply sp_refl]. apply (sp_put_node Hd).
  intros b Hb. apply dget_dset_ne. intros ->. contradiction.
Qed.
Lemma kp_pop_node n a : In a node_marks -> keeps (pop_node_attr n a).
Proof.
  intros Ha h. unfold pop_node_attr. destruct (dget (g_nodes h) n) as [d|] eqn:Hd; [|apply sp_refl]. apply (sp_put_node Hd).
  intros b Hb. apply dget_ddel_ne. intros ->. contradiction.
Qed.
Lemma sp_mark_edge h e d a v : dget (g_edges h) e = Some d -> In a edge_marks -> sp h (with_edges h (dset (g_edges h) e (dset d a v))).
Proof.
  intros Hd Ha. apply (sp_put_edge Hd).
  - intros b Hb _. apply dget_dset_ne. intros ->. contradiction.
  - left. apply dget_dset_ne. intros ->. simpl in Ha. intuition discriminate.
Qed.
Lemma kp_set_edge n m a v : In a edge_marks -> keeps (set_edge_attr n m a v).
Proof.
  intros Ha h. unfold set_edge_attr. destruct (dget (g_edges h) (n, m)) as [d|] eqn:H1; [apply (sp_mark_edge _ H1 Ha)|].
  destruct (g_type h); [apply sp_refl|]. destruct (dget (g_edges h) (m, n)) as [d|] eqn:H2; [apply (sp_mark_edge _ H2 Ha)|apply sp_refl].
Qed.
Lemma kp_edge_set e a v : In a edge_marks -> keeps (edge_set e a v).
Proof. intros Ha h. unfold edge_set. destruct (dget (g_edges h) e) as [d|] eqn:H1; [apply (sp_mark_edge _ H1 Ha)|apply sp_refl]. Qed.
Lemma kp_capacity {A} e (m : M graph A) (k : M graph A) : keeps m -> keeps k -> keeps (b <- edge_has e "capacity" ;; if b : bool then m else edge_set e "capacity" (VI INF) ;; k).
Proof.
  intros Hm Hk h. unfold bind at 1, edge_has. destruct (dget (g_edges h) e) as [d|] eqn:Hd; [|apply sp_refl]. unfold dmem. destruct (dget d "capacity") as [c|] eqn:Hc; [apply Hm|].
  unfold bind, edge_set. rewrite Hd. cbn [fst]. eapply sp_trans; [|apply Hk]. apply (sp_put_edge Hd).
  - intros b _ Hb. apply dget_dset_ne. congruence.
  - right. split; [exact Hc|]. apply dget_dset_eq.
Qed.
Lemma kp_display v : keeps (set_graph_attr "display" v).
Proof.
  intros h. constructor; simpl; auto.
  - constructor; reflexivity.
  - intros a Ha. apply dget_dset_ne. congruence.
  - rewrite dget_dset_eq. discriminate.
  - intros n d Hd. exists d. auto.
  - intros e d Hd. exists d. auto.
Qed.
Lemma kp_ncomp f : keeps (modify (fun g => with_ncomp g (f g))).
Proof. intros h. constructor; simpl; auto; [constructor; reflexivity| |]; intros k d Hd; exists d; auto. Qed.

Ltac inm := simpl; tauto.
Ltac kq := repeat first
  [ solve [ simple apply kp_ret | simple apply kp_fail | simple apply kp_gets | simple apply kp_lift | simple apply kp_pure
          | simple apply kp_set_node; inm | simple apply kp_pop_node; inm | simple apply kp_set_edge; inm | simple apply kp_edge_set; inm
          | simple apply kp_display | simple apply kp_ncomp | assumption ]
  | match goal with
    | |- keeps (bind _ _) => simple apply kp_bind; [|intros ?]
    | |- keeps (foldM _ _ _) => simple apply kp_foldM; intros ? ?
    | |- keeps (forM_ _ _) => simple apply kp_forM; intros ?
    | |- keeps (loop _ _ _) => simple apply kp_loop; intros ?
    | |- keeps (match ?x with _ => _ end) => destruct x
    | |- keeps (let '_ := ?x in _) => destruct x
    | |- keeps (get_node_attr _ _) => intros ?; apply sp_refl
    | |- keeps (get_edge_attr _ _ _) => intros ?; apply sp_refl
    | |- keeps (nbr_list _) => intros ?; apply sp_refl
    | |- keeps (edge_get _ _) => intros ?; apply sp_refl
    | |- keeps (edge_has _ _) => intros ?; apply sp_refl
    | |- keeps attr_type => intros ?; apply sp_refl
    | |- keeps in_dict => let h := fresh in intros h; unfold in_dict; destruct (g_type h); apply sp_refl
    | |- forall _, _ => intros ?
    end
  | progress unfold get_neighbors, get_out_neighbors, get_in_neighbors, in_list, get_edge_cost, as_int, as_int_o, node_int, edge_int, enter_display, push_prio, get_priority ].

Section Methods.
  Variable fr : frontier.
  Lemma kp_process_edge al co cur n (st : dict name name * fq fr) : keeps (process_edge al co cur n st).
  Proof. unfold process_edge, process_edge_dijkstra, process_edge_prim, relax_pq, finish_edge, set_component. destruct al; kq. Qed.
  Lemma kp_search fuel s dest co (q0 : fq fr) al rev : keeps (search fuel s dest co q0 al rev).
  Proof.
    unfold search, init_search, process_source, process_source_pq, set_component.
    assert (Hc : forall x y c, keeps (color_edge rev x y c)) by (unfold color_edge; kq).
    assert (Hit : forall nb (st : dict name name * fq fr), keeps (search_iter al co rev s dest nb st)).
    { intros nb st. unfold search_iter, process_node_search, scan_neighbors. kq; try apply Hc; try apply kp_process_edge. }
    destruct al; kq; try apply Hc; try apply Hit; unfold M_Search.walk_back; kq.
  Qed.
  Lemma kp_bfs fuel root co (q0 : fq fr) : keeps (bfs fuel root co q0).
  Proof. unfold bfs. kq. apply kp_search. Qed.
  Lemma kp_components fuel (q0 : fq fr) : keeps (label_components fuel q0).
  Proof. unfold label_components. kq. apply kp_search. Qed.
  Lemma kp_diameter fuel (q0 : fq fr) : keeps (get_diameter fuel q0).
  Proof. unfold get_diameter, diam_row. kq. apply kp_search. Qed.
  Lemma kp_prim peek fuel source display (q0 : fq fr) : keeps (minimum_spanning_tree_prim peek fuel source display q0).
  Proof. unfold minimum_spanning_tree_prim, prim_body, prim_edge. kq. Qed.
  Lemma kp_init_flow : keeps init_flow.
  Proof. unfold init_flow. apply kp_bind; [kq|intros es]. apply kp_forM. intros e. apply kp_bind; [kq|intros _]. apply kp_capacity; kq. Qed.
  Lemma kp_max_flow fuel (q0 : fq fr) source sink display : keeps (max_flow fuel q0 source sink display).
  Proof. unfold max_flow, augment, paint, augmenting_search, scan, repaint, path_capacity, path_update, put_flow, pred_of. kq; try apply kp_init_flow. Qed.
End Methods.
Lemma kp_dfs fuel : forall root disc finish component transpose display l, keeps (dfs fuel root disc finish component transpose display l).
Proof. induction fuel as [|fuel IH]; intros; cbn [dfs]; [apply kp_fail|]. unfold by_finish, mapM. kq; apply IH. Qed.
Lemma kp_hamiltonian source dest distance display pred : keeps (hamiltonian source dest distance display pred).
Proof. unfold hamiltonian. kq. Qed.
Lemma kp_asp_loop k : forall order dest s, keeps (asp_loop k order dest s).
Proof. induction k as [|k IH]; intros; cbn [asp_loop]; [apply kp_ret|]. unfold asp_node, asp_relax. kq; apply IH. Qed.
Lemma kp_acyclic fuel source dest : keeps (acyclic_shortest_path fuel source dest).
Proof. unfold acyclic_shortest_path, M_Search.walk_back. kq; [apply kp_dfs|apply kp_asp_loop]. Qed.
Lemma kp_pop q node c : keeps (pop_component q node c).
Proof. induction q as [|m q IH]; cbn [pop_component]; kq. Qed.
Lemma kp_strong fuel : forall q node index c, keeps (strong_connect fuel q node index c).
Proof. induction fuel as [|fuel IH]; intros; cbn [strong_connect]; [apply kp_fail|]. unfold lower. kq; [apply IH|apply kp_pop]. Qed.
Lemma kp_label_strong fuel : keeps (label_strong_component fuel).
Proof. unfold label_strong_component, tarjan. kq. apply kp_strong. Qed.
Lemma kp_withD {A} (m : M dsj A) d : keeps (withD m d).
Proof. unfold withD. kq. Qed.
Lemma kp_kruskal_loop fuel l : forall es d, keeps (kruskal_loop fuel l es d).
Proof. induction l as [|e l IH]; intros; cbn [kruskal_loop]; kq; try apply kp_withD; apply IH. Qed.
Lemma kp_kruskal fuel d : keeps (kruskal fuel d).
Proof. unfold kruskal, edge_costs. kq; try apply kp_withD; try apply kp_kruskal_loop. Qed.
Lemma kp_lc_scan py fuel i l : forall s, keeps (lc_scan py fuel i l s).
Proof. induction l as [|j l IH]; intros; cbn [lc_scan]; [apply kp_ret|]. unfold lc_relax, label_gt, lc_check_cycle, lc_get_cycle. kq; apply IH. Qed.
Lemma kp_label_correcting py fuel source : keeps (fifo_label_correcting py fuel source).
Proof. unfold fifo_label_correcting, lc_main. kq. apply kp_lc_scan. Qed.
Lemma kp_first_neg l d : keeps (first_neg l d).
Proof. induction l as [|i l IH]; cbn [first_neg]; [apply kp_ret|]. unfold is_neg, look. kq. Qed.
Lemma kp_floyd : keeps floyd_warshall.
Proof. unfold floyd_warshall, fw_dist, fw_next, fw_step, look. kq; apply kp_first_neg. Qed.
Lemma kp_get_path fuel : forall d n i j, keeps (floyd_warshall_get_path fuel d n i j).
Proof. induction fuel as [|fuel IH]; intros; cbn [floyd_warshall_get_path]; [apply kp_fail|]. unfold look. kq; apply IH. Qed.
Lemma kp_get_cycle fuel : forall d n e, keeps (floyd_warshall_get_cycle fuel d n e).
Proof. induction fuel as [|fuel IH]; intros; cbn [floyd_warshall_get_cycle]; [apply kp_fail|]. unfold walk_back, is_neg, look. kq; try apply kp_first_neg; apply IH. Qed.
Lemma kp_negative_cycle fuel : keeps (get_negative_cycle fuel).
Proof. unfold get_negative_cycle. kq; try apply kp_floyd; apply kp_get_cycle. Qed.
Lemma kp_sweeps k : forall damping mv md nodes r, keeps (sweeps k damping mv md nodes r).
Proof. induction k as [|k IH]; intros; cbn [sweeps]; [apply kp_ret|]. unfold sweep, rank_of. kq; apply IH. Qed.
Lemma kp_page_rank damping k delta : keeps (page_rank damping k delta).
Proof. unfold page_rank. kq; apply kp_sweeps. Qed.
Lemma kp_degrees : keeps get_degrees.
Proof. unfold get_degrees, degree_loop. kq. Qed.
Section Preflow.
  Variables (frs fr : frontier) (held : fq fr -> name -> bool).
  Lemma kp_show_flow : keeps show_flow.
  Proof. unfold show_flow. kq. Qed.
  Lemma kp_push_loop al source sink cur l : forall (q : fq fr) last, keeps (push_loop held al source sink cur l q last).
  Proof. induction l as [|n l IH]; intros; cbn [push_loop]; [apply kp_ret|]. unfold process_edge_flow. kq; try apply kp_show_flow; apply IH. Qed.
  Lemma kp_preflow fuel (s0 : fq frs) (q0 : fq fr) source sink al display : keeps (max_flow_preflowpush held fuel s0 q0 source sink al display).
  Proof.
    unfold max_flow_preflowpush, label_disconnected, saturate, pf_push.
    assert (Hit : forall st, keeps (preflow_iter held al source sink st)) by (intros st; unfold preflow_iter, relabel, pf_push; kq; try apply kp_show_flow; apply kp_push_loop).
    kq; try apply kp_init_flow; try apply kp_search; try apply kp_show_flow; apply Hit.
  Qed.
End Preflow.

Lemma kp_on {A} (m : M graph A) r : keeps (on m r).
Proof. intros h. unfold on. destruct (m r) as [r' [a|e]]; apply sp_refl. Qed.
Lemma kp_ask {A} (m : M graph A) r : keeps (ask m r).
Proof. intros h. apply sp_refl. Qed.
Lemma kp_call {A} (m : M graph A) r : keeps (M_NetSimplex.call m r).
Proof. intros h. unfold M_NetSimplex.call. destruct (m r) as [r' [a|e]]; apply sp_refl. Qed.
Ltac ko := kq; repeat first [apply kp_on | apply kp_ask | apply kp_call | progress kq].
Lemma kp_residual : keeps create_residual_graph.
Proof. unfold create_residual_graph, residual_step. ko. Qed.
Lemma kp_cycle_capacity cycle : keeps (find_cycle_capacity cycle).
Proof. unfold find_cycle_capacity. ko. Qed.
Lemma kp_augment amount cycle : keeps (augment_cycle amount cycle).
Proof. unfold augment_cycle, augment_pair. ko. Qed.
Lemma kp_cancel fuel : keeps (cancel fuel).
Proof. unfold cancel. ko; try apply kp_residual; apply kp_augment. Qed.
Lemma kp_simplex_search fuel source nr : keeps (simplex_search fuel source nr).
Proof. unfold simplex_search, ss_loop, ss_visit, int_name. ko. Qed.
Lemma kp_solution : keeps get_simplex_solution_graph.
Proof. unfold get_simplex_solution_graph. ko. Qed.
Lemma kp_fc_scan fuel nr cur l : forall s, keeps (fc_scan fuel nr cur l s).
Proof. induction l as [|n l IH]; intros s; cbn [fc_scan]; [apply kp_ret|]. unfold up_chain. ko; apply IH. Qed.
Lemma kp_fresh l : keeps (fresh_node l).
Proof. induction l as [|n l IH]; cbn [fresh_node]; ko. Qed.
Lemma kp_find_cycle fuel : keeps (simplex_find_cycle fuel).
Proof. unfold simplex_find_cycle, fc_component, int_name. ko; try apply kp_fc_scan; apply kp_fresh. Qed.
Lemma kp_amount cycle : keeps (simplex_augment_cycle cycle).
Proof. unfold simplex_augment_cycle, pair_room. ko. Qed.
Lemma kp_find_link n l : keeps (find_link n l).
Proof. induction l as [|m l IH]; cbn [find_link]; ko. Qed.
Lemma kp_new_link r cur sep l : keeps (find_new_link r cur sep l).
Proof. induction l as [|m l IH]; cbn [find_new_link]; ko. apply kp_find_link. Qed.
Lemma kp_connect fuel r : keeps (simplex_connect fuel r).
Proof. unfold simplex_connect. ko. apply kp_new_link. Qed.
Lemma kp_flow_label e : keeps (flow_label e).
Proof. unfold flow_label. ko. Qed.
Lemma kp_find_tree fuel : keeps (simplex_find_tree fuel).
Proof. unfold simplex_find_tree, break_cycles, copy_attrs. ko; try apply kp_solution; try apply kp_amount; try apply kp_augment; try apply kp_connect; apply kp_flow_label. Qed.
Lemma kp_mark t : keeps (simplex_mark_st_arcs t).
Proof. unfold simplex_mark_st_arcs. ko. Qed.
Lemma kp_redraw fuel display root : keeps (simplex_redraw fuel display root).
Proof. unfold simplex_redraw, redraw_visit, redraw_node. ko; apply kp_flow_label. Qed.
Lemma kp_potentials fuel t root : keeps (simplex_compute_potentials fuel t root).
Proof. unfold simplex_compute_potentials, node_of. ko. Qed.
Lemma kp_identify fuel t k l : keeps (simplex_identify_cycle fuel t k l).
Proof. unfold simplex_identify_cycle, tree_pred, node_of. ko. Qed.
Lemma kp_violation e : keeps (violation e).
Proof. unfold violation. ko. Qed.
Lemma kp_optimal t : keeps (simplex_optimal t).
Proof. unfold simplex_optimal. apply kp_bind; [ko|intros es]. induction es as [|e es IH]; cbn [optimal_from]; ko; apply kp_violation. Qed.
Lemma kp_entering t pivot : keeps (simplex_select_entering_arc t pivot).
Proof. unfold simplex_select_entering_arc, candidates. ko; apply kp_violation. Qed.
Lemma kp_leaving fuel t k l : keeps (simplex_determine_leaving_arc fuel t k l).
Proof. unfold simplex_determine_leaving_arc, leaving_step. ko; apply kp_identify. Qed.
Lemma kp_remove t p q amount cycle : keeps (simplex_remove_arc t p q amount cycle).
Proof. unfold simplex_remove_arc, pivot_pair, update_attrs. ko; apply kp_flow_label. Qed.
Lemma kp_pivot fuel display pivot root t : keeps (pivot_step fuel display pivot root t).
Proof. unfold pivot_step. ko; try apply kp_optimal; try apply kp_entering; try apply kp_leaving; try apply kp_remove; try apply kp_mark; apply kp_potentials. Qed.

Lemma call_sp g h : call g h -> sp g h.
Proof.
  intros [].
  - apply kp_search. - apply kp_bfs. - apply kp_components. - apply kp_diameter. - apply kp_dfs. - apply kp_hamiltonian. - apply kp_acyclic.
  - apply kp_label_strong. - apply kp_kruskal. - apply kp_prim. - apply kp_label_correcting. - apply kp_floyd. - apply kp_get_path. - apply kp_negative_cycle. - apply kp_page_rank.
  - apply kp_degrees. - apply kp_max_flow. - apply kp_preflow.
  - apply kp_residual. - apply kp_cycle_capacity. - apply kp_augment. - apply kp_cancel. - apply kp_simplex_search. - apply kp_solution. - apply kp_find_cycle. - apply kp_amount. - apply kp_connect. - apply kp_find_tree. - apply kp_mark.
  - apply kp_redraw. - apply kp_potentials. - apply kp_identify. - apply kp_optimal. - apply kp_entering. - apply kp_leaving. - apply kp_remove. - apply kp_pivot. - apply kp_display.
Qed.
Lemma session_sp g h : session g h -> sp g h.
Proof. induction 1 as [|h k _ IH C]; [apply sp_refl|]. apply (sp_trans IH (call_sp C)). Qed.
