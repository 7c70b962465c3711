(* What sp gives the algorithms: the notions in which problems are stated do not change. *)
From Verif Require Import Py Util M_Graph M_Search M_Flow P_Graph P_GraphLaws P_Attr Spec P_Walk S_Span S_Flow S_GraphFlow S_MinCost P_Flow P_Tree S_Session P_Session.
Set Implicit Arguments. Unset Strict Implicit.
Local Open Scope string_scope. Local Open Scope list_scope.

Section Use.
  Variables g h : graph.
  Hypothesis P : sp g h.
  Hypothesis W : wf g.
  Lemma u_wf : wf h.
  Proof. apply (ss_wf (sp_shape P) W). Qed.
  Lemma u_nodes : get_node_list h = get_node_list g.
  Proof. apply (ss_node_list (sp_shape P)). Qed.
  Lemma u_edges : get_edge_list h = get_edge_list g.
  Proof. unfold get_edge_list. apply (ss_edges (sp_shape P)). Qed.
  Lemma u_type : g_type h = g_type g.
  Proof. apply (ss_type (sp_shape P)). Qed.
  Lemma u_arc x y : arc h x y <-> arc g x y.
  Proof. apply (ss_arc _ _ (sp_shape P)). Qed.
  Lemma u_sarc r x y : sarc h r x y <-> sarc g r x y.
  Proof. unfold sarc. rewrite u_type. destruct (g_type g), r; apply u_arc. Qed.
  Lemma u_node_attr n a : ~ In a node_marks -> obs (get_node_attr n a) h = obs (get_node_attr n a) g.
  Proof.
    intros Ha. rewrite !obs_node_attr. destruct (dget (g_nodes g) n) as [d|] eqn:E.
    - destruct (sp_node P E) as (d' & E' & K). rewrite E', K by exact Ha. reflexivity.
    - apply dget_None in E. rewrite <- (ss_nodes (sp_shape P)) in E. apply dget_None in E. rewrite E. reflexivity.
  Qed.
  Lemma edge_gone e : dget (g_edges g) e = None -> dget (g_edges h) e = None.
  Proof. intros E. apply dget_None in E. rewrite <- (ss_edges (sp_shape P)) in E. apply dget_None, E. Qed.
  Lemma u_edge_attr n m a : ~ In a edge_marks -> a <> "capacity" -> obs (get_edge_attr n m a) h = obs (get_edge_attr n m a) g.
  Proof.
    intros Ha Hc. unfold obs, get_edge_attr. cbn [snd]. rewrite u_type.
    assert (K : forall e, match dget (g_edges h) e with None => None | Some d => dget d a end = match dget (g_edges g) e with None => None | Some d => dget d a end).
    { intros e. destruct (dget (g_edges g) e) as [d|] eqn:E; [|rewrite (edge_gone E); reflexivity]. destruct (sp_edge P E) as (d' & E' & K & _). rewrite E', K by assumption. reflexivity. }
    rewrite !K. reflexivity.
  Qed.
  Lemma u_capacity n m : obs (get_edge_attr n m "capacity") h = obs (get_edge_attr n m "capacity") g \/
     obs (get_edge_attr n m "capacity") g = Err KeyError /\ obs (get_edge_attr n m "capacity") h = Ok (VI 10000).
  Proof.
    unfold obs, get_edge_attr. cbn [snd]. rewrite u_type.
    assert (K : forall e d, dget (g_edges g) e = Some d -> exists d', dget (g_edges h) e = Some d' /\ (dget d' "capacity" = dget d "capacity" \/ dget d "capacity" = None /\ dget d' "capacity" = Some (VI 10000))).
    { intros e d E. destruct (sp_edge P E) as (d' & E' & _ & C). exists d'. auto. }
    destruct (dget (g_edges g) (n, m)) as [d|] eqn:E1.
    - destruct (K _ _ E1) as (d' & E1' & C1). rewrite E1'. destruct (g_type g) eqn:T.
      + destruct C1 as [-> | [-> ->]]; auto.
      + destruct (eq_dec n m) as [<-|Hnm].
        * rewrite E1, E1'. destruct C1 as [-> | [-> ->]]; auto.
        * assert (E2 : dget (g_edges g) (m, n) = None).
          { apply dget_None. apply (wf_anti W T Hnm). eapply dget_Some_keys; eauto. }
          rewrite E2, (edge_gone E2). destruct C1 as [-> | [-> ->]]; auto.
    - rewrite (edge_gone E1). destruct (g_type g); [auto|]. destruct (dget (g_edges g) (m, n)) as [d|] eqn:E2; [|rewrite (edge_gone E2); auto].
      destruct (K _ _ E2) as (d' & E2' & C2). rewrite E2'. destruct C2 as [-> | [-> ->]]; auto.
  Qed.
  Lemma same_problem_sp : same_problem g h.
  Proof.
    split; [apply u_nodes|]. split; [apply u_edges|]. split; [apply u_type|]. split; [intros n; rewrite !obs_nbrs, (ss_nbrs (sp_shape P)); reflexivity|].
    split; [intros n; apply obs_in_frame; [apply u_type|apply (ss_in (sp_shape P))]|]. split; [apply u_node_attr|]. split; [apply u_edge_attr|]. split; [apply u_capacity|apply (sp_attr P)].
  Qed.
  (* problem data *)
  Lemma u_cap e : cap_of h e = cap_of g e.
  Proof. unfold cap_of, eattr. destruct (u_capacity (fst e) (snd e)) as [-> | [-> ->]]; reflexivity. Qed.
  Lemma u_int_caps : int_caps g -> int_caps h.
  Proof. intros H x y He. rewrite u_edges in He. specialize (H x y He). unfold eattr in *. destruct (u_capacity x y) as [-> | [_ ->]]; eauto. Qed.
  Lemma u_nonneg_caps : nonneg_caps g -> nonneg_caps h.
  Proof. intros H e He. rewrite u_edges in He. rewrite u_cap. apply H, He. Qed.
  Lemma u_anti : no_antiparallel g -> no_antiparallel h.
  Proof. unfold no_antiparallel. rewrite u_edges. auto. Qed.
  Lemma u_display (d : option val) : (d = None \/ dget (g_attr g) "display" <> None) -> d = None \/ dget (g_attr h) "display" <> None.
  Proof. intros [H|H]; [auto|]. right. apply (sp_disp P H). Qed.
  Lemma u_cost x y : edge_cost h x y = edge_cost g x y.
  Proof. unfold edge_cost. rewrite u_edge_attr; [reflexivity|simpl; intuition discriminate|discriminate]. Qed.
  Lemma u_cost_obs x y : obs (get_edge_attr x y "cost") h = obs (get_edge_attr x y "cost") g.
  Proof. apply u_edge_attr; [simpl; intuition discriminate|discriminate]. Qed.
  Lemma u_has_costs r : has_costs g r -> has_costs h r.
  Proof. intros H x y A. rewrite u_cost_obs. apply H, u_sarc, A. Qed.
  Lemma u_nonneg_costs r : nonneg_costs g r -> nonneg_costs h r.
  Proof. intros H x y A. rewrite u_cost_obs. apply H, u_sarc, A. Qed.
  Lemma u_wcost p : wcost (edge_cost h) p = wcost (edge_cost g) p.
  Proof. induction p as [|a [|b p] IH]; [reflexivity|reflexivity|]. cbn [wcost] in *. rewrite u_cost, IH. reflexivity. Qed.
  Lemma u_reach x y : reach (arc h) x y <-> reach (arc g) x y.
  Proof. apply reach_iff, u_arc. Qed.
  Lemma u_least r x y z : least_cost (sarc h r) (edge_cost h) x y z <-> least_cost (sarc g r) (edge_cost g) x y z.
  Proof.
    unfold least_cost. split; intros [(p & Hp & Hc) Hm]; (split; [exists p; split; [apply (walk_iff x p y (u_sarc r)), Hp|rewrite <- Hc; rewrite u_wcost; reflexivity]|]).
    - intros q Hq. rewrite <- u_wcost. apply Hm, (walk_iff x q y (u_sarc r)), Hq.
    - intros q Hq. rewrite u_wcost. apply Hm, (walk_iff x q y (u_sarc r)), Hq.
  Qed.
  Lemma u_least' x y z : least_cost (arc h) (edge_cost h) x y z <-> least_cost (arc g) (edge_cost g) x y z.
  Proof.
    unfold least_cost. split; intros [(p & Hp & Hc) Hm]; (split; [exists p; split; [apply (walk_iff x p y u_arc), Hp|rewrite <- Hc; rewrite u_wcost; reflexivity]|]).
    - intros q Hq. rewrite <- u_wcost. apply Hm, (walk_iff x q y u_arc), Hq.
    - intros q Hq. rewrite u_wcost. apply Hm, (walk_iff x q y u_arc), Hq.
  Qed.
  Lemma u_demand x : demand_of h x = demand_of g x.
  Proof. unfold demand_of. rewrite u_node_attr; [reflexivity|]. simpl. intuition discriminate. Qed.
  Lemma u_int_demands : int_demands g -> int_demands h.
  Proof. intros H x Hx. rewrite u_nodes in Hx. rewrite u_node_attr; [apply H, Hx|]. simpl. intuition discriminate. Qed.
  Lemma u_total F : total (fun e => edge_cost h (fst e) (snd e)) F = total (fun e => edge_cost g (fst e) (snd e)) F.
  Proof. unfold total. induction F as [|e F IH]; [reflexivity|]. cbn [fold_right]. rewrite u_cost, IH. reflexivity. Qed.
  Lemma u_msf E T : min_spanning_forest (fun e => edge_cost h (fst e) (snd e)) E T -> min_spanning_forest (fun e => edge_cost g (fst e) (snd e)) E T.
  Proof. intros (A & B & C). split; [exact A|]. split; [exact B|]. intros F H1 H2. rewrite <- !u_total. apply C; assumption. Qed.
  Lemma u_pred_edges pred : pred_edges h pred = pred_edges g pred.
  Proof. unfold pred_edges, listed. rewrite u_edges. reflexivity. Qed.
  Lemma u_is_flow s t f : is_flow (get_edge_list g) (cap_of h) s t f <-> is_flow (get_edge_list g) (cap_of g) s t f.
  Proof. split; apply is_flow_ext; auto; intros e _; rewrite u_cap; reflexivity. Qed.
  Lemma u_qflow_cost es f : qflow_cost es (fun e => edge_cost h (fst e) (snd e)) f = qflow_cost es (fun e => edge_cost g (fst e) (snd e)) f.
  Proof. unfold qflow_cost, qsum. induction es as [|e es IH]; [reflexivity|]. cbn [fold_right]. rewrite u_cost, IH. reflexivity. Qed.
  Lemma u_flow_cost es f : flow_cost es (fun e => edge_cost h (fst e) (snd e)) f = flow_cost es (fun e => edge_cost g (fst e) (snd e)) f.
  Proof. unfold flow_cost. apply zsum_ext. intros e _. rewrite u_cost. reflexivity. Qed.
  Lemma u_qfeasible f : qfeasible (get_node_list g) (get_edge_list g) (cap_of h) (demand_of h) f <-> qfeasible (get_node_list g) (get_edge_list g) (cap_of g) (demand_of g) f.
  Proof. split; intros [A B]; constructor; intros e He; [rewrite <- u_cap; auto|rewrite <- u_demand; auto|rewrite u_cap; auto|rewrite u_demand; auto]. Qed.
  Lemma u_feasible f : feasible (get_node_list g) (get_edge_list g) (cap_of h) (demand_of h) f <-> feasible (get_node_list g) (get_edge_list g) (cap_of g) (demand_of g) f.
  Proof. split; intros [A B]; constructor; intros e He; [rewrite <- u_cap; auto|rewrite <- u_demand; auto|rewrite u_cap; auto|rewrite u_demand; auto]. Qed.
  Lemma u_min_cost f : min_cost (get_node_list g) (get_edge_list g) (cap_of h) (demand_of h) (fun e => edge_cost h (fst e) (snd e)) f ->
    min_cost (get_node_list g) (get_edge_list g) (cap_of g) (demand_of g) (fun e => edge_cost g (fst e) (snd e)) f.
  Proof. intros [A B]. split; [apply u_feasible, A|]. intros f' Hf. rewrite <- u_flow_cost, <- u_qflow_cost. apply B, u_qfeasible, Hf. Qed.
  Lemma u_zsum_demand : zsum (demand_of h) (get_node_list g) = zsum (demand_of g) (get_node_list g).
  Proof. apply zsum_ext. intros x _. apply u_demand. Qed.
End Use.
