(* Property theorems C70, continued: the methods for minimum cost flows, which add two nodes and delete them again, and any session after them. *)
From Verif Require Import Py Util M_Graph P_Graph M_Search M_Flow M_MinCost M_Simplex M_NetSimplex Spec S_Frontier S_Flow S_GraphFlow S_MinCost S_Session P_Session P_SessionUse P_Walk P_Attr P_GraphLaws P_Feasible P_Frontier C_Dfs P_Flow C_Flow C_MinCost C_NetSimplex C_Session.
Local Open Scope string_scope. Local Open Scope list_scope.

(* one call of a method for minimum cost flows, with any arguments; the graph afterwards, whether the call returns or raises *)
Inductive min_cost_call {fr : frontier} (q0 : fq fr) (fuel : nat) (g : graph) : graph -> Prop :=
| mc_feasible : min_cost_call q0 fuel g (fst (find_feasible_flow fuel q0 g))
| mc_cycle_canceling : min_cost_call q0 fuel g (fst (cycle_canceling fuel q0 g))
| mc_network_simplex display pivot root : min_cost_call q0 fuel g (fst (network_simplex fuel q0 display pivot root g))
| mc_min_cost_flow display algo pivot root : min_cost_call q0 fuel g (fst (min_cost_flow fuel q0 display algo pivot root g)).

(* k states the same directed network as g: only marks and the display mode differ, and arcs without a capacity may have got the default *)
Definition same_network (g k : graph) : Prop :=
  wf k /\ g_type k = Directed /\ get_node_list k = get_node_list g /\ get_edge_list k = get_edge_list g /\
  (forall n a, ~ In a node_marks -> obs (get_node_attr n a) k = obs (get_node_attr n a) g) /\
  (forall x y a, ~ In a edge_marks -> a <> "capacity" -> obs (get_edge_attr x y a) k = obs (get_edge_attr x y a) g) /\
  (forall x y, arc g x y -> obs (get_edge_attr x y "capacity") k = Ok (VI (cap_of g (x, y))) \/ obs (get_edge_attr x y "capacity") k = obs (get_edge_attr x y "capacity") g) /\
  (forall a, a <> "display" -> dget (g_attr k) a = dget (g_attr g) a) /\ dget (g_attr k) "display" <> None.

Lemma after_phase {fr : frontier} (q0 : fq fr) fuel g h1 b h : find_feasible_flow fuel q0 g = (h1, Ok b) -> min_cost_call q0 fuel g h -> sp g h \/ sp h1 h.
Proof.
  intros E C.
  assert (CC : sp h1 (fst (cycle_canceling fuel q0 g))).
  { unfold cycle_canceling, bind. rewrite E. destruct b; [apply kp_cancel|apply sp_refl]. }
  assert (NS : forall display pivot root, sp h1 (fst (network_simplex fuel q0 display pivot root g))).
  { intros display pivot root. unfold network_simplex. unfold bind at 1. rewrite E. destruct b; [|apply sp_refl].
    match goal with |- sp h1 (fst (?m h1)) => assert (K : keeps m); [|apply K] end. ko; try apply kp_find_tree; try apply kp_mark; try apply kp_potentials; apply kp_pivot. }
  destruct C as [| |display pivot root|display algo pivot root].
  - right. rewrite E. apply sp_refl.
  - right. exact CC.
  - right. apply NS.
  - unfold min_cost_flow. set (d := match display with None => _ | Some v => _ end). assert (Hd : fst (d g) = g).
    { unfold d. destruct display; [reflexivity|]. unfold bind, gets. destruct (dget (g_attr g) "display"); reflexivity. }
    destruct (d g) as [g0 [v|e]] eqn:Ed; cbn [fst] in Hd; subst g0; [rewrite (bind_ok _ Ed)|rewrite (bind_err _ Ed); left; apply sp_refl].
    destruct (String.eqb _ "simplex").
    + rewrite (bind_ok _ (s' := g) (a := get_node_list g)) by reflexivity. set (r := match root with Some r => _ | None => _ end). assert (Hr : fst (r g) = g) by (unfold r; destruct root; [reflexivity|]; destruct (get_node_list g); reflexivity).
      destruct (r g) as [g0 [x|e]] eqn:Er; cbn [fst] in Hr; subst g0; [rewrite (bind_ok _ Er)|rewrite (bind_err _ Er); left; apply sp_refl]. right. unfold bind.
      pose proof (NS v (match pivot with Some p => p | None => "dantzig" end) x) as K. destruct (network_simplex _ _ _ _ _ g) as [h2 [?|?]]; exact K.
    + destruct (String.eqb _ "cycle_canceling"); [|left; apply sp_refl]. right. unfold bind. destruct (cycle_canceling fuel q0 g) as [h2 [?|?]]; exact CC.
Qed.

(** the problem survives the call, and any session after it *)
Theorem C70_min_cost_calls : forall (fr : frontier) (els : fq fr -> list name) (g : graph) (q0 : fq fr) (fuel : nat) (h k : graph),
  bag els -> els q0 = [] -> wf g -> g_type g = Directed -> int_demands g -> int_caps g -> nonneg_caps g -> no_antiparallel g ->
  ~ In (NS "s") (get_node_list g) -> ~ In (NS "t") (get_node_list g) -> dget (g_attr g) "display" <> None ->
  (exists i, In i (get_node_list g) /\ (0 < demand_of g i)%Z) -> (exists i, In i (get_node_list g) /\ (demand_of g i < 0)%Z) -> enough_fuel g < fuel ->
  min_cost_call q0 fuel g h -> session h k ->
  same_network g k.
Proof.
  intros fr els g q0 fuel h k Hb Hq W D ID IC NC NA Hs Ht Hd Sp Dm Hf C S. apply session_sp in S.
  destruct (C36_supply fr els g q0 fuel Hb Hq W D ID IC NC NA Hs Ht Hd Sp Dm Hf) as (h1 & b & E & _ & _ & _ & Hc & W1 & D1 & A1 & N1 & E1 & Na & Ea).
  assert (Dir : forall h' x y a, g_type h' = Directed -> ~ In (x, y) (get_edge_list h') -> obs (get_edge_attr x y a) h' = Err KeyError).
  { intros h' x y a D' Hn. unfold obs, get_edge_attr. cbn [snd]. rewrite D'. apply dget_None in Hn. rewrite Hn. reflexivity. }
  destruct (after_phase q0 fuel g h1 b h E C) as [P|P]; pose proof (sp_trans P S) as K; clear P S.
  - split; [apply (u_wf K W)|]. split; [rewrite (u_type K); exact D|]. split; [apply (u_nodes K)|]. split; [apply (u_edges K)|]. split; [intros n a Ha; apply (u_node_attr K); exact Ha|].
    split; [intros x y a Ha Hcap; apply (u_edge_attr K); assumption|]. split; [|split; [apply (sp_attr K)|apply (sp_disp K Hd)]].
    intros x y A. destruct (u_capacity K W x y) as [H|[H1 H2]]; [auto|]. left. rewrite H2. unfold cap_of. cbn [fst snd]. rewrite P_Residual.eattr_obs, H1. reflexivity.
  - split; [apply (u_wf K W1)|]. split; [rewrite (u_type K); exact D1|]. split; [rewrite (u_nodes K); exact N1|]. split; [rewrite (u_edges K); exact E1|]. split; [|split; [|split; [|split]]].
    + intros n a Ha. rewrite (u_node_attr K) by exact Ha. destruct (in_dec eq_dec n (get_node_list g)) as [Hn|Hn]; [apply Na; [exact Hn|intros ->; apply Ha; simpl; tauto]|].
      assert (Hn1 : ~ In n (get_node_list h1)) by (rewrite N1; exact Hn). rewrite !obs_node_attr.
      assert (H1 : ~ In n (dkeys (g_nodes g))) by (rewrite (wf_nodes W); exact Hn). assert (H2 : ~ In n (dkeys (g_nodes h1))) by (rewrite (wf_nodes W1); exact Hn1).
      apply dget_None in H1, H2. rewrite H1, H2. reflexivity.
    + intros x y a Ha Hcap. rewrite (u_edge_attr K) by assumption. destruct (in_dec eq_dec (x, y) (get_edge_list g)) as [He|He].
      * apply Ea; [apply arc_list; assumption|]. simpl in *. intuition.
      * rewrite (Dir g x y a D He), (Dir h1 x y a D1); [reflexivity|rewrite E1; exact He].
    + intros x y A. left. destruct (u_capacity K W1 x y) as [H|[H _]]; [rewrite H; apply Hc, A|]. rewrite (Hc x y A) in H. discriminate.
    + intros a Ha. rewrite (sp_attr K Ha), A1. reflexivity.
    + apply (sp_disp K). rewrite A1. exact Hd.
Qed.
Print Assumptions C70_min_cost_calls.

(* any sequence of calls, those of the methods for minimum cost flows among them *)
Inductive mixed_session (g : graph) : graph -> Prop :=
| mixed_nil : mixed_session g g
| mixed_call h k : mixed_session g h -> call h k -> mixed_session g k
| mixed_min_cost (fr : frontier) (els : fq fr -> list name) (q0 : fq fr) fuel h k :
    mixed_session g h -> bag els -> els q0 = [] -> enough_fuel g < fuel -> min_cost_call q0 fuel h k -> mixed_session g k.

(* what the methods need holds of k when it holds of g *)
Section Same.
  Variables g k : graph.
  Hypothesis D : g_type g = Directed.
  Hypothesis P : same_network g k.
  Lemma sn_arc x y : arc k x y <-> arc g x y.
  Proof. destruct P as (_ & Dk & _ & E & _). rewrite !arc_list by assumption. rewrite E. reflexivity. Qed.
  Lemma sn_capacity x y : In (x, y) (get_edge_list g) -> eattr k x y "capacity" = Some (VI (cap_of g (x, y))) \/ eattr k x y "capacity" = eattr g x y "capacity".
  Proof. intros H. destruct P as (_ & _ & _ & _ & _ & _ & C & _). apply (arc_list g x y D) in H. unfold eattr. destruct (C x y H) as [-> | ->]; auto. Qed.
  Lemma sn_cap e : In e (get_edge_list g) -> cap_of k e = cap_of g e.
  Proof. destruct e as [x y]. intros H. destruct (sn_capacity x y H) as [E|E]; unfold cap_of; cbn [fst snd]; rewrite E; reflexivity. Qed.
  Lemma sn_demand x : demand_of k x = demand_of g x.
  Proof. destruct P as (_ & _ & _ & _ & N & _). unfold demand_of. rewrite N; [reflexivity|]. simpl. intuition discriminate. Qed.
  Lemma sn_cost_obs x y : obs (get_edge_attr x y "cost") k = obs (get_edge_attr x y "cost") g.
  Proof. destruct P as (_ & _ & _ & _ & _ & E & _). apply E; [simpl; intuition discriminate|discriminate]. Qed.
  Lemma sn_cost x y : edge_cost k x y = edge_cost g x y.
  Proof. unfold edge_cost. rewrite sn_cost_obs. reflexivity. Qed.
  Lemma sn_nodes : get_node_list k = get_node_list g.
  Proof. apply P. Qed.
  Lemma sn_edges : get_edge_list k = get_edge_list g.
  Proof. apply P. Qed.
  Lemma sn_int_demands : int_demands g -> int_demands k.
  Proof. intros H x Hx. rewrite sn_nodes in Hx. destruct P as (_ & _ & _ & _ & N & _). rewrite N; [apply H, Hx|]. simpl. intuition discriminate. Qed.
  Lemma sn_int_caps : int_caps g -> int_caps k.
  Proof. intros H x y He. rewrite sn_edges in He. destruct (sn_capacity x y He) as [E|E]; [eauto|]. rewrite E. apply H, He. Qed.
  Lemma sn_nonneg : nonneg_caps g -> nonneg_caps k.
  Proof. intros H e He. rewrite sn_edges in He. rewrite sn_cap by exact He. apply H, He. Qed.
  Lemma sn_anti : no_antiparallel g -> no_antiparallel k.
  Proof. unfold no_antiparallel. rewrite sn_edges. auto. Qed.
  Lemma sn_has_costs : has_costs g false -> has_costs k false.
  Proof. intros H x y A. rewrite sn_cost_obs. apply H. destruct P as (_ & Dk & _). unfold sarc in *. rewrite D. rewrite Dk in A. apply sn_arc, A. Qed.
  Lemma sn_connected : connected g -> connected k.
  Proof. intros H x y Hx Hy. rewrite sn_nodes in Hx, Hy. apply (reach_iff (E := fun a b => arc g a b \/ arc g b a)); [|apply H; assumption]. intros a b. rewrite !sn_arc. reflexivity. Qed.
  Lemma sn_fuel : enough_fuel k = enough_fuel g.
  Proof.
    unfold enough_fuel. rewrite sn_nodes, sn_edges. f_equal. f_equal. f_equal; [apply zsum_ext; intros e He; apply sn_cap, He|apply zsum_ext; intros x _; rewrite sn_demand; reflexivity].
  Qed.
  Lemma sn_qfeasible f : qfeasible (get_node_list g) (get_edge_list g) (cap_of k) (demand_of k) f <-> qfeasible (get_node_list g) (get_edge_list g) (cap_of g) (demand_of g) f.
  Proof. split; intros [A B]; constructor; intros e He; [rewrite <- sn_cap; auto|rewrite <- sn_demand; auto|rewrite sn_cap; auto|rewrite sn_demand; auto]. Qed.
  Lemma sn_feasible f : feasible (get_node_list g) (get_edge_list g) (cap_of k) (demand_of k) f <-> feasible (get_node_list g) (get_edge_list g) (cap_of g) (demand_of g) f.
  Proof. split; intros [A B]; constructor; intros e He; [rewrite <- sn_cap; auto|rewrite <- sn_demand; auto|rewrite sn_cap; auto|rewrite sn_demand; auto]. Qed.
  Lemma sn_min_cost f : min_cost (get_node_list g) (get_edge_list g) (cap_of k) (demand_of k) (fun e => edge_cost k (fst e) (snd e)) f ->
    min_cost (get_node_list g) (get_edge_list g) (cap_of g) (demand_of g) (fun e => edge_cost g (fst e) (snd e)) f.
  Proof.
    intros [A B]. split; [apply sn_feasible, A|]. intros f' Hf. apply sn_qfeasible in Hf. specialize (B f' Hf).
    assert (E1 : flow_cost (get_edge_list g) (fun e => edge_cost k (fst e) (snd e)) f = flow_cost (get_edge_list g) (fun e => edge_cost g (fst e) (snd e)) f) by (unfold flow_cost; apply zsum_ext; intros e _; rewrite sn_cost; reflexivity).
    assert (E2 : forall es, qflow_cost es (fun e => edge_cost k (fst e) (snd e)) f' = qflow_cost es (fun e => edge_cost g (fst e) (snd e)) f').
    { unfold qflow_cost, qsum. induction es as [|e es IH]; [reflexivity|]. cbn [fold_right]. rewrite sn_cost, IH. reflexivity. }
    rewrite E1, E2 in B. exact B.
  Qed.
End Same.

Lemma sn_trans g h k : g_type g = Directed -> same_network g h -> same_network h k -> same_network g k.
Proof.
  intros D P (W & Dk & N & E & Na & Ea & C & At & Ds). pose proof P as (_ & Dh & N1 & E1 & Na1 & Ea1 & C1 & At1 & _).
  split; [exact W|]. split; [exact Dk|]. split; [congruence|]. split; [congruence|]. split; [intros n a Ha; rewrite Na, Na1 by exact Ha; reflexivity|].
  split; [intros x y a Ha Hc; rewrite Ea, Ea1 by assumption; reflexivity|]. split; [|split; [intros a Ha; rewrite At, At1 by exact Ha; reflexivity|exact Ds]].
  intros x y A. pose proof (proj2 (sn_arc g h D P x y) A) as A1. destruct (C x y A1) as [-> | ->]; [left; rewrite (sn_cap g h D P); [reflexivity|apply (arc_list g x y D), A]|apply C1, A].
Qed.
Lemma sn_call g h : wf g -> g_type g = Directed -> dget (g_attr g) "display" <> None -> sp g h -> same_network g h.
Proof.
  intros W D Hd K. split; [apply (u_wf K W)|]. split; [rewrite (u_type K); exact D|]. split; [apply (u_nodes K)|]. split; [apply (u_edges K)|]. split; [intros n a Ha; apply (u_node_attr K); exact Ha|].
  split; [intros x y a Ha Hcap; apply (u_edge_attr K); assumption|]. split; [|split; [apply (sp_attr K)|apply (sp_disp K Hd)]].
  intros x y A. destruct (u_capacity K W x y) as [H|[H1 H2]]; [auto|]. left. rewrite H2. unfold cap_of. cbn [fst snd]. rewrite P_Residual.eattr_obs, H1. reflexivity.
Qed.

(** any sequence of calls of all the methods keeps the network *)
Theorem C70_mixed_sessions : forall g k, wf g -> g_type g = Directed -> int_demands g -> int_caps g -> nonneg_caps g -> no_antiparallel g ->
  ~ In (NS "s") (get_node_list g) -> ~ In (NS "t") (get_node_list g) -> dget (g_attr g) "display" <> None ->
  (exists i, In i (get_node_list g) /\ (0 < demand_of g i)%Z) -> (exists i, In i (get_node_list g) /\ (demand_of g i < 0)%Z) ->
  mixed_session g k -> same_network g k.
Proof.
  intros g k W D ID IC NC NA Hs Ht Hd (i & Ii & Di) (j & Ij & Dj) M.
  induction M as [|h k M P C|fr els q0 fuel h k M P Hb Hq Hf C]; [apply sn_call; auto; apply sp_refl| |]; (apply (sn_trans g h k D P); destruct P as (Wh & Dh & P); assert (Q : same_network g h) by (split; [exact Wh|split; [exact Dh|exact P]])).
  - apply sn_call; [exact Wh|exact Dh|apply Q|]. apply session_sp. eapply session_call; [apply session_nil|exact C].
  - apply (C70_min_cost_calls fr els h q0 fuel k k Hb Hq Wh Dh (sn_int_demands g h Q ID) (sn_int_caps g h D Q IC) (sn_nonneg g h D Q NC) (sn_anti g h Q NA)); [| | | | | |exact C|apply session_nil].
    + rewrite (sn_nodes g h Q). exact Hs.
    + rewrite (sn_nodes g h Q). exact Ht.
    + apply Q.
    + exists i. rewrite (sn_nodes g h Q), (sn_demand g h Q). auto.
    + exists j. rewrite (sn_nodes g h Q), (sn_demand g h Q). auto.
    + rewrite (sn_fuel g h D Q). exact Hf.
Qed.
Print Assumptions C70_mixed_sessions.

(** whatever ran before, the methods for minimum cost flows included, each of them finds a flow of least cost for the network as it was stated first, or rightly says that there is none *)
Theorem C70_min_cost_again : forall (fr : frontier) (els : fq fr -> list name) (q : fq fr) (fuel : nat) (display : val) (pivot : string) (root : name) (g h k : graph) (r : bool),
  bag els -> els q = [] -> wf g -> g_type g = Directed -> int_demands g -> int_caps g -> nonneg_caps g -> has_costs g false -> asymmetric (get_edge_list g) ->
  (forall x, In x (get_node_list g) -> exists z, x = NI z) -> connected g -> In root (get_node_list g) -> pivot = "dantzig" \/ pivot = "first_eligible" ->
  dget (g_attr g) "display" <> None -> zsum (demand_of g) (get_node_list g) = 0%Z -> (exists i, In i (get_node_list g) /\ demand_of g i <> 0%Z) ->
  mixed_session g h -> cycle_canceling fuel q h = (k, Ok r) \/ network_simplex fuel q display pivot root h = (k, Ok r) ->
  (r = true -> min_cost (get_node_list g) (get_edge_list g) (cap_of g) (demand_of g) (fun e => edge_cost g (fst e) (snd e)) (flow_of k)) /\
  (r = false -> forall f, ~ qfeasible (get_node_list g) (get_edge_list g) (cap_of g) (demand_of g) f).
Proof.
  intros fr els q fuel display pivot root g h k r Hb Hq W D ID IC NC HC As Nm Cn Hr Hp Hd Hz Hi M E. destruct (balanced_signs g Hz Hi) as [Sp Dm].
  assert (Hs : forall c, ~ In (NS c) (get_node_list g)) by (intros c H; destruct (Nm _ H); discriminate).
  assert (Q : same_network g h).
  { apply C70_mixed_sessions; auto. intros x y H1 H2. destruct (As x y H1 H2). }
  pose proof Q as (Wh & Dh & N & Eh & _). pose proof (sn_int_demands g h Q ID) as ID1. pose proof (sn_int_caps g h D Q IC) as IC1. pose proof (sn_nonneg g h D Q NC) as NC1. pose proof (sn_has_costs g h D Q HC) as HC1.
  assert (As1 : asymmetric (get_edge_list h)) by (rewrite Eh; exact As). assert (Hs1 : forall c, ~ In (NS c) (get_node_list h)) by (rewrite N; exact Hs).
  assert (Hd1 : dget (g_attr h) "display" <> None) by apply Q.
  assert (Hz1 : zsum (demand_of h) (get_node_list h) = 0%Z) by (rewrite N, <- Hz; apply zsum_ext; intros x _; apply (sn_demand g h Q)).
  assert (Hi1 : exists i, In i (get_node_list h) /\ demand_of h i <> 0%Z) by (destruct Hi as (i & I1 & I2); exists i; rewrite N, (sn_demand g h Q); auto).
  assert (K : (r = true -> min_cost (get_node_list h) (get_edge_list h) (cap_of h) (demand_of h) (fun e => edge_cost h (fst e) (snd e)) (flow_of k)) /\
              (r = false -> forall f, ~ qfeasible (get_node_list h) (get_edge_list h) (cap_of h) (demand_of h) f)).
  { destruct E as [E|E].
    - destruct (C37_cycle_canceling fr els h q fuel k r Hb Hq Wh Dh ID1 IC1 NC1 HC1 As1 (Hs1 _) (Hs1 _) Hd1 Hz1 Hi1 E) as (A & B & _). auto.
    - assert (Nm1 : forall x, In x (get_node_list h) -> exists z, x = NI z) by (rewrite N; exact Nm). assert (Hr1 : In root (get_node_list h)) by (rewrite N; exact Hr).
      destruct (C56_network_simplex fr els h q fuel display pivot root Hb Hq Wh Dh ID1 IC1 NC1 HC1 As1 Nm1 (sn_connected g h D Q Cn) Hr1 Hp Hd1 Hz1 Hi1) as [O|(k' & r' & E' & A & B & _)]; [unfold obs in O; rewrite E in O; discriminate|].
      rewrite E' in E. injection E as -> ->. auto. }
  destruct K as [A B]. rewrite N, Eh in A, B. split; [intros H; apply (sn_min_cost g h D Q), A, H|]. intros H f Hf. apply (B H f), (sn_qfeasible g h D Q), Hf.
Qed.
Print Assumptions C70_min_cost_again.

(** and max_flow finds a maximum flow of the network as it was stated first *)
Theorem C70_max_flow_again : forall (fr : frontier) (els : fq fr -> list name) (q : fq fr) (source sink : name) (display : option val) (fuel : nat) (g h : graph),
  bag els -> els q = [] -> wf g -> g_type g = Directed -> int_demands g -> int_caps g -> nonneg_caps g -> no_antiparallel g ->
  ~ In (NS "s") (get_node_list g) -> ~ In (NS "t") (get_node_list g) -> dget (g_attr g) "display" <> None ->
  (exists i, In i (get_node_list g) /\ (0 < demand_of g i)%Z) -> (exists i, In i (get_node_list g) /\ (demand_of g i < 0)%Z) ->
  In source (get_node_list g) -> source <> sink -> flow_fuel g < fuel -> mixed_session g h ->
  exists k, max_flow fuel q source sink display h = (k, Ok tt) /\ is_flow (get_edge_list g) (cap_of g) source sink (flow_of k) /\
    forall f, is_flow (get_edge_list g) (cap_of g) source sink f -> (value (get_edge_list g) sink f <= value (get_edge_list g) sink (flow_of k))%Z.
Proof.
  intros fr els q source sink display fuel g h Hb Hq W D ID IC NC NA Hs Ht Hd Sp Dm Hin Hst Hf M.
  pose proof (C70_mixed_sessions g h W D ID IC NC NA Hs Ht Hd Sp Dm M) as Q. pose proof Q as (Wh & Dh & N & E & _). assert (Hdh : dget (g_attr h) "display" <> None) by apply Q.
  assert (Ff : flow_fuel h < fuel).
  { unfold flow_fuel in *. rewrite N, E, (zsum_ext (f := cap_of h) (h := cap_of g)); [exact Hf|]. intros e He. apply (sn_cap g h D Q e He). }
  assert (Hin' : In source (get_node_list h)) by (rewrite N; exact Hin).
  destruct (C26_feasible fr els h q source sink display fuel Hb Hq Wh Dh (sn_int_caps g h D Q IC) (sn_nonneg g h D Q NC) Hin' Hst (or_intror Hdh) Ff) as (k & E1 & _ & _ & Fl & _).
  destruct (C27_maximum fr els h q source sink display fuel Hb Hq Wh Dh (sn_int_caps g h D Q IC) (sn_nonneg g h D Q NC) (sn_anti g h Q NA) Hin' Hst (or_intror Hdh) Ff) as (k' & E2 & Mx & _).
  rewrite E2 in E1. injection E1 as ->. rewrite E in Fl, Mx. exists k. split; [exact E2|]. split.
  - eapply is_flow_ext; [intros e _; reflexivity|intros e He; apply (sn_cap g h D Q e He)|exact Fl].
  - intros f F. apply Mx. eapply is_flow_ext; [intros e _; reflexivity|intros e He; symmetry; apply (sn_cap g h D Q e He)|exact F].
Qed.
Print Assumptions C70_max_flow_again.

(* the graph of C36 and C56; the network simplex method, then a maximum flow from 1 to 3: other flows, same demands, capacities and costs *)
Example C70_min_cost_calls_nonvacuous : let g := exff (-3) in
  wf g /\ g_type g = Directed /\ int_demands g /\ int_caps g /\ nonneg_caps g /\ no_antiparallel g /\ ~ In (NS "s") (get_node_list g) /\ ~ In (NS "t") (get_node_list g) /\ dget (g_attr g) "display" <> None /\
  (exists i, In i (get_node_list g) /\ (0 < demand_of g i)%Z) /\ (exists i, In i (get_node_list g) /\ (demand_of g i < 0)%Z) /\
  (forall fuel display pivot root, exists h, min_cost_call ([] : fq stack) fuel g h /\ h = fst (network_simplex fuel ([] : fq stack) display pivot root g) /\
     session h (fst (max_flow 40 ([] : fq queue) (NI 1) (NI 3) (Some (VS "off")) h))) /\
  match network_simplex 50 ([] : fq stack) (VS "off") "dantzig" (NI 2) g with
  | (h, Ok true) => let k := fst (max_flow 40 ([] : fq queue) (NI 1) (NI 3) (Some (VS "off")) h) in
      map (flow_of k) (get_edge_list k) <> map (flow_of h) (get_edge_list h) /\ map (demand_of k) (get_node_list k) = [3; 0; 0; -3]%Z /\ map (cap_of k) (get_edge_list k) = [2; 2; 10000; 2; 1]%Z /\
      map (fun e => obs (get_edge_attr (fst e) (snd e) "cost") k) (get_edge_list k) = map (fun e => obs (get_edge_attr (fst e) (snd e) "cost") g) (get_edge_list g)
  | _ => False
  end.
Proof.
  cbv zeta. destruct (exff_pre (-3)) as (H1 & H2 & H3 & H4 & H5 & H6 & H7 & H8). split; [apply exff_wf|]. split; [exact H1|]. split; [exact H2|]. split; [exact H3|]. split; [exact H4|]. split; [exact H5|].
  split; [exact H6|]. split; [exact H7|]. split; [exact H8|].
  split; [exists (NI 1); split; [vm_compute; tauto|vm_compute; reflexivity]|]. split; [exists (NI 4); split; [vm_compute; tauto|vm_compute; reflexivity]|].
  split. { intros fuel display pivot root. eexists. split; [apply mc_network_simplex|]. split; [reflexivity|]. eapply session_call; [apply session_nil|]. apply call_max_flow. }
  vm_compute. split; [discriminate|]. repeat split.
Qed.
(* the network simplex method, a maximum flow, and cycle canceling one after the other on the same graph *)
Example C70_min_cost_again_nonvacuous : let g := history (exff (-3)) [OSetEdgeAttr (NI 2) (NI 4) "capacity" (VI 4)] in
  let h1 := fst (network_simplex 50 ([] : fq stack) (VS "off") "dantzig" (NI 2) g) in
  let h2 := fst (max_flow 40 ([] : fq queue) (NI 1) (NI 3) (Some (VS "off")) h1) in
  flow_fuel g < 60 /\ (let k := fst (max_flow 60 ([] : fq stack) (NI 1) (NI 4) None h2) in value (get_edge_list g) (NI 4) (flow_of k) = 4%Z) /\
  mixed_session g h2 /\ has_costs g false /\ asymmetric (get_edge_list g) /\ connected g /\
  match cycle_canceling 50 ([] : fq stack) h2 with
  | (k, Ok r) => r = true /\ flow_cost (get_edge_list g) (fun e => edge_cost g (fst e) (snd e)) (flow_of k) = flow_cost (get_edge_list g) (fun e => edge_cost g (fst e) (snd e)) (flow_of h1) /\
      map (flow_of h2) (get_edge_list g) <> map (flow_of h1) (get_edge_list g)
  | _ => False
  end.
Proof.
  cbv zeta. split; [vm_compute; lia|]. split; [vm_compute; reflexivity|]. split; [|split; [|split; [|split]]].
  - eapply mixed_call; [|apply call_max_flow]. eapply mixed_min_cost; [apply mixed_nil|apply stack_bag|reflexivity| |apply mc_network_simplex]. vm_compute. lia.
  - apply all_costs; vm_compute; reflexivity.
  - apply all_asym. vm_compute. reflexivity.
  - apply (all_connected _ (NI 1) [[]; [NI 2]; [NI 3]; [NI 2; NI 4]]); vm_compute; reflexivity.
  - vm_compute. split; [reflexivity|]. split; [reflexivity|discriminate].
Qed.
