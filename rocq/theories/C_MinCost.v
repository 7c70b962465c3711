(* Property theorems C34-C37: residual graphs, augmenting cycles, feasible flows, cycle canceling. *)
From Verif Require Import Py Util M_Graph P_Graph P_GraphLaws M_Search S_Frontier M_Flow M_Floyd M_MinCost Spec P_Walk P_Attr S_Flow S_GraphFlow S_MinCost P_Flow P_EdgeFrame P_MaxFlow P_Dfs P_MinCostAbs P_Residual P_Feasible P_Cancel P_CancelRuns P_Fuel P_Floyd C_Flow C_Floyd.
Local Open Scope string_scope. Local Open Scope list_scope.

Lemma int_FL g : int_attr g "flow" -> FL g (flow_of g).
Proof. intros H x y He. destruct (H x y He) as [z Hz]. unfold flow_of. cbn [fst snd]. rewrite eattr_obs, Hz. reflexivity. Qed.
Lemma int_FS g : int_attr g "flow" -> int_attr g "capacity" -> FS g (cap_of g) (flow_of g).
Proof. intros H1 H2. constructor; [|apply (int_FL _ H1)]. intros x y He. destruct (H2 x y He) as [z Hz]. unfold cap_of. cbn [fst snd]. rewrite eattr_obs, Hz. reflexivity. Qed.
Lemma FL_flow g f : FL g f -> forall e, In e (get_edge_list g) -> flow_of g e = f e.
Proof. intros H [x y] He. unfold flow_of. cbn [fst snd]. rewrite (H x y He). reflexivity. Qed.
Lemma obs_eattr g x y a v : eattr g x y a = Some v -> obs (get_edge_attr x y a) g = Ok v.
Proof. rewrite eattr_obs. destruct (obs (get_edge_attr x y a) g); congruence. Qed.
Lemma arc_list g x y : g_type g = Directed -> (arc g x y <-> In (x, y) (get_edge_list g)).
Proof. intros D. unfold arc, check_edge. rewrite D. apply dmem_In. Qed.
Lemma int_cost g e : g_type g = Directed -> has_costs g false -> In e (get_edge_list g) -> eattr g (fst e) (snd e) "cost" = Some (VI (edge_cost g (fst e) (snd e))).
Proof.
  intros D HC He. destruct e as [x y]. cbn [fst snd]. destruct (HC x y) as [z Hz]; [unfold sarc; rewrite D; apply arc_list; assumption|]. rewrite eattr_obs. unfold edge_cost. rewrite Hz. reflexivity.
Qed.

(** C34: the residual graph, when no two opposite arcs both ask for the same residual arc *)
Theorem C34_residual : forall g, wf g -> g_type g = Directed -> int_attr g "capacity" -> int_attr g "flow" -> has_costs g false ->
  (forall x y, arc g x y -> arc g y x -> (flow_of g (x, y) < cap_of g (x, y))%Z -> (flow_of g (y, x) <= 0)%Z) ->
  exists r, create_residual_graph g = (g, Ok r) /\ wf r /\ g_type r = Directed /\
    (forall x y, arc r x y <-> (arc g x y /\ (flow_of g (x, y) < cap_of g (x, y))%Z) \/ (arc g y x /\ (0 < flow_of g (y, x))%Z)) /\
    (forall x y, arc g x y -> (flow_of g (x, y) < cap_of g (x, y))%Z ->
       obs (get_edge_attr x y "capacity") r = Ok (VI (cap_of g (x, y) - flow_of g (x, y))) /\ obs (get_edge_attr x y "cost") r = Ok (VI (edge_cost g x y))) /\
    (forall x y, arc g y x -> (0 < flow_of g (y, x))%Z ->
       obs (get_edge_attr x y "capacity") r = Ok (VI (flow_of g (y, x))) /\ obs (get_edge_attr x y "cost") r = Ok (VI (- edge_cost g y x))) /\
    (forall x, In x (get_node_list r) <-> exists y, arc r x y \/ arc r y x).
Proof.
  intros g W D IC IF HC NA. set (k := fun e : name * name => edge_cost g (fst e) (snd e)).
  destruct (@residual_spec g (cap_of g) (flow_of g) k W D (int_FS _ IF IC)) as [H _]; [intros e He; apply int_cost; assumption|].
  destruct H as (r & E & B). { apply conflict_free; [apply (wf_ne W)|]. intros x y H1 H2. apply NA; apply arc_list; assumption. }
  exists r. split; [exact E|]. split; [apply (b_wf B)|]. split; [apply (b_dir B)|].
  assert (A : forall x y, arc r x y <-> (arc g x y /\ (flow_of g (x, y) < cap_of g (x, y))%Z) \/ (arc g y x /\ (0 < flow_of g (y, x))%Z)).
  { intros x y. rewrite (arc_list r x y (b_dir B)), (b_edges B), keys_flat. split.
    - intros ([u v] & He & [[Hf K]|[Hf K]]); cbn [fst snd] in K; injection K as -> ->; [right|left]; (split; [apply arc_list; assumption|exact Hf]).
    - intros [[Ha Hf]|[Ha Hf]]; apply arc_list in Ha; try exact D; [exists (x, y)|exists (y, x)]; (split; [exact Ha|]); auto. }
  split; [exact A|]. split; [|split].
  - intros x y Ha Hf. apply arc_list in Ha; [|exact D].
    assert (Hi : In ((x, y), [("cost", VI (edge_cost g x y)); ("capacity", VI (cap_of g (x, y) - flow_of g (x, y)))]) (flat_map (rarcs (cap_of g) (flow_of g) k) (get_edge_list g))).
    { apply in_flat_map. exists (x, y). split; [exact Ha|]. unfold rarcs, forward. assert (cap_of g (x, y) - flow_of g (x, y) >? 0 = true)%Z as -> by (apply Z.gtb_lt; lia). apply in_app_iff. simpl. auto. }
    split; apply obs_eattr; rewrite (b_attr B _ Hi); reflexivity.
  - intros x y Ha Hf. apply arc_list in Ha; [|exact D].
    assert (Hi : In ((x, y), [("cost", VI (-1 * edge_cost g y x)); ("capacity", VI (flow_of g (y, x)))]) (flat_map (rarcs (cap_of g) (flow_of g) k) (get_edge_list g))).
    { apply in_flat_map. exists (y, x). split; [exact Ha|]. unfold rarcs, backward. apply Z.gtb_lt in Hf. rewrite Hf. simpl. auto. }
    split; apply obs_eattr; rewrite (b_attr B _ Hi); [reflexivity|]. simpl dget. do 2 f_equal.
  - intros x. rewrite (b_nodes B). split.
    + intros ([u v] & Hp & [->| ->]); cbn [fst snd]; rewrite <- (b_edges B) in Hp; apply (arc_list r u v (b_dir B)) in Hp; [exists v|exists u]; auto.
    + intros [y [Ha|Ha]]; apply (arc_list r _ _ (b_dir B)) in Ha; rewrite (b_edges B) in Ha; [exists (x, y)|exists (y, x)]; auto.
Qed.
Print Assumptions C34_residual.
(* otherwise the call raises: the second of the two residual arcs exists already *)
Theorem C34_antiparallel_raises : forall g x y, wf g -> g_type g = Directed -> int_attr g "capacity" -> int_attr g "flow" -> has_costs g false ->
  arc g x y -> arc g y x -> (flow_of g (x, y) < cap_of g (x, y))%Z -> (0 < flow_of g (y, x))%Z -> create_residual_graph g = (g, Err MultipleEdgeException).
Proof.
  intros g x y W D IC IF HC H1 H2 Hf Hb. set (k := fun e : name * name => edge_cost g (fst e) (snd e)).
  destruct (@residual_spec g (cap_of g) (flow_of g) k W D (int_FS _ IF IC)) as [_ H]; [intros e He; apply int_cost; assumption|].
  apply H. apply conflict with (x := x) (y := y); try assumption; apply arc_list; assumption.
Qed.
Print Assumptions C34_antiparallel_raises.
Theorem C34_undirected_raises : forall g, g_type g = Undirected -> create_residual_graph g = (g, Err (PyException "residual graph is defined for directed graphs.")).
Proof. intros g D. unfold create_residual_graph. erewrite bind_ok by reflexivity. rewrite D. reflexivity. Qed.
Print Assumptions C34_undirected_raises.

Definition exres : graph := history (new_graph (Some Directed) [])
  [OAddEdge (NI 1) (NI 2) [("cost", VI 3); ("capacity", VI 2); ("flow", VI 1)]; OAddEdge (NI 2) (NI 3) [("cost", VI 4); ("capacity", VI 1); ("flow", VI 1)];
   OAddEdge (NI 1) (NI 3) [("cost", VI 9); ("capacity", VI 5); ("flow", VI 0)]; OAddNode (NI 4) []].
Lemma exres_wf : wf exres.
Proof. refine (proj1 (wf_history (wf_new (Some Directed) []) _)). discriminate. Qed.
Definition all_int_attr (g : graph) (a : string) : bool := forallb (fun e => match obs (get_edge_attr (fst e) (snd e) a) g with Ok (VI _) => true | _ => false end) (get_edge_list g).
Lemma all_int g a : all_int_attr g a = true -> int_attr g a.
Proof. intros H x y He. unfold all_int_attr in H. rewrite forallb_forall in H. specialize (H _ He). cbn [fst snd] in H. destruct (obs (get_edge_attr x y a) g) as [[]|]; try discriminate. eauto. Qed.
Definition asymmetricb (es : arcs) : bool := forallb (fun e => negb (mem (snd e, fst e) es)) es.
Lemma all_asym es : asymmetricb es = true -> asymmetric es.
Proof. intros H x y H1 H2. unfold asymmetricb in H. rewrite forallb_forall in H. specialize (H _ H1). cbn [fst snd] in H. rewrite (proj2 (mem_In _ _) H2) in H. discriminate. Qed.
Example C34_nonvacuous : g_type exres = Directed /\ int_attr exres "capacity" /\ int_attr exres "flow" /\ has_costs exres false /\ asymmetric (get_edge_list exres) /\
  match snd (create_residual_graph exres) with Ok r => get_edge_list r = [(NI 2, NI 1); (NI 1, NI 2); (NI 3, NI 2); (NI 1, NI 3)] | Err _ => False end.
Proof.
  split; [vm_compute; reflexivity|]. split; [apply all_int; vm_compute; reflexivity|]. split; [apply all_int; vm_compute; reflexivity|].
  split; [apply all_costs; vm_compute; reflexivity|]. split; [apply all_asym; vm_compute; reflexivity|vm_compute; reflexivity].
Qed.

(** C35: augmenting along any closed sequence of nodes, each pair being an arc in one of the two directions, changes no node's net flow *)
Theorem C35_conserves : forall g amount cycle, wf g -> g_type g = Directed -> int_attr g "flow" -> cycle <> [] ->
  (forall p, In p (cycle_pairs cycle) -> arc g (fst p) (snd p) \/ arc g (snd p) (fst p)) ->
  exists h, augment_cycle amount cycle g = (h, Ok tt) /\ int_attr h "flow" /\
    (forall x, net (get_edge_list h) (flow_of h) x = net (get_edge_list g) (flow_of g) x) /\
    (asymmetric (get_edge_list g) -> forall x y, arc g x y ->
       flow_of h (x, y) = (flow_of g (x, y) + amount * (Z.of_nat (count_occ eq_dec (cycle_pairs cycle) (x, y)) - Z.of_nat (count_occ eq_dec (cycle_pairs cycle) (y, x))))%Z) /\
    (* nothing else changes *)
    g_attr h = g_attr g /\ get_node_list h = get_node_list g /\ get_edge_list h = get_edge_list g /\
    (forall n a, nattr h n a = nattr g n a) /\ (forall x y a, a <> "flow" -> eattr h x y a = eattr g x y a).
Proof.
  intros g amount cycle W D IF Hne Hp. destruct cycle as [|x0 t]; [congruence|].
  assert (Hu : forall p, In p (cycle_pairs (x0 :: t)) -> usable (get_edge_list g) p).
  { intros p Hi. destruct (Hp p Hi) as [H|H]; [left|right]; apply arc_list in H; try exact D; [rewrite <- surjective_pairing in H; exact H|exact H]. }
  pose proof (augment_cycle_ok amount W D (int_FL _ IF) Hu) as H. apply ok_ex in H as (h & [] & E & Fr & Hn & F). exists h. split; [exact E|].
  pose proof (efr_edges Fr) as Ee. split.
  { intros x y He. exists (fold_left (push (get_edge_list g) amount) (cycle_pairs (x0 :: t)) (flow_of g) (x, y)). apply obs_eattr, F, He. }
  split. { intros x. rewrite (net_ext (h := fold_left (push (get_edge_list g) amount) (cycle_pairs (x0 :: t)) (flow_of g)) x (FL_flow _ _ F)), Ee. apply cycle_net; [apply (wf_ne W)|exact Hu]. }
  split. { intros As x y Ha. apply arc_list in Ha; [|exact D]. rewrite (FL_flow _ _ F) by (rewrite Ee; exact Ha). rewrite pushes_at by assumption.
    assert (C : forall ps p, cnt ps p = Z.of_nat (count_occ eq_dec ps p)).
    { clear. intros ps p. unfold cnt. induction ps as [|q ps IH]; simpl; [reflexivity|]. rewrite IH. unfold eqb. destruct (eq_dec q p); lia. }
    rewrite !C. reflexivity. }
  split; [apply (ef_attr Fr)|]. split; [apply (efr_node_list Fr)|]. split; [exact Ee|]. split; [exact Hn|].
  intros x y a Ha. apply (ef_edges Fr). intros [K|[]]; congruence.
Qed.
Print Assumptions C35_conserves.
(* find_cycle_capacity is the least capacity on the cycle *)
Theorem C35_capacity : forall g cycle, int_attr g "capacity" -> g_type g = Directed -> cycle <> [] -> (forall p, In p (cycle_pairs cycle) -> arc g (fst p) (snd p)) ->
  exists z, find_cycle_capacity cycle g = (g, Ok z) /\ (forall p, In p (cycle_pairs cycle) -> (z <= cap_of g p)%Z) /\ exists p, In p (cycle_pairs cycle) /\ z = cap_of g p.
Proof.
  intros g cycle IC D Hne Hp. destruct cycle as [|x t]; [congruence|].
  assert (C : forall p, In p (cycle_pairs (x :: t)) -> eattr g (fst p) (snd p) "capacity" = Some (VI (cap_of g p))).
  { intros [u v] Hi. cbn [fst snd]. destruct (IC u v) as [z Hz]; [apply arc_list; [exact D|apply (Hp (u, v) Hi)]|]. unfold cap_of. cbn [fst snd]. rewrite eattr_obs, Hz. reflexivity. }
  pose proof (cycle_capacity_ok C) as H. apply ok_ex in H as (h & z & E & -> & H1 & H2). exists z. auto.
Qed.
Print Assumptions C35_capacity.
(* an amount up to the capacity of the cycle in the residual graph keeps the flow within its bounds *)
Theorem C35_bounds : forall g r cycle z amount, wf g -> g_type g = Directed -> int_attr g "capacity" -> int_attr g "flow" -> has_costs g false -> asymmetric (get_edge_list g) ->
  (forall e, In e (get_edge_list g) -> (0 <= flow_of g e <= cap_of g e)%Z) ->
  create_residual_graph g = (g, Ok r) -> cycle <> [] -> NoDup cycle -> (forall p, In p (cycle_pairs cycle) -> arc r (fst p) (snd p)) ->
  obs (find_cycle_capacity cycle) r = Ok z -> (0 <= amount <= z)%Z ->
  exists h, augment_cycle amount cycle g = (h, Ok tt) /\ forall e, In e (get_edge_list g) -> (0 <= flow_of h e <= cap_of g e)%Z.
Proof.
  intros g r cycle z amount W D IC IF HC As Bd Er Hne Nd Hp Hz Ha. destruct cycle as [|x t]; [congruence|].
  destruct (@residual_spec g (cap_of g) (flow_of g) (fun e => edge_cost g (fst e) (snd e)) W D (int_FS _ IF IC)) as [H _]; [intros e He; apply int_cost; assumption|].
  destruct H as (r' & E & B); [apply asym_conflict_free; [apply (wf_ne W)|exact As]|]. rewrite Er in E. injection E as <-.
  assert (Pr : forall p, In p (cycle_pairs (x :: t)) -> usable (get_edge_list g) p /\ eattr r (fst p) (snd p) "capacity" = Some (VI (room (get_edge_list g) (cap_of g) (flow_of g) p)) /\ (0 < room (get_edge_list g) (cap_of g) (flow_of g) p)%Z).
  { intros p Hi. apply (pair_room (g0 := g) As B (Hp p Hi)). }
  pose proof (cycle_capacity_ok (fun p Hi => proj1 (proj2 (Pr p Hi)))) as H. apply ok_ex in H as (r1 & z' & E & -> & H1 & _). unfold obs in Hz. rewrite E in Hz. injection Hz as ->.
  pose proof (augment_cycle_ok amount W D (int_FL _ IF) (fun p Hi => proj1 (Pr p Hi))) as H. apply ok_ex in H as (h & [] & Eh & Fr & _ & F). exists h. split; [exact Eh|].
  intros e He. rewrite (FL_flow _ _ F) by (rewrite (efr_edges Fr); exact He). revert e He. apply cycle_bounds; [exact As|exact Nd|lia| |exact Bd].
  intros p Hi. split; [apply (Pr p Hi)|]. specialize (H1 p Hi). lia.
Qed.
Print Assumptions C35_bounds.
Theorem C35_empty_raises : forall g amount, augment_cycle amount [] g = (g, Err IndexError) /\ find_cycle_capacity [] g = (g, Err IndexError).
Proof. intros g amount. split; reflexivity. Qed.
Print Assumptions C35_empty_raises.
(* 1 -> 3 -> 2 -> 1: the last two pairs are arcs used backwards; the amount is the residual capacity 1 *)
Example C35_nonvacuous : exists r, create_residual_graph exres = (exres, Ok r) /\ forallb (fun p => check_edge r (fst p) (snd p)) (cycle_pairs [NI 1; NI 3; NI 2]) = true /\
  obs (find_cycle_capacity [NI 1; NI 3; NI 2]) r = Ok 1%Z /\ map (flow_of exres) (get_edge_list exres) = [1; 1; 0]%Z /\
  map (flow_of (fst (augment_cycle 1 [NI 1; NI 3; NI 2] exres))) (get_edge_list exres) = [0; 0; 1]%Z.
Proof. eexists. split; [vm_compute; reflexivity|]. repeat split; vm_compute; reflexivity. Qed.

(** C36: find_feasible_flow finds a flow that leaves the supply nodes, if there is one *)
Definition enough_fuel (g : graph) : nat := 2 * (length (get_node_list g) + 2) + Z.to_nat (zsum (cap_of g) (get_edge_list g) + zsum (fun x => Z.abs (demand_of g x)) (get_node_list g)).
Theorem C36_supply : forall (fr : frontier) (els : fq fr -> list name) (g : graph) (q0 : fq fr) (fuel : nat),
  bag els -> els q0 = [] -> wf g -> g_type g = Directed -> int_demands g -> int_caps g -> nonneg_caps g -> no_antiparallel g ->
  ~ In (NS "s") (get_node_list g) -> ~ In (NS "t") (get_node_list g) -> dget (g_attr g) "display" <> None ->
  (exists i, In i (get_node_list g) /\ (0 < demand_of g i)%Z) -> (exists i, In i (get_node_list g) /\ (demand_of g i < 0)%Z) -> enough_fuel g < fuel ->
  exists h r, find_feasible_flow fuel q0 g = (h, Ok r) /\
    (r = true <-> exists f, weakly_feasible (get_node_list g) (get_edge_list g) (cap_of g) (demand_of g) f) /\
    (r = true -> weakly_feasible (get_node_list g) (get_edge_list g) (cap_of g) (demand_of g) (flow_of h)) /\
    int_attr h "flow" /\ (forall x y, arc g x y -> obs (get_edge_attr x y "capacity") h = Ok (VI (cap_of g (x, y)))) /\
    (* nothing else changes, but for colors and labels *)
    wf h /\ g_type h = Directed /\ g_attr h = g_attr g /\ get_node_list h = get_node_list g /\ get_edge_list h = get_edge_list g /\
    (forall x a, In x (get_node_list g) -> a <> "color" -> obs (get_node_attr x a) h = obs (get_node_attr x a) g) /\
    (forall x y a, arc g x y -> ~ In a ["flow"; "capacity"; "label"; "color"] -> obs (get_edge_attr x y a) h = obs (get_edge_attr x y a) g).
Proof.
  intros fr els g q0 fuel Hb Hq W D ID IC NC NA Hs Ht Hd Sp Dm Hf.
  pose proof (feasible_ok W D Hs Ht ID IC NC NA Hb Hq Hd Hf Sp Dm) as H. apply ok_ex in H as (h & r & E & f & Dn). exists h, r. split; [exact E|].
  pose proof (d_edges Dn) as Ee. assert (Fe : forall e, In e (get_edge_list g) -> flow_of h e = f e) by (intros e He; apply (FL_flow _ _ (fs_flow (d_fs Dn))); rewrite Ee; exact He).
  assert (Wk : r = true -> weakly_feasible (get_node_list g) (get_edge_list g) (cap_of g) (demand_of g) (flow_of h)).
  { intros Hr. pose proof (d_true Dn Hr) as Wf. constructor.
    - intros e He. rewrite (Fe e He). apply (wf_bounds Wf He).
    - intros x Hx Hb0. rewrite out_in, (net_ext x Fe), <- out_in. apply (wf_supply Wf Hx Hb0).
    - intros x Hx Hb0. rewrite out_in, (net_ext x Fe), <- out_in. apply (wf_demand Wf Hx Hb0). }
  split. { split; [eauto|]. intros [f0 F0]. destruct r; [reflexivity|]. exfalso. apply (d_false Dn eq_refl (D := 1) (f0 := f0)). constructor; [intros e He; pose proof (wf_bounds F0 He)|intros x Hx K; pose proof (wf_supply F0 Hx)|intros x Hx K; pose proof (wf_demand F0 Hx)]; lia. }
  split; [exact Wk|]. split; [intros x y He; exists (f (x, y)); apply obs_eattr, (fs_flow (d_fs Dn)), He|].
  split. { intros x y Ha. apply arc_list in Ha; [|exact D]. apply obs_eattr. rewrite (fs_cap (d_fs Dn)) by (rewrite Ee; exact Ha). reflexivity. }
  split; [apply (d_wf Dn)|]. split; [apply (d_dir Dn)|]. split; [apply (d_attr Dn)|]. split; [apply (d_nodes Dn)|]. split; [exact Ee|]. split; [intros x a; apply (d_nattr Dn)|].
  intros x y a Ha Hn. apply arc_list in Ha; [|exact D]. pose proof (d_eattr Dn Ha Hn) as K. rewrite !eattr_obs in K.
  unfold obs, get_edge_attr in *. rewrite D, (d_dir Dn) in *. simpl in *. pose proof Ha as Ha'. rewrite <- Ee in Ha'. apply dget_exists in Ha as [d1 E1], Ha' as [d2 E2]. rewrite E1, E2 in *.
  destruct (dget d1 a), (dget d2 a); congruence.
Qed.
Print Assumptions C36_supply.
(* when the demands add up to zero that is feasibility *)
Theorem C36_feasible : forall (fr : frontier) (els : fq fr -> list name) (g : graph) (q0 : fq fr) (fuel : nat),
  bag els -> els q0 = [] -> wf g -> g_type g = Directed -> int_demands g -> int_caps g -> nonneg_caps g -> no_antiparallel g ->
  ~ In (NS "s") (get_node_list g) -> ~ In (NS "t") (get_node_list g) -> dget (g_attr g) "display" <> None ->
  zsum (demand_of g) (get_node_list g) = 0%Z -> (exists i, In i (get_node_list g) /\ demand_of g i <> 0%Z) -> enough_fuel g < fuel ->
  exists h r, find_feasible_flow fuel q0 g = (h, Ok r) /\ get_node_list h = get_node_list g /\ get_edge_list h = get_edge_list g /\
    (r = true <-> exists f, feasible (get_node_list g) (get_edge_list g) (cap_of g) (demand_of g) f) /\
    (r = true -> feasible (get_node_list g) (get_edge_list g) (cap_of g) (demand_of g) (flow_of h)) /\
    (r = false -> forall f, ~ qfeasible (get_node_list g) (get_edge_list g) (cap_of g) (demand_of g) f).
Proof.
  intros fr els g q0 fuel Hb Hq W D ID IC NC NA Hs Ht Hd Hz (i & Hi & Hbi) Hf.
  assert (S : forall (sg : Z), (sg = 1 \/ sg = -1)%Z -> exists i, In i (get_node_list g) /\ (0 < sg * demand_of g i)%Z).
  { intros sg Hsg. destruct (existsb (fun i => 0 <? sg * demand_of g i)%Z (get_node_list g)) eqn:Ex.
    - apply existsb_exists in Ex as (j & Hj & K). exists j. split; [exact Hj|]. apply Z.ltb_lt, K.
    - exfalso. assert (Np : forall x, In x (get_node_list g) -> (0 <= - (sg * demand_of g x))%Z).
      { intros x Hx. destruct (Z.ltb_spec 0 (sg * demand_of g x)) as [K|K]; [|lia]. assert (existsb (fun i => 0 <? sg * demand_of g i)%Z (get_node_list g) = true); [|congruence]. apply existsb_exists. exists x. split; [exact Hx|]. apply Z.ltb_lt, K. }
      assert (Z0 : (zsum (fun x => - (sg * demand_of g x)) (get_node_list g) <= 0)%Z) by (rewrite zsum_opp, zsum_scale, Hz; lia).
      pose proof (zsum_zero_each Np Z0 Hi) as K. simpl in K. destruct Hsg as [-> | ->]; lia. }
  destruct (S 1%Z) as (i1 & Hi1 & P1); [auto|]. destruct (S (-1)%Z) as (i2 & Hi2 & P2); [auto|].
  destruct (C36_supply fr els g q0 fuel Hb Hq W D ID IC NC NA Hs Ht Hd) as (h & r & E & H1 & H2 & _ & _ & _ & _ & _ & Hn & He & _); [exists i1; split; [exact Hi1|lia]|exists i2; split; [exact Hi2|lia]|exact Hf|].
  exists h, r. split; [exact E|]. split; [exact Hn|]. split; [exact He|].
  assert (WF : forall f, weakly_feasible (get_node_list g) (get_edge_list g) (cap_of g) (demand_of g) f -> feasible (get_node_list g) (get_edge_list g) (cap_of g) (demand_of g) f).
  { intros f. apply weak_feasible; [apply (wf_nd W)|intros [x y] Hxy; apply (edge_nodes W D Hxy)|exact Hz]. }
  split; [rewrite H1; split; intros [f F]; exists f; [apply WF, F|apply feasible_weak, F]|]. split; [auto|].
  intros -> f F. assert (Sp : exists i, In i (get_node_list g) /\ (0 < demand_of g i)%Z) by (exists i1; split; [exact Hi1|lia]). assert (Dm : exists i, In i (get_node_list g) /\ (demand_of g i < 0)%Z) by (exists i2; split; [exact Hi2|lia]).
  pose proof (feasible_ok W D Hs Ht ID IC NC NA Hb Hq Hd Hf Sp Dm) as K. apply ok_ex in K as (h' & r' & E' & f' & Dn). rewrite E in E'. injection E' as <- <-.
  destruct (qfeasible_den F) as (n & k & _ & Fk). apply (d_false Dn eq_refl (D := n) (f0 := k)). apply feasible_weak, Fk.
Qed.
Print Assumptions C36_feasible.
Definition exff (b4 : Z) : graph := history (new_graph (Some Directed) [])
  [OAddNode (NI 1) [("demand", VI 3)]; OAddNode (NI 2) [("demand", VI 0)]; OAddNode (NI 3) [("demand", VI 0)]; OAddNode (NI 4) [("demand", VI b4)];
   OAddEdge (NI 1) (NI 2) [("cost", VI 1); ("capacity", VI 2)]; OAddEdge (NI 1) (NI 3) [("cost", VI 4); ("capacity", VI 2)];
   OAddEdge (NI 2) (NI 4) [("cost", VI 5)]; OAddEdge (NI 3) (NI 4) [("cost", VI 1); ("capacity", VI 2)]; OAddEdge (NI 2) (NI 3) [("cost", VI 1); ("capacity", VI 1)]].
Lemma exff_wf b4 : wf (exff b4).
Proof. refine (proj1 (wf_history (wf_new (Some Directed) []) _)). discriminate. Qed.
Definition all_demands (g : graph) : bool := forallb (fun x => match obs (get_node_attr x "demand") g with Ok (VI _) => true | _ => false end) (get_node_list g).
Lemma all_dem g : all_demands g = true -> int_demands g.
Proof. intros H x Hx. unfold all_demands in H. rewrite forallb_forall in H. specialize (H _ Hx). destruct (obs (get_node_attr x "demand") g) as [[]|]; try discriminate. eauto. Qed.
Lemma exff_pre b4 : g_type (exff b4) = Directed /\ int_demands (exff b4) /\ int_caps (exff b4) /\ nonneg_caps (exff b4) /\ no_antiparallel (exff b4) /\
  ~ In (NS "s") (get_node_list (exff b4)) /\ ~ In (NS "t") (get_node_list (exff b4)) /\ dget (g_attr (exff b4)) "display" <> None.
Proof.
  split; [vm_compute; reflexivity|]. split; [apply all_dem; vm_compute; reflexivity|]. destruct (all_caps (exff b4)) as [H1 H2]; [vm_compute; reflexivity|]. split; [exact H1|]. split; [exact H2|].
  split; [apply all_single; vm_compute; reflexivity|]. split; [vm_compute; intuition discriminate|]. split; [vm_compute; intuition discriminate|vm_compute; discriminate].
Qed.
Example C36_nonvacuous : zsum (demand_of (exff (-3))) (get_node_list (exff (-3))) = 0%Z /\
  obs (find_feasible_flow 50 ([] : fq stack)) (exff (-3)) = Ok true /\ map (flow_of (fst (find_feasible_flow 50 ([] : fq stack) (exff (-3))))) (get_edge_list (exff (-3))) = [1; 2; 1; 2; 0]%Z.
Proof. repeat split; vm_compute; reflexivity. Qed.
(* a feasible flow exists only if the demands add up to zero *)
Lemma feasible_balanced V es c b f : NoDup V -> (forall e, In e es -> In (fst e) V /\ In (snd e) V) -> feasible V es c b f -> zsum b V = 0%Z.
Proof.
  intros NV HV F. pose proof (net_sum f (fun _ => true) NV HV) as E. replace (filter (fun _ => true) V) with V in E by (clear; induction V; simpl; congruence).
  rewrite (zsum_ext (f := b) (h := fun x => (- net es f x)%Z)); [rewrite zsum_opp, E; lia|]. intros x Hx. rewrite <- out_in. symmetry. apply (fs_demand F Hx).
Qed.
(* with less supply than demand the result is True although node 4 asks for 5 and gets 3 *)
Theorem C36_shortfall_refuted : exists g, wf g /\ g_type g = Directed /\ int_demands g /\ int_caps g /\ nonneg_caps g /\ no_antiparallel g /\
  ~ In (NS "s") (get_node_list g) /\ ~ In (NS "t") (get_node_list g) /\ dget (g_attr g) "display" <> None /\
  obs (find_feasible_flow 50 ([] : fq stack)) g = Ok true /\ forall f, ~ feasible (get_node_list g) (get_edge_list g) (cap_of g) (demand_of g) f.
Proof.
  exists (exff (-5)). split; [apply exff_wf|]. destruct (exff_pre (-5)) as (H1 & H2 & H3 & H4 & H5 & H6 & H7 & H8). repeat (split; [assumption|]). split; [vm_compute; reflexivity|].
  intros f F. apply feasible_balanced in F; [vm_compute in F; discriminate|apply (wf_nd (exff_wf (-5)))|]. intros [x y] Hxy. apply (edge_nodes (exff_wf (-5)) H1 Hxy).
Qed.
Print Assumptions C36_shortfall_refuted.
(* without a supply node there is no node s, and max_flow raises; the display mode stays off and the arcs to t stay in the graph *)
Lemma unknown_source (fr : frontier) (els : fq fr -> list name) (g : graph) (q0 : fq fr) (source sink : name) (v : val) (fuel : nat) :
  bag els -> els q0 = [] -> wf g -> g_type g = Directed -> int_caps g -> ~ In source (get_node_list g) -> source <> sink -> dget (g_attr g) "display" <> None -> 0 < fuel ->
  exists h, max_flow fuel q0 source sink (Some v) g = (h, Err KeyError) /\ dget (g_attr h) "display" = Some v /\ g_type h = Directed /\ get_node_list h = get_node_list g /\ get_edge_list h = get_edge_list g.
Proof.
  intros Hb Hq W D IC Hs Hst Hd Hf. unfold max_flow. destruct (dget (g_attr g) "display") as [old|] eqn:Ed; [|congruence].
  set (g1 := with_attr g (dset (g_attr g) "display" v)).
  assert (E0 : (d <- gets (fun g => dget (g_attr g) "display") ;; d <- lift d KeyError ;; set_graph_attr "display" v ;; ret (Some d)) g = (g1, Ok (Some old))) by (unfold bind, gets, lift; rewrite Ed; reflexivity).
  erewrite bind_ok by exact E0. assert (W1 : wf g1) by (destruct W; constructor; assumption). assert (D1 : g_type g1 = Directed) by exact D.
  assert (IC1 : int_caps g1) by exact IC. pose proof (init_flow_ok W1 D1 IC1) as H. apply ok_ex in H as (h & [] & E & F). erewrite bind_ok by exact E.
  pose proof (paint_ok W1 D1 F) as P. apply ok_ex in P as (h1 & [] & E1 & Fr1 & _).
  assert (Nl : get_node_list h1 = get_node_list g) by (rewrite (efr_node_list Fr1), (efr_node_list (fi_fr F)); reflexivity).
  exists h1. split.
  - erewrite bind_err; [reflexivity|]. destruct fuel as [|fuel]; [lia|]. unfold augment. cbn [loop]. erewrite bind_err; [reflexivity|]. erewrite bind_ok by exact E1. erewrite bind_err; [reflexivity|].
    unfold augmenting_search. cbn [loop]. erewrite bind_err; [reflexivity|]. destruct (fq_isEmpty (fq_push q0 source None)) eqn:Em.
    + apply (bag_empty Hb) in Em. assert (In source (els (fq_push q0 source None))) as K by (apply (bag_push Hb); auto). rewrite Em in K. destruct K.
    + assert (Hne : els (fq_push q0 source None) <> []). { intros K. apply (bag_empty Hb) in K. congruence. }
      destruct (bag_peek Hb Hne) as (x & Hp & Hx). pose proof Hx as Hx'. apply (bag_push Hb) in Hx'. rewrite Hq in Hx'. destruct Hx' as [->|[]].
      destruct (bag_remove Hb Hx) as (q' & Hr & _). rewrite Hp. erewrite bind_ok by reflexivity. rewrite Hr. erewrite bind_ok by reflexivity. rewrite (proj2 (eqb_false _ _) Hst).
      erewrite bind_err; [reflexivity|]. unfold nbr_list. assert (dget (g_nbrs h1) source = None) as ->; [|reflexivity]. apply dget_None. change (~ In source (get_node_list h1)). rewrite Nl. exact Hs.
  - split; [rewrite (ef_attr Fr1), (ef_attr (fi_fr F)); unfold g1; cbn [g_attr with_attr]; apply dget_dset_eq|]. split; [apply (efr_type Fr1), (efr_type (fi_fr F)), D1|]. split; [exact Nl|]. rewrite (efr_edges Fr1), (efr_edges (fi_fr F)). reflexivity.
Qed.
Theorem C36_no_supply_raises : forall (fr : frontier) (els : fq fr -> list name) (g : graph) (q0 : fq fr) (fuel : nat),
  bag els -> els q0 = [] -> wf g -> g_type g = Directed -> int_demands g -> int_caps g ->
  ~ In (NS "s") (get_node_list g) -> ~ In (NS "t") (get_node_list g) -> dget (g_attr g) "display" <> None ->
  (forall i, In i (get_node_list g) -> (demand_of g i <= 0)%Z) -> 0 < fuel ->
  exists h, find_feasible_flow fuel q0 g = (h, Err KeyError) /\ dget (g_attr h) "display" = Some (VS "off") /\
    (forall i, In i (get_node_list g) -> (demand_of g i < 0)%Z -> arc h i (NS "t")).
Proof.
  intros fr els g q0 fuel Hb Hq W D ID IC Hs Ht Hd Hn Hf. unfold find_feasible_flow. erewrite bind_ok by reflexivity.
  pose proof (extend_ok W D Hs Ht ID) as H. apply ok_ex in H as (h1 & [] & E1 & X). erewrite bind_ok by exact E1.
  assert (Sn : ~ In Ns (get_node_list h1)).
  { destruct (x_nodes X) as (ex & -> & _ & Ls & _). rewrite in_app_iff, Ls. intros [K|(i & Hi & K)]; [contradiction|]. specialize (Hn i Hi). lia. }
  assert (Hst : Ns <> Nt) by discriminate. assert (Hd1 : dget (g_attr h1) "display" <> None) by (rewrite (x_attr X); exact Hd).
  destruct (unknown_source fr els h1 q0 Ns Nt (VS "off") fuel Hb Hq (x_wf X) (x_dir X) (ext_int_caps IC X) Sn Hst Hd1 Hf) as (h & E & A & Dh & _ & El).
  exists h. split; [erewrite bind_err; [reflexivity|exact E]|]. split; [exact A|]. intros i Hi Hbi.
  apply arc_list; [exact Dh|]. rewrite El, (x_edges' X), in_app_iff. right. apply in_extra. exists i. auto.
Qed.
Print Assumptions C36_no_supply_raises.
(* without a demand node there is no node t to delete *)
Theorem C36_no_demand_raises : forall (fr : frontier) (els : fq fr -> list name) (g : graph) (q0 : fq fr) (fuel : nat),
  bag els -> els q0 = [] -> wf g -> g_type g = Directed -> int_demands g -> int_caps g -> nonneg_caps g -> no_antiparallel g ->
  ~ In (NS "s") (get_node_list g) -> ~ In (NS "t") (get_node_list g) -> dget (g_attr g) "display" <> None ->
  (exists i, In i (get_node_list g) /\ (0 < demand_of g i)%Z) -> (forall i, In i (get_node_list g) -> (0 <= demand_of g i)%Z) -> enough_fuel g < fuel ->
  exists h, find_feasible_flow fuel q0 g = (h, Err (PyException "Node does not exist!")) /\ get_node_list h = get_node_list g /\ get_edge_list h = get_edge_list g.
Proof.
  intros fr els g q0 fuel Hb Hq W D ID IC NC NA Hs Ht Hd Sp Nn Hf.
  pose proof (head_ok W D Hs Ht ID IC NC NA Hb Hq Hd Hf Sp (k := ret) (Q := fun r h => exists f, solved g r h f)) as H.
  assert (H' : forall r h f, solved g r h f -> ok (ret r) h (fun r h => exists f, solved g r h f)) by (intros r h f S; apply ok_ret; eauto).
  specialize (H H'). clear H'. apply ok_ex in H as (h & r & E & f & S).
  assert (Ex : existsb (fun i => demand_of g i <? 0)%Z (get_node_list g) = false).
  { destruct (existsb _ _) eqn:Ee; [|reflexivity]. apply existsb_exists in Ee as (i & Hi & K). apply Z.ltb_lt in K. specialize (Nn i Hi). lia. }
  pose proof (v_nodes S) as Vn. rewrite Ex, app_nil_r in Vn. exists h. split; [|split; [exact Vn|]].
  - unfold find_feasible_flow. unfold bind in E |- *. cbn [gets] in E |- *.
    destruct (forM_ _ demand_arc g) as [g1 [[]|]]; [|discriminate]. destruct (max_flow _ _ _ _ _ g1) as [g2 [[]|]]; [|discriminate].
    destruct (nbr_list Ns g2) as [g3 [l|]]; [|discriminate]. destruct (saturated l g3) as [g4 [b|]]; [|discriminate]. destruct (del_node Ns g4) as [g5 [[]|]]; [|discriminate].
    injection E as <- <-. unfold del_node. assert (dmem (g_nbrs g5) Nt = false) as ->; [|reflexivity]. destruct (dmem_spec (g_nbrs g5) Nt) as [K|K]; [|reflexivity].
    exfalso. change (In Nt (get_node_list g5)) in K. rewrite Vn in K. contradiction.
  - rewrite (v_edges S). rewrite forallb_filter_nil; [apply app_nil_r|]. intros e He. apply in_extra in He as (i & Hi & [[Hbi ->]|[Hbi ->]]); cbn [snd]; [apply eqb_false; intros ->; contradiction|]. specialize (Nn i Hi). lia.
Qed.
Print Assumptions C36_no_demand_raises.
Example C36_errors : obs (find_feasible_flow 50 ([] : fq stack)) (history (exff (-3)) [OSetNodeAttr (NI 1) "demand" (VI 0)]) = Err KeyError /\
  obs (find_feasible_flow 50 ([] : fq stack)) (exff 0) = Err (PyException "Node does not exist!").
Proof. split; vm_compute; reflexivity. Qed.

(** C37: every way cycle_canceling can end. An exception comes from floyd_warshall_get_cycle (C32), and then the
    flow stored so far is feasible *)
Theorem C37_outcomes : forall (fr : frontier) (els : fq fr -> list name) (g : graph) (q0 : fq fr) (fuel : nat),
  bag els -> els q0 = [] -> wf g -> g_type g = Directed -> int_demands g -> int_caps g -> nonneg_caps g -> has_costs g false -> asymmetric (get_edge_list g) ->
  ~ In (NS "s") (get_node_list g) -> ~ In (NS "t") (get_node_list g) -> dget (g_attr g) "display" <> None ->
  zsum (demand_of g) (get_node_list g) = 0%Z -> (exists i, In i (get_node_list g) /\ demand_of g i <> 0%Z) -> enough_fuel g < fuel ->
  exists h r, cycle_canceling fuel q0 g = (h, r) /\
    match r with
    | Ok true => min_cost (get_node_list g) (get_edge_list g) (cap_of g) (demand_of g) (fun e => edge_cost g (fst e) (snd e)) (flow_of h)
    | Ok false => forall f, ~ qfeasible (get_node_list g) (get_edge_list g) (cap_of g) (demand_of g) f
    | Err e => (e = OutOfFuel \/ exists m, e = PyException m) /\ feasible (get_node_list g) (get_edge_list g) (cap_of g) (demand_of g) (flow_of h)
    end /\
    (* nothing changes but flows, capacities where they were missing, colors and labels *)
    g_attr h = g_attr g /\ get_node_list h = get_node_list g /\ get_edge_list h = get_edge_list g /\ int_attr h "flow" /\
    (forall x y, arc g x y -> obs (get_edge_attr x y "capacity") h = Ok (VI (cap_of g (x, y)))) /\
    (forall x a, In x (get_node_list g) -> a <> "color" -> obs (get_node_attr x a) h = obs (get_node_attr x a) g) /\
    (forall x y a, arc g x y -> ~ In a ["flow"; "capacity"; "label"; "color"] -> eattr h x y a = eattr g x y a).
Proof.
  intros fr els g q0 fuel Hb Hq W D ID IC NC HC As Hs Ht Hd Hz Hi Hf.
  assert (NA : no_antiparallel g) by (intros x y H1 H2; exfalso; apply (As x y H1 H2)).
  destruct (C36_feasible fr els g q0 fuel Hb Hq W D ID IC NC NA Hs Ht Hd Hz Hi Hf) as (h1 & r1 & E1 & N1 & L1 & Fe & Ff & Fq).
  assert (F1 : g_type h1 = Directed /\ wf h1 /\ int_attr h1 "flow" /\ (forall x y, arc g x y -> obs (get_edge_attr x y "capacity") h1 = Ok (VI (cap_of g (x, y)))) /\
    (forall x y, arc g x y -> obs (get_edge_attr x y "cost") h1 = obs (get_edge_attr x y "cost") g) /\ g_attr h1 = g_attr g /\
    (forall x a, In x (get_node_list g) -> a <> "color" -> obs (get_node_attr x a) h1 = obs (get_node_attr x a) g) /\
    (forall x y a, arc g x y -> ~ In a ["flow"; "capacity"; "label"; "color"] -> obs (get_edge_attr x y a) h1 = obs (get_edge_attr x y a) g)).
  { assert (S : exists i, In i (get_node_list g) /\ (0 < demand_of g i)%Z).
    { destruct (existsb (fun i => 0 <? demand_of g i)%Z (get_node_list g)) eqn:Ex; [apply existsb_exists in Ex as (j & Hj & K); exists j; split; [exact Hj|apply Z.ltb_lt, K]|].
      exfalso. destruct Hi as (i & Hi & Hn). assert (Np : forall x, In x (get_node_list g) -> (0 <= - demand_of g x)%Z).
      { intros x Hx. destruct (Z.ltb_spec 0 (demand_of g x)) as [K|K]; [|lia]. assert (existsb (fun i => 0 <? demand_of g i)%Z (get_node_list g) = true); [|congruence]. apply existsb_exists. exists x. split; [exact Hx|]. apply Z.ltb_lt, K. }
      assert (Z0 : (zsum (fun x => - demand_of g x) (get_node_list g) <= 0)%Z) by (rewrite zsum_opp, Hz; lia). pose proof (zsum_zero_each Np Z0 Hi) as K. simpl in K. lia. }
    assert (S' : exists i, In i (get_node_list g) /\ (demand_of g i < 0)%Z).
    { destruct (existsb (fun i => demand_of g i <? 0)%Z (get_node_list g)) eqn:Ex; [apply existsb_exists in Ex as (j & Hj & K); exists j; split; [exact Hj|apply Z.ltb_lt, K]|].
      exfalso. destruct Hi as (i & Hi & Hn). assert (Np : forall x, In x (get_node_list g) -> (0 <= demand_of g x)%Z).
      { intros x Hx. destruct (Z.ltb_spec (demand_of g x) 0) as [K|K]; [|lia]. assert (existsb (fun i => demand_of g i <? 0)%Z (get_node_list g) = true); [|congruence]. apply existsb_exists. exists x. split; [exact Hx|]. apply Z.ltb_lt, K. }
      assert (Z0 : (zsum (fun x => demand_of g x) (get_node_list g) <= 0)%Z) by (rewrite (zsum_ext (h := demand_of g)), Hz; [lia|reflexivity]). pose proof (zsum_zero_each Np Z0 Hi) as K. simpl in K. lia. }
    destruct (C36_supply fr els g q0 fuel Hb Hq W D ID IC NC NA Hs Ht Hd S S' Hf) as (h2 & r2 & E2 & _ & _ & A1 & A2 & A3 & A4 & A6 & _ & _ & A7 & A5).
    rewrite E1 in E2. injection E2 as <- <-. split; [exact A4|]. split; [exact A3|]. split; [exact A1|]. split; [exact A2|].
    split; [intros x y Ha; apply (A5 x y "cost" Ha); simpl; intuition discriminate|]. split; [exact A6|]. split; [exact A7|exact A5]. }
  destruct F1 as (D1 & W1 & I1 & C1 & K1 & G1 & A1 & B1). unfold cycle_canceling. erewrite bind_ok by exact E1.
  assert (Arc : forall x y, arc h1 x y <-> arc g x y) by (intros x y; rewrite (arc_list h1 x y D1), (arc_list g x y D), L1; reflexivity).
  assert (B1' : forall x y a, arc g x y -> ~ In a ["flow"; "capacity"; "label"; "color"] -> eattr h1 x y a = eattr g x y a) by (intros x y a Ha Hn; rewrite !eattr_obs, (B1 x y a Ha Hn); reflexivity).
  destruct r1.
  - specialize (Ff eq_refl).
    assert (HC1 : has_costs h1 false).
    { intros x y Ha. unfold sarc in *. rewrite D1 in Ha. rewrite D in HC || idtac. apply Arc in Ha. rewrite (K1 x y Ha). apply HC. unfold sarc. rewrite D. exact Ha. }
    assert (As1 : asymmetric (get_edge_list h1)) by (rewrite L1; exact As).
    assert (S1 : st h1 (cap_of g) (demand_of g) h1 (flow_of h1)).
    { constructor; [apply efr_refl| |rewrite N1, L1; exact Ff|reflexivity]. constructor; [|apply (int_FL _ I1)]. intros x y He. rewrite eattr_obs. rewrite L1 in He. apply (arc_list g x y D) in He. rewrite (C1 x y He). reflexivity. }
    assert (Dem : exists i, In i (get_node_list h1) /\ demand_of g i <> 0%Z) by (rewrite N1; exact Hi).
    pose proof (cancel_runs W1 D1 HC1 As1 Dem fuel S1) as Hr. unfold runs in Hr. destruct (cancel fuel h1) as [h r] eqn:Ec. cbn [fst snd] in Hr.
    exists h, r. split; [reflexivity|].
    assert (X : exists f', st h1 (cap_of g) (demand_of g) h f' /\ match r with
      | Ok b0 => b0 = true /\ min_cost (get_node_list h1) (get_edge_list h1) (cap_of g) (demand_of g) (fun e => edge_cost h1 (fst e) (snd e)) f'
      | Err e => fuel_or_py e end).
    { destruct r as [b0|e]; [destruct Hr as (H0 & f' & S2 & M); exists f'; auto|destruct Hr as (H0 & f' & S2); exists f'; auto]. }
    clear Hr. destruct X as (f' & S2 & Opt).
    assert (Lh : get_edge_list h = get_edge_list g) by (rewrite (efr_edges (st_fr S2)); exact L1).
    assert (Ff' : forall e, In e (get_edge_list g) -> flow_of h e = f' e) by (intros e He; apply (FL_flow _ _ (fs_flow (st_fs S2))); rewrite Lh; exact He).
    split; [|split; [|split; [|split; [|split; [|split; [|split]]]]]].
    + pose proof (st_feas S2) as Fe2. rewrite N1, L1 in Fe2. destruct r as [[]|e].
      * destruct Opt as [_ Opt]. rewrite N1, L1 in Opt. revert Opt. apply min_cost_ext; [exact Ff'|]. intros [x y] He. cbn [fst snd]. apply (arc_list g x y D) in He. unfold edge_cost. rewrite (K1 x y He). reflexivity.
      * destruct Opt as [Opt _]. discriminate.
      * split; [exact Opt|]. destruct Fe2 as [Fa Fb]. constructor; [intros e' He; rewrite (Ff' e' He); auto|]. intros x Hx. rewrite <- (Fb x Hx). unfold outflow, inflow. f_equal; apply zsum_ext; intros e' He; apply filter_In in He; apply Ff', He.
    + rewrite (ef_attr (st_fr S2)). exact G1.
    + rewrite (efr_node_list (st_fr S2)). exact N1.
    + exact Lh.
    + intros x y He. exists (f' (x, y)). apply obs_eattr, (fs_flow (st_fs S2)), He.
    + intros x y Ha. apply obs_eattr, (fs_cap (st_fs S2)). rewrite Lh. apply (arc_list g x y D), Ha.
    + intros x a Hx Ha. rewrite <- (A1 x a Hx Ha). apply (nattr_efr x (st_fr S2) Ha).
    + intros x y a Ha Hn. rewrite (ef_edges (st_fr S2)) by (intros [<-|[]]; apply Hn; left; reflexivity). apply B1'; assumption.
  - exists h1, (Ok false). split; [reflexivity|]. split; [apply Fq; reflexivity|]. split; [exact G1|]. split; [exact N1|]. split; [exact L1|]. split; [exact I1|]. split; [exact C1|]. split; [exact A1|exact B1'].
Qed.
Print Assumptions C37_outcomes.
(* so what it returns is right, however much fuel was given *)
Theorem C37_cycle_canceling : forall (fr : frontier) (els : fq fr -> list name) (g : graph) (q0 : fq fr) (fuel : nat) (h : graph) (r : bool),
  bag els -> els q0 = [] -> wf g -> g_type g = Directed -> int_demands g -> int_caps g -> nonneg_caps g -> has_costs g false -> asymmetric (get_edge_list g) ->
  ~ In (NS "s") (get_node_list g) -> ~ In (NS "t") (get_node_list g) -> dget (g_attr g) "display" <> None ->
  zsum (demand_of g) (get_node_list g) = 0%Z -> (exists i, In i (get_node_list g) /\ demand_of g i <> 0%Z) ->
  cycle_canceling fuel q0 g = (h, Ok r) ->
  (r = true -> min_cost (get_node_list g) (get_edge_list g) (cap_of g) (demand_of g) (fun e => edge_cost g (fst e) (snd e)) (flow_of h)) /\
  (r = false -> forall f, ~ qfeasible (get_node_list g) (get_edge_list g) (cap_of g) (demand_of g) f) /\
  get_node_list h = get_node_list g /\ get_edge_list h = get_edge_list g /\ int_attr h "flow".
Proof.
  intros fr els g q0 fuel h r Hb Hq W D ID IC NC HC As Hs Ht Hd Hz Hi E.
  assert (E' : cycle_canceling (S (Nat.max fuel (enough_fuel g))) q0 g = (h, Ok r)).
  { assert (Hle : fuel <= S (Nat.max fuel (enough_fuel g))) by lia. apply (more_ok (canceling_more (q0 := q0) Hle) E). }
  destruct (C37_outcomes fr els g q0 (S (Nat.max fuel (enough_fuel g))) Hb Hq W D ID IC NC HC As Hs Ht Hd Hz Hi) as (h' & r' & E2 & Hr & _ & Hn & He & Hi' & _); [lia|].
  rewrite E' in E2. injection E2 as <- <-. split; [intros ->; exact Hr|]. split; [intros ->; exact Hr|]. auto.
Qed.
Print Assumptions C37_cycle_canceling.
(* the feasible flow of C36_nonvacuous costs 16; this one costs 14 *)
Example C37_nonvacuous : has_costs (exff (-3)) false /\ asymmetric (get_edge_list (exff (-3))) /\ obs (cycle_canceling 50 ([] : fq stack)) (exff (-3)) = Ok true /\
  map (flow_of (fst (cycle_canceling 50 ([] : fq stack) (exff (-3))))) (get_edge_list (exff (-3))) = [2; 1; 1; 2; 1]%Z /\
  obs (cycle_canceling 50 ([] : fq stack)) (history (exff (-3)) [OSetEdgeAttr (NI 2) (NI 4) "capacity" (VI 0)]) = Ok false.
Proof. split; [apply all_costs; vm_compute; reflexivity|]. split; [apply all_asym; vm_compute; reflexivity|]. repeat split; vm_compute; reflexivity. Qed.
(* it need not return: in this graph the negative cycle found in the residual graph is an arc and its own
   reverse, so that augmenting changes nothing *)
Definition exloop : graph := history (new_graph (Some Directed) [])
  [OAddNode (NI 0) [("demand", VI 0)]; OAddNode (NI 1) [("demand", VI 0)]; OAddNode (NI 2) [("demand", VI 1)]; OAddNode (NI 3) [("demand", VI 0)];
   OAddNode (NI 4) [("demand", VI (-1))]; OAddNode (NI 5) [("demand", VI 0)];
   OAddEdge (NI 2) (NI 0) [("cost", VI 2); ("capacity", VI 1)]; OAddEdge (NI 0) (NI 3) [("cost", VI 2); ("capacity", VI 1)];
   OAddEdge (NI 5) (NI 0) [("cost", VI (-2)); ("capacity", VI 2)]; OAddEdge (NI 2) (NI 1) [("cost", VI 0); ("capacity", VI 2)];
   OAddEdge (NI 1) (NI 4) [("cost", VI 0); ("capacity", VI 3)]; OAddEdge (NI 5) (NI 2) [("cost", VI 0); ("capacity", VI 3)];
   OAddEdge (NI 4) (NI 3) [("cost", VI (-3)); ("capacity", VI 2)]; OAddEdge (NI 3) (NI 5) [("cost", VI (-2)); ("capacity", VI 2)];
   OAddEdge (NI 5) (NI 4) [("cost", VI (-2)); ("capacity", VI 3)]].
Lemma exloop_wf : wf exloop.
Proof. refine (proj1 (wf_history (wf_new (Some Directed) []) _)). discriminate. Qed.
Lemma out_or {A} (r : res A) : r = Err OutOfFuel \/ r <> Err OutOfFuel.
Proof. destruct r as [a|[]]; (left; reflexivity) || (right; discriminate). Qed.
Theorem C37_termination_refuted : exists g, wf g /\ g_type g = Directed /\ int_demands g /\ int_caps g /\ nonneg_caps g /\ has_costs g false /\ asymmetric (get_edge_list g) /\
  ~ In (NS "s") (get_node_list g) /\ ~ In (NS "t") (get_node_list g) /\ dget (g_attr g) "display" <> None /\
  zsum (demand_of g) (get_node_list g) = 0%Z /\ (exists f, feasible (get_node_list g) (get_edge_list g) (cap_of g) (demand_of g) f) /\
  forall fuel, obs (cycle_canceling fuel ([] : fq stack)) g = Err OutOfFuel.
Proof.
  exists exloop. split; [apply exloop_wf|]. split; [vm_compute; reflexivity|]. split; [apply all_dem; vm_compute; reflexivity|]. destruct (all_caps exloop) as [H1 H2]; [vm_compute; reflexivity|]. split; [exact H1|]. split; [exact H2|].
  split; [apply all_costs; vm_compute; reflexivity|]. split; [apply all_asym; vm_compute; reflexivity|]. split; [vm_compute; intuition discriminate|]. split; [vm_compute; intuition discriminate|]. split; [vm_compute; discriminate|].
  split; [vm_compute; reflexivity|]. split.
  { exists (fun e => if mem e [(NI 2, NI 1); (NI 1, NI 4)] then 1%Z else 0%Z). constructor.
    - intros e He. vm_compute in He. repeat (destruct He as [<-|He]; [vm_compute; split; discriminate|]). destruct He.
    - intros x Hx. vm_compute in Hx. repeat (destruct Hx as [<-|Hx]; [vm_compute; reflexivity|]). destruct Hx. }
  assert (Small : snd (cycle_canceling 40 ([] : fq stack) exloop) = Err OutOfFuel) by (vm_compute; reflexivity).
  intros fuel. unfold obs. destruct (Nat.le_gt_cases fuel 40) as [Hle|Hgt].
  - destruct (out_or (snd (cycle_canceling fuel ([] : fq stack) exloop))) as [E|E]; [exact E|]. rewrite <- (canceling_more (q0 := [] : fq stack) Hle E). exact Small.
  - unfold cycle_canceling. assert (Hl : 40 <= fuel) by lia.
    assert (E1 : exists h1, find_feasible_flow 40 ([] : fq stack) exloop = (h1, Ok true) /\ exists r1 c1, create_residual_graph h1 = (h1, Ok r1) /\ get_negative_cycle 40 r1 = (r1, Ok (Some c1)) /\
      exists z, find_cycle_capacity c1 r1 = (r1, Ok z) /\ augment_cycle z c1 h1 = (h1, Ok tt)).
    { eexists. split; [vm_compute; reflexivity|]. eexists. eexists. split; [vm_compute; reflexivity|]. split; [vm_compute; reflexivity|]. eexists. split; vm_compute; reflexivity. }
    destruct E1 as (h1 & E1 & r1 & c1 & E2 & E3 & z & E4 & E5). erewrite bind_ok by (apply (more_ok (feasible_more (q0 := [] : fq stack) Hl) E1)). unfold cancel. erewrite bind_ok by exact E2.
    assert (E3' : ask (get_negative_cycle fuel) r1 h1 = (h1, Ok (Some c1))) by (unfold ask; rewrite (more_ok (negative_cycle_more Hl) E3); reflexivity).
    erewrite bind_ok by exact E3'. rewrite loop_fixed; [reflexivity|]. cbv beta iota.
    assert (E4' : ask (find_cycle_capacity c1) r1 h1 = (h1, Ok z)) by (unfold ask; rewrite E4; reflexivity).
    erewrite bind_ok by exact E4'. erewrite bind_ok by exact E5. erewrite bind_ok by exact E2. erewrite bind_ok by exact E3'. reflexivity.
Qed.
Print Assumptions C37_termination_refuted.
(* and it can raise on a feasible problem: get_negative_cycle fails on the residual graph of the flow found first (C32) *)
Definition exfail : graph := history (new_graph (Some Directed) [])
  (map (fun i => OAddNode (NI i) [("demand", VI 0)]) [0; 1; 2; 3; 4; 5; 6; 7; 8]%Z ++ [OAddNode (NI 9) [("demand", VI 1)]; OAddNode (NI 10) [("demand", VI (-1))]] ++
   map (fun i => OAddEdge (NI i) (NI 8) [("cost", VI 0); ("capacity", VI 1)]) [0; 1; 2; 3; 4; 5; 6; 7]%Z ++
   map (fun e => let '(i, j, c) := e in OAddEdge (NI i) (NI j) [("cost", VI c); ("capacity", VI 1)])
     [(0, 7, 0); (1, 4, 0); (1, 5, -1); (2, 7, 0); (3, 1, 3); (4, 2, 0); (4, 6, 0); (5, 3, -3); (6, 0, 0); (7, 4, 0); (7, 5, 1); (9, 10, 0)]%Z).
Theorem C37_raises_refuted : exists g m, wf g /\ g_type g = Directed /\ int_demands g /\ int_caps g /\ nonneg_caps g /\ has_costs g false /\ asymmetric (get_edge_list g) /\
  ~ In (NS "s") (get_node_list g) /\ ~ In (NS "t") (get_node_list g) /\ dget (g_attr g) "display" <> None /\
  zsum (demand_of g) (get_node_list g) = 0%Z /\ (exists f, feasible (get_node_list g) (get_edge_list g) (cap_of g) (demand_of g) f) /\
  forall fuel, 50 <= fuel -> obs (cycle_canceling fuel ([] : fq stack)) g = Err (PyException m).
Proof.
  exists exfail, "Graph does not have a negative cycle that contains node".
  assert (W : wf exfail) by (refine (proj1 (wf_history (wf_new (Some Directed) []) _)); discriminate). split; [exact W|].
  split; [vm_compute; reflexivity|]. split; [apply all_dem; vm_compute; reflexivity|]. destruct (all_caps exfail) as [H1 H2]; [vm_compute; reflexivity|]. split; [exact H1|]. split; [exact H2|].
  split; [apply all_costs; vm_compute; reflexivity|]. split; [apply all_asym; vm_compute; reflexivity|]. split; [vm_compute; intuition discriminate|]. split; [vm_compute; intuition discriminate|]. split; [vm_compute; discriminate|].
  split; [vm_compute; reflexivity|]. split.
  { exists (fun e => if mem e [(NI 9, NI 10)] then 1%Z else 0%Z). constructor.
    - intros e He. vm_compute in He. repeat (destruct He as [<-|He]; [vm_compute; split; discriminate|]). destruct He.
    - intros x Hx. vm_compute in Hx. repeat (destruct Hx as [<-|Hx]; [vm_compute; reflexivity|]). destruct Hx. }
  intros fuel Hle. unfold obs.
  assert (E : snd (cycle_canceling 50 ([] : fq stack) exfail) = Err (PyException "Graph does not have a negative cycle that contains node")) by (vm_compute; reflexivity).
  rewrite (canceling_more (q0 := [] : fq stack) Hle); [exact E|rewrite E; discriminate].
Qed.
Print Assumptions C37_raises_refuted.
