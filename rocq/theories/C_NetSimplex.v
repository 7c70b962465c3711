(* Property theorems C56, C57: the network simplex method and min_cost_flow. *)
From Verif Require Import Py Util M_Graph P_Graph P_GraphLaws M_Search S_Frontier M_Flow M_Floyd M_MinCost M_Simplex M_NetSimplex Spec P_Walk P_Attr S_Flow S_GraphFlow S_MinCost S_Simplex P_Flow P_EdgeFrame P_MaxFlow P_MinCostAbs P_Residual P_Fuel P_Pok P_NetTree P_NetSearch P_NetPot P_NetPivot P_NetCycle P_NetLoop P_NetInit P_NetTerm P_NetFuel P_NetFrame C_Flow C_Floyd C_MinCost C_Simplex.
Local Open Scope string_scope. Local Open Scope list_scope.

(* any two nodes are joined by arcs, whatever their direction *)
Definition connected (g : graph) : Prop := forall x y, In x (get_node_list g) -> In y (get_node_list g) -> reach (fun a b => arc g a b \/ arc g b a) x y.

Lemma balanced_signs g : zsum (demand_of g) (get_node_list g) = 0%Z -> (exists i, In i (get_node_list g) /\ demand_of g i <> 0%Z) ->
  (exists i, In i (get_node_list g) /\ (0 < demand_of g i)%Z) /\ (exists i, In i (get_node_list g) /\ (demand_of g i < 0)%Z).
Proof.
  intros Hz (i & Hi & Hn). split.
  - destruct (existsb (fun i => 0 <? demand_of g i)%Z (get_node_list g)) eqn:Ex; [apply existsb_exists in Ex as (j & Hj & K); exists j; split; [exact Hj|apply Z.ltb_lt, K]|].
    exfalso. assert (Np : forall x, In x (get_node_list g) -> (0 <= - demand_of g x)%Z).
    { intros x Hx. destruct (Z.ltb_spec 0 (demand_of g x)) as [K|K]; [|lia]. assert (existsb (fun i => 0 <? demand_of g i)%Z (get_node_list g) = true); [|congruence]. apply existsb_exists. exists x. split; [exact Hx|]. apply Z.ltb_lt, K. }
    assert (Z0 : (zsum (fun x => - demand_of g x) (get_node_list g) <= 0)%Z) by (rewrite zsum_opp, Hz; lia). pose proof (zsum_zero_each Np Z0 Hi) as K. simpl in K. lia.
  - destruct (existsb (fun i => demand_of g i <? 0)%Z (get_node_list g)) eqn:Ex; [apply existsb_exists in Ex as (j & Hj & K); exists j; split; [exact Hj|apply Z.ltb_lt, K]|].
    exfalso. assert (Np : forall x, In x (get_node_list g) -> (0 <= demand_of g x)%Z).
    { intros x Hx. destruct (Z.ltb_spec (demand_of g x) 0) as [K|K]; [|lia]. assert (existsb (fun i => demand_of g i <? 0)%Z (get_node_list g) = true); [|congruence]. apply existsb_exists. exists x. split; [exact Hx|]. apply Z.ltb_lt, K. }
    assert (Z0 : (zsum (fun x => demand_of g x) (get_node_list g) <= 0)%Z) by (rewrite (zsum_ext (h := demand_of g)), Hz; [lia|reflexivity]). pose proof (zsum_zero_each Np Z0 Hi) as K. simpl in K. lia.
Qed.
(* what find_feasible_flow leaves behind, for any fuel *)
Lemma feasible_any (fr : frontier) (els : fq fr -> list name) (g : graph) (q0 : fq fr) (fuel : nat) :
  bag els -> els q0 = [] -> wf g -> g_type g = Directed -> int_demands g -> int_caps g -> nonneg_caps g -> has_costs g false -> asymmetric (get_edge_list g) ->
  ~ In (NS "s") (get_node_list g) -> ~ In (NS "t") (get_node_list g) -> dget (g_attr g) "display" <> None ->
  zsum (demand_of g) (get_node_list g) = 0%Z -> (exists i, In i (get_node_list g) /\ demand_of g i <> 0%Z) ->
  pok (find_feasible_flow fuel q0) g (fun r h => self (get_node_list g) (get_edge_list g) (cap_of g) (fun e => edge_cost g (fst e) (snd e)) (flow_of h) h /\
    (r = true -> feasible (get_node_list g) (get_edge_list g) (cap_of g) (demand_of g) (flow_of h)) /\
    (r = false -> forall f, ~ qfeasible (get_node_list g) (get_edge_list g) (cap_of g) (demand_of g) f) /\
    kept (nattr g) h).
Proof.
  intros Hb Hq W D ID IC NC HC As Hs Ht Hd Hz Hi.
  assert (NA : no_antiparallel g) by (intros x y H1 H2; exfalso; apply (As x y H1 H2)).
  set (big := S (Nat.max fuel (enough_fuel g))). assert (Hle : fuel <= big) by (unfold big; lia). assert (Hf : enough_fuel g < big) by (unfold big; lia).
  destruct (C36_feasible fr els g q0 big Hb Hq W D ID IC NC NA Hs Ht Hd Hz Hi Hf) as (h & r & E & N & L & Fe & Ff & Fq).
  destruct (balanced_signs g Hz Hi) as [S1 S2].
  destruct (C36_supply fr els g q0 big Hb Hq W D ID IC NC NA Hs Ht Hd S1 S2 Hf) as (h' & r' & E' & _ & _ & A1 & A2 & A3 & A4 & A6 & _ & _ & A7 & A5).
  rewrite E in E'. injection E' as <- <-.
  destruct (snd (find_feasible_flow fuel q0 g)) as [a|e] eqn:Es.
  - right. pose proof (feasible_more (q0 := q0) Hle) as M. assert (Eq : find_feasible_flow fuel q0 g = (h, Ok r)) by (rewrite <- (M g); [exact E|rewrite Es; discriminate]).
    apply (ok_intro Eq). split; [|split; [exact Ff|split; [exact Fq|]]].
    2: { split; [|rewrite A6; exact Hd]. intros x at0 _ Ha. destruct (mem_spec x (get_node_list g)) as [Hx|Hx]; [|unfold nattr; rewrite !(proj2 (dget_None _ _)); [reflexivity|rewrite (wf_nodes W); exact Hx|rewrite (wf_nodes A3); change (~ In x (get_node_list h)); rewrite N; exact Hx]].
      specialize (A7 x at0 Hx Ha). rewrite !obs_node_attr in A7. assert (K1 : In x (dkeys (g_nodes g))) by (rewrite (wf_nodes W); exact Hx). assert (K2 : In x (dkeys (g_nodes h))) by (rewrite (wf_nodes A3); change (In x (get_node_list h)); rewrite N; exact Hx).
      unfold nattr. apply dget_exists in K1 as [d1 E1], K2 as [d2 E2]. rewrite E1, E2 in *. injection A7 as A7. exact A7. }
    assert (Arc : forall e, In e (get_edge_list g) -> arc g (fst e) (snd e)) by (intros e He; apply (arc_list g _ _ D); rewrite <- surjective_pairing; exact He).
    constructor; auto.
    + intros e He. rewrite eattr_obs, (A2 _ _ (Arc e He)), <- surjective_pairing. reflexivity.
    + intros [x y] He. rewrite <- L in He. apply (int_FL h A1 x y He).
    + intros e He. rewrite eattr_obs, (A5 _ _ "cost" (Arc e He)) by (simpl; intuition discriminate). rewrite <- eattr_obs. apply (int_cost g e D HC He).
  - left. split; [exact Logic.I|]. rewrite Es. destruct e; try reflexivity; exfalso;
      (pose proof (feasible_more (q0 := q0) Hle) as M; assert (Eq : find_feasible_flow fuel q0 g = (h, Ok r)) by (rewrite <- (M g); [exact E|rewrite Es; discriminate]); rewrite Eq in Es; discriminate Es).
Qed.
(* and it returns when there is enough fuel *)
Lemma feasible_total (fr : frontier) (els : fq fr -> list name) (g : graph) (q0 : fq fr) (fuel : nat) (Q : bool -> graph -> Prop) :
  bag els -> els q0 = [] -> wf g -> g_type g = Directed -> int_demands g -> int_caps g -> nonneg_caps g -> asymmetric (get_edge_list g) ->
  ~ In (NS "s") (get_node_list g) -> ~ In (NS "t") (get_node_list g) -> dget (g_attr g) "display" <> None ->
  zsum (demand_of g) (get_node_list g) = 0%Z -> (exists i, In i (get_node_list g) /\ demand_of g i <> 0%Z) ->
  pok (find_feasible_flow fuel q0) g Q -> tpk (fuel <= enough_fuel g) (find_feasible_flow fuel q0) g Q.
Proof.
  intros Hb Hq W D ID IC NC As Hs Ht Hd Hz Hi [[_ P]|P]; [|right; exact P].
  destruct (Nat.le_gt_cases fuel (enough_fuel g)) as [Hf|Hf]; [left; auto|exfalso].
  assert (NA : no_antiparallel g) by (intros x y H1 H2; exfalso; apply (As x y H1 H2)).
  destruct (C36_feasible fr els g q0 fuel Hb Hq W D ID IC NC NA Hs Ht Hd Hz Hi Hf) as (h & r & E & _). rewrite E in P. discriminate.
Qed.
Lemma attr_self V es c k f a v h : self V es c k f h -> self V es c k f (with_attr h (dset (g_attr h) a v)).
Proof. intros S. destruct S. constructor; auto. destruct sf_wf. constructor; auto. Qed.
Lemma attr_tsol V es c k b f a v t h : tsol V es c k b f t h -> tsol V es c k b f (with_attr t (dset (g_attr t) a v)) h.
Proof. intros S. destruct S. constructor; auto. destruct ts_wf. constructor; auto. Qed.

(* the whole run, given one of the pivoting loop *)
Definition phase_fuel (g : graph) : nat := enough_fuel g + tree_bound (get_node_list g) (get_edge_list g) (cap_of g) + net_bound (get_node_list g).
Lemma connected_spans g : g_type g = Directed -> connected g -> spans (get_node_list g) (get_edge_list g).
Proof.
  intros D Con x y Hx Hy. destruct (Con x y Hx Hy) as [p Hw]. exists p. clear - Hw D. induction Hw as [a|a z p d He Hw IH]; [constructor|]. econstructor; [|exact IH]. destruct He as [He|He]; apply (arc_list g _ _ D) in He; [left|right]; exact He.
Qed.
Lemma simplex_run (B0 : Prop) (fr : frontier) (els : fq fr -> list name) (g : graph) (q0 : fq fr) (fuel : nat) (display : val) (pivot : string) (root : name) :
  let V := get_node_list g in let es := get_edge_list g in let c := cap_of g in let k := fun e => edge_cost g (fst e) (snd e) in let b := demand_of g in
  bag els -> els q0 = [] -> wf g -> g_type g = Directed -> int_demands g -> int_caps g -> nonneg_caps g -> has_costs g false -> asymmetric (get_edge_list g) ->
  (forall x, In x (get_node_list g) -> exists z, x = NI z) -> connected g -> In root (get_node_list g) ->
  dget (g_attr g) "display" <> None -> zsum (demand_of g) (get_node_list g) = 0%Z -> (exists i, In i (get_node_list g) /\ demand_of g i <> 0%Z) ->
  (fuel <= phase_fuel g -> B0) ->
  (forall f t h, psol V es c k b root f t h -> tpk B0 (loop fuel (pivot_step fuel display pivot root) t) h (fun r h' => r = true /\ exists f', self V es c k f' h' /\ min_cost V es c b k f')) ->
  tpk B0 (network_simplex fuel q0 display pivot root) g (fun r h => exists f, self V es c k f h /\ (r = true -> min_cost V es c b k f) /\ (r = false -> forall f, ~ qfeasible V es c b f) /\ kept (nattr g) h).
Proof.
  intros V es c k b Hb Hq W D ID IC NC HC As Names Con Hr Hd Hz Hi HB Piv.
  assert (Hs : ~ In (NS "s") (get_node_list g)) by (intros K; destruct (Names _ K); discriminate).
  assert (Ht : ~ In (NS "t") (get_node_list g)) by (intros K; destruct (Names _ K); discriminate).
  assert (EV : forall e, In e es -> In (fst e) V /\ In (snd e) V) by (intros [x y] He; apply (edge_nodes W D He)).
  assert (Hne : V <> []) by (intros K; unfold V in K; rewrite K in Hr; destruct Hr).
  assert (B1 : fuel <= enough_fuel g -> B0) by (intros K; apply HB; unfold phase_fuel; lia).
  assert (B2 : fuel <= tree_bound V es c -> B0) by (intros K; apply HB; unfold phase_fuel, V, es, c in *; lia).
  assert (B3 : fuel <= net_bound V -> B0) by (intros K; apply HB; unfold phase_fuel, V in *; lia).
  unfold network_simplex. apply pok_bind. eapply pok_from; [apply (feasible_total fr els g q0 fuel); try assumption; apply (feasible_any fr els g q0 fuel); assumption|exact B1|]. intros r h0 (S0 & F1 & F2 & Kp). fold V es c k b in S0, F1, F2.
  destruct r; [specialize (F1 eq_refl)|apply pok_ret; exists (flow_of h0); split; [exact S0|]; split; [discriminate|auto]].
  eapply pok_weaken; [apply (pok_keep (d := nattr g)) with (Q := fun r h => r = true /\ exists f, self V es c k f h /\ min_cost V es c b k f); [kp|exact Kp|]|intros r h ((-> & f & S & M) & Kh); exists f; split; [exact S|]; split; [auto|split; [discriminate|exact Kh]]].
  apply pok_bind. eapply pok_from; [apply (find_tree_t (b := b) As (wf_ne W) (wf_nd W) EV Names Hne (connected_spans g D Con) fuel S0 F1)|exact B2|]. intros t h1 (f1 & T1 & _).
  apply pok_step, ok_modify. set (h2 := with_attr h1 (dset (g_attr h1) "display" display)).
  assert (T2 : tsol V es c k b f1 t h2) by (apply (tsol_self T1), attr_self, (ts_self T1)).
  apply pok_step. eapply ok_weaken; [apply (mark_ok T2)|]. intros u h3 E3. cbn beta in E3.
  assert (T3 : tsol V es c k b f1 t h3) by (apply (tsol_self T2), (self_efr (ts_self T2) E3); simpl; intuition discriminate).
  apply pok_bind, (redraws_t As Hr display B3 T3). intros _. apply pok_step, ok_on, ok_modify. apply (attr_tsol _ _ _ _ _ _ "display" display) in T3. set (t3 := with_attr t _) in *.
  apply (retree_t As EV Names Hr B3 T3). intros t' h' PS _. apply (Piv f1 t' h' PS).
Qed.

(** C56: network_simplex finds a flow of minimum cost *)
Theorem C56_network_simplex : forall (fr : frontier) (els : fq fr -> list name) (g : graph) (q0 : fq fr) (fuel : nat) (display : val) (pivot : string) (root : name),
  bag els -> els q0 = [] -> wf g -> g_type g = Directed -> int_demands g -> int_caps g -> nonneg_caps g -> has_costs g false -> asymmetric (get_edge_list g) ->
  (* the names of the nodes are ints *)
  (forall x, In x (get_node_list g) -> exists z, x = NI z) -> connected g -> In root (get_node_list g) -> pivot = "dantzig" \/ pivot = "first_eligible" ->
  dget (g_attr g) "display" <> None -> zsum (demand_of g) (get_node_list g) = 0%Z -> (exists i, In i (get_node_list g) /\ demand_of g i <> 0%Z) ->
  obs (network_simplex fuel q0 display pivot root) g = Err OutOfFuel \/
  exists h r, network_simplex fuel q0 display pivot root g = (h, Ok r) /\
    (r = true -> min_cost (get_node_list g) (get_edge_list g) (cap_of g) (demand_of g) (fun e => edge_cost g (fst e) (snd e)) (flow_of h)) /\
    (r = false -> forall f, ~ qfeasible (get_node_list g) (get_edge_list g) (cap_of g) (demand_of g) f) /\
    wf h /\ get_node_list h = get_node_list g /\ get_edge_list h = get_edge_list g /\ int_attr h "flow" /\
    (forall x y, arc g x y -> obs (get_edge_attr x y "capacity") h = Ok (VI (cap_of g (x, y))) /\ obs (get_edge_attr x y "cost") h = obs (get_edge_attr x y "cost") g) /\
    (forall x a, In x (get_node_list g) -> a <> "color" -> a <> "potential" -> obs (get_node_attr x a) h = obs (get_node_attr x a) g).
Proof.
  intros fr els g q0 fuel display pivot root Hb Hq W D ID IC NC HC As Names Con Hr Hp Hd Hz Hi.
  set (V := get_node_list g) in *. set (es := get_edge_list g) in *. set (c := cap_of g) in *. set (k := fun e : name * name => edge_cost g (fst e) (snd e)) in *. set (b := demand_of g) in *.
  assert (EV : forall e, In e es -> In (fst e) V /\ In (snd e) V) by (intros [x y] He; apply (edge_nodes W D He)).
  assert (P : pok (network_simplex fuel q0 display pivot root) g (fun r h => exists f, self V es c k f h /\ (r = true -> min_cost V es c b k f) /\ (r = false -> forall f, ~ qfeasible V es c b f) /\ kept (nattr g) h)).
  { apply (simplex_run True fr els g q0 fuel display pivot root); auto. intros f t h PS. apply (pivots_loop As (wf_ne W) (wf_nd W) EV Names Hr fuel fuel display Hp PS). }
  apply pok_elim in P as [P|(h & r & E & f & S & M1 & M2 & Kh)]; [left; exact P|right]. exists h, r. split; [exact E|].
  assert (Ff : forall e, In e es -> flow_of h e = f e) by (intros e He; unfold flow_of; rewrite (sf_flow S He); reflexivity).
  split; [|split; [exact M2|split; [apply (sf_wf S)|split; [apply (sf_nodes S)|split; [apply (sf_edges S)|split; [|split]]]]]].
  - intros Hr'. apply (min_cost_ext Ff (fun _ _ => eq_refl) (M1 Hr')).
  - intros x y He. rewrite (sf_edges S) in He. exists (f (x, y)). apply obs_eattr. apply (sf_flow S He).
  - intros x y Ha. apply (arc_list g _ _ D) in Ha. split; [apply obs_eattr, (sf_cap S Ha)|]. rewrite (obs_eattr h x y "cost" _ (sf_cost S Ha)). symmetry. apply obs_eattr. apply (int_cost g (x, y) D HC Ha).
  - intros x a Hx H1 H2. pose proof (proj1 Kh x a H2 H1) as K. rewrite !obs_node_attr. assert (K1 : In x (dkeys (g_nodes g))) by (rewrite (wf_nodes W); exact Hx). assert (K2 : In x (dkeys (g_nodes h))) by (rewrite (wf_nodes (sf_wf S)); change (In x (get_node_list h)); rewrite (sf_nodes S); exact Hx).
    unfold nattr in K. apply dget_exists in K1 as [d1 E1], K2 as [d2 E2]. rewrite E1, E2 in *. rewrite K. reflexivity.
Qed.
Print Assumptions C56_network_simplex.
(* a decidable form, given paths from x to every node *)
Fixpoint pathb (g : graph) (x : name) (p : list name) : bool :=
  match p with [] => true | y :: q => (check_edge g x y || check_edge g y x) && pathb g y q end.
Lemma pathb_reach g x p : g_type g = Directed -> pathb g x p = true -> reach (fun a b => arc g a b \/ arc g b a) x (last (x :: p) x).
Proof.
  intros D. assert (K : forall x d, pathb g x p = true -> reach (fun a b => arc g a b \/ arc g b a) x (last (x :: p) d)); [|apply K]. clear x. induction p as [|y q IH]; intros x d H; [exists [x]; constructor|].
  cbn [pathb] in H. apply andb_true_iff in H as [H1 H2]. destruct (IH y d H2) as [l W]. exists (x :: l). econstructor; [|exact W]. apply orb_true_iff in H1 as [H1|H1]; rewrite check_dir in H1 by exact D; apply mem_In in H1; [left|right]; apply (arc_list g _ _ D), H1.
Qed.
Definition connectedb (g : graph) (x : name) (ps : list (list name)) : bool :=
  forallb (pathb g x) ps && forallb (fun y => mem y (map (fun p => last (x :: p) x) ps)) (get_node_list g).
Lemma all_connected g x ps : g_type g = Directed -> connectedb g x ps = true -> connected g.
Proof.
  intros D H. unfold connectedb in H. apply andb_true_iff in H as [H1 H2]. rewrite forallb_forall in H1, H2.
  assert (R : forall y, In y (get_node_list g) -> reach (fun a b => arc g a b \/ arc g b a) x y).
  { intros y Hy. specialize (H2 y Hy). apply mem_In, in_map_iff in H2 as (p & <- & Hp). apply (pathb_reach g x p D), H1, Hp. }
  intros a b Ha Hb. destruct (R a Ha) as [l1 W1], (R b Hb) as [l2 W2].
  assert (R' : exists l, walk (fun a b => arc g a b \/ arc g b a) a l x).
  { clear - W1. induction W1 as [x|x z p d He W IH]; [eexists; constructor|]. destruct IH as [l IH]. exists (l ++ [x]). eapply walk_snoc; [exact IH|]. tauto. }
  destruct R' as [l W]. destruct (walk_trans W W2) as (q & Wq & _). exists q. exact Wq.
Qed.
Definition int_namesb (g : graph) : bool := forallb (fun x => match x with NI _ => true | NS _ => false end) (get_node_list g).
Lemma all_names g : int_namesb g = true -> forall x, In x (get_node_list g) -> exists z, x = NI z.
Proof. intros H x Hx. unfold int_namesb in H. rewrite forallb_forall in H. specialize (H x Hx). destruct x; [eauto|discriminate]. Qed.
(* on the graph of C36 and C37: the flow of cost 14 is found with both rules and any root *)
Example C56_nonvacuous : (forall x, In x (get_node_list (exff (-3))) -> exists z, x = NI z) /\ connected (exff (-3)) /\ In (NI 2) (get_node_list (exff (-3))) /\
  forallb (fun r => forallb (fun p => match network_simplex 50 ([] : fq stack) (VS "off") p r (exff (-3)) with
    | (h, Ok b) => b && eqb (map (flow_of h) (get_edge_list h)) [2; 1; 1; 2; 1]%Z | _ => false end) ["dantzig"; "first_eligible"]) (get_node_list (exff (-3))) = true /\
  obs (network_simplex 50 ([] : fq stack) (VS "off") "dantzig" (NI 1)) (history (exff (-3)) [OSetEdgeAttr (NI 2) (NI 4) "capacity" (VI 0)]) = Ok false.
Proof.
  split; [apply all_names; vm_compute; reflexivity|]. split; [apply (all_connected _ (NI 1) [[]; [NI 2]; [NI 3]; [NI 2; NI 4]]); vm_compute; reflexivity|].
  split; [vm_compute; auto|]. split; vm_compute; reflexivity.
Qed.
(* it need not return: an arc of capacity 0 whose reduced cost is not 0 is never at rest, and enters and leaves
   the tree for ever *)
Definition exz : graph := history (new_graph (Some Directed) [])
  [OAddNode (NI 1) [("demand", VI (-1))]; OAddNode (NI 0) [("demand", VI 1)]; OAddNode (NI 2) [("demand", VI 0)];
   OAddEdge (NI 0) (NI 1) [("cost", VI 3); ("capacity", VI 2)]; OAddEdge (NI 1) (NI 2) [("cost", VI 1); ("capacity", VI 1)]; OAddEdge (NI 0) (NI 2) [("cost", VI 1); ("capacity", VI 0)]].
Lemma exz_wf : wf exz.
Proof. refine (proj1 (wf_history (wf_new (Some Directed) []) _)). discriminate. Qed.
Theorem C56_termination_refuted : exists g, wf g /\ g_type g = Directed /\ int_demands g /\ int_caps g /\ nonneg_caps g /\ has_costs g false /\ asymmetric (get_edge_list g) /\
  (forall x, In x (get_node_list g) -> exists z, x = NI z) /\ connected g /\ In (NI 0) (get_node_list g) /\ dget (g_attr g) "display" <> None /\
  zsum (demand_of g) (get_node_list g) = 0%Z /\ (exists f, feasible (get_node_list g) (get_edge_list g) (cap_of g) (demand_of g) f) /\
  forall fuel, obs (network_simplex fuel ([] : fq stack) (VS "off") "dantzig" (NI 0)) g = Err OutOfFuel.
Proof.
  exists exz. split; [apply exz_wf|]. split; [vm_compute; reflexivity|]. split; [apply all_dem; vm_compute; reflexivity|]. destruct (all_caps exz) as [H1 H2]; [vm_compute; reflexivity|]. split; [exact H1|]. split; [exact H2|].
  split; [apply all_costs; vm_compute; reflexivity|]. split; [apply all_asym; vm_compute; reflexivity|]. split; [apply all_names; vm_compute; reflexivity|].
  split; [apply (all_connected _ (NI 0) [[]; [NI 1]; [NI 2]]); vm_compute; reflexivity|]. split; [vm_compute; auto|]. split; [vm_compute; discriminate|]. split; [vm_compute; reflexivity|]. split.
  { exists (fun e => if eqb e (NI 0, NI 1) then 1%Z else 0%Z). constructor.
    - intros e He. vm_compute in He. repeat (destruct He as [<-|He]; [vm_compute; split; discriminate|]). destruct He.
    - intros x Hx. vm_compute in Hx. repeat (destruct Hx as [<-|Hx]; [vm_compute; reflexivity|]). destruct Hx. }
  assert (Small : snd (network_simplex 40 ([] : fq stack) (VS "off") "dantzig" (NI 0) exz) = Err OutOfFuel) by (vm_compute; reflexivity).
  intros fuel. unfold obs. destruct (Nat.le_gt_cases fuel 40) as [Hle|Hgt].
  - destruct (out_or (snd (network_simplex fuel ([] : fq stack) (VS "off") "dantzig" (NI 0) exz))) as [E|E]; [exact E|]. rewrite <- (simplex_more (q0 := [] : fq stack) (d := VS "off") (p := "dantzig") (x := NI 0) Hle E). exact Small.
  - assert (Hl : 40 <= fuel) by lia.
    assert (E : exists h1 t1 h2 h3 h4 r t2 t3 h5, find_feasible_flow 40 ([] : fq stack) exz = (h1, Ok true) /\ simplex_find_tree 40 h1 = (h2, Ok t1) /\ set_graph_attr "display" (VS "off") h2 = (h3, Ok tt) /\
      simplex_mark_st_arcs t1 h3 = (h4, Ok tt) /\ ask (simplex_redraw 40 (VS "off") (NI 0)) t1 h4 = (h4, Ok r) /\ on (set_graph_attr "display" (VS "off")) t1 h4 = (h4, Ok t2) /\
      on (simplex_search 40 (NI 0) (VI 1)) t2 h4 = (h4, Ok t3) /\ simplex_compute_potentials 40 t3 (NI 0) h4 = (h5, Ok tt) /\
      exists t4 h6, pivot_step 40 (VS "off") "dantzig" (NI 0) t3 h5 = (h6, Ok (inl t4)) /\ pivot_step 40 (VS "off") "dantzig" (NI 0) t4 h6 = (h6, Ok (inl t4))).
    { do 9 eexists. split; [vm_compute; reflexivity|]. split; [vm_compute; reflexivity|]. split; [vm_compute; reflexivity|]. split; [vm_compute; reflexivity|]. split; [vm_compute; reflexivity|].
      split; [vm_compute; reflexivity|]. split; [vm_compute; reflexivity|]. split; [vm_compute; reflexivity|]. do 2 eexists. split; vm_compute; reflexivity. }
    destruct E as (h1 & t1 & h2 & h3 & h4 & r & t2 & t3 & h5 & E1 & E2 & E3 & E4 & E5 & E6 & E7 & E8 & t4 & h6 & E9 & E10).
    unfold network_simplex. erewrite bind_ok by (apply (more_ok (feasible_more (q0 := [] : fq stack) Hl) E1)). cbv beta iota. erewrite bind_ok by (apply (more_ok (find_tree_more Hl) E2)).
    erewrite bind_ok by exact E3. erewrite bind_ok by exact E4. erewrite bind_ok by (apply (more_ok (more_ask (redraw_more Hl)) E5)). erewrite bind_ok by exact E6.
    erewrite bind_ok by (apply (more_ok (more_on (search_more Hl)) E7)). erewrite bind_ok by (apply (more_ok (potentials_more Hl) E8)).
    apply (more_ok (step_more Hl)) in E9. apply (more_ok (step_more Hl)) in E10.
    clear - E9 E10 Hgt. assert (exists n, fuel = S n) as [n Hn] by (exists (pred fuel); lia). rewrite Hn at 1. cbn [loop]. rewrite (bind_ok _ E9). rewrite (loop_fixed n E10). reflexivity.
Qed.
Print Assumptions C56_termination_refuted.
(* on a nondegenerate problem every pivot lowers the cost, and the method returns *)
Theorem C56_terminates : forall (fr : frontier) (els : fq fr -> list name) (g : graph) (q0 : fq fr) (display : val) (pivot : string) (root : name),
  bag els -> els q0 = [] -> wf g -> g_type g = Directed -> int_demands g -> int_caps g -> nonneg_caps g -> has_costs g false -> asymmetric (get_edge_list g) ->
  (forall x, In x (get_node_list g) -> exists z, x = NI z) -> connected g -> In root (get_node_list g) -> pivot = "dantzig" \/ pivot = "first_eligible" ->
  dget (g_attr g) "display" <> None -> zsum (demand_of g) (get_node_list g) = 0%Z -> (exists i, In i (get_node_list g) /\ demand_of g i <> 0%Z) ->
  nondegenerate (get_node_list g) (get_edge_list g) (cap_of g) (demand_of g) ->
  exists n h r, (forall fuel, n <= fuel -> network_simplex fuel q0 display pivot root g = (h, Ok r)) /\
    (r = true <-> exists f, feasible (get_node_list g) (get_edge_list g) (cap_of g) (demand_of g) f) /\
    (r = true -> min_cost (get_node_list g) (get_edge_list g) (cap_of g) (demand_of g) (fun e => edge_cost g (fst e) (snd e)) (flow_of h)).
Proof.
  intros fr els g q0 display pivot root Hb Hq W D ID IC NC HC As Names Con Hr Hp Hd Hz Hi ND.
  assert (EV : forall e, In e (get_edge_list g) -> In (fst e) (get_node_list g) /\ In (snd e) (get_node_list g)) by (intros [x y] He; apply (edge_nodes W D He)).
  set (k := fun e : name * name => edge_cost g (fst e) (snd e)) in *.
  set (n := phase_fuel g + (pivot_bound (get_edge_list g) (cap_of g) k + net_bound (get_node_list g))).
  assert (T : tpk (S n <= n) (network_simplex (S n) q0 display pivot root) g (fun _ _ => True)).
  { eapply pok_weaken; [apply (simplex_run (S n <= n) fr els g q0 (S n) display pivot root); auto|auto].
    - unfold n. lia.
    - intros f t h PS. eapply pok_from; [apply (pivots_t As (wf_ne W) (wf_nd W) EV Names Hr ND (S n) display Hp PS)| |auto]. change (dkeys (g_nbrs g)) with (get_node_list g). fold k. unfold n. lia. }
  apply tpk_elim in T as [[T _]|(h & r & E & _)]; [lia|]. exists (S n), h, r.
  split; [intros fuel Hf; apply (more_ok (simplex_more (q0 := q0) (d := display) (p := pivot) (x := root) Hf) E)|].
  destruct (C56_network_simplex fr els g q0 (S n) display pivot root Hb Hq W D ID IC NC HC As Names Con Hr Hp Hd Hz Hi) as [K|(h' & r' & E' & M1 & M2 & _)]; [unfold obs in K; rewrite E in K; discriminate|].
  rewrite E in E'. injection E' as <- <-. split; [|exact M1]. split.
  - intros Hr'. exists (flow_of h). apply (M1 Hr').
  - intros [f F]. destruct r; [reflexivity|]. destruct (M2 eq_refl _ (feasible_q F)).
Qed.
Print Assumptions C56_terminates.
(* three nodes with demands 3, 4 and -7 and capacities 10: no sum of some of the demands is a multiple of 10; the first flow is not optimal *)
Definition exn : graph := history (new_graph (Some Directed) [])
  [OAddNode (NI 1) [("demand", VI 3)]; OAddNode (NI 2) [("demand", VI 4)]; OAddNode (NI 3) [("demand", VI (-7))];
   OAddEdge (NI 1) (NI 2) [("cost", VI 1); ("capacity", VI 10)]; OAddEdge (NI 2) (NI 3) [("cost", VI 1); ("capacity", VI 10)]; OAddEdge (NI 1) (NI 3) [("cost", VI 5); ("capacity", VI 10)]].
Example C56_terminates_nonvacuous : wf exn /\ g_type exn = Directed /\ int_demands exn /\ int_caps exn /\ nonneg_caps exn /\ has_costs exn false /\ asymmetric (get_edge_list exn) /\
  (forall x, In x (get_node_list exn) -> exists z, x = NI z) /\ connected exn /\ zsum (demand_of exn) (get_node_list exn) = 0%Z /\
  nondegenerate (get_node_list exn) (get_edge_list exn) (cap_of exn) (demand_of exn) /\
  map (flow_of (fst (find_feasible_flow 50 ([] : fq stack) exn))) (get_edge_list exn) = [0; 4; 3]%Z /\
  map (flow_of (fst (network_simplex 50 ([] : fq stack) (VS "off") "dantzig" (NI 1) exn))) (get_edge_list exn) = [3; 7; 0]%Z.
Proof.
  split; [refine (proj1 (wf_history (wf_new (Some Directed) []) _)); discriminate|]. split; [vm_compute; reflexivity|]. split; [apply all_dem; vm_compute; reflexivity|]. destruct (all_caps exn) as [H1 H2]; [vm_compute; reflexivity|]. split; [exact H1|]. split; [exact H2|].
  split; [apply all_costs; vm_compute; reflexivity|]. split; [apply all_asym; vm_compute; reflexivity|]. split; [apply all_names; vm_compute; reflexivity|].
  split; [apply (all_connected _ (NI 1) [[]; [NI 2]; [NI 3]]); vm_compute; reflexivity|]. split; [vm_compute; reflexivity|]. split; [|split; vm_compute; reflexivity].
  assert (En : get_node_list exn = [NI 1; NI 2; NI 3]) by (vm_compute; reflexivity).
  assert (Ee : get_edge_list exn = [(NI 1, NI 2); (NI 2, NI 3); (NI 1, NI 3)]) by (vm_compute; reflexivity).
  assert (Ec : forall e, In e (get_edge_list exn) -> cap_of exn e = 10%Z) by (rewrite Ee; intros e He; repeat (destruct He as [<-|He]; [vm_compute; reflexivity|]); destruct He).
  split; [intros e He; rewrite (Ec e He); lia|]. rewrite En, Ee in *. intros S full (x & Hx & Sx) (y & Hy & Sy). unfold cut_capacity. cbn [filter fst snd].
  assert (Ed : demand_of exn (NI 1) = 3%Z /\ demand_of exn (NI 2) = 4%Z /\ demand_of exn (NI 3) = (-7)%Z) by (repeat split; vm_compute; reflexivity). destruct Ed as (D1 & D2 & D3).
  pose proof (Ec _ (or_introl eq_refl)) as C1. pose proof (Ec _ (or_intror (or_introl eq_refl))) as C2. pose proof (Ec _ (or_intror (or_intror (or_introl eq_refl)))) as C3.
  destruct (S (NI 1)) eqn:E1, (S (NI 2)) eqn:E2, (S (NI 3)) eqn:E3; try (exfalso; simpl in Hx, Hy; destruct Hx as [<-|[<-|[<-|[]]]]; congruence); try (exfalso; simpl in Hx, Hy; destruct Hy as [<-|[<-|[<-|[]]]]; congruence);
    cbn [negb andb filter zsum fold_right]; rewrite ?D1, ?D2, ?D3, ?C1, ?C2, ?C3; destruct (full (NI 1, NI 2)), (full (NI 2, NI 3)), (full (NI 1, NI 3)); lia.
Qed.
(* the preconditions are needed: names that are no ints, a graph that is not connected, a rule that is not known,
   a root that is no node *)
Example C56_errors :
  obs (network_simplex 50 ([] : fq stack) (VS "off") "dantzig" (NS "a")) (history (new_graph (Some Directed) [])
    [OAddNode (NS "a") [("demand", VI 1)]; OAddNode (NS "b") [("demand", VI (-1))]; OAddEdge (NS "a") (NS "b") [("cost", VI 1); ("capacity", VI 2)]]) = Err ValueError /\
  obs (network_simplex 50 ([] : fq stack) (VS "off") "dantzig" (NI 9)) (history (exff (-3)) [OAddNode (NI 9) [("demand", VI 0)]]) = Err KeyError /\
  obs (network_simplex 50 ([] : fq stack) (VS "off") "scaled" (NI 1)) (exff (-3)) = Err (PyException "Unknown pivot rule.") /\
  obs (network_simplex 50 ([] : fq stack) (VS "off") "dantzig" (NI 7)) (exff (-3)) = Err AttributeError.
Proof. repeat split; vm_compute; reflexivity. Qed.

(** C57: min_cost_flow *)
(* which method runs, and with which pivot rule and root *)
Theorem C57_dispatch : forall (fr : frontier) (q0 : fq fr) (fuel : nat) (g : graph) (display : option val) (algo pivot : option string) (root : option name) (d : val) (r : name) (nl : list name),
  (display = Some d \/ display = None /\ dget (g_attr g) "display" = Some d) ->
  (root = Some r \/ root = None /\ get_node_list g = r :: nl) ->
  forall (how : string), algo = Some how \/ algo = None /\ how = "simplex" ->
  (how = "simplex" -> forall p, pivot = Some p \/ pivot = None /\ p = "dantzig" ->
     fst (min_cost_flow fuel q0 display algo pivot root g) = fst (network_simplex fuel q0 d p r g) /\
     forall e, obs (min_cost_flow fuel q0 display algo pivot root) g = Err e <-> obs (network_simplex fuel q0 d p r) g = Err e) /\
  (how = "cycle_canceling" -> fst (min_cost_flow fuel q0 display algo pivot root g) = fst (cycle_canceling fuel q0 g) /\
     forall e, obs (min_cost_flow fuel q0 display algo pivot root) g = Err e <-> obs (cycle_canceling fuel q0) g = Err e) /\
  (how <> "simplex" -> how <> "cycle_canceling" -> min_cost_flow fuel q0 display algo pivot root g = (g, Ok tt)).
Proof.
  intros fr q0 fuel g display algo pivot root d r nl Hd Hr how Ha. unfold min_cost_flow, obs.
  assert (Hh : match algo with Some a => a | None => "simplex" end = how) by (destruct Ha as [->|[-> ->]]; reflexivity). rewrite Hh. clear Hh Ha.
  assert (E : (match display with None => d <- gets (fun g => dget (g_attr g) "display") ;; lift d KeyError | Some v => ret v end) g = (g, Ok d)).
  { destruct Hd as [->|[-> Hd]]; [reflexivity|]. unfold bind, gets. rewrite Hd. reflexivity. }
  rewrite (bind_ok _ E). split; [|split].
  - intros -> p Hp. cbn [String.eqb Ascii.eqb Bool.eqb]. assert (E1 : gets get_node_list g = (g, Ok (get_node_list g))) by reflexivity. rewrite (bind_ok _ E1).
    assert (E2 : (match root with Some r => ret r | None => match get_node_list g with r :: _ => ret r | [] => fail NameError end end) g = (g, Ok r)) by (destruct Hr as [->|[-> ->]]; reflexivity).
    rewrite (bind_ok _ E2). assert (Hq : match pivot with Some p => p | None => "dantzig" end = p) by (destruct Hp as [->|[-> ->]]; reflexivity). rewrite Hq.
    unfold bind. destruct (network_simplex fuel q0 d p r g) as [h [b|e]]; split; try reflexivity; intros e'; split; cbn; congruence.
  - intros ->. cbn [String.eqb Ascii.eqb Bool.eqb]. unfold bind. destruct (cycle_canceling fuel q0 g) as [h [b|e]]; split; try reflexivity; intros e'; split; cbn; congruence.
  - intros H1 H2. apply String.eqb_neq in H1, H2. rewrite H1, H2. reflexivity.
Qed.
Print Assumptions C57_dispatch.
(* whatever the method, when it returns and the problem has a solution, the flows are optimal *)
Theorem C57_optimal : forall (fr : frontier) (els : fq fr -> list name) (g : graph) (q0 : fq fr) (fuel : nat) (display : option val) (algo pivot : option string) (root : option name) (h : graph),
  bag els -> els q0 = [] -> wf g -> g_type g = Directed -> int_demands g -> int_caps g -> nonneg_caps g -> has_costs g false -> asymmetric (get_edge_list g) ->
  (forall x, In x (get_node_list g) -> exists z, x = NI z) -> connected g ->
  dget (g_attr g) "display" <> None -> zsum (demand_of g) (get_node_list g) = 0%Z -> (exists i, In i (get_node_list g) /\ demand_of g i <> 0%Z) ->
  (algo = None \/ algo = Some "simplex" \/ algo = Some "cycle_canceling") -> (pivot = None \/ pivot = Some "dantzig" \/ pivot = Some "first_eligible") ->
  (forall r, root = Some r -> In r (get_node_list g)) ->
  min_cost_flow fuel q0 display algo pivot root g = (h, Ok tt) ->
  (exists f, feasible (get_node_list g) (get_edge_list g) (cap_of g) (demand_of g) f) ->
  min_cost (get_node_list g) (get_edge_list g) (cap_of g) (demand_of g) (fun e => edge_cost g (fst e) (snd e)) (flow_of h) /\ int_attr h "flow" /\
  get_node_list h = get_node_list g /\ get_edge_list h = get_edge_list g.
Proof.
  intros fr els g q0 fuel display algo pivot root h Hb Hq W D ID IC NC HC As Names Con Hd Hz Hi Ha Hp Hr E [f0 F0].
  assert (exists d, display = Some d \/ display = None /\ dget (g_attr g) "display" = Some d) as [d Hd'].
  { destruct display as [d|]; [eauto|]. destruct (dget (g_attr g) "display") as [d|]; [|congruence]. exists d. auto. }
  assert (exists r nl, (root = Some r \/ root = None /\ get_node_list g = r :: nl) /\ In r (get_node_list g)) as (r & nl & Hr' & Hin).
  { destruct root as [r|]; [exists r, []; split; auto|]. destruct (get_node_list g) as [|r nl] eqn:En; [destruct Hi as (i & [] & _)|]. exists r, nl. split; [auto|left; reflexivity]. }
  assert (exists how, (algo = Some how \/ algo = None /\ how = "simplex") /\ (how = "simplex" \/ how = "cycle_canceling")) as (how & Ha' & Hh).
  { destruct Ha as [->|[->| ->]]; eexists; split; eauto. }
  assert (exists p, (pivot = Some p \/ pivot = None /\ p = "dantzig") /\ (p = "dantzig" \/ p = "first_eligible")) as (p & Hp' & Hpp).
  { destruct Hp as [->|[->| ->]]; eexists; split; eauto. }
  destruct (C57_dispatch fr q0 fuel g display algo pivot root d r nl Hd' Hr' how Ha') as (A & B & _). unfold obs in A, B. rewrite E in A, B. cbn [fst snd] in A, B. destruct Hh as [-> | ->].
  - destruct (A eq_refl p Hp') as [A1 A2]. clear A B.
    destruct (C56_network_simplex fr els g q0 fuel d p r Hb Hq W D ID IC NC HC As Names Con Hin Hpp Hd Hz Hi) as [K|(h' & b & E' & M1 & M2 & _ & N & L & I & _)]; [apply A2 in K; discriminate|].
    rewrite E' in A1. cbn [fst] in A1. subst h'. destruct b; [auto|]. exfalso. apply (M2 eq_refl _ (feasible_q F0)).
  - destruct (B eq_refl) as [A1 A2]. clear A B. destruct (cycle_canceling fuel q0 g) as [h' [b|e]] eqn:E'; [|assert (K : Ok tt = Err e) by (apply A2; reflexivity); discriminate K]. cbn [fst] in A1. subst h'.
    assert (Hs : ~ In (NS "s") (get_node_list g)) by (intros K; destruct (Names _ K); discriminate).
    assert (Ht : ~ In (NS "t") (get_node_list g)) by (intros K; destruct (Names _ K); discriminate).
    destruct (C37_cycle_canceling fr els g q0 fuel h b Hb Hq W D ID IC NC HC As Hs Ht Hd Hz Hi E') as (M1 & M2 & N & L & I). destruct b; [auto|]. exfalso. apply (M2 eq_refl _ (feasible_q F0)).
Qed.
Print Assumptions C57_optimal.
(* with the default method, it returns on nondegenerate problems *)
Theorem C57_terminates : forall (fr : frontier) (els : fq fr -> list name) (g : graph) (q0 : fq fr) (display : option val) (algo pivot : option string) (root : option name),
  bag els -> els q0 = [] -> wf g -> g_type g = Directed -> int_demands g -> int_caps g -> nonneg_caps g -> has_costs g false -> asymmetric (get_edge_list g) ->
  (forall x, In x (get_node_list g) -> exists z, x = NI z) -> connected g ->
  dget (g_attr g) "display" <> None -> zsum (demand_of g) (get_node_list g) = 0%Z -> (exists i, In i (get_node_list g) /\ demand_of g i <> 0%Z) ->
  (algo = None \/ algo = Some "simplex") -> (pivot = None \/ pivot = Some "dantzig" \/ pivot = Some "first_eligible") ->
  (forall r, root = Some r -> In r (get_node_list g)) ->
  nondegenerate (get_node_list g) (get_edge_list g) (cap_of g) (demand_of g) ->
  exists n h, (forall fuel, n <= fuel -> min_cost_flow fuel q0 display algo pivot root g = (h, Ok tt)) /\
    ((exists f, feasible (get_node_list g) (get_edge_list g) (cap_of g) (demand_of g) f) ->
     min_cost (get_node_list g) (get_edge_list g) (cap_of g) (demand_of g) (fun e => edge_cost g (fst e) (snd e)) (flow_of h)).
Proof.
  intros fr els g q0 display algo pivot root Hb Hq W D ID IC NC HC As Names Con Hd Hz Hi Ha Hp Hr ND.
  assert (exists d, display = Some d \/ display = None /\ dget (g_attr g) "display" = Some d) as [d Hd'].
  { destruct display as [d|]; [eauto|]. destruct (dget (g_attr g) "display") as [d|]; [|congruence]. exists d. auto. }
  assert (exists r nl, (root = Some r \/ root = None /\ get_node_list g = r :: nl) /\ In r (get_node_list g)) as (r & nl & Hr' & Hin).
  { destruct root as [r|]; [exists r, []; split; auto|]. destruct (get_node_list g) as [|r nl] eqn:En; [destruct Hi as (i & [] & _)|]. exists r, nl. split; [auto|left; reflexivity]. }
  assert (exists p, (pivot = Some p \/ pivot = None /\ p = "dantzig") /\ (p = "dantzig" \/ p = "first_eligible")) as (p & Hp' & Hpp).
  { destruct Hp as [->|[->| ->]]; eexists; split; eauto. }
  assert (Ha' : algo = Some "simplex" \/ algo = None /\ "simplex" = "simplex") by (destruct Ha; auto).
  destruct (C56_terminates fr els g q0 d p r Hb Hq W D ID IC NC HC As Names Con Hin Hpp Hd Hz Hi ND) as (n & h & b & E & F & M).
  exists n, h. split; [|intros K; apply M, F, K]. intros fuel Hf. specialize (E fuel Hf).
  destruct (C57_dispatch fr q0 fuel g display algo pivot root d r nl Hd' Hr' "simplex" Ha') as (A & _). destruct (A eq_refl p Hp') as [A1 A2]. unfold obs in A2. rewrite E in A1, A2. cbn [fst snd] in A1, A2.
  destruct (min_cost_flow fuel q0 display algo pivot root g) as [h' [[]|e]]; cbn [fst snd] in *; [subst; reflexivity|]. assert (K : Ok b = Err e) by (apply A2; reflexivity). discriminate K.
Qed.
Print Assumptions C57_terminates.
(* the defaults are the first node and the rule of Dantzig; the third rule of the documentation is not there *)
Example C57_nonvacuous : map (fun a => obs (min_cost_flow 50 ([] : fq stack) None a None None) (exff (-3))) [None; Some "simplex"; Some "cycle_canceling"; Some "other"] = [Ok tt; Ok tt; Ok tt; Ok tt] /\
  map (fun a => map (flow_of (fst (min_cost_flow 50 ([] : fq stack) None a None None (exff (-3))))) (get_edge_list (exff (-3)))) [None; Some "simplex"; Some "cycle_canceling"] = [[2; 1; 1; 2; 1]; [2; 1; 1; 2; 1]; [2; 1; 1; 2; 1]]%Z /\
  obs (min_cost_flow 50 ([] : fq stack) None None (Some "scaled") None) (exff (-3)) = Err (PyException "Unknown pivot rule.").
Proof. repeat split; vm_compute; reflexivity. Qed.
