(* Property theorems C38, C39: the optimality test and the entering arc of the network simplex method. *)
From Verif Require Import Py Util M_Graph P_Graph P_GraphLaws M_Search M_Flow M_Floyd M_MinCost M_Simplex Spec P_Walk P_Attr S_Flow S_GraphFlow S_MinCost S_Simplex P_Flow P_EdgeFrame P_MaxFlow P_MinCostAbs P_Residual P_Simplex C_Flow C_Floyd C_MinCost.
Local Open Scope string_scope. Local Open Scope list_scope.

(** C38: simplex_optimal says whether no arc is eligible, and then the flow has minimum cost *)
Theorem C38_decides : forall g t, wf g -> g_type g = Directed -> int_attr g "flow" -> int_attr g "capacity" -> has_costs g false -> int_potentials g ->
  exists r, simplex_optimal t g = (g, Ok r) /\ (r = true <-> forall e, ~ eligible g t e).
Proof.
  intros g t W D IF IC HC IP. eexists. split; [apply (optimal_eq W D IF IC HC IP)|]. rewrite forallb_forall. split.
  - intros H e El. pose proof El as (He & _). specialize (H e He). apply (pick_eligible t He) in El. destruct (pick g t e); congruence.
  - intros H e He. destruct (pick g t e) eqn:E; [|reflexivity]. exfalso. apply (H e). apply (pick_eligible t He). congruence.
Qed.
Print Assumptions C38_decides.
Theorem C38_optimal : forall g t, wf g -> g_type g = Directed -> int_attr g "flow" -> int_attr g "capacity" -> has_costs g false -> int_potentials g ->
  feasible (get_node_list g) (get_edge_list g) (cap_of g) (demand_of g) (flow_of g) ->
  (* the arcs of the tree have reduced cost 0, those outside are at a bound *)
  (forall e, In e (get_edge_list g) -> In e (get_edge_list t) -> reduced_cost g e = 0%Z) ->
  (forall e, In e (get_edge_list g) -> ~ In e (get_edge_list t) -> flow_of g e = 0%Z \/ flow_of g e = cap_of g e) ->
  obs (simplex_optimal t) g = Ok true ->
  min_cost (get_node_list g) (get_edge_list g) (cap_of g) (demand_of g) (fun e => edge_cost g (fst e) (snd e)) (flow_of g).
Proof.
  intros g t W D IF IC HC IP F Tight Bound O. destruct (C38_decides g t W D IF IC HC IP) as (r & E & Hr). unfold obs in O. rewrite E in O. injection O as ->. pose proof (proj1 Hr eq_refl) as No.
  assert (HV : forall e, In e (get_edge_list g) -> In (fst e) (get_node_list g) /\ In (snd e) (get_node_list g)) by (intros [x y] He; apply (edge_nodes W D He)).
  apply (optimal_potentials (pi := fun x => (- pot_of g x)%Z) (wf_nd W) HV F); intros e He Hf; pose proof (fs_bounds F He) as B; replace (edge_cost g (fst e) (snd e) + - pot_of g (fst e) - - pot_of g (snd e))%Z with (reduced_cost g e) by (unfold reduced_cost; lia);
    (destruct (in_dec eq_dec e (get_edge_list t)) as [Ht|Ht]; [rewrite (Tight e He Ht); lia|]); destruct (Bound e He Ht) as [K|K]; try lia.
  - destruct (Z_lt_le_dec (reduced_cost g e) 0) as [L|L]; [|exact L]. exfalso. apply (No e). split; [exact He|]. split; [exact Ht|]. auto.
  - destruct (Z_lt_le_dec 0 (reduced_cost g e)) as [L|L]; [|exact L]. exfalso. apply (No e). split; [exact He|]. split; [exact Ht|]. right. split; [lia|auto].
Qed.
Print Assumptions C38_optimal.
(* a tree solution: tree arcs (1, 2), (2, 3), potentials 0, -1, -2; the arc (1, 3) is at flow 0 *)
Definition exsx (c13 : Z) : graph := history (new_graph (Some Directed) [])
  [OAddNode (NI 1) [("demand", VI 1); ("potential", VI 0)]; OAddNode (NI 2) [("demand", VI 0); ("potential", VI (-1))]; OAddNode (NI 3) [("demand", VI (-1)); ("potential", VI (-2))];
   OAddEdge (NI 1) (NI 2) [("cost", VI 1); ("capacity", VI 2); ("flow", VI 1)]; OAddEdge (NI 2) (NI 3) [("cost", VI 1); ("capacity", VI 2); ("flow", VI 1)];
   OAddEdge (NI 1) (NI 3) [("cost", VI c13); ("capacity", VI 2); ("flow", VI 0)]].
Definition exst : graph := history (new_graph (Some Directed) []) [OAddEdge (NI 1) (NI 2) []; OAddEdge (NI 2) (NI 3) []].
Lemma exsx_wf c : wf (exsx c).
Proof. refine (proj1 (wf_history (wf_new (Some Directed) []) _)). discriminate. Qed.
Definition all_pots (g : graph) : bool := forallb (fun x => match obs (get_node_attr x "potential") g with Ok (VI _) => true | _ => false end) (get_node_list g).
Lemma all_pot g : all_pots g = true -> int_potentials g.
Proof. intros H x Hx. unfold all_pots in H. rewrite forallb_forall in H. specialize (H _ Hx). destruct (obs (get_node_attr x "potential") g) as [[]|]; try discriminate. eauto. Qed.
Example C38_nonvacuous : g_type (exsx 3) = Directed /\ int_attr (exsx 3) "flow" /\ int_attr (exsx 3) "capacity" /\ has_costs (exsx 3) false /\ int_potentials (exsx 3) /\
  feasible (get_node_list (exsx 3)) (get_edge_list (exsx 3)) (cap_of (exsx 3)) (demand_of (exsx 3)) (flow_of (exsx 3)) /\
  map (reduced_cost (exsx 3)) (get_edge_list (exsx 3)) = [0; 0; 1]%Z /\ obs (simplex_optimal exst) (exsx 3) = Ok true /\ obs (simplex_optimal exst) (exsx 1) = Ok false.
Proof.
  split; [vm_compute; reflexivity|]. split; [apply all_int; vm_compute; reflexivity|]. split; [apply all_int; vm_compute; reflexivity|]. split; [apply all_costs; vm_compute; reflexivity|]. split; [apply all_pot; vm_compute; reflexivity|].
  split; [|repeat split; vm_compute; reflexivity]. constructor.
  - intros e He. vm_compute in He. repeat (destruct He as [<-|He]; [vm_compute; split; discriminate|]). destruct He.
  - intros x Hx. vm_compute in Hx. repeat (destruct Hx as [<-|Hx]; [vm_compute; reflexivity|]). destruct Hx.
Qed.

(** C39: the entering arc *)
Theorem C39_dantzig : forall g t, wf g -> g_type g = Directed -> int_attr g "flow" -> int_attr g "capacity" -> has_costs g false -> int_potentials g ->
  (exists e, eligible g t e) ->
  exists e, simplex_select_entering_arc t "dantzig" g = (g, Ok e) /\ eligible g t e /\ forall e', eligible g t e' -> (Z.abs (reduced_cost g e') <= Z.abs (reduced_cost g e))%Z.
Proof.
  intros g t W D IF IC HC IP (e0 & El0). unfold simplex_select_entering_arc. cbn [String.eqb Ascii.eqb Bool.eqb].
  rewrite (bind_ok _ (candidates_eq W D IF IC HC IP t)).
  assert (In_c : forall e z, In (e, z) (cands g t (get_edge_list g)) <-> In e (get_edge_list g) /\ pick g t e = Some z).
  { intros e z. unfold cands. rewrite in_flat_map. split.
    - intros (e' & He & Hi). destruct (pick g t e') as [z'|] eqn:Ep; [|destruct Hi]. destruct Hi as [[= <- <-]|[]]. auto.
    - intros [He Ep]. exists e. split; [exact He|]. rewrite Ep. left. reflexivity. }
  assert (Rc : forall e z, pick g t e = Some z -> z = reduced_cost g e) by (intros e z; unfold pick; destruct (dmem (g_edges t) e); [discriminate|]; apply viol_cost).
  assert (El : forall e, eligible g t e -> In (e, reduced_cost g e) (cands g t (get_edge_list g))).
  { intros e He. pose proof He as (Hi & _). apply In_c. split; [exact Hi|]. apply (pick_eligible t Hi) in He. destruct (pick g t e) as [z|] eqn:Ep; [|congruence]. f_equal. apply (Rc e z Ep). }
  pose proof (El e0 El0) as H0. destruct (cands g t (get_edge_list g)) as [|[e1 z1] l] eqn:Ec; [destruct H0|]. rewrite <- Ec in *.
  assert (In1 : In (e1, z1) (cands g t (get_edge_list g))) by (rewrite Ec; left; reflexivity).
  pose proof (max_violation_spec (cands g t (get_edge_list g)) (e1, Z.abs z1)) as M. cbn zeta in M. destruct (max_violation _ _) as [e v]. cbn [fst snd] in *. destruct M as (M1 & _ & M3).
  assert (M1' : exists z, In (e, z) (cands g t (get_edge_list g)) /\ v = Z.abs z) by (destruct M1 as [[= -> ->]|(e' & z & Hi & [= -> ->])]; eauto). destruct M1' as (z & Hi & ->).
  exists e. split; [reflexivity|]. apply In_c in Hi as [Hi Ep]. split; [apply (pick_eligible t Hi); congruence|]. intros e' He'. rewrite <- (Rc e z Ep). apply (M3 e'). apply El, He'.
Qed.
Print Assumptions C39_dantzig.
(* 'first_eligible' is the last eligible arc in the order of get_edge_list *)
Theorem C39_last_eligible : forall g t, wf g -> g_type g = Directed -> int_attr g "flow" -> int_attr g "capacity" -> has_costs g false -> int_potentials g ->
  (exists e, eligible g t e) ->
  exists e l1 l2, simplex_select_entering_arc t "first_eligible" g = (g, Ok e) /\ get_edge_list g = l1 ++ e :: l2 /\ eligible g t e /\ forall e', In e' l2 -> ~ eligible g t e'.
Proof.
  intros g t W D IF IC HC IP (e0 & El0). unfold simplex_select_entering_arc. cbn [String.eqb Ascii.eqb Bool.eqb]. erewrite bind_ok by reflexivity.
  destruct (first_eq W D IF IC HC IP t (incl_refl _) None) as (r & E & H). rewrite (bind_ok _ E). destruct H as [[-> H]|(e & l1 & l2 & -> & Ee & H1 & H2)].
  - exfalso. pose proof El0 as (Hi & _). apply (pick_eligible t Hi) in El0. apply El0, H, Hi.
  - exists e, l1, l2. split; [reflexivity|]. split; [exact Ee|]. split; [apply pick_eligible; [rewrite Ee; apply in_elt|exact H1]|].
    intros e' Hi El. assert (He' : In e' (get_edge_list g)) by (rewrite Ee; apply in_app_iff; right; right; exact Hi). apply (pick_eligible t He') in El. apply El, H2, Hi.
Qed.
Print Assumptions C39_last_eligible.
(* without an eligible arc both rules raise; any other rule is refused *)
Theorem C39_none : forall g t pivot, wf g -> g_type g = Directed -> int_attr g "flow" -> int_attr g "capacity" -> has_costs g false -> int_potentials g ->
  (forall e, ~ eligible g t e) -> pivot = "dantzig" \/ pivot = "first_eligible" -> simplex_select_entering_arc t pivot g = (g, Err NameError).
Proof.
  intros g t pivot W D IF IC HC IP No Hp. assert (Pk : forall e, In e (get_edge_list g) -> pick g t e = None).
  { intros e He. destruct (pick g t e) eqn:Ep; [|reflexivity]. exfalso. apply (No e), (pick_eligible t He). congruence. }
  unfold simplex_select_entering_arc. destruct Hp as [-> | ->]; cbn [String.eqb Ascii.eqb Bool.eqb].
  - rewrite (bind_ok _ (candidates_eq W D IF IC HC IP t)). assert (cands g t (get_edge_list g) = []) as ->; [|reflexivity].
    unfold cands. revert Pk. generalize (get_edge_list g). intros l. induction l as [|e l IH]; intros Pk; [reflexivity|]. cbn [flat_map]. rewrite (Pk e) by (left; reflexivity). apply IH. intros x Hx. apply Pk. right. exact Hx.
  - erewrite bind_ok by reflexivity. destruct (first_eq W D IF IC HC IP t (incl_refl _) None) as (r & E & H). rewrite (bind_ok _ E).
    destruct H as [[-> H]|(e & l1 & l2 & -> & Ee & H1 & H2)]; [reflexivity|]. exfalso. apply H1, Pk. rewrite Ee. apply in_elt.
Qed.
Print Assumptions C39_none.
Theorem C39_unknown_rule : forall g t pivot, pivot <> "dantzig" -> pivot <> "first_eligible" -> simplex_select_entering_arc t pivot g = (g, Err (PyException "Unknown pivot rule.")).
Proof. intros g t pivot H1 H2. unfold simplex_select_entering_arc. apply String.eqb_neq in H1, H2. rewrite H1, H2. reflexivity. Qed.
Print Assumptions C39_unknown_rule.
(* (1, 3) is eligible at flow 0, (3, 4) at its capacity; (1, 3) is the first, 'first_eligible' is the other *)
Definition exen (c : Z) : graph := history (exsx 1) [OAddNode (NI 4) [("potential", VI (-2))]; OAddEdge (NI 3) (NI 4) [("cost", VI c); ("capacity", VI 2); ("flow", VI 2)]].
Example C39_nonvacuous : map (reduced_cost (exen 2)) (get_edge_list (exen 2)) = [0; 0; -1; 2]%Z /\
  obs (simplex_select_entering_arc exst "first_eligible") (exen 2) = Ok (NI 3, NI 4) /\ obs (simplex_select_entering_arc exst "dantzig") (exen 2) = Ok (NI 3, NI 4) /\
  obs (simplex_select_entering_arc exst "dantzig") (exen 1) = Ok (NI 1, NI 3) /\ obs (simplex_select_entering_arc exst "dantzig") (exsx 3) = Err NameError.
Proof. repeat split; vm_compute; reflexivity. Qed.
