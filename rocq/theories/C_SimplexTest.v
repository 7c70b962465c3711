(* Property theorems C64, C65: the script simplex_test.py. *)
From Coq Require Import QArith.
From Verif Require Import Py Util M_Graph P_Graph P_GraphLaws M_Search S_Frontier P_Frontier M_Flow M_MinCost M_Simplex M_NetSimplex M_Random M_SimplexTest Spec P_Attr S_Flow S_GraphFlow S_MinCost S_LP S_Generate P_Random P_Generate P_Flow P_EdgeFrame P_MinCostAbs P_Pok P_MaxFlow P_Residual P_NetPivot P_NetFrame P_LP C_Flow C_Floyd C_MinCost C_Simplex C_NetSimplex P_MGraph.
Local Open Scope string_scope. Local Open Scope list_scope.

(* a minimum cost flow problem as network_simplex needs it (see C56) *)
Record problem (g : graph) (root : name) : Prop := {
  pb_wf : wf g;
  pb_dir : g_type g = Directed;
  pb_dem : int_demands g;
  pb_cap : int_caps g;
  pb_nonneg : nonneg_caps g;
  pb_cost : has_costs g false;
  pb_asym : asymmetric (get_edge_list g);
  pb_names : forall x, In x (get_node_list g) -> exists z, x = NI z;
  pb_conn : connected g;
  pb_root : In root (get_node_list g);
  pb_disp : dget (g_attr g) "display" <> None;
  pb_sum : zsum (demand_of g) (get_node_list g) = 0%Z;
  pb_nonzero : exists i, In i (get_node_list g) /\ demand_of g i <> 0%Z
}.
Definition cost_of (g : graph) (e : name * name) : Z := edge_cost g (fst e) (snd e).
Definition feasible_in (g : graph) (f : name * name -> Q) : Prop := qfeasible (get_node_list g) (get_edge_list g) (cap_of g) (demand_of g) f.
Definition optimal_in (g : graph) (f : name * name -> Z) : Prop := min_cost (get_node_list g) (get_edge_list g) (cap_of g) (demand_of g) (cost_of g) f.

(** * The linear program *)
Lemma demand_nattr g x z : In x (get_node_list g) -> wf g -> (nattr g x "demand" = VI z <-> obs (get_node_attr x "demand") g = Ok (VI z)).
Proof. intros Hx W. rewrite obs_nattr by (rewrite (wf_nodes W); exact Hx). split; congruence. Qed.
Lemma demand_int g x : wf g -> int_demands g -> In x (get_node_list g) -> nattr g x "demand" = VI (demand_of g x).
Proof. intros W I Hx. destruct (I x Hx) as [z Hz]. apply (demand_nattr g x _ Hx W). unfold demand_of. rewrite Hz. reflexivity. Qed.
Lemma attr_cap g e : int_attr g "capacity" -> In e (get_edge_list g) -> eattr g (fst e) (snd e) "capacity" = Some (VI (cap_of g e)).
Proof. destruct e as [x y]. intros I He. destruct (I x y He) as [z Hz]. unfold cap_of. cbn [fst snd]. rewrite eattr_obs, Hz. reflexivity. Qed.

(** C64: solve() asks the solver for a minimum cost flow: the assignments the problem allows are the feasible
    flows and the objective is their cost; so with a correct solver the value is the minimum cost, exactly *)
Theorem C64_solve : forall (solver : lp -> edge -> Q) (g : graph),
  solves solver -> wf g -> g_type g = Directed -> int_demands g -> int_attr g "capacity" -> has_costs g false ->
  exists p, build_lp g = (g, Ok p) /\
    (forall x, lp_sat p x <-> feasible_in g x) /\
    (forall x, (linear_value x (lp_obj p) == qflow_cost (get_edge_list g) (cost_of g) x)%Q) /\
    exists x v, solve solver g = (g, Ok (x, v)) /\ (v == qflow_cost (get_edge_list g) (cost_of g) x)%Q /\
      forall f, optimal_in g f -> feasible_in g x /\ (v == inject_Z (flow_cost (get_edge_list g) (cost_of g) f))%Q /\ int_of v = flow_cost (get_edge_list g) (cost_of g) f.
Proof.
  intros solver g Sv W D ID IC HC.
  assert (Hc : forall e, In e (get_edge_list g) -> eattr g (fst e) (snd e) "capacity" = Some (VI (cap_of g e))) by (intros e; apply attr_cap, IC).
  assert (Hk : forall e, In e (get_edge_list g) -> eattr g (fst e) (snd e) "cost" = Some (VI (cost_of g e))) by (intros e; apply int_cost; assumption).
  assert (Hb : forall x, In x (get_node_list g) -> nattr g x "demand" = VI (demand_of g x)) by (intros x; apply demand_int; assumption).
  pose proof (build_ok W D Hc Hk Hb) as E. set (p := flow_lp g (cap_of g) (cost_of g) (demand_of g)) in *.
  assert (Sat : forall x, lp_sat p x <-> feasible_in g x) by (intros x; apply sat_feasible; assumption).
  assert (Obj : forall x, (linear_value x (lp_obj p) == qflow_cost (get_edge_list g) (cost_of g) x)%Q) by (intros x; apply obj_cost).
  exists p. split; [exact E|]. split; [exact Sat|]. split; [exact Obj|].
  exists (solver p), (linear_value (solver p) (lp_obj p)). split; [unfold solve; rewrite (bind_ok _ E); reflexivity|]. split; [apply Obj|].
  intros f Hf. assert (O : lp_optimal p (solver p)) by (apply (Sv p f); [apply flow_lp_wf; assumption|apply (lp_of_min W D Hf)]).
  assert (Ev : (linear_value (solver p) (lp_obj p) == inject_Z (flow_cost (get_edge_list g) (cost_of g) f))%Q) by (apply (lp_value W D Hf O)).
  split; [apply Sat, (proj1 O)|]. split; [exact Ev|]. apply int_of_int, Ev.
Qed.
Print Assumptions C64_solve.

Lemma solution_ok g f : (forall e, In e (get_edge_list g) -> eattr g (fst e) (snd e) "flow" = Some (VI (f e))) -> NoDup (get_edge_list g) -> get_solution g = (g, Ok (map (fun e => (e, VI (f e))) (get_edge_list g))).
Proof.
  intros Hf N. apply ok_eq. unfold get_solution. apply ok_bind, ok_gets. eapply ok_foldM with (I := fun pre s h => h = g /\ s = map (fun e => (e, VI (f e))) pre); [auto| |intros s h [-> ->]; auto].
  intros pre e post s h Ep [-> ->]. assert (He : In e (get_edge_list g)) by (rewrite Ep; apply in_elt). apply ok_bind. eapply ok_get_edge_attr; [apply (Hf e He)|]. apply ok_ret. split; [reflexivity|].
  apply (dset_map_key (fun e => VI (f e))). apply (fresh_elt N Ep).
Qed.
Lemma obj_value_ok g f k : (forall e, In e (get_edge_list g) -> eattr g (fst e) (snd e) "flow" = Some (VI (f e))) -> (forall e, In e (get_edge_list g) -> eattr g (fst e) (snd e) "cost" = Some (VI (k e))) -> get_obj_value g = (g, Ok (flow_cost (get_edge_list g) k f)).
Proof.
  intros Hf Hk. apply ok_eq. unfold get_obj_value. apply ok_bind, ok_gets. eapply ok_foldM with (I := fun pre s h => h = g /\ s = zsum (fun e => k e * f e)%Z pre); [auto| |intros s h [-> ->]; auto].
  intros pre e post s h Ep [-> ->]. assert (He : In e (get_edge_list g)) by (rewrite Ep; apply in_elt). apply ok_bind. eapply ok_get_edge_attr; [apply (Hk e He)|]. apply ok_bind. eapply ok_get_edge_attr; [apply (Hf e He)|].
  apply ok_bind, ok_ret. apply ok_bind, ok_ret. apply ok_ret. split; [reflexivity|]. rewrite zsum_app. unfold zsum at 3. cbn [fold_right]. lia.
Qed.
(** get_obj_value is the cost of the flow that is stored *)
Theorem C64_obj_value : forall g, wf g -> g_type g = Directed -> int_attr g "flow" -> has_costs g false ->
  get_obj_value g = (g, Ok (flow_cost (get_edge_list g) (cost_of g) (flow_of g))) /\
  exists sol, get_solution g = (g, Ok sol) /\ dkeys sol = get_edge_list g /\ forall e, In e (get_edge_list g) -> dget sol e = Some (VI (flow_of g e)).
Proof.
  intros g W D IF HC. assert (Hf : forall e, In e (get_edge_list g) -> eattr g (fst e) (snd e) "flow" = Some (VI (flow_of g e))).
  { intros [x y] He. destruct (IF x y He) as [z Hz]. unfold flow_of. cbn [fst snd]. rewrite eattr_obs, Hz. reflexivity. }
  split; [apply obj_value_ok; [exact Hf|intros e; apply int_cost; assumption]|]. eexists. split; [apply (solution_ok g (flow_of g) Hf (wf_ne W))|]. split.
  - apply (dkeys_map_key (fun e => VI (flow_of g e))).
  - intros e He. apply (dget_map_key (fun e => VI (flow_of g e)) He).
Qed.
Print Assumptions C64_obj_value.

(** * One instance *)
Lemma cost_ext es k k' f f' : (forall e, In e es -> k e = k' e) -> (forall e, In e es -> f e = f' e) -> flow_cost es k f = flow_cost es k' f'.
Proof. intros Hk Hf. unfold flow_cost. apply zsum_ext. intros e He. rewrite (Hk e He), (Hf e He). reflexivity. Qed.
Lemma qfeasible_congr V es c c' b b' f : (forall e, In e es -> c e = c' e) -> (forall x, In x V -> b x = b' x) -> qfeasible V es c b f -> qfeasible V es c' b' f.
Proof. intros Hc Hb [H1 H2]. constructor; [intros e He; rewrite <- (Hc e He); auto|intros x Hx; rewrite <- (Hb x Hx); auto]. Qed.
Lemma min_congr V es c c' b b' k k' f f' : (forall e, In e es -> c e = c' e) -> (forall x, In x V -> b x = b' x) -> (forall e, In e es -> k e = k' e) -> (forall e, In e es -> f' e = f e) -> min_cost V es c b k f -> min_cost V es c' b' k' f'.
Proof.
  intros Hc Hb Hk Hf M. apply (min_cost_ext (f := f) (k := k) (f' := f') (k' := k')); [exact Hf|intros e He; symmetry; auto|]. destruct M as [[F1 F2] O]. split.
  - constructor; [intros e He; rewrite <- (Hc e He); auto|intros x Hx; rewrite <- (Hb x Hx); auto].
  - intros g Hg. apply O. apply (@qfeasible_congr V es c' c b' b); [intros; symmetry; auto|intros; symmetry; auto|exact Hg].
Qed.
(* the state network_simplex leaves is a problem again, with the same data *)
Lemma problem_kept g root f h : problem g root -> self (get_node_list g) (get_edge_list g) (cap_of g) (cost_of g) f h -> kept (nattr g) h ->
  problem h root /\ get_node_list h = get_node_list g /\ get_edge_list h = get_edge_list g /\ (forall e, In e (get_edge_list g) -> cap_of h e = cap_of g e) /\ (forall e, In e (get_edge_list g) -> cost_of h e = cost_of g e) /\
  (forall x, In x (get_node_list g) -> demand_of h x = demand_of g x) /\ (forall e, In e (get_edge_list g) -> flow_of h e = f e) /\ int_attr h "capacity" /\ int_attr h "flow".
Proof.
  intros P S [K Kd]. destruct S as [Sw Sd Sn Se Sc Sf Sk].
  assert (Hc : forall e, In e (get_edge_list g) -> cap_of h e = cap_of g e) by (intros e He; unfold cap_of at 1; rewrite (Sc e He); reflexivity).
  assert (Hk : forall e, In e (get_edge_list g) -> cost_of h e = cost_of g e).
  { intros e He. unfold cost_of at 1, edge_cost. rewrite (obs_eattr _ _ _ _ _ (Sk e He)). reflexivity. }
  assert (Hb : forall x, In x (get_node_list g) -> obs (get_node_attr x "demand") h = obs (get_node_attr x "demand") g).
  { intros x Hx. rewrite !obs_nattr; [f_equal; apply K; discriminate|rewrite (wf_nodes (pb_wf _ _ P)); exact Hx|rewrite (wf_nodes Sw); change (In x (get_node_list h)); rewrite Sn; exact Hx]. }
  assert (Hd : forall x, In x (get_node_list g) -> demand_of h x = demand_of g x) by (intros x Hx; unfold demand_of; rewrite (Hb x Hx); reflexivity).
  assert (Hf : forall e, In e (get_edge_list g) -> flow_of h e = f e) by (intros e He; unfold flow_of; rewrite (Sf e He); reflexivity).
  assert (Ic : int_attr h "capacity") by (intros x y He; rewrite Se in He; eexists; apply obs_eattr, (Sc (x, y) He)).
  assert (If : int_attr h "flow") by (intros x y He; rewrite Se in He; eexists; apply obs_eattr, (Sf (x, y) He)).
  split; [|auto 10].
  constructor.
  - exact Sw.
  - exact Sd.
  - intros x Hx. rewrite Sn in Hx. rewrite (Hb x Hx). apply (pb_dem _ _ P x Hx).
  - intros x y He. rewrite Se in He. right. eexists. apply (Sc (x, y) He).
  - intros e He. rewrite Se in He. rewrite (Hc e He). apply (pb_nonneg _ _ P e He).
  - intros x y Ha. unfold sarc in Ha; rewrite Sd in Ha. apply (arc_list _ _ _ Sd) in Ha. rewrite Se in Ha. eexists. apply obs_eattr, (Sk (x, y) Ha).
  - rewrite Se. apply (pb_asym _ _ P).
  - rewrite Sn. apply (pb_names _ _ P).
  - intros x y. rewrite Sn. intros Hx Hy. destruct (pb_conn _ _ P x y Hx Hy) as [l Hl]. exists l. clear - Hl Sd Se P.
    induction Hl as [a|a z p d He Hw IH]; [constructor|]. econstructor; [|exact IH].
    destruct He as [He|He]; apply (arc_list _ _ _ (pb_dir _ _ P)) in He; rewrite <- Se in He; apply (arc_list _ _ _ Sd) in He; [left|right]; exact He.
  - rewrite Sn. apply (pb_root _ _ P).
  - exact Kd.
  - rewrite Sn. rewrite (zsum_ext Hd). apply (pb_sum _ _ P).
  - rewrite Sn. destruct (pb_nonzero _ _ P) as (i & Hi & Hn). exists i. split; [exact Hi|]. rewrite (Hd i Hi). exact Hn.
Qed.

(** C64: on every such problem and with every correct solver: the instance is skipped exactly when it has no feasible
    flow, and otherwise the two pivot rules and the solver agree on the objective, which is the minimum cost; both
    flags are true; the iteration counts written are 0 *)
Theorem C64_instance : forall (fr : frontier) (els : fq fr -> list name) (q0 : fq fr) (solver : lp -> edge -> Q) (fuel : nat) (g : graph) (root : name) (stale : option Z),
  bag els -> els q0 = [] -> solves solver -> problem g root ->
  obs (instance solver fuel q0 root stale) g = Err OutOfFuel \/
  exists h r, instance solver fuel q0 root stale g = (h, Ok r) /\
    match r with
    | None => forall f, ~ feasible_in g f
    | Some r => optimal_in g (flow_of h) /\ get_node_list h = get_node_list g /\ get_edge_list h = get_edge_list g /\
        let z := flow_cost (get_edge_list g) (cost_of g) (flow_of h) in
        r = {| eligible_iter := 0; eligible_obj := z; pulp_obj := z; eligible_flag := true; dantzig_iter := 0; dantzig_obj := z; dantzig_flag := true |}
    end.
Proof.
  intros fr els q0 solver fuel g root stale Hb Hq Sv P.
  enough (pok (instance solver fuel q0 root stale) g (fun r h => match r with
    | None => forall f, ~ feasible_in g f
    | Some r => optimal_in g (flow_of h) /\ get_node_list h = get_node_list g /\ get_edge_list h = get_edge_list g /\
        let z := flow_cost (get_edge_list g) (cost_of g) (flow_of h) in
        r = {| eligible_iter := 0; eligible_obj := z; pulp_obj := z; eligible_flag := true; dantzig_iter := 0; dantzig_obj := z; dantzig_flag := true |}
    end)) as H by (apply pok_elim in H; exact H).
  unfold instance. apply pok_bind. pose proof P as [W D ID IC NC HC As Names Con Hr Hd Hz Hi].
  eapply pok_weaken; [apply (@mnet_ok fr els g q0 fuel (VS "off") "first_eligible" root Hb Hq W D ID IC NC HC As Names Con Hr (or_intror eq_refl) Hd Hz Hi)|].
  intros [b1 i1] h1 (Ei & f1 & S1 & T1 & N1 & K1). cbn [fst snd] in *. subst i1. destruct b1; [|apply pok_ret; apply (N1 eq_refl)].
  specialize (T1 eq_refl). clear N1. destruct (problem_kept g root f1 h1 P S1 K1) as (P1 & En & Ee & Ec & Ek & Ed & Ef & Ic & If).
  pose proof P1 as [W1 D1 ID1 IC1 NC1 HC1 As1 Names1 Con1 Hr1 Hd1 Hz1 Hi1].
  destruct (C64_obj_value h1 W1 D1 If HC1) as [Ov (sol & Es & _)].
  assert (O1 : optimal_in h1 (flow_of h1)).
  { unfold optimal_in. rewrite En, Ee. eapply min_congr; [intros e He; symmetry; apply Ec, He|intros x Hx; symmetry; apply Ed, Hx|intros e He; symmetry; apply Ek, He|exact Ef|exact T1]. }
  destruct (C64_solve solver h1 Sv W1 D1 ID1 Ic HC1) as (p & _ & _ & _ & x & v & Ev & _ & Opt). destruct (Opt _ O1) as (_ & _ & Ez).
  apply pok_step. eapply ok_intro; [exact Es|]. apply pok_step. eapply ok_intro; [exact Ov|]. apply pok_step. eapply ok_intro; [exact Ev|]. cbv beta iota zeta. rewrite Ez.
  set (z := flow_cost (get_edge_list h1) (cost_of h1) (flow_of h1)) in *.
  apply pok_bind. eapply pok_weaken; [apply (@mnet_ok fr els h1 q0 fuel (VS "off") "dantzig" root Hb Hq W1 D1 ID1 IC1 NC1 HC1 As1 Names1 Con1 Hr1 (or_introl eq_refl) Hd1 Hz1 Hi1)|].
  intros [b2 i2] h2 (Ei & f2 & S2 & T2 & N2 & K2). cbn [fst snd] in *. subst i2. destruct b2.
  2: { exfalso. apply (N2 eq_refl (fun e => inject_Z (flow_of h1 e))). apply feasible_q, (proj1 O1). }
  specialize (T2 eq_refl). clear N2. destruct (problem_kept h1 root f2 h2 P1 S2 K2) as (P2 & En2 & Ee2 & Ec2 & Ek2 & Ed2 & Ef2 & Ic2 & If2).
  destruct (C64_obj_value h2 (pb_wf _ _ P2) (pb_dir _ _ P2) If2 (pb_cost _ _ P2)) as [Ov2 (sol2 & Es2 & _)].
  assert (O2 : optimal_in g (flow_of h2)).
  { unfold optimal_in. rewrite En, Ee in T2. eapply min_congr; [exact Ec|exact Ed|exact Ek|intros e He; apply Ef2; rewrite Ee; exact He|exact T2]. }
  assert (Z2 : flow_cost (get_edge_list h2) (cost_of h2) (flow_of h2) = flow_cost (get_edge_list g) (cost_of g) (flow_of h2)).
  { rewrite Ee2, Ee. apply cost_ext; [intros e He; rewrite Ek2 by (rewrite Ee; exact He); auto|reflexivity]. }
  assert (Z1 : z = flow_cost (get_edge_list g) (cost_of g) (flow_of h1)) by (unfold z; rewrite Ee; apply cost_ext; [exact Ek|reflexivity]).
  assert (O1' : optimal_in g (flow_of h1)) by (unfold optimal_in; eapply min_congr; [reflexivity|reflexivity|reflexivity|exact Ef|exact T1]).
  assert (Eq : flow_cost (get_edge_list g) (cost_of g) (flow_of h2) = z).
  { rewrite Z1. apply Z.le_antisymm; rewrite Zle_Qle.
    - eapply Qle_trans; [apply (proj2 O2), feasible_q, (proj1 O1')|rewrite qflow_cost_int; apply Qle_refl].
    - eapply Qle_trans; [apply (proj2 O1'), feasible_q, (proj1 O2)|rewrite qflow_cost_int; apply Qle_refl]. }
  apply pok_step. apply ok_bind. eapply ok_intro; [exact Es2|]. apply ok_bind. eapply ok_intro; [exact Ov2|]. apply ok_ret. apply pok_step. eapply ok_lift; [reflexivity|]. apply pok_ret.
  cbn [fst snd]. split; [exact O2|]. split; [congruence|]. split; [congruence|]. rewrite Z2, Eq, Z.eqb_refl. reflexivity.
Qed.
Print Assumptions C64_instance.

(** * The script *)
(* the instances that are generated *)
Definition agrees (r : option outcome) : Prop :=
  match r with Some r => eligible_obj r = pulp_obj r /\ dantzig_obj r = pulp_obj r /\ eligible_flag r = true /\ dantzig_flag r = true | None => True end.
Lemma final_app l r : final_flag (l ++ [Some r]) = Ok (dantzig_flag r).
Proof. unfold final_flag. rewrite fold_left_app. reflexivity. Qed.
(** C64: if every instance generated is such a problem, the script reports success, or dies with a NameError because every
    instance was skipped *)
Theorem C64_script : forall (fr : frontier) (els : fq fr -> list name) (q0 : fq fr) (solver : lp -> edge -> Q) (fuel : nat) (p : tparams) (seeds : list oracle) (stale : option Z),
  bag els -> els q0 = [] -> solves solver ->
  (forall o g d s, In o seeds -> generate_graph o p fuel = Ok (g, d, s) -> problem g (NI 0)) ->
  (forall o, In o seeds -> exists r, generate_graph o p fuel = Ok r) ->
  instances solver fuel q0 p seeds stale = Err OutOfFuel \/
  exists l, instances solver fuel q0 p seeds stale = Ok l /\ length l = length seeds /\ Forall agrees l /\
    (forall i o, nth_error seeds i = Some o -> exists g d s, generate_graph o p fuel = Ok (g, d, s) /\ (nth_error l i = Some None <-> forall f, ~ feasible_in g f)) /\
    (final_flag l = Ok true \/ final_flag l = Err NameError /\ forall r, In r l -> r = None).
Proof.
  intros fr els q0 solver fuel p seeds stale Hb Hq Sv HP HG.
  enough (H : instances solver fuel q0 p seeds stale = Err OutOfFuel \/
    exists l, instances solver fuel q0 p seeds stale = Ok l /\ length l = length seeds /\ Forall agrees l /\
    forall i o, nth_error seeds i = Some o -> exists g d s, generate_graph o p fuel = Ok (g, d, s) /\ (nth_error l i = Some None <-> forall f, ~ feasible_in g f)).
  { destruct H as [H|(l & E & L & A & N)]; [left; exact H|right]. exists l. split; [exact E|]. split; [exact L|]. split; [exact A|]. split; [exact N|]. clear - A. unfold final_flag.
    assert (G : forall f0, (f0 = Some true \/ f0 = None) -> let f := fold_left (fun f r => match r with Some r => Some (dantzig_flag r) | None => f end) l f0 in f = Some true \/ f = None /\ f0 = None /\ forall r, In r l -> r = None).
    { induction A as [|r l Hr A IH]; intros f0 H0; cbn [fold_left]; [destruct H0 as [-> | ->]; [left; reflexivity|right; repeat split; intros r []]|].
      destruct r as [r|]; [destruct Hr as (_ & _ & _ & ->); destruct (IH (Some true) (or_introl eq_refl)) as [H|(H & K & _)]; [left; exact H|discriminate]|].
      destruct (IH f0 H0) as [H|(H & K & R)]; [left; exact H|right; split; [exact H|split; [exact K|]]]. intros r [<-|Hr']; [reflexivity|apply R, Hr']. }
    destruct (G None (or_intror eq_refl)) as [->|(-> & _ & R)]; [left; reflexivity|right; split; [reflexivity|exact R]]. }
  revert stale HP HG. induction seeds as [|o seeds IH]; intros stale HP HG; cbn [instances]; [right; exists []; split; [reflexivity|]; split; [reflexivity|]; split; [constructor|]; intros [|i] o; discriminate|].
  destruct (HG o (or_introl eq_refl)) as [[[g d] s] Eg]. rewrite Eg. pose proof (HP o g d s (or_introl eq_refl) Eg) as P.
  destruct (C64_instance fr els q0 solver fuel g (NI 0) stale Hb Hq Sv P) as [E|(h & r & E & C)]; [left; unfold obs in E; destruct (instance solver fuel q0 (NI 0) stale g) as [h r]; cbn [snd] in E; subst r; reflexivity|].
  rewrite E. specialize (IH (match r with Some r => Some (dantzig_obj r) | None => stale end) (fun o' g' d' s' Hi => HP o' g' d' s' (or_intror Hi)) (fun o' Hi => HG o' (or_intror Hi))).
  destruct IH as [->|(l & -> & L & A & N)]; [left; reflexivity|right]. exists (r :: l). split; [reflexivity|]. split; [cbn [length]; congruence|]. split.
  - constructor; [|exact A]. destruct r as [r|]; [|exact I]. destruct C as (_ & _ & _ & ->). repeat split.
  - intros [|i] o' Ho; [|apply (N i o' Ho)]. injection Ho as <-. exists g, d, s. split; [exact Eg|]. cbn [nth_error]. destruct r as [r|]; [|split; auto]. split; [discriminate|]. intros K. exfalso. destruct C as (M & _).
    apply (K (fun e => inject_Z (flow_of h e))), feasible_q, (proj1 M).
Qed.
Print Assumptions C64_script.
(** the message at the end looks at one comparison only: that of the last instance that was not skipped, with the second rule *)
Theorem C64_message_refuted : forall l r, dantzig_flag r = true -> final_flag (l ++ [Some r]) = Ok true.
Proof. intros l r H. rewrite final_app, H. reflexivity. Qed.
Print Assumptions C64_message_refuted.
(** int() truncates: a solver whose value is below the true one by any amount less than 1 gives a different number *)
Theorem C64_truncation_refuted : forall (z : Z) (v : Q), (1 <= z)%Z -> (inject_Z z - 1 <= v)%Q -> (v < inject_Z z)%Q -> int_of v = (z - 1)%Z.
Proof.
  intros z [n d] Hz H1 H2. unfold Qle, Qlt, inject_Z, int_of in *. cbn in H1. cbn [Qnum Qden] in *. rewrite ?Z.mul_1_r in *. change (Z.pos (1 * 1)) with 1%Z in H1. rewrite ?Z.mul_1_r in H1. assert (0 <= (z - 1) * Zpos d)%Z by (apply Z.mul_nonneg_nonneg; lia). rewrite Z.quot_div_nonneg by lia.
  symmetry. apply Z.div_unique with (r := (n - (z - 1) * Zpos d)%Z); lia.
Qed.
Print Assumptions C64_truncation_refuted.

(** * The instances *)
(** C65: whatever the random numbers, if the ranges are not empty generate_graph does not raise, and what it returns is as
    specified in S_Generate.v (it may go on for ever when the stream does not yield enough different nodes) *)
Theorem C65_generate : forall (o : oracle) (p : tparams) (fuel : nat),
  (fst (capacity_range p) <= snd (capacity_range p))%Z -> (fst (cost_range p) <= snd (cost_range p))%Z -> (fst (demand_range p) <= snd (demand_range p))%Z -> (0 < tnumnodes p)%Z ->
  generate_graph o p fuel = Err OutOfFuel \/ exists g d s, generate_graph o p fuel = Ok (g, d, s) /\ generated p g d s.
Proof. intros o p fuel H1 H2 H3 H4. destruct (generate_ok o H1 H2 H3 H4 fuel) as [H|(g & d & s & E & G & _)]; [auto|right; exists g, d, s; auto]. Qed.
Print Assumptions C65_generate.
(** if all nodes chosen have an arc, the demands add up to zero *)
Theorem C65_balanced : forall p g d s, generated p g d s -> (0 < demand_numnodes p)%nat -> (0 < supply_numnodes p)%nat ->
  (forall z, In z (dkeys d) \/ In z (dkeys s) -> In (NI z) (get_node_list g)) -> zsum (demand_of g) (get_node_list g) = 0%Z.
Proof. exact generated_balance. Qed.
Print Assumptions C65_balanced.
(** so a connected instance with node 0 in which all nodes chosen have an arc is a problem network_simplex can be asked *)
Theorem C65_problem : forall (o : oracle) (p : tparams) (fuel : nat) (g : graph) (d s : dict Z Z),
  (0 <= fst (capacity_range p) <= snd (capacity_range p))%Z -> (fst (cost_range p) <= snd (cost_range p))%Z -> (0 < fst (demand_range p) <= snd (demand_range p))%Z -> (0 < tnumnodes p)%Z ->
  (0 < demand_numnodes p)%nat -> (0 < supply_numnodes p)%nat -> generate_graph o p fuel = Ok (g, d, s) ->
  (forall z, In z (dkeys d) \/ In z (dkeys s) -> In (NI z) (get_node_list g)) -> In (NI 0) (get_node_list g) -> connected g -> problem g (NI 0).
Proof.
  intros o p fuel g d s H1 H2 H3 H4 Cd Cs E Hall H0 Con. destruct (generate_ok o (proj2 H1) H2 (proj2 H3) H4 fuel) as [K|(g' & d' & s' & E' & G & Dp)]; [congruence|]. rewrite E in E'. injection E' as <- <- <-.
  assert (Ca : forall e, In e (get_edge_list g) -> exists c, eattr g (fst e) (snd e) "capacity" = Some (VI c) /\ (0 <= c)%Z).
  { intros [x y] He. destruct (gn_attr G He) as [(c & Hc & Rc) _]. exists c. cbn [fst snd]. rewrite eattr_obs, Hc. split; [reflexivity|]. unfold within in Rc. lia. }
  constructor.
  - apply (gn_wf G).
  - apply (gn_dir G).
  - intros x Hx. destruct (gn_range G Hx) as (z & -> & _). eexists. apply (gn_attrs G Hx).
  - intros x y He. destruct (Ca _ He) as (c & Hc & _). right. exists c. exact Hc.
  - intros e He. destruct (Ca e He) as (c & Hc & R). unfold cap_of. rewrite Hc. exact R.
  - intros x y Ha. unfold sarc in Ha. rewrite (gn_dir G) in Ha. apply (arc_list _ _ _ (gn_dir G)) in Ha. destruct (gn_attr G Ha) as [_ (k & Hk & _)]. exists k. exact Hk.
  - apply (gn_asym G).
  - intros x Hx. destruct (gn_range G Hx) as (z & -> & _). exists z. reflexivity.
  - exact Con.
  - exact H0.
  - exact Dp.
  - apply (generated_balance G Cd Cs Hall).
  - destruct (gn_demand G) as (Nd & Ld & Rd & Bd). destruct d as [|[z a] d]; [cbn in Ld; lia|].
    assert (Hz : In (NI z) (get_node_list g)) by (apply Hall; left; left; reflexivity). exists (NI z). split; [exact Hz|].
    assert (Ez : dget ((z, a) :: d) z = Some a) by (cbn [dget]; destruct (eq_dec z z); congruence).
    unfold demand_of. rewrite (gn_attrs G Hz). unfold demand_from, amount_at, dmem. rewrite Ez. specialize (Bd z a Ez). lia.
Qed.
Print Assumptions C65_problem.
(** more nodes asked for than there are: it cannot return *)
Theorem C65_too_many : forall (o : oracle) (p : tparams) (fuel : nat) r,
  (fst (capacity_range p) <= snd (capacity_range p))%Z -> (fst (cost_range p) <= snd (cost_range p))%Z -> (fst (demand_range p) <= snd (demand_range p))%Z -> (0 < tnumnodes p)%Z ->
  (tnumnodes p < Z.of_nat (demand_numnodes p + supply_numnodes p))%Z -> generate_graph o p fuel <> Ok r.
Proof.
  intros o p fuel [[g d] s] H1 H2 H3 H4 H5 E. destruct (C65_generate o p fuel H1 H2 H3 H4) as [K|(g' & d' & s' & E' & G)]; [congruence|]. rewrite E in E'. injection E' as <- <- <-.
  destruct (gn_demand G) as (Nd & Ld & Rd & _). destruct (gn_supply G) as (Ns & Ls & Rs & _).
  assert (L : (length (dkeys d ++ dkeys s) <= length (zrange (tnumnodes p)))%nat).
  { apply NoDup_incl_length; [apply NoDup_app_iff; split; [exact Nd|split; [exact Ns|exact (gn_disjoint G)]]|]. intros z Hz. apply In_zrange. apply in_app_or in Hz as [Hz|Hz]; auto. }
  rewrite app_length, length_zrange in L. unfold dkeys in L. rewrite !map_length in L. lia.
Qed.
Print Assumptions C65_too_many.

(** examples *)
(* a small configuration and a stream: three arcs, demand at node 2, supply at node 0 *)
Definition small_params : tparams := {| capacity_range := (1, 3)%Z; cost_range := (30, 50)%Z; demand_range := (3, 4)%Z; demand_numnodes := 1; supply_numnodes := 1; tnumnodes := 3 |}.
Definition stream (f : nat -> Z) (c : nat -> bool) : oracle := {| rnd := f; coin := c; coord := fun _ => VNone; scaled := fun _ _ => 0%Z; plain := fun _ _ => 0%Z; pos_str := fun _ _ => "" |}.
Definition s_good : oracle := stream (fun k => if Nat.eqb k 9 then 2 else if Nat.eqb k 10 then 0 else if Nat.ltb k 3 then 2 else Z.of_nat k)%Z (fun _ => true).
Definition s_bad : oracle := stream (fun k => if Nat.eqb k 9 then 0 else if Nat.eqb k 10 then 2 else Z.of_nat k)%Z (fun _ => true).
Definition graph_of (o : oracle) (p : tparams) : graph := match generate_graph o p 20 with Ok (g, _, _) => g | Err _ => new_graph None [] end.
Definition lone (d s : Z) : oracle := stream (fun k => if Nat.eqb k 7 then d else if Nat.eqb k 8 then s else 0)%Z (fun k => Nat.eqb k 0).
(* a node that is chosen but has no arc is not in the graph: the demands do not add up to zero, and the script dies *)
Theorem C65_balanced_refuted : exists (o : oracle) (p : tparams) g d s,
  generate_graph o p 20 = Ok (g, d, s) /\ generated p g d s /\ total d = total s /\ zsum (demand_of g) (get_node_list g) <> 0%Z /\
  instances (fr := stack) brute_force 40 [] p [o] None = Err (PyException "Node does not exist!").
Proof.
  exists (lone 2 0), small_params. destruct (C65_generate (lone 2 0) small_params 20) as [K|(g & d & s & E & G)]; [vm_compute; discriminate|vm_compute; discriminate|vm_compute; discriminate|vm_compute; reflexivity|vm_compute in K; discriminate|].
  exists g, d, s. split; [exact E|]. split; [exact G|]. split; [apply (gn_total G); vm_compute; lia|]. split; [vm_compute in E; injection E as <- <- <-; vm_compute; discriminate|vm_compute; reflexivity].
Qed.
Print Assumptions C65_balanced_refuted.
Definition g_good : graph := graph_of s_good small_params.
Example C65_nonvacuous : generate_graph s_good small_params 20 = Ok (g_good, [(2, 4)], [(0, 4)])%Z /\ get_edge_list g_good = [(NI 0, NI 1); (NI 0, NI 2); (NI 1, NI 2)]%Z /\
  map (cap_of g_good) (get_edge_list g_good) = [3; 2; 2]%Z /\ map (cost_of g_good) (get_edge_list g_good) = [32; 35; 38]%Z /\ map (demand_of g_good) (get_node_list g_good) = [4; 0; -4]%Z /\
  generated small_params g_good [(2, 4)]%Z [(0, 4)]%Z /\ problem g_good (NI 0).
Proof.
  assert (E : generate_graph s_good small_params 20 = Ok (g_good, [(2, 4)], [(0, 4)])%Z) by (vm_compute; reflexivity). split; [exact E|]. do 4 (split; [vm_compute; reflexivity|]). split.
  - assert (M : match generate_graph s_good small_params 20 with Ok (g, d, s) => generated small_params g d s | Err _ => True end).
    { destruct (C65_generate s_good small_params 20) as [->|(g & d & s & -> & G)]; [vm_compute; discriminate|vm_compute; discriminate|vm_compute; discriminate|vm_compute; reflexivity|exact I|exact G]. }
    rewrite E in M. exact M.
  - apply (C65_problem s_good small_params 20 g_good [(2, 4)]%Z [(0, 4)]%Z).
    + vm_compute. split; discriminate.
    + vm_compute. discriminate.
    + vm_compute. split; [reflexivity|discriminate].
    + reflexivity.
    + vm_compute. lia.
    + vm_compute. lia.
    + exact E.
    + intros z [[<-|[]]|[<-|[]]]; vm_compute; auto.
    + vm_compute. auto.
    + apply (all_connected _ (NI 0) [[]; [NI 1]; [NI 2]]); vm_compute; reflexivity.
Qed.
(* the solver of P_LP.v is correct; one instance is solved, the other one has no feasible flow *)
Example C64_nonvacuous : solves brute_force /\ bag (fr := stack) (fun q => q) /\ problem g_good (NI 0) /\
  obs (instance (fr := stack) brute_force 40 [] (NI 0) None) g_good = Ok (Some {| eligible_iter := 0; eligible_obj := 210; pulp_obj := 210; eligible_flag := true; dantzig_iter := 0; dantzig_obj := 210; dantzig_flag := true |}) /\
  (exists l, instances (fr := stack) brute_force 40 [] small_params [s_good; s_bad] None = Ok l /\ nth_error l 1 = Some None /\ final_flag l = Ok true).
Proof.
  split; [apply brute_force_solves|]. split; [apply stack_bag|]. split; [apply C65_nonvacuous|]. split; [vm_compute; reflexivity|]. eexists. split; [vm_compute; reflexivity|]. split; reflexivity.
Qed.
(* one instance was solved wrongly, and the message is that all were solved accurately *)
Example C64_message : final_flag [Some {| eligible_iter := 0; eligible_obj := 5; pulp_obj := 4; eligible_flag := false; dantzig_iter := 0; dantzig_obj := 6; dantzig_flag := false |};
  Some {| eligible_iter := 0; eligible_obj := 5; pulp_obj := 4; eligible_flag := false; dantzig_iter := 0; dantzig_obj := 4; dantzig_flag := true |}] = Ok true.
Proof. reflexivity. Qed.
