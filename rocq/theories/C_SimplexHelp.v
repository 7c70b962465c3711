(* Property theorems C73: the other helpers of the network simplex method. *)
From Verif Require Import Py Util M_Graph P_Graph Spec P_Walk P_Attr M_Search M_Flow M_MinCost M_NetSimplex P_Residual P_MinCostAbs S_Span S_Flow S_MinCost P_EdgeFrame P_NetTree P_NetSearch P_NetPot P_Pok
  P_Flow P_PreflowTop P_NetCycle S_GraphFlow S_SimplexSearch S_SimplexTree S_SimplexHelp P_SimplexSearch P_GraphLaws P_NetPivot P_NetLoop P_NetInit C_MinCost C_SimplexSearch C_Dfs C_NetSimplex C_SimplexTree.
Local Open Scope string_scope. Local Open Scope list_scope.

(** redrawing the tree: a new graph with the same nodes and arcs, from the root outwards *)
Theorem C73_redraw : forall (t : graph) (root : name) (display : val) (fuel : nat),
  wf t -> g_type t = Directed -> asymmetric (get_edge_list t) -> In root (get_node_list t) ->
  int_attr t "flow" -> int_attr t "capacity" -> int_attr t "cost" ->
  (forall x y, In x (get_node_list t) -> In y (get_node_list t) -> reach (linked t) x y) ->
  length (get_node_list t) * (length (get_node_list t) + 1) + 1 < fuel ->
  exists new, simplex_redraw fuel display root t = (t, Ok new) /\ wf new /\ g_type new = Directed /\
    (forall x, In x (get_node_list new) <-> In x (get_node_list t)) /\ (forall e, In e (get_edge_list new) <-> In e (get_edge_list t)) /\
    (forall x a, In x (get_node_list t) -> In a ["pred"; "thread"; "depth"] -> obs (get_node_attr x a) new = obs (get_node_attr x a) t) /\
    (forall x y a, In (x, y) (get_edge_list t) -> In a ["flow"; "capacity"; "cost"] -> obs (get_edge_attr x y a) new = obs (get_edge_attr x y a) t) /\
    (forall x y, In (x, y) (get_edge_list t) -> flow_labelled new x y).
Proof.
  intros t root display fuel W D As Hr I1 I2 I3 Sp Hf.
  assert (Ia : int_arcs t).
  { intros [x y] He a Ha. cbn [fst snd]. rewrite eattr_obs. assert (exists z, obs (get_edge_attr x y a) t = Ok (VI z)) as [z Ez]; [|rewrite Ez; eauto].
    destruct Ha as [<-|[<-|[<-|[]]]]; [apply I1|apply I2|apply I3]; exact He. }
  destruct (redraw_t W D Hr As Sp Ia fuel display) as [[K _]|(new & h & E & -> & Wn & Dn & Nn & En & A1 & A2 & A3)]; [unfold redraw_bound in K; lia|].
  exists new. split; [exact E|]. split; [exact Wn|]. split; [exact Dn|]. split; [exact Nn|]. split; [exact En|]. split; [intros x a Hx Ha; apply (A1 x a Hx Ha)|].
  assert (A2' : forall x y a, In (x, y) (get_edge_list t) -> In a ["flow"; "capacity"; "cost"] -> obs (get_edge_attr x y a) new = obs (get_edge_attr x y a) t).
  { intros x y a He Ha. pose proof (A2 _ He a Ha) as K. cbn [fst snd] in K. assert (exists z, obs (get_edge_attr x y a) t = Ok (VI z)) as [z Ez].
    { destruct Ha as [<-|[<-|[<-|[]]]]; [apply I1|apply I2|apply I3]; exact He. }
    rewrite Ez. apply obs_eattr. rewrite K, eattr_obs, Ez. reflexivity. }
  split; [exact A2'|]. intros x y He. destruct (A3 _ He) as (f & c & k & E1 & E2 & E3 & E4). cbn [fst snd] in *. unfold flow_labelled. rewrite (obs_eattr _ _ _ _ _ E4).
  pose proof (A2' x y "cost" He ltac:(simpl; auto)) as K3. pose proof (A2 _ He "flow" ltac:(simpl; auto)) as K1. pose proof (A2 _ He "capacity" ltac:(simpl; auto)) as K2. cbn [fst snd] in K1, K2.
  unfold flow_of, cap_of, edge_cost. cbn [fst snd]. rewrite K3, (obs_eattr _ _ _ _ _ E3), K1, K2, E1, E2. reflexivity.
Qed.
Print Assumptions C73_redraw.

(** colours: the arcs of the tree blue, the others black; an arc outside the tree with flow between its bounds is an error *)
Lemma obs_same g h x y a : eattr h x y a = eattr g x y a -> obs (get_edge_attr x y a) h = obs (get_edge_attr x y a) g.
Proof.
  rewrite !eattr_obs. assert (K : forall k : graph, (exists v, obs (get_edge_attr x y a) k = Ok v) \/ obs (get_edge_attr x y a) k = Err KeyError).
  { intros k. unfold obs, get_edge_attr. cbn [snd]. destruct (g_type k); repeat match goal with |- context [match ?d with Some _ => _ | None => _ end] => destruct d end; eauto. }
  destruct (K g) as [[v ->]| ->], (K h) as [[w ->]| ->]; congruence.
Qed.
Section Mark.
  Variables g t : graph.
  Hypothesis W : wf g.
  Hypothesis D : g_type g = Directed.
  Hypothesis IF : int_attr g "flow".
  Hypothesis IC : int_attr g "capacity".
  Definition painted (pre : list (name * name)) (h : graph) : Prop :=
    efr ["color"] g h /\ (forall n b, nattr h n b = nattr g n b) /\ (forall e, In e pre -> eattr h (fst e) (snd e) "color" = Some (VS (if mem e (get_edge_list t) then "blue" else "black"))) /\
    forall x y, ~ In (x, y) pre -> eattr h x y "color" = eattr g x y "color".
  Definition paint (e : name * name) : M graph unit :=
    flow_e <- edge_get e "flow" ;; capacity_e <- edge_get e "capacity" ;;
    if dmem (g_edges t) e then edge_set e "color" (VS "blue")
    else if eqb flow_e (VI 0) then edge_set e "color" (VS "black")
    else if eqb flow_e capacity_e then edge_set e "color" (VS "black")
    else fail (PyException "Arc is not in ST but has flow between bounds.").
  Lemma paint_set e pre h v : In e (get_edge_list g) -> painted pre h -> v = (if mem e (get_edge_list t) then "blue" else "black") ->
    ok (edge_set e "color" (VS v)) h (fun _ h' => painted (pre ++ [e]) h').
  Proof.
    intros He (E & N & P & O) ->. apply ok_edge_set with (bs := ["color"]); [apply (efr_wf E W)|apply (efr_type E D)|rewrite (efr_edges E); exact He|simpl; auto|].
    intros h' E' A N'. split; [apply (efr_trans E E'), incl_refl|]. split; [intros n b; rewrite N'; apply N|]. split.
    - intros e' He'. rewrite A, eqb_refl, <- surjective_pairing. cbn [andb]. destruct (eqb_spec e' e) as [->|Hne]; [reflexivity|]. apply P. apply in_app_iff in He' as [He'|[<-|[]]]; [exact He'|congruence].
    - intros x y Hxy. rewrite A, eqb_refl. cbn [andb]. rewrite in_app_iff in Hxy. destruct (eqb_spec (x, y) e) as [Hne|Hne]; [exfalso; apply Hxy; rewrite Hne; simpl; auto|]. apply O. tauto.
  Qed.
  Lemma paint_gets {A} e pre h (Q : A -> graph -> Prop) (m : val -> val -> M graph A) : In e (get_edge_list g) -> painted pre h -> ok (m (VI (flow_of g e)) (VI (cap_of g e))) h Q ->
    ok (flow_e <- edge_get e "flow" ;; capacity_e <- edge_get e "capacity" ;; m flow_e capacity_e) h Q.
  Proof.
    intros He (E & _) H. destruct e as [x y]. destruct (IF x y He) as [f Ef], (IC x y He) as [c Ec].
    pose proof (efr_wf E W) as Wh. pose proof (efr_type E D) as Dh.
    assert (K1 : eattr g x y "flow" = Some (VI (flow_of g (x, y)))) by (unfold flow_of; cbn [fst snd]; rewrite eattr_obs, Ef; reflexivity).
    assert (K2 : eattr g x y "capacity" = Some (VI (cap_of g (x, y)))) by (unfold cap_of; cbn [fst snd]; rewrite eattr_obs, Ec; reflexivity).
    apply ok_bind. apply ok_edge_get with (v := VI (flow_of g (x, y))); [exact Dh|cbn [fst snd]; rewrite (ef_edges E) by (simpl; intuition discriminate); exact K1|].
    apply ok_bind. apply ok_edge_get with (v := VI (cap_of g (x, y))); [exact Dh|cbn [fst snd]; rewrite (ef_edges E) by (simpl; intuition discriminate); exact K2|]. exact H.
  Qed.
  Definition between (e : name * name) : Prop := In e (get_edge_list g) /\ ~ In e (get_edge_list t) /\ flow_of g e <> 0%Z /\ flow_of g e <> cap_of g e.
  Lemma paint_one e pre h : In e (get_edge_list g) -> painted pre h ->
    (~ between e /\ ok (paint e) h (fun _ h' => painted (pre ++ [e]) h')) \/
    (between e /\ paint e h = (h, Err (PyException "Arc is not in ST but has flow between bounds."))).
  Proof.
    intros He P. unfold paint. destruct (mem_spec e (get_edge_list t)) as [Ht|Ht].
    - left. split; [intros (_ & K & _); contradiction|]. apply (paint_gets e pre); [exact He|exact P|]. rewrite dmem_edges, (proj2 (mem_In _ _) Ht). apply paint_set; [exact He|exact P|]. rewrite (proj2 (mem_In _ _) Ht). reflexivity.
    - destruct (Z.eqb_spec (flow_of g e) 0) as [Z|Z]; [|destruct (Z.eqb_spec (flow_of g e) (cap_of g e)) as [C|C]].
      1, 2: left; split; [intros (_ & _ & K1 & K2); contradiction|]; apply (paint_gets e pre); [exact He|exact P|]; rewrite dmem_edges, (proj2 (mem_nIn _ _) Ht), !eqb_VI.
      + rewrite (proj2 (Z.eqb_eq _ _) Z). apply paint_set; [exact He|exact P|]. rewrite (proj2 (mem_nIn _ _) Ht). reflexivity.
      + rewrite (proj2 (Z.eqb_neq _ _) Z) || idtac. destruct (Z.eqb (flow_of g e) 0) eqn:E0; [lia|]. rewrite (proj2 (Z.eqb_eq _ _) C). apply paint_set; [exact He|exact P|]. rewrite (proj2 (mem_nIn _ _) Ht). reflexivity.
      + right. split; [unfold between; auto|].
        assert (G : ok (flow_e <- edge_get e "flow" ;; capacity_e <- edge_get e "capacity" ;; ret (flow_e, capacity_e)) h (fun r h' => h' = h /\ r = (VI (flow_of g e), VI (cap_of g e)))).
        { apply (paint_gets (A := val * val) e pre _ _ (fun a b => ret (a, b))); [exact He|exact P|]. apply ok_ret. auto. }
        apply ok_ex in G as (h' & r & G & -> & ->). unfold bind in G. unfold bind. destruct (edge_get e "flow" h) as [h1 [v1|]]; [|discriminate G]. destruct (edge_get e "capacity" h1) as [h2 [v2|]]; [|discriminate G]. cbn in G. injection G as -> -> ->.
        rewrite dmem_edges, (proj2 (mem_nIn _ _) Ht), !eqb_VI, (proj2 (Z.eqb_neq _ _) Z), (proj2 (Z.eqb_neq _ _) C). reflexivity.
  Qed.
  Lemma paint_list post : forall pre h, (forall e, In e post -> In e (get_edge_list g)) -> painted pre h ->
    (exists h', forM_ post paint h = (h', Ok tt) /\ painted (pre ++ post) h' /\ forall e, In e post -> ~ between e) \/
    (exists h' p e q, forM_ post paint h = (h', Err (PyException "Arc is not in ST but has flow between bounds.")) /\ painted (pre ++ p) h' /\ post = p ++ e :: q /\ between e /\ forall e, In e p -> ~ between e).
  Proof.
    induction post as [|e post IH]; intros pre h Hi P; [left; exists h; rewrite app_nil_r; split; [reflexivity|split; [exact P|intros ? []]]|].
    destruct (paint_one e pre h (Hi e (or_introl eq_refl)) P) as [[Nb K]|[B K]].
    - apply ok_ex in K as (h1 & [] & E1 & P1). destruct (IH (pre ++ [e]) h1 (fun e' H => Hi e' (or_intror H)) P1) as [(h2 & E2 & P2 & B2)|(h2 & p & e2 & q & E2 & P2 & -> & B2 & G2)]; rewrite <- app_assoc in P2.
      + left. exists h2. split; [cbn; unfold bind; rewrite E1; exact E2|]. split; [exact P2|]. intros e' [<-|He']; auto.
      + right. exists h2, (e :: p), e2, q. split; [cbn; unfold bind; rewrite E1; exact E2|]. split; [exact P2|]. split; [reflexivity|]. split; [exact B2|]. intros e' [<-|He']; auto.
    - right. exists h, [], e, post. split; [cbn; unfold bind; rewrite K; reflexivity|]. rewrite app_nil_r. split; [exact P|]. split; [reflexivity|]. split; [exact B|intros ? []].
  Qed.
End Mark.
Theorem C73_mark : forall (g t : graph), wf g -> g_type g = Directed -> int_attr g "flow" -> int_attr g "capacity" ->
  exists h r, simplex_mark_st_arcs t g = (h, r) /\
    (r = Ok tt <-> forall e, In e (get_edge_list g) -> ~ In e (get_edge_list t) -> flow_of g e = 0%Z \/ flow_of g e = cap_of g e) /\
    (r = Ok tt \/ r = Err (PyException "Arc is not in ST but has flow between bounds.")) /\
    (r = Ok tt -> forall x y, In (x, y) (get_edge_list g) -> obs (get_edge_attr x y "color") h = Ok (VS (if mem (x, y) (get_edge_list t) then "blue" else "black"))) /\
    get_node_list h = get_node_list g /\ get_edge_list h = get_edge_list g /\
    (forall x a, obs (get_node_attr x a) h = obs (get_node_attr x a) g) /\
    (forall x y a, a <> "color" -> obs (get_edge_attr x y a) h = obs (get_edge_attr x y a) g).
Proof.
  intros g t W D IF IC.
  assert (P0 : painted g t [] g) by (split; [apply efr_refl|]; split; [reflexivity|]; split; [intros ? []|reflexivity]).
  assert (Fin : forall pre h, painted g t pre h -> get_node_list h = get_node_list g /\ get_edge_list h = get_edge_list g /\
    (forall x a, obs (get_node_attr x a) h = obs (get_node_attr x a) g) /\ (forall x y a, a <> "color" -> obs (get_edge_attr x y a) h = obs (get_edge_attr x y a) g)).
  { intros pre h (E & N & _). split; [apply (efr_node_list E)|]. split; [apply (efr_edges E)|]. split.
    - intros x a. destruct (in_dec eq_dec x (dkeys (g_nodes g))) as [Hx|Hx]; assert (Hx' := Hx); rewrite <- (ss_nodes (ef_shape E)) in Hx'.
      + rewrite (obs_nattr _ Hx), (obs_nattr _ Hx'), N. reflexivity.
      + apply dget_None in Hx, Hx'. rewrite !obs_node_attr, Hx, Hx'. reflexivity.
    - intros x y a Ha. apply obs_same. apply (ef_edges E). simpl. intuition congruence. }
  destruct (paint_list g t W D IF IC (get_edge_list g) [] g (fun e H => H) P0) as [(h & E & P & B)|(h & p & e & q & E & P & Eq & B & _)].
  - exists h, (Ok tt). split; [exact E|]. split; [|split; [auto|split; [|apply (Fin _ _ P)]]].
    + split; [|auto]. intros _ e He Ht. destruct (Z.eq_dec (flow_of g e) 0); [auto|]. destruct (Z.eq_dec (flow_of g e) (cap_of g e)); [auto|]. exfalso. apply (B e He). unfold between. auto.
    + intros _ x y He. destruct P as (_ & _ & P & _). apply obs_eattr, (P (x, y) He).
  - exists h, (Err (PyException "Arc is not in ST but has flow between bounds.")). split; [exact E|]. split; [|split; [auto|split; [discriminate|apply (Fin _ _ P)]]].
    split; [discriminate|]. intros H. exfalso. destruct B as (B1 & B2 & B3 & B4). destruct (H e B1 B2); contradiction.
Qed.
Print Assumptions C73_mark.

(** a closed walk along the arcs, or None when there is no cycle; the graph keeps everything but the component attributes *)
Theorem C73_find_cycle : forall (g : graph) (fuel : nat), wf g -> g_type g = Directed -> asymmetric (get_edge_list g) ->
  (forall x, In x (get_node_list g) -> exists z, x = NI z) -> get_node_list g <> [] -> length (get_node_list g) + 1 < fuel ->
  exists h o, simplex_find_cycle fuel g = (h, Ok o) /\
    (o = None <-> S_Span.acyclic (get_edge_list g)) /\ (forall l, o = Some l -> closed_walk g l) /\
    get_node_list h = get_node_list g /\ get_edge_list h = get_edge_list g /\
    (forall x a, a <> "component" -> obs (get_node_attr x a) h = obs (get_node_attr x a) g) /\ (forall x y a, obs (get_edge_attr x y a) h = obs (get_edge_attr x y a) g).
Proof.
  intros g fuel W D As Names Ne Hf.
  destruct (find_cycle_t W D As Names fuel Ne) as [[K _]|(o & h & E & F & G)]; [lia|]. destruct (nfr_same _ _ _ F) as [S1 S2].
  assert (CW : forall l, o = Some l -> closed_walk g l).
  { intros l ->. destruct G as (G1 & G2 & G3 & G4). split; [exact G2|]. split; [intros i j H; apply (G3 (i, j) H)|]. destruct l as [|x t]; [congruence|]. exists x, t. split; [reflexivity|]. apply (G4 x t eq_refl). }
  exists h, o. split; [exact E|]. split; [|split; [exact CW|split; [apply (nfr_nodes F)|split; [apply (nfr_edges F)|split; [|exact S2]]]]].
  - split; [intros ->; apply forest_acyclic; [apply (wf_ne W)|exact G]|]. intros Ac. destruct o as [l|]; [exfalso|reflexivity].
    apply (acyclic_forest _ (wf_ne W)) in Ac. destruct (CW l eq_refl) as (C1 & C2 & x & t & -> & C4). set (z := last (x :: t) x) in *.
    rewrite cycle_pairs_last in C1, C2, C4. fold z in C1, C2, C4.
    assert (Walk : forall es', (forall i j, In (i, j) (consecutive (x :: t)) -> adj es' i j) -> conn es' x z).
    { intros es'. unfold z. clear. revert x. induction t as [|y t IH]; intros x H; [apply conn_refl|]. apply (conn_trans (y := y)); [apply conn_adj, H; left; reflexivity|].
      replace (last (x :: y :: t) x) with (last (y :: t) y); [apply IH; intros i j Hij; apply H; right; exact Hij|]. clear. revert y. induction t as [|w t IH]; intros y; [reflexivity|]. change (last (w :: t) y = last (w :: t) x). clear. revert w. induction t as [|v t IH]; intros w; [reflexivity|]. apply (IH v). }
    assert (N1 : ~ In (z, x) (consecutive (x :: t))).
    { intros K. apply NoDup_remove_2 in C1. rewrite app_nil_r in C1. contradiction. }
    assert (N2 : ~ In (x, z) (consecutive (x :: t))) by (intros K; apply C4, in_app_iff; auto).
    assert (St : forall u v, (u, v) = (z, x) \/ (u, v) = (x, z) -> forall i j, In (i, j) (consecutive (x :: t)) -> adj (without (u, v) (get_edge_list g)) i j).
    { intros u v Huv i j Hij. assert (Hm : (i, j) <> (u, v) /\ (j, i) <> (u, v)).
      { split; intros Eq; [|assert (Eq' : (i, j) = (v, u)) by congruence; clear Eq; rename Eq' into Eq]; rewrite Eq in Hij; destruct Huv as [[= -> ->]|[= -> ->]]; contradiction. }
      destruct (C2 i j) as [H|H]; [apply in_app_iff; auto|left|right]; apply in_without; tauto. }
    destruct (C2 z x) as [H|H]; [apply in_app_iff; simpl; auto| |].
    + apply (Ac z x H). apply conn_sym, Walk, St. auto.
    + apply (Ac x z H). apply Walk, St. auto.
  - intros x a Ha. apply S1. simpl. intuition congruence.
Qed.
Print Assumptions C73_find_cycle.
(* the walk is not always a cycle: it runs through the node from which the search started, passing the common part of the two paths twice *)
Definition exwalk : graph := history (new_graph (Some Directed) []) [OAddEdge (NI 1) (NI 2) []; OAddEdge (NI 2) (NI 3) []; OAddEdge (NI 3) (NI 4) []; OAddEdge (NI 2) (NI 4) []].
Theorem C73_find_cycle_simple_refuted : ~ (forall (g h : graph) (fuel : nat) (l : list name), wf g -> g_type g = Directed -> simplex_find_cycle fuel g = (h, Ok (Some l)) -> NoDup l).
Proof.
  intros H. assert (W : wf exwalk) by (refine (proj1 (wf_history (wf_new (Some Directed) []) _)); discriminate).
  specialize (H exwalk (fst (simplex_find_cycle 9 exwalk)) 9 [NI 4; NI 2; NI 1; NI 2; NI 3] W eq_refl).
  assert (K : NoDup [NI 4; NI 2; NI 1; NI 2; NI 3]) by (apply H; vm_compute; reflexivity).
  apply NoDup_cons_iff in K as [_ K]. apply NoDup_cons_iff in K as [K _]. apply K. simpl. auto.
Qed.
Print Assumptions C73_find_cycle_simple_refuted.
Theorem C73_find_cycle_empty : forall (g : graph) (fuel : nat), get_node_list g = [] -> simplex_find_cycle fuel g = (g, Err IndexError).
Proof. intros g fuel E. unfold simplex_find_cycle, bind, gets. rewrite E. reflexivity. Qed.
Print Assumptions C73_find_cycle_empty.

(** the amount that can be pushed around a closed walk: the least room on its steps *)
Theorem C73_amount : forall (g : graph) (l : list name), wf g -> g_type g = Directed -> int_attr g "capacity" -> int_attr g "flow" -> has_costs g false ->
  l <> [] -> (forall i j, In (i, j) (cycle_pairs l) -> In (i, j) (get_edge_list g) \/ In (j, i) (get_edge_list g)) ->
  exists a, simplex_augment_cycle l g = (g, Ok a) /\ (forall p, In p (cycle_pairs l) -> (a <= room_of g p)%Z) /\ exists p, In p (cycle_pairs l) /\ a = room_of g p.
Proof.
  intros g l W D IC IF HC Ne Hu. pose proof (problem_self g W D IC IF HC) as S.
  assert (K : ok (simplex_augment_cycle l) g (fun a h => h = g /\ (forall p, In p (cycle_pairs l) -> (a <= room (get_edge_list g) (cap_of g) (flow_of g) p)%Z) /\ exists p, In p (cycle_pairs l) /\ a = room (get_edge_list g) (cap_of g) (flow_of g) p)).
  { apply (amount_ok (fun _ => 0%Z) S Ne). intros [i j] H. apply (Hu i j H). }
  apply ok_ex in K as (h & a & E & -> & K1 & K2). exists a. auto.
Qed.
Print Assumptions C73_amount.
Theorem C73_amount_empty : forall g, simplex_augment_cycle [] g = (g, Err IndexError).
Proof. reflexivity. Qed.
Print Assumptions C73_amount_empty.

(** one more arc for a forest of arcs of g: the new arc joins two of its components; False when the forest spans g *)
Theorem C73_connect : forall (g r : graph) (fuel : nat), wf g -> g_type g = Directed -> asymmetric (get_edge_list g) ->
  (forall x, In x (get_node_list g) -> exists z, x = NI z) -> get_node_list g <> [] -> connected g ->
  wf r -> g_type r = Directed -> get_node_list r = get_node_list g -> incl (get_edge_list r) (get_edge_list g) -> S_Span.acyclic (get_edge_list r) ->
  length (get_node_list g) < fuel ->
  exists r' b, simplex_connect fuel r g = (g, Ok (r', b)) /\ wf r' /\ g_type r' = Directed /\ get_node_list r' = get_node_list g /\ S_Span.acyclic (get_edge_list r') /\
    (b = true -> exists x y, In (x, y) (get_edge_list g) /\ ~ reach (linked r) x y /\ get_edge_list r' = get_edge_list r ++ [(x, y)]) /\
    (b = false -> get_edge_list r' = get_edge_list r /\ forall x y, In x (get_node_list g) -> In y (get_node_list g) -> reach (linked r) x y).
Proof.
  intros g r fuel W D As Names Ne Con Wr Dr Nr Er Ac Hf.
  assert (EV : forall e, In e (get_edge_list g) -> In (fst e) (get_node_list g) /\ In (snd e) (get_node_list g)) by (intros [x y] He; apply (edge_nodes W D He)).
  assert (Pa : part (get_node_list g) (get_edge_list g) (fun _ => 0%Z) (fun _ => 0%Z) r) by (constructor; try assumption; [intros; lia|apply acyclic_forest; [apply (wf_ne Wr)|exact Ac]]).
  destruct (connect_t (fun _ => 0%Z) (fun _ => 0%Z) (wf_nd W) EV Names Ne (connected_spans g D Con) fuel (h := g) eq_refl Pa) as [[K _]|([r' b] & h & E & -> & Pa' & Sp & K1 & K2)].
  { change (dkeys (g_nbrs g)) with (get_node_list g) in K. lia. }
  cbn [fst snd] in *. exists r', b. split; [exact E|]. split; [apply (pa_wf Pa')|]. split; [apply (pa_dir Pa')|]. split; [apply (pa_nodes Pa')|]. split; [apply forest_acyclic; [apply (wf_ne (pa_wf Pa'))|apply (pa_forest Pa')]|]. split.
  - intros Hb. destruct (K1 Hb) as ([x y] & H1 & H2 & H3). exists x, y. auto.
  - intros Hb. specialize (K2 Hb). split; [exact K2|]. specialize (Sp Hb). rewrite K2 in Sp. intros x y Hx Hy. apply (Sp x y Hx Hy).
Qed.
Print Assumptions C73_connect.
Theorem C73_connect_empty : forall (g r : graph) (fuel : nat), get_node_list r = [] -> simplex_connect fuel r g = (g, Err IndexError).
Proof. intros g r fuel E. unfold simplex_connect. rewrite E. reflexivity. Qed.
Print Assumptions C73_connect_empty.

(* a graph with the cycle 1, 2, 3 on which flow can be moved, and a tree of it *)
Definition exhelp : graph := history (new_graph (Some Directed) [])
  [OAddEdge (NI 1) (NI 2) [("cost", VI 1); ("capacity", VI 10); ("flow", VI 4)]; OAddEdge (NI 2) (NI 3) [("cost", VI 1); ("capacity", VI 10); ("flow", VI 10)]; OAddEdge (NI 1) (NI 3) [("cost", VI 4); ("capacity", VI 9); ("flow", VI 2)]].
Definition exhtree : graph := history (new_graph (Some Directed) [])
  [OAddNode (NI 1) [("pred", VNone); ("thread", VI 2); ("depth", VI 0)]; OAddNode (NI 2) [("pred", VI 1); ("thread", VI 3); ("depth", VI 1)]; OAddNode (NI 3) [("pred", VI 1); ("thread", VI 1); ("depth", VI 1)];
   OAddEdge (NI 1) (NI 2) [("cost", VI 1); ("capacity", VI 10); ("flow", VI 4)]; OAddEdge (NI 1) (NI 3) [("cost", VI 4); ("capacity", VI 9); ("flow", VI 2)]].
Definition exhpart : graph := history (new_graph (Some Directed) []) [OAddNode (NI 1) []; OAddNode (NI 2) []; OAddNode (NI 3) []; OAddEdge (NI 1) (NI 3) []].
Lemma exhelp_hyps g : (g = exhelp \/ g = exhtree) -> wf g /\ g_type g = Directed /\ asymmetric (get_edge_list g) /\ int_attr g "flow" /\ int_attr g "capacity" /\ int_attr g "cost" /\
  get_node_list g = [NI 1; NI 2; NI 3] /\ (forall x y, In x (get_node_list g) -> In y (get_node_list g) -> reach (linked g) x y).
Proof.
  intros Hg. split; [destruct Hg as [-> | ->]; refine (proj1 (wf_history (wf_new (Some Directed) []) _)); discriminate|].
  split; [destruct Hg as [-> | ->]; reflexivity|]. split.
  { destruct Hg as [-> | ->]; intros x y H1 H2; vm_compute in H1, H2; repeat (destruct H1 as [H1|H1]); try contradiction; injection H1 as <- <-; repeat (destruct H2 as [H2|H2]); try contradiction; discriminate H2. }
  split; [destruct Hg as [-> | ->]; apply all_ints; vm_compute; reflexivity|]. split; [destruct Hg as [-> | ->]; apply all_ints; vm_compute; reflexivity|]. split; [destruct Hg as [-> | ->]; apply all_ints; vm_compute; reflexivity|].
  split; [destruct Hg as [-> | ->]; vm_compute; reflexivity|].
  assert (L : forall x, In x (get_node_list g) -> conn (get_edge_list g) (NI 1) x).
  { intros x Hx. assert (Hx' : x = NI 1 \/ In (NI 1, x) (get_edge_list g)) by (destruct Hg as [-> | ->]; vm_compute in Hx |- *; intuition congruence). destruct Hx' as [->|H]; [apply conn_refl|apply conn_adj; left; exact H]. }
  intros x y Hx Hy. apply (conn_trans (y := NI 1)); [apply conn_sym|]; apply L; assumption.
Qed.
Example C73_nonvacuous :
  (wf exhelp /\ g_type exhelp = Directed /\ int_attr exhelp "capacity" /\ int_attr exhelp "flow" /\ get_node_list exhelp <> [] /\ asymmetric (get_edge_list exhelp)) /\
  (wf exhtree /\ g_type exhtree = Directed /\ int_attr exhtree "cost" /\ In (NI 1) (get_node_list exhtree) /\ forall x y, In x (get_node_list exhtree) -> In y (get_node_list exhtree) -> reach (linked exhtree) x y) /\
  match simplex_redraw 20 (VS "off") (NI 1) exhtree with
  | (_, Ok new) => length (get_edge_list new) = 2 /\ obs (get_edge_attr (NI 1) (NI 3) "label") new = Ok (VS "2/9/4") /\ obs (get_node_attr (NI 3) "depth") new = Ok (VI 1) | _ => False
  end /\
  match simplex_mark_st_arcs exhtree exhelp with
  | (h, Ok _) => map (fun e => obs (get_edge_attr (fst e) (snd e) "color") h) (get_edge_list h) = [Ok (VS "blue"); Ok (VS "black"); Ok (VS "blue")] | _ => False
  end /\
  snd (simplex_mark_st_arcs exhpart exhelp) = Err (PyException "Arc is not in ST but has flow between bounds.") /\
  snd (simplex_find_cycle 9 exhelp) = Ok (Some [NI 3; NI 1; NI 2]) /\ snd (simplex_find_cycle 9 exhtree) = Ok None /\
  snd (simplex_augment_cycle [NI 3; NI 1; NI 2] exhelp) = Ok 0%Z /\ snd (simplex_augment_cycle [NI 1; NI 3; NI 2] exhelp) = Ok 4%Z /\
  match simplex_connect 9 exhpart exhelp with
  | (_, Ok (r, b)) => b = true /\ get_edge_list r = [(NI 1, NI 3); (NI 1, NI 2)] /\ match simplex_connect 9 r exhelp with (_, Ok (_, b)) => b = false | _ => False end | _ => False
  end.
Proof.
  destruct (exhelp_hyps exhelp (or_introl eq_refl)) as (A1 & A2 & A3 & A4 & A5 & A6 & A7 & A8). destruct (exhelp_hyps exhtree (or_intror eq_refl)) as (B1 & B2 & B3 & B4 & B5 & B6 & B7 & B8).
  split. { split; [exact A1|]. split; [exact A2|]. split; [exact A5|]. split; [exact A4|]. split; [rewrite A7; discriminate|exact A3]. }
  split. { split; [exact B1|]. split; [exact B2|]. split; [exact B6|]. split; [rewrite B7; left; reflexivity|exact B8]. }
  vm_compute. repeat split.
Qed.
