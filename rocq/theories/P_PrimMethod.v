(* minimum_spanning_tree_prim computes a minimum spanning forest of the source's component. *)
From Coq Require Import Permutation.
From Verif Require Import Py Util M_Graph M_Search M_Dfs M_Prim P_Graph P_GraphLaws Spec P_Walk S_Span P_Span S_Frontier P_Attr P_SearchAbs P_Search P_SearchInd P_SearchTop P_Prim P_SearchThm.
Set Implicit Arguments. Unset Strict Implicit.
Local Open Scope string_scope.
Local Open Scope list_scope.

Section PM.
  Variable fr : frontier.
  Variable els : fq fr -> list name.
  Hypothesis Hpq : prioq els.
  Variable peek_item : fq fr -> name -> res Z.
  Hypothesis Hpk : forall (q : fq fr) x p, fq_prio q x = Some p -> peek_item q x = Ok p.
  Variable g : graph.
  Hypothesis W : wf g.
  Hypothesis Hund : g_type g = Undirected.
  Hypothesis Hcost : has_costs g false.
  Hypothesis Hloop : forall x, ~ arc g x x.
  Variable s0 : name.
  Hypothesis Hs0 : In s0 (get_node_list g).
  Notation nb := (list_at (g_nbrs g)).
  Notation pz := (edge_cost g).
  Notation okg := (okgr nb (fun x y => Some (pz x y)) s0).
  Lemma pz_eq x y : P_Prim.pz (fun x y => Some (pz x y)) x y = pz x y.
  Proof. reflexivity. Qed.
  Lemma nb_arc x y : In y (nb x) <-> arc g x y.
  Proof.
    pose proof (snb_sarc false x y W) as H. unfold snb, nbd in H. unfold sarc in H. rewrite Hund in H. exact H.
  Qed.
  Lemma arc_nodes x y : arc g x y -> In x (get_node_list g) /\ In y (get_node_list g).
  Proof.
    intros A. assert (In y (snb g false x)) by (apply (snb_sarc false x y W); unfold sarc; rewrite Hund; exact A).
    split; [|eapply snb_V; eauto]. assert (A' : arc g y x) by (unfold arc in *; rewrite check_edge_sym; assumption).
    assert (In x (snb g false y)) by (apply (snb_sarc false y x W); unfold sarc; rewrite Hund; exact A'). eapply snb_V; eauto.
  Qed.
  Lemma in_nodes x : In x (get_node_list g) <-> In x (dkeys (g_nodes g)).
  Proof. unfold get_node_list. pose proof (wf_nodes W) as H. rewrite H. reflexivity. Qed.

  (* what never changes *)
  Record pfr (h : graph) : Prop := { pf_ss : same_shape g h; pf_cost : forall x y, eattr h x y "cost" = eattr g x y "cost";
    pf_disp : dget (g_attr g) "display" <> None -> dget (g_attr h) "display" <> None }.
  Lemma pf_node h x : pfr h -> In x (get_node_list g) -> In x (dkeys (g_nodes h)).
  Proof. intros F Hx. rewrite (ss_nodes (pf_ss F)). apply in_nodes; assumption. Qed.
  Lemma ok_nc h x a v (Q : unit -> graph -> Prop) : pfr h -> In x (get_node_list g) ->
    (forall k, pfr k -> (forall y, nattr k y "color" = if eqb a "color" && eqb y x then v else nattr h y "color") -> Q tt k) ->
    ok (set_node_attr x a v) h Q.
  Proof.
    intros F Hx HQ. apply ok_set_node_attr; [apply (pf_node F Hx)|]. intros k Hs Hn He Ha _ _. apply HQ.
    - constructor; [eapply ss_trans; [apply (pf_ss F)|assumption]| |rewrite Ha; apply (pf_disp F)]. intros. rewrite He. apply (pf_cost F).
    - intros y. rewrite Hn. destruct (eq_dec (y, "color") (x, a)) as [[= -> <-]|Hne]; [rewrite !eqb_refl; reflexivity|].
      destruct (eqb_spec a "color") as [->|]; [|reflexivity]. destruct (eqb_spec y x) as [->|]; [congruence|reflexivity].
  Qed.
  Lemma ok_ec h x y v (Q : unit -> graph -> Prop) : pfr h -> arc g x y ->
    (forall k, pfr k -> (forall z, nattr k z "color" = nattr h z "color") -> Q tt k) ->
    ok (set_edge_attr x y "color" v) h Q.
  Proof.
    intros F A HQ. apply ok_set_edge_attr; [apply (ss_wf (pf_ss F) W)| |].
    - rewrite (ss_check_edge x y (pf_ss F)). exact A.
    - intros k Hs Hn He Ha _ _. apply HQ; [|auto].
      constructor; [eapply ss_trans; [apply (pf_ss F)|assumption]| |rewrite Ha; apply (pf_disp F)]. intros. rewrite He. apply (pf_cost F).
  Qed.
  Lemma cost_get h x y (Q : val -> graph -> Prop) : pfr h -> arc g x y -> Q (VI (pz x y)) h -> ok (get_edge_attr x y "cost") h Q.
  Proof.
    intros F A HQ. apply ok_get_edge_attr with (v := VI (pz x y)); [|assumption]. rewrite (pf_cost F).
    destruct (Hcost (x := x) (y := y)) as [z Hz]; [unfold sarc; rewrite Hund; exact A|]. unfold eattr, edge_cost. rewrite Hz. reflexivity.
  Qed.

  (* the state of the loop, gr the finished nodes *)
  Record PI0 (pred : dict name name) (q : fq fr) (gr : list name) : Prop := {
    pi_src : ~ In s0 (dkeys pred);
    pi_nd : NoDup (dkeys pred);
    pi_noq : forall x, In x gr -> fq_prio q x = None;
    pi_prio : forall x p, ~ In x gr -> dget pred x = Some p -> fq_prio q x = Some (pz p x);
    pi_arc : forall x p, dget pred x = Some p -> arc g p x
  }.
  Definition green (gr : list name) (h : graph) : Prop := forall x, In x (get_node_list g) -> (nattr h x "color" = VS "green" <-> In x gr).
  Record PI (pred : dict name name) (q : fq fr) (gr : list name) (h : graph) : Prop := {
    pj_0 : PI0 pred q gr;
    pj_fr : pfr h;
    pj_green : green gr h;
    pj_relaxed : forall u v, In u gr -> In v (nb u) -> ~ In v gr -> exists z, fq_prio q v = Some z /\ (z <= pz u v)%Z;
    pj_pgr : forall x p, dget pred x = Some p -> In p gr;
    pj_st : (gr = [] /\ pred = [] /\ forall x, In x (els q) <-> x = s0) \/ (okg pred gr /\ forall x, In x (els q) -> In x (dkeys pred))
  }.
  (* the state inside the for loop over the neighbours of cur *)
  Record PJ (cur : name) (gr : list name) (pre : list name) (pred : dict name name) (q : fq fr) (h : graph) : Prop := {
    pk_0 : PI0 pred q (cur :: gr);
    pk_fr : pfr h;
    pk_green : green gr h;
    pk_relaxed : forall u v, In u gr -> In v (nb u) -> ~ In v (cur :: gr) -> exists z, fq_prio q v = Some z /\ (z <= pz u v)%Z;
    pk_done : forall v, In v pre -> ~ In v gr -> exists z, fq_prio q v = Some z /\ (z <= pz cur v)%Z;
    pk_pgr : forall x p, dget pred x = Some p -> In p (cur :: gr);
    pk_ok : okg pred (cur :: gr);
    pk_els : forall x, In x (els q) -> In x (dkeys pred)
  }.

  Lemma okg_nodes pred gr x : okg pred gr -> In x gr -> In x (get_node_list g).
  Proof.
    intros O. induction O as [|y p old Ho IH Hp Hpo Hx Hn Hm].
    - intros [<-|[]]. assumption.
    - intros [<-|Hx']; [|auto]. apply nb_arc in Hn. apply (arc_nodes Hn).
  Qed.

  Lemma ok_prim_edge cur gr pre n pred q h : PJ cur gr pre pred q h -> In n (nb cur) ->
    ok (prim_edge peek_item cur (pred, q) n) h (fun st k => PJ cur gr (pre ++ [n]) (fst st) (snd st) k).
  Proof.
    intros J Hn. pose proof (proj1 (nb_arc _ _) Hn) as A. pose proof (arc_nodes A) as [Vc Vn].
    assert (Hnc : n <> cur) by (intros ->; eapply Hloop; eauto).
    unfold prim_edge. apply ok_bind, ok_get_node_attr; [apply (pf_node (pk_fr J) Vn)|].
    destruct (eqb_spec (nattr h n "color") (VS "green")) as [Hg|Hg].
    { apply ok_ret. simpl. apply (pk_green J Vn) in Hg. destruct J; constructor; auto.
      intros v Hv Hvg. apply in_app_or in Hv as [Hv|[<-|[]]]; [auto|contradiction]. }
    assert (Hng : ~ In n gr) by (intros H; apply (pk_green J Vn) in H; contradiction).
    assert (Hng' : ~ In n (cur :: gr)) by (intros [?|?]; [congruence|contradiction]).
    apply ok_bind, ok_ec; [apply (pk_fr J)|exact A|]. intros k1 F1 C1.
    apply ok_bind. apply (cost_get F1 A). set (c := pz cur n).
    apply ok_bind.
    eapply ok_weaken with (Q := fun b k => k = k1 /\ (if b : bool then (In n (dkeys pred) -> exists p, fq_prio q n = Some p /\ (c < p)%Z) else exists p, fq_prio q n = Some p /\ (p <= c)%Z)).
    { destruct (dmem pred n) eqn:Hd; simpl.
      - apply dmem_In in Hd. pose proof Hd as Hd'. apply dget_exists in Hd as [p Hp]. pose proof (pi_prio (pk_0 J) Hng' Hp) as Hq.
        apply ok_bind. eapply ok_weaken; [apply ok_eq; cbn beta; rewrite (Hpk Hq); reflexivity|]. intros a s H; cbn beta in H; destruct H as [-> ->].
        apply ok_bind, ok_ret, ok_ret. split; [reflexivity|]. destruct (Z.ltb_spec c (pz p n)); eauto.
      - apply dmem_nIn in Hd. apply ok_ret. split; [reflexivity|]. contradiction. }
    intros better k [-> Hb]. apply ok_bind.
    assert (G1 : green gr k1) by (intros x Hx; rewrite C1; apply (pk_green J Hx)).
    destruct better.
    - apply ok_bind, ok_nc; [assumption..|]. intros k2 F2 C2. apply ok_bind, ok_nc; [assumption..|]. intros k3 F3 C3.
      apply ok_bind, ok_ret. apply ok_bind, ok_nc; [assumption..|]. intros k4 F4 C4. apply ok_ret.
      apply ok_bind, ok_ec; [assumption..|]. intros k5 F5 C5. apply ok_ret. cbn [fst snd].
      assert (Hq : forall y, fq_prio (fq_push q n (Some c)) y = if eq_dec n y then Some c else fq_prio q y) by (intros y; apply (pq_push Hpq)).
      assert (Hns : n <> s0).
      { intros ->. pose proof (pk_ok J) as O. clear - O Hng'. remember (cur :: gr) as l. clear Heql. induction O; simpl in Hng'; tauto. }
      assert (Hnz : forall z, fq_prio q n = Some z -> (c <= z)%Z).
      { intros z Hz. assert (Hin : In n (els q)) by (apply (pq_prio Hpq); congruence). apply (pk_els J) in Hin. destruct (Hb Hin) as (p & Hp & Hlt). rewrite Hz in Hp. injection Hp as ->. lia. }
      constructor.
      + constructor.
        * rewrite In_dkeys_dset. intros [?|?]; [congruence|]. apply (pi_src (pk_0 J)); assumption.
        * apply NoDup_dset, (pi_nd (pk_0 J)).
        * intros x Hx. rewrite Hq. destruct (eq_dec n x) as [<-|]; [contradiction|]. apply (pi_noq (pk_0 J) Hx).
        * intros x p Hx. rewrite Hq, dget_dset. destruct (eq_dec n x) as [<-|]; [intros [= <-]; reflexivity|]. apply (pi_prio (pk_0 J) Hx).
        * intros x p. rewrite dget_dset. destruct (eq_dec n x) as [<-|]; [intros [= <-]; assumption|]. apply (pi_arc (pk_0 J)).
      + assumption.
      + intros x Hx. rewrite C5, C4. cbn [andb]. change (eqb "color" "color") with true. cbn [andb]. destruct (eqb_spec x n) as [->|Hxn]; [split; [discriminate|contradiction]|].
        rewrite C3. change (eqb "label" "color") with false. cbn [andb]. rewrite C2. change (eqb "color" "color") with true. cbn [andb].
        destruct (eqb_spec x n) as [->|_]; [contradiction|]. apply G1; assumption.
      + intros u v Hu Hv Hvg. rewrite Hq. destruct (pk_relaxed J Hu Hv Hvg) as (z & Hz & Hle).
        destruct (eq_dec n v) as [<-|]; [|eauto]. eexists; split; [reflexivity|]. pose proof (Hnz z Hz). lia.
      + intros v Hv Hvg. rewrite Hq. destruct (eq_dec n v) as [<-|]; [eexists; split; [reflexivity|unfold c; lia]|].
        apply in_app_or in Hv as [Hv|[?|[]]]; [|contradiction]. apply (pk_done J); assumption.
      + intros x p. rewrite dget_dset. destruct (eq_dec n x) as [<-|]; [intros [= <-]; simpl; auto|]. apply (pk_pgr J).
      + apply okgr_ext with (2 := pk_ok J). intros x Hx. apply dget_dset_ne. intros ->; contradiction.
      + intros x Hx. apply (bag_push (pq_bag Hpq)) in Hx. apply In_dkeys_dset. destruct Hx as [->|Hx]; [auto|]. right. apply (pk_els J); assumption.
    - apply ok_ret. apply ok_bind, ok_ec; [assumption..|]. intros k5 F5 C5. apply ok_ret. cbn [fst snd].
      destruct J; constructor; auto.
      + intros x Hx. rewrite C5. apply G1; assumption.
      + intros v Hv Hvg. apply in_app_or in Hv as [Hv|[<-|[]]]; auto.
  Qed.

  Lemma ok_prim_body pred q gr h : PI pred q gr h ->
    ok (prim_body peek_item s0 (pred, q)) h (fun r k => match r with
      | inl (pred', q') => exists x, ~ In x gr /\ In x (get_node_list g) /\ PI pred' q' (x :: gr) k
      | inr pr => pr = pred /\ k = h /\ els q = [] end).
  Proof.
    intros J. unfold prim_body. destruct (fq_isEmpty q) eqn:He.
    { apply ok_ret. split; [reflexivity|]. split; [reflexivity|]. apply (bag_empty (pq_bag Hpq)); assumption. }
    assert (Hne : els q <> []) by (intros H; apply (bag_empty (pq_bag Hpq)) in H; congruence).
    destruct (bag_peek (pq_bag Hpq) Hne) as (cur & Hpc & Hin). destruct (bag_remove (pq_bag Hpq) Hin) as (q' & Hr & _ & Hsub & _).
    apply ok_bind. apply ok_lift with (a := cur); [assumption|]. apply ok_bind. apply ok_lift with (a := q'); [assumption|].
    assert (Hq : forall y, fq_prio q' y = if eq_dec cur y then None else fq_prio q y) by (intros y; apply (pq_remove Hpq y Hr)).
    assert (Hgc : ~ In cur gr).
    { intros H. apply (pi_noq (pj_0 J)) in H. apply (pq_prio Hpq) in Hin. contradiction. }
    assert (Hcs : cur = s0 /\ gr = [] /\ pred = [] \/ exists p, okg pred gr /\ dget pred cur = Some p).
    { destruct (pj_st J) as [(-> & -> & H)|[O H]]; [left; apply H in Hin; auto|right]. apply H in Hin. apply dget_exists in Hin as [p Hp]. eauto. }
    assert (Ho : okg pred (cur :: gr)).
    { destruct Hcs as [(-> & -> & ->)|(p & O & Hp)]; [constructor|].
      apply ok_add with (p := p); auto; [apply (pj_pgr J Hp)|apply nb_arc, (pi_arc (pj_0 J) Hp)|].
      intros u v Hu Hv Huv. rewrite !pz_eq. destruct (pj_relaxed J Hu Huv Hv) as (z & Hz & Hle).
      pose proof (pi_prio (pj_0 J) Hgc Hp) as Hpc'. pose proof (pq_peek Hpq Hpc Hpc' Hz). lia. }
    assert (Vc : In cur (get_node_list g)) by (apply (okg_nodes Ho); simpl; auto).
    apply ok_bind, ok_nc; [apply (pj_fr J)|assumption|]. intros k1 F1 C1.
    change (eqb "color" "color") with true in C1. cbn [andb] in C1.
    assert (G1 : green gr k1).
    { intros x Hx. rewrite C1. destruct (eqb_spec x cur) as [->|]; [split; [discriminate|contradiction]|]. apply (pj_green J Hx). }
    apply ok_bind. eapply ok_weaken with (Q := fun _ k => pfr k /\ green gr k).
    { destruct (eqb_spec cur s0) as [->|Hcs0]; [apply ok_ret; auto|].
      destruct Hcs as [(? & _)|(p & O & Hp)]; [contradiction|]. apply ok_bind. apply ok_lift with (a := p); [assumption|].
      apply ok_ec; [assumption|apply (pi_arc (pj_0 J) Hp)|]. intros k2 F2 C2. split; [assumption|]. intros x Hx. rewrite C2. auto. }
    intros _ k2 [F2 G2].
    apply ok_bind. unfold nbr_list. pose proof (ss_nbrs (pf_ss F2)) as HN.
    assert (Hd : exists l, dget (g_nbrs g) cur = Some l) by (apply dget_exists; exact Vc).
    destruct Hd as [l Hl]. eapply ok_weaken; [apply ok_eq; rewrite HN, Hl; reflexivity|]. intros a s H; cbn beta in H; destruct H as [-> ->].
    assert (Hll : l = nb cur) by (unfold list_at; rewrite Hl; reflexivity). rewrite Hll.
    apply ok_bind. apply ok_foldM with (I := fun pre st k => PJ cur gr pre (fst st) (snd st) k).
    - cbn [fst snd]. constructor; auto.
      + destruct (pj_0 J) as [A1 A2 A3 A4 A5]. constructor; auto.
        * intros x [<-|Hx]; rewrite Hq; [destruct (eq_dec cur cur); congruence|]. destruct (eq_dec cur x); [reflexivity|auto].
        * intros x p Hx. rewrite Hq. destruct (eq_dec cur x) as [->|]; [simpl in Hx; tauto|]. apply A4. simpl in Hx; tauto.
      + intros u v Hu Hv Hvg. rewrite Hq. destruct (eq_dec cur v) as [->|]; [simpl in Hvg; tauto|]. apply (pj_relaxed J Hu Hv). simpl in Hvg; tauto.
      + intros v [].
      + intros x p Hp. right. apply (pj_pgr J Hp).
      + intros x Hx. destruct (pj_st J) as [(-> & -> & H)|[O H]]; [|apply H, Hsub; assumption].
        exfalso. assert (x = s0) by (apply H, Hsub; assumption). assert (cur = s0) by (apply H; assumption). subst x cur.
        apply (pq_prio Hpq) in Hx. rewrite Hq in Hx. destruct (eq_dec s0 s0); congruence.
    - intros pre n post [pr q2] k Hsp HJ. apply ok_prim_edge; [exact HJ|]. rewrite Hsp. apply in_or_app; simpl; auto.
    - intros [pr q2] k HJ. cbn [fst snd] in HJ. apply ok_bind, ok_nc; [apply (pk_fr HJ)|assumption|]. intros k3 F3 C3.
      change (eqb "color" "color") with true in C3. cbn [andb] in C3. apply ok_ret. exists cur. split; [assumption|]. split; [assumption|]. constructor.
      + apply (pk_0 HJ).
      + assumption.
      + intros x Hx. rewrite C3. destruct (eqb_spec x cur) as [->|Hxc]; [simpl; tauto|]. rewrite (pk_green HJ Hx). simpl. split; [auto|]. intros [?|?]; [congruence|assumption].
      + intros u v [<-|Hu] Hv Hvg; [apply (pk_done HJ); [assumption|simpl in Hvg; tauto]|apply (pk_relaxed HJ Hu Hv Hvg)].
      + apply (pk_pgr HJ).
      + right. split; [apply (pk_ok HJ)|apply (pk_els HJ)].
  Qed.

  Variable q0 : fq fr.
  Hypothesis Hq0 : els q0 = [].
  Hypothesis Hgreen : forall x, In x (get_node_list g) -> nattr g x "color" <> VS "green".
  Variable display : option val.
  Hypothesis Hdisp : display = None -> dget (g_attr g) "display" <> None.
  Variable fuel : nat.
  Hypothesis Hfuel : length (get_node_list g) < fuel.

  Lemma PI_init h : pfr h -> green [] h -> PI [] (fq_push q0 s0 None) [] h.
  Proof.
    intros F G. constructor; auto; try discriminate.
    - constructor; simpl; auto; try discriminate; try contradiction. constructor.
    - intros u v [].
    - left. split; [reflexivity|]. split; [reflexivity|]. intros x. rewrite (bag_push (pq_bag Hpq)), Hq0. simpl. tauto.
  Qed.
  Lemma okg_nd pred gr : okg pred gr -> NoDup gr.
  Proof. apply okgr_nodup. Qed.
  Lemma prim_run : ok (minimum_spanning_tree_prim peek_item fuel s0 display q0) g (fun pred k => exists q gr, PI pred q gr k /\ els q = []).
  Proof.
    unfold minimum_spanning_tree_prim. rewrite (pq_is_pq Hpq). apply ok_bind.
    eapply ok_weaken with (Q := fun _ k => pfr k /\ green [] k).
    { assert (G0 : green [] g) by (intros x Hx; split; [intros H; destruct (Hgreen Hx H)|intros []]).
      unfold enter_display. destruct display as [v|].
      - unfold set_graph_attr. apply ok_modify. split; [constructor; [constructor; reflexivity|reflexivity|]|exact G0]. intros _. simpl. rewrite dget_dset_eq. discriminate.
      - apply ok_bind, ok_gets. destruct (dget (g_attr g) "display") as [d|] eqn:Hd; [|destruct (Hdisp eq_refl eq_refl)].
        apply ok_bind. apply ok_lift with (a := d); [reflexivity|]. apply ok_ret. split; [|exact G0]. constructor; [apply ss_refl|reflexivity|auto]. }
    intros _ k [F G].
    assert (Lk : forall fuel st k, (exists gr, PI (fst st) (snd st) gr k /\ length (get_node_list g) - length gr < fuel) -> ok (loop fuel (prim_body peek_item s0) st) k (fun pred k => exists q gr, PI pred q gr k /\ els q = [])).
    { clear fuel Hfuel k F G. induction fuel as [|f IH]; intros [pred q] k (gr & J & Hlt); [lia|]. cbn [fst snd] in J. cbn [loop].
      apply ok_bind. eapply ok_weaken; [apply (ok_prim_body J)|]. intros [[pred' q']|pr] k' Hk; cbn beta iota in Hk.
      - destruct Hk as (x & Hx & Vx & J'). apply IH. exists (x :: gr). split; [exact J'|].
        assert (Hnd : NoDup (x :: gr)) by (destruct (pj_st J') as [(? & _)|[O _]]; [discriminate|apply (okg_nd O)]).
        assert (Hle : length (x :: gr) <= length (get_node_list g)).
        { apply NoDup_incl_length; [assumption|]. intros y Hy. destruct (pj_st J') as [(? & _)|[O _]]; [discriminate|]. apply (okg_nodes O Hy). }
        simpl in Hle |- *. lia.
      - destruct Hk as (-> & -> & He). apply ok_ret. exists q, gr. auto. }
    apply Lk. exists []. split; [apply PI_init; assumption|simpl; lia].
  Qed.

  Theorem prim_method_mst : exists h pred, minimum_spanning_tree_prim peek_item fuel s0 display q0 g = (h, Ok pred) /\
    forall Es, component_edges g s0 Es ->
      min_spanning_forest (fun e => edge_cost g (fst e) (snd e)) Es (pred_edges g pred) /\
      ((forall e, In e Es -> 0 <= edge_cost g (fst e) (snd e))%Z -> min_connecting (fun e => edge_cost g (fst e) (snd e)) Es (pred_edges g pred)) /\
      (forall x, In x (dkeys pred) <-> x <> s0 /\ reach (arc g) s0 x).
  Proof.
    destruct (ok_ex prim_run) as (h & pred & Hr & q & gr & J & He). exists h, pred. split; [assumption|]. intros Es HEs.
    set (c := fun e : edge => edge_cost g (fst e) (snd e)).
    assert (O : okg pred gr).
    { destruct (pj_st J) as [(_ & _ & H)|[O _]]; [|assumption]. exfalso. assert (Hi : In s0 (els q)) by (apply H; reflexivity). rewrite He in Hi. destruct Hi. }
    pose proof (pi_src (pj_0 J)) as Hsp.
    assert (Hnone : forall x z, fq_prio q x = Some z -> False).
    { intros x z Hz. assert (Hi : In x (els q)) by (apply (pq_prio Hpq); congruence). rewrite He in Hi. destruct Hi. }
    assert (Hpg : forall x, In x (dkeys pred) -> In x gr).
    { intros x Hx. destruct (in_dec eq_dec x gr) as [|Hn]; [assumption|]. apply dget_exists in Hx as [p Hp]. destruct (Hnone _ _ (pi_prio (pj_0 J) Hn Hp)). }
    assert (Hsg : In s0 gr) by (clear - O; induction O; simpl; auto).
    assert (HrE : forall x, reach (fun x y => In y (nb x)) s0 x <-> reach (arc g) s0 x) by (intros; apply reach_iff; intros; apply nb_arc).
    assert (Hall : forall x, reach (arc g) s0 x -> In x gr).
    { intros x. apply (reach_closed (P := fun y => In y gr)); [assumption|]. intros y z IH A.
      destruct (in_dec eq_dec z gr) as [|Hn]; [assumption|]. destruct (pj_relaxed J IH (proj2 (nb_arc _ _) A) Hn) as (w & Hw & _). destruct (Hnone _ _ Hw). }
    assert (Hgr : forall x, In x gr -> x = s0 \/ In x (dkeys pred)).
    { intros x Hx. clear - O Hx. induction O as [|y p old Ho IH Hp Hpo Hy Hn Hm]; [destruct Hx as [<-|[]]; auto|]. destruct Hx as [<-|Hx]; [|auto]. right. eapply dget_Some_keys; eauto. }
    assert (Hlist : forall p x, listed g p x = (p, x) \/ listed g p x = (x, p)) by (intros; unfold listed; destruct (mem _ _); auto).
    assert (Harc : forall p x, arc g p x <-> In (listed g p x) (get_edge_list g)).
    { intros p x. unfold arc, check_edge. rewrite Hund. unfold listed. destruct (mem_spec (p, x) (get_edge_list g)) as [Hi|Hi].
      - split; [auto|]. intros _. apply dmem_In in Hi. rewrite Hi. reflexivity.
      - pose proof Hi as Hi'. apply dmem_nIn in Hi. rewrite Hi. simpl. apply dmem_In. }
    assert (HEn : forall p x, reach (fun x y => In y (nb x)) s0 p -> In x (nb p) -> In (listed g p x) Es).
    { intros p x Hp Hx. apply HEs. apply nb_arc in Hx. split; [apply Harc; assumption|].
      apply HrE in Hp. destruct (Hlist p x) as [-> | ->]; simpl; [assumption|]. eapply reach_step; eauto. }
    assert (Hsym : forall x y, pz x y = pz y x) by (intros; apply edge_cost_sym; assumption).
    assert (HE : forall x y, In (x, y) Es -> In y (nb x) /\ In x (nb y) /\ c (x, y) = P_Prim.pz (fun x y => Some (pz x y)) x y /\ c (x, y) = P_Prim.pz (fun x y => Some (pz x y)) y x /\
        reach (fun x y => In y (nb x)) s0 x /\ reach (fun x y => In y (nb x)) s0 y).
    { intros x y Hxy. apply HEs in Hxy as [H1 H2]. simpl in H2.
      assert (A : arc g x y) by (unfold arc, check_edge; rewrite Hund; assert (H1' : dmem (g_edges g) (x, y) = true) by (apply dmem_In; exact H1); rewrite H1'; reflexivity).
      assert (A' : arc g y x) by (unfold arc in *; rewrite check_edge_sym; assumption).
      rewrite !nb_arc, !HrE, !pz_eq. unfold c; simpl. repeat split; auto. eapply reach_step; eauto. }
    assert (Hcn : forall p x, In x (nb p) -> c (listed g p x) = P_Prim.pz (fun x y => Some (pz x y)) p x).
    { intros p x _. rewrite pz_eq. unfold c. destruct (Hlist p x) as [-> | ->]; simpl; [reflexivity|apply Hsym]. }
    set (T := tedges (listed g) pred gr).
    assert (F1 : cutseq c Es T) by (eapply okgr_cutseq; eauto).
    assert (F2 : spanning Es T).
    { split; [apply (cutseq_incl F1)|]. apply conn_sub. intros x y Hxy. destruct (HE _ _ Hxy) as (_ & _ & _ & _ & R1 & R2). apply HrE in R1, R2.
      eapply conn_trans; [apply conn_sym|]; eapply okgr_conn; eauto. }
    assert (F3 : Permutation T (pred_edges g pred)).
    { set (f := fun x : name => match dget pred x with Some p => [listed g p x] | None => [] end).
      assert (HP : Permutation gr (s0 :: dkeys pred)).
      { apply NoDup_Permutation; [apply (okg_nd O)|constructor; [assumption|apply (pi_nd (pj_0 J))]|].
        intros x. split; [intros Hx; destruct (Hgr x Hx); simpl; auto|intros [<-|Hx]; auto]. }
      unfold T, tedges. fold f. transitivity (flat_map f (s0 :: dkeys pred)); [apply Permutation_flat_map; assumption|].
      simpl. unfold f at 1. apply dget_None in Hsp. rewrite Hsp. simpl.
      assert (Hf : forall d, (forall x p, In (x, p) d -> dget pred x = Some p) -> flat_map f (dkeys d) = map (fun e => listed g (snd e) (fst e)) d).
      { induction d as [|[x p] d IH]; intros Hd; [reflexivity|]. simpl. unfold f at 1. rewrite (Hd x p) by (simpl; auto). simpl. f_equal. apply IH. intros; apply Hd; simpl; auto. }
      unfold pred_edges. rewrite Hf; [reflexivity|]. intros x p Hx. apply In_dget; [apply (pi_nd (pj_0 J))|assumption]. }
    split; [apply (msf_perm F3), cutseq_min; assumption|]. split.
    - intros H0. apply (mc_perm F3). eapply cutseq_connecting; eauto.
    - intros x. split.
      + intros Hx. split; [intros ->; contradiction|]. apply HrE. eapply okgr_reach; [exact O|auto].
      + intros [Hx R]. destruct (Hgr x (Hall x R)); [contradiction|assumption].
  Qed.
  (* from a state in which every neighbour of the source is green nothing is found *)
  Lemma prim_green h (disp : option val) f : pfr h -> (disp = None -> dget (g_attr h) "display" <> None) ->
    (forall x, In x (nb s0) -> nattr h x "color" = VS "green") -> 2 <= f ->
    ok (minimum_spanning_tree_prim peek_item f s0 disp q0) h (fun pred _ => pred = []).
  Proof.
    intros F Hd Hg Hf. unfold minimum_spanning_tree_prim. rewrite (pq_is_pq Hpq). apply ok_bind.
    eapply ok_weaken with (Q := fun _ k => pfr k /\ forall x, In x (nb s0) -> nattr k x "color" = VS "green").
    { unfold enter_display. destruct disp as [v|].
      - unfold set_graph_attr. apply ok_modify. split; [|exact Hg]. destruct F as [S1 S2 S3]. constructor; [|exact S2|].
        + apply (ss_trans S1). constructor; reflexivity.
        + intros _. simpl. rewrite dget_dset_eq. discriminate.
      - apply ok_bind, ok_gets. destruct (dget (g_attr h) "display") as [d|] eqn:Hd'; [|destruct (Hd eq_refl eq_refl)].
        apply ok_bind. apply ok_lift with (a := d); [reflexivity|]. apply ok_ret. auto. }
    intros _ k [Fk Gk]. destruct f as [|[|f]]; [lia|lia|]. cbn [loop].
    set (q := fq_push q0 s0 None).
    assert (Hels : forall x, In x (els q) <-> x = s0) by (intros x; unfold q; rewrite (bag_push (pq_bag Hpq)), Hq0; simpl; tauto).
    assert (Hin : In s0 (els q)) by (apply Hels; reflexivity).
    assert (Hne : els q <> []) by (intros H; rewrite H in Hin; destruct Hin).
    assert (He : fq_isEmpty q = false) by (destruct (fq_isEmpty q) eqn:E; [|reflexivity]; apply (bag_empty (pq_bag Hpq)) in E; contradiction).
    destruct (bag_peek (pq_bag Hpq) Hne) as (cur & Hpc & Hcur). apply Hels in Hcur. subst cur.
    destruct (bag_remove (pq_bag Hpq) Hin) as (q' & Hr & _ & Hsub & _).
    assert (Hq' : els q' = []).
    { destruct (els q') as [|y t] eqn:Eq; [reflexivity|]. exfalso. assert (Hy : In y (els q')) by (rewrite Eq; simpl; auto). assert (Hys : y = s0) by (apply (proj1 (Hels y)), Hsub; simpl; auto). subst y.
      apply (pq_prio Hpq) in Hy. rewrite (pq_remove Hpq _ Hr) in Hy. destruct (eq_dec s0 s0); congruence. }
    apply ok_bind. eapply ok_weaken with (Q := fun r _ => r = inl ([], q')).
    { unfold prim_body. rewrite He. apply ok_bind. apply ok_lift with (a := s0); [assumption|]. apply ok_bind. apply ok_lift with (a := q'); [assumption|].
      apply ok_bind, ok_nc; [assumption..|]. intros k1 F1 C1. rewrite eqb_refl. apply ok_bind, ok_ret.
      apply ok_bind. unfold nbr_list. pose proof (ss_nbrs (pf_ss F1)) as HN.
      assert (Hdl : exists l, dget (g_nbrs g) s0 = Some l) by (apply dget_exists; exact Hs0).
      destruct Hdl as [l Hl]. eapply ok_weaken; [apply ok_eq; rewrite HN, Hl; reflexivity|]. intros a s H; cbn beta in H; destruct H as [-> ->].
      assert (Hll : l = nb s0) by (unfold list_at; rewrite Hl; reflexivity).
      apply ok_bind. apply ok_foldM with (I := fun _ st k => st = ([], q') /\ k = k1); [auto| |].
      - intros pre n post st k2 Hsp [-> ->]. assert (Hn : In n (nb s0)) by (rewrite <- Hll, Hsp; apply in_or_app; simpl; auto).
        pose proof (proj1 (nb_arc _ _) Hn) as A. unfold prim_edge. apply ok_bind, ok_get_node_attr; [apply (pf_node F1), (arc_nodes A)|].
        rewrite C1. assert (Hns : n <> s0) by (intros ->; eapply Hloop; eauto). destruct (eqb_spec n s0) as [->|_]; [contradiction|]. rewrite Bool.andb_false_r.
        rewrite (Gk n Hn), eqb_refl. apply ok_ret. auto.
      - intros st k2 [-> ->]. apply ok_bind, ok_nc; [assumption..|]. intros k3 _ _. apply ok_ret. reflexivity. }
    intros r k1 ->. apply ok_bind. unfold prim_body. assert (He' : fq_isEmpty q' = true) by (apply (bag_empty (pq_bag Hpq)); assumption). rewrite He'. apply ok_ret, ok_ret. reflexivity.
  Qed.
  (* so a second call finds nothing *)
  Lemma prim_twice : exists h pred, minimum_spanning_tree_prim peek_item fuel s0 display q0 g = (h, Ok pred) /\
    forall display' fuel', (display' = None -> dget (g_attr g) "display" <> None) -> 2 <= fuel' ->
      exists k, minimum_spanning_tree_prim peek_item fuel' s0 display' q0 h = (k, Ok []).
  Proof.
    destruct (ok_ex prim_run) as (h & pred & Hr & q & gr & J & He). exists h, pred. split; [assumption|]. intros d f Hd Hf.
    assert (Hall : forall x, In x (nb s0) -> nattr h x "color" = VS "green").
    { intros x Hx. apply (pj_green J); [apply (arc_nodes (proj1 (nb_arc _ _) Hx))|].
      destruct (pj_st J) as [(_ & _ & H)|[O _]]; [exfalso; assert (Hi : In s0 (els q)) by (apply H; reflexivity); rewrite He in Hi; destruct Hi|].
      assert (Hsg : In s0 gr) by (clear - O; induction O; simpl; auto).
      destruct (in_dec eq_dec x gr) as [|Hn]; [assumption|]. destruct (pj_relaxed J Hsg Hx Hn) as (w & Hw & _).
      exfalso. assert (Hi : In x (els q)) by (apply (pq_prio Hpq); congruence). rewrite He in Hi. destruct Hi. }
    destruct (ok_ex (prim_green (h := h) (disp := d) (f := f) (pj_fr J) (fun H => pf_disp (pj_fr J) (Hd H)) Hall Hf)) as (k & pr & Hk & ->). eauto.
  Qed.
End PM.
