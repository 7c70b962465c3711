(* max_flow_preflowpush: the methods process_edge_flow, relabel and show_flow, and the loop over active nodes. *)
From Verif Require Import Py Util M_Graph M_Metrics P_Graph P_GraphLaws Spec P_Walk P_Attr M_Search S_Frontier P_Frontier M_Flow S_Flow S_GraphFlow P_Flow P_EdgeFrame P_MaxFlow M_Preflow P_PreflowAbs.
Set Implicit Arguments. Unset Strict Implicit.
Local Open Scope string_scope. Local Open Scope list_scope.

(** ** loops with an invariant indexed by a bound, and without one *)
Lemma ok_loop_n {S L R} (body : L -> M S (L + R)) (I : nat -> L -> S -> Prop) (Q : R -> S -> Prop) fuel : forall n l s,
  I n l s -> n < fuel ->
  (forall n l s, I n l s -> ok (body l) s (fun r s' => match r with inl l' => exists n', n' < n /\ I n' l' s' | inr r => Q r s' end)) ->
  ok (loop fuel body l) s Q.
Proof.
  induction fuel as [|fuel IH]; intros n l s HI Hn Hb; [lia|]. cbn [loop]. apply ok_bind. eapply ok_weaken; [apply (Hb _ _ _ HI)|].
  intros [l'|r] s' H; cbn beta iota in H; [|apply ok_ret, H]. destruct H as (n' & Hn' & HI'). apply (IH n' l' s' HI'); [lia|exact Hb].
Qed.
Lemma loop_partial {S L R} (body : L -> M S (L + R)) (I : L -> S -> Prop) (Q : R -> S -> Prop) fuel : forall l s, I l s ->
  (forall l s, I l s -> ok (body l) s (fun r s' => match r with inl l' => I l' s' | inr r => Q r s' end)) ->
  snd (loop fuel body l s) = Err OutOfFuel \/ ok (loop fuel body l) s Q.
Proof.
  induction fuel as [|fuel IH]; intros l s HI Hb; [left; reflexivity|]. cbn [loop].
  pose proof (Hb l s HI) as H. apply ok_ex in H as (s' & r & E & H). rewrite (bind_ok _ E). destruct r as [l'|r]; cbn beta iota in H.
  - destruct (IH l' s' H Hb) as [O|O]; [left; exact O|right]. apply ok_bind. eapply ok_weaken; [apply ok_eq; exact E|]. intros u k Hk; cbn beta in Hk; destruct Hk as [-> ->]. exact O.
  - right. apply ok_bind. eapply ok_weaken; [apply ok_eq; exact E|]. intros u k Hk; cbn beta in Hk; destruct Hk as [-> ->]. apply ok_ret, H.
Qed.

(** ** containers without repetitions *)
Section NoRep.
  Variables (fr : frontier) (els : fq fr -> list name).
  Hypothesis B : bag els.
  Lemma push_nodup q x p : NoDup (els q) -> ~ In x (els q) -> NoDup (els (fq_push q x p)).
  Proof.
    intros Hn Hx. apply (@NoDup_incl_NoDup _ (x :: els q)); [constructor; assumption| |].
    - pose proof (bag_push_len B q x p). simpl. lia.
    - intros y [<-|Hy]; apply (bag_push B); auto.
  Qed.
  Lemma remove_nodup q x : NoDup (els q) -> In x (els q) -> exists q', fq_remove q x = Some q' /\ NoDup (els q') /\ forall y, In y (els q') <-> In y (els q) /\ y <> x.
  Proof.
    intros Hn Hx. destruct (bag_remove B Hx) as (q' & E & L & H1 & H2). exists q'. split; [exact E|].
    set (r := filter (fun y => negb (eqb y x)) (els q)).
    assert (Hr : forall y, In y r <-> In y (els q) /\ y <> x).
    { intros y. unfold r. rewrite filter_In. destruct (eqb_spec y x); simpl; intuition congruence. }
    assert (Nr : NoDup r) by (apply NoDup_filter, Hn).
    assert (I1 : incl r (els q')) by (intros y Hy; apply Hr in Hy as [Hy1 Hy2]; auto).
    assert (Lr : length (els q) <= S (length r)).
    { change (S (length r)) with (length (x :: r)). apply NoDup_incl_length; [exact Hn|]. intros y Hy. destruct (eq_dec y x) as [->|]; [left; reflexivity|right; apply Hr; auto]. }
    assert (Nq : NoDup (els q')) by (apply (NoDup_incl_NoDup Nr); [lia|exact I1]).
    assert (I2 : incl (els q') r) by (apply (NoDup_length_incl Nr); [lia|exact I1]).
    split; [exact Nq|]. intros y. rewrite <- Hr. split; [apply I2|apply I1].
  Qed.
End NoRep.

Definition pnattrs : list string := ["excess"; "distance"; "label"; "color"; "component"; "priority"; "depth"].
(* h is g up to the node attributes pnattrs, the edge attributes fattrs and the display mode *)
Record pframe (g h : graph) : Prop := {
  pr_shape : same_shape g h;
  pr_nodes : forall x b, ~ In b pnattrs -> nattr h x b = nattr g x b;
  pr_edges : forall x y b, ~ In b fattrs -> eattr h x y b = eattr g x y b;
  pr_attr : forall a, a <> "display" -> dget (g_attr h) a = dget (g_attr g) a;
  pr_ncomp : g_ncomp h = g_ncomp g
}.
Lemma pframe_refl g : pframe g g.
Proof. constructor; auto. apply ss_refl. Qed.
Lemma pframe_trans g h k : pframe g h -> pframe h k -> pframe g k.
Proof.
  intros [A1 A2 A3 A4 A5] [B1 B2 B3 B4 B5]. constructor; [apply (ss_trans A1 B1)|..]; intros.
  - rewrite B2, A2; auto.
  - rewrite B3, A3; auto.
  - rewrite B4, A4; auto.
  - congruence.
Qed.

Section Preflow.
  Variable g0 : graph.
  Hypothesis W0 : wf g0.
  Hypothesis D0 : g_type g0 = Directed.
  Notation es := (get_edge_list g0).
  Notation nodes := (get_node_list g0).
  Notation fn := (name * name -> Z).
  Notation lab := (name -> Z).
  Variable c : fn.

  (* the state of the graph: flows f, excesses e, distances d; dm is the display mode *)
  Variable dm : option val.
  Record PF (f : fn) (e d : lab) (h : graph) : Prop := {
    pf_fr : pframe g0 h;
    pf_cap : forall x y, In (x, y) es -> eattr h x y "capacity" = Some (VI (c (x, y)));
    pf_flow : forall x y, In (x, y) es -> eattr h x y "flow" = Some (VI (f (x, y)));
    pf_ex : forall x, In x nodes -> nattr h x "excess" = VI (e x);
    pf_di : forall x, In x nodes -> nattr h x "distance" = VI (d x);
    pf_dm : dget (g_attr h) "display" = dm
  }.
  Section State.
    Variables (f : fn) (e d : lab) (h : graph).
    Hypothesis P : PF f e d h.
    Lemma pf_wf : wf h.
    Proof. apply (ss_wf (pr_shape (pf_fr P)) W0). Qed.
    Lemma pf_dir : g_type h = Directed.
    Proof. rewrite (ss_type (pr_shape (pf_fr P))). exact D0. Qed.
    Lemma pf_edges : get_edge_list h = es.
    Proof. apply (ss_edges (pr_shape (pf_fr P))). Qed.
    Lemma pf_nodes : get_node_list h = nodes.
    Proof. apply (ss_node_list (pr_shape (pf_fr P))). Qed.
    Lemma pf_nbrs x : list_at (g_nbrs h) x = list_at (g_nbrs g0) x.
    Proof. rewrite (ss_nbrs (pr_shape (pf_fr P))). reflexivity. Qed.
    Lemma pf_ins x : list_at (g_in h) x = list_at (g_in g0) x.
    Proof. rewrite (ss_in (pr_shape (pf_fr P))). reflexivity. Qed.
    Lemma pf_node_keys x : In x nodes -> In x (dkeys (g_nodes h)).
    Proof. intros Hx. rewrite (ss_nodes (pr_shape (pf_fr P))), (wf_nodes W0). exact Hx. Qed.
    Lemma ok_nbrs x (Q : list name -> graph -> Prop) : In x nodes -> Q (list_at (g_nbrs g0) x) h -> ok (get_neighbors x) h Q.
    Proof. intros Hx HQ. apply ok_nbr_list; [rewrite pf_nodes; exact Hx|]. rewrite pf_nbrs. exact HQ. Qed.
    Lemma ok_ins x (Q : list name -> graph -> Prop) : In x nodes -> Q (list_at (g_in g0) x) h -> ok (get_in_neighbors x) h Q.
    Proof. intros Hx HQ. apply (ok_in_list pf_wf pf_dir); [rewrite pf_nodes; exact Hx|]. rewrite pf_ins. exact HQ. Qed.
    Lemma ok_nodes (Q : list name -> graph -> Prop) : Q nodes h -> ok (gets get_node_list) h Q.
    Proof. intros HQ. apply ok_gets. rewrite pf_nodes. exact HQ. Qed.
    Lemma ok_get_ex x (Q : val -> graph -> Prop) : In x nodes -> Q (VI (e x)) h -> ok (get_node_attr x "excess") h Q.
    Proof. intros Hx HQ. apply ok_get_node_attr; [apply pf_node_keys, Hx|]. rewrite (pf_ex P Hx). exact HQ. Qed.
    Lemma ok_get_di x (Q : val -> graph -> Prop) : In x nodes -> Q (VI (d x)) h -> ok (get_node_attr x "distance") h Q.
    Proof. intros Hx HQ. apply ok_get_node_attr; [apply pf_node_keys, Hx|]. rewrite (pf_di P Hx). exact HQ. Qed.
    Lemma ok_int_ex x (Q : Z -> graph -> Prop) : In x nodes -> Q (e x) h -> ok (node_int x "excess") h Q.
    Proof. intros Hx HQ. unfold node_int. apply ok_bind, (ok_get_ex Hx). apply ok_as_int, HQ. Qed.
    Lemma ok_int_di x (Q : Z -> graph -> Prop) : In x nodes -> Q (d x) h -> ok (node_int x "distance") h Q.
    Proof. intros Hx HQ. unfold node_int. apply ok_bind, (ok_get_di Hx). apply ok_as_int, HQ. Qed.
    Lemma ok_get_cap x y (Q : val -> graph -> Prop) : In (x, y) es -> Q (VI (c (x, y))) h -> ok (get_edge_attr x y "capacity") h Q.
    Proof. intros He HQ. eapply ok_get_edge_attr; [apply (pf_cap P He)|exact HQ]. Qed.
    Lemma ok_get_flow x y (Q : val -> graph -> Prop) : In (x, y) es -> Q (VI (f (x, y))) h -> ok (get_edge_attr x y "flow") h Q.
    Proof. intros He HQ. eapply ok_get_edge_attr; [apply (pf_flow P He)|exact HQ]. Qed.
    Lemma ok_int_cap x y (Q : Z -> graph -> Prop) : In (x, y) es -> Q (c (x, y)) h -> ok (edge_int x y "capacity") h Q.
    Proof. intros He HQ. unfold edge_int. apply ok_bind, (ok_get_cap He). apply ok_as_int, HQ. Qed.
    Lemma ok_int_flow x y (Q : Z -> graph -> Prop) : In (x, y) es -> Q (f (x, y)) h -> ok (edge_int x y "flow") h Q.
    Proof. intros He HQ. unfold edge_int. apply ok_bind, (ok_get_flow He). apply ok_as_int, HQ. Qed.
    Lemma ok_egetflow a (Q : val -> graph -> Prop) : In a es -> Q (VI (f a)) h -> ok (edge_get a "flow") h Q.
    Proof. destruct a as [x y]. intros He HQ. eapply ok_edge_get; [apply pf_dir|apply (pf_flow P He)|exact HQ]. Qed.
    Lemma pf_mem_edge x y : dmem (g_edges h) (x, y) = mem (x, y) es.
    Proof. pose proof pf_edges as E. unfold get_edge_list in *. destruct (dmem_spec (g_edges h) (x, y)) as [H|H], (mem_spec (x, y) (dkeys (g_edges g0))) as [K|K]; congruence. Qed.

    Lemma set_node_frame x a v h' : same_shape h h' -> In a pnattrs -> (forall y b, nattr h' y b = if eq_dec (y, b) (x, a) then v else nattr h y b) ->
      (forall y z b, eattr h' y z b = eattr h y z b) -> g_attr h' = g_attr h -> g_ncomp h' = g_ncomp h -> pframe g0 h'.
    Proof.
      intros S Ha N E A C. apply (pframe_trans (pf_fr P)). constructor; auto.
      - intros y b Hb. rewrite N. destruct (eq_dec (y, b) (x, a)) as [[= -> ->]|]; [contradiction|reflexivity].
      - intros b _. rewrite A. reflexivity.
    Qed.
    Lemma ok_set_ex x {v} (Q : unit -> graph -> Prop) : In x nodes -> (forall h', PF f (upd e x v) d h' -> Q tt h') -> ok (set_node_attr x "excess" (VI v)) h Q.
    Proof.
      intros Hx HQ. apply ok_set_node_attr; [apply pf_node_keys, Hx|]. intros h' S N E A C _. apply HQ. constructor.
      - apply (set_node_frame S (x := x) (a := "excess") (v := VI v)); auto. simpl; tauto.
      - intros y z Hz. rewrite E. apply (pf_cap P Hz).
      - intros y z Hz. rewrite E. apply (pf_flow P Hz).
      - intros y Hy. rewrite N. unfold upd. destruct (eqb_spec y x) as [->|Hne].
        + destruct (eq_dec (x, "excess") (x, "excess")); [reflexivity|congruence].
        + destruct (eq_dec (y, "excess") (x, "excess")); [congruence|apply (pf_ex P Hy)].
      - intros y Hy. rewrite N. destruct (eq_dec (y, "distance") (x, "excess")); [discriminate|apply (pf_di P Hy)].
      - rewrite A. apply P.
    Qed.
    Lemma ok_set_di x {v} (Q : unit -> graph -> Prop) : In x nodes -> (forall h', PF f e (upd d x v) h' -> Q tt h') -> ok (set_node_attr x "distance" (VI v)) h Q.
    Proof.
      intros Hx HQ. apply ok_set_node_attr; [apply pf_node_keys, Hx|]. intros h' S N E A C _. apply HQ. constructor.
      - apply (set_node_frame S (x := x) (a := "distance") (v := VI v)); auto. simpl; tauto.
      - intros y z Hz. rewrite E. apply (pf_cap P Hz).
      - intros y z Hz. rewrite E. apply (pf_flow P Hz).
      - intros y Hy. rewrite N. destruct (eq_dec (y, "excess") (x, "distance")); [discriminate|apply (pf_ex P Hy)].
      - intros y Hy. rewrite N. unfold upd. destruct (eqb_spec y x) as [->|Hne].
        + destruct (eq_dec (x, "distance") (x, "distance")); [reflexivity|congruence].
        + destruct (eq_dec (y, "distance") (x, "distance")); [congruence|apply (pf_di P Hy)].
      - rewrite A. apply P.
    Qed.
    Lemma ok_set_nlabel x {v} (Q : unit -> graph -> Prop) : In x nodes ->
      (forall h', PF f e d h' -> (forall y, nattr h' y "label" = if eqb y x then v else nattr h y "label") -> (forall y z b, eattr h' y z b = eattr h y z b) -> Q tt h') -> ok (set_node_attr x "label" v) h Q.
    Proof.
      intros Hx HQ. apply ok_set_node_attr; [apply pf_node_keys, Hx|]. intros h' S N E A C _. apply HQ; [constructor|intros y; rewrite N; destruct (eqb_spec y x) as [->|]; destruct (eq_dec _ _) as [K|K]; congruence|exact E].
      - apply (set_node_frame S (x := x) (a := "label") (v := v)); auto. simpl; tauto.
      - intros y z Hz. rewrite E. apply (pf_cap P Hz).
      - intros y z Hz. rewrite E. apply (pf_flow P Hz).
      - intros y Hy. rewrite N. destruct (eq_dec (y, "excess") (x, "label")); [discriminate|apply (pf_ex P Hy)].
      - intros y Hy. rewrite N. destruct (eq_dec (y, "distance") (x, "label")); [discriminate|apply (pf_di P Hy)].
      - rewrite A. apply P.
    Qed.
    Lemma efr_pframe h' : efr fattrs h h' -> (forall x b, nattr h' x b = nattr h x b) -> pframe g0 h'.
    Proof.
      intros E N. apply (pframe_trans (pf_fr P)). constructor; [apply (ef_shape E)|auto|apply (ef_edges E)|intros a _; rewrite (ef_attr E); reflexivity|apply (ef_ncomp E)].
    Qed.
    Lemma ok_set_flow x y {v} (Q : unit -> graph -> Prop) : In (x, y) es -> (forall h', PF (upd f (x, y) v) e d h' -> Q tt h') -> ok (set_edge_attr x y "flow" (VI v)) h Q.
    Proof.
      intros He HQ. apply ok_eset with (bs := fattrs); [apply pf_wf|apply pf_dir|rewrite pf_edges; exact He|simpl; tauto|].
      intros h' E A N. apply HQ. constructor.
      - apply (efr_pframe E N).
      - intros x' y' H. rewrite A. destruct (eqb_spec "capacity" "flow"); [discriminate|]. apply (pf_cap P H).
      - intros x' y' H. rewrite A, eqb_refl. cbn [andb]. unfold upd. destruct (eqb_spec (x', y') (x, y)); [reflexivity|apply (pf_flow P H)].
      - intros n Hn. rewrite N. apply (pf_ex P Hn).
      - intros n Hn. rewrite N. apply (pf_di P Hn).
      - rewrite (ef_attr E). apply P.
    Qed.
    Lemma ok_esetflow a {v} (Q : unit -> graph -> Prop) : In a es -> (forall h', PF (upd f a v) e d h' -> Q tt h') -> ok (edge_set a "flow" (VI v)) h Q.
    Proof. intros He HQ. apply (ok_same (edge_set_dir a "flow" (VI v) pf_dir)). destruct a as [x y]. apply (ok_set_flow He HQ). Qed.
    Lemma ok_set_eother x y {a v} (Q : unit -> graph -> Prop) : In (x, y) es -> In a ["label"; "color"] ->
      (forall h', PF f e d h' -> (forall n b, nattr h' n b = nattr h n b) -> (forall x' y' b, eattr h' x' y' b = if eqb b a && eqb (x', y') (x, y) then Some v else eattr h x' y' b) -> Q tt h') -> ok (set_edge_attr x y a v) h Q.
    Proof.
      intros He Ha HQ. apply ok_eset with (bs := fattrs); [apply pf_wf|apply pf_dir|rewrite pf_edges; exact He|simpl in *; tauto|].
      intros h' E A N. apply HQ; [constructor|exact N|exact A].
      - apply (efr_pframe E N).
      - intros x' y' H. rewrite A. destruct (eqb_spec "capacity" a) as [<-|]; [simpl in Ha; intuition discriminate|]. apply (pf_cap P H).
      - intros x' y' H. rewrite A. destruct (eqb_spec "flow" a) as [<-|]; [simpl in Ha; intuition discriminate|]. apply (pf_flow P H).
      - intros n Hn. rewrite N. apply (pf_ex P Hn).
      - intros n Hn. rewrite N. apply (pf_di P Hn).
      - rewrite (ef_attr E). apply P.
    Qed.
  End State.

  Lemma out_arc x y : In y (list_at (g_nbrs g0) x) <-> In (x, y) es.
  Proof. apply (nbrs_edge W0 D0). Qed.
  Lemma in_arc x y : In y (list_at (g_in g0) x) <-> In (y, x) es.
  Proof. apply (ins_edge W0 D0). Qed.
  Lemma arc_nodes x y : In (x, y) es -> In x nodes /\ In y nodes.
  Proof. apply (edge_nodes W0 D0). Qed.

  (* what show_flow writes *)
  Definition arc_label (cc ff : Z) : string := (if (cc =? INF)%Z then "INF" else str_int cc) ++ "/" ++ str_int ff.
  Definition arc_color (cc ff : Z) : string := if (cc =? ff)%Z then "red" else if (ff >? 0)%Z then "green" else "black".
  Definition node_shown (e d : lab) (h : graph) (x : name) : Prop := nattr h x "label" = VS (str_int (e x) ++ "/" ++ str_int (d x)).
  Definition arc_shown (f : fn) (h : graph) (x y : name) : Prop :=
    eattr h x y "label" = Some (VS (arc_label (c (x, y)) (f (x, y)))) /\ eattr h x y "color" = Some (VS (arc_color (c (x, y)) (f (x, y)))).
  Definition shown (f : fn) (e d : lab) (h : graph) : Prop :=
    (forall x, In x nodes -> node_shown e d h x) /\ (forall x y, In (x, y) es -> arc_shown f h x y).
  Definition PS (f : fn) (e d : lab) (h : graph) : Prop := PF f e d h /\ shown f e d h.
  Lemma show_flow_ok f e d h : PF f e d h -> ok show_flow h (fun _ h' => PS f e d h').
  Proof.
    intros P. unfold show_flow. apply ok_bind, (ok_nodes P).
    set (I := fun pre h' => PF f e d h' /\ (forall x, In x pre -> node_shown e d h' x) /\ (forall x y, In x pre -> In (x, y) es -> arc_shown f h' x y)).
    apply ok_forM with (I := I) (Q := fun h' => PS f e d h').
    { split; [exact P|]. split; [intros x []|intros x y []]. }
    2:{ intros h' (P' & H1 & H2). split; [exact P'|]. split; [exact H1|]. intros x y Hx. apply H2; [apply (arc_nodes Hx)|exact Hx]. }
    intros pre n post h1 El (P1 & N1 & A1). assert (Hn : In n nodes) by (rewrite El; apply in_elt).
    apply ok_bind, (ok_get_ex P1 Hn). apply ok_bind, (ok_get_di P1 Hn). apply ok_bind, (ok_set_nlabel P1 Hn). intros h2 P2 L2 E2.
    apply ok_bind, (ok_nbrs P2 Hn).
    set (J := fun pre' h' => PF f e d h' /\ (forall x, In x (pre ++ [n]) -> node_shown e d h' x) /\ (forall x y, In x pre -> In (x, y) es -> arc_shown f h' x y) /\ (forall y, In y pre' -> arc_shown f h' n y)).
    apply ok_forM with (I := J) (Q := fun h' => I (pre ++ [n]) h').
    { split; [exact P2|]. split; [|split; [|intros y []]].
      - intros x Hx. unfold node_shown. rewrite L2. destruct (eqb_spec x n) as [->|Hne]; [reflexivity|]. apply N1. apply in_app_iff in Hx as [Hx|[Hx|[]]]; [exact Hx|congruence].
      - intros x y Hx He. unfold arc_shown. rewrite !E2. apply (A1 x y Hx He). }
    2:{ intros h' (P' & H1 & H2 & H3). split; [exact P'|]. split; [exact H1|]. intros x y Hx He. apply in_app_iff in Hx as [Hx|[<-|[]]]; [apply (H2 x y Hx He)|]. apply H3, out_arc, He. }
    intros pre' m post' h3 El' (P3 & N3 & A3 & B3). assert (Hm : In (n, m) es) by (apply out_arc; rewrite El'; apply in_elt).
    apply ok_bind, (ok_get_cap P3 Hm). apply ok_bind, (ok_get_flow P3 Hm).
    apply ok_bind. eapply ok_weaken with (Q := fun _ h4 => PF f e d h4 /\ (forall x b, nattr h4 x b = nattr h3 x b) /\
      (forall x' y' b, eattr h4 x' y' b = if eqb b "label" && eqb (x', y') (n, m) then Some (VS (arc_label (c (n, m)) (f (n, m)))) else eattr h3 x' y' b)).
    { unfold arc_label. destruct (eqb_spec (VI (c (n, m))) (VI INF)) as [Hc|Hc]; destruct (Z.eqb_spec (c (n, m)) INF) as [Hc'|Hc']; try congruence; apply (ok_set_eother P3 Hm); auto; simpl; tauto. }
    intros _ h4 (P4 & N4 & E4).
    assert (Fin : forall v, v = VS (arc_color (c (n, m)) (f (n, m))) -> ok (set_edge_attr n m "color" v) h4 (fun _ h' => J (pre' ++ [m]) h')).
    { intros v ->. apply (ok_set_eother P4 Hm); [simpl; tauto|]. intros h5 P5 N5 E5.
      assert (Q : forall x y, arc_shown f h3 x y \/ (x, y) = (n, m) -> arc_shown f h5 x y).
      { intros x y Hxy. unfold arc_shown. rewrite !E5, !E4, (eqb_refl "label"), (eqb_refl "color"). destruct (eqb_spec "label" "color"); [discriminate|]. destruct (eqb_spec "color" "label"); [discriminate|]. cbn [andb].
        destruct (eqb_spec (x, y) (n, m)) as [[= -> ->]|Hne]; [split; reflexivity|]. destruct Hxy as [Hxy|]; [exact Hxy|contradiction]. }
      split; [exact P5|]. split; [intros x Hx; unfold node_shown; rewrite N5, N4; apply N3, Hx|]. split; [intros x y Hx He; apply Q; left; apply (A3 x y Hx He)|].
      intros y Hy. apply Q. apply in_app_iff in Hy as [Hy|[<-|[]]]; [left; apply B3, Hy|right; reflexivity]. }
    unfold arc_color in Fin. destruct (eqb_spec (VI (c (n, m))) (VI (f (n, m)))) as [Hc|Hc].
    - apply Fin. injection Hc as Hc. rewrite (proj2 (Z.eqb_eq _ _) Hc). reflexivity.
    - apply ok_bind, ok_as_int. assert (K : (c (n, m) =? f (n, m))%Z = false) by (apply Z.eqb_neq; congruence). rewrite K in Fin. destruct (f (n, m) >? 0)%Z; apply Fin; reflexivity.
  Qed.

  Notation adj := (P_PreflowAbs.adj es).
  Notation adm := (P_PreflowAbs.adm es c).
  Notation push_f := (P_PreflowAbs.push_f es c).
  Notation push_e := (P_PreflowAbs.push_e es c).
  Notation ra := (P_PreflowAbs.ra es c).
  Notation resid := (P_PreflowAbs.resid es c).
  Lemma PF_ext f e d f' e' d' h : (forall a, In a es -> f a = f' a) -> (forall x, In x nodes -> e x = e' x) -> (forall x, In x nodes -> d x = d' x) ->
    PF f e d h -> PF f' e' d' h.
  Proof.
    intros Hf He Hd [P1 P2 P3 P4 P5 P6]. constructor; auto.
    - intros x y H. rewrite <- Hf by exact H. apply P3, H.
    - intros x H. rewrite <- He by exact H. apply P4, H.
    - intros x H. rewrite <- Hd by exact H. apply P5, H.
  Qed.
  Lemma adj_nodes x y : adj x y -> In x nodes /\ In y nodes.
  Proof. intros [H|H]; apply arc_nodes in H; tauto. Qed.

  Lemma process_edge_flow_ok f e d h i m : PF f e d h -> adj i m ->
    ok (process_edge_flow i m) h (fun b h' => b = adm f d i m /\ if b then PF (push_f f e i m) (push_e f e i m) d h' else h' = h).
  Proof.
    intros P A. destruct (adj_nodes A) as [Hi Hm]. unfold process_edge_flow, P_PreflowAbs.adm.
    apply ok_bind, (ok_get_di P Hi). apply ok_bind, (ok_int_di P Hm).
    assert (E : eqb (VI (d i)) (VI (d m + 1)) = (d i =? d m + 1)%Z).
    { destruct (eqb_spec (VI (d i)) (VI (d m + 1))) as [H|H], (Z.eqb_spec (d i) (d m + 1)) as [K|K]; congruence. }
    rewrite E. destruct (d i =? d m + 1)%Z; cbn [negb andb]; [|apply ok_ret; split; reflexivity].
    apply ok_bind, ok_gets. rewrite (pf_mem_edge P).
    apply ok_bind. eapply ok_weaken with (Q := fun r h' => r = ((the_arc es i m), (if mem (i, m) es then c (i, m) else 0%Z), sgn es i m) /\ h' = h).
    { unfold the_arc, sgn. destruct (mem_spec (i, m) es) as [He|He]; [apply ok_bind, (ok_int_cap P He)|]; apply ok_ret; auto. }
    intros [[a cap] mult] h' [[= -> -> ->] ->].
    assert (Ha : In (the_arc es i m) es) by apply (the_arc_in A).
    apply ok_bind, (ok_egetflow P Ha). apply ok_bind, ok_as_int.
    assert (Er : ((if mem (i, m) es then c (i, m) else 0) - sgn es i m * f (the_arc es i m))%Z = ra f i m).
    { unfold P_PreflowAbs.ra, sgn, the_arc. destruct (mem (i, m) es); lia. }
    rewrite Er. destruct (ra f i m =? 0)%Z; cbn [negb]; [apply ok_ret; split; reflexivity|].
    apply ok_bind, (ok_int_ex P Hi). apply ok_bind, (ok_int_ex P Hm).
    apply ok_bind, (ok_esetflow P Ha). intros h1 P1. apply ok_bind, (ok_set_ex P1 Hi). intros h2 P2. apply ok_bind, (ok_set_ex P2 Hm). intros h3 P3.
    apply ok_ret. split; [reflexivity|]. refine (PF_ext _ _ _ P3); auto. intros b Hb. rewrite push_f_arc. unfold upd, amount.
    destruct (eqb_spec b (the_arc es i m)) as [->|]; [|reflexivity]. unfold sgn. destruct (mem (i, m) es); lia.
  Qed.

  Notation N := (Z.of_nat (length nodes)).
  Lemma relabel_ok f e d h i : PF f e d h -> In i nodes ->
    ok (relabel i) h (fun _ h' => exists z, new_label es nodes c f d i z /\ PF f e (upd d i z) h').
  Proof.
    intros P Hi. unfold relabel. apply ok_bind, (ok_nodes P). apply ok_bind, (ok_nbrs P Hi).
    apply ok_bind.
    eapply ok_weaken.
    { apply ok_foldM with (I := fun pre md h' => h' = h /\ (md <= 2 * N + 1)%Z /\ (md = 2 * N + 1 \/ exists j, resid f i j /\ md = d j)%Z /\
        forall j, In j pre -> (f (i, j) < c (i, j))%Z -> (md <= d j)%Z)
        (Q := fun md h' => h' = h /\ (md <= 2 * N + 1)%Z /\ (md = 2 * N + 1 \/ exists j, resid f i j /\ md = d j)%Z /\
        forall j, In (i, j) es -> (f (i, j) < c (i, j))%Z -> (md <= d j)%Z).
      - split; [reflexivity|]. split; [lia|]. split; [left; reflexivity|]. intros j [].
      - intros pre j post md h1 El (-> & H1 & H2 & H3). assert (Hj : In (i, j) es) by (apply out_arc; rewrite El; apply in_elt).
        destruct (arc_nodes Hj) as [_ Hjn]. apply ok_bind, (ok_int_di P Hjn). destruct (Z.ltb_spec (d j) md) as [Hl|Hl].
        + apply ok_bind, (ok_int_flow P Hj). apply ok_bind, (ok_int_cap P Hj). destruct (Z.ltb_spec (f (i, j)) (c (i, j))) as [Hf|Hf]; apply ok_ret.
          * split; [reflexivity|]. split; [lia|]. split; [right; exists j; split; [left; auto|reflexivity]|].
            intros k Hk Hc. apply in_app_iff in Hk as [Hk|[<-|[]]]; [|lia]. pose proof (H3 k Hk Hc). lia.
          * split; [reflexivity|]. split; [lia|]. split; [exact H2|]. intros k Hk Hc. apply in_app_iff in Hk as [Hk|[<-|[]]]; [apply (H3 k Hk Hc)|lia].
        + apply ok_ret. split; [reflexivity|]. split; [lia|]. split; [exact H2|]. intros k Hk Hc. apply in_app_iff in Hk as [Hk|[<-|[]]]; [apply (H3 k Hk Hc)|lia].
      - intros md h1 (-> & H1 & H2 & H3). split; [reflexivity|]. split; [exact H1|]. split; [exact H2|]. intros j Hj. apply H3, out_arc, Hj. }
    intros md h1 (-> & H1 & H2 & H3). apply ok_bind, (ok_ins P Hi). apply ok_bind.
    eapply ok_weaken.
    { apply ok_foldM with (I := fun pre md h' => h' = h /\ (md <= 2 * N + 1)%Z /\ (md = 2 * N + 1 \/ exists j, resid f i j /\ md = d j)%Z /\
        (forall j, In (i, j) es -> (f (i, j) < c (i, j))%Z -> (md <= d j)%Z) /\
        forall j, In j pre -> (0 < f (j, i))%Z -> (md <= d j)%Z)
        (Q := fun md h' => h' = h /\ (md <= 2 * N + 1)%Z /\ (md = 2 * N + 1 \/ exists j, resid f i j /\ md = d j)%Z /\
        (forall j, In (i, j) es -> (f (i, j) < c (i, j))%Z -> (md <= d j)%Z) /\
        forall j, In (j, i) es -> (0 < f (j, i))%Z -> (md <= d j)%Z).
      - split; [reflexivity|]. split; [lia|]. split; [exact H2|]. split; [exact H3|]. intros j [].
      - intros pre j post md' h1 El (-> & G1 & G2 & G3 & G4). assert (Hj : In (j, i) es) by (apply in_arc; rewrite El; apply in_elt).
        destruct (arc_nodes Hj) as [Hjn _]. apply ok_bind, (ok_int_di P Hjn). destruct (Z.ltb_spec (d j) md') as [Hl|Hl].
        + apply ok_bind, (ok_int_flow P Hj). destruct (Z.gtb_spec (f (j, i)) 0) as [Hf|Hf]; apply ok_ret.
          * split; [reflexivity|]. split; [lia|]. split; [right; exists j; split; [right; auto|reflexivity]|]. split.
            -- intros k Hk Hc. pose proof (G3 k Hk Hc). lia.
            -- intros k Hk Hc. apply in_app_iff in Hk as [Hk|[<-|[]]]; [|lia]. pose proof (G4 k Hk Hc). lia.
          * split; [reflexivity|]. split; [lia|]. split; [exact G2|]. split; [exact G3|]. intros k Hk Hc. apply in_app_iff in Hk as [Hk|[<-|[]]]; [apply (G4 k Hk Hc)|lia].
        + apply ok_ret. split; [reflexivity|]. split; [lia|]. split; [exact G2|]. split; [exact G3|]. intros k Hk Hc. apply in_app_iff in Hk as [Hk|[<-|[]]]; [apply (G4 k Hk Hc)|lia].
      - intros md' h1 (-> & G1 & G2 & G3 & G4). split; [reflexivity|]. split; [exact G1|]. split; [exact G2|]. split; [exact G3|]. intros j Hj. apply G4, in_arc, Hj. }
    intros md' h1 (-> & G1 & G2 & G3 & G4). apply (ok_set_di P Hi). intros h2 P2. exists (md' + 1)%Z. split; [|exact P2]. constructor.
    - intros j [[Hj Hf]|[Hj Hf]]; [pose proof (G3 j Hj Hf)|pose proof (G4 j Hj Hf)]; lia.
    - lia.
    - destruct G2 as [->|(j & Hj & ->)]; [left; lia|right; exists j; auto].
  Qed.
End Preflow.
