(* BinaryTree: slot invariant (C45), printing and traversal orders (C46, C47). *)
From Verif Require Import Py Util M_Graph P_Graph P_GraphLaws P_Attr Spec P_Walk M_Tree S_Tree P_Rose P_Tree.
Set Implicit Arguments. Unset Strict Implicit.
Local Open Scope string_scope. Local Open Scope list_scope.

Record binv (t : tree) : Prop := {
  bi_wf : wf (t_g t); bi_ty : g_type (t_g t) = Directed;
  bi_lvl : forall n, In n (get_node_list (t_g t)) -> exists l, nattr (t_g t) n "level" = VI l;
  bi_slot : forall n s, In n (get_node_list (t_g t)) -> nattr (t_g t) n (slot s) = VNone \/
    exists c l, nattr (t_g t) n (slot s) = vname c /\ In c (get_node_list (t_g t)) /\ nattr (t_g t) c "parent" = vname n /\
      nattr (t_g t) c "direction" = dir s /\ nattr (t_g t) n "level" = VI l /\ nattr (t_g t) c "level" = VI (l + 1) /\
      In c (list_at (g_nbrs (t_g t)) n)
}.
Lemma binv_new kw : binv (new_tree kw).
Proof.
  unfold new_tree. match goal with |- context [new_graph _ ?x] => set (k := x) end. constructor; simpl.
  - apply (wf_new (Some Directed) k).
  - reflexivity.
  - intros n [].
  - intros n s [].
Qed.
Lemma slot_ne s : slot s <> "level" /\ slot s <> "parent" /\ slot s <> "direction".
Proof. destruct s; repeat split; discriminate. Qed.
Lemma slot_inj s s' : slot s = slot s' -> s = s'.
Proof. destruct s, s'; simpl; congruence. Qed.
Lemma side_cases s s' : s' = s \/ s' = other s.
Proof. destruct s, s'; auto. Qed.
Lemma vname_cases n : exists z s, vname n = VI z \/ vname n = VS s.
Proof. destruct n as [z|s]; [exists z, ""|exists 0%Z, s]; auto. Qed.
Lemma aget_nin a k : ~ In k (dkeys a) -> aget a k = VNone.
Proof. intros H. unfold aget. apply dget_None in H as ->. reflexivity. Qed.
Lemma get_child_run t s n : wf (t_g t) -> In n (get_node_list (t_g t)) -> get_child s (IName n) t = (t, Ok (nattr (t_g t) n (slot s))).
Proof. intros W H. unfold get_child. apply ong_read. apply get_attr_run; assumption. Qed.
Lemma get_child_missing t s n : wf (t_g t) -> ~ In n (get_node_list (t_g t)) -> get_child s (IName n) t = (t, Err AttributeError).
Proof. intros W H. unfold get_child. apply ong_read. apply get_attr_missing; assumption. Qed.

Definition all_lvl (g : graph) := forall n, In n (get_node_list g) -> exists l, nattr g n "level" = VI l.
(* what add_child does *)
Lemma add_child_run t n p a : wf (t_g t) -> g_type (t_g t) = Directed -> all_lvl (t_g t) -> NoDup (dkeys a) ->
  (~ In p (get_node_list (t_g t)) /\ add_child n p a t = (t, Err AttributeError)) \/
  (In n (get_node_list (t_g t)) /\ add_child n p a t = (t, Err MultipleNodeException)) \/
  (exists l h, In p (get_node_list (t_g t)) /\ ~ In n (get_node_list (t_g t)) /\ nattr (t_g t) p "level" = VI l /\
     add_child n p a t = (mkTree h (t_root t) (t_trace t), Ok tt) /\
     grown (t_g t) h n (Some p) (dset (dset a "level" (VI (l + 1))) "parent" (vname p))).
Proof.
  intros W D Hl Ha. unfold add_child. destruct (in_dec eq_dec p (get_node_list (t_g t))) as [Hp|Hp].
  2:{ left. split; [exact Hp|]. erewrite bind_err by (apply ong_read; apply get_attr_missing; assumption). reflexivity. }
  right. erewrite bind_ok by (apply ong_read; apply get_attr_run; assumption). destruct (Hl p Hp) as [l El]. rewrite El. erewrite bind_ok by reflexivity.
  destruct (in_dec eq_dec n (get_node_list (t_g t))) as [Hi|Hi].
  - left. split; [exact Hi|]. erewrite bind_err by (apply ong_read; apply add_node_eq, Hi). reflexivity.
  - right. set (a' := dset (dset a "level" (VI (l + 1))) "parent" (vname p)).
    assert (Ha' : NoDup (dkeys a')) by (apply NoDup_dset, NoDup_dset, Ha).
    destruct (grow_below W D Ha' Hi Hp) as (h1 & h & E1 & E2 & G). exists l, h. repeat split; auto; try apply G.
    erewrite bind_ok by (apply ong_run, E1). erewrite ong_run by (simpl; exact E2). reflexivity.
Qed.
Lemma set_attr_run g n a v : wf g -> In n (get_node_list g) -> exists h, set_node_attr n a v g = (h, Ok tt) /\ same_shape g h /\
  (forall x b, nattr h x b = if eq_dec (x, b) (n, a) then v else nattr g x b) /\ g_attr h = g_attr g.
Proof.
  intros W Hn. assert (Hn' : In n (dkeys (g_nodes g))) by (rewrite (wf_nodes W); exact Hn).
  destruct (ok_ex (ok_set_node_attr (Q := fun u h => same_shape g h /\ (forall x b, nattr h x b = if eq_dec (x, b) (n, a) then v else nattr g x b) /\ g_attr h = g_attr g) (a := a) (v := v) Hn' ltac:(intros h H1 H2 _ H3 _ _; cbn beta; auto))) as (h & [] & E & H). exists h. tauto.
Qed.

(* the graph after add_side_child, when the slot was free and the name is fresh *)
Lemma add_side_run t s n p a : binv t -> NoDup (dkeys a) ->
  (In n (get_node_list (t_g t)) /\ nattr (t_g t) p (slot s) = VNone /\ In p (get_node_list (t_g t)) /\ tobs (add_side_child s n p a) t = Err MultipleNodeException) \/
  (exists e, add_side_child s n p a t = (t, Err e)) \/
  (exists l h1 h, In p (get_node_list (t_g t)) /\ ~ In n (get_node_list (t_g t)) /\ nattr (t_g t) p "level" = VI l /\ nattr (t_g t) p (slot s) = VNone /\
     add_side_child s n p a t = (mkTree h (t_root t) (t_trace t), Ok tt) /\ same_shape (t_g t) h1 /\ g_attr h1 = g_attr (t_g t) /\
     (forall x b, nattr h1 x b = if eq_dec (x, b) (p, slot s) then vname n else nattr (t_g t) x b) /\
     grown h1 h n (Some p) (dset (dset (dset a "direction" (dir s)) "level" (VI (l + 1))) "parent" (vname p))).
Proof.
  intros [W D Hl Hs] Ha. unfold add_side_child. destruct (in_dec eq_dec p (get_node_list (t_g t))) as [Hp|Hp].
  2:{ right; left. eexists. erewrite bind_err by (apply get_child_missing; assumption). reflexivity. }
  unfold tobs. erewrite bind_ok by (apply get_child_run; assumption).
  destruct (Hs p s Hp) as [E|(c & l & E & _)].
  2:{ right; left. rewrite E. destruct (vname_cases c) as (z & s' & [->| ->]); eexists; reflexivity. }
  rewrite E. destruct (set_attr_run (slot s) (vname n) W Hp) as (h1 & E1 & S1 & A1 & G1).
  erewrite bind_ok by (apply ong_run, E1). set (t1 := mkTree h1 (t_root t) (t_trace t)).
  assert (W1 : wf (t_g t1)) by (simpl; apply (ss_wf S1 W)).
  assert (D1 : g_type (t_g t1) = Directed) by (simpl; rewrite (ss_type S1); exact D).
  assert (L1 : all_lvl (t_g t1)).
  { intros x Hx. simpl in *. rewrite (ss_node_list S1) in Hx. rewrite A1. destruct (eq_dec (x, "level") (p, slot s)) as [Hq|_]; [|apply Hl, Hx].
    exfalso. apply (proj1 (slot_ne s)). congruence. }
  destruct (add_child_run n p (a := dset a "direction" (dir s)) W1 D1 L1 (NoDup_dset _ _ Ha)) as [[H H']|[[H H']|(l & h & H1 & H2 & H3 & H4 & H5)]].
  - simpl in H. rewrite (ss_node_list S1) in H. contradiction.
  - left. simpl in H. rewrite (ss_node_list S1) in H. split; [exact H|]. split; [reflexivity|]. split; [exact Hp|]. rewrite H'. reflexivity.
  - right; right. simpl in *. rewrite (ss_node_list S1) in *. exists l, h1, h. split; [exact Hp|]. split; [exact H2|]. split.
    { rewrite A1 in H3. destruct (eq_dec (p, "level") (p, slot s)) as [Hq|_]; [|exact H3]. exfalso. apply (proj1 (slot_ne s)). congruence. }
    auto 10.
Qed.

Lemma binv_grow t s n p a l h1 h : binv t -> NoDup (dkeys a) -> ~ In "Lchild" (dkeys a) -> ~ In "Rchild" (dkeys a) ->
  In p (get_node_list (t_g t)) -> ~ In n (get_node_list (t_g t)) -> nattr (t_g t) p "level" = VI l -> same_shape (t_g t) h1 ->
  (forall x b, nattr h1 x b = if eq_dec (x, b) (p, slot s) then vname n else nattr (t_g t) x b) ->
  grown h1 h n (Some p) (dset (dset (dset a "direction" (dir s)) "level" (VI (l + 1))) "parent" (vname p)) ->
  binv (mkTree h (t_root t) (t_trace t)).
Proof.
  intros [W D Hl Hs] Ha HaL HaR Hp Hn El S1 A1 [Wh Dh Lh Nh Ih Ah Gh]. set (a' := dset (dset (dset a "direction" (dir s)) "level" (VI (l + 1))) "parent" (vname p)) in *.
  assert (Hnp : n <> p) by congruence.
  assert (Hslot : forall s', aget a' (slot s') = VNone).
  { intros s'. unfold a'. rewrite !aget_dset. destruct (slot_ne s') as (N1 & N2 & N3).
    repeat (match goal with |- context [eq_dec ?x ?y] => destruct (eq_dec x y) as [?|_]; [congruence|] end).
    apply aget_nin. destruct s'; assumption. }
  assert (Hat : forall x b, x <> n -> b = "level" \/ b = "parent" \/ b = "direction" -> nattr h x b = nattr (t_g t) x b).
  { intros x b Hx Hb. rewrite Ah, A1. destruct (eqb_spec n x); [congruence|]. destruct (slot_ne s) as (N1 & N2 & N3).
    destruct (eq_dec (x, b) (p, slot s)) as [Hq|_]; [|reflexivity]. exfalso. injection Hq as -> ->. intuition congruence. }
  assert (Hpa : aget a' "parent" = vname p /\ aget a' "level" = VI (l + 1) /\ aget a' "direction" = dir s).
  { unfold a'. rewrite !aget_dset. simpl. auto. }
  destruct Hpa as (P1 & P2 & P3).
  constructor; simpl; auto.
  - intros x Hx. rewrite Lh, (ss_node_list S1) in Hx. destruct (eq_dec x n) as [->|Hx'].
    + exists (l + 1)%Z. rewrite Ah, eqb_refl. exact P2.
    + rewrite Hat by auto. apply Hl. apply in_app_iff in Hx as [Hx|[->|[]]]; [exact Hx|congruence].
  - intros x s' Hx. rewrite Lh, (ss_node_list S1) in Hx. destruct (eq_dec x n) as [->|Hx'].
    + left. rewrite Ah, eqb_refl. apply Hslot.
    + apply in_app_iff in Hx as [Hx|[->|[]]]; [|congruence].
      rewrite (Hat x "level") by auto. rewrite Ah, A1. destruct (eqb_spec n x) as [|_]; [congruence|].
      destruct (eq_dec (x, slot s') (p, slot s)) as [Hq|Hq].
      * injection Hq as -> Hq. apply slot_inj in Hq as ->. right. exists n, l. split; [reflexivity|]. rewrite Lh, !Ah, Nh, eqb_refl. unfold eqb.
        destruct (eq_dec (Some p) (Some p)); [|congruence]. rewrite in_app_iff. rewrite P1, P2, P3. split; [simpl; auto|]. split; [reflexivity|].
        split; [reflexivity|]. split; [exact El|]. split; [reflexivity|]. apply in_app_iff; simpl; auto.
      * destruct (Hs x s' Hx) as [E|(c & k & E & E1 & E2 & E3 & E4 & E5 & E6)]; [left; exact E|].
        assert (Hc : c <> n) by congruence. right. exists c, k. rewrite !(Hat c) by auto. split; [exact E|].
        rewrite Lh, (ss_node_list S1), in_app_iff. split; [auto|]. split; [exact E2|]. split; [exact E3|]. split; [exact E4|]. split; [exact E5|].
        rewrite Nh, (ss_nbrs S1). destruct (eqb (Some p) (Some x)); [apply in_app_iff|]; auto.
Qed.
Lemma binv_root t n a : binv t -> NoDup (dkeys a) -> ~ In "Lchild" (dkeys a) -> ~ In "Rchild" (dkeys a) -> binv (fst (add_root n a t)).
Proof.
  intros [W D Hl Hs] Ha HaL HaR. unfold add_root. destruct (in_dec eq_dec n (get_node_list (t_g t))) as [Hi|Hi].
  { erewrite bind_err by (apply ong_read; apply add_node_eq, Hi). constructor; assumption. }
  destruct (add_node_grown (a := dset a "level" (VI 0)) W D (NoDup_dset _ _ Ha) Hi) as (h & E & [Wh Dh Lh Nh Ih Ah _]).
  erewrite bind_ok by (apply ong_run, E). cbn [set_root modify fst snd]. simpl in Nh.
  assert (Hat : forall x b, x <> n -> nattr h x b = nattr (t_g t) x b).
  { intros x b Hx. rewrite Ah. destruct (eqb_spec n x); [congruence|reflexivity]. }
  constructor; simpl; auto.
  - intros x Hx. rewrite Lh in Hx. destruct (eq_dec x n) as [->|Hx'].
    + exists 0%Z. rewrite Ah, eqb_refl, aget_dset. reflexivity.
    + rewrite Hat by auto. apply Hl. apply in_app_iff in Hx as [Hx|[->|[]]]; [exact Hx|congruence].
  - intros x s' Hx. rewrite Lh in Hx. destruct (eq_dec x n) as [->|Hx'].
    + left. rewrite Ah, eqb_refl, aget_dset. destruct (slot_ne s') as (N1 & N2 & N3). destruct (eq_dec "level" (slot s')); [congruence|].
      apply aget_nin. destruct s'; assumption.
    + apply in_app_iff in Hx as [Hx|[->|[]]]; [|congruence]. rewrite !(Hat x) by auto.
      destruct (Hs x s' Hx) as [E1|(c & k & E0 & E1 & E2 & E3 & E4 & E5 & E6)]; [left; exact E1|].
      assert (Hc : c <> n) by congruence. right. exists c, k. rewrite !(Hat c) by auto. rewrite Lh, in_app_iff, Nh. destruct (eqb None (Some x)); auto 10.
Qed.
Lemma binv_del t n : binv t -> binv (fst (bdel_node n t)).
Proof.
  intros B. pose proof B as [W D Hl Hs]. unfold bdel_node. destruct (in_dec eq_dec n (get_node_list (t_g t))) as [Hn|Hn].
  2:{ erewrite bind_err by (apply ong_read; apply get_attr_missing; assumption). exact B. }
  do 2 erewrite bind_ok by (apply ong_read; apply get_attr_run; assumption). cbv zeta.
  set (sd := if eqb (nattr (t_g t) n "direction") (VS "R") then R else L).
  destruct (nameof (nattr (t_g t) n "parent")) as [p|] eqn:Ep; [|erewrite bind_err by reflexivity; exact B].
  destruct (in_dec eq_dec p (get_node_list (t_g t))) as [Hp|Hp].
  2:{ assert (Hdg : dget (g_nodes (t_g t)) p = None) by (apply dget_None; rewrite (wf_nodes W); exact Hp).
      erewrite bind_err by (apply ong_read; unfold set_node_attr; rewrite Hdg; reflexivity). exact B. }
  destruct (set_attr_run (slot sd) VNone W Hp) as (h1 & E1 & S1 & A1 & G1).
  erewrite bind_ok by (apply ong_run, E1).
  assert (W1 : wf h1) by apply (ss_wf S1 W). assert (D1 : g_type h1 = Directed) by (rewrite (ss_type S1); exact D).
  assert (Hn1 : In n (get_node_list h1)) by (rewrite (ss_node_list S1); exact Hn).
  destruct (del_node_views W1 D1 Hn1) as (h & E & Wh & Dh & Lh & Eh & Ah & _).
  erewrite ong_run by exact E. cbn [fst t_root t_trace].
  assert (Hin : forall x, In x (get_node_list h) <-> In x (get_node_list (t_g t)) /\ x <> n).
  { intros x. rewrite Lh, (ss_node_list S1), filter_In. unfold eqb. destruct (eq_dec n x); simpl; intuition congruence. }
  assert (Hat : forall x b, In x (get_node_list h) -> nattr h x b = if eq_dec (x, b) (p, slot sd) then VNone else nattr (t_g t) x b).
  { intros x b Hx. pose proof (proj1 (Hin x) Hx) as [Hx1 Hx2]. specialize (Ah x b Hx2). unfold obs in Ah.
    rewrite (get_attr_run b Hx Wh) in Ah. rewrite get_attr_run in Ah; [|rewrite (ss_node_list S1); exact Hx1|exact W1]. simpl in Ah. injection Ah as ->. apply A1. }
  assert (Hat2 : forall x b, In x (get_node_list h) -> b = "level" \/ b = "parent" \/ b = "direction" -> nattr h x b = nattr (t_g t) x b).
  { intros x b Hx Hb. rewrite Hat by assumption. destruct (slot_ne sd) as (N1 & N2 & N3).
    destruct (eq_dec (x, b) (p, slot sd)) as [Hq|_]; [|reflexivity]. exfalso. injection Hq as -> ->. intuition congruence. }
  constructor; simpl; auto.
  - intros x Hx. rewrite Hat2 by auto. apply Hl, Hin, Hx.
  - intros x s' Hx. rewrite (Hat2 x "level") by auto. rewrite Hat by assumption.
    destruct (eq_dec (x, slot s') (p, slot sd)) as [_|Hq]; [left; reflexivity|].
    destruct (Hs x s') as [E0|(c & k & E0 & F1 & F2 & F3 & F4 & F5 & F6)]; [apply Hin, Hx|left; exact E0|].
    destruct (eq_dec c n) as [->|Hc].
    + exfalso. apply Hq. rewrite F2, nameof_vname in Ep. injection Ep as ->. f_equal. f_equal. unfold sd. rewrite F3. destruct s'; reflexivity.
    + assert (Hc' : In c (get_node_list h)) by (apply Hin; auto). right. exists c, k. rewrite !(Hat2 c) by auto.
      repeat split; auto. apply (check_edge_nbr Wh). apply (nbr_check_edge W) in F6.
      unfold check_edge in *. rewrite Dh. rewrite D in F6. apply dmem_In. apply dmem_In in F6.
      change (In (x, c) (get_edge_list h)). rewrite Eh. apply filter_In. split; [unfold get_edge_list; rewrite (ss_edges S1); exact F6|].
      apply Hin in Hx as [_ Hx]. simpl. unfold eqb. destruct (eq_dec n x); [congruence|]. destruct (eq_dec n c); [congruence|reflexivity].
Qed.
Lemma binv_step t o : binv t -> bop_ok o -> tobs (bexec o) t <> Err MultipleNodeException -> binv (fst (bexec o t)).
Proof.
  intros B Ho Hm. destruct o as [n a|s n p a|n]; cbn [bexec] in *.
  - destruct Ho as (H1 & H2 & H3). apply binv_root; assumption.
  - destruct Ho as (H1 & H2 & H3). destruct (add_side_run s n p B H1) as [(_ & _ & _ & H)|[[e ->]|(l & h1 & h & G1 & G2 & G3 & G4 & -> & G5 & G6 & G7 & G8)]].
    + contradiction.
    + exact B.
    + eapply binv_grow; eassumption.
  - apply binv_del, B.
Qed.
Lemma binv_history t os : binv t -> Forall bop_ok os -> bclean t os -> binv (bhistory t os).
Proof.
  revert t. induction os as [|o os IH]; intros t B Ho Hc; [exact B|]. inversion Ho; subst. destruct Hc as [Hc1 Hc2].
  simpl. apply IH; auto. apply binv_step; auto.
Qed.

(* the display mode is never touched by these calls *)
Lemma gattr_step t o : binv t -> bop_ok o -> tobs (bexec o) t <> Err MultipleNodeException -> g_attr (t_g (fst (bexec o t))) = g_attr (t_g t).
Proof.
  intros B Ho Hm. pose proof B as [W D Hl Hs]. destruct o as [n a|s n p a|n]; cbn [bexec] in *.
  - destruct Ho as (H1 & H2 & H3). unfold add_root. destruct (in_dec eq_dec n (get_node_list (t_g t))) as [Hi|Hi].
    { erewrite bind_err by (apply ong_read; apply add_node_eq, Hi). reflexivity. }
    destruct (add_node_grown (a := dset a "level" (VI 0)) W D (NoDup_dset _ _ H1) Hi) as (h & E & [_ _ _ _ _ _ G]).
    erewrite bind_ok by (apply ong_run, E). exact G.
  - destruct Ho as (H1 & H2 & H3). destruct (add_side_run s n p B H1) as [(_ & _ & _ & H)|[[e ->]|(l & h1 & h & G1 & G2 & G3 & G4 & -> & G5 & G6 & G7 & [_ _ _ _ _ _ G])]].
    + contradiction.
    + reflexivity.
    + simpl. congruence.
  - unfold bdel_node. destruct (in_dec eq_dec n (get_node_list (t_g t))) as [Hn|Hn].
    2:{ erewrite bind_err by (apply ong_read; apply get_attr_missing; assumption). reflexivity. }
    do 2 erewrite bind_ok by (apply ong_read; apply get_attr_run; assumption). cbv zeta.
    set (sd := if eqb (nattr (t_g t) n "direction") (VS "R") then R else L).
    destruct (nameof (nattr (t_g t) n "parent")) as [p|] eqn:Ep; [|erewrite bind_err by reflexivity; reflexivity].
    destruct (in_dec eq_dec p (get_node_list (t_g t))) as [Hp|Hp].
    2:{ assert (Hdg : dget (g_nodes (t_g t)) p = None) by (apply dget_None; rewrite (wf_nodes W); exact Hp).
        erewrite bind_err by (apply ong_read; unfold set_node_attr; rewrite Hdg; reflexivity). reflexivity. }
    destruct (set_attr_run (slot sd) VNone W Hp) as (h1 & E1 & S1 & A1 & G1).
    erewrite bind_ok by (apply ong_run, E1).
    assert (W1 : wf h1) by apply (ss_wf S1 W). assert (D1 : g_type h1 = Directed) by (rewrite (ss_type S1); exact D).
    assert (Hn1 : In n (get_node_list h1)) by (rewrite (ss_node_list S1); exact Hn).
    erewrite ong_run by (simpl; apply p_del_node_eq; assumption). simpl. exact G1.
Qed.
Lemma gattr_history t os : binv t -> Forall bop_ok os -> bclean t os -> g_attr (t_g (bhistory t os)) = g_attr (t_g t).
Proof.
  revert t. induction os as [|o os IH]; intros t B Ho Hc; [reflexivity|]. inversion Ho; subst. destruct Hc as [Hc1 Hc2].
  simpl. rewrite <- (gattr_step B H1 Hc1). apply IH; auto. apply binv_step; auto.
Qed.

(* without deletions, the children of a node are exactly the nodes in its slots *)
Definition kids_slots (t : tree) : Prop := forall p c, In c (list_at (g_nbrs (t_g t)) p) -> exists s, nattr (t_g t) p (slot s) = vname c.
Lemma kids_slots_step t o : binv t -> kids_slots t -> bop_ok o -> is_del o = false -> tobs (bexec o) t <> Err MultipleNodeException -> kids_slots (fst (bexec o t)).
Proof.
  intros B K Ho Hd Hm. pose proof B as [W D Hl Hs]. destruct o as [n a|s n p a|n]; cbn [bexec is_del] in *; [| |discriminate].
  - destruct Ho as (H1 & H2 & H3). unfold add_root. destruct (in_dec eq_dec n (get_node_list (t_g t))) as [Hi|Hi].
    { erewrite bind_err by (apply ong_read; apply add_node_eq, Hi). exact K. }
    destruct (add_node_grown (a := dset a "level" (VI 0)) W D (NoDup_dset _ _ H1) Hi) as (h & E & [_ _ _ N _ A _]).
    erewrite bind_ok by (apply ong_run, E). intros q c Hc. simpl in *. rewrite N in Hc. destruct (eqb None (Some q)) eqn:Eq; [apply eqb_true in Eq; discriminate|].
    destruct (K q c Hc) as [s Es]. exists s. rewrite A. destruct (eqb_spec n q) as [<-|_]; [|exact Es].
    exfalso. apply Hi. apply (nbr_check_edge W) in Hc. apply (check_edge_nodes W Hc).
  - destruct Ho as (H1 & H2 & H3). destruct (add_side_run s n p B H1) as [(_ & _ & _ & H)|[[e ->]|(l & h1 & h & G1 & G2 & G3 & G4 & -> & G5 & G6 & G7 & [_ _ _ N _ A G])]].
    + contradiction.
    + exact K.
    + intros q c Hc. simpl in *. rewrite N, (ss_nbrs G5) in Hc.
      assert (Hold : In c (list_at (g_nbrs (t_g t)) q) -> exists s0, nattr h q (slot s0) = vname c).
      { intros Hq. destruct (K q c Hq) as [s' Es]. exists s'. rewrite A, G7. destruct (eqb_spec n q) as [<-|_].
        - exfalso. apply G2. apply (nbr_check_edge W) in Hq. apply (check_edge_nodes W Hq).
        - destruct (eq_dec (q, slot s') (p, slot s)) as [Hq'|_]; [|exact Es]. injection Hq' as -> Hq'. apply slot_inj in Hq' as ->.
          rewrite G4 in Es. symmetry in Es. apply vname_not_none in Es. destruct Es. }
      destruct (eqb (Some p) (Some q)) eqn:Eq; [|auto]. rewrite eqb_true in Eq. injection Eq as <-.
      apply in_app_iff in Hc as [Hc|[<-|[]]]; [auto|]. exists s. rewrite A, G7. destruct (eqb_spec n p); [congruence|].
      destruct (eq_dec (p, slot s) (p, slot s)); congruence.
Qed.
Lemma kids_slots_history t os : binv t -> kids_slots t -> Forall bop_ok os -> bclean t os -> forallb (fun o => negb (is_del o)) os = true -> kids_slots (bhistory t os).
Proof.
  revert t. induction os as [|o os IH]; intros t B K Ho Hc Hd; [exact K|]. inversion Ho; subst. destruct Hc as [Hc1 Hc2].
  simpl in Hd. apply andb_true_iff in Hd as [Hd1 Hd2]. apply negb_true_iff in Hd1. simpl. apply IH; auto; [apply binv_step|apply kids_slots_step]; auto.
Qed.
Lemma kids_slots_new kw : kids_slots (new_tree kw).
Proof. intros p c H. unfold new_tree in H. simpl in H. destruct H. Qed.
