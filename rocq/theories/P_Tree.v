(* Invariants of Tree histories (C43) and of Tree traversals (C44). *)
From Verif Require Import Py Util M_Graph P_Graph P_GraphLaws P_Attr Spec P_Walk M_Tree S_Tree P_Rose.
Set Implicit Arguments. Unset Strict Implicit.
Local Open Scope string_scope. Local Open Scope list_scope.

Lemma obs_nbrs g n : obs (get_neighbors n) g = match dget (g_nbrs g) n with Some l => Ok l | None => Err KeyError end.
Proof. reflexivity. Qed.
Lemma tobs_children t n : tobs (get_children n) t = obs (get_neighbors n) (t_g t).
Proof. unfold tobs, get_children, ong, obs. destruct (get_neighbors n (t_g t)); reflexivity. Qed.
Lemma tobs_ong {A} (m : M graph A) t : tobs (ong m) t = obs m (t_g t).
Proof. unfold tobs, ong, obs. destruct (m (t_g t)); reflexivity. Qed.
Lemma ong_read {A} (m : M graph A) t r : m (t_g t) = (t_g t, r) -> ong m t = (t, r).
Proof. unfold ong. intros ->. destruct t; reflexivity. Qed.
Lemma ong_run {A} (m : M graph A) t g r : m (t_g t) = (g, r) -> ong m t = (mkTree g (t_root t) (t_trace t), r).
Proof. unfold ong. intros ->. reflexivity. Qed.
Lemma get_attr_run g n a : In n (get_node_list g) -> wf g -> get_node_attr n a g = (g, Ok (nattr g n a)).
Proof.
  intros Hn W. unfold get_node_attr, nattr. unfold get_node_list in Hn. rewrite <- (wf_nodes W) in Hn.
  apply dget_exists in Hn as [d ->]. reflexivity.
Qed.
Lemma get_attr_missing g n a : ~ In n (get_node_list g) -> wf g -> get_node_attr n a g = (g, Err AttributeError).
Proof.
  intros Hn W. unfold get_node_attr. unfold get_node_list in Hn. rewrite <- (wf_nodes W) in Hn.
  apply dget_None in Hn as ->. reflexivity.
Qed.
Lemma nattr_missing g n a : wf g -> ~ In n (get_node_list g) -> nattr g n a = VNone.
Proof. intros W Hn. unfold nattr. unfold get_node_list in Hn. rewrite <- (wf_nodes W) in Hn. apply dget_None in Hn as ->. reflexivity. Qed.
Definition aget (a : attrs) (k : string) : val := match dget a k with Some v => v | None => VNone end.
Lemma aget_dset a k v k' : aget (dset a k v) k' = if eq_dec k k' then v else aget a k'.
Proof. unfold aget. rewrite dget_dset. eqd; reflexivity. Qed.

(* adding a fresh node, and below p *)
Record grown (g h : graph) (n : name) (op : option name) (a : attrs) : Prop := {
  gr_wf : wf h; gr_ty : g_type h = Directed;
  gr_list : get_node_list h = get_node_list g ++ [n];
  gr_nbrs : forall x, list_at (g_nbrs h) x = if eqb op (Some x) then list_at (g_nbrs g) x ++ [n] else list_at (g_nbrs g) x;
  gr_in : forall x, list_at (g_in h) x = if eqb n x then match op with Some p => [p] | None => [] end else list_at (g_in g) x;
  gr_attr : forall x b, nattr h x b = if eqb n x then aget a b else nattr g x b;
  gr_gattr : g_attr h = g_attr g
}.
Lemma add_node_grown g n a : wf g -> g_type g = Directed -> NoDup (dkeys a) -> ~ In n (get_node_list g) ->
  exists h, add_node n a g = (h, Ok tt) /\ grown g h n None a.
Proof.
  intros W Hd Ha Hn. exists (p_add_node g n a). split; [apply add_node_new, Hn|]. constructor.
  - apply wf_p_add_node; assumption.
  - exact Hd.
  - unfold get_node_list. simpl. apply dkeys_dset_nin'. exact Hn.
  - intros x. simpl. rewrite list_at_dset. eqd; [|reflexivity]. subst. rewrite list_at_nin; [reflexivity|exact Hn].
  - intros x. simpl. rewrite Hd, list_at_dset. unfold eqb. eqd; reflexivity.
  - intros x b. unfold nattr. simpl. rewrite dget_dset. unfold eqb. eqd; [|reflexivity]. rewrite dupdate_nil by assumption. reflexivity.
  - reflexivity.
Qed.
Lemma grow_below g n p a : wf g -> g_type g = Directed -> NoDup (dkeys a) -> ~ In n (get_node_list g) -> In p (get_node_list g) ->
  exists h1 h, add_node n a g = (h1, Ok tt) /\ add_edge p n [] h1 = (h, Ok tt) /\ grown g h n (Some p) a.
Proof.
  intros W Hd Ha Hn Hp. destruct (add_node_grown W Hd Ha Hn) as (h1 & E1 & G). exists h1.
  assert (Hne : n <> p) by congruence.
  destruct G as [W1 D1 L1 N1 I1 A1 G1].
  assert (Hn1 : In n (get_node_list h1)) by (rewrite L1; apply in_or_app; simpl; auto).
  assert (Hp1 : In p (get_node_list h1)) by (rewrite L1; apply in_or_app; auto).
  assert (Hc : check_edge h1 p n = false).
  { destruct (check_edge h1 p n) eqn:E; [|reflexivity]. exfalso.
    assert (E2 : add_node n a g = (p_add_node g n a, Ok tt)) by (apply add_node_new, Hn). rewrite E1 in E2. injection E2 as ->.
    unfold check_edge in E. simpl in E. rewrite Hd in E. apply dmem_In in E. apply (wf_edge_r W) in E. contradiction. }
  pose proof (add_edge_wf p n [] W1) as Wh. pose proof (add_edge_new [] W1 Hc) as He. rewrite He in Wh. simpl in Wh.
  assert (Ep : ensure h1 p = h1). { unfold ensure. replace (dmem (g_nodes h1) p) with true; [reflexivity|]. symmetry. apply dmem_In. rewrite (wf_nodes W1). exact Hp1. }
  assert (En : ensure h1 n = h1). { unfold ensure. replace (dmem (g_nodes h1) n) with true; [reflexivity|]. symmetry. apply dmem_In. rewrite (wf_nodes W1). exact Hn1. }
  rewrite Ep, En in Wh, He. exists (link h1 p n []). split; [reflexivity || exact E1|]. split; [exact He|].
  unfold link in *. rewrite D1 in *. constructor.
  - exact Wh.
  - reflexivity.
  - unfold get_node_list in *. simpl. rewrite dkeys_dset_in by exact Hp1. exact L1.
  - intros x. simpl. rewrite list_at_dset, N1. unfold eqb at 1. simpl.
    destruct (eq_dec p x) as [->|Hx]; [|rewrite N1; unfold eqb; destruct (eq_dec (Some p) (Some x)); [congruence|reflexivity]].
    unfold eqb. destruct (eq_dec (Some x) (Some x)); [reflexivity|congruence].
  - intros x. simpl. rewrite list_at_dset, !I1. rewrite eqb_refl. unfold eqb. destruct (eq_dec n x); reflexivity.
  - intros x b. unfold nattr in *. simpl. apply A1.
  - exact G1.
Qed.

(** * Tree histories *)
Record tinv (t : tree) (rs : list name) : Prop := {
  ti_wf : wf (t_g t); ti_ty : g_type (t_g t) = Directed;
  ti_rs : incl rs (get_node_list (t_g t));
  ti_node : forall n, In n (get_node_list (t_g t)) ->
    (nattr (t_g t) n "parent" = VNone /\ In n rs /\ list_at (g_in (t_g t)) n = [] /\ nattr (t_g t) n "level" = VI 0) \/
    (exists p l, nattr (t_g t) n "parent" = vname p /\ ~ In n rs /\ In p (get_node_list (t_g t)) /\ list_at (g_in (t_g t)) n = [p] /\
       nattr (t_g t) p "level" = VI l /\ nattr (t_g t) n "level" = VI (l + 1));
  ti_root : t_root t = match rev rs with [] => None | r :: _ => Some r end
}.
Lemma tinv_new kw : tinv (new_tree kw) [].
Proof.
  unfold new_tree. match goal with |- context [new_graph _ ?x] => set (k := x) end. constructor; simpl.
  - apply (wf_new (Some Directed) k).
  - reflexivity.
  - intros x [].
  - intros n [].
  - reflexivity.
Qed.
Lemma tinv_step t rs o : tinv t rs -> top_ok o ->
  tinv (fst (texec o t)) (rs ++ match o, tobs (texec o) t with TRoot n _, Ok _ => [n] | _, _ => [] end).
Proof.
  intros [W D Hrs Hn Hr] Ho. destruct o as [n a|n p a]; unfold tobs; cbn [texec].
  - destruct Ho as [Ha Hpa]. unfold add_root. destruct (in_dec eq_dec n (get_node_list (t_g t))) as [Hi|Hi].
    + erewrite bind_err by (apply ong_read; apply add_node_eq, Hi). simpl. rewrite app_nil_r. constructor; assumption.
    + destruct (add_node_grown (a := dset a "level" (VI 0)) W D (NoDup_dset _ _ Ha) Hi) as (h & E & G).
      erewrite bind_ok by (apply ong_run, E). cbn [set_root modify fst snd]. destruct G as [Wh Dh L N I A _]. simpl in N.
      constructor; simpl; auto.
      * intros x Hx. rewrite L. apply in_app_iff. apply in_app_iff in Hx. destruct Hx as [Hx|Hx]; [left; apply Hrs, Hx|right; exact Hx].
      * intros x Hx. rewrite L in Hx. rewrite !A, I. destruct (eqb_spec n x) as [<-|Hne].
        -- left. rewrite !aget_dset. destruct (eq_dec "level" "parent") as [|_]; [congruence|]. destruct (eq_dec "level" "level"); [|congruence].
           split; [unfold aget; apply dget_None in Hpa as ->; reflexivity|]. split; [apply in_app_iff; simpl; auto|auto].
        -- apply in_app_iff in Hx as [Hx|[->|[]]]; [|congruence].
           assert (Hnr : In x (rs ++ [n]) <-> In x rs) by (rewrite in_app_iff; simpl; intuition congruence).
           destruct (Hn x Hx) as [(H1 & H2 & H3 & H4)|(p & l & H1 & H2 & H3 & H4 & H5 & H6)].
           ++ left. tauto.
           ++ right. exists p, l. rewrite !A. rewrite Hnr. assert (n <> p) by congruence.
              destruct (eqb_spec n p) as [|_]; [congruence|]. rewrite L. rewrite in_app_iff. tauto.
      * rewrite rev_app_distr. reflexivity.
  - unfold add_child. rewrite app_nil_r.
    destruct (in_dec eq_dec p (get_node_list (t_g t))) as [Hp|Hp].
    2:{ erewrite bind_err by (apply ong_read; apply get_attr_missing; assumption). constructor; assumption. }
    erewrite bind_ok by (apply ong_read; apply get_attr_run; assumption).
    assert (Hl : exists l, nattr (t_g t) p "level" = VI l).
    { destruct (Hn p Hp) as [(_ & _ & _ & H)|(q & l & _ & _ & _ & _ & _ & H)]; eexists; exact H. }
    destruct Hl as [l Hl]. rewrite Hl. erewrite bind_ok by reflexivity.
    set (a' := dset (dset a "level" (VI (l + 1))) "parent" (vname p)).
    destruct (in_dec eq_dec n (get_node_list (t_g t))) as [Hi|Hi].
    + erewrite bind_err by (apply ong_read; apply add_node_eq, Hi). constructor; assumption.
    + assert (Ha' : NoDup (dkeys a')) by (apply NoDup_dset, NoDup_dset, Ho).
      destruct (grow_below W D Ha' Hi Hp) as (h1 & h & E1 & E2 & G).
      erewrite bind_ok by (apply ong_run, E1). erewrite ong_run by (simpl; exact E2). cbn [fst snd t_g t_root t_trace].
      destruct G as [Wh Dh L N I A _]. constructor; simpl; auto.
      * intros x Hx. rewrite L. apply in_app_iff. left. apply Hrs, Hx.
      * intros x Hx. rewrite L in Hx. rewrite !A, I. assert (Hnp : n <> p) by congruence. destruct (eqb_spec n x) as [<-|Hne].
        -- right. exists p, l. rewrite !A. unfold a'. rewrite !aget_dset.
           destruct (eqb_spec n p); [congruence|].
           destruct (eq_dec "parent" "parent") as [_|]; [|congruence]. destruct (eq_dec "parent" "level"); [congruence|].
           destruct (eq_dec "level" "level") as [_|]; [|congruence].
           split; [reflexivity|]. split; [intros Hx'; apply Hi, Hrs, Hx'|]. split; [rewrite L; apply in_app_iff; auto|]. auto.
        -- apply in_app_iff in Hx as [Hx|[->|[]]]; [|congruence].
           destruct (Hn x Hx) as [(H1 & H2 & H3 & H4)|(q & l' & H1 & H2 & H3 & H4 & H5 & H6)]; [left; auto|].
           right. exists q, l'. rewrite !A. assert (n <> q) by congruence.
           destruct (eqb_spec n q) as [|_]; [congruence|]. rewrite L. rewrite in_app_iff. tauto.
Qed.
Lemma tinv_history t rs os : tinv t rs -> Forall top_ok os -> tinv (thistory t os) (rs ++ troots t os).
Proof.
  revert t rs. induction os as [|o os IH]; intros t rs H Hos; [rewrite app_nil_r; exact H|]. inversion Hos; subst.
  cbn [thistory fold_left troots]. rewrite app_assoc. apply IH; [|assumption]. apply tinv_step; assumption.
Qed.

Section Inv.
  Variables (t : tree) (rs : list name).
  Hypothesis T : tinv t rs.
  Notation g := (t_g t).
  Notation nodes := (get_node_list g).
  Notation kids := (list_at (g_nbrs g)).
  Definition lvl (n : name) : Z := match nattr g n "level" with VI z => z | _ => 0%Z end.
  Lemma kid_edge p c : In c (kids p) <-> In p (list_at (g_in g) c).
  Proof.
    pose proof (ti_wf T) as W. pose proof (ti_ty T) as D.
    rewrite !(count_occ_In eq_dec). rewrite (wf_nbrs W), (wf_ins W). unfold nb_count. rewrite D. reflexivity.
  Qed.
  Lemma kid_node p c : In c (kids p) -> In p nodes /\ In c nodes.
  Proof.
    pose proof (ti_wf T) as W. intros H. apply (nbr_check_edge W) in H. apply (check_edge_nodes W H).
  Qed.
  Lemma kid_spec p c : In c (kids p) -> nattr g c "parent" = vname p /\ lvl c = (lvl p + 1)%Z.
  Proof.
    intros H. destruct (kid_node H) as [Hp Hc]. apply kid_edge in H. destruct (ti_node T Hc) as [(_ & _ & H1 & _)|(q & l & H1 & _ & _ & H2 & H3 & H4)].
    - rewrite H1 in H. destruct H.
    - rewrite H2 in H. destruct H as [->|[]]. split; [exact H1|]. unfold lvl. rewrite H3, H4. reflexivity.
  Qed.
  Lemma kid_of_parent p c : In c nodes -> nattr g c "parent" = vname p -> In c (kids p).
  Proof.
    intros Hc Hp. destruct (ti_node T Hc) as [(H1 & _)|(q & l & H1 & _ & _ & H2 & _)].
    - rewrite H1 in Hp. symmetry in Hp. apply vname_not_none in Hp. destruct Hp.
    - rewrite H1 in Hp. apply vname_inj in Hp. subst. apply kid_edge. rewrite H2. simpl. auto.
  Qed.
  Lemma kid_unique p q c : In c (kids p) -> In c (kids q) -> p = q.
  Proof. intros H1 H2. apply kid_spec in H1 as [H1 _]. apply kid_spec in H2 as [H2 _]. rewrite H1 in H2. apply vname_inj, H2. Qed.
  Lemma kid_NoDup p : NoDup (kids p).
  Proof.
    apply NoDup_count. intros x. rewrite (wf_nbrs (ti_wf T)). unfold nb_count. rewrite (ti_ty T). apply b2n_le1.
  Qed.
  Lemma children_run n : In n nodes -> get_children n t = (t, Ok (kids n)).
  Proof. intros H. apply ong_read. unfold get_neighbors, nbr_list. rewrite (dget_list_at H). reflexivity. Qed.
  Lemma children_missing n : ~ In n nodes -> tobs (get_children n) t = Err KeyError.
  Proof. intros H. rewrite tobs_children, obs_nbrs. apply dget_None in H. rewrite H. reflexivity. Qed.
  Lemma child_of_iff p c : child_of t p c <-> In c (kids p).
  Proof.
    unfold child_of. split.
    - intros (l & Hl & Hc). rewrite tobs_children, obs_nbrs in Hl. unfold list_at. destruct (dget (g_nbrs g) p); [injection Hl as ->; exact Hc|discriminate].
    - intros H. exists (kids p). split; [|exact H]. unfold tobs. rewrite children_run by apply (kid_node H). reflexivity.
  Qed.
  Lemma tshape_rep r : rep kids r -> In (rroot r) nodes -> tshape t r.
  Proof.
    induction r as [n ts IH] using rose_ind2. rewrite rep_eq. intros [H1 H2] Hn. simpl in Hn.
    assert (Hall : Forall (tshape t) ts).
    { rewrite Forall_forall in *. intros x Hx. apply IH; auto. apply (kid_node (p := n)). rewrite H1. apply in_map, Hx. }
    split; [unfold tobs; rewrite children_run by assumption; rewrite H1; reflexivity|].
    clear - Hall. induction ts as [|x ts IH]; [exact I|]. inversion Hall; subst. split; [assumption|apply IH; assumption].
  Qed.
  Lemma kids_lvl n c : In n nodes -> In c (kids n) -> In c nodes /\ lvl c = (lvl n + 1)%Z.
  Proof. intros _ H. split; [apply (kid_node H)|apply (kid_spec H)]. Qed.

  Lemma tree_rose n : In n nodes -> exists r, rroot r = n /\ tshape t r /\ NoDup (rnodes r) /\
    (forall x, In x (rnodes r) <-> reach (child_of t) n x) /\
    (forall d x, In x (at_depth d r) -> lvl x = (lvl n + Z.of_nat d)%Z) /\
    forall fuel, length nodes < fuel ->
      tree_dfs fuel (Some n) t = (mkTree g (t_root t) (t_trace t ++ map (fun x => EHigh (IName x)) (pre_last_first r)), Ok tt) /\
      tree_bfs fuel (Some n) t = (mkTree g (t_root t) (t_trace t ++ map (fun x => EHigh (IName x)) (level_order r)), Ok tt).
  Proof.
    intros Hn. destruct (rose_exists kids_lvl Hn) as (r & Er & Hr). exists r. split; [exact Er|].
    assert (Hrn : In (rroot r) nodes) by (rewrite Er; exact Hn).
    assert (Hu : forall p q c, In p nodes -> In q nodes -> In c (kids p) -> In c (kids q) -> p = q) by (intros p q c _ _; apply kid_unique).
    assert (Hk2 : forall m, In m nodes -> NoDup (kids m)) by (intros m _; apply kid_NoDup).
    split; [apply tshape_rep; assumption|]. split; [apply (rep_NoDup kids_lvl Hu Hk2 Hr Hrn)|]. split.
    { intros x. rewrite (rep_reach Hr). rewrite Er. apply reach_iff. intros p c. symmetry. apply child_of_iff. }
    split; [intros d x Hx; rewrite <- Er; apply (at_depth_level kids_lvl Hr Hrn Hx)|].
    intros fuel Hf. pose proof (rep_size kids_lvl Hu Hk2 Hr Hrn) as Hsz.
    assert (Hev : forall l, flat_map (fun x => [EHigh (IName x)]) l = map (fun x => EHigh (IName x)) l) by (induction l; simpl; congruence).
    assert (Hb : forall fifo n q tr, In n nodes -> (emit (EHigh (IName n)) ;; l <- get_children_i (IName n) ;; ret (inl (B := unit) (fold_left (put fifo) (map IName l) q))) (mkTree g (t_root t) tr) =
       (mkTree g (t_root t) (tr ++ [EHigh (IName n)]), Ok (inl (fold_left (put fifo) (map IName (kids n)) q)))).
    { intros fifo m q tr Hm. erewrite bind_ok by reflexivity. cbn [t_g t_root t_trace].
      erewrite bind_ok; [|unfold get_children_i; apply ong_read; cbn [t_g]; unfold get_neighbors, nbr_list; rewrite (dget_list_at Hm); reflexivity]. reflexivity. }
    assert (Hi : incl (flat_map rnodes [r]) nodes).
    { simpl. rewrite app_nil_r. apply (rep_incl kids_lvl Hr Hrn). }
    assert (Hs : fsize [r] < fuel) by (unfold fsize; simpl; rewrite app_nil_r; lia).
    assert (Et : mkTree g (t_root t) (t_trace t) = t) by (destruct t; reflexivity).
    unfold tree_dfs, tree_bfs.
    replace (tree_traverse fuel false (Some n) t) with (tree_traverse fuel false (Some n) (mkTree g (t_root t) (t_trace t))) by (rewrite Et; reflexivity).
    replace (tree_traverse fuel true (Some n) t) with (tree_traverse fuel true (Some n) (mkTree g (t_root t) (t_trace t))) by (rewrite Et; reflexivity).
    unfold tree_traverse, root_item. split.
    - erewrite bind_ok by reflexivity. change (put false [] (IName n)) with [IName n]. rewrite <- Er. change [IName (rroot r)] with (fnames [r]).
      rewrite (@run_dfs g (t_root t) kids false _ (fun x => [EHigh (IName x)]) nodes).
      + unfold evs. rewrite Hev. simpl flat_map. rewrite app_nil_r. reflexivity.
      + reflexivity.
      + intros m q tr Hm. apply Hb, Hm.
      + reflexivity.
      + constructor; [exact Hr|constructor].
      + exact Hi.
      + exact Hs.
    - erewrite bind_ok by reflexivity. change (put true [] (IName n)) with [IName n]. rewrite <- Er. change [IName (rroot r)] with (fnames ([] ++ [r])).
      rewrite (@run_bfs g (t_root t) kids true _ (fun x => [EHigh (IName x)]) nodes) with (h := fheight [r]).
      + unfold evs. rewrite Hev. rewrite level_order_eq. reflexivity.
      + reflexivity.
      + intros m q tr Hm. apply Hb, Hm.
      + reflexivity.
      + constructor.
      + constructor; [exact Hr|constructor].
      + exact Hi.
      + exact Hs.
      + simpl. lia.
  Qed.

  Lemma tree_acyclic x l : walk (child_of t) x l x -> l = [x].
  Proof.
    assert (Hlen : forall a p b, walk (child_of t) a p b -> lvl b = (lvl a + Z.of_nat (length p) - 1)%Z).
    { intros a p b Hw. induction Hw as [a|a b p c H Hw IH]; [simpl; lia|]. apply child_of_iff in H. apply kid_spec in H as [_ H]. rewrite IH, H. simpl length. lia. }
    intros Hw. pose proof (Hlen _ _ _ Hw) as H. inversion Hw; subst; [reflexivity|]. simpl length in H.
    destruct p; [|simpl in H; lia]. inversion H1.
  Qed.
End Inv.
