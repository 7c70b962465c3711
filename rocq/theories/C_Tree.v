(* Property theorems C43-C49: Tree and BinaryTree. The vocabulary (rose, bt, tshape, bshape, eshape, lshape, the orders, ...) is in S_Tree.v. *)
From Verif Require Import Py Util M_Graph P_Graph P_Attr M_Search Spec P_Walk M_Flow M_Tree S_Tree P_Rose P_Tree P_BinTree P_BinOrder P_Numeral.
From Coq Require Import Permutation Sorted.
Local Open Scope string_scope. Local Open Scope list_scope.

Definition attr_of (n : name) (a : string) : M tree val := ong (get_node_attr n a).

(** C43 *)
Theorem C43_tree_structure : forall kw os, Forall top_ok os ->
  let t := thistory (new_tree kw) os in let roots := troots (new_tree kw) os in
  (forall n, In n (get_node_list (t_g t)) ->
     (In n roots /\ tobs (get_parent n) t = Ok VNone /\ obs (get_in_neighbors n) (t_g t) = Ok [] /\ tobs (attr_of n "level") t = Ok (VI 0)) \/
     (~ In n roots /\ exists p l, In p (get_node_list (t_g t)) /\ tobs (get_parent n) t = Ok (vname p) /\ obs (get_in_neighbors n) (t_g t) = Ok [p] /\
        tobs (attr_of p "level") t = Ok (VI l) /\ tobs (attr_of n "level") t = Ok (VI (l + 1)))) /\
  (forall p c, child_of t p c <-> In c (get_node_list (t_g t)) /\ tobs (get_parent c) t = Ok (vname p)) /\
  (forall p l, tobs (get_children p) t = Ok l -> NoDup l) /\
  (forall x l, walk (child_of t) x l x -> l = [x]) /\
  t_root t = match rev roots with [] => None | r :: _ => Some r end.
Proof.
  intros kw os Hos t roots. assert (T : tinv t roots) by exact (tinv_history (tinv_new kw) Hos).
  assert (A : forall n a, In n (get_node_list (t_g t)) -> tobs (attr_of n a) t = Ok (nattr (t_g t) n a)).
  { intros n a Hn. unfold attr_of. rewrite tobs_ong. unfold obs. rewrite (get_attr_run _ Hn (ti_wf T)). reflexivity. }
  assert (I : forall n, In n (get_node_list (t_g t)) -> obs (get_in_neighbors n) (t_g t) = Ok (list_at (g_in (t_g t)) n)).
  { intros n Hn. apply obs_in_neighbors_in; [exact (ti_wf T)|exact (ti_ty T)|exact Hn]. }
  split; [|split; [|split; [|split]]].
  - intros n Hn. change (get_parent n) with (attr_of n "parent"). rewrite I by exact Hn. rewrite !A by exact Hn.
    destruct (ti_node T Hn) as [(H1 & H2 & H3 & H4)|(p & l & H1 & H2 & H3 & H4 & H5 & H6)].
    + left. rewrite H1, H3, H4. auto.
    + right. split; [exact H2|]. exists p, l. rewrite H1, H4, H6, (A p) by exact H3. rewrite H5. auto.
  - intros p c. rewrite (child_of_iff T). split.
    + intros H. destruct (kid_node T H) as [_ Hc]. split; [exact Hc|]. change (get_parent c) with (attr_of c "parent"). rewrite A by exact Hc. f_equal. apply (kid_spec T H).
    + intros [Hc H]. change (get_parent c) with (attr_of c "parent") in H. rewrite A in H by exact Hc. injection H as H. apply (kid_of_parent T Hc H).
  - intros p l H. rewrite tobs_children, obs_nbrs in H. pose proof (kid_NoDup T p) as Hk. unfold list_at in Hk. destruct (dget (g_nbrs (t_g t)) p); [|discriminate]. injection H as <-. exact Hk.
  - intros x l. apply (tree_acyclic T).
  - apply (ti_root T).
Qed.
Print Assumptions C43_tree_structure.
Definition ex_tops : list top :=
  [TRoot (NI 0) []; TChild (NI 1) (NI 0) [("label", VS "a")]; TChild (NI 2) (NI 0) []; TChild (NI 1) (NI 2) []; TChild (NI 3) (NI 9) []; TChild (NI 4) (NI 1) [];
   TRoot (NI 1) []; TChild (NI 5) (NI 2) []; TChild (NI 6) (NI 1) []; TRoot (NS "z") []; TChild (NI 0) (NS "z") []; TChild (NI 7) (NS "z") []].
Ltac nodup := repeat (constructor; [let H := fresh in intros H; repeat (destruct H as [H|H]; [discriminate|]); destruct H|]); constructor.
Example C43_nonvacuous : Forall top_ok ex_tops /\ troots (new_tree []) ex_tops = [NI 0; NS "z"] /\
  get_node_list (t_g (thistory (new_tree []) ex_tops)) = [NI 0; NI 1; NI 2; NI 4; NI 5; NI 6; NS "z"; NI 7] /\
  tobs (get_children (NI 1)) (thistory (new_tree []) ex_tops) = Ok [NI 4; NI 6].
Proof.
  split; [|vm_compute; auto]. unfold ex_tops. repeat apply Forall_cons; try apply Forall_nil; cbn [top_ok dkeys map fst];
    try split; try nodup; intros H; repeat (destruct H as [H|H]; [discriminate|]); destruct H.
Qed.
(* an attribute parent=... given to add_root is reported by get_parent although there is no such arc *)
Theorem C43_parent_keyword_refuted : exists os c p, let t := thistory (new_tree []) os in
  tobs (get_parent c) t = Ok (vname p) /\ ~ child_of t p c /\ obs (get_in_neighbors c) (t_g t) = Ok [].
Proof.
  exists [TRoot (NI 1) []; TRoot (NI 2) [("parent", VI 1)]], (NI 2), (NI 1). split; [reflexivity|]. split; [|reflexivity].
  intros (l & H & Hc). vm_compute in H. injection H as <-. destruct Hc.
Qed.
Print Assumptions C43_parent_keyword_refuted.

(** C44 *)
Lemma pre_perm r : Permutation (pre_last_first r) (rnodes r).
Proof.
  induction r as [n ts IH] using rose_ind2. rewrite pre_last_first_eq. simpl. constructor. transitivity (flat_map pre_last_first ts).
  - apply Permutation_flat_map. symmetry. apply Permutation_rev.
  - induction IH; simpl; [constructor|apply Permutation_app; assumption].
Qed.
Lemma flat_nodes F : Permutation (flat_map rnodes F) (map rroot F ++ flat_map rnodes (flat_map rkids F)).
Proof.
  induction F as [|[n ts] F IH]; [constructor|]. simpl. constructor. rewrite flat_map_app. rewrite IH. rewrite !app_assoc. apply Permutation_app_tail, Permutation_app_comm.
Qed.
Lemma flevels_perm h : forall F, fheight F <= h -> Permutation (flevels h F) (flat_map rnodes F).
Proof.
  induction h as [|h IH]; intros F Hh.
  - destruct F as [|[n ts] F]; [constructor|]. unfold fheight in Hh. cbn [fold_right rheight] in Hh. lia.
  - rewrite flevels_S, IH by (rewrite fheight_kids; lia). symmetry. apply flat_nodes.
Qed.
Lemma level_perm r : Permutation (level_order r) (rnodes r).
Proof. rewrite level_order_eq, flevels_perm by reflexivity. simpl. rewrite app_nil_r. reflexivity. Qed.

Definition seen (t t' : tree) (l : list name) : Prop := t' = mkTree (t_g t) (t_root t) (t_trace t ++ map (fun x => EHigh (IName x)) l).
Theorem C44_named_root : forall kw os n, Forall top_ok os -> let t := thistory (new_tree kw) os in In n (get_node_list (t_g t)) ->
  exists r, rroot r = n /\ tshape t r /\ NoDup (rnodes r) /\ (forall x, In x (rnodes r) <-> reach (child_of t) n x) /\
  forall fuel, length (get_node_list (t_g t)) < fuel ->
    (exists t', tree_dfs fuel (Some n) t = (t', Ok tt) /\ seen t t' (pre_last_first r)) /\
    (exists t', tree_bfs fuel (Some n) t = (t', Ok tt) /\ seen t t' (level_order r)) /\
    Permutation (pre_last_first r) (rnodes r) /\ Permutation (level_order r) (rnodes r) /\
    StronglySorted (fun x y => exists i j, tobs (attr_of x "level") t = Ok (VI i) /\ tobs (attr_of y "level") t = Ok (VI j) /\ i <= j)%Z (level_order r).
Proof.
  intros kw os n Hos t Hn. assert (T : tinv t (troots (new_tree kw) os)) by exact (tinv_history (tinv_new kw) Hos).
  destruct (tree_rose T Hn) as (r & H1 & H2 & H3 & H4 & H5 & H6). exists r. split; [exact H1|]. split; [exact H2|]. split; [exact H3|]. split; [exact H4|].
  intros fuel Hf. destruct (H6 fuel Hf) as [D B]. split; [eexists; split; [exact D|reflexivity]|]. split; [eexists; split; [exact B|reflexivity]|].
  split; [apply pre_perm|]. split; [apply level_perm|].
  assert (L : forall d x, In x (at_depth d r) -> tobs (attr_of x "level") t = Ok (VI (lvl t n + Z.of_nat d))).
  { intros d x Hx. pose proof (H5 d x Hx) as Hl. assert (Hxn : In x (get_node_list (t_g t))).
    { assert (Hxr : In x (rnodes r)). { eapply Permutation_in; [apply level_perm|]. unfold level_order. apply in_flat_map. exists d. split; [|exact Hx]. apply in_seq.
        destruct (Nat.lt_ge_cases d (rheight r)) as [|Hge]; [lia|]. rewrite (at_depth_high Hge) in Hx. destruct Hx. }
      apply H4 in Hxr. clear - Hxr Hn T. apply reach_closed with (E := child_of t) (a := n) (P := fun x => In x (get_node_list (t_g t))); try assumption.
      intros u v Hu He. apply (child_of_iff T) in He. apply (kid_node T He). }
    unfold attr_of. rewrite tobs_ong. unfold obs. rewrite (get_attr_run _ Hxn (ti_wf T)). simpl. f_equal. unfold lvl in *. destruct (ti_node T Hxn) as [(_ & _ & _ & E)|(p & l & _ & _ & _ & _ & _ & E)]; rewrite E in *; congruence. }
  unfold level_order. generalize (rheight r) as h. intros h. assert (Hk : forall k, StronglySorted (fun x y => exists i j, tobs (attr_of x "level") t = Ok (VI i) /\ tobs (attr_of y "level") t = Ok (VI j) /\ i <= j)%Z
    (flat_map (fun d => at_depth d r) (seq k h))); [|apply Hk].
  induction h as [|h IH]; intros k; [constructor|]. simpl.
  assert (Happ : forall (R : name -> name -> Prop) a b, StronglySorted R a -> StronglySorted R b -> (forall x y, In x a -> In y b -> R x y) -> StronglySorted R (a ++ b)).
  { clear. intros R a b Ha Hb Hab. induction Ha as [|x a Ha IHa Hx]; [exact Hb|]. simpl. constructor; [apply IHa; intros; apply Hab; simpl; auto|].
    apply Forall_app. split; [exact Hx|]. apply Forall_forall. intros y Hy. apply Hab; simpl; auto. }
  apply Happ; [|apply IH|].
  - assert (Hs : forall l, incl l (at_depth k r) -> StronglySorted (fun x y => exists i j, tobs (attr_of x "level") t = Ok (VI i) /\ tobs (attr_of y "level") t = Ok (VI j) /\ i <= j)%Z l); [|apply Hs; intros x Hx; exact Hx].
    induction l as [|x l IHl]; intros Hi; [constructor|]. constructor; [apply IHl; intros y Hy; apply Hi; simpl; auto|]. apply Forall_forall. intros y Hy.
    do 2 eexists. split; [apply L; apply Hi; simpl; auto|]. split; [apply L; apply Hi; simpl; auto|]. lia.
  - intros x y Hx Hy. apply in_flat_map in Hy as (d & Hd & Hy). apply in_seq in Hd. do 2 eexists. split; [apply L; exact Hx|]. split; [apply L; exact Hy|]. lia.
Qed.
Print Assumptions C44_named_root.
Example C44_nonvacuous : let t := thistory (new_tree []) ex_tops in In (NI 0) (get_node_list (t_g t)) /\ length (get_node_list (t_g t)) < 9 /\
  visits (t_trace (fst (tree_dfs 9 (Some (NI 0)) t))) = [NI 0; NI 2; NI 5; NI 1; NI 6; NI 4] /\
  visits (t_trace (fst (tree_bfs 9 (Some (NI 0)) t))) = [NI 0; NI 1; NI 2; NI 4; NI 6; NI 5].
Proof. vm_compute. auto 10. Qed.
(* without a root argument the traversal starts from the Node object, which is not a key of the neighbour lists *)
Theorem C44_default_root_refuted : forall kw os, Forall top_ok os -> troots (new_tree kw) os <> [] ->
  let t := thistory (new_tree kw) os in t_root t <> None /\ forall fuel, 0 < fuel -> tobs (tree_dfs fuel None) t = Err KeyError /\ tobs (tree_bfs fuel None) t = Err KeyError.
Proof.
  intros kw os Hos Hr t. assert (T : tinv t (troots (new_tree kw) os)) by exact (tinv_history (tinv_new kw) Hos).
  pose proof (ti_root T) as Ht. destruct (rev (troots (new_tree kw) os)) as [|r rs] eqn:E.
  { apply (f_equal (@rev name)) in E. rewrite rev_involutive in E. simpl in E. congruence. }
  split; [congruence|]. intros fuel Hf. destruct fuel as [|f]; [lia|].
  assert (X : forall fifo, tobs (tree_traverse (S f) fifo None) t = Err KeyError).
  { intros fifo. unfold tobs, tree_traverse. assert (X : root_item None t = (t, Ok (INode r))) by (unfold root_item; erewrite bind_ok by reflexivity; rewrite Ht; reflexivity).
    erewrite bind_ok by exact X. assert (P : put fifo [] (INode r) = [INode r]) by (destruct fifo; reflexivity). rewrite P. reflexivity. }
  split; apply X.
Qed.
Print Assumptions C44_default_root_refuted.
Example C44_default_root_nonvacuous : Forall top_ok ex_tops /\ troots (new_tree []) ex_tops <> [].
Proof. split; [apply C43_nonvacuous|vm_compute; discriminate]. Qed.

(** C45 *)
Theorem C45_child_slots : forall kw os, Forall bop_ok os -> bclean (new_tree kw) os -> let t := bhistory (new_tree kw) os in
  (forall n s, In n (get_node_list (t_g t)) -> tobs (get_child s (IName n)) t = Ok VNone \/
     exists c, tobs (get_child s (IName n)) t = Ok (vname c) /\ In c (get_node_list (t_g t)) /\ tobs (get_parent c) t = Ok (vname n) /\
       tobs (attr_of c "direction") t = Ok (dir s) /\ child_of t n c /\ tobs (get_child (other s) (IName n)) t <> Ok (vname c)) /\
  (forallb (fun o => negb (is_del o)) os = true -> forall p c, child_of t p c -> exists s, tobs (get_child s (IName p)) t = Ok (vname c)).
Proof.
  intros kw os Ho Hc t. assert (B : binv t) by exact (binv_history (binv_new kw) Ho Hc).
  assert (A : forall n a, In n (get_node_list (t_g t)) -> tobs (attr_of n a) t = Ok (nattr (t_g t) n a)).
  { intros n a Hn. unfold attr_of. rewrite tobs_ong. unfold obs. rewrite (get_attr_run _ Hn (bi_wf B)). reflexivity. }
  split.
  - intros n s Hn. rewrite (child_obs B s Hn). destruct (bi_slot B s Hn) as [E|(c & l & E & Hcn & Hp & Hd & _ & _ & Hk)]; [left; rewrite E; reflexivity|].
    right. exists c. rewrite E. split; [reflexivity|]. split; [exact Hcn|]. split; [change (get_parent c) with (attr_of c "parent"); rewrite A, Hp by exact Hcn; reflexivity|].
    split; [rewrite A, Hd by exact Hcn; reflexivity|]. split.
    + exists (list_at (g_nbrs (t_g t)) n). split; [|exact Hk]. rewrite tobs_children, obs_nbrs. unfold list_at. unfold get_node_list in Hn. apply dget_exists in Hn as [d ->]. reflexivity.
    + rewrite (child_obs B (other s) Hn). intros [= E2]. destruct (slot_kid B Hn E2) as (_ & _ & _ & Hd' & _). rewrite Hd in Hd'. destruct s; discriminate.
  - intros Hnd p c (l & Hl & Hin). assert (K : kids_slots t) by exact (kids_slots_history (binv_new kw) (@kids_slots_new kw) Ho Hc Hnd).
    rewrite tobs_children, obs_nbrs in Hl. destruct (dget (g_nbrs (t_g t)) p) as [l'|] eqn:E; [injection Hl as ->|discriminate].
    assert (Hp : In p (get_node_list (t_g t))) by (exact (dget_Some_keys E)).
    destruct (K p c) as [s Hs]; [unfold list_at; rewrite E; exact Hin|]. exists s. rewrite (child_obs B s Hp), Hs. reflexivity.
Qed.
Print Assumptions C45_child_slots.
Definition ex_bops : list bop :=
  [BRoot (NI 1) []; BChild L (NI 2) (NI 1) []; BChild R (NI 3) (NI 1) [("label", VS "+")]; BChild L (NI 4) (NI 1) []; BChild R (NI 5) (NI 2) []; BChild L (NI 6) (NI 3) [];
   BChild R (NI 7) (NI 3) []; BDel (NI 6); BDel (NI 9); BChild L (NI 8) (NI 3) []].
Ltac bopok := repeat apply Forall_cons; try apply Forall_nil; cbn [bop_ok dkeys map fst]; try exact I; (split; [nodup|]; split; intros H; repeat (destruct H as [H|H]; [discriminate|]); destruct H).
Example C45_nonvacuous : Forall bop_ok ex_bops /\ bclean (new_tree []) ex_bops /\
  let t := bhistory (new_tree []) ex_bops in get_node_list (t_g t) = [NI 1; NI 2; NI 3; NI 5; NI 7; NI 8] /\ tobs (get_child L (IName (NI 3))) t = Ok (VI 8).
Proof. split; [unfold ex_bops; bopok|]. split; [|vm_compute; auto]. repeat split; vm_compute; discriminate. Qed.
(* reusing a name raises, but has already overwritten the slot; the node is then its own left child and bfs never ends *)
Definition ex_reuse : list bop := [BRoot (NI 1) []; BChild L (NI 1) (NI 1) []].
Theorem C45_reused_name_refuted : Forall bop_ok ex_reuse /\ tobs (bexec (BChild L (NI 1) (NI 1) [])) (bhistory (new_tree []) [BRoot (NI 1) []]) = Err MultipleNodeException /\
  let t := bhistory (new_tree []) ex_reuse in tobs (get_child L (IName (NI 1))) t = Ok (VI 1) /\ tobs (get_children (NI 1)) t = Ok [] /\
  forall fuel, tobs (bin_bfs fuel L None None) t = Err OutOfFuel.
Proof.
  split; [unfold ex_reuse; bopok|]. split; [vm_compute; reflexivity|]. split; [vm_compute; reflexivity|]. split; [vm_compute; reflexivity|].
  set (t := bhistory (new_tree []) ex_reuse). vm_compute in t. intros fuel. unfold tobs, bin_bfs, bin_traverse.
  erewrite bind_ok by (subst t; vm_compute; reflexivity). erewrite bind_ok by (subst t; vm_compute; reflexivity). cbv beta iota zeta.
  match goal with |- snd (bind (loop _ ?b _) _ _) = _ => set (body := b) end.
  assert (H : forall fuel x tr, x = INode (NI 1) \/ x = IName (NI 1) -> snd (loop fuel body [x] (mkTree (t_g t) (t_root t) tr)) = Err OutOfFuel).
  { clear fuel. induction fuel as [|f IH]; intros x tr Hx; [reflexivity|]. cbn [loop].
    erewrite bind_ok by (destruct Hx as [->| ->]; subst t body; cbn; reflexivity).
    cbv beta iota. apply IH. auto. }
  change (put true [] (INode (NI 1))) with [INode (NI 1)]. specialize (H fuel (INode (NI 1)) (t_trace t) (or_introl eq_refl)).
  change (mkTree (t_g t) (t_root t) (t_trace t)) with t in H. destruct (loop fuel body [INode (NI 1)] t) as [t' [u|e]] eqn:E; simpl in H; [discriminate|]. injection H as ->.
  erewrite bind_err by exact E. reflexivity.
Qed.
Print Assumptions C45_reused_name_refuted.
(* deleting an inner node keeps its descendants, whose later deletion clears a slot of a new node of the same name *)
Definition ex_orphan : list bop := [BRoot (NI 1) []; BChild L (NI 2) (NI 1) []; BChild L (NI 3) (NI 2) []; BDel (NI 2); BChild L (NI 2) (NI 1) []; BChild L (NI 4) (NI 2) []; BDel (NI 3)].
Theorem C45_deletion_refuted : Forall bop_ok ex_orphan /\ bclean (new_tree []) ex_orphan /\
  let t := bhistory (new_tree []) ex_orphan in child_of t (NI 2) (NI 4) /\ forall s, tobs (get_child s (IName (NI 2))) t = Ok VNone.
Proof.
  split; [unfold ex_orphan; bopok|]. split; [repeat split; vm_compute; discriminate|]. split.
  - eexists. split; [vm_compute; reflexivity|simpl; auto].
  - intros []; vm_compute; reflexivity.
Qed.
Print Assumptions C45_deletion_refuted.

(** C46, C47 *)
(* the display mode given when the tree was created, 'off' by default *)
Definition display_of (kw : attrs) : val := match dget kw "display" with Some v => v | None => VS "off" end.
Lemma tree_display kw os : Forall bop_ok os -> bclean (new_tree kw) os -> has_display (bhistory (new_tree kw) os) (display_of kw).
Proof.
  intros Ho Hc. unfold has_display. rewrite (gattr_history (binv_new kw) Ho Hc). unfold new_tree, display_of. cbn [t_g]. unfold new_graph. cbn [g_attr].
  assert (E1 : dget (ddel kw "type") "display" = dget kw "display") by (apply dget_ddel_ne; discriminate).
  set (k := if dmem (ddel kw "type") "layout" then _ else _).
  assert (E2 : dget k "display" = dget kw "display").
  { unfold k. destruct (dmem (ddel kw "type") "layout"); [exact E1|]. rewrite dget_dset_ne by discriminate. exact E1. }
  clearbody k. set (k1 := dset k "type" _). assert (E3 : dget k1 "display" = dget kw "display") by (unfold k1; rewrite dget_dset_ne by discriminate; exact E2).
  clearbody k1. rewrite dget_dset_ne by discriminate.
  set (k2 := if dmem k1 "display" then _ else _). assert (E4 : dget k2 "display" = Some (match dget kw "display" with Some v => v | None => VS "off" end)).
  { unfold k2, dmem. rewrite E3. destruct (dget kw "display") eqn:E; [rewrite E3; reflexivity|apply dget_dset_eq]. }
  clearbody k2. destruct (dmem k2 "layout"); [exact E4|]. rewrite dget_dset_ne by discriminate. exact E4.
Qed.
Lemma blist_perm o s b : Permutation (blist o s b) (bnodes b).
Proof.
  induction b as [|n l IHl r IHr]; [constructor|]. simpl. destruct s, o; rewrite IHl, IHr; try reflexivity.
  - symmetry. apply Permutation_middle.
  - rewrite app_assoc, Permutation_app_comm. reflexivity.
  - constructor. apply Permutation_app_comm.
  - rewrite <- Permutation_middle. constructor. apply Permutation_app_comm.
  - rewrite app_assoc, Permutation_app_comm. simpl. constructor. apply Permutation_app_comm.
Qed.
Theorem C46_print_nodes : forall kw os n o s disp root fuel, Forall bop_ok os -> bclean (new_tree kw) os -> truthy (display_of kw) = true ->
  let t := bhistory (new_tree kw) os in In n (get_node_list (t_g t)) -> root = Some n \/ (root = None /\ t_root t = Some n) -> length (get_node_list (t_g t)) <= fuel ->
  exists b es, bshape t (vname n) b /\ NoDup (bnodes b) /\ (forall x, In x (bnodes b) <-> reach (bchild_of t) n x) /\ Permutation (blist o s b) (bnodes b) /\
    print_nodes fuel o s disp root t = (mkTree (t_g t) (t_root t) (t_trace t ++ es), Ok tt) /\ prints es = map vname (blist o s b).
Proof.
  intros kw os n o s disp root fuel Ho Hc Hd t Hn Hr Hf. assert (B : binv t) by exact (binv_history (binv_new kw) Ho Hc).
  destruct (bshape_exists B Hn) as [b Hb]. destruct (bshape_nodes B Hn Hb) as (H1 & H2 & H3).
  destruct (print_nodes_ok o s disp (fuel := fuel) Hb (tree_display _ _ Ho Hc) Hd Hr) as (es & E & He).
  { pose proof (bheight_nodes b). pose proof (NoDup_incl_length H1 H2). unfold get_node_list in *. lia. }
  exists b, es. split; [exact Hb|]. split; [exact H1|]. split; [exact H3|]. split; [apply blist_perm|]. split; [exact E|exact He].
Qed.
Print Assumptions C46_print_nodes.
Example C46_nonvacuous : let t := bhistory (new_tree []) ex_bops in In (NI 1) (get_node_list (t_g t)) /\ t_root t = Some (NI 1) /\ length (get_node_list (t_g t)) <= 6 /\ truthy (display_of []) = true /\
  prints (t_trace (fst (print_nodes 6 InOrder L None None t))) = map VI [2; 5; 1; 8; 3; 7]%Z /\ prints (t_trace (fst (print_nodes 6 PostOrder R None None t))) = map VI [7; 8; 3; 5; 2; 1]%Z.
Proof. vm_compute. auto 10. Qed.

Lemma blevel_perm s b : Permutation (blevel_order s b) (bnodes b).
Proof. rewrite <- rose_of_levels, flevels_perm by (rewrite rose_of_height; reflexivity). apply rose_of_nodes. Qed.
Theorem C47_traversals : forall kw os n s disp root fuel, Forall bop_ok os -> bclean (new_tree kw) os -> truthy (display_of kw) = true -> truthy (match disp with Some v => v | None => display_of kw end) = true ->
  let t := bhistory (new_tree kw) os in In n (get_node_list (t_g t)) -> root = Some n \/ (root = None /\ t_root t = Some n) -> length (get_node_list (t_g t)) < fuel ->
  exists b, bshape t (vname n) b /\ NoDup (bnodes b) /\ (forall x, In x (bnodes b) <-> reach (bchild_of t) n x) /\
    Permutation (blevel_order s b) (bnodes b) /\ Permutation (blist PreOrder (other s) b) (bnodes b) /\
    (exists es, bin_bfs fuel s disp root t = (mkTree (t_g t) (t_root t) (t_trace t ++ es), Ok tt) /\ visits es = blevel_order s b) /\
    (exists es, bin_dfs fuel s disp root t = (mkTree (t_g t) (t_root t) (t_trace t ++ es), Ok tt) /\ visits es = blist PreOrder (other s) b).
Proof.
  intros kw os n s disp root fuel Ho Hc Hd Hdd t Hn Hr Hf. assert (B : binv t) by exact (binv_history (binv_new kw) Ho Hc).
  destruct (bshape_exists B Hn) as [b Hb]. destruct (bshape_nodes B Hn Hb) as (H1 & H2 & H3). exists b.
  split; [exact Hb|]. split; [exact H1|]. split; [exact H3|]. split; [apply blevel_perm|]. split; [apply blist_perm|].
  destruct (bin_traverse_ok s disp true B Hn Hb (tree_display _ _ Ho Hc) Hd Hr Hf) as (e1 & E1 & V1).
  destruct (bin_traverse_ok s disp false B Hn Hb (tree_display _ _ Ho Hc) Hd Hr Hf) as (e2 & E2 & V2).
  split; [exists e1|exists e2]; split; [exact E1|exact (V1 Hdd)|exact E2|exact (V2 Hdd)].
Qed.
Print Assumptions C47_traversals.
Example C47_nonvacuous : let t := bhistory (new_tree []) ex_bops in In (NI 1) (get_node_list (t_g t)) /\ t_root t = Some (NI 1) /\ length (get_node_list (t_g t)) < 7 /\ truthy (display_of []) = true /\
  visits (t_trace (fst (bin_bfs 7 L None None t))) = [NI 1; NI 2; NI 3; NI 5; NI 8; NI 7].
Proof. vm_compute. auto 10. Qed.
(* dfs with priority 'L' does not visit the left subtree first *)
Theorem C47_dfs_priority_refuted : exists kw os b, Forall bop_ok os /\ bclean (new_tree kw) os /\ let t := bhistory (new_tree kw) os in t_root t = Some (NI 1) /\ bshape t (VI 1) b /\
  forall fuel, length (get_node_list (t_g t)) < fuel -> exists t', bin_dfs fuel L None None t = (t', Ok tt) /\ visits (t_trace t') <> blist PreOrder L b.
Proof.
  exists [], [BRoot (NI 1) []; BChild L (NI 2) (NI 1) []; BChild R (NI 3) (NI 1) []], (BN (NI 1) (BN (NI 2) BL BL) (BN (NI 3) BL BL)).
  assert (Ho : Forall bop_ok [BRoot (NI 1) []; BChild L (NI 2) (NI 1) []; BChild R (NI 3) (NI 1) []]) by bopok.
  assert (Hc : bclean (new_tree []) [BRoot (NI 1) []; BChild L (NI 2) (NI 1) []; BChild R (NI 3) (NI 1) []]) by (repeat split; vm_compute; discriminate).
  assert (Hb : bshape (bhistory (new_tree []) [BRoot (NI 1) []; BChild L (NI 2) (NI 1) []; BChild R (NI 3) (NI 1) []]) (vname (NI 1)) (BN (NI 1) (BN (NI 2) BL BL) (BN (NI 3) BL BL))).
  { econstructor; [vm_compute; reflexivity| |vm_compute; reflexivity|].
    - apply (bs_node (n := NI 2) (vl := VNone) (vr := VNone)); try constructor; vm_compute; reflexivity.
    - apply (bs_node (n := NI 3) (vl := VNone) (vr := VNone)); try constructor; vm_compute; reflexivity. }
  split; [exact Ho|]. split; [exact Hc|]. split; [vm_compute; reflexivity|]. split; [exact Hb|]. intros fuel Hf.
  assert (Hn : In (NI 1) (get_node_list (t_g (bhistory (new_tree []) [BRoot (NI 1) []; BChild L (NI 2) (NI 1) []; BChild R (NI 3) (NI 1) []])))) by (vm_compute; auto).
  assert (B := binv_history (binv_new []) Ho Hc).
  destruct (bin_traverse_ok (root := None) (fuel := fuel) L None false B Hn Hb (tree_display _ _ Ho Hc) eq_refl) as (es & E & V); [right; split; [reflexivity|vm_compute; reflexivity]|exact Hf|].
  eexists. split; [exact E|]. unfold add_evs. cbn [t_trace]. rewrite visits_app, (V eq_refl). vm_compute. discriminate.
Qed.
Print Assumptions C47_dfs_priority_refuted.

(** C48 *)
(* the node argument: a name, or the Node object of the root, whose label is not explicitly None *)
Definition node_arg (t : tree) (x : item) (n : name) : Prop := x = IName n \/ (x = INode n /\ tobs (root_label x) t = tobs (root_label (IName n)) t).
Theorem C48_postordereval : forall (A : arith) t n e x fuel, eshape t n e -> node_arg t x n -> esize e <= fuel ->
  ((forall e', psub e' e -> nonzero (eval A e') = true) -> postordereval A fuel x t = (t, Ok (eval A e))) /\
  ((exists e', psub e' e /\ nonzero (eval A e') = false) -> postordereval A fuel x t = (t, Err ValueError)).
Proof.
  intros A t n e x fuel He Hx Hf. rewrite (postordereval_ok A He Hx Hf). pose proof (good_psub A e) as G. split.
  - intros H. apply G in H. rewrite H. reflexivity.
  - intros (e' & H1 & H2). destruct (good A e); [|reflexivity]. rewrite (proj1 G eq_refl e' H1) in H2. discriminate.
Qed.
Print Assumptions C48_postordereval.
(* integer arithmetic with floor division, as an instance *)
Definition int_arith : arith := Build_arith (fun z => z) Z.add Z.sub Z.mul Z.div (fun z => negb (z =? 0)%Z).
Definition ex_exp (d : Z) : list bop :=
  [BRoot (NI 1) [("label", VS "*")]; BChild L (NI 2) (NI 1) [("label", VS "-")]; BChild R (NI 3) (NI 1) [("label", VS "7")];
   BChild L (NI 4) (NI 2) [("label", VI 5)]; BChild R (NI 5) (NI 2) [("label", VI d)]].
Definition ex_e (d : Z) : exp := EOp Mul (EOp Sub (ENum 5) (ENum d)) (ENum 7).
Lemma ex_exp_shape d : eshape (bhistory (new_tree []) (ex_exp d)) (NI 1) (ex_e d).
Proof.
  apply (es_op (l := NI 2) (r := NI 3) (o := Mul)); try reflexivity.
  - apply (es_op (l := NI 4) (r := NI 5) (o := Sub)); try reflexivity; apply es_num; reflexivity.
  - apply (es_str (s := "7")); reflexivity.
Qed.
Example C48_nonvacuous : eshape (bhistory (new_tree []) (ex_exp 3)) (NI 1) (ex_e 3) /\ node_arg (bhistory (new_tree []) (ex_exp 3)) (INode (NI 1)) (NI 1) /\ esize (ex_e 3) <= 5 /\
  (forall e', psub e' (ex_e 3) -> nonzero (eval int_arith e') = true) /\ tobs (postordereval int_arith 5 (INode (NI 1))) (bhistory (new_tree []) (ex_exp 3)) = Ok 14%Z /\
  eshape (bhistory (new_tree []) (ex_exp 5)) (NI 1) (ex_e 5) /\ (exists e', psub e' (ex_e 5) /\ nonzero (eval int_arith e') = false).
Proof.
  split; [apply ex_exp_shape|]. split; [right; split; reflexivity|]. split; [vm_compute; lia|]. split; [apply good_psub; reflexivity|]. split; [vm_compute; reflexivity|].
  split; [apply ex_exp_shape|]. exists (EOp Sub (ENum 5) (ENum 5)). split; [constructor|reflexivity].
Qed.
(* A number given as a label is the number whether it is written as an int, as its decimal string, or, when it is
   not negative, with a plus sign; a string with any character but digits and signs is no number. *)
Theorem C48_numerals : (forall z, int_of (VI z) = Ok z /\ int_of (VS (str_int z)) = Ok z) /\
  (forall z, (0 <= z)%Z -> int_of (VS ("+" ++ str_int z)%string) = Ok z) /\
  (forall c s, In c (list_ascii_of_string s) -> (nat_of_ascii c < nat_of_ascii "0" \/ nat_of_ascii "9" < nat_of_ascii c) -> c <> "-"%char -> c <> "+"%char ->
     int_of (VS s) = Err ValueError).
Proof.
  split; [intros z; split; [reflexivity|]; unfold int_of; rewrite int_str; reflexivity|].
  split; [intros z Hz; unfold int_of; cbn [String.append]; rewrite (int_plus Hz); reflexivity|].
  intros c s H Hc N1 N2. change (nat_of_ascii "0") with 48 in Hc. change (nat_of_ascii "9") with 57 in Hc. unfold int_of. rewrite (int_bad H Hc N1 N2). reflexivity.
Qed.
Print Assumptions C48_numerals.
Example C48_numerals_nonvacuous : str_int (-120) = "-120" /\ ("+" ++ str_int 120)%string = "+120" /\ In "x"%char (list_ascii_of_string "1x") /\ (nat_of_ascii "9" < nat_of_ascii "x") /\
  int_of (VS "-") = Err ValueError /\ int_of (VS "1-") = Err ValueError /\ int_of VNone = Err TypeError.
Proof. repeat split; try reflexivity; [right; left; reflexivity|vm_compute; lia]. Qed.

(* a child named 0 is a false value and is ignored, so the operator label is read as a number *)
Theorem C48_zero_name_refuted : exists os, Forall bop_ok os /\ bclean (new_tree []) os /\ let t := bhistory (new_tree []) os in
  bshape t (VI 1) (BN (NI 1) (BN (NI 0) BL BL) (BN (NI 2) BL BL)) /\
  map (fun n => label_of t (NI n)) [1; 0; 2]%Z = [VS "+"; VI 3; VI 4] /\
  forall (A : arith) fuel, 2 <= fuel -> tobs (postordereval A fuel (INode (NI 1))) t = Err ValueError.
Proof.
  exists [BRoot (NI 1) [("label", VS "+")]; BChild L (NI 0) (NI 1) [("label", VI 3)]; BChild R (NI 2) (NI 1) [("label", VI 4)]].
  split; [bopok|]. split; [repeat split; vm_compute; discriminate|]. split; [|split].
  - apply (bs_node (n := NI 1) (vl := VI 0) (vr := VI 2)); try reflexivity.
    + apply (bs_node (n := NI 0) (vl := VNone) (vr := VNone)); try constructor; reflexivity.
    + apply (bs_node (n := NI 2) (vl := VNone) (vr := VNone)); try constructor; reflexivity.
  - vm_compute. reflexivity.
  - intros A fuel Hf. do 2 (destruct fuel as [|fuel]; [lia|]). reflexivity.
Qed.
Print Assumptions C48_zero_name_refuted.

(** C49 *)
Theorem C49_printexp : forall t n x y fuel, lshape t n y -> node_arg t x n -> lsize y <= fuel ->
  printexp fuel x t = (mkTree (t_g t) (t_root t) (t_trace t ++ map EPrint (infix y)), Ok tt) /\
  (no_parens y -> forall z, no_parens z -> infix z = infix y -> z = y).
Proof.
  intros t n x y fuel Hl Hx Hf. split.
  - destruct (printexp_ok Hl [] Hx Hf) as (es & E & ->). rewrite add_evs_nil in E. exact E.
  - intros Hy z Hz H. apply (@infix_prefix z y [] []); [assumption|assumption|]. rewrite !app_nil_r. exact H.
Qed.
Print Assumptions C49_printexp.
Example C49_nonvacuous : lshape (bhistory (new_tree []) (ex_exp 3)) (NI 1) (LNode (VS "*") (LNode (VS "-") (LLeaf (VI 5)) (LLeaf (VI 3))) (LLeaf (VS "7"))) /\
  node_arg (bhistory (new_tree []) (ex_exp 3)) (INode (NI 1)) (NI 1) /\ no_parens (LNode (VS "*") (LNode (VS "-") (LLeaf (VI 5)) (LLeaf (VI 3))) (LLeaf (VS "7"))) /\
  prints (t_trace (fst (printexp 5 (INode (NI 1)) (bhistory (new_tree []) (ex_exp 3))))) = [VS "("; VS "("; VI 5; VS "-"; VI 3; VS ")"; VS "*"; VS "7"; VS ")"].
Proof.
  split; [|split; [right; split; reflexivity|split; [|vm_compute; reflexivity]]].
  - apply (ls_node (l := NI 2) (r := NI 3)); try reflexivity; [|apply ls_leaf; reflexivity].
    apply (ls_node (l := NI 4) (r := NI 5)); try reflexivity; apply ls_leaf; reflexivity.
  - repeat split; discriminate.
Qed.
