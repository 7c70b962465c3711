(* Property theorem C68: the objects that the Graph API hands out. get_neighbors, get_out_neighbors and get_in_neighbors return
   the list objects of the graph itself, get_node and add_node its Node objects. M_Heap.v models the calls with references to
   objects; [graph_of s] is the graph with the contents in place of the references, for which the other theorems are stated. *)
From Verif Require Import Py M_Graph M_Heap S_Heap P_Graph P_GraphLaws P_Heap P_HeapLoop.
Local Open Scope string_scope. Local Open Scope list_scope.

Lemma reach_owns s : reach s -> owns s.
Proof.
  intros H. induction H as [ty kw|o s H IH|x a v s H IH]; [apply owns_new|apply (t_exec o IH)|]. eapply owns_refs; [|exact IH]. reflexivity.
Qed.

(** on contents, every call does and returns what M_Graph.v says: the objects make no difference to it *)
Theorem C68_contents : (forall ty kw, graph_of (o_new ty kw) = new_graph ty kw) /\
  (forall s o, reach s -> exec o (graph_of s) = (graph_of (fst (o_exec o s)), snd (o_exec o s))) /\
  (forall ty kw os, graph_of (o_history (o_new ty kw) os) = history (new_graph ty kw) os).
Proof.
  split; [reflexivity|split]; [intros s o H; exact (proj2 (t_exec o (reach_owns s H)))|]. intros ty kw os. exact (proj2 (t_history os (owns_new ty kw))).
Qed.
Print Assumptions C68_contents.

(** a list or Node object belongs to one node, in one role *)
Theorem C68_separate : forall s n m a b, reach s ->
  (o_obs (o_get_neighbors n) s = Ok a -> o_obs (o_get_neighbors m) s = Ok a -> n = m) /\
  (o_obs (o_get_in_neighbors n) s = Ok a -> o_obs (o_get_in_neighbors m) s = Ok a -> n = m) /\
  (o_obs (o_get_neighbors n) s = Ok a -> o_obs (o_get_in_neighbors m) s = Ok b -> a <> b) /\
  (o_get_node n s = Some a -> o_get_node m s = Some a -> n = m).
Proof.
  intros s n m a b H. apply reach_owns in H.
  assert (X : forall (d : dict name nat), NoDup (map snd d) -> dget d n = Some a -> dget d m = Some a -> n = m).
  { clear. induction d as [|[k c] t IH]; cbn; intros N; [discriminate|]. apply NoDup_cons_iff in N as [N1 N2].
    destruct (eq_dec n k) as [->|D1], (eq_dec m k) as [->|D2]; auto; intros E1 E2.
    - injection E1 as ->. destruct (N1 (val_In E2)).
    - injection E2 as ->. destruct (N1 (val_In E1)). }
  unfold o_obs, o_get_neighbors, o_get_in_neighbors, o_nbr, o_inn, o_get_node. cbn [snd]. repeat split.
  - destruct (dget (o_nbrs s) n) eqn:E1, (dget (o_nbrs s) m) eqn:E2; try discriminate. intros [= ->] [= ->]. exact (X _ (ow_nbrs H) E1 E2).
  - destruct (o_type s); [|discriminate]. cbn [snd]. destruct (dget (o_in s) n) eqn:E1, (dget (o_in s) m) eqn:E2; try discriminate. intros [= ->] [= ->]. exact (X _ (ow_in H) E1 E2).
  - destruct (dget (o_nbrs s) n) eqn:E1; [|discriminate]. intros [= ->]. destruct (o_type s); [|discriminate]. cbn [snd]. destruct (dget (o_in s) m) eqn:E2; [|discriminate].
    intros [= ->] ->. exact (ow_disj H (val_In E1) (val_In E2)).
  - apply X. apply (ow_nodes H).
Qed.
Print Assumptions C68_separate.

(** the list objects are live: as long as the node is not deleted, the same object comes back, and it holds the neighbours of now *)
Theorem C68_live_lists : forall s n a os, reach s -> o_obs (o_get_neighbors n) s = Ok a -> ~ In (ODelNode n) os ->
  let s' := o_history s os in
  o_obs (o_get_neighbors n) s' = Ok a /\ o_obs (o_get_out_neighbors n) s' = Ok a /\ obs (get_neighbors n) (graph_of s') = Ok (o_lists s' a) /\
  (forall b, o_obs (o_get_in_neighbors n) s = Ok b -> o_obs (o_get_in_neighbors n) s' = Ok b /\ obs (get_in_neighbors n) (graph_of s') = Ok (o_lists s' b)).
Proof.
  intros s n a os H E N s'. unfold o_obs, o_get_neighbors, o_get_out_neighbors, o_get_in_neighbors, o_nbr, o_inn in *. cbn [snd] in *.
  destruct (dget (o_nbrs s) n) as [c|] eqn:D; [|discriminate]. injection E as ->.
  destruct (history_keeps N D) as (X1 & X2 & X3 & X4). fold s' in X1, X2, X3, X4. rewrite X1. split; [reflexivity|]. split; [reflexivity|].
  split; [rewrite obs_neighbors; cbn [g_nbrs graph_of]; rewrite get_contents, X1; reflexivity|].
  intros b. rewrite X2, X4. destruct (o_type s) eqn:T; [|discriminate]. cbn [snd]. intros Hb. split; [exact Hb|].
  unfold obs, get_in_neighbors, in_list, in_dict, bind. cbn [g_type g_in graph_of]. rewrite X4. cbn [snd]. rewrite get_contents, X2. destruct (dget (o_in s) n); [|discriminate]. injection Hb as ->. reflexivity.
Qed.
Print Assumptions C68_live_lists.

(** so are the Node objects: reading and writing through them is get_node_attr and set_node_attr *)
Theorem C68_node_objects : forall s n x os, reach s -> o_get_node n s = Some x -> ~ In (ODelNode n) os -> wf (graph_of s) ->
  let s' := o_history s os in
  o_get_node n s' = Some x /\
  (forall a, obs (get_node_attr n a) (graph_of s') = Ok (node_get x a s')) /\
  (forall a v, set_node_attr n a v (graph_of s') = (graph_of (fst (node_set x a v s')), Ok tt)).
Proof.
  intros s n x os H E N W s'. unfold o_get_node in *.
  assert (D : exists c, dget (o_nbrs s) n = Some c).
  { apply dget_exists. rewrite <- (keys_contents (o_lists s)). change (In n (dkeys (g_nbrs (graph_of s)))). rewrite <- (wf_nodes W). cbn [g_nodes graph_of].
    rewrite keys_contents. exact (dget_Some_keys E). }
  destruct D as [c D]. destruct (history_keeps N D) as (X1 & X2 & X3 & X4). fold s' in X1, X2, X3, X4. rewrite X3. split; [exact E|].
  assert (O : owns s') by (apply t_history; apply reach_owns; exact H). split.
  - intros a. unfold obs, get_node_attr. cbn [snd g_nodes graph_of]. rewrite get_contents, X3, E. reflexivity.
  - intros a v. destruct (t_set_node_attr n a v O) as [_ Y]. rewrite Y. unfold o_set_node_attr, o_get_node. rewrite X3, E. reflexivity.
Qed.
Print Assumptions C68_node_objects.
(* add_node returns the Node object that get_node returns *)
Theorem C68_add_node_object : forall s n a s' x, o_add_node n a s = (s', Ok x) -> o_get_node n s' = Some x /\ o_objs s' x = dupdate [] a.
Proof.
  intros s n a s' x. unfold o_add_node. destruct (dmem (o_nbrs s) n); [discriminate|].
  destruct (o_type s); unfold bind, new_list, new_node, modify, ret; cbn; intros [= <- <-]; cbn; rewrite dget_dset_eq, hset_eq; auto.
Qed.
Print Assumptions C68_add_node_object.

(** after del_node the objects of the node are detached: no call touches them again, and no call returns them again *)
Lemma del_refs s n s1 u : o_del_node n s = (s1, Ok u) ->
  o_nbrs s1 = ddel (o_nbrs s) n /\ o_in s1 = ddel (o_in s) n /\ o_nodes s1 = ddel (o_nodes s) n /\ o_next s1 = o_next s.
Proof.
  destruct (dmem (o_nbrs s) n) eqn:D; [|unfold o_del_node; rewrite D; discriminate]. rewrite (o_del_node_eq D).
  assert (S1 : still (out_loop n)).
  { apply still_bind; [apply s_nbr|]. intros a. apply still_bind; [apply still_gets|]. intros l. generalize (S (length l)) 0. intros f. induction f as [|f IH]; intros i; [intros t; reflexivity|].
    cbn [list_for]. apply still_bind; [apply still_gets|]. intros k. destruct (nth_error k i); [|apply still_ret]. apply still_bind; [apply s_del_out|]. intros _. apply IH. }
  assert (S2 : still (in_loop n)).
  { apply still_bind; [apply still_gets|]. intros [|]; [|apply still_ret]. apply still_bind; [apply s_inn|]. intros a. apply still_bind; [apply still_gets|]. intros l. generalize (S (length l)) 0.
    intros f. induction f as [|f IH]; intros i; [intros t; reflexivity|]. cbn [list_for]. apply still_bind; [apply still_gets|]. intros k. destruct (nth_error k i); [|apply still_ret].
    apply still_bind; [apply s_del_inn|]. intros _. apply IH. }
  specialize (S1 s). destruct (out_loop n s) as [t1 [v|e]] eqn:L1; [|rewrite (bind_err _ L1); discriminate]. rewrite (bind_ok _ L1).
  specialize (S2 t1). destruct (in_loop n t1) as [t2 [w|e]] eqn:L2; [|rewrite (bind_err _ L2); discriminate]. rewrite (bind_ok _ L2). cbn [fst] in *.
  assert (R : refs t2 = refs s) by congruence. clear - R. unfold refs in R. injection R as R1 R2 R3 R4 R5. unfold bind, modify, gets. cbn.
  destruct (o_type t2); cbn; [|intros X; discriminate X]. rewrite <- R3. destruct (dmem (o_in t2) n); cbn; [|intros X; discriminate X].
  destruct (dmem (o_nodes t2) n); cbn; intros X; [|discriminate X]. injection X as <- _. cbn. rewrite R2, R3, R4, R5. auto.
Qed.
Theorem C68_detached : forall s n a x s1 u os, reach s -> o_obs (o_get_neighbors n) s = Ok a -> o_get_node n s = Some x -> o_del_node n s = (s1, Ok u) ->
  let s' := o_history s1 os in
  o_lists s' a = o_lists s1 a /\ o_objs s' x = o_objs s1 x /\
  (forall m, o_obs (o_get_neighbors m) s' <> Ok a /\ o_obs (o_get_in_neighbors m) s' <> Ok a /\ o_get_node m s' <> Some x) /\
  (forall b, o_obs (o_get_in_neighbors n) s = Ok b -> o_lists s' b = o_lists s1 b /\ forall m, o_obs (o_get_neighbors m) s' <> Ok b /\ o_obs (o_get_in_neighbors m) s' <> Ok b).
Proof.
  intros s n a x s1 u os H Ea Ex Ed s'. apply reach_owns in H. destruct (del_refs s n s1 u Ed) as (R1 & R2 & R3 & R4).
  unfold o_obs, o_get_neighbors, o_get_in_neighbors, o_nbr, o_inn, o_get_node in *. cbn [snd] in *.
  destruct (dget (o_nbrs s) n) as [c|] eqn:D; [|discriminate]. injection Ea as ->.
  destruct (history_leaves os s1) as [A B]. fold s' in A, B.
  assert (Ua : unowned a s1).
  { unfold unowned. rewrite R1, R2, R4. split; [exact (ow_lt1 H (val_In D))|]. split; [exact (vals_gone (ow_nbrs H) D)|]. intros W. apply vals_ddel in W. exact (ow_disj H (val_In D) W). }
  assert (Ux : unowned_node x s1) by (unfold unowned_node; rewrite R3, R4; split; [exact (ow_lt3 H (val_In Ex))|exact (vals_gone (ow_nodes H) Ex)]).
  assert (No : forall c, unowned c s' -> forall m, match dget (o_nbrs s') m with Some a => Ok a | None => Err KeyError end <> Ok c /\
            snd (match o_type s' with Directed => (s', match dget (o_in s') m with Some a => Ok a | None => Err KeyError end) | Undirected => (s', Err AttributeError) end) <> Ok c).
  { intros c (_ & Y & Z) m. split.
    - destruct (dget (o_nbrs s') m) as [d|] eqn:E; [|discriminate]. intros [= ->]. exact (Y (val_In E)).
    - destruct (o_type s'); [|discriminate]. cbn [snd]. destruct (dget (o_in s') m) as [d|] eqn:E; [|discriminate]. intros [= ->]. exact (Z (val_In E)). }
  destruct (A a Ua) as [Ua' Ea]. destruct (B x Ux) as [Ux' Exx]. split; [exact Ea|]. split; [exact Exx|]. split.
  - intros m. destruct (No a Ua' m) as [Y Z]. split; [exact Y|]. split; [exact Z|]. intros E. exact (proj2 Ux' (val_In E)).
  - intros b Hb. destruct (o_type s); [|discriminate]. cbn [snd] in Hb. destruct (dget (o_in s) n) as [d|] eqn:E; [|discriminate]. injection Hb as ->.
    assert (Ub : unowned b s1).
    { unfold unowned. rewrite R1, R2, R4. split; [exact (ow_lt2 H (val_In E))|]. split; [|exact (vals_gone (ow_in H) E)]. intros W. apply vals_ddel in W. exact (ow_disj H W (val_In E)). }
    destruct (A b Ub) as [Ub' Eb]. split; [exact Eb|]. exact (No b Ub').
Qed.
Print Assumptions C68_detached.

(** for m in g.get_neighbors(n): g.del_edge((n, m))  deletes every second edge only: the loop runs over the list that it shortens *)
Theorem C68_delete_while_iterating : forall s n a l, reach s -> wf (graph_of s) -> (g_type (graph_of s) = Directed \/ check_edge (graph_of s) n n = false) ->
  o_obs (o_get_neighbors n) s = Ok a -> o_lists s a = l ->
  exists s', delete_while_iterating n s = (s', Ok tt) /\ wf (graph_of s') /\
    obs (get_neighbors n) (graph_of s') = Ok (odds l) /\ (forall y, check_edge (graph_of s') n y = mem y (odds l)) /\
    (forall p q, p <> n -> q <> n -> check_edge (graph_of s') p q = check_edge (graph_of s) p q).
Proof.
  intros s n a l H W S E L. apply reach_owns in H. unfold o_obs, o_get_neighbors, o_nbr in E. cbn [snd] in E.
  destruct (dget (o_nbrs s) n) as [c|] eqn:D; [|discriminate]. injection E as ->.
  destruct (@loop_run n a (Datatypes.S (length l)) l [] s H W S D L ltac:(lia)) as (s' & R & O & W' & D' & L' & T & Sm). exists s'.
  assert (X : delete_while_iterating n s = list_for (Datatypes.S (length l)) 0 a (fun m => o_del_edge n m) s).
  { unfold delete_while_iterating, o_get_neighbors. rewrite (@bind_ok _ _ _ (o_nbr n) _ s s a) by (unfold o_nbr; rewrite D; reflexivity). unfold bind, gets. rewrite L. reflexivity. }
  rewrite X. split; [exact R|]. split; [exact W'|]. cbn [app] in L'.
  assert (Hl : list_at (g_nbrs (graph_of s')) n = odds l) by (rewrite (list_at_nbrs D'); exact L').
  split; [rewrite obs_neighbors; cbn [g_nbrs graph_of]; rewrite get_contents, D'; cbn; rewrite L'; reflexivity|].
  split; [|exact Sm]. intros y. destruct (mem y (odds l)) eqn:M.
  - apply nbr_check_edge; [exact W'|]. rewrite Hl. apply mem_In. exact M.
  - destruct (check_edge (graph_of s') n y) eqn:C; [|reflexivity]. apply (check_edge_nbr W') in C. rewrite Hl in C. apply mem_In in C. congruence.
Qed.
Print Assumptions C68_delete_while_iterating.
(* so a node with two or more neighbours keeps an edge *)
Theorem C68_delete_all_refuted : forall s n a l, reach s -> wf (graph_of s) -> (g_type (graph_of s) = Directed \/ check_edge (graph_of s) n n = false) ->
  o_obs (o_get_neighbors n) s = Ok a -> o_lists s a = l -> 2 <= length l ->
  exists s' y, delete_while_iterating n s = (s', Ok tt) /\ In y l /\ check_edge (graph_of s') n y = true.
Proof.
  intros s n a l H W S E L G. destruct (C68_delete_while_iterating s n a l H W S E L) as (s' & R & _ & _ & C & _).
  destruct l as [|x [|y t]]; cbn in G; try lia. exists s', y. split; [exact R|]. split; [right; left; reflexivity|]. rewrite C. cbn. destruct (eq_dec y y); [reflexivity|congruence].
Qed.
Print Assumptions C68_delete_all_refuted.

(** a caller that writes to the list it got makes neighbours and edges disagree, on both kinds of graph *)
Theorem C68_write_refuted : forall s n a m, reach s -> o_obs (o_get_neighbors n) s = Ok a -> check_edge (graph_of s) n m = false ->
  let s' := fst (list_append a m s) in
  exists l, obs (get_neighbors n) (graph_of s') = Ok l /\ In m l /\ check_edge (graph_of s') n m = false.
Proof.
  intros s n a m H E C s'. apply reach_owns in H. unfold o_obs, o_get_neighbors, o_nbr in E. cbn [snd] in E.
  destruct (dget (o_nbrs s) n) as [c|] eqn:D; [|discriminate]. injection E as ->. exists (o_lists s a ++ [m]).
  split; [|split; [apply in_app_iff; right; left; reflexivity|exact C]]. rewrite obs_neighbors. cbn [g_nbrs graph_of]. rewrite get_contents. cbn. rewrite D. cbn. rewrite hset_eq. reflexivity.
Qed.
Print Assumptions C68_write_refuted.

(** a directed and an undirected graph with four neighbours of node 1 *)
Definition ex_ops : list op := map (fun k => OAddEdge (NI 1) (NI k) []) [2; 3; 4; 5]%Z ++ [OAddEdge (NI 3) (NI 1) [("cost", VI 2)]; OSetNodeAttr (NI 1) "demand" (VI 7)].
Definition ex_o (t : gtype) : ograph := o_history (o_new (Some t) []) ex_ops.
Lemma ex_reach t : reach (ex_o t).
Proof.
  unfold ex_o, ex_ops. cbn [map app]. unfold o_history. cbn [fold_left]. repeat apply r_call. apply r_new.
Qed.
Example C68_nonvacuous : forall t, reach (ex_o t) /\ wf (graph_of (ex_o t)) /\ check_edge (graph_of (ex_o t)) (NI 1) (NI 1) = false /\
  o_obs (o_get_neighbors (NI 1)) (ex_o t) = Ok 0 /\ o_lists (ex_o t) 0 = [NI 2; NI 3; NI 4; NI 5] /\
  o_get_node (NI 1) (ex_o t) <> None /\ check_edge (graph_of (ex_o t)) (NI 1) (NI 7) = false /\
  obs (get_neighbors (NI 1)) (graph_of (fst (delete_while_iterating (NI 1) (ex_o t)))) = Ok [NI 3; NI 5] /\
  (t = Directed -> snd (o_del_node (NI 1) (ex_o t)) = Ok tt).
Proof.
  intros t. split; [apply ex_reach|]. split.
  { unfold ex_o. rewrite (proj2 (proj2 C68_contents)). refine (proj1 (wf_history (wf_new (Some t) []) _)). intros _. reflexivity. }
  destruct t; vm_compute; repeat split; try discriminate; auto.
Qed.
