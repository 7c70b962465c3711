(* Laws of the Graph operations stated with the API observers. *)
From Verif Require Import Py Util M_Graph M_Metrics P_Graph.
Set Implicit Arguments.
Unset Strict Implicit.

Lemma dupdate_app {K V} {E : EqDec K} (kw d : dict K V) : NoDup (dkeys d ++ dkeys kw) -> dupdate d kw = d ++ kw.
Proof.
  unfold dupdate. revert d. induction kw as [|[k v] t IH]; intros d H; simpl; [rewrite app_nil_r; reflexivity|].
  unfold dkeys in H; simpl in H.
  assert (Hk : ~ In k (dkeys d)).
  { apply NoDup_remove_2 in H. rewrite in_app_iff in H. tauto. }
  rewrite dkeys_dset_nin by assumption. rewrite IH; [rewrite <- app_assoc; reflexivity|].
  unfold dkeys. rewrite map_app, <- app_assoc. simpl. assumption.
Qed.
Lemma dupdate_nil {K V} {E : EqDec K} (kw : dict K V) : NoDup (dkeys kw) -> dupdate [] kw = kw.
Proof. intros H. apply (dupdate_app (d := [])). assumption. Qed.

(** C01 *)
Lemma directed_views g : wf g -> g_type g = Directed -> forall n m,
  ((exists l, obs (get_out_neighbors n) g = Ok l /\ In m l) <-> check_edge g n m = true) /\
  ((exists l, obs (get_in_neighbors m) g = Ok l /\ In n l) <-> check_edge g n m = true) /\
  (In (n, m) (get_edge_list g) <-> check_edge g n m = true) /\
  contains_edge g n m = check_edge g n m /\
  (contains_node g n = true <-> In n (get_node_list g)) /\
  (In (n, m) (get_edge_list g) -> In n (get_node_list g) /\ In m (get_node_list g)) /\
  (In n (get_node_list g) -> exists lo li,
      obs (get_out_neighbors n) g = Ok lo /\ obs (get_in_neighbors n) g = Ok li /\ NoDup lo /\ NoDup li) /\
  NoDup (get_node_list g) /\ NoDup (get_edge_list g).
Proof.
  intros W Ht n m.
  assert (Hc : check_edge g n m = true <-> In (n, m) (get_edge_list g)).
  { unfold check_edge. rewrite Ht. apply dmem_In. }
  repeat split.
  - intros (l & Hl & Hm). apply Hc. apply (wf_nbrs_In W Ht). unfold list_at.
    change (obs (get_neighbors n) g = Ok l) in Hl. rewrite obs_neighbors in Hl. destruct (dget (g_nbrs g) n); congruence.
  - intros H. apply Hc in H. exists (list_at (g_nbrs g) n). split.
    + apply obs_neighbors_in. eapply wf_edge_l; eassumption.
    + apply (wf_nbrs_In W Ht). assumption.
  - intros (l & Hl & Hm). apply Hc. apply (wf_in_In W Ht). unfold list_at.
    rewrite obs_in_neighbors in Hl by assumption. destruct (dget (g_in g) m); congruence.
  - intros H. apply Hc in H. exists (list_at (g_in g) m). split.
    + apply obs_in_neighbors_in; [assumption..|]. eapply wf_edge_r; eassumption.
    + apply (wf_in_In W Ht). assumption.
  - apply Hc.
  - apply Hc.
  - unfold contains_node. rewrite dmem_In, (wf_nodes W). auto.
  - unfold contains_node. rewrite dmem_In, (wf_nodes W). auto.
  - eapply wf_edge_l; eassumption.
  - eapply wf_edge_r; eassumption.
  - intros H. exists (list_at (g_nbrs g) n), (list_at (g_in g) n). repeat split.
    + apply obs_neighbors_in. assumption.
    + apply obs_in_neighbors_in; assumption.
    + apply wf_NoDup_nbrs; assumption.
    + apply wf_NoDup_in; assumption.
  - apply (wf_nd W).
  - apply (wf_ne W).
Qed.

(** C02 *)
Lemma undirected_views g : wf g -> g_type g = Undirected -> forall n m,
  ((exists l, obs (get_neighbors n) g = Ok l /\ In m l) <-> check_edge g n m = true) /\
  check_edge g m n = check_edge g n m /\
  (check_edge g n m = true <-> In (n, m) (get_edge_list g) \/ In (m, n) (get_edge_list g)) /\
  contains_edge g n m = check_edge g n m /\
  (n <> m -> ~ (In (n, m) (get_edge_list g) /\ In (m, n) (get_edge_list g))) /\
  (forall l, obs (get_neighbors n) g = Ok l -> n <> m -> count_occ eq_dec l m = if check_edge g n m then 1 else 0) /\
  (forall l, obs (get_neighbors n) g = Ok l -> count_occ eq_dec l n = if check_edge g n n then 2 else 0) /\
  (In (n, m) (get_edge_list g) -> In n (get_node_list g) /\ In m (get_node_list g)) /\
  NoDup (get_node_list g) /\ NoDup (get_edge_list g).
Proof.
  intros W Ht n m.
  assert (Hc : forall n m, check_edge g n m = true <-> In (n, m) (get_edge_list g) \/ In (m, n) (get_edge_list g)).
  { intros a b. unfold check_edge. rewrite Ht. rewrite orb_true_iff, !dmem_In. tauto. }
  assert (Hl : forall x l, obs (get_neighbors x) g = Ok l -> l = list_at (g_nbrs g) x).
  { intros x l. rewrite obs_neighbors. unfold list_at. destruct (dget (g_nbrs g) x); congruence. }
  repeat split.
  - intros (l & H & Hm). rewrite (Hl _ _ H) in Hm. apply nbr_check_edge; assumption.
  - intros H. exists (list_at (g_nbrs g) n). split.
    + apply obs_neighbors_in. apply (check_edge_nodes W H).
    + apply check_edge_nbr; assumption.
  - unfold check_edge. rewrite Ht. apply orb_comm.
  - apply Hc.
  - apply Hc.
  - intros Hn [H1 H2]. revert H2. apply (wf_anti W Ht); assumption.
  - intros l H Hn. rewrite (Hl _ _ H). rewrite (wf_nbrs W). unfold nb_count. rewrite Ht. unfold check_edge. rewrite Ht.
    destruct (dmem_spec (g_edges g) (n, m)) as [H1|H1], (dmem_spec (g_edges g) (m, n)) as [H2|H2]; try reflexivity.
    exfalso. revert H2. apply (wf_anti W Ht); assumption.
  - intros l H. rewrite (Hl _ _ H). rewrite (wf_nbrs W). unfold nb_count. rewrite Ht. unfold check_edge. rewrite Ht, orb_diag.
    destruct (dmem (g_edges g) (n, n)); reflexivity.
  - eapply wf_edge_l; eassumption.
  - eapply wf_edge_r; eassumption.
  - apply (wf_nd W).
  - apply (wf_ne W).
Qed.

(** C03 *)
Lemma obs_node_attr g n a : obs (get_node_attr n a) g =
  match dget (g_nodes g) n with None => Err AttributeError | Some d => Ok (match dget d a with Some v => v | None => VNone end) end.
Proof. reflexivity. Qed.

Lemma add_node_views g n kw : wf g -> NoDup (dkeys kw) -> ~ In n (get_node_list g) ->
  exists g', add_node n kw g = (g', Ok tt) /\ wf g' /\ g_type g' = g_type g /\
    get_node_list g' = get_node_list g ++ [n] /\ get_edge_list g' = get_edge_list g /\
    (forall a, obs (get_node_attr n a) g' = Ok (match dget kw a with Some v => v | None => VNone end)) /\
    (forall x a, x <> n -> obs (get_node_attr x a) g' = obs (get_node_attr x a) g) /\
    (forall x y a, obs (get_edge_attr x y a) g' = obs (get_edge_attr x y a) g) /\
    obs (get_neighbors n) g' = Ok [] /\
    (forall x, x <> n -> obs (get_neighbors x) g' = obs (get_neighbors x) g) /\
    (forall x, x <> n -> obs (get_in_neighbors x) g' = obs (get_in_neighbors x) g).
Proof.
  intros W Hkw Hn. exists (p_add_node g n kw). rewrite add_node_new by assumption. split; [reflexivity|].
  split; [apply wf_p_add_node; assumption|]. split; [reflexivity|].
  split. { unfold get_node_list; simpl. rewrite dkeys_dset_nin' by assumption. reflexivity. }
  split; [reflexivity|].
  split. { intros a. rewrite obs_node_attr. simpl. rewrite dget_dset_eq, dupdate_nil by assumption. reflexivity. }
  split. { intros x a Hx. rewrite !obs_node_attr. simpl. rewrite dget_dset_ne by congruence. reflexivity. }
  split; [reflexivity|].
  split. { rewrite obs_neighbors. simpl. rewrite dget_dset_eq. reflexivity. }
  split. { intros x Hx. rewrite !obs_neighbors. simpl. rewrite dget_dset_ne by congruence. reflexivity. }
  intros x Hx. unfold obs, get_in_neighbors, in_list, in_dict, bind, lift. simpl. destruct (g_type g); [|reflexivity].
  rewrite dget_dset_ne by congruence. destruct (dget (g_in g) x); reflexivity.
Qed.

(* neighbour list of x in g, [] if x is not a node of g *)
Definition old_list (r : res (list name)) : list name := match r with Ok l => l | Err _ => [] end.
Lemma old_list_nbrs g x : old_list (obs (get_neighbors x) g) = list_at (g_nbrs g) x.
Proof. rewrite obs_neighbors. unfold list_at. destruct (dget (g_nbrs g) x); reflexivity. Qed.
Lemma list_at_ensure g n x : wf g -> list_at (g_nbrs (ensure g n)) x = list_at (g_nbrs g) x.
Proof.
  intros W. unfold ensure. destruct (dmem_spec (g_nodes g) n) as [H|H]; [reflexivity|]. simpl. rewrite list_at_dset.
  eqd; [|reflexivity]. subst. rewrite list_at_nin; [reflexivity|]. rewrite <- (wf_nodes W). assumption.
Qed.
Lemma list_at_in_ensure g n x : wf g -> list_at (g_in (ensure g n)) x = list_at (g_in g) x.
Proof.
  intros W. unfold ensure. destruct (dmem_spec (g_nodes g) n) as [H|H]; [reflexivity|]. simpl. destruct (g_type g) eqn:Ht; [|reflexivity].
  rewrite list_at_dset.
  eqd; [|reflexivity]. subst. rewrite list_at_nin; [reflexivity|]. rewrite (wf_in_keys W Ht). rewrite <- (wf_nodes W). assumption.
Qed.
Lemma dkeys_ensure g n : wf g -> dkeys (g_nbrs (ensure g n)) = dkeys (g_nbrs g) ++ (if mem n (dkeys (g_nbrs g)) then [] else [n]).
Proof.
  intros W. unfold ensure. destruct (dmem_spec (g_nodes g) n) as [H|H]; rewrite (wf_nodes W) in H.
  - apply mem_In in H. rewrite H, app_nil_r. reflexivity.
  - simpl. rewrite dkeys_dset_nin' by assumption. apply mem_nIn in H. rewrite H. reflexivity.
Qed.
Lemma obs_node_attr_ensure g n x a : wf g -> In x (get_node_list g) -> obs (get_node_attr x a) (ensure g n) = obs (get_node_attr x a) g.
Proof.
  intros W Hx. unfold ensure. destruct (dmem_spec (g_nodes g) n) as [H|H]; [reflexivity|]. rewrite !obs_node_attr. simpl.
  rewrite dget_dset_ne; [reflexivity|]. intros ->. apply H. rewrite (wf_nodes W). assumption.
Qed.
Lemma obs_node_attr_ensure_new g n x a : wf g -> ~ In x (get_node_list g) -> In x (get_node_list (ensure g n)) ->
  obs (get_node_attr x a) (ensure g n) = Ok VNone.
Proof.
  intros W Hx Hi. unfold ensure in *. destruct (dmem_spec (g_nodes g) n) as [H|H]; [tauto|]. rewrite !obs_node_attr. simpl.
  unfold get_node_list in Hi; simpl in Hi. apply In_dkeys_dset in Hi as [->|Hi]; [|tauto]. rewrite dget_dset_eq. reflexivity.
Qed.

Lemma add_edge_views g n m kw : wf g -> NoDup (dkeys kw) -> check_edge g n m = false ->
  exists g', add_edge n m kw g = (g', Ok tt) /\ wf g' /\ g_type g' = g_type g /\
    get_node_list g' = get_node_list g ++ (if mem n (get_node_list g) then [] else [n])
                                       ++ (if mem m (get_node_list g ++ [n]) then [] else [m]) /\
    get_edge_list g' = get_edge_list g ++ [(n, m)] /\
    (forall a, obs (get_edge_attr n m a) g' = match dget kw a with Some v => Ok v | None => Err KeyError end) /\
    (forall x y a, check_edge g x y = true -> obs (get_edge_attr x y a) g' = obs (get_edge_attr x y a) g) /\
    (forall x a, In x (get_node_list g) -> obs (get_node_attr x a) g' = obs (get_node_attr x a) g) /\
    (forall x a, In x (get_node_list g') -> ~ In x (get_node_list g) -> obs (get_node_attr x a) g' = Ok VNone) /\
    (forall x, In x (get_node_list g') -> obs (get_neighbors x) g' =
        Ok (old_list (obs (get_neighbors x) g) ++ (if eq_dec x n then [m] else []) ++
            match g_type g with Undirected => if eq_dec x m then [n] else [] | Directed => [] end)) /\
    (forall x, In x (get_node_list g') -> g_type g = Directed -> obs (get_in_neighbors x) g' =
        Ok (old_list (obs (get_in_neighbors x) g) ++ (if eq_dec x m then [n] else []))).
Proof.
  intros W Hkw Hc. pose proof (wf_ensure n W) as W1. pose proof (wf_ensure m W1) as W2.
  assert (Hn : In n (dkeys (g_nbrs (ensure (ensure g n) m)))) by (apply ensure_mono, ensure_In; assumption).
  assert (Hm : In m (dkeys (g_nbrs (ensure (ensure g n) m)))) by (apply ensure_In; assumption).
  assert (Hc2 : check_edge (ensure (ensure g n) m) n m = false).
  { unfold check_edge in *. rewrite !g_type_ensure, !g_edges_ensure. assumption. }
  set (h := ensure (ensure g n) m) in *.
  assert (Hw : wf (link h n m kw)) by (apply wf_link; assumption).
  exists (link h n m kw). rewrite add_edge_new by assumption. fold h. split; [reflexivity|].
  split; [assumption|].
  split. { unfold h. rewrite g_type_link, !g_type_ensure. reflexivity. }
  assert (Hty : g_type h = g_type g) by (unfold h; rewrite !g_type_ensure; reflexivity).
  assert (Hed : g_edges h = g_edges g) by (unfold h; rewrite !g_edges_ensure; reflexivity).
  assert (Hnodes : get_node_list (link h n m kw) = dkeys (g_nbrs h)).
  { unfold get_node_list, link. destruct (g_type h); simpl; rewrite ?dkeys_dset_in; try reflexivity; try assumption.
    rewrite dkeys_dset_in; assumption. }
  assert (Hedges : g_edges (link h n m kw) = dset (g_edges g) (n, m) kw).
  { unfold link. rewrite (dupdate_nil Hkw), Hed. destruct (g_type h); reflexivity. }
  assert (Hnm : ~ In (n, m) (dkeys (g_edges g))).
  { unfold check_edge in Hc. destruct (g_type g); [apply dmem_nIn; assumption|]. apply orb_false_iff in Hc. apply dmem_nIn. tauto. }
  assert (Hga : g_nodes (link h n m kw) = g_nodes h) by (unfold link; destruct (g_type h); reflexivity).
  split. { rewrite Hnodes. unfold h, get_node_list. rewrite !dkeys_ensure by assumption.
    rewrite <- app_assoc. f_equal. destruct (mem_spec n (dkeys (g_nbrs g))) as [Hi|Hi]; simpl; [|reflexivity].
    f_equal. rewrite app_nil_r, mem_app. simpl. destruct (eq_dec m n) as [->|]; [|rewrite orb_false_r; reflexivity].
    apply mem_In in Hi. rewrite Hi. reflexivity. }
  split. { unfold get_edge_list. rewrite Hedges. apply dkeys_dset_nin'. assumption. }
  split. { intros a. unfold obs, get_edge_attr. simpl. rewrite Hedges.
    rewrite dget_dset_eq. unfold link. destruct (g_type h) eqn:Hth; simpl.
    - reflexivity.
    - destruct (dget kw a) eqn:Hka; [reflexivity|]. rewrite dget_dset. destruct (eq_dec (n, m) (m, n)) as [He|He]; [rewrite Hka; reflexivity|].
      unfold check_edge in Hc. rewrite <- Hty in Hc. apply orb_false_iff in Hc as [_ Hc]. apply dmem_nIn, dget_None in Hc. rewrite Hc. reflexivity. }
  split. { intros x y a Hxy. unfold obs, get_edge_attr. cbn [snd]. rewrite Hedges.
    rewrite g_type_link, Hty. 
    assert (H1 : (x, y) <> (n, m)).
    { intros [= -> ->]. congruence. }
    rewrite (dget_dset_ne _ _ (k := (n, m)) (k' := (x, y))) by congruence.
    destruct (g_type g) eqn:Htg; [reflexivity|].
    assert (H2 : (y, x) <> (n, m)).
    { intros [= -> ->]. unfold check_edge in *. rewrite Htg in *. rewrite orb_comm in Hxy. congruence. }
    rewrite (dget_dset_ne _ _ (k := (n, m)) (k' := (y, x))) by congruence. reflexivity. }
  split. { intros x a Hx. rewrite obs_node_attr, Hga, <- obs_node_attr. unfold h.
    rewrite !obs_node_attr_ensure; [reflexivity|assumption..|]. apply ensure_mono. assumption. }
  split. { intros x a Hx Hx'. rewrite obs_node_attr, Hga, <- obs_node_attr. rewrite Hnodes in Hx. unfold h in *.
    destruct (in_dec eq_dec x (get_node_list (ensure g n))) as [Hi|Hi].
    - rewrite obs_node_attr_ensure by assumption. apply obs_node_attr_ensure_new; assumption.
    - apply obs_node_attr_ensure_new; assumption. }
  assert (Hl : forall x, list_at (g_nbrs h) x = list_at (g_nbrs g) x) by (intros; unfold h; rewrite !list_at_ensure by assumption; reflexivity).
  split.
  { intros x Hx. rewrite obs_neighbors_in by assumption. f_equal. rewrite old_list_nbrs. unfold link. rewrite Hty.
    destruct (g_type g); simpl.
    - rewrite list_at_dset, app_nil_r. destruct (eq_dec n x), (eq_dec x n); try congruence; subst;
        rewrite ?app_nil_r, ?Hl; reflexivity.
    - rewrite !list_at_dset, !Hl. destruct (eq_dec m x) as [->|Hmx].
      + destruct (eq_dec x x); [|congruence]. destruct (eq_dec n x) as [->|Hnx].
        * destruct (eq_dec x x); [|congruence]. rewrite <- app_assoc. reflexivity.
        * destruct (eq_dec x n); [congruence|]. reflexivity.
      + destruct (eq_dec x m); [congruence|]. rewrite app_nil_r. destruct (eq_dec n x) as [->|Hnx].
        * destruct (eq_dec x x); [|congruence]. reflexivity.
        * destruct (eq_dec x n); [congruence|]. rewrite app_nil_r. reflexivity. }
  { intros x Hx Htg. rewrite obs_in_neighbors_in by (rewrite ?g_type_link; congruence). f_equal.
    assert (Hol : old_list (obs (get_in_neighbors x) g) = list_at (g_in g) x).
    { rewrite obs_in_neighbors by assumption. unfold list_at. destruct (dget (g_in g) x); reflexivity. }
    rewrite Hol. unfold link. rewrite Hty, Htg. simpl. rewrite list_at_dset.
    assert (Hl2 : forall x, list_at (g_in h) x = list_at (g_in g) x) by (intros; unfold h; rewrite !list_at_in_ensure by assumption; reflexivity).
    destruct (eq_dec m x), (eq_dec x m); try congruence; subst; rewrite ?app_nil_r, ?Hl2; reflexivity. }
Qed.

(** C04 *)
Lemma rem1_app_new (x : name) l : ~ In x l -> rem1 x (l ++ [x]) = l.
Proof.
  intros H. unfold rem1. rewrite lremove_app_notin by assumption. simpl. destruct (eq_dec x x); [apply app_nil_r|congruence].
Qed.
Lemma rem1_app_new2 (x : name) l : ~ In x l -> rem1 x (l ++ [x] ++ [x]) = l ++ [x].
Proof.
  intros H. unfold rem1. rewrite lremove_app_notin by assumption. simpl. destruct (eq_dec x x); [reflexivity|congruence].
Qed.

Lemma graph_eq (g h : graph) : g_type g = g_type h -> g_attr g = g_attr h -> g_nbrs g = g_nbrs h -> g_in g = g_in h ->
  g_nodes g = g_nodes h -> g_edges g = g_edges h -> g_cluster g = g_cluster h -> g_ncomp g = g_ncomp h -> g = h.
Proof. destruct g, h; simpl; intros; subst; reflexivity. Qed.

Lemma del_add_edge g n m kw : wf g -> In n (get_node_list g) -> In m (get_node_list g) -> check_edge g n m = false ->
  exists g', add_edge n m kw g = (g', Ok tt) /\ del_edge n m g' = (g, Ok tt).
Proof.
  intros W Hn Hm Hc. exists (link g n m kw).
  assert (He : forall x, In x (get_node_list g) -> ensure g x = g).
  { intros x Hx. unfold ensure. rewrite (proj2 (dmem_In (g_nodes g) x)); [reflexivity|]. rewrite (wf_nodes W). assumption. }
  rewrite add_edge_new by assumption. rewrite (He n Hn), (He m Hm). split; [reflexivity|].
  pose proof (wf_link kw W Hn Hm Hc) as W'.
  assert (HE : g_edges (link g n m kw) = dset (g_edges g) (n, m) (dupdate [] kw)) by (unfold link; destruct (g_type g); reflexivity).
  assert (Hc' : check_edge (link g n m kw) n m = true).
  { unfold check_edge. rewrite HE, dmem_dset, eqb_refl. destruct (g_type _); reflexivity. }
  rewrite del_edge_present by assumption. f_equal.
  assert (Hs : stored_as (link g n m kw) n m = (n, m)).
  { unfold stored_as. rewrite HE, dmem_dset, eqb_refl. reflexivity. }
  rewrite Hs.
  assert (Hmn : ~ In m (list_at (g_nbrs g) n)).
  { intros H. apply (nbr_check_edge W) in H. congruence. }
  assert (Hnm : ~ In (n, m) (dkeys (g_edges g))).
  { unfold check_edge in Hc. destruct (g_type g); [apply dmem_nIn; assumption|]. apply orb_false_iff in Hc. apply dmem_nIn. tauto. }
  unfold p_del_edge. rewrite g_type_link. unfold link. destruct (g_type g) eqn:Ht; apply graph_eq; simpl; try reflexivity; try congruence.
  - rewrite list_at_dset. destruct (eq_dec n n); [|congruence]. rewrite rem1_app_new by assumption.
    rewrite dset_dset. apply dset_list_at. assumption.
  - rewrite list_at_dset. destruct (eq_dec m m); [|congruence]. rewrite rem1_app_new.
    + rewrite dset_dset. apply dset_list_at. rewrite (wf_in_keys W Ht). assumption.
    + rewrite (wf_in_In W Ht). assumption.
  - apply ddel_dset_new. assumption.
  - assert (Hnm' : ~ In n (list_at (g_nbrs g) m)).
    { intros H. apply (nbr_check_edge W) in H. unfold check_edge in *. rewrite Ht in *. rewrite orb_comm in H. congruence. }
    destruct (eq_dec n m) as [->|Hne].
    + rewrite !list_at_dset. destruct (eq_dec m m); [|congruence]. rewrite <- app_assoc.
      rewrite rem1_app_new2 by assumption. rewrite rem1_app_new by assumption.
      rewrite !dset_dset. apply dset_list_at. assumption.
    + repeat rewrite !list_at_dset. destruct (eq_dec n n), (eq_dec m m), (eq_dec m n), (eq_dec n m); try congruence.

      rewrite rem1_app_new by assumption.
      rewrite rem1_app_new by assumption.
      rewrite (dset_comm (d := dset (g_nbrs g) n _) (k := m)); [|congruence|apply In_dkeys_dset; auto].
      rewrite !dset_dset. rewrite !dset_list_at by assumption. reflexivity.
  - apply ddel_dset_new. assumption.
Qed.

Lemma filter_rem1 (p : name -> bool) x l : p x = false -> filter p (rem1 x l) = filter p l.
Proof.
  intros Hx. unfold rem1. destruct (lremove x l) as [l'|] eqn:E; [|reflexivity]. revert l' E. induction l as [|y t IH]; intros l' E; [discriminate|]. cbn [lremove] in E.
  destruct (eq_dec x y) as [<-|Hne].
  - injection E as <-. cbn [filter]. rewrite Hx. reflexivity.
  - destruct (lremove x t) as [t'|]; [|discriminate]. injection E as <-. cbn [filter]. rewrite (IH t' eq_refl). reflexivity.
Qed.
Lemma forallb_filter_id {A} (p : A -> bool) l : forallb p l = true -> filter p l = l.
Proof. induction l as [|x t IH]; [reflexivity|]. cbn [forallb filter]. intros H. apply andb_true_iff in H as [-> H]. rewrite (IH H). reflexivity. Qed.

(* deleting a present edge removes that edge only *)
Lemma del_edge_views g n m : wf g -> check_edge g n m = true ->
  exists g', del_edge n m g = (g', Ok tt) /\ wf g' /\ g_type g' = g_type g /\
    get_node_list g' = get_node_list g /\ check_edge g' n m = false /\
    get_edge_list g' = filter (fun e => negb (eqb e (n, m) || match g_type g with Undirected => eqb e (m, n) | Directed => false end)) (get_edge_list g) /\
    (forall x y a, check_edge g' x y = true -> obs (get_edge_attr x y a) g' = obs (get_edge_attr x y a) g) /\
    (forall x a, obs (get_node_attr x a) g' = obs (get_node_attr x a) g) /\
    (forall x l, obs (get_neighbors x) g = Ok l -> obs (get_neighbors x) g' = Ok (filter (fun y => check_edge g' x y) l)) /\
    (forall x l, g_type g = Directed -> obs (get_in_neighbors x) g = Ok l -> obs (get_in_neighbors x) g' = Ok (filter (fun y => check_edge g' y x) l)).
Proof.
  intros W Hc. exists (p_del_edge g (stored_as g n m) n m).
  rewrite del_edge_present by assumption. split; [reflexivity|]. split; [apply wf_p_del_edge; assumption|].
  destruct (check_edge_nodes W Hc) as [Hn Hm].
  assert (Hty : g_type (p_del_edge g (stored_as g n m) n m) = g_type g).
  { unfold p_del_edge. destruct (g_type g) eqn:Ht; simpl; congruence. }
  assert (HE : g_edges (p_del_edge g (stored_as g n m) n m) = ddel (g_edges g) (stored_as g n m)) by (unfold p_del_edge; destruct (g_type g); reflexivity).
  assert (Hch : forall x y, check_edge (p_del_edge g (stored_as g n m) n m) x y = true -> check_edge g x y = true /\ (x, y) <> (n, m) /\ (g_type g = Undirected -> (y, x) <> (n, m))).
  { intros x y. unfold check_edge. rewrite Hty, HE. rewrite !dmem_ddel by apply (wf_ne W).
    unfold stored_as. unfold check_edge in Hc. destruct (g_type g) eqn:Ht.
    - rewrite Hc. rewrite andb_true_iff, negb_true_iff, eqb_false. intros [H1 H2]. repeat split; try congruence. 
    - destruct (dmem_spec (g_edges g) (n, m)) as [H1|H1].
      + rewrite orb_true_iff, !andb_true_iff, !negb_true_iff, !eqb_false. intros H.
        destruct (eq_dec n m) as [->|Hne].
        * repeat split; [rewrite orb_true_iff; tauto|..]; intuition congruence.
        * pose proof (wf_anti W Ht Hne H1) as H2. apply dmem_nIn in H2.
          repeat split; [rewrite orb_true_iff; tauto|..]; intros; intro; intuition congruence.
      + simpl in Hc. apply dmem_In in Hc. 
        rewrite orb_true_iff, !andb_true_iff, !negb_true_iff, !eqb_false. intros H. apply dmem_nIn in H1.
        repeat split; [rewrite orb_true_iff; tauto|..]; intros; intro; intuition congruence. }
  split; [assumption|].
  split. { unfold get_node_list, p_del_edge. destruct (g_type g); simpl; rewrite ?dkeys_dset_in; try reflexivity; try assumption.
    rewrite dkeys_dset_in; assumption. }
  split. { destruct (check_edge (p_del_edge g (stored_as g n m) n m) n m) eqn:H; [|reflexivity].
    apply Hch in H. tauto. }
  split. { unfold get_edge_list. rewrite HE. rewrite ddel_filter by apply (wf_ne W).
    rewrite (dkeys_filter (fun e => negb (eqb (stored_as g n m) e))).
    apply filter_ext_in. intros [x y] Hi. f_equal. unfold stored_as. unfold check_edge in Hc. destruct (g_type g) eqn:Ht.
    - rewrite Hc, orb_false_r. destruct (eqb_spec (n, m) (x, y)), (eqb_spec (x, y) (n, m)); congruence.
    - destruct (dmem_spec (g_edges g) (n, m)) as [H1|H1].
      + destruct (eqb_spec (n, m) (x, y)), (eqb_spec (x, y) (n, m)), (eqb_spec (x, y) (m, n)); simpl; try congruence.
        exfalso. assert (x = m) by congruence. assert (y = n) by congruence. subst.
        destruct (eq_dec n m) as [->|Hne]; [congruence|]. revert Hi. apply (wf_anti W Ht); assumption.
      + simpl in Hc. apply dmem_In in Hc. 
        destruct (eqb_spec (m, n) (x, y)), (eqb_spec (x, y) (n, m)), (eqb_spec (x, y) (m, n)); simpl; try congruence. }
  split. { intros x y a Hxy. pose proof (Hch _ _ Hxy) as (H1 & H2 & H3).
    unfold obs, get_edge_attr. cbn [snd]. rewrite HE, Hty.
    assert (Hs : stored_as g n m = (n, m) \/ (g_type g = Undirected /\ stored_as g n m = (m, n))).
    { unfold stored_as. destruct (dmem (g_edges g) (n, m)) eqn:Hd; [auto|]. right. split; [|reflexivity].
      unfold check_edge in Hc. destruct (g_type g); congruence. }
    destruct (g_type g) eqn:Ht.
    - rewrite dget_ddel_ne by (destruct Hs as [->|[? _]]; congruence). reflexivity.
    - rewrite !dget_ddel_ne; [reflexivity|..]; specialize (H3 eq_refl); destruct Hs as [->|[_ ->]]; congruence. }
  split. { intros x a. rewrite !obs_node_attr. unfold p_del_edge. destruct (g_type g); reflexivity. }
  set (g' := p_del_edge g (stored_as g n m) n m) in *. set (d1 := dset (g_nbrs g) n (rem1 m (list_at (g_nbrs g) n))).
  assert (Enb : g_nbrs g' = match g_type g with Directed => d1 | Undirected => dset d1 m (rem1 n (list_at d1 m)) end) by (unfold g', p_del_edge; destruct (g_type g); reflexivity).
  assert (Ein : g_type g = Directed -> g_in g' = dset (g_in g) m (rem1 n (list_at (g_in g) m))) by (intros Ht; unfold g', p_del_edge; rewrite Ht; reflexivity).
  assert (W' : wf g') by (unfold g'; apply wf_p_del_edge; assumption). clearbody g'.
  assert (Hf : check_edge g' n m = false) by (destruct (check_edge g' n m) eqn:H; [apply Hch in H; tauto|reflexivity]).
  assert (Hf2 : g_type g = Undirected -> check_edge g' m n = false) by (intros Ht; destruct (check_edge g' m n) eqn:H; [apply Hch in H; tauto|reflexivity]).
  split.
  - intros x l. rewrite !obs_neighbors. intros Hl.
    assert (Hp : forall y, In y (list_at (g_nbrs g') x) -> check_edge g' x y = true).
    { intros y Hy. apply (count_occ_In eq_dec) in Hy. rewrite (wf_nbrs W') in Hy. unfold nb_count in Hy. unfold check_edge. destruct (g_type g'); [|apply orb_true_iff]; destruct (dmem (g_edges g') (x, y)), (dmem (g_edges g') (y, x)); simpl in *; auto; lia. }
    assert (Hk : exists l', dget (g_nbrs g') x = Some l' /\ filter (fun y => check_edge g' x y) l' = filter (fun y => check_edge g' x y) l).
    { assert (El : list_at (g_nbrs g) x = l) by (unfold list_at; destruct (dget (g_nbrs g) x); congruence). assert (Hx : dget (g_nbrs g) x = Some l) by (destruct (dget (g_nbrs g) x); congruence).
      assert (L1 : exists l', dget d1 x = Some l' /\ filter (fun y => check_edge g' x y) l' = filter (fun y => check_edge g' x y) l).
      { unfold d1. rewrite dget_dset. destruct (eq_dec n x) as [<-|Hne]; [|eauto]. eexists. split; [reflexivity|]. rewrite El. apply filter_rem1. exact Hf. }
      rewrite Enb. destruct (g_type g) eqn:Ht; [exact L1|]. rewrite dget_dset. destruct (eq_dec m x) as [<-|Hne]; [|exact L1].
      destruct L1 as (l1 & Hl1 & Hl2). eexists. split; [reflexivity|]. unfold list_at at 1. rewrite Hl1, <- Hl2. apply filter_rem1. apply Hf2. reflexivity. }
    destruct Hk as (l' & Hl' & Ef). rewrite Hl'. f_equal. rewrite <- Ef. symmetry. apply forallb_filter_id, forallb_forall. intros y Hy. apply Hp. unfold list_at. rewrite Hl'. exact Hy.
  - intros x l Ht. rewrite !obs_in_neighbors by congruence. intros Hl.
    assert (Hp : forall y, In y (list_at (g_in g') x) -> check_edge g' y x = true).
    { intros y Hy. apply (count_occ_In eq_dec) in Hy. rewrite (wf_ins W') in Hy. unfold check_edge. destruct (g_type g'); [|lia]. destruct (dmem (g_edges g') (y, x)); simpl in *; auto; lia. }
    assert (Hk : exists l', dget (g_in g') x = Some l' /\ filter (fun y => check_edge g' y x) l' = filter (fun y => check_edge g' y x) l).
    { assert (El : list_at (g_in g) x = l) by (unfold list_at; destruct (dget (g_in g) x); congruence). assert (Hx : dget (g_in g) x = Some l) by (destruct (dget (g_in g) x); congruence).
      rewrite (Ein Ht). rewrite dget_dset. destruct (eq_dec m x) as [<-|Hne]; [|eauto]. eexists. split; [reflexivity|]. rewrite El. apply filter_rem1. exact Hf. }
    destruct Hk as (l' & Hl' & Ef). rewrite Hl'. f_equal. rewrite <- Ef. symmetry. apply forallb_filter_id, forallb_forall. intros y Hy. apply Hp. unfold list_at. rewrite Hl'. exact Hy.
Qed.

(** C06 *)
Lemma obs_in_frame g h x : g_type h = g_type g -> g_in h = g_in g -> obs (get_in_neighbors x) h = obs (get_in_neighbors x) g.
Proof.
  intros H1 H2. unfold obs, get_in_neighbors, in_list, in_dict, bind, lift. rewrite H1, H2.
  destruct (g_type g); [destruct (dget (g_in g) x)|]; reflexivity.
Qed.
Lemma set_node_attr_views g n a v : In n (dkeys (g_nodes g)) ->
  exists g', set_node_attr n a v g = (g', Ok tt) /\
    obs (get_node_attr n a) g' = Ok v /\
    (forall x b, (x, b) <> (n, a) -> obs (get_node_attr x b) g' = obs (get_node_attr x b) g) /\
    (forall x y b, obs (get_edge_attr x y b) g' = obs (get_edge_attr x y b) g) /\
    get_node_list g' = get_node_list g /\ get_edge_list g' = get_edge_list g /\
    (forall x, obs (get_neighbors x) g' = obs (get_neighbors x) g) /\
    (forall x, obs (get_in_neighbors x) g' = obs (get_in_neighbors x) g) /\
    g_type g' = g_type g.
Proof.
  intros Hn. apply dget_exists in Hn as [d Hd]. exists (with_nodes g (dset (g_nodes g) n (dset d a v))).
  unfold set_node_attr. rewrite Hd. split; [reflexivity|].
  split. { rewrite obs_node_attr. simpl. rewrite dget_dset_eq, dget_dset_eq. reflexivity. }
  split. { intros x b Hxb. rewrite !obs_node_attr. simpl. rewrite dget_dset. destruct (eq_dec n x) as [->|]; [|reflexivity].
    rewrite Hd. rewrite dget_dset_ne; [reflexivity|congruence]. }
  repeat split; try reflexivity.
  intros x. apply obs_in_frame; reflexivity.
Qed.
Lemma set_edge_attr_views g n m a v : wf g -> check_edge g n m = true ->
  exists g', set_edge_attr n m a v g = (g', Ok tt) /\
    obs (get_edge_attr n m a) g' = Ok v /\
    (g_type g = Undirected -> obs (get_edge_attr m n a) g' = Ok v) /\
    (forall x y b, ((x, y) <> (n, m) /\ (g_type g = Undirected -> (x, y) <> (m, n))) \/ b <> a ->
        obs (get_edge_attr x y b) g' = obs (get_edge_attr x y b) g) /\
    (forall x b, obs (get_node_attr x b) g' = obs (get_node_attr x b) g) /\
    get_node_list g' = get_node_list g /\ get_edge_list g' = get_edge_list g /\
    (forall x, obs (get_neighbors x) g' = obs (get_neighbors x) g) /\
    (forall x, obs (get_in_neighbors x) g' = obs (get_in_neighbors x) g) /\
    g_type g' = g_type g.
Proof.
  intros W Hc. set (e := stored_as g n m).
  assert (He : In e (dkeys (g_edges g))) by (apply stored_In; assumption).
  pose proof He as He'. apply dget_exists in He' as [d Hd].
  exists (with_edges g (dset (g_edges g) e (dset d a v))).
  assert (Hes : e = (n, m) \/ (g_type g = Undirected /\ e = (m, n) /\ dget (g_edges g) (n, m) = None)).
  { unfold e, stored_as. destruct (dmem (g_edges g) (n, m)) eqn:Hdm; [auto|]. right. split; [|split; [reflexivity|]].
    - unfold check_edge in Hc. destruct (g_type g); congruence.
    - unfold dmem in Hdm. destruct (dget (g_edges g) (n, m)); congruence. }
  assert (Hrev : forall x y, g_type g = Undirected -> x <> y -> e = (x, y) -> dget (g_edges g) (y, x) = None).
  { intros x y Ht Hxy Hexy. apply dget_None. apply (wf_anti W Ht); [assumption|]. rewrite <- Hexy. assumption. }
  split.
  { unfold set_edge_attr. destruct Hes as [Hes|(Ht & Hes & Hno)]; rewrite Hes in *.
    - rewrite Hd. reflexivity.
    - rewrite Hno, Ht, Hd. reflexivity. }
  split.
  { unfold obs, get_edge_attr. cbn [snd g_edges with_edges g_type]. destruct Hes as [Hes|(Ht & Hes & Hno)]; rewrite Hes in *.
    - rewrite dget_dset_eq, dget_dset_eq. destruct (g_type g); reflexivity.
    - rewrite Ht. rewrite dget_dset_eq, dget_dset_eq. rewrite dget_dset.
      destruct (eq_dec (m, n) (n, m)) as [Heq|Heq]; [rewrite dget_dset_eq; reflexivity|]. rewrite Hno. reflexivity. }
  split.
  { intros Ht. unfold obs, get_edge_attr. cbn [snd g_edges with_edges g_type]. rewrite Ht. destruct Hes as [Hes|(_ & Hes & Hno)]; rewrite Hes in *.
    - rewrite dget_dset. destruct (eq_dec (n, m) (m, n)) as [Heq|Heq]; [rewrite dget_dset_eq; reflexivity|].
      rewrite (Hrev n m Ht) by congruence. rewrite dget_dset_eq, dget_dset_eq. reflexivity.
    - rewrite dget_dset_eq, dget_dset_eq. reflexivity. }
  split.
  { intros x y b Hxy. unfold obs, get_edge_attr. cbn [snd g_edges with_edges g_type].
    assert (Hlook : forall e', (match dget (dset (g_edges g) e (dset d a v)) e' with None => None | Some d0 => dget d0 b end) =
      if eqb e e' && eqb a b then Some v else match dget (g_edges g) e' with None => None | Some d0 => dget d0 b end).
    { intros e'. rewrite dget_dset. destruct (eqb_spec e e') as [<-|Hne].
      - destruct (eq_dec e e); [|congruence]. rewrite Hd. rewrite dget_dset. unfold eqb. destruct (eq_dec a b); reflexivity.
      - destruct (eq_dec e e'); [congruence|]. reflexivity. }
    rewrite !Hlook.
    destruct Hxy as [[H1 H2]|H].
    - assert (E1 : eqb e (x, y) && eqb a b = false).
      { apply andb_false_iff. left. apply eqb_false. destruct Hes as [->|(Ht & -> & _)]; [congruence|]. specialize (H2 Ht). congruence. }
      rewrite E1. destruct (g_type g) eqn:Ht; [reflexivity|].
      assert (E2 : eqb e (y, x) && eqb a b = false).
      { apply andb_false_iff. left. apply eqb_false. specialize (H2 eq_refl). destruct Hes as [->|(_ & -> & _)]; congruence. }
      rewrite E2. reflexivity.
    - assert (Eab : eqb a b = false) by (apply eqb_false; congruence).
      rewrite Eab, !andb_false_r. reflexivity. }
  split; [reflexivity|]. split; [reflexivity|].
  split. { unfold get_edge_list; simpl. apply dkeys_dset_in. assumption. }
  repeat split; try reflexivity.
  intros x. apply obs_in_frame; reflexivity.
Qed.
(* on undirected graphs both orders read the same edge *)
Lemma get_edge_attr_sym g n m a : wf g -> g_type g = Undirected -> obs (get_edge_attr n m a) g = obs (get_edge_attr m n a) g.
Proof.
  intros W Ht. unfold obs, get_edge_attr. cbn [snd]. rewrite Ht.
  destruct (eq_dec n m) as [->|Hn]; [reflexivity|].
  destruct (dget (g_edges g) (n, m)) as [d|] eqn:H1.
  - assert (H2 : dget (g_edges g) (m, n) = None).
    { apply dget_None, (wf_anti W Ht Hn). eapply dget_Some_keys; eassumption. }
    rewrite H2. reflexivity.
  - destruct (dget (g_edges g) (m, n)); reflexivity.
Qed.

(** C05 *)
Lemma del_node_views g n : wf g -> g_type g = Directed -> In n (get_node_list g) ->
  exists g', del_node n g = (g', Ok tt) /\ wf g' /\ g_type g' = Directed /\
    get_node_list g' = filter (fun x => negb (eqb n x)) (get_node_list g) /\
    get_edge_list g' = filter (fun e => negb (eqb n (fst e)) && negb (eqb n (snd e))) (get_edge_list g) /\
    (forall x a, x <> n -> obs (get_node_attr x a) g' = obs (get_node_attr x a) g) /\
    (forall x y a, x <> n -> y <> n -> obs (get_edge_attr x y a) g' = obs (get_edge_attr x y a) g) /\
    (forall x l, x <> n -> obs (get_out_neighbors x) g = Ok l -> obs (get_out_neighbors x) g' = Ok (filter (fun y => negb (eqb n y)) l)) /\
    (forall x l, x <> n -> obs (get_in_neighbors x) g = Ok l -> obs (get_in_neighbors x) g' = Ok (filter (fun y => negb (eqb n y)) l)).
Proof.
  intros W Ht Hn. exists (p_del_node g n). rewrite p_del_node_eq by assumption. split; [reflexivity|].
  split; [apply wf_p_del_node; assumption|]. split; [assumption|].
  assert (Hb : forall x, x <> n -> not_n n x = true).
  { intros x Hx. unfold not_n. apply negb_true_iff, eqb_false. congruence. }
  split. { unfold get_node_list; simpl. rewrite dkeys_mapv, (dkeys_filter (not_n n)). reflexivity. }
  split. { unfold get_edge_list; simpl. rewrite (dkeys_filter (fun e => not_n n (fst e) && not_n n (snd e))). reflexivity. }
  split. { intros x a Hx. rewrite !obs_node_attr. simpl. rewrite (dget_filter (not_n n)) by (rewrite (wf_nodes W); apply (wf_nd W)).
    rewrite Hb by assumption. reflexivity. }
  split. { intros x y a Hx Hy. unfold obs, get_edge_attr. simpl. rewrite Ht.
    rewrite (dget_filter (fun e => not_n n (fst e) && not_n n (snd e))) by apply (wf_ne W). simpl. rewrite !Hb by assumption. reflexivity. }
  split. { intros x l Hx. change (obs (get_neighbors x) g = Ok l -> obs (get_neighbors x) (p_del_node g n) = Ok (filter (not_n n) l)).
    rewrite !obs_neighbors. simpl. rewrite dget_mapv, (dget_filter (not_n n)) by apply (wf_nd W). rewrite Hb by assumption.
    destruct (dget (g_nbrs g) x); [|discriminate]. intros [= ->]. reflexivity. }
  intros x l Hx. rewrite !obs_in_neighbors by assumption. simpl. rewrite dget_mapv, (dget_filter (not_n n)) by (rewrite (wf_in_keys W Ht); apply (wf_nd W)).
  rewrite Hb by assumption. destruct (dget (g_in g) x); [|discriminate]. intros [= ->]. reflexivity.
Qed.
