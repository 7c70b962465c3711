(* Invariant of the Graph data structure and laws of its operations. *)
From Verif Require Import Py M_Graph.
Set Implicit Arguments.
Unset Strict Implicit.

Definition b2n (b : bool) : nat := if b then 1 else 0.

(* number of times m must occur in the neighbour list of n *)
Definition nb_count (g : graph) (n m : name) : nat :=
  match g_type g with
  | Directed => b2n (dmem (g_edges g) (n, m))
  | Undirected => b2n (dmem (g_edges g) (n, m)) + b2n (dmem (g_edges g) (m, n))
  end.

Record wf (g : graph) : Prop := {
  wf_nodes : dkeys (g_nodes g) = dkeys (g_nbrs g);
  wf_in : dkeys (g_in g) = match g_type g with Directed => dkeys (g_nbrs g) | Undirected => [] end;
  wf_nd : NoDup (dkeys (g_nbrs g));
  wf_ne : NoDup (dkeys (g_edges g));
  wf_nbrs : forall n m, count_occ eq_dec (list_at (g_nbrs g) n) m = nb_count g n m;
  wf_ins : forall n m, count_occ eq_dec (list_at (g_in g) n) m =
             match g_type g with Directed => b2n (dmem (g_edges g) (m, n)) | Undirected => 0 end;
  wf_anti : g_type g = Undirected -> forall n m, n <> m -> In (n, m) (dkeys (g_edges g)) -> ~ In (m, n) (dkeys (g_edges g))
}.

(** ** helper lemmas *)
Lemma dmem_dset {K V} {E : EqDec K} (d : dict K V) k v k' : dmem (dset d k v) k' = eqb k k' || dmem d k'.
Proof. unfold dmem, eqb. rewrite dget_dset. eqd; reflexivity. Qed.
Lemma dmem_ddel {K V} {E : EqDec K} (d : dict K V) k k' : NoDup (dkeys d) -> dmem (ddel d k) k' = negb (eqb k k') && dmem d k'.
Proof. intros H. unfold dmem, eqb. rewrite dget_ddel by assumption. eqd; reflexivity. Qed.
Lemma list_at_dset d k l k' : list_at (dset d k l) k' = if eq_dec k k' then l else list_at d k'.
Proof. unfold list_at. rewrite dget_dset. eqd; reflexivity. Qed.
Lemma list_at_ddel d k k' : NoDup (dkeys d) -> list_at (ddel d k) k' = if eq_dec k k' then [] else list_at d k'.
Proof. intros H. unfold list_at. rewrite dget_ddel by assumption. eqd; reflexivity. Qed.
Lemma list_at_nin d k : ~ In k (dkeys d) -> list_at d k = [].
Proof. intros H. unfold list_at. apply dget_None in H. rewrite H. reflexivity. Qed.
Lemma list_at_In d k x : In x (list_at d k) -> In k (dkeys d).
Proof.
  unfold list_at. destruct (dget d k) eqn:H; [|simpl; tauto]. intros _. eapply dget_Some_keys; eassumption.
Qed.
Lemma dget_list_at d k : In k (dkeys d) -> dget d k = Some (list_at d k).
Proof. intros H. apply dget_exists in H as [l H]. unfold list_at. rewrite H. reflexivity. Qed.
Lemma dset_list_at d k : In k (dkeys d) -> dset d k (list_at d k) = d.
Proof. intros H. apply dset_same, dget_list_at, H. Qed.
Lemma b2n_pos b : 0 < b2n b <-> b = true.
Proof. destruct b; simpl; split; intros; try lia; congruence. Qed.
Lemma b2n_le1 b : b2n b <= 1.
Proof. destruct b; simpl; lia. Qed.
Lemma eqb_pair {A B} {EA : EqDec A} {EB : EqDec B} (a a' : A) (b b' : B) :
  eqb (a, b) (a', b') = eqb a a' && eqb b b'.
Proof.
  destruct (eqb_spec (a, b) (a', b')) as [H|H], (eqb_spec a a'), (eqb_spec b b'); simpl; congruence.
Qed.
Lemma NoDup_count {A} {E : EqDec A} (l : list A) : (forall x, count_occ eq_dec l x <= 1) -> NoDup l.
Proof. apply NoDup_count_occ. Qed.
Lemma nth_error_split_at {A} (l : list A) i x : nth_error l i = Some x ->
  exists a b, l = a ++ x :: b /\ length a = i.
Proof. apply nth_error_split. Qed.

(** ** pure forms of the operations *)
Definition p_add_node (g : graph) (n : name) (a : attrs) : graph :=
  mkGraph (g_type g) (g_attr g) (dset (g_nbrs g) n [])
    (match g_type g with Directed => dset (g_in g) n [] | Undirected => g_in g end)
    (dset (g_nodes g) n (dupdate [] a)) (g_edges g) (g_cluster g) (g_ncomp g).
Definition ensure (g : graph) (n : name) : graph := if dmem (g_nodes g) n then g else p_add_node g n [].
Definition link (g : graph) (n m : name) (a : attrs) : graph :=
  let d1 := dset (g_nbrs g) n (list_at (g_nbrs g) n ++ [m]) in
  match g_type g with
  | Directed => mkGraph (g_type g) (g_attr g) d1 (dset (g_in g) m (list_at (g_in g) m ++ [n]))
                  (g_nodes g) (dset (g_edges g) (n, m) (dupdate [] a)) (g_cluster g) (g_ncomp g)
  | Undirected => mkGraph (g_type g) (g_attr g) (dset d1 m (list_at d1 m ++ [n])) (g_in g)
                  (g_nodes g) (dset (g_edges g) (n, m) (dupdate [] a)) (g_cluster g) (g_ncomp g)
  end.

Lemma add_node_eq g n a : In n (get_node_list g) -> add_node n a g = (g, Err MultipleNodeException).
Proof. intros H. unfold add_node. apply dmem_In in H. rewrite H. reflexivity. Qed.
Lemma add_node_new g n a : ~ In n (get_node_list g) -> add_node n a g = (p_add_node g n a, Ok tt).
Proof.
  intros H. unfold add_node. apply dmem_nIn in H. rewrite H. unfold p_add_node. destruct g as [[] ? ? ? ? ? ? ?]; reflexivity.
Qed.

Lemma g_type_ensure g n : g_type (ensure g n) = g_type g.
Proof. unfold ensure. destruct (dmem (g_nodes g) n); reflexivity. Qed.
Lemma g_edges_ensure g n : g_edges (ensure g n) = g_edges g.
Proof. unfold ensure. destruct (dmem (g_nodes g) n); reflexivity. Qed.

Lemma wf_p_add_node g n a : wf g -> ~ In n (dkeys (g_nbrs g)) -> wf (p_add_node g n a).
Proof.
  intros W Hn. pose proof (wf_nodes W) as W1. pose proof (wf_in W) as W2.
  constructor; simpl.
  - rewrite !dkeys_dset_nin'; [congruence|congruence|congruence].
  - destruct (g_type g); [|assumption]. rewrite !dkeys_dset_nin'; congruence.
  - apply NoDup_dset, (wf_nd W).
  - apply (wf_ne W).
  - intros x m. unfold nb_count; simpl. change (match g_type g with
     | Directed => b2n (dmem (g_edges g) (x, m))
     | Undirected => b2n (dmem (g_edges g) (x, m)) + b2n (dmem (g_edges g) (m, x)) end) with (nb_count g x m).
    rewrite <- (wf_nbrs W). rewrite list_at_dset. eqd; [|reflexivity]. subst. rewrite list_at_nin by assumption. reflexivity.
  - intros x m. rewrite <- (wf_ins W). destruct (g_type g); [|reflexivity]. rewrite list_at_dset. eqd; [|reflexivity].
    subst. rewrite list_at_nin by congruence. reflexivity.
  - intros Ht. apply (wf_anti W Ht).
Qed.
Lemma wf_ensure g n : wf g -> wf (ensure g n).
Proof.
  intros W. unfold ensure. destruct (dmem_spec (g_nodes g) n) as [H|H]; [assumption|].
  apply wf_p_add_node; [assumption|]. rewrite <- (wf_nodes W). assumption.
Qed.
Lemma ensure_In g n : wf g -> In n (dkeys (g_nbrs (ensure g n))).
Proof.
  intros W. unfold ensure. destruct (dmem_spec (g_nodes g) n) as [H|H].
  - rewrite <- (wf_nodes W). assumption.
  - simpl. apply In_dkeys_dset. auto.
Qed.
Lemma ensure_mono g n x : In x (dkeys (g_nbrs g)) -> In x (dkeys (g_nbrs (ensure g n))).
Proof.
  unfold ensure. destruct (dmem (g_nodes g) n); [auto|]. simpl. intros H. apply In_dkeys_dset. auto.
Qed.

(* an edge's endpoints are nodes *)
Lemma wf_edge_l g n m : wf g -> In (n, m) (dkeys (g_edges g)) -> In n (dkeys (g_nbrs g)).
Proof.
  intros W H. apply dmem_In in H. apply list_at_In with m. apply (count_occ_In eq_dec). rewrite (wf_nbrs W).
  unfold nb_count. rewrite H. destruct (g_type g); simpl; lia.
Qed.
Lemma wf_edge_r g n m : wf g -> In (n, m) (dkeys (g_edges g)) -> In m (dkeys (g_nbrs g)).
Proof.
  intros W H. apply dmem_In in H. destruct (g_type g) eqn:Ht.
  - pose proof (wf_in W) as Hi. rewrite Ht in Hi. rewrite <- Hi. apply list_at_In with n. apply (count_occ_In eq_dec).
    rewrite (wf_ins W), Ht, H. simpl; lia.
  - apply list_at_In with n. apply (count_occ_In eq_dec). rewrite (wf_nbrs W). unfold nb_count. rewrite Ht, H. simpl; lia.
Qed.

Lemma wf_link g n m a : wf g -> In n (dkeys (g_nbrs g)) -> In m (dkeys (g_nbrs g)) ->
  check_edge g n m = false -> wf (link g n m a).
Proof.
  intros W Hn Hm Hc. pose proof (wf_in W) as Hi. unfold check_edge in Hc. unfold link.
  destruct (g_type g) eqn:Ht.
  - assert (Hm' : In m (dkeys (g_in g))) by (rewrite Hi; assumption).
    constructor; simpl; rewrite ?dkeys_dset_in by assumption; try rewrite Hi.
    + apply (wf_nodes W).
    + reflexivity.
    + apply (wf_nd W).
    + apply NoDup_dset, (wf_ne W).
    + intros x y. unfold nb_count; simpl. pose proof (wf_nbrs W x y) as H. unfold nb_count in H. rewrite Ht in H.
      rewrite list_at_dset, dmem_dset, eqb_pair. destruct (eqb_spec n x) as [->|Hx]; simpl.
      * destruct (eq_dec x x); [|congruence]. rewrite count_occ_app, H. simpl.
        destruct (eqb_spec m y) as [->|Hy]; simpl.
        { destruct (eq_dec y y); [|congruence]. rewrite Hc. reflexivity. }
        { destruct (eq_dec m y); [congruence|]. lia. }
      * eqd; [congruence|assumption].
    + intros x y. pose proof (wf_ins W x y) as H. rewrite Ht in H.
      rewrite list_at_dset, dmem_dset, eqb_pair. destruct (eqb_spec m x) as [->|Hx]; simpl.
      * destruct (eq_dec x x); [|congruence]. rewrite count_occ_app, H. simpl. rewrite andb_true_r.
        destruct (eqb_spec n y) as [->|Hy]; simpl.
        { destruct (eq_dec y y); [|congruence]. rewrite Hc. reflexivity. }
        { destruct (eq_dec n y); [congruence|]. lia. }
      * rewrite ?andb_false_r. eqd; [congruence|assumption].
    + discriminate.
  - apply orb_false_iff in Hc as [Hc1 Hc2].
    constructor; simpl; rewrite ?(@dkeys_dset_in _ _ _ (dset _ _ _)) by (apply In_dkeys_dset; auto);
      rewrite ?(@dkeys_dset_in _ _ _ (g_nbrs g)) by assumption.
    + apply (wf_nodes W).
    + assumption.
    + apply (wf_nd W).
    + apply NoDup_dset, (wf_ne W).
    + intros x y. unfold nb_count; simpl. pose proof (wf_nbrs W x y) as H. unfold nb_count in H. rewrite Ht in H.
      rewrite !list_at_dset, !dmem_dset, !eqb_pair. unfold eqb.
      destruct (eq_dec m x) as [Hmx|Hmx]; [destruct (eq_dec n m) as [Hnm|Hnm]|destruct (eq_dec n x) as [Hnx|Hnx]]; subst.
      * rewrite !count_occ_app, H. simpl. destruct (eq_dec x y) as [->|Hxy]; simpl.
        { destruct (eq_dec y y); [|congruence]. simpl. rewrite Hc1. reflexivity. }
        { destruct (eq_dec x x); [|congruence]. simpl. lia. }
      * rewrite !count_occ_app, H. simpl. destruct (eq_dec n x) as [->|Hnx]; [congruence|]. simpl.
        destruct (eq_dec n y) as [->|Hny]; simpl; [|lia]. destruct (eq_dec x x); [|congruence]. simpl.
        rewrite Hc1, Hc2. reflexivity.
      * rewrite !count_occ_app, H. simpl. destruct (eq_dec m y) as [->|Hmy]; simpl.
        { destruct (eq_dec x y); [congruence|]. rewrite Hc1, Hc2. simpl. lia. }
        { rewrite ?andb_false_r. simpl. lia. }
      * simpl. rewrite ?andb_false_r. simpl. assumption.
    + intros x y. pose proof (wf_ins W x y) as H. rewrite Ht in H. assumption.
    + intros _ x y Hxy Hi1 Hi2. apply In_dkeys_dset in Hi1. apply In_dkeys_dset in Hi2.
      apply dmem_nIn in Hc1, Hc2. destruct Hi1 as [Hi1|Hi1], Hi2 as [Hi2|Hi2]; try congruence.
      revert Hi2. apply (wf_anti W Ht); assumption.
Qed.

(* dmem (g_edges) and friends of [ensure] *)
Lemma add_edge_dup g n m a : check_edge g n m = true -> add_edge n m a g = (g, Err MultipleEdgeException).
Proof.
  unfold check_edge, add_edge. destruct (g_type g).
  - intros ->. reflexivity.
  - destruct (dmem (g_edges g) (n, m)); [reflexivity|]. simpl. intros ->. reflexivity.
Qed.
Lemma add_edge_new g n m a : wf g -> check_edge g n m = false ->
  add_edge n m a g = (link (ensure (ensure g n) m) n m a, Ok tt).
Proof.
  intros W Hc.
  assert (E1 : add_edge n m a g = (
     modify (fun g => with_edges g (dset (g_edges g) (n, m) (dupdate [] a))) ;;
     nd <- gets g_nodes ;;
     (if dmem nd n then ret tt else add_node n []) ;;
     nd <- gets g_nodes ;;
     (if dmem nd m then ret tt else add_node m []) ;;
     nbr_append n m ;;
     t <- gets g_type ;;
     match t with Undirected => nbr_append m n | Directed => in_append m n end) g).
  { unfold add_edge. unfold check_edge in Hc. destruct (g_type g); [rewrite Hc; reflexivity|].
    apply orb_false_iff in Hc as [-> ->]. reflexivity. }
  rewrite E1. clear E1.
  pose proof (wf_ensure n W) as W1. pose proof (wf_ensure m W1) as W2.
  set (E := dset (g_edges g) (n, m) (dupdate [] a)).
  assert (Hen : forall h x, wf h ->
     (nd <- gets g_nodes ;; (if dmem nd x then ret tt else add_node x [])) (with_edges h E) = (with_edges (ensure h x) E, Ok tt)).
  { intros h x Wh. unfold bind, gets. cbn. unfold ensure. destruct (dmem_spec (g_nodes h) x) as [Hx|Hx]; [reflexivity|].
    rewrite add_node_new; [reflexivity|]. unfold get_node_list; simpl. rewrite <- (wf_nodes Wh). assumption. }
  assert (Hb : forall (h : graph) B (k : unit -> M graph B) x, wf h ->
     (nd <- gets g_nodes ;; (if dmem nd x then ret tt else add_node x []) ;; k tt) (with_edges h E) = k tt (with_edges (ensure h x) E)).
  { intros h B k x Wh. specialize (Hen h x Wh). unfold bind, gets in *. cbn in *. rewrite Hen. reflexivity. }
  change (modify (fun g0 => with_edges g0 (dset (g_edges g0) (n, m) (dupdate [] a))) g) with (with_edges g E, @Ok unit tt).
  unfold bind at 1. unfold modify at 1. fold E.
  rewrite (Hb g _ (fun _ => _) n W). rewrite (Hb (ensure g n) _ (fun _ => _) m W1).
  set (h := ensure (ensure g n) m) in *.
  assert (HnI : In n (dkeys (g_nbrs h))) by (apply ensure_mono, ensure_In; assumption).
  assert (HmI : In m (dkeys (g_nbrs h))) by (apply ensure_In; assumption).
  unfold nbr_append, nbr_list, in_append, in_list, in_dict, bind, modify, gets, lift, ret. simpl.
  rewrite (dget_list_at HnI). unfold link.
  assert (HE : E = dset (g_edges h) (n, m) (dupdate [] a)) by (unfold h; rewrite !g_edges_ensure; reflexivity).
  pose proof (wf_in W2) as Hin. fold h in Hin. simpl.
  destruct (g_type h) eqn:Ht; simpl.
  - rewrite Ht. simpl. rewrite dget_list_at by (rewrite Hin; assumption). unfold ret, with_in, with_nbrs, with_edges. simpl.
    rewrite HE, Ht. reflexivity.
  - rewrite dget_list_at by (apply In_dkeys_dset; auto).
    unfold with_nbrs, with_edges; simpl. rewrite HE, Ht. reflexivity.
Qed.

Lemma add_edge_wf g n m a : wf g -> wf (fst (add_edge n m a g)).
Proof.
  intros W. destruct (check_edge g n m) eqn:Hc.
  - rewrite add_edge_dup by assumption. assumption.
  - rewrite add_edge_new by assumption. simpl.
    pose proof (wf_ensure n W) as W1. pose proof (wf_ensure m W1) as W2.
    apply wf_link; [assumption|apply ensure_mono, ensure_In; assumption|apply ensure_In; assumption|].
    unfold check_edge in *. rewrite !g_type_ensure, !g_edges_ensure. assumption.
Qed.

(** ** del_edge *)
Definition rem1 (x : name) (l : list name) : list name := match lremove x l with Some l' => l' | None => l end.
Lemma rem1_count x l y : count_occ eq_dec (rem1 x l) y =
  if eq_dec x y then pred (count_occ eq_dec l y) else count_occ eq_dec l y.
Proof.
  unfold rem1. destruct (lremove x l) as [l'|] eqn:H.
  - rewrite (lremove_count H y). eqd; [rewrite Nat.add_1_r; reflexivity|lia].
  - eqd; [|reflexivity]. subst. apply lremove_None in H. apply (count_occ_not_In eq_dec) in H. rewrite H. reflexivity.
Qed.
Lemma lremove_rem1 x l : In x l -> lremove x l = Some (rem1 x l).
Proof. intros H. apply lremove_Some in H as [l' H]. unfold rem1. rewrite H. reflexivity. Qed.

Definition p_del_edge (g : graph) (e : name * name) (n m : name) : graph :=
  let d1 := dset (g_nbrs g) n (rem1 m (list_at (g_nbrs g) n)) in
  match g_type g with
  | Directed => mkGraph (g_type g) (g_attr g) d1 (dset (g_in g) m (rem1 n (list_at (g_in g) m)))
                  (g_nodes g) (ddel (g_edges g) e) (g_cluster g) (g_ncomp g)
  | Undirected => mkGraph (g_type g) (g_attr g) (dset d1 m (rem1 n (list_at d1 m))) (g_in g)
                  (g_nodes g) (ddel (g_edges g) e) (g_cluster g) (g_ncomp g)
  end.

Definition stored_as (g : graph) (n m : name) : name * name := if dmem (g_edges g) (n, m) then (n, m) else (m, n).

Lemma check_edge_nbr g n m : wf g -> check_edge g n m = true -> In m (list_at (g_nbrs g) n).
Proof.
  intros W H. apply (count_occ_In eq_dec). rewrite (wf_nbrs W). unfold nb_count. unfold check_edge in H. destruct (g_type g).
  - rewrite H. simpl; lia.
  - apply orb_true_iff in H. destruct H as [-> | ->]; simpl; lia.
Qed.
Lemma nbr_check_edge g n m : wf g -> In m (list_at (g_nbrs g) n) -> check_edge g n m = true.
Proof.
  intros W H. apply (count_occ_In eq_dec) in H. rewrite (wf_nbrs W) in H. unfold nb_count in H. unfold check_edge. destruct (g_type g).
  - destruct (dmem (g_edges g) (n, m)); simpl in *; [reflexivity|lia].
  - destruct (dmem (g_edges g) (n, m)), (dmem (g_edges g) (m, n)); simpl in *; try reflexivity; lia.
Qed.
Lemma check_edge_In g n m : check_edge g n m = true ->
  In (n, m) (dkeys (g_edges g)) \/ (g_type g = Undirected /\ In (m, n) (dkeys (g_edges g))).
Proof.
  unfold check_edge. destruct (g_type g); [|rewrite orb_true_iff]; rewrite !dmem_In; tauto.
Qed.
Lemma check_edge_nodes g n m : wf g -> check_edge g n m = true -> In n (dkeys (g_nbrs g)) /\ In m (dkeys (g_nbrs g)).
Proof.
  intros W H. apply check_edge_In in H as [H|[_ H]]; split;
    try (eapply wf_edge_l; eassumption); eapply wf_edge_r; eassumption.
Qed.
Lemma stored_In g n m : check_edge g n m = true -> In (stored_as g n m) (dkeys (g_edges g)).
Proof.
  intros H. unfold stored_as. destruct (dmem_spec (g_edges g) (n, m)) as [Hi|Hi]; [assumption|].
  apply check_edge_In in H as [H|[_ H]]; [tauto|assumption].
Qed.
Lemma In_rem1_2 (x : name) l : 2 <= count_occ eq_dec l x -> In x (rem1 x l).
Proof. intros H. apply (count_occ_In eq_dec). rewrite rem1_count. destruct (eq_dec x x); [lia|congruence]. Qed.

Lemma del_edge_missing g n m : check_edge g n m = false -> del_edge n m g = (g, Err (PyException "Edge does not exists!")).
Proof.
  unfold check_edge, del_edge. destruct (g_type g); [intros ->; reflexivity|].
  intros H. apply orb_false_iff in H as [-> ->]. reflexivity.
Qed.
Lemma del_edge_present g n m : wf g -> check_edge g n m = true ->
  del_edge n m g = (p_del_edge g (stored_as g n m) n m, Ok tt).
Proof.
  intros W Hc. destruct (check_edge_nodes W Hc) as [Hn Hm].
  pose proof (check_edge_nbr W Hc) as Hmn.
  unfold del_edge, p_del_edge. destruct (g_type g) eqn:Ht.
  - pose proof Hc as Hc'. unfold check_edge in Hc'. rewrite Ht in Hc'. unfold stored_as. rewrite Hc'.
    unfold nbr_remove, nbr_list, in_remove, in_list, in_dict, bind, modify, gets, lift, ret. simpl.
    rewrite (dget_list_at Hn), (lremove_rem1 Hmn). simpl. rewrite Ht. simpl.
    assert (Hm' : In m (dkeys (g_in g))) by (pose proof (wf_in W) as Hi; rewrite Ht in Hi; rewrite Hi; assumption).
    rewrite (dget_list_at Hm'). simpl.
    assert (Hnm : In n (list_at (g_in g) m)).
    { apply (count_occ_In eq_dec). rewrite (wf_ins W), Ht, Hc'. simpl; lia. }
    rewrite (lremove_rem1 Hnm). unfold with_in, with_nbrs, with_edges; simpl. rewrite Ht. reflexivity.
  - assert (Hc2 : check_edge g m n = true).
    { unfold check_edge in *. rewrite Ht in *. rewrite orb_comm. assumption. }
    pose proof (check_edge_nbr W Hc2) as Hnm.
    assert (G : forall E : graph -> dict (name * name) attrs, (modify (fun g => with_edges g (E g)) ;; nbr_remove n m ;; nbr_remove m n) g =
        (mkGraph (g_type g) (g_attr g)
     (dset (dset (g_nbrs g) n (rem1 m (list_at (g_nbrs g) n))) m
        (rem1 n (list_at (dset (g_nbrs g) n (rem1 m (list_at (g_nbrs g) n))) m)))
     (g_in g) (g_nodes g) (E g) (g_cluster g) (g_ncomp g), @Ok unit tt)).
    { intros E. unfold nbr_remove, nbr_list, bind, modify, gets, lift, ret. simpl.
      rewrite (dget_list_at Hn), (lremove_rem1 Hmn). simpl.
      rewrite dget_list_at by (apply In_dkeys_dset; auto).
      rewrite lremove_rem1; [reflexivity|]. rewrite list_at_dset. destruct (eq_dec n m) as [->|Hne]; [|assumption].
      apply In_rem1_2. rewrite (wf_nbrs W). unfold nb_count. rewrite Ht. unfold check_edge in Hc. rewrite Ht, orb_diag in Hc.
      rewrite Hc. simpl; lia. }
    unfold stored_as. destruct (dmem (g_edges g) (n, m)) eqn:H1.
    + rewrite (G (fun g => ddel (g_edges g) (n, m))), Ht. reflexivity.
    + destruct (dmem (g_edges g) (m, n)) eqn:H2.
      * rewrite (G (fun g => ddel (g_edges g) (m, n))), Ht. reflexivity.
      * unfold check_edge in Hc. rewrite Ht, H1, H2 in Hc. discriminate.
Qed.

Lemma wf_p_del_edge g n m : wf g -> check_edge g n m = true -> wf (p_del_edge g (stored_as g n m) n m).
Proof.
  intros W Hc. destruct (check_edge_nodes W Hc) as [Hn Hm]. pose proof (wf_in W) as Hi. pose proof (wf_ne W) as Hne.
  unfold p_del_edge. destruct (g_type g) eqn:Ht.
  - assert (Hm' : In m (dkeys (g_in g))) by (rewrite Hi; assumption).
    pose proof Hc as Hc'. unfold check_edge in Hc'. rewrite Ht in Hc'. unfold stored_as. rewrite Hc'.
    constructor; simpl; rewrite ?dkeys_dset_in by assumption; try rewrite Hi.
    + apply (wf_nodes W).
    + reflexivity.
    + apply (wf_nd W).
    + apply NoDup_ddel, (wf_ne W).
    + intros x y. unfold nb_count; simpl. pose proof (wf_nbrs W x y) as H. unfold nb_count in H. rewrite Ht in H.
      rewrite list_at_dset, dmem_ddel, eqb_pair by assumption. unfold eqb. destruct (eq_dec n x) as [->|Hx]; simpl; [|assumption].
      rewrite rem1_count, H. destruct (eq_dec m y) as [->|Hy]; simpl; [rewrite Hc'; reflexivity|reflexivity].
    + intros x y. pose proof (wf_ins W x y) as H. rewrite Ht in H.
      rewrite list_at_dset, dmem_ddel, eqb_pair by assumption. unfold eqb. destruct (eq_dec m x) as [->|Hx]; simpl.
      * rewrite rem1_count, H. destruct (eq_dec n y) as [->|Hy]; simpl; [rewrite Hc'; reflexivity|reflexivity].
      * rewrite ?andb_false_r. assumption.
    + discriminate.
  - constructor; simpl; rewrite ?(@dkeys_dset_in _ _ _ (dset _ _ _)) by (apply In_dkeys_dset; auto);
      rewrite ?(@dkeys_dset_in _ _ _ (g_nbrs g)) by assumption.
    + apply (wf_nodes W).
    + assumption.
    + apply (wf_nd W).
    + apply NoDup_ddel, (wf_ne W).
    + intros x y. unfold nb_count; simpl. pose proof (wf_nbrs W x y) as H. unfold nb_count in H. rewrite Ht in H.
      assert (Hs : forall x y, dmem (ddel (g_edges g) (stored_as g n m)) (x, y) =
         negb (eqb (stored_as g n m) (x, y)) && dmem (g_edges g) (x, y)) by (intros; apply dmem_ddel; assumption).
      rewrite !Hs. clear Hs. unfold stored_as.
      assert (Hone : n <> m -> b2n (dmem (g_edges g) (n, m)) + b2n (dmem (g_edges g) (m, n)) = 1).
      { intros Hnm. unfold check_edge in Hc. rewrite Ht in Hc.
        destruct (dmem_spec (g_edges g) (n, m)) as [H1|H1], (dmem_spec (g_edges g) (m, n)) as [H2|H2]; simpl in *; try reflexivity; try discriminate.
        exfalso. revert H2. apply (wf_anti W Ht); assumption. }
      assert (Hself : n = m -> dmem (g_edges g) (n, m) = true).
      { intros ->. unfold check_edge in Hc. rewrite Ht, orb_diag in Hc. assumption. }
      destruct (eq_dec n m) as [->|Hnm].
      { rewrite (Hself eq_refl). rewrite !eqb_pair. unfold eqb. rewrite list_at_dset. destruct (eq_dec m x) as [->|Hmx].
        - rewrite rem1_count. rewrite list_at_dset. destruct (eq_dec x x); [|congruence]. rewrite rem1_count. rewrite H.
          destruct (eq_dec x y) as [->|Hxy]; simpl; [|reflexivity]. rewrite (Hself eq_refl). reflexivity.
        - rewrite list_at_dset. destruct (eq_dec m x); [congruence|]. simpl. rewrite ?andb_false_r. simpl. assumption. }
      { specialize (Hone Hnm). destruct (dmem (g_edges g) (n, m)) eqn:H1; destruct (dmem (g_edges g) (m, n)) eqn:H2; simpl in Hone; try discriminate;
        rewrite !eqb_pair; unfold eqb; rewrite !list_at_dset; destruct (eq_dec n m); try congruence.
        all: repeat match goal with
               | |- context [eq_dec ?a ?b] => destruct (eq_dec a b); [subst|]
               end; try congruence; rewrite ?rem1_count, ?H; simpl;
             repeat match goal with
               | |- context [eq_dec ?a ?b] => destruct (eq_dec a b); [subst|]
               end; try congruence; rewrite ?H1, ?H2; simpl; try lia; reflexivity. }
    + intros x y. pose proof (wf_ins W x y) as H. rewrite Ht in H. assumption.
    + intros _ x y Hxy Hi1 Hi2. apply dkeys_ddel in Hi1; [|assumption]. apply dkeys_ddel in Hi2; [|assumption].
      apply (wf_anti W Ht Hxy); tauto.
Qed.
Lemma del_edge_wf g n m : wf g -> wf (fst (del_edge n m g)).
Proof.
  intros W. destruct (check_edge g n m) eqn:Hc.
  - rewrite del_edge_present by assumption. apply wf_p_del_edge; assumption.
  - rewrite del_edge_missing by assumption. assumption.
Qed.

(** ** attributes *)
Lemma wf_with_nodes g d : wf g -> dkeys d = dkeys (g_nodes g) -> wf (with_nodes g d).
Proof. intros W H. destruct W. constructor; simpl; try assumption. congruence. Qed.
Lemma dmem_keys {K V} {E : EqDec K} (d d' : dict K V) : dkeys d = dkeys d' -> forall k, dmem d k = dmem d' k.
Proof.
  intros H k. destruct (dmem_spec d k) as [H1|H1], (dmem_spec d' k) as [H2|H2]; try reflexivity; rewrite H in H1; tauto.
Qed.
Lemma wf_with_edges g d : wf g -> dkeys d = dkeys (g_edges g) -> wf (with_edges g d).
Proof.
  intros W H. pose proof (dmem_keys H) as Hd. destruct W. constructor; simpl; try assumption.
  - congruence.
  - intros. rewrite wf_nbrs0. unfold nb_count; simpl. rewrite !Hd. reflexivity.
  - intros. rewrite wf_ins0. rewrite !Hd. reflexivity.
  - intros Ht n m Hn. rewrite !H. auto.
Qed.
Lemma set_node_attr_wf g n a v : wf g -> wf (fst (set_node_attr n a v g)).
Proof.
  intros W. unfold set_node_attr. destruct (dget (g_nodes g) n) as [d|] eqn:H; [|assumption]. simpl.
  apply wf_with_nodes; [assumption|]. apply dkeys_dset_in. eapply dget_Some_keys; eassumption.
Qed.
Lemma set_edge_attr_wf g n m a v : wf g -> wf (fst (set_edge_attr n m a v g)).
Proof.
  intros W. unfold set_edge_attr. destruct (dget (g_edges g) (n, m)) as [d|] eqn:H.
  - simpl. apply wf_with_edges; [assumption|]. apply dkeys_dset_in. eapply dget_Some_keys; eassumption.
  - destruct (g_type g); [assumption|]. destruct (dget (g_edges g) (m, n)) as [d|] eqn:H'; [|assumption].
    simpl. apply wf_with_edges; [assumption|]. apply dkeys_dset_in. eapply dget_Some_keys; eassumption.
Qed.
Lemma add_node_wf g n a : wf g -> wf (fst (add_node n a g)).
Proof.
  intros W. destruct (in_dec eq_dec n (get_node_list g)) as [H|H].
  - rewrite add_node_eq by assumption. assumption.
  - rewrite add_node_new by assumption. apply wf_p_add_node; assumption.
Qed.

(** ** del_node *)
Definition mapv {K V W} (f : K -> V -> W) (d : dict K V) : dict K W := map (fun p => (fst p, f (fst p) (snd p))) d.
Lemma dkeys_mapv {K V W} (f : K -> V -> W) (d : dict K V) : dkeys (mapv f d) = dkeys d.
Proof. unfold dkeys, mapv. rewrite map_map. reflexivity. Qed.
Lemma dget_mapv {K V W} {E : EqDec K} (f : K -> V -> W) (d : dict K V) k :
  dget (mapv f d) k = match dget d k with Some v => Some (f k v) | None => None end.
Proof. induction d as [|[k' v] t IH]; simpl; [reflexivity|]. eqd; [subst; reflexivity|apply IH]. Qed.
Lemma mapv_ext {K V W} {E : EqDec K} (f f' : K -> V -> W) (d : dict K V) :
  (forall k v, In (k, v) d -> f k v = f' k v) -> mapv f d = mapv f' d.
Proof. intros H. apply map_ext_in. intros [k v] Hi. simpl. f_equal. apply H; assumption. Qed.
Lemma dset_mapv {K V W} {E : EqDec K} (f : K -> V -> W) (d : dict K V) k w :
  NoDup (dkeys d) -> In k (dkeys d) -> dset (mapv f d) k w = mapv (fun k' v => if eqb k k' then w else f k' v) d.
Proof.
  intros Hn Hi. apply dict_ext.
  - rewrite dkeys_dset_in by (rewrite dkeys_mapv; assumption). rewrite !dkeys_mapv. reflexivity.
  - rewrite dkeys_dset_in by (rewrite dkeys_mapv; assumption). rewrite dkeys_mapv. assumption.
  - intros k'. rewrite dget_dset, !dget_mapv. destruct (eqb_spec k k') as [->|Hne].
    + destruct (eq_dec k' k'); [|congruence]. apply dget_exists in Hi as [v ->]. reflexivity.
    + eqd; [congruence|reflexivity].
Qed.
Lemma mapv_id {K V} (d : dict K V) : mapv (fun _ v => v) d = d.
Proof. unfold mapv. rewrite <- (map_id d) at 2. apply map_ext. intros [k v]; reflexivity. Qed.
Lemma ddel_filter {K V} {E : EqDec K} (d : dict K V) k : NoDup (dkeys d) ->
  ddel d k = filter (fun p => negb (eqb k (fst p))) d.
Proof.
  unfold dkeys. induction d as [|[k' v] t IH]; simpl; [reflexivity|]. intros H. inversion H as [|? ? Hn1 Hn2]; subst.
  unfold eqb at 1. eqd; simpl; [|f_equal; auto]. subst. symmetry. rewrite (proj2 (forallb_filter_id (fun p => negb (eqb k' (fst p))) t)) || idtac.
  clear -Hn1. induction t as [|[k v1] t IH]; simpl in *; [reflexivity|]. destruct (eqb_spec k' k); simpl.
  - subst; exfalso; auto.
  - f_equal. auto.
Qed.
Lemma filter_filter {A} (f h : A -> bool) l : filter f (filter h l) = filter (fun x => h x && f x) l.
Proof. induction l as [|x t IH]; simpl; [reflexivity|]. destruct (h x); simpl; [destruct (f x)|]; congruence. Qed.
Lemma filter_true {A} (f : A -> bool) l : (forall x, In x l -> f x = true) -> filter f l = l.
Proof.
  induction l as [|x t IH]; simpl; intros H; [reflexivity|]. rewrite H by auto. f_equal. auto.
Qed.
Lemma dkeys_filter {K V} (f : K -> bool) (d : dict K V) : dkeys (filter (fun p => f (fst p)) d) = filter f (dkeys d).
Proof. unfold dkeys. induction d as [|[k v] t IH]; simpl; [reflexivity|]. destruct (f k); simpl; congruence. Qed.
Lemma dmem_filter {K V} {E : EqDec K} (f : K -> bool) (d : dict K V) k :
  dmem (filter (fun p => f (fst p)) d) k = f k && dmem d k.
Proof.
  destruct (dmem_spec (filter (fun p => f (fst p)) d) k) as [H|H]; rewrite dkeys_filter, filter_In in H.
  - destruct H as [H ->]. apply dmem_In in H. rewrite H. reflexivity.
  - destruct (dmem_spec d k); destruct (f k); simpl; try reflexivity. tauto.
Qed.
Lemma dget_filter {K V} {E : EqDec K} (f : K -> bool) (d : dict K V) k : NoDup (dkeys d) ->
  dget (filter (fun p => f (fst p)) d) k = if f k then dget d k else None.
Proof.
  intros Hn. induction d as [|[k' v] t IH]; simpl; [destruct (f k); reflexivity|].
  unfold dkeys in Hn; simpl in Hn; inversion Hn as [|? ? Hn1 Hn2]; subst. specialize (IH Hn2).
  destruct (f k') eqn:Hf; simpl.
  - eqd; [subst; rewrite Hf; reflexivity|assumption].
  - eqd; [|assumption]. subst. rewrite Hf in *. assumption.
Qed.
Lemma rem1_filter n (l : list name) : NoDup l -> rem1 n l = filter (fun x => negb (eqb n x)) l.
Proof.
  unfold rem1. induction l as [|y t IH]; simpl; [reflexivity|]. intros H. inversion H as [|? ? Hn1 Hn2]; subst.
  specialize (IH Hn2). destruct (eqb_spec n y) as [->|Hne]; simpl.
  - destruct (eq_dec y y); [|congruence]. symmetry. apply filter_true. intros x Hx. apply negb_true_iff, eqb_false. intros ->; tauto.
  - destruct (eq_dec n y); [congruence|]. destruct (lremove n t); f_equal; assumption.
Qed.

Lemma filter_mapv {K V W} (f : K -> bool) (h : K -> V -> W) (d : dict K V) :
  filter (fun p => f (fst p)) (mapv h d) = mapv h (filter (fun p => f (fst p)) d).
Proof. unfold mapv. induction d as [|[k v] t IH]; simpl; [reflexivity|]. destruct (f k); simpl; congruence. Qed.

Definition not_n (n : name) (x : name) : bool := negb (eqb n x).
Definition p_del_node (g : graph) (n : name) : graph :=
  mkGraph (g_type g) (g_attr g)
    (mapv (fun _ => filter (not_n n)) (filter (fun p => not_n n (fst p)) (g_nbrs g)))
    (mapv (fun _ => filter (not_n n)) (filter (fun p => not_n n (fst p)) (g_in g)))
    (filter (fun p => not_n n (fst p)) (g_nodes g))
    (filter (fun p => not_n n (fst (fst p)) && not_n n (snd (fst p))) (g_edges g))
    (g_cluster g) (g_ncomp g).

(* live iteration over a list that the body does not change *)
Lemma ok_live_for get body l (I : list name -> graph -> Prop) (Q : graph -> Prop) fuel g :
  length l < fuel -> I [] g ->
  (forall pre h, I pre h -> get h = l) ->
  (forall pre x post h, l = pre ++ x :: post -> I pre h -> ok (body x) h (fun _ h' => I (pre ++ [x]) h')) ->
  (forall h, I l h -> Q h) ->
  ok (live_for fuel 0 get body) g (fun _ h => Q h).
Proof.
  intros Hf H0 Hg Hs Hq.
  assert (G : forall post pre h fuel, l = pre ++ post -> I pre h -> length post < fuel ->
     ok (live_for fuel (length pre) get body) h (fun _ h => I l h)).
  { clear g fuel Hf H0. induction post as [|x post IH]; intros pre h [|fuel] Hl Hi Hf; try (simpl in Hf; lia); simpl.
    - apply ok_bind, ok_gets. rewrite (Hg _ _ Hi). rewrite app_nil_r in Hl. subst pre.
      rewrite (proj2 (nth_error_None l (length l))) by lia. apply ok_ret. assumption.
    - apply ok_bind, ok_gets. rewrite (Hg _ _ Hi). rewrite Hl at 1. rewrite nth_error_app2, Nat.sub_diag by lia. simpl.
      apply ok_bind. eapply ok_weaken; [eapply Hs; eassumption|]. intros a0 h' Hi'. cbn beta in Hi'.
      replace (S (length pre)) with (length (pre ++ [x])) by (rewrite app_length; simpl; lia).
      apply IH; [rewrite <- app_assoc; assumption|assumption|simpl in Hf; lia]. }
  eapply ok_weaken; [apply (G l [] g fuel); auto|]. auto.
Qed.

Lemma ok_edge_del e g (Q : unit -> graph -> Prop) : dmem (g_edges g) e = true ->
  Q tt (with_edges g (ddel (g_edges g) e)) -> ok (edge_del e) g Q.
Proof. intros H HQ. exists tt, (with_edges g (ddel (g_edges g) e)). unfold edge_del. rewrite H. auto. Qed.
Lemma ok_in_remove m n g (Q : unit -> graph -> Prop) : g_type g = Directed -> In n (list_at (g_in g) m) ->
  Q tt (with_in g (dset (g_in g) m (rem1 n (list_at (g_in g) m)))) -> ok (in_remove m n) g Q.
Proof.
  intros Ht Hi HQ. eexists _, _. split; [|exact HQ]. unfold in_remove, in_list, in_dict, bind, lift, modify. rewrite Ht.
  rewrite dget_list_at by (eapply list_at_In; eassumption). simpl. rewrite lremove_rem1 by assumption. reflexivity.
Qed.
Lemma ok_nbr_remove m n g (Q : unit -> graph -> Prop) : In n (list_at (g_nbrs g) m) ->
  Q tt (with_nbrs g (dset (g_nbrs g) m (rem1 n (list_at (g_nbrs g) m)))) -> ok (nbr_remove m n) g Q.
Proof.
  intros Hi HQ. eexists _, _. split; [|exact HQ]. unfold nbr_remove, nbr_list, bind, lift, modify.
  rewrite dget_list_at by (eapply list_at_In; eassumption). simpl. rewrite lremove_rem1 by assumption. reflexivity.
Qed.
Lemma list_at_mapv (f : name -> list name -> list name) d k : In k (dkeys d) -> list_at (mapv f d) k = f k (list_at d k).
Proof. intros H. unfold list_at. rewrite dget_mapv. apply dget_exists in H as [l ->]. reflexivity. Qed.
Lemma In_list_at (d : dict name (list name)) k l : NoDup (dkeys d) -> In (k, l) d -> list_at d k = l.
Proof. intros Hn H. unfold list_at. rewrite (In_dget Hn H). reflexivity. Qed.

Local Arguments live_for : simpl never.
Section DelNode.
  Variables (g : graph) (n : name).
  Hypothesis W : wf g.
  Hypothesis Ht : g_type g = Directed.
  Hypothesis Hn : In n (dkeys (g_nbrs g)).

  Lemma wf_NoDup_nbrs x : NoDup (list_at (g_nbrs g) x).
  Proof. apply NoDup_count. intros y. rewrite (wf_nbrs W). unfold nb_count. rewrite Ht. apply b2n_le1. Qed.
  Lemma wf_NoDup_in x : NoDup (list_at (g_in g) x).
  Proof. apply NoDup_count. intros y. rewrite (wf_ins W), Ht. apply b2n_le1. Qed.
  Lemma wf_nbrs_In x y : In y (list_at (g_nbrs g) x) <-> In (x, y) (dkeys (g_edges g)).
  Proof.
    rewrite (count_occ_In eq_dec). rewrite (wf_nbrs W). unfold nb_count. rewrite Ht.
    rewrite <- dmem_In. destruct (dmem (g_edges g) (x, y)); simpl; split; intros; try lia; congruence.
  Qed.
  Lemma wf_in_In x y : In y (list_at (g_in g) x) <-> In (y, x) (dkeys (g_edges g)).
  Proof.
    rewrite (count_occ_In eq_dec). rewrite (wf_ins W), Ht.
    rewrite <- dmem_In. destruct (dmem (g_edges g) (y, x)); simpl; split; intros; try lia; congruence.
  Qed.
  Lemma wf_in_keys : dkeys (g_in g) = dkeys (g_nbrs g).
  Proof. rewrite (wf_in W), Ht. reflexivity. Qed.

  Let st1 (pre : list name) : graph :=
    mkGraph (g_type g) (g_attr g) (g_nbrs g)
      (mapv (fun k l => if mem k pre then filter (not_n n) l else l) (g_in g)) (g_nodes g)
      (filter (fun p => negb (eqb n (fst (fst p)) && mem (snd (fst p)) pre)) (g_edges g)) (g_cluster g) (g_ncomp g).
  Let In1 := mapv (fun _ => filter (not_n n)) (g_in g).
  Let st2 (pre : list name) : graph :=
    mkGraph (g_type g) (g_attr g) (mapv (fun k l => if mem k pre then filter (not_n n) l else l) (g_nbrs g))
      In1 (g_nodes g)
      (filter (fun p => not_n n (fst (fst p)) && negb (eqb n (snd (fst p)) && mem (fst (fst p)) pre)) (g_edges g)) (g_cluster g) (g_ncomp g).

  Lemma st1_step pre x post : list_at (g_nbrs g) n = pre ++ x :: post ->
    ok (edge_del (n, x) ;; t <- gets g_type ;; match t with Undirected => nbr_remove x n | Directed => in_remove x n end)
       (st1 pre) (fun _ h' => h' = st1 (pre ++ [x])).
  Proof.
    intros Hl.
    assert (Hx : ~ In x pre).
    { pose proof (wf_NoDup_nbrs n) as H. rewrite Hl in H. apply NoDup_remove_2 in H. rewrite in_app_iff in H. tauto. }
    assert (Hxn : In x (list_at (g_nbrs g) n)) by (rewrite Hl; apply in_elt).
    assert (Hxe : In (n, x) (dkeys (g_edges g))) by (apply wf_nbrs_In; assumption).
    assert (Hxk : In x (dkeys (g_in g))) by (rewrite wf_in_keys; eapply wf_edge_r; eassumption).
    apply ok_bind, ok_edge_del.
    { simpl. rewrite (dmem_filter (fun e => negb (eqb n (fst e) && mem (snd e) pre))). simpl.
      apply mem_nIn in Hx. rewrite Hx, andb_false_r. apply dmem_In. assumption. }
    apply ok_bind, ok_gets. simpl. rewrite Ht. apply ok_in_remove.
    - assumption.
    - simpl. rewrite list_at_mapv by assumption. apply mem_nIn in Hx. rewrite Hx. apply wf_in_In. assumption.
    - simpl. unfold with_in, with_edges, st1; simpl. f_equal.
      + rewrite dset_mapv; [|rewrite wf_in_keys; apply (wf_nd W)|assumption]. apply mapv_ext. intros k l Hkl.
        rewrite mem_app. simpl. unfold eqb. destruct (eq_dec x k) as [->|Hk].
        * rewrite list_at_mapv by assumption. apply mem_nIn in Hx. rewrite Hx. simpl. destruct (eq_dec k k); [|congruence].
          rewrite rem1_filter by apply wf_NoDup_in. f_equal. apply In_list_at; [rewrite wf_in_keys; apply (wf_nd W)|assumption].
        * destruct (eq_dec k x); [congruence|]. rewrite orb_false_r. reflexivity.
      + rewrite ddel_filter. 2:{ rewrite (dkeys_filter (fun e => negb (eqb n (fst e) && mem (snd e) pre))). apply NoDup_filter, (wf_ne W). }
        rewrite filter_filter. apply filter_ext. intros [[a b] d]. simpl. rewrite eqb_pair, mem_app. simpl. unfold eqb.
        destruct (eq_dec n a); simpl; [|reflexivity]. destruct (eq_dec b x) as [->|Hb].
        * destruct (eq_dec x x); [|congruence]. rewrite orb_true_r, andb_false_r. reflexivity.
        * destruct (eq_dec x b); [congruence|]. rewrite orb_false_r. simpl. rewrite andb_true_r. reflexivity.
  Qed.

  Lemma st1_end : st1 (list_at (g_nbrs g) n) = st2 [].
  Proof.
    unfold st1, st2. f_equal.
    - simpl. symmetry. apply mapv_id.
    - apply mapv_ext. intros k l Hkl. destruct (mem_spec k (list_at (g_nbrs g) n)) as [Hm|Hm]; [reflexivity|].
      symmetry. apply filter_true. intros x Hx. unfold not_n. apply negb_true_iff, eqb_false. intros ->.
      apply Hm. apply wf_nbrs_In. apply wf_in_In.
      rewrite (In_list_at (d := g_in g)) with (l := l); [assumption|rewrite wf_in_keys; apply (wf_nd W)|assumption].
    - apply filter_ext_in. intros [[a b] d] Hi. simpl. rewrite andb_false_r, andb_true_r. unfold not_n.
      destruct (eqb_spec n a) as [->|Hna]; [|reflexivity]. simpl.
      destruct (mem_spec b (list_at (g_nbrs g) a)) as [Hm|Hm]; [reflexivity|]. exfalso. apply Hm. apply wf_nbrs_In.
      apply in_map_iff. exists (a, b, d). auto.
  Qed.

  Lemma in1_n : list_at In1 n = filter (not_n n) (list_at (g_in g) n).
  Proof. unfold In1. rewrite list_at_mapv; [reflexivity|]. rewrite wf_in_keys. assumption. Qed.

  Lemma st2_step pre x post : list_at In1 n = pre ++ x :: post ->
    ok (edge_del (x, n) ;; nbr_remove x n) (st2 pre) (fun _ h' => h' = st2 (pre ++ [x])).
  Proof.
    intros Hl. rewrite in1_n in Hl.
    assert (Hx : ~ In x pre).
    { assert (H : NoDup (filter (not_n n) (list_at (g_in g) n))) by (apply NoDup_filter, wf_NoDup_in).
      rewrite Hl in H. apply NoDup_remove_2 in H. rewrite in_app_iff in H. tauto. }
    assert (Hxn : In x (filter (not_n n) (list_at (g_in g) n))) by (rewrite Hl; apply in_elt).
    apply filter_In in Hxn as [Hxn Hxn']. unfold not_n in Hxn'. apply negb_true_iff, eqb_false in Hxn'.
    assert (Hxe : In (x, n) (dkeys (g_edges g))) by (apply wf_in_In; assumption).
    assert (Hxk : In x (dkeys (g_nbrs g))) by (eapply wf_edge_l; eassumption).
    apply ok_bind, ok_edge_del.
    { simpl. rewrite (dmem_filter (fun e => not_n n (fst e) && negb (eqb n (snd e) && mem (fst e) pre))). simpl.
      apply mem_nIn in Hx. rewrite Hx, andb_false_r. simpl. apply andb_true_iff. split; [|apply dmem_In; assumption].
      unfold not_n. rewrite andb_true_r. apply negb_true_iff, eqb_false. assumption. }
    apply ok_nbr_remove.
    - simpl. rewrite list_at_mapv by assumption. apply mem_nIn in Hx. rewrite Hx. apply wf_nbrs_In. assumption.
    - simpl. unfold with_nbrs, with_edges, st2; simpl. f_equal.
      + rewrite dset_mapv; [|apply (wf_nd W)|assumption]. apply mapv_ext. intros k l Hkl.
        rewrite mem_app. simpl. unfold eqb. destruct (eq_dec x k) as [->|Hk].
        * rewrite list_at_mapv by assumption. apply mem_nIn in Hx. rewrite Hx. simpl. destruct (eq_dec k k); [|congruence].
          rewrite rem1_filter by apply wf_NoDup_nbrs. f_equal. apply In_list_at; [apply (wf_nd W)|assumption].
        * destruct (eq_dec k x); [congruence|]. rewrite orb_false_r. reflexivity.
      + rewrite ddel_filter. 2:{ rewrite (dkeys_filter (fun e => not_n n (fst e) && negb (eqb n (snd e) && mem (fst e) pre))). apply NoDup_filter, (wf_ne W). }
        rewrite filter_filter. apply filter_ext. intros [[a b] d]. simpl. rewrite eqb_pair, mem_app. simpl.
        unfold not_n, eqb.
        destruct (eq_dec n b); simpl; [|rewrite ?andb_true_r, ?andb_false_r; simpl; rewrite andb_true_r; reflexivity].
        destruct (eq_dec a x) as [->|Hb].
        * destruct (eq_dec x x); [|congruence]. rewrite orb_true_r. simpl. rewrite !andb_false_r. reflexivity.
        * destruct (eq_dec x a); [congruence|]. rewrite orb_false_r. simpl. rewrite andb_true_r. reflexivity.
  Qed.

  Lemma p_del_node_eq : del_node n g = (p_del_node g n, Ok tt).
  Proof.
    apply (proj1 (ok_eq (del_node n) g (p_del_node g n) tt)).
    assert (Hm : dmem (g_nbrs g) n = true) by (apply dmem_In; assumption).
    assert (G : ok (live_for (S (length (list_at (g_nbrs g) n))) 0 (fun g => list_at (g_nbrs g) n)
       (fun m => edge_del (n, m) ;;
                 t <- gets g_type ;;
                 match t with Undirected => nbr_remove m n | Directed => in_remove m n end) ;;
     t <- gets g_type ;;
     match t with
     | Directed =>
       l <- in_list n ;;
       live_for (S (length l)) 0 (fun g => list_at (g_in g) n)
         (fun m => edge_del (m, n) ;; nbr_remove m n)
     | Undirected => ret tt
     end ;;
     modify (fun g => with_nbrs g (ddel (g_nbrs g) n)) ;;
     d <- in_dict ;;
     (if dmem d n then modify (fun g => with_in g (ddel (g_in g) n)) else fail KeyError) ;;
     nd <- gets g_nodes ;;
     (if dmem nd n then modify (fun g => with_nodes g (ddel (g_nodes g) n)) else fail KeyError)) g
     (fun b t => b = tt /\ t = p_del_node g n)).
    { apply ok_bind. eapply ok_weaken.
      { apply ok_live_for with (l := list_at (g_nbrs g) n) (I := fun pre h => h = st1 pre) (Q := fun h => h = st2 []).
        - lia.
        - unfold st1; simpl. rewrite filter_true.
          + rewrite mapv_id. destruct g; reflexivity.
          + intros x _. rewrite andb_false_r. reflexivity.
        - intros pre h ->. reflexivity.
        - intros pre x post h Hl ->. apply st1_step with post. assumption.
        - intros h ->. apply st1_end. }
      intros a0 h Hh; cbn beta in Hh; subst h. apply ok_bind, ok_gets. simpl. rewrite Ht.
      apply ok_bind. eapply ok_weaken.
      { apply ok_bind. exists (list_at In1 n), (st2 []). split.
        { unfold in_list, in_dict, bind, lift. simpl. rewrite Ht. rewrite dget_list_at; [reflexivity|].
          unfold In1. rewrite dkeys_mapv, wf_in_keys. assumption. }
        apply ok_live_for with (l := list_at In1 n) (I := fun pre h => h = st2 pre) (Q := fun h => h = st2 (list_at In1 n)).
        - lia.
        - reflexivity.
        - intros pre h ->. reflexivity.
        - intros pre x post h Hl ->. apply st2_step with post. assumption.
        - intros h ->. reflexivity. }
      intros a1 h Hh; cbn beta in Hh; subst h. apply ok_bind, ok_modify. apply ok_bind.
      exists In1, (with_nbrs (st2 (list_at In1 n)) (ddel (g_nbrs (st2 (list_at In1 n))) n)). split.
      { unfold in_dict. simpl. rewrite Ht. reflexivity. }
      assert (HI : dmem In1 n = true) by (apply dmem_In; unfold In1; rewrite dkeys_mapv, wf_in_keys; assumption).
      rewrite HI. apply ok_bind, ok_modify. apply ok_bind, ok_gets. simpl.
      assert (HN : dmem (g_nodes g) n = true) by (apply dmem_In; rewrite (wf_nodes W); assumption).
      rewrite HN. apply ok_modify. split; [reflexivity|].
      unfold with_nodes, with_in, with_nbrs, p_del_node; simpl. f_equal.
      - rewrite ddel_filter by (rewrite dkeys_mapv; apply (wf_nd W)). rewrite in1_n.
        rewrite (filter_mapv (fun x => negb (eqb n x))). apply mapv_ext. intros k l Hkl. apply filter_In in Hkl as [Hkl Hk]. simpl in Hk.
        destruct (mem_spec k (filter (not_n n) (list_at (g_in g) n))) as [Hk'|Hk']; [reflexivity|].
        symmetry. apply filter_true. intros x Hx. unfold not_n. apply negb_true_iff, eqb_false. intros ->.
        apply Hk'. apply filter_In. split; [|assumption]. apply wf_in_In. apply wf_nbrs_In.
        rewrite (In_list_at (d := g_nbrs g)) with (l := l); [assumption|apply (wf_nd W)|assumption].
      - unfold In1. rewrite ddel_filter by (rewrite dkeys_mapv, wf_in_keys; apply (wf_nd W)).
        apply (filter_mapv (not_n n)).
      - apply ddel_filter. rewrite (wf_nodes W). apply (wf_nd W).
      - apply filter_ext_in. intros [[a b] d] Hi. simpl. rewrite in1_n.
        destruct (not_n n a) eqn:Ha; [|reflexivity]. simpl. unfold not_n at 2.
        destruct (eqb_spec n b) as [Hb|Hb]; [|reflexivity]. subst b. simpl.
        destruct (mem_spec a (filter (not_n n) (list_at (g_in g) n))) as [Hk'|Hk']; [reflexivity|].
        exfalso. apply Hk'. apply filter_In. split; [|assumption]. apply wf_in_In.
        apply in_map_iff. exists (a, n, d). auto. }
    unfold del_node. exists tt, (p_del_node g n). split; [|auto].
    rewrite Hm. apply ok_eq in G. exact G.
  Qed.
End DelNode.

Lemma count_occ_filter {A} {E : EqDec A} (f : A -> bool) l x :
  count_occ eq_dec (filter f l) x = if f x then count_occ eq_dec l x else 0.
Proof.
  induction l as [|y t IH]; simpl; [destruct (f x); reflexivity|].
  destruct (f y) eqn:Hy; simpl.
  - destruct (eq_dec y x) as [->|Hn]; [rewrite Hy in *; rewrite IH; reflexivity|assumption].
  - destruct (eq_dec y x) as [->|Hn]; [rewrite Hy in *; assumption|assumption].
Qed.

Lemma wf_p_del_node g n : wf g -> g_type g = Directed -> wf (p_del_node g n).
Proof.
  intros W Ht. pose proof (wf_in_keys W Ht) as Hik.
  assert (Hla : forall d x, NoDup (dkeys d) -> list_at (mapv (fun _ => filter (not_n n)) (filter (fun p => not_n n (fst p)) d)) x =
     if not_n n x then filter (not_n n) (list_at d x) else []).
  { intros d x Hd. unfold list_at. rewrite dget_mapv, dget_filter by assumption. destruct (not_n n x); [|reflexivity].
    destruct (dget d x); reflexivity. }
  constructor; simpl; rewrite ?dkeys_mapv, ?(dkeys_filter (not_n n)), ?Ht.
  - rewrite (wf_nodes W). reflexivity.
  - congruence.
  - apply NoDup_filter, (wf_nd W).
  - rewrite (dkeys_filter (fun e => not_n n (fst e) && not_n n (snd e))). apply NoDup_filter, (wf_ne W).
  - intros x y. unfold nb_count; simpl. rewrite Ht. rewrite Hla by apply (wf_nd W).
    rewrite (dmem_filter (fun e => not_n n (fst e) && not_n n (snd e))). simpl.
    destruct (not_n n x); simpl; [|reflexivity]. rewrite count_occ_filter.
    destruct (not_n n y); simpl; [|reflexivity]. rewrite (wf_nbrs W). unfold nb_count. rewrite Ht. reflexivity.
  - intros x y. rewrite Hla by (rewrite Hik; apply (wf_nd W)).
    rewrite (dmem_filter (fun e => not_n n (fst e) && not_n n (snd e))). simpl.
    destruct (not_n n x); simpl; [|rewrite andb_false_r; reflexivity]. rewrite count_occ_filter, andb_true_r.
    destruct (not_n n y); simpl; [|reflexivity]. rewrite (wf_ins W), Ht. reflexivity.
  - discriminate.
Qed.

Lemma del_node_missing g n : ~ In n (get_node_list g) -> del_node n g = (g, Err (PyException "Node does not exist!")).
Proof. intros H. unfold del_node. apply dmem_nIn in H. rewrite H. reflexivity. Qed.
Lemma del_node_wf g n : wf g -> g_type g = Directed -> wf (fst (del_node n g)).
Proof.
  intros W Ht. destruct (in_dec eq_dec n (get_node_list g)) as [H|H].
  - rewrite p_del_node_eq by assumption. apply wf_p_del_node; assumption.
  - rewrite del_node_missing by assumption. assumption.
Qed.

(** del_node on an undirected graph always raises *)
Lemma live_for_fuel get body fuel i g :
  (forall x h h' e, body x h = (h', Err e) -> e <> OutOfFuel) ->
  (forall x h h', body x h = (h', Ok tt) -> length (get h') <= length (get h) /\ g_type h' = g_type h) ->
  length (get g) < i + fuel -> 0 < fuel ->
  match live_for fuel i get body g with
  | (h, Ok _) => g_type h = g_type g
  | (h, Err e) => e <> OutOfFuel
  end.
Proof.
  intros He Hs. revert i g. induction fuel as [|fuel IH]; intros i g Hf Hp; [lia|].
  unfold live_for; fold live_for. unfold bind at 1, gets. destruct (nth_error (get g) i) as [x|] eqn:Hx; [|reflexivity].
  assert (Hi : i < length (get g)) by (apply nth_error_Some; congruence).
  unfold bind. destruct (body x g) as [h [[]|e]] eqn:Hb.
  - destruct (Hs _ _ _ Hb) as [Hl Hty]. specialize (IH (S i) h ltac:(lia) ltac:(lia)).
    destruct (live_for fuel (S i) get body h) as [h' [?|?]]; congruence.
  - eapply He; eassumption.
Qed.

Lemma del_node_undirected g n : g_type g = Undirected ->
  exists g' e, del_node n g = (g', Err e) /\ e <> OutOfFuel.
Proof.
  intros Ht. unfold del_node. destruct (negb (dmem (g_nbrs g) n)); [eexists _, _; split; [reflexivity|discriminate]|].
  match goal with |- context [live_for ?f ?i ?get ?body] =>
    pose proof (@live_for_fuel get body f i g) as L end.
  unfold bind at 1. match type of L with _ -> _ -> _ -> _ -> match ?X with _ => _ end => destruct X as [h [[]|e]] end.
  - assert (Hh : g_type h = g_type g).
    { apply L; [..|lia].
      - intros x k k' e. unfold bind, edge_del, gets, nbr_remove, in_remove, in_list, in_dict, nbr_list, lift, modify, ret, fail, bind.
        destruct (dmem (g_edges k) (n, x)); [|congruence]. simpl.
        destruct (g_type k) eqn:Htk; simpl.
        + rewrite Htk. destruct (dget (g_in k) x) as [l|]; [|congruence]. destruct (lremove n l); congruence.
        + destruct (dget (g_nbrs k) x) as [l|]; [|congruence]. destruct (lremove n l); congruence.
      - intros x k k'. unfold bind, edge_del, gets, nbr_remove, in_remove, in_list, in_dict, nbr_list, lift, modify, ret, fail, bind.
        destruct (dmem (g_edges k) (n, x)); [|congruence]. simpl.
        destruct (g_type k) eqn:Htk; simpl.
        + rewrite Htk. destruct (dget (g_in k) x) as [l|]; [|congruence]. destruct (lremove n l); [|congruence].
          intros [= <-]. simpl. auto.
        + destruct (dget (g_nbrs k) x) as [l|] eqn:Hl; [|congruence]. destruct (lremove n l) as [l'|] eqn:Hr; [|congruence].
          intros [= <-]. simpl. split; [|assumption]. rewrite list_at_dset. destruct (eq_dec x n) as [->|Hne]; [|lia].
          unfold list_at. rewrite Hl. apply lremove_length in Hr. lia.
      - lia. }
    rewrite Ht in Hh. unfold bind, gets, ret, modify, in_dict. rewrite Hh. simpl. rewrite Hh.
    eexists _, _; split; [reflexivity|discriminate].
  - eexists _, _; split; [reflexivity|].
    apply L; [..|lia].
    + intros x k k' e'. unfold bind, edge_del, gets, nbr_remove, in_remove, in_list, in_dict, nbr_list, lift, modify, ret, fail, bind.
      destruct (dmem (g_edges k) (n, x)); [|congruence]. simpl.
      destruct (g_type k) eqn:Htk; simpl.
      * rewrite Htk. destruct (dget (g_in k) x) as [l|]; [|congruence]. destruct (lremove n l); congruence.
      * destruct (dget (g_nbrs k) x) as [l|]; [|congruence]. destruct (lremove n l); congruence.
    + intros x k k'. unfold bind, edge_del, gets, nbr_remove, in_remove, in_list, in_dict, nbr_list, lift, modify, ret, fail, bind.
      destruct (dmem (g_edges k) (n, x)); [|congruence]. simpl.
      destruct (g_type k) eqn:Htk; simpl.
      * rewrite Htk. destruct (dget (g_in k) x) as [l|]; [|congruence]. destruct (lremove n l); [|congruence].
        intros [= <-]. simpl. auto.
      * destruct (dget (g_nbrs k) x) as [l|] eqn:Hl; [|congruence]. destruct (lremove n l) as [l'|] eqn:Hr; [|congruence].
        intros [= <-]. simpl. split; [|assumption]. rewrite list_at_dset. destruct (eq_dec x n) as [->|Hne]; [|lia].
        unfold list_at. rewrite Hl. apply lremove_length in Hr. lia.
    + lia.
Qed.

(** ** histories *)
Definition is_del_node (o : op) : bool := match o with ODelNode _ => true | _ => false end.

Lemma wf_new ty kw : wf (new_graph ty kw).
Proof.
  constructor; simpl; auto using NoDup_nil.
  - destruct (match ty with Some t => t | None => Undirected end); reflexivity.
  - intros n m. unfold nb_count; simpl. destruct (match ty with Some t => t | None => Undirected end); reflexivity.
  - intros n m. destruct (match ty with Some t => t | None => Undirected end); reflexivity.
Qed.
Lemma g_type_add_node g n a : g_type (fst (add_node n a g)) = g_type g.
Proof. unfold add_node. destruct (dmem (g_nbrs g) n); [reflexivity|]. destruct g as [[] ? ? ? ? ? ? ?]; reflexivity. Qed.
Lemma g_type_link g n m a : g_type (link g n m a) = g_type g.
Proof. unfold link. destruct (g_type g) eqn:H; simpl; rewrite ?H; reflexivity. Qed.
Lemma g_type_exec o g : wf g -> (g_type g = Undirected -> is_del_node o = false) ->
  g_type (fst (exec o g)) = g_type g.
Proof.
  intros W Hu. destruct o as [n a|n|n m a|n m|n a v|n m a v]; simpl.
  - apply g_type_add_node.
  - destruct (g_type g) eqn:Ht; [|discriminate Hu; reflexivity].
    destruct (in_dec eq_dec n (get_node_list g)) as [H|H].
    + rewrite p_del_node_eq by assumption. simpl. assumption.
    + rewrite del_node_missing by assumption. assumption.
  - destruct (check_edge g n m) eqn:Hc; [rewrite add_edge_dup by assumption; reflexivity|].
    rewrite add_edge_new by assumption. simpl. rewrite g_type_link, !g_type_ensure. reflexivity.
  - destruct (check_edge g n m) eqn:Hc; [rewrite del_edge_present by assumption|rewrite del_edge_missing by assumption; reflexivity].
    simpl. unfold p_del_edge. destruct (g_type g); reflexivity.
  - unfold set_node_attr. destruct (dget (g_nodes g) n); reflexivity.
  - unfold set_edge_attr. destruct (dget (g_edges g) (n, m)); [reflexivity|]. destruct (g_type g) eqn:Ht; [assumption|].
    destruct (dget (g_edges g) (m, n)); simpl; assumption.
Qed.
Lemma wf_exec o g : wf g -> (g_type g = Undirected -> is_del_node o = false) -> wf (fst (exec o g)).
Proof.
  intros W Hu. destruct o; simpl.
  - apply add_node_wf; assumption.
  - destruct (g_type g) eqn:Ht; [apply del_node_wf; assumption|]. discriminate Hu; reflexivity.
  - apply add_edge_wf; assumption.
  - apply del_edge_wf; assumption.
  - apply set_node_attr_wf; assumption.
  - apply set_edge_attr_wf; assumption.
Qed.
Lemma wf_history os g : wf g -> (g_type g = Undirected -> forallb (fun o => negb (is_del_node o)) os = true) ->
  wf (history g os) /\ g_type (history g os) = g_type g.
Proof.
  unfold history. revert g. induction os as [|o os IH]; intros g W Hu; simpl; [auto|].
  assert (Ho : g_type g = Undirected -> is_del_node o = false).
  { intros Ht. specialize (Hu Ht). simpl in Hu. apply andb_true_iff in Hu as [Hu _]. apply negb_true_iff in Hu. assumption. }
  destruct (IH (fst (exec o g))) as [H1 H2].
  - apply wf_exec; assumption.
  - rewrite g_type_exec by assumption. intros Ht. specialize (Hu Ht). simpl in Hu. apply andb_true_iff in Hu. tauto.
  - split; [assumption|]. rewrite H2. apply g_type_exec; assumption.
Qed.

(** ** observers *)
Lemma obs_neighbors g n : obs (get_neighbors n) g = match dget (g_nbrs g) n with Some l => Ok l | None => Err KeyError end.
Proof. reflexivity. Qed.
Lemma obs_neighbors_in g n : In n (get_node_list g) -> obs (get_neighbors n) g = Ok (list_at (g_nbrs g) n).
Proof. intros H. rewrite obs_neighbors, dget_list_at by assumption. reflexivity. Qed.
Lemma obs_in_neighbors g n : g_type g = Directed ->
  obs (get_in_neighbors n) g = match dget (g_in g) n with Some l => Ok l | None => Err KeyError end.
Proof.
  intros Ht. unfold obs, get_in_neighbors, in_list, in_dict, bind, lift. rewrite Ht. destruct (dget (g_in g) n); reflexivity.
Qed.
Lemma obs_in_neighbors_in g n : wf g -> g_type g = Directed -> In n (get_node_list g) ->
  obs (get_in_neighbors n) g = Ok (list_at (g_in g) n).
Proof.
  intros W Ht H. rewrite obs_in_neighbors by assumption. rewrite dget_list_at; [reflexivity|]. rewrite (wf_in_keys W Ht). assumption.
Qed.
