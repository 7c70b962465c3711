(* Handshake lemmas for the degree methods. *)
From Verif Require Import Py Util M_Graph M_Metrics P_Graph P_GraphLaws.
Set Implicit Arguments.
Unset Strict Implicit.

Lemma degree_loop_eq g (deg : name -> M graph nat) (f : name -> nat) :
  NoDup (get_node_list g) ->
  (forall n, In n (get_node_list g) -> deg n g = (g, Ok (f n))) ->
  degree_loop deg g = (g, Ok (map (fun n => (n, f n)) (get_node_list g))).
Proof.
  intros Hn Hd. unfold degree_loop, bind, gets.
  apply (proj1 (ok_eq (foldM _ (get_node_list g) []) g g _)).
  apply ok_foldM with (I := fun pre d h => h = g /\ d = map (fun n => (n, f n)) pre).
  - auto.
  - intros pre n post d h Hl [-> ->]. apply ok_bind. exists (f n), g. split.
    + apply Hd. rewrite Hl. apply in_elt.
    + apply ok_ret. split; [reflexivity|]. rewrite dkeys_dset_nin, map_app; [reflexivity|].
      unfold dkeys. rewrite map_map. simpl. rewrite map_id. rewrite Hl in Hn. apply NoDup_remove_2 in Hn.
      rewrite in_app_iff in Hn. tauto.
  - intros d h [-> ->]. auto.
Qed.

Section Sums.
  Variable g : graph.
  Hypothesis W : wf g.
  Let N := get_node_list g.
  Let E := get_edge_list g.
  Let chi (n m : name) : Z := if mem (n, m) E then 1%Z else 0%Z.

  Lemma chi_total : zsum (fun n => zsum (fun m => chi n m) N) N = Z.of_nat (length E).
  Proof.
    rewrite <- (zsum_prod (fun p => chi (fst p) (snd p))).
    transitivity (zsum (fun _ => 1%Z) E); [|rewrite zsum_const; lia].
    transitivity (zsum (fun _ => 1%Z) (filter (fun p => mem p E) (list_prod N N))).
    - rewrite zsum_filter. apply zsum_ext. intros [a b] _. reflexivity.
    - apply zsum_perm. apply NoDup_Permutation.
      + apply NoDup_filter, NoDup_list_prod; apply (wf_nd W).
      + apply (wf_ne W).
      + intros [a b]. rewrite filter_In, in_prod_iff, mem_In. split; [tauto|]. intros H. split; [|assumption].
        split; [eapply wf_edge_l|eapply wf_edge_r]; eassumption.
  Qed.
  Lemma len_count (l : list name) : (forall x, In x l -> In x N) ->
    Z.of_nat (length l) = zsum (fun m => Z.of_nat (count_occ eq_dec l m)) N.
  Proof.
    intros H. transitivity (zsum (fun _ => 1%Z) l); [rewrite zsum_const; lia|].
    rewrite (zsum_count (fun _ => 1%Z) (u := N)) by (assumption || apply (wf_nd W)).
    apply zsum_ext. intros; lia.
  Qed.
  Lemma dmem_mem e : dmem (g_edges g) e = mem e E.
  Proof.
    destruct (dmem_spec (g_edges g) e) as [H|H], (mem_spec e E) as [H'|H']; try reflexivity; exfalso; tauto.
  Qed.

  Lemma out_sum : g_type g = Directed ->
    list_sum (map (fun n => length (list_at (g_nbrs g) n)) N) = length E.
  Proof.
    intros Ht. apply Nat2Z.inj. rewrite zsum_of_nat, <- chi_total. apply zsum_ext. intros n Hn.
    rewrite len_count.
    - apply zsum_ext. intros m _. rewrite (wf_nbrs W). unfold nb_count. rewrite Ht, dmem_mem. unfold chi. destruct (mem (n, m) E); reflexivity.
    - intros x Hx. apply (wf_nbrs_In W Ht) in Hx. eapply wf_edge_r; eassumption.
  Qed.
  Lemma in_sum : g_type g = Directed ->
    list_sum (map (fun n => length (list_at (g_in g) n)) N) = length E.
  Proof.
    intros Ht. apply Nat2Z.inj. rewrite zsum_of_nat, <- chi_total, zsum_swap. apply zsum_ext. intros n Hn.
    rewrite len_count.
    - apply zsum_ext. intros m _. rewrite (wf_ins W), Ht, dmem_mem. unfold chi. destruct (mem (m, n) E); reflexivity.
    - intros x Hx. apply (wf_in_In W Ht) in Hx. eapply wf_edge_l; eassumption.
  Qed.
  Lemma und_sum : g_type g = Undirected ->
    list_sum (map (fun n => length (list_at (g_nbrs g) n)) N) = 2 * length E.
  Proof.
    intros Ht. apply Nat2Z.inj. rewrite zsum_of_nat.
    transitivity (zsum (fun n => zsum (fun m => chi n m) N + zsum (fun m => chi m n) N)%Z N).
    - apply zsum_ext. intros n Hn. rewrite len_count.
      + rewrite <- zsum_add. apply zsum_ext. intros m _. rewrite (wf_nbrs W). unfold nb_count. rewrite Ht, !dmem_mem. unfold chi.
        destruct (mem (n, m) E), (mem (m, n) E); reflexivity.
      + intros x Hx. apply (nbr_check_edge W) in Hx. apply (check_edge_nodes W Hx).
    - rewrite zsum_add. rewrite (zsum_swap (fun n m => chi m n)). rewrite chi_total. lia.
  Qed.
End Sums.

Definition typed (g : graph) : Prop := dget (g_attr g) "type"%string = Some (VS (type_string (g_type g))).

Lemma attr_type_eq g : typed g -> attr_type g = (g, Ok (VS (type_string (g_type g)))).
Proof. intros H. unfold attr_type. rewrite H. reflexivity. Qed.

Lemma is_dir_type t : is_directed_val (VS (type_string t)) = match t with Directed => true | Undirected => false end.
Proof. destruct t; reflexivity. Qed.
Lemma map_snd_pairs {A B} (f : A -> B) l : map snd (map (fun n => (n, f n)) l) = map f l.
Proof. rewrite map_map. reflexivity. Qed.
Lemma dkeys_pairs {A B} (f : A -> B) l : dkeys (map (fun n => (n, f n)) l) = l.
Proof. unfold dkeys. rewrite map_map. apply map_id. Qed.

Lemma get_degrees_undirected g : wf g -> g_type g = Undirected -> typed g ->
  exists d, get_degrees g = (g, Ok (Some d)) /\ dkeys d = get_node_list g /\
    (forall n k, dget d n = Some k -> exists l, obs (get_neighbors n) g = Ok l /\ k = length l) /\
    list_sum (map snd d) = 2 * get_edge_num g.
Proof.
  intros W Ht Hty. set (f := fun n => length (list_at (g_nbrs g) n)).
  exists (map (fun n => (n, f n)) (get_node_list g)). split; [|split; [|split]].
  - unfold get_degrees. rewrite (bind_ok _ (attr_type_eq Hty)), is_dir_type, Ht. cbn [negb].
    erewrite bind_ok; [reflexivity|]. apply degree_loop_eq with (f := f).
    + apply (wf_nd W).
    + intros n Hn. unfold get_neighbors, nbr_list, bind. rewrite (dget_list_at Hn). reflexivity.
  - apply dkeys_pairs.
  - intros n k Hk. apply dget_In in Hk. apply in_map_iff in Hk as (x & [= <- <-] & Hi).
    exists (list_at (g_nbrs g) x). split; [apply obs_neighbors_in; assumption|reflexivity].
  - rewrite map_snd_pairs. unfold f. rewrite und_sum by assumption. unfold get_edge_num, get_edge_list, dkeys. rewrite map_length. reflexivity.
Qed.
Lemma get_degrees_directed g : wf g -> g_type g = Directed -> typed g -> get_degrees g = (g, Ok None).
Proof.
  intros W Ht Hty. set (f := fun n => length (list_at (g_in g) n) + length (list_at (g_nbrs g) n)).
  unfold get_degrees. rewrite (bind_ok _ (attr_type_eq Hty)), is_dir_type, Ht. cbn [negb].
  erewrite bind_ok; [reflexivity|]. apply degree_loop_eq with (f := f).
  - apply (wf_nd W).
  - intros n Hn. unfold get_in_neighbors, get_out_neighbors, in_list, in_dict, nbr_list, bind, lift, ret. rewrite Ht.
    rewrite dget_list_at by (rewrite (wf_in_keys W Ht); assumption). rewrite (dget_list_at Hn). reflexivity.
Qed.
Lemma get_out_degrees_directed g : wf g -> g_type g = Directed -> typed g ->
  exists d, get_out_degrees g = (g, Ok (Some d)) /\ dkeys d = get_node_list g /\
    (forall n k, dget d n = Some k -> exists l, obs (get_out_neighbors n) g = Ok l /\ k = length l) /\
    list_sum (map snd d) = get_edge_num g.
Proof.
  intros W Ht Hty. set (f := fun n => length (list_at (g_nbrs g) n)).
  exists (map (fun n => (n, f n)) (get_node_list g)). split; [|split; [|split]].
  - unfold get_out_degrees. rewrite (bind_ok _ (attr_type_eq Hty)), is_dir_type, Ht. cbn [negb].
    erewrite bind_ok; [reflexivity|]. apply degree_loop_eq with (f := f).
    + apply (wf_nd W).
    + intros n Hn. unfold get_out_neighbors, nbr_list, bind. rewrite (dget_list_at Hn). reflexivity.
  - apply dkeys_pairs.
  - intros n k Hk. apply dget_In in Hk. apply in_map_iff in Hk as (x & [= <- <-] & Hi).
    exists (list_at (g_nbrs g) x). split; [apply obs_neighbors_in; assumption|reflexivity].
  - rewrite map_snd_pairs. unfold f. rewrite out_sum by assumption. unfold get_edge_num, get_edge_list, dkeys. apply map_length.
Qed.
Lemma get_in_degrees_directed g : wf g -> g_type g = Directed -> typed g ->
  exists d, get_in_degrees g = (g, Ok (Some d)) /\ dkeys d = get_node_list g /\
    (forall n k, dget d n = Some k -> exists l, obs (get_in_neighbors n) g = Ok l /\ k = length l) /\
    list_sum (map snd d) = get_edge_num g.
Proof.
  intros W Ht Hty. set (f := fun n => length (list_at (g_in g) n)).
  exists (map (fun n => (n, f n)) (get_node_list g)). split; [|split; [|split]].
  - unfold get_in_degrees. rewrite (bind_ok _ (attr_type_eq Hty)), is_dir_type, Ht. cbn [negb].
    erewrite bind_ok; [reflexivity|]. apply degree_loop_eq with (f := f).
    + apply (wf_nd W).
    + intros n Hn. unfold get_in_neighbors, in_list, in_dict, bind, lift. rewrite Ht.
      rewrite dget_list_at by (rewrite (wf_in_keys W Ht); assumption). reflexivity.
  - apply dkeys_pairs.
  - intros n k Hk. apply dget_In in Hk. apply in_map_iff in Hk as (x & [= <- <-] & Hi).
    exists (list_at (g_in g) x). split; [apply obs_in_neighbors_in; assumption|reflexivity].
  - rewrite map_snd_pairs. unfold f. rewrite in_sum by assumption. unfold get_edge_num, get_edge_list, dkeys. apply map_length.
Qed.

(* graph attributes never change in a history *)
Lemma g_attr_ensure g n : g_attr (ensure g n) = g_attr g.
Proof. unfold ensure. destruct (dmem (g_nodes g) n); reflexivity. Qed.
Lemma g_attr_exec o g : wf g -> (g_type g = Undirected -> is_del_node o = false) -> g_attr (fst (exec o g)) = g_attr g.
Proof.
  intros W Hu. destruct o as [n a|n|n m a|n m|n a v|n m a v]; simpl.
  - unfold add_node. destruct (dmem (g_nbrs g) n); [reflexivity|]. destruct g as [[] ? ? ? ? ? ? ?]; reflexivity.
  - destruct (g_type g) eqn:Ht; [|discriminate Hu; reflexivity].
    destruct (in_dec eq_dec n (get_node_list g)) as [H|H].
    + rewrite p_del_node_eq by assumption. reflexivity.
    + rewrite del_node_missing by assumption. reflexivity.
  - destruct (check_edge g n m) eqn:Hc; [rewrite add_edge_dup by assumption; reflexivity|].
    rewrite add_edge_new by assumption. cbn [fst]. unfold link. rewrite !g_type_ensure. destruct (g_type g); simpl; rewrite !g_attr_ensure; reflexivity.
  - destruct (check_edge g n m) eqn:Hc; [rewrite del_edge_present by assumption|rewrite del_edge_missing by assumption; reflexivity].
    simpl. unfold p_del_edge. destruct (g_type g); reflexivity.
  - unfold set_node_attr. destruct (dget (g_nodes g) n); reflexivity.
  - unfold set_edge_attr. destruct (dget (g_edges g) (n, m)); [reflexivity|]. destruct (g_type g) eqn:Ht; [reflexivity|].
    destruct (dget (g_edges g) (m, n)); reflexivity.
Qed.
Lemma g_attr_history os g : wf g -> (g_type g = Undirected -> forallb (fun o => negb (is_del_node o)) os = true) ->
  g_attr (history g os) = g_attr g.
Proof.
  unfold history. revert g. induction os as [|o os IH]; intros g W Hu; simpl; [auto|].
  assert (Ho : g_type g = Undirected -> is_del_node o = false).
  { intros Ht. specialize (Hu Ht). simpl in Hu. apply andb_true_iff in Hu as [Hu _]. apply negb_true_iff in Hu. assumption. }
  rewrite IH.
  - apply g_attr_exec; assumption.
  - apply wf_exec; assumption.
  - rewrite g_type_exec by assumption. intros Ht. specialize (Hu Ht). simpl in Hu. apply andb_true_iff in Hu. tauto.
Qed.
Lemma dget_if_dset {V} (d : dict string V) (b : bool) k v k' : k <> k' -> dget (if b then d else dset d k v) k' = dget d k'.
Proof. intros H. destruct b; [reflexivity|]. apply dget_dset_ne. assumption. Qed.
Lemma new_graph_type ty kw : dget (g_attr (new_graph ty kw)) "type"%string =
  match ty with Some t => Some (VS (type_string t)) | None => dget kw "type"%string end.
Proof.
  unfold new_graph. cbn [g_attr]. rewrite dget_dset_ne by discriminate. rewrite !dget_if_dset by discriminate.
  destruct ty; [apply dget_dset_eq|reflexivity].
Qed.
Lemma typed_history t kw os : (t = Undirected -> forallb (fun o => negb (is_del_node o)) os = true) ->
  typed (history (new_graph (Some t) kw) os).
Proof.
  intros H. unfold typed. rewrite g_attr_history; [|apply wf_new|assumption].
  rewrite new_graph_type. destruct (wf_history (os := os) (wf_new (Some t) kw)) as [_ Hw]; [assumption|]. rewrite Hw. reflexivity.
Qed.
Lemma untyped_degrees kw os : forallb (fun o => negb (is_del_node o)) os = true -> ~ In "type"%string (dkeys kw) ->
  let g := history (new_graph None kw) os in
  get_degrees g = (g, Err KeyError) /\ get_in_degrees g = (g, Err KeyError) /\ get_out_degrees g = (g, Err KeyError).
Proof.
  intros H Hk. cbv zeta. set (g := history (new_graph None kw) os).
  assert (Ha : attr_type g = (g, Err KeyError)).
  { unfold attr_type, g. rewrite g_attr_history; [|apply wf_new|auto]. rewrite new_graph_type.
    apply dget_None in Hk. rewrite Hk. reflexivity. }
  unfold get_degrees, get_in_degrees, get_out_degrees. rewrite !(bind_err _ Ha). auto.
Qed.
