(* Reasoning about attribute updates: they keep the shape of the graph and change one cell. *)
From Verif Require Import Py Util M_Graph P_Graph P_GraphLaws Spec.
Set Implicit Arguments. Unset Strict Implicit.

Definition nattr (g : graph) (n : name) (a : string) : val :=
  match dget (g_nodes g) n with Some d => match dget d a with Some v => v | None => VNone end | None => VNone end.
(* value stored for the edge x-y, in either orientation on undirected graphs *)
Definition eattr (g : graph) (x y : name) (a : string) : option val :=
  match obs (get_edge_attr x y a) g with Ok v => Some v | Err _ => None end.

Record same_shape (g h : graph) : Prop := {
  ss_type : g_type h = g_type g;
  ss_nbrs : g_nbrs h = g_nbrs g;
  ss_in : g_in h = g_in g;
  ss_nodes : dkeys (g_nodes h) = dkeys (g_nodes g);
  ss_edges : dkeys (g_edges h) = dkeys (g_edges g);
  ss_cluster : g_cluster h = g_cluster g
}.
Lemma ss_refl g : same_shape g g.
Proof. constructor; reflexivity. Qed.
Lemma ss_trans g h k : same_shape g h -> same_shape h k -> same_shape g k.
Proof. intros [] []; constructor; congruence. Qed.
Lemma ss_sym g h : same_shape g h -> same_shape h g.
Proof. intros []; constructor; congruence. Qed.
Lemma dmem_dkeys {K V W} {E : EqDec K} (d : dict K V) (d' : dict K W) k : dkeys d = dkeys d' -> dmem d k = dmem d' k.
Proof.
  intros H. destruct (dmem d k) eqn:A, (dmem d' k) eqn:B; auto.
  - apply dmem_In in A. apply dmem_nIn in B. rewrite H in A. contradiction.
  - apply dmem_In in B. apply dmem_nIn in A. rewrite H in A. contradiction.
Qed.
Lemma ss_check_edge g h x y : same_shape g h -> check_edge h x y = check_edge g x y.
Proof.
  intros S. unfold check_edge. rewrite (ss_type S).
  rewrite !(dmem_dkeys _ (ss_edges S)). reflexivity.
Qed.
Lemma ss_wf g h : same_shape g h -> wf g -> wf h.
Proof.
  intros S W. assert (Hm : forall e, dmem (g_edges h) e = dmem (g_edges g) e) by (intros; apply dmem_dkeys, (ss_edges S)).
  destruct W as [W1 W2 W3 W4 W5 W6 W7]. constructor.
  - rewrite (ss_nodes S), (ss_nbrs S). assumption.
  - rewrite (ss_in S), (ss_type S), (ss_nbrs S). assumption.
  - rewrite (ss_nbrs S). assumption.
  - rewrite (ss_edges S). assumption.
  - intros n m. rewrite (ss_nbrs S), W5. unfold nb_count. rewrite (ss_type S), !Hm. reflexivity.
  - intros n m. rewrite (ss_in S), W6, (ss_type S), Hm. reflexivity.
  - rewrite (ss_type S), (ss_edges S). assumption.
Qed.
Lemma ss_arc g h x y : same_shape g h -> arc h x y <-> arc g x y.
Proof. intros S. unfold arc. rewrite (ss_check_edge x y S). reflexivity. Qed.
Lemma ss_node_list g h : same_shape g h -> get_node_list h = get_node_list g.
Proof. intros S. unfold get_node_list. rewrite (ss_nbrs S). reflexivity. Qed.

Section Rules.
  Variable g : graph.
  Lemma ok_get_node_attr n a (Q : val -> graph -> Prop) : In n (dkeys (g_nodes g)) -> Q (nattr g n a) g -> ok (get_node_attr n a) g Q.
  Proof.
    intros Hn HQ. apply dget_exists in Hn as [d Hd]. unfold nattr in HQ. rewrite Hd in HQ.
    eapply ok_weaken; [apply ok_eq; unfold get_node_attr; rewrite Hd; reflexivity|]. intros x h Hh; cbn beta in Hh; destruct Hh as [-> ->]; exact HQ.
  Qed.
  Lemma obs_nattr n a : In n (dkeys (g_nodes g)) -> obs (get_node_attr n a) g = Ok (nattr g n a).
  Proof. intros Hn. apply dget_exists in Hn as [d Hd]. rewrite obs_node_attr. unfold nattr. rewrite Hd. reflexivity. Qed.
  Lemma ok_set_node_attr n a v (Q : unit -> graph -> Prop) : In n (dkeys (g_nodes g)) ->
    (forall h, same_shape g h -> (forall x b, nattr h x b = if eq_dec (x, b) (n, a) then v else nattr g x b) ->
       (forall x y b, eattr h x y b = eattr g x y b) -> g_attr h = g_attr g -> g_ncomp h = g_ncomp g -> g_edges h = g_edges g -> Q tt h) ->
    ok (set_node_attr n a v) g Q.
  Proof.
    intros Hn HQ. pose proof Hn as Hn'. apply dget_exists in Hn' as [d Hd].
    eapply ok_weaken; [apply ok_eq; unfold set_node_attr; rewrite Hd; reflexivity|].
    intros x h Hh; cbn beta in Hh; destruct Hh as [-> ->]. apply HQ; try reflexivity.
    - constructor; try reflexivity. simpl. apply dkeys_dset_in; assumption.
    - intros x b. unfold nattr. simpl. rewrite dget_dset. destruct (eq_dec n x) as [->|Hne].
      + rewrite dget_dset, Hd. destruct (eq_dec a b), (eq_dec (x, b) (x, a)); congruence.
      + destruct (eq_dec (x, b) (n, a)); [congruence|reflexivity].
  Qed.
  (* the popped cell itself is only known to be gone if the attribute dict has no duplicate key *)
  Lemma ok_pop_node_attr n a (Q : unit -> graph -> Prop) : In n (dkeys (g_nodes g)) ->
    (forall h, same_shape g h -> (forall x b, (x, b) <> (n, a) -> nattr h x b = nattr g x b) ->
       (forall x y b, eattr h x y b = eattr g x y b) -> g_attr h = g_attr g -> g_ncomp h = g_ncomp g -> g_edges h = g_edges g -> Q tt h) ->
    ok (pop_node_attr n a) g Q.
  Proof.
    intros Hn HQ. pose proof Hn as Hn'. apply dget_exists in Hn' as [d Hd].
    eapply ok_weaken; [apply ok_eq; unfold pop_node_attr; rewrite Hd; reflexivity|].
    intros x h Hh; cbn beta in Hh; destruct Hh as [-> ->]. apply HQ; try reflexivity.
    - constructor; try reflexivity. simpl. apply dkeys_dset_in; assumption.
    - intros x b Hxb. unfold nattr. simpl. rewrite dget_dset. destruct (eq_dec n x) as [->|Hne]; [|reflexivity].
      rewrite dget_ddel_ne, Hd by congruence. reflexivity.
  Qed.
  Definition same_edge (x y n m : name) : bool :=
    eqb (x, y) (n, m) || match g_type g with Undirected => eqb (x, y) (m, n) | Directed => false end.
  Lemma set_edge_attr_shape n m a v h r : set_edge_attr n m a v g = (h, Ok r) ->
    same_shape g h /\ g_nodes h = g_nodes g /\ g_attr h = g_attr g /\ g_ncomp h = g_ncomp g.
  Proof.
    unfold set_edge_attr. intros H.
    destruct (dget (g_edges g) (n, m)) as [d|] eqn:Hd.
    - injection H as <- <-. repeat split. simpl. apply dkeys_dset_in. eapply dget_Some_keys; eauto.
    - destruct (g_type g) eqn:Ht; [discriminate|].
      destruct (dget (g_edges g) (m, n)) as [d|] eqn:Hd2; [|discriminate].
      injection H as <- <-. repeat split. simpl. apply dkeys_dset_in. eapply dget_Some_keys; eauto.
  Qed.
  Lemma ok_set_edge_attr n m a v (Q : unit -> graph -> Prop) : wf g -> check_edge g n m = true ->
    (forall h, same_shape g h -> (forall x b, nattr h x b = nattr g x b) ->
       (forall x y b, eattr h x y b = if eqb b a && same_edge x y n m then Some v else eattr g x y b) ->
       g_attr h = g_attr g -> g_ncomp h = g_ncomp g -> g_nodes h = g_nodes g -> Q tt h) ->
    ok (set_edge_attr n m a v) g Q.
  Proof.
    intros W Hc HQ. destruct (set_edge_attr_views a v W Hc) as (h & Hh & H1 & H2 & H3 & _).
    destruct (set_edge_attr_shape Hh) as (S & Hn & Ha & Hk).
    eapply ok_weaken; [apply ok_eq; exact Hh|]. intros x k Hx; cbn beta in Hx; destruct Hx as [-> ->].
    apply HQ; auto.
    - intros y b. unfold nattr. rewrite Hn. reflexivity.
    - intros x' y' b. unfold eattr, same_edge. destruct (eqb_spec b a) as [->|Hb]; simpl.
      + destruct (eqb_spec (x', y') (n, m)) as [[= -> ->]|Hne]; simpl; [rewrite H1; reflexivity|].
        destruct (g_type g) eqn:Ht.
        * rewrite H3; [reflexivity|]. left; split; [auto|discriminate].
        * destruct (eqb_spec (x', y') (m, n)) as [[= -> ->]|Hne2]; [rewrite H2; reflexivity|].
          rewrite H3; [reflexivity|]. left; split; auto.
      + rewrite H3; auto.
  Qed.
  Lemma ok_get_edge_attr n m a v (Q : val -> graph -> Prop) : eattr g n m a = Some v -> Q v g -> ok (get_edge_attr n m a) g Q.
  Proof.
    intros He HQ. unfold eattr, obs in He. destruct (snd (get_edge_attr n m a g)) as [w|] eqn:Hs; [|discriminate].
    injection He as ->. eapply ok_weaken; [apply ok_eq with (a := v) (s' := g)|].
    - destruct (get_edge_attr n m a g) as [g' r] eqn:Hg. simpl in Hs. subst. unfold get_edge_attr in Hg. congruence.
    - intros x h Hh; cbn beta in Hh; destruct Hh as [-> ->]; exact HQ.
  Qed.
End Rules.
