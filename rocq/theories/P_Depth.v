(* The distance labels of a depth-first style search on any bag are the depths of the nodes in the
   tree of predecessors, when no node has an edge to itself. *)
From Verif Require Import Py Util M_Graph M_Search P_Graph P_GraphLaws Spec P_Walk P_Attr S_Frontier P_Frontier P_SearchAbs P_Search P_SearchTop P_SearchThm P_SearchMore.
Set Implicit Arguments. Unset Strict Implicit.
Local Open Scope string_scope. Local Open Scope list_scope.

Section Depth.
  Variable fr : frontier.
  Variable al : algo.
  Variable nb : name -> list name.
  Variable cost : name -> name -> option Z.
  Variable s0 : name.
  Variable dest : option name.
  Variable els : fq fr -> list name.
  Hypothesis Hbag : bag els.
  Hypothesis Hnp : is_pq_algo al = false.
  Hypothesis Hnpq : fq_is_pq fr = false.
  Hypothesis Hal : al <> OtherAlgo.
  Variable V : list name.
  Hypothesis Hnb : forall x y, In x V -> In y (nb x) -> In y V.
  Hypothesis Hloop : forall x, ~ In x (nb x).
  Notation Inv_ := (Inv al nb s0 els V).
  Let Hpq : is_pq_algo al = true -> prioq els.
  Proof. rewrite Hnp. discriminate. Qed.
  Let Hcost : is_pq_algo al = true -> forall x y, In y (nb x) -> cost x y <> None.
  Proof. rewrite Hnp. discriminate. Qed.
  Let Hnpq' : is_pq_algo al = false -> fq_is_pq fr = false.
  Proof. auto. Qed.

  Definition depth_ok (s : ast fr) : Prop :=
    a_dist s s0 = Some 0%Z /\
    forall x p, dget (a_pred s) x = Some p -> x <> s0 /\ exists d, a_dist s p = Some d /\ a_dist s x = Some (d + 1)%Z.

  Lemma depth_edge cur n s s' : Inv_ (Some cur) s -> cur_ok s0 els cur s -> In n (nb cur) -> ~ In n (a_gr s) ->
    depth_ok s -> a_edge al cost cur n s = Some s' -> depth_ok s'.
  Proof using Hnp Hnpq Hpq Hcost Hnpq' Hloop.
    intros I (C1 & C2 & C3) Hn Hg [D1 D2] He.
    destruct (a_edge_cases Hpq Hnpq' Hcost He) as [->|R]; [split; assumption|].
    destruct (dist_edge (al := al) (cost := cost) Hnp He R) as [->|(d & Hd & Hs')]; [split; assumption|]. destruct R as (Rp & _ & Rg & _).
    assert (Hnc : n <> cur) by (intros ->; exact (Hloop Hn)).
    assert (Hn0 : n <> s0).
    { intros ->. destruct (iv_first I) as [H|[H|[H1 _]]]; [contradiction|congruence|].
      destruct C3 as [->|C3]; [contradiction|]. rewrite H1 in C3. destruct C3. }
    unfold depth_ok. rewrite Rp, Hs'. unfold upd. split.
    - repeat match goal with |- context [eq_dec ?a ?b] => destruct (eq_dec a b); try congruence end.
    - intros x p. rewrite dget_dset. destruct (eq_dec n x) as [<-|Hnx].
      + intros [= <-]. split; [assumption|]. exists d.
        repeat match goal with |- context [eq_dec ?a ?b] => destruct (eq_dec a b); try congruence end; auto.
      + intros Hp. destruct (D2 x p Hp) as (Hx0 & d' & H1 & H2). split; [assumption|]. exists d'.
        destruct (iv_pred I Hp) as [_ Hpg].
        assert (Hnp' : n <> p) by (intros ->; destruct Hpg as [?|[= ?]]; congruence).
        repeat match goal with |- context [eq_dec ?a ?b] => destruct (eq_dec a b); try congruence end; auto.
  Qed.
  Lemma depth_step s s' : Inv_ None s -> depth_ok s -> a_iter al nb cost s0 dest s = Some (inl s') -> depth_ok s'.
  Proof using Hbag Hpq Hnpq' Hal Hnb Hcost Hnp Hnpq Hloop.
    intros I D. unfold a_iter. destruct (fq_isEmpty (a_q s)) eqn:Hem; [discriminate|].
    assert (Hne : els (a_q s) <> []). { intros H. apply (bag_empty Hbag) in H. congruence. }
    destruct (bag_peek Hbag Hne) as (cur & Hpk & Hc). rewrite Hpk.
    destruct (mem_spec cur (a_gr s)) as [Hg|Hg].
    { destruct (fq_remove _ _); [|discriminate]. intros [= <-]. exact D. }
    destruct (_ && _); [discriminate|]. destruct (eqb _ _); [discriminate|].
    destruct (Inv_start I Hpk Hc Hg) as [I1 C1].
    assert (Hv : a_visit s cur = s) by (unfold a_visit; rewrite Hnpq; reflexivity). rewrite Hv.
    destruct (a_scan al cost cur (nb cur) s) as [s2|] eqn:Hs2; [|discriminate].
    destruct (fq_remove (a_q s2) cur) as [q'|]; [|discriminate]. intros [= <-].
    change (depth_ok s2).
    refine (a_scan_ind Hbag Hpq Hnpq' Hal Hnb Hcost (X := depth_ok) I1 C1 (fun n H => H) _ D Hs2).
    intros n t t' Hn Hng It Ct _ _ Dt He. exact (depth_edge It Ct Hn Hng Dt He).
  Qed.
  Lemma depth_init q : depth_ok (a_init al s0 q).
  Proof using Hnp. unfold depth_ok, a_init; simpl. rewrite Hnp. unfold upd. destruct (eq_dec s0 s0); [|congruence]. split; [reflexivity|]. discriminate. Qed.
  (* along the predecessors the labels are 0, 1, 2, ... *)
  Lemma depth_path s l n : depth_ok s -> bt s0 (a_pred s) l n -> forall i x, nth_error l i = Some x -> a_dist s x = Some (Z.of_nat i).
  Proof.
    intros [D1 D2]. intros Hb.
    assert (Hlen : a_dist s n = Some (Z.of_nat (length l) - 1)%Z /\ forall i x, nth_error l i = Some x -> a_dist s x = Some (Z.of_nat i)); [|apply Hlen].
    induction Hb as [|l p n Hb [IH1 IH2] Hn Hp].
    - split; [exact D1|]. intros [|[|i]] x; simpl; try discriminate. intros [= <-]. exact D1.
    - destruct (D2 n p Hp) as (_ & d & H1 & H2). rewrite IH1 in H1. injection H1 as <-.
      assert (Hd : a_dist s n = Some (Z.of_nat (length l))) by (rewrite H2; f_equal; lia).
      split; [rewrite Hd, app_length; simpl; f_equal; lia|]. intros i x Hi.
      destruct (Nat.lt_ge_cases i (length l)) as [Hl|Hl]; [rewrite nth_error_app1 in Hi by assumption; auto|].
      rewrite nth_error_app2 in Hi by assumption. destruct (i - length l) as [|k] eqn:Hk; [|destruct k; discriminate].
      injection Hi as <-. rewrite Hd. do 2 f_equal. lia.
  Qed.
End Depth.

Section Thm.
  Variable fr : frontier.
  Variable els : fq fr -> list name.
  Hypothesis Hbag : bag els.
  Hypothesis Hnp : fq_is_pq fr = false.
  Variable q0 : fq fr.
  Hypothesis Hq0 : els q0 = [].

  Lemma dfs_depth g rev component s0 fuel : wf g -> (forall x, ~ arc g x x) -> In s0 (get_node_list g) -> enough g fuel ->
    exists h pred, search fuel s0 None component q0 DFS rev g = (h, Ok (RPred pred)) /\ same_shape g h /\
      obs (get_node_attr s0 "distance") h = Ok (VI 0) /\
      (forall n p, dget pred n = Some p -> exists d, obs (get_node_attr p "distance") h = Ok (VI d) /\ obs (get_node_attr n "distance") h = Ok (VI (d + 1))) /\
      (forall n, reach (sarc g rev) s0 n -> exists l, walk (sarc g rev) s0 l n /\ NoDup l /\
         forall i x, nth_error l i = Some x -> obs (get_node_attr x "distance") h = Ok (VI (Z.of_nat i))).
  Proof.
    intros W HL Hs0 Hf. assert (Hal : DFS <> OtherAlgo) by discriminate.
    assert (Hl : forall x, ~ In x (snb g rev x)) by (intros x H; apply (snb_sarc rev x x W), sarc_self in H; exact (HL x H)).
    assert (Hnb : forall x y, In x (get_node_list g) -> In y (snb g rev x) -> In y (get_node_list g)) by (intros x y _ H; eapply snb_V; eauto).
    assert (Hself : forall cur (s s' : ast fr), Inv DFS (snb g rev) s0 els (get_node_list g) (Some cur) s -> cur_ok s0 els cur s ->
        In cur (snb g rev cur) -> a_edge DFS (scost g) cur cur s = Some s' -> s' = s \/ cur = s0) by (intros cur s s' _ _ H; destruct (Hl cur H)).
    destruct (ok_ex (search_all Hbag Hal Hnp (fun H : is_pq_algo DFS = true => match Bool.diff_false_true H with end) W
       (fun H : is_pq_algo DFS = true => match Bool.diff_false_true H with end) component Hs0 Hq0
       (X := fun s => depth_ok s0 s /\ tree_ok s0 s)
       (fun s s' I X E => conj (depth_step (al := DFS) Hbag eq_refl Hnp Hal Hnb Hl I (proj1 X) E)
          (tree_step Hbag (fun H : is_pq_algo DFS = true => match Bool.diff_false_true H with end) (fun _ => Hnp) Hal Hnb (fun H : is_pq_algo DFS = true => match Bool.diff_false_true H with end) Hself I (proj2 X) E))
       (conj (depth_init (al := DFS) s0 eq_refl _) (tree_init (al := DFS) (s0 := s0) (q := _))) Hf (rev := rev)))
      as (h & r & Hr & t & -> & I & [D T] & He & HR).
    pose proof (r_ss HR) as S.
    assert (Hdist : forall x d, In x (get_node_list g) -> a_dist t x = Some d -> obs (get_node_attr x "distance") h = Ok (VI d)).
    { intros x d Hx Hd. rewrite obs_nattr by (rewrite (ss_nodes S); apply (wf_V W); assumption). rewrite (r_dist HR Hx), Hd. reflexivity. }
    exists h, (a_pred t). split; [assumption|]. split; [exact S|]. split; [apply Hdist; [assumption|apply D]|]. split.
    - intros n p Hp. destruct (proj2 D n p Hp) as (_ & d & H1 & H2). exists d.
      assert (Hn : disc s0 t n) by (right; eapply dget_Some_keys; eauto).
      destruct (iv_pred I Hp) as [_ [Hpg|Hpg]]; [|discriminate].
      split; apply Hdist; auto; [exact (proj2 (iv_reach I (proj1 (iv_gr I Hpg))))|exact (proj2 (iv_reach I Hn))].
    - intros n Hn. assert (Hd : disc s0 t n) by (apply (done_reach n I He), (reach_snb rev s0 n W); assumption).
      destruct (tree_path Hs0 I T Hd) as (l & Hb & Hnd & Hv). exists l.
      split; [apply (walk_snb rev s0 l n W); eapply bt_walk; eauto|]. split; [assumption|].
      intros i x Hi. apply Hdist; [apply Hv; eapply nth_error_In; eauto|]. eapply depth_path; eauto.
  Qed.
  Lemma bfs_depth g component s0 fuel : wf g -> (forall x, ~ arc g x x) -> In s0 (get_node_list g) -> enough g fuel ->
    exists h, bfs fuel s0 component q0 g = (h, Ok tt) /\ forall n, reach (arc g) s0 n -> exists l, walk (arc g) s0 l n /\ NoDup l /\
         forall i x, nth_error l i = Some x -> obs (get_node_attr x "distance") h = Ok (VI (Z.of_nat i)).
  Proof.
    intros W HL Hs0 Hf. destruct (dfs_depth false component W HL Hs0 Hf) as (h & pred & Hr & _ & _ & _ & H). exists h.
    split; [unfold bfs; rewrite (bind_ok _ Hr); reflexivity|]. intros n Hn.
    assert (Hsa : forall x y, sarc g false x y <-> arc g x y) by (intros; unfold sarc; destruct (g_type g); reflexivity).
    assert (Hn' : reach (sarc g false) s0 n) by (apply (reach_iff s0 n Hsa); assumption).
    destruct (H n Hn') as (l & Hw & Hnd & Hi). exists l. split; [apply (walk_iff s0 l n Hsa); assumption|]. auto.
  Qed.
End Thm.
