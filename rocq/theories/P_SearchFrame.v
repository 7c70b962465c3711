(* What search can change, for arbitrary graphs and arguments, also when it raises. *)
From Verif Require Import Py Util M_Graph M_Search P_Graph P_GraphLaws P_Attr P_SearchAbs P_Search.
Set Implicit Arguments. Unset Strict Implicit.
Local Open Scope string_scope. Local Open Scope list_scope.

Record frame (g h : graph) : Prop := {
  fr_ss : same_shape g h;
  fr_attr : g_attr h = g_attr g;
  fr_ncomp : g_ncomp h = g_ncomp g;
  fr_eattr : forall x y b, b <> "color" -> obs (get_edge_attr x y b) h = obs (get_edge_attr x y b) g;
  fr_nattr : forall x b, ~ In b search_node_attrs -> obs (get_node_attr x b) h = obs (get_node_attr x b) g
}.
Lemma frame_refl g : frame g g.
Proof. constructor; auto. apply ss_refl. Qed.

Section F.
  Variable g : graph.
  Notation keeps m := (forall h, frame g h -> always m h (frame g)).
  Lemma keeps_ret {A} (a : A) : keeps (ret a).
  Proof. intros h F. exact F. Qed.
  Lemma keeps_fail {A} e : keeps (fail e : M graph A).
  Proof. intros h F. exact F. Qed.
  Lemma keeps_gets {A} (f : graph -> A) : keeps (gets f).
  Proof. intros h F. exact F. Qed.
  Lemma keeps_lift {A} (o : option A) e : keeps (lift o e : M graph A).
  Proof. intros h F. destruct o; exact F. Qed.
  Lemma keeps_bind {A B} (m : M graph A) (f : A -> M graph B) : keeps m -> (forall a, keeps (f a)) -> keeps (bind m f).
  Proof. intros Hm Hf h F. apply always_bind; [apply Hm; assumption|]. intros a s' _ F'. apply Hf; assumption. Qed.
  Lemma keeps_foldM {A B} (f : B -> A -> M graph B) l b : (forall b a, keeps (f b a)) -> keeps (foldM f l b).
  Proof. intros Hf h F. apply always_foldM; [assumption|]. intros; apply Hf; assumption. Qed.
  Lemma keeps_forM {A} (f : A -> M graph unit) l : (forall a, keeps (f a)) -> keeps (forM_ l f).
  Proof. intros Hf. apply keeps_foldM. auto. Qed.
  Lemma keeps_loop {L R} fuel (body : L -> M graph (L + R)) l : (forall l, keeps (body l)) -> keeps (loop fuel body l).
  Proof. intros Hf h F. apply always_loop; [assumption|]. intros; apply Hf; assumption. Qed.
  Lemma keeps_get_node n a : keeps (get_node_attr n a).
  Proof. intros h F. exact F. Qed.
  Lemma keeps_get_edge n m a : keeps (get_edge_attr n m a).
  Proof. intros h F. exact F. Qed.
  Lemma frame_nodes h n d d' : frame g h -> dget (g_nodes h) n = Some d -> (forall b, ~ In b search_node_attrs -> dget d' b = dget d b) ->
    frame g (with_nodes h (dset (g_nodes h) n d')).
  Proof.
    intros [S A N E X] Hd Hb. assert (Hn : In n (dkeys (g_nodes h))) by (eapply dget_Some_keys; eauto). constructor; auto.
    - eapply ss_trans; [exact S|]. constructor; try reflexivity. simpl. apply dkeys_dset_in; assumption.
    - intros x b Hx. rewrite <- X by assumption. unfold obs, get_node_attr. simpl. rewrite dget_dset. destruct (eq_dec n x) as [<-|]; [|reflexivity].
      rewrite Hd, Hb by assumption. reflexivity.
  Qed.
  Lemma keeps_set_node n a v : In a search_node_attrs -> keeps (set_node_attr n a v).
  Proof.
    intros Ha h F. unfold always, set_node_attr. destruct (dget (g_nodes h) n) as [d|] eqn:Hd; [|exact F]. apply frame_nodes with (d := d); auto.
    intros b Hb. apply dget_dset_ne. intros ->. contradiction.
  Qed.
  Lemma keeps_pop_node n a : In a search_node_attrs -> keeps (pop_node_attr n a).
  Proof.
    intros Ha h F. unfold always, pop_node_attr. destruct (dget (g_nodes h) n) as [d|] eqn:Hd; [|exact F]. apply frame_nodes with (d := d); auto.
    intros b Hb. apply dget_ddel_ne. intros ->. contradiction.
  Qed.
  Lemma keeps_set_edge n m v : keeps (set_edge_attr n m "color" v).
  Proof.
    intros h F. unfold always.
    assert (Hput : forall e d, dget (g_edges h) e = Some d -> frame g (with_edges h (dset (g_edges h) e (dset d "color" v)))).
    { intros e d Hd. destruct F as [S A N E X]. assert (Hn : In e (dkeys (g_edges h))) by (eapply dget_Some_keys; eauto). constructor; auto.
      - eapply ss_trans; [exact S|]. constructor; try reflexivity. simpl. apply dkeys_dset_in; assumption.
      - intros x y b Hx. rewrite <- E by assumption. unfold obs, get_edge_attr. simpl.
        assert (Hlook : forall e', match dget (dset (g_edges h) e (dset d "color" v)) e' with None => None | Some d => dget d b end
                                 = match dget (g_edges h) e' with None => None | Some d => dget d b end).
        { intros e'. rewrite dget_dset. destruct (eq_dec e e') as [<-|]; [|reflexivity]. rewrite Hd. apply dget_dset_ne. congruence. }
        rewrite !Hlook. reflexivity. }
    unfold set_edge_attr. destruct (dget (g_edges h) (n, m)) as [d|] eqn:H1; [apply Hput; assumption|].
    destruct (g_type h); [exact F|]. destruct (dget (g_edges h) (m, n)) as [d|] eqn:H2; [apply Hput; assumption|exact F].
  Qed.
End F.

Ltac node_attr_in := simpl; tauto.
Ltac kp := solve
  [ simple apply keeps_ret | simple apply keeps_fail | simple apply keeps_gets | simple apply keeps_lift | simple apply keeps_get_node | simple apply keeps_get_edge
  | simple apply keeps_set_node; node_attr_in | simple apply keeps_pop_node; node_attr_in | simple apply keeps_set_edge ].
Ltac kb := simple apply keeps_bind; [|intros ?].
Ltac kk := repeat first
  [ kp
  | match goal with
    | |- forall h, frame _ h -> always (bind _ _) h _ => kb
    | |- forall h, frame _ h -> always (foldM _ _ _) h _ => simple apply keeps_foldM; intros ? ?
    | |- forall h, frame _ h -> always (forM_ _ _) h _ => simple apply keeps_forM; intros ?
    | |- forall h, frame _ h -> always (loop _ _ _) h _ => simple apply keeps_loop; intros ?
    | |- forall h, frame _ h -> always (match ?x with _ => _ end) h _ => destruct x
    | |- forall h, frame _ h -> always (let '_ := ?x in _) h _ => destruct x
    end ].

Section S.
  Variable g : graph.
  Variable fr : frontier.
  Notation keeps m := (forall h, frame g h -> always m h (frame g)).
  Lemma k_color rev x y c : keeps (color_edge rev x y c).
  Proof. unfold color_edge. kk. Qed.
  Lemma k_push (q : fq fr) x p : keeps (push_prio q x p).
  Proof. unfold push_prio. kk. Qed.
  Lemma k_getp (q : fq fr) x : keeps (get_priority q x).
  Proof. unfold get_priority. kk. Qed.
  Lemma k_relax cur n ne (st : dict name name * fq fr) : keeps (relax_pq cur n ne st).
  Proof. unfold relax_pq, push_prio, get_priority, as_int_o. kk. Qed.
  Lemma k_edge al co cur n (st : dict name name * fq fr) : keeps (process_edge al co cur n st).
  Proof.
    unfold process_edge, process_edge_dijkstra, process_edge_prim, as_int, as_int_o.
    destruct al; kk; try (unfold get_priority; kk; fail); try apply k_relax; unfold finish_edge, set_component; kk.
  Qed.
  Lemma k_search fuel s dest co (q0 : fq fr) al rev : keeps (search fuel s dest co q0 al rev).
  Proof.
    unfold search, init_search, process_source, process_source_pq, push_prio, in_dict.
    assert (Hit : forall nb (st : dict name name * fq fr), keeps (search_iter al co rev s dest nb st)).
    { intros nb st. unfold search_iter, process_node_search, scan_neighbors. kk; try apply k_color; try apply k_edge. }
    destruct al; kk; try apply k_color; try apply Hit; unfold walk_back; kk;
      intros h F; unfold always; destruct (g_type h); exact F.
  Qed.
End S.
Lemma search_frame fr fuel s dest co (q0 : fq fr) al rev g : frame g (fst (search fuel s dest co q0 al rev g)).
Proof. apply (@k_search g fr fuel s dest co q0 al rev g (frame_refl g)). Qed.
