(* Attribute updates on directed graphs: direct access to edge_attr, and what a sequence of updates leaves unchanged. *)
From Verif Require Import Py Util M_Graph P_Graph P_GraphLaws Spec P_Attr M_Search M_Flow.
Set Implicit Arguments. Unset Strict Implicit.
Local Open Scope string_scope. Local Open Scope list_scope.

Lemma edge_get_dir g e a : g_type g = Directed -> edge_get e a g = get_edge_attr (fst e) (snd e) a g.
Proof. intros D. unfold edge_get, get_edge_attr. rewrite D. destruct e as [x y]. simpl. destruct (dget (g_edges g) (x, y)); reflexivity. Qed.
Lemma edge_set_dir g e a v : g_type g = Directed -> edge_set e a v g = set_edge_attr (fst e) (snd e) a v g.
Proof. intros D. unfold edge_set, set_edge_attr. rewrite D. destruct e as [x y]. simpl. destruct (dget (g_edges g) (x, y)); reflexivity. Qed.
Lemma eattr_dir g x y a : g_type g = Directed -> eattr g x y a = match dget (g_edges g) (x, y) with Some d => dget d a | None => None end.
Proof. intros D. unfold eattr, obs, get_edge_attr. rewrite D. simpl. destruct (dget (g_edges g) (x, y)) as [d|]; [|reflexivity]. destruct (dget d a); reflexivity. Qed.
Lemma edge_has_dir g x y a : g_type g = Directed -> In (x, y) (get_edge_list g) -> edge_has (x, y) a g = (g, Ok (match eattr g x y a with Some _ => true | None => false end)).
Proof.
  intros D He. unfold edge_has. rewrite eattr_dir by exact D. unfold get_edge_list in He. apply dget_exists in He as [d ->]. unfold dmem. reflexivity.
Qed.
Lemma ok_same {S A} (m m' : M S A) s Q : m s = m' s -> ok m' s Q -> ok m s Q.
Proof. intros H Hok. apply ok_ex in Hok as (s' & a & E & HQ). apply (ok_intro (s' := s') (a := a)); [congruence|exact HQ]. Qed.

(* h is g up to node colors and the edge attributes in bs *)
Record efr (bs : list string) (g h : graph) : Prop := {
  ef_shape : same_shape g h;
  ef_nodes : forall x b, b <> "color" -> nattr h x b = nattr g x b;
  ef_edges : forall x y b, ~ In b bs -> eattr h x y b = eattr g x y b;
  ef_attr : g_attr h = g_attr g;
  ef_ncomp : g_ncomp h = g_ncomp g
}.
Lemma efr_refl bs g : efr bs g g.
Proof. constructor; try reflexivity. apply ss_refl. Qed.
Lemma efr_trans bs bs' g h k : efr bs g h -> efr bs' h k -> incl bs' bs -> efr bs g k.
Proof.
  intros [] [] Hi. constructor; try congruence.
  - eapply ss_trans; eassumption.
  - intros x b Hb. rewrite ef_nodes1, ef_nodes0 by assumption. reflexivity.
  - intros x y b Hb. rewrite ef_edges1, ef_edges0 by auto. reflexivity.
Qed.
Lemma efr_type bs g h : efr bs g h -> g_type g = Directed -> g_type h = Directed.
Proof. intros [S] H. rewrite (ss_type S). exact H. Qed.
Lemma efr_wf bs g h : efr bs g h -> wf g -> wf h.
Proof. intros [S] H. apply (ss_wf S H). Qed.
Lemma efr_edges bs g h : efr bs g h -> get_edge_list h = get_edge_list g.
Proof. intros [S]. apply (ss_edges S). Qed.
Lemma efr_node_list bs g h : efr bs g h -> get_node_list h = get_node_list g.
Proof. intros [S]. apply (ss_node_list S). Qed.
Lemma same_edge_dir g x y n m : g_type g = Directed -> same_edge g x y n m = eqb (x, y) (n, m).
Proof. intros D. unfold same_edge. rewrite D, orb_false_r. reflexivity. Qed.

Section Dir.
  Variable g : graph.
  Hypothesis W : wf g.
  Hypothesis D : g_type g = Directed.
  Lemma ok_node_color n v bs (Q : unit -> graph -> Prop) : In n (get_node_list g) ->
    (forall h, efr bs g h -> (forall x y b, eattr h x y b = eattr g x y b) -> Q tt h) -> ok (set_node_attr n "color" v) g Q.
  Proof.
    intros Hn HQ. apply ok_set_node_attr; [rewrite (wf_nodes W); exact Hn|]. intros h H1 H2 H3 H4 H5 _. apply HQ; [|exact H3]. constructor; auto.
    intros x b Hb. rewrite H2. destruct (eq_dec (x, b) (n, "color")) as [[= -> ->]|]; [congruence|reflexivity].
  Qed.
  Lemma ok_eset x y a v bs (Q : unit -> graph -> Prop) : In (x, y) (get_edge_list g) -> In a bs ->
    (forall h, efr bs g h -> (forall x' y' b, eattr h x' y' b = if eqb b a && eqb (x', y') (x, y) then Some v else eattr g x' y' b) ->
       (forall n b, nattr h n b = nattr g n b) -> Q tt h) -> ok (set_edge_attr x y a v) g Q.
  Proof.
    intros He Ha HQ. apply ok_set_edge_attr; [exact W|unfold check_edge; rewrite D; apply dmem_In; exact He|]. intros h H1 H2 H3 H4 H5 _.
    assert (H3' : forall x' y' b, eattr h x' y' b = if eqb b a && eqb (x', y') (x, y) then Some v else eattr g x' y' b) by (intros; rewrite H3, same_edge_dir by exact D; reflexivity).
    apply HQ; [|exact H3'|exact H2]. constructor; auto.
    intros x' y' b Hb. rewrite H3'. destruct (eqb_spec b a) as [->|]; [contradiction|reflexivity].
  Qed.
  Lemma ok_edge_set e a v bs (Q : unit -> graph -> Prop) : In e (get_edge_list g) -> In a bs ->
    (forall h, efr bs g h -> (forall x' y' b, eattr h x' y' b = if eqb b a && eqb (x', y') e then Some v else eattr g x' y' b) ->
       (forall n b, nattr h n b = nattr g n b) -> Q tt h) -> ok (edge_set e a v) g Q.
  Proof. intros He Ha HQ. apply (ok_same (edge_set_dir e a v D)). destruct e as [x y]. apply ok_eset with (bs := bs); assumption. Qed.
  Lemma ok_edge_get e a v (Q : val -> graph -> Prop) : eattr g (fst e) (snd e) a = Some v -> Q v g -> ok (edge_get e a) g Q.
  Proof. intros He HQ. apply (ok_same (edge_get_dir e a D)). apply (ok_get_edge_attr He HQ). Qed.
  Lemma ok_edge_has x y a (Q : bool -> graph -> Prop) : In (x, y) (get_edge_list g) -> Q (match eattr g x y a with Some _ => true | None => false end) g -> ok (edge_has (x, y) a) g Q.
  Proof. intros He HQ. eapply ok_intro; [apply (edge_has_dir a D He)|exact HQ]. Qed.
  Lemma nbrs_edge x y : In y (list_at (g_nbrs g) x) <-> In (x, y) (get_edge_list g).
  Proof. apply (wf_nbrs_In W D). Qed.
  Lemma ins_edge x y : In y (list_at (g_in g) x) <-> In (y, x) (get_edge_list g).
  Proof. apply (wf_in_In W D). Qed.
  Lemma edge_nodes x y : In (x, y) (get_edge_list g) -> In x (get_node_list g) /\ In y (get_node_list g).
  Proof. intros H. apply (check_edge_nodes W). unfold check_edge. rewrite D. apply dmem_In, H. Qed.
  Lemma ok_nbr_list n (Q : list name -> graph -> Prop) : In n (get_node_list g) -> Q (list_at (g_nbrs g) n) g -> ok (nbr_list n) g Q.
  Proof. intros Hn HQ. eapply ok_intro; [|exact HQ]. unfold nbr_list, list_at. apply dget_exists in Hn as [l ->]. reflexivity. Qed.
  Lemma ok_in_list n (Q : list name -> graph -> Prop) : In n (get_node_list g) -> Q (list_at (g_in g) n) g -> ok (in_list n) g Q.
  Proof.
    intros Hn HQ. eapply ok_intro; [|exact HQ]. unfold in_list, in_dict, list_at, bind, lift. rewrite D. simpl.
    unfold get_node_list in Hn. rewrite <- (wf_in_keys W D) in Hn. apply dget_exists in Hn as [l ->]. reflexivity.
  Qed.
End Dir.
Lemma ok_as_int z g (Q : Z -> graph -> Prop) : Q z g -> ok (as_int (VI z)) g Q.
Proof. intros H. apply ok_ret. exact H. Qed.
