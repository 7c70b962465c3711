(* Property theorem C62, continued: the key drawn beside the search tree. *)
From Coq Require Import QArith.
From Verif Require Import Py Util M_Graph M_Flow M_Dot M_Tree S_Tree M_BB S_BB P_Attr C_BB.
Local Open Scope string_scope. Local Open Scope list_scope.

(* calls that leave nodes named by strings, arcs between them, clusters and the type alone *)
Definition kn (g h : graph) : Prop :=
  (forall c, dget (g_nodes h) (NS c) = dget (g_nodes g) (NS c)) /\ (forall c d, dget (g_edges h) (NS c, NS d) = dget (g_edges g) (NS c, NS d)) /\
  g_cluster h = g_cluster g /\ g_type h = g_type g.
Lemma kn_refl g : kn g g. Proof. repeat split. Qed.
Lemma kn_trans g h k : kn g h -> kn h k -> kn g k.
Proof. intros (A & B & C & D) (A' & B' & C' & D'). split; [|split; [|split]]; intros; congruence. Qed.
Definition kg {A} (m : M graph A) : Prop := forall g, kn g (fst (m g)).
Definition kk {A} (m : M tree A) : Prop := forall t, kn (t_g t) (t_g (fst (m t))).
Lemma kg_bind {A B} (m : M graph A) (f : A -> M graph B) : kg m -> (forall x, kg (f x)) -> kg (bind m f).
Proof. intros Hm Hf g. unfold bind. specialize (Hm g). destruct (m g) as [h [x|e]]; cbn [fst] in *; [|exact Hm]. exact (kn_trans _ _ _ Hm (Hf x h)). Qed.
Lemma kk_bind {A B} (m : M tree A) (f : A -> M tree B) : kk m -> (forall x, kk (f x)) -> kk (bind m f).
Proof. intros Hm Hf t. unfold bind. specialize (Hm t). destruct (m t) as [h [x|e]]; cbn [fst] in *; [|exact Hm]. exact (kn_trans _ _ _ Hm (Hf x h)). Qed.
Lemma kk_ong {A} (m : M graph A) : kg m -> kk (ong m).
Proof. intros H t. unfold ong. specialize (H (t_g t)). destruct (m (t_g t)) as [g r]. exact H. Qed.
Lemma kk_ret {A} (x : A) : kk (ret x). Proof. intros t. apply kn_refl. Qed.
Lemma kk_fail {A} e : kk (@fail tree A e). Proof. intros t. apply kn_refl. Qed.
Lemma kk_lift {A} (o : option A) e : kk (lift o e). Proof. destruct o; [apply kk_ret|apply kk_fail]. Qed.
Lemma kk_read {A} (m : M graph A) : (forall g, fst (m g) = g) -> kk (ong m).
Proof. intros H. apply kk_ong. intros g. rewrite H. apply kn_refl. Qed.
Lemma kg_add_node z a : kg (add_node (NI z) a).
Proof. intros g. unfold add_node. destruct (dmem (g_nbrs g) (NI z)); [apply kn_refl|]. cbn [fst]. destruct (g_type g) eqn:E; (cbn [with_nodes with_in with_nbrs g_nodes g_edges g_cluster g_type]; rewrite E; unfold kn, with_nodes, with_in, with_nbrs; cbn [g_nodes g_edges g_cluster g_type];
  split; [intros c; apply dget_dset_ne; discriminate|]; split; [reflexivity|]; split; [reflexivity|]; congruence). Qed.
Lemma kg_read {A} (m : M graph A) : (forall g, fst (m g) = g) -> kg m. Proof. intros H g. rewrite H. apply kn_refl. Qed.
Lemma kg_in_list n : kg (in_list n).
Proof. apply kg_read. intros g. unfold in_list, in_dict, bind, lift. destruct (g_type g); [destruct (dget (g_in g) n)|]; reflexivity. Qed.
Lemma kg_nbr_append n m : kg (nbr_append n m). Proof. unfold nbr_append. apply kg_bind; [apply kg_read; reflexivity|]. intros l g. repeat split. Qed.
Lemma kg_in_append n m : kg (in_append n m). Proof. unfold in_append. apply kg_bind; [apply kg_in_list|]. intros l g. repeat split. Qed.
Lemma kg_add_edge x y a : kg (add_edge (NI x) (NI y) a).
Proof.
  intros g. unfold add_edge. destruct (dmem (g_edges g) (NI x, NI y)); [apply kn_refl|]. destruct (match g_type g with Undirected => _ | Directed => _ end); [apply kn_refl|].
  match goal with |- context [fst (?k g)] => assert (K : kg k); [|apply K] end.
  apply kg_bind. { intros h. split; [reflexivity|]. split; [|split; reflexivity]. intros c d. cbn [modify fst with_edges g_edges]. apply dget_dset_ne. discriminate. } intros _.
  apply kg_bind; [apply kg_read; reflexivity|]. intros nd. apply kg_bind; [destruct (dmem nd (NI x)); [apply kg_read; reflexivity|apply kg_add_node]|]. intros _.
  apply kg_bind; [apply kg_read; reflexivity|]. intros nd'. apply kg_bind; [destruct (dmem nd' (NI y)); [apply kg_read; reflexivity|apply kg_add_node]|]. intros _.
  apply kg_bind; [apply kg_nbr_append|]. intros _. apply kg_bind; [apply kg_read; reflexivity|]. intros []; [apply kg_in_append|apply kg_nbr_append].
Qed.
Lemma kg_set_node z a v : kg (set_node_attr (NI z) a v).
Proof. intros g. unfold set_node_attr. destruct (dget (g_nodes g) (NI z)); [|apply kn_refl]. split; [|split; [|split]]; cbn [with_nodes g_nodes g_edges g_cluster g_type]; intros; try reflexivity. apply dget_dset_ne. discriminate. Qed.
Lemma kg_set_edge x y a v : kg (set_edge_attr (NI x) (NI y) a v).
Proof.
  intros g. unfold set_edge_attr. destruct (dget (g_edges g) (NI x, NI y)); [|destruct (g_type g) eqn:E; [apply kn_refl|]; destruct (dget (g_edges g) (NI y, NI x)); [|apply kn_refl]];
    (split; [|split; [|split]]; cbn [with_edges g_nodes g_edges g_cluster g_type]; intros; try reflexivity; apply dget_dset_ne; discriminate).
Qed.
Lemma kk_loop {A B} (body : A -> M tree (A + B)) : (forall s, kk (body s)) -> forall fuel s, kk (loop fuel body s).
Proof. intros H. induction fuel as [|f IH]; intros s; [intros t; apply kn_refl|]. cbn [loop]. apply kk_bind; [apply H|]. intros [x|x]; [apply IH|apply kk_ret]. Qed.
Lemma kk_add_root z a : kk (add_root (NI z) a).
Proof. unfold add_root. apply kk_bind; [apply kk_ong, kg_add_node|]. intros _ t. apply kn_refl. Qed.
Lemma kk_add_child z p a : kk (add_child (NI z) (NI p) a).
Proof.
  unfold add_child. apply kk_bind; [apply kk_read; reflexivity|]. intros v. apply kk_bind; [destruct v; first [apply kk_ret|apply kk_fail]|]. intros l.
  apply kk_bind; [apply kk_ong, kg_add_node|]. intros _. apply kk_ong, kg_add_edge.
Qed.

Section Key.
  Variable P : instance.
  Variable solve : Z -> list con -> lp_result.
  Variable PQ : pqueue.
  Variable bs : branching.
  Variable ss : searching.
  Variable ce ladot : bool.
  Variable num : Q -> val.
  Variable fmt : Q -> string.
  Lemma kk_attr_of pred a : kk (attr_of pred a).
  Proof. unfold attr_of. apply kk_bind; [apply kk_lift|]. intros n. apply kk_read. reflexivity. Qed.
  Lemma kk_var x : kk (var P x).
  Proof. unfold var. destruct (mem x (VARIABLES P)); [apply kk_ret|apply kk_fail]. Qed.
  Lemma kk_constraints fuel it : kk (constraints P fuel it).
  Proof.
    destruct it as [i [[[[p b] s] r]|]]; [|apply kk_ret]. unfold constraints. apply kk_bind; [apply kk_var|]. intros x. apply kk_bind; [|intros; apply kk_ret].
    unfold ancestors. apply kk_loop. intros [pred cs]. destruct (eqb (str_val pred) "0"); [apply kk_ret|].
    apply kk_bind; [apply kk_attr_of|]. intros v1. apply kk_bind; [apply kk_attr_of|]. intros v2. apply kk_bind; [apply kk_attr_of|]. intros v3.
    apply kk_bind; [destruct v1; first [apply kk_var|apply kk_fail]|]. intros y. apply kk_bind; [destruct v2; first [apply kk_ret|apply kk_fail]|]. intros z.
    apply kk_bind; [apply kk_attr_of|]. intros v4. apply kk_ret.
  Qed.
  Lemma kk_value r i : kk (varValue r i).
  Proof. destruct r; first [apply kk_ret|apply kk_fail]. Qed.
  Lemma kk_choose r : kk (choose P bs r).
  Proof.
    unfold choose. destruct bs; [| |apply kk_fail].
    all: first [ (unfold most_frac; apply kk_bind; [|intros; apply kk_ret]; generalize (-(1), None : option string); induction (VARIABLES P) as [|i l IH]; intros s; [apply kk_ret|];
                  cbn [foldM]; apply kk_bind; [apply kk_bind; [apply kk_value|]; intros v; destruct (negb (Qle_bool (frac v) (fst s))); apply kk_ret|]; intros; apply IH)
               | (induction (VARIABLES P) as [|i l IH]; [apply kk_ret|]; cbn [first_frac]; apply kk_bind; [apply kk_value|]; intros v; destruct (negb (Qle_bool (frac v) 0)); [apply kk_ret|apply IH]) ].
  Qed.
  Lemma kk_branch s i d r relax : kk (branch P bs ss (PQ := PQ) s i d r relax).
  Proof.
    unfold branch. apply kk_bind; [apply kk_choose|]. intros b. apply kk_bind; [destruct ss; first [apply kk_ret|apply kk_fail]|]. intros p.
    apply kk_bind; [apply kk_lift|]. intros x. apply kk_bind; [apply kk_value|]. intros v. apply kk_bind; [apply kk_lift|]. intros c.
    apply kk_bind; [apply kk_ong, kg_set_node|]. intros _. apply kk_ret.
  Qed.
  Lemma kk_add_to_tree s it a b c q : kk (add_to_tree ladot num (PQ := PQ) s it a b c q).
  Proof.
    unfold add_to_tree. destruct (b_iter s =? 0)%Z; [apply kk_add_root|]. destruct it as [i [[[[p x] y] r]|]]; [|apply kk_fail].
    apply kk_bind; [apply kk_add_child|]. intros _. apply kk_ong, kg_set_edge.
  Qed.
  Lemma kk_iter fuel s : kk (bb_iter P solve bs ss ce ladot num fmt fuel (PQ := PQ) s).
  Proof.
    unfold bb_iter. destruct (pq_isEmpty (b_q s)); [apply kk_ret|]. apply kk_bind; [apply kk_lift|]. intros [it q].
    apply kk_bind.
    { destruct it as [i [[[[p x] y] r]|]]; [|apply kk_ret]. apply kk_bind; [apply kk_read; reflexivity|]. intros v. apply kk_bind; [destruct v; first [apply kk_ret|apply kk_fail]|]. intros z. apply kk_ret. }
    intros d. apply kk_bind; [apply kk_constraints|]. intros cs. cbv zeta. destruct (classify _ _ _ _ _ _) as [status col].
    apply kk_bind; [apply kk_lift|]. intros c. apply kk_bind; [apply kk_add_to_tree|]. intros _. destruct (eqb status "C"); [|apply kk_ret]. apply kk_bind; [apply kk_branch|]. intros; apply kk_ret.
  Qed.
End Key.

(* the nodes of the key with their texts and colours, and the arcs that keep them in a row *)
Definition key_nodes : list (string * (string * string)) := [("C", ("Candidate", "yellow")); ("I", ("Infeasible", "orange")); ("S", ("Solution", "lightblue")); ("P", ("Pruned", "red"))].
Definition key_arcs : list (string * string) := [("C", "I"); ("I", "S"); ("S", "P")].

(** whatever the instance, the solver, the queue and the strategies, and whether the script ends, raises or is cut short, the key is drawn as it should be: a legend of the colours
   in a cluster of its own, its nodes joined by invisible arcs *)
Theorem C62_key : forall (P : instance) (solve : Z -> list con -> lp_result) (PQ : pqueue) (bs : branching) (ss : searching) (ce ladot : bool) (num : Q -> val) (fmt : Q -> string) (kw : attrs) (fuel : nat),
  let g := t_g (fst (branch_and_bound P solve PQ bs ss ce ladot num fmt fuel (new_tree kw))) in
  (forall c l k, In (c, (l, k)) key_nodes -> obs (get_node_attr (NS c) "label") g = Ok (VS l) /\ obs (get_node_attr (NS c) "color") g = Ok (VS k) /\
     obs (get_node_attr (NS c) "fillcolor") g = Ok (VS k) /\ obs (get_node_attr (NS c) "style") g = Ok (VS "filled")) /\
  (forall c d, check_edge g (NS c) (NS d) = true <-> In (c, d) key_arcs) /\
  (forall c d, In (c, d) key_arcs -> obs (get_edge_attr (NS c) (NS d) "style") g = Ok (VS "invisible") /\ obs (get_edge_attr (NS c) (NS d) "arrowhead") g = Ok (VS "none")) /\
  (forall c, contains_node g (NS c) = true <-> In c (map fst key_nodes)) /\
  g_cluster g = [(VS "Key", mkCluster [NS "C"; NS "I"; NS "S"; NS "P"] [("name", VS "Key"); ("label", VS "Key"); ("fontsize", VS "12")] [])].
Proof.
  intros P solve PQ bs ss ce ladot num fmt kw fuel. cbv zeta.
  assert (K : kn (key_graph kw) (t_g (fst (branch_and_bound P solve PQ bs ss ce ladot num fmt fuel (new_tree kw))))).
  { unfold branch_and_bound. rewrite (bind_ok _ (setup_run kw)). apply (kk_loop _ (kk_iter P solve PQ bs ss ce ladot num fmt fuel) fuel _ (mkTree (key_graph kw) None [])). }
  revert K. generalize (t_g (fst (branch_and_bound P solve PQ bs ss ce ladot num fmt fuel (new_tree kw)))). intros g (Nk & Ek & Ck & Tk).
  assert (T : g_type g = Directed) by exact Tk. split; [|split; [|split; [|split]]].
  - intros c l k H. unfold obs, get_node_attr. cbn [snd]. rewrite Nk. unfold key_nodes in H. cbn [In] in H. repeat (destruct H as [H|H]; [injection H as <- <- <-; repeat split; reflexivity|]). destruct H.
  - intros c d. unfold check_edge. rewrite T. assert (E : dmem (g_edges g) (NS c, NS d) = dmem (g_edges (key_graph kw)) (NS c, NS d)) by (unfold dmem; rewrite Ek; reflexivity).
    rewrite E, dmem_In. change (dkeys (g_edges (key_graph kw))) with [(NS "C", NS "I"); (NS "I", NS "S"); (NS "S", NS "P")]. unfold key_arcs. cbn [In]. split; intros H.
    + repeat (destruct H as [H|H]; [injection H as <- <-; tauto|]). destruct H.
    + repeat (destruct H as [H|H]; [injection H as <- <-; tauto|]). destruct H.
  - intros c d H. unfold obs, get_edge_attr. cbn [snd]. rewrite T, Ek. unfold key_arcs in H. cbn [In] in H. repeat (destruct H as [H|H]; [injection H as <- <-; split; reflexivity|]). destruct H.
  - intros c. unfold contains_node. assert (E : dmem (g_nodes g) (NS c) = dmem (g_nodes (key_graph kw)) (NS c)) by (unfold dmem; rewrite Nk; reflexivity).
    rewrite E, dmem_In. change (dkeys (g_nodes (key_graph kw))) with [NS "C"; NS "I"; NS "S"; NS "P"]. cbn [key_nodes map fst In]. split; intros H.
    + repeat (destruct H as [H|H]; [injection H as <-; tauto|]). destruct H.
    + repeat (destruct H as [H|H]; [subst c; tauto|]). destruct H.
  - exact Ck.
Qed.
Print Assumptions C62_key.

(* a run that adds nodes to the tree beside the key *)
Example C62_key_nonvacuous :
  match branch_and_bound P1 solve1 list_queue MostFrac DepthFirst false false num0 fmt0 4 (new_tree []) with
  | (t, Ok _) => get_node_list (t_g t) = [NS "C"; NS "I"; NS "S"; NS "P"; NI 0] /\ get_edge_list (t_g t) = [(NS "C", NS "I"); (NS "I", NS "S"); (NS "S", NS "P")]
  | _ => False
  end.
Proof. set (m := branch_and_bound _ _ _ _ _ _ _ _ _ _ _). cbv in m. subst m. split; reflexivity. Qed.
