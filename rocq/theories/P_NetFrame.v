(* The network simplex method changes no attribute of nodes but 'color' and 'potential'. *)
From Verif Require Import Py Util M_Graph P_Graph P_GraphLaws P_Attr M_Search M_Flow M_MinCost M_Simplex M_NetSimplex P_Pok P_EdgeFrame.
Set Implicit Arguments. Unset Strict Implicit.
Local Open Scope string_scope. Local Open Scope list_scope.

Section Frame.
  Variable d : name -> string -> val.
  Definition kept (h : graph) : Prop := (forall x a, a <> "potential" -> a <> "color" -> nattr h x a = d x a) /\ dget (g_attr h) "display" <> None.
  Definition keep {A} (m : M graph A) : Prop := forall h, kept h -> kept (fst (m h)).

  Lemma kp_ret {A} (a : A) : keep (ret a).
  Proof. intros h H. exact H. Qed.
  Lemma kp_fail {A} e : keep (fail e : M graph A).
  Proof. intros h H. exact H. Qed.
  Lemma kp_gets {A} (f : graph -> A) : keep (gets f).
  Proof. intros h H. exact H. Qed.
  Lemma kp_lift {A} (x : option A) e : keep (lift x e).
  Proof. intros h H. destruct x; exact H. Qed.
  Lemma kp_bind {A B} (m : M graph A) (f : A -> M graph B) : keep m -> (forall a, keep (f a)) -> keep (bind m f).
  Proof. intros Hm Hf h H. change (always (bind m f) h kept); apply always_bind; [apply (Hm h H)|]. intros a s _ H'. apply (Hf a s H'). Qed.
  Lemma kp_foldM {A B} (f : B -> A -> M graph B) l b : (forall b a, keep (f b a)) -> keep (foldM f l b).
  Proof. intros Hf h H. change (always (foldM f l b) h kept); apply always_foldM; [exact H|]. intros b' a s _ H'. apply (Hf b' a s H'). Qed.
  Lemma kp_forM {A} (f : A -> M graph unit) l : (forall a, keep (f a)) -> keep (forM_ l f).
  Proof. intros Hf. apply kp_foldM. auto. Qed.
  Lemma kp_loop {L R} fuel (body : L -> M graph (L + R)) l : (forall l, keep (body l)) -> keep (loop fuel body l).
  Proof. intros Hf h H. change (always (loop fuel body l) h kept); apply always_loop; [exact H|]. intros b' s H'. apply (Hf b' s H'). Qed.
  Lemma kp_ask {A} (m : M graph A) r : keep (ask m r).
  Proof. intros h H. exact H. Qed.
  Lemma kp_on {A} (m : M graph A) r : keep (on m r).
  Proof. intros h H. unfold on. destruct (m r) as [r' [a|e]]; exact H. Qed.
  Lemma kp_call {A} (m : M graph A) r : keep (call m r).
  Proof. intros h H. unfold call. destruct (m r) as [r' [a|e]]; exact H. Qed.
  Lemma kp_get_node n a : keep (get_node_attr n a).
  Proof. intros h H. exact H. Qed.
  Lemma kp_get_edge n m a : keep (get_edge_attr n m a).
  Proof. intros h H. exact H. Qed.
  Lemma kp_edge_get e a : keep (edge_get e a).
  Proof. intros h H. exact H. Qed.
  Lemma kp_nbr n : keep (nbr_list n).
  Proof. intros h H. exact H. Qed.
  Lemma kp_in n : keep (in_list n).
  Proof. intros h H. unfold in_list, in_dict, bind. destruct (g_type h); cbn; [destruct (dget (g_in h) n); exact H|exact H]. Qed.
  Lemma kp_edge_set e a v : keep (edge_set e a v).
  Proof. intros h H. unfold edge_set. destruct (dget (g_edges h) e); exact H. Qed.
  Lemma kp_set_edge n m a v : keep (set_edge_attr n m a v).
  Proof. intros h H. unfold set_edge_attr. repeat match goal with |- context [match ?x with _ => _ end] => destruct x end; exact H. Qed.
  Lemma kp_set_pot n v : keep (set_node_attr n "potential" v).
  Proof.
    intros h H. unfold set_node_attr. destruct (dget (g_nodes h) n) as [dn|] eqn:E; [|exact H]. destruct H as [H H']. split; [|exact H'].
    intros x a Ha Hc. rewrite <- (H x a Ha Hc). unfold nattr. cbn. rewrite dget_dset. destruct (eq_dec n x) as [<-|]; [|reflexivity]. rewrite E, dget_dset_ne by congruence. reflexivity.
  Qed.
  Lemma kp_display v : keep (set_graph_attr "display" v).
  Proof. intros h [H H']. split; [exact H|]. cbn. rewrite dget_dset_eq. discriminate. Qed.

  Create HintDb kept.
  Hint Resolve kp_ret kp_fail kp_gets kp_lift kp_ask kp_on kp_call kp_get_node kp_get_edge kp_edge_get kp_edge_set kp_set_edge kp_set_pot kp_display kp_nbr kp_in : kept.
  Ltac kp := repeat lazymatch goal with
    | |- keep (bind _ _) => apply kp_bind; [|intros ?]
    | |- keep (foldM _ _ _) => apply kp_foldM; intros ? ?
    | |- keep (forM_ _ _) => apply kp_forM; intros ?
    | |- keep (loop _ _ _) => apply kp_loop; intros ?
    | |- keep (let x := _ in _) => cbv zeta
    | |- keep (match ?x with _ => _ end) => destruct x
    | |- keep _ => solve [auto with kept nocore]
    end.
  Lemma kp_as_int v : keep (as_int v).
  Proof. unfold as_int. kp. Qed.
  Lemma kp_node_of v : keep (node_of v).
  Proof. unfold node_of. kp. Qed.
  Hint Resolve kp_as_int kp_node_of : kept.
  Lemma kp_flow_label e : keep (flow_label e).
  Proof. unfold flow_label. kp. Qed.
  Hint Resolve kp_flow_label : kept.
  Lemma kp_solution_graph : keep get_simplex_solution_graph.
  Proof. unfold get_simplex_solution_graph. kp. Qed.
  Hint Resolve kp_solution_graph : kept.
  Lemma kp_augment_cycle a l : keep (augment_cycle a l).
  Proof. unfold augment_cycle, augment_pair. kp. Qed.
  Hint Resolve kp_augment_cycle : kept.
  Lemma kp_simplex_augment l : keep (simplex_augment_cycle l).
  Proof. unfold simplex_augment_cycle, pair_room. kp. Qed.
  Hint Resolve kp_simplex_augment : kept.
  Lemma kp_link n l : keep (find_link n l).
  Proof. induction l as [|m l IH]; cbn [find_link]; kp. Qed.
  Hint Resolve kp_link : kept.
  Lemma kp_new_link r x sep l : keep (find_new_link r x sep l).
  Proof. induction l as [|m l IH]; cbn [find_new_link]; kp. Qed.
  Hint Resolve kp_new_link : kept.
  Lemma kp_connect fuel r : keep (simplex_connect fuel r).
  Proof. unfold simplex_connect. kp. Qed.
  Hint Resolve kp_connect : kept.
  Lemma kp_find_tree fuel : keep (simplex_find_tree fuel).
  Proof.
    unfold simplex_find_tree, break_cycles, copy_attrs. kp.
  Qed.
  Hint Resolve kp_find_tree : kept.
  Lemma kp_mark t : keep (simplex_mark_st_arcs t).
  Proof. unfold simplex_mark_st_arcs. kp. Qed.
  Hint Resolve kp_mark : kept.
  Lemma kp_potentials fuel t root : keep (simplex_compute_potentials fuel t root).
  Proof. unfold simplex_compute_potentials. kp. Qed.
  Hint Resolve kp_potentials : kept.
  Lemma kp_leaving fuel t k l : keep (simplex_determine_leaving_arc fuel t k l).
  Proof. unfold simplex_determine_leaving_arc, simplex_identify_cycle, tree_pred, leaving_step. kp. Qed.
  Hint Resolve kp_leaving : kept.
  Lemma kp_remove t p q m l : keep (simplex_remove_arc t p q m l).
  Proof. unfold simplex_remove_arc, pivot_pair, update_attrs. kp. Qed.
  Hint Resolve kp_remove : kept.
  Lemma kp_violation e : keep (violation e).
  Proof. unfold violation. kp. Qed.
  Hint Resolve kp_violation : kept.
  Lemma kp_optimal t : keep (simplex_optimal t).
  Proof. unfold simplex_optimal. apply kp_bind; [apply kp_gets|]. intros es. induction es as [|e es IH]; cbn [optimal_from]; [apply kp_ret|]. kp. Qed.
  Hint Resolve kp_optimal : kept.
  Lemma kp_select t p : keep (simplex_select_entering_arc t p).
  Proof. unfold simplex_select_entering_arc, candidates. kp. Qed.
  Hint Resolve kp_select : kept.
  Lemma kp_pivot fuel display pivot root t : keep (pivot_step fuel display pivot root t).
  Proof. unfold pivot_step. kp. Qed.
  Hint Resolve kp_pivot : kept.
End Frame.
Global Hint Resolve kp_ret kp_fail kp_gets kp_lift kp_ask kp_on kp_call kp_get_node kp_get_edge kp_edge_get kp_edge_set kp_set_edge kp_set_pot kp_display kp_nbr kp_in
  kp_as_int kp_node_of kp_find_tree kp_mark kp_potentials kp_leaving kp_remove kp_optimal kp_select kp_pivot : kept.
Ltac kp := repeat lazymatch goal with
  | |- keep _ (bind _ _) => apply kp_bind; [|intros ?]
  | |- keep _ (foldM _ _ _) => apply kp_foldM; intros ? ?
  | |- keep _ (forM_ _ _) => apply kp_forM; intros ?
  | |- keep _ (loop _ _ _) => apply kp_loop; intros ?
  | |- keep _ (let x := _ in _) => cbv zeta
  | |- keep _ (match ?x with _ => _ end) => destruct x
  | |- keep _ _ => solve [auto with kept nocore]
  end.
Lemma pok_keep (B0 : Prop) d {A} (m : M graph A) h (Q : A -> graph -> Prop) : keep d m -> kept d h -> tpk B0 m h Q -> tpk B0 m h (fun r h' => Q r h' /\ kept d h').
Proof.
  intros K H P. apply tpk_elim in P as [P|(h' & a & E & P)]; [left; exact P|right]. apply (ok_intro E). split; [exact P|]. specialize (K h H). rewrite E in K. exact K.
Qed.
