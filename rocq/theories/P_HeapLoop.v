(* Deleting edges while iterating over the live neighbour list (M_Heap.v). *)
From Verif Require Import Py M_Graph M_Heap S_Heap P_Graph P_GraphLaws P_Heap.
Set Implicit Arguments. Unset Strict Implicit.
Local Open Scope string_scope. Local Open Scope list_scope.

Lemma filter_out (f : name -> bool) x pre rest : f x = false -> (forall y, In y (pre ++ rest) -> f y = true) ->
  filter f (pre ++ x :: rest) = pre ++ rest.
Proof.
  intros Fx H. rewrite filter_app. cbn [filter]. rewrite Fx. rewrite <- filter_app. apply forallb_filter_id. apply forallb_forall. exact H.
Qed.
Definition simple_at (g : graph) (n : name) : Prop := g_type g = Directed \/ check_edge g n n = false.
Lemma nbrs_nodup g n : wf g -> simple_at g n -> NoDup (list_at (g_nbrs g) n).
Proof.
  intros W S. apply (NoDup_count_occ eq_dec). intros m. rewrite (wf_nbrs W). unfold nb_count.
  destruct (g_type g) eqn:T; [destruct (dmem _ _); cbn; lia|]. destruct S as [S|S]; [congruence|].
  destruct (dmem (g_edges g) (n, m)) eqn:A; [|destruct (dmem (g_edges g) (m, n)); cbn; lia]. destruct (dmem (g_edges g) (m, n)) eqn:B; [|cbn; lia]. exfalso.
  apply dmem_In in A, B. destruct (eq_dec n m) as [<-|D]; [|exact (wf_anti W T D A B)].
  unfold check_edge in S. rewrite T in S. apply dmem_In in A. rewrite A in S. discriminate.
Qed.
Lemma check_list g g' n x y : get_edge_list g' = filter (fun e => negb (eqb e (n, x) || match g_type g with Undirected => eqb e (x, n) | Directed => false end)) (get_edge_list g) ->
  g_type g' = g_type g -> ~ (n = fst y /\ x = snd y) -> ~ (g_type g = Undirected /\ n = snd y /\ x = fst y) ->
  check_edge g' (fst y) (snd y) = check_edge g (fst y) (snd y).
Proof.
  intros El T H1 H2. destruct y as [p q]. cbn [fst snd] in *.
  assert (X : forall e, e <> (n, x) -> (g_type g = Undirected -> e <> (x, n)) -> dmem (g_edges g') e = dmem (g_edges g) e).
  { intros e D1 D2. destruct (dmem (g_edges g) e) eqn:D.
    - apply dmem_In. apply dmem_In in D. change (In e (get_edge_list g')). rewrite El. apply filter_In. split; [exact D|].
      apply negb_true_iff, orb_false_iff. split; [apply eqb_false; exact D1|]. destruct (g_type g); [reflexivity|]. apply eqb_false. auto.
    - apply dmem_nIn. apply dmem_nIn in D. intros Hi. apply D. change (In e (get_edge_list g')) in Hi. rewrite El in Hi. apply filter_In in Hi. apply Hi. }
  unfold check_edge. rewrite T. destruct (g_type g) eqn:Ty.
  - apply X; [intros [= -> ->]; tauto|discriminate].
  - f_equal; apply X; first [intros _ [= -> ->]|intros [= -> ->]]; first [now apply H1|now apply H2].
Qed.
Lemma loop_step g n pre x rest : wf g -> simple_at g n -> list_at (g_nbrs g) n = pre ++ x :: rest ->
  exists g', del_edge n x g = (g', Ok tt) /\ wf g' /\ simple_at g' n /\ list_at (g_nbrs g') n = pre ++ rest /\ g_type g' = g_type g /\
    (forall p q, p <> n -> q <> n -> check_edge g' p q = check_edge g p q).
Proof.
  intros W S L. assert (C : check_edge g n x = true) by (apply nbr_check_edge; [exact W|rewrite L; apply in_elt]).
  destruct (del_edge_views W C) as (g' & E & W' & T & Nl & Cx & El & _ & _ & Nb & _). exists g'.
  pose proof (nbrs_nodup W S) as ND. rewrite L in ND. pose proof (NoDup_remove_2 _ _ _ ND) as Nx.
  split; [exact E|]. split; [exact W'|]. 
  assert (Same : forall p q, ~ (n = p /\ x = q) -> ~ (g_type g = Undirected /\ n = q /\ x = p) -> check_edge g' p q = check_edge g p q)
    by (intros p q H1 H2; exact (@check_list g g' n x (p, q) El T H1 H2)).
  split; [|split; [|split; [exact T|]]].
  - destruct S as [S|S]; [left; congruence|right]. destruct (eq_dec n x) as [<-|D]; [exact Cx|]. rewrite Same; [exact S|intros [_ H]; congruence|intros (_ & _ & H); congruence].
  - destruct (check_edge_nodes W C) as [Hn _]. pose proof (Nb n _ (obs_neighbors_in Hn)) as X.
    rewrite obs_neighbors_in in X by (rewrite Nl; exact Hn). injection X as ->. rewrite L. apply filter_out; [exact Cx|].
    intros y Hy. rewrite Same; [apply nbr_check_edge; [exact W|rewrite L; apply in_app_iff; apply in_app_iff in Hy as [H|H]; [left; exact H|right; right; exact H]]|intros [_ <-]; contradiction|].
    intros (U & <- & <-). destruct S as [S|S]; [congruence|]. congruence.
  - intros p q Hp Hq. apply Same; [intros [H _]; congruence|intros (_ & H & _); congruence].
Qed.
Lemma fst_snd {A B} (p : A * B) a b : fst p = a -> snd p = b -> p = (a, b).
Proof. destruct p. cbn. congruence. Qed.
Lemma loop_run n a : forall fuel rest pre s, owns s -> wf (graph_of s) -> simple_at (graph_of s) n -> dget (o_nbrs s) n = Some a ->
  o_lists s a = pre ++ rest -> length rest < fuel ->
  exists s', list_for fuel (length pre) a (fun m => o_del_edge n m) s = (s', Ok tt) /\ owns s' /\ wf (graph_of s') /\ dget (o_nbrs s') n = Some a /\
    o_lists s' a = pre ++ odds rest /\ o_type s' = o_type s /\ (forall p q, p <> n -> q <> n -> check_edge (graph_of s') p q = check_edge (graph_of s) p q).
Proof.
  induction fuel as [|f IH]; intros rest pre s O W S D L F; [lia|]. cbn [list_for]. unfold bind at 1, gets. rewrite L.
  destruct rest as [|x rest].
  { rewrite app_nil_r in *. rewrite (proj2 (nth_error_None pre (length pre)) (le_n _)). exists s. cbn [odds]. rewrite app_nil_r. split; [reflexivity|]. auto 10. }
  rewrite nth_error_app2, Nat.sub_diag by lia. cbn [nth_error].
  assert (L' : list_at (g_nbrs (graph_of s)) n = pre ++ x :: rest) by (rewrite (list_at_nbrs D); exact L).
  destruct (loop_step W S L') as (g' & E & W' & S' & Lg & T & Sm).
  destruct (t_del_edge n x O) as [O1 E1]. rewrite E in E1. injection E1 as -> E1. destruct (@c_del_edge None n x s) as (K & _ & Ty).
  destruct (o_del_edge n x s) as [s1 r] eqn:Eo. cbn [fst snd] in *. subst r. rewrite (bind_ok _ Eo).
  destruct (K n a ltac:(discriminate) D) as (D1 & _ & _).
  assert (L1 : o_lists s1 a = pre ++ rest) by (rewrite <- (list_at_nbrs D1); exact Lg).
  destruct rest as [|y rest].
  - destruct f as [|f']; [cbn in F; lia|]. rewrite app_nil_r in L1. exists s1. cbn [list_for odds]. unfold bind, gets. rewrite L1.
    rewrite (proj2 (nth_error_None pre (Datatypes.S (length pre))) ltac:(lia)), app_nil_r. split; [reflexivity|]. auto 10.
  - change (y :: rest) with ([y] ++ rest) in L1. rewrite app_assoc in L1. replace (Datatypes.S (length pre)) with (length (pre ++ [y])) by (rewrite app_length; cbn; lia).
    destruct (IH rest (pre ++ [y]) s1 O1 W' S' D1 L1 ltac:(cbn in F; lia)) as (s2 & E2 & O2 & W2 & D2 & L2 & T2 & S2).
    exists s2. split; [exact E2|]. cbn [odds]. rewrite <- app_assoc in L2. split; [exact O2|]. split; [exact W2|]. split; [exact D2|]. split; [exact L2|]. split; [congruence|].
    intros p q Hp Hq. rewrite S2, Sm by assumption. reflexivity.
Qed.
