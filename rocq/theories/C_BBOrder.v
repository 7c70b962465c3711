(* C63: the order in which the branch and bound of examples/BB.py solves the nodes. *)
From Coq Require Import QArith Qround Qminmax Permutation Lqa.
From Verif Require Import Py Util M_Graph P_Graph P_GraphLaws P_Attr M_Flow M_Dot M_Tree S_Tree P_Tree M_BB S_BB P_BBLp P_BB P_BBRun P_BBLoop P_BBOrder C_BB.
Local Open Scope string_scope. Local Open Scope list_scope.

Section Theorems.
  Variable P : instance.
  Variable solve : Z -> list con -> lp_result.
  Variable PQ : pqueue.
  Variable pitems : pq PQ -> list (item * Q).
  Variable bs : branching.
  Variable ce ladot : bool.
  Variable num : Q -> val.
  Variable fmt : Q -> string.
  Hypothesis Ex : exact P solve.
  Hypothesis MQ : min_queue pitems.
  Hypothesis Hbs : bs <> OtherBranching.
  Local Notation n := (length (VARIABLES P)).
  Local Notation items := (fun q => map fst (pitems q)).

  Lemma order_run ss kw fuel : ss <> OtherSearch -> (2 ^ (n + 1) <= fuel)%nat ->
    exists t s ids f, branch_and_bound P solve PQ bs ss ce ladot num fmt fuel (new_tree kw) = (t, Ok s) /\ run P solve ce ladot s t [] ids /\ ord pitems ss num s t ids f.
  Proof.
    intros Hss Hf. pose proof (min_queue_laws MQ) as QL. destruct (inv_init P solve PQ items ce ladot QL kw) as [(ids0 & I0) M0]. pose proof (Nat.pow_nonzero 2 (n + 1) ltac:(lia)) as Hz.
    assert (Hn : (n < fuel)%nat) by (pose proof (Nat.pow_gt_lin_r 2 (n + 1) ltac:(lia)); lia).
    assert (ids0 = []) as ->. { pose proof (r_list I0) as H. change keys with (keys ++ @map Z name NI []) in H. symmetry in H. apply app_inv_head with (l := keys) in H. destruct ids0; [reflexivity|discriminate]. }
    assert (Eq : pitems (b_q (bb_init P PQ)) = [((0%Z, None), INFINITY)]).
    { pose proof (mq_push MQ (pq_empty PQ) (0%Z, None) INFINITY) as H. rewrite (mq_empty MQ) in H. apply Permutation_sym, Permutation_length_1_inv in H. exact H. }
    assert (O0 : ord pitems ss num (bb_init P PQ) (mkTree (key_graph kw) None []) [] (fun _ => 0)).
    { constructor.
      - discriminate.
      - intros it pr p H Hp. rewrite Eq in H. destruct H as [[= <- <-]|[]]. discriminate.
      - intros p [].
      - intros [|? ?] i post j pi pj H; discriminate.
      - intros [|? ?] i post it pr pi pj H; discriminate. }
    assert (O : ok (loop fuel (bb_iter P solve bs ss ce ladot num fmt fuel) (bb_init P PQ)) (mkTree (key_graph kw) None []) (fun s t => exists ids f, run P solve ce ladot s t [] ids /\ ord pitems ss num s t ids f)).
    { apply ok_loop with (I := fun s t => exists ids f, run P solve ce ladot s t (items (b_q s)) ids /\ ord pitems ss num s t ids f) (mu := mu P items); [exists [], (fun _ => 0); split; assumption|lia|].
      intros s t (ids & f & R & O). eapply ok_weaken; [apply (iter_run num fmt Ex QL Hbs Hss Hn (ex_intro _ ids R))|].
      intros [s'|s'] t' H; cbn beta iota in H.
      - split; [exact (ord_step MQ R O H)|exact (proj2 (stepped_inv H))].
      - destruct H as (-> & -> & E). rewrite E in R. exists ids, f. split; assumption. }
    apply ok_ex in O as (t & s & E & ids & f & R & O). exists t, s, ids, f. split; [|split; assumption]. unfold branch_and_bound. rewrite (bind_ok _ (setup_run kw)). exact E.
  Qed.
  Lemma child_level (s : bb PQ) t ids i p : run P solve ce ladot s t [] ids -> In i ids -> nattr (t_g t) (NI i) "parent" = VI p -> nattr (t_g t) (NI i) "level" = VI (level (t_g t) p + 1).
  Proof.
    intros R Hi Hp. destruct (r_shape R Hi) as (cs & S & _). inversion S as [? ? S0 E1 E2|k p' c cs' ? ? ? ? ? S1 S2 ? S' E1 E2]; subst; [congruence|]. rewrite S1 in Hp. injection Hp as <-.
    unfold level. rewrite (sub_level S'), S2. cbn [length]. f_equal. lia.
  Qed.
  Lemma has_parent (s : bb PQ) t ids f pre i post ss : run P solve ce ladot s t [] ids -> ord pitems ss num s t ids f -> ids = pre ++ i :: post -> pre <> [] -> exists pi, nattr (t_g t) (NI i) "parent" = VI pi.
  Proof.
    intros R O Es Hp. assert (Hi : In i ids) by (rewrite Es; apply in_app_iff; right; left; reflexivity).
    destruct (r_shape R Hi) as (cs & S & _). inversion S as [? ? S0 E1 E2|k p' c cs' ? ? ? ? ? S1 S2 ? S' E1 E2]; subst; [|exists p'; exact S1].
    destruct pre as [|x pre]; [congruence|]. pose proof (o_first O eq_refl) as ->. exfalso.
    pose proof (wf_nd (r_wf R)) as Hn. change (NoDup (get_node_list (t_g t))) in Hn. rewrite (r_list R) in Hn. apply NoDup_app_iff in Hn as (_ & Hn & _). apply NoDup_map_inv in Hn.
    cbn [app] in Hn. inversion Hn as [|? ? Hx _]; subst. apply Hx, in_app_iff. right. left. reflexivity.
  Qed.
  Lemma order_depth_first : forall kw fuel, (2 ^ (n + 1) <= fuel)%nat ->
    exists t s ids, branch_and_bound P solve PQ bs DepthFirst ce ladot num fmt fuel (new_tree kw) = (t, Ok s) /\
      get_node_list (t_g t) = [NS "C"; NS "I"; NS "S"; NS "P"] ++ map NI ids /\
      forall pre i post j pj li lj, ids = pre ++ i :: post -> In j post -> nattr (t_g t) (NI j) "parent" = VI pj -> In pj pre ->
        nattr (t_g t) (NI i) "level" = VI li -> nattr (t_g t) (NI j) "level" = VI lj -> (lj <= li)%Z.
  Proof.
    intros kw fuel Hf. destruct (order_run DepthFirst kw fuel ltac:(discriminate) Hf) as (t & s & ids & f & E & R & O). exists t, s, ids. split; [exact E|]. split; [exact (r_list R)|].
    intros pre i post j pj li lj Es Hj Hpj Hin Hli Hlj.
    assert (Hi : In i ids) by (rewrite Es; apply in_app_iff; right; left; reflexivity). assert (Hjd : In j ids) by (rewrite Es; apply in_app_iff; right; right; exact Hj).
    assert (Hpi : exists pi, nattr (t_g t) (NI i) "parent" = VI pi).
    { apply (has_parent s t ids f pre i post DepthFirst R O Es). intros ->. destruct Hin. }
    destruct Hpi as [pi Hpi]. pose proof (o_done O Es Hj Hpi Hpj Hin) as H. unfold pkey in H. rewrite <- Zle_Qle in H.
    rewrite (child_level s t ids i pi R Hi Hpi) in Hli. rewrite (child_level s t ids j pj R Hjd Hpj) in Hlj. injection Hli as <-. injection Hlj as <-. lia.
  Qed.
  Lemma order_best_first : forall kw fuel, (2 ^ (n + 1) <= fuel)%nat ->
    exists t s ids bound, branch_and_bound P solve PQ bs BestFirst ce ladot num fmt fuel (new_tree kw) = (t, Ok s) /\
      get_node_list (t_g t) = [NS "C"; NS "I"; NS "S"; NS "P"] ++ map NI ids /\
      (forall i, In i ids -> nattr (t_g t) (NI i) "obj" = num (bound i)) /\
      forall pre i post j pi pj, ids = pre ++ i :: post -> In j post -> nattr (t_g t) (NI i) "parent" = VI pi -> nattr (t_g t) (NI j) "parent" = VI pj -> In pj pre ->
        bound pi <= bound pj.
  Proof.
    intros kw fuel Hf. destruct (order_run BestFirst kw fuel ltac:(discriminate) Hf) as (t & s & ids & f & E & R & O). exists t, s, ids, f. split; [exact E|]. split; [exact (r_list R)|].
    split; [exact (o_obj O)|]. intros pre i post j pi pj Es Hj Hpi Hpj Hin. exact (o_done O Es Hj Hpi Hpj Hin).
  Qed.
End Theorems.
(** * C63. The queue pops an item of least priority ([min_queue]). *)
(* Depth first: when node i is solved, no node that waits then (its parent is already solved) is deeper. *)
Theorem C63_depth_first : forall (P : instance) (solve : Z -> list con -> lp_result) (PQ : pqueue) (pitems : pq PQ -> list (item * Q))
    (bs : branching) (ce ladot : bool) (num : Q -> val) (fmt : Q -> string),
  exact P solve -> min_queue pitems -> bs <> OtherBranching ->
  forall kw fuel, (2 ^ (length (VARIABLES P) + 1) <= fuel)%nat ->
    exists t s ids, branch_and_bound P solve PQ bs DepthFirst ce ladot num fmt fuel (new_tree kw) = (t, Ok s) /\
      get_node_list (t_g t) = [NS "C"; NS "I"; NS "S"; NS "P"] ++ map NI ids /\
      forall pre i post j pj li lj, ids = pre ++ i :: post -> In j post -> nattr (t_g t) (NI j) "parent" = VI pj -> In pj pre ->
        nattr (t_g t) (NI i) "level" = VI li -> nattr (t_g t) (NI j) "level" = VI lj -> (lj <= li)%Z.
Proof. intros P solve PQ pitems bs ce ladot num fmt Ex MQ Hbs. eapply order_depth_first; eassumption. Qed.
Print Assumptions C63_depth_first.
(* Best first: with a queue that pops the least priority, the node that is solved next has the worst LP bound (the
   obj of its parent) of all nodes that wait. *)
Theorem C63_best_first : forall (P : instance) (solve : Z -> list con -> lp_result) (PQ : pqueue) (pitems : pq PQ -> list (item * Q))
    (bs : branching) (ce ladot : bool) (num : Q -> val) (fmt : Q -> string),
  exact P solve -> min_queue pitems -> bs <> OtherBranching ->
  forall kw fuel, (2 ^ (length (VARIABLES P) + 1) <= fuel)%nat ->
    exists t s ids bound, branch_and_bound P solve PQ bs BestFirst ce ladot num fmt fuel (new_tree kw) = (t, Ok s) /\
      get_node_list (t_g t) = [NS "C"; NS "I"; NS "S"; NS "P"] ++ map NI ids /\
      (forall i, In i ids -> nattr (t_g t) (NI i) "obj" = num (bound i)) /\
      forall pre i post j pi pj, ids = pre ++ i :: post -> In j post -> nattr (t_g t) (NI i) "parent" = VI pi -> nattr (t_g t) (NI j) "parent" = VI pj -> In pj pre ->
        bound pi <= bound pj.
Proof. intros P solve PQ pitems bs ce ladot num fmt Ex MQ Hbs. eapply order_best_first; eassumption. Qed.
Print Assumptions C63_best_first.

Lemma list_queue_min : min_queue (PQ := list_queue) (fun q => q).
Proof.
  constructor.
  - reflexivity.
  - intros [|e q]; cbn; split; congruence.
  - intros q i p. apply Permutation_refl.
  - intros q Hq. destruct (take_min_some q Hq) as ([i p] & rest & E & Pm & Hm). exists i, p, rest. cbn [pq_pop list_queue]. rewrite E. split; [reflexivity|]. split; [exact Pm|]. rewrite Forall_forall in Hm. exact Hm.
Qed.
(* twice the value, to show halves as integers *)
Definition num2 (q : Q) : val := VI (Qfloor (2 * q)).
Definition order_of (ss : searching) := let '(t, r) := branch_and_bound P0 solve0 list_queue MostFrac ss false false num2 fmt0 8 (new_tree []) in
  map (fun i => (i, nattr (t_g t) i "parent", nattr (t_g t) i "level", nattr (t_g t) i "obj")) (skipn 4 (get_node_list (t_g t))).
Example C63_nonvacuous : exact P0 solve0 /\ min_queue (PQ := list_queue) (fun q => q) /\ (2 ^ (length (VARIABLES P0) + 1) <= 8)%nat.
Proof. split; [exact exact0|]. split; [exact list_queue_min|cbn; lia]. Qed.
(* A best-first search would continue with node 2, whose parent has the bound 8/2, and not with the nodes 5 and 4,
   whose parent has the bound 7/2. *)
Theorem C63_best_first_refuted : exact P0 solve0 /\ min_queue (PQ := list_queue) (fun q => q) /\
  order_of BestFirst = [(NI 0, VNone, VI 0, VI 8); (NI 3, VI 0, VI 1, VI 7); (NI 5, VI 3, VI 2, VI 19998); (NI 4, VI 3, VI 2, VI 4); (NI 2, VI 0, VI 1, VI 6)].
Proof. split; [exact exact0|]. split; [exact list_queue_min|]. vm_compute. reflexivity. Qed.
Print Assumptions C63_best_first_refuted.
