(* Branch and bound (C62): one iteration and the loop. *)
From Coq Require Import QArith Qround Qminmax Permutation Lqa.
From Verif Require Import Py Util M_Graph P_Graph P_GraphLaws P_Attr M_Flow M_Dot M_Tree S_Tree P_Tree M_BB S_BB P_BBLp P_BB P_BBRun.
Set Implicit Arguments. Unset Strict Implicit.
Local Open Scope string_scope. Local Open Scope list_scope.

Definition key_color (st : string) : string := if eqb st "C" then "yellow" else if eqb st "I" then "orange" else if eqb st "S" then "lightblue" else "red".
Lemma Qle_bool_false a b : Qle_bool a b = false -> b < a.
Proof. intros H. apply Qnot_le_lt. intros K. apply Qle_bool_iff in K. congruence. Qed.
Lemma fold_dset {V} (f : string -> V) : forall l d i, dget (fold_left (fun d i => dset d i (f i)) l d) i = if mem i l then Some (f i) else dget d i.
Proof.
  induction l as [|j l IH]; intros d i; [reflexivity|]. cbn [fold_left]. rewrite IH. cbn [mem]. destruct (eq_dec i j) as [->|Hn].
  - rewrite dget_dset. destruct (mem j l), (eq_dec j j); congruence.
  - rewrite dget_dset. destruct (eq_dec j i); [congruence|reflexivity].
Qed.

Section Loop.
  Variable P : instance.
  Variable solve : Z -> list con -> lp_result.
  Variable PQ : pqueue.
  Variable items : pq PQ -> list item.
  Variable bs : branching.
  Variable ss : searching.
  Variable ce : bool.
  Variable ladot : bool.
  Variable num : Q -> val.
  Variable fmt : Q -> string.
  Hypothesis Nd : NoDup (VARIABLES P).
  Hypothesis Ex : exact P solve.
  Hypothesis QL : queue_laws items.
  Hypothesis Hbs : bs <> OtherBranching.
  Hypothesis Hss : ss <> OtherSearch.
  Local Notation n := (length (VARIABLES P)).
  Local Notation sub := (subproblem ladot).
  Local Notation run := (@P_BBRun.run P solve PQ ce ladot).

  Lemma zero_one_integral v : integral P v = true <-> zero_one P v.
  Proof. apply integral_spec. Qed.
  (* what the statements between solve and the drawing compute *)
  Definition infeas (r : lp_result) : bool := match r with LpInfeasible => true | _ => false end.
  Definition bound (r : lp_result) : Q := match r with LpOptimal obj _ => obj | _ => INFINITY end.
  Definition isint (r : lp_result) : bool := match r with LpOptimal _ values => integral P values | _ => false end.
  Definition improves (r : lp_result) (lb : Q) : bool := isint r && negb (Qle_bool (bound r) lb).
  Definition newlb (r : lp_result) (lb : Q) : Q := if improves r lb then bound r else lb.
  Lemma assess cs k lb : cs_ok P cs -> let r := solve k cs in
    exists st, classify P ce (isint r) (infeas r) (if ce then newlb r lb - 1 else bound r) (newlb r lb) (Z.of_nat (length cs)) = (st, Some (key_color st)) /\
      verdict P ce lb r st (newlb r lb) /\
      (st <> "C" \/ st = "C" /\ exists obj v, r = LpOptimal obj v /\ integral P v = false /\ lp_feasible P cs v).
  Proof.
    intros Hok r. pose proof (Ex k (proj2 Hok)) as X. fold r in X. destruct r as [obj v| |]; [| |destruct X].
    - destruct X as (X1 & X2 & X3). cbn [isint infeas bound improves newlb]. unfold newlb, improves. cbn [isint bound]. unfold classify. destruct (integral P v) eqn:Ei; cbn [andb].
      + exists "S". split; [reflexivity|]. split; [|left; discriminate]. apply zero_one_integral in Ei. destruct (Qle_bool obj lb) eqn:El; cbn [negb].
        * apply v_solution; [exact Ei|apply Qle_bool_iff, El].
        * apply v_better; [exact Ei|apply Qle_bool_false, El].
      + assert (Ni : ~ zero_one P v) by (intros H; apply zero_one_integral in H; congruence).
        destruct (integral_false Ei) as (x & Hx & H0 & H1). assert (Lt : (length cs < n)%nat).
        { apply (@depth_bound P cs x Hok Hx). apply (branch_fresh X1 Hok Hx). apply frac_open; auto. apply (proj1 X1), Hx. }
        destruct (Z.of_nat n <=? Z.of_nat (length cs))%Z eqn:Ed; [apply Z.leb_le in Ed; lia|]. destruct ce eqn:Ece; cbn [negb andb].
        * exists "C". split; [reflexivity|]. split; [apply v_candidate; auto|]. right. split; [reflexivity|]. exists obj, v. auto.
        * destruct (Qle_bool obj lb) eqn:El; [exists "P"|exists "C"]; (split; [reflexivity|]); split.
          -- apply v_pruned; [exact Ni|reflexivity|apply Qle_bool_iff, El].
          -- left. discriminate.
          -- apply v_candidate; [exact Ni|right; apply Qle_bool_false, El].
          -- right. split; [reflexivity|]. exists obj, v. auto.
    - exists "I". unfold newlb, improves. cbn [isint infeas andb]. split; [reflexivity|]. split; [constructor|left; discriminate].
  Qed.

  (* the constraints of an item *)
  Lemma constraints_run s t it its ids cs fuel : run s t (it :: its) ids -> icons ladot (t_g t) it cs -> cs_ok P cs -> (n < fuel)%nat ->
    (match it with
     | (_, Some (parent, _, _, _)) => v <- ong (get_node_attr (NI parent) "level") ;; z <- match v with VI z => ret z | _ => fail TypeError end ;; ret (z + 1)%Z
     | (_, None) => ret 0%Z
     end) t = (t, Ok (Z.of_nat (length cs))) /\ constraints P fuel it t = (t, Ok cs).
  Proof.
    intros R Hc Hok Hf. pose proof (r_wf R) as W. destruct it as [j [[[[p x] se] r]|]]; cbn [icons] in Hc.
    - destruct Hc as (c & cs' & -> & -> & -> & -> & Hs). pose proof (sub_node W Hs) as Hp. split.
      + erewrite bind_ok by (apply ong_read; apply get_attr_run; assumption). rewrite (sub_level Hs). erewrite bind_ok by reflexivity. unfold ret. do 2 f_equal. cbn [length]. lia.
      + unfold constraints. pose proof (cs_length Hok) as Lc. destruct Hok as [_ F]. assert (F' : Forall (fixing P) cs') by (inversion F; assumption). assert (F1 : fixing P c) by (inversion F; assumption).
        assert (V : var P (bound_var c) t = (t, Ok (bound_var c))).
        { unfold var. replace (mem (bound_var c) (VARIABLES P)) with true; [reflexivity|]. symmetry. apply mem_In. destruct F1 as (y & Hy & [->| ->]); exact Hy. }
        rewrite (bind_ok _ V). unfold ancestors. assert (L : (length cs' < fuel)%nat) by (cbn in Lc; lia).
        erewrite bind_ok by (apply (ancestors_run W Hs F' [] L)). cbn [app]. unfold ret. do 2 f_equal. f_equal. destruct c; reflexivity.
    - subst cs. split; reflexivity.
  Qed.
  (* the node of an item is added *)
  Lemma add_to_tree_run s s0 t it its ids cs st label c relax : run s t (it :: its) ids -> icons ladot (t_g t) it cs -> cs_ok P cs -> b_iter s0 = b_iter s ->
    exists t' a, add_to_tree (PQ := PQ) ladot num s0 it st label c relax t = (t', Ok tt) /\ adds (t_g t) (t_g t') (fst it) (parent_of it) a /\ sub (t_g t') (fst it) cs /\
      aget a "status" = VS st /\ aget a "fillcolor" = VS c /\ aget a "obj" = num relax /\ aget a "parent" = match parent_of it with Some p => VI p | None => VNone end.
  Proof.
    intros R Hc Hok Es. pose proof (r_wf R) as W. pose proof (r_ty R) as D. destruct (r_its R (or_introl eq_refl)) as [H _]. unfold add_to_tree. rewrite Es, (r_iter R).
    assert (N : ~ In (fst it) ids -> ~ In (NI (fst it)) (get_node_list (t_g t))).
    { intros Hn. rewrite (r_list R). intros K. apply in_app_iff in K as [K|K]; [unfold keys in K; simpl in K; intuition discriminate|]. apply in_map_iff in K as (j & [= ->] & K). contradiction. }
    destruct it as [j [[[[p x] se] r]|]]; cbn [icons snd fst parent_of] in *.
    - destruct H as (B1 & B2 & B3). destruct Hc as (co & cs' & -> & -> & -> & -> & Hs). destruct ids as [|i0 ids']; [destruct B3|]. set (ids := i0 :: ids') in *.
      destruct (Z.of_nat (length ids) =? 0)%Z eqn:E0; [apply Z.eqb_eq in E0; cbn in E0; lia|].
      match goal with |- context [add_child (NI j) (NI p) ?a] => set (at0 := a) end. match goal with |- context [set_edge_attr _ _ "label" ?l] => set (lab := l) end.
      assert (Na : NoDup (dkeys at0)) by (unfold at0; cbn; repeat (constructor; [simpl; intuition discriminate|]); constructor).
      destruct (add_child_run lab W D Na (N B2) (sub_node W Hs) (sub_level Hs)) as (t' & E & A & L). exists t', (dset (dset at0 "level" (VI (Z.of_nat (length cs') + 1))) "parent" (VI p)). split; [exact E|]. split; [exact A|]. split; [|split; [|split; [|split]]; reflexivity].
      assert (At : forall b v, In b reads -> aget (dset (dset at0 "level" (VI (Z.of_nat (length cs') + 1))) "parent" (VI p)) b = v -> nattr (t_g t') (NI j) b = v) by (intros b v Hb <-; rewrite (ad_attr A), eqb_refl by exact Hb; reflexivity).
      apply sub_child with (p := p); [lia| | | | | | | |].
      + rewrite (ad_nbrs A). cbn [option_map]. rewrite eqb_refl. apply in_app_iff. right. left. reflexivity.
      + apply At; [inreads|reflexivity].
      + apply At; [inreads|reflexivity].
      + apply At; [inreads|reflexivity].
      + apply At; [inreads|reflexivity].
      + apply At; [inreads|]. cbn [length]. rewrite Nat2Z.inj_succ. reflexivity.
      + rewrite L. unfold lab. destruct ladot, co; reflexivity.
      + apply (sub_adds W A (N B2) Hs).
    - destruct H as [-> ->]. subst cs. cbn [length]. change (Z.of_nat 0 =? 0)%Z with true. cbn iota.
      match goal with |- context [add_root (NI 0) ?a] => set (at0 := a) end.
      assert (Na : NoDup (dkeys at0)) by (unfold at0; cbn; repeat (constructor; [simpl; intuition discriminate|]); constructor).
      destruct (add_root_run W D Na (N (fun x => x))) as (t' & E & A). exists t', (dset at0 "level" (VI 0)). split; [exact E|]. split; [exact A|]. split; [|split; [|split; [|split]]; reflexivity].
      constructor; [rewrite (ad_list A); apply in_app_iff; right; left; reflexivity| |]; rewrite (ad_attr A), eqb_refl by inreads; reflexivity.
  Qed.

  Definition inv (s : bb PQ) (t : tree) : Prop := exists ids, run s t (items (b_q s)) ids.
  Definition mu (s : bb PQ) (t : tree) : nat := nsum (map (weight P (t_g t)) (items (b_q s))).
  (* what one iteration does to the queue and to the tree *)
  Definition prio (cs : list con) (relax : Q) : Q := match ss with DepthFirst => inject_Z (- Z.of_nat (length cs) - 1) | _ => relax end.
  Definition stepped (s : bb PQ) (t : tree) (s' : bb PQ) (t' : tree) : Prop := exists ids it q cs relax a,
    items (b_q s) <> [] /\ pq_pop (b_q s) = Some (it, q) /\ run s t (it :: items q) ids /\ icons ladot (t_g t) it cs /\ adds (t_g t) (t_g t') (fst it) (parent_of it) a /\ sub (t_g t') (fst it) cs /\ aget a "obj" = num relax /\ aget a "parent" = match parent_of it with Some p => VI p | None => VNone end /\
    (b_q s' = q \/ exists x, b_q s' = pq_push (pq_push q ((b_nodes s + 1)%Z, Some (fst it, x, "<=", 0%Z)) (prio cs relax)) ((b_nodes s + 2)%Z, Some (fst it, x, ">=", 1%Z)) (prio cs relax)) /\
    run s' t' (items (b_q s')) (ids ++ [fst it]) /\ (mu s' t' < mu s t)%nat.
  Lemma iter_run fuel s t : (n < fuel)%nat -> inv s t ->
    ok (bb_iter P solve bs ss ce ladot num fmt fuel s) t (fun r t' => match r with
      | inl s' => stepped s t s' t'
      | inr s' => s' = s /\ t' = t /\ items (b_q s) = [] end).
  Proof.
    intros Hf (ids & R0). unfold bb_iter. destruct (pq_isEmpty (b_q s)) eqn:Ee.
    { apply ok_ret. apply (ql_isEmpty QL) in Ee. auto. }
    assert (Hne : items (b_q s) <> []) by (intros H; apply (ql_isEmpty QL) in H; congruence).
    destruct (ql_pop QL Hne) as (it & q & Ep & Pm). pose proof (run_perm Pm R0) as R.
    destruct (r_its R (or_introl eq_refl)) as [_ (cs & Hc & Hok)]. destruct (constraints_run R Hc Hok Hf) as [E1 E2].
    destruct (@assess cs (Z.of_nat (length ids)) (b_lb s) Hok) as (st & Ec & V & Hst). rewrite <- (r_lps R) in Ec, V, Hst.
    assert (Ht : forall (m : M tree (bb PQ + bb PQ)) Q', (exists t' r, m t = (t', Ok r) /\ Q' r t') -> ok m t Q') by (intros m Q' (t' & r & H1 & H2); exact (ok_intro H1 H2)). apply Ht.
    rewrite Ep. erewrite bind_ok by reflexivity. cbv beta iota. rewrite (bind_ok _ E1). rewrite (bind_ok _ E2). cbv beta zeta.
    set (r := solve (b_lps s) cs) in *.
    change (match r with LpInfeasible => true | _ => false end) with (infeas r).
    change (match r with LpOptimal obj _ => obj | _ => INFINITY end) with (bound r).
    change (match r with LpOptimal _ values => integral P values | _ => false end) with (isint r).
    change (isint r && negb (Qle_bool (bound r) (b_lb s))) with (improves r (b_lb s)).
    change (if improves r (b_lb s) then bound r else b_lb s) with (newlb r (b_lb s)). rewrite Ec. cbn [lift].
    erewrite bind_ok by reflexivity. set (relax := if ce then newlb r (b_lb s) - 1 else bound r) in *. set (label := if eqb st "I" then "I" else fmt relax).
    destruct (@add_to_tree_run s s t it (items q) ids cs st label (key_color st) relax R Hc Hok eq_refl) as (t1 & a & E3 & A & Sb & As & Af & Ao & Apa).
    rewrite (bind_ok _ E3).
    set (opt := match r with LpOptimal _ values => if improves r (b_lb s) then fold_left (fun d i => dset d i (values i)) (VARIABLES P) (b_opt s) else b_opt s | _ => b_opt s end).
    assert (Hb : exists x, (forall i, In i (VARIABLES P) -> dget opt i = Some (x i)) /\ ((newlb r (b_lb s) = -9999 # 1 /\ forall i, In i (VARIABLES P) -> x i = 0) \/ (solution P x /\ objective P x == newlb r (b_lb s)))).
    { unfold newlb. destruct (improves r (b_lb s)) eqn:Ei.
      - unfold improves in Ei. apply andb_true_iff in Ei as [Ei _]. pose proof (Ex (b_lps s) (proj2 Hok)) as X. fold r in X. unfold opt. destruct r as [obj v| |]; cbn [isint] in Ei; try discriminate. destruct X as (X1 & X2 & _).
        exists v. split; [intros i Hi; rewrite fold_dset; apply mem_In in Hi; rewrite Hi; reflexivity|]. right. split; [apply (feasible_solution X1 Ei)|]. symmetry. exact X2.
      - assert (opt = b_opt s) as -> by (unfold opt; destruct r; reflexivity). exact (r_best R). }
    assert (Hcol : ~ In (key_color st) reads) by (destruct V; vm_compute; intuition discriminate).
    assert (Hlen : Z.of_nat (length ids) = b_lps s) by (symmetry; apply (r_lps R)).
    assert (Mu : mu s t = nsum (map (weight P (t_g t)) (it :: items q))) by (apply nsum_perm, Permutation_map, Pm).
    destruct Hst as [Hst|(Hst & obj & v & Er & Ei & Fv)].
    - destruct (eqb_spec st "C") as [|_]; [contradiction|]. eexists _, _. split; [reflexivity|].
      edestruct (@run_next P solve PQ ce ladot Ex s t it (items q) ids (mkBB q (newlb r (b_lb s)) opt (b_nodes s) (b_iter s + 1) (b_lps s + 1) (Some (key_color st))) t1 cs a st []) as [R' Dm]; try eassumption; cbn [b_lb b_nodes b_iter b_lps b_color length]; try reflexivity; try exact Hb; auto.
      + rewrite Hlen. exact V.
      + lia.
      + intros c [= <-]. exact Hcol.
      + exists ids, it, q, cs, relax, a. repeat (split; [assumption|]). split; [left; reflexivity|]. split; [exact R'|]. rewrite Mu. exact Dm.
    - subst st. change (eqb "C" "C") with true. cbn iota. unfold branch. change (key_color "C") with "yellow" in *.
      destruct (@choose_ok P bs obj v t1 Hbs (proj1 Fv) Ei) as (x & Ex1 & Hx & Hvx). rewrite Er. unfold bind at 1. rewrite (bind_ok _ Ex1).
      assert (Epr : exists pr, pr = prio cs relax /\ (match ss with DepthFirst => ret (inject_Z (- Z.of_nat (length cs) - 1)) | BestFirst => ret relax | OtherSearch => fail NameError end) t1 = (t1, Ok pr)) by (unfold prio; destruct ss; [eexists; split; reflexivity|eexists; split; reflexivity|contradiction]).
      destruct Epr as (pr & Epr' & Epr). rewrite (bind_ok _ Epr). cbn [lift]. erewrite bind_ok by reflexivity. cbn [varValue]. erewrite bind_ok by reflexivity. cbv zeta. cbn [b_color lift b_q b_nodes b_lb b_opt b_iter b_lps].
      erewrite bind_ok by reflexivity. rewrite (floor_open Hvx), (ceil_open Hvx).
      assert (Hin : In (NI (fst it)) (get_node_list (t_g t1))) by (rewrite (ad_list A); apply in_app_iff; right; left; reflexivity).
      destruct (@adds_set (t_g t) (t_g t1) (fst it) (parent_of it) a (NI (fst it)) "yellow" (VS "green") A Hin Hcol) as (k & Ek & A' & Ks).
      erewrite bind_ok by (apply ong_run, Ek). set (t2 := mkTree k (t_root t1) (t_trace t1)).
      set (q1 := pq_push q _ pr). set (q2 := pq_push q1 _ pr). eexists t2, _. split; [reflexivity|].
      assert (Pm2 : Permutation (children (fst it) (b_nodes s) x ++ items q) (items q2)).
      { unfold q2, q1, children. apply Permutation_sym. etransitivity; [apply (ql_push QL)|]. etransitivity; [apply perm_skip, (ql_push QL)|]. apply perm_swap. }
      assert (Sb' : sub k (fst it) cs) by (apply Ks, Sb).
      edestruct (@run_next P solve PQ ce ladot Ex s t it (items q) ids (mkBB q2 (newlb r (b_lb s)) opt (b_nodes s + 2) (b_iter s + 1) (b_lps s + 1) (Some "yellow")) t2 cs a "C" (children (fst it) (b_nodes s) x)) as [R' Dm]; try eassumption; cbn [b_lb b_nodes b_iter b_lps b_color length]; try reflexivity; try exact Hb; auto.
      + rewrite Hlen. exact V.
      + intros c [= <-]. exact Hcol.
      + right. split; [reflexivity|]. exists x. split; [exact Hx|]. split; [|reflexivity]. apply (branch_fresh Fv Hok Hx Hvx).
      + rewrite <- Er. exists ids, it, q, cs, relax, a. repeat (split; [assumption|]). split; [right; exists x; unfold q2, q1; rewrite Epr'; reflexivity|]. split; [apply (run_perm Pm2), R'|]. rewrite Mu. unfold mu. cbn [b_q]. rewrite <- (nsum_perm (Permutation_map _ Pm2)). exact Dm.
  Qed.
  Lemma stepped_inv s t s' t' : stepped s t s' t' -> inv s' t' /\ (mu s' t' < mu s t)%nat.
  Proof. intros (ids & it & q & cs & relax & a & _ & _ & _ & _ & _ & _ & _ & _ & _ & R & M). split; [exists (ids ++ [fst it]); exact R|exact M]. Qed.
End Loop.
