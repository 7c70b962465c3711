(* max_flow_preflowpush: one iteration of the loop over active nodes, its invariant and its measure. *)
From Verif Require Import Py Util M_Graph M_Metrics P_Graph P_GraphLaws Spec P_Walk P_Attr M_Search S_Frontier P_Frontier M_Flow S_Flow S_GraphFlow P_Flow P_EdgeFrame P_MaxFlow M_Preflow P_PreflowAbs P_Preflow.
Set Implicit Arguments. Unset Strict Implicit.
Local Open Scope string_scope. Local Open Scope list_scope.

Section Loop.
  Variables (fr : frontier) (els : fq fr -> list name).
  Hypothesis B : bag els.
  Variable held : fq fr -> name -> bool.
  Hypothesis Held : forall q x, held q x = true <-> In x (els q).
  Variable al : pf_algo.
  Hypothesis Hal : al <> OtherPreflow.
  Hypothesis Hpq : al = HighestLabel -> fq_is_pq fr = true.
  Variable g0 : graph.
  Hypothesis W0 : wf g0.
  Hypothesis D0 : g_type g0 = Directed.
  Notation es := (get_edge_list g0).
  Notation nodes := (get_node_list g0).
  Notation N := (Z.of_nat (length nodes)).
  Notation fn := (name * name -> Z).
  Notation lab := (name -> Z).
  Variable c : fn.
  Variable dm : option val.
  Variables s t : name.
  Hypothesis Hs : In s nodes.
  Hypothesis Ht : In t nodes.
  Hypothesis Hst : s <> t.
  Notation PF := (P_Preflow.PF g0 c dm).
  Notation PS := (P_Preflow.PS g0 c dm).
  Notation inv := (P_PreflowAbs.inv es nodes c s t).
  Notation adj := (P_PreflowAbs.adj es).
  Notation adm := (P_PreflowAbs.adm es c).
  Notation push_f := (P_PreflowAbs.push_f es c).
  Notation push_e := (P_PreflowAbs.push_e es c).
  Notation ra := (P_PreflowAbs.ra es c).
  Notation resid := (P_PreflowAbs.resid es c).
  Notation A1 := (P_PreflowAbs.A1 es c).
  Notation M1 := (P_PreflowAbs.M1 nodes).
  Notation M2 := (P_PreflowAbs.M2 nodes).
  Notation mu := (P_PreflowAbs.mu es nodes c).
  Notation Q := (fq fr).
  Lemma Nes : NoDup es.
  Proof. apply (NoDup_es W0). Qed.
  Lemma Nn : NoDup nodes.
  Proof. exact (wf_nd W0). Qed.
  Notation Ends := (arc_nodes W0 D0).

  (** ** the loop over the neighbours of one node, as a function *)
  Definition qpush (q : Q) (n : name) : Q := if negb (held q n) && negb (eqb n s) && negb (eqb n t) then fq_push q n None else q.
  Definition fifo_al : bool := match al with FIFO => true | _ => false end.
  Fixpoint ploop (d : lab) (i : name) (l : list name) (f : fn) (e : lab) (q : Q) (last : option (bool * name)) : fn * lab * Q * option (bool * name) * bool :=
    match l with
    | [] => (f, e, q, last, true)
    | n :: l =>
      if adm f d i n then
        let f' := push_f f e i n in
        let e' := push_e f e i n in
        if fifo_al then
          if (e' i >? 0)%Z then ploop d i l f' e' (qpush q n) (Some (true, n)) else (f', e', qpush q n, Some (true, n), false)
        else (f', e', q, Some (true, n), false)
      else ploop d i l f e q (Some (false, n))
    end.
  Lemma push_loop_ok d i : In i nodes -> forall l, (forall m, In m l -> adj i m) -> forall f e q last h, PS f e d h ->
    ok (push_loop held al s t i l q last) h (fun r h' => let '(f', e', q', last', rl) := ploop d i l f e q last in r = (q', last', rl) /\ PS f' e' d h').
  Proof.
    intros Hi. induction l as [|n l IH]; intros Hl f e q last h P; cbn [push_loop ploop]; [apply ok_ret; auto|].
    assert (A : adj i n) by (apply Hl; left; reflexivity). assert (Hl' : forall m, In m l -> adj i m) by (intros m Hm; apply Hl; right; exact Hm).
    apply ok_bind. eapply ok_weaken; [apply (process_edge_flow_ok W0 D0 (proj1 P) A)|]. intros b h1 [-> P1].
    destruct (adm f d i n); [|subst h1; apply (IH Hl' _ _ _ _ _ P)].
    apply ok_bind. eapply ok_weaken; [apply (show_flow_ok W0 D0 P1)|]. intros ?u h2 P2. cbn beta in P2. unfold fifo_al. destruct al; try (apply ok_ret; auto).
    apply ok_bind, (ok_int_ex W0 (proj1 P2) Hi). unfold qpush. destruct (push_e f e i n i >? 0)%Z; [apply (IH Hl' _ _ _ _ _ P2)|apply ok_ret; auto].
  Qed.

  Section Term.
  Variable R : name -> bool.
  Hypothesis Rs : R s = true.
  Hypothesis Rstep : forall x y, In (x, y) es -> R x = true -> R y = true.
  Notation invT := (P_PreflowAbs.invT es nodes c R).

  Record LP (d : lab) (i : name) (l : list name) (f : fn) (e : lab) (q : Q) (f' : fn) (e' : lab) (q' : Q) (last' : option (bool * name)) (rl : bool) : Prop := {
    lp_inv : inv f' e' d;
    lp_keep : forall x, In x (els q) -> In x (els q');
    lp_new : forall x, In x (els q') -> In x (els q) \/ (In x l /\ d x = (d i - 1)%Z /\ x <> s);
    lp_nodup : NoDup (els q) -> NoDup (els q');
    lp_act : (forall x, In x nodes -> x <> s -> x <> t -> (0 < e x)%Z -> In x (els q)) ->
      forall x, In x nodes -> x <> s -> x <> t -> (0 < e' x)%Z -> In x (els q') \/ (fifo_al = false /\ last' = Some (true, x));
    lp_last : l <> [] -> exists b n, last' = Some (b, n) /\ In n l /\ (b = true -> d n = (d i - 1)%Z) /\ (fifo_al = false -> b = negb rl);
    lp_A : (A1 f' d <= A1 f d)%Z;
    lp_rl : rl = false -> (e' i <= 0)%Z \/ (fifo_al = false /\ (A1 f' d < A1 f d)%Z);
    lp_T : invT f d -> R i = true -> invT f' d;
    lp_R : invT f d -> R i = true -> (forall x, In x (els q) -> R x = true) ->
      (forall x, In x (els q') -> R x = true) /\ forall n, l <> [] -> last' = Some (true, n) -> R n = true;
    lp_frame : forall m, ~ In m l -> ra f' i m = ra f i m;
    lp_done : rl = true -> forall m, In m l -> adm f' d i m = false
  }.
  Lemma ra_push f e i n m : m <> n -> ra (push_f f e i n) i m = ra f i m.
  Proof.
    intros Hm. unfold P_PreflowAbs.ra. rewrite !push_f_arc. unfold the_arc.
    destruct (mem_spec (i, m) es), (mem_spec (i, n) es); repeat match goal with |- context [eqb ?a ?b] => destruct (eqb_spec a b) as [?E|?E] end; try reflexivity; exfalso; congruence.
  Qed.
  Lemma qpush_els q n x : In x (els (qpush q n)) <-> In x (els q) \/ (x = n /\ n <> s /\ n <> t).
  Proof.
    unfold qpush. destruct (held q n) eqn:Hh; cbn [negb andb].
    - apply Held in Hh. split; [auto|]. intros [H|[-> _]]; auto.
    - destruct (eqb_spec n s) as [->|]; cbn [negb andb]; [tauto|]. destruct (eqb_spec n t) as [->|]; cbn [negb]; [tauto|]. rewrite (bag_push B). tauto.
  Qed.
  Lemma qpush_nodup q n : NoDup (els q) -> NoDup (els (qpush q n)).
  Proof.
    intros H. unfold qpush. destruct (held q n) eqn:Hh; cbn [negb andb]; [exact H|]. destruct (negb _ && negb _); [|exact H].
    apply (push_nodup B); [exact H|]. intros K. apply Held in K. congruence.
  Qed.
  Lemma ploop_LP d i : In i nodes -> i <> s -> forall l, (forall m, In m l -> adj i m) -> forall f e q last, inv f e d ->
    let '(f', e', q', last', rl) := ploop d i l f e q last in
    LP d i l f e q f' e' q' last' rl /\ (l = [] -> last' = last).
  Proof.
    intros Hi His. induction l as [|n l IH]; intros Hl f e q last I; cbn [ploop].
    { split; [|reflexivity]. constructor; auto; try congruence; try lia; try (intros; contradiction). }
    assert (A : adj i n) by (apply Hl; left; reflexivity). assert (Hl' : forall m, In m l -> adj i m) by (intros m Hm; apply Hl; right; exact Hm).
    destruct (adm f d i n) eqn:Ad.
    - pose proof (push_inv Nes I A Hi His Ad) as I1. destruct (A1_push Nes I A Hi His Ad) as [A1le A1lt].
      destruct (adm_ne Ad) as (Hin & Hd & Hr).
      assert (Res : resid f i n). { apply (ra_resid A). pose proof (ra_bounds (iv_bounds I) A). lia. }
      assert (Ex : forall x, x <> n -> (push_e f e i n x <= e x)%Z).
      { intros x Hx. unfold P_PreflowAbs.push_e. rewrite upd_ne by exact Hx. unfold upd. destruct (eqb_spec x i) as [->|]; [|lia]. pose proof (amount_bounds I A Hi His). lia. }
      assert (Hn : In n nodes) by apply (adj_nodes W0 D0 c A).
      assert (AT : invT f d -> R i = true -> invT (push_f f e i n) d) by (intros T Ri; apply (push_invT I T A Hi His Ri Ad)).
      assert (AR : invT f d -> R i = true -> R n = true) by (intros T Ri; apply (resid_R Rstep T Ri Res)).
      destruct fifo_al eqn:Hfa.
      + assert (Act : (forall x, In x nodes -> x <> s -> x <> t -> (0 < e x)%Z -> In x (els q)) ->
          forall x, In x nodes -> x <> s -> x <> t -> (0 < push_e f e i n x)%Z -> In x (els (qpush q n))).
        { intros H x H1 H2 H3 H4. apply qpush_els. destruct (eq_dec x n) as [->|Hne]; [right; auto|left]. apply H; auto. pose proof (Ex x Hne). lia. }
        destruct (Z.gtb_spec (push_e f e i n i) 0) as [Hpos|Hpos].
        * specialize (IH Hl' (push_f f e i n) (push_e f e i n) (qpush q n) (Some (true, n)) I1).
          destruct (ploop d i l _ _ _ _) as [[[[f' e'] q'] last'] rl]. destruct IH as [L Hlast]. split; [|discriminate]. constructor.
          -- apply L.
          -- intros x Hx. apply (lp_keep L). apply qpush_els. auto.
          -- intros x Hx. destruct (lp_new L Hx) as [H|(H1 & H2 & H3)]; [|right; repeat split; auto; right; exact H1].
             apply qpush_els in H as [H|(-> & H & _)]; [left; exact H|]. right. split; [left; reflexivity|]. split; [lia|exact H].
          -- intros H. apply (lp_nodup L), qpush_nodup, H.
          -- intros H. apply (lp_act L), Act, H.
          -- intros _. destruct l as [|n' l].
             ++ exists true, n. rewrite (Hlast eq_refl). split; [reflexivity|]. split; [left; reflexivity|]. split; [intros _; lia|congruence].
             ++ destruct (lp_last L ltac:(discriminate)) as (b & m & H1 & H2 & H3 & H4). exists b, m. split; [exact H1|]. split; [right; exact H2|]. split; [exact H3|]. exact H4.
          -- pose proof (lp_A L). lia.
          -- intros H. destruct (lp_rl L H) as [H'|[H' _]]; [left; exact H'|congruence].
          -- intros T Ri. apply (lp_T L); auto.
          -- intros T Ri HR. assert (HR' : forall x, In x (els (qpush q n)) -> R x = true) by (intros x Hx; apply qpush_els in Hx as [Hx|(-> & _)]; auto).
             destruct (lp_R L (AT T Ri) Ri HR') as [H1 H2]. split; [exact H1|]. intros m _ Hm. destruct l as [|n' l]; [|apply H2; [discriminate|exact Hm]].
             rewrite (Hlast eq_refl) in Hm. injection Hm as <-. apply (AR T Ri).
          -- intros m Hm. rewrite (lp_frame L) by (intros H; apply Hm; right; exact H). apply ra_push. intros ->. apply Hm. left. reflexivity.
          -- intros H m [<-|Hm]; [|apply (lp_done L H Hm)]. destruct (in_dec eq_dec n l) as [Hnl|Hnl]; [apply (lp_done L H Hnl)|].
             unfold P_PreflowAbs.adm. rewrite (lp_frame L Hnl). replace (ra (push_f f e i n) i n) with 0%Z; [rewrite andb_false_r; reflexivity|].
             unfold P_PreflowAbs.push_e in Hpos. rewrite upd_ne in Hpos by exact Hin. rewrite upd_eq in Hpos.
             unfold P_PreflowAbs.ra. rewrite !push_f_arc. unfold the_arc, sgn. unfold amount in *. unfold P_PreflowAbs.ra in *. destruct (mem (i, n) es); rewrite eqb_refl; lia.
        * split; [|discriminate]. constructor.
          -- exact I1.
          -- intros x Hx. apply qpush_els. auto.
          -- intros x Hx. apply qpush_els in Hx as [H|(-> & H & _)]; [left; exact H|]. right. split; [left; reflexivity|]. split; [lia|exact H].
          -- apply qpush_nodup.
          -- intros H x H1 H2 H3 H4. left. apply Act; assumption.
          -- intros _. exists true, n. split; [reflexivity|]. split; [left; reflexivity|]. split; [intros _; lia|congruence].
          -- exact A1le.
          -- intros _. left. lia.
          -- exact AT.
          -- intros T Ri HR. split; [|intros m _ [= <-]; apply (AR T Ri)]. intros x Hx. apply qpush_els in Hx as [Hx|(-> & _)]; auto.
          -- intros m Hm. apply ra_push. intros ->. apply Hm. left. reflexivity.
          -- discriminate.
      + split; [|discriminate]. constructor.
        * exact I1.
        * auto.
        * auto.
        * auto.
        * intros H x H1 H2 H3 H4. destruct (eq_dec x n) as [->|Hne]; [right; auto|left]. apply H; auto. pose proof (Ex x Hne). lia.
        * intros _. exists true, n. split; [reflexivity|]. split; [left; reflexivity|]. split; [intros _; lia|reflexivity].
        * exact A1le.
        * intros _. destruct (Z_le_gt_dec (push_e f e i n i) 0) as [H|H]; [left; exact H|right]. split; [exact Hfa|]. apply A1lt. lia.
        * exact AT.
        * intros T Ri HR. split; [exact HR|intros m _ [= <-]; apply (AR T Ri)].
        * intros m Hm. apply ra_push. intros ->. apply Hm. left. reflexivity.
        * discriminate.
    - specialize (IH Hl' f e q (Some (false, n)) I). destruct (ploop d i l _ _ _ _) as [[[[f' e'] q'] last'] rl] eqn:Ep. destruct IH as [L Hlast]. split; [|discriminate]. constructor.
      + apply L.
      + apply (lp_keep L).
      + intros x Hx. destruct (lp_new L Hx) as [H|(H1 & H2 & H3)]; [left; exact H|right; repeat split; auto; right; exact H1].
      + apply (lp_nodup L).
      + apply (lp_act L).
      + intros _. destruct l as [|n' l].
        * cbn [ploop] in Ep. injection Ep as _ _ _ <- <-. exists false, n. split; [reflexivity|]. split; [left; reflexivity|]. split; [discriminate|reflexivity].
        * destruct (lp_last L ltac:(discriminate)) as (b & m & H1 & H2 & H3). exists b, m. split; [exact H1|]. split; [right; exact H2|exact H3].
      + apply (lp_A L).
      + apply (lp_rl L).
      + apply (lp_T L).
      + intros T Ri HR. destruct (lp_R L T Ri HR) as [H1 H2]. split; [exact H1|]. intros m _ Hm. destruct l as [|n' l]; [|apply H2; [discriminate|exact Hm]].
        rewrite (Hlast eq_refl) in Hm. discriminate.
      + intros m Hm. apply (lp_frame L). intros H; apply Hm; right; exact H.
      + intros H m [<-|Hm]; [|apply (lp_done L H Hm)]. destruct (in_dec eq_dec n l) as [Hnl|Hnl]; [apply (lp_done L H Hnl)|].
        unfold P_PreflowAbs.adm in *. rewrite (lp_frame L Hnl). exact Ad.
  Qed.

  (** ** one iteration *)
  Record LI (f : fn) (e d : lab) (q : Q) : Prop := {
    li_inv : inv f e d;
    li_nodup : NoDup (els q);
    li_q : forall x, In x (els q) -> In x nodes /\ x <> s /\ exists y, adj x y;
    li_act : forall x, In x nodes -> x <> s -> x <> t -> (0 < e x)%Z -> In x (els q)
  }.
  Record LT (f : fn) (d : lab) (q : Q) : Prop := {
    lt_inv : invT f d;
    lt_q : forall x, In x (els q) -> R x = true
  }.
  Lemma pf_push_ok a q n p h (Post : Q -> graph -> Prop) : a <> OtherPreflow -> (a = HighestLabel -> fq_is_pq fr = true) ->
    (forall q', ((exists pr, q' = fq_push q n pr) -> Post q' h)) -> ok (pf_push a q n p) h Post.
  Proof.
    clear. intros H1 H2 H. unfold pf_push. destruct a eqn:E; [apply ok_ret, H; eauto|apply ok_ret, H; eauto| |congruence].
    unfold push_prio. rewrite (H2 eq_refl). apply ok_ret, H. eauto.
  Qed.
  Lemma A1_ext f d d' : (forall x, d x = d' x) -> A1 f d = A1 f d'.
  Proof. intros H. unfold P_PreflowAbs.A1. apply zsum_ext. intros a _. unfold ad1. rewrite !H. reflexivity. Qed.
  Lemma M2_ext q d d' : (forall x, d x = d' x) -> M2 q d = M2 q d'.
  Proof. intros H. unfold P_PreflowAbs.M2. apply zsum_ext. intros a _. rewrite !H. reflexivity. Qed.
  Lemma no_adm_le f e d i : no_antiparallel g0 -> inv f e d -> invT f d -> R i = true -> (forall m, adj i m -> adm f d i m = false) -> forall j, resid f i j -> (d i <= d j)%Z.
  Proof.
    intros NA I T Ri H j Hj. pose proof (it_valid T Ri Hj) as V. destruct (Z.eq_dec (d i) (d j + 1)) as [E|]; [|lia]. exfalso.
    assert (A : adj i j) by (destruct Hj as [[Hj _]|[Hj _]]; [left|right]; exact Hj).
    specialize (H j A). unfold P_PreflowAbs.adm in H. rewrite (proj2 (Z.eqb_eq _ _) E) in H. cbn [andb] in H. apply negb_false_iff, Z.eqb_eq in H.
    unfold P_PreflowAbs.ra in H. destruct Hj as [[Hj Hf]|[Hj Hf]]; destruct (mem_spec (i, j) es) as [Hm|Hm]; try contradiction; try lia.
    assert (j = i) by (apply (NA j i Hj Hm)). subst. lia.
  Qed.

  Definition final_push (q3 : Q) (last1 : option (bool * name)) : M graph (Q * option (bool * name) + unit) :=
    '(pushed, m) <- lift last1 NameError ;;
    if pushed && negb (held q3 m) && negb (eqb m s) then
      match al with
      | SAP => q' <- pf_push al q3 m 0%Z ;; ret (inl (q', last1))
      | HighestLabel => dd <- node_int m "distance" ;; q' <- pf_push al q3 m (- dd)%Z ;; ret (inl (q', last1))
      | _ => ret (inl (q3, last1))
      end
    else ret (inl (q3, last1)).
  Definition iter_post (f : fn) (e d : lab) (q : Q) (r : Q * option (bool * name) + unit) (h' : graph) : Prop :=
    match r with
    | inl (q', last') => exists f' e' d', PS f' e' d' h' /\ LI f' e' d' q' /\
        (no_antiparallel g0 -> LT f d q -> LT f' d' q' /\ (mu f' d' (els q') < mu f d (els q))%Z)
    | inr _ => PS f e d h' /\ els q = []
    end.
  Lemma iter_ok f e d q last h : LI f e d q -> PS f e d h ->
    ok (preflow_iter held al s t (q, last)) h (iter_post f e d q).
  Proof.
    intros [I Hnd Hq Hact] PP. pose proof (proj1 PP) as P. unfold preflow_iter.
    destruct (fq_isEmpty q) eqn:Em; [apply ok_ret; split; [exact PP|apply (bag_empty B), Em]|].
    assert (Hne : els q <> []) by (intros K; apply (bag_empty B) in K; congruence).
    destruct (bag_peek B Hne) as (i & Hpk & Hiq). destruct (Hq i Hiq) as (Hi & His & y0 & Hy0).
    apply ok_bind, ok_lift with (a := i); [exact Hpk|].
    apply ok_bind, (ok_nbrs P Hi). apply ok_bind, (ok_ins W0 D0 P Hi).
    set (l := list_at (g_nbrs g0) i ++ list_at (g_in g0) i).
    assert (Hl : forall m, In m l <-> adj i m).
    { intros m. unfold l. rewrite in_app_iff, (out_arc W0 D0), (in_arc W0 D0). reflexivity. }
    assert (Hlne : l <> []) by (intros E; pose proof (proj2 (Hl y0) Hy0) as K; rewrite E in K; destruct K).
    apply ok_bind. eapply ok_weaken; [apply (push_loop_ok Hi (fun m H => proj1 (Hl m) H) q last PP)|].
    pose proof (ploop_LP Hi His (fun m H => proj1 (Hl m) H) q last I) as HL.
    destruct (ploop d i l f e q last) as [[[[f1 e1] q1] last1] rl]. destruct HL as [L _].
    intros [[q1' last1'] rl'] h1 [[= -> -> ->] P1].
    pose proof (lp_inv L) as I1. pose proof (lp_nodup L Hnd) as Nd1. pose proof (lp_keep L Hiq) as Hi1.
    destruct (remove_nodup B Nd1 Hi1) as (q2 & Hrm & Nd2 & Hq2).
    apply ok_bind, ok_lift with (a := q2); [exact Hrm|].
    destruct (lp_last L Hlne) as (b & n & Elast & Hn & Hbn & Hbr). apply Hl in Hn as An.
    assert (Hnn : In n nodes) by apply (adj_nodes W0 D0 c An).
    assert (Bd : LT f d q -> forall x, In x nodes -> (0 <= d x <= 2 * N + 2)%Z).
    { intros T x Hx. split; [apply (iv_dpos I Hx)|apply (it_max (lt_inv T) Hx)]. }
    (* the container after the removal and the reinsertion of i *)
    assert (Hq2' : forall x, In x (els q2) -> In x nodes /\ x <> s /\ exists y, adj x y).
    { intros x Hx. apply Hq2 in Hx as [Hx _]. destruct (lp_new L Hx) as [Ho|(Ho & _ & Hxs)]; [apply Hq, Ho|]. apply Hl in Ho.
      split; [apply (adj_nodes W0 D0 c Ho)|]. split; [exact Hxs|]. exists i. destruct Ho; [right|left]; assumption. }
    assert (Adjn : exists y, adj n y) by (exists i; destruct An; [right|left]; assumption).
    (* the last step: push n *)
    assert (Final : forall q3 f3 e3 d3 h3, PS f3 e3 d3 h3 -> inv f3 e3 d3 -> NoDup (els q3) ->
       (forall x, In x (els q3) -> In x nodes /\ x <> s /\ exists y, adj x y) ->
       (forall x, In x nodes -> x <> s -> x <> t -> (0 < e3 x)%Z -> In x (els q3) \/ (fifo_al = false /\ last1 = Some (true, x))) ->
       (forall q4, (forall x, In x (els q4) <-> In x (els q3) \/ (x = n /\ b = true /\ fifo_al = false /\ n <> s /\ ~ In n (els q3))) ->
          no_antiparallel g0 -> LT f d q -> LT f3 d3 q4 /\ (mu f3 d3 (els q4) < mu f d (els q))%Z) ->
       ok (final_push q3 last1) h3 (iter_post f e d q)).
    { intros q3 f3 e3 d3 h3 P3 I3 N3 Q3 A3 T3. unfold final_push. rewrite Elast. apply ok_bind, ok_lift with (a := (b, n)); [reflexivity|].
      assert (Stop : (forall x, x = n -> b = true -> fifo_al = false -> n <> s -> In n (els q3)) ->
        ok (ret (inl (q3, Some (b, n)) : Q * option (bool * name) + unit)) h3 (iter_post f e d q)).
      { intros K. apply ok_ret. exists f3, e3, d3. split; [exact P3|]. split.
        - constructor; auto. intros x H1 H2 H3 H4. destruct (A3 x H1 H2 H3 H4) as [H|[H5 H6]]; [exact H|]. rewrite Elast in H6. injection H6 as -> <-. apply (K n); auto.
        - apply T3. intros x. split; [auto|]. intros [H|(-> & H1 & H2 & H3 & H4)]; [exact H|]. exfalso. apply H4, (K n); auto. }
      destruct (b && negb (held q3 n) && negb (eqb n s)) eqn:Cond.
      2:{ apply Stop. intros x -> Hb _ Hns. rewrite Hb in Cond. cbn [andb] in Cond. destruct (eqb_spec n s); [contradiction|]. cbn [negb] in Cond. rewrite andb_true_r in Cond. apply negb_false_iff in Cond. apply Held, Cond. }
      apply andb_true_iff in Cond as [Cond Cs]. apply andb_true_iff in Cond as [Cb Ch]. apply negb_true_iff in Cs, Ch.
      assert (Hns : n <> s) by (destruct (eqb_spec n s); congruence).
      assert (Hn3 : ~ In n (els q3)) by (intros H; apply Held in H; congruence).
      assert (Go : fifo_al = false -> forall q4 pr, q4 = fq_push q3 n pr -> exists f' e' d', PS f' e' d' h3 /\ LI f' e' d' q4 /\
           (no_antiparallel g0 -> LT f d q -> LT f' d' q4 /\ (mu f' d' (els q4) < mu f d (els q))%Z)).
      { intros Hfa q4 pr ->. assert (Hq4 : forall x, In x (els (fq_push q3 n pr)) <-> x = n \/ In x (els q3)) by (intros x; apply (bag_push B)).
        exists f3, e3, d3. split; [exact P3|]. split.
        - constructor; [exact I3|apply (push_nodup B pr N3 Hn3)| |].
          + intros x Hx. apply Hq4 in Hx as [->|Hx]; auto.
          + intros x H1 H2 H3 H4. apply Hq4. destruct (A3 x H1 H2 H3 H4) as [H|[_ H6]]; [right; exact H|]. rewrite Elast in H6. injection H6 as _ <-. left; reflexivity.
        - apply T3. intros x. rewrite Hq4. subst b. tauto. }
      unfold fifo_al in Go, Stop. revert Go Stop. case_eq al; intros Eal Go Stop; [apply Stop; congruence| | |congruence].
      - apply ok_bind. apply pf_push_ok; [discriminate|discriminate|]. intros q4 [pr E4]. apply ok_ret. apply (Go eq_refl q4 pr E4).
      - apply ok_bind, (ok_int_di W0 (proj1 P3) Hnn). apply ok_bind. apply pf_push_ok; [discriminate|intros _; apply Hpq, Eal|]. intros q4 [pr E4]. apply ok_ret. apply (Go eq_refl q4 pr E4). }
    (* reinsertion of i *)
    apply ok_bind.
    destruct (eqb_spec i t) as [Hit|Hit].
    - (* the sink is dropped *)
      apply ok_ret. apply (Final q2 f1 e1 d h1 P1 I1 Nd2 Hq2').
      + intros x H1 H2 H3 H4. destruct (lp_act L Hact H1 H2 H3 H4) as [H|H]; [left|right; exact H]. apply Hq2. split; [exact H|congruence].
      + intros q4 Hq4 NA T. pose proof (lt_inv T) as T0. pose proof (lt_q T Hiq) as Ri. destruct (lp_R L T0 Ri (lt_q T)) as [R1 R2]. split.
        * constructor; [apply (lp_T L T0 Ri)|]. intros x Hx. apply Hq4 in Hx as [Hx|(-> & Hb & _)]; [apply R1, Hq2, Hx|]. apply (R2 n Hlne). rewrite Elast, Hb. reflexivity.
        * apply (mu_lex Nn Ends Hs Ht); [apply (Bd T)|apply (Bd T)|]. right; right. split; [lia|]. split; [apply (lp_A L)|].
          apply (@M2_step es nodes s t Nn Ends Hs Ht (els q) (els q4) d i); auto.
          -- apply (iv_dpos I).
          -- intros H. apply Hq4 in H as [H|(-> & Hb & _)]; [apply Hq2 in H; tauto|]. specialize (Hbn Hb). lia.
          -- intros x Hx. apply Hq4 in Hx as [Hx|(-> & Hb & _)]; [|right; apply Hbn, Hb]. apply Hq2 in Hx as [Hx _]. destruct (lp_new L Hx) as [H|(_ & H & _)]; auto.
    - assert (Go : forall d2 h2, PS f1 e1 d2 h2 -> inv f1 e1 d2 -> (forall x, x <> i -> d2 x = d x) -> (rl = false -> forall x, d2 x = d x) ->
        (no_antiparallel g0 -> LT f d q -> invT f1 d2) ->
        (no_antiparallel g0 -> LT f d q -> (M1 d2 < M1 d)%Z \/ ((forall x, d2 x = d x) /\ ((e1 i <= 0)%Z \/ (fifo_al = false /\ (A1 f1 d < A1 f d)%Z)))) ->
        ok (z <- node_int i "excess" ;;
            if (z >? 0)%Z then
                match al with
                | HighestLabel => dd <- node_int i "distance" ;; pf_push al q2 i (- dd)%Z
                | _ => pf_push al q2 i 0%Z
                end
              else ret q2) h2 (fun q3 h3 => ok (final_push q3 last1) h3 (iter_post f e d q))).
      { intros d2 h2 P2 I2 Hd2 Hdr HT HM. apply ok_bind, (ok_int_ex W0 (proj1 P2) Hi).
        assert (Bd2 : no_antiparallel g0 -> LT f d q -> forall x, In x nodes -> (0 <= d2 x <= 2 * N + 2)%Z).
        { intros NA T x Hx. split; [apply (iv_dpos I2 Hx)|apply (it_max (HT NA T) Hx)]. }
        assert (HR : no_antiparallel g0 -> LT f d q -> R i = true /\ (forall x, In x (els q1) -> R x = true) /\ (b = true -> R n = true)).
        { intros NA T. pose proof (lt_q T Hiq) as Ri. destruct (lp_R L (lt_inv T) Ri (lt_q T)) as [R1 R2]. split; [exact Ri|]. split; [exact R1|].
          intros Hb. apply (R2 n Hlne). rewrite Elast, Hb. reflexivity. }
        destruct (Z.gtb_spec (e1 i) 0) as [Hpos|Hpos].
        - assert (Ni2 : ~ In i (els q2)) by (intros H; apply Hq2 in H; tauto).
          assert (K : forall q3 pr, q3 = fq_push q2 i pr -> ok (final_push q3 last1) h2 (iter_post f e d q)).
          { intros q3 pr ->. assert (Hq3 : forall x, In x (els (fq_push q2 i pr)) <-> x = i \/ In x (els q2)) by (intros x; apply (bag_push B)).
            apply (Final (fq_push q2 i pr) f1 e1 d2 h2 P2 I2 (push_nodup B pr Nd2 Ni2)).
            - intros x Hx. apply Hq3 in Hx as [->|Hx]; [|apply Hq2', Hx]. split; [exact Hi|]. split; [exact His|eauto].
            - intros x H1 H2 H3 H4. destruct (lp_act L Hact H1 H2 H3 H4) as [H|H]; [left|right; exact H]. apply Hq3. destruct (eq_dec x i) as [->|]; [left; reflexivity|]. right. apply Hq2. auto.
            - intros q4 Hq4 NA T. destruct (HR NA T) as (Ri & R1 & R2). split.
              + constructor; [apply (HT NA T)|]. intros x Hx. apply Hq4 in Hx as [Hx|(-> & Hb & _)]; [|auto]. apply Hq3 in Hx as [->|Hx]; [exact Ri|]. apply R1, Hq2, Hx.
              + apply (mu_lex Nn Ends Hs Ht); [apply (Bd T)|apply (Bd2 NA T)|]. destruct (HM NA T) as [H|[Hsame [H|[_ H]]]]; [left; exact H|lia|]. right; left.
                split; [|rewrite (A1_ext f1 Hsame); exact H]. apply Z.eq_le_incl. unfold P_PreflowAbs.M1. apply zsum_ext. intros x _. rewrite Hsame. reflexivity. }
          case_eq al; intros Eal; [| | |congruence].
          + apply pf_push_ok; [discriminate|discriminate|]. intros q3 [pr E3]. apply (K q3 pr E3).
          + apply pf_push_ok; [discriminate|discriminate|]. intros q3 [pr E3]. apply (K q3 pr E3).
          + apply ok_bind, (ok_int_di W0 (proj1 P2) Hi). apply pf_push_ok; [discriminate|intros _; apply Hpq, Eal|]. intros q3 [pr E3]. apply (K q3 pr E3).
        - apply ok_ret. apply (Final q2 f1 e1 d2 h2 P2 I2 Nd2 Hq2').
          + intros x H1 H2 H3 H4. destruct (lp_act L Hact H1 H2 H3 H4) as [H|H]; [left|right; exact H]. apply Hq2. split; [exact H|]. intros ->. lia.
          + intros q4 Hq4 NA T. destruct (HR NA T) as (Ri & R1 & R2). split.
            * constructor; [apply (HT NA T)|]. intros x Hx. apply Hq4 in Hx as [Hx|(-> & Hb & _)]; [|auto]. apply R1, Hq2, Hx.
            * apply (mu_lex Nn Ends Hs Ht); [apply (Bd T)|apply (Bd2 NA T)|]. destruct (HM NA T) as [H|[Hsame _]]; [left; exact H|]. right; right.
              split. { apply Z.eq_le_incl. unfold P_PreflowAbs.M1. apply zsum_ext. intros x _. rewrite Hsame. reflexivity. }
              split. { rewrite (A1_ext f1 Hsame). apply (lp_A L). }
              rewrite (M2_ext (els q4) Hsame). apply (@M2_step es nodes s t Nn Ends Hs Ht (els q) (els q4) d i); auto.
              -- apply (iv_dpos I).
              -- intros H. apply Hq4 in H as [H|(-> & Hb & _)]; [apply Hq2 in H; tauto|]. specialize (Hbn Hb). lia.
              -- intros x Hx. apply Hq4 in Hx as [Hx|(-> & Hb & _)]; [|right; apply Hbn, Hb]. apply Hq2 in Hx as [Hx _]. destruct (lp_new L Hx) as [H|(_ & H & _)]; auto. }
      destruct rl eqn:Erl.
      + apply ok_bind. apply ok_bind. eapply ok_weaken; [apply (relabel_ok W0 D0 (proj1 P1) Hi)|]. intros ?u h2 (z & Nl & P2).
        eapply ok_weaken; [apply (show_flow_ok W0 D0 P2)|]. intros ?u h3 P3. cbn beta in P3.
        assert (NoAdm : forall m, adj i m -> adm f1 d i m = false) by (intros m Hm; apply (lp_done L eq_refl); apply Hl, Hm).
        assert (RT : no_antiparallel g0 -> LT f d q -> invT f1 (upd d i z) /\ (d i <= z)%Z /\ ((d i < z)%Z \/ d i = (2 * N + 2)%Z)).
        { intros NA T. pose proof (lt_q T Hiq) as Ri. pose proof (lp_T L (lt_inv T) Ri) as T1. apply (relabel_invT I1 T1 Hi Nl). apply (no_adm_le NA I1 T1 Ri NoAdm). }
        apply (Go (upd d i z) h3 P3 (relabel_inv Ends I1 Hi His Hit Nl)).
        * intros x Hx. apply upd_ne, Hx.
        * discriminate.
        * intros NA T. apply (RT NA T).
        * intros NA T. destruct (RT NA T) as (_ & Hz1 & Hz2). pose proof (lt_q T Hiq) as Ri. pose proof (lp_T L (lt_inv T) Ri) as T1.
          destruct Hz2 as [Hz2|Hz2]; [left; rewrite (M1_relabel Nn d z Hi); lia|]. right. pose proof (nl_max Nl) as Hz3. split.
          -- intros x. unfold upd. destruct (eqb_spec x i) as [->|]; [lia|reflexivity].
          -- left. destruct (Z_le_gt_dec (e1 i) 0) as [|Hp]; [assumption|]. assert (Hp' : (0 < e1 i)%Z) by lia. pose proof (excess_bound Nn Ends Hs Rstep I1 T1 Hi His Ri Hp'). lia.
      + apply ok_bind, ok_ret. apply (Go d h1 P1 I1); auto.
        * intros NA T. apply (lp_T L (lt_inv T) (lt_q T Hiq)).
        * intros NA T. right. split; [reflexivity|]. apply (lp_rl L eq_refl).
  Qed.
  End Term.
End Loop.
