(* Runs of search that may end with one particular exception: Dijkstra when some costs are missing (C53). *)
From Verif Require Import Py Util M_Graph M_Search P_Graph P_GraphLaws P_Metrics Spec P_Walk P_Attr S_Frontier P_SearchAbs P_Search P_SearchTop.
Set Implicit Arguments. Unset Strict Implicit.
Local Open Scope string_scope. Local Open Scope list_scope.

(* m ends normally with Q, or raises e while X holds *)
Definition either {S A} (e : exn) (X : Prop) (m : M S A) (s : S) (Q : A -> S -> Prop) : Prop :=
  ok m s Q \/ ((exists s', m s = (s', Err e)) /\ X).
Lemma ei_bind_ok {S A B} e X (m : M S A) (k : A -> M S B) s (P : A -> S -> Prop) Q :
  ok m s P -> (forall a s', P a s' -> either e X (k a) s' Q) -> either e X (bind m k) s Q.
Proof.
  intros H K. destruct (ok_ex H) as (s' & a & E & Pa). destruct (K a s' Pa) as [G|[[t G] x]].
  - left. apply ok_bind. exact (ok_intro E G).
  - right. split; [|exact x]. exists t. erewrite bind_ok by exact E. exact G.
Qed.
Lemma ei_bind {S A B} e X (m : M S A) (k : A -> M S B) s (P : A -> S -> Prop) Q :
  either e X m s P -> (forall a s', P a s' -> either e X (k a) s' Q) -> either e X (bind m k) s Q.
Proof.
  intros [H|[[t E] x]] K; [exact (ei_bind_ok H K)|]. right. split; [|exact x]. exists t. erewrite bind_err by exact E. reflexivity.
Qed.
Lemma ei_ok {S A} e X (m : M S A) s Q : ok m s Q -> either e X m s Q.
Proof. left. assumption. Qed.
Lemma ei_err {S A} e (X : Prop) (m : M S A) s s' Q : m s = (s', Err e) -> X -> either e X m s Q.
Proof. intros H x. right. eauto. Qed.

Section Dij.
  Variable fr : frontier.
  Variable els : fq fr -> list name.
  Hypothesis P : prioq els.
  Variable g : graph.
  Hypothesis W : wf g.
  Hypothesis Hdir : g_type g = Directed.
  Hypothesis Hcost : has_costs g false.
  Variable component : option Z.
  Variable s0 : name.
  Hypothesis Hs0 : In s0 (get_node_list g).
  Variable q0 : fq fr.
  Hypothesis Hq0 : els q0 = [].
  Notation V := (get_node_list g).
  Notation nb := (snb g true).
  Notation cost := (scost g).
  (* arcs in both directions *)
  Definition both (x y : name) : Prop := arc g x y /\ arc g y x.
  (* an arc n -> x without x -> n at a node x that the search gets to *)
  Definition one_way : Prop := exists x n, reach both s0 x /\ arc g n x /\ ~ arc g x n.

  (* the same machine with the missing costs filled in *)
  Definition cost' (x y : name) : option Z := match cost x y with Some c => Some c | None => Some 0%Z end.
  Lemma cost'_total : is_pq_algo Dijkstra = true -> forall x y, In y (nb x) -> cost' x y <> None.
  Proof. intros _ x y _. unfold cost'. destruct (cost x y); discriminate. Qed.
  Lemma nb_arc x y : In y (nb x) <-> arc g y x.
  Proof. unfold snb. rewrite (nbd_sarc true x y W). unfold sarc. rewrite Hdir. reflexivity. Qed.
  Lemma cost_arc x y : cost x y <> None <-> arc g x y.
  Proof.
    unfold scost, eattr. split.
    - intros H. unfold arc, check_edge. rewrite Hdir. unfold obs, get_edge_attr in H. rewrite Hdir in H. cbn [snd] in H. unfold dmem.
      destruct (dget (g_edges g) (x, y)); [reflexivity|congruence].
    - intros H. assert (S : sarc g false x y) by (unfold sarc; rewrite Hdir; exact H). destruct (Hcost S) as [z ->]. discriminate.
  Qed.
  Notation Inv_ := (Inv Dijkstra nb s0 els V).
  Notation bagP := (pq_bag P).
  Lemma PP : is_pq_algo Dijkstra = true -> prioq els. Proof. intros _. exact P. Qed.
  Lemma NP : is_pq_algo Dijkstra = false -> fq_is_pq fr = false. Proof. discriminate. Qed.
  Lemma NO : Dijkstra <> OtherAlgo. Proof. discriminate. Qed.
  Lemma HnbV' x y : In x V -> In y (nb x) -> In y V. Proof. intros _ H. eapply snb_V; eauto. Qed.

  Lemma edge_cases cur n (s s' : ast fr) : a_edge Dijkstra cost cur n s = Some s' -> s' = s \/ relaxed cur n s s'.
  Proof. refine (@a_edge_cases fr Dijkstra (fun _ => []) cost els PP NP _ cur n s s'). intros _ x y []. Qed.
  Lemma edge_cmp cur n (s s' : ast fr) : a_edge Dijkstra cost' cur n s = Some s' ->
    (cost cur n <> None /\ a_edge Dijkstra cost cur n s = Some s') \/ (cost cur n = None /\ base Dijkstra s cur <> None).
  Proof.
    unfold a_edge, cost'. cbn [is_pq_algo]. intros H. destruct (base Dijkstra s cur); [|discriminate].
    destruct (cost cur n); [left|right]; split; auto; discriminate.
  Qed.
  (* scanning: as with all costs, or up to the first missing one *)
  Lemma scan_cmp cur : forall l (s s2 : ast fr), a_scan Dijkstra cost' cur l s = Some s2 ->
    (a_scan Dijkstra cost cur l s = Some s2 /\ (forall n, In n l -> In n (a_gr s) \/ cost cur n <> None)) \/
    exists l1 n l2 s1, l = l1 ++ n :: l2 /\ a_scan Dijkstra cost cur l1 s = Some s1 /\ ~ In n (a_gr s1) /\ cost cur n = None.
  Proof.
    induction l as [|n l IH]; intros s s2 H; simpl in H |- *.
    - left. split; [exact H|]. intros n [].
    - destruct (mem_spec n (a_gr s)) as [G|G].
      + destruct (IH _ _ H) as [[A B]|(l1 & m & l2 & s1 & -> & A & B & C)].
        * left. split; [exact A|]. intros m [<-|Hm]; auto.
        * right. exists (n :: l1), m, l2, s1. split; [reflexivity|]. simpl. destruct (mem_spec n (a_gr s)); [auto|contradiction].
      + destruct (a_edge Dijkstra cost' cur n s) as [s1|] eqn:E; [|discriminate].
        destruct (edge_cmp E) as [[C E']|[C _]].
        * assert (G1 : a_gr s1 = a_gr s) by (destruct (edge_cases E') as [->|(_ & _ & A & _)]; congruence).
          rewrite E'. destruct (IH _ _ H) as [[A B]|(l1 & m & l2 & s3 & -> & A & B & D)].
          -- left. split; [exact A|]. intros m [<-|Hm]; [auto|]. rewrite <- G1. auto.
          -- right. exists (n :: l1), m, l2, s3. split; [reflexivity|]. simpl. destruct (mem_spec n (a_gr s)); [contradiction|]. rewrite E'. auto.
        * right. exists [], n, l, s. split; [reflexivity|]. simpl. auto.
  Qed.
  Lemma scan_disc cur : forall l (s s2 : ast fr) x, a_scan Dijkstra cost cur l s = Some s2 -> disc s0 s2 x -> disc s0 s x \/ (In x l /\ cost cur x <> None).
  Proof.
    induction l as [|n l IH]; intros s s2 x H D; simpl in H; [injection H as <-; auto|].
    destruct (mem n (a_gr s)); [destruct (IH _ _ _ H D) as [|[]]; simpl; auto|].
    destruct (a_edge Dijkstra cost cur n s) as [s1|] eqn:E; [|discriminate].
    destruct (IH _ _ _ H D) as [D1|[]]; [|simpl; auto]. destruct (edge_cases E) as [->|R]; [auto|].
    apply (disc_relaxed s0 x R) in D1 as [D1| ->]; [auto|]. right. split; [simpl; auto|]. unfold a_edge in E. cbn [is_pq_algo] in E.
    destruct (base Dijkstra s cur); [|discriminate]. destruct (cost cur n); discriminate.
  Qed.

  Notation RR_ := (RR Dijkstra g component s0).
  Lemma Hpqa : fq_is_pq fr = is_pq_algo Dijkstra. Proof. exact (pq_is_pq P). Qed.
  Lemma missing_raises cur n l2 (s : ast fr) h : RR_ s h -> In n (nb cur) -> ~ In n (a_gr s) -> cost cur n = None ->
    exists h', scan_neighbors Dijkstra component true cur (n :: l2) (a_pred s, a_q s) h = (h', Err KeyError).
  Proof.
    intros H Hn Hg Hc. destruct (snb_V W Hn) as [HcV HnV]. unfold scan_neighbors. cbn [foldM].
    destruct (ok_ex (sim_color W "yellow" H Hn)) as (h1 & [] & E1 & H1).
    assert (Ec : nattr h n "color" <> VS "green") by (rewrite (r_green H HnV); exact Hg).
    assert (G : ok (get_node_attr n "color") h (fun v h' => v = nattr h n "color" /\ h' = h)) by (apply ok_get_node_attr; [eapply R_V; eauto|auto]).
    destruct (ok_ex G) as (h2 & v & E2 & -> & ->).
    eexists. unfold bind at 1. unfold bind at 1. rewrite E2. destruct (eqb_spec (nattr h n "color") (VS "green")) as [X|_]; [contradiction|].
    unfold bind at 1. rewrite E1. cbn [process_edge]. unfold process_edge_dijkstra, get_priority. rewrite Hpqa. cbn [is_pq_algo snd].
    unfold bind at 1. unfold bind at 1. unfold ret at 1. unfold bind at 1.
    assert (E3 : get_edge_attr cur n "cost" h1 = (h1, Err KeyError)).
    { assert (T : g_type h1 = Directed) by (rewrite (ss_type (r_ss H1)); exact Hdir).
      assert (N : ~ arc g cur n) by (rewrite <- cost_arc; congruence).
      assert (K : dget (g_edges h1) (cur, n) = None).
      { destruct (dget (g_edges h1) (cur, n)) eqn:K; [|reflexivity]. exfalso. apply N. apply dget_Some_keys in K.
        unfold arc, check_edge. rewrite Hdir. apply dmem_In. rewrite <- (ss_edges (r_ss H1)). exact K. }
      unfold get_edge_attr. rewrite T, K. reflexivity. }
    rewrite E3. reflexivity.
  Qed.
  Lemma foldM_app {S A B} (f : B -> A -> M S B) l1 l2 b s : foldM f (l1 ++ l2) b s = bind (foldM f l1 b) (foldM f l2) s.
  Proof.
    revert b s. induction l1 as [|a l1 IH]; intros b s; [reflexivity|]. cbn [app foldM]. unfold bind.
    destruct (f b a s) as [s' [x|e]]; [|reflexivity]. rewrite IH. reflexivity.
  Qed.

  (* what holds of the nodes reached so far *)
  Definition X (s : ast fr) : Prop := (forall x, disc s0 s x -> reach both s0 x) /\
    (In s0 (a_gr s) -> forall n, arc g n s0 -> n <> s0 -> arc g s0 n).
  Notation iter' := (a_iter Dijkstra nb cost' s0 None).
  Notation iter_ := (a_iter Dijkstra nb cost s0 None).

  Lemma iter_step (s : ast fr) h : RR_ s h -> Inv_ None s -> X s ->
    either KeyError one_way (search_iter Dijkstra component true s0 None (nbd g true) (a_pred s, a_q s)) h
      (fun r' h' => match r' with
        | inl st => exists s', st = (a_pred s', a_q s') /\ RR_ s' h' /\ Inv_ None s' /\ X s' /\ mu nb els V s' < mu nb els V s
        | inr x => x = (false, a_pred s) /\ els (a_q s) = [] /\ RR_ s h' end).
  Proof.
    intros HR I [X1 X2].
    destruct (@a_iter_inv fr Dijkstra nb cost' s0 None els bagP PP NP NO V HnbV' (wf_nd W) cost'_total s I) as (r & Hr & Hcase).
    (* the two machines agree on this iteration, or a cost is missing *)
    assert (D : (iter_ s = Some r /\ match r with inl s' => X s' | inr _ => True end) \/
      exists cur l1 n l2 s1, fq_isEmpty (a_q s) = false /\ fq_peek (a_q s) = Some cur /\ ~ In cur (a_gr s) /\ (cur = s0 \/ dmem (a_pred s) cur = true) /\ In cur V /\
        reach both s0 cur /\ nb cur = l1 ++ n :: l2 /\ a_scan Dijkstra cost cur l1 (a_visit s cur) = Some s1 /\ ~ In n (a_gr s1) /\ cost cur n = None).
    { unfold a_iter in Hr |- *. destruct (fq_isEmpty (a_q s)) eqn:Hem; [left; injection Hr as <-; auto|].
      assert (Hne : els (a_q s) <> []) by (intros H; apply (bag_empty bagP) in H; congruence).
      destruct (bag_peek bagP Hne) as (cur & Hpk & Hc). rewrite Hpk in Hr |- *.
      destruct (mem_spec cur (a_gr s)) as [Hg|Hg].
      { left. split; [exact Hr|]. destruct (fq_remove (a_q s) cur); [|discriminate]. injection Hr as <-. split; assumption. }
      destruct (negb (eqb cur s0) && negb (dmem (a_pred s) cur)) eqn:Hgd; [discriminate|].
      destruct (eqb_spec (Some cur) None) as [?|_]; [discriminate|].
      destruct (a_scan Dijkstra cost' cur (nb cur) (a_visit s cur)) as [s2|] eqn:Hsc; [|discriminate].
      assert (Dc : disc s0 s cur) by (exact (iv_els I Hc)).
      destruct (scan_cmp Hsc) as [[A B]|(l1 & n & l2 & s1 & E1 & E2 & E3 & E4)].
      - left. rewrite A. destruct (fq_remove (a_q s2) cur) as [q'|]; [|discriminate]. injection Hr as <-. split; [reflexivity|]. split.
        + intros x Dx. assert (Dx2 : disc s0 s2 x) by exact Dx. destruct (scan_disc A Dx2) as [D0|[Hin Hco]].
          * apply X1. unfold disc in D0. rewrite visit_pred in D0. exact D0.
          * apply cost_arc in Hco. apply nb_arc in Hin. eapply reach_step; [apply X1; exact Dc|]. split; assumption.
        + cbn [a_gr]. intros [<-|Hg2] n Hn Hne2.
          * destruct (B n) as [G|G]; [apply nb_arc; exact Hn| |apply cost_arc; exact G].
            rewrite visit_gr in G. destruct (iv_first I) as [F|[F|[_ F]]]; [contradiction|discriminate|]. rewrite F in G. destruct G.
          * assert (G2 : a_gr s2 = a_gr s).
            { assert (Gs : forall l (a b : ast fr), a_scan Dijkstra cost cur l a = Some b -> a_gr b = a_gr a).
              { clear. induction l as [|m l IH]; intros a b Hs; simpl in Hs; [congruence|]. destruct (mem m (a_gr a)); [eauto|].
                destruct (a_edge Dijkstra cost cur m a) as [a1|] eqn:Ea; [|discriminate]. rewrite (IH _ _ Hs). unfold a_edge in Ea. cbn [is_pq_algo] in Ea.
                destruct (base Dijkstra a cur), (cost cur m); try discriminate. 
                match type of Ea with match ?b with _ => _ end = _ => destruct b as [[]|] end; first [discriminate|injection Ea as <-; reflexivity]. }
              rewrite (Gs _ _ _ A). apply visit_gr. }
            rewrite G2 in Hg2. exact (X2 Hg2 n Hn Hne2).
      - right. exists cur, l1, n, l2, s1. split; [reflexivity|]. split; [reflexivity|]. split; [exact Hg|]. split.
        { destruct (eqb_spec cur s0); [auto|]. right. simpl in Hgd. destruct (dmem (a_pred s) cur); [reflexivity|discriminate]. }
        split; [exact (proj2 (iv_reach I Dc))|]. split; [apply X1; exact Dc|]. auto. }
    destruct D as [[D Xr]|(cur & l1 & n & l2 & s1 & Hem & Hpk & Hg & Hgd & HcV & Rc & En & Hsc & Hng & Hco)].
    - apply ei_ok. eapply ok_weaken; [apply (sim_iter W NO Hpqa HR (Inv_good bagP I) D)|]. intros r' h' Hr'; cbn beta in Hr'.
      destruct r as [s'|[s' f]], r' as [st|x]; try contradiction.
      + destruct Hr' as [-> HR']. destruct Hcase. exists s'. auto.
      + destruct Hr' as [-> HR']. destruct f; [destruct Hcase as (c & ? & _); discriminate|]. destruct Hcase as [-> He]. auto.
    - unfold search_iter. rewrite Hem, Hpk.
      eapply ei_bind_ok; [apply ok_ret with (Q := fun a t => a = cur /\ t = h); auto|]. intros ? ? [-> ->].
      eapply ei_bind_ok; [apply ok_get_node_attr with (Q := fun v t => v = nattr h cur "color" /\ t = h); [eapply R_V; eauto|auto]|]. intros ? ? [-> ->].
      destruct (eqb_spec (nattr h cur "color") (VS "green")) as [Hc|_]; [apply (r_green HR HcV) in Hc; contradiction|].
      eapply ei_bind_ok; [apply (RR_visit W Hpqa HR HcV)|]. intros u0 h0 HR0; cbn beta in HR0.
      eapply ei_bind_ok; [apply (R_color W (c := "blue") HR0 HcV); [rewrite visit_gr; assumption|discriminate]|]. intros u1 h1 HR1; cbn beta in HR1.
      eapply ei_bind_ok with (P := fun _ t => RR_ (a_visit s cur) t).
      { destruct (eqb_spec cur s0) as [->|Hcs]; [apply ok_ret; exact HR1|]. destruct Hgd as [?|Hgd]; [contradiction|]. unfold dmem in Hgd.
        destruct (dget (a_pred s) cur) as [p|] eqn:Hp; [|discriminate]. apply ok_bind, ok_ret. apply (sim_color W); [exact HR1|]. exact (proj1 (iv_pred I Hp)). }
      intros u2 h2 HR2; cbn beta in HR2. destruct (eqb_spec (Some cur) None) as [?|_]; [discriminate|].
      eapply ei_bind_ok; [apply ok_lift with (a := nb cur) (Q := fun a t => a = nb cur /\ t = h2); [apply dget_list_at; rewrite nbd_keys; assumption|auto]|]. intros ? ? [-> ->].
      assert (Hin : forall m, In m (l1 ++ n :: l2) -> In m (nb cur)) by (intros m Hm; rewrite En; exact Hm).
      rewrite En.
      assert (S1 := sim_scan W (rev := true) NO Hpqa HR2 (fun m Hm => Hin m (in_or_app _ _ _ (or_introl Hm))) Hsc).
      rewrite visit_pred, visit_q in S1. destruct (ok_ex S1) as (h3 & st & E3 & -> & HR3).
      assert (HnI : In n (nb cur)) by (apply Hin, in_or_app; right; left; reflexivity).
      destruct (missing_raises l2 HR3 HnI Hng Hco) as [h4 E4].
      eapply ei_err with (s' := h4).
      + erewrite bind_err; [reflexivity|]. unfold scan_neighbors in *. rewrite foldM_app. unfold bind at 1. rewrite E3. exact E4.
      + exists cur, n. split; [exact Rc|]. split; [apply nb_arc; exact HnI|]. rewrite <- cost_arc. congruence.
  Qed.

  Lemma loop_step : forall fuel (s : ast fr) h, RR_ s h -> Inv_ None s -> X s -> mu nb els V s < fuel ->
    either KeyError one_way (loop fuel (search_iter Dijkstra component true s0 None (nbd g true)) (a_pred s, a_q s)) h
      (fun x h' => exists t, x = (false, a_pred t) /\ els (a_q t) = [] /\ Inv_ None t /\ X t /\ RR_ t h').
  Proof.
    induction fuel as [|f IH]; intros s h HR I Xs Hm; [lia|]. cbn [loop]. eapply ei_bind; [apply (iter_step HR I Xs)|].
    intros [st|x] h' H; cbn beta iota in H.
    - destruct H as (s' & -> & HR' & I' & X' & Hlt). apply IH; auto. lia.
    - destruct H as (-> & He & HR'). apply ei_ok, ok_ret. exists s. auto.
  Qed.

  Lemma reverse_dijkstra fuel : enough g fuel ->
    either KeyError one_way (search fuel s0 None component q0 Dijkstra true) g
      (fun r h => exists pred, r = RPred pred /\ (forall x, In x (dkeys pred) -> reach both s0 x) /\
        (forall x, reach (fun a b => arc g b a) s0 x -> reach both s0 x) /\ (forall n, arc g n s0 -> n <> s0 -> arc g s0 n)).
  Proof.
    intros Hf. unfold search.
    eapply ei_bind_ok with (P := fun _ h => h = g); [apply ok_ret; reflexivity|]. intros u ? ->.
    eapply ei_bind_ok with (P := fun t h => t = Directed /\ h = g); [apply ok_gets; auto|]. intros ? ? [-> ->].
    eapply ei_bind_ok with (P := fun d h => d = nbd g true /\ h = g).
    { apply ok_eq. unfold in_dict, nbd. rewrite Hdir. reflexivity. }
    intros ? ? [-> ->].
    assert (H0 : R0 Dijkstra g component s0 [] g) by (constructor; auto; try contradiction; apply ss_refl).
    eapply ei_bind_ok; [apply (sim_init W true H0)|]. intros u1 h1 H1; cbn beta in H1.
    eapply ei_bind_ok; [apply (sim_source W Hs0 NO Hpqa q0 H1)|]. intros st h2 [-> H2].
    destruct (eqb_spec (Some s0) None) as [?|_]; [discriminate|].
    assert (I0 := @Inv_init fr Dijkstra nb s0 els V Hs0 _ (els_qi bagP Dijkstra s0 Hq0)).
    eapply ei_bind; [apply (@loop_step fuel _ h2 H2 I0)|].
    - split; [|intros []]. intros x [->|[]]. apply reach_refl.
    - exact (mu_start bagP Dijkstra W true s0 Hq0 Hf).
    - intros [f pred] h' (t & Ht & He & It & [Xa Xb] & _). injection Ht as -> ->. apply ei_ok, ok_ret. exists (a_pred t).
      split; [reflexivity|]. split; [intros x Hx; apply Xa; right; exact Hx|]. split.
      + intros x Hx. apply Xa. apply (done_reach x It He). destruct Hx as [p Hp]. exists p. clear - Hp W Hdir.
        induction Hp; [constructor|]. econstructor; [apply nb_arc; eassumption|assumption].
      + apply Xb. destruct (iv_disc It (or_introl eq_refl)) as [G|G]; [exact G|]. rewrite He in G. destruct G.
  Qed.
End Dij.
