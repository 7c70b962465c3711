(* Depth-first search on a priority queue (C54): only the source gets a distance. *)
From Verif Require Import Py Util M_Graph M_Search P_Graph P_GraphLaws P_Metrics Spec P_Walk P_Attr S_Frontier P_SearchAbs P_Search P_SearchTop P_SearchRaise.
Set Implicit Arguments. Unset Strict Implicit.
Local Open Scope string_scope. Local Open Scope list_scope.

Section Depth.
  Variable fr : frontier.
  Variable els : fq fr -> list name.
  Hypothesis P : prioq els.
  Variable g : graph.
  Hypothesis W : wf g.
  Variable rev : bool.
  Variable component : option Z.
  Variable s0 : name.
  Notation V := (get_node_list g).
  Hypothesis Hs0 : In s0 V.
  Variable q0 : fq fr.
  Hypothesis Hq0 : els q0 = [].
  Notation nb := (snb g rev).
  Notation bagP := (pq_bag P).
  Definition d0 : name -> option Z := upd (fun _ => None) s0 (Some 0%Z).
  (* an arc from a neighbour of the source to a node other than the source *)
  Definition deep : Prop := exists c x, sarc g rev s0 c /\ c <> s0 /\ sarc g rev c x /\ x <> s0.
  Definition RD (gr : list name) (h : graph) : Prop := exists p cs, R g component (base_comp DFS g component s0) gr d0 p cs h.
  Lemma RD_V gr h x : RD gr h -> In x V -> In x (dkeys (g_nodes h)).
  Proof. intros (p & cs & H) Hx. eapply R_V; eauto. Qed.
  Lemma RD_green gr h x : RD gr h -> In x V -> nattr h x "color" = VS "green" <-> In x gr.
  Proof. intros (p & cs & H). apply H. Qed.
  Lemma RD_dist gr h x : RD gr h -> In x V -> nattr h x "distance" = voZ (d0 x).
  Proof. intros (p & cs & H). apply H. Qed.
  Lemma RD_ex gr h {A} (m : M graph A) : (forall p cs, R g component (base_comp DFS g component s0) gr d0 p cs h ->
      ok m h (fun _ h' => RD gr h')) -> RD gr h -> ok m h (fun _ h' => RD gr h').
  Proof. intros H (p & cs & HR). eauto. Qed.
  Lemma RD_color gr h n c : RD gr h -> In n V -> ~ In n gr -> c <> "green" -> ok (set_node_attr n "color" (VS c)) h (fun _ h' => RD gr h').
  Proof. intros (p & cs & H) Hn Hg Hc. eapply ok_weaken; [apply (R_color W H Hn Hg Hc)|]. intros u h' H'. exists p, cs. exact H'. Qed.
  Lemma RD_depth gr h n v : RD gr h -> In n V -> ok (set_node_attr n "depth" v) h (fun _ h' => RD gr h').
  Proof. intros (p & cs & H) Hn. eapply ok_weaken; [apply (R_depth W v H Hn)|]. intros u h' H'. exists p, cs. exact H'. Qed.
  Lemma RD_setcomp gr h n : RD gr h -> In n V -> ok (set_component n component) h (fun _ h' => RD gr h').
  Proof. intros (p & cs & H) Hn. eapply ok_weaken; [apply (R_setcomp W H Hn)|]. intros u h' H'. do 2 eexists. exact H'. Qed.
  Lemma RD_visit gr h n (q : fq fr) : RD gr h -> In n V -> ok (process_node_search n q) h (fun _ h' => RD gr h').
  Proof.
    intros (p & cs & H) Hn. unfold process_node_search. rewrite (pq_is_pq P).
    eapply ok_weaken; [apply (R_priority W (fq_prio q n) H Hn)|]. intros u h' H'. do 2 eexists. exact H'.
  Qed.
  Lemma RD_edge gr h x y c : RD gr h -> In y (nb x) -> ok (color_edge rev x y c) h (fun _ h' => RD gr h').
  Proof.
    intros (p & cs & H) Hxy. apply (nbd_sarc rev x y W) in Hxy. pose proof (sarc_color W Hxy) as Hc. unfold color_edge.
    destruct rev; (eapply ok_weaken; [apply (R_edge W (VS c) H Hc)|]; intros u h' H'; exists p, cs; exact H').
  Qed.
  Lemma RD_greening gr h n : RD gr h -> In n V -> ok (set_node_attr n "color" (VS "green")) h (fun _ h' => RD (n :: gr) h').
  Proof. intros (p & cs & H) Hn. eapply ok_weaken; [apply (R_greening W H Hn)|]. intros u h' H'. exists p, cs. exact H'. Qed.
  Lemma d0_s0 : d0 s0 = Some 0%Z. Proof. apply upd_eq. Qed.
  Lemma d0_ne x : x <> s0 -> d0 x = None. Proof. intros H. unfold d0, upd. destruct (eq_dec s0 x); congruence. Qed.

  (* scanning the neighbours of the source *)
  Lemma edge_source n pred (q : fq fr) h1 : RD [] h1 -> In n (nb s0) ->
    (forall x, In x (els q) -> x = s0 \/ dget pred x = Some s0) -> (forall x, In x (dkeys pred) -> dget pred x = Some s0 /\ In x (nb s0)) ->
    ok (process_edge DFS component s0 n (pred, q)) h1 (fun st h' => RD [] h' /\
      (forall x, In x (els (snd st)) <-> x = n \/ In x (els q)) /\ length (els (snd st)) <= S (length (els q)) /\
      (forall x, In x (els (snd st)) -> x = s0 \/ dget (fst st) x = Some s0) /\
      (forall x, In x (dkeys (fst st)) -> dget (fst st) x = Some s0 /\ In x (nb s0))).
  Proof.
    intros H1 Hn Hq Hp. destruct (snb_V W Hn) as [_ HnV]. cbn [process_edge]. rewrite (pq_is_pq P). cbn [is_bfs].
    apply ok_bind. apply ok_get_node_attr; [eapply RD_V; eauto|]. rewrite (RD_dist H1 Hs0), d0_s0. apply ok_bind, ok_ret.
    set (pr := (- 0 - 1)%Z). cbv zeta.
    destruct (match fq_prio q n with Some c => (pr >=? c)%Z | None => false end) eqn:Hcp.
    - apply ok_ret. cbn [fst snd]. split; [exact H1|]. split; [|split; [lia|auto]].
      assert (Hin : In n (els q)) by (apply (pq_prio P); destruct (fq_prio q n); congruence).
      intros x. split; [auto|]. intros [->|?]; assumption.
    - apply ok_bind. eapply ok_weaken; [apply (RD_depth (VI (- pr)) H1 HnV)|]. intros u2 h2 H2; cbn beta in H2.
      unfold finish_edge. apply ok_bind. eapply ok_weaken; [apply (RD_color (c := "red") H2 HnV); [intros []|discriminate]|]. intros u3 h3 H3; cbn beta in H3.
      apply ok_bind. eapply ok_weaken; [apply (RD_setcomp H3 HnV)|]. intros u4 h4 H4; cbn beta in H4. apply ok_ret. cbn [fst snd].
      split; [exact H4|]. split; [intros x; apply (bag_push bagP)|]. split; [apply (bag_push_len bagP)|]. split.
      + intros x Hx. apply (bag_push bagP) in Hx. destruct (eq_dec n x) as [->|Hne]; [right; apply dget_dset_eq|].
        rewrite dget_dset_ne by congruence. destruct Hx as [->|Hx]; [congruence|auto].
      + intros x Hx. destruct (eq_dec n x) as [->|Hne]; [split; [apply dget_dset_eq|exact Hn]|].
        apply In_dkeys_dset in Hx as [->|Hx]; [congruence|]. rewrite dget_dset_ne by congruence. auto.
  Qed.
  Lemma scan_source : forall l pred (q : fq fr) h, RD [] h -> (forall n, In n l -> In n (nb s0)) ->
    (forall x, In x (els q) -> x = s0 \/ dget pred x = Some s0) -> (forall x, In x (dkeys pred) -> dget pred x = Some s0 /\ In x (nb s0)) ->
    ok (scan_neighbors DFS component rev s0 l (pred, q)) h (fun st h' => RD [] h' /\
      (forall x, In x (els (snd st)) <-> In x l \/ In x (els q)) /\ length (els (snd st)) <= length l + length (els q) /\
      (forall x, In x (els (snd st)) -> x = s0 \/ dget (fst st) x = Some s0) /\
      (forall x, In x (dkeys (fst st)) -> dget (fst st) x = Some s0 /\ In x (nb s0))).
  Proof.
    induction l as [|n l IH]; intros pred q h HR Hl Hq Hp.
    - apply ok_ret. cbn [fst snd length]. split; [exact HR|]. split; [intros x; simpl; tauto|]. auto.
    - assert (Hn : In n (nb s0)) by (apply Hl; left; reflexivity). destruct (snb_V W Hn) as [_ HnV]. unfold scan_neighbors. cbn [foldM].
      apply ok_bind. apply ok_bind. apply ok_get_node_attr; [eapply RD_V; eauto|].
      destruct (eqb_spec (nattr h n "color") (VS "green")) as [Hc|_]; [apply (RD_green HR HnV) in Hc; destruct Hc|].
      apply ok_bind. eapply ok_weaken; [apply (RD_edge "yellow" HR Hn)|]. intros u1 h1 H1; cbn beta in H1.
      apply ok_bind. eapply ok_weaken; [apply (edge_source H1 Hn Hq Hp)|]. intros [pred' q'] h2 (H2 & E2 & L2 & Q2 & P2); cbn [fst snd] in *.
      apply ok_bind. eapply ok_weaken; [apply (RD_edge "black" H2 Hn)|]. intros u3 h3 H3; cbn beta in H3.
      apply ok_ret. eapply ok_weaken; [apply (IH pred' q' h3 H3 (fun m Hm => Hl m (or_intror Hm)) Q2 P2)|].
      intros st h4 (A & B & C & D & F); cbn beta in *. split; [exact A|]. split; [|split; [cbn [length]; lia|auto]].
      intros x. rewrite B, E2. simpl. intuition congruence.
  Qed.

  (* scanning another node: nothing to do, or TypeError *)
  Lemma scan_other cur gr (st : dict name name * fq fr) : cur <> s0 -> In cur (nb s0) -> In s0 gr -> forall l h, RD gr h -> (forall n, In n l -> In n (nb cur)) ->
    either TypeError deep (scan_neighbors DFS component rev cur l st) h (fun st' h' => st' = st /\ RD gr h' /\ forall n, In n l -> In n gr).
  Proof.
    intros Hc Hcn Hg. destruct st as [pred q]. induction l as [|n l IH]; intros h HR Hl.
    - apply ei_ok, ok_ret. split; [reflexivity|]. split; [exact HR|]. intros n [].
    - assert (Hn : In n (nb cur)) by (apply Hl; left; reflexivity). destruct (snb_V W Hn) as [HcV HnV]. unfold scan_neighbors. cbn [foldM].
      eapply ei_bind with (P := fun st' h' => st' = (pred, q) /\ RD gr h' /\ In n gr).
      + eapply ei_bind_ok; [apply ok_get_node_attr with (Q := fun v t => v = nattr h n "color" /\ t = h); [eapply RD_V; eauto|auto]|]. intros ? ? [-> ->].
        destruct (eqb_spec (nattr h n "color") (VS "green")) as [E|E].
        { apply ei_ok, ok_ret. apply (RD_green HR HnV) in E. auto. }
        eapply ei_bind_ok; [apply (RD_edge "yellow" HR Hn)|]. intros u1 h1 H1; cbn beta in H1.
        apply ei_err with (s' := h1).
        * erewrite bind_err; [reflexivity|]. cbn [process_edge]. rewrite (pq_is_pq P). cbn [is_bfs].
          assert (G : ok (get_node_attr cur "distance") h1 (fun v t => v = VNone /\ t = h1)).
          { apply ok_get_node_attr; [eapply RD_V; eauto|]. rewrite (RD_dist H1 HcV), (d0_ne Hc). auto. }
          destruct (ok_ex G) as (? & ? & E1 & -> & ->). unfold bind at 1. rewrite E1. reflexivity.
        * exists cur, n. split; [apply (nbd_sarc rev s0 cur W); exact Hcn|]. split; [exact Hc|]. split; [apply (nbd_sarc rev cur n W); exact Hn|].
          intros ->. apply E. apply (RD_green HR HnV). exact Hg.
      + intros ? h' (-> & HR' & Hng). destruct (IH h' HR' (fun m Hm => Hl m (or_intror Hm))) as [H|[H1 H2]]; [left|right; auto].
        eapply ok_weaken; [exact H|]. intros st' h2 (A & B & C). split; [exact A|]. split; [exact B|]. intros m [<-|Hm]; auto.
  Qed.

  (* after the source *)
  Record J (gr : list name) (pred : dict name name) (q : fq fr) (h : graph) : Prop := {
    j_R : RD gr h;
    j_s0 : In s0 gr;
    j_gr : forall x, In x gr -> x = s0 \/ In x (nb s0);
    j_els : forall x, In x (els q) <-> In x (nb s0) /\ x <> s0 /\ ~ In x gr;
    j_pred : forall x, In x (nb s0) -> x <> s0 -> dget pred x = Some s0;
    j_dom : forall x, In x (dkeys pred) -> dget pred x = Some s0 /\ In x (nb s0);
    j_done : forall c x, In c gr -> c <> s0 -> In x (nb c) -> x = s0 \/ In x (nb s0)
  }.
  Notation result := (fun (x : bool * dict name name) (_ : graph) => exists pred, x = (false, pred) /\
    (forall n, n <> s0 -> In n (dkeys pred) <-> In n (nb s0)) /\ (forall n, In n (dkeys pred) -> dget pred n = Some s0) /\
    (forall c y, In c (nb s0) -> c <> s0 -> In y (nb c) -> y = s0 \/ In y (nb s0))).
  Lemma loop_other : forall fuel gr pred q h, J gr pred q h -> length (els q) < fuel ->
    either TypeError deep (loop fuel (search_iter DFS component rev s0 None (nbd g rev)) (pred, q)) h result.
  Proof.
    induction fuel as [|f IH]; intros gr pred q h HJ Hf; [lia|]. destruct HJ as [HR Hs Hg He Hp Hd Hdn]. cbn [loop]. unfold search_iter at 1.
    destruct (fq_isEmpty q) eqn:Hem.
    - apply (bag_empty bagP) in Hem. eapply ei_bind_ok; [apply ok_ret with (Q := fun a t => a = inr (false, pred) /\ t = h); auto|]. intros ? ? [-> ->].
      apply ei_ok, ok_ret. exists pred. split; [reflexivity|]. split; [|split; [intros n Hn; apply Hd; exact Hn|]].
      + intros n Hns. split; [intros H; apply Hd; exact H|]. intros H. exact (dget_Some_keys (Hp n H Hns)).
      + intros c y Hc Hne Hy. destruct (mem_spec c gr) as [Hcg|Hcg]; [eauto|].
        exfalso. assert (Hi : In c (els q)) by (apply He; auto). rewrite Hem in Hi. destruct Hi.
    - assert (Hne : els q <> []) by (intros H; apply (bag_empty bagP) in H; congruence).
      destruct (bag_peek bagP Hne) as (cur & Hpk & Hc). rewrite Hpk. destruct (proj1 (He cur) Hc) as (HcN & Hcs & Hcg). destruct (snb_V W HcN) as [_ HcV].
      destruct (bag_remove bagP Hc) as (q' & Hrm & Hlen & Hr1 & Hr2).
      eapply ei_bind with (P := fun r h' => r = inl (pred, q') /\ RD (cur :: gr) h' /\ forall n, In n (nb cur) -> In n gr).
      + eapply ei_bind_ok; [apply ok_ret with (Q := fun a t => a = cur /\ t = h); auto|]. intros ? ? [-> ->].
        eapply ei_bind_ok; [apply ok_get_node_attr with (Q := fun v t => v = nattr h cur "color" /\ t = h); [eapply RD_V; eauto|auto]|]. intros ? ? [-> ->].
        destruct (eqb_spec (nattr h cur "color") (VS "green")) as [E|_]; [apply (RD_green HR HcV) in E; contradiction|].
        eapply ei_bind_ok; [apply (RD_visit q HR HcV)|]. intros u1 h1 H1; cbn beta in H1.
        eapply ei_bind_ok; [apply (RD_color (c := "blue") H1 HcV Hcg); discriminate|]. intros u2 h2 H2; cbn beta in H2.
        eapply ei_bind_ok with (P := fun _ t => RD gr t).
        { destruct (eqb_spec cur s0) as [?|_]; [contradiction|]. apply ok_bind. rewrite (Hp cur HcN Hcs). apply ok_ret. apply RD_edge; assumption. }
        intros u3 h3 H3; cbn beta in H3. destruct (eqb_spec (Some cur) None) as [?|_]; [discriminate|].
        eapply ei_bind_ok; [apply ok_lift with (a := nb cur) (Q := fun a t => a = nb cur /\ t = h3); [apply dget_list_at; rewrite nbd_keys; assumption|auto]|]. intros ? ? [-> ->].
        eapply ei_bind; [apply (scan_other (pred, q) Hcs HcN Hs H3 (fun n Hn => Hn))|]. intros st h4 (-> & H4 & Hall).
        apply ei_ok. rewrite Hrm. apply ok_bind, ok_ret. apply ok_bind. eapply ok_weaken; [apply (RD_greening H4 HcV)|]. intros u5 h5 H5; cbn beta in H5.
        apply ok_ret. auto.
      + intros ? h' (-> & HR' & Hall). apply (IH (cur :: gr)); [|lia]. constructor; auto.
        * right. exact Hs.
        * intros x [<-|Hx]; auto.
        * intros x. split.
          -- intros Hx. assert (Hxq := proj1 (He x) (Hr1 x Hx)). destruct Hxq as (A & B & C). split; [exact A|]. split; [exact B|]. intros [<-|?]; [|contradiction].
             apply (pq_prio P) in Hx. rewrite (pq_remove P cur Hrm) in Hx. destruct (eq_dec cur cur); congruence.
          -- intros (A & B & C). apply Hr2; [apply He; split; [exact A|]; split; [exact B|]; intros D; apply C; right; exact D|]. intros ->. apply C. left. reflexivity.
        * intros c x [<-|Hcg'] Hcs' Hx; [apply Hg, Hall; exact Hx|eauto].
  Qed.
  Lemma nb_len x : In x V -> length (nb x) <= list_sum (map (fun y => length (nb y)) V).
  Proof. clear Hs0. induction V as [|y t IH]; intros []; simpl; [subst; lia|specialize (IH H); lia]. Qed.

  Lemma dfs_pq fuel : enough g fuel -> either TypeError deep (search fuel s0 None component q0 DFS rev) g
    (fun r h => exists pred, r = RPred pred /\ (forall n, n <> s0 -> In n (dkeys pred) <-> sarc g rev s0 n) /\ (forall n, In n (dkeys pred) -> dget pred n = Some s0) /\
       (forall c y, sarc g rev s0 c -> c <> s0 -> sarc g rev c y -> y = s0 \/ sarc g rev s0 y)).
  Proof.
    intros Hf. unfold search.
    eapply ei_bind_ok with (P := fun _ h => R0 DFS g component s0 [] h).
    { apply ok_set_node_attr; [apply (wf_V W); assumption|]. intros h S Hna Hea Hat Hnc _. constructor; auto; try contradiction.
      - intros x b Hb. rewrite Hna. destruct (eq_dec (x, b) (s0, "component")) as [[= -> ->]|]; [exfalso; apply Hb; simpl; tauto|reflexivity].
      - intros x. rewrite Hna, pair_eqb, eqb_refl. unfold base_comp. reflexivity. }
    intros u h H. 
    eapply ei_bind_ok with (P := fun t h' => t = g_type g /\ h' = h); [apply ok_gets; rewrite (ss_type (r0_ss H)); auto|]. intros ? ? [-> ->].
    eapply ei_bind_ok with (P := fun d h' => d = nbd g rev /\ h' = h).
    { unfold nbd. destruct (g_type g) eqn:Ht, rev; try (apply ok_gets; rewrite (ss_nbrs (r0_ss H)); auto).
      apply ok_eq. unfold in_dict. rewrite (ss_type (r0_ss H)), Ht, (ss_in (r0_ss H)). reflexivity. }
    intros ? ? [-> ->].
    eapply ei_bind_ok; [apply (sim_init W rev H)|]. intros u1 h1 H1; cbn beta in H1.
    eapply ei_bind_ok with (P := fun st h' => st = ([], fq_push q0 s0 (Some 0%Z)) /\ RD [] h').
    { apply R0_R in H1. cbn [process_source]. rewrite (pq_is_pq P). apply ok_bind.
      eapply ok_weaken; [apply (R_distance W 0 H1 Hs0)|]. intros u2 h2 H2; cbn beta in H2. apply ok_bind.
      eapply ok_weaken; [apply (R_source_comp W); [|exact H2|exact Hs0]; unfold base_comp; rewrite eqb_refl; reflexivity|]. intros u3 h3 H3; cbn beta in H3.
      apply ok_ret. split; [reflexivity|]. do 2 eexists. exact H3. }
    intros ? h2 [-> H2]. destruct (eqb_spec (Some s0) None) as [?|_]; [discriminate|].
    set (q1 := fq_push q0 s0 (Some 0%Z)).
    assert (E1 : forall x, In x (els q1) <-> x = s0) by (intros x; unfold q1; rewrite (bag_push bagP), Hq0; simpl; tauto).
    assert (L1 : length (els q1) <= 1) by (pose proof (bag_push_len bagP q0 s0 (Some 0%Z)) as L; rewrite Hq0 in L; exact L).
    assert (FU : length (nb s0) + 2 < fuel + 1).
    { pose proof (nb_len Hs0). pose proof (sum_snb rev W). unfold enough in Hf. lia. }
    eapply ei_bind with (P := result).
    2: { intros [b pred] h' (pred' & E & A & B & C). injection E as -> ->. apply ei_ok, ok_ret. exists pred'. split; [reflexivity|].
         assert (N : forall x y, In y (nb x) <-> sarc g rev x y) by (intros; apply (nbd_sarc rev _ _ W)).
         split; [intros n Hn; rewrite (A n Hn); apply N|]. split; [exact B|]. intros c y Hc Hne Hy. rewrite <- N. apply (C c); [apply N| |apply N]; assumption. }
    destruct fuel as [|f]; [lia|]. cbn [loop].
    assert (Hne : els q1 <> []) by (intros X; assert (Y : In s0 (els q1)) by (apply E1; reflexivity); rewrite X in Y; destruct Y).
    destruct (bag_peek bagP Hne) as (cur & Hpk & Hc). apply E1 in Hc. subst cur.
    eapply ei_bind_ok with (P := fun r h' => exists pred q, r = inl (pred, q) /\ J [s0] pred q h' /\ length (els q) <= length (nb s0)).
    - unfold search_iter. destruct (fq_isEmpty q1) eqn:Hem; [apply (bag_empty bagP) in Hem; contradiction|]. rewrite Hpk.
      apply ok_bind, ok_ret. apply ok_bind. apply ok_get_node_attr; [eapply RD_V; eauto|].
      destruct (eqb_spec (nattr h2 s0 "color") (VS "green")) as [E|_]; [apply (RD_green H2 Hs0) in E; destruct E|].
      apply ok_bind. eapply ok_weaken; [apply (RD_visit q1 H2 Hs0)|]. intros u3 h3 H3; cbn beta in H3.
      apply ok_bind. eapply ok_weaken; [apply (RD_color (c := "blue") H3 Hs0); [intros []|discriminate]|]. intros u4 h4 H4; cbn beta in H4.
      apply ok_bind. rewrite eqb_refl. apply ok_ret. destruct (eqb_spec (Some s0) None) as [?|_]; [discriminate|].
      apply ok_bind. apply ok_lift with (a := nb s0); [apply dget_list_at; rewrite nbd_keys; assumption|].
      apply ok_bind. eapply ok_weaken; [apply (@scan_source (nb s0) [] q1 h4 H4 (fun n Hn => Hn))|].
      { intros x Hx. left. apply E1. exact Hx. }
      { intros x []. }
      intros [pred q] h5 (H5 & Eq & Lq & Pq & Dq); cbn [fst snd] in *.
      assert (Hsq : In s0 (els q)) by (apply Eq; right; apply E1; reflexivity).
      destruct (bag_remove bagP Hsq) as (q' & Hrm & Hlen & Hr1 & Hr2). rewrite Hrm. apply ok_bind, ok_ret. apply ok_bind.
      eapply ok_weaken; [apply (RD_greening H5 Hs0)|]. intros u6 h6 H6; cbn beta in H6. apply ok_ret. exists pred, q'. split; [reflexivity|]. split; [|lia].
      constructor; auto.
      + left. reflexivity.
      + intros x [<-|[]]. auto.
      + intros x. split.
        * intros Hx. assert (Hxs : x <> s0).
          { intros ->. apply (pq_prio P) in Hx. rewrite (pq_remove P s0 Hrm) in Hx. destruct (eq_dec s0 s0); congruence. }
          apply Hr1, Eq in Hx as [Hx|Hx]; [|apply E1 in Hx; contradiction]. split; [exact Hx|]. split; [exact Hxs|]. intros [<-|[]]. congruence.
        * intros (A & B & _). apply Hr2; [apply Eq; auto|exact B].
      + intros x Hx Hxs. destruct (Pq x) as [?|?]; [apply Eq; left; exact Hx|contradiction|assumption].
      + intros c x [<-|[]] Hcc. congruence.
    - intros ? h5 (pred & q & -> & HJ & Hl). apply (loop_other HJ). lia.
  Qed.
End Depth.
