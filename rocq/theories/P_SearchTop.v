(* Whole runs of search. *)
From Verif Require Import Py Util M_Graph M_Search P_Graph P_GraphLaws P_Metrics Spec P_Walk P_Attr S_Frontier P_SearchAbs P_Search.
Set Implicit Arguments. Unset Strict Implicit.
Local Open Scope string_scope. Local Open Scope list_scope.

Definition enough (g : graph) (fuel : nat) : Prop := length (get_node_list g) + 2 * length (get_edge_list g) + 2 <= fuel.

Lemma sum_snb g rev : wf g -> list_sum (map (fun x => length (snb g rev x)) (get_node_list g)) <= 2 * length (get_edge_list g).
Proof.
  intros W. unfold snb, nbd. destruct (g_type g) eqn:Ht, rev.
  - rewrite (in_sum W Ht). lia.
  - rewrite (out_sum W Ht). lia.
  - rewrite (und_sum W Ht). lia.
  - rewrite (und_sum W Ht). lia.
Qed.

Section Top.
  Variable fr : frontier.
  Variable els : fq fr -> list name.
  Hypothesis Hbag : bag els.
  Variable al : algo.
  Hypothesis Hal : al <> OtherAlgo.
  Hypothesis Hpqa : fq_is_pq fr = is_pq_algo al.
  Hypothesis Hpq : is_pq_algo al = true -> prioq els.
  Variable g : graph.
  Hypothesis W : wf g.
  Variable rev : bool.
  Notation V := (get_node_list g).
  Notation nb := (snb g rev).
  Notation cost := (scost g).
  Hypothesis Hcost : is_pq_algo al = true -> forall x y, In y (nb x) -> cost x y <> None.
  Variable component : option Z.
  Variable s0 : name.
  Hypothesis Hs0 : In s0 V.
  Variable q0 : fq fr.
  Hypothesis Hq0 : els q0 = [].

  Notation Inv_ := (Inv al nb s0 els V).
  Notation qi := (q_init al s0 q0).

  Lemma Hnpq : is_pq_algo al = false -> fq_is_pq fr = false.
  Proof. congruence. Qed.
  Lemma HnbV x y : In x V -> In y (nb x) -> In y V.
  Proof. intros _ H. eapply snb_V; eauto. Qed.
  Lemma HndV : NoDup V.
  Proof. apply (wf_nd W). Qed.
  Lemma els_qi x : In x (els qi) <-> x = s0.
  Proof. unfold q_init. rewrite (bag_push Hbag), Hq0. simpl. tauto. Qed.
  Lemma mu_start fuel : enough g fuel -> mu nb els V (a_init al s0 qi) < fuel.
  Proof.
    intros Hf. rewrite (mu_init al nb V els_qi). pose proof (sum_snb rev W). unfold enough in Hf.
    assert (length (els qi) <= 1) by (unfold q_init; pose proof (bag_push_len Hbag q0 s0 (if is_pq_algo al then Some 0%Z else None)) as H1; rewrite Hq0 in H1; exact H1). lia.
  Qed.
  Lemma Inv_good s : Inv_ None s -> good g rev s.
  Proof.
    intros I. split.
    - intros x p Hx. apply (iv_pred I Hx).
    - intros x Hx He. assert (Hne : els (a_q s) <> []). { intros H. apply (bag_empty Hbag) in H. congruence. }
      destruct (bag_peek Hbag Hne) as (y & Hy & Hin). rewrite Hx in Hy. injection Hy as <-. apply (iv_reach I). apply (iv_els I); assumption.
  Qed.
  Lemma Inv_step dest s s' : Inv_ None s -> a_iter al nb cost s0 dest s = Some (inl s') -> Inv_ None s'.
  Proof.
    intros I Hi. destruct (a_iter_inv dest Hbag Hpq Hnpq Hal HnbV HndV Hcost I) as (r & Hr & H). rewrite Hi in Hr. injection Hr as <-. apply H.
  Qed.

  (* prologue shared by all calls *)
  Lemma prologue {B} (k : dict name (list name) -> dict name name * fq fr -> M graph B) Q :
    (forall h, RR al g component s0 (a_init al s0 qi) h -> ok (k (nbd g rev) ([], qi)) h Q) ->
    ok ((match al with Dijkstra | Prim => ret tt | _ => set_node_attr s0 "component" (voZ component) end) ;;
        t <- gets g_type ;;
        nb <- (match t, rev with Directed, true => in_dict | _, _ => gets g_nbrs end) ;;
        init_search rev nb ;;
        st <- process_source al component s0 ([], q0) ;; k nb st) g Q.
  Proof.
    intros Hk. apply ok_bind.
    assert (G : ok (match al with Dijkstra | Prim => ret tt | _ => set_node_attr s0 "component" (voZ component) end) g
      (fun _ h => R0 al g component s0 [] h)).
    { assert (Gp : is_pq_algo al = true -> R0 al g component s0 [] g).
      { intros Hp. constructor; auto; try contradiction; [apply ss_refl|]. intros x. unfold base_comp. rewrite Hp. reflexivity. }
      assert (Gn : is_pq_algo al = false -> ok (set_node_attr s0 "component" (voZ component)) g (fun _ h => R0 al g component s0 [] h)).
      { intros Hp. apply ok_set_node_attr; [apply (wf_V W); assumption|]. intros h S Hna Hea Hat Hnc _. constructor; auto; try contradiction.
        - intros x b Hb. rewrite Hna. destruct (eq_dec (x, b) (s0, "component")) as [[= -> ->]|]; [exfalso; apply Hb; simpl; tauto|reflexivity].
        - intros x. rewrite Hna, pair_eqb, eqb_refl. unfold base_comp. rewrite Hp. reflexivity. }
      destruct al; try (apply Gn; reflexivity); apply ok_ret; apply Gp; reflexivity. }
    eapply ok_weaken; [exact G|]. intros u h H; cbn beta in H. apply ok_bind, ok_gets. rewrite (ss_type (r0_ss H)).
    apply ok_bind.
    assert (Gn : ok (match g_type g, rev with Directed, true => in_dict | _, _ => gets g_nbrs end) h (fun d h' => d = nbd g rev /\ h' = h)).
    { unfold nbd. destruct (g_type g) eqn:Ht, rev; try (apply ok_gets; rewrite (ss_nbrs (r0_ss H)); auto).
      apply ok_eq. unfold in_dict. rewrite (ss_type (r0_ss H)), Ht, (ss_in (r0_ss H)). reflexivity. }
    eapply ok_weaken; [exact Gn|]. intros d h' Hd; cbn beta in Hd. destruct Hd as [-> ->].
    apply ok_bind. eapply ok_weaken; [apply (sim_init W rev H)|]. intros u1 h1 H1; cbn beta in H1.
    apply ok_bind. eapply ok_weaken; [apply (sim_source W Hs0 Hal Hpqa q0 H1)|]. intros st h2 H2; cbn beta in H2.
    destruct H2 as [-> H2]. apply Hk; assumption.
  Qed.

  Lemma search_unfold fuel dest : search fuel s0 dest component q0 al rev =
       ((match al with Dijkstra | Prim => ret tt | _ => set_node_attr s0 "component" (voZ component) end) ;;
        t <- gets g_type ;;
        nb <- (match t, rev with Directed, true => in_dict | _, _ => gets g_nbrs end) ;;
        init_search rev nb ;;
        st <- process_source al component s0 ([], q0) ;;
        '(found, pred) <- (if eqb (Some s0) dest then ret (true, fst st) else loop fuel (search_iter al component rev s0 dest nb) st) ;;
        match dest with
        | Some d => if found : bool then p <- walk_back fuel s0 d pred ;; ret (RPath p) else ret RNone
        | None => ret (RPred pred)
        end).
  Proof. destruct al; try reflexivity. congruence. Qed.

  (* search(source): the whole reachable set *)
  Lemma search_all (X : ast fr -> Prop) fuel :
    (forall s s', Inv_ None s -> X s -> a_iter al nb cost s0 None s = Some (inl s') -> X s') ->
    X (a_init al s0 qi) -> enough g fuel ->
    ok (search fuel s0 None component q0 al rev) g (fun r h => exists t, r = RPred (a_pred t) /\ Inv_ None t /\ X t /\ els (a_q t) = [] /\ RR al g component s0 t h).
  Proof.
    intros HX X0 Hf. rewrite search_unfold. apply prologue. intros h H. cbn [eqb].
    destruct (@a_loop_inv fr al nb cost s0 None els Hbag Hpq Hnpq Hal V HnbV HndV Hcost X HX fuel (a_init al s0 qi) (Inv_init al nb Hs0 els_qi) X0 (mu_start Hf))
      as (s' & f & Hl & t & It & Xt & Ht & Hc).
    destruct (eqb_spec (Some s0) None) as [?|_]; [discriminate|].
    apply ok_bind. eapply ok_weaken; [apply (@sim_loop fr al g W rev component s0 None Hal Hpqa (Inv_ None) Inv_good (@Inv_step None) fuel _ h s' f H (Inv_init al nb Hs0 els_qi) Hl)|].
    intros x h' Hx; cbn beta in Hx. destruct Hx as [-> HR]. apply ok_ret. destruct f; [destruct Hc as (cur & Hd & _); discriminate|].
    destruct Hc as [-> He]. exists t. auto.
  Qed.

  (* the destination never becomes green *)
  Lemma dest_not_green d s s' : Inv_ None s -> ~ In d (a_gr s) -> a_iter al nb cost s0 (Some d) s = Some (inl s') -> ~ In d (a_gr s').
  Proof.
    intros I Hd. unfold a_iter. destruct (fq_isEmpty (a_q s)) eqn:Hem; [discriminate|].
    assert (Hne : els (a_q s) <> []). { intros H. apply (bag_empty Hbag) in H. congruence. }
    destruct (bag_peek Hbag Hne) as (cur & Hpk & Hc). rewrite Hpk.
    destruct (mem_spec cur (a_gr s)) as [Hg|Hg].
    { destruct (fq_remove _ _); [|discriminate]. intros [= <-]. exact Hd. }
    destruct (_ && _); [discriminate|]. destruct (eqb_spec (Some cur) (Some d)) as [|Hcd]; [discriminate|].
    destruct (Inv_start I Hpk Hc Hg) as [I1 C1].
    assert (Cv : cur_ok s0 els cur (a_visit s cur)) by (destruct C1 as (A1 & A2 & A3); unfold cur_ok, a_visit; destruct (fq_is_pq fr); simpl; auto).
    assert (Iv : Inv_ (Some cur) (a_visit s cur)) by (apply Inv_visit; auto using Hnpq).
    destruct (a_scan_inv Hbag Hpq Hnpq Hal HnbV Hcost Iv Cv (l := nb cur)) as (s2 & -> & _ & _ & _ & _ & G2 & _); [auto|].
    destruct (fq_remove (a_q s2) cur) as [q'|]; [|discriminate]. intros [= <-]. simpl. rewrite G2.
    assert (Vg : a_gr (a_visit s cur) = a_gr s) by (unfold a_visit; destruct (fq_is_pq fr); reflexivity). rewrite Vg.
    intros [->|?]; congruence.
  Qed.

  (* search(source, d) *)
  Lemma search_dest (X : ast fr -> Prop) d fuel :
    (forall cur s s', Inv_ (Some cur) s -> cur_ok s0 els cur s -> In cur (nb cur) -> a_edge al cost cur cur s = Some s' -> s' = s \/ cur = s0) ->
    (forall s s', Inv_ None s -> X s -> a_iter al nb cost s0 (Some d) s = Some (inl s') -> X s') ->
    X (a_init al s0 qi) -> enough g fuel ->
    ok (search fuel s0 (Some d) component q0 al rev) g (fun r h => exists t, Inv_ None t /\ X t /\ tree_ok s0 t /\
        (d <> s0 /\ r = RNone /\ els (a_q t) = [] /\ ~ disc s0 t d /\ RR al g component s0 t h \/
         exists l, r = RPath l /\ bt s0 (a_pred t) l d /\ NoDup l /\ disc s0 t d /\ 
            (d = s0 /\ t = a_init al s0 qi /\ RR al g component s0 t h \/
             d <> s0 /\ ~ In d (a_gr t) /\ fq_peek (a_q t) = Some d /\ In d (els (a_q t)) /\ RR al g component s0 (a_visit t d) h))).
  Proof.
    intros Hself HX X0 Hf. rewrite search_unfold. apply prologue. intros h H.
    destruct (eqb_spec (Some s0) (Some d)) as [Hd|Hd].
    - injection Hd as <-. apply ok_bind, ok_ret. apply ok_bind.
      eapply ok_weaken; [apply ok_eq; apply walk_back_ok; [apply bt_src|unfold enough in Hf; simpl; lia]|].
      intros l h' Hl; cbn beta in Hl. destruct Hl as [-> ->]. apply ok_ret. exists (a_init al s0 qi).
      split; [apply (Inv_init al nb Hs0 els_qi)|]. split; [assumption|]. split; [intros n []|]. right. exists [s0].
      split; [reflexivity|]. split; [apply bt_src|]. split; [repeat constructor; auto|]. split; [left; reflexivity|]. left; auto.
    - pose (X' := fun s => X s /\ tree_ok s0 s /\ ~ In d (a_gr s)).
      assert (HX' : forall s s', Inv_ None s -> X' s -> a_iter al nb cost s0 (Some d) s = Some (inl s') -> X' s').
      { intros s s' I (A1 & A2 & A3) Hi. split; [eapply HX; eauto|]. split; [|eapply dest_not_green; eauto].
        exact (tree_step Hbag Hpq Hnpq Hal HnbV Hcost Hself I A2 Hi). }
      assert (X0' : X' (a_init al s0 qi)) by (split; [assumption|]; split; [intros n []|intros []]).
      destruct (@a_loop_inv fr al nb cost s0 (Some d) els Hbag Hpq Hnpq Hal V HnbV HndV Hcost X' HX' fuel (a_init al s0 qi) (Inv_init al nb Hs0 els_qi) X0' (mu_start Hf))
        as (s' & f & Hl & t & It & (Xt & Tt & Dt) & Ht & Hc).
      apply ok_bind. eapply ok_weaken; [apply (@sim_loop fr al g W rev component s0 (Some d) Hal Hpqa (Inv_ None) Inv_good (@Inv_step (Some d)) fuel _ h s' f H (Inv_init al nb Hs0 els_qi) Hl)|].
      intros x h' Hx; cbn beta in Hx. destruct Hx as [-> HR]. destruct f.
      + destruct Hc as (cur & Hcur & Hdc & Hng & -> & Hpk & Hin). injection Hcur as <-.
        destruct (tree_path Hs0 It Tt Hdc) as (l & Hl1 & Hl2 & Hl3).
        apply ok_bind. eapply ok_weaken; [apply ok_eq; apply walk_back_ok; [rewrite visit_pred; exact Hl1|]|].
        { pose proof (NoDup_incl_length Hl2 Hl3) as Hlen. unfold enough in Hf. lia. }
        intros l' h2 Hl'; cbn beta in Hl'. destruct Hl' as [-> ->]. apply ok_ret. exists t. do 3 (split; [assumption|]). right. exists l.
        split; [reflexivity|]. split; [assumption|]. split; [assumption|]. split; [assumption|]. right. split; [congruence|auto].
      + destruct Hc as [-> He]. apply ok_ret. exists t. do 3 (split; [assumption|]). left. split; [congruence|]. split; [reflexivity|]. split; [assumption|].
        split; [|assumption]. intros Hdd. destruct (iv_disc It Hdd) as [?|Hin]; [contradiction|]. rewrite He in Hin. destruct Hin.
  Qed.
End Top.
