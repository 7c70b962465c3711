(* What search does before its loop, and the calls that get no further. *)
From Verif Require Import Py Util M_Graph M_Search P_Graph P_GraphLaws Spec P_Attr P_SearchAbs P_Search S_Frontier P_Walk.
Set Implicit Arguments. Unset Strict Implicit.
Local Open Scope string_scope. Local Open Scope list_scope.

Section Reset.
  Variable g : graph.
  Hypothesis W : wf g.
  Variable rev : bool.
  Notation V := (get_node_list g).
  Definition black_edge (h : graph) (x y : name) : Prop := eattr h (if rev then y else x) (if rev then x else y) "color" = Some (VS "black").
  Record wiped (nodes : list name) (done : name -> name -> Prop) (h : graph) : Prop := {
    wi_ss : same_shape g h;
    wi_label : forall x, In x nodes -> nattr h x "label" = VS "-";
    wi_dist : forall x, In x nodes -> nattr h x "distance" = VNone;
    wi_color : forall x, In x nodes -> nattr h x "color" = VS "black";
    wi_edge : forall x y, done x y -> black_edge h x y
  }.
  Lemma wi_V nodes done h x : wiped nodes done h -> In x V -> In x (dkeys (g_nodes h)).
  Proof. intros H Hx. rewrite (ss_nodes (wi_ss H)). apply (wf_V W); assumption. Qed.
  Definition cured (n : name) (h : graph) (as_ : list (string * val)) : Prop := forall a v, In (a, v) as_ -> nattr h n a = v.
  Lemma wi_set nodes done h n a v as_ : wiped nodes done h -> In n V -> ~ In n nodes -> cured n h as_ -> ~ In a (map fst as_) ->
    ok (set_node_attr n a v) h (fun _ h' => wiped nodes done h' /\ cured n h' ((a, v) :: as_)).
  Proof.
    intros H Hn Hnn Hc Ha. apply ok_set_node_attr; [exact (wi_V H Hn)|]. intros h' S Hna Hea _ _ _.
    assert (K : forall x b, In x nodes -> nattr h' x b = nattr h x b) by (intros x b Hx; rewrite Hna; destruct eq_dec as [[= -> _]|_]; [contradiction|reflexivity]).
    split; [constructor|].
    - eapply ss_trans; [apply (wi_ss H)|exact S].
    - intros x Hx. rewrite K by exact Hx. apply (wi_label H Hx).
    - intros x Hx. rewrite K by exact Hx. apply (wi_dist H Hx).
    - intros x Hx. rewrite K by exact Hx. apply (wi_color H Hx).
    - intros x y Hd. unfold black_edge. rewrite Hea. apply (wi_edge H Hd).
    - intros b w [[= <- <-]|Hb]; rewrite Hna; destruct eq_dec as [E|E]; try congruence; [|apply Hc, Hb].
      injection E as ->. exfalso. apply Ha. change a with (fst (a, w)). apply in_map. exact Hb.
  Qed.
  Lemma wi_pop nodes done h n a as_ : wiped nodes done h -> In n V -> ~ In n nodes -> cured n h as_ -> ~ In a (map fst as_) ->
    ok (pop_node_attr n a) h (fun _ h' => wiped nodes done h' /\ cured n h' as_).
  Proof.
    intros H Hn Hnn Hc Ha. apply ok_pop_node_attr; [exact (wi_V H Hn)|]. intros h' S Hna Hea _ _ _.
    assert (K : forall x b, In x nodes -> nattr h' x b = nattr h x b) by (intros x b Hx; apply Hna; congruence).
    split; [constructor|].
    - eapply ss_trans; [apply (wi_ss H)|exact S].
    - intros x Hx. rewrite K by exact Hx. apply (wi_label H Hx).
    - intros x Hx. rewrite K by exact Hx. apply (wi_dist H Hx).
    - intros x Hx. rewrite K by exact Hx. apply (wi_color H Hx).
    - intros x y Hd. unfold black_edge. rewrite Hea. apply (wi_edge H Hd).
    - intros b w Hb. rewrite Hna; [apply Hc, Hb|]. intros [= ->]. apply Ha. change a with (fst (a, w)). apply in_map. exact Hb.
  Qed.
  Lemma wi_black nodes done h x y : wiped nodes done h -> In y (snb g rev x) ->
    ok (color_edge rev x y "black") h (fun _ h' => wiped nodes (fun a b => done a b \/ (a, b) = (x, y)) h').
  Proof.
    intros H Hxy. apply (nbd_sarc rev x y W) in Hxy. pose proof (sarc_color W Hxy) as Hc. pose proof (ss_wf (wi_ss H) W) as Wh.
    assert (G : forall u v, check_edge g u v = true -> u = (if rev then y else x) -> v = (if rev then x else y) -> ok (set_edge_attr u v "color" (VS "black")) h (fun _ h' => wiped nodes (fun a b => done a b \/ (a, b) = (x, y)) h')).
    { intros u v Huv Eu Ev. apply ok_set_edge_attr; [exact Wh|rewrite (ss_check_edge u v (wi_ss H)); exact Huv|]. intros h' S Hna Hea _ _ _. constructor.
      - eapply ss_trans; [apply (wi_ss H)|exact S].
      - intros z Hz. rewrite Hna. apply (wi_label H Hz).
      - intros z Hz. rewrite Hna. apply (wi_dist H Hz).
      - intros z Hz. rewrite Hna. apply (wi_color H Hz).
      - intros a b Hab. unfold black_edge. rewrite Hea, eqb_refl. cbn [andb]. destruct (same_edge h _ _ u v) eqn:E; [reflexivity|]. destruct Hab as [Hd|[= -> ->]]; [apply (wi_edge H Hd)|].
        exfalso. unfold same_edge in E. rewrite <- Eu, <- Ev, eqb_refl in E. discriminate. }
    unfold color_edge. destruct rev; apply G; auto.
  Qed.
  Lemma wi_init h : wiped [] (fun _ _ => False) h -> ok (init_search rev (nbd g rev)) h (fun _ h' => wiped V (fun x y => In x V /\ In y (snb g rev x)) h').
  Proof.
    intros H. unfold init_search. apply ok_bind, ok_gets. rewrite (ss_node_list (wi_ss H)).
    apply ok_forM with (I := fun pre => wiped pre (fun x y => In x pre /\ In y (snb g rev x))).
    { constructor; [apply (wi_ss H)|intros x []|intros x []|intros x []|intros x y [[] _]]. }
    2:{ auto. }
    intros pre n post h1 Hl H1. assert (Hn : In n V) by (rewrite Hl; apply in_elt).
    assert (Hnn : ~ In n pre). { pose proof (wf_nd W) as ND. change (dkeys (g_nbrs g)) with V in ND. rewrite Hl in ND. apply NoDup_remove_2 in ND. intros K. apply ND, in_or_app. left. exact K. }
    assert (C0 : cured n h1 []) by (intros a v []).
    apply ok_bind. eapply ok_weaken; [apply (wi_set (VS "-") H1 Hn Hnn C0 (a := "label")); intros []|]. intros u2 h2 [H2 C2]; cbn beta in H2, C2.
    apply ok_bind. eapply ok_weaken; [apply (wi_pop H2 Hn Hnn C2 (a := "priority")); cbn; intuition discriminate|]. intros u3 h3 [H3 C3]; cbn beta in H3, C3.
    apply ok_bind. eapply ok_weaken; [apply (wi_set VNone H3 Hn Hnn C3 (a := "distance")); cbn; intuition discriminate|]. intros u4 h4 [H4 C4]; cbn beta in H4, C4.
    apply ok_bind. eapply ok_weaken; [apply (wi_set (VS "black") H4 Hn Hnn C4 (a := "color")); cbn; intuition discriminate|]. intros u5 h5 [H5 C5]; cbn beta in H5, C5.
    apply ok_bind. apply ok_lift with (a := snb g rev n). { apply dget_list_at. rewrite nbd_keys; assumption. }
    assert (H6 : wiped (pre ++ [n]) (fun x y => In x pre /\ In y (snb g rev x)) h5).
    { assert (Hin : forall x, In x (pre ++ [n]) -> x = n \/ In x pre) by (intros x Hx; apply in_app_or in Hx as [?|[?|[]]]; auto).
      constructor; [apply (wi_ss H5)|..|exact (wi_edge H5)]; intros x Hx; destruct (Hin x Hx) as [->|K].
      - apply C5. cbn; tauto.
      - apply (wi_label H5 K).
      - apply C5. cbn; tauto.
      - apply (wi_dist H5 K).
      - apply C5. cbn; tauto.
      - apply (wi_color H5 K). }
    clear - H6 W. eapply ok_weaken.
    { apply ok_forM with (I := fun pre' h => wiped (pre ++ [n]) (fun x y => (In x pre /\ In y (snb g rev x)) \/ (x = n /\ In y pre')) h)
        (Q := fun h => wiped (pre ++ [n]) (fun x y => In x (pre ++ [n]) /\ In y (snb g rev x)) h).
      - destruct H6. constructor; auto. intros x y [K|[_ []]]; auto.
      - intros pre' j post' h7 Hl7 H7. eapply ok_weaken; [apply (wi_black (x := n) (y := j) H7); rewrite Hl7; apply in_elt|]. intros u8 h8 H8; cbn beta in H8.
        destruct H8. constructor; auto. intros x y K. apply wi_edge0. destruct K as [K|[-> K]]; [left; left; exact K|].
        apply in_app_or in K as [K|[<-|[]]]; [left; right; auto|right; reflexivity].
      - intros h7 H7. destruct H7. constructor; auto. intros x y [K1 K2]. apply wi_edge0. apply in_app_or in K1 as [K|[<-|[]]]; auto. }
    intros u7 h7 H7. exact H7.
  Qed.
End Reset.

Section Prologue.
  Variable fr : frontier.
  Variable g : graph.
  Hypothesis W : wf g.
  Variable al : algo.
  Hypothesis Hal : al <> OtherAlgo.
  Variables (rev : bool) (component : option Z) (s0 : name) (q0 : fq fr).
  Notation V := (get_node_list g).
  Definition fresh_state (h : graph) : Prop := wiped g rev V (fun x y => In x V /\ In y (snb g rev x)) h.
  Definition after_reset (fuel : nat) (dest : option name) : M graph sres :=
    st <- process_source al component s0 ([], q0) ;;
    '(found, pred) <- (if eqb (Some s0) dest then ret (true, fst st) else loop fuel (search_iter al component rev s0 dest (nbd g rev)) st) ;;
    match dest with
    | Some d => if found : bool then p <- walk_back fuel s0 d pred ;; ret (RPath p) else ret RNone
    | None => ret (RPred pred)
    end.
  Lemma search_reset : (is_pq_algo al = false -> In s0 V) -> exists h, fresh_state h /\ forall fuel dest, search fuel s0 dest component q0 al rev g = after_reset fuel dest h.
  Proof.
    intros Hs.
    assert (G : exists h1, same_shape g h1 /\ (match al with Dijkstra | Prim => ret tt | _ => set_node_attr s0 "component" (voZ component) end) g = (h1, Ok tt)).
    { destruct (is_pq_algo al) eqn:P.
      - exists g. split; [apply ss_refl|]. destruct al; try discriminate; reflexivity.
      - assert (K : ok (set_node_attr s0 "component" (voZ component)) g (fun _ h => same_shape g h)).
        { apply ok_set_node_attr; [apply (wf_V W), Hs; reflexivity|]. intros h S _ _ _ _ _. exact S. }
        apply ok_ex in K as (h1 & [] & E & S). exists h1. split; [exact S|]. destruct al; try discriminate; try congruence; exact E. }
    destruct G as (h1 & S1 & E1).
    assert (E2 : (match g_type h1, rev with Directed, true => in_dict | _, _ => gets g_nbrs end) h1 = (h1, Ok (nbd g rev))).
    { unfold nbd. rewrite <- (ss_type S1), <- (ss_nbrs S1), <- (ss_in S1). destruct (g_type h1) eqn:T, rev; try reflexivity. unfold in_dict. rewrite T. reflexivity. }
    assert (K : wiped g rev [] (fun _ _ => False) h1) by (constructor; [exact S1|intros x []|intros x []|intros x []|intros x y []]).
    apply (wi_init W) in K. apply ok_ex in K as (h & [] & E3 & H). exists h. split; [exact H|]. intros fuel dest.
    replace (search fuel s0 dest component q0 al rev) with
       ((match al with Dijkstra | Prim => ret tt | _ => set_node_attr s0 "component" (voZ component) end) ;;
        t <- gets g_type ;;
        nb <- (match t, rev with Directed, true => in_dict | _, _ => gets g_nbrs end) ;;
        init_search rev nb ;;
        st <- process_source al component s0 ([], q0) ;;
        '(found, pred) <- (if eqb (Some s0) dest then ret (true, fst st) else loop fuel (search_iter al component rev s0 dest nb) st) ;;
        match dest with
        | Some d => if found : bool then p <- walk_back fuel s0 d pred ;; ret (RPath p) else ret RNone
        | None => ret (RPred pred)
        end) by (destruct al; try reflexivity; congruence).
    rewrite (bind_ok _ E1). erewrite bind_ok by reflexivity. rewrite (bind_ok _ E2), (bind_ok _ E3). reflexivity.
  Qed.
  Lemma fresh_V h x : fresh_state h -> In x V <-> In x (dkeys (g_nodes h)).
  Proof. intros H. rewrite (ss_nodes (wi_ss H)), (wf_nodes W). reflexivity. Qed.
  Lemma set_missing h n a v : ~ In n (dkeys (g_nodes h)) -> set_node_attr n a v h = (h, Err AttributeError).
  Proof. intros H. apply dget_None in H. unfold set_node_attr. rewrite H. reflexivity. Qed.
  Lemma source_missing h fuel dest : fresh_state h -> is_pq_algo al = true -> ~ In s0 V -> after_reset fuel dest h = (h, Err AttributeError).
  Proof.
    intros H P N. unfold after_reset. rewrite (fresh_V s0 H) in N. apply bind_err.
    assert (E : process_source_pq s0 ([], q0) h = (h, Err AttributeError)) by (unfold process_source_pq; apply bind_err, set_missing, N).
    destruct al; try discriminate; exact E.
  Qed.
  Lemma source_queue h fuel dest : fresh_state h -> is_pq_algo al = true -> fq_is_pq fr = false -> In s0 V ->
    exists h', after_reset fuel dest h = (h', Err TypeError) /\ same_shape h h' /\ (forall x y a, eattr h' x y a = eattr h x y a) /\
      (forall x a, nattr h' x a = if eqb x s0 then (if eqb a "color" then VS "red" else if eqb a "label" then VI 0 else nattr h x a) else nattr h x a).
  Proof.
    intros H P Q Hs. apply (fresh_V s0 H) in Hs.
    assert (K1 : ok (set_node_attr s0 "color" (VS "red")) h (fun _ h1 => same_shape h h1 /\ (forall x y a, eattr h1 x y a = eattr h x y a) /\ forall x b, nattr h1 x b = if eq_dec (x, b) (s0, "color") then VS "red" else nattr h x b)).
    { apply ok_set_node_attr; [exact Hs|]. intros h1 S N Ee _ _ _. auto. }
    apply ok_ex in K1 as (h1 & [] & E1 & S1 & Ed1 & N1).
    assert (K2 : ok (set_node_attr s0 "label" (VI 0)) h1 (fun _ h2 => same_shape h1 h2 /\ (forall x y a, eattr h2 x y a = eattr h1 x y a) /\ forall x b, nattr h2 x b = if eq_dec (x, b) (s0, "label") then VI 0 else nattr h1 x b)).
    { apply ok_set_node_attr; [rewrite (ss_nodes S1); exact Hs|]. intros h2 S N Ee _ _ _. auto. }
    apply ok_ex in K2 as (h2 & [] & E2 & S2 & Ed2 & N2).
    exists h2. split; [|split; [|split]].
    - unfold after_reset. apply bind_err.
      assert (E : process_source_pq s0 ([], q0) h = (h2, Err TypeError)). { unfold process_source_pq. rewrite (bind_ok _ E1), (bind_ok _ E2). apply bind_err. unfold push_prio. rewrite Q. reflexivity. }
      destruct al; try discriminate; exact E.
    - exact (ss_trans S1 S2).
    - intros x y a. rewrite Ed2, Ed1. reflexivity.
    - intros x a. rewrite N2, N1. destruct (eqb_spec x s0) as [->|Nx].
      + destruct (eqb_spec a "color") as [->|Nc].
        { destruct eq_dec as [X|]; [discriminate X|]. destruct eq_dec; congruence. }
        destruct (eqb_spec a "label") as [->|Nl]; destruct eq_dec; try congruence. destruct eq_dec; congruence.
      + destruct eq_dec as [[= -> _]|]; [congruence|]. destruct eq_dec as [[= -> _]|]; [congruence|reflexivity].
  Qed.
  Definition start_label : val := if is_pq_algo al then VI 0 else match component with Some c => VI c | None => VI 0 end.
  Definition start_dist : val := if is_pq_algo al then VNone else VI 0.
  Lemma source_there h fuel : fresh_state h -> (is_pq_algo al = true -> fq_is_pq fr = true) -> In s0 V ->
    exists h', after_reset (S fuel) (Some s0) h = (h', Ok (RPath [s0])) /\ same_shape g h' /\
      (forall x y, sarc g rev x y -> black_edge rev h' x y) /\
      (forall x, In x V -> x <> s0 -> nattr h' x "label" = VS "-" /\ nattr h' x "distance" = VNone /\ nattr h' x "color" = VS "black") /\
      nattr h' s0 "label" = start_label /\ nattr h' s0 "distance" = start_dist /\ nattr h' s0 "color" = VS "black".
  Proof.
    intros H P Hs.
    set (K := fun k : graph => (forall x y b, eattr k x y b = eattr h x y b) /\ (forall x b, x <> s0 -> nattr k x b = nattr h x b)).
    assert (step : forall k a v k', K k -> (forall x y b, eattr k' x y b = eattr k x y b) -> (forall x b, nattr k' x b = if eq_dec (x, b) (s0, a) then v else nattr k x b) -> K k').
    { intros k a v k' [K1 K2] E N. split; [intros; rewrite E; apply K1|]. intros x b Hx. rewrite N. destruct eq_dec as [[= -> _]|]; [congruence|]. apply K2, Hx. }
    assert (Q : ok (process_source al component s0 ([], q0)) h (fun _ k => same_shape g k /\ K k /\ nattr k s0 "label" = start_label /\ nattr k s0 "distance" = start_dist /\ nattr k s0 "color" = VS "black")).
    { assert (set : forall k a v (T : graph -> Prop), same_shape g k -> K k ->
         (forall k', same_shape g k' -> K k' -> (forall b, nattr k' s0 b = if eq_dec b a then v else nattr k s0 b) -> T k') -> ok (set_node_attr s0 a v) k (fun _ k' => T k')).
      { intros k a v T Sk Kk HT. apply ok_set_node_attr; [rewrite (ss_nodes Sk), (wf_nodes W); exact Hs|]. intros k' S' N E _ _ _.
        apply HT; [exact (ss_trans Sk S')|exact (step _ _ _ _ Kk E N)|]. intros b. rewrite N. destruct (eq_dec b a) as [->|]; destruct eq_dec; congruence. }
      assert (K0 : K h) by (split; reflexivity). pose proof (wi_ss H) as S0.
      pose proof (wi_label H Hs) as A1. pose proof (wi_dist H Hs) as A2. pose proof (wi_color H Hs) as A3.
      unfold start_label, start_dist. destruct (is_pq_algo al) eqn:Pa.
      - assert (ok (process_source_pq s0 ([], q0)) h (fun _ k => same_shape g k /\ K k /\ nattr k s0 "label" = VI 0 /\ nattr k s0 "distance" = VNone /\ nattr k s0 "color" = VS "black")).
        { unfold process_source_pq. apply ok_bind, set; auto. intros k1 S1 K1 N1. apply ok_bind, set; auto. intros k2 S2 K2 N2.
          unfold push_prio. rewrite (P eq_refl). apply ok_bind, ok_ret. apply ok_bind, set; auto. intros k3 S3 K3 N3. apply ok_ret.
          split; [exact S3|]. split; [exact K3|]. rewrite !N3, !N2, !N1. repeat split; try exact A2; reflexivity. }
        destruct al; try discriminate; assumption.
      - assert (E : process_source al component s0 ([], q0) = (set_node_attr s0 "distance" (VI 0) ;;
            let q := if fq_is_pq fr then fq_push q0 s0 (Some 0%Z) else fq_push q0 s0 None in
            match component with Some c => set_node_attr s0 "component" (VI c) ;; set_node_attr s0 "label" (VI c) | None => set_node_attr s0 "label" (VI 0) end ;;
            ret ([], q))) by (destruct al; try discriminate; try congruence; reflexivity).
        rewrite E. clear E. apply ok_bind, set; auto. intros k1 S1 K1 N1. cbv zeta. apply ok_bind. destruct component as [c|].
        + apply ok_bind, set; auto. intros k2 S2 K2 N2. apply set; auto. intros k3 S3 K3 N3. apply ok_ret.
          split; [exact S3|]. split; [exact K3|]. rewrite !N3, !N2, !N1. repeat split; try exact A3; reflexivity.
        + apply set; auto. intros k3 S3 K3 N3. apply ok_ret.
          split; [exact S3|]. split; [exact K3|]. rewrite !N3, !N1. repeat split; try exact A3; reflexivity. }
    apply ok_ex in Q as (h' & st & E & S & [Ke Kn] & L). exists h'. split; [|split; [exact S|split; [|split; [|exact L]]]].
    - unfold after_reset. rewrite (bind_ok _ E). rewrite eqb_refl. cbn. unfold walk_back, bind. cbn. rewrite eqb_refl. reflexivity.
    - intros x y Hxy. unfold black_edge. rewrite Ke. apply (wi_edge H). split; [exact (proj1 (sarc_V W Hxy))|]. apply (nbd_sarc rev x y W), Hxy.
    - intros x Hx Hne. rewrite !Kn by exact Hne. split; [apply (wi_label H Hx)|]. split; [apply (wi_dist H Hx)|apply (wi_color H Hx)].
  Qed.
End Prologue.

(* an item left in the queue that cannot be reached from the source *)
Section Left.
  Variable fr : frontier.
  Notation Q := (fq fr).
  Variable els : Q -> list name.
  Hypothesis Hbag : bag els.
  Variable g : graph.
  Hypothesis W : wf g.
  Variables (al : algo) (rev : bool) (component : option Z) (s0 z : name) (dest : option name).
  Hypothesis Hz : ~ reach (sarc g rev) s0 z.
  Definition Kz (h : graph) : Prop := nattr h z "color" <> VS "green".
  Definition kz {A} (m : M graph A) : Prop := forall s s' r, m s = (s', r) -> Kz s -> Kz s'.
  Lemma kz_set n a v : a <> "color" \/ v <> VS "green" \/ n <> z -> kz (set_node_attr n a v).
  Proof.
    intros H s s' r. unfold set_node_attr. destruct (dget (g_nodes s) n) as [d|] eqn:E; intros [= <- <-] K; [|exact K].
    unfold Kz, nattr in *. cbn [g_nodes with_nodes]. rewrite dget_dset. destruct (eq_dec n z) as [->|Hn]; [|exact K].
    rewrite E in K. rewrite dget_dset. destruct (eq_dec a "color") as [->|]; [|exact K]. destruct H as [H|[H|H]]; congruence.
  Qed.
  Lemma kz_edge n m a v : kz (set_edge_attr n m a v).
  Proof.
    intros s s' r. unfold set_edge_attr. destruct (dget (g_edges s) (n, m)); [intros [= <- <-] K; exact K|].
    destruct (g_type s); [intros [= <- <-] K; exact K|]. destruct (dget (g_edges s) (m, n)); intros [= <- <-] K; exact K.
  Qed.
  Lemma kz_color x y c : kz (color_edge rev x y c).
  Proof. unfold color_edge. destruct rev; apply kz_edge. Qed.
  Lemma kz_pure A (f : graph -> res A) : kz (fun g => (g, f g)).
  Proof. intros s s' r [= <- <-] K. exact K. Qed.
  Lemma kz_ret A (a : A) : kz (ret a).
  Proof. intros s s' r [= <- <-] K. exact K. Qed.
  Lemma kz_fail A e : kz (fail e : M graph A).
  Proof. intros s s' r [= <- <-] K. exact K. Qed.
  Lemma kz_lift A (o : option A) e : kz (lift o e).
  Proof. destruct o; [apply kz_ret|apply kz_fail]. Qed.
  Lemma kz_bind A B (m : M graph A) (f : A -> M graph B) : kz m -> (forall a, kz (f a)) -> kz (bind m f).
  Proof. intros Hm Hf s s' r. unfold bind. destruct (m s) as [s1 [a|e]] eqn:E; intros H K; [apply (Hf a s1 s' r H), (Hm _ _ _ E), K|]. injection H as <- <-. exact (Hm _ _ _ E K). Qed.
  Lemma kz_get n a : kz (get_node_attr n a).
  Proof. apply kz_pure. Qed.
  Lemma kz_gete n m a : kz (get_edge_attr n m a).
  Proof. intros s s' r [= <- <-] K. exact K. Qed.
  Lemma kz_int v : kz (as_int v).
  Proof. destruct v; first [apply kz_ret|apply kz_fail]. Qed.
  Lemma kz_into v : kz (as_int_o v).
  Proof. destruct v; first [apply kz_ret|apply kz_fail]. Qed.
  Lemma kz_prio q x : kz (get_priority (fr := fr) q x).
  Proof. unfold get_priority. destruct (fq_is_pq fr); first [apply kz_ret|apply kz_fail]. Qed.
  Lemma kz_comp n : kz (set_component n component).
  Proof. unfold set_component. destruct component; [|apply kz_ret]. apply kz_bind; [|intros _]; apply kz_set; left; discriminate. Qed.
  Lemma kz_whenok A B (m : M graph A) (f : A -> M graph B) h P : kz m -> Kz h -> (forall a h', Kz h' -> whenok (f a) h' P) -> whenok (bind m f) h P.
  Proof. intros K Kh H. apply whenok_bind. unfold whenok at 1. intros a h1 E. apply H, (K _ _ _ E Kh). Qed.

  Definition LZ (kp : list name) (st : dict name name * Q) (h : graph) : Prop :=
    Kz h /\ incl kp (els (snd st)) /\ (forall x, In x (dkeys (fst st)) -> reach (sarc g rev) s0 x).
  Lemma LZ_push kp pred (q : Q) n cur p h : Kz h -> incl kp (els q) -> (forall x, In x (dkeys pred) -> reach (sarc g rev) s0 x) -> reach (sarc g rev) s0 cur -> sarc g rev cur n ->
    LZ kp (dset pred n cur, fq_push q n p) h.
  Proof.
    intros K Hq Hp Hr Ha. split; [exact K|]. cbn [fst snd]. split; [intros y Hy; apply (bag_push Hbag); auto|]. intros x Hx. apply In_dkeys_dset in Hx as [-> |Hx]; [exact (reach_step Hr Ha)|auto].
  Qed.
  Ltac kzt := first [apply kz_get|apply kz_gete|apply kz_int|apply kz_into|apply kz_prio|apply kz_comp|apply kz_color|apply kz_ret|apply kz_set; first [left; discriminate|right; left; discriminate]].
  Ltac step := apply kz_whenok; [kzt|assumption|intros ? ? ?].
  Lemma LZ_finish kp pred (q : Q) n cur p h : Kz h -> incl kp (els q) -> (forall x, In x (dkeys pred) -> reach (sarc g rev) s0 x) -> reach (sarc g rev) s0 cur -> sarc g rev cur n ->
    whenok (finish_edge (fr := fr) component cur n (pred, fq_push q n p)) h (LZ kp).
  Proof. intros K Hq Hp Hr Ha. unfold finish_edge. step. step. apply whenok_ret, LZ_push; assumption. Qed.
  Lemma LZ_relax kp pred (q : Q) n cur ne h : Kz h -> incl kp (els q) -> (forall x, In x (dkeys pred) -> reach (sarc g rev) s0 x) -> reach (sarc g rev) s0 cur -> sarc g rev cur n ->
    whenok (relax_pq (fr := fr) cur n ne (pred, q)) h (LZ kp).
  Proof.
    intros K Hq Hp Hr Ha. unfold relax_pq. apply kz_whenok; [|assumption|].
    { destruct (negb (dmem pred n)); [kzt|]. apply kz_bind; [kzt|]. intros p. apply kz_bind; [kzt|]. intros p'. kzt. }
    intros b h1 K1. destruct b; [|apply whenok_ret; repeat split; assumption]. cbv zeta. step. step.
    apply whenok_bind. unfold push_prio. destruct (fq_is_pq fr); [|apply whenok_fail]. apply whenok_ret. step. apply whenok_ret, LZ_push; assumption.
  Qed.
  Lemma LZ_edge kp cur n st h : LZ kp st h -> reach (sarc g rev) s0 cur -> sarc g rev cur n -> whenok (process_edge al component cur n st) h (LZ kp).
  Proof.
    intros (K & Hq & Hp) Hr Ha. destruct st as [pred q]. cbn [fst snd] in *.
    assert (G : al <> Dijkstra -> al <> Prim -> whenok (process_edge al component cur n (pred, q)) h (LZ kp)).
    { intros N1 N2.
      destruct al; try congruence; unfold process_edge; (destruct (fq_is_pq fr);
       [step; step; cbv zeta; destruct (match fq_prio q n with Some c => _ | None => _ end); [apply whenok_ret; repeat split; assumption|]; cbn [is_bfs];
        apply kz_whenok; [kzt|assumption|intros ? ? ?]; apply LZ_finish; assumption
       |step; step; cbv zeta; step; cbn [is_bfs andb]; try (destruct (negb _); [apply whenok_ret; repeat split; assumption|]); step; step; apply LZ_finish; assumption]). }
    destruct al; try (apply G; discriminate); unfold process_edge.
    - unfold process_edge_dijkstra. cbn [snd]. step. step. step. step. apply LZ_relax; assumption.
    - unfold process_edge_prim. step. step. apply LZ_relax; assumption.
  Qed.
  Lemma LZ_iter st h : LZ [z] st h -> whenok (search_iter al component rev s0 dest (nbd g rev) st) h (fun r k => match r with
     | inl st' => LZ [z] st' k | inr (found, pred) => found = true /\ exists d, dest = Some d /\ reach (sarc g rev) s0 d end).
  Proof.
    intros (K & Hq' & Hp). destruct st as [pred q]. cbn [fst snd] in *. assert (Hq : In z (els q)) by (apply Hq'; left; reflexivity). clear Hq'. unfold search_iter.
    destruct (fq_isEmpty q) eqn:Eq; [exfalso; apply (bag_empty Hbag) in Eq; rewrite Eq in Hq; destruct Hq|].
    destruct (bag_peek Hbag (q := q)) as (cur & Pk & Hin); [intros En; rewrite En in Hq; destruct Hq|]. rewrite Pk. apply whenok_bind. apply whenok_ret.
    apply whenok_bind. unfold whenok at 1. intros c h1 Ec.
    assert (h1 = h /\ (cur = z -> c <> VS "green")) as [-> Cz].
    { unfold get_node_attr in Ec. injection Ec as <- Ec. split; [reflexivity|]. intros ->. unfold Kz, nattr in K. destruct (dget (g_nodes h) z); [|discriminate Ec]. injection Ec as <-. exact K. }
    destruct (eqb_spec c (VS "green")) as [->|Nc].
    - destruct (bag_remove Hbag Hin) as (q2 & Rm & _ & _ & Keep). rewrite Rm. apply whenok_bind, whenok_ret, whenok_ret. split; [exact K|]. cbn [fst snd]. split; [|exact Hp].
      intros y [<-|[]]. apply Keep; [exact Hq|]. intros E. apply Cz; auto.
    - apply kz_whenok; [unfold process_node_search; destruct (fq_is_pq fr); kzt|assumption|intros _ h2 K2]. apply kz_whenok; [kzt|assumption|intros _ h3 K3].
      apply whenok_bind. apply whenok_weaken with (Q := fun _ k => Kz k /\ reach (sarc g rev) s0 cur).
      { destruct (eqb_spec cur s0) as [->|]; [apply whenok_ret; split; [assumption|apply reach_refl]|]. destruct (dget pred cur) as [p|] eqn:Ep; [|apply whenok_bind, whenok_fail].
        apply whenok_bind, whenok_ret. unfold whenok at 1. intros u h4 E4. split; [exact (kz_color E4 K3)|]. apply Hp, dget_keys. exists p. exact Ep. }
      intros _ h4 [K4 Hr]. assert (Nz : cur <> z) by (intros ->; contradiction).
      destruct (eqb_spec (Some cur) dest) as [<-|Nd]; [apply whenok_ret; eauto|].
      destruct (dget (nbd g rev) cur) as [l|] eqn:El; [|apply whenok_bind, whenok_fail]. apply whenok_bind, whenok_ret.
      assert (Hl : forall n, In n l -> sarc g rev cur n) by (intros n Hn; apply (nbd_sarc rev cur n W); unfold list_at; rewrite El; exact Hn).
      apply whenok_bind. unfold scan_neighbors. apply whenok_foldM with (I := fun _ st k => LZ [z; cur] st k).
      + split; [assumption|]. cbn [fst snd]. split; [intros y [<-|[<-|[]]]; assumption|assumption].
      + intros pre n post st k E (Kk & Hk). apply kz_whenok; [kzt|assumption|intros c' k1 K1]. destruct (eqb c' (VS "green")); [apply whenok_ret; split; assumption|].
        apply kz_whenok; [kzt|assumption|intros _ k2 K2']. apply whenok_bind. eapply whenok_weaken; [apply LZ_edge; [split; eassumption|exact Hr|apply Hl; rewrite E; apply in_or_app; right; left; reflexivity]|].
        intros st' k3 (K3' & Hk3). apply kz_whenok; [kzt|assumption|intros _ k4 K4']. apply whenok_ret. split; assumption.
      + intros [pred' q'] k (Kk & Hk1 & Hk2). cbn [fst snd] in *. destruct (fq_remove q' cur) as [q2|] eqn:Rm; [|apply whenok_bind, whenok_fail]. apply whenok_bind, whenok_ret.
        apply kz_whenok; [apply kz_set; auto|assumption|intros _ k' K']. apply whenok_ret. split; [exact K'|]. cbn [fst snd]. split; [|assumption].
        assert (Hc : In cur (els q')) by (apply Hk1; right; left; reflexivity).
        destruct (bag_remove Hbag Hc) as (q3 & Rm3 & _ & _ & Keep). rewrite Rm in Rm3. injection Rm3 as <-. intros y [<-|[]]. apply Keep; [apply Hk1; left; reflexivity|congruence].
  Qed.
  Lemma LZ_loop fuel st h : LZ [z] st h -> whenok (loop fuel (search_iter al component rev s0 dest (nbd g rev)) st) h (fun r _ => fst r = true /\ exists d, dest = Some d /\ reach (sarc g rev) s0 d).
  Proof.
    intros H. apply whenok_loop with (I := LZ [z]); [assumption|]. intros st1 h1 H1. eapply whenok_weaken; [apply LZ_iter, H1|].
    intros [st2|[found pred]] k Hk; [exact Hk|]. exact Hk.
  Qed.
  Lemma LZ_source q0 h : Kz h -> In z (els q0) -> whenok (process_source al component s0 ([], q0)) h (LZ [z]).
  Proof.
    intros K Hq.
    assert (G : forall p k, Kz k -> LZ [z] ([], fq_push q0 s0 p) k) by (intros p k Kk; split; [exact Kk|]; split; [intros y [<-|[]]; apply (bag_push Hbag); auto|intros y []]).
    assert (G1 : whenok (process_source_pq s0 ([], q0)) h (LZ [z])).
    { unfold process_source_pq. step. step. apply whenok_bind. unfold push_prio. destruct (fq_is_pq fr); [|apply whenok_fail]. apply whenok_ret. step. apply whenok_ret, G. assumption. }
    assert (G2 : whenok (set_node_attr s0 "distance" (VI 0) ;;
            let q := if fq_is_pq fr then fq_push q0 s0 (Some 0%Z) else fq_push q0 s0 None in
            match component with Some c => set_node_attr s0 "component" (VI c) ;; set_node_attr s0 "label" (VI c) | None => set_node_attr s0 "label" (VI 0) end ;;
            ret ([], q)) h (LZ [z])).
    { step. cbv zeta. apply kz_whenok; [|assumption|].
      - destruct component; [apply kz_bind; [kzt|intros _; kzt]|kzt].
      - intros _ k Kk. apply whenok_ret. destruct (fq_is_pq fr); apply G; assumption. }
    destruct al; first [exact G1|exact G2].
  Qed.
  Lemma leftover_search fuel q0 h r : al <> OtherAlgo -> In z (els q0) -> search fuel s0 dest component q0 al rev g = (h, Ok r) ->
    exists d, dest = Some d /\ reach (sarc g rev) s0 d.
  Proof.
    intros Ha Hq E.
    assert (Hs : is_pq_algo al = false -> In s0 (get_node_list g)).
    { intros P. destruct (in_dec eq_dec s0 (get_node_list g)) as [H|H]; [exact H|exfalso].
      assert (Mi : set_node_attr s0 "component" (voZ component) g = (g, Err AttributeError)) by (apply set_missing; rewrite (wf_nodes W); exact H).
      assert (X : search fuel s0 dest component q0 al rev g = (g, Err AttributeError)) by (destruct al; try discriminate; try congruence; cbn [search]; apply bind_err; exact Mi).
      congruence. }
    destruct (@search_reset fr g W al Ha rev component s0 q0 Hs) as (h0 & F & Eq). rewrite Eq in E. unfold after_reset in E.
    assert (K0 : Kz h0).
    { unfold Kz. destruct (in_dec eq_dec z (get_node_list g)) as [H|H]; [rewrite (wi_color F H); discriminate|].
      rewrite (fresh_V W z F) in H. apply dget_None in H. unfold nattr. rewrite H. discriminate. }
    unfold bind at 1 in E. destruct (process_source al component s0 ([], q0) h0) as [h1 [st|e]] eqn:E1; [|discriminate E].
    pose proof (LZ_source K0 Hq E1) as L.
    destruct (eqb_spec (Some s0) dest) as [<-|Nd]; [exists s0; split; [reflexivity|apply reach_refl]|].
    unfold bind at 1 in E. destruct (loop fuel _ st h1) as [h2 [[found pred]|e]] eqn:E2; [|discriminate E].
    exact (proj2 (LZ_loop L E2)).
  Qed.
End Left.
