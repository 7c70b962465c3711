(* bfs(), label_components(), get_diameter(), and the frame of search for arbitrary arguments. *)
From Verif Require Import Py Util M_Graph M_Metrics M_Search P_Graph P_GraphLaws P_Metrics Spec P_Walk P_Attr S_Frontier P_Frontier P_SearchAbs P_Search P_SearchTop P_SearchThm.
Set Implicit Arguments. Unset Strict Implicit.
Local Open Scope string_scope. Local Open Scope list_scope.

Lemma enough_ss g h fuel : same_shape g h -> enough g fuel -> enough h fuel.
Proof. intros S. unfold enough, get_edge_list. rewrite (ss_node_list S), (ss_edges S). auto. Qed.

Section More.
  Variable fr : frontier.
  Variable els : fq fr -> list name.
  Hypothesis Hbag : bag els.
  Hypothesis Hnp : fq_is_pq fr = false.
  Variable q0 : fq fr.
  Hypothesis Hq0 : els q0 = [].

  (* DFS edge rule, any bag: what is marked *)
  Lemma dfs_marks g rev component s0 fuel : wf g -> In s0 (get_node_list g) -> enough g fuel ->
    exists h pred, search fuel s0 None component q0 DFS rev g = (h, Ok (RPred pred)) /\ same_shape g h /\ g_attr h = g_attr g /\ g_ncomp h = g_ncomp g /\
      (forall n, In n (get_node_list g) ->
        (nattr h n "distance" <> VNone <-> reach (sarc g rev) s0 n) /\
        (nattr h n "color" = VS "green" <-> reach (sarc g rev) s0 n) /\
        (forall c, component = Some c -> (reach (sarc g rev) s0 n -> nattr h n "component" = VI c) /\
                   (~ reach (sarc g rev) s0 n -> nattr h n "component" = nattr g n "component")) /\
        (component = None -> nattr h n "component" = if eqb n s0 then VNone else nattr g n "component")).
  Proof.
    intros W Hs0 Hf. assert (Hal : DFS <> OtherAlgo) by discriminate.
    destruct (ok_ex (search_all Hbag Hal Hnp (fun H : is_pq_algo DFS = true => match Bool.diff_false_true H with end) W
       (fun H : is_pq_algo DFS = true => match Bool.diff_false_true H with end) component Hs0 Hq0 (X := fun _ => True) (fun _ _ _ _ _ => Logic.I) Logic.I Hf (rev := rev)))
      as (h & r & Hr & t & -> & I & _ & He & HR).
    exists h, (a_pred t). split; [assumption|]. split; [apply (r_ss HR)|]. split; [apply (r_attr HR)|]. split; [apply (r_ncomp HR)|].
    intros n Hn. pose proof (done_reach n I He) as Hre. rewrite (reach_snb rev s0 n W) in Hre. rewrite <- Hre.
    split; [|split; [|split]].
    - rewrite (r_dist HR Hn), (iv_dist I eq_refl n). destruct (a_dist t n); simpl; split; congruence.
    - rewrite (r_green HR Hn). split.
      + intros Hg. apply (proj1 (iv_gr I Hg)).
      + intros Hd. destruct (iv_disc I Hd) as [?|H]; [assumption|]. rewrite He in H. destruct H.
    - intros c ->. rewrite <- Hre, (r_comp HR Hn). unfold cs_of, base_comp, disc. simpl.
      destruct (dmem_spec (a_pred t) n) as [Hd|Hd], (eqb_spec n s0) as [->|Hns]; simpl; split; intros H; try reflexivity; try tauto; exfalso; apply H; auto.
    - intros ->. rewrite (r_comp HR Hn). unfold base_comp. simpl. reflexivity.
  Qed.

  Lemma bfs_marks g component s0 fuel : wf g -> In s0 (get_node_list g) -> enough g fuel ->
    exists h, bfs fuel s0 component q0 g = (h, Ok tt) /\ forall n, In n (get_node_list g) ->
        (obs (get_node_attr n "distance") h <> Ok VNone <-> reach (arc g) s0 n) /\
        (obs (get_node_attr n "color") h = Ok (VS "green") <-> reach (arc g) s0 n).
  Proof.
    intros W Hs0 Hf. destruct (dfs_marks false component W Hs0 Hf) as (h & pred & Hr & S & _ & _ & H). exists h.
    split; [unfold bfs; rewrite (bind_ok _ Hr); reflexivity|]. intros n Hn. destruct (H n Hn) as (H1 & H2 & _).
    assert (Hsa : reach (sarc g false) s0 n <-> reach (arc g) s0 n) by (apply reach_iff; intros; unfold sarc; destruct (g_type g); reflexivity).
    rewrite <- Hsa. rewrite !obs_nattr by (rewrite (ss_nodes S); apply (wf_V W); assumption).
    rewrite <- H1 at 1. rewrite <- H2. split; split; congruence.
  Qed.

  (** ** label_components *)
  Section Label.
    Variable g : graph.
    Hypothesis W : wf g.
    Hypothesis Hund : g_type g = Undirected.
    Variable fuel : nat.
    Hypothesis Hf : enough g fuel.
    Notation V := (get_node_list g).
    Record LInv (pre : list name) (h : graph) : Prop := {
      li_ss : same_shape g h;
      li_n : exists k, g_ncomp h = Some k /\ (0 <= k)%Z /\
        (forall x, In x V -> nattr h x "component" = VNone \/ exists z, nattr h x "component" = VI z /\ (0 <= z < k)%Z) /\
        (forall z, (0 <= z < k)%Z -> exists x, In x V /\ nattr h x "component" = VI z);
      li_pre : forall x, In x pre -> nattr h x "component" <> VNone;
      li_same : forall x y z, In x V -> In y V -> nattr h x "component" = VI z -> (nattr h y "component" = VI z <-> reach (arc g) x y)
    }.
    Lemma arc_sym x y : arc g x y -> arc g y x.
    Proof. unfold arc. rewrite check_edge_sym by assumption. auto. Qed.
    Lemma label_step pre n h : LInv pre h -> In n V -> nattr h n "component" = VNone ->
      ok (k <- gets g_ncomp ;; search fuel n None k q0 DFS false ;;
          modify (fun g => with_ncomp g (match g_ncomp g with Some k => Some (k + 1)%Z | None => None end))) h (fun _ h' => LInv (pre ++ [n]) h').
    Proof.
      intros [S (k & Hk & Hk0 & L1 & L2) L3 L4] Hn Hnn. assert (Wh : wf h) by (eapply ss_wf; eauto).
      apply ok_bind, ok_gets. rewrite Hk. assert (Hn' : In n (get_node_list h)) by (rewrite (ss_node_list S); assumption).
      destruct (dfs_marks false (Some k) Wh Hn' (enough_ss S Hf)) as (h1 & pred & Hr & S1 & _ & Hnc & HM).
      apply ok_bind. eapply ok_intro; [exact Hr|]. apply ok_modify.
      assert (Hra : forall x, reach (sarc h false) n x <-> reach (arc g) n x).
      { intros x. apply reach_iff. intros a b. rewrite <- (ss_arc a b S). unfold sarc. destruct (g_type h); reflexivity. }
      set (h' := with_ncomp h1 _). assert (Hna : forall x, nattr h' x "component" = nattr h1 x "component") by reflexivity.
      assert (Hlab : forall x, In x V -> (reach (arc g) n x -> nattr h' x "component" = VI k) /\ (~ reach (arc g) n x -> nattr h' x "component" = nattr h x "component")).
      { intros x Hx. rewrite <- (ss_node_list S) in Hx. destruct (HM x Hx) as (_ & _ & H & _). destruct (H k eq_refl) as [A B].
        rewrite Hra in A, B. auto. }
      assert (Hrs : forall a b, reach (arc g) a b -> reach (arc g) b a) by (intros a b; apply reach_sym; intros x y; apply arc_sym).
      assert (Hnew : forall x, In x V -> reach (arc g) n x -> nattr h x "component" = VNone).
      { intros x Hx Hr1. destruct (L1 x Hx) as [?|(z & Hz & _)]; [assumption|]. pose proof (proj2 (L4 x n z Hx Hn Hz) (Hrs _ _ Hr1)). congruence. }
      assert (Hdec : forall x, In x V -> {reach (arc g) n x} + {~ reach (arc g) n x}).
      { intros x Hx. rewrite <- (ss_node_list S) in Hx. destruct (HM x Hx) as (_ & H & _). rewrite Hra in H.
        destruct (eq_dec (nattr h1 x "color") (VS "green")); [left; apply H; assumption|right; rewrite <- H; assumption]. }
      constructor.
      - eapply ss_trans; [exact S|]. destruct S1; constructor; assumption.
      - exists (k + 1)%Z. split; [unfold h'; simpl; rewrite Hnc, Hk; reflexivity|]. split; [lia|]. split.
        + intros x Hx. destruct (Hlab x Hx) as [A B]. destruct (Hdec x Hx) as [Hr1|Hr1].
          * right. exists k. split; [auto|lia].
          * rewrite (B Hr1). destruct (L1 x Hx) as [?|(z & Hz & Hb)]; [auto|]. right. exists z. split; [assumption|lia].
        + intros z Hz. destruct (Z.eq_dec z k) as [->|Hzk].
          * exists n. split; [assumption|]. apply (Hlab n Hn). apply reach_refl.
          * destruct (L2 z) as (x & Hx & Hxz); [lia|]. exists x. split; [assumption|]. destruct (Hlab x Hx) as [_ B]. rewrite B; [assumption|].
            intros Hr1. rewrite (Hnew x Hx Hr1) in Hxz. discriminate.
      - intros x Hx. apply in_app_or in Hx as [Hx|[<-|[]]].
        + destruct (mem_spec x V) as [HxV|HxV].
          * destruct (Hlab x HxV) as [A B]. destruct (Hdec x HxV) as [Hr1|Hr1]; [rewrite (A Hr1); discriminate|]. rewrite (B Hr1). apply L3; assumption.
          * exfalso. apply (L3 x Hx). unfold nattr. assert (Hd : dget (g_nodes h) x = None); [|rewrite Hd; reflexivity].
            apply dget_None. rewrite (ss_nodes S). rewrite <- (wf_V W). assumption.
        + rewrite (proj1 (Hlab n Hn) (reach_refl _ _)). discriminate.
      - intros x y z Hx Hy. destruct (Hlab x Hx) as [Ax Bx], (Hlab y Hy) as [Ay By]. destruct (Hdec x Hx) as [Hr1|Hr1].
        + rewrite (Ax Hr1). intros [= <-]. destruct (Hdec y Hy) as [Hr2|Hr2].
          * rewrite (Ay Hr2). split; [|reflexivity]. intros _. eapply reach_trans; [apply Hrs; exact Hr1|exact Hr2].
          * rewrite (By Hr2). split; intros H; exfalso.
            -- destruct (L1 y Hy) as [H'|(z' & H' & Hb)]; rewrite H' in H; [discriminate|]. injection H as ->. lia.
            -- apply Hr2. eapply reach_trans; eauto.
        + rewrite (Bx Hr1). intros Hxz. destruct (Hdec y Hy) as [Hr2|Hr2].
          * rewrite (Ay Hr2). split; intros H; exfalso.
            -- injection H as <-. destruct (L1 x Hx) as [H'|(z' & H' & Hb)]; rewrite H' in Hxz; [discriminate|]. injection Hxz as ->. lia.
            -- apply Hr1. eapply reach_trans; [exact Hr2|]. apply Hrs. assumption.
          * rewrite (By Hr2). apply L4; assumption.
    Qed.
    Lemma label_ok : exists h, label_components fuel q0 g = (h, Ok tt) /\ same_shape g h /\ exists k, g_ncomp h = Some k /\
      (forall n, In n V -> exists z, obs (get_node_attr n "component") h = Ok (VI z) /\ (0 <= z < k)%Z) /\
      (forall n m, In n V -> In m V -> obs (get_node_attr n "component") h = obs (get_node_attr m "component") h <-> reach (arc g) n m) /\
      (forall z, (0 <= z < k)%Z -> exists n, In n V /\ obs (get_node_attr n "component") h = Ok (VI z)).
    Proof.
      assert (H : ok (label_components fuel q0) g (fun _ h => LInv V h)).
      { unfold label_components. apply ok_bind, ok_gets. rewrite Hund. apply ok_bind, ok_modify. apply ok_bind, ok_gets.
        set (g1 := with_ncomp g (Some 0%Z)). change (get_node_list g1) with V.
        assert (S1 : same_shape g g1) by (constructor; reflexivity).
        assert (HV : forall h, same_shape g h -> forall x, In x V -> In x (dkeys (g_nodes h))).
        { intros h S x Hx. rewrite (ss_nodes S). apply (wf_V W); assumption. }
        apply ok_bind. eapply ok_weaken.
        { apply ok_forM with (I := fun pre h => same_shape g h /\ g_ncomp h = Some 0%Z /\ forall x, In x pre -> nattr h x "component" = VNone).
          - split; [assumption|]. split; [reflexivity|intros x []].
          - intros pre a post h Hl (S & Hn & Hp). apply ok_set_node_attr; [apply (HV h S); rewrite Hl; apply in_or_app; simpl; auto|].
            intros h' S' Hna _ _ Hnc _. split; [eapply ss_trans; eauto|]. split; [congruence|]. intros x Hx. rewrite Hna.
            destruct (eq_dec (x, "component") (a, "component")); [reflexivity|]. apply in_app_or in Hx as [Hx|[<-|[]]]; [auto|congruence].
          - intros h Hh. exact Hh. }
        intros u h2 (S2 & Hn2 & Hp2). cbn beta. apply ok_bind. eapply ok_weaken.
        { apply ok_forM with (I := fun pre h => same_shape g h /\ g_ncomp h = Some 0%Z /\ forall x, In x V -> nattr h x "component" = VNone).
          - split; [assumption|]. split; [assumption|]. assumption.
          - intros pre a post h Hl (S & Hn & Hp). apply ok_set_node_attr; [apply (HV h S); rewrite Hl; apply in_or_app; simpl; auto|].
            intros h' S' Hna _ _ Hnc _. split; [eapply ss_trans; eauto|]. split; [congruence|]. intros x Hx. rewrite Hna.
            destruct (eq_dec (x, "component") (a, "label")); [congruence|]. auto.
          - intros h Hh. exact Hh. }
        intros u3 h3 (S3 & Hn3 & Hp3). cbn beta.
        apply ok_forM with (I := LInv).
        - constructor; [assumption| |intros x []|].
          + exists 0%Z. split; [assumption|]. split; [lia|]. split; [intros x Hx; left; auto|]. intros z Hz; lia.
          + intros x y z Hx Hy Hxz. rewrite (Hp3 x Hx) in Hxz. discriminate.
        - intros pre a post h Hl L. assert (Ha : In a V) by (rewrite Hl; apply in_or_app; simpl; auto).
          apply ok_bind. apply ok_get_node_attr; [apply (HV h (li_ss L)); assumption|].
          destruct (eqb_spec (nattr h a "component") VNone) as [Hc|Hc].
          + eapply label_step; eauto.
          + apply ok_ret. destruct L as [A1 A2 A3 A4]. constructor; auto. intros x Hx. apply in_app_or in Hx as [Hx|[<-|[]]]; auto.
        - auto. }
      destruct (ok_ex H) as (h & u & Hr & L). destruct u. exists h. split; [assumption|]. destruct L as [S (k & Hk & Hk0 & L1 & L2) L3 L4]. split; [assumption|].
      exists k. split; [assumption|].
      assert (Ho : forall n, In n V -> obs (get_node_attr n "component") h = Ok (nattr h n "component")).
      { intros n Hn. apply obs_nattr. rewrite (ss_nodes S). apply (wf_V W); assumption. }
      assert (Hl : forall n, In n V -> exists z, nattr h n "component" = VI z /\ (0 <= z < k)%Z).
      { intros n Hn. destruct (L1 n Hn) as [Hx|Hx]; [|assumption]. destruct (L3 n Hn Hx). }
      split; [|split].
      - intros n Hn. destruct (Hl n Hn) as (z & Hz & Hb). exists z. rewrite Ho, Hz by assumption. auto.
      - intros n m Hn Hm. rewrite !Ho by assumption. destruct (Hl n Hn) as (z & Hz & Hb). rewrite <- (L4 n m z Hn Hm Hz), Hz. split; congruence.
      - intros z Hz. destruct (L2 z Hz) as (x & Hx & Hxz). exists x. split; [assumption|]. rewrite Ho, Hxz by assumption. reflexivity.
    Qed.
  End Label.
End More.
Lemma label_directed fr fuel (q0 : fq fr) g : g_type g = Directed ->
  label_components fuel q0 g = (g, Err (PyException "label_components only works for undirected graphs")).
Proof. intros H. unfold label_components, bind, gets. rewrite H. reflexivity. Qed.

(** ** get_diameter *)
Section Diam.
  Variable fr : frontier.
  Variable els : fq fr -> list name.
  Hypothesis Hfifo : fifo els.
  Hypothesis Hnp : fq_is_pq fr = false.
  Variable q0 : fq fr.
  Hypothesis Hq0 : els q0 = [].
  Variable g : graph.
  Hypothesis W : wf g.
  Hypothesis Hund : g_type g = Undirected.
  Hypothesis Hty : typed g.
  Variable fuel : nat.
  Hypothesis Hf : enough g fuel.
  Notation V := (get_node_list g).
  Let fine h := same_shape g h /\ g_attr h = g_attr g.
  Let sarc_arc h x y : same_shape g h -> sarc h false x y <-> arc g x y.
  Proof. intros S. rewrite <- (ss_arc x y S). unfold sarc. destruct (g_type h); reflexivity. Qed.

  Lemma diam_cell n m h : fine h -> In n V -> ok (search fuel n (Some m) None q0 BFS false) h (fun r h' => fine h' /\
     (r = RNone /\ ~ reach (arc g) n m \/ exists l, r = RPath l /\ hops (arc g) n m (length l - 1))).
  Proof.
    intros [S Ha] Hn. assert (Wh : wf h) by (eapply ss_wf; eauto). assert (Hn' : In n (get_node_list h)) by (rewrite (ss_node_list S); assumption).
    destruct (bfs_path_frame Hfifo Hnp (al := BFS) eq_refl Wh false None Hn' Hq0 (enough_ss S Hf) m) as (h1 & S1 & Ha1 & HC).
    assert (F1 : fine h1) by (split; [eapply ss_trans; eauto|congruence]).
    destruct HC as [(l & Hr & Hw & Hm)|(Hr & Hno)].
    - eapply ok_intro; [exact Hr|]. split; [assumption|]. right. exists l. split; [reflexivity|].
      pose proof (walk_ne Hw) as Hne. assert (0 < length l) by (destruct l; [congruence|simpl; lia]). split.
      + exists l. split; [|lia]. eapply walk_mono; [|exact Hw]. intros; apply (sarc_arc _ _ S); assumption.
      + intros p Hp. assert (Hp' : walk (sarc h false) n p m) by (eapply walk_mono; [|exact Hp]; intros; apply (sarc_arc _ _ S); assumption).
        specialize (Hm p Hp'). lia.
    - eapply ok_intro; [exact Hr|]. split; [assumption|]. left. split; [reflexivity|]. intros Hx. apply Hno.
      eapply reach_mono; [|exact Hx]. intros; apply (sarc_arc _ _ S); assumption.
  Qed.
  (* P n m j: the pair has been processed *)
  Definition covers (ps : list (name * name)) (e : nat) : Prop :=
    (forall n m, In (n, m) ps -> exists j, hops (arc g) n m j /\ j <= e) /\
    (e = 0 \/ exists n m, In (n, m) ps /\ hops (arc g) n m e).
  Lemma diam_row_ok n h e ps : fine h -> In n V -> covers ps e -> ok (diam_row fuel q0 n V e) h (fun r h' => fine h' /\
     match r with None => exists m, In m V /\ ~ reach (arc g) n m | Some e' => covers (ps ++ map (fun m => (n, m)) V) e' /\ e <= e' end).
  Proof.
    intros Fh Hn Hc. unfold diam_row.
    apply ok_foldM with (I := fun pre r h' => fine h' /\ match r with None => exists m, In m V /\ ~ reach (arc g) n m
       | Some e' => covers (ps ++ map (fun m => (n, m)) pre) e' /\ e <= e' end).
    - split; [assumption|]. rewrite app_nil_r. auto.
    - intros pre m post [e1|] h1 Hl [F1 HI].
      2:{ apply ok_ret. auto. }
      apply ok_bind. eapply ok_weaken; [apply diam_cell; eauto|]. intros r h2 H2; cbn beta in H2. destruct H2 as [F2 [[-> Hno]|(l & -> & Hh)]].
      + apply ok_ret. split; [assumption|]. exists m. split; [rewrite Hl; apply in_or_app; simpl; auto|assumption].
      + apply ok_ret. split; [assumption|]. destruct HI as ((C1 & C2) & Hle). set (j := length l - 1) in *. split; [|lia]. rewrite map_app, app_assoc. split.
        * intros a b Hab. apply in_app_or in Hab as [Hab|[[= <- <-]|[]]].
          -- destruct (C1 a b Hab) as (j' & Hj & Hle'). exists j'. split; [assumption|lia].
          -- exists j. split; [assumption|lia].
        * destruct (Nat.max_spec e1 j) as [[_ ->]|[Hjl ->]].
          -- right. exists n, m. split; [apply in_or_app; simpl; auto|assumption].
          -- destruct C2 as [?|(a & b & Hab & Hh')]; [auto|]. right. exists a, b. split; [apply in_or_app; auto|assumption].
    - auto.
  Qed.
  Definition all_pairs (l : list name) : list (name * name) := flat_map (fun n => map (fun m => (n, m)) V) l.
  Lemma diameter_ok : exists h r, get_diameter fuel q0 g = (h, Ok (Some r)) /\
    match r with
    | DInf => V = [] \/ exists n m, In n V /\ In m V /\ ~ reach (arc g) n m
    | DNum k => (forall n m, In n V -> In m V -> exists j, hops (arc g) n m j /\ j <= k) /\ exists n m, In n V /\ In m V /\ hops (arc g) n m k
    end.
  Proof.
    assert (H : ok (get_diameter fuel q0) g (fun r h => exists d, r = Some d /\ match d with
      | DInf => V = [] \/ exists n m, In n V /\ In m V /\ ~ reach (arc g) n m
      | DNum k => (forall n m, In n V -> In m V -> exists j, hops (arc g) n m j /\ j <= k) /\ exists n m, In n V /\ In m V /\ hops (arc g) n m k
      end)).
    { unfold get_diameter. apply ok_bind. eapply ok_intro; [apply (attr_type_eq Hty)|]. rewrite Hund. cbn [type_string].
      destruct (eqb_spec (VS "graph") (VS "graph")) as [_|?]; [|congruence]. cbn [negb]. apply ok_bind, ok_gets. apply ok_bind.
      eapply ok_weaken.
      { apply ok_foldM with (I := fun pre acc h => fine h /\ match acc with
          | None => exists n m, In n V /\ In m V /\ ~ reach (arc g) n m
          | Some (DInf, e) => pre = [] /\ e = 0
          | Some (DNum k, e) => pre <> [] /\ k = e /\ covers (all_pairs pre) e end) (Q := fun acc h => fine h /\ match acc with
          | None => exists n m, In n V /\ In m V /\ ~ reach (arc g) n m
          | Some (DInf, e) => V = [] 
          | Some (DNum k, e) => V <> [] /\ covers (all_pairs V) k end).
        - split; [split; [apply ss_refl|reflexivity]|]. auto.
        - intros pre n post [[dm e]|] h Hl [Fh HI].
          2:{ apply ok_ret. auto. }
          assert (Hn : In n V) by (rewrite Hl; apply in_or_app; simpl; auto).
          assert (Hc : covers (all_pairs pre) e).
          { destruct dm; [destruct HI as [-> ->]; split; [intros a b []|auto]|apply HI]. }
          apply ok_bind. eapply ok_weaken; [apply (diam_row_ok Fh Hn Hc)|]. intros [e'|] h' H'; cbn beta in H'; destruct H' as [F' H'].
          + apply ok_ret. split; [assumption|]. destruct H' as [C' Hle]. assert (Hap : all_pairs (pre ++ [n]) = all_pairs pre ++ map (fun m => (n, m)) V).
            { unfold all_pairs. rewrite flat_map_app. simpl. rewrite app_nil_r. reflexivity. }
            destruct dm as [|k].
            * split; [destruct pre; discriminate|]. rewrite Hap. auto.
            * destruct HI as (_ & -> & _). destruct (Nat.ltb_spec e e').
              -- split; [destruct pre; discriminate|]. rewrite Hap. auto.
              -- assert (e = e') by lia. subst. split; [destruct pre; discriminate|]. rewrite Hap. auto.
          + apply ok_ret. split; [assumption|]. destruct H' as (m & Hm & Hno). eauto.
        - intros [[[|k] e]|] h [Fh HI]; split; auto; try tauto. destruct HI as (A & -> & B). auto. }
      intros acc h H; cbn beta in H. destruct H as [_ H]. apply ok_ret. destruct acc as [[[|k] e]|]; eexists; (split; [reflexivity|]); cbv iota beta.
      - auto.
      - destruct H as [Hne [C1 C2]]. split.
        + intros n m Hn Hm. apply C1. unfold all_pairs. apply in_flat_map. exists n. split; [assumption|]. apply in_map_iff. eauto.
        + assert (Hin : forall a b, In (a, b) (all_pairs V) -> In a V /\ In b V).
          { intros a b Hab. unfold all_pairs in Hab. apply in_flat_map in Hab as (x & Hx & Hab). apply in_map_iff in Hab as (y & [= <- <-] & Hy). auto. }
          destruct C2 as [->|(n & m & Hnm & Hh)].
          * destruct V as [|n l] eqn:HV; [congruence|]. exists n, n. split; [simpl; auto|]. split; [simpl; auto|]. split.
            -- exists [n]. split; [constructor|reflexivity].
            -- intros p Hp. destruct p; [destruct (walk_ne Hp); reflexivity|simpl; lia].
          * exists n, m. destruct (Hin n m Hnm). auto.
      - right. assumption. }
    destruct (ok_ex H) as (h & r & Hr & d & -> & Hd). exists h, d. auto.
  Qed.
End Diam.
