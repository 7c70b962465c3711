(* acyclic_shortest_path: relaxing the nodes in topological order. *)
From Verif Require Import Py Util M_Graph P_Graph P_GraphLaws M_Search Spec P_Walk P_Attr P_SearchAbs P_Search M_Flow P_EdgeFrame M_Dfs P_Dfs.
Set Implicit Arguments. Unset Strict Implicit.
Local Open Scope string_scope. Local Open Scope list_scope.

Lemma bt_pred_walk s0 (pred : dict name name) l n : bt s0 pred l n -> walk (pred_arc pred) s0 l n.
Proof. induction 1 as [|l p n Hb IH Hn Hp]; [constructor|]. apply (walk_snoc IH). exact Hp. Qed.
Lemma before_mid (pre post : list name) m x : NoDup (pre ++ m :: post) -> before (pre ++ m :: post) x m -> In x pre.
Proof.
  intros ND (F1 & F2 & E & Hx). assert (F1 = pre); [|subst; assumption]. revert F1 E Hx. induction pre as [|a pre IH]; intros F1 E Hx.
  - destruct F1 as [|b F1]; [destruct Hx|]. injection E as <- ->. simpl in ND. inversion ND; subst. exfalso. apply H1, in_elt.
  - destruct F1 as [|b F1]; [destruct Hx|]. injection E as <- E. simpl in ND. inversion ND; subst. f_equal. destruct Hx as [<-|Hx].
    + clear IH. revert F1 E. clear H1 ND. induction pre as [|c pre IH]; intros F1 E.
      * destruct F1 as [|b F1]; [reflexivity|]. injection E as <- ->. inversion H2; subst. exfalso. apply H1, in_elt.
      * destruct F1 as [|b F1]; injection E as <- E; [inversion H2; subst; exfalso; apply H1, in_elt|]. inversion H2; subst. f_equal. apply IH; assumption.
    + apply IH; assumption.
Qed.

Section Asp.
  Variable h : graph.
  Hypothesis W : wf h.
  Hypothesis Dir : g_type h = Directed.
  Variable c : name -> name -> Z.
  Notation A := (arc h).
  Hypothesis HC : forall x y, A x y -> eattr h x y "cost" = Some (VI (c x y)).
  Notation nl := (get_node_list h).
  Variables (source : name) (rest : list name).
  Notation order := (source :: rest).
  Hypothesis ND : NoDup order.
  Hypothesis Hor : forall x, In x order <-> In x nl.
  Hypothesis Top : forall x y, A x y -> before order x y.
  Hypothesis All : forall x, In x nl -> reach A source x.
  Lemma arc_in x y : A x y <-> In (x, y) (get_edge_list h).
  Proof. unfold arc, check_edge. rewrite Dir. apply dmem_In. Qed.
  Lemma no_in_source x : ~ A x source.
  Proof. intros H. apply Top in H. apply (@before_mid [] rest source x ND) in H. destruct H. Qed.
  Lemma loop_source p : walk A source p source -> p = [source].
  Proof. intros H. destruct (walk_snoc_inv H) as [[-> _]|(q & b & _ & _ & E)]; [reflexivity|]. exfalso. apply (no_in_source E). Qed.

  Notation dst := (dict name Z).
  Notation prd := (dict name name).
  (* dist n = z comes with a path along pred *)
  Definition traced (pre : list name) (dist : dst) (pred : prd) : Prop :=
    forall n z, dget dist n = Some z -> exists l, bt source pred l n /\ incl l (n :: pre) /\ NoDup l /\ walk A source l n /\ wcost c l = z.
  Definition relaxed (dist : dst) (m n : name) : Prop := exists z zm, dget dist n = Some z /\ dget dist m = Some zm /\ (z <= zm + c m n)%Z.
  Definition settled (dist : dst) (m : name) : Prop := exists z, dget dist m = Some z /\ least_cost A c source m z.
  Definition J (pre : list name) (s : dst * prd) : Prop :=
    traced pre (fst s) (snd s) /\ (forall m n, In m pre -> A m n -> relaxed (fst s) m n) /\ (forall m, In m pre -> settled (fst s) m).
  Definition K (pre : list name) (cur : name) (done : list name) (s : dst * prd) : Prop :=
    traced (pre ++ [cur]) (fst s) (snd s) /\ (forall m n, In m pre -> A m n -> relaxed (fst s) m n) /\ (forall n, In n done -> relaxed (fst s) cur n) /\
    (forall m, In m (pre ++ [cur]) -> settled (fst s) m).

  Lemma relax_ok pre cur post done s n : order = pre ++ cur :: post -> A cur n -> K pre cur done s ->
    ok (asp_relax cur s n) h (fun s' h' => h' = h /\ K pre cur (done ++ [n]) s').
  Proof.
    intros Eo Hn (K1 & K2 & K3 & K4). destruct s as [dist pred]. cbn [fst snd] in *. unfold asp_relax.
    destruct (K4 cur) as (zc & Zc & Lc); [apply in_app_iff; simpl; auto|].
    apply ok_bind. eapply ok_lift; [exact Zc|]. apply ok_bind. eapply ok_get_edge_attr; [apply (HC Hn)|]. apply ok_bind, ok_as_int.
    assert (Nn : ~ In n (pre ++ [cur])).
    { intros Hin. pose proof ND as ND'. assert (Ho : In n order) by (rewrite Eo, in_app_iff; apply in_app_iff in Hin as [?|[?|[]]]; simpl; auto).
      apply in_app_iff in Hin as [Hin|[->|[]]].
      - apply in_split in Hin as (p1 & p2 & ->). pose proof (Top Hn) as B. rewrite Eo, <- app_assoc in B. simpl in B. rewrite Eo, <- app_assoc in ND'. simpl in ND'. apply (before_mid ND') in B.
        apply NoDup_app_iff in ND' as (_ & ND2 & D). apply (D cur B). simpl. right. apply in_elt.
      - pose proof (Top Hn) as B. rewrite Eo in B, ND'. apply (before_mid ND') in B. apply NoDup_app_iff in ND' as (_ & _ & D). apply (D n B). simpl. auto. }
    assert (Ncur : n <> cur) by (intros ->; apply Nn, in_app_iff; simpl; auto).
    assert (Nsrc : n <> source).
    { intros ->. apply (no_in_source Hn). }
    assert (Dm : forall v m, In m (pre ++ [cur]) -> dget (dset dist n v) m = dget dist m) by (intros v m Hm; apply dget_dset_ne; intros ->; contradiction).
    assert (Upd : (forall z, dget dist n = Some z -> (zc + c cur n <= z)%Z) -> K pre cur (done ++ [n]) (dset dist n (zc + c cur n)%Z, dset pred n cur)).
    { intros Hle. assert (Rel : forall m x, In m (pre ++ [cur]) -> relaxed dist m x -> relaxed (dset dist n (zc + c cur n)%Z) m x).
      { intros m x Hm (z & zm & R1 & R2 & R3). destruct (eq_dec x n) as [->|Hne].
        - exists (zc + c cur n)%Z, zm. rewrite dget_dset_eq, Dm by exact Hm. specialize (Hle z R1). repeat split; [exact R2|lia].
        - exists z, zm. rewrite dget_dset_ne, Dm by (congruence || exact Hm). auto. }
      split; [|split; [|split]]; cbn [fst snd].
      - intros x z Hz. destruct (eq_dec x n) as [->|Hne].
        + rewrite dget_dset_eq in Hz. injection Hz as <-. destruct (K1 cur zc Zc) as (l & L1 & L2 & L3 & L4 & L5).
          assert (Nl : ~ In n l) by (intros Hl; apply L2 in Hl as [?|Hl]; [congruence|contradiction]).
          exists (l ++ [n]). split; [apply bt_cons with (p := cur); [|exact Nsrc|apply dget_dset_eq]|].
          * apply (bt_agree L1). intros x Hx _. apply dget_dset_ne. intros ->. contradiction.
          * split; [intros x Hx; apply in_app_iff in Hx as [Hx|[<-|[]]]; [|simpl; auto]; right; apply L2 in Hx as [<-|Hx]; [apply in_app_iff; simpl; auto|exact Hx]|].
            split; [apply NoDup_snoc; auto|]. split; [apply (walk_snoc L4 Hn)|]. rewrite (wcost_walk_snoc c n L4), L5. reflexivity.
        + rewrite dget_dset_ne in Hz by congruence. destruct (K1 x z Hz) as (l & L1 & L2 & L3 & L4 & L5). exists l. split; [|auto].
          apply (bt_agree L1). intros y Hy _. apply dget_dset_ne. intros ->. apply L2 in Hy as [?|Hy]; [congruence|contradiction].
      - intros m x Hm Hmx. apply Rel; [apply in_app_iff; auto|]. apply K2; assumption.
      - intros x Hx. apply in_app_iff in Hx as [Hx|[<-|[]]]; [apply Rel; [apply in_app_iff; simpl; auto|apply K3, Hx]|].
        exists (zc + c cur n)%Z, zc. rewrite dget_dset_eq, Dm by (apply in_app_iff; simpl; auto). repeat split; [exact Zc|lia].
      - intros m Hm. destruct (K4 m Hm) as (z & Z1 & Z2). exists z. rewrite Dm by exact Hm. auto. }
    destruct (dget dist n) as [z|] eqn:En; [|apply ok_ret; split; [reflexivity|apply Upd; discriminate]].
    destruct (Z.gtb_spec z (zc + c cur n)) as [Hlt|Hge]; apply ok_ret; (split; [reflexivity|]).
    - apply Upd. intros z' [= <-]. lia.
    - split; [exact K1|]. split; [exact K2|]. split; [|exact K4]. intros x Hx. apply in_app_iff in Hx as [Hx|[<-|[]]]; [apply K3, Hx|]. exists z, zc. cbn [fst]. auto.
  Qed.

  Lemma cur_settled pre m post s : order = pre ++ m :: post -> m <> source -> J pre s -> settled (fst s) m.
  Proof.
    intros Eo Hm (J1 & J2 & J3). assert (Ho : In m order) by (rewrite Eo; apply in_elt).
    assert (Pre : forall x, A x m -> In x pre) by (intros x Hx; apply Top in Hx; rewrite Eo in Hx; apply (@before_mid pre post m x); [rewrite <- Eo; exact ND|exact Hx]).
    assert (exists z, dget (fst s) m = Some z) as [z Hz].
    { apply Hor, All in Ho as [p Hp]. destruct (walk_snoc_inv Hp) as [[_ ?]|(q & b & _ & _ & E)]; [congruence|]. destruct (J2 b m (Pre b E) E) as (z & _ & Z & _). eauto. }
    exists z. split; [exact Hz|]. split.
    - destruct (J1 m z Hz) as (l & _ & _ & _ & L4 & L5). eauto.
    - intros p Hp. destruct (walk_snoc_inv Hp) as [[_ ?]|(q & b & -> & Hq & E)]; [congruence|]. destruct (J2 b m (Pre b E) E) as (z' & zb & Z1 & Z2 & Z3). rewrite Hz in Z1. injection Z1 as <-.
      destruct (J3 b (Pre b E)) as (zb' & Z4 & _ & Z5). rewrite Z2 in Z4. injection Z4 as <-. specialize (Z5 q Hq). rewrite (wcost_walk_snoc c m Hq). lia.
  Qed.
  Lemma asp_node_ok pre m post s : order = pre ++ m :: post -> J pre s -> ok (asp_node m s) h (fun s' h' => h' = h /\ J (pre ++ [m]) s').
  Proof.
    intros Eo Js. assert (Hm : In m nl) by (apply Hor; rewrite Eo; apply in_elt).
    assert (Ks : forall dist, dist = match list_at (g_in h) m with [] => dset (fst s) m 0%Z | _ => fst s end -> K pre m [] (dist, snd s)).
    { intros dist ->. destruct (eq_dec m source) as [->|Hne].
      - assert (pre = []) as ->. { destruct pre as [|x pre]; [reflexivity|]. injection Eo as <- Eo. pose proof ND as ND'. rewrite Eo in ND'. inversion ND'; subst. exfalso. apply H1, in_elt. }
        assert (En : list_at (g_in h) source = []).
        { destruct (list_at (g_in h) source) as [|x l] eqn:El; [reflexivity|]. exfalso. apply (@no_in_source x), arc_in, (ins_edge W Dir). rewrite El. simpl. auto. }
        rewrite En. destruct Js as (J1 & _ & _). split; [|split; [|split]]; cbn [fst snd app].
        + intros n z Hz. destruct (eq_dec n source) as [->|Hn].
          * rewrite dget_dset_eq in Hz. injection Hz as <-. exists [source]. split; [constructor|]. split; [intros x [<-|[]]; simpl; auto|]. split; [constructor; [intros []|constructor]|]. split; [constructor|reflexivity].
          * rewrite dget_dset_ne in Hz by congruence. destruct (J1 n z Hz) as (l & L1 & L2 & L3 & L4 & L5). exists l. split; [exact L1|]. split; [|auto]. intros x Hx. apply L2 in Hx. simpl in *. tauto.
        + intros x y [].
        + intros y [].
        + intros x [<-|[]]. exists 0%Z. split; [apply dget_dset_eq|]. split; [exists [source]; split; [constructor|reflexivity]|]. intros p Hp. rewrite (loop_source Hp). simpl. lia.
      - assert (En : list_at (g_in h) m <> []).
        { apply All in Hm as [p Hp]. destruct (walk_snoc_inv Hp) as [[_ ?]|(q & b & _ & _ & E)]; [congruence|]. apply arc_in, (ins_edge W Dir) in E. intros K0. rewrite K0 in E. destruct E. }
        destruct (list_at (g_in h) m) as [|x l]; [congruence|]. pose proof (cur_settled Eo Hne Js) as St. destruct Js as (J1 & J2 & J3). split; [|split; [|split]]; cbn [fst snd].
        + intros n z Hz. destruct (J1 n z Hz) as (l' & L1 & L2 & L3 & L4 & L5). exists l'. split; [exact L1|]. split; [|auto]. intros y Hy. apply L2 in Hy as [?|Hy]; [simpl; auto|]. right. apply in_app_iff. auto.
        + exact J2.
        + intros n [].
        + intros y Hy. apply in_app_iff in Hy as [Hy|[<-|[]]]; [apply J3, Hy|exact St]. }
    destruct s as [dist pred]. unfold asp_node. apply ok_bind. unfold get_in_neighbors. apply ok_in_list; [exact W|exact Dir|exact Hm|].
    apply ok_bind. unfold get_out_neighbors. apply ok_nbr_list; [exact Hm|]. cbn [fst snd] in Ks.
    apply ok_foldM with (I := fun done s h' => h' = h /\ K pre m done s).
    - split; [reflexivity|]. apply Ks. destruct (list_at (g_in h) m); reflexivity.
    - intros done n post' s' h' El [-> Kd]. apply (relax_ok Eo); [|exact Kd]. apply arc_in, (nbrs_edge W Dir). rewrite El. apply in_elt.
    - intros s' h' [-> (K1 & K2 & K3 & K4)]. split; [reflexivity|]. split; [exact K1|]. split; [|exact K4].
      intros x y Hx Hxy. apply in_app_iff in Hx as [Hx|[<-|[]]]; [apply K2; assumption|]. apply K3, (nbrs_edge W Dir), arc_in, Hxy.
  Qed.
  Lemma asp_loop_ok dest : forall post pre s, order = pre ++ post -> J pre s -> (forall d, dest = Some d -> ~ In d pre) ->
    ok (asp_loop (length post) post dest s) h (fun r h' => h' = h /\ exists pre' s', J pre' s' /\ snd r = snd s' /\
      if fst r : bool then exists d, dest = Some d /\ exists post', order = pre' ++ d :: post' else pre' = order /\ (forall d, dest = Some d -> ~ In d order)).
  Proof.
    induction post as [|m post IH]; intros pre s Eo Js Hd; cbn [asp_loop length].
    - apply ok_ret. split; [reflexivity|]. exists pre, s. rewrite app_nil_r in Eo. split; [exact Js|]. split; [reflexivity|]. cbn [fst]. split; [auto|]. rewrite Eo. exact Hd.
    - assert (Go : (forall d, dest = Some d -> m <> d) -> ok (s0 <- asp_node m s ;; asp_loop (length post) post dest s0) h (fun r h' => h' = h /\ exists pre' s', J pre' s' /\ snd r = snd s' /\
        if fst r : bool then exists d, dest = Some d /\ exists post', order = pre' ++ d :: post' else pre' = order /\ (forall d, dest = Some d -> ~ In d order))).
      { intros Hmd. apply ok_bind. eapply ok_weaken; [apply (asp_node_ok Eo Js)|]. intros s' h' [-> Js']. apply (IH (pre ++ [m]) s'); [rewrite <- app_assoc; exact Eo|exact Js'|].
        intros d Ed. rewrite in_app_iff. simpl. intros [K0|[K0|[]]]; [apply (Hd d Ed K0)|apply (Hmd d Ed K0)]. }
      destruct dest as [d|]; [|apply Go; discriminate]. destruct (eqb_spec m d) as [->|Hne]; [|apply Go; intros d' [= <-]; exact Hne].
      apply ok_ret. split; [reflexivity|]. exists pre, s. split; [exact Js|]. split; [reflexivity|]. cbn [fst]. exists d. split; [reflexivity|]. exists post. exact Eo.
  Qed.
  (* what the call does after dfs *)
  Definition asp_tail (fuel : nat) (dest : option name) : M graph (list name + dict name name) :=
    k <- gets (fun g => length (get_node_list g)) ;;
    r <- asp_loop k order dest ([], []) ;;
    match r, dest with
    | (true, pred), Some d => p <- walk_back fuel source d pred ;; ret (inl p)
    | (_, pred), _ => ret (inr pred)
    end.
  Lemma asp_tail_ok fuel dest : length nl <= fuel -> ok (asp_tail fuel dest) h (fun r h' => h' = h /\
    match r with
    | inl p => exists d, dest = Some d /\ walk A source p d /\ NoDup p /\ least_cost A c source d (wcost c p)
    | inr pred => (forall d, dest = Some d -> ~ In d nl) /\ forall n, In n nl -> exists p, walk (pred_arc pred) source p n /\ walk A source p n /\ NoDup p /\ least_cost A c source n (wcost c p)
    end).
  Proof.
    intros Hf. assert (Len : length nl = length order).
    { assert (N1 : NoDup nl) by apply (wf_nd W). apply Nat.le_antisymm; apply NoDup_incl_length; try assumption; intros x; apply Hor. }
    assert (J0 : J [] ([], [])) by (split; [intros n z [=]|split; [intros m n []|intros m []]]).
    unfold asp_tail. apply ok_bind, ok_gets. rewrite Len. apply ok_bind. eapply ok_weaken; [apply (asp_loop_ok (dest := dest) (post := order) (pre := []) (s := ([], []))); [reflexivity|exact J0|intros d _ []]|].
    intros [found pred] h' [-> (pre & s & Js & Ep & H)]. cbn [fst snd] in *. subst pred. destruct found.
    - destruct H as (d & -> & post & Eo). destruct (eq_dec d source) as [->|Hne].
      + apply ok_bind. eapply ok_intro; [apply walk_back_ok with (l := [source]); [constructor|rewrite Len in Hf; simpl in *; lia]|]. apply ok_ret. split; [reflexivity|]. exists source.
        split; [reflexivity|]. split; [constructor|]. split; [constructor; [intros []|constructor]|]. split; [exists [source]; split; [constructor|reflexivity]|]. intros p Hp. rewrite (loop_source Hp). simpl. lia.
      + destruct (cur_settled Eo Hne Js) as (z & Hz & Lz). destruct Js as (J1 & _ & _). destruct (J1 d z Hz) as (l & L1 & L2 & L3 & L4 & L5).
        assert (Hl : length l <= fuel).
        { rewrite Len in Hf. assert (length l <= length order); [|lia]. apply NoDup_incl_length; [exact L3|]. rewrite Eo. intros x Hx. apply L2 in Hx as [<-|Hx]; [apply in_elt|apply in_app_iff; auto]. }
        apply ok_bind. eapply ok_intro; [apply (walk_back_ok h L1 Hl)|]. apply ok_ret. split; [reflexivity|]. exists d. split; [reflexivity|]. split; [exact L4|]. split; [exact L3|]. rewrite L5. exact Lz.
    - destruct H as [-> Hd]. assert (G : (forall d, dest = Some d -> ~ In d nl) /\ forall n, In n nl -> exists p, walk (pred_arc (snd s)) source p n /\ walk A source p n /\ NoDup p /\ least_cost A c source n (wcost c p)).
      { split; [intros d Ed K0; apply (Hd d Ed), Hor, K0|]. intros n Hn. destruct Js as (J1 & _ & J3). destruct (J3 n) as (z & Hz & Lz); [apply Hor, Hn|]. destruct (J1 n z Hz) as (l & L1 & L2 & L3 & L4 & L5).
        exists l. split; [apply (bt_pred_walk L1)|]. split; [exact L4|]. split; [exact L3|]. rewrite L5. exact Lz. }
      destruct dest as [d|]; apply ok_ret; (split; [reflexivity|exact G]).
  Qed.
End Asp.
