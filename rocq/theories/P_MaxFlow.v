(* max_flow: the augmenting path search, the update of the flow, feasibility, maximality, termination. *)
From Verif Require Import Py Util M_Graph P_Graph P_GraphLaws Spec P_Attr M_Search S_Frontier M_Flow S_Flow S_GraphFlow P_Flow P_EdgeFrame.
Set Implicit Arguments. Unset Strict Implicit.
Local Open Scope string_scope. Local Open Scope list_scope.

Definition fattrs : list string := ["flow"; "capacity"; "label"; "color"].
Ltac inl := simpl; tauto.
(* the label of an arc with capacity c and flow f *)
Definition cf_label (c f : Z) (v : option val) : Prop := v = Some (VS (str_int c ++ "/" ++ str_int f)) \/ c = INF /\ v = Some (VS ("INF/" ++ str_int f)).

Section MaxFlow.
  Variable fr : frontier.
  Variable els : fq fr -> list name.
  Hypothesis Bag : bag els.
  Variable g0 : graph.
  Hypothesis W0 : wf g0.
  Hypothesis D0 : g_type g0 = Directed.
  Notation es := (get_edge_list g0).
  Notation nodes := (get_node_list g0).
  Notation fn := (name * name -> Z).

  (* the state of the graph: capacities c and flows f *)
  Record FI (c f : fn) (h : graph) : Prop := {
    fi_fr : efr fattrs g0 h;
    fi_cap : forall x y, In (x, y) es -> eattr h x y "capacity" = Some (VI (c (x, y)));
    fi_flow : forall x y, In (x, y) es -> eattr h x y "flow" = Some (VI (f (x, y)));
    fi_lab : forall x y, In (x, y) es -> cf_label (c (x, y)) (f (x, y)) (eattr h x y "label")
  }.
  Lemma fi_wf c f h : FI c f h -> wf h.
  Proof. intros F. apply (efr_wf (fi_fr F) W0). Qed.
  Lemma fi_dir c f h : FI c f h -> g_type h = Directed.
  Proof. intros F. apply (efr_type (fi_fr F) D0). Qed.
  Lemma fi_edges c f h : FI c f h -> get_edge_list h = es.
  Proof. intros F. apply (efr_edges (fi_fr F)). Qed.
  Lemma fi_nodes c f h : FI c f h -> get_node_list h = nodes.
  Proof. intros F. apply (efr_node_list (fi_fr F)). Qed.
  Lemma FI_color c f h h' : FI c f h -> efr ["color"] h h' -> FI c f h'.
  Proof.
    intros [F1 F2 F3 F4] E. constructor.
    - apply (efr_trans F1 E). intros x [<-|[]]. inl.
    - intros x y He. rewrite (ef_edges E); [apply F2, He|]. intros [|[]]; discriminate.
    - intros x y He. rewrite (ef_edges E); [apply F3, He|]. intros [|[]]; discriminate.
    - intros x y He. rewrite (ef_edges E); [apply F4, He|]. intros [|[]]; discriminate.
  Qed.

  (** ** reading and painting *)
  Lemma ok_cap c f h x y (Q : val -> graph -> Prop) : FI c f h -> In (x, y) es -> Q (VI (c (x, y))) h -> ok (get_edge_attr x y "capacity") h Q.
  Proof. intros F He HQ. eapply ok_get_edge_attr; [apply (fi_cap F He)|exact HQ]. Qed.
  Lemma ok_flow c f h x y (Q : val -> graph -> Prop) : FI c f h -> In (x, y) es -> Q (VI (f (x, y))) h -> ok (get_edge_attr x y "flow") h Q.
  Proof. intros F He HQ. eapply ok_get_edge_attr; [apply (fi_flow F He)|exact HQ]. Qed.
  Lemma ok_ecap c f h e (Q : val -> graph -> Prop) : FI c f h -> In e es -> Q (VI (c e)) h -> ok (edge_get e "capacity") h Q.
  Proof. intros F He HQ. destruct e as [x y]. eapply ok_edge_get; [apply (fi_dir F)|apply (fi_cap F He)|exact HQ]. Qed.
  Lemma ok_eflow c f h e (Q : val -> graph -> Prop) : FI c f h -> In e es -> Q (VI (f e)) h -> ok (edge_get e "flow") h Q.
  Proof. intros F He HQ. destruct e as [x y]. eapply ok_edge_get; [apply (fi_dir F)|apply (fi_flow F He)|exact HQ]. Qed.
  (* the colors of the nodes *)
  Definition ncol (h : graph) (n : name) : val := nattr h n "color".
  Definition keeps (h h' : graph) : Prop := forall n, ncol h' n = ncol h n.
  Lemma ok_ncolor c f h n {v} (Q : unit -> graph -> Prop) : FI c f h -> In n nodes ->
    (forall h', efr ["color"] h h' -> (forall x, ncol h' x = if eqb x n then v else ncol h x) -> Q tt h') -> ok (set_node_attr n "color" v) h Q.
  Proof.
    intros F Hn HQ. assert (Hn' : In n (get_node_list h)) by (rewrite (fi_nodes F); exact Hn). apply ok_set_node_attr; [rewrite (wf_nodes (fi_wf F)); exact Hn'|]. intros h' H1 H2 H3 H4 H5 _. apply HQ.
    - constructor; auto. intros x b Hb. rewrite H2. destruct (eq_dec (x, b) (n, "color")) as [[= -> ->]|]; [congruence|reflexivity].
    - intros x. unfold ncol. rewrite H2. destruct (eqb_spec x n) as [->|Hne]; destruct (eq_dec _ _) as [E|E]; congruence.
  Qed.
  Lemma ok_ecolor c f h x y {v} (Q : unit -> graph -> Prop) : FI c f h -> In (x, y) es -> (forall h', efr ["color"] h h' -> keeps h h' -> Q tt h') -> ok (set_edge_attr x y "color" v) h Q.
  Proof. intros F He HQ. apply ok_eset with (bs := ["color"]); [apply (fi_wf F)|apply (fi_dir F)|rewrite (fi_edges F); exact He|inl|]. intros h' E _ N. apply HQ; [exact E|]. intros n. apply N. Qed.
  Lemma ok_ecolor' c f h e {v} (Q : unit -> graph -> Prop) : FI c f h -> In e es -> (forall h', efr ["color"] h h' -> keeps h h' -> Q tt h') -> ok (edge_set e "color" v) h Q.
  Proof. intros F He HQ. apply (ok_same (edge_set_dir e "color" v (fi_dir F))). destruct e as [x y]. apply (ok_ecolor (x := x) (y := y) F He HQ). Qed.

  Lemma paint_ok c f h : FI c f h -> ok paint h (fun _ h' => efr ["color"] h h' /\ forall n, In n nodes -> ncol h' n = VS "black").
  Proof.
    intros F. unfold paint. apply ok_bind, ok_gets. rewrite (fi_nodes F).
    apply ok_bind. eapply ok_weaken.
    - apply ok_forM with (I := fun pre h' => efr ["color"] h h' /\ forall n, In n pre -> ncol h' n = VS "black")
        (Q := fun h' => efr ["color"] h h' /\ forall n, In n nodes -> ncol h' n = VS "black"); [split; [apply efr_refl|intros n []]| |auto].
      intros pre n post h1 Hl [E B]. apply (ok_ncolor (FI_color F E)); [rewrite Hl; apply in_elt|]. intros h2 E2 C2. split; [apply (efr_trans E E2), incl_refl|].
      intros n' Hn. rewrite C2. destruct (eqb_spec n' n) as [->|Hne]; [reflexivity|]. apply B. apply in_app_iff in Hn as [Hn|[Hn|[]]]; [exact Hn|congruence].
    - intros ? h1 [E B]. pose proof (FI_color F E) as F1. apply ok_bind, ok_gets. rewrite (fi_edges F1).
      set (J := fun h' => efr ["color"] h h' /\ forall n, In n nodes -> ncol h' n = VS "black").
      apply ok_forM with (I := fun _ h' => J h') (Q := J); [split; [exact E|exact B]| |auto].
      intros pre e post h2 Hl [E2 B2]. pose proof (FI_color F E2) as F2. assert (He : In e es) by (rewrite Hl; apply in_elt).
      apply ok_bind. apply (ok_eflow F2 He).
      assert (C : forall v, ok (edge_set e "color" v) h2 (fun _ s' => J s')).
      { intros v. apply (ok_ecolor' F2 He). intros h3 E3 K3. split; [apply (efr_trans E2 E3), incl_refl|]. intros n Hn. rewrite K3. apply B2, Hn. }
      destruct (eqb (VI (f e)) (VI 0)); [apply C|]. apply ok_bind. apply (ok_ecap F2 He). destruct (eqb (VI (f e)) (VI (c e))); apply C.
  Qed.
  Lemma repaint_ok c f h x y : FI c f h -> In (x, y) es -> ok (repaint x y) h (fun _ h' => efr ["color"] h h' /\ keeps h h').
  Proof.
    intros F He. unfold repaint. apply ok_bind, (ok_flow F He). apply ok_bind, (ok_cap F He).
    destruct (eqb (VI (f (x, y))) (VI (c (x, y)))); [apply (ok_ecolor F He); auto|]. apply ok_bind, (ok_flow F He).
    destruct (eqb _ _); [apply (ok_ecolor F He); auto|apply ok_ret; split; [apply efr_refl|intros n; reflexivity]].
  Qed.

  (** ** residual capacities *)
  Definition avail (c f : fn) (x y : name) : Z := (if mem (x, y) es then c (x, y) - f (x, y) else f (y, x))%Z.
  Definition adj (x y : name) : Prop := In (x, y) es \/ In (y, x) es.
  Lemma mem_out c f h x y : FI c f h -> mem y (list_at (g_nbrs h) x) = mem (x, y) es.
  Proof.
    intros F. pose proof (nbrs_edge (fi_wf F) (fi_dir F) x y) as H. rewrite (fi_edges F) in H.
    destruct (mem_spec y (list_at (g_nbrs h) x)), (mem_spec (x, y) es); tauto.
  Qed.
  Notation st := (fq fr * dict name (option name) * list name)%type.
  Definition pscan (c f : fn) (x : name) (s : st) (m : name) : st :=
    let '(q, pred, explored) := s in
    if mem m explored then s
    else if (avail c f x m >? 0)%Z then (fq_push q m None, dset pred m (Some x), explored ++ [m]) else s.
  Definition scol (c f : fn) (x : name) (s : st) (m : name) (old : val) : val :=
    if mem m (snd s) then old else if (avail c f x m >? 0)%Z then VS "blue" else VS "black".
  Lemma scan_ok c f h x out s m : FI c f h -> In x nodes -> out = list_at (g_nbrs h) x -> adj x m ->
    ok (scan x out s m) h (fun s' h' => s' = pscan c f x s m /\ efr ["color"] h h' /\ forall n, ncol h' n = if eqb n m then scol c f x s m (ncol h n) else ncol h n).
  Proof.
    intros F Hx -> Ha. destruct s as [[q pred] explored]. unfold scan, pscan, scol. cbn [snd].
    destruct (mem m explored); [apply ok_ret; split; [reflexivity|split; [apply efr_refl|intros n; destruct (eqb n m); reflexivity]]|].
    assert (Hm : In m nodes) by (destruct Ha as [H|H]; apply (edge_nodes W0 D0) in H; tauto).
    apply ok_bind, (ok_ncolor F Hm). intros h1 E1 C1. pose proof (FI_color F E1) as F1. rewrite (mem_out x m F).
    apply ok_bind. eapply ok_weaken with (Q := fun z h2 => z = avail c f x m /\ efr ["color"] h h2 /\ keeps h1 h2).
    { unfold avail. destruct (mem_spec (x, m) es) as [He|He].
      - apply ok_bind, (ok_ecolor F1 He). intros h2 E2 K2. pose proof (FI_color F1 E2) as F2.
        apply ok_bind, (ok_cap F2 He). apply ok_bind, (ok_flow F2 He). apply ok_bind, ok_as_int. apply ok_bind, ok_as_int. apply ok_ret. split; [reflexivity|]. split; [apply (efr_trans E1 E2), incl_refl|exact K2].
      - destruct Ha as [Ha|Ha]; [contradiction|]. apply ok_bind, (ok_ecolor F1 Ha). intros h2 E2 K2. pose proof (FI_color F1 E2) as F2.
        apply ok_bind, (ok_flow F2 Ha). apply ok_as_int. split; [reflexivity|]. split; [apply (efr_trans E1 E2), incl_refl|exact K2]. }
    intros z h2 (-> & E2 & K2). pose proof (FI_color F E2) as F2.
    assert (Fin : forall v h3 h4, (forall n, ncol h3 n = if eqb n m then v else ncol h2 n) -> keeps h3 h4 -> forall n, ncol h4 n = if eqb n m then v else ncol h n).
    { intros v h3 h4 C3 K4 n. rewrite K4, C3. destruct (eqb n m) eqn:En; [reflexivity|]. rewrite K2, C1, En. reflexivity. }
    destruct (avail c f x m >? 0)%Z.
    - apply ok_bind, (ok_ncolor F2 Hm). intros h3 E3 C3. pose proof (efr_trans E2 E3 (incl_refl _)) as E3'. pose proof (FI_color F E3') as F3.
      apply ok_bind. eapply ok_weaken with (Q := fun _ h4 => efr ["color"] h h4 /\ keeps h3 h4).
      + destruct (mem_spec (x, m) es) as [He|He]; [apply (ok_ecolor F3 He)|apply (ok_ecolor F3 (x := m) (y := x)); [destruct Ha; tauto|]]; intros h4 E4 K4; (split; [apply (efr_trans E3' E4), incl_refl|exact K4]).
      + intros ? h4 [E4 K4]. apply ok_ret. split; [reflexivity|]. split; [exact E4|]. apply (Fin _ _ _ C3 K4).
    - apply ok_bind, (ok_ncolor F2 Hm). intros h3 E3 C3. pose proof (efr_trans E2 E3 (incl_refl _)) as E3'. pose proof (FI_color F E3') as F3.
      apply ok_bind. eapply ok_weaken with (Q := fun _ h4 => efr ["color"] h h4 /\ keeps h3 h4).
      + destruct (mem_spec (x, m) es) as [He|He]; (eapply ok_weaken; [apply (repaint_ok F3); destruct Ha; tauto|]; intros ? h4 [E4 K4]; split; [apply (efr_trans E3' E4), incl_refl|exact K4]).
      + intros ? h4 [E4 K4]. apply ok_ret. split; [reflexivity|]. split; [exact E4|]. apply (Fin _ _ _ C3 K4).
  Qed.

  (** ** the search *)
  Section Search.
    Variables (c f : fn) (source sink : name).
    Hypothesis Hsource : In source nodes.
    Definition resid (x y : name) : Prop := adj x y /\ (avail c f x y > 0)%Z.
    (* the steps (p, m) from m back to the source *)
    Inductive up (pred : dict name (option name)) : name -> list (name * name) -> Prop :=
    | up_nil : up pred source []
    | up_cons m p l : dget pred m = Some (Some p) -> m <> source -> resid p m -> up pred p l -> ~ In m (map snd l) -> up pred m ((p, m) :: l).
    Record SI (explored : list name) (pred : dict name (option name)) (q : fq fr) : Prop := {
      si_keys : dkeys pred = explored;
      si_nodup : NoDup explored;
      si_nodes : incl explored nodes;
      si_src : In source explored;
      si_q : forall x, In x (els q) -> In x explored;
      si_up : forall m, In m explored -> exists l, up pred m l /\ incl (map snd l) explored
    }.
    Lemma up_dset pred k v m l : up pred m l -> ~ In k (map snd l) -> up (dset pred k v) m l.
    Proof.
      induction 1 as [|m p l H1 H2 H3 H4 IH H5]; intros Hk; [constructor|]. simpl in Hk. constructor; auto.
      rewrite dget_dset_ne by (intros ->; tauto). exact H1.
    Qed.
    Lemma SI_scan x s m : adj x m -> In x (snd s) -> SI (snd s) (snd (fst s)) (fst (fst s)) ->
      let s' := pscan c f x s m in
      SI (snd s') (snd (fst s')) (fst (fst s')) /\ incl (snd s) (snd s') /\
      (forall y, In y (snd s') -> ~ In y (els (fst (fst s'))) -> In y (snd s)) /\
      (forall y, In y (els (fst (fst s))) -> In y (els (fst (fst s')))) /\
      (resid x m -> In m (snd s')) /\
      length (els (fst (fst s'))) + 2 * (length nodes - length (snd s')) <= length (els (fst (fst s))) + 2 * (length nodes - length (snd s)).
    Proof.
      destruct s as [[q pred] explored]. cbn [fst snd]. intros Ha Hx I. unfold pscan. cbv zeta.
      assert (Same : SI explored pred q /\ incl explored explored /\ (forall y, In y explored -> ~ In y (els q) -> In y explored) /\ (forall y, In y (els q) -> In y (els q)) /\
        length (els q) + 2 * (length nodes - length explored) <= length (els q) + 2 * (length nodes - length explored)).
      { split; [exact I|]. split; [apply incl_refl|]. auto. }
      destruct Same as (S1 & S2 & S3 & S4 & S5).
      destruct (mem_spec m explored) as [Hm|Hm]; cbn [fst snd]; [tauto|].
      destruct (Z.gtb_spec (avail c f x m) 0) as [Hp|Hp]; cbn [fst snd].
      2:{ split; [exact S1|]. split; [exact S2|]. split; [exact S3|]. split; [exact S4|]. split; [|exact S5]. intros [_ H]. lia. }
      destruct I as [I1 I2 I3 I4 I5 I6].
      assert (Hmn : In m nodes) by (destruct Ha as [H|H]; apply (edge_nodes W0 D0) in H; tauto).
      split; [constructor|].
      - rewrite dkeys_dset_nin' by (rewrite I1; exact Hm). rewrite I1. reflexivity.
      - apply NoDup_snoc. auto.
      - intros y Hy. apply in_app_iff in Hy as [Hy|[<-|[]]]; auto.
      - apply in_app_iff. auto.
      - intros y Hy. apply (bag_push Bag) in Hy. apply in_app_iff. destruct Hy as [->|Hy]; simpl; auto.
      - intros y Hy. apply in_app_iff in Hy as [Hy|[<-|[]]].
        + destruct (I6 y Hy) as (l & Hl & Hi). exists l. split; [apply up_dset; [exact Hl|]|].
          * intros H. apply Hm, Hi, H.
          * intros z Hz. apply in_app_iff. auto.
        + destruct (I6 x Hx) as (l & Hl & Hi). exists ((x, m) :: l). assert (Hml : ~ In m (map snd l)) by (intros H; apply Hm, Hi, H).
          split; [constructor|].
          * apply dget_dset_eq.
          * intros ->. contradiction.
          * split; [exact Ha|lia].
          * apply up_dset; assumption.
          * exact Hml.
          * intros z [<-|Hz]; apply in_app_iff; simpl; auto.
      - split; [intros y Hy; apply in_app_iff; auto|]. split.
        { intros y Hy Hq. apply in_app_iff in Hy as [Hy|[<-|[]]]; [exact Hy|]. exfalso. apply Hq, (bag_push Bag). auto. }
        split; [intros y Hy; apply (bag_push Bag); auto|]. split; [intros _; apply in_app_iff; simpl; auto|].
        pose proof (bag_push_len Bag q m None). rewrite app_length. simpl.
        assert (length (explored ++ [m]) <= length nodes). { apply NoDup_incl_length; [apply NoDup_snoc; auto|]. intros y Hy. apply in_app_iff in Hy as [Hy|[<-|[]]]; auto. }
        rewrite app_length in *. simpl in *. lia.
    Qed.
    (* every explored node outside the container has been scanned *)
    Definition closed (s : st) : Prop := forall x y, In x (snd s) -> ~ In x (els (fst (fst s))) -> resid x y -> In y (snd s).
    (* the nodes found are blue, but for the source *)
    Definition painted (explored : list name) (h : graph) : Prop :=
      forall n, In n nodes -> ncol h n = if mem n explored && negb (eqb n source) then VS "blue" else VS "black".
    Lemma fold_scan_ok h x out l s : FI c f h -> In x nodes -> out = list_at (g_nbrs h) x -> (forall m, In m l -> adj x m) -> In source (snd s) -> painted (snd s) h ->
      ok (foldM (scan x out) l s) h (fun s' h' => s' = fold_left (pscan c f x) l s /\ efr ["color"] h h' /\ painted (snd s') h').
    Proof.
      intros F Hx Hout Hl Hsrc Hp. apply ok_foldM with (I := fun pre s' h' => s' = fold_left (pscan c f x) pre s /\ efr ["color"] h h' /\ In source (snd s') /\ painted (snd s') h').
      - split; [reflexivity|]. split; [apply efr_refl|auto].
      - intros pre m post s1 h1 El (-> & E1 & Sr & P1). eapply ok_weaken; [apply (@scan_ok c f h1 x out _ m (FI_color F E1) Hx)|].
        + rewrite Hout. rewrite (ss_nbrs (ef_shape E1)). reflexivity.
        + apply Hl. rewrite El. apply in_elt.
        + intros s2 h2 (-> & E2 & C2). rewrite fold_left_app. cbn [fold_left]. split; [reflexivity|]. split; [apply (efr_trans E1 E2), incl_refl|].
          set (s1 := fold_left (pscan c f x) pre s) in *. clearbody s1. destruct s1 as [[q1 p1] ex1]. unfold pscan, scol in *. cbn [fst snd] in *. destruct (mem_spec m ex1) as [Hm|Hm]; cbn [snd].
          * split; [exact Sr|]. intros n Hn. rewrite C2, (P1 n Hn). destruct (eqb n m); reflexivity.
          * destruct (avail c f x m >? 0)%Z; cbn [snd].
            -- split; [apply in_app_iff; auto|]. intros n Hn. rewrite C2, (P1 n Hn). destruct (eqb_spec n m) as [->|Hne].
               ++ assert (mem m (ex1 ++ [m]) = true) as -> by (apply mem_In, in_app_iff; simpl; auto). destruct (eqb_spec m source) as [->|]; [contradiction|reflexivity].
               ++ assert (mem n (ex1 ++ [m]) = mem n ex1) as ->; [|reflexivity]. destruct (mem_spec n (ex1 ++ [m])) as [K|K], (mem_spec n ex1) as [K'|K']; try reflexivity; rewrite in_app_iff in K; simpl in K; intuition congruence.
            -- split; [exact Sr|]. intros n Hn. rewrite C2, (P1 n Hn). destruct (eqb_spec n m) as [->|Hne]; [|reflexivity]. destruct (mem_spec m ex1); [contradiction|reflexivity].
      - intros s' h' (H1 & H2 & _ & H3). auto.
    Qed.
    Lemma fold_SI x l : (forall m, In m l -> adj x m) -> forall s, In x (snd s) -> SI (snd s) (snd (fst s)) (fst (fst s)) ->
      let s' := fold_left (pscan c f x) l s in
      SI (snd s') (snd (fst s')) (fst (fst s')) /\ incl (snd s) (snd s') /\
      (forall y, In y (snd s') -> ~ In y (els (fst (fst s'))) -> In y (snd s)) /\
      (forall y, In y (els (fst (fst s))) -> In y (els (fst (fst s')))) /\
      (forall m, In m l -> resid x m -> In m (snd s')) /\
      length (els (fst (fst s'))) + 2 * (length nodes - length (snd s')) <= length (els (fst (fst s))) + 2 * (length nodes - length (snd s)).
    Proof.
      induction l as [|m l IH]; intros Hl s Hx I; cbn [fold_left]; cbv zeta.
      { repeat split; try apply I; auto; try apply incl_refl; try (intros ? []); try lia. }
      destruct (@SI_scan x s m (Hl m (or_introl eq_refl)) Hx I) as (J1 & J2 & J3 & J4 & J5 & J6).
      destruct (IH (fun m Hm => Hl m (or_intror Hm)) (pscan c f x s m) (J2 _ Hx) J1) as (K1 & K2 & K3 & K4 & K5 & K6).
      split; [exact K1|]. split; [intros y Hy; auto|]. split.
      { intros y Hy Hq. apply J3; [apply K3; assumption|]. intros H. apply Hq, K4, H. }
      split; [auto|]. split; [|lia]. intros m' [<-|Hm'] Hr; auto.
    Qed.
    Lemma search_ok h q0 fuel : FI c f h -> (forall n, In n nodes -> ncol h n = VS "black") -> els q0 = [] -> 2 * length nodes < fuel ->
      ok (augmenting_search fuel q0 source sink) h (fun pred h' => efr ["color"] h h' /\
        ((exists l, dmem pred sink = true /\ up pred sink l /\ incl (map snd l) nodes) \/
         (dmem pred sink = false /\ exists S, In source S /\ ~ In sink S /\ (forall x y, In x S -> resid x y -> In y S) /\ incl S nodes /\ painted S h'))).
    Proof.
      intros F Hbl Hq0 Hf. unfold augmenting_search.
      apply ok_loop with (I := fun (s : st) h' => (efr ["color"] h h' /\ painted (snd s) h') /\ SI (snd s) (snd (fst s)) (fst (fst s)) /\ closed s)
        (mu := fun (s : st) _ => length (els (fst (fst s))) + 2 * (length nodes - length (snd s))).
      - split; [split; [apply efr_refl|]; intros n Hn; rewrite (Hbl n Hn); cbn [snd]; destruct (mem_spec n [source]) as [[->|[]]|]; [rewrite eqb_refl|]; reflexivity|]. cbn [fst snd]. split; [constructor|].
        + reflexivity.
        + constructor; [intros []|constructor].
        + intros x [<-|[]]. exact Hsource.
        + simpl; auto.
        + intros x Hx. apply (bag_push Bag) in Hx. rewrite Hq0 in Hx. destruct Hx as [->|[]]. simpl; auto.
        + intros m [<-|[]]. exists []. split; [constructor|intros z []].
        + intros x y [<-|[]] Hq. exfalso. apply Hq, (bag_push Bag). auto.
      - cbn [fst snd]. pose proof (bag_push_len Bag q0 source None). rewrite Hq0 in H. simpl in H. simpl length.
        assert (1 <= length nodes) by (destruct nodes; [destruct Hsource|simpl; lia]). lia.
      - intros [[q pred] explored] h1 ((E1 & P1) & I & Cl). cbn [fst snd] in *. pose proof (FI_color F E1) as F1.
        destruct (fq_isEmpty q) eqn:Em.
        { apply ok_ret. split; [exact E1|]. apply (bag_empty Bag) in Em. destruct (dmem_spec pred sink) as [Hs|Hs]; rewrite (si_keys I) in Hs.
          - left. destruct (si_up I Hs) as (l & Hl & Hi). exists l. split; [reflexivity|]. split; [exact Hl|]. intros z Hz. apply (si_nodes I), Hi, Hz.
          - right. split; [reflexivity|]. exists explored. split; [apply (si_src I)|]. split; [exact Hs|]. split; [intros x y Hx Hr; apply (Cl x y Hx); [cbn [fst snd]; rewrite Em; intros []|exact Hr]|]. split; [apply (si_nodes I)|exact P1]. }
        assert (Hne : els q <> []) by (intros H; apply (bag_empty Bag) in H; congruence).
        destruct (bag_peek Bag Hne) as (x & Hp & Hxq). apply ok_bind. eapply ok_lift; [exact Hp|].
        destruct (bag_remove Bag Hxq) as (q' & Hr & Hlen & Hsub & Hsup). apply ok_bind. eapply ok_lift; [exact Hr|].
        assert (Hxe : In x explored) by (apply (si_q I), Hxq).
        destruct (eqb_spec x sink) as [->|Hxs].
        { apply ok_ret. split; [exact E1|]. left. destruct (si_up I Hxe) as (l & Hl & Hi). exists l. split; [apply dmem_In; rewrite (si_keys I); exact Hxe|]. split; [exact Hl|]. intros z Hz. apply (si_nodes I), Hi, Hz. }
        assert (Hxn : In x nodes) by (apply (si_nodes I), Hxe). assert (Hxn1 : In x (get_node_list h1)) by (rewrite (fi_nodes F1); exact Hxn).
        apply ok_bind, (ok_nbr_list Hxn1). apply ok_bind, (ok_in_list (fi_wf F1) (fi_dir F1) Hxn1).
        assert (Hadj : forall m, In m (list_at (g_nbrs h1) x ++ list_at (g_in h1) x) <-> adj x m).
        { intros m. rewrite in_app_iff, (nbrs_edge (fi_wf F1) (fi_dir F1)), (ins_edge (fi_wf F1) (fi_dir F1)), (fi_edges F1). reflexivity. }
        apply ok_bind. eapply ok_weaken; [apply (@fold_scan_ok h1 x _ (list_at (g_nbrs h1) x ++ list_at (g_in h1) x) (q', pred, explored) F1 Hxn eq_refl)|]; [intros m Hm; apply Hadj, Hm|apply (si_src I)|exact P1|].
        intros s2 h2 (-> & E2 & P2). apply ok_ret.
        assert (I' : SI explored pred q'). { destruct I as [I1 I2 I3 I4 I5 I6]. constructor; auto. }
        destruct (@fold_SI x (list_at (g_nbrs h1) x ++ list_at (g_in h1) x) (fun m Hm => proj1 (Hadj m) Hm) (q', pred, explored) Hxe I') as (K1 & K2 & K3 & K4 & K5 & K6).
        cbn [fst snd] in *. split; [|lia]. split; [split; [apply (efr_trans E1 E2), incl_refl|exact P2]|]. split; [exact K1|].
        intros a b Ha Hqa Hr'. pose proof (K3 a Ha Hqa) as Hae. destruct (eq_dec a x) as [->|Hax].
        + apply K5; [apply Hadj, Hr'|exact Hr'].
        + apply K2. apply (Cl a b Hae); [cbn [fst snd]|exact Hr']. intros Hqa'. apply Hqa, K4, Hsup; assumption.
    Qed.

    (** ** the path *)
    Lemma pred_of_ok pred m p h (Q : name -> graph -> Prop) : dget pred m = Some (Some p) -> Q p h -> ok (pred_of pred m) h Q.
    Proof. intros H HQ. unfold pred_of. apply ok_bind. eapply ok_lift; [exact H|]. eapply ok_lift; [reflexivity|exact HQ]. Qed.
    Lemma dmem_edges h x y : FI c f h -> dmem (g_edges h) (x, y) = mem (x, y) es.
    Proof.
      intros F. pose proof (fi_edges F) as H. unfold get_edge_list in H. destruct (mem_spec (x, y) es) as [He|He].
      - apply dmem_In. rewrite H. exact He.
      - apply dmem_nIn. rewrite H. exact He.
    Qed.
    Lemma up_source pred l : up pred source l -> l = [].
    Proof. intros H. inversion H; congruence. Qed.
    Lemma path_capacity_ok h pred m l fuel : FI c f h -> up pred m l -> m <> source -> length l <= fuel ->
      ok (path_capacity fuel pred source m) h (fun d h' => h' = h /\ (0 < d)%Z /\ forall p n, In (p, n) l -> (d <= avail c f p n)%Z).
    Proof.
      intros F Hu Hm Hf. unfold path_capacity. match goal with |- ok (loop _ ?b _) _ _ => set (body := b) end.
      assert (G : forall mn, (forall z, mn = Some z -> (0 < z)%Z) ->
        ok (loop fuel body (m, mn)) h (fun d h' => h' = h /\ (0 < d)%Z /\ (forall z, mn = Some z -> d <= z)%Z /\ forall p n, In (p, n) l -> (d <= avail c f p n)%Z)).
      2:{ eapply ok_weaken; [apply (G None); discriminate|]. intros d h' (H1 & H2 & _ & H3). auto. }
      revert fuel Hf. induction Hu as [|m p l H1 H2 [H3 H3'] H4 IH H5]; intros fuel Hf mn Hmn; [congruence|].
      simpl in Hf. destruct fuel as [|fuel]; [lia|]. cbn [loop]. apply ok_bind. unfold body at 1. apply ok_bind. eapply pred_of_ok; [exact H1|].
      apply ok_bind, ok_gets. rewrite (dmem_edges p m F).
      apply ok_bind. eapply ok_weaken with (Q := fun z h2 => z = avail c f p m /\ h2 = h).
      { unfold avail. destruct (mem_spec (p, m) es) as [He|He].
        - apply ok_bind, (ok_ecap F He). apply ok_bind, (ok_eflow F He). apply ok_bind, ok_as_int. apply ok_bind, ok_as_int. apply ok_ret. auto.
        - destruct H3 as [H3|H3]; [contradiction|]. apply ok_bind, (ok_eflow F H3). apply ok_as_int. auto. }
      intros z h2 [-> ->]. cbv zeta. set (mn' := match mn with Some z => if (z >? avail c f p m)%Z then avail c f p m else z | None => avail c f p m end).
      assert (Hmn' : (0 < mn')%Z /\ (mn' <= avail c f p m)%Z /\ forall z, mn = Some z -> (mn' <= z)%Z).
      { unfold mn'. destruct mn as [z|]; [|split; [lia|]; split; [lia|discriminate]]. specialize (Hmn z eq_refl). destruct (Z.gtb_spec z (avail c f p m)).
        - split; [lia|]. split; [lia|]. intros z' [= <-]. lia.
        - split; [lia|]. split; [lia|]. intros z' [= <-]. lia. }
      destruct Hmn' as (N1 & N2 & N3). destruct (eqb_spec p source) as [->|Hps].
      - apply ok_ret. apply ok_ret. split; [reflexivity|]. split; [exact N1|]. split; [exact N3|]. apply up_source in H4 as ->. intros a b [[= <- <-]|[]]. exact N2.
      - apply ok_ret. eapply ok_weaken; [apply (IH Hps fuel ltac:(lia) (Some mn')); intros z [= <-]; exact N1|].
        intros d h' (G1 & G2 & G3 & G4). specialize (G3 mn' eq_refl). split; [exact G1|]. split; [exact G2|]. split; [intros z Hz; specialize (N3 z Hz); lia|].
        intros a b [[= <- <-]|Hab]; [lia|apply G4, Hab].
    Qed.
  End Search.

  (** ** the update *)
  Lemma put_flow_ok c f h e d full : FI c f h -> In e es ->
    ok (put_flow e d full) h (fun _ h' => FI c (fun e' => if eqb e' e then f e' + d else f e')%Z h').
  Proof.
    intros F He. unfold put_flow. apply ok_bind, (ok_eflow F He). apply ok_bind, (ok_ecap F He). apply ok_bind, ok_as_int. apply ok_bind, ok_as_int. cbv zeta.
    apply ok_bind. apply ok_edge_set with (bs := fattrs); [apply (fi_wf F)|apply (fi_dir F)|rewrite (fi_edges F); exact He|unfold fattrs; inl|].
    intros h1 E1 A1 _. assert (W1 := efr_wf E1 (fi_wf F)). assert (D1 := efr_type E1 (fi_dir F)).
    apply ok_bind. apply ok_edge_set with (bs := ["label"]); [exact W1|exact D1|rewrite (efr_edges E1), (fi_edges F); exact He|inl|].
    intros h2 E2 A2 _. assert (F2 : FI c (fun e' => if eqb e' e then f e' + d else f e')%Z h2).
    { constructor.
      - apply (efr_trans (efr_trans (fi_fr F) E1 (incl_refl _)) E2). intros x [<-|[]]. unfold fattrs; inl.
      - intros x y Hxy. rewrite A2. destruct (eqb_spec "capacity" "label"); [discriminate|]. cbn [andb]. rewrite A1. destruct (eqb_spec "capacity" "flow"); [discriminate|]. cbn [andb]. apply (fi_cap F Hxy).
      - intros x y Hxy. rewrite A2. destruct (eqb_spec "flow" "label"); [discriminate|]. cbn [andb]. rewrite A1, eqb_refl. cbn [andb]. destruct (eqb_spec (x, y) e) as [<-|Hne]; [reflexivity|]. apply (fi_flow F Hxy).
      - intros x y Hxy. rewrite A2, eqb_refl. cbn [andb]. destruct (eqb_spec (x, y) e) as [<-|Hne].
        + destruct (Z.eqb_spec (c (x, y)) INF) as [Hc|Hc]; [right; split; [exact Hc|reflexivity]|left; reflexivity].
        + rewrite A1. destruct (eqb_spec "label" "flow"); [discriminate|]. cbn [andb]. apply (fi_lab F Hxy). }
    destruct (f e + d =? full (c e))%Z; apply (ok_ecolor' F2 He); intros h3 E3 _; apply (FI_color F2 E3).
  Qed.
  Lemma FI_ext c f f' h : (forall e, In e es -> f e = f' e) -> FI c f h -> FI c f' h.
  Proof. intros H [F1 F2 F3 F4]. constructor; auto; intros x y Hxy; rewrite <- H by exact Hxy; auto. Qed.
  Lemma NoDup_es : NoDup es.
  Proof. apply (wf_ne W0). Qed.
  Lemma path_update_ok c source pred d m l : (0 < d)%Z -> forall f fuel h, FI c f h -> up c f source pred m l -> m <> source -> length l <= fuel ->
    (forall e, In e es -> 0 <= f e <= c e)%Z -> (forall p n, In (p, n) l -> (d <= avail c f p n)%Z) ->
    ok (path_update fuel pred source m d) h (fun _ h' => exists f', FI c f' h' /\ (forall e, In e es -> 0 <= f' e <= c e)%Z /\
      forall x, net es f' x = net es f x + d * (ind m x - ind source x))%Z.
  Proof.
    intros Hd. unfold path_update. match goal with |- context [loop _ ?b _] => set (body := b) end.
    assert (G : forall l m f f0 fuel h, FI c f h -> up c f0 source pred m l -> m <> source -> length l <= fuel ->
      (forall e, In e es -> 0 <= f e <= c e)%Z -> (forall p n, In (p, n) l -> (d <= avail c f p n)%Z) ->
      ok (loop fuel body m) h (fun _ h' => exists f', FI c f' h' /\ (forall e, In e es -> 0 <= f' e <= c e)%Z /\
      forall x, net es f' x = net es f x + d * (ind m x - ind source x))%Z).
    2:{ intros. eapply G; eassumption. }
    clear m l. intros l m f f0 fuel h F Hu. revert f fuel h F.
    induction Hu as [|m p l H1 H2 [H3 _] H4 IH H5]; intros f fuel h F Hm Hf Hb Hd'; [congruence|].
    simpl in Hf. destruct fuel as [|fuel]; [lia|]. cbn [loop]. apply ok_bind. unfold body at 1. apply ok_bind. eapply pred_of_ok; [exact H1|].
    apply ok_bind, ok_gets. rewrite (dmem_edges p m F). pose proof (Hd' p m (or_introl eq_refl)) as Hpm.
    set (f1 := fun e => (f e + (if eqb e (p, m) && mem (p, m) es then d else 0) - (if eqb e (m, p) && negb (mem (p, m) es) then d else 0))%Z).
    apply ok_bind. eapply ok_weaken with (Q := fun _ h1 => FI c f1 h1 /\ forall x, (net es f1 x = net es f x + d * (ind m x - ind p x))%Z).
    { unfold f1. destruct (mem_spec (p, m) es) as [He|He].
      - eapply ok_weaken; [apply (put_flow_ok d (fun c => c) F He)|]. intros ? h1 F1. cbn beta in F1. split.
        + apply (FI_ext (f := fun e' => if eqb e' (p, m) then f e' + d else f e')%Z); [|exact F1]. intros e' _. rewrite andb_true_r, andb_false_r. destruct (eqb e' (p, m)); lia.
        + intros x. apply (net_change (e := (p, m)) (f := f) (d := d) x NoDup_es He). intros e' _. rewrite andb_true_r, andb_false_r. destruct (eqb e' (p, m)); lia.
      - destruct H3 as [H3|H3]; [contradiction|]. eapply ok_weaken; [apply (put_flow_ok (- d) (fun _ => 0%Z) F H3)|]. intros ? h1 F1. cbn beta in F1. split.
        + apply (FI_ext (f := fun e' => if eqb e' (m, p) then f e' + - d else f e')%Z); [|exact F1]. intros e' _. rewrite andb_false_r, andb_true_r. destruct (eqb e' (m, p)); lia.
        + intros x. rewrite (net_change (e := (m, p)) (f := f) (d := (- d)%Z) x NoDup_es H3); [simpl; lia|]. intros e' _. rewrite andb_false_r, andb_true_r. destruct (eqb e' (m, p)); lia. }
    intros [] h1 [F1 N1].
    assert (B1 : forall e, In e es -> (0 <= f1 e <= c e)%Z).
    { intros e He. specialize (Hb e He). unfold f1. unfold avail in Hpm. destruct (mem_spec (p, m) es) as [Hi|Hi]; simpl.
      - rewrite andb_true_r, andb_false_r. destruct (eqb_spec e (p, m)) as [->|]; lia.
      - rewrite andb_false_r, andb_true_r. destruct (eqb_spec e (m, p)) as [->|]; lia. }
    destruct (eqb_spec p source) as [->|Hps].
    - apply ok_ret. apply ok_ret. exists f1. auto.
    - apply ok_ret. eapply ok_weaken; [apply (IH f1 fuel h1 F1 Hps ltac:(lia) B1)|].
      + intros a b Hab. specialize (Hd' a b (or_intror Hab)). assert (Hbm : b <> m) by (intros ->; apply H5; apply (in_map snd) in Hab; exact Hab).
        assert (Ham : a <> m).
        { intros ->. clear - H4 Hab H5 H2. induction H4 as [|n q l Q1 Q2 Q3 Q4 IHu Q5]; [destruct Hab|]. simpl in H5. destruct Hab as [[= -> ->]|Hab].
          - inversion Q4; subst; [congruence|]. simpl in H5. tauto.
          - apply IHu; auto. }
        assert (E : forall x y, (x, y) = (a, b) \/ (x, y) = (b, a) -> f1 (x, y) = f (x, y)).
        { intros x y Hxy. unfold f1. assert (eqb (x, y) (p, m) = false) as -> by (apply eqb_false; destruct Hxy as [[= -> ->]|[= -> ->]]; congruence).
          assert (eqb (x, y) (m, p) = false) as -> by (apply eqb_false; destruct Hxy as [[= -> ->]|[= -> ->]]; congruence). simpl. lia. }
        unfold avail in *. rewrite !E by auto. exact Hd'.
      + intros ? h2 (f' & G1 & G2 & G3). exists f'. split; [exact G1|]. split; [exact G2|]. intros x. rewrite G3, N1. lia.
  Qed.

  (** ** initialisation *)
  Lemma init_flow_ok : int_caps g0 -> ok init_flow g0 (fun _ h => FI (cap_of g0) (fun _ => 0%Z) h).
  Proof.
    intros IC. unfold init_flow. apply ok_bind, ok_gets.
    apply ok_forM with (I := fun pre h => efr fattrs g0 h /\
      forall x y, eattr h x y "capacity" = (if mem (x, y) pre then Some (VI (cap_of g0 (x, y))) else eattr g0 x y "capacity") /\
                  (In (x, y) pre -> eattr h x y "flow" = Some (VI 0) /\ cf_label (cap_of g0 (x, y)) 0 (eattr h x y "label"))).
    - split; [apply efr_refl|]. intros x y. simpl. tauto.
    - intros pre e post h El [E A]. assert (He : In e es) by (rewrite El; apply in_elt).
      assert (Hpre : ~ In e pre) by (pose proof NoDup_es as H; rewrite El in H; apply NoDup_remove_2 in H; rewrite in_app_iff in H; tauto).
      assert (Wh := efr_wf E W0). assert (Dh := efr_type E D0). assert (Heh : In e (get_edge_list h)) by (rewrite (efr_edges E); exact He).
      apply ok_bind. apply ok_edge_set with (bs := fattrs); [exact Wh|exact Dh|exact Heh|unfold fattrs; inl|]. intros h1 E1 A1 _.
      assert (Wh1 := efr_wf E1 Wh). assert (Dh1 := efr_type E1 Dh). assert (Heh1 : In e (get_edge_list h1)) by (rewrite (efr_edges E1); exact Heh).
      destruct e as [a b].
      assert (C1 : forall x y, eattr h1 x y "capacity" = eattr h x y "capacity") by (intros x y; rewrite A1; destruct (eqb_spec "capacity" "flow"); [discriminate|reflexivity]).
      assert (Ca : eattr h1 a b "capacity" = eattr g0 a b "capacity"). { rewrite C1. destruct (A a b) as [-> _]. destruct (mem_spec (a, b) pre); [contradiction|reflexivity]. }
      assert (Fa : forall x y, In (x, y) (pre ++ [(a, b)]) -> eattr h1 x y "flow" = Some (VI 0)).
      { intros x y Hxy. rewrite A1, eqb_refl. cbn [andb]. destruct (eqb_spec (x, y) (a, b)) as [|Hne]; [reflexivity|]. apply A. apply in_app_iff in Hxy as [H|[H|[]]]; [exact H|congruence]. }
      assert (La : forall x y, (x, y) <> (a, b) -> In (x, y) (pre ++ [(a, b)]) -> cf_label (cap_of g0 (x, y)) 0 (eattr h1 x y "label")).
      { intros x y Hne Hxy. rewrite A1. destruct (eqb_spec "label" "flow"); [discriminate|]. cbn [andb]. apply A. apply in_app_iff in Hxy as [H|[H|[]]]; [exact H|congruence]. }
      assert (Mem : forall x y, mem (x, y) (pre ++ [(a, b)]) = mem (x, y) pre || eqb (x, y) (a, b)).
      { intros x y. destruct (mem_spec (x, y) (pre ++ [(a, b)])) as [H|H]; rewrite in_app_iff in H; destruct (mem_spec (x, y) pre), (eqb_spec (x, y) (a, b)); simpl in *; try reflexivity; try congruence; intuition congruence. }
      apply ok_bind, (ok_edge_has Dh1 Heh1). rewrite Ca. destruct (IC a b He) as [Hc|[z Hc]]; rewrite Hc.
      + apply ok_bind. apply ok_edge_set with (bs := fattrs); [exact Wh1|exact Dh1|exact Heh1|unfold fattrs; inl|]. intros h2 E2 A2 _.
        assert (Wh2 := efr_wf E2 Wh1). assert (Dh2 := efr_type E2 Dh1). assert (Heh2 : In (a, b) (get_edge_list h2)) by (rewrite (efr_edges E2); exact Heh1).
        apply ok_edge_set with (bs := fattrs); [exact Wh2|exact Dh2|exact Heh2|unfold fattrs; inl|]. intros h3 E3 A3 _.
        split; [apply (efr_trans (efr_trans (efr_trans E E1 (incl_refl _)) E2 (incl_refl _)) E3 (incl_refl _))|].
        intros x y. rewrite !A3. destruct (eqb_spec "capacity" "label"); [discriminate|]. destruct (eqb_spec "flow" "label"); [discriminate|]. rewrite (eqb_refl "label"). cbn [andb].
        rewrite !A2. destruct (eqb_spec "flow" "capacity"); [discriminate|]. destruct (eqb_spec "label" "capacity"); [discriminate|]. rewrite eqb_refl. cbn [andb].
        split; [|intros Hxy; split; [apply Fa, Hxy|]; destruct (eqb_spec (x, y) (a, b)) as [[= -> ->]|Hne]; [|apply La; assumption]; right; split; [unfold cap_of; simpl; rewrite Hc; reflexivity|reflexivity]].
        rewrite C1, Mem. destruct (A x y) as [-> _]. destruct (eqb_spec (x, y) (a, b)) as [[= -> ->]|]; [|rewrite orb_false_r; reflexivity].
        rewrite orb_true_r. unfold cap_of. simpl. rewrite Hc. reflexivity.
      + apply ok_bind. eapply ok_edge_get; [exact Dh1|cbn [fst snd]; rewrite Ca; exact Hc|].
        apply ok_edge_set with (bs := fattrs); [exact Wh1|exact Dh1|exact Heh1|unfold fattrs; inl|]. intros h2 E2 A2 _.
        split; [apply (efr_trans (efr_trans E E1 (incl_refl _)) E2 (incl_refl _))|].
        intros x y. rewrite !A2. destruct (eqb_spec "capacity" "label"); [discriminate|]. destruct (eqb_spec "flow" "label"); [discriminate|]. rewrite (eqb_refl "label"). cbn [andb].
        split; [|intros Hxy; split; [apply Fa, Hxy|]; destruct (eqb_spec (x, y) (a, b)) as [[= -> ->]|Hne]; [|apply La; assumption]; left; unfold cap_of; simpl; rewrite Hc; reflexivity].
        rewrite C1, Mem. destruct (A x y) as [-> _]. destruct (eqb_spec (x, y) (a, b)) as [[= -> ->]|]; [|rewrite orb_false_r; reflexivity].
        rewrite orb_true_r, Hc. destruct (mem_spec (a, b) pre); [contradiction|]. unfold cap_of. simpl. rewrite Hc. reflexivity.
    - intros h [E A]. constructor; [exact E|..]; intros x y Hxy; destruct (A x y) as [A1 A2]; [|apply A2, Hxy|apply A2, Hxy].
      rewrite A1. destruct (mem_spec (x, y) es); [reflexivity|contradiction].
  Qed.

  (** ** the loop over augmenting paths *)
  Lemma up_length c f source pred m l : up c f source pred m l -> incl (map snd l) nodes -> length l <= length nodes.
  Proof.
    intros Hu Hi. rewrite <- (map_length snd). apply NoDup_incl_length; [|exact Hi]. clear Hi. induction Hu; simpl; constructor; assumption.
  Qed.
  Lemma FI_flow_of c f h : FI c f h -> forall e, In e es -> flow_of h e = f e.
  Proof. intros F [x y] He. unfold flow_of. simpl. rewrite (fi_flow F He). reflexivity. Qed.
  Lemma augment_ok c f0 h q0 source sink fuel : FI c f0 h -> is_flow es c source sink f0 -> (0 <= value es sink f0)%Z -> In source nodes -> source <> sink -> els q0 = [] ->
    2 * length nodes < fuel -> Z.to_nat (zsum c es) < fuel ->
    ok (augment (fr := fr) fuel q0 source sink) h (fun _ h' => exists f, FI c f h' /\ is_flow es c source sink f /\
      exists S, In source S /\ ~ In sink S /\ (forall x y, In x S -> resid c f x y -> In y S) /\ incl S nodes /\ painted source S h').
  Proof.
    intros F0 Fl0 V0 Hs Hst Hq0 Hf1 Hf2. unfold augment.
    apply ok_loop with (I := fun (_ : unit) h' => exists f, FI c f h' /\ is_flow es c source sink f /\ (0 <= value es sink f)%Z)
      (mu := fun (_ : unit) h' => Z.to_nat (zsum c es - value es sink (flow_of h'))).
    - exists f0. auto.
    - rewrite <- (net_ext (f := f0) (h := flow_of h) sink) || idtac. unfold value in *. rewrite (net_ext (h := f0) sink (FI_flow_of F0)). lia.
    - intros [] h1 (f & F & Fl & V).
      apply ok_bind. eapply ok_weaken; [apply (paint_ok F)|]. intros [] h2 [E2 B2]. pose proof (FI_color F E2) as F2.
      apply ok_bind. eapply ok_weaken; [apply (search_ok sink Hs F2 B2 Hq0 Hf1)|]. intros pred h3 [E3 R]. pose proof (FI_color F2 E3) as F3.
      destruct R as [(l & -> & Hu & Hi)|(-> & S & HS)].
      + pose proof (up_length Hu Hi) as Hl. apply ok_bind. eapply ok_weaken; [apply (path_capacity_ok (fuel := fuel) F3 Hu); [congruence|lia]|].
        intros d h4 (-> & Hd & Ha). apply ok_bind. eapply ok_weaken; [apply (path_update_ok (fuel := fuel) Hd F3 Hu); [congruence|lia|apply (flow_bounds Fl)|exact Ha]|].
        intros [] h5 (f' & F' & B' & N'). apply ok_ret.
        assert (Nt : (net es f' sink = net es f sink + d)%Z).
        { rewrite N'. unfold ind. rewrite eqb_refl. destruct (eqb_spec source sink); [contradiction|]. lia. }
        assert (Fl' : is_flow es c source sink f').
        { constructor; [exact B'|]. intros x H1 H2. rewrite N', (flow_balance Fl H1 H2). unfold ind. destruct (eqb_spec sink x); [congruence|]. destruct (eqb_spec source x); [congruence|]. lia. }
        split; [exists f'; split; [exact F'|]; split; [exact Fl'|]; unfold value in *; lia|].
        unfold value in *. rewrite (net_ext (h := f') sink (FI_flow_of F')), (net_ext (h := f) sink (FI_flow_of F)). pose proof (value_le Fl') as Hv. unfold value in Hv. lia.
      + apply ok_ret. exists f. split; [exact F3|]. split; [exact Fl|]. exists S. exact HS.
  Qed.
End MaxFlow.

(** * max_flow *)
Lemma max_flow_ok (fr : frontier) (els : fq fr -> list name) (Bag : bag els) g q0 source sink display fuel :
  wf g -> g_type g = Directed -> int_caps g -> nonneg_caps g -> In source (get_node_list g) -> source <> sink -> els q0 = [] ->
  (display = None \/ dget (g_attr g) "display" <> None) -> flow_fuel g < fuel ->
  ok (max_flow fuel q0 source sink display) g (fun _ h => efr fattrs g h /\
    exists f, FI g (cap_of g) f h /\ is_flow (get_edge_list g) (cap_of g) source sink f /\
      exists S, In source S /\ ~ In sink S /\ (forall x y, In x S -> resid g (cap_of g) f x y -> In y S) /\ incl S (get_node_list g) /\ painted g source S h).
Proof.
  intros W D IC NC Hs Hst Hq Hdisp Hf. unfold flow_fuel in Hf.
  assert (Core : forall g, wf g -> g_type g = Directed -> int_caps g -> nonneg_caps g -> In source (get_node_list g) ->
    2 * length (get_node_list g) < fuel -> Z.to_nat (zsum (cap_of g) (get_edge_list g)) < fuel ->
    forall (k : M graph unit) (Q : unit -> graph -> Prop), (forall h, (exists f, FI g (cap_of g) f h /\ is_flow (get_edge_list g) (cap_of g) source sink f /\
      exists S, In source S /\ ~ In sink S /\ (forall x y, In x S -> resid g (cap_of g) f x y -> In y S) /\ incl S (get_node_list g) /\ painted g source S h) -> ok k h Q) ->
    ok (init_flow ;; augment fuel q0 source sink ;; k) g Q).
  { clear - Bag Hst Hq. intros g W D IC NC Hs Hf1 Hf2 k Q HQ. apply ok_bind. eapply ok_weaken; [apply (init_flow_ok W D IC)|]. intros [] h F. cbn beta in F.
    apply ok_bind. eapply ok_weaken; [apply (augment_ok Bag W D F)|].
    - constructor; [intros e He; split; [lia|apply NC, He]|]. intros; apply net_zero.
    - unfold value. rewrite net_zero. lia.
    - exact Hs.
    - exact Hst.
    - exact Hq.
    - exact Hf1.
    - exact Hf2.
    - intros [] h' H. apply HQ, H. }
  unfold max_flow. destruct display as [v|].
  - destruct Hdisp as [Hd|Hd]; [discriminate|]. destruct (dget (g_attr g) "display") as [d|] eqn:Ed; [|congruence].
    apply ok_bind. apply ok_bind, ok_gets. apply ok_bind. eapply ok_lift; [exact Ed|]. apply ok_bind. unfold set_graph_attr. apply ok_modify. apply ok_ret.
    match goal with |- ok _ ?k _ => set (g1 := k) end.
    apply (Core g1).
    + apply (ss_wf (g := g)); [constructor; reflexivity|exact W].
    + exact D.
    + exact IC.
    + exact NC.
    + exact Hs.
    + unfold g1, get_node_list; simpl. unfold get_node_list in Hf. lia.
    + change (zsum (cap_of g1) (get_edge_list g1)) with (zsum (cap_of g) (get_edge_list g)). lia.
    + intros h (f & F & Fl & S & HS). unfold set_graph_attr. apply ok_modify. destruct (fi_fr F) as [E1 E2 E3 E4 E5].
      assert (E : efr fattrs g (with_attr h (dset (g_attr h) "display" d))).
      { constructor; [|exact E2|exact E3| |exact E5].
        - apply (ss_trans (h := g1)); [constructor; reflexivity|]. apply (ss_trans (h := h)); [exact E1|]. constructor; reflexivity.
        - simpl. rewrite E4. unfold g1. simpl. rewrite dset_dset. apply dset_same, Ed. }
      split; [exact E|]. exists f. split; [|split; [exact Fl|exists S; exact HS]]. constructor; [exact E|apply (fi_cap F)|apply (fi_flow F)|apply (fi_lab F)].
  - apply ok_bind, ok_ret. apply (Core g W D IC NC Hs); [lia|lia|]. intros h (f & F & R). apply ok_ret. split; [apply (fi_fr F)|]. exists f. split; [exact F|exact R].
Qed.

(** * consequences *)
Lemma cut_is_tight g c f source sink S : wf g -> g_type g = Directed -> no_antiparallel g -> is_flow (get_edge_list g) c source sink f ->
  In source S -> ~ In sink S -> (forall x y, In x S -> resid g c f x y -> In y S) ->
  value (get_edge_list g) sink f = cut_capacity (get_edge_list g) c (fun x => mem x S).
Proof.
  intros W D NA Fl Hs Ht Hc. apply (tight_cut Fl).
  - destruct (mem_spec source S); [reflexivity|contradiction].
  - destruct (mem_spec sink S); [contradiction|reflexivity].
  - intros [x y] He Hx Hy. simpl in *. destruct (mem_spec x S) as [Hx'|]; [|discriminate]. destruct (mem_spec y S) as [|Hy']; [discriminate|].
    pose proof (flow_bounds Fl He). destruct (Z.eq_dec (f (x, y)) (c (x, y))) as [|Hne]; [assumption|]. exfalso. apply Hy', (Hc x y Hx'). split; [left; exact He|].
    unfold avail. destruct (mem_spec (x, y) (get_edge_list g)); [lia|contradiction].
  - intros [x y] He Hx Hy. simpl in *. destruct (mem_spec x S) as [|Hx']; [discriminate|]. destruct (mem_spec y S) as [Hy'|]; [|discriminate].
    pose proof (flow_bounds Fl He). destruct (Z.eq_dec (f (x, y)) 0) as [|Hne]; [assumption|]. exfalso. apply Hx', (Hc y x Hy'). split; [right; exact He|].
    unfold avail. destruct (mem_spec (y, x) (get_edge_list g)) as [Hi|]; [|lia]. pose proof (NA _ _ He Hi). congruence.
Qed.
(* a decidable test for is_flow *)
Lemma is_flow_check es c s t f : forallb (fun e => (0 <=? f e)%Z && (f e <=? c e)%Z) es = true ->
  forallb (fun x => eqb x s || eqb x t || (net es f x =? 0)%Z) (ends es) = true -> is_flow es c s t f.
Proof.
  intros H1 H2. rewrite forallb_forall in H1, H2. constructor.
  - intros e He. specialize (H1 e He). apply andb_true_iff in H1 as [A B]. lia.
  - intros x Hs Ht. destruct (mem_spec x (ends es)) as [Hx|Hx]; [|apply net_outside, Hx]. specialize (H2 x Hx).
    destruct (eqb_spec x s); [contradiction|]. destruct (eqb_spec x t); [contradiction|]. simpl in H2. lia.
Qed.
