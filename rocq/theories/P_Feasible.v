(* find_feasible_flow. *)
From Verif Require Import Py Util M_Graph P_Graph P_GraphLaws Spec P_Attr M_Search S_Frontier M_Flow M_MinCost S_Flow S_GraphFlow S_MinCost P_Flow P_EdgeFrame P_MaxFlow P_MinCostAbs P_Residual.
Set Implicit Arguments. Unset Strict Implicit.
Local Open Scope string_scope. Local Open Scope list_scope.
Notation Ns := (NS "s"). Notation Nt := (NS "t").

Lemma add_edge_attr g n m kw g' : wf g -> check_edge g n m = false -> add_edge n m kw g = (g', Ok tt) -> g_attr g' = g_attr g.
Proof.
  intros W Hc E. rewrite (add_edge_new kw W Hc) in E. injection E as <-. unfold link, ensure. destruct (dmem (g_nodes g) n); cbn; destruct (dmem _ m); cbn; destruct (g_type g); reflexivity.
Qed.
Lemma del_node_attr g n g' : wf g -> g_type g = Directed -> In n (get_node_list g) -> del_node n g = (g', Ok tt) -> g_attr g' = g_attr g.
Proof. intros W D Hn E. rewrite (p_del_node_eq W D Hn) in E. injection E as <-. reflexivity. Qed.

Section Feasible.
  Variable g : graph.
  Hypothesis W : wf g.
  Hypothesis D : g_type g = Directed.
  Notation V := (get_node_list g).
  Notation es := (get_edge_list g).
  Notation b := (demand_of g).
  Hypothesis Hs : ~ In Ns V.
  Hypothesis Ht : ~ In Nt V.
  Hypothesis ID : int_demands g.

  Record ext (pre : list name) (h : graph) : Prop := {
    x_wf : wf h;
    x_dir : g_type h = Directed;
    x_attr : g_attr h = g_attr g;
    x_edges : get_edge_list h = es ++ flat_map (extra_of b Ns Nt) pre;
    x_nodes : exists ex, get_node_list h = V ++ ex /\ incl ex [Ns; Nt] /\ (In Ns ex <-> exists i, In i pre /\ (0 < b i)%Z) /\ (In Nt ex <-> exists i, In i pre /\ (b i < 0)%Z);
    x_eattr : forall x y a, In (x, y) es -> eattr h x y a = eattr g x y a;
    x_nattr : forall x a, In x V -> obs (get_node_attr x a) h = obs (get_node_attr x a) g;
    x_caps : forall i, In i pre -> (0 < b i)%Z -> eattr h Ns i "capacity" = Some (VI (b i));
    x_capt : forall i, In i pre -> (b i < 0)%Z -> eattr h i Nt "capacity" = Some (VI (- b i))
  }.
  Lemma es_V x y : In (x, y) es -> In x V /\ In y V.
  Proof. apply (edge_nodes W D). Qed.
  Lemma es_V' e : In e es -> In (fst e) V /\ In (snd e) V.
  Proof. destruct e. apply es_V. Qed.
  Lemma check_dir h x y : g_type h = Directed -> check_edge h x y = mem (x, y) (get_edge_list h).
  Proof. intros Dh. unfold check_edge. rewrite Dh. destruct (dmem_spec (g_edges h) (x, y)) as [H|H], (mem_spec (x, y) (get_edge_list h)) as [H'|H']; try reflexivity; contradiction. Qed.
  Lemma demand_ok h x (Q : val -> graph -> Prop) : (forall a, obs (get_node_attr x a) h = obs (get_node_attr x a) g) -> In x V -> Q (VI (b x)) h -> ok (get_node_attr x "demand") h Q.
  Proof.
    intros He Hx HQ. destruct (ID Hx) as [z Hz]. unfold demand_of in HQ. rewrite Hz in HQ. rewrite <- He in Hz.
    unfold obs, get_node_attr in Hz. simpl in Hz. eapply ok_intro; [unfold get_node_attr; rewrite Hz; reflexivity|exact HQ].
  Qed.
  Lemma add_arc pre h i n m z : ext pre h -> In i V -> ~ In i pre ->
    (n = Ns /\ m = i /\ z = b i /\ (0 < b i)%Z) \/ (n = i /\ m = Nt /\ z = (- b i)%Z /\ (b i < 0)%Z) ->
    incl pre V -> ok (add_edge n m [("capacity", VI z)]) h (fun _ h' => ext (pre ++ [i]) h').
  Proof.
    intros X Hi Hn Hc Hpre.
    assert (N1 : i <> Ns) by (intros ->; contradiction). assert (N2 : i <> Nt) by (intros ->; contradiction).
    assert (Ex : extra_of b Ns Nt i = [(n, m)]).
    { unfold extra_of. destruct Hc as [(-> & -> & _ & Hb)|(-> & -> & _ & Hb)]; destruct (Z.gtb_spec (b i) 0); try lia; [reflexivity|]. destruct (Z.ltb_spec (b i) 0); [reflexivity|lia]. }
    assert (New : ~ In (n, m) (get_edge_list h)).
    { rewrite (x_edges X), in_app_iff. intros [H|H].
      - apply es_V in H as [A B]. destruct Hc as [(-> & -> & _)|(-> & -> & _)]; contradiction.
      - apply in_flat_map in H as (j & Hj & H). apply in_extra_of in H. destruct Hc as [(-> & -> & _)|(-> & -> & _)]; destruct H as [[_ K]|[_ K]]; injection K; intros; subst; contradiction || congruence. }
    assert (Ck : check_edge h n m = false) by (rewrite (check_dir n m (x_dir X)); apply mem_nIn; exact New).
    assert (Hkw : NoDup (dkeys [("capacity", VI z)])) by (repeat constructor; simpl; tauto).
    destruct (@add_edge_views h n m [("capacity", VI z)] (x_wf X) Hkw Ck) as (h' & E & W' & D' & Nl & El & A1 & A2 & A3 & _).
    eapply ok_intro; [exact E|]. cbn beta. constructor.
    - exact W'.
    - rewrite D'. apply (x_dir X).
    - rewrite <- (x_attr X). apply (add_edge_attr (x_wf X) Ck E).
    - rewrite El, (x_edges X), flat_map_app. simpl. rewrite Ex, app_nil_r, app_assoc. reflexivity.
    - destruct (x_nodes X) as (ex & Hex & Hi1 & Hs1 & Ht1). rewrite Nl, Hex. rewrite <- app_assoc. eexists. split; [reflexivity|].
      assert (Old : forall b0, (exists i0, In i0 (pre ++ [i]) /\ b0 i0) <-> (exists i0, In i0 pre /\ b0 i0) \/ b0 i).
      { intros b0. split; [intros (j & Hj & Hb); apply in_app_iff in Hj as [Hj|[<-|[]]]; eauto|]. intros [(j & Hj & Hb)|Hb]; [exists j; rewrite in_app_iff; auto|exists i; rewrite in_app_iff; simpl; auto]. }
      rewrite (Old (fun i => 0 < b i)%Z), (Old (fun i => b i < 0)%Z), <- Hs1, <- Ht1.
      destruct Hc as [(-> & -> & _ & Hb)|(-> & -> & _ & Hb)].
      + assert (mem i ((V ++ ex) ++ [Ns]) = true) as -> by (apply mem_In; rewrite !in_app_iff; auto). rewrite app_nil_r, mem_app. rewrite (proj2 (mem_nIn Ns V) Hs). cbn [orb].
        destruct (mem_spec Ns ex) as [H|H]; cbn [app]; rewrite ?app_nil_r.
        * split; [exact Hi1|]. split; [tauto|]. split; [auto|]. intros [K|K]; [exact K|lia].
        * split; [intros x Hx; apply in_app_iff in Hx as [Hx|[<-|[]]]; [apply Hi1, Hx|simpl; auto]|]. rewrite !in_app_iff. simpl. split; [split; auto|].
          split; [intros [K|[K|[]]]; [auto|discriminate]|]. intros [K|K]; [auto|lia].
      + assert (mem i (V ++ ex) = true) as E1 by (apply mem_In; rewrite !in_app_iff; auto). rewrite E1. cbn [app]. rewrite !mem_app. rewrite (proj2 (mem_nIn Nt V) Ht). cbn [orb].
        assert (mem Nt [i] = false) as -> by (apply mem_nIn; intros [K|[]]; congruence). rewrite orb_false_r.
        destruct (mem_spec Nt ex) as [H|H]; cbn [app]; rewrite ?app_nil_r.
        * split; [exact Hi1|]. split; [|tauto]. split; [auto|]. intros [K|K]; [exact K|lia].
        * split; [intros x Hx; apply in_app_iff in Hx as [Hx|[<-|[]]]; [apply Hi1, Hx|simpl; auto]|]. rewrite !in_app_iff. simpl. split; [|split; auto].
          split; [intros [K|[K|[]]]; [auto|discriminate]|]. intros [K|K]; [auto|lia].
    - intros x y a Hxy. rewrite eattr_obs, A2, <- eattr_obs; [apply (x_eattr X a Hxy)|]. rewrite (check_dir x y (x_dir X)). apply mem_In. rewrite (x_edges X), in_app_iff. auto.
    - intros x a Hx. rewrite A3; [apply (x_nattr X a Hx)|]. destruct (x_nodes X) as (ex & -> & _). apply in_app_iff. auto.
    - intros j Hj Hb. apply in_app_iff in Hj as [Hj|[<-|[]]].
      + rewrite eattr_obs, A2, <- eattr_obs; [apply (x_caps X Hj Hb)|]. rewrite (check_dir Ns j (x_dir X)). apply mem_In. rewrite (x_edges X), in_app_iff, in_flat_map. right. exists j. split; [exact Hj|]. apply in_extra_of. auto.
      + destruct Hc as [(-> & -> & -> & _)|(-> & -> & _ & Hb')]; [|lia]. rewrite eattr_obs, A1. reflexivity.
    - intros j Hj Hb. apply in_app_iff in Hj as [Hj|[<-|[]]].
      + rewrite eattr_obs, A2, <- eattr_obs; [apply (x_capt X Hj Hb)|]. rewrite (check_dir j Nt (x_dir X)). apply mem_In. rewrite (x_edges X), in_app_iff, in_flat_map. right. exists j. split; [exact Hj|]. apply in_extra_of. auto.
      + destruct Hc as [(_ & _ & _ & Hb')|(-> & -> & -> & _)]; [lia|]. rewrite eattr_obs, A1. reflexivity.
  Qed.
  Lemma ext_skip pre h i : ext pre h -> b i = 0%Z -> ext (pre ++ [i]) h.
  Proof.
    intros X Hb. assert (Ex : extra_of b Ns Nt i = []) by (unfold extra_of; rewrite Hb; reflexivity). constructor; try apply X.
    - rewrite (x_edges X), flat_map_app. simpl. rewrite Ex, app_nil_r. reflexivity.
    - destruct (x_nodes X) as (ex & Hex & Hi1 & Hs1 & Ht1). exists ex. split; [exact Hex|]. split; [exact Hi1|]. rewrite Hs1, Ht1.
      split; split; intros (j & Hj & K); exists j; (split; [|exact K]); rewrite in_app_iff in *; [auto|destruct Hj as [Hj|[<-|[]]]; [exact Hj|lia]|auto|destruct Hj as [Hj|[<-|[]]]; [exact Hj|lia]].
    - intros j Hj K. apply in_app_iff in Hj as [Hj|[<-|[]]]; [apply (x_caps X Hj K)|lia].
    - intros j Hj K. apply in_app_iff in Hj as [Hj|[<-|[]]]; [apply (x_capt X Hj K)|lia].
  Qed.
  Lemma extend_ok : ok (forM_ V demand_arc) g (fun _ h => ext V h).
  Proof.
    eapply ok_forM with (I := fun pre h => ext pre h).
    - constructor; try reflexivity; try assumption.
      + simpl. rewrite app_nil_r. reflexivity.
      + exists []. rewrite app_nil_r. split; [reflexivity|]. split; [intros x []|]. split; split; try (intros []; fail); intros (i & [] & _).
      + intros i [].
      + intros i [].
    - intros pre i post h Ep X. assert (Nd : NoDup V) by apply (wf_nd W). rewrite Ep in Nd.
      assert (Hi : In i V) by (rewrite Ep; apply in_app_iff; simpl; auto).
      assert (Hni : ~ In i pre) by (intros K; apply NoDup_app_iff in Nd as (_ & _ & Nd); apply (Nd i K); simpl; auto).
      assert (Hinc : incl pre V) by (intros x Hx; rewrite Ep; apply in_app_iff; auto).
      unfold demand_arc. apply ok_bind. apply demand_ok; [intros a; apply (x_nattr X a Hi)|exact Hi|]. apply ok_bind, ok_as_int.
      destruct (Z.gtb_spec (b i) 0) as [H1|H1]; [|destruct (Z.ltb_spec (b i) 0) as [H2|H2]].
      + apply add_arc with (pre := pre); auto.
      + apply add_arc with (pre := pre); auto.
      + apply ok_ret. apply ext_skip; [exact X|lia].
    - intros h X. exact X.
  Qed.

  (** ** the maximum flow in the extended graph *)
  Hypothesis IC : int_caps g.
  Hypothesis NC : nonneg_caps g.
  Hypothesis NA : no_antiparallel g.
  Notation ex := (extra V b Ns Nt).
  Lemma x_edges' h : ext V h -> get_edge_list h = es ++ ex.
  Proof. apply x_edges. Qed.
  Lemma cap_old h e : ext V h -> In e es -> cap_of h e = cap_of g e.
  Proof. intros X He. destruct e as [x y]. unfold cap_of. cbn [fst snd]. rewrite (x_eattr X "capacity" He). reflexivity. Qed.
  Lemma cap_s h i : ext V h -> In i V -> (0 < b i)%Z -> cap_of h (Ns, i) = b i.
  Proof. intros X Hi Hb. unfold cap_of. cbn [fst snd]. rewrite (x_caps X Hi Hb). reflexivity. Qed.
  Lemma cap_t h i : ext V h -> In i V -> (b i < 0)%Z -> cap_of h (i, Nt) = (- b i)%Z.
  Proof. intros X Hi Hb. unfold cap_of. cbn [fst snd]. rewrite (x_capt X Hi Hb). reflexivity. Qed.
  Lemma ext_int_caps h : ext V h -> int_caps h.
  Proof.
    intros X x y He. rewrite (x_edges' X), in_app_iff in He. destruct He as [He|He].
    - rewrite (x_eattr X "capacity" He). apply IC, He.
    - apply in_extra in He as (i & Hi & [[Hb [= -> ->]]|[Hb [= -> ->]]]); right; [rewrite (x_caps X Hi Hb)|rewrite (x_capt X Hi Hb)]; eauto.
  Qed.
  Lemma ext_nonneg h : ext V h -> nonneg_caps h.
  Proof.
    intros X e He. rewrite (x_edges' X), in_app_iff in He. destruct He as [He|He].
    - rewrite (cap_old X He). apply NC, He.
    - apply in_extra in He as (i & Hi & [[Hb ->]|[Hb ->]]); [rewrite (cap_s X Hi Hb)|rewrite (cap_t X Hi Hb)]; lia.
  Qed.
  Lemma ext_single h : ext V h -> no_antiparallel h.
  Proof.
    intros X x y He He'. rewrite (x_edges' X), in_app_iff in He, He'. destruct He as [He|He], He' as [He'|He'].
    - apply NA; assumption.
    - exfalso. apply es_V in He as [A B]. apply in_extra in He' as (i & Hi & [[Hb [= -> ->]]|[Hb [= -> ->]]]); contradiction.
    - exfalso. apply es_V in He' as [A B]. apply in_extra in He as (i & Hi & [[Hb [= -> ->]]|[Hb [= -> ->]]]); contradiction.
    - exfalso. apply in_extra in He as (i & Hi & [[Hb [= -> ->]]|[Hb [= -> ->]]]), He' as (j & Hj & [[Hb' K]|[Hb' K]]); injection K; intros; subst; contradiction || congruence.
  Qed.
  Definition ff_fuel : nat := 2 * (length V + 2) + Z.to_nat (zsum (cap_of g) es + zsum (fun x => Z.abs (b x)) V).
  Lemma ext_fuel h : ext V h -> flow_fuel h <= ff_fuel.
  Proof.
    intros X. unfold flow_fuel, ff_fuel. destruct (x_nodes X) as (l & Hl & Hi & _).
    assert (Nl : NoDup l). { pose proof (wf_nd (x_wf X)) as K. change (dkeys (g_nbrs h)) with (get_node_list h) in K. rewrite Hl in K. apply NoDup_app_iff in K. tauto. }
    assert (Ll : length l <= 2) by apply (NoDup_incl_length Nl Hi). rewrite Hl, app_length, (x_edges' X), zsum_app.
    rewrite (zsum_ext (l := es) (h := cap_of g)) by (intros e He; apply (cap_old X He)). unfold extra. rewrite zsum_flat_map.
    enough (zsum (fun x => zsum (cap_of h) (extra_of b Ns Nt x)) V <= zsum (fun x => Z.abs (b x)) V)%Z by lia.
    apply zsum_le. intros i Hiv. unfold extra_of. destruct (Z.gtb_spec (b i) 0); [|destruct (Z.ltb_spec (b i) 0)]; simpl; [rewrite (cap_s X Hiv) by lia; lia|rewrite (cap_t X Hiv) by lia; lia|lia].
  Qed.

  Lemma saturated_ok h (c f : name -> Z) l : (forall i, In i l -> eattr h Ns i "flow" = Some (VI (f i)) /\ eattr h Ns i "capacity" = Some (VI (c i))) ->
    ok (saturated l) h (fun r h' => h' = h /\ r = forallb (fun i => f i =? c i)%Z l).
  Proof.
    induction l as [|i l IH]; intros H; [apply ok_ret; split; reflexivity|]. cbn [saturated forallb]. destruct (H i (or_introl eq_refl)) as [H1 H2].
    apply ok_bind. eapply ok_get_edge_attr; [exact H1|]. apply ok_bind. eapply ok_get_edge_attr; [exact H2|].
    destruct (eqb_spec (VI (f i)) (VI (c i))) as [E|E].
    - injection E as E. rewrite (proj2 (Z.eqb_eq _ _) E). cbn [andb]. apply IH. intros j Hj. apply H. simpl. auto.
    - apply ok_ret. split; [reflexivity|]. destruct (Z.eqb_spec (f i) (c i)) as [K|K]; [congruence|]. reflexivity.
  Qed.

  (** ** everything up to del_node('t') *)
  Variable fr : frontier.
  Variable els : fq fr -> list name.
  Hypothesis Bag : bag els.
  Variable q0 : fq fr.
  Hypothesis Q0 : els q0 = [].
  Hypothesis Disp : dget (g_attr g) "display" <> None.
  Variable fuel : nat.
  Hypothesis Fuel : ff_fuel < fuel.
  Hypothesis Supply : exists i, In i V /\ (0 < b i)%Z.

  Record solved (r : bool) (h : graph) (f : fn) : Prop := {
    v_wf : wf h; v_dir : g_type h = Directed; v_attr : g_attr h = g_attr g;
    v_nodes : get_node_list h = V ++ (if existsb (fun i => b i <? 0)%Z V then [Nt] else []);
    v_edges : get_edge_list h = es ++ filter (fun e => eqb (snd e) Nt) ex;
    v_eattr : forall x y a, In (x, y) es -> ~ In a fattrs -> eattr h x y a = eattr g x y a;
    v_nattr : forall x a, In x V -> a <> "color" -> obs (get_node_attr x a) h = obs (get_node_attr x a) g;
    v_cap : forall x y, In (x, y) es -> eattr h x y "capacity" = Some (VI (cap_of g (x, y)));
    v_flow : forall x y, In (x, y) es -> eattr h x y "flow" = Some (VI (f (x, y)));
    v_true : r = true -> weakly_feasible V es (cap_of g) b f;
    v_false : r = false -> forall (D : positive) f0, ~ weakly_feasible V es (fun e => Zpos D * cap_of g e)%Z (fun x => Zpos D * b x)%Z f0;
    v_none : (forall i, In i V -> 0 <= b i)%Z -> r = false
  }.
  Lemma nattr_efr bs h h' x a : efr bs h h' -> a <> "color" -> obs (get_node_attr x a) h' = obs (get_node_attr x a) h.
  Proof.
    intros Fr Ha. pose proof (ef_nodes Fr x Ha) as A. unfold nattr in A. unfold obs, get_node_attr. simpl. pose proof (ss_nodes (ef_shape Fr)) as K.
    destruct (dget (g_nodes h') x) as [d|] eqn:E1, (dget (g_nodes h) x) as [d'|] eqn:E2; try reflexivity.
    - rewrite A. reflexivity.
    - apply dget_Some_keys in E1. apply dget_None in E2. rewrite K in E1. contradiction.
    - apply dget_Some_keys in E2. apply dget_None in E1. rewrite K in E1. contradiction.
  Qed.
  Lemma head_ok (k : bool -> M graph bool) (Q : bool -> graph -> Prop) : (forall r h f, solved r h f -> ok (k r) h Q) ->
    ok (nl <- gets get_node_list ;; forM_ nl demand_arc ;; max_flow fuel q0 Ns Nt (Some (VS "off")) ;; l <- nbr_list Ns ;; b <- saturated l ;; del_node Ns ;; k b) g Q.
  Proof.
    intros HQ. apply ok_bind, ok_gets. apply ok_bind. eapply ok_weaken; [apply extend_ok|]. intros [] h1 X. cbn beta in X.
    destruct (x_nodes X) as (l & Hl & Hi & Ls & Lt). pose proof Supply as (i0 & Hi0 & Hb0).
    assert (Sn : In Ns (get_node_list h1)) by (rewrite Hl; apply in_app_iff; right; apply Ls; eauto).
    assert (Hst : Ns <> Nt) by discriminate.
    apply ok_bind. eapply ok_weaken; [apply (max_flow_ok Bag (x_wf X) (x_dir X) (ext_int_caps X) (ext_nonneg X) Sn Hst Q0 (or_intror (eq_rect_r (fun a => dget a "display" <> None) Disp (x_attr X)))); pose proof (ext_fuel X); lia|].
    intros [] h2 (Fr & f & F & Fl & S & S1 & S2 & S3 & _).
    assert (Mx : forall (D : positive) f', is_flow (get_edge_list h1) (fun e => Zpos D * cap_of h1 e)%Z Ns Nt f' -> (value (get_edge_list h1) Nt f' <= Zpos D * value (get_edge_list h1) Nt f)%Z).
    { intros n f' Fl'. rewrite (cut_is_tight (x_wf X) (x_dir X) (ext_single X) Fl S1 S2 S3). unfold cut_capacity. rewrite <- zsum_scale.
      apply (weak_duality Fl' (S := fun x => mem x S)); [apply mem_In, S1|apply mem_nIn, S2]. }
    pose proof (efr_wf Fr (x_wf X)) as W2. pose proof (efr_type Fr (x_dir X)) as D2.
    apply ok_bind. apply ok_nbr_list; [rewrite (efr_node_list Fr); exact Sn|].
    set (nb := list_at (g_nbrs h2) Ns).
    assert (Nb : forall i, In i nb <-> In i V /\ (0 < b i)%Z).
    { intros i. unfold nb. rewrite (nbrs_edge W2 D2), (efr_edges Fr), (x_edges' X), in_app_iff, in_extra. split.
      - intros [H|(j & Hj & [[Hb [= ->]]|[Hb [= K _]]])]; [apply es_V in H as [H _]; contradiction|auto|subst j; contradiction].
      - intros [H1 H2]. right. exists i. auto. }
    assert (Ein : forall i, In i nb -> In (Ns, i) (get_edge_list h1)).
    { intros i Hib. apply Nb in Hib as [H1 H2]. rewrite (x_edges' X), in_app_iff, in_extra. right. exists i. auto. }
    apply ok_bind. eapply ok_weaken; [apply (saturated_ok (h := h2) (c := fun i => b i) (f := fun i => f (Ns, i)) (l := nb))|].
    { intros i Hib. split; [apply (fi_flow F (Ein i Hib))|]. rewrite (fi_cap F (Ein i Hib)). apply Nb in Hib as [H1 H2]. rewrite (cap_s X H1 H2). reflexivity. }
    intros r h2' [-> Er]. cbn beta in Er.
    assert (Sn2 : In Ns (get_node_list h2)) by (rewrite (efr_node_list Fr); exact Sn).
    destruct (del_node_views W2 D2 Sn2) as (h3 & E3 & W3 & D3 & N3 & G3 & A3 & B3 & _).
    apply ok_bind. eapply ok_intro; [exact E3|]. cbn beta.
    assert (Fl' : is_flow (es ++ ex) (cap_of h1) Ns Nt f) by (rewrite <- (x_edges' X); exact Fl).
    assert (Mx' : forall (D : positive) f', is_flow (es ++ ex) (fun e => Zpos D * cap_of h1 e)%Z Ns Nt f' -> (value (es ++ ex) Nt f' <= Zpos D * value (es ++ ex) Nt f)%Z) by (rewrite <- (x_edges' X); exact Mx).
    assert (NV : NoDup V) by apply (wf_nd W).
    assert (C1 : forall e, In e es -> cap_of h1 e = cap_of g e) by (intros e; apply (cap_old X)).
    assert (C2 : forall i, In i V -> (0 < b i)%Z -> cap_of h1 (Ns, i) = b i) by (intros i; apply (cap_s X)).
    assert (C3 : forall i, In i V -> (b i < 0)%Z -> cap_of h1 (i, Nt) = (- b i)%Z) by (intros i; apply (cap_t X)).
    assert (Sat : r = true <-> forall i, In i V -> (0 < b i)%Z -> f (Ns, i) = b i).
    { rewrite Er, forallb_forall. split.
      - intros K i H1 H2. apply Z.eqb_eq, K, Nb. auto.
      - intros K i Hib. apply Nb in Hib as [H1 H2]. apply Z.eqb_eq, K; assumption. }
    apply HQ with (f := f). constructor.
    - exact W3.
    - exact D3.
    - rewrite (del_node_attr W2 D2 Sn2 E3), (ef_attr Fr). apply (x_attr X).
    - rewrite N3, (efr_node_list Fr), Hl, filter_app.
      assert (filter (fun x => negb (eqb Ns x)) V = V) as ->.
      { apply forallb_filter_id. apply forallb_forall. intros x Hx. apply negb_true_iff, eqb_false. intros <-. contradiction. }
      f_equal. assert (Nl : NoDup l). { pose proof (wf_nd (x_wf X)) as K. change (dkeys (g_nbrs h1)) with (get_node_list h1) in K. rewrite Hl in K. apply NoDup_app_iff in K. tauto. }
      assert (Lt' : In Nt l <-> existsb (fun i => b i <? 0)%Z V = true).
      { rewrite Lt, existsb_exists. split; intros (i & H1 & H2); exists i; (split; [exact H1|]); apply Z.ltb_lt; exact H2. }
      assert (Fx : forall x, In x (filter (fun x => negb (eqb Ns x)) l) <-> x = Nt /\ In Nt l).
      { intros x. rewrite filter_In, negb_true_iff, eqb_false. split; [|intros [-> H]; split; [exact H|discriminate]].
        intros [H1 H2]. destruct (Hi x H1) as [<-|[<-|[]]]; [congruence|auto]. }
      pose proof (NoDup_filter (fun x => negb (eqb Ns x)) Nl) as Nf. destruct (existsb _ V).
      + destruct (filter _ l) as [|x [|y q]] eqn:Ef; [exfalso; apply (proj2 (Fx Nt)); tauto| |].
        * destruct (proj1 (Fx x)) as [-> _]; [simpl; auto|]. reflexivity.
        * exfalso. assert (x = Nt /\ y = Nt) as [-> ->] by (split; apply Fx; simpl; auto). inversion Nf; subst. simpl in *. tauto.
      + destruct (filter _ l) as [|x q] eqn:Ef; [reflexivity|]. exfalso. destruct (proj1 (Fx x)) as [_ K]; [simpl; auto|]. apply Lt' in K. discriminate.
    - rewrite G3, (efr_edges Fr), (x_edges' X), filter_app. f_equal.
      + apply forallb_filter_id. apply forallb_forall. intros [x y] He. apply es_V in He as [A B]. cbn [fst snd]. apply andb_true_iff. split; apply negb_true_iff, eqb_false; intros <-; contradiction.
      + apply filter_ext_in. intros e He. apply in_extra in He as (i & Hiv & [[Hb ->]|[Hb ->]]); cbn [fst snd].
        * rewrite eqb_refl. cbn [negb andb]. symmetry. apply eqb_false. intros ->. contradiction.
        * rewrite eqb_refl. apply andb_true_iff. split; apply negb_true_iff, eqb_false; [intros <-; contradiction|discriminate].
    - intros x y a He Ha. destruct (es_V He) as [Hx Hy]. rewrite eattr_obs, B3, <- eattr_obs by (intros ->; contradiction). rewrite (ef_edges Fr) by exact Ha. apply (x_eattr X a He).
    - intros x a Hx Ha. rewrite A3 by (intros ->; contradiction). rewrite (nattr_efr x Fr Ha). apply (x_nattr X a Hx).
    - intros x y He. destruct (es_V He) as [Hx Hy]. rewrite eattr_obs, B3, <- eattr_obs by (intros ->; contradiction). rewrite (fi_cap F (x := x) (y := y)), (C1 _ He); [reflexivity|]. rewrite (x_edges' X), in_app_iff. auto.
    - intros x y He. destruct (es_V He) as [Hx Hy]. rewrite eattr_obs, B3, <- eattr_obs by (intros ->; contradiction). apply (fi_flow F). rewrite (x_edges' X), in_app_iff. auto.
    - intros Hr. apply (saturating_weak NV Hs Ht C1 C3 Fl'). apply Sat, Hr.
    - intros Hr n f0 F0. assert (r = true); [|congruence]. apply Sat. exact (maximum_scaled NV es_V' Hs Ht Hst C1 C2 C3 Fl' (Mx' n) F0).
    - intros Hnn. destruct r; [|reflexivity]. exfalso. pose proof (proj1 Sat eq_refl i0 Hi0 Hb0) as K.
      pose proof (value_extra (b := b) es_V' Hs Ht Hst (flow_balance Fl')) as Vx.
      assert (V0 : net (es ++ ex) f Nt = 0%Z).
      { apply net_outside. unfold ends. rewrite nodup_In, in_app_iff, !in_map_iff. intros [([u v] & E & He)|([u v] & E & He)]; cbn [fst snd] in E; subst; apply in_app_iff in He as [He|He].
        - apply es_V in He as [A _]. contradiction.
        - apply in_extra in He as (i & Hiv & [[_ [= K1]]|[Hb _]]); specialize (Hnn i Hiv); try lia; discriminate.
        - apply es_V in He as [_ A]. contradiction.
        - apply in_extra in He as (i & Hiv & [[_ [= K1]]|[Hb _]]); [subst i; contradiction|]. specialize (Hnn i Hiv). lia. }
      rewrite V0 in Vx. symmetry in Vx.
      assert (Pos : forall i, In i (filter (fun i => b i >? 0)%Z V) -> (0 <= f (Ns, i))%Z).
      { intros i Hif. apply filter_In in Hif as [H1 H2]. apply Z.gtb_lt in H2. apply (flow_bounds Fl'). apply in_app_iff. right. apply in_extra. exists i. auto. }
      assert (Hi0' : In i0 (filter (fun i => b i >? 0)%Z V)) by (apply filter_In; split; [exact Hi0|apply Z.gtb_lt, Hb0]).
      pose proof (zsum_zero_each Pos (eq_ind_r (fun z => (z <= 0)%Z) (Z.le_refl 0) Vx) Hi0'). lia.
  Qed.

  (** ** the result *)
  Hypothesis Demand : exists i, In i V /\ (b i < 0)%Z.
  Record done (r : bool) (h : graph) (f : fn) : Prop := {
    d_wf : wf h; d_dir : g_type h = Directed; d_attr : g_attr h = g_attr g;
    d_nodes : get_node_list h = V; d_edges : get_edge_list h = es;
    d_eattr : forall x y a, In (x, y) es -> ~ In a fattrs -> eattr h x y a = eattr g x y a;
    d_nattr : forall x a, In x V -> a <> "color" -> obs (get_node_attr x a) h = obs (get_node_attr x a) g;
    d_fs : FS h (cap_of g) f;
    d_true : r = true -> weakly_feasible V es (cap_of g) b f;
    d_false : r = false -> forall (D : positive) f0, ~ weakly_feasible V es (fun e => Zpos D * cap_of g e)%Z (fun x => Zpos D * b x)%Z f0
  }.
  Lemma feasible_ok : ok (find_feasible_flow fuel q0) g (fun r h => exists f, done r h f).
  Proof.
    unfold find_feasible_flow. apply (head_ok (k := fun b => del_node Nt ;; ret b)). intros r h f S.
    assert (Tn : In Nt (get_node_list h)).
    { rewrite (v_nodes S), in_app_iff. right. destruct Demand as (i & H1 & H2). assert (existsb (fun i => b i <? 0)%Z V = true) as ->; [|simpl; auto]. apply existsb_exists. exists i. split; [exact H1|]. apply Z.ltb_lt, H2. }
    destruct (del_node_views (v_wf S) (v_dir S) Tn) as (h3 & E3 & W3 & D3 & N3 & G3 & A3 & B3 & _).
    apply ok_bind. eapply ok_intro; [exact E3|]. cbn beta. apply ok_ret. exists f.
    assert (Ge : get_edge_list h3 = es).
    { rewrite G3, (v_edges S), filter_app. assert (filter (fun e => negb (eqb Nt (fst e)) && negb (eqb Nt (snd e))) es = es) as ->.
      - apply forallb_filter_id. apply forallb_forall. intros [x y] He. apply es_V in He as [A B]. cbn [fst snd]. apply andb_true_iff. split; apply negb_true_iff, eqb_false; intros <-; contradiction.
      - rewrite forallb_filter_nil; [apply app_nil_r|]. intros e He. apply filter_In in He as [_ He]. apply (proj1 (eqb_true _ _)) in He. rewrite He, eqb_refl. apply andb_false_r. }
    constructor.
    - exact W3.
    - exact D3.
    - rewrite (del_node_attr (v_wf S) (v_dir S) Tn E3). apply (v_attr S).
    - rewrite N3, (v_nodes S), filter_app. assert (filter (fun x => negb (eqb Nt x)) V = V) as ->.
      { apply forallb_filter_id. apply forallb_forall. intros x Hx. apply negb_true_iff, eqb_false. intros <-. contradiction. }
      destruct (existsb _ V); simpl; apply app_nil_r.
    - exact Ge.
    - intros x y a He Ha. destruct (es_V He) as [Hx Hy]. rewrite eattr_obs, B3, <- eattr_obs by (intros ->; contradiction). apply (v_eattr S He Ha).
    - intros x a Hx Ha. rewrite A3 by (intros ->; contradiction). apply (v_nattr S Hx Ha).
    - constructor; intros x y He; rewrite Ge in He; destruct (es_V He) as [Hx Hy]; rewrite eattr_obs, B3, <- eattr_obs by (intros ->; contradiction); [apply (v_cap S He)|apply (v_flow S He)].
    - apply (v_true S).
    - apply (v_false S).
  Qed.
End Feasible.
