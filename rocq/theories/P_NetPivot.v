(* One pivot: simplex_determine_leaving_arc, simplex_remove_arc, simplex_mark_st_arcs. *)
From Verif Require Import Py Util M_Graph P_Graph P_GraphLaws Spec P_Walk P_Attr M_Search M_Flow M_Dfs S_Flow S_MinCost P_EdgeFrame P_Flow P_MinCostAbs M_MinCost M_NetSimplex P_Residual P_Pok P_NetTree P_NetSearch P_NetPot.
Set Implicit Arguments. Unset Strict Implicit.
Local Open Scope string_scope. Local Open Scope list_scope.

Lemma consecutive_rev l a b : In (a, b) (consecutive (rev l)) <-> In (b, a) (consecutive l).
Proof.
  rewrite !in_consecutive. split; intros (P1 & P2 & E); exists (rev P2), (rev P1).
  - apply (f_equal (@rev name)) in E. rewrite rev_involutive in E. rewrite E, rev_app_distr. simpl. rewrite <- !app_assoc. reflexivity.
  - rewrite E, rev_app_distr. simpl. rewrite <- !app_assoc. reflexivity.
Qed.
Lemma check_dir h x y : g_type h = Directed -> check_edge h x y = mem (x, y) (get_edge_list h).
Proof. intros D. unfold check_edge. rewrite D. unfold get_edge_list. destruct (dmem_spec (g_edges h) (x, y)) as [H|H], (mem_spec (x, y) (dkeys (g_edges h))) as [H'|H']; try reflexivity; contradiction. Qed.
Lemma dmem_edges h e : dmem (g_edges h) e = mem e (get_edge_list h).
Proof. unfold get_edge_list. destruct (dmem_spec (g_edges h) e) as [H|H], (mem_spec e (dkeys (g_edges h))) as [H'|H']; try reflexivity; contradiction. Qed.
Lemma bind_bind {S A B C} (m : M S A) (f : A -> M S B) (k : B -> M S C) s : bind (bind m f) k s = bind m (fun a => bind (f a) k) s.
Proof. unfold bind. destruct (m s) as [s' [a|e]]; reflexivity. Qed.
Lemma eqb_VI a b : eqb (VI a) (VI b) = (a =? b)%Z.
Proof. destruct (eqb_spec (VI a) (VI b)) as [K|K], (Z.eqb_spec a b); congruence. Qed.

Section Net.
  Variables (V : list name) (es : arcs) (c k : fn).
  (* the graph with flow f *)
  Record self (f : fn) (g : graph) : Prop := {
    sf_wf : wf g;
    sf_dir : g_type g = Directed;
    sf_nodes : get_node_list g = V;
    sf_edges : get_edge_list g = es;
    sf_cap : forall e, In e es -> eattr g (fst e) (snd e) "capacity" = Some (VI (c e));
    sf_flow : forall e, In e es -> eattr g (fst e) (snd e) "flow" = Some (VI (f e));
    sf_cost : forall e, In e es -> eattr g (fst e) (snd e) "cost" = Some (VI (k e))
  }.
  Lemma self_efr bs f g h : self f g -> efr bs g h -> ~ In "capacity" bs -> ~ In "flow" bs -> ~ In "cost" bs -> self f h.
  Proof.
    intros S E H1 H2 H3. constructor.
    - apply (efr_wf E), (sf_wf S).
    - apply (efr_type E), (sf_dir S).
    - rewrite (efr_node_list E). apply (sf_nodes S).
    - rewrite (efr_edges E). apply (sf_edges S).
    - intros e He. rewrite (ef_edges E) by exact H1. apply (sf_cap S He).
    - intros e He. rewrite (ef_edges E) by exact H2. apply (sf_flow S He).
    - intros e He. rewrite (ef_edges E) by exact H3. apply (sf_cost S He).
  Qed.
  Lemma self_nfr bs f g h : self f g -> nfr bs g h -> self f h.
  Proof.
    intros S E. constructor.
    - apply (nfr_wf E), (sf_wf S).
    - apply (nfr_type E), (sf_dir S).
    - rewrite (nfr_nodes E). apply (sf_nodes S).
    - rewrite (nfr_edges E). apply (sf_edges S).
    - intros e He. rewrite (nf_edges E). apply (sf_cap S He).
    - intros e He. rewrite (nf_edges E). apply (sf_flow S He).
    - intros e He. rewrite (nf_edges E). apply (sf_cost S He).
  Qed.
  Lemma self_ext f f' g : (forall e, In e es -> f e = f' e) -> self f g -> self f' g.
  Proof. intros H S. destruct S. constructor; auto. intros e He. rewrite <- (H e He). auto. Qed.
  Lemma get_cap f g e (Q : val -> graph -> Prop) : self f g -> In e es -> Q (VI (c e)) g -> ok (edge_get e "capacity") g Q.
  Proof. intros S He HQ. eapply ok_edge_get; [apply (sf_dir S)|apply (sf_cap S He)|exact HQ]. Qed.
  Lemma get_flow f g e (Q : val -> graph -> Prop) : self f g -> In e es -> Q (VI (f e)) g -> ok (edge_get e "flow") g Q.
  Proof. intros S He HQ. eapply ok_edge_get; [apply (sf_dir S)|apply (sf_flow S He)|exact HQ]. Qed.
  Lemma get_cost f g e (Q : val -> graph -> Prop) : self f g -> In e es -> Q (VI (k e)) g -> ok (edge_get e "cost") g Q.
  Proof. intros S He HQ. eapply ok_edge_get; [apply (sf_dir S)|apply (sf_cost S He)|exact HQ]. Qed.
  (* what an arc of the tree shows, and the label of an arc of the graph *)
  Definition flow_text (f : fn) (e : name * name) : val := VS (str_int (f e) ++ "/" ++ str_int (c e) ++ "/" ++ str_int (k e)).
  Definition shown (f : fn) (e : name * name) (a : string) : val := if eqb a "flow" then VI (f e) else if eqb a "capacity" then VI (c e) else if eqb a "cost" then VI (k e) else flow_text f e.
  Definition shows (f : fn) (t : graph) : Prop := forall e, In e (get_edge_list t) -> forall a, In a ["flow"; "capacity"; "cost"; "label"] -> eattr t (fst e) (snd e) a = Some (shown f e a).
  Lemma label_ok f g e (Q : val * val * val * val -> graph -> Prop) : self f g -> In e es -> Q (VI (f e), VI (c e), VI (k e), flow_text f e) g -> ok (flow_label e) g Q.
  Proof.
    intros S He HQ. unfold flow_label. apply ok_bind, (get_flow S He). apply ok_bind, (get_cap S He). apply ok_bind, (get_cost S He).
    apply ok_bind, ok_as_int, ok_bind, ok_as_int, ok_bind, ok_as_int, ok_ret, HQ.
  Qed.
  Hypothesis As : asymmetric es.
  Hypothesis Nd : NoDup es.

  (** ** the leaving arc *)
  Definition dir (p : name * name) : name * name := if mem p es then p else (snd p, fst p).
  Section Leaving.
    Variables (f : fn) (tel : arcs).
    Hypothesis Hi : incl tel es.
    Notation rm := (room es c f).
    Definition lstep (s : option (name * name) * Z) (p : name * name) : option (name * name) * Z := if (snd s >=? rm p)%Z then (Some (dir p), rm p) else s.
    Lemma tel_mem p : usable tel p -> mem p tel = mem p es.
    Proof.
      intros Hu. destruct (mem_spec p tel) as [H|H], (mem_spec p es) as [H'|H']; try reflexivity; exfalso; [apply H', Hi, H|].
      destruct Hu as [Hu|Hu]; [contradiction|]. destruct p as [x y]. apply (As H'), Hi, Hu.
    Qed.
    Lemma dir_tel p : usable tel p -> In (dir p) tel.
    Proof. intros Hu. unfold dir. rewrite <- (tel_mem Hu). destruct (mem_spec p tel) as [H|H]; [exact H|]. destruct Hu as [Hu|Hu]; [contradiction|exact Hu]. Qed.
    Lemma leaving_step_ok s p g : self f g -> usable tel p -> ok (leaving_step tel s p) g (fun s' h => h = g /\ s' = lstep s p).
    Proof.
      intros S Hu. unfold leaving_step, lstep, dir, room. destruct s as [cand m]. rewrite (tel_mem Hu). cbn [snd]. destruct (mem_spec p es) as [Hm|Hm].
      - apply ok_bind, (get_flow S Hm). apply ok_bind, (get_cap S Hm). apply ok_bind, ok_as_int, ok_bind, ok_as_int, ok_ret. auto.
      - assert (He : In (snd p, fst p) es) by (destruct Hu as [Hu|Hu]; apply Hi in Hu; [contradiction|exact Hu]).
        cbv zeta. apply ok_bind, (get_flow S He). apply ok_bind, ok_as_int, ok_ret. auto.
    Qed.
    Lemma lsteps ps c0 : let r := fold_left lstep ps (None, c0) in (snd r <= c0)%Z /\ (forall p, In p ps -> (snd r <= rm p)%Z) /\
      match fst r with None => snd r = c0 /\ forall p, In p ps -> (c0 < rm p)%Z | Some e => exists p, In p ps /\ e = dir p /\ rm p = snd r end.
    Proof.
      induction ps as [|p ps IH] using rev_ind; [simpl; split; [lia|]; split; [tauto|]; split; [reflexivity|tauto]|]. cbv zeta in *. rewrite fold_left_app. cbn [fold_left].
      destruct (fold_left lstep ps (None, c0)) as [cand m]. cbn [fst snd] in IH. destruct IH as (H1 & H2 & H3). unfold lstep. cbn [snd].
      destruct (Z.geb_spec m (rm p)) as [Hg|Hg]; cbn [fst snd].
      - split; [lia|]. split.
        + intros p' Hp'. apply in_app_iff in Hp' as [Hp'|[<-|[]]]; [specialize (H2 _ Hp')|]; lia.
        + exists p. rewrite in_app_iff. simpl. auto.
      - split; [lia|]. split.
        + intros p' Hp'. apply in_app_iff in Hp' as [Hp'|[<-|[]]]; [specialize (H2 _ Hp')|]; lia.
        + destruct cand as [e|].
          * destruct H3 as (p' & Hp' & H3). exists p'. rewrite in_app_iff. auto.
          * destruct H3 as [-> H3]. split; [reflexivity|]. intros p' Hp'. apply in_app_iff in Hp' as [Hp'|[<-|[]]]; auto.
    Qed.
  End Leaving.

  Record leaving (f : fn) (t : graph) (x y : name) (t1 : graph) (e : name * name) (m : Z) (cyc : list name) : Prop := {
    lv_wf : wf t1;
    lv_dir : g_type t1 = Directed;
    lv_nodes : get_node_list t1 = get_node_list t;
    lv_edges : get_edge_list t1 = get_edge_list t ++ [(x, y)];
    lv_nd : NoDup cyc;
    lv_ne : cyc <> [];
    lv_use : forall p, In p (cycle_pairs cyc) -> usable (get_edge_list t ++ [(x, y)]) p;
    lv_asym : forall a b, In (a, b) (cycle_pairs cyc) -> ~ In (b, a) (cycle_pairs cyc);
    lv_room : forall p, In p (cycle_pairs cyc) -> (m <= room es c f p)%Z;
    lv_pos : (0 <= m)%Z;
    lv_arc : exists p, In p (cycle_pairs cyc) /\ e = dir p /\ room es c f p = m;
    lv_enter : (In (x, y) (cycle_pairs cyc) /\ f (x, y) = 0%Z) \/ (In (y, x) (cycle_pairs cyc) /\ f (x, y) = c (x, y));
    lv_swap : e = (x, y) \/ (In e (get_edge_list t) /\ exists cyc0 P1 P2 a b, walk (adj (get_edge_list t)) y cyc0 x /\ NoDup cyc0 /\ cyc0 = P1 ++ a :: b :: P2 /\ ((fst e = a /\ snd e = b) \/ (fst e = b /\ snd e = a)))
  }.

  Section Pivot.
    Variables (f : fn) (t : graph) (root : name) (nr : val) (seq : list name) (P : name -> option name) (D : name -> Z).
    Notation tes := (get_edge_list t).
    Hypothesis Wt : wf t.
    Hypothesis Dt : g_type t = Directed.
    Hypothesis TI : tree_info tes t root nr seq P D.
    Hypothesis Cov : forall x, In x V -> In x seq.
    Hypothesis Vt : forall x, In x (get_node_list t) <-> In x V.
    Hypothesis Hes : incl tes es.
    Hypothesis EV : forall e, In e es -> In (fst e) V /\ In (snd e) V.
    Hypothesis Bd : forall e, In e es -> (0 <= f e <= c e)%Z.

    Lemma leaving_t fuel x y g : self f g -> In (x, y) es -> ~ In (x, y) tes -> (f (x, y) = 0 \/ f (x, y) = c (x, y))%Z ->
      tpk (fuel <= 2 * length seq) (simplex_determine_leaving_arc fuel t x y) g (fun r h => h = g /\ let '(t1, (e, m, cyc)) := r in leaving f t x y t1 e m cyc).
    Proof.
      intros S He Ht Hb. destruct (EV He) as [Vx Vy]. cbn [fst snd] in Vx, Vy. unfold simplex_determine_leaving_arc.
      apply pok_bind. eapply pok_weaken; [apply (identify_t Wt TI fuel g (Cov Vx) (Cov Vy))|]. intros cyc0 h (-> & Hn & Hw).
      assert (Hxy : x <> y) by (intros ->; exact (As He He)).
      apply pok_step. eapply ok_get_edge_attr; [apply (sf_flow S He)|]. apply pok_step. eapply ok_get_edge_attr; [apply (sf_cap S He)|]. rewrite eqb_VI. cbv zeta.
      (* the tree with the new arc *)
      destruct (@add_edge_views t x y [] Wt) as (t1 & E1 & W1 & D1 & N1 & El1 & _); [constructor|rewrite check_dir by exact Dt; apply mem_nIn, Ht|].
      assert (Nt1 : get_node_list t1 = get_node_list t).
      { rewrite N1, (proj2 (mem_In x (get_node_list t))) by (apply Vt, Vx). rewrite (proj2 (mem_In y (get_node_list t ++ [x]))) by (apply in_app_iff; left; apply Vt, Vy). rewrite !app_nil_r. reflexivity. }
      apply pok_step. eapply ok_on, ok_intro; [exact E1|]. apply pok_step, ok_as_int. rewrite El1.
      set (tel := tes ++ [(x, y)]).
      assert (Hi : incl tel es) by (intros e H; apply in_app_iff in H as [H|[<-|[]]]; auto).
      (* the directed cycle *)
      set (cyc := if (f (x, y) =? c (x, y))%Z then rev cyc0 else cyc0).
      assert (Cy : exists z w, cyc = z :: w /\ NoDup cyc /\ (forall a b, In (a, b) (consecutive cyc) -> adj tes a b /\ (In (a, b) (consecutive cyc0) \/ In (b, a) (consecutive cyc0))) /\
                  (((last cyc z, z) = (x, y) /\ f (x, y) = 0%Z) \/ ((last cyc z, z) = (y, x) /\ f (x, y) = c (x, y)))).
      { pose proof (walk_consecutive Hw) as Hc. unfold cyc. destruct (Z.eqb_spec (f (x, y)) (c (x, y))) as [Eq|Ne].
        - assert (Hw' : walk (adj tes) x (rev cyc0) y) by (apply (walk_rev (E := adj tes)); [intros; apply adj_sym; assumption|exact Hw]).
          destruct (walk_hd Hw') as [w Ew]. exists x, w. split; [exact Ew|]. split; [apply NoDup_rev, Hn|]. split.
          + intros a b Hab. rewrite consecutive_rev in Hab. split; [apply adj_sym, Hc, Hab|auto].
          + right. rewrite (walk_last x Hw'). auto.
        - destruct (walk_hd Hw) as [w Ew]. exists y, w. split; [exact Ew|]. split; [exact Hn|]. split.
          + intros a b Hab. auto.
          + left. rewrite (walk_last y Hw). split; [reflexivity|]. destruct Hb; [assumption|contradiction]. }
      destruct Cy as (z & w & Ez & Hn' & Hadj & Hcl). rewrite Ez.
      assert (Hcp : cycle_pairs cyc = consecutive cyc ++ [(last cyc z, z)]) by (rewrite Ez; apply cycle_pairs_last).
      assert (Hu : forall p, In p (cycle_pairs cyc) -> usable tel p).
      { intros [a b] Hp. rewrite Hcp in Hp. apply in_app_iff in Hp as [Hp|[Hp|[]]].
        - destruct (Hadj a b Hp) as [[A|A] _]; [left|right]; apply in_app_iff; left; exact A.
        - destruct Hcl as [[K _]|[K _]]; rewrite Hp in K; injection K as -> ->; [left|right]; apply in_app_iff; right; left; reflexivity. }
      apply pok_step. rewrite <- Ez. eapply ok_foldM with (I := fun pre s h => h = g /\ s = fold_left (lstep f) pre (None, c (x, y))).
      { auto. }
      { intros pre p post s h Hsp [-> ->]. eapply ok_weaken; [apply (leaving_step_ok Hi _ S (p := p))|].
        - apply Hu. rewrite Hcp, Hsp. apply in_app_iff. left. apply in_app_iff. simpl. auto.
        - intros s' h' [-> ->]. split; [reflexivity|]. rewrite fold_left_app. reflexivity. }
      intros s h [-> ->]. apply pok_step. eapply ok_weaken; [apply (leaving_step_ok Hi _ S (p := (last cyc z, z)))|].
      { apply Hu. rewrite Hcp. apply in_app_iff. simpl. auto. }
      intros s h [-> ->]. pose proof (lsteps f (cycle_pairs cyc) (c (x, y))) as L. cbv zeta in L. rewrite Hcp, fold_left_app, <- Hcp in L. cbn [fold_left] in L.
      destruct (lstep f (fold_left (lstep f) (consecutive cyc) (None, c (x, y))) (last cyc z, z)) as [cand m]. cbn [fst snd] in L. destruct L as (L1 & L2 & L3).
      assert (Hr : room es c f (last cyc z, z) = c (x, y)).
      { unfold room. destruct Hcl as [[-> Hf]|[-> Hf]]; [rewrite (proj2 (mem_In _ _) He); lia|]. rewrite (proj2 (mem_nIn _ _) (As He)). exact Hf. }
      destruct cand as [e|].
      2: { exfalso. destruct L3 as [_ L3]. specialize (L3 (last cyc z, z)). rewrite Hr in L3. assert (In (last cyc z, z) (cycle_pairs cyc)) by (rewrite Hcp; apply in_app_iff; simpl; auto). specialize (L3 H). lia. }
      apply pok_step. apply ok_lift with (a := e); [reflexivity|]. apply pok_ret. split; [reflexivity|]. destruct L3 as (p & Hp & -> & Hpm). constructor.
      - exact W1.
      - congruence.
      - exact Nt1.
      - exact El1.
      - exact Hn'.
      - rewrite Ez. discriminate.
      - exact Hu.
      - intros a b H1 H2. rewrite Hcp in H1, H2. apply in_app_iff in H1 as [H1|[H1|[]]]; apply in_app_iff in H2 as [H2|[H2|[]]].
        + exact (consecutive_asym Hn' H1 H2).
        + destruct (Hadj a b H1) as [A _]. destruct Hcl as [[K _]|[K _]]; rewrite H2 in K; injection K as -> ->; destruct A as [A|A]; try contradiction; exact (As He (Hes A)).
        + destruct (Hadj b a H2) as [A _]. destruct Hcl as [[K _]|[K _]]; rewrite H1 in K; injection K as -> ->; destruct A as [A|A]; try contradiction; exact (As He (Hes A)).
        + rewrite H1 in H2. assert (Eab : a = b) by congruence. destruct Hcl as [[K _]|[K _]]; rewrite H1 in K; congruence.
      - exact L2.
      - rewrite <- Hpm. unfold room. destruct (mem_spec p es) as [Hm|Hm]; [specialize (Bd Hm); lia|].
        assert (Hs : In (snd p, fst p) es) by (destruct (Hu p Hp) as [K|K]; apply Hi in K; [contradiction|exact K]). specialize (Bd Hs). lia.
      - eauto.
      - rewrite Hcp. destruct Hcl as [[Ep Hf]|[Ep Hf]]; [left|right]; (split; [rewrite <- Ep; apply in_app_iff; right; left; reflexivity|exact Hf]).
      - rewrite Hcp in Hp. apply in_app_iff in Hp as [Hp|[Hp|[]]].
        + right. destruct p as [a b]. destruct (Hadj a b Hp) as [A C]. split.
          * unfold dir. cbn [fst snd]. destruct (mem_spec (a, b) es) as [Hm|Hm]; destruct A as [A|A]; try assumption; exfalso; [apply (As Hm (Hes A))|apply Hm, Hes, A].
          * assert (Hd : (fst (dir (a, b)) = a /\ snd (dir (a, b)) = b) \/ (fst (dir (a, b)) = b /\ snd (dir (a, b)) = a)) by (unfold dir; destruct (mem (a, b) es); simpl; auto).
            destruct C as [C|C]; apply in_consecutive in C as (P1 & P2 & E).
            -- exists cyc0, P1, P2, a, b. auto.
            -- exists cyc0, P1, P2, b, a. split; [exact Hw|]. split; [exact Hn|]. split; [exact E|]. tauto.
        + left. unfold dir. subst p. destruct Hcl as [[-> _]|[-> _]]; [rewrite (proj2 (mem_In _ _) He); reflexivity|]. rewrite (proj2 (mem_nIn _ _) (As He)). reflexivity.
    Qed.

    Lemma leaving_ok fuel x y g : self f g -> In (x, y) es -> ~ In (x, y) tes -> (f (x, y) = 0 \/ f (x, y) = c (x, y))%Z ->
      pok (simplex_determine_leaving_arc fuel t x y) g (fun r h => h = g /\ let '(t1, (e, m, cyc)) := r in leaving f t x y t1 e m cyc).
    Proof. intros S He Ht Hb. apply (tpk_pok (leaving_t fuel S He Ht Hb)). Qed.

    (** ** the effect on the flow *)
    Definition int_arcs (u : graph) : Prop := forall e, In e (get_edge_list u) -> forall a, In a ["flow"; "capacity"; "cost"] -> exists z, eattr u (fst e) (snd e) a = Some (VI z).
    Lemma shows_int f0 u : shows f0 u -> int_arcs u.
    Proof. intros H e He a Ha. rewrite (H e He a) by (simpl in *; tauto). destruct Ha as [<-|[<-|[<-|[]]]]; unfold shown; cbn; eauto. Qed.
    Section Effect.
      Variables (x y : name) (t1 : graph) (e : name * name) (m : Z) (cyc : list name).
      Hypothesis L : leaving f t x y t1 e m cyc.
      Hypothesis Hxy : In (x, y) es.
      Notation tel := (tes ++ [(x, y)]).
      Notation f' := (fold_left (push es m) (cycle_pairs cyc) f).
      Lemma tel_es : incl tel es.
      Proof. intros e' H. apply in_app_iff in H as [H|[<-|[]]]; auto. Qed.
      Lemma use_es p : In p (cycle_pairs cyc) -> usable es p.
      Proof. intros H. destruct (lv_use L H) as [K|K]; [left|right]; apply tel_es, K. Qed.
      Lemma new_feasible b : feasible V es c b f -> feasible V es c b f'.
      Proof.
        intros F. constructor.
        - apply cycle_bounds; [exact As|apply (lv_nd L)|apply (lv_pos L)| |apply (fs_bounds F)]. intros p Hp. split; [apply use_es, Hp|apply (lv_room L Hp)].
        - intros v Hv. rewrite <- (fs_demand F Hv), !out_in. f_equal. apply cycle_net; [exact Nd|apply use_es].
      Qed.
      Lemma e_tel : In e tel.
      Proof. destruct (lv_arc L) as (p & Hp & -> & _). apply dir_tel; [apply tel_es|apply (lv_use L Hp)]. Qed.
      Lemma flow_at e' : In e' es -> f' e' = (f e' + m * ((if mem e' (cycle_pairs cyc) then 1 else 0) - (if mem (snd e', fst e') (cycle_pairs cyc) then 1 else 0)))%Z.
      Proof. intros H. rewrite pushes_at by assumption. rewrite !cnt_nodup by (apply cycle_NoDup, (lv_nd L)). reflexivity. Qed.
      Lemma e_bound : (f' e = 0 \/ f' e = c e)%Z.
      Proof.
        destruct (lv_arc L) as ([a b] & Hp & Ee & Hr). rewrite flow_at by (apply tel_es, e_tel). pose proof (lv_asym L Hp) as Ha. apply mem_In in Hp. apply mem_nIn in Ha.
        unfold room in Hr. unfold dir in Ee. destruct (mem (a, b) es); subst e; cbn [fst snd] in *; rewrite Hp, Ha; lia.
      Qed.
      Lemma other_flow e' : In e' es -> ~ In e' tel -> f' e' = f e'.
      Proof.
        intros He Hn. rewrite flow_at by exact He. destruct e' as [a b].
        assert (N1 : ~ In (a, b) (cycle_pairs cyc)).
        { intros H. destruct (lv_use L H) as [K|K]; [contradiction|]. apply (As He), tel_es, K. }
        assert (N2 : ~ In (b, a) (cycle_pairs cyc)).
        { intros H. destruct (lv_use L H) as [K|K]; [|contradiction]. apply (As He), tel_es, K. }
        cbn [fst snd]. apply mem_nIn in N1, N2. rewrite N1, N2. lia.
      Qed.
      Lemma new_bounds : (forall e', In e' es -> ~ In e' tes -> (f e' = 0 \/ f e' = c e')%Z) -> forall e', In e' es -> ~ In e' (without e tel) -> (f' e' = 0 \/ f' e' = c e')%Z.
      Proof.
        intros Hb e' He Hn. destruct (eq_dec e' e) as [->|Hne]; [apply e_bound|]. assert (Ht : ~ In e' tel) by (intros K; apply Hn, in_without; auto).
        rewrite other_flow by assumption. apply Hb; [exact He|]. intros K. apply Ht, in_app_iff. auto.
      Qed.
      Lemma new_tree : ~ In (x, y) tes -> forest tes -> spans V tes -> forest (without e tel) /\ spans V (without e tel).
      Proof.
        intros Hn F Sp. destruct (lv_swap L) as [->|(He & cyc0 & P1 & P2 & a & b & Hw & Hnd & E & Hab)].
        - assert (K : forall e', In e' (without (x, y) tel) <-> In e' tes).
          { intros e'. rewrite in_without, in_app_iff. simpl. split; [intros [[H|[H|[]]] H']; congruence|]. intros H. split; [auto|]. intros ->. contradiction. }
          split; [apply (forest_incl (es := tes)); [intros e' H; apply K, H|exact F]|]. intros u v Hu Hv. apply (conn_incl (es := tes)); [intros e' H; apply K, H|apply Sp; assumption].
        - destruct e as [u v]. cbn [fst snd] in Hab. assert (HP : exists P1 P2 a b, cyc0 = P1 ++ a :: b :: P2 /\ ((u = a /\ v = b) \/ (u = b /\ v = a))) by eauto 6.
          assert (K : forall e', In e' (without (u, v) tel) <-> (In e' tes \/ e' = (x, y)) /\ e' <> (u, v)).
          { intros e'. rewrite in_without, in_app_iff. simpl. intuition. }
          split; [apply (forest_swap F Hn Hw Hnd He HP K)|apply (spans_swap Sp Hn Hw Hnd He HP K)].
      Qed.

      Lemma pivot_pair_ok f1 g p : self f1 g -> In p (cycle_pairs cyc) -> ok (pivot_pair tel m p) g (fun _ h => efr ["flow"] g h /\ (forall n b, nattr h n b = nattr g n b) /\ self (push es m f1 p) h).
      Proof.
        intros S Hp. pose proof (lv_use L Hp) as Hu. unfold pivot_pair. rewrite (tel_mem tel_es Hu).
        assert (G : forall q d, In q es -> ok (edge_set q "flow" (VI (f1 q + d))) g (fun _ h => efr ["flow"] g h /\ (forall n b, nattr h n b = nattr g n b) /\ self (fun e => if eqb e q then (f1 e + d)%Z else f1 e) h)).
        { intros q d Hq. apply ok_edge_set with (bs := ["flow"]); [apply (sf_wf S)|apply (sf_dir S)|rewrite (sf_edges S); exact Hq|simpl; auto|]. intros h E He Hn. split; [exact E|]. split; [exact Hn|].
          constructor.
          - apply (efr_wf E), (sf_wf S).
          - apply (efr_type E), (sf_dir S).
          - rewrite (efr_node_list E). apply (sf_nodes S).
          - rewrite (efr_edges E). apply (sf_edges S).
          - intros e' He'. rewrite (ef_edges E) by (simpl; intuition discriminate). apply (sf_cap S He').
          - intros [a b] He'. cbn [fst snd]. rewrite He, eqb_refl. cbn [andb]. destruct (eqb_spec (a, b) q) as [->|]; [reflexivity|]. apply (sf_flow S He').
          - intros e' He'. rewrite (ef_edges E) by (simpl; intuition discriminate). apply (sf_cost S He'). }
        unfold push. destruct (mem_spec p es) as [Hm|Hm].
        - apply ok_bind, (get_flow S Hm). apply ok_bind, ok_as_int. apply G, Hm.
        - assert (Hs : In (snd p, fst p) es) by (destruct Hu as [Hu|Hu]; apply tel_es in Hu; [contradiction|exact Hu]).
          apply ok_bind, (get_flow S Hs). apply ok_bind, ok_as_int. replace (f1 (snd p, fst p) - m)%Z with (f1 (snd p, fst p) + - m)%Z by lia.
          eapply ok_weaken; [apply G, Hs|]. intros ? h (H1 & H2 & H3). split; [exact H1|]. split; [exact H2|]. revert H3. apply self_ext. intros e' _. destruct (eqb _ _); lia.
      Qed.
      Lemma pivots_ok g : self f g -> ok (forM_ (consecutive cyc) (pivot_pair tel m) ;; match cyc with [] => fail IndexError | z :: _ => pivot_pair tel m (last cyc z, z) end) g
        (fun _ h => efr ["flow"] g h /\ (forall n b, nattr h n b = nattr g n b) /\ self f' h).
      Proof.
        intros S. pose proof (lv_ne L) as Hne. pose proof (fun p f1 g => @pivot_pair_ok f1 g p) as PP. clear Hxy L. revert Hne PP. destruct cyc as [|z w]; [congruence|]. intros _ PP. rewrite cycle_pairs_last in *.
        apply ok_bind. eapply ok_forM with (I := fun pre h => efr ["flow"] g h /\ (forall n b, nattr h n b = nattr g n b) /\ self (fold_left (push es m) pre f) h).
        - split; [apply efr_refl|]. split; [reflexivity|exact S].
        - intros pre p post h Ep (E & En & S'). eapply ok_weaken; [apply (PP p _ _ S'), in_app_iff; left; rewrite Ep; apply in_app_iff; simpl; auto|]. intros [] h' (E' & En' & S''). split; [apply (efr_trans E E'), incl_refl|].
          split; [intros; rewrite En'; apply En|]. rewrite fold_left_app. exact S''.
        - intros h (E & En & S'). eapply ok_weaken; [apply (PP _ _ _ S'), in_app_iff; simpl; auto|]. intros [] h' (E' & En' & S''). split; [apply (efr_trans E E'), incl_refl|].
          split; [intros; rewrite En'; apply En|]. rewrite fold_left_app. exact S''.
      Qed.

      Lemma four_ok u e1 v1 v2 v3 v4 (Q : unit -> graph -> Prop) : wf u -> g_type u = Directed -> In e1 (get_edge_list u) ->
        (forall h, efr ["flow"; "capacity"; "cost"; "label"] u h ->
           (forall a, In a ["flow"; "capacity"; "cost"; "label"] -> eattr h (fst e1) (snd e1) a = Some (if eqb a "flow" then v1 else if eqb a "capacity" then v2 else if eqb a "cost" then v3 else v4)) ->
           (forall e2 a, e2 <> e1 -> eattr h (fst e2) (snd e2) a = eattr u (fst e2) (snd e2) a) -> Q tt h) ->
        ok (edge_set e1 "flow" v1 ;; edge_set e1 "capacity" v2 ;; edge_set e1 "cost" v3 ;; edge_set e1 "label" v4) u Q.
      Proof.
        intros Wu Du He HQ. set (bs := ["flow"; "capacity"; "cost"; "label"]).
        apply ok_bind. apply ok_edge_set with (bs := bs); [exact Wu|exact Du|exact He|simpl; auto|]. intros h1 E1 H1 _.
        apply ok_bind. apply ok_edge_set with (bs := bs); [apply (efr_wf E1 Wu)|apply (efr_type E1 Du)|rewrite (efr_edges E1); exact He|simpl; auto|]. intros h2 E2 H2 _. pose proof (efr_trans E1 E2 (incl_refl _)) as E12.
        apply ok_bind. apply ok_edge_set with (bs := bs); [apply (efr_wf E12 Wu)|apply (efr_type E12 Du)|rewrite (efr_edges E12); exact He|simpl; auto|]. intros h3 E3 H3 _. pose proof (efr_trans E12 E3 (incl_refl _)) as E13.
        apply ok_edge_set with (bs := bs); [apply (efr_wf E13 Wu)|apply (efr_type E13 Du)|rewrite (efr_edges E13); exact He|simpl; auto|]. intros h4 E4 H4 _. pose proof (efr_trans E13 E4 (incl_refl _)) as E14.
        apply HQ; [exact E14| |].
        - intros a Ha. rewrite H4, H3, H2, H1, <- surjective_pairing, eqb_refl. destruct Ha as [<-|[<-|[<-|[<-|[]]]]]; reflexivity.
        - intros e2 a Hne. rewrite H4, H3, H2, H1, <- surjective_pairing. destruct (eqb_spec e2 e1); [contradiction|]. rewrite !andb_false_r. reflexivity.
      Qed.
      Lemma update_ok f1 g u : self f1 g -> wf u -> g_type u = Directed -> incl (get_edge_list u) es ->
        ok (foldM update_attrs (get_edge_list u) u) g (fun t' h => efr ["label"] g h /\ (forall n b, nattr h n b = nattr g n b) /\ efr ["flow"; "capacity"; "cost"; "label"] u t' /\ shows f1 t' /\
          (forall e1, In e1 (get_edge_list u) -> eattr h (fst e1) (snd e1) "label" = Some (flow_text f1 e1)) /\ (forall e1, ~ In e1 (get_edge_list u) -> eattr h (fst e1) (snd e1) "label" = eattr g (fst e1) (snd e1) "label")).
      Proof.
        intros S Wu Du Hu. eapply ok_foldM with (I := fun pre t' h => efr ["label"] g h /\ (forall n b, nattr h n b = nattr g n b) /\ efr ["flow"; "capacity"; "cost"; "label"] u t' /\
          (forall e1, In e1 pre -> forall a, In a ["flow"; "capacity"; "cost"; "label"] -> eattr t' (fst e1) (snd e1) a = Some (shown f1 e1 a)) /\
          (forall e1, In e1 pre -> eattr h (fst e1) (snd e1) "label" = Some (flow_text f1 e1)) /\ (forall e1, ~ In e1 pre -> eattr h (fst e1) (snd e1) "label" = eattr g (fst e1) (snd e1) "label")).
        - split; [apply efr_refl|]. split; [reflexivity|]. split; [apply efr_refl|]. split; [intros ? []|]. split; [intros ? []|reflexivity].
        - intros pre e1 post t' h Ep (E & En & Et & Ha & Hl & Hl'). assert (Hin : In e1 (get_edge_list u)) by (rewrite Ep; apply in_app_iff; simpl; auto).
          assert (S' : self f1 h) by (apply (self_efr S E); simpl; intuition discriminate). unfold update_attrs.
          apply ok_bind, (label_ok S' (Hu _ Hin)). apply ok_bind, ok_on. apply four_ok; [apply (efr_wf Et Wu)|apply (efr_type Et Du)|rewrite (efr_edges Et); exact Hin|]. intros t2 E2 A2 O2.
          apply ok_bind. apply ok_edge_set with (bs := ["label"]); [apply (sf_wf S')|apply (sf_dir S')|rewrite (sf_edges S'); apply Hu, Hin|simpl; auto|]. intros h2 E3 L3 N3. apply ok_ret.
          split; [apply (efr_trans E E3), incl_refl|]. split; [intros; rewrite N3; apply En|]. split; [apply (efr_trans Et E2); apply incl_refl|]. split; [|split].
          + intros e2 He2 a Hat. destruct (eq_dec e2 e1) as [->|Hne]; [rewrite (A2 a Hat); reflexivity|]. rewrite O2 by exact Hne. apply in_app_iff in He2 as [He2|[He2|[]]]; [auto|congruence].
          + intros e2 He2. rewrite L3, <- surjective_pairing. destruct (eqb_spec e2 e1) as [->|Hne]; [reflexivity|]. apply in_app_iff in He2 as [He2|[He2|[]]]; [apply Hl, He2|congruence].
          + intros e2 He2. rewrite in_app_iff in He2. rewrite L3, <- surjective_pairing. destruct (eqb_spec e2 e1) as [->|Hne]; [exfalso; apply He2; simpl; auto|]. apply Hl'. tauto.
        - intros t' h (E & En & Et & Ha & Hl & Hl'). split; [exact E|]. split; [exact En|]. split; [exact Et|]. split; [intros e1 He1; rewrite (efr_edges Et) in He1; auto|]. auto.
      Qed.
      Lemma remove_ok g : self f g -> ok (simplex_remove_arc t1 (fst e) (snd e) m cyc) g
        (fun t3 h => efr ["flow"; "label"] g h /\ (forall n b, nattr h n b = nattr g n b) /\ self f' h /\
           wf t3 /\ g_type t3 = Directed /\ get_node_list t3 = get_node_list t /\ get_edge_list t3 = without e tel /\ shows f' t3 /\ forall e1, In e1 tel -> eattr h (fst e1) (snd e1) "label" = Some (flow_text f' e1)).
      Proof.
        intros S. unfold simplex_remove_arc. cbv zeta. rewrite (lv_edges L). apply ok_same with (m' := (forM_ (consecutive cyc) (pivot_pair tel m) ;; match cyc with [] => fail IndexError | z :: _ => pivot_pair tel m (last cyc z, z) end) ;;
          (t <- on (del_edge (fst e) (snd e)) t1 ;;
           flow_pq <- get_edge_attr (fst e) (snd e) "flow" ;; capacity_pq <- get_edge_attr (fst e) (snd e) "capacity" ;; cost_pq <- get_edge_attr (fst e) (snd e) "cost" ;;
           f <- as_int flow_pq ;; c <- as_int capacity_pq ;; k <- as_int cost_pq ;;
           set_edge_attr (fst e) (snd e) "label" (VS (str_int f ++ "/" ++ str_int c ++ "/" ++ str_int k)) ;;
           foldM update_attrs (get_edge_list t) t)).
        { symmetry. apply bind_bind. }
        apply ok_bind. eapply ok_weaken; [apply (pivots_ok S)|]. intros ?u h1 (E1 & N1 & S1).
        assert (Hee : In e es) by (apply tel_es, e_tel).
        destruct (@del_edge_views t1 (fst e) (snd e) (lv_wf L)) as (t2 & Ed & W2 & D2 & Nl2 & _ & El2 & _).
        { rewrite check_dir by apply (lv_dir L). apply mem_In. rewrite <- surjective_pairing, (lv_edges L). apply e_tel. }
        rewrite (lv_dir L), <- surjective_pairing in El2.
        assert (El2' : get_edge_list t2 = without e tel).
        { rewrite El2, (lv_edges L). unfold without. apply filter_ext. intros e1. rewrite orb_false_r. reflexivity. }
        apply ok_bind, ok_on, (ok_intro Ed). apply ok_bind. eapply ok_get_edge_attr; [apply (sf_flow S1 Hee)|]. apply ok_bind. eapply ok_get_edge_attr; [apply (sf_cap S1 Hee)|].
        apply ok_bind. eapply ok_get_edge_attr; [apply (sf_cost S1 Hee)|]. apply ok_bind, ok_as_int, ok_bind, ok_as_int, ok_bind, ok_as_int.
        apply ok_bind. apply ok_eset with (bs := ["label"]); [apply (sf_wf S1)|apply (sf_dir S1)|rewrite (sf_edges S1), <- surjective_pairing; exact Hee|simpl; auto|]. intros h2 E2 L2 N2.
        assert (S2 : self f' h2) by (apply (self_efr S1 E2); simpl; intuition discriminate).
        eapply ok_weaken; [apply (update_ok S2 W2)|].
        - rewrite D2. apply (lv_dir L).
        - rewrite El2'. intros e1 He1. apply in_without in He1. apply tel_es, He1.
        - intros t3 h3 (E3 & N3 & Et & Ia & Il & Il'). split; [|split; [|split; [|split; [|split; [|split; [|split; [|split]]]]]]].
          + refine (efr_trans (efr_trans (efr_trans (efr_refl _ g) E1 _) E2 _) E3 _); intros a Ha; simpl in *; tauto.
          + intros. rewrite N3, N2. apply N1.
          + apply (self_efr S2 E3); simpl; intuition discriminate.
          + apply (efr_wf Et W2).
          + apply (efr_type Et). rewrite D2. apply (lv_dir L).
          + rewrite (efr_node_list Et), Nl2. apply (lv_nodes L).
          + rewrite (efr_edges Et). exact El2'.
          + exact Ia.
          + intros e1 He1. destruct (eq_dec e1 e) as [->|Hne]; [|apply Il; rewrite El2'; apply in_without; auto]. rewrite Il' by (rewrite El2', in_without; tauto). rewrite L2, <- surjective_pairing, !eqb_refl. reflexivity.
      Qed.
    End Effect.
  End Pivot.
End Net.
