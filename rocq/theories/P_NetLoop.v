(* The pivoting loop of the network simplex method: simplex_mark_st_arcs, simplex_redraw, one iteration. *)
From Verif Require Import Py Util M_Graph P_Graph P_GraphLaws Spec P_Walk P_Attr M_Search M_Flow M_Dfs S_Flow S_GraphFlow S_MinCost S_Simplex P_EdgeFrame P_Flow P_MinCostAbs M_MinCost M_Simplex M_NetSimplex P_Residual P_PreflowTop P_Pok P_NetTree P_NetSearch P_NetPot P_NetPivot P_NetCycle C_MinCost C_Simplex.
Set Implicit Arguments. Unset Strict Implicit.
Local Open Scope string_scope. Local Open Scope list_scope.

Section Redraw.
  Variables (t : graph) (root : name).
  Notation V := (get_node_list t).
  Notation el := (get_edge_list t).
  Hypothesis W : wf t.
  Hypothesis Dt : g_type t = Directed.
  Hypothesis Hr : In root V.
  Hypothesis As : asymmetric el.
  Hypothesis Sp : spans V el.
  Hypothesis Ia : int_arcs t.

  (* the part drawn so far: nodes and arcs of t, the nodes with their places in the tree *)
  Record drawn (new : graph) : Prop := {
    dr_wf : wf new;
    dr_dir : g_type new = Directed;
    dr_nodes : incl (get_node_list new) V;
    dr_arcs : incl (get_edge_list new) el;
    dr_attr : forall n a, In n (get_node_list new) -> In a ["pred"; "thread"; "depth"] -> obs (get_node_attr n a) new = obs (get_node_attr n a) t
  }.
  Lemma redraw_node_ok n new (Q : graph -> graph -> Prop) : In n V -> drawn new -> ~ In n (get_node_list new) ->
    (forall new', drawn new' -> get_node_list new' = get_node_list new ++ [n] -> get_edge_list new' = get_edge_list new -> Q new' t) -> ok (redraw_node n new) t Q.
  Proof.
    intros Hn Dw Hnew HQ. unfold redraw_node. assert (Hk : In n (dkeys (g_nodes t))) by (rewrite (wf_nodes W); exact Hn). do 3 (apply ok_bind, ok_get_node_attr; [exact Hk|]).
    destruct (@add_node_views new n [("pred", nattr t n "pred"); ("thread", nattr t n "thread"); ("depth", nattr t n "depth")] (dr_wf Dw)) as (new' & E & W' & D' & N' & El' & A1 & A2 & _).
    - repeat constructor; simpl; intuition discriminate.
    - exact Hnew.
    - apply ok_on, (ok_intro E), HQ; [|exact N'|exact El']. constructor.
      + exact W'.
      + rewrite D'. apply (dr_dir Dw).
      + rewrite N'. intros z Hz. apply in_app_iff in Hz as [Hz|[<-|[]]]; [apply (dr_nodes Dw Hz)|exact Hn].
      + rewrite El'. apply (dr_arcs Dw).
      + intros z a Hz Ha. destruct (eq_dec z n) as [->|Hzn]; [rewrite A1, (obs_nattr _ Hk); destruct Ha as [<-|[<-|[<-|[]]]]; reflexivity|]. rewrite A2 by exact Hzn. apply (dr_attr Dw); [|exact Ha]. rewrite N' in Hz. apply in_app_iff in Hz as [Hz|[Hz|[]]]; [exact Hz|congruence].
  Qed.
  Lemma arc_ok x y new (Q : graph -> graph -> Prop) : drawn new -> In (x, y) el -> In x (get_node_list new) -> In y (get_node_list new) ->
    (forall new', drawn new' -> get_node_list new' = get_node_list new -> incl (get_edge_list new) (get_edge_list new') -> In (x, y) (get_edge_list new') -> Q new' t) ->
    ok (if dmem (g_edges new) (x, y) then ret new else on (add_edge x y []) new) t Q.
  Proof.
    intros Dw He Hx Hy HQ. rewrite dmem_edges. destruct (mem_spec (x, y) (get_edge_list new)) as [H|H].
    - apply ok_ret, HQ; auto. apply incl_refl.
    - destruct (@add_edge_views new x y [] (dr_wf Dw)) as (new' & E & W' & D' & N' & El' & _ & _ & A & _); [constructor|rewrite check_dir by apply (dr_dir Dw); apply mem_nIn, H|].
      rewrite (proj2 (mem_In x (get_node_list new)) Hx) in N'. rewrite (proj2 (mem_In y (get_node_list new ++ [x]))) in N' by (apply in_app_iff; auto). rewrite !app_nil_r in N'.
      apply ok_on, (ok_intro E), HQ; [|exact N'|rewrite El'; apply incl_appl, incl_refl|rewrite El'; apply in_app_iff; simpl; auto]. constructor.
      + exact W'.
      + rewrite D'. apply (dr_dir Dw).
      + rewrite N'. apply (dr_nodes Dw).
      + rewrite El'. intros e Hi. apply in_app_iff in Hi as [Hi|[<-|[]]]; [apply (dr_arcs Dw Hi)|exact He].
      + rewrite N'. intros z a Hz Ha. rewrite A by exact Hz. apply (dr_attr Dw Hz Ha).
  Qed.
  Lemma visit_ok visited x s n (Q : list name * graph -> graph -> Prop) : adj el x n -> drawn (snd s) -> In x (get_node_list (snd s)) ->
    (forall new', drawn new' -> incl (get_node_list (snd s)) (get_node_list new') -> In n (get_node_list new') -> incl (get_edge_list (snd s)) (get_edge_list new') -> (forall e, In e el -> e = (x, n) \/ e = (n, x) -> In e (get_edge_list new')) ->
       Q (if mem n visited then fst s else n :: fst s, new') t) ->
    ok (redraw_visit el visited x s n) t Q.
  Proof.
    intros A Dw Hx HQ. destruct s as [q new]. cbn [fst snd] in *. unfold redraw_visit.
    assert (Vn : In n V) by (destruct A as [A|A]; apply (edge_nodes W Dt) in A; tauto). apply ok_bind.
    assert (K : forall new1, drawn new1 -> incl (get_node_list new) (get_node_list new1) -> In n (get_node_list new1) -> incl (get_edge_list new) (get_edge_list new1) ->
      ok (new <- (if mem (x, n) el then if dmem (g_edges new1) (x, n) then ret new1 else on (add_edge x n []) new1
                  else if dmem (g_edges new1) (n, x) then ret new1 else on (add_edge n x []) new1) ;; ret (if mem n visited then q else n :: q, new)) t Q).
    { intros new1 D1 N1 Hn1 I1. apply ok_bind. destruct (mem_spec (x, n) el) as [He|He]; (apply (arc_ok D1); [destruct A; assumption || contradiction|auto|auto|]); intros new' D' N' I' Hin; apply ok_ret, HQ; rewrite ?N'; auto; try (eapply incl_tran; eassumption).
      - intros e Hel [->| ->]; [exact Hin|]. destruct (As He Hel).
      - intros e Hel [->| ->]; [contradiction|exact Hin]. }
    destruct (mem_spec n (get_node_list new)) as [Hm|Hm]; [apply ok_ret, K; auto; apply incl_refl|].
    apply redraw_node_ok; auto. intros new1 D1 N1 E1. apply K; auto; rewrite ?N1, ?E1; [apply incl_appl, incl_refl|apply in_app_iff; simpl; auto|apply incl_refl].
  Qed.

  (* the number of iterations: a node already drawn pushes nothing, since its neighbours lie above it on the stack *)
  Definition redraw_bound : nat := length V * (length V + 1) + 1.
  Lemma redraw_t fuel display : tpk (fuel <= redraw_bound) (simplex_redraw fuel display root) t (fun new h => h = t /\ wf new /\ g_type new = Directed /\ (forall x, In x (get_node_list new) <-> In x V) /\ (forall e, In e (get_edge_list new) <-> In e el) /\
    (forall n a, In n V -> In a ["pred"; "thread"; "depth"] -> obs (get_node_attr n a) new = obs (get_node_attr n a) t) /\
    (forall e, In e el -> forall a, In a ["flow"; "capacity"; "cost"] -> eattr new (fst e) (snd e) a = eattr t (fst e) (snd e) a) /\
    (forall e, In e el -> exists f c k, eattr t (fst e) (snd e) "flow" = Some (VI f) /\ eattr t (fst e) (snd e) "capacity" = Some (VI c) /\ eattr t (fst e) (snd e) "cost" = Some (VI k) /\
       eattr new (fst e) (snd e) "label" = Some (VS (str_int f ++ "/" ++ str_int c ++ "/" ++ str_int k)))).
  Proof.
    unfold simplex_redraw. apply pok_step, ok_gets. apply pok_step. apply redraw_node_ok; [exact Hr|constructor; [apply wf_new|reflexivity|intros ? []|intros ? []|intros ? ? []]|simpl; tauto|]. intros new0 D0 N0 _.
    apply pok_bind. eapply tpk_loop with (n := redraw_bound) (I := fun n s h => h = t /\ let '(q, visited, new) := s in drawn new /\ (In root (get_node_list new) /\ incl q (get_node_list new)) /\ incl q V /\
      exists dn, n = (length V - length dn) * (length V + 1) + length q /\ NoDup dn /\ incl dn V /\ ((incl visited dn /\ incl dn visited /\ In root dn) \/ (visited = [root] /\ q = [root] /\ dn = [])) /\
        (forall x y, In x dn -> adj el x y -> In y (dn ++ q)) /\
        (forall x e, In x dn -> In e el -> fst e = x \/ snd e = x -> In e (get_edge_list new)) /\
        forall q1 x q2, q = q1 ++ x :: q2 -> In x dn -> forall y, adj el x y -> In y (dn ++ q1)).
    { split; [reflexivity|]. split; [exact D0|]. split; [rewrite N0; split; [left; reflexivity|apply incl_refl]|]. split; [intros x [<-|[]]; exact Hr|]. exists []. split; [simpl; unfold redraw_bound; lia|]. split; [constructor|]. split; [intros ? []|]. split; [auto|]. split; [intros; contradiction|]. split; intros; contradiction. }
    { auto. }
    intros ? [[q visited] new] h (-> & Dn & (Nr & Nq) & Hq & dn & -> & Ndn & Vdn & Hvis & Hcl & Har & Hst). destruct q as [|x q].
    - assert (Hrt : In root dn) by (destruct Hvis as [(_ & _ & H)|(_ & H & _)]; [exact H|discriminate]). apply pok_ret. rewrite app_nil_r in *.
      assert (All : forall x, In x V -> In x dn).
      { intros x Hx. assert (C : conn el root x) by (apply Sp; assumption). clear - C Hrt Hcl. unfold conn, reach in C. destruct C as [p Hp]. induction Hp; [assumption|]. apply IHHp. specialize (Hcl _ _ Hrt H). rewrite ?app_nil_r in Hcl. exact Hcl. }
      assert (Sub : incl el (get_edge_list new)) by (intros [a b] He; apply (Har a (a, b)); [apply All; apply (edge_nodes W Dt He)|exact He|auto]).
      assert (Nds : forall x, In x (get_node_list new) <-> In x V).
      { intros x. split; [apply (dr_nodes Dn)|]. intros Hx. destruct (eq_dec x root) as [->|Hxr]; [exact Nr|]. destruct (Sp Hx Hr) as [p Hp]. inversion Hp as [|? z ? ? A _ E1 E2]; subst; [contradiction|].
        destruct A as [A|A]; apply Sub, (edge_nodes (dr_wf Dn) (dr_dir Dn)) in A; tauto. }
      apply pok_ok. eapply ok_foldM with (I := fun pre new' h => h = t /\ efr ["flow"; "capacity"; "cost"; "label"] new new' /\
        (forall e, In e pre -> forall a, In a ["flow"; "capacity"; "cost"] -> eattr new' (fst e) (snd e) a = eattr t (fst e) (snd e) a) /\
        (forall e, In e pre -> exists f c k, eattr t (fst e) (snd e) "flow" = Some (VI f) /\ eattr t (fst e) (snd e) "capacity" = Some (VI c) /\ eattr t (fst e) (snd e) "cost" = Some (VI k) /\
           eattr new' (fst e) (snd e) "label" = Some (VS (str_int f ++ "/" ++ str_int c ++ "/" ++ str_int k)))).
      { split; [reflexivity|]. split; [apply efr_refl|]. split; intros ? []. }
      + intros pre e post new' h Ep (-> & Ef & Ha & Hlb). pose proof (efr_wf Ef (dr_wf Dn)) as W'. pose proof (efr_type Ef (dr_dir Dn)) as D'. pose proof (efr_edges Ef) as El'. assert (He : In e el) by (rewrite Ep; apply in_app_iff; simpl; auto). unfold flow_label.
        destruct (Ia He (a := "flow")) as [zf Hf]; [simpl; auto|]. destruct (Ia He (a := "capacity")) as [zc Hc]; [simpl; auto|]. destruct (Ia He (a := "cost")) as [zk Hk]; [simpl; auto|].
        apply ok_bind. apply ok_bind. eapply ok_edge_get; [exact Dt|exact Hf|]. apply ok_bind. eapply ok_edge_get; [exact Dt|exact Hc|]. apply ok_bind. eapply ok_edge_get; [exact Dt|exact Hk|].
        apply ok_bind, ok_as_int, ok_bind, ok_as_int, ok_bind, ok_as_int, ok_ret. apply ok_on. apply four_ok; [exact W'|exact D'|rewrite El'; apply Sub, He|]. intros h1 E1 A1 O1.
        split; [reflexivity|]. split; [apply (efr_trans Ef E1), incl_refl|]. split.
        * intros e2 He2 a Hat. destruct (eq_dec e2 e) as [->|Hne]; [rewrite A1 by (simpl in *; tauto); destruct Hat as [<-|[<-|[<-|[]]]]; cbn; congruence|]. rewrite O1 by exact Hne. apply in_app_iff in He2 as [He2|[He2|[]]]; [auto|congruence].
        * intros e2 He2. destruct (eq_dec e2 e) as [->|Hne]; [exists zf, zc, zk; rewrite A1 by (simpl; tauto); auto|]. rewrite O1 by exact Hne. apply in_app_iff in He2 as [He2|[He2|[]]]; [apply Hlb, He2|congruence].
      + intros new' h (-> & Ef & Ha & Hlb). split; [reflexivity|]. split; [apply (efr_wf Ef (dr_wf Dn))|]. split; [apply (efr_type Ef (dr_dir Dn))|].
        split; [intros x; rewrite (efr_node_list Ef); apply Nds|]. split; [intros e; rewrite (efr_edges Ef); split; [apply (dr_arcs Dn)|apply Sub]|].
        split; [|auto]. intros n a Hn Hat. rewrite <- (dr_attr Dn) by (try exact Hat; apply Nds, Hn). assert (Hn' := proj2 (Nds n) Hn). pose proof (efr_wf Ef (dr_wf Dn)) as W'.
        assert (K1 : In n (dkeys (g_nodes new))) by (rewrite (wf_nodes (dr_wf Dn)); exact Hn'). assert (K2 : In n (dkeys (g_nodes new'))) by (rewrite (wf_nodes W'); change (In n (get_node_list new')); rewrite (efr_node_list Ef); exact Hn').
        rewrite (obs_nattr _ K1), (obs_nattr _ K2), (ef_nodes Ef); [reflexivity|]. destruct Hat as [<-|[<-|[<-|[]]]]; discriminate.
    - assert (Vx : In x V) by (apply Hq; left; reflexivity).
      apply pok_step. apply ok_nbr_list; [exact Vx|]. apply pok_step. apply (ok_in_list W Dt Vx). set (l := list_at (g_nbrs t) x ++ list_at (g_in t) x).
      assert (Hl : forall y, In y l <-> adj el x y) by (intros y; unfold l; rewrite in_app_iff, (nbrs_edge W Dt), (ins_edge W Dt); reflexivity).
      apply pok_step. eapply ok_foldM with (I := fun pre s h => h = t /\ drawn (snd s) /\ (incl (get_node_list new) (get_node_list (snd s)) /\ incl pre (get_node_list (snd s))) /\ incl (get_edge_list new) (get_edge_list (snd s)) /\
        (forall y e, In y pre -> In e el -> e = (x, y) \/ e = (y, x) -> In e (get_edge_list (snd s))) /\
        exists ps, fst s = ps ++ q /\ length ps <= length pre /\ incl ps pre /\ (forall y, In y ps -> ~ In y (visited ++ [x])) /\ forall y, In y pre -> In y ps \/ In y (visited ++ [x])).
      + cbn [fst snd]. split; [reflexivity|]. split; [exact Dn|]. split; [split; [apply incl_refl|intros ? []]|]. split; [apply incl_refl|]. split; [intros ? ? []|]. exists []. split; [reflexivity|]. split; [simpl; lia|]. split; [apply incl_refl|]. split; intros ? [].
      + intros pre n post s h Ep (-> & Ds & (N1 & N2) & I1 & I2 & ps & I3 & I4 & I5 & I6 & I7). apply visit_ok; [apply Hl; rewrite Ep; apply in_app_iff; simpl; auto|exact Ds|apply N1, Nq; left; reflexivity|]. intros new' D' M1 M2 J1 J2. cbn [fst snd].
        split; [reflexivity|]. split; [exact D'|]. split; [split; [eapply incl_tran; eassumption|]; intros y Hy; apply in_app_iff in Hy as [Hy|[<-|[]]]; [apply M1, N2, Hy|exact M2]|]. split; [eapply incl_tran; eassumption|]. split.
        * intros y e Hy He Hxy. apply in_app_iff in Hy as [Hy|[<-|[]]]; [apply J1, (I2 y); assumption|apply J2; assumption].
        * rewrite I3, app_length. cbn [length]. destruct (mem_spec n (visited ++ [x])) as [Hm|Hm]; [exists ps|exists (n :: ps)]; (split; [reflexivity|]); (split; [simpl; lia|]); split.
          -- intros y Hy. apply in_app_iff. left. apply I5, Hy.
          -- split; [exact I6|]. intros y Hy. apply in_app_iff in Hy as [Hy|[<-|[]]]; [auto|right; exact Hm].
          -- intros y [<-|Hy]; apply in_app_iff; [right; left; reflexivity|left; apply I5, Hy].
          -- split; [intros y [<-|Hy]; [exact Hm|apply I6, Hy]|]. intros y Hy. apply in_app_iff in Hy as [Hy|[<-|[]]]; [destruct (I7 y Hy); [left; right; assumption|auto]|left; left; reflexivity].
      + intros [q' new'] h (-> & D' & (N1 & N2) & I1 & I2 & ps & I3 & I4 & I5 & I6 & I7). cbn [fst snd] in *. subst q'. apply pok_ret.
        set (dn' := if mem x dn then dn else x :: dn).
        assert (Edn : forall y, In y dn' <-> y = x \/ In y dn).
        { intros y. unfold dn'. destruct (mem_spec x dn) as [Hm|Hm]; [split; [auto|intros [->|H]; assumption]|simpl; intuition congruence]. }
        assert (Vis : incl (visited ++ [x]) dn').
        { intros y Hy. apply Edn. apply in_app_iff in Hy as [Hy|[<-|[]]]; [|auto]. destruct Hvis as [(H & _)|(-> & [= <- _] & _)]; [auto|destruct Hy as [<-|[]]; auto]. }
        assert (Vis' : incl dn' (visited ++ [x])).
        { intros y Hy. apply Edn in Hy. apply in_app_iff. destruct Hy as [->|Hy]; [right; left; reflexivity|left]. destruct Hvis as [(_ & H & _)|(_ & _ & ->)]; [auto|destruct Hy]. }
        assert (Nd' : NoDup dn') by (unfold dn'; destruct (mem_spec x dn); [exact Ndn|constructor; assumption]).
        assert (Vd' : incl dn' V) by (intros y Hy; apply Edn in Hy as [->|Hy]; [exact Vx|auto]).
        exists ((length V - length dn') * (length V + 1) + length (ps ++ q)). split.
        { rewrite app_length. cbn [length]. pose proof (NoDup_incl_length Nd' Vd') as Ln. destruct (both_lists W Dt As Vx) as [Bn Bl].
          assert (Ll : length l <= length V).
          { unfold l. rewrite app_length, Nat.add_comm, <- app_length. apply NoDup_incl_length; [exact Bn|]. intros y Hy. apply Bl in Hy. destruct Hy as [Hy|Hy]; apply (edge_nodes W Dt) in Hy; tauto. }
          unfold dn' in *. destruct (mem_spec x dn) as [Hm|Hm].
          - assert (ps = []) as ->; [|simpl; lia]. destruct ps as [|y ps]; [reflexivity|]. exfalso. apply (I6 y (or_introl eq_refl)), Vis'. apply Edn. right.
            assert (A : adj el x y) by (apply Hl, I5; left; reflexivity). specialize (Hst [] x q eq_refl Hm y A). rewrite app_nil_r in Hst. exact Hst.
          - cbn [length] in *. replace (length V - length dn) with (S (length V - S (length dn))) by lia. cbn [Nat.mul]. lia. }
        split; [reflexivity|]. split; [exact D'|].
        split; [split; [apply N1, Nr|]; intros y Hy; apply in_app_iff in Hy as [Hy|Hy]; [apply N2, I5, Hy|apply N1, Nq; right; exact Hy]|]. split.
        { intros y Hy. apply in_app_iff in Hy as [Hy|Hy]; [|apply Hq; right; exact Hy]. apply I5, Hl in Hy. destruct Hy as [Hy|Hy]; apply (edge_nodes W Dt) in Hy; tauto. }
        exists dn'. split; [reflexivity|]. split; [exact Nd'|]. split; [exact Vd'|]. split; [left; split; [exact Vis|]; split; [exact Vis'|apply Edn; destruct Hvis as [(_ & _ & H)|(_ & [= <- _] & _)]; auto]|].
        assert (Nb : forall y, adj el x y -> In y (dn' ++ ps)).
        { intros y A. apply Hl in A. apply in_app_iff. destruct (I7 y A) as [K|K]; [auto|left; apply Vis, K]. }
        split; [|split].
        * intros a y Ha A. apply Edn in Ha as [->|Ha]; [specialize (Nb y A); rewrite !in_app_iff in *; tauto|]. specialize (Hcl a y Ha A). rewrite !in_app_iff in *. rewrite Edn. destruct Hcl as [K|[K|K]]; auto.
        * intros a e Ha He Hae. apply Edn in Ha as [->|Ha]; [|apply I1, (Har a e Ha He Hae)]. destruct e as [u v]. cbn [fst snd] in Hae. destruct Hae as [-> | ->].
          -- apply (I2 v); [apply Hl; left; exact He|exact He|auto].
          -- apply (I2 u); [apply Hl; right; exact He|exact He|auto].
        * intros q1 z q2 E Hz y A. apply app_eq_app in E as (l0 & [[E1 E2]|[E1 E2]]).
          -- destruct l0 as [|z' l0].
             ++ rewrite app_nil_r in E1. cbn [app] in E2. subst q1. apply Edn in Hz as [->|Hz]; [apply Nb, A|]. specialize (Hst [x] z q2 ltac:(rewrite E2; reflexivity) Hz y A). rewrite !in_app_iff in *. rewrite Edn. simpl in Hst. intuition.
             ++ injection E2 as <- _. exfalso. apply (I6 z); [rewrite E1; apply in_app_iff; right; left; reflexivity|apply Vis', Hz].
          -- subst q1. apply Edn in Hz as [->|Hz]; [specialize (Nb y A); rewrite !in_app_iff in *; tauto|]. specialize (Hst (x :: l0) z q2 ltac:(rewrite E2; reflexivity) Hz y A). rewrite !in_app_iff in *. rewrite Edn. simpl in Hst. intuition.
  Qed.
  Lemma redraw_ok fuel display : pok (simplex_redraw fuel display root) t (fun _ h => h = t).
  Proof. eapply pok_weaken; [apply (tpk_pok (redraw_t fuel display))|]. intros ? h (-> & _). reflexivity. Qed.
End Redraw.

Section Loop.
  Variables (V : list name) (es : arcs) (c k : fn) (b : name -> Z) (root : name).
  Hypothesis As : asymmetric es.
  Hypothesis Nd : NoDup es.
  Hypothesis NV : NoDup V.
  Hypothesis EV : forall e, In e es -> In (fst e) V /\ In (snd e) V.
  Hypothesis HI : int_names V.
  Hypothesis Hr : In root V.

  (* a spanning tree solution with flow f *)
  Record tsol (f : fn) (t h : graph) : Prop := {
    ts_self : self V es c k f h;
    ts_feas : feasible V es c b f;
    ts_wf : wf t;
    ts_dir : g_type t = Directed;
    ts_nodes : forall x, In x (get_node_list t) <-> In x V;
    ts_es : incl (get_edge_list t) es;
    ts_forest : forest (get_edge_list t);
    ts_spans : spans V (get_edge_list t);
    ts_int : int_arcs t;
    ts_out : forall e, In e es -> ~ In e (get_edge_list t) -> (f e = 0 \/ f e = c e)%Z
  }.
  (* with the potentials *)
  Record psol (f : fn) (t h : graph) : Prop := {
    ps_sol : tsol f t h;
    ps_info : exists nr seq P D, tree_info (get_edge_list t) t root nr seq P D /\ forall x, In x V -> In x seq;
    ps_pot : forall x, In x V -> exists z, nattr h x "potential" = VI z;
    ps_red : forall x y, In (x, y) (get_edge_list t) -> (k (x, y) - pt h x + pt h y = 0)%Z
  }.
  Lemma tsol_self f t h h' : tsol f t h -> self V es c k f h' -> tsol f t h'.
  Proof. intros S H. destruct S. constructor; assumption. Qed.

  Lemma mark_ok f t h : tsol f t h -> ok (simplex_mark_st_arcs t) h (fun _ h' => efr ["color"] h h').
  Proof.
    intros T. unfold simplex_mark_st_arcs. apply ok_bind, ok_gets. rewrite (sf_edges (ts_self T)).
    eapply ok_forM with (I := fun _ h' => efr ["color"] h h'); [apply efr_refl| |auto].
    intros pre e post h' Ep E. assert (He : In e es) by (rewrite Ep; apply in_app_iff; simpl; auto).
    assert (S' : self V es c k f h') by (apply (self_efr (ts_self T) E); simpl; intuition discriminate).
    assert (K : forall v, ok (edge_set e "color" v) h' (fun _ h'' => efr ["color"] h h'')).
    { intros v. apply ok_edge_set with (bs := ["color"]); [apply (sf_wf S')|apply (sf_dir S')|rewrite (sf_edges S'); exact He|simpl; auto|]. intros h'' E' _ _. apply (efr_trans E E'), incl_refl. }
    apply ok_bind, (get_flow S' He). apply ok_bind, (get_cap S' He). rewrite dmem_edges, !eqb_VI. destruct (mem_spec e (get_edge_list t)) as [Ht|Ht]; [apply K|].
    destruct (Z.eqb_spec (f e) 0); [apply K|]. destruct (Z.eqb_spec (f e) (c e)); [apply K|]. destruct (ts_out T He Ht); contradiction.
  Qed.
  (* enough for the loops of one pivot *)
  Definition net_bound : nat := length V * (length V + 1) + 2 * length V + 1.
  Lemma redraws_t (B0 : Prop) f t h fuel display (Q : graph -> graph -> Prop) : (fuel <= net_bound -> B0) -> tsol f t h -> (forall new, Q new h) -> tpk B0 (ask (simplex_redraw fuel display root) t) h Q.
  Proof.
    intros HB T HQ. apply pok_ask. eapply pok_from; [apply redraw_t| |intros; apply HQ].
    - apply (ts_wf T).
    - apply (ts_dir T).
    - apply (ts_nodes T), Hr.
    - intros x y H1 H2. apply (As (x := x) (y := y)); apply (ts_es T); assumption.
    - intros x y Hx Hy. apply (ts_spans T); apply (ts_nodes T); assumption.
    - apply (ts_int T).
    - intros K. apply HB. assert (Ln : length (get_node_list t) <= length V) by (apply NoDup_incl_length; [apply (wf_nd (ts_wf T))|intros x; apply (ts_nodes T)]).
      unfold redraw_bound in K. unfold net_bound. pose proof (Nat.mul_le_mono _ _ _ _ Ln (proj1 (Nat.add_le_mono_r _ _ 1) Ln)). lia.
  Qed.
  Lemma redraws_ok f t h fuel display (Q : graph -> graph -> Prop) : tsol f t h -> (forall new, Q new h) -> pok (ask (simplex_redraw fuel display root) t) h Q.
  Proof. apply redraws_t. auto. Qed.
  Lemma int_arcs_nfr bs t t' : nfr bs t t' -> int_arcs t -> int_arcs t'.
  Proof. intros F H e He a Ha. rewrite (nfr_edges F) in He. rewrite (nf_edges F). auto. Qed.
  Lemma retree_t (B0 : Prop) f t h fuel A (K : graph -> M graph A) (Q : A -> graph -> Prop) : (fuel <= net_bound -> B0) -> tsol f t h ->
    (forall t' h', psol f t' h' -> nfr ["potential"] h h' -> tpk B0 (K t') h' Q) ->
    tpk B0 (t <- on (simplex_search fuel root (VI 1)) t ;; simplex_compute_potentials fuel t root ;; K t) h Q.
  Proof.
    intros HB T HK. assert (Ln : length (get_node_list t) <= length V) by (apply NoDup_incl_length; [apply (wf_nd (ts_wf T))|intros x; apply (ts_nodes T)]). apply pok_bind, pok_on.
    assert (HIt : int_names (get_node_list t)) by (intros x Hx; apply HI, (ts_nodes T), Hx).
    eapply pok_from; [apply (search_t (ts_wf T) (ts_dir T) HIt (proj2 (ts_nodes T root) Hr))|intros K0; apply HB; unfold net_bound; lia|]. intros ?p t' (F & seq & P & D & TI & _).
    assert (Et : get_edge_list t' = get_edge_list t) by apply (nfr_edges F). rewrite <- Et in TI.
    assert (T' : tsol f t' h).
    { destruct T. constructor; rewrite ?Et; auto; [apply (nfr_wf F); assumption|apply (nfr_type F); assumption|rewrite (nfr_nodes F); assumption|apply (int_arcs_nfr F); assumption]. }
    assert (Cov : forall x, In x V -> In x seq).
    { intros x Hx. pose proof (ts_spans T' Hr Hx) as C. pose proof (ti_closed TI) as Cl. assert (Hrs : In root seq) by (destruct (ti_hd TI) as [rest ->]; left; reflexivity).
      clear - C Cl Hrs. destruct C as [p Hp]. induction Hp; [assumption|]. apply IHHp. apply (Cl _ _ Hrs H). }
    assert (Cov' : forall x, In x (get_node_list t') -> In x seq) by (intros x Hx; apply Cov, (ts_nodes T'), Hx).
    assert (Sq : forall x, In x seq -> In x V) by (intros x Hx; apply (ts_nodes T'), (ti_V TI), Hx).
    pose proof (ts_self T') as S.
    apply pok_bind. eapply pok_from; [apply (potentials_t (k := k) (ts_wf T') TI Cov' (sf_wf S) (sf_dir S))| |].
    - intros x Hx. rewrite (sf_nodes S). apply Sq, Hx.
    - rewrite (sf_edges S). apply (ts_es T').
    - rewrite (sf_edges S). exact As.
    - rewrite (sf_edges S). apply (sf_cost S).
    - intros K0. apply HB. assert (length seq <= length V); [|unfold net_bound; lia]. apply NoDup_incl_length; [apply (ti_nd TI)|exact Sq].
    - intros ?u h' (F' & Hp). apply HK; [|exact F']. constructor.
      + apply (tsol_self T'). apply (self_nfr S F').
      + exists (VI 1), seq, P, D. auto.
      + intros x Hx. apply (proj1 (Hp x (Cov x Hx))).
      + intros x y He. assert (Hv := EV (ts_es T' He)). cbn [fst snd] in Hv. refine (tight_tree (g := h) (k := k) TI _ (ts_forest T') _ He (Cov _ (proj1 Hv)) (Cov _ (proj2 Hv))).
        * rewrite (sf_edges S). apply (ts_es T').
        * intros z Hz. apply (proj1 (proj2 (Hp z Hz))).
  Qed.

  Lemma retree_ok f t h fuel A (K : graph -> M graph A) (Q : A -> graph -> Prop) : tsol f t h ->
    (forall t' h', psol f t' h' -> nfr ["potential"] h h' -> pok (K t') h' Q) ->
    pok (t <- on (simplex_search fuel root (VI 1)) t ;; simplex_compute_potentials fuel t root ;; K t) h Q.
  Proof. apply retree_t. auto. Qed.

  (** what the optimality test and the choice of the entering arc see *)
  Section Test.
    Variables (f : fn) (t h : graph).
    Hypothesis PS : psol f t h.
    Let S := ts_self (ps_sol PS).
    Lemma ps_intattr a : a = "flow" \/ a = "capacity" -> int_attr h a.
    Proof.
      intros Ha x y He. rewrite (sf_edges S) in He. pose proof (sf_flow S He) as H1. pose proof (sf_cap S He) as H2. cbn [fst snd] in *. apply obs_eattr in H1, H2. destruct Ha as [-> | ->]; eauto.
    Qed.
    Lemma ps_costs : has_costs h false.
    Proof. intros x y A. unfold sarc in A. rewrite (sf_dir S) in A. apply (arc_list _ _ _ (sf_dir S)) in A. rewrite (sf_edges S) in A. pose proof (sf_cost S A) as H. cbn [fst snd] in H. apply obs_eattr in H. eauto. Qed.
    Lemma ps_obs x : In x V -> obs (get_node_attr x "potential") h = Ok (nattr h x "potential").
    Proof. intros Hx. rewrite obs_node_attr. unfold nattr. rewrite <- (sf_nodes S) in Hx. unfold get_node_list in Hx. rewrite <- (wf_nodes (sf_wf S)) in Hx. apply dget_exists in Hx as [d ->]. reflexivity. Qed.
    Lemma ps_pots : int_potentials h.
    Proof. intros x Hx. rewrite (sf_nodes S) in Hx. rewrite (ps_obs Hx). destruct (ps_pot PS Hx) as [z ->]. eauto. Qed.
    Lemma ps_flow e : In e es -> flow_of h e = f e.
    Proof. intros He. unfold flow_of. rewrite (sf_flow S He). reflexivity. Qed.
    Lemma ps_cap e : In e es -> cap_of h e = c e.
    Proof. intros He. unfold cap_of. rewrite (sf_cap S He). reflexivity. Qed.
    Lemma ps_reduced x y : In (x, y) es -> reduced_cost h (x, y) = (k (x, y) - pt h x + pt h y)%Z.
    Proof.
      intros He. unfold reduced_cost, pot_of, edge_cost, pt. destruct (EV He) as [Hx Hy]. cbn [fst snd] in *. rewrite (ps_obs Hx), (ps_obs Hy). pose proof (sf_cost S He) as H. apply obs_eattr in H. cbn [fst snd] in H. rewrite H.
      reflexivity.
    Qed.
    Lemma ps_eligible e : eligible h t e -> In e es /\ ~ In e (get_edge_list t) /\ (f e = 0 \/ f e = c e)%Z.
    Proof. intros (H1 & H2 & H3). rewrite (sf_edges S) in H1. split; [exact H1|]. split; [exact H2|]. apply (ts_out (ps_sol PS) H1 H2). Qed.
    Lemma ps_optimal : (forall e, ~ eligible h t e) -> min_cost V es c b k f.
    Proof.
      intros No. pose proof (ts_feas (ps_sol PS)) as F.
      apply (optimal_potentials (pi := fun x => (- pt h x)%Z) NV EV F); intros [x y] He Hf; pose proof (fs_bounds F He) as B; cbn [fst snd];
        destruct (in_dec eq_dec (x, y) (get_edge_list t)) as [Ht|Ht]; try (pose proof (ps_red PS Ht); lia); destruct (ts_out (ps_sol PS) He Ht) as [K|K]; try lia.
      - destruct (Z_lt_le_dec (k (x, y) - pt h x + pt h y) 0) as [L|L]; [|lia]. exfalso. apply (No (x, y)). split; [rewrite (sf_edges S); exact He|]. split; [exact Ht|]. rewrite (ps_flow He), (ps_reduced He). auto.
      - destruct (Z_lt_le_dec 0 (k (x, y) - pt h x + pt h y)) as [L|L]; [|lia]. exfalso. apply (No (x, y)). split; [rewrite (sf_edges S); exact He|]. split; [exact Ht|]. rewrite (ps_flow He), (ps_cap He), (ps_reduced He). right. split; [lia|auto].
    Qed.
    Lemma ps_test : exists r : bool, simplex_optimal t h = (h, Ok r) /\ (r = true -> min_cost V es c b k f) /\ (r = false -> exists e, eligible h t e).
    Proof.
      destruct (C38_decides h t (sf_wf S) (sf_dir S) (ps_intattr (or_introl eq_refl)) (ps_intattr (or_intror eq_refl)) ps_costs ps_pots) as (r & E & Hr'). exists r. split; [exact E|]. split; [intros H; apply ps_optimal, Hr', H|].
      intros ->. destruct (existsb (fun e => negb (mem e (get_edge_list t)) && ((f e =? 0)%Z && (reduced_cost h e <? 0)%Z || negb (f e =? 0)%Z && (f e =? c e)%Z && (0 <? reduced_cost h e)%Z)) es) eqn:Ex.
      - apply existsb_exists in Ex as (e & He & Hb). exists e. split; [rewrite (sf_edges S); exact He|]. rewrite (ps_flow He), (ps_cap He). apply andb_true_iff in Hb as [H1 H2]. apply negb_true_iff, mem_nIn in H1. split; [exact H1|].
        apply orb_true_iff in H2 as [H2|H2]; repeat (apply andb_true_iff in H2 as [H2 ?]).
        + left. split; [apply Z.eqb_eq; assumption|apply Z.ltb_lt; assumption].
        + right. apply negb_true_iff in H2. split; [apply Z.eqb_neq; assumption|]. split; [apply Z.eqb_eq; assumption|apply Z.ltb_lt; assumption].
      - exfalso. assert (K : false = true); [|discriminate]. apply Hr'. intros e (H1 & H2 & H3). rewrite (sf_edges S) in H1. rewrite (ps_flow H1), (ps_cap H1) in H3.
        enough (K : true = false) by discriminate K. rewrite <- Ex. symmetry. apply existsb_exists. exists e. split; [exact H1|]. apply mem_nIn in H2. rewrite H2. cbn [negb andb].
        destruct H3 as [[H3 H4]|(H3 & H4 & H5)].
        + apply Z.eqb_eq in H3. apply Z.ltb_lt in H4. rewrite H3, H4. reflexivity.
        + apply Z.eqb_neq in H3. apply Z.eqb_eq in H4. apply Z.ltb_lt in H5. rewrite H3, H4, H5. reflexivity.
    Qed.
    Lemma ps_select pivot : pivot = "dantzig" \/ pivot = "first_eligible" -> (exists e, eligible h t e) -> exists e, simplex_select_entering_arc t pivot h = (h, Ok e) /\ eligible h t e.
    Proof.
      intros Hp Hex. destruct Hp as [-> | ->].
      - destruct (C39_dantzig h t (sf_wf S) (sf_dir S) (ps_intattr (or_introl eq_refl)) (ps_intattr (or_intror eq_refl)) ps_costs ps_pots Hex) as (e & E & El & _). eauto.
      - destruct (C39_last_eligible h t (sf_wf S) (sf_dir S) (ps_intattr (or_introl eq_refl)) (ps_intattr (or_intror eq_refl)) ps_costs ps_pots Hex) as (e & l1 & l2 & E & _ & El & _). eauto.
    Qed.
  End Test.

  Lemma pivot_t fuel display pivot f t h : pivot = "dantzig" \/ pivot = "first_eligible" -> psol f t h ->
    tpk (fuel <= net_bound) (pivot_step fuel display pivot root t) h (fun r h' => match r with inl t' => exists x y t1 e m cyc, eligible h t (x, y) /\ leaving es c f t x y t1 e m cyc /\ psol (fold_left (push es m) (cycle_pairs cyc) f) t' h' | inr r => r = true /\ exists f', self V es c k f' h' /\ min_cost V es c b k f' end).
  Proof.
    intros Hp PS. unfold pivot_step. destruct (ps_test PS) as (r & E & R1 & R2). apply pok_step, (ok_intro E). destruct r.
    - apply pok_ret. split; [reflexivity|]. exists f. split; [apply (ts_self (ps_sol PS))|auto].
    - destruct (ps_select PS Hp (R2 eq_refl)) as ([x y] & Es & El). destruct (ps_eligible PS El) as (He & Ht & Hb). pose proof (ps_sol PS) as T. pose proof (ts_self T) as S.
      apply pok_step, (ok_intro Es). apply pok_step. apply ok_eset with (bs := ["color"]); [apply (sf_wf S)|apply (sf_dir S)|rewrite (sf_edges S); exact He|simpl; auto|]. intros h1 E1 _ _.
      assert (S1 : self V es c k f h1) by (apply (self_efr S E1); simpl; intuition discriminate).
      destruct (ps_info PS) as (nr & seq & P & D & TI & Cov). pose proof (ts_feas T) as F.
      apply pok_bind. eapply pok_from; [apply (leaving_t (c := c) As (ts_wf T) (ts_dir T) TI Cov (ts_nodes T) (ts_es T) EV (fs_bounds F) fuel S1 He Ht Hb)| |].
      { intros K0. assert (length seq <= length V); [|unfold net_bound; lia]. apply NoDup_incl_length; [apply (ti_nd TI)|]. intros z Hz. apply (ts_nodes T), (ti_V TI), Hz. }
      intros [t1 [[e m] cyc]] h2 (-> & L). destruct e as [p q].
      assert (Hpq : In (p, q) es) by (apply (tel_es (ts_es T) He), (e_tel As (ts_es T) L He)).
      apply pok_step. apply ok_eset with (bs := ["color"]); [apply (sf_wf S1)|apply (sf_dir S1)|rewrite (sf_edges S1); exact Hpq|simpl; auto|]. intros h2 E2 _ _.
      assert (S2 : self V es c k f h2) by (apply (self_efr S1 E2); simpl; intuition discriminate).
      apply pok_step. eapply ok_weaken; [apply (remove_ok As (ts_es T) L He S2)|]. intros t3 h3 (E3 & _ & S3 & W3 & D3 & N3 & El3 & Sh3 & _). pose proof (shows_int Sh3) as I3.
      destruct (new_tree k root L Ht (ts_forest T) (ts_spans T)) as [Fo Spn].
      assert (T3 : tsol (fold_left (push es m) (cycle_pairs cyc) f) t3 h3).
      { constructor; try assumption; rewrite ?El3.
        - apply (new_feasible As Nd (ts_es T) L He F).
        - rewrite N3. apply (ts_nodes T).
        - intros e He'. apply in_without in He'. apply (tel_es (ts_es T) He), He'.
        - exact Fo.
        - exact Spn.
        - apply (new_bounds As (ts_es T) L He (ts_out T)). }
      apply pok_step. eapply ok_weaken; [apply (mark_ok T3)|]. intros ?u h4 E4. cbn beta in E4.
      assert (T4 : tsol (fold_left (push es m) (cycle_pairs cyc) f) t3 h4) by (apply (tsol_self T3), (self_efr S3 E4); simpl; intuition discriminate).
      apply pok_bind, (redraws_t (fuel := fuel) display (fun K0 => K0) T4). intros _. apply (retree_t (fuel := fuel) (fun K0 => K0) T4). intros t5 h5 P5 _. apply pok_ret. exists x, y, t1, (p, q), m, cyc. auto.
  Qed.
  Lemma pivot_ok fuel display pivot f t h : pivot = "dantzig" \/ pivot = "first_eligible" -> psol f t h ->
    pok (pivot_step fuel display pivot root t) h (fun r h' => match r with inl t' => exists f', psol f' t' h' | inr r => r = true /\ exists f', self V es c k f' h' /\ min_cost V es c b k f' end).
  Proof.
    intros Hp PS. eapply pok_weaken; [apply (tpk_pok (pivot_t fuel display Hp PS))|]. intros [t'|r] h' H; [|exact H]. destruct H as (x & y & t1 & e & m & cyc & _ & _ & H). eauto.
  Qed.
  Lemma pivots_loop fuel fuel' display pivot f t h : pivot = "dantzig" \/ pivot = "first_eligible" -> psol f t h ->
    pok (loop fuel' (pivot_step fuel display pivot root) t) h (fun r h' => r = true /\ exists f', self V es c k f' h' /\ min_cost V es c b k f').
  Proof.
    intros Hp PS. apply pok_loop with (I := fun t h => exists f, psol f t h); [eauto|]. intros t' h' (f' & PS'). apply (pivot_ok fuel display Hp PS').
  Qed.
End Loop.
