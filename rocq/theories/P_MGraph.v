(* The network simplex method of examples/simplex_test.py. *)
From Verif Require Import Py Util M_Graph P_Graph P_GraphLaws M_Search S_Frontier M_Flow M_Floyd M_MinCost M_Simplex M_NetSimplex M_Random M_SimplexTest Spec P_Walk P_Attr S_Flow S_GraphFlow S_MinCost S_Simplex P_Flow P_EdgeFrame P_MaxFlow P_MinCostAbs P_Residual P_Fuel P_Pok P_NetTree P_NetSearch P_NetPot P_NetPivot P_NetCycle P_NetLoop P_NetInit P_NetFuel P_NetFrame C_Flow C_Floyd C_MinCost C_Simplex C_NetSimplex.
Set Implicit Arguments. Unset Strict Implicit.
Local Open Scope string_scope. Local Open Scope list_scope.

Section Loop.
  Variables (V : list name) (es : arcs) (c k : fn) (b : name -> Z) (root : name).
  Hypothesis As : asymmetric es.
  Hypothesis Nd : NoDup es.
  Hypothesis NV : NoDup V.
  Hypothesis EV : forall e, In e es -> In (fst e) V /\ In (snd e) V.
  Hypothesis HI : int_names V.
  Hypothesis Hr : In root V.

  Lemma mark2_ok f t h : self V es c k f h -> (forall e, In e es -> ~ In e (get_edge_list t) -> (f e = 0 \/ f e = c e)%Z) -> ok (simplex_mark_st_arcs t) h (fun _ h' => efr ["color"] h h').
  Proof.
    intros S Out. unfold simplex_mark_st_arcs. apply ok_bind, ok_gets. rewrite (sf_edges S).
    eapply ok_forM with (I := fun _ h' => efr ["color"] h h'); [apply efr_refl| |auto].
    intros pre e post h' Ep E. assert (He : In e es) by (rewrite Ep; apply in_app_iff; simpl; auto).
    assert (S' : self V es c k f h') by (apply (self_efr S E); simpl; intuition discriminate).
    assert (K : forall v, ok (edge_set e "color" v) h' (fun _ h'' => efr ["color"] h h'')).
    { intros v. apply ok_edge_set with (bs := ["color"]); [apply (sf_wf S')|apply (sf_dir S')|rewrite (sf_edges S'); exact He|simpl; auto|]. intros h'' E' _ _. apply (efr_trans E E'), incl_refl. }
    apply ok_bind, (get_flow S' He). apply ok_bind, (get_cap S' He). rewrite dmem_edges, !eqb_VI. destruct (mem_spec e (get_edge_list t)) as [Ht|Ht]; [apply K|].
    destruct (Z.eqb_spec (f e) 0); [apply K|]. destruct (Z.eqb_spec (f e) (c e)); [apply K|]. destruct (Out e He Ht); contradiction.
  Qed.
  Lemma attr_psol f t a v h : psol V es c k b root f t h -> psol V es c k b root f t (with_attr h (dset (g_attr h) a v)).
  Proof.
    intros P. destruct P as [T I Po R]. constructor; [apply (tsol_self T), attr_self, (ts_self T)|exact I|exact Po|exact R].
  Qed.
  Lemma mpivot_ok fuel display pivot f t h : pivot = "dantzig" \/ pivot = "first_eligible" -> psol V es c k b root f t h ->
    pok (mpivot_step fuel display pivot root t) h (fun r h' => match r with inl t' => exists f', psol V es c k b root f' t' h' | inr r => r = (true, 0%Z) /\ exists f', self V es c k f' h' /\ min_cost V es c b k f' end).
  Proof.
    intros Hp PS0. unfold mpivot_step. destruct (ps_test NV EV PS0) as (r & E & R1 & R2). apply pok_step, (ok_intro E). destruct r.
    - apply pok_ret. split; [reflexivity|]. exists f. split; [apply (ts_self (ps_sol PS0))|auto].
    - specialize (R2 eq_refl). apply pok_step, ok_modify. apply pok_step, ok_modify. pose proof (attr_psol "display" (VS "off") (attr_psol "display" display PS0)) as PS.
      match type of PS with psol _ _ _ _ _ _ _ _ ?h' => assert (R3 : exists e, eligible h' t e) by exact R2; revert PS R3; generalize h' end. clear h PS0 E R1 R2. intros h PS R2.
      destruct (ps_select PS Hp R2) as ([x y] & Es & El). destruct (ps_eligible PS El) as (He & Ht & Hb). pose proof (ps_sol PS) as T. pose proof (ts_self T) as S.
      apply pok_step, (ok_intro Es). apply pok_step. apply ok_eset with (bs := ["color"]); [apply (sf_wf S)|apply (sf_dir S)|rewrite (sf_edges S); exact He|simpl; auto|]. intros h1 E1 _ _.
      assert (S1 : self V es c k f h1) by (apply (self_efr S E1); simpl; intuition discriminate).
      destruct (ps_info PS) as (nr & seq & P & D & TI & Cov). pose proof (ts_feas T) as F.
      apply pok_bind. eapply pok_weaken; [apply (leaving_ok (c := c) As (ts_wf T) (ts_dir T) TI Cov (ts_nodes T) (ts_es T) EV (fs_bounds F) fuel S1 He Ht Hb)|].
      intros [t1 [[e m] cyc]] h2 (-> & L). destruct e as [p q].
      assert (Hpq : In (p, q) es) by (apply (tel_es (ts_es T) He), (e_tel As (ts_es T) L He)).
      apply pok_step. apply ok_eset with (bs := ["color"]); [apply (sf_wf S1)|apply (sf_dir S1)|rewrite (sf_edges S1); exact Hpq|simpl; auto|]. intros h2 E2 _ _.
      assert (S2 : self V es c k f h2) by (apply (self_efr S1 E2); simpl; intuition discriminate).
      apply pok_step, ok_modify. apply (attr_self _ _ _ _ _ "display" display) in S2. revert S2. match goal with |- self _ _ _ _ _ ?h' -> _ => generalize h' end. clear h2 E2. intros h2 S2.
      apply pok_step. eapply ok_weaken; [apply (mark2_ok S2)|].
      { intros e He' Hn. apply (ts_out T He'). intros K. apply Hn. rewrite (lv_edges L), in_app_iff. left. exact K. }
      intros ?u h3 E3. assert (S3 : self V es c k f h3) by (apply (self_efr S2 E3); simpl; intuition discriminate).
      apply pok_step, ok_modify. apply (attr_self _ _ _ _ _ "display" (VS "off")) in S3. revert S3. match goal with |- self _ _ _ _ _ ?h' -> _ => generalize h' end. clear h3 E3. intros h3 S3.
      apply pok_step. eapply ok_weaken; [apply (remove_ok As (ts_es T) L He S3)|]. intros t3 h4 (E4 & _ & S4 & W4 & D4 & N4 & El4 & Sh4 & _). pose proof (shows_int Sh4) as I4.
      destruct (new_tree k root L Ht (ts_forest T) (ts_spans T)) as [Fo Spn].
      assert (T4 : tsol V es c k b (fold_left (push es m) (cycle_pairs cyc) f) t3 h4).
      { constructor; try assumption; rewrite ?El4.
        - apply (new_feasible As Nd (ts_es T) L He F).
        - rewrite N4. apply (ts_nodes T).
        - intros e He'. apply in_without in He'. apply (tel_es (ts_es T) He), He'.
        - exact Fo.
        - exact Spn.
        - apply (new_bounds As (ts_es T) L He (ts_out T)). }
      apply (retree_ok As EV HI Hr fuel T4). intros t5 h5 P5 _. apply pok_ret. eauto.
  Qed.
  Lemma mpivots_loop fuel fuel' display pivot f t h : pivot = "dantzig" \/ pivot = "first_eligible" -> psol V es c k b root f t h ->
    pok (loop fuel' (mpivot_step fuel display pivot root) t) h (fun r h' => r = (true, 0%Z) /\ exists f', self V es c k f' h' /\ min_cost V es c b k f').
  Proof.
    intros Hp PS. apply pok_loop with (I := fun t h => exists f, psol V es c k b root f t h); [eauto|]. intros t' h' (f' & PS'). apply (mpivot_ok fuel display Hp PS').
  Qed.
End Loop.
Lemma kp_mpivot d fuel display pivot root t : keep d (mpivot_step fuel display pivot root t).
Proof. unfold mpivot_step. kp. Qed.
Global Hint Resolve kp_mpivot : kept.

Lemma spans_of g : g_type g = Directed -> connected g -> spans (get_node_list g) (get_edge_list g).
Proof.
  intros D Con x y Hx Hy. destruct (Con x y Hx Hy) as [p Hw]. exists p. clear - Hw D. induction Hw as [a|a z p d He Hw IH]; [constructor|]. econstructor; [|exact IH]. destruct He as [He|He]; apply (arc_list g _ _ D) in He; [left|right]; exact He.
Qed.
Lemma mnet_ok (fr : frontier) (els : fq fr -> list name) (g : graph) (q0 : fq fr) (fuel : nat) (display : val) (pivot : string) (root : name) :
  bag els -> els q0 = [] -> wf g -> g_type g = Directed -> int_demands g -> int_caps g -> nonneg_caps g -> has_costs g false -> asymmetric (get_edge_list g) ->
  (forall x, In x (get_node_list g) -> exists z, x = NI z) -> connected g -> In root (get_node_list g) -> pivot = "dantzig" \/ pivot = "first_eligible" ->
  dget (g_attr g) "display" <> None -> zsum (demand_of g) (get_node_list g) = 0%Z -> (exists i, In i (get_node_list g) /\ demand_of g i <> 0%Z) ->
  pok (mnetwork_simplex fuel q0 display pivot root) g (fun r h => snd r = 0%Z /\ exists f, self (get_node_list g) (get_edge_list g) (cap_of g) (fun e => edge_cost g (fst e) (snd e)) f h /\
    (fst r = true -> min_cost (get_node_list g) (get_edge_list g) (cap_of g) (demand_of g) (fun e => edge_cost g (fst e) (snd e)) f) /\
    (fst r = false -> forall f, ~ qfeasible (get_node_list g) (get_edge_list g) (cap_of g) (demand_of g) f) /\ kept (nattr g) h).
Proof.
  intros Hb Hq W D ID IC NC HC As Names Con Hr Hp Hd Hz Hi.
  assert (Hs : ~ In (NS "s") (get_node_list g)) by (intros K; destruct (Names _ K); discriminate).
  assert (Ht : ~ In (NS "t") (get_node_list g)) by (intros K; destruct (Names _ K); discriminate).
  set (V := get_node_list g) in *. set (es := get_edge_list g) in *. set (c := cap_of g) in *. set (k := fun e : name * name => edge_cost g (fst e) (snd e)) in *. set (b := demand_of g) in *.
  assert (EV : forall e, In e es -> In (fst e) V /\ In (snd e) V) by (intros [x y] He; apply (edge_nodes W D He)).
  pose proof (spans_of D Con) as Sp. fold V es in Sp.
  assert (Hne : V <> []) by (intros K; rewrite K in Hr; destruct Hr).
  unfold mnetwork_simplex. apply pok_bind. eapply pok_weaken; [apply (feasible_any fr els g q0 fuel); assumption|]. intros r h0 (S0 & F1 & F2 & Kp). fold V es c k b in S0, F1, F2.
  destruct r; [specialize (F1 eq_refl)|apply pok_ret; cbn [fst snd]; split; [reflexivity|]; exists (flow_of h0); split; [exact S0|]; split; [discriminate|auto]].
  eapply pok_weaken; [apply (pok_keep (d := nattr g)) with (Q := fun r h => r = (true, 0%Z) /\ exists f, self V es c k f h /\ min_cost V es c b k f); [kp|exact Kp|]|intros r h ((-> & f & S & M) & Kh); cbn [fst snd]; split; [reflexivity|]; exists f; split; [exact S|]; split; [auto|split; [discriminate|exact Kh]]].
  apply pok_bind. eapply pok_weaken; [apply (find_tree_ok (b := b) As (wf_ne W) (wf_nd W) EV Names Hne Sp fuel S0 F1)|]. intros t h1 (f1 & T1 & _).
  apply pok_step. eapply ok_weaken; [apply (mark_ok T1)|]. intros u h2 E2. cbn beta in E2.
  assert (S2 : self V es c k f1 h2) by (apply (self_efr (ts_self T1) E2); simpl; intuition discriminate).
  apply pok_step, ok_modify. apply pok_step, ok_modify. apply (attr_self _ _ _ _ _ "display" display) in S2. apply (attr_self _ _ _ _ _ "display" (VS "off")) in S2.
  pose proof (tsol_self T1 S2) as T3.
  apply (retree_ok As EV Names Hr fuel T3). intros t' h' PS _. eapply pok_weaken; [apply (mpivots_loop As (wf_ne W) (wf_nd W) EV Names Hr fuel fuel display Hp PS)|]. auto.
Qed.
