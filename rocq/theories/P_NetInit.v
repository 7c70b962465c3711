(* The initial tree solution: get_simplex_solution_graph, simplex_augment_cycle, simplex_connect, simplex_find_tree. *)
From Verif Require Import Py Util M_Graph P_Graph P_GraphLaws Spec P_Walk P_Attr M_Search M_Flow M_Dfs S_Flow S_MinCost P_EdgeFrame P_Flow P_MinCostAbs M_MinCost M_NetSimplex P_Residual P_Pok P_NetTree P_NetSearch P_NetPot P_NetPivot P_NetCycle P_NetLoop.
Set Implicit Arguments. Unset Strict Implicit.
Local Open Scope string_scope. Local Open Scope list_scope.

Lemma cycle_bounds_pairs es c a l f : asymmetric es -> NoDup (cycle_pairs l) -> (0 <= a)%Z -> (forall p, In p (cycle_pairs l) -> usable es p /\ (a <= room es c f p)%Z) ->
  (forall e, In e es -> 0 <= f e <= c e)%Z -> forall e, In e es -> (0 <= fold_left (push es a) (cycle_pairs l) f e <= c e)%Z.
Proof.
  intros As Nd Ha Hr Hb e He. rewrite pushes_at by assumption. rewrite !cnt_nodup by exact Nd. specialize (Hb e He).
  destruct e as [x y]. cbn [fst snd].
  destruct (mem_spec (x, y) (cycle_pairs l)) as [H1|H1], (mem_spec (y, x) (cycle_pairs l)) as [H2|H2].
  - lia.
  - apply Hr in H1 as [_ H1]. unfold room in H1. assert (mem (x, y) es = true) as E by (apply mem_In; exact He). rewrite E in H1. lia.
  - apply Hr in H2 as [_ H2]. unfold room in H2. assert (mem (y, x) es = false) as E by (apply mem_nIn; apply As; exact He). rewrite E in H2. cbn [fst snd] in H2. lia.
  - lia.
Qed.
Lemma conn_closed es (S : list name) x y : (forall x y, In x S -> adj es x y -> In y S) -> In x S -> conn es x y -> In y S.
Proof. intros Cl Hx [p Hp]. induction Hp; [assumption|]. apply IHHp. apply (Cl _ _ Hx H). Qed.

Section Init.
  Variables (V : list name) (es : arcs) (c k : fn) (b : name -> Z).
  Hypothesis As : asymmetric es.
  Hypothesis Nd : NoDup es.
  Hypothesis NV : NoDup V.
  Hypothesis EV : forall e, In e es -> In (fst e) V /\ In (snd e) V.
  Hypothesis HI : int_names V.
  Hypothesis Hne : V <> [].
  Hypothesis Con : spans V es.
  Notation self := (self V es c k).
  Notation inner f e := (0 < f e < c e)%Z.

  (** ** the arcs with flow between the bounds *)
  Definition innerb (f : fn) (e : name * name) : bool := ((0 <? f e) && (f e <? c e))%Z.
  Lemma innerb_iff f e : innerb f e = true <-> inner f e.
  Proof. unfold innerb. rewrite andb_true_iff, Z.ltb_lt, Z.ltb_lt. reflexivity. Qed.
  (* the solution graph depends only on which arcs have flow between the bounds *)
  Definition nodes_graph (l : list name) : graph := fold_left (fun r i => fst (add_node i [] r)) l (new_graph (Some Directed) []).
  Definition sol_graph (l : arcs) : graph := fold_left (fun r e => fst (add_edge (fst e) (snd e) [] r)) l (nodes_graph V).
  Lemma solution_ok f g : self f g -> ok get_simplex_solution_graph g (fun r h => h = g /\ wf r /\ g_type r = Directed /\ get_node_list r = V /\ (forall e, In e (get_edge_list r) <-> In e es /\ inner f e) /\ r = sol_graph (filter (innerb f) es)).
  Proof.
    intros S. unfold get_simplex_solution_graph. apply ok_bind, ok_gets. rewrite (sf_nodes S). apply ok_bind.
    eapply ok_foldM with (I := fun pre r h => h = g /\ wf r /\ g_type r = Directed /\ get_node_list r = pre /\ get_edge_list r = [] /\ r = nodes_graph pre).
    - split; [reflexivity|]. split; [apply wf_new|]. repeat split.
    - intros pre n post r h E (-> & Wr & Dr & Nr & Er & Rr).
      destruct (@add_node_views r n [] Wr) as (r' & Ea & W' & D' & N' & E' & _); [constructor|rewrite Nr; rewrite E in NV; apply NoDup_remove_2 in NV; rewrite in_app_iff in NV; tauto|].
      apply ok_on, (ok_intro Ea). split; [reflexivity|]. split; [exact W'|]. split; [congruence|]. split; [rewrite N', Nr; reflexivity|]. split; [congruence|]. unfold nodes_graph. rewrite fold_left_app. fold (nodes_graph pre). rewrite <- Rr. cbn [fold_left]. rewrite Ea. reflexivity.
    - intros r0 h (-> & W0 & D0 & N0 & E0 & R0). apply ok_bind, ok_gets. rewrite (sf_edges S).
      eapply ok_foldM with (I := fun pre r h => h = g /\ wf r /\ g_type r = Directed /\ get_node_list r = V /\ (forall e, In e (get_edge_list r) <-> In e pre /\ inner f e) /\ r = sol_graph (filter (innerb f) pre)).
      + split; [reflexivity|]. split; [exact W0|]. split; [exact D0|]. split; [exact N0|]. split; [intros e; rewrite E0; simpl; tauto|]. exact R0.
      + intros pre e post r h E (-> & Wr & Dr & Nr & Er & Rr). assert (He : In e es) by (rewrite E; apply in_app_iff; simpl; auto).
        assert (Hp : ~ In e pre) by (rewrite E in Nd; apply NoDup_remove_2 in Nd; rewrite in_app_iff in Nd; tauto).
        apply ok_bind, (get_flow S He). apply ok_bind, (get_cap S He). apply ok_bind, ok_as_int.
        assert (Skip : ~ inner f e -> ok (ret r) g (fun r h => h = g /\ wf r /\ g_type r = Directed /\ get_node_list r = V /\ (forall e0, In e0 (get_edge_list r) <-> In e0 (pre ++ [e]) /\ inner f e0) /\ r = sol_graph (filter (innerb f) (pre ++ [e])))).
        { intros Hi. apply ok_ret. split; [reflexivity|]. split; [exact Wr|]. split; [exact Dr|]. split; [exact Nr|]. split; [intros e0; rewrite Er, in_app_iff; simpl; split; [tauto|]; intros [[H|[<-|[]]] H2]; [auto|contradiction]|]. rewrite filter_app. cbn [filter]. destruct (innerb f e) eqn:Eb; [apply innerb_iff in Eb; contradiction|]. rewrite app_nil_r. exact Rr. }
        rewrite Z.gtb_ltb. destruct (Z.ltb_spec 0 (f e)) as [H1|H1]; [|apply Skip; lia]. apply ok_bind, ok_as_int. destruct (Z.ltb_spec (f e) (c e)) as [H2|H2]; [|apply Skip; lia].
        destruct (@add_edge_views r (fst e) (snd e) [] Wr) as (r' & Ea & W' & D' & N' & E' & _); [constructor|rewrite check_dir by exact Dr; apply mem_nIn; rewrite <- surjective_pairing, Er; tauto|].
        apply ok_on, (ok_intro Ea). split; [reflexivity|]. split; [exact W'|]. split; [congruence|]. split.
        * rewrite N', Nr. destruct (EV He) as [V1 V2]. rewrite (proj2 (mem_In (fst e) V) V1). rewrite (proj2 (mem_In (snd e) (V ++ [fst e]))) by (apply in_app_iff; auto). rewrite !app_nil_r. reflexivity.
        * split; [intros e0; rewrite E', !in_app_iff, Er, <- surjective_pairing; simpl; split; [intros [H|[<-|[]]]; tauto|tauto]|].
          rewrite filter_app. cbn [filter]. rewrite (proj2 (innerb_iff f e)) by auto. unfold sol_graph. rewrite fold_left_app. fold (sol_graph (filter (innerb f) pre)). rewrite <- Rr. cbn [fold_left]. rewrite Ea. reflexivity.
      + intros r h H. exact H.
  Qed.

  (** ** breaking the cycles *)
  Lemma pair_room_ok f g p (Q : Z -> graph -> Prop) : self f g -> usable es p -> Q (room es c f p) g -> ok (pair_room (fst p) (snd p)) g Q.
  Proof.
    intros S Hu HQ. unfold pair_room, room in *. apply ok_bind, ok_gets. rewrite dmem_edges, (sf_edges S), <- surjective_pairing. destruct (mem_spec p es) as [Hm|Hm].
    - apply ok_bind, (get_cap S Hm). apply ok_bind, (get_flow S Hm). apply ok_bind, ok_as_int, ok_bind, ok_as_int, ok_ret, HQ.
    - assert (He : In (snd p, fst p) es) by (destruct Hu as [Hu|Hu]; [contradiction|exact Hu]). apply ok_bind, (get_flow S He). apply ok_as_int, HQ.
  Qed.
  Lemma amount_ok f g cyc : self f g -> cyc <> [] -> (forall p, In p (cycle_pairs cyc) -> usable es p) ->
    ok (simplex_augment_cycle cyc) g (fun a h => h = g /\ (forall p, In p (cycle_pairs cyc) -> (a <= room es c f p)%Z) /\ exists p, In p (cycle_pairs cyc) /\ a = room es c f p).
  Proof.
    intros S Hc Hu. unfold simplex_augment_cycle. destruct cyc as [|x t]; [congruence|]. rewrite cycle_pairs_last in *. set (q := (last (x :: t) x, x)) in *.
    apply ok_bind. apply (pair_room_ok (p := q) S); [apply Hu, in_app_iff; simpl; auto|].
    eapply ok_foldM with (I := fun pre z h => h = g /\ (forall p, In p (pre ++ [q]) -> (z <= room es c f p)%Z) /\ exists p, In p (pre ++ [q]) /\ z = room es c f p).
    - split; [reflexivity|]. split; [intros p [<-|[]]; lia|]. exists q. simpl. auto.
    - intros pre p post z h E (-> & H1 & p0 & H2 & H3). apply ok_bind. apply (pair_room_ok (p := p) S); [apply Hu, in_app_iff; left; rewrite E; apply in_app_iff; simpl; auto|]. apply ok_ret. split; [reflexivity|].
      assert (In1 : forall p', In p' ((pre ++ [p]) ++ [q]) <-> In p' (pre ++ [q]) \/ p' = p) by (intros p'; rewrite !in_app_iff; simpl; intuition).
      rewrite Z.gtb_ltb. destruct (Z.ltb_spec (room es c f p) z) as [L|L].
      + split; [intros p' Hp'; apply In1 in Hp' as [Hp'| ->]; [specialize (H1 _ Hp')|]; lia|]. exists p. split; [apply In1; auto|reflexivity].
      + split; [intros p' Hp'; apply In1 in Hp' as [Hp'| ->]; [apply H1, Hp'|exact L]|]. exists p0. split; [apply In1; auto|exact H3].
    - intros z h H. exact H.
  Qed.
  Lemma self_FL f g : self f g -> FL g f.
  Proof. intros S x y He. rewrite (sf_edges S) in He. apply (sf_flow S He). Qed.
  Lemma FL_self f f' g h : self f g -> efr ["flow"] g h -> FL h f' -> self f' h.
  Proof.
    intros S E F. constructor.
    - apply (efr_wf E), (sf_wf S).
    - apply (efr_type E), (sf_dir S).
    - rewrite (efr_node_list E). apply (sf_nodes S).
    - rewrite (efr_edges E). apply (sf_edges S).
    - intros e He. rewrite (ef_edges E) by (simpl; intuition discriminate). apply (sf_cap S He).
    - intros [x y] He. apply F. rewrite (efr_edges E), (sf_edges S). exact He.
    - intros e He. rewrite (ef_edges E) by (simpl; intuition discriminate). apply (sf_cost S He).
  Qed.
  (* the number of arcs with flow between the bounds, then the room on the arc that closes the cycle *)
  Definition cap_max : nat := list_max (map (fun e => Z.to_nat (c e)) es).
  Definition cycle_room (fuel : nat) (f : fn) : nat :=
    match snd (simplex_find_cycle fuel (sol_graph (filter (innerb f) es))) with
    | Ok (Some (x :: t)) => Z.to_nat (room es c f (last (x :: t) x, x))
    | _ => 0
    end.
  Definition break_measure (fuel : nat) (f : fn) : nat := length (filter (innerb f) es) * (cap_max + 1) + cycle_room fuel f.
  Definition break_bound : nat := length es * (cap_max + 1) + cap_max.
  Lemma cap_le e : In e es -> (0 <= c e)%Z -> (c e <= Z.of_nat cap_max)%Z.
  Proof.
    intros He Hc. assert (Z.to_nat (c e) <= cap_max); [|lia]. unfold cap_max. pose proof (proj1 (list_max_le (map (fun e => Z.to_nat (c e)) es) _) (le_n _)) as H. rewrite Forall_forall in H. apply H, in_map_iff. eauto.
  Qed.
  Lemma sol_views f g : self f g -> wf (sol_graph (filter (innerb f) es)) /\ g_type (sol_graph (filter (innerb f) es)) = Directed /\ get_node_list (sol_graph (filter (innerb f) es)) = V /\
    forall e, In e (get_edge_list (sol_graph (filter (innerb f) es))) <-> In e es /\ inner f e.
  Proof. intros S. pose proof (solution_ok S) as H. apply ok_ex in H as (h & r & _ & (_ & H1 & H2 & H3 & H4 & ->)). auto. Qed.
  Lemma room_bounds f p : (forall e, In e es -> (0 <= f e <= c e)%Z) -> usable es p -> (0 <= room es c f p <= Z.of_nat cap_max)%Z.
  Proof.
    intros Hb Hu. unfold room. destruct (mem_spec p es) as [Hm|Hm]; [specialize (Hb p Hm); pose proof (cap_le Hm); lia|]. destruct Hu as [K|K]; [contradiction|]. specialize (Hb _ K). pose proof (cap_le K). lia.
  Qed.
  Lemma cycle_room_le fuel f g : self f g -> feasible V es c b f -> cycle_room fuel f <= cap_max.
  Proof.
    intros S F. unfold cycle_room. destruct (sol_views S) as (Wr & Dr & Nr & Er). set (r := sol_graph _) in *.
    assert (Ie : incl (get_edge_list r) es) by (intros e He; apply Er, He).
    assert (P : pok (simplex_find_cycle fuel) r (fun o r' => nfr ["component"] r r' /\ match o with Some cyc => good_cycle (get_edge_list r) cyc | None => forest (get_edge_list r) end)).
    { apply (find_cycle_ok Wr Dr); [intros x y H1 H2; exact (As (Ie _ H1) (Ie _ H2))|rewrite Nr; exact HI|rewrite Nr; exact Hne]. }
    apply pok_elim in P as [P|(r' & o & E & _ & G)]; [rewrite P; lia|]. rewrite E. cbn [snd]. destruct o as [[|x t]|]; try lia. destruct G as (_ & _ & Hu & _).
    assert (Hp : In (last (x :: t) x, x) (cycle_pairs (x :: t))) by (rewrite cycle_pairs_last; apply in_app_iff; right; left; reflexivity).
    assert (Hu' : usable es (last (x :: t) x, x)) by (destruct (Hu _ Hp); [left|right]; apply Ie; assumption).
    pose proof (room_bounds (fs_bounds F) Hu'). lia.
  Qed.
  Lemma break_t fuel f g : self f g -> feasible V es c b f ->
    tpk (fuel <= break_bound + length V + 1) (break_cycles fuel) g (fun r h => exists f', self f' h /\ feasible V es c b f' /\ wf r /\ g_type r = Directed /\ get_node_list r = V /\ incl (get_edge_list r) es /\
      (forall e, In e es -> inner f' e -> In e (get_edge_list r)) /\ forest (get_edge_list r)).
  Proof.
    intros S0 F0. unfold break_cycles. eapply tpk_loop with (n := break_measure fuel f) (I := fun n _ h => exists f', n = break_measure fuel f' /\ self f' h /\ feasible V es c b f'); [eauto| |].
    { intros K. unfold break_measure in K. pose proof (cycle_room_le fuel S0 F0). pose proof (filter_length_le (innerb f) es) as L. pose proof (Nat.mul_le_mono_r _ _ (cap_max + 1) L). unfold break_bound. lia. }
    intros ? [] h (f' & -> & S & F). apply pok_step. eapply ok_weaken; [apply (solution_ok S)|]. intros r ? (-> & Wr & Dr & Nr & Er & Rr).
    assert (Ie : incl (get_edge_list r) es) by (intros e He; apply Er, He).
    assert (Asr : asymmetric (get_edge_list r)) by (intros x y H1 H2; exact (As (Ie _ H1) (Ie _ H2))).
    assert (HIr : int_names (get_node_list r)) by (rewrite Nr; exact HI). assert (Hner : get_node_list r <> []) by (rewrite Nr; exact Hne).
    pose proof (find_cycle_t Wr Dr Asr HIr fuel Hner) as FC. rewrite Nr in FC.
    apply pok_bind. apply tpk_elim in FC as [[K1 K2]|(r' & o & Eo & FR & J)].
    { left. split; [lia|]. unfold call. destruct (simplex_find_cycle fuel r) as [r' [a|e]]; simpl in *; congruence. }
    right. eapply ok_intro; [unfold call; rewrite Eo; reflexivity|]. destruct o as [cyc|].
    - destruct J as (Hc & Hn & Hu & Hlast).
      assert (Hu' : forall p, In p (cycle_pairs cyc) -> usable es p) by (intros p Hp; destruct (Hu p Hp); [left|right]; apply Ie; assumption).
      apply pok_step. eapply ok_weaken; [apply (amount_ok S Hc Hu')|]. intros a ? (-> & A1 & p & A2 & A3).
      assert (Ha : (0 < a)%Z).
      { rewrite A3. unfold room. destruct (mem_spec p es) as [Hm|Hm].
        - destruct (Hu p A2) as [K|K]; [apply Er in K; lia|]. exfalso. destruct p as [u v]. exact (As Hm (Ie _ K)).
        - destruct (Hu p A2) as [K|K]; [exfalso; apply Hm, Ie, K|]. apply Er in K. lia. }
      destruct cyc as [|x t]; [congruence|].
      apply pok_step. eapply ok_weaken; [apply (augment_cycle_ok a (sf_wf S) (sf_dir S) (self_FL S)); rewrite (sf_edges S); exact Hu'|]. intros ?u h' (E & _ & FLh). rewrite (sf_edges S) in FLh.
      set (f2 := fold_left (push es a) (cycle_pairs (x :: t)) f').
      assert (S2 : self f2 h') by apply (FL_self S E FLh).
      assert (F2 : feasible V es c b f2).
      { constructor.
        - apply cycle_bounds_pairs; [exact As|exact Hn|lia|auto|apply (fs_bounds F)].
        - intros v Hv. rewrite <- (fs_demand F Hv), !out_in. f_equal. apply cycle_net; assumption. }
      apply pok_ret. exists (break_measure fuel f2). split; [|exists f2; auto].
      assert (At : forall e, In e es -> f2 e = (f' e + a * ((if mem e (cycle_pairs (x :: t)) then 1 else 0) - (if mem (snd e, fst e) (cycle_pairs (x :: t)) then 1 else 0)))%Z).
      { intros e He. unfold f2. rewrite pushes_at by assumption. rewrite !cnt_nodup by exact Hn. reflexivity. }
      (* arcs at a bound keep their flow *)
      assert (Sub : forall e, In e es -> innerb f2 e = true -> innerb f' e = true).
      { intros e He H2. destruct (innerb f' e) eqn:E1; [reflexivity|]. exfalso. assert (Nr' : ~ In e (get_edge_list r)) by (rewrite Er; intros [_ K]; apply innerb_iff in K; congruence).
        assert (N1 : mem e (cycle_pairs (x :: t)) = false).
        { apply mem_nIn. intros K. destruct (Hu e K) as [H|H]; [contradiction|]. destruct e as [e1 e2]. exact (As He (Ie _ H)). }
        assert (N2 : mem (snd e, fst e) (cycle_pairs (x :: t)) = false).
        { apply mem_nIn. intros K. destruct (Hu _ K) as [H|H]; cbn [fst snd] in H; [destruct e as [e1 e2]; exact (As He (Ie _ H))|]. rewrite <- surjective_pairing in H. contradiction. }
        assert (Eq : f2 e = f' e) by (rewrite (At e He), N1, N2; lia). unfold innerb in *. rewrite Eq in H2. congruence. }
      unfold break_measure. destruct (forallb (fun e => eqb (innerb f2 e) (innerb f' e)) es) eqn:All.
      + (* the same cycle again, with less room *)
        assert (Ef : filter (innerb f2) es = filter (innerb f') es).
        { apply filter_ext_in. intros e He. rewrite forallb_forall in All. specialize (All e He). destruct (eqb_spec (innerb f2 e) (innerb f' e)); congruence. }
        unfold cycle_room. rewrite Ef, <- Rr, Eo. cbn [snd]. set (p0 := (last (x :: t) x, x)).
        assert (P0 : In p0 (cycle_pairs (x :: t))) by (rewrite cycle_pairs_last; apply in_app_iff; right; left; reflexivity).
        assert (P1 : ~ In (snd p0, fst p0) (cycle_pairs (x :: t))) by (apply (Hlast x t eq_refl)).
        assert (Er2 : room es c f2 p0 = (room es c f' p0 - a)%Z).
        { unfold room. destruct (mem_spec p0 es) as [Hm|Hm].
          - rewrite (At p0 Hm), (proj2 (mem_In _ _) P0), (proj2 (mem_nIn _ _) P1). lia.
          - assert (He : In (snd p0, fst p0) es) by (destruct (Hu' p0 P0); [contradiction|assumption]). rewrite (At _ He). cbn [fst snd]. rewrite (proj2 (mem_nIn _ _) P1). change (last (x :: t) x, x) with p0. rewrite (proj2 (mem_In _ _) P0). lia. }
        rewrite Er2. pose proof (A1 p0 P0). lia.
      + assert (Ex : exists e, In e es /\ innerb f' e = true /\ innerb f2 e = false).
        { clearbody f2. clear - All Sub. revert All Sub. generalize es. clear. intros l0 All Sub. induction l0 as [|e l IH]; [discriminate|]. cbn [forallb] in All. destruct (eqb_spec (innerb f2 e) (innerb f' e)) as [Eq|Ne].
          - destruct IH as (e' & H1 & H2); [exact All|intros e' He'; apply Sub; right; exact He'|]. exists e'. split; [right; exact H1|exact H2].
          - exists e. split; [left; reflexivity|]. specialize (Sub e (or_introl eq_refl)). destruct (innerb f2 e), (innerb f' e); try congruence; auto. specialize (Sub eq_refl). discriminate. }
        destruct Ex as (e & He & H1 & H2). pose proof (filter_lt (p := innerb f') (q := innerb f2) Sub He H1 H2) as L. pose proof (cycle_room_le fuel S2 F2) as L2.
        pose proof (Nat.mul_le_mono_r _ _ (cap_max + 1) L) as L3. simpl in L3. lia.
    - apply pok_ret. exists f'. rewrite (nfr_nodes FR), (nfr_edges FR). split; [exact S|]. split; [exact F|]. split; [apply (nfr_wf FR Wr)|]. split; [apply (nfr_type FR Dr)|]. split; [exact Nr|]. split; [exact Ie|]. split; [|exact J].
      intros e He Hi. apply Er. auto.
  Qed.

  (** ** connecting the components *)
  Lemma find_link_ok h sep n (Q : option (name * name) -> graph -> Prop) : get_edge_list h = es ->
    (forall m e, In m sep -> In e es -> e = (n, m) \/ e = (m, n) -> Q (Some e) h) -> ((forall m, In m sep -> ~ adj es n m) -> Q None h) -> ok (find_link n sep) h Q.
  Proof.
    intros Eh. induction sep as [|m sep IH]; intros H1 H2; cbn [find_link]; [apply ok_ret, H2; intros ? []|].
    apply ok_bind, ok_gets. rewrite dmem_edges, Eh. destruct (mem_spec (n, m) es) as [K1|K1]; [apply ok_ret, (H1 m); simpl; auto|].
    apply ok_bind, ok_gets. rewrite dmem_edges, Eh. destruct (mem_spec (m, n) es) as [K2|K2]; [apply ok_ret, (H1 m); simpl; auto|].
    apply IH.
    - intros m' e Hm. apply H1. right. exact Hm.
    - intros H. apply H2. intros m' [<-|Hm]; [intros [A|A]; contradiction|auto].
  Qed.
  Lemma new_link_ok h r cur sep nl (Q : option (name * name) -> graph -> Prop) : get_edge_list h = es -> (forall x, In x nl -> In x (dkeys (g_nodes r))) ->
    (forall n m e, In n nl -> nattr r n "component" <> vname cur -> In m sep -> In e es -> e = (n, m) \/ e = (m, n) -> Q (Some e) h) ->
    ((forall n m, In n nl -> nattr r n "component" <> vname cur -> In m sep -> ~ adj es n m) -> Q None h) -> ok (find_new_link r cur sep nl) h Q.
  Proof.
    intros Eh. induction nl as [|n nl IH]; intros Hn H1 H2; cbn [find_new_link]; [apply ok_ret, H2; intros ? ? []|].
    assert (Next : nattr r n "component" = vname cur \/ (forall m, In m sep -> ~ adj es n m) -> ok (find_new_link r cur sep nl) h Q).
    { intros Hx. apply IH.
      - intros x Hx'. apply Hn. right. exact Hx'.
      - intros n' m e Hn'. apply H1. right. exact Hn'.
      - intros H. apply H2. intros n' m [<-|Hn'] Hc Hm; [destruct Hx; [contradiction|auto]|apply H; assumption]. }
    apply ok_bind, ok_ask, ok_get_node_attr; [apply Hn; left; reflexivity|]. destruct (eqb_spec (nattr r n "component") (vname cur)) as [Ec|Ec]; [auto|].
    apply ok_bind, (find_link_ok Eh).
    - intros m e Hm He Hx. apply ok_ret. apply (H1 n m); simpl; auto.
    - intros H. auto.
  Qed.
  Lemma seq_conn t root nr seq P D x : wf t -> tree_info (get_edge_list t) t root nr seq P D -> In x seq -> conn (get_edge_list t) root x.
  Proof.
    intros Wt TI. enough (G : forall s1 s2, seq = s1 ++ s2 -> forall z, In z s1 -> conn (get_edge_list t) root z) by (intros H; apply (G seq []); [rewrite app_nil_r; reflexivity|exact H]).
    induction s1 as [|y s1 IH] using rev_ind; intros s2 E z Hz; [destruct Hz|]. rewrite <- app_assoc in E. apply in_app_iff in Hz as [Hz|[<-|[]]]; [apply (IH _ E _ Hz)|].
    destruct (eq_dec y root) as [->|Hy]; [apply conn_refl|]. destruct (ti_par TI E Hy) as (p & H1 & H2 & H3 & _). apply (conn_trans (y := p)); [apply (IH _ E _ H2)|]. apply conn_adj, adj_sym, H3.
  Qed.
  (* the solution graph while it is connected *)
  Record part (f : fn) (r : graph) : Prop := {
    pa_wf : wf r;
    pa_dir : g_type r = Directed;
    pa_nodes : get_node_list r = V;
    pa_es : incl (get_edge_list r) es;
    pa_in : forall e, In e es -> inner f e -> In e (get_edge_list r);
    pa_forest : forest (get_edge_list r)
  }.
  Lemma connect_t fuel f r h : get_edge_list h = es -> part f r ->
    tpk (fuel <= length V) (simplex_connect fuel r) h (fun rb h' => h' = h /\ part f (fst rb) /\ (snd rb = false -> spans V (get_edge_list (fst rb))) /\
      (snd rb = true -> exists e, In e es /\ ~ conn (get_edge_list r) (fst e) (snd e) /\ get_edge_list (fst rb) = get_edge_list r ++ [e]) /\ (snd rb = false -> get_edge_list (fst rb) = get_edge_list r)).
  Proof.
    intros Eh Pa. unfold simplex_connect. rewrite (pa_nodes Pa). assert (HV : forall x, In x V -> In x (get_node_list r)) by (rewrite (pa_nodes Pa); auto). destruct V as [|cur nl0] eqn:EVn; [congruence|]. rewrite <- EVn in *.
    assert (Hcur : In cur V) by (rewrite EVn; left; reflexivity).
    assert (HIr : int_names (get_node_list r)) by (rewrite (pa_nodes Pa); exact HI).
    apply pok_bind, pok_call. pose proof (search_t (pa_wf Pa) (pa_dir Pa) HIr (HV _ Hcur) (vname cur) fuel) as Se. rewrite (pa_nodes Pa) in Se. eapply pok_weaken; [exact Se|]. clear Se. intros pred r' (FR & seq & P & D & TI & Hk & _).
    rewrite <- (nfr_edges FR) in *.
    assert (Pa' : part f r').
    { destruct Pa. constructor; rewrite ?(nfr_nodes FR), ?(nfr_edges FR); auto; [apply (nfr_wf FR); assumption|apply (nfr_type FR); assumption]. }
    clear Pa FR HV HIr r. rename r' into r. rename Pa' into Pa.
    assert (Comp : forall n, In n V -> nattr r n "component" <> vname cur -> ~ In n seq).
    { intros n Hn Hc Hs. apply Hc. apply (ti_comp TI); [rewrite (pa_nodes Pa); exact Hn|exact Hs]. }
    apply pok_step. apply (new_link_ok Eh).
    - intros x Hx. rewrite (wf_nodes (pa_wf Pa)). change (In x (get_node_list r)). rewrite (pa_nodes Pa). exact Hx.
    - intros n m e Hn Hc Hm He Hnm. apply Hk in Hm. specialize (Comp n Hn Hc). destruct e as [u v].
      assert (Hnc : ~ conn (get_edge_list r) u v).
      { intros K. apply Comp. apply (conn_closed (es := get_edge_list r) (x := m)); [apply (ti_closed TI)|exact Hm|]. destruct Hnm as [[= -> ->]|[= -> ->]]; [apply conn_sym|]; exact K. }
      assert (Hni : ~ In (u, v) (get_edge_list r)) by (intros K; apply Hnc, conn_adj; left; exact K).
      destruct (@add_edge_views r u v [] (pa_wf Pa)) as (r2 & Ea & W2 & D2 & N2 & E2 & _); [constructor|rewrite check_dir by apply (pa_dir Pa); apply mem_nIn, Hni|].
      apply pok_step, ok_on, (ok_intro Ea). apply pok_ret. split; [reflexivity|]. cbn [fst snd]. split; [|split; [discriminate|split; [intros _; exists (u, v); auto|discriminate]]].
      destruct (EV He) as [Vu Vv]. cbn [fst snd] in Vu, Vv. constructor.
      + exact W2.
      + rewrite D2. apply (pa_dir Pa).
      + rewrite N2, (pa_nodes Pa), (proj2 (mem_In u V) Vu). rewrite (proj2 (mem_In v (V ++ [u]))) by (apply in_app_iff; auto). rewrite !app_nil_r. reflexivity.
      + rewrite E2. intros e He'. apply in_app_iff in He' as [He'|[<-|[]]]; [apply (pa_es Pa He')|exact He].
      + rewrite E2. intros e He' Hi. apply in_app_iff. left. apply (pa_in Pa He' Hi).
      + apply (forest_add (es := get_edge_list r) (u := u) (v := v)); [|apply (pa_forest Pa)|exact Hnc]. intros e. rewrite E2, in_app_iff. simpl. intuition.
    - intros None_. apply pok_ret. split; [reflexivity|]. cbn [fst snd]. split; [exact Pa|]. split; [|split; [discriminate|reflexivity]]. intros _.
      assert (Cov : forall x, In x V -> In x seq).
      { intros x Hx. apply (conn_closed (es := es) (x := cur)); [|destruct (ti_hd TI) as [rest ->]; left; reflexivity|apply Con; assumption].
        intros u v Hu A. destruct (in_dec eq_dec v seq) as [|Hv]; [assumption|]. exfalso.
        assert (Vv : In v V) by (destruct A as [A|A]; apply EV in A; tauto).
        apply (None_ v u Vv); [|apply Hk, Hu|apply adj_sym, A]. rewrite (proj2 (ti_comp TI (x := v) ltac:(rewrite (pa_nodes Pa); exact Vv)) Hv). intros K. symmetry in K. exact (vname_not_none K). }
      intros x y Hx Hy. apply (conn_trans (y := cur)); [apply conn_sym|]; apply (seq_conn (pa_wf Pa) TI); auto.
  Qed.

  Lemma copy_ok f g r : self f g -> wf r -> g_type r = Directed -> incl (get_edge_list r) es ->
    ok (foldM copy_attrs es r) g (fun t' h => efr ["label"] g h /\ efr ["flow"; "capacity"; "cost"; "label"] r t' /\ shows c k f t' /\ forall e, In e es -> eattr h (fst e) (snd e) "label" = Some (flow_text c k f e)).
  Proof.
    intros S Wr Dr Hr. eapply ok_foldM with (I := fun pre t' h => efr ["label"] g h /\ efr ["flow"; "capacity"; "cost"; "label"] r t' /\
      (forall e1, In e1 pre -> In e1 (get_edge_list r) -> forall a, In a ["flow"; "capacity"; "cost"; "label"] -> eattr t' (fst e1) (snd e1) a = Some (shown c k f e1 a)) /\
      (forall e1, In e1 pre -> eattr h (fst e1) (snd e1) "label" = Some (flow_text c k f e1))).
    - split; [apply efr_refl|]. split; [apply efr_refl|]. split; intros ? [].
    - intros pre e1 post t' h Ep (E & Et & Ha & Hl). assert (Hin : In e1 es) by (rewrite Ep; apply in_app_iff; simpl; auto).
      assert (S' : self f h) by (apply (self_efr S E); simpl; intuition discriminate). unfold copy_attrs.
      apply ok_bind, (label_ok S' Hin).
      apply ok_bind. apply ok_edge_set with (bs := ["label"]); [apply (sf_wf S')|apply (sf_dir S')|rewrite (sf_edges S'); exact Hin|simpl; auto|]. intros h2 E3 L3 _.
      assert (Hl2 : forall e2, In e2 (pre ++ [e1]) -> eattr h2 (fst e2) (snd e2) "label" = Some (flow_text c k f e2)).
      { intros e2 He2. rewrite L3, <- surjective_pairing. destruct (eqb_spec e2 e1) as [->|Hn1]; [reflexivity|]. apply in_app_iff in He2 as [He2|[He2|[]]]; [apply Hl, He2|congruence]. }
      pose proof (efr_trans E E3 (incl_refl _)) as E'. rewrite dmem_edges, (efr_edges Et). destruct (mem_spec e1 (get_edge_list r)) as [Hm|Hm].
      + apply ok_on. apply four_ok; [apply (efr_wf Et Wr)|apply (efr_type Et Dr)|rewrite (efr_edges Et); exact Hm|]. intros t2 E2 A2 O2.
        split; [exact E'|]. split; [apply (efr_trans Et E2), incl_refl|]. split; [|exact Hl2]. intros e2 He2 He2' a Hat. destruct (eq_dec e2 e1) as [->|Hne'].
        * rewrite (A2 a Hat). reflexivity.
        * rewrite O2 by exact Hne'. apply in_app_iff in He2 as [He2|[He2|[]]]; [auto|congruence].
      + apply ok_ret. split; [exact E'|]. split; [exact Et|]. split; [|exact Hl2]. intros e2 He2 He2'. apply in_app_iff in He2 as [He2|[<-|[]]]; [auto|contradiction].
    - intros t' h (E & Et & Ha & Hl). split; [exact E|]. split; [exact Et|]. split; [|exact Hl]. intros e1 He1. rewrite (efr_edges Et) in He1. apply Ha; auto.
  Qed.

  Definition tree_bound : nat := break_bound + length V + length es + 1.
  Lemma find_tree_t fuel f g : self f g -> feasible V es c b f -> tpk (fuel <= tree_bound) (simplex_find_tree fuel) g (fun t h => exists f', tsol V es c k b f' t h /\ shows c k f' t /\ forall e, In e es -> eattr h (fst e) (snd e) "label" = Some (flow_text c k f' e)).
  Proof.
    intros S F. unfold simplex_find_tree. apply pok_bind. eapply pok_from; [apply (break_t fuel S F)|unfold tree_bound; lia|]. intros r0 h0 (f' & S0 & F0 & W0 & D0 & N0 & I0 & J0 & Fo0).
    apply pok_bind. eapply tpk_loop with (n := length es - length (get_edge_list r0)) (I := fun n r h => n = length es - length (get_edge_list r) /\ h = h0 /\ part f' r) (Q := fun r h => tpk (fuel <= tree_bound) (es <- gets get_edge_list ;; foldM copy_attrs es r) h (fun t h => exists f', tsol V es c k b f' t h /\ shows c k f' t /\ forall e, In e es -> eattr h (fst e) (snd e) "label" = Some (flow_text c k f' e))).
    - split; [reflexivity|]. split; [reflexivity|constructor; assumption].
    - unfold tree_bound. lia.
    - intros ? r h (-> & -> & Pa). apply pok_bind. eapply pok_from; [apply (connect_t fuel (sf_edges S0) Pa)|unfold tree_bound; lia|]. intros [r' [|]] h (-> & Pa' & Sp & Gr & _); cbn [fst snd] in *; apply pok_ret.
      { destruct (Gr eq_refl) as (e0 & _ & _ & Gr'). assert (length (get_edge_list r) < length (get_edge_list r')) by (rewrite Gr', app_length; simpl; lia). exists (length es - length (get_edge_list r')). split; [|auto]. assert (length (get_edge_list r') <= length es) by (apply NoDup_incl_length; [apply (wf_ne (pa_wf Pa'))|apply (pa_es Pa')]). lia. }
      specialize (Sp eq_refl).
      apply pok_step, ok_gets. rewrite (sf_edges S0). apply pok_ok. eapply ok_weaken; [apply (copy_ok S0 (pa_wf Pa') (pa_dir Pa') (pa_es Pa'))|]. intros t h (E & Et & Sh & Hlab). exists f'. split; [|auto]. pose proof (shows_int Sh) as Ia.
      constructor; rewrite ?(efr_edges Et).
      + apply (self_efr S0 E); simpl; intuition discriminate.
      + exact F0.
      + apply (efr_wf Et (pa_wf Pa')).
      + apply (efr_type Et (pa_dir Pa')).
      + rewrite (efr_node_list Et), (pa_nodes Pa'). reflexivity.
      + apply (pa_es Pa').
      + apply (pa_forest Pa').
      + exact Sp.
      + exact Ia.
      + intros e He Hn. pose proof (fs_bounds F0 He). destruct (Z.eq_dec (f' e) 0); [auto|]. destruct (Z.eq_dec (f' e) (c e)); [auto|]. exfalso. apply Hn, (pa_in Pa' He). lia.
  Qed.
  Lemma find_tree_ok fuel f g : self f g -> feasible V es c b f -> pok (simplex_find_tree fuel) g (fun t h => exists f', tsol V es c k b f' t h /\ shows c k f' t /\ forall e, In e es -> eattr h (fst e) (snd e) "label" = Some (flow_text c k f' e)).
  Proof. intros S F. apply (tpk_pok (find_tree_t fuel S F)). Qed.
End Init.
