(* cycle_canceling: the loop keeps the flow feasible; when it ends the flow has minimum cost. *)
From Verif Require Import Py Util M_Graph P_Graph P_GraphLaws Spec P_Walk P_Attr M_Search S_Frontier M_Flow M_Floyd M_MinCost S_Flow S_GraphFlow S_MinCost P_Flow P_EdgeFrame P_Dfs P_MinCostAbs P_Residual C_Floyd.
Set Implicit Arguments. Unset Strict Implicit.
Local Open Scope string_scope. Local Open Scope list_scope.

(** ** potentials from the distances of floyd_warshall *)
Section Potentials.
  Variable r : graph.
  Hypothesis W : wf r.
  Hypothesis D : g_type r = Directed.
  Hypothesis HC : has_costs r false.
  Hypothesis NL : forall x, ~ arc r x x.
  Hypothesis NN : forall a p, walk (arc r) a p a -> (0 <= wcost (edge_cost r) p)%Z.
  Notation V := (get_node_list r).
  Notation k := (edge_cost r).
  Lemma arc_V x y : arc r x y -> In x V /\ In y V.
  Proof. intros H. apply (check_edge_nodes W). exact H. Qed.
  Lemma distances : exists d : name -> name -> option Z, forall x y, In x V -> In y V ->
    match d x y with Some z => least_cost (arc r) k x y z | None => ~ reach (arc r) x y end.
  Proof.
    destruct (C30_floyd_warshall r W D HC) as (v & di & n & _ & Hv & Hd). assert (v = true) as -> by (apply Hv; exact NN). specialize (Hd eq_refl).
    exists (fun x y => match dget di (x, y) with Some o => o | None => None end). intros x y Hx Hy. specialize (Hd x y Hx Hy (or_intror (NL (x := x)))).
    destruct (dget di (x, y)) as [[z|]|]; [exact Hd|exact Hd|destruct Hd].
  Qed.
  Definition minz (o : option Z) (z : Z) : Z := match o with Some w => Z.min w z | None => z end.
  Definition mins (d : name -> option Z) (l : list name) : Z := fold_right (fun i z => minz (d i) z) 0%Z l.
  Lemma mins_cons d j l : mins d (j :: l) = match d j with Some w => Z.min w (mins d l) | None => mins d l end.
  Proof. reflexivity. Qed.
  Lemma mins_le d l : (mins d l <= 0)%Z /\ forall i z, In i l -> d i = Some z -> (mins d l <= z)%Z.
  Proof.
    induction l as [|j l [IH1 IH2]]; [split; [reflexivity|intros i z []]|]. rewrite mins_cons. split.
    - destruct (d j); lia.
    - intros i z [->|Hi] Hz; [rewrite Hz; lia|]. specialize (IH2 i z Hi Hz). destruct (d j); lia.
  Qed.
  Lemma mins_hit d l : mins d l = 0%Z \/ exists i, In i l /\ d i = Some (mins d l).
  Proof.
    induction l as [|j l IH]; [left; reflexivity|]. rewrite mins_cons. destruct (d j) as [w|] eqn:E.
    - destruct (Z.min_spec w (mins d l)) as [[_ ->]|[_ ->]]; [right; exists j; simpl; auto|]. destruct IH as [IH|(i & Hi & Hd)]; [auto|right; exists i; simpl; auto].
    - destruct IH as [IH|(i & Hi & Hd)]; [auto|right; exists i; simpl; auto].
  Qed.
  Lemma potentials : exists pi : name -> Z, forall x y, arc r x y -> (0 <= k x y + pi x - pi y)%Z.
  Proof.
    destruct distances as [d Hd]. exists (fun x => mins (fun i => d i x) V). intros x y Hxy. destruct (arc_V Hxy) as [Hx Hy].
    assert (G : forall i p, In i V -> walk (arc r) i p x -> (mins (fun i => d i y) V <= wcost k p + k x y)%Z).
    { intros i p Hi Hw. assert (Hw2 : walk (arc r) i (p ++ [y]) y) by (apply (walk_snoc Hw Hxy)). pose proof (wcost_walk_snoc k y Hw) as Hc.
      specialize (Hd i y Hi Hy). destruct (d i y) as [z|] eqn:E; [|exfalso; apply Hd; exists (p ++ [y]); exact Hw2]. destruct Hd as [_ Hd]. specialize (Hd _ Hw2).
      pose proof (proj2 (mins_le (fun i => d i y) V) i z Hi E). lia. }
    destruct (mins_hit (fun i => d i x) V) as [E|(i & Hi & E)].
    - rewrite E. specialize (G x [x] Hx (walk_one _ _)). simpl in G. lia.
    - pose proof (Hd i x Hi Hx) as H. rewrite E in H. destruct H as [(p & Hp & Hc) _]. specialize (G i p Hi Hp). rewrite Hc in G. lia.
  Qed.
End Potentials.

Lemma walk_pairs E a p b : walk E a p b -> forall q, In q (consecutive p) -> E (fst q) (snd q).
Proof.
  induction 1 as [a|a b p c He Hw IH]; intros q Hq; [destruct Hq|]. destruct (walk_hd Hw) as [t ->]. cbn [consecutive] in Hq. destruct Hq as [<-|Hq]; [exact He|apply IH, Hq].
Qed.
Lemma cycle_consecutive x t : cycle_pairs (x :: t) = consecutive (x :: t ++ [x]).
Proof.
  unfold cycle_pairs. enough (H : forall z t x, combine (x :: t) (t ++ [z]) = consecutive (x :: t ++ [z])) by apply H. clear.
  intros z. induction t as [|y t IH]; intros x; [reflexivity|]. change (combine (x :: y :: t) ((y :: t) ++ [z])) with ((x, y) :: combine (y :: t) (t ++ [z])). rewrite IH. reflexivity.
Qed.

Section Cancel.
  Variable g0 : graph.
  Hypothesis W0 : wf g0.
  Hypothesis D0 : g_type g0 = Directed.
  Hypothesis HC0 : has_costs g0 false.
  Notation V := (get_node_list g0).
  Notation es := (get_edge_list g0).
  Hypothesis As : asymmetric es.
  Variables (c : fn) (b : name -> Z).
  Notation k := (fun e => edge_cost g0 (fst e) (snd e)).

  Record st (h : graph) (f : fn) : Prop := { st_fr : efr ["flow"] g0 h; st_fs : FS h c f; st_feas : feasible V es c b f; st_nattr : forall n a, nattr h n a = nattr g0 n a }.
  Lemma cost_at h f : st h f -> forall e, In e es -> eattr h (fst e) (snd e) "cost" = Some (VI (k e)).
  Proof.
    intros S [x y] He. cbn [fst snd]. rewrite (ef_edges (st_fr S)) by (intros [|[]]; discriminate).
    destruct (HC0 (x := x) (y := y)) as [z Hz]; [unfold sarc, arc; rewrite D0; unfold check_edge; rewrite D0; apply dmem_In; exact He|].
    rewrite eattr_obs. unfold edge_cost. rewrite Hz. reflexivity.
  Qed.
  Notation R f := (flat_map (rarcs c f k) es).
  Lemma residual_ok h f : st h f -> exists r, create_residual_graph h = (h, Ok r) /\ built (R f) r.
  Proof.
    intros S. pose proof (efr_edges (st_fr S)) as Ee.
    destruct (@residual_spec h c f k (efr_wf (st_fr S) W0) (efr_type (st_fr S) D0) (st_fs S)) as [H _]; [rewrite Ee; apply (cost_at S)|].
    rewrite Ee in H. apply H. apply asym_conflict_free; [apply (wf_ne W0)|exact As].
  Qed.
  Lemma arc_R r f x y : built (R f) r -> (arc r x y <-> exists e, In e es /\ (((0 < f e)%Z /\ (x, y) = (snd e, fst e)) \/ ((f e < c e)%Z /\ (x, y) = e))).
  Proof.
    intros B. unfold arc, check_edge. rewrite (b_dir B), dmem_In. change (dkeys (g_edges r)) with (get_edge_list r). rewrite (b_edges B). apply keys_flat.
  Qed.
  Lemma R_in f e kw p : In e es -> In (p, kw) (rarcs c f k e) -> In (p, kw) (R f).
  Proof. intros H1 H2. apply in_flat_map. eauto. Qed.
  Lemma R_backward r f x y : built (R f) r -> In (y, x) es -> (0 < f (y, x))%Z ->
    eattr r x y "cost" = Some (VI (- edge_cost g0 y x)) /\ eattr r x y "capacity" = Some (VI (f (y, x))).
  Proof.
    intros B He Hf. assert (Hi : In ((x, y), [("cost", VI (-1 * edge_cost g0 y x)); ("capacity", VI (f (y, x)))]) (R f)).
    { apply (R_in He). unfold rarcs, backward. apply Z.gtb_lt in Hf. rewrite Hf. simpl. auto. }
    rewrite !(b_attr B _ Hi). simpl dget. split; reflexivity.
  Qed.
  Lemma R_forward r f x y : built (R f) r -> In (x, y) es -> (f (x, y) < c (x, y))%Z ->
    eattr r x y "cost" = Some (VI (edge_cost g0 x y)) /\ eattr r x y "capacity" = Some (VI (c (x, y) - f (x, y))).
  Proof.
    intros B He Hf. assert (Hi : In ((x, y), [("cost", VI (edge_cost g0 x y)); ("capacity", VI (c (x, y) - f (x, y)))]) (R f)).
    { apply (R_in He). unfold rarcs, forward. assert (c (x, y) - f (x, y) >? 0 = true)%Z as -> by (apply Z.gtb_lt; lia). apply in_app_iff. simpl. auto. }
    rewrite !(b_attr B _ Hi). split; reflexivity.
  Qed.
  Lemma R_costs r f : built (R f) r -> has_costs r false.
  Proof.
    intros B x y Hs. unfold sarc in Hs. rewrite (b_dir B) in Hs. apply (arc_R x y B) in Hs as ([u v] & He & [[Hf E]|[Hf E]]); cbn [fst snd] in E; injection E as -> ->.
    - destruct (R_backward B He Hf) as [H _]. rewrite eattr_obs in H. destruct (obs _ r) as [w|]; [|discriminate]. injection H as ->. eauto.
    - destruct (R_forward B He Hf) as [H _]. rewrite eattr_obs in H. destruct (obs _ r) as [w|]; [|discriminate]. injection H as ->. eauto.
  Qed.
  Lemma R_noloop r f x : built (R f) r -> ~ arc r x x.
  Proof. intros B H. apply (arc_R x x B) in H as ([u v] & He & [[_ E]|[_ E]]); cbn [fst snd] in E; injection E as <- <-; apply (As He He). Qed.
  Lemma cost_eq r x y z : eattr r x y "cost" = Some (VI z) -> edge_cost r x y = z.
  Proof. rewrite eattr_obs. unfold edge_cost. destruct (obs _ r) as [w|]; [|discriminate]. intros [= ->]. reflexivity. Qed.

  (* at the end *)
  Lemma final_optimal r f : built (R f) r -> feasible V es c b f -> (forall a p, walk (arc r) a p a -> (0 <= wcost (edge_cost r) p)%Z) -> min_cost V es c b k f.
  Proof.
    intros B Hf NN. destruct (potentials (b_wf B) (b_dir B) (R_costs B) (fun x => R_noloop (x := x) B) NN) as [pi Hpi].
    apply optimal_potentials with (pi := pi); [apply (wf_nd W0)|intros [x y] He; apply (edge_nodes W0 D0 He)|exact Hf| |].
    - intros [x y] He Hlt. cbn [fst snd]. assert (A : arc r x y) by (apply (arc_R x y B); exists (x, y); auto). specialize (Hpi x y A).
      rewrite (cost_eq (proj1 (R_forward B He Hlt))) in Hpi. exact Hpi.
    - intros [x y] He Hlt. cbn [fst snd]. assert (A : arc r y x) by (apply (arc_R y x B); exists (x, y); auto). specialize (Hpi y x A).
      rewrite (cost_eq (proj1 (R_backward B He Hlt))) in Hpi. lia.
  Qed.

  (* one iteration *)
  Lemma pair_room r f p : built (R f) r -> arc r (fst p) (snd p) -> usable es p /\ eattr r (fst p) (snd p) "capacity" = Some (VI (room es c f p)) /\ (0 < room es c f p)%Z.
  Proof.
    intros B Ha. destruct p as [x y]. cbn [fst snd] in *. apply (arc_R x y B) in Ha as ([u v] & He & [[Hf E]|[Hf E]]); cbn [fst snd] in E; injection E as -> ->; unfold usable, room; cbn [fst snd].
    - rewrite (proj2 (mem_nIn _ _) (As He)). split; [auto|]. split; [apply (R_backward B He Hf)|exact Hf].
    - rewrite (proj2 (mem_In _ _) He). split; [auto|]. split; [apply (R_forward B He Hf)|lia].
  Qed.
  Lemma step_ok r h f x t : st h f -> built (R f) r -> NoDup (x :: t) -> (forall p, In p (cycle_pairs (x :: t)) -> arc r (fst p) (snd p)) ->
    ok (cap <- ask (find_cycle_capacity (x :: t)) r ;; augment_cycle cap (x :: t)) h (fun _ h' => exists f', st h' f').
  Proof.
    intros S B Nd Ha. apply ok_bind. assert (C : forall p, In p (cycle_pairs (x :: t)) -> eattr r (fst p) (snd p) "capacity" = Some (VI (room es c f p))) by (intros p Hp; apply (pair_room B), Ha, Hp).
    pose proof (cycle_capacity_ok C) as Hc. apply ok_ex in Hc as (r' & z & E & -> & H1 & p0 & H2 & H3).
    eapply ok_intro; [unfold ask; rewrite E; reflexivity|]. cbn beta. pose proof (st_fr S) as Fr. pose proof (efr_edges Fr) as Ee.
    eapply ok_weaken; [apply (augment_cycle_ok z (efr_wf Fr W0) (efr_type Fr D0) (fs_flow (st_fs S)) (x := x) (t := t))|].
    - rewrite Ee. intros p Hp. apply (pair_room B), Ha, Hp.
    - intros [] h' (E' & En & F'). rewrite Ee in F'. eexists. constructor; [apply (efr_trans Fr E'); apply incl_refl|exact (FL_FS (st_fs S) E' F')| |intros; rewrite En; apply (st_nattr S)]. constructor.
      + apply cycle_bounds; [exact As|exact Nd| | |apply (fs_bounds (st_feas S))].
        * destruct (pair_room B (Ha p0 H2)) as (_ & _ & H). lia.
        * intros p Hp. split; [apply (pair_room B), Ha, Hp|apply H1, Hp].
      + intros y Hy. rewrite out_in, cycle_net by (try apply (wf_ne W0); intros p Hp; apply (pair_room B), Ha, Hp). rewrite <- out_in. apply (fs_demand (st_feas S) Hy).
  Qed.
  Lemma whenok_ask {A} (m : M graph A) r h (Q : A -> graph -> Prop) : (forall a, snd (m r) = Ok a -> Q a h) -> whenok (ask m r) h Q.
  Proof. intros H. apply whenok_intro. intros s' a E. unfold ask in E. injection E as <- E. apply H. exact E. Qed.
  Lemma cancel_when h f fuel : st h f -> whenok (cancel fuel) h (fun b0 h' => b0 = true /\ exists f', st h' f' /\ min_cost V es c b k f').
  Proof.
    intros S. unfold cancel.
    assert (Nx : forall (h : graph) (f : fn) (Q : graph * option (list name) -> graph -> Prop), st h f ->
      (forall r nc, built (R f) r -> snd (get_negative_cycle fuel r) = Ok nc -> Q (r, nc) h) ->
      forall A (kk : graph -> option (list name) -> M graph A) QA, (forall r nc, Q (r, nc) h -> whenok (kk r nc) h QA) ->
      whenok (r <- create_residual_graph ;; nc <- ask (get_negative_cycle fuel) r ;; kk r nc) h QA).
    { clear h f S. intros h f Q S HQ A kk QA Hk. apply whenok_bind. apply ok_whenok. destruct (residual_ok S) as (r & E & B). eapply ok_intro; [exact E|]. cbn beta.
      apply whenok_bind. apply whenok_ask. intros nc En. apply Hk. apply HQ; assumption. }
    apply (Nx h f (fun s h => exists f, st h f /\ built (R f) (fst s) /\ snd (get_negative_cycle fuel (fst s)) = Ok (snd s)) S); [intros r nc B E; exists f; auto|].
    intros r nc Hs. apply whenok_loop with (I := fun s h => exists f, st h f /\ built (R f) (fst s) /\ snd (get_negative_cycle fuel (fst s)) = Ok (snd s)); [exact Hs|]. clear h f S r nc Hs.
    intros [r nc] h (f & S & B & E). cbn [fst snd] in *.
    assert (Ne : get_node_list r <> []). { intros K. rewrite (C32_empty_raises r fuel K) in E. discriminate. }
    destruct (C32_cycle r fuel (b_wf B) (b_dir B) (R_costs B) Ne) as [_ Hc]; [intros i Hi; exfalso; apply (R_noloop B Hi)|]. rewrite E in Hc. destruct nc as [cyc|].
    - destruct Hc as (_ & x & t & -> & Nd & Hw). cbn [fst snd].
      assert (Ha : forall p, In p (cycle_pairs (x :: t)) -> arc r (fst p) (snd p)) by (rewrite cycle_consecutive; apply (walk_pairs Hw)).
      pose proof (step_ok S B Nd Ha) as Hok. apply ok_ex in Hok as (h' & [] & E' & f' & S').
      unfold bind at 1 in E'. destruct (ask (find_cycle_capacity (x :: t)) r h) as [h1 [z|]] eqn:Ea; [|discriminate].
      apply whenok_bind. apply ok_whenok. eapply ok_intro; [exact Ea|]. cbn beta. apply whenok_bind. apply ok_whenok. eapply ok_intro; [exact E'|]. cbn beta.
      apply (Nx h' f' (fun s h => exists f, st h f /\ built (R f) (fst s) /\ snd (get_negative_cycle fuel (fst s)) = Ok (snd s)) S'); [intros r' nc' B' En'; exists f'; auto|].
      intros r' nc' Hs. apply whenok_ret. exact Hs.
    - apply whenok_ret. split; [reflexivity|]. exists f. split; [exact S|]. apply (final_optimal B (st_feas S) Hc).
  Qed.
End Cancel.
