(* cycle_canceling: every way the loop can end, exceptions included. *)
From Verif Require Import Py Util M_Graph P_Graph P_GraphLaws Spec P_Walk P_Attr M_Search S_Frontier M_Flow M_Floyd M_MinCost S_Flow S_GraphFlow S_MinCost P_Flow P_EdgeFrame P_Dfs P_MinCostAbs P_Residual C_Floyd P_Cancel.
Set Implicit Arguments. Unset Strict Implicit.
Local Open Scope string_scope. Local Open Scope list_scope.

(* the outcome of a run: Q for a value, E for an exception *)
Definition runs {S A} (m : M S A) (s : S) (Q : A -> S -> Prop) (E : exn -> S -> Prop) : Prop :=
  match snd (m s) with Ok a => Q a (fst (m s)) | Err e => E e (fst (m s)) end.
Section Rules.
  Context {S : Type}.
  Lemma runs_ok {A} (m : M S A) s s' a (Q : A -> S -> Prop) E : m s = (s', Ok a) -> Q a s' -> runs m s Q E.
  Proof. intros H K. unfold runs. rewrite H. exact K. Qed.
  Lemma runs_ret {A} (a : A) s (Q : A -> S -> Prop) E : Q a s -> runs (ret a) s Q E.
  Proof. intros H. exact H. Qed.
  Lemma runs_bind {A B} (m : M S A) (f : A -> M S B) s Q E : runs m s (fun a s' => runs (f a) s' Q E) E -> runs (bind m f) s Q E.
  Proof. unfold runs, bind. destruct (m s) as [s' [a|e]]; simpl; auto. Qed.
  Lemma runs_weaken {A} (m : M S A) s (Q Q' : A -> S -> Prop) (E E' : exn -> S -> Prop) : runs m s Q E -> (forall a s', Q a s' -> Q' a s') -> (forall e s', E e s' -> E' e s') -> runs m s Q' E'.
  Proof. unfold runs. destruct (m s) as [s' [a|e]]; simpl; auto. Qed.
  Lemma runs_loop {L R} (body : L -> M S (L + R)) (I : L -> S -> Prop) (Q : R -> S -> Prop) (E : exn -> S -> Prop) fuel : forall l s, I l s ->
    (forall l s, I l s -> E OutOfFuel s) ->
    (forall l s, I l s -> runs (body l) s (fun r s' => match r with inl l' => I l' s' | inr r => Q r s' end) E) ->
    runs (loop fuel body l) s Q E.
  Proof.
    induction fuel as [|fuel IH]; intros l s HI Ho Hb; [exact (Ho l s HI)|]. cbn [loop]. apply runs_bind.
    eapply runs_weaken; [apply (Hb l s HI)| |auto]. intros [l'|r] s' H; cbn beta iota in H; [apply IH; assumption|apply runs_ret, H].
  Qed.
End Rules.
Lemma runs_ask {A} (m : M graph A) r h (Q : A -> graph -> Prop) (E : exn -> graph -> Prop) : (forall a, snd (m r) = Ok a -> Q a h) -> (forall e, snd (m r) = Err e -> E e h) -> runs (ask m r) h Q E.
Proof. intros H K. unfold runs, ask. simpl. destruct (snd (m r)) as [a|e]; auto. Qed.

(* what get_negative_cycle may raise *)
Definition fuel_or_py (e : exn) : Prop := e = OutOfFuel \/ exists m, e = PyException m.

Section Cancel.
  Variable g0 : graph.
  Hypothesis W0 : wf g0.
  Hypothesis D0 : g_type g0 = Directed.
  Hypothesis HC0 : has_costs g0 false.
  Notation V := (get_node_list g0).
  Notation es := (get_edge_list g0).
  Hypothesis As : asymmetric es.
  Variables (c : fn) (b : name -> Z).
  Notation k := (fun e => edge_cost g0 (fst e) (snd e)).
  Notation R f := (flat_map (rarcs c f k) es).
  Hypothesis Demand : exists i, In i V /\ b i <> 0%Z.

  (* a node with a demand has an arc with flow: the residual graph is not empty *)
  Lemma residual_nonempty h f r : st g0 c b h f -> built (R f) r -> get_node_list r <> [].
  Proof.
    intros S B K. destruct Demand as (i & Hi & Hn). apply Hn. rewrite <- (fs_demand (st_feas S) Hi). unfold outflow, inflow.
    assert (Z : forall e, In e es -> f e = 0%Z).
    { intros e He. destruct (fs_bounds (st_feas S) He) as [H1 H2]. destruct (Z.eq_dec (f e) 0) as [E|E]; [exact E|]. exfalso.
      assert (A : arc r (snd e) (fst e)) by (apply (arc_R (snd e) (fst e) B); exists e; split; [exact He|left; split; [lia|reflexivity]]).
      apply (check_edge_nodes (b_wf B)) in A. destruct A as [A _]. change (In (snd e) (get_node_list r)) in A. rewrite K in A. destruct A. }
    assert (Zs : forall p, zsum f (filter p es) = 0%Z).
    { intros p. apply zsum_zero. intros e He. apply filter_In in He. apply Z, He. }
    rewrite !Zs. reflexivity.
  Qed.
  Lemma cancel_runs h f fuel : st g0 c b h f ->
    runs (cancel fuel) h (fun b0 h' => b0 = true /\ exists f', st g0 c b h' f' /\ min_cost V es c b k f') (fun e h' => fuel_or_py e /\ exists f', st g0 c b h' f').
  Proof.
    intros S. unfold cancel.
    set (I := fun (s : graph * option (list name)) h => exists f, st g0 c b h f /\ built (R f) (fst s) /\ snd (get_negative_cycle fuel (fst s)) = Ok (snd s)).
    set (E := fun e h' => fuel_or_py e /\ exists f', st g0 c b h' f').
    assert (Nx : forall (h : graph) (f : fn), st g0 c b h f ->
      forall A (kk : graph -> option (list name) -> M graph A) QA, (forall r nc, I (r, nc) h -> runs (kk r nc) h QA E) ->
      runs (r <- create_residual_graph ;; nc <- ask (get_negative_cycle fuel) r ;; kk r nc) h QA E).
    { clear h f S. intros h f S A kk QA Hk. apply runs_bind. destruct (residual_ok W0 D0 HC0 As S) as (r & Er & B). apply (runs_ok _ Er). cbn beta.
      apply runs_bind. apply runs_ask.
      - intros nc En. apply Hk. exists f. auto.
      - intros e Ee. destruct (C32_cycle r fuel (b_wf B) (b_dir B) (R_costs B) (residual_nonempty S B)) as [_ Hc]; [intros i Hi; exfalso; apply (R_noloop As B Hi)|].
        rewrite Ee in Hc. split; [exact (proj2 Hc)|]. exists f. exact S. }
    apply (Nx h f S). intros r nc Hs. apply runs_loop with (I := I); [exact Hs|intros l s (f1 & S1 & _); split; [left; reflexivity|exists f1; exact S1]|]. clear h f S r nc Hs.
    intros [r nc] h (f & S & B & En). cbn [fst snd] in *.
    destruct (C32_cycle r fuel (b_wf B) (b_dir B) (R_costs B) (residual_nonempty S B)) as [_ Hc]; [intros i Hi; exfalso; apply (R_noloop As B Hi)|]. rewrite En in Hc. destruct nc as [cyc|].
    - destruct Hc as (_ & x & t & -> & Nd & Hw). cbn [fst snd].
      assert (Ha : forall p, In p (cycle_pairs (x :: t)) -> arc r (fst p) (snd p)) by (rewrite cycle_consecutive; apply (walk_pairs Hw)).
      pose proof (step_ok W0 D0 As S B Nd Ha) as Hok. apply ok_ex in Hok as (h' & [] & E' & f' & S').
      unfold bind at 1 in E'. destruct (ask (find_cycle_capacity (x :: t)) r h) as [h1 [z|]] eqn:Ea; [|discriminate].
      apply runs_bind. apply (runs_ok _ Ea). cbn beta. apply runs_bind. apply (runs_ok _ E'). cbn beta.
      apply (Nx h' f' S'). intros r' nc' Hs. apply runs_ret. exact Hs.
    - apply runs_ret. split; [reflexivity|]. exists f. split; [exact S|]. apply (final_optimal W0 D0 As B (st_feas S) Hc).
  Qed.
End Cancel.
