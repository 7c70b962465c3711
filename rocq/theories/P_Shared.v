(* Calls that share a queue (M_Shared.v): the model of Prim's method with the queue in the state does what the one of M_Prim.v
   does; what a call leaves in the queue. *)
From Verif Require Import Py Util M_Graph M_Search M_Dfs M_Prim M_Shared P_Graph Spec P_Walk S_Frontier P_Attr P_SearchAbs P_Search P_SearchInd P_SearchTop P_SearchThm.
From Verif Require M_Tree.
Set Implicit Arguments. Unset Strict Implicit.
Local Open Scope string_scope. Local Open Scope list_scope.

Section PS.
  Variable fr : frontier.
  Notation Q := (fq fr).
  Variable els : Q -> list name.
  Variable peek_item : Q -> name -> res Z.

  (* m, with the queue q in the state, does what m' does *)
  Definition sim {A A'} (P : A -> A' -> Q -> Prop) (g : graph) (q : Q) (m : M (graph * Q) A) (m' : M graph A') : Prop :=
    match m' g with
    | (h, Ok a') => exists a q', m (g, q) = ((h, q'), Ok a) /\ P a a' q'
    | (h, Err e) => exists q', m (g, q) = ((h, q'), Err e)
    end.
  Notation keep q := (fun a a' q' => a = a' /\ q' = q).
  Notation pair := (fun a (a' : _ * Q) q' => a' = (a, q')).
  Lemma sim_ret A A' (P : A -> A' -> Q -> Prop) g q a a' : P a a' q -> sim P g q (ret a) (ret a').
  Proof. intros H. exists a, q. split; [reflexivity|assumption]. Qed.
  Lemma sim_fail A A' (P : A -> A' -> Q -> Prop) g q e : sim P g q (fail e) (fail e).
  Proof. exists q. reflexivity. Qed.
  Lemma sim_bind A A' B B' (P : A -> A' -> Q -> Prop) (P' : B -> B' -> Q -> Prop) g q m m' f f' :
    sim P g q m m' -> (forall h a a' q', P a a' q' -> sim P' h q' (f a) (f' a')) -> sim P' g q (bind m f) (bind m' f').
  Proof.
    unfold sim, bind. intros H H2. destruct (m' g) as [h [a'|e]].
    - destruct H as (a & q' & H & Hp). rewrite H. apply H2, Hp.
    - destruct H as [q' H]. exists q'. rewrite H. reflexivity.
  Qed.
  Lemma sim_onG A B B' (P : B -> B' -> Q -> Prop) g q (m : M graph A) f f' :
    (forall a h, sim P h q (f a) (f' a)) -> sim P g q (bind (onG m) f) (bind m f').
  Proof.
    intros H. apply sim_bind with (P := keep q).
    - unfold sim, onG. cbn [fst snd]. destruct (m g) as [h [a|e]]; [exists a, q; auto|exists q; reflexivity].
    - intros h a a' q' [-> ->]. apply H.
  Qed.
  Lemma sim_lift A B B' (P : B -> B' -> Q -> Prop) g q (o : option A) e f f' :
    (forall a h, sim P h q (f a) (f' a)) -> sim P g q (bind (lift o e) f) (bind (lift o e) f').
  Proof. intros H. destruct o as [a|]; [apply (H a g)|apply sim_fail]. Qed.
  Lemma sim_setq B B' (P : B -> B' -> Q -> Prop) g q f k m' : sim P g (f q) k m' -> sim P g q (setq f ;; k) m'.
  Proof. intros H. exact H. Qed.

  Lemma sim_edge cur pred n g q : sim pair g q (shared_edge peek_item cur pred n) (prim_edge peek_item cur (pred, q) n).
  Proof.
    unfold shared_edge, prim_edge. apply sim_onG. intros c h. destruct (eqb c (VS "green")); [apply sim_ret; reflexivity|].
    apply sim_onG. intros _ h1. apply sim_onG. intros ne h2. apply sim_bind with (P := keep q).
    - destruct (negb (dmem pred n)); [apply sim_ret; auto|]. apply sim_bind with (P := keep q).
      + unfold sim. cbn [snd]. destruct (peek_item q n) as [p|e]; [exists p, q; auto|exists q; reflexivity].
      + intros h3 p p' q' [-> ->]. apply sim_onG. intros z h4. apply sim_ret. auto.
    - intros h3 b b' q' [-> ->]. apply sim_bind with (P := pair).
      + destruct b'; [|apply sim_ret; reflexivity]. apply sim_onG. intros _ h4. apply sim_onG. intros _ h5. apply sim_onG. intros p h6.
        apply sim_setq, sim_onG. intros _ h7. apply sim_ret. reflexivity.
      + intros h4 p st' q' ->. apply sim_onG. intros _ h5. apply sim_ret. reflexivity.
  Qed.
  Lemma sim_fold cur l : forall pred g q, sim pair g q (foldM (shared_edge peek_item cur) l pred) (foldM (prim_edge peek_item cur) l (pred, q)).
  Proof.
    induction l as [|n l IH]; intros pred g q; cbn [foldM]; [apply sim_ret; reflexivity|].
    apply sim_bind with (P := pair); [apply sim_edge|]. intros h a a' q' ->. apply IH.
  Qed.
  Definition turn (r : dict name name + dict name name) (r' : dict name name * Q + dict name name) (q' : Q) : Prop :=
    match r, r' with inl a, inl a' => a' = (a, q') | inr a, inr a' => a = a' /\ fq_isEmpty q' = true | _, _ => False end.
  Lemma sim_body source pred g q : sim turn g q (shared_body peek_item source pred) (prim_body peek_item source (pred, q)).
  Proof.
    unfold prim_body, shared_body.
    assert (R : forall A B B' (P : B -> B' -> Q -> Prop) (f : graph * Q -> A) k m', sim P g q (k (f (g, q))) m' -> sim P g q (bind (gets f) k) m') by (intros; assumption).
    apply R. cbn [snd]. destruct (fq_isEmpty q) eqn:E; [apply sim_ret; split; auto|]. clear R.
    apply sim_bind with (P := keep q).
    - unfold sim. cbn [snd]. unfold lift. destruct (fq_peek q) as [cur|]; [exists cur, q; auto|exists q; reflexivity].
    - intros h1 cur c' q1 [-> ->]. apply sim_bind with (P := fun (_ : unit) q' q'' => q'' = q').
      + unfold sim. cbn [fst snd]. unfold lift. destruct (fq_remove q c') as [q2|]; [exists tt, q2; auto|exists q; reflexivity].
      + intros h2 _ q2 q3 ->. apply sim_onG. intros _ h3. apply sim_bind with (P := keep q2).
        * destruct (eqb c' source); [apply sim_ret; auto|]. apply sim_lift. intros p h4. 
          unfold sim, onG. cbn [fst snd]. destruct (set_edge_attr p c' "color" (VS "green") h4) as [h5 [u|e]]; [exists u, q2; auto|exists q2; reflexivity].
        * intros h4 u u' q3 [-> ->]. apply sim_onG. intros l h5. apply sim_bind with (P := pair); [apply sim_fold|].
          intros h6 a a' q4 ->. apply sim_onG. intros _ h7. apply sim_ret. reflexivity.
  Qed.
  Lemma sim_loop source fuel : forall pred g q,
    sim (fun a a' q' => a = a' /\ fq_isEmpty q' = true) g q (loop fuel (shared_body peek_item source) pred) (loop fuel (prim_body peek_item source) (pred, q)).
  Proof.
    induction fuel as [|f IH]; intros pred g q; cbn [loop]; [apply sim_fail|].
    apply sim_bind with (P := turn); [apply sim_body|]. intros h [a|a] [a'|a'] q'; cbn [turn]; try tauto.
    - intros ->. apply IH.
    - intros [-> E]. apply sim_ret. auto.
  Qed.
  Lemma sim_prim fuel source display g q : fq_is_pq fr = true ->
    sim (fun a a' q' => a = a' /\ fq_isEmpty q' = true) g q (prim_shared peek_item fuel source display) (minimum_spanning_tree_prim peek_item fuel source display q).
  Proof.
    intros E. unfold prim_shared, minimum_spanning_tree_prim. apply sim_onG. intros _ h. rewrite E. apply sim_setq, sim_loop.
  Qed.

  (** what a call that returns has found in the queue: the source and nodes it has reached *)
  Hypothesis Hbag : bag els.
  Variable g : graph.
  Hypothesis W : wf g.
  Variables (source : name) (old : list name).
  Definition kn {A} (m : M graph A) : Prop := forall s s' r, m s = (s', r) -> g_nbrs s' = g_nbrs s.
  Lemma kn_whenok A B (m : M graph A) (f : A -> M graph B) h P : kn m ->
    (forall a h', g_nbrs h' = g_nbrs h -> whenok (f a) h' P) -> whenok (bind m f) h P.
  Proof. intros K H. apply whenok_bind. unfold whenok at 1. intros a h1 E. apply H, (K h h1 (Ok a) E). Qed.
  Lemma kn_sn n a v : kn (set_node_attr n a v).
  Proof. intros s s' r. unfold set_node_attr. destruct (dget (g_nodes s) n); intros [= <- <-]; reflexivity. Qed.
  Lemma kn_se n m a v : kn (set_edge_attr n m a v).
  Proof.
    intros s s' r. unfold set_edge_attr. destruct (dget (g_edges s) (n, m)); [intros [= <- <-]; reflexivity|].
    destruct (g_type s); [intros [= <- <-]; reflexivity|]. destruct (dget (g_edges s) (m, n)); intros [= <- <-]; reflexivity.
  Qed.
  Lemma kn_gn n a : kn (get_node_attr n a).
  Proof. intros s s' r [= <- <-]. reflexivity. Qed.
  Lemma kn_ge n m a : kn (get_edge_attr n m a).
  Proof. intros s s' r [= <- <-]. reflexivity. Qed.
  Lemma kn_pure A (o : A -> Prop) (x : graph -> res A) : kn (fun g => (g, x g)).
  Proof. intros s s' r [= <- <-]. reflexivity. Qed.
  Lemma kn_int v : kn (as_int v).
  Proof. intros s s' r. destruct v; intros [= <- <-]; reflexivity. Qed.
  Lemma kn_lift A (o : option A) e : kn (lift o e).
  Proof. intros s s' r. destruct o; intros [= <- <-]; reflexivity. Qed.

  Definition LI (st : dict name name * Q) (h : graph) : Prop :=
    g_nbrs h = g_nbrs g /\ (forall x, In x old -> In x (els (snd st)) \/ x = source \/ In x (dkeys (fst st))) /\
    (forall x, In x (dkeys (fst st)) -> reach (arc g) source x).
  Lemma nbr_arc x l y h : g_nbrs h = g_nbrs g -> dget (g_nbrs h) x = Some l -> In y l -> arc g x y.
  Proof.
    intros E Hl Hy. assert (H : In y (snb g false x)).
    { unfold snb, nbd, list_at. rewrite E in Hl. destruct (g_type g); rewrite Hl; exact Hy. }
    apply (snb_sarc false x y W) in H. unfold sarc in H. destruct (g_type g); exact H.
  Qed.
  Lemma LI_edge cur n st h : LI st h -> reach (arc g) source cur -> arc g cur n ->
    whenok (prim_edge peek_item cur st n) h (LI).
  Proof.
    intros (E & H1 & H2) Hr Ha. destruct st as [pred q]. cbn [fst snd] in *. unfold prim_edge. apply kn_whenok; [apply kn_gn|]. intros c h1 E1.
    assert (K : forall k, g_nbrs k = g_nbrs g -> LI (pred, q) k) by (intros k Ek; repeat split; assumption).
    destruct (eqb c (VS "green")); [apply whenok_ret, K; congruence|].
    apply kn_whenok; [apply kn_se|]. intros _ h2 E2. apply kn_whenok; [apply kn_ge|]. intros ne h3 E3.
    apply kn_whenok.
    { destruct (negb (dmem pred n)); [intros s s' r [= <- <-]; reflexivity|]. intros s s' r. unfold bind.
      destruct (peek_item q n); [|intros [= <- <-]; reflexivity]. destruct ne; intros [= <- <-]; reflexivity. }
    intros b h4 E4. apply whenok_bind. apply whenok_weaken with (Q := fun st' k => LI st' k).
    - destruct b; [|apply whenok_ret, K; congruence]. apply kn_whenok; [apply kn_sn|]. intros _ h5 E5. apply kn_whenok; [apply kn_sn|]. intros _ h6 E6.
      apply kn_whenok; [apply kn_int|]. intros p h7 E7. apply kn_whenok; [apply kn_sn|]. intros _ h8 E8. apply whenok_ret.
      split; [congruence|]. cbn [fst snd]. split.
      + intros x Hx. destruct (H1 x Hx) as [H|[H|H]]; [left; apply (bag_push Hbag); auto|auto|].
        right; right. apply In_dkeys_dset. auto.
      + intros x Hx. apply In_dkeys_dset in Hx. destruct Hx as [-> |Hx]; [|auto]. apply reach_step with cur; assumption.
    - intros st' k Hk. apply kn_whenok; [apply kn_se|]. intros _ k' Ek. apply whenok_ret. destruct Hk as (Hk1 & Hk2 & Hk3). repeat split; [congruence|assumption|assumption].
  Qed.
  Lemma LI_body st h : LI st h ->
    whenok (prim_body peek_item source st) h (fun r k => match r with inl st' => LI st' k | inr pred =>
       (forall x, In x old -> x = source \/ In x (dkeys pred)) /\ (forall x, In x (dkeys pred) -> reach (arc g) source x) end).
  Proof.
    intros (E & H1 & H2). destruct st as [pred q]. cbn [fst snd] in *. unfold prim_body. destruct (fq_isEmpty q) eqn:Eq.
    - apply whenok_ret. split; [|assumption]. apply (bag_empty Hbag) in Eq. intros x Hx. destruct (H1 x Hx) as [H|[H|H]]; auto. rewrite Eq in H. destruct H.
    - apply whenok_bind. unfold whenok at 1. intros cur h1 Ec. apply whenok_bind. unfold whenok at 1. intros q1 h2 Er.
      assert (Ec' : fq_peek q = Some cur /\ h1 = h) by (unfold lift in Ec; destruct (fq_peek q); [injection Ec as <- <-; auto|discriminate Ec]). destruct Ec' as [Pk ->].
      assert (Er' : fq_remove q cur = Some q1 /\ h2 = h) by (unfold lift in Er; destruct (fq_remove q cur); [injection Er as <- <-; auto|discriminate Er]). destruct Er' as [Rm ->]. clear Ec Er.
      assert (Hin : In cur (els q)).
      { destruct (bag_peek Hbag (q := q)) as (x & Px & Hx); [|congruence]. intros En. apply (bag_empty Hbag) in En. congruence. }
      destruct (bag_remove Hbag Hin) as (q2 & Rm2 & _ & _ & Keep). rewrite Rm in Rm2. injection Rm2 as <-.
      apply kn_whenok; [apply kn_sn|]. intros _ h3 E3. apply whenok_bind. apply whenok_weaken with (Q := fun _ k => g_nbrs k = g_nbrs g /\ (cur = source \/ In cur (dkeys pred))).
      + destruct (eqb_spec cur source) as [->|]; [apply whenok_ret; split; [congruence|auto]|].
        destruct (dget pred cur) as [p|] eqn:Ep; [|apply whenok_fail]. unfold whenok at 1. intros u h4 E4. split; [|right; apply dget_keys; exists p; exact Ep].
        apply kn_se in E4. congruence.
      + intros _ h4 [E4 Hc]. assert (Hr : reach (arc g) source cur) by (destruct Hc as [-> |Hc]; [apply reach_refl|auto]).
        apply whenok_bind. unfold whenok at 1. intros l h5 El. unfold nbr_list in El. destruct (dget (g_nbrs h4) cur) as [l'|] eqn:Dl; [|discriminate El]. injection El as <- <-.
        apply whenok_bind. apply whenok_foldM with (I := fun _ st k => LI st k).
        * split; [assumption|]. cbn [fst snd]. split; [|assumption]. intros x Hx. destruct (H1 x Hx) as [H|[H|H]]; auto.
          destruct (eq_dec x cur) as [->|Hn]; [right; exact Hc|left; auto].
        * intros pre n post st k Hl Hk. apply LI_edge; [assumption|assumption|]. apply (nbr_arc (l := l') (h := h4)); [assumption|assumption|]. rewrite Hl. apply in_or_app. right. left. reflexivity.
        * intros [pred' q'] k (K1 & K2 & K3). apply kn_whenok; [apply kn_sn|]. intros _ k' E5. apply whenok_ret. split; [congruence|]. cbn [fst snd] in *.
          split; assumption.
  Qed.
  Lemma leftover_loop fuel pred q h : LI (pred, q) h -> whenok (loop fuel (prim_body peek_item source) (pred, q)) h (fun pred _ =>
       (forall x, In x old -> x = source \/ In x (dkeys pred)) /\ (forall x, In x (dkeys pred) -> reach (arc g) source x)).
  Proof. intros H. apply whenok_loop with (I := LI); [assumption|]. apply LI_body. Qed.
End PS.
