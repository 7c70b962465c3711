(* Graph.random: the Euclidean modes and the runs that raise. *)
From Coq Require Import Permutation Sorted.
From Verif Require Import Py Util M_Graph M_Search M_Random P_Graph P_GraphLaws S_Random P_Random.
Set Implicit Arguments. Unset Strict Implicit.
Local Open Scope string_scope.
Local Open Scope list_scope.
Local Open Scope Z_scope.

(** ** the stable sort *)
Lemma insert_by_perm x l : Permutation (insert_by x l) (x :: l).
Proof. induction l as [|y t IH]; simpl; [reflexivity|]. destruct (_ <? _); [reflexivity|]. rewrite IH. apply perm_swap. Qed.
Lemma sort_by_perm l : Permutation (sort_by l) l.
Proof.
  unfold sort_by. assert (H : forall l acc, Permutation (fold_left (fun acc x => insert_by x acc) l acc) (l ++ acc)).
  { clear l. induction l as [|x t IH]; intros acc; simpl; [reflexivity|]. rewrite IH, insert_by_perm. rewrite Permutation_app_comm. simpl. constructor. apply Permutation_app_comm. }
  rewrite H, app_nil_r. reflexivity.
Qed.
Notation le2 := (fun a b : Z * Z => snd a <= snd b).
Lemma insert_by_sorted x l : StronglySorted le2 l -> StronglySorted le2 (insert_by x l).
Proof.
  induction 1 as [|y t Ht IH Hy]; simpl; [repeat constructor|]. destruct (Z.ltb_spec (snd x) (snd y)) as [L|L].
  - constructor; [constructor; assumption|]. constructor; [lia|]. revert Hy. apply Forall_impl. intros; lia.
  - constructor; [assumption|]. rewrite insert_by_perm. constructor; assumption.
Qed.
Lemma sort_by_sorted l : StronglySorted le2 (sort_by l).
Proof.
  unfold sort_by. assert (H : forall l acc, StronglySorted le2 acc -> StronglySorted le2 (fold_left (fun acc x => insert_by x acc) l acc)).
  { clear l. induction l as [|x t IH]; intros acc Ha; simpl; [assumption|]. apply IH, insert_by_sorted. assumption. }
  apply H. constructor.
Qed.
Lemma sorted_first l : StronglySorted le2 l -> forall t a b, In a (firstn t l) -> In b l -> snd b < snd a -> In b (firstn t l).
Proof.
  induction 1 as [|y l Hl IH Hy]; intros t a b Ha Hb Hlt; destruct t; simpl in *; try contradiction.
  destruct Hb as [->|Hb]; [auto|]. right. destruct Ha as [<-|Ha]; [|eapply IH; eauto].
  rewrite Forall_forall in Hy. specialize (Hy b Hb). lia.
Qed.

Definition val_at (kw : attrs) (a : string) : val := match dget kw a with Some v => v | None => VNone end.
(* the coordinates stored in a node's attributes *)
Definition loc_of (kw : attrs) : val * val := (val_at kw "locationx", val_at kw "locationy").

Section Euclid.
  Variable o : oracle.
  Variable p : params.
  Variable g : graph.
  Hypothesis Wg : wf g.
  Hypothesis Hfree : free_names g (numnodes p).
  Hypothesis Hnd : NoDup (dkeys (edge_format p)).
  Notation n := (numnodes p).
  Notation fmt := (edge_format p).

  Lemma ok_location nf lab CP h k new i (Q : val * val -> graph * nat -> Prop) : populated g h n nf fmt lab CP new -> 0 <= i < n -> Q (loc_of (nf i)) (h, k) -> ok (location i) (h, k) Q.
  Proof.
    intros P Hi HQ. unfold location.
    assert (E : forall a, get_node_attr (NI i) a h = (h, Ok (val_at (nf i) a))).
    { intros a. pose proof (pop_node_new P a Hi) as H. unfold obs in H. destruct (get_node_attr (NI i) a h) as [h' r] eqn:E. simpl in H. subst r. unfold get_node_attr in E. injection E as <- _. reflexivity. }
    apply ok_bind, ok_ong. eapply ok_weaken; [apply ok_eq; apply E|]. intros u s Hs; cbn beta in Hs; destruct Hs as [-> ->].
    apply ok_bind, ok_ong. eapply ok_weaken; [apply ok_eq; apply E|]. intros u s Hs; cbn beta in Hs; destruct Hs as [-> ->].
    apply ok_ret. exact HQ.
  Qed.
  Section Closest.
    Hypothesis Hf : ~ In "cost" (dkeys fmt).
    Variable nf : Z -> attrs.
    Definition dist (j m : Z) : Z := scaled o (loc_of (nf j)) (loc_of (nf m)).
    Notation CP := (fun i j c => c = Some (dist j i)).
    Notation pop := (fun h new => populated g h n nf fmt (add_labels p) CP new).
    Variables d1 d2 : Z.
    Hypothesis Hd : d1 <= d2.
    Hypothesis Hd2 : d2 + 1 <= n.

    Lemma check_grow h h' new new' x y : pop h new -> pop h' (new ++ new') -> check_edge h x y = true -> check_edge h' x y = true.
    Proof.
      intros P P'. assert (D : forall e, dmem (g_edges h) e = true -> dmem (g_edges h') e = true).
      { intros e H. apply dmem_In. apply dmem_In in H. change (In e (get_edge_list h')). change (In e (get_edge_list h)) in H.
        rewrite (pop_edges P) in H. rewrite (pop_edges P'). rewrite app_assoc. apply in_or_app; auto. }
      unfold check_edge. rewrite (pop_type P), (pop_type P'). destruct (g_type g); [apply D|].
      intros H. apply orb_prop in H as [H|H]; apply orb_true_iff; auto.
    Qed.
    Definition sl (m : Z) : list (Z * Z) := sort_by (map (fun j => (j, dist j m)) (zrange n)).
    Lemma In_sl m e : In e (sl m) <-> 0 <= fst e < n /\ snd e = dist (fst e) m.
    Proof.
      unfold sl. split.
      - intros H. apply (Permutation_in _ (sort_by_perm _)) in H. apply in_map_iff in H as (j & <- & Hj). apply In_zrange in Hj. auto.
      - intros [H1 H2]. apply (Permutation_in _ (Permutation_sym (sort_by_perm _))). apply in_map_iff. exists (fst e). destruct e; simpl in *; subst. split; [reflexivity|]. apply In_zrange; assumption.
    Qed.
    Lemma sl_nodup m : NoDup (map fst (sl m)).
    Proof.
      unfold sl. eapply Permutation_NoDup; [apply Permutation_map, Permutation_sym, sort_by_perm|]. rewrite map_map. simpl. rewrite map_id. apply NoDup_zrange.
    Qed.
    Lemma sl_len m : length (sl m) = Z.to_nat n.
    Proof. unfold sl. rewrite (Permutation_length (sort_by_perm _)), map_length. apply length_zrange. Qed.

    (* what holds of the neighbours of m once it is done *)
    Definition near (h : graph) (m : Z) (t : nat) : Prop := forall e, In e (firstn t (sl m)) -> fst e = m \/ check_edge h (NI m) (NI (fst e)) = true.
    Lemma ok_closest m d h k new : 0 <= m < n -> d <= d2 -> pop h new ->
      ok (closest_node o p m d) (h, k) (fun _ s => exists added, pop (fst s) (new ++ added) /\
        (forall x y, In (x, y) added -> x = NI m /\ exists e, y = NI (fst e) /\ In e (firstn (Z.to_nat (d + 1)) (sl m))) /\ near (fst s) m (Z.to_nat (d + 1))).
    Proof.
      intros Hm Hdd P. unfold closest_node. apply ok_bind.
      apply ok_foldM with (I := fun pre l s => s = (h, k) /\ l = map (fun j => (j, dist j m)) pre); [auto| |].
      - intros pre j post l s E [-> ->]. destruct (zrange_fresh E) as (_ & Hj & _). apply ok_bind, (ok_location P Hj), ok_bind, (ok_location P Hm), ok_ret.
        split; [reflexivity|]. rewrite map_app. reflexivity.
      - intros l s [-> ->]. fold (sl m).
        apply ok_forM with (I := fun done s => exists added, pop (fst s) (new ++ added) /\
          (forall x y, In (x, y) added -> x = NI m /\ exists e, y = NI (fst e) /\ In e (firstn (length done) (sl m))) /\ near (fst s) m (length done)).
        + exists []. rewrite app_nil_r. split; [exact P|]. split; [intros x y []|intros e []].
        + intros pre i post [h1 k1] E (added & P1 & A1 & B1). cbn [fst] in *.
          assert (Hi : i = Z.of_nat (length pre)).
          { unfold zrange in E. assert (Hn : nth_error (pre ++ i :: post) (length pre) = Some i) by (rewrite nth_error_app2 by lia; rewrite Nat.sub_diag; reflexivity).
            rewrite <- E, nth_error_map in Hn. destruct (nth_error (seq 0 (Z.to_nat (d + 1))) (length pre)) as [q|] eqn:Eq; [|discriminate]. injection Hn as <-.
            assert (Hlt : (length pre < length (seq 0 (Z.to_nat (d + 1))))%nat) by (apply nth_error_Some; congruence). rewrite seq_length in Hlt.
            pose proof (nth_error_nth _ _ 0%nat Eq) as Hq. rewrite seq_nth in Hq by assumption. lia. }
          destruct (zrange_fresh E) as (_ & Hir & _).
          destruct (nth_error (sl m) (Z.to_nat i)) as [e|] eqn:Ee.
          2:{ exfalso. apply nth_error_None in Ee. rewrite sl_len in Ee. lia. }
          apply ok_bind. apply ok_lift with (a := e); [reflexivity|]. apply ok_bind, ok_gets. cbn [fst].
          assert (Hfirst : firstn (length (pre ++ [i])) (sl m) = firstn (length pre) (sl m) ++ [e]).
          { rewrite app_length. simpl. rewrite Nat.add_1_r. apply nth_error_split in Ee as (l1 & l2 & El & Hl1). rewrite El.
            replace (length pre) with (length l1) by lia. rewrite firstn_app, firstn_all2 by lia. rewrite firstn_app, firstn_all. 
            replace (S (length l1) - length l1)%nat with 1%nat by lia. rewrite Nat.sub_diag. simpl. rewrite app_nil_r. reflexivity. }
          assert (Hin : In e (sl m)) by (eapply nth_error_In; eauto). apply In_sl in Hin as [He1 He2].
          unfold near. rewrite Hfirst.
          destruct (Z.eqb_spec (fst e) m) as [Hem|Hem]; [|destruct (check_edge h1 (NI m) (NI (fst e))) eqn:Hc]; cbn [orb].
          * apply ok_ret. exists added. split; [exact P1|]. split.
            -- intros x y Hxy. destruct (A1 x y Hxy) as (-> & e' & -> & He'). split; [reflexivity|]. exists e'. split; [reflexivity|]. apply in_or_app; auto.
            -- intros e' He'. apply in_app_or in He' as [He'|[<-|[]]]; auto.
          * apply ok_ret. exists added. split; [exact P1|]. split.
            -- intros x y Hxy. destruct (A1 x y Hxy) as (-> & e' & -> & He'). split; [reflexivity|]. exists e'. split; [reflexivity|]. apply in_or_app; auto.
            -- intros e' He'. apply in_app_or in He' as [He'|[<-|[]]]; auto.
          * eapply ok_weaken; [apply (@ok_cost_edge p g Hnd nf CP h1 k1 (new ++ added) m (fst e) (snd e) Hf P1 Hm He1 (not_eq_sym Hem) Hc); rewrite He2; reflexivity|].
            intros u [h2 k2] P2. cbn [fst] in *. exists (added ++ [(NI m, NI (fst e))]). rewrite app_assoc. split; [exact P2|]. split.
            -- intros x y Hxy. apply in_app_or in Hxy as [Hxy|[[= <- <-]|[]]].
               ++ destruct (A1 x y Hxy) as (-> & e' & -> & He'). split; [reflexivity|]. exists e'. split; [reflexivity|]. apply in_or_app; auto.
               ++ split; [reflexivity|]. exists e. split; [reflexivity|]. apply in_or_app; simpl; auto.
            -- intros e' He'. apply in_app_or in He' as [He'|[<-|[]]].
               ++ destruct (B1 e' He') as [?|Hc']; [auto|]. right. eapply check_grow; [exact P1|exact P2|exact Hc'].
               ++ right. apply edge_in_check. rewrite (pop_edges P2). rewrite !in_app_iff. simpl; auto.
        + intros [h1 k1] (added & P1 & A1 & B1). rewrite length_zrange in A1, B1. exists added. auto.
    Qed.
    (* the two claims about what is joined to what *)
    Definition closest_first (h : graph) (new : list (name * name)) : Prop :=
      forall m j j', In (NI m, NI j) new -> 0 <= j' < n -> dist j' m < dist j m -> j' = m \/ check_edge h (NI m) (NI j') = true.
    Definition enough_neighbours (h : graph) (m : Z) : Prop :=
      exists l, NoDup l /\ d1 <= Z.of_nat (length l) /\ forall j, In j l -> j <> m /\ check_edge h (NI m) (NI j) = true.
    Hypothesis Hsel : node_selection p = "closest".
    Lemma ok_euclid_closest h k : pop h [] ->
      ok (foldM (fun stop m => if stop : bool then ret true else euclid_degree_node o p d1 d2 m) (zrange n) false) (h, k)
        (fun _ s => exists new, pop (fst s) new /\ closest_first (fst s) new /\ forall m, 0 <= m < n -> enough_neighbours (fst s) m).
    Proof.
      intros P. apply ok_foldM with (I := fun pre stop s => stop = false /\ exists new, pop (fst s) new /\ closest_first (fst s) new /\ forall m, In m pre -> enough_neighbours (fst s) m).
      - split; [reflexivity|]. exists []. split; [exact P|]. split; [intros m j j' []|intros m []].
      - intros pre m post stop [h1 k1] E (-> & new & P1 & C1 & D1). cbn [fst] in *. destruct (zrange_fresh E) as (_ & Hm & _).
        unfold euclid_degree_node. apply ok_bind, ok_randint; [assumption|]. intros d Hdr. cbn [fst snd]. rewrite Hsel.
        change (eqb "closest" "random") with false. change (eqb "closest" "closest") with true. cbv iota.
        apply ok_bind. eapply ok_weaken; [apply (ok_closest (S k1) Hm (proj2 Hdr) P1)|]. intros u [h2 k2] (added & P2 & A2 & N2). cbn [fst] in *. apply ok_ret.
        split; [reflexivity|]. exists (new ++ added). split; [exact P2|]. split.
        + intros a j j' Hj Hj' Hlt. apply in_app_or in Hj as [Hj|Hj].
          * destruct (C1 a j j' Hj Hj' Hlt) as [?|Hc]; [auto|]. right. apply (check_grow P1 P2 Hc).
          * destruct (A2 _ _ Hj) as ([= ->] & e & [= ->] & He).
            assert (Hsl : In e (sl m)) by (rewrite <- (firstn_skipn (Z.to_nat (d + 1)) (sl m)); apply in_or_app; auto). apply In_sl in Hsl as [_ He2].
            apply (N2 (j', dist j' m)). apply (sorted_first (sort_by_sorted _)) with (a := e); [exact He|apply In_sl; auto|simpl; lia].
        + intros a Ha. apply in_app_or in Ha as [Ha|[<-|[]]].
          * destruct (D1 a Ha) as (l & L1 & L2 & L3). exists l. split; [assumption|]. split; [assumption|]. intros j Hj. destruct (L3 j Hj) as [? Hc]. split; [assumption|]. apply (check_grow P1 P2 Hc).
          * set (l := map fst (firstn (Z.to_nat (d + 1)) (sl m))).
            assert (Nl : NoDup l) by (unfold l; rewrite <- firstn_map; pose proof (sl_nodup m) as H; rewrite <- (firstn_skipn (Z.to_nat (d + 1)) (map fst (sl m))) in H; apply NoDup_app_iff in H; exact (proj1 H)).
            assert (Ll : length l = Z.to_nat (d + 1)) by (unfold l; rewrite map_length, firstn_length, sl_len; lia).
            exists (remove Z.eq_dec m l). split; [|split].
            -- clear - Nl. induction Nl as [|x l Hx Nl IH]; simpl; [constructor|]. destruct (Z.eq_dec m x); [assumption|]. constructor; [|assumption]. intros H. apply List.in_remove in H as [H _]. contradiction.
            -- assert (Hr : (length l <= S (length (remove Z.eq_dec m l)))%nat).
               { clear - Nl. induction Nl as [|x l Hx Nl IH]; simpl; [lia|]. destruct (Z.eq_dec m x) as [->|]; simpl; [|lia]. rewrite List.notin_remove by assumption. lia. }
               lia.
            -- intros j Hj. apply List.in_remove in Hj as [Hj Hjm]. split; [assumption|]. apply in_map_iff in Hj as (e & <- & He). destruct (N2 e He); [contradiction|assumption].
      - intros stop [h1 k1] (_ & new & P1 & C1 & D1). exists new. split; [exact P1|]. split; [exact C1|]. intros m Hm. apply D1, In_zrange. assumption.
    Qed.
  End Closest.
End Euclid.

(** ** runs that may raise: [out h E x] says the run x ended normally with graph h, or raised as E says *)
Definition out (h : graph) (E : exn -> graph -> Prop) (x : (graph * nat) * res unit) : Prop :=
  (snd x = Ok tt /\ fst (fst x) = h) \/ (exists e, snd x = Err e /\ E e (fst (fst x))).
Lemma forM_out {A} (f : A -> M (graph * nat) unit) h E l : (forall a k, In a l -> out h E (f a (h, k))) -> forall k, out h E (forM_ l f (h, k)).
Proof.
  unfold forM_. induction l as [|a l IH]; intros Hf k; [left; auto|]. simpl. unfold bind at 1.
  pose proof (Hf a k (or_introl eq_refl)) as Ha. destruct (f a (h, k)) as [[h' k'] r]. destruct Ha as [[Hr Hh]|(e & Hr & HE)]; simpl in *; subst.
  - apply IH. intros; apply Hf; auto.
  - right. exists e. auto.
Qed.
Lemma bind_out {A} (m : M (graph * nat) A) (f : A -> M (graph * nat) unit) h E k :
  (exists a k', m (h, k) = ((h, k'), Ok a) /\ out h E (f a (h, k'))) -> out h E (bind m f (h, k)).
Proof. intros (a & k' & Em & Ho). unfold bind. rewrite Em. exact Ho. Qed.

Section Raise.
  Variable o : oracle.
  Variable p : params.
  Variable g : graph.
  Hypothesis Wg : wf g.
  Hypothesis Hfree : free_names g (numnodes p).
  Hypothesis Hnd : NoDup (dkeys (edge_format p)).
  Notation n := (numnodes p).
  Notation fmt := (edge_format p).
  Variable nf : Z -> attrs.
  Variables d1 d2 : Z.
  Hypothesis Hd : d1 <= d2.

  Lemma randint_eq a b h k : a <= b -> exists z, a <= z <= b /\ randint o a b (h, k) = ((h, S k), Ok z).
  Proof.
    intros Hab. unfold randint. destruct (Z.ltb_spec b a); [lia|]. eexists. split; [|reflexivity].
    pose proof (Z.mod_pos_bound (rnd o (snd (h, k))) (b - a + 1)). lia.
  Qed.
  (* no length range: the degree loops add nothing *)
  Lemma degree_no_length h k : 2 <= n \/ d2 <= 0 -> length_range p = None -> out h (fun _ _ => False) (forM_ (zrange n) (degree_node o p d1 d2) (h, k)).
  Proof.
    intros Hn Hl. apply forM_out. intros m k1 _. unfold degree_node. apply bind_out. destruct (randint_eq h k1 Hd) as (d & Hdr & E). exists d, (S k1). split; [exact E|].
    apply forM_out. intros i k2 Hi. apply In_zrange in Hi. unfold degree_try. apply bind_out.
    assert (H1 : 1 <= n - 1) by (destruct Hn; lia).
    destruct (randint_eq h k2 H1) as (j & Hj & Ej). exists j, (S k2). split; [exact Ej|].
    apply bind_out. eexists _, (S k2). split; [reflexivity|]. apply bind_out. eexists _, (S k2). split; [reflexivity|]. rewrite Hl.
    destruct (_ && _); left; auto.
  Qed.
  (* no labels but a length range: the first edge is added twice *)
  Lemma degree_no_labels lo hi h k : 2 <= n \/ d2 <= 0 -> length_range p = Some (lo, hi) -> lo <= hi -> add_labels p = false ->
    parallel_allowed p = false \/ g_type g = Directed -> ~ In "cost" (dkeys fmt) ->
    populated g h n nf fmt false (cost_in (Some (lo, hi))) [] ->
    out h (fun e h' => e = MultipleEdgeException /\ exists x y, populated g h' n nf fmt false (cost_in (Some (lo, hi))) [(x, y)])
        (forM_ (zrange n) (degree_node o p d1 d2) (h, k)).
  Proof.
    intros Hn Hl Hlo Hlab Hpar Hf P. apply forM_out. intros m k1 Hm. apply In_zrange in Hm. unfold degree_node. apply bind_out. destruct (randint_eq h k1 Hd) as (d & Hdr & E). exists d, (S k1). split; [exact E|].
    apply forM_out. intros i k2 Hi. apply In_zrange in Hi. unfold degree_try. apply bind_out.
    assert (H1 : 1 <= n - 1) by (destruct Hn; lia).
    destruct (randint_eq h k2 H1) as (j & Hj & Ej). exists j, (S k2). split; [exact Ej|].
    apply bind_out. eexists _, (S k2). split; [reflexivity|]. apply bind_out. eexists _, (S k2). split; [reflexivity|]. rewrite Hl. cbn [fst].
    destruct (_ && _) eqn:Eb; [|left; auto]. apply andb_prop in Eb as [Eb E3]. apply andb_prop in Eb as [E1 E2]. apply negb_true_iff in E1, E2. apply Z.eqb_neq in E2.
    apply bind_out. destruct (randint_eq h (S k2) Hlo) as (len & Hlr & El). exists len, (S (S k2)). split; [exact El|].
    assert (Hc : check_edge h (NI m) (NI j) = false).
    { unfold check_edge. rewrite E1, (pop_type P). destruct (g_type g) eqn:T; [reflexivity|]. simpl.
      destruct Hpar as [Hp|]; [|discriminate]. rewrite Hp in E3. simpl in E3. apply negb_true_iff in E3. exact E3. }
    assert (Hj' : 0 <= j < n) by lia.
    assert (HC : cost_in (Some (lo, hi)) m j (Some len)) by (exists len; auto).
    pose proof (mk_edge_ok Hnd P Hm Hj' E2 Hc HC (fun _ => Hf)) as HM. unfold mk_edge in HM. destruct (ok_ex HM) as (h2 & [] & E2' & P2).
    unfold bind in E2'. destruct (add_edge (NI m) (NI j) (("cost", VI len) :: fmt) h) as [h1 r] eqn:EA. destruct r as [[]|]; [|discriminate]. injection E2' as ->.
    right. exists MultipleEdgeException. unfold bind, add_cost_edge, bind, kwargs. simpl. apply dmem_nIn in Hf. rewrite Hf. simpl. unfold ong. cbn [fst snd]. rewrite EA.
    rewrite Hlab. cbn [fst snd].
    assert (Hdup : check_edge h2 (NI m) (NI j) = true) by (apply edge_in_check; rewrite (pop_edges P2); apply in_or_app; simpl; auto).
    rewrite (add_edge_dup fmt Hdup). cbn [fst snd]. split; [reflexivity|]. split; [reflexivity|]. exists (NI m), (NI j). exact P2.
  Qed.
End Raise.

(* a name already taken *)
Lemma taken_raises (body : Z -> M (graph * nat) unit) i : (forall i k, exists kw k', NoDup (dkeys kw) /\ forall h, body i (h, k) = (let '(h', r) := add_node (NI i) kw h in ((h', k'), r))) ->
  forall l h k, wf h -> In i l -> In (NI i) (get_node_list h) -> exists s, forM_ l body (h, k) = (s, Err MultipleNodeException).
Proof.
  intros Hb. unfold forM_. induction l as [|j l IH]; intros h k W Hi Ht; [destruct Hi|]. simpl. unfold bind at 1.
  destruct (Hb j k) as (kw & k' & Nd & E). rewrite E. destruct (in_dec eq_dec (NI j) (get_node_list h)) as [Hj|Hj].
  - rewrite add_node_eq by assumption. eauto.
  - destruct (add_node_views W Nd Hj) as (h2 & E2 & W2 & _ & N2 & _). rewrite E2. apply IH; [assumption| |rewrite N2; apply in_or_app; auto].
    destruct Hi as [->|Hi]; [contradiction|assumption].
Qed.
