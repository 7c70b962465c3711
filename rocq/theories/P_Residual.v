(* create_residual_graph, find_cycle_capacity, augment_cycle. *)
From Verif Require Import Py Util M_Graph P_Graph P_GraphLaws Spec P_Attr M_Search M_Flow M_MinCost S_Flow S_GraphFlow S_MinCost P_Flow P_EdgeFrame P_MinCostAbs.
Set Implicit Arguments. Unset Strict Implicit.
Local Open Scope string_scope. Local Open Scope list_scope.

(* capacities c and flows f are stored on the arcs *)
Record FS (g : graph) (c f : fn) : Prop := {
  fs_cap : forall x y, In (x, y) (get_edge_list g) -> eattr g x y "capacity" = Some (VI (c (x, y)));
  fs_flow : forall x y, In (x, y) (get_edge_list g) -> eattr g x y "flow" = Some (VI (f (x, y)))
}.
Lemma FS_ext g c f c' f' : (forall e, In e (get_edge_list g) -> c e = c' e) -> (forall e, In e (get_edge_list g) -> f e = f' e) -> FS g c f -> FS g c' f'.
Proof. intros Hc Hf [H1 H2]. constructor; intros x y He; [rewrite <- Hc by exact He; auto|rewrite <- Hf by exact He; auto]. Qed.

(** ** graphs built by add_edge *)
Record built (L : list ((name * name) * attrs)) (r : graph) : Prop := {
  b_wf : wf r;
  b_dir : g_type r = Directed;
  b_edges : get_edge_list r = map fst L;
  b_attr : forall x y kw a, In ((x, y), kw) L -> eattr r x y a = dget kw a;
  b_nodes : forall x, In x (get_node_list r) <-> exists p, In p (map fst L) /\ (x = fst p \/ x = snd p)
}.
Lemma built_nil : built [] (new_graph (Some Directed) []).
Proof.
  constructor; try reflexivity; try (intros; contradiction).
  - apply (wf_new (Some Directed) []).
  - intros x. simpl. split; [tauto|]. intros (p & [] & _).
Qed.
Lemma eattr_obs r x y a : eattr r x y a = match obs (get_edge_attr x y a) r with Ok v => Some v | Err _ => None end.
Proof. reflexivity. Qed.
Lemma on_add_new L r x y kw g : built L r -> ~ In (x, y) (map fst L) -> NoDup (dkeys kw) ->
  exists r', on (add_edge x y kw) r g = (g, Ok r') /\ built (L ++ [((x, y), kw)]) r'.
Proof.
  intros B Hn Hk. destruct (@add_edge_views r x y kw (b_wf B) Hk) as (r' & E & W' & D' & Nl & El & A1 & A2 & _).
  { unfold check_edge. rewrite (b_dir B). apply dmem_nIn. change (dkeys (g_edges r)) with (get_edge_list r). rewrite (b_edges B). exact Hn. }
  exists r'. split; [unfold on; rewrite E; reflexivity|]. constructor.
  - exact W'.
  - rewrite D'. apply (b_dir B).
  - rewrite El, (b_edges B), map_app. reflexivity.
  - intros u v kw' a H. apply in_app_iff in H as [H|[[= <- <- <-]|[]]].
    + rewrite eattr_obs, A2, <- eattr_obs; [apply (b_attr B a H)|]. unfold check_edge. rewrite (b_dir B). apply dmem_In. change (dkeys (g_edges r)) with (get_edge_list r). rewrite (b_edges B).
      apply (in_map fst) in H. exact H.
    + rewrite eattr_obs, A1. destruct (dget kw a); reflexivity.
  - intros z. rewrite Nl, map_app. assert (K : In z (get_node_list r ++ (if mem x (get_node_list r) then [] else [x]) ++ (if mem y (get_node_list r ++ [x]) then [] else [y])) <-> In z (get_node_list r) \/ z = x \/ z = y).
    { rewrite !in_app_iff. destruct (mem_spec x (get_node_list r)) as [Hx|Hx], (mem_spec y (get_node_list r ++ [x])) as [Hy|Hy]; rewrite in_app_iff in Hy; simpl in *; intuition (subst; auto). }
    rewrite K, (b_nodes B). split.
    + intros [(p & Hp & Hz)|Hz]; [exists p; rewrite in_app_iff; auto|]. exists (x, y). rewrite in_app_iff. simpl. tauto.
    + intros (p & Hp & Hz). apply in_app_iff in Hp as [Hp|[<-|[]]]; [left; eauto|]. simpl in Hz. auto.
Qed.
Lemma on_add_old L r x y kw g : built L r -> In (x, y) (map fst L) -> on (add_edge x y kw) r g = (g, Err MultipleEdgeException).
Proof.
  intros B Hi. unfold on. assert (E : check_edge r x y = true).
  { unfold check_edge. rewrite (b_dir B). apply dmem_In. change (dkeys (g_edges r)) with (get_edge_list r). rewrite (b_edges B). exact Hi. }
  rewrite (add_edge_dup kw E). reflexivity.
Qed.

(** ** the arcs of the residual graph *)
Section Residual.
  Variables c f k : fn.
  Definition backward (e : name * name) : list ((name * name) * attrs) :=
    if (f e >? 0)%Z then [((snd e, fst e), [("cost", VI (-1 * k e)); ("capacity", VI (f e))])] else [].
  Definition forward (e : name * name) : list ((name * name) * attrs) :=
    if (c e - f e >? 0)%Z then [(e, [("cost", VI (k e)); ("capacity", VI (c e - f e))])] else [].
  Definition rarcs (e : name * name) := backward e ++ forward e.
  Lemma nd2 (v w : val) : NoDup (dkeys [("cost", v); ("capacity", w)]).
  Proof. repeat constructor; simpl; intuition discriminate. Qed.
  Lemma on_add L r (x : list ((name * name) * attrs)) p kw g : built L r -> x = [] \/ (x = [(p, kw)] /\ NoDup (dkeys kw)) ->
    let m := if x then ret r else on (add_edge (fst p) (snd p) kw) r in
    (NoDup (map fst (L ++ x)) -> exists r', m g = (g, Ok r') /\ built (L ++ x) r') /\
    (NoDup (map fst L) -> ~ NoDup (map fst (L ++ x)) -> m g = (g, Err MultipleEdgeException)).
  Proof.
    intros B [->|[-> Hk]]; cbv zeta iota.
    - rewrite app_nil_r. split; [intros _; exists r; split; [reflexivity|exact B]|contradiction].
    - destruct p as [u v]. cbn [fst snd]. rewrite map_app. cbn [map fst]. split.
      + intros Hn. apply NoDup_snoc in Hn as [_ Hn]. apply (on_add_new g B Hn Hk).
      + intros Hn H. apply on_add_old with (L := L); [exact B|]. destruct (mem_spec (u, v) (map fst L)) as [|Hi]; [assumption|]. exfalso. apply H, NoDup_snoc. auto.
  Qed.
  Lemma step_eq g r e : FS g c f -> eattr g (fst e) (snd e) "cost" = Some (VI (k e)) -> In e (get_edge_list g) ->
    residual_step r e g = bind (if backward e then ret r else on (add_edge (snd e) (fst e) [("cost", VI (-1 * k e)); ("capacity", VI (f e))]) r)
      (fun r => if forward e then ret r else on (add_edge (fst e) (snd e) [("cost", VI (k e)); ("capacity", VI (c e - f e))]) r) g.
  Proof.
    intros F Hk He. destruct e as [x y]. cbn [fst snd] in *. pose proof (fs_cap F He) as H1. pose proof (fs_flow F He) as H2. unfold eattr in H1, H2, Hk. unfold residual_step. cbn [fst snd].
    assert (E : forall a v, match obs (get_edge_attr x y a) g with Ok v => Some v | Err _ => None end = Some v -> get_edge_attr x y a g = (g, Ok v)).
    { intros a v H. unfold obs in H. destruct (get_edge_attr x y a g) as [g' [w|]] eqn:E; [|discriminate]. injection H as ->. unfold get_edge_attr in E. congruence. }
    rewrite (bind_ok _ (E _ _ H1)), (bind_ok _ (E _ _ H2)), (bind_ok _ (E _ _ Hk)). unfold as_int at 1 2 3. erewrite bind_ok by reflexivity. erewrite bind_ok by reflexivity. erewrite bind_ok by reflexivity.
    unfold backward, forward. destruct (f (x, y) >? 0)%Z, (c (x, y) - f (x, y) >? 0)%Z; reflexivity.
  Qed.
  Lemma step_spec g L r e : FS g c f -> eattr g (fst e) (snd e) "cost" = Some (VI (k e)) -> In e (get_edge_list g) -> built L r -> NoDup (map fst L) ->
    (NoDup (map fst (L ++ rarcs e)) -> exists r', residual_step r e g = (g, Ok r') /\ built (L ++ rarcs e) r') /\
    (~ NoDup (map fst (L ++ rarcs e)) -> residual_step r e g = (g, Err MultipleEdgeException)).
  Proof.
    intros F Hk He B HL. rewrite (step_eq r F Hk He). unfold rarcs. rewrite app_assoc.
    assert (XB : backward e = [] \/ backward e = [((snd e, fst e), [("cost", VI (-1 * k e)); ("capacity", VI (f e))])] /\ NoDup (dkeys [("cost", VI (-1 * k e)); ("capacity", VI (f e))])).
    { unfold backward. destruct (f e >? 0)%Z; [right; split; [reflexivity|apply nd2]|left; reflexivity]. }
    assert (XF : forward e = [] \/ forward e = [((fst e, snd e), [("cost", VI (k e)); ("capacity", VI (c e - f e))])] /\ NoDup (dkeys [("cost", VI (k e)); ("capacity", VI (c e - f e))])).
    { unfold forward. rewrite <- surjective_pairing. destruct (c e - f e >? 0)%Z; [right; split; [reflexivity|apply nd2]|left; reflexivity]. }
    destruct (on_add g B XB) as [P1 P2]. cbv zeta in P1, P2. cbn [fst snd] in P1, P2.
    assert (Dec : NoDup (map fst (L ++ backward e)) \/ ~ NoDup (map fst (L ++ backward e))).
    { destruct XB as [->|[-> _]]; [rewrite app_nil_r; auto|]. rewrite map_app. cbn [map fst]. destruct (mem_spec (snd e, fst e) (map fst L)) as [Hi|Hi].
      - right. intros K. apply NoDup_snoc in K as [_ K]. contradiction.
      - left. apply NoDup_snoc. auto. }
    destruct Dec as [Hd|Hd].
    - destruct (P1 Hd) as (r1 & E1 & B1). destruct (on_add g B1 XF) as [Q1 Q2]. cbv zeta in Q1, Q2. cbn [fst snd] in Q1, Q2. split.
      + intros Hn. destruct (Q1 Hn) as (r2 & E2 & B2). exists r2. split; [|exact B2]. rewrite (bind_ok _ E1). exact E2.
      + intros Hn. rewrite (bind_ok _ E1). exact (Q2 Hd Hn).
    - split.
      + intros Hn. exfalso. apply Hd. rewrite map_app in Hn. apply NoDup_app_iff in Hn as [Hn _]. exact Hn.
      + intros _. rewrite (bind_err _ (P2 HL Hd)). reflexivity.
  Qed.
  Lemma fold_spec g es : FS g c f -> (forall e, In e es -> In e (get_edge_list g) /\ eattr g (fst e) (snd e) "cost" = Some (VI (k e))) -> forall L r, built L r -> NoDup (map fst L) ->
    (NoDup (map fst (L ++ flat_map rarcs es)) -> exists r', foldM residual_step es r g = (g, Ok r') /\ built (L ++ flat_map rarcs es) r') /\
    (~ NoDup (map fst (L ++ flat_map rarcs es)) -> foldM residual_step es r g = (g, Err MultipleEdgeException)).
  Proof.
    intros F. induction es as [|e es IH]; intros He L r B HL.
    - simpl. rewrite app_nil_r. split; [intros _; exists r; split; [reflexivity|exact B]|contradiction].
    - cbn [flat_map foldM]. destruct (He e (or_introl eq_refl)) as [He1 He2]. destruct (step_spec F He2 He1 B HL) as [S1 S2]. rewrite app_assoc.
      assert (Dec : NoDup (map fst (L ++ rarcs e)) \/ ~ NoDup (map fst (L ++ rarcs e))) by (destruct (ListDec.NoDup_dec eq_dec (map fst (L ++ rarcs e))); auto).
      destruct Dec as [Hd|Hd].
      + destruct (S1 Hd) as (r1 & E1 & B1). destruct (IH (fun e' H => He e' (or_intror H)) _ _ B1 Hd) as [I1 I2]. split.
        * intros Hn. destruct (I1 Hn) as (r2 & E2 & B2). exists r2. split; [|exact B2]. rewrite (bind_ok _ E1). exact E2.
        * intros Hn. rewrite (bind_ok _ E1). exact (I2 Hn).
      + split.
        * intros Hn. exfalso. apply Hd. rewrite map_app in Hn. apply NoDup_app_iff in Hn as [Hn _]. exact Hn.
        * intros _. rewrite (bind_err _ (S2 Hd)). reflexivity.
  Qed.
  (* distinct arcs *)
  Lemma in_keys p e : In p (map fst (rarcs e)) <-> ((0 < f e)%Z /\ p = (snd e, fst e)) \/ ((f e < c e)%Z /\ p = e).
  Proof.
    unfold rarcs. rewrite map_app, in_app_iff. unfold backward, forward. destruct (Z.gtb_spec (f e) 0), (Z.gtb_spec (c e - f e) 0); simpl; intuition (try lia; subst; auto).
  Qed.
  Lemma keys_flat es p : In p (map fst (flat_map rarcs es)) <-> exists e, In e es /\ (((0 < f e)%Z /\ p = (snd e, fst e)) \/ ((f e < c e)%Z /\ p = e)).
  Proof.
    rewrite in_map_iff. split.
    - intros ([q kw] & E & H). simpl in E. subst q. apply in_flat_map in H as (e & He & H). exists e. split; [exact He|]. apply in_keys. apply (in_map fst) in H. exact H.
    - intros (e & He & H). apply in_keys in H. apply in_map_iff in H as (q & <- & H). exists q. split; [reflexivity|]. apply in_flat_map. eauto.
  Qed.
  Lemma keys_of e : map fst (rarcs e) = (if (f e >? 0)%Z then [(snd e, fst e)] else []) ++ (if (c e - f e >? 0)%Z then [e] else []).
  Proof. unfold rarcs, backward, forward. rewrite map_app. destruct (f e >? 0)%Z, (c e - f e >? 0)%Z; reflexivity. Qed.
  Lemma conflict_free es : NoDup es -> (forall x y, In (x, y) es -> In (y, x) es -> (f (x, y) < c (x, y))%Z -> (f (y, x) <= 0)%Z) -> NoDup (map fst (flat_map rarcs es)).
  Proof.
    intros Hn Hc. induction es as [|e es IH]; [constructor|]. cbn [flat_map]. rewrite map_app. apply NoDup_cons_iff in Hn as [Hi Hn]. apply NoDup_app_iff. split; [|split].
    - rewrite keys_of. destruct (Z.gtb_spec (f e) 0), (Z.gtb_spec (c e - f e) 0); simpl; repeat constructor; simpl; try tauto. intros [E|[]].
      destruct e as [x y]. cbn [fst snd] in E. injection E as -> _. specialize (Hc y y). specialize (Hc (or_introl eq_refl) (or_introl eq_refl)). lia.
    - apply IH; [exact Hn|]. intros x y H1 H2. apply Hc; simpl; auto.
    - intros p Hp Hp'. apply in_keys in Hp. apply keys_flat in Hp' as (e' & He' & Hp').
      destruct e as [x y], e' as [u v]. cbn [fst snd] in *. destruct Hp as [[H1 ->]|[H1 ->]], Hp' as [[H2 E]|[H2 E]].
      + injection E as -> ->. contradiction.
      + injection E as <- <-. assert (In (y, x) ((x, y) :: es)) by (simpl; auto). specialize (Hc y x H (or_introl eq_refl) H2). lia.
      + injection E as -> ->. specialize (Hc v u (or_introl eq_refl) (or_intror He') H1). lia.
      + injection E as -> ->. contradiction.
  Qed.
  Lemma conflict es x y : In (x, y) es -> In (y, x) es -> (f (x, y) < c (x, y))%Z -> (0 < f (y, x))%Z -> ~ NoDup (map fst (flat_map rarcs es)).
  Proof.
    intros H1 H2 Hf Hb Hn. assert (D : forall e es', NoDup (map fst (flat_map rarcs (e :: es'))) -> NoDup (map fst (rarcs e)) /\ NoDup (map fst (flat_map rarcs es')) /\ forall p, In p (map fst (rarcs e)) -> ~ In p (map fst (flat_map rarcs es'))).
    { intros e es'. cbn [flat_map]. rewrite map_app. apply NoDup_app_iff. }
    induction es as [|e es IH]; [destruct H1|]. apply D in Hn as (N1 & N2 & N3). destruct H1 as [->|H1], H2 as [E|H2].
    - injection E as ->. rewrite keys_of in N1. apply Z.gtb_lt in Hb. rewrite Hb in N1. assert (c (y, y) - f (y, y) >? 0 = true)%Z as E1 by (apply Z.gtb_lt; lia). rewrite E1 in N1.
      simpl in N1. inversion N1; subst. simpl in *. tauto.
    - apply (N3 (x, y)); [apply in_keys; right; auto|]. apply keys_flat. exists (y, x). split; [exact H2|]. left; auto.
    - subst e. apply (N3 (x, y)); [apply in_keys; left; auto|]. apply keys_flat. exists (x, y). split; [exact H1|]. right; auto.
    - apply IH; assumption.
  Qed.
End Residual.

(* the whole method, for any stored flows *)
Lemma residual_spec g c f k : wf g -> g_type g = Directed -> FS g c f -> (forall e, In e (get_edge_list g) -> eattr g (fst e) (snd e) "cost" = Some (VI (k e))) ->
  (NoDup (map fst (flat_map (rarcs c f k) (get_edge_list g))) -> exists r, create_residual_graph g = (g, Ok r) /\ built (flat_map (rarcs c f k) (get_edge_list g)) r) /\
  (~ NoDup (map fst (flat_map (rarcs c f k) (get_edge_list g))) -> create_residual_graph g = (g, Err MultipleEdgeException)).
Proof.
  intros W D F Hk. unfold create_residual_graph. erewrite bind_ok by reflexivity. rewrite D. erewrite bind_ok by reflexivity.
  apply (fold_spec F (fun e H => conj H (Hk e H)) built_nil). constructor.
Qed.
Lemma asym_conflict_free c f k es : NoDup es -> asymmetric es -> NoDup (map fst (flat_map (rarcs c f k) es)).
Proof. intros Hn As. apply conflict_free; [exact Hn|]. intros x y H1 H2. exfalso. apply (As x y H1 H2). Qed.

(** ** cycles *)
Lemma cycle_pairs_last x t : cycle_pairs (x :: t) = consecutive (x :: t) ++ [(last (x :: t) x, x)].
Proof.
  unfold cycle_pairs. enough (H : forall z t x d, combine (x :: t) (t ++ [z]) = consecutive (x :: t) ++ [(last (x :: t) d, z)]) by apply H.
  clear x t. intros z. induction t as [|y t IH]; intros x d; [reflexivity|]. change (combine (x :: y :: t) ((y :: t) ++ [z])) with ((x, y) :: combine (y :: t) (t ++ [z])). rewrite (IH y d). reflexivity.
Qed.
Lemma cycle_capacity_ok g cap x t : (forall p, In p (cycle_pairs (x :: t)) -> eattr g (fst p) (snd p) "capacity" = Some (VI (cap p))) ->
  ok (find_cycle_capacity (x :: t)) g (fun z h => h = g /\ (forall p, In p (cycle_pairs (x :: t)) -> (z <= cap p)%Z) /\ exists p, In p (cycle_pairs (x :: t)) /\ z = cap p).
Proof.
  rewrite cycle_pairs_last. intros H. unfold find_cycle_capacity. apply ok_bind. set (q := (last (x :: t) x, x)) in *.
  eapply ok_get_edge_attr; [apply (H q); apply in_app_iff; simpl; auto|]. apply ok_bind, ok_as_int.
  eapply ok_foldM with (I := fun pre z h => h = g /\ (forall p, In p (pre ++ [q]) -> (z <= cap p)%Z) /\ exists p, In p (pre ++ [q]) /\ z = cap p).
  - split; [reflexivity|]. split; [intros p [<-|[]]; lia|]. exists q. simpl. auto.
  - intros pre p post z h Ep (-> & H1 & H2). assert (Hp : In p (consecutive (x :: t))) by (rewrite Ep; apply in_app_iff; simpl; auto).
    apply ok_bind. eapply ok_get_edge_attr; [apply (H p); apply in_app_iff; auto|]. apply ok_bind, ok_as_int, ok_ret. split; [reflexivity|]. destruct H2 as (p0 & Hp0 & ->).
    split.
    + intros p' Hp'. rewrite <- app_assoc in Hp'. apply in_app_iff in Hp' as [Hp'|[<-|[<-|[]]]].
      * specialize (H1 p'). rewrite in_app_iff in H1. specialize (H1 (or_introl Hp')). destruct (Z.gtb_spec (cap p0) (cap p)); lia.
      * destruct (Z.gtb_spec (cap p0) (cap p)); lia.
      * specialize (H1 q). rewrite in_app_iff in H1. specialize (H1 (or_intror (or_introl eq_refl))). destruct (Z.gtb_spec (cap p0) (cap p)); lia.
    + destruct (cap p0 >? cap p)%Z; [exists p|exists p0]; (split; [|reflexivity]); rewrite <- app_assoc, !in_app_iff in *; simpl in *; tauto.
  - intros z h Hz. exact Hz.
Qed.
(* flows f are stored on the arcs *)
Definition FL (g : graph) (f : fn) : Prop := forall x y, In (x, y) (get_edge_list g) -> eattr g x y "flow" = Some (VI (f (x, y))).
Lemma FL_ext g f f' : (forall e, In e (get_edge_list g) -> f e = f' e) -> FL g f -> FL g f'.
Proof. intros Hf H x y He. rewrite <- Hf by exact He. auto. Qed.
Lemma FL_FS g h c f f' : FS g c f -> efr ["flow"] g h -> FL h f' -> FS h c f'.
Proof. intros F E H. constructor; [|exact H]. intros x y He. rewrite (ef_edges E) by (intros [|[]]; discriminate). rewrite (efr_edges E) in He. apply (fs_cap F He). Qed.
Lemma augment_pair_ok g f a p : wf g -> g_type g = Directed -> FL g f -> usable (get_edge_list g) p ->
  ok (augment_pair a p) g (fun _ h => efr ["flow"] g h /\ (forall n b, nattr h n b = nattr g n b) /\ FL h (push (get_edge_list g) a f p)).
Proof.
  intros W D F Hu. destruct p as [i j]. unfold augment_pair. apply ok_bind, ok_gets.
  assert (Em : dmem (g_edges g) (i, j) = mem (i, j) (get_edge_list g)).
  { destruct (dmem_spec (g_edges g) (i, j)) as [H|H], (mem_spec (i, j) (get_edge_list g)) as [H'|H']; try reflexivity; contradiction. }
  rewrite Em. assert (G : forall q d, In q (get_edge_list g) -> ok (edge_set q "flow" (VI (f q + d))) g (fun _ h => efr ["flow"] g h /\ (forall n b, nattr h n b = nattr g n b) /\ FL h (fun e => if eqb e q then (f e + d)%Z else f e))).
  { intros q d Hq. apply ok_edge_set with (bs := ["flow"]); [exact W|exact D|exact Hq|simpl; auto|]. intros h E He Hn. split; [exact E|]. split; [exact Hn|].
    intros x y Hxy. rewrite (efr_edges E) in Hxy. rewrite He, eqb_refl. destruct (eqb_spec (x, y) q) as [<-|]; [reflexivity|]. apply F, Hxy. }
  unfold push. destruct (mem_spec (i, j) (get_edge_list g)) as [Hm|Hm].
  - apply ok_bind. eapply ok_edge_get; [exact D|apply (F _ _ Hm)|]. apply ok_bind, ok_as_int. apply G, Hm.
  - destruct Hu as [|Hu]; [contradiction|]. cbn [fst snd] in *. apply ok_bind. eapply ok_edge_get; [exact D|apply (F _ _ Hu)|]. apply ok_bind, ok_as_int.
    replace (f (j, i) - a)%Z with (f (j, i) + - a)%Z by lia. eapply ok_weaken; [apply G, Hu|]. intros [] h (H1 & H2 & H3). split; [exact H1|]. split; [exact H2|]. revert H3. apply FL_ext. intros e _. destruct (eqb _ _); lia.
Qed.
Lemma augment_cycle_ok g f a x t : wf g -> g_type g = Directed -> FL g f -> (forall p, In p (cycle_pairs (x :: t)) -> usable (get_edge_list g) p) ->
  ok (augment_cycle a (x :: t)) g (fun _ h => efr ["flow"] g h /\ (forall n b, nattr h n b = nattr g n b) /\ FL h (fold_left (push (get_edge_list g) a) (cycle_pairs (x :: t)) f)).
Proof.
  intros W D F Hu. rewrite cycle_pairs_last in *. unfold augment_cycle. apply ok_bind.
  eapply ok_forM with (I := fun pre h => efr ["flow"] g h /\ (forall n b, nattr h n b = nattr g n b) /\ FL h (fold_left (push (get_edge_list g) a) pre f)).
  - split; [apply efr_refl|]. split; [reflexivity|exact F].
  - intros pre p post h Ep (E & En & F').
    assert (Hp : usable (get_edge_list h) p) by (rewrite (efr_edges E); apply Hu, in_app_iff; left; rewrite Ep; apply in_app_iff; simpl; auto).
    eapply ok_weaken; [apply (augment_pair_ok a (efr_wf E W) (efr_type E D) F' Hp)|]. intros [] h' (E' & En' & F''). split; [apply (efr_trans E E'); apply incl_refl|].
    split; [intros; rewrite En'; apply En|]. rewrite fold_left_app. rewrite (efr_edges E) in F''. exact F''.
  - intros h (E & En & F'). rewrite fold_left_app. eapply ok_weaken; [eapply (augment_pair_ok a (efr_wf E W) (efr_type E D) F' (p := (last (x :: t) x, x)))|].
    + rewrite (efr_edges E). apply Hu, in_app_iff. simpl. auto.
    + intros [] h' (E' & En' & F''). split; [apply (efr_trans E E'); apply incl_refl|].
      split; [intros; rewrite En'; apply En|]. rewrite (efr_edges E) in F''. exact F''.
Qed.
