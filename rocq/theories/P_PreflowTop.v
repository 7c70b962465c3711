(* max_flow_preflowpush: the initialization and the whole method. *)
From Verif Require Import Py Util M_Graph M_Metrics P_Graph P_GraphLaws Spec P_Walk P_Span P_Attr M_Search S_Frontier P_Frontier P_SearchAbs P_Search P_SearchTop P_SearchThm P_SearchMore P_SearchFrame P_Residual
  M_Flow S_Flow S_GraphFlow P_Flow P_EdgeFrame P_MaxFlow M_Preflow P_PreflowAbs P_Preflow P_PreflowLoop.
Set Implicit Arguments. Unset Strict Implicit.
Local Open Scope string_scope. Local Open Scope list_scope.

Lemma nattr_obs g n a : nattr g n a = match obs (get_node_attr n a) g with Ok v => v | Err _ => VNone end.
Proof. rewrite obs_node_attr. unfold nattr. destruct (dget (g_nodes g) n) as [d|]; reflexivity. Qed.
Lemma arc_listed g x y : g_type g = Directed -> (arc g x y <-> In (x, y) (get_edge_list g)).
Proof. intros D. unfold arc, check_edge. rewrite D. apply dmem_In. Qed.
Lemma bind_assoc {S A B C} (m : M S A) (f : A -> M S B) (k : B -> M S C) s : bind (bind m f) k s = bind m (fun x => bind (f x) k) s.
Proof. unfold bind. destruct (m s) as [s' [a|e]]; reflexivity. Qed.
Lemma bind_cong {S A B} (m : M S A) (f f' : A -> M S B) s : (forall a s', f a s' = f' a s') -> bind m f s = bind m f' s.
Proof. intros H. unfold bind. destruct (m s) as [s' [a|e]]; auto. Qed.
Lemma hops_bound (E : name -> name -> Prop) (V : list name) a b k : (forall x y, E x y -> In x V /\ In y V) -> In a V -> hops E a b k -> k < length V.
Proof.
  intros HE Ha [(p & Hp & Hl) Hmin]. destruct (walk_nodup Hp) as (q & Hq & Hnd & _). specialize (Hmin q Hq).
  assert (incl q V).
  { intros x Hx. destruct (walk_in_reach Hq Hx) as [Hr _]. apply (@reach_closed E (fun y => In y V) a x Ha); [|exact Hr]. intros u v _ Huv. apply (HE u v Huv). }
  pose proof (NoDup_incl_length Hnd H). lia.
Qed.
Lemma hops_fun (E : name -> name -> Prop) a b k j : hops E a b k -> hops E a b j -> k = j.
Proof. intros [(p & Hp & Hl) H1] [(q & Hq & Hl') H2]. specialize (H1 q Hq). specialize (H2 p Hp). lia. Qed.
Lemma hops_step (E : name -> name -> Prop) a b c k : hops E a b k -> E b c -> reach E a c /\ forall j, hops E a c j -> j <= S k.
Proof.
  intros [(p & Hp & Hl) _] He. pose proof (walk_snoc Hp He) as Hw. split; [exists (p ++ [c]); exact Hw|]. intros j [_ Hm]. specialize (Hm _ Hw). rewrite app_length in Hm. simpl in Hm. lia.
Qed.

Section Top.
  Variables (frs fr : frontier) (elss : fq frs -> list name) (els : fq fr -> list name).
  Hypothesis Fs : fifo elss.
  Hypothesis Fnp : fq_is_pq frs = false.
  Hypothesis B : bag els.
  Variable held : fq fr -> name -> bool.
  Hypothesis Held : forall q x, held q x = true <-> In x (els q).
  Variable al : pf_algo.
  Hypothesis Hal : al <> OtherPreflow.
  Hypothesis Hpq : al = HighestLabel -> fq_is_pq fr = true.
  Variable g : graph.
  Hypothesis W : wf g.
  Hypothesis D : g_type g = Directed.
  Hypothesis IC : int_caps g.
  Hypothesis NC : nonneg_caps g.
  Notation es := (get_edge_list g).
  Notation nodes := (get_node_list g).
  Notation N := (Z.of_nat (length nodes)).
  Notation fn := (name * name -> Z).
  Notation lab := (name -> Z).
  Notation c := (cap_of g).
  Variables s t : name.
  Hypothesis Hs : In s nodes.
  Hypothesis Ht : In t nodes.
  Hypothesis Hst : s <> t.
  Hypothesis Hss : ~ In (s, s) es.

  (** ** labels *)
  (* the label of a node before the loop starts: its distance to the sink *)
  Record first_labels (d : lab) : Prop := {
    fl_reach : forall x, In x nodes -> reach (arc g) x t -> (0 <= d x < N)%Z;
    fl_far : forall x, In x nodes -> ~ reach (arc g) x t -> d x = (2 * N + 1)%Z;
    fl_near : forall x, In x nodes -> (d x < N)%Z -> reach (arc g) x t;
    fl_step : forall x y, arc g x y -> reach (arc g) y t -> reach (arc g) x t /\ (d x <= d y + 1)%Z;
    fl_t : d t = 0%Z;
    fl_dpos : forall x, In x nodes -> (0 <= d x <= 2 * N + 1)%Z
  }.
  Lemma walk_rev (E : name -> name -> Prop) a p b : walk E a p b -> walk (fun x y => E y x) b (rev p) a.
  Proof.
    induction 1 as [a|a x p b He Hw IH]; [constructor|]. simpl. apply (walk_snoc IH He).
  Qed.
  Lemma reach_rev x : reach (sarc g true) t x <-> reach (arc g) x t.
  Proof.
    assert (E : forall u v, sarc g true u v <-> arc g v u) by (intros; unfold sarc; rewrite D; tauto).
    split; intros [p Hp].
    - exists (rev p). apply walk_rev in Hp. revert Hp. apply walk_mono. intros u v. apply E.
    - exists (rev p). apply walk_rev in Hp. revert Hp. apply walk_mono. intros u v. apply E.
  Qed.
  Lemma sarc_nodes x y : sarc g true x y -> In x nodes /\ In y nodes.
  Proof. unfold sarc. rewrite D. intros H. apply (check_edge_nodes W) in H. tauto. Qed.
  Lemma reach_dec r x0 : In x0 nodes -> exists R : name -> bool, forall n, R n = true <-> reach (sarc g r) x0 n.
  Proof.
    intros Hx0. assert (F : enough g (length nodes + 2 * length es + 2)) by (unfold enough; lia).
    destruct (search_reach (fr := stack) (els := fun q => q) (al := DFS) (q0 := []) stack_bag ltac:(discriminate) eq_refl ltac:(discriminate) W (rev := r) ltac:(discriminate) None Hx0 eq_refl F)
      as (h & pred & _ & H & _).
    exists (fun n => eqb n x0 || mem n (dkeys pred)). intros n. rewrite <- H, orb_true_iff. destruct (eqb_spec n x0), (mem_spec n (dkeys pred)); intuition congruence.
  Qed.
  Definition lab_of (h : graph) (x : name) : Z := match nattr h x "distance" with VI z => z | _ => (2 * N + 1)%Z end.
  Definition dist_ok (h : graph) : Prop := forall n, In n nodes ->
      (reach (sarc g true) t n -> exists k, hops (sarc g true) t n k /\ nattr h n "distance" = VI (Z.of_nat k)) /\
      (~ reach (sarc g true) t n -> nattr h n "distance" = VNone).
  Lemma dist_cases h : dist_ok h -> forall x, In x nodes ->
    (exists k, hops (sarc g true) t x k /\ reach (arc g) x t /\ k < length nodes /\ nattr h x "distance" = VI (Z.of_nat k)) \/
    (nattr h x "distance" = VNone /\ ~ reach (arc g) x t).
  Proof.
    intros H x Hx. destruct (reach_dec true Ht) as [R HR]. destruct (H x Hx) as [H1 H2]. destruct (R x) eqn:E.
    - apply HR in E. destruct (H1 E) as (k & Hk & Hd). left. exists k. split; [exact Hk|]. split; [apply reach_rev, E|]. split; [apply (hops_bound sarc_nodes Ht Hk)|exact Hd].
    - right. assert (K : ~ reach (sarc g true) t x) by (intros K; apply HR in K; congruence). split; [apply H2, K|]. rewrite <- reach_rev. exact K.
  Qed.
  Lemma first_labels_ok h : dist_ok h -> first_labels (lab_of h).
  Proof.
    intros H. pose proof (dist_cases H) as HR. unfold lab_of. constructor.
    - intros x Hx Rx. destruct (HR x Hx) as [(k & _ & _ & Hk & ->)|[_ K]]; [lia|contradiction].
    - intros x Hx Rx. destruct (HR x Hx) as [(k & _ & K & _)|[-> _]]; [contradiction|reflexivity].
    - intros x Hx Hl. destruct (HR x Hx) as [(k & _ & K & _)|[E _]]; [exact K|]. rewrite E in Hl. lia.
    - intros x y A Ry. pose proof (check_edge_nodes W A) as [Hx Hy]. destruct (HR y Hy) as [(k & Hk & _ & _ & ->)|[_ K]]; [|contradiction].
      assert (A' : sarc g true y x) by (unfold sarc; rewrite D; exact A). destruct (hops_step Hk A') as [Rx Hj]. apply reach_rev in Rx. split; [exact Rx|].
      destruct (HR x Hx) as [(j & Hj' & _ & _ & ->)|[_ K]]; [|contradiction]. specialize (Hj _ Hj'). lia.
    - destruct (HR t Ht) as [(k & Hk & _ & _ & ->)|[_ K]]; [|exfalso; apply K, reach_refl]. destruct Hk as [_ Hk]. specialize (Hk [t] (walk_one _ t)). simpl in Hk. lia.
    - intros x Hx. destruct (HR x Hx) as [(k & _ & _ & Hk & ->)|[-> _]]; lia.
  Qed.
  Lemma label_disconnected_ok dm f e h : pframe g h ->
    (forall x y, In (x, y) es -> eattr h x y "capacity" = Some (VI (c (x, y)))) -> (forall x y, In (x, y) es -> eattr h x y "flow" = Some (VI (f (x, y)))) ->
    (forall x, In x nodes -> nattr h x "excess" = VI (e x)) -> dget (g_attr h) "display" = dm -> dist_ok h ->
    ok (label_disconnected nodes) h (fun _ h' => PF g c dm f e (lab_of h) h').
  Proof.
    intros F Cp Fl Ex Dm Di. unfold label_disconnected.
    apply ok_forM with (I := fun pre h' => pframe g h' /\ (forall x y b, eattr h' x y b = eattr h x y b) /\ (forall x, nattr h' x "excess" = nattr h x "excess") /\ g_attr h' = g_attr h /\
      forall x, nattr h' x "distance" = if mem x pre then VI (lab_of h x) else nattr h x "distance").
    - repeat (split; [auto; reflexivity|]). reflexivity.
    - intros pre n post h1 El (F1 & E1 & X1 & A1 & D1).
      assert (Hn : In n nodes) by (rewrite El; apply in_elt). assert (Nn : ~ In n pre) by (pose proof (wf_nd W) as K; change (dkeys (g_nbrs g)) with nodes in K; rewrite El in K; apply NoDup_remove_2 in K; rewrite in_app_iff in K; tauto).
      assert (Hk : In n (dkeys (g_nodes h1))) by (rewrite (ss_nodes (pr_shape F1)), (wf_nodes W); exact Hn).
      apply ok_bind, ok_get_node_attr; [exact Hk|].
      pose proof (D1 n) as Dn. destruct (mem_spec n pre) as [K|_]; [contradiction|]. rewrite Dn.
      assert (Hmem : forall x, mem x (pre ++ [n]) = mem x pre || eqb x n).
      { intros x. destruct (mem_spec x (pre ++ [n])) as [K|K], (mem_spec x pre) as [K'|K'], (eqb_spec x n) as [K''|K'']; try reflexivity; exfalso; rewrite in_app_iff in K; simpl in K; intuition congruence. }
      destruct (eqb_spec (nattr h n "distance") VNone) as [En|En].
      + apply ok_set_node_attr; [exact Hk|]. intros h2 S2 N2 E2 A2 C2 _. split; [|split; [|split; [|split]]].
        * apply (pframe_trans F1). constructor; auto.
          -- intros x b Hb. rewrite N2. destruct (eq_dec (x, b) (n, "distance")) as [[= _ ->]|]; [exfalso; apply Hb; simpl; tauto|reflexivity].
          -- intros a _. rewrite A2. reflexivity.
        * intros x y b. rewrite E2. apply E1.
        * intros x. rewrite N2. destruct (eq_dec (x, "excess") (n, "distance")) as [[=]|]. apply X1.
        * congruence.
        * intros x. rewrite N2, Hmem. destruct (eqb_spec x n) as [->|Hne].
          -- rewrite orb_true_r. destruct (eq_dec (n, "distance") (n, "distance")); [|congruence]. unfold lab_of. rewrite En. reflexivity.
          -- rewrite orb_false_r. destruct (eq_dec (x, "distance") (n, "distance")); [congruence|]. apply D1.
      + apply ok_ret. split; [exact F1|]. split; [exact E1|]. split; [exact X1|]. split; [exact A1|]. intros x. rewrite D1, Hmem.
        destruct (eqb_spec x n) as [->|Hne]; [|rewrite orb_false_r; reflexivity]. rewrite orb_true_r. destruct (mem_spec n pre); [contradiction|]. unfold lab_of.
        destruct (dist_cases Di Hn) as [(k & _ & _ & _ & ->)|[K _]]; [reflexivity|contradiction].
    - intros h' (F1 & E1 & X1 & A1 & D1). constructor; auto.
      + intros x y Hx. rewrite E1. apply Cp, Hx.
      + intros x y Hx. rewrite E1. apply Fl, Hx.
      + intros x Hx. rewrite X1. apply Ex, Hx.
      + intros x Hx. rewrite D1. destruct (mem_spec x nodes); [reflexivity|contradiction].
      + congruence.
  Qed.

  (** ** the arcs out of the source *)
  Definition sat_f (pre : list name) (a : name * name) : Z := if eqb (fst a) s && mem (snd a) pre then c a else 0%Z.
  Record SI (dm : option val) (d : lab) (pre : list name) (q : fq fr) (h : graph) : Prop := {
    si_e : exists e, PF g c dm (sat_f pre) e d h /\ (forall x, In x nodes -> e x = net es (sat_f pre) x) /\ (forall x, In x nodes -> x <> s -> ~ In x pre -> e x = 0%Z) /\
      (forall x, In x pre -> x <> s -> e x = c (s, x));
    si_q : forall x, In x (els q) <-> In x pre;
    si_nd : NoDup (els q)
  }.
  Lemma saturate_ok dm d q0 h : els q0 = [] -> PF g c dm (fun _ => 0%Z) (fun _ => 0%Z) d h ->
    ok (saturate al s q0) h (fun q h' => SI dm d (list_at (g_nbrs g) s) q h').
  Proof.
    intros Hq0 P. unfold saturate. apply ok_bind, (ok_nbrs P Hs).
    assert (Nl : NoDup (list_at (g_nbrs g) s)) by apply (wf_NoDup_nbrs W D).
    assert (Ll : forall x, In x (list_at (g_nbrs g) s) -> In (s, x) es) by (intros x; apply (out_arc W D)).
    apply ok_foldM with (I := SI dm d).
    - constructor; [|rewrite Hq0; tauto|rewrite Hq0; constructor]. exists (fun _ => 0%Z).
      assert (E : forall a, In a es -> 0%Z = sat_f [] a) by (intros a _; unfold sat_f; rewrite andb_false_r; reflexivity).
      split; [apply (PF_ext E (fun x _ => eq_refl) (fun x _ => eq_refl) P)|]. split; [|split; [reflexivity|intros x []]].
      intros x Hx. rewrite <- (net_ext x E). symmetry. apply net_zero.
    - intros pre n post q h1 El [(e & P1 & He & Ho & Hp) Hq Hnd].
      assert (Hn : In (s, n) es) by (apply Ll; rewrite El; apply in_elt). assert (Np : ~ In n pre) by (rewrite El in Nl; apply NoDup_remove_2 in Nl; rewrite in_app_iff in Nl; tauto).
      assert (Hnn : In n nodes) by apply (arc_nodes W D Hn). assert (Hns : n <> s) by congruence.
      apply ok_bind, (ok_get_cap P1 Hn). apply ok_bind, (ok_set_flow W D P1 Hn). intros h2 P2. apply ok_bind, (ok_set_ex W P2 Hnn). intros h3 P3.
      apply ok_bind, (ok_int_ex W P3 Hs). apply ok_bind, ok_as_int. apply ok_bind, (ok_set_ex W P3 Hs). intros h4 P4. rewrite (upd_ne _ _ (not_eq_sym Hns)) in P4.
      apply pf_push_ok; [exact Hal|exact Hpq|]. intros q' [pr ->].
      assert (Ef : forall a, In a es -> upd (sat_f pre) (s, n) (c (s, n)) a = sat_f (pre ++ [n]) a).
      { intros [x y] _. unfold upd, sat_f. cbn [fst snd]. destruct (eqb_spec (x, y) (s, n)) as [[= -> ->]|Hne].
        - rewrite eqb_refl. destruct (mem_spec n (pre ++ [n])) as [|K]; [reflexivity|]. exfalso. apply K. apply in_elt.
        - destruct (eqb_spec x s) as [->|]; [|reflexivity]. cbn [andb]. destruct (mem_spec y pre) as [K|K], (mem_spec y (pre ++ [n])) as [K'|K']; try reflexivity; exfalso; rewrite in_app_iff in K'; simpl in K'; intuition congruence. }
      constructor.
      + exists (upd (upd e n (c (s, n))) s (e s - c (s, n))%Z). split; [apply (PF_ext Ef (fun x _ => eq_refl) (fun x _ => eq_refl) P4)|]. split; [|split].
        * intros x Hx.
          assert (Hnc : forall a, In a es -> sat_f (pre ++ [n]) a = if eqb a (s, n) then (sat_f pre a + c (s, n))%Z else sat_f pre a).
          { intros a Ha. rewrite <- (Ef a Ha). unfold upd. destruct (eqb_spec a (s, n)) as [->|]; [|reflexivity]. unfold sat_f at 1. cbn [fst snd]. destruct (mem_spec n pre); [contradiction|]. rewrite andb_false_r. lia. }
          rewrite (net_change x (Nes W) Hn Hnc). cbn [fst snd]. rewrite <- (He x Hx). unfold ind, upd.
          pose proof (Ho n Hnn Hns Np) as E0. repeat match goal with |- context [eqb ?a ?b] => destruct (eqb_spec a b) end; subst; try congruence; lia.
        * intros x Hx Hxs Hxp. rewrite in_app_iff in Hxp. simpl in Hxp. rewrite !upd_ne by (intros ->; tauto). apply Ho; auto.
        * intros x Hx Hxs. rewrite upd_ne by exact Hxs. apply in_app_iff in Hx as [Hx|[<-|[]]]; [|apply upd_eq]. rewrite upd_ne by congruence. apply Hp; auto.
      + intros x. rewrite (bag_push B), Hq, in_app_iff. simpl. intuition congruence.
      + apply (push_nodup B); [exact Hnd|]. rewrite Hq. exact Np.
    - auto.
  Qed.
  Notation inv := (P_PreflowAbs.inv es nodes c s t).
  Notation LI := (P_PreflowLoop.LI els g c s t).
  Lemma start_LI dm d q h : first_labels d -> SI dm d (list_at (g_nbrs g) s) q h ->
    exists f e, PF g c dm f e d h /\ LI f e (upd d s N) q /\
      (forall x y, In (x, y) es -> (0 < f (x, y))%Z -> x = s) /\ (forall x, In (s, x) es -> f (s, x) = c (s, x)).
  Proof.
    intros L [(e & P & He & Ho & Hp) Hq Hnd]. exists (sat_f (list_at (g_nbrs g) s)), e. split; [exact P|].
    assert (Fs0 : forall x, In (s, x) es -> sat_f (list_at (g_nbrs g) s) (s, x) = c (s, x)).
    { intros x Hx. unfold sat_f. cbn [fst snd]. rewrite eqb_refl. apply (out_arc W D) in Hx. destruct (mem_spec x (list_at (g_nbrs g) s)); [reflexivity|contradiction]. }
    assert (Fs1 : forall x y, In (x, y) es -> (0 < sat_f (list_at (g_nbrs g) s) (x, y))%Z -> x = s).
    { intros x y _ Hf. unfold sat_f in Hf. cbn [fst] in Hf. destruct (eqb_spec x s); [assumption|]. cbn [andb] in Hf. lia. }
    split; [|split; [exact Fs1|exact Fs0]]. constructor.
    - constructor.
      + intros [x y] Ha. unfold sat_f. pose proof (NC Ha). destruct (_ && _); lia.
      + exact He.
      + intros x Hx Hxs. destruct (in_dec eq_dec x (list_at (g_nbrs g) s)) as [K|K]; [|rewrite (Ho x Hx Hxs K); lia]. rewrite (Hp x K Hxs). apply NC. apply (out_arc W D), K.
      + intros x y Hr Hd. unfold upd in *. destruct (eqb_spec y s) as [->|Hys]; [lia|]. destruct Hr as [[Hr Hf]|[Hr Hf]].
        * destruct (eqb_spec x s) as [->|Hxs]; [rewrite (Fs0 y Hr) in Hf; lia|]. pose proof (arc_nodes W D Hr) as [Hx Hy].
          assert (A : arc g x y) by (apply (arc_listed _ _ D), Hr). apply (fl_step L A). apply (fl_near L Hy Hd).
        * apply Fs1 in Hf; [contradiction|exact Hr].
      + apply upd_eq.
      + rewrite upd_ne by congruence. apply (fl_t L).
      + intros x Hx. unfold upd. destruct (eqb x s); [lia|]. apply (fl_dpos L Hx).
    - exact Hnd.
    - intros x Hx. apply Hq, (out_arc W D) in Hx. split; [apply (arc_nodes W D Hx)|]. split; [congruence|]. exists s. right. exact Hx.
    - intros x Hx Hxs _ Hpos. apply Hq. destruct (in_dec eq_dec x (list_at (g_nbrs g) s)) as [K|K]; [exact K|]. rewrite (Ho x Hx Hxs K) in Hpos. lia.
  Qed.
  Lemma start_LT d q f e : first_labels d -> LI f e (upd d s N) q -> reach (arc g) s t -> (forall x, In (s, x) es -> (0 < c (s, x))%Z -> reach (arc g) x t) ->
    (forall x y, In (x, y) es -> (0 < f (x, y))%Z -> x = s) -> (forall x, In (s, x) es -> f (s, x) = c (s, x)) ->
    P_PreflowLoop.LT els g c (fun _ => true) f (upd d s N) q.
  Proof.
    intros L I Hst' Hall F1 F0.
    assert (Ar : forall x y, In (x, y) es -> arc g x y) by (intros x y Hx; apply (arc_listed _ _ D), Hx).
    destruct (reach_dec true Ht) as [T HT']. assert (HT : forall x, T x = true <-> reach (arc g) x t) by (intros x; rewrite HT'; apply reach_rev).
    constructor; [|reflexivity]. constructor.
    - intros x y _ Hr. destruct Hr as [[Hr Hf]|[Hr Hf]].
      + unfold upd. destruct (eqb_spec x s) as [->|Hxs]; [rewrite (F0 y Hr) in Hf; lia|]. pose proof (arc_nodes W D Hr) as [Hx Hy]. destruct (T x) eqn:Tx.
        * apply HT in Tx. pose proof (fl_reach L Hx Tx) as Bx. destruct (eqb_spec y s) as [->|Hys]; [lia|]. destruct (T y) eqn:Ty.
          -- apply HT in Ty. apply (fl_step L (Ar _ _ Hr) Ty).
          -- assert (Ny : ~ reach (arc g) y t) by (intros K; apply HT in K; congruence). rewrite (fl_far L Hy Ny). lia.
        * assert (Nx : ~ reach (arc g) x t) by (intros K; apply HT in K; congruence).
          assert (Ny : ~ reach (arc g) y t) by (intros K; apply Nx, (fl_step L (Ar _ _ Hr) K)).
          destruct (eqb_spec y s) as [->|Hys]; [contradiction|]. rewrite (fl_far L Hx Nx), (fl_far L Hy Ny). lia.
      + pose proof (F1 _ _ Hr Hf) as ->. rewrite upd_eq. unfold upd. destruct (eqb_spec x s); [lia|]. rewrite (F0 x Hr) in Hf.
        pose proof (fl_reach L (proj2 (arc_nodes W D Hr)) (Hall x Hr Hf)). lia.
    - reflexivity.
    - intros x Hx. unfold upd. destruct (eqb x s); [lia|]. pose proof (fl_dpos L Hx). lia.
  Qed.

  (** ** the method *)
  Variable fuel : nat.
  Hypothesis Hf : enough g fuel.
  Variable s0 : fq frs.
  Hypothesis Hs0 : elss s0 = [].
  Variable q0 : fq fr.
  Hypothesis Hq0 : els q0 = [].
  Variable display : option val.
  Hypothesis Hdm : display = None -> dget (g_attr g) "display" <> None.
  (* the display mode when the method returns *)
  Definition final_mode : option val := match display with Some v => Some v | None => dget (g_attr g) "display" end.

  Definition prelude : M graph (fq fr) :=
    display <- match display with
               | None => d <- gets (fun g => dget (g_attr g) "display") ;; lift d KeyError
               | Some v => set_graph_attr "display" v ;; ret v
               end ;;
    nl <- gets get_node_list ;;
    forM_ nl (fun n => set_node_attr n "excess" (VI 0)) ;;
    init_flow ;;
    set_graph_attr "display" (VS "off") ;;
    search fuel t None None s0 UnweightedSPT true ;;
    set_graph_attr "display" display ;;
    label_disconnected nl ;;
    q <- saturate al s q0 ;;
    set_node_attr s "distance" (VI (Z.of_nat (length nl))) ;;
    show_flow ;;
    ret q.
  Lemma display_ok h v : pframe g h -> ok (set_graph_attr "display" v) h (fun _ h' => pframe g h' /\ (forall x b, nattr h' x b = nattr h x b) /\ (forall x y b, eattr h' x y b = eattr h x y b) /\
    dget (g_attr h') "display" = Some v /\ get_node_list h' = get_node_list h /\ get_edge_list h' = get_edge_list h).
  Proof.
    intros F. unfold set_graph_attr. apply ok_modify. split; [|split; [reflexivity|split; [reflexivity|split; [apply dget_dset_eq|split; reflexivity]]]].
    apply (pframe_trans F). constructor; try reflexivity.
    - constructor; reflexivity.
    - intros a Ha. cbn. apply dget_dset_ne. congruence.
  Qed.
  Lemma prelude_ok : ok prelude g (fun q h => exists d f e, first_labels d /\ PS g c final_mode f e (upd d s N) h /\ LI f e (upd d s N) q /\
      (forall x y, In (x, y) es -> (0 < f (x, y))%Z -> x = s) /\ (forall x, In (s, x) es -> f (s, x) = c (s, x)) /\ (forall x, In x (els q) -> In (s, x) es)).
  Proof.
    unfold prelude. apply ok_bind.
    apply ok_weaken with (Q := fun v h => final_mode = Some v /\ pframe g h /\ (forall x b, nattr h x b = nattr g x b) /\ (forall x y b, eattr h x y b = eattr g x y b)).
    { unfold final_mode. destruct display as [v|].
      - apply ok_bind. eapply ok_weaken; [apply (display_ok v (pframe_refl g))|]. intros u h (F & Na & Ea & _). apply ok_ret. auto.
      - destruct (dget (g_attr g) "display") as [v|] eqn:E; [|exfalso; apply Hdm; reflexivity]. apply ok_bind, ok_gets. rewrite E. apply ok_lift with (a := v); [reflexivity|].
        split; [reflexivity|]. split; [apply pframe_refl|auto]. }
    intros dv h0 (Edm & F0 & Na0 & Ea0). apply ok_bind, ok_gets. rewrite (ss_node_list (pr_shape F0)).
    (* excess *)
    apply ok_bind. eapply ok_weaken.
    { apply ok_forM with (I := fun pre h => pframe g h /\ (forall x y b, eattr h x y b = eattr g x y b) /\ forall x, In x pre -> nattr h x "excess" = VI 0%Z)
       (Q := fun h => pframe g h /\ (forall x y b, eattr h x y b = eattr g x y b) /\ forall x, In x nodes -> nattr h x "excess" = VI 0%Z).
      - split; [exact F0|]. split; [exact Ea0|intros x []].
      - intros pre n post h El (F1 & Ea1 & X1). assert (Hn : In n nodes) by (rewrite El; apply in_elt).
        apply ok_set_node_attr; [rewrite (ss_nodes (pr_shape F1)), (wf_nodes W); exact Hn|]. intros h2 S2 N2 E2 A2 C2 _. split; [|split].
        + apply (pframe_trans F1). constructor; auto.
          * intros x b Hb. rewrite N2. destruct (eq_dec (x, b) (n, "excess")) as [[= _ ->]|]; [exfalso; apply Hb; simpl; tauto|reflexivity].
          * intros a _. rewrite A2. reflexivity.
        + intros x y b. rewrite E2. apply Ea1.
        + intros x Hx. rewrite N2. destruct (eq_dec (x, "excess") (n, "excess")) as [_|K]; [reflexivity|]. apply in_app_iff in Hx as [Hx|[<-|[]]]; [apply X1, Hx|congruence].
      - auto. }
    intros u h1 (F1 & Ea1 & X1). clear u.
    (* flow *)
    assert (W1 : wf h1) by apply (ss_wf (pr_shape F1) W). assert (D1 : g_type h1 = Directed) by (rewrite (ss_type (pr_shape F1)); exact D).
    assert (Es1 : get_edge_list h1 = es) by (unfold get_edge_list; apply (ss_edges (pr_shape F1))).
    assert (Ec1 : forall a, cap_of h1 a = c a) by (intros a; unfold cap_of; rewrite Ea1; reflexivity).
    assert (IC1 : int_caps h1) by (intros x y Hx; rewrite Es1 in Hx; rewrite Ea1; apply IC, Hx).
    apply ok_bind. eapply ok_weaken; [apply (init_flow_ok W1 D1 IC1)|]. intros u h2 [Fr2 C2 Fl2 _]. clear u. rewrite Es1 in C2, Fl2.
    assert (F2 : pframe g h2).
    { apply (pframe_trans F1). destruct Fr2 as [R1 R2 R3 R4 R5]. constructor; auto.
      - intros x b Hb. apply R2. intros ->. apply Hb. simpl. tauto.
      - intros a _. rewrite R4. reflexivity. }
    (* search *)
    apply ok_bind. eapply ok_weaken; [apply (display_ok (VS "off") F2)|]. intros u h3 (F3 & Na3 & Ea3 & _). clear u.
    assert (W3 : wf h3) by apply (ss_wf (pr_shape F3) W).
    assert (Ht3 : In t (get_node_list h3)) by (rewrite (ss_node_list (pr_shape F3)); exact Ht).
    assert (Sarc3 : forall r x y, sarc h3 r x y <-> sarc g r x y).
    { intros r x y. unfold sarc. rewrite (ss_type (pr_shape F3)). destruct (g_type g), r; apply (ss_arc _ _ (pr_shape F3)). }
    destruct (bfs_dist Fs Fnp (al := UnweightedSPT) eq_refl W3 true None Ht3 Hs0 (enough_ss (pr_shape F3) Hf)) as (h4 & pred & Es4 & Di4).
    pose proof (search_frame fuel t None None s0 UnweightedSPT true h3) as Fr4. rewrite Es4 in Fr4. cbn [fst] in Fr4. destruct Fr4 as [S4 A4 C4 E4 N4].
    apply ok_bind. eapply ok_weaken; [apply ok_eq; exact Es4|]. intros u k Hk; cbn beta in Hk; destruct Hk as [-> ->].
    assert (Ea4 : forall x y b, b <> "color" -> eattr h4 x y b = eattr h3 x y b) by (intros x y b Hb; rewrite !eattr_obs, E4 by exact Hb; reflexivity).
    assert (Na4 : forall x b, ~ In b search_node_attrs -> nattr h4 x b = nattr h3 x b) by (intros x b Hb; rewrite !nattr_obs, N4 by exact Hb; reflexivity).
    assert (F4 : pframe g h4).
    { apply (pframe_trans F3). constructor; auto.
      - intros x b Hb. apply Na4. intros K. apply Hb. simpl in *. tauto.
      - intros x y b Hb. apply Ea4. intros ->. apply Hb. simpl. tauto.
      - intros a _. rewrite A4. reflexivity. }
    assert (Di4' : dist_ok h4).
    { intros n Hn. assert (Hn3 : In n (get_node_list h3)) by (rewrite (ss_node_list (pr_shape F3)); exact Hn). destruct (Di4 n Hn3) as [G1 G2].
      assert (Hk4 : In n (dkeys (g_nodes h4))) by (rewrite (ss_nodes (pr_shape F4)), (wf_nodes W); exact Hn).
      rewrite (obs_nattr _ Hk4) in G1, G2. split.
      - intros Rn. apply (reach_iff _ _ (Sarc3 true)) in Rn. destruct (G1 Rn) as (k & K1 & K2). exists k. split; [apply (hops_iff _ _ _ (Sarc3 true)), K1|]. congruence.
      - intros Rn. rewrite <- (reach_iff _ _ (Sarc3 true)) in Rn. specialize (G2 Rn). congruence. }
    (* display mode *)
    apply ok_bind. eapply ok_weaken; [apply (display_ok dv F4)|]. intros u' h5 (F5 & Na5 & Ea5 & Dm5 & _). clear u'.
    assert (Di5 : dist_ok h5) by (intros n Hn; rewrite Na5; apply Di4', Hn).
    assert (Ea35 : forall x y b, b <> "color" -> eattr h5 x y b = eattr h2 x y b) by (intros x y b Hb; rewrite Ea5, Ea4, Ea3 by exact Hb; reflexivity).
    apply ok_bind. eapply ok_weaken.
    { apply (@label_disconnected_ok final_mode (fun _ => 0%Z) (fun _ => 0%Z) h5 F5); [| | | |exact Di5].
      - intros x y Hx. rewrite Ea35, <- Ec1 by discriminate. apply C2, Hx.
      - intros x y Hx. rewrite Ea35 by discriminate. apply Fl2, Hx.
      - intros x Hx. rewrite Na5, Na4, Na3 by (simpl; intuition discriminate). rewrite (ef_nodes Fr2) by discriminate. apply X1, Hx.
      - congruence. }
    intros u6 h6 P6. cbn beta in P6. clear u6. pose proof (first_labels_ok Di5) as L.
    apply ok_bind. eapply ok_weaken; [apply (saturate_ok Hq0 P6)|]. intros q h7 SI7.
    destruct (start_LI L SI7) as (f & e & P7 & I7 & G1 & G2).
    apply ok_bind, (ok_set_di W P7 Hs). intros h8 P8. apply ok_bind. eapply ok_weaken; [apply (show_flow_ok W D P8)|]. intros u9 h9 P9. apply ok_ret.
    exists (lab_of h5), f, e. split; [exact L|]. split; [exact P9|]. split; [exact I7|]. split; [exact G1|]. split; [exact G2|].
    intros x Hx. apply (si_q SI7), (out_arc W D) in Hx. exact Hx.
  Qed.
  Lemma method_eq : max_flow_preflowpush held fuel s0 q0 s t al display g = bind prelude (fun q => loop fuel (preflow_iter held al s t) (q, None)) g.
  Proof.
    unfold max_flow_preflowpush, prelude. symmetry. repeat (rewrite bind_assoc; apply bind_cong; intros ? ?). destruct al; try reflexivity. contradiction.
  Qed.
  Definition done (h : graph) : Prop := exists f e d, PS g c final_mode f e d h /\ inv f e d /\ forall x, In x nodes -> x <> s -> x <> t -> (e x <= 0)%Z.
  Lemma LI_done f e d q h : PS g c final_mode f e d h -> LI f e d q -> els q = [] -> done h.
  Proof.
    intros P I Hq. exists f, e, d. split; [exact P|]. split; [apply I|]. intros x H1 H2 H3. destruct (Z_le_gt_dec (e x) 0) as [|K]; [assumption|].
    assert (In x (els q)) by (apply (li_act I H1 H2 H3); lia). rewrite Hq in H. destruct H.
  Qed.
  Lemma preflow_partial : snd (max_flow_preflowpush held fuel s0 q0 s t al display g) = Err OutOfFuel \/
    ok (max_flow_preflowpush held fuel s0 q0 s t al display) g (fun _ h => done h).
  Proof.
    destruct (ok_ex prelude_ok) as (h & q & E & d & f & e & L & P & I & _). pose proof method_eq as Me. rewrite (bind_ok _ E) in Me.
    destruct (reach_dec false Hs) as [R HR].
    assert (Rstep : forall x y, In (x, y) es -> R x = true -> R y = true).
    { intros x y Hx Rx. apply HR. apply HR in Rx. apply (reach_step Rx). unfold sarc. rewrite D. apply (arc_listed _ _ D), Hx. }
    destruct (@loop_partial _ _ _ (preflow_iter held al s t) (fun st h => exists f e d, PS g c final_mode f e d h /\ LI f e d (fst st)) (fun _ h => done h) fuel (q, None) h) as [O|O].
    - exists f, e, (upd d s N). auto.
    - intros [q1 last] h1 (f1 & e1 & d1 & P1 & I1). eapply ok_weaken; [apply (iter_ok B Held Hal Hpq W D Hs Ht Rstep last I1 P1)|].
      intros [[q' last']|u] h'; cbn.
      + intros (f' & e' & d' & P' & I' & _). exists f', e', d'. auto.
      + intros [P' Hq']. apply (LI_done P' I1 Hq').
    - left. rewrite Me. exact O.
    - right. apply ok_ex in O as (h' & u & Eo & Hd). rewrite Eo in Me. eapply ok_weaken; [apply ok_eq; exact Me|]. intros u' k Hk; cbn beta in Hk; destruct Hk as [-> ->]. exact Hd.
  Qed.
  (* a bound on the number of iterations *)
  Definition mu_max : Z := (((2 * N + 2) * N * KA es + KA es) * KM nodes)%Z.
  Lemma mu_bound f d q : (forall x, In x nodes -> (0 <= d x <= 2 * N + 2)%Z) -> (0 <= P_PreflowAbs.mu es nodes c f d q < mu_max)%Z.
  Proof.
    intros H. split; [apply (mu_nonneg (Nn W) (arc_nodes W D) Hs Ht H)|].
    assert (B1 : (M1 nodes d <= (2 * N + 2) * N)%Z).
    { unfold M1. transitivity (zsum (fun _ : name => (2 * N + 2)%Z) nodes); [apply zsum_le; intros x Hx; specialize (H x Hx); lia|]. rewrite zsum_const. lia. }
    pose proof (A1_bounds es c f d) as B2. pose proof (M2_bounds (Nn W) (arc_nodes W D) Hs Ht q H) as B3. unfold P_PreflowAbs.mu, mu_max.
    assert (K0 : (0 <= KA es)%Z) by (unfold KA; lia). assert (K1 : (0 < KM nodes)%Z) by lia.
    assert ((M1 nodes d * KA es <= (2 * N + 2) * N * KA es)%Z) by (apply Z.mul_le_mono_nonneg_r; assumption).
    assert (((M1 nodes d * KA es + P_PreflowAbs.A1 es c f d) * KM nodes <= ((2 * N + 2) * N * KA es + KA es - 1) * KM nodes)%Z) by (apply Z.mul_le_mono_nonneg_r; lia). lia.
  Qed.
  Lemma preflow_total : no_antiparallel g -> reach (arc g) s t -> (forall x, In (s, x) es -> (0 < c (s, x))%Z -> reach (arc g) x t) -> (mu_max < Z.of_nat fuel)%Z ->
    ok (max_flow_preflowpush held fuel s0 q0 s t al display) g (fun _ h => done h).
  Proof.
    intros NA Hst' Hall Hfu. destruct (ok_ex prelude_ok) as (h & q & E & d & f & e & L & P & I & G1 & G2 & G3). pose proof method_eq as Me. rewrite (bind_ok _ E) in Me.
    set (R := fun _ : name => true). assert (Rstep : forall x y, In (x, y) es -> R x = true -> R y = true) by reflexivity.
    pose proof (start_LT L I Hst' Hall G1 G2 : P_PreflowLoop.LT els g c R f (upd d s N) q) as T.
    assert (Bd : forall f e d q, LI f e d q -> P_PreflowLoop.LT els g c R f d q -> forall x, In x nodes -> (0 <= d x <= 2 * N + 2)%Z).
    { intros f1 e1 d1 q1 I1 T1 x Hx. split; [apply (iv_dpos (li_inv I1) Hx)|apply (it_max (lt_inv T1) Hx)]. }
    assert (O : ok (loop fuel (preflow_iter held al s t) (q, None)) h (fun _ h => done h)).
    { apply ok_loop_n with (I := fun n st h => exists f e d, PS g c final_mode f e d h /\ LI f e d (fst st) /\ P_PreflowLoop.LT els g c R f d (fst st) /\ n = Z.to_nat (P_PreflowAbs.mu es nodes c f d (els (fst st))))
        (n := Z.to_nat (P_PreflowAbs.mu es nodes c f (upd d s N) (els q))).
      - exists f, e, (upd d s N). auto.
      - pose proof (mu_bound f (els q) (Bd _ _ _ _ I T)). lia.
      - intros n [q1 last] h1 (f1 & e1 & d1 & P1 & I1 & T1 & ->). cbn [fst] in *. eapply ok_weaken; [apply (iter_ok B Held Hal Hpq W D Hs Ht Rstep last I1 P1)|].
        intros [[q' last']|u] h'; cbn.
        + intros (f' & e' & d' & P' & I' & K). destruct (K NA T1) as [T' Hmu]. exists (Z.to_nat (P_PreflowAbs.mu es nodes c f' d' (els q'))).
          pose proof (mu_bound f1 (els q1) (Bd _ _ _ _ I1 T1)). pose proof (mu_bound f' (els q') (Bd _ _ _ _ I' T')). split; [lia|]. exists f', e', d'. auto.
        + intros [P' Hq']. apply (LI_done P' I1 Hq'). }
    apply ok_ex in O as (h' & u & Eo & Hd). rewrite Eo in Me. eapply ok_weaken; [apply ok_eq; exact Me|]. intros u' k Hk; cbn beta in Hk; destruct Hk as [-> ->]. exact Hd.
  Qed.
End Top.
