(* Following a spanning tree: simplex_compute_potentials and simplex_identify_cycle. *)
From Verif Require Import Py Util M_Graph P_Graph Spec P_Walk P_Attr M_Search M_Flow M_Dfs S_Flow S_MinCost P_EdgeFrame P_Flow P_MinCostAbs M_MinCost M_NetSimplex P_Residual P_Pok P_NetTree P_NetSearch.
Set Implicit Arguments. Unset Strict Implicit.
Local Open Scope string_scope. Local Open Scope list_scope.

Lemma cycle_pairs_next z l s1 x s2 : s1 ++ x :: s2 = z :: l -> In (x, hd z s2) (cycle_pairs (z :: l)).
Proof.
  intros E. rewrite cycle_pairs_last, <- E. apply in_app_iff. destruct s2 as [|y s2]; [right; left|left].
  - rewrite last_last. reflexivity.
  - apply in_consecutive. exists s1, s2. reflexivity.
Qed.
Lemma walk_rev (E E' : name -> name -> Prop) a p b : (forall x y, E x y -> E' y x) -> walk E a p b -> walk E' b (rev p) a.
Proof. intros H. induction 1 as [a|a x p c He Hw IH]; [constructor|]. simpl. apply (walk_snoc IH), H, He. Qed.

Section Tree.
  Variables (t : graph) (root : name) (nr : val) (seq : list name) (P : name -> option name) (D : name -> Z).
  Notation tes := (get_edge_list t).
  Hypothesis Wt : wf t.
  Hypothesis TI : tree_info tes t root nr seq P D.
  Hypothesis Cov : forall x, In x (get_node_list t) -> In x seq.

  Lemma par_of x : In x seq -> x <> root -> exists p, P x = Some p /\ In p seq /\ adj tes x p /\ D x = (D p + 1)%Z.
  Proof.
    intros Hx Hr. apply in_split in Hx as (s1 & s2 & E). destruct (ti_par TI E Hr) as (p & H1 & H2 & H3). exists p. split; [exact H1|]. split; [rewrite E; apply in_app_iff; auto|exact H3].
  Qed.
  Lemma par_step x p : In x seq -> P x = Some p -> In p seq /\ adj tes x p /\ D x = (D p + 1)%Z.
  Proof.
    intros Hx Hp. destruct (eq_dec x root) as [->|Hr]; [rewrite (ti_src TI) in Hp; discriminate|]. destruct (par_of Hx Hr) as (p' & H1 & H2). rewrite Hp in H1. injection H1 as ->. exact H2.
  Qed.
  Lemma root_in : In root seq.
  Proof. destruct (ti_hd TI) as [rest ->]. left. reflexivity. Qed.
  Lemma tree_above x : In x seq -> above P root x.
  Proof.
    enough (G : forall s1 s2, seq = s1 ++ s2 -> forall z, In z s1 -> above P root z) by (intros H; apply (G seq []); [rewrite app_nil_r; reflexivity|exact H]).
    induction s1 as [|y s1 IH] using rev_ind; intros s2 E z Hz; [destruct Hz|]. rewrite <- app_assoc in E. apply in_app_iff in Hz as [Hz|[<-|[]]]; [apply (IH _ E _ Hz)|].
    destruct (eq_dec y root) as [->|Hy]; [constructor|]. destruct (ti_par TI E Hy) as (p & H1 & H2 & _). apply above_step with p; [exact H1|]. apply (IH _ E _ H2).
  Qed.
  Lemma tree_depth x : In x seq -> (D root <= D x)%Z.
  Proof.
    intros Hx. pose proof (tree_above Hx) as A. induction A as [|z w Hz A IH]; [lia|]. destruct (par_step Hx Hz) as (H1 & _ & ->). specialize (IH H1). lia.
  Qed.
  Lemma tree_arcs x y : forest tes -> In (x, y) tes -> In x seq -> In y seq -> P x = Some y \/ P y = Some x.
  Proof.
    intros F He Hx Hy. apply (forest_parent (S := fun z => In z seq) (r := root) F); auto; [apply tree_above|].
    intros z p Hz Hp. destruct (par_step Hz Hp) as (H1 & H2 & _). auto.
  Qed.
  Lemma t_node x : In x seq -> In x (dkeys (g_nodes t)).
  Proof. intros Hx. rewrite (wf_nodes Wt). apply (ti_V TI Hx). Qed.

  (** ** potentials *)
  Definition pt (h : graph) (x : name) : Z := match nattr h x "potential" with VI z => z | _ => 0%Z end.
  Section Potentials.
    Variable g : graph.
    Variable k : fn.
    Hypothesis W : wf g.
    Hypothesis Dr : g_type g = Directed.
    Hypothesis HV : incl seq (get_node_list g).
    Notation es := (get_edge_list g).
    Hypothesis Hes : incl tes es.
    Hypothesis As : asymmetric es.
    Hypothesis Hk : forall e, In e es -> eattr g (fst e) (snd e) "cost" = Some (VI (k e)).
    Definition tight (h : graph) (x : name) : Prop := forall p, P x = Some p ->
      (In (p, x) es -> pt h x = (pt h p - k (p, x))%Z) /\ (In (x, p) es -> pt h x = (pt h p + k (x, p))%Z).

    Lemma potentials_t fuel : tpk (fuel <= length seq) (simplex_compute_potentials fuel t root) g (fun _ h => nfr ["potential"] g h /\
      forall x, In x seq -> (exists z, nattr h x "potential" = VI z) /\ tight h x /\ (x = root -> nattr h x "potential" = VI 0)).
    Proof.
      assert (Vn : forall x, In x seq -> In x (get_node_list g)) by exact HV.
      unfold simplex_compute_potentials. apply pok_step. apply ok_nset with (bs := ["potential"]); [exact W|apply Vn, root_in|simpl; auto|]. intros h0 F0 N0.
      apply pok_step. apply ok_ask, ok_get_node_attr; [apply t_node, root_in|].
      destruct (ti_hd TI) as [rest Er].
      assert (Th : forall s1 x s2, seq = s1 ++ x :: s2 -> nattr t x "thread" = vname (hd root s2)).
      { intros s1 x s2 E. apply (ti_thread TI). rewrite Er. apply (cycle_pairs_next (s1 := s1)). congruence. }
      apply tpk_loop with (n := length rest) (I := fun n j h => nfr ["potential"] g h /\ exists s1 s2, n = length s2 /\ s1 <> [] /\ seq = s1 ++ s2 /\ j = vname (hd root s2) /\
        forall x, In x s1 -> (exists z, nattr h x "potential" = VI z) /\ tight h x /\ (x = root -> nattr h x "potential" = VI 0)).
      { split; [exact F0|]. exists [root], rest. split; [reflexivity|]. split; [discriminate|]. split; [exact Er|]. split; [apply (Th [] root rest Er)|].
        intros x [<-|[]]. split.
        - rewrite N0. destruct (eq_dec (root, "potential") (root, "potential")); [eauto|congruence].
        - split; [intros p Hp; rewrite (ti_src TI) in Hp; discriminate|]. intros _. rewrite N0. destruct (eq_dec (root, "potential") (root, "potential")); congruence. }
      { rewrite Er. simpl. lia. }
      intros ? j h (F & s1 & s2 & -> & Hne & E & -> & Inv).
      destruct s2 as [|x s2]; cbn [hd].
      { rewrite eqb_refl. apply pok_ret. split; [exact F|]. rewrite app_nil_r in E. rewrite E. exact Inv. }
      assert (Hx : In x seq) by (rewrite E; apply in_app_iff; simpl; auto).
      assert (Hxr : x <> root).
      { intros ->. pose proof (ti_nd TI) as Hn. rewrite E in Hn. apply NoDup_remove_2 in Hn. apply Hn, in_app_iff. left. destruct s1 as [|y s1]; [congruence|]. rewrite E in Er. injection Er as -> _. left. reflexivity. }
      destruct (eqb_spec (vname x) (vname root)) as [K|_]; [apply vname_inj in K; contradiction|].
      destruct (ti_par TI E Hxr) as (p & Hp & Hps & A & _).
      assert (Hpq : In p seq) by (rewrite E; apply in_app_iff; auto).
      destruct (Inv p Hps) as [(zp & Ep) _].
      assert (Hxs : ~ In x s1) by (pose proof (ti_nd TI) as Hn; rewrite E in Hn; apply NoDup_remove_2 in Hn; intros K; apply Hn, in_app_iff; auto).
      apply pok_step. unfold node_of. apply ok_lift with (a := x); [apply nameof_vname|].
      apply pok_step. apply ok_ask, ok_get_node_attr; [apply t_node, Hx|]. rewrite (ti_pred TI Hx), Hp.
      apply pok_step. apply ok_lift with (a := p); [apply nameof_vname|].
      apply pok_step. apply ok_get_node_attr; [rewrite (wf_nodes (nfr_wf F W)); change (In p (get_node_list h)); rewrite (nfr_nodes F); apply Vn, Hpq|]. rewrite Ep.
      assert (Dm : forall h e, nfr ["potential"] g h -> dmem (g_edges h) e = mem e es).
      { intros h' e F'. rewrite (nf_store F'). destruct (dmem_spec (g_edges g) e) as [H|H], (mem_spec e es) as [H'|H']; try reflexivity; contradiction. }
      assert (Fin : forall h1 v, nfr ["potential"] g h1 -> (forall y b, nattr h1 y b = if eq_dec (y, b) (x, "potential") then VI v else nattr h y b) ->
         (In (p, x) es -> v = (zp - k (p, x))%Z) -> (In (x, p) es -> v = (zp + k (x, p))%Z) ->
         tpk (fuel <= length seq) (j <- ask (get_node_attr x "thread") t ;; ret (inl j)) h1 (fun (r : val + unit) s' => match r with
           | inl j => exists n', n' < length (x :: s2) /\ nfr ["potential"] g s' /\ exists s1 s2, n' = length s2 /\ s1 <> [] /\ seq = s1 ++ s2 /\ j = vname (hd root s2) /\ forall x, In x s1 -> (exists z, nattr s' x "potential" = VI z) /\ tight s' x /\ (x = root -> nattr s' x "potential" = VI 0)
           | inr _ => nfr ["potential"] g s' /\ forall x, In x seq -> (exists z, nattr s' x "potential" = VI z) /\ tight s' x /\ (x = root -> nattr s' x "potential" = VI 0) end)).
      { intros h1 v F1 N1 V1 V2. apply pok_step. apply ok_ask, ok_get_node_attr; [apply t_node, Hx|]. apply pok_ret. exists (length s2). split; [simpl; lia|]. split; [exact F1|].
        exists (s1 ++ [x]), s2. split; [reflexivity|]. split; [destruct s1; discriminate|]. split; [rewrite <- app_assoc; exact E|]. split; [apply (Th s1 x s2 E)|].
        assert (Pt : forall y, In y s1 -> nattr h1 y "potential" = nattr h y "potential").
        { intros y Hy. rewrite N1. destruct (eq_dec (y, "potential") (x, "potential")) as [[= ->]|_]; [contradiction|reflexivity]. }
        assert (Px : nattr h1 x "potential" = VI v) by (rewrite N1; destruct (eq_dec (x, "potential") (x, "potential")); congruence).
        intros y Hy. apply in_app_iff in Hy as [Hy|[<-|[]]].
        - destruct (Inv y Hy) as [I1 [I2 I3]]. rewrite (Pt y Hy). split; [exact I1|]. split; [|exact I3]. intros q Hq. unfold pt. rewrite (Pt y Hy).
          assert (Hqs : In q s1).
          { apply in_split in Hy as (a1 & a2 & Ey). assert (Es : seq = a1 ++ y :: (a2 ++ x :: s2)) by (rewrite E, Ey, <- app_assoc; reflexivity).
            destruct (eq_dec y root) as [->|Hyr]; [rewrite (ti_src TI) in Hq; discriminate|]. destruct (ti_par TI Es Hyr) as (q' & H1 & H2 & _). rewrite Hq in H1. injection H1 as ->. rewrite Ey. apply in_app_iff. auto. }
          rewrite (Pt q Hqs). exact (I2 q Hq).
        - split; [eauto|]. split; [|contradiction]. intros q Hq. rewrite Hp in Hq. injection Hq as <-. unfold pt. rewrite Px, (Pt p Hps), Ep. auto. }
      assert (Set' : forall h1 v, nfr ["potential"] g h1 -> (forall y b, nattr h1 y b = nattr h y b) -> ok (set_node_attr x "potential" (VI v)) h1 (fun _ h2 =>
          nfr ["potential"] g h2 /\ forall y b, nattr h2 y b = if eq_dec (y, b) (x, "potential") then VI v else nattr h y b)).
      { intros h1 v F1 N1. apply ok_nset with (bs := ["potential"]); [apply (nfr_wf F1 W)|rewrite (nfr_nodes F1); apply Vn, Hx|simpl; auto|]. intros h2 F2 N2.
        split; [apply (nfr_trans F1 F2), incl_refl|]. intros y b. rewrite N2, N1. reflexivity. }
      assert (Cost : forall h1 e (Q : val -> graph -> Prop), nfr ["potential"] g h1 -> In e es -> Q (VI (k e)) h1 -> ok (edge_get e "cost") h1 Q).
      { intros h1 e Q F1 He HQ. eapply ok_edge_get; [apply (nfr_type F1 Dr)| |exact HQ]. rewrite (nf_edges F1). apply Hk, He. }
      apply pok_step, ok_gets. rewrite (Dm h (p, x) F). destruct (mem_spec (p, x) es) as [M1|M1].
      - assert (M2 : ~ In (x, p) es) by (apply As, M1).
        apply pok_step. apply ok_bind. apply (Cost h (p, x)); [exact F|exact M1|]. apply ok_bind, ok_as_int, ok_bind, ok_as_int. eapply ok_weaken; [apply (Set' h _ F); reflexivity|]. intros _ h2 [F2 N2].
        apply pok_step, ok_gets. rewrite (Dm h2 (x, p) F2). destruct (mem_spec (x, p) es) as [M3|M3]; [contradiction|]. apply pok_step, ok_ret.
        apply (Fin h2 _ F2 N2); [reflexivity|contradiction].
      - assert (M2 : In (x, p) es) by (destruct A as [A|A]; apply Hes in A; [exact A|contradiction]).
        apply pok_step, ok_ret. apply pok_step, ok_gets. rewrite (Dm h (x, p) F). destruct (mem_spec (x, p) es) as [M3|M3]; [|contradiction].
        apply pok_step. apply ok_bind. apply (Cost h (x, p)); [exact F|exact M2|]. apply ok_bind, ok_as_int, ok_bind, ok_as_int. eapply ok_weaken; [apply (Set' h _ F); reflexivity|]. intros _ h2 [F2 N2].
        apply (Fin h2 _ F2 N2); [contradiction|reflexivity].
    Qed.
    Lemma potentials_ok fuel : pok (simplex_compute_potentials fuel t root) g (fun _ h => nfr ["potential"] g h /\
      forall x, In x seq -> (exists z, nattr h x "potential" = VI z) /\ tight h x /\ (x = root -> nattr h x "potential" = VI 0)).
    Proof. apply (tpk_pok (potentials_t fuel)). Qed.
    (* arcs of the tree then have reduced cost 0 *)
    Lemma tight_tree h x y : forest tes -> (forall x, In x seq -> tight h x) -> In (x, y) tes -> In x seq -> In y seq -> (k (x, y) - pt h x + pt h y = 0)%Z.
    Proof.
      intros F T He Hx Hy. destruct (tree_arcs F He Hx Hy) as [H|H].
      - destruct (T x Hx y H) as [_ H2]. specialize (H2 (Hes He)). lia.
      - destruct (T y Hy x H) as [H2 _]. specialize (H2 (Hes He)). lia.
    Qed.
  End Potentials.

  (** ** the cycle closed by a new arc *)
  Definition up (a b : name) : Prop := P a = Some b.
  Lemma tree_pred_ok i g (Q : name -> graph -> Prop) : In i seq -> i <> root -> (forall p, P i = Some p -> In p seq -> adj tes i p -> D i = (D p + 1)%Z -> Q p g) -> ok (tree_pred t i) g Q.
  Proof.
    intros Hi Hr HQ. destruct (par_of Hi Hr) as (p & H1 & H2 & H3 & H4). unfold tree_pred. apply ok_bind, ok_ask, ok_get_node_attr; [apply t_node, Hi|]. rewrite (ti_pred TI Hi), H1.
    unfold node_of. apply ok_lift with (a := p); [apply nameof_vname|]. auto.
  Qed.
  Record IC (k l i j : name) (li lj : list name) : Prop := {
    ic_i : In i seq;
    ic_j : In j seq;
    ic_li : walk up k (li ++ [i]) i;
    ic_lj : walk up l (lj ++ [j]) j;
    ic_sub : incl li seq;
    ic_sub' : incl lj seq;
    ic_nd : NoDup (li ++ [i]);
    ic_nd' : NoDup (lj ++ [j]);
    ic_a : forall x, In x li -> (D j < D x)%Z;
    ic_b : forall x, In x lj -> (D i < D x)%Z;
    ic_a' : forall x, In x li -> (D i < D x)%Z;
    ic_b' : forall x, In x lj -> (D j < D x)%Z;
    ic_c : forall x, In x li -> ~ In x lj
  }.
  Lemma IC_swap k l i j li lj : IC k l i j li lj -> IC l k j i lj li.
  Proof. intros []. constructor; auto. intros x H1 H2. exact (ic_c0 x H2 H1). Qed.
  (* moving i up *)
  Lemma IC_up k l i j li lj p : IC k l i j li lj -> (D j < D i)%Z -> P i = Some p -> IC k l p j (li ++ [i]) lj.
  Proof.
    intros J Hd Hp. destruct (par_step (ic_i J) Hp) as (H1 & _ & H2). destruct J. constructor; auto.
    - apply (walk_snoc ic_li0 Hp).
    - intros x Hx. apply in_app_iff in Hx as [Hx|[<-|[]]]; auto.
    - apply NoDup_snoc. split; [exact ic_nd0|]. intros Hx. apply in_app_iff in Hx as [Hx|[<-|[]]]; [specialize (ic_a'0 _ Hx)|]; lia.
    - intros x Hx. apply in_app_iff in Hx as [Hx|[<-|[]]]; auto.
    - intros x Hx. specialize (ic_b0 _ Hx). lia.
    - intros x Hx. apply in_app_iff in Hx as [Hx|[<-|[]]]; [specialize (ic_a'0 _ Hx)|]; lia.
    - intros x Hx Hx'. apply in_app_iff in Hx as [Hx|[<-|[]]]; [apply (ic_c0 x Hx Hx')|]. specialize (ic_b0 _ Hx'). lia.
  Qed.
  Lemma identify_t fuel k l g : In k seq -> In l seq -> tpk (fuel <= 2 * length seq) (simplex_identify_cycle fuel t k l) g (fun c h => h = g /\ NoDup c /\ walk (adj tes) l c k).
  Proof.
    intros Hk Hl. unfold simplex_identify_cycle. apply pok_bind.
    assert (Lg : forall l', NoDup l' -> incl l' seq -> length l' <= length seq) by (intros; apply NoDup_incl_length; assumption).
    assert (Room : forall i j li lj, IC k l i j li lj -> length li + 1 <= length seq /\ length lj + 1 <= length seq).
    { intros i j li lj J. split; [replace (length li + 1) with (length (li ++ [i])) by apply app_length; apply Lg; [apply (ic_nd J)|]|replace (length lj + 1) with (length (lj ++ [j])) by apply app_length; apply Lg; [apply (ic_nd' J)|]];
        intros x Hx; apply in_app_iff in Hx as [Hx|[<-|[]]]; [apply (ic_sub J Hx)|apply (ic_i J)|apply (ic_sub' J Hx)|apply (ic_j J)]. }
    apply tpk_loop with (n := 2 * length seq) (I := fun n s h => h = g /\ let '((i, j), (li, lj)) := s in exists li' lj', n = 2 * length seq - length li' - length lj' /\ li = li' ++ [i] /\ lj = lj' ++ [j] /\ IC k l i j li' lj').
    { split; [reflexivity|]. exists [], []. split; [simpl; lia|]. split; [reflexivity|]. split; [reflexivity|]. constructor; simpl; auto; try (intros x []); try constructor; simpl; auto; constructor. }
    { auto. }
    intros ? [[i j] [li lj]] h (-> & li' & lj' & -> & -> & -> & J). pose proof (Room _ _ _ _ J) as Rm. destruct (eqb_spec i j) as [->|Hne].
    { apply pok_ret. apply pok_ret. split; [reflexivity|]. rewrite removelast_last. split.
      - apply NoDup_app_iff. split; [apply (ic_nd' J)|]. split; [apply NoDup_rev; pose proof (ic_nd J) as H; apply NoDup_snoc in H; apply H|].
        intros x Hx Hx'. apply in_rev in Hx'. apply in_app_iff in Hx as [Hx|[<-|[]]]; [apply (ic_c J Hx' Hx)|]. pose proof (ic_a' J Hx'). lia.
      - assert (Hup : forall x y, In x seq -> up x y -> adj tes x y) by (intros x y Hx Hxy; apply (par_step Hx Hxy)).
        assert (K : forall a p b, walk up a p b -> (forall x, In x p -> In x seq) -> walk (adj tes) a p b).
        { clear - Hup. induction 1 as [a|a x p c He Hw IH]; intros Hs; [constructor|]. econstructor; [apply Hup; [apply Hs; left; reflexivity|exact He]|]. apply IH. intros; apply Hs; right; assumption. }
        assert (Hli : forall x, In x (li' ++ [j]) -> In x seq) by (intros x Hx; apply in_app_iff in Hx as [Hx|[<-|[]]]; [apply (ic_sub J Hx)|apply (ic_j J)]).
        assert (Hlj : forall x, In x (lj' ++ [j]) -> In x seq) by (intros x Hx; apply in_app_iff in Hx as [Hx|[<-|[]]]; [apply (ic_sub' J Hx)|apply (ic_j J)]).
        apply walk_app with (b := j); [apply K; [apply (ic_lj J)|exact Hlj]|].
        assert (R : walk (adj tes) j (rev (li' ++ [j])) k) by (apply (walk_rev (E := adj tes)); [intros; apply adj_sym; assumption|]; apply K; [apply (ic_li J)|exact Hli]).
        rewrite rev_app_distr in R. exact R. }
    apply pok_step, ok_ask, ok_get_node_attr; [apply t_node, (ic_i J)|]. rewrite (ti_depth TI (ic_i J)).
    apply pok_step, ok_ask, ok_get_node_attr; [apply t_node, (ic_j J)|]. rewrite (ti_depth TI (ic_j J)).
    apply pok_step, ok_as_int. apply pok_step, ok_as_int.
    pose proof (tree_depth (ic_i J)) as Hi. pose proof (tree_depth (ic_j J)) as Hj.
    destruct (Z.gtb_spec (D i) (D j)) as [Hd|Hd].
    { assert (Hr : i <> root) by (intros ->; lia). apply pok_step. apply tree_pred_ok; [apply (ic_i J)|exact Hr|]. intros p Hp _ _ _. apply pok_ret. exists (2 * length seq - length (li' ++ [i]) - length lj'). split; [rewrite ?app_length; simpl; lia|]. split; [reflexivity|].
      exists (li' ++ [i]), lj'. split; [reflexivity|]. split; [reflexivity|]. split; [reflexivity|]. apply (IC_up J); [lia|exact Hp]. }
    destruct (Z.ltb_spec (D i) (D j)) as [Hd'|Hd'].
    { assert (Hr : j <> root) by (intros ->; lia). apply pok_step. apply tree_pred_ok; [apply (ic_j J)|exact Hr|]. intros p Hp _ _ _. apply pok_ret. exists (2 * length seq - length li' - length (lj' ++ [j])). split; [rewrite ?app_length; simpl; lia|]. split; [reflexivity|].
      exists li', (lj' ++ [j]). split; [reflexivity|]. split; [reflexivity|]. split; [reflexivity|]. apply IC_swap, (IC_up (IC_swap J)); [lia|exact Hp]. }
    assert (Hir : i <> root).
    { intros ->. destruct (par_of (ic_j J)) as (p & _ & Hp & _ & Hpd); [congruence|]. pose proof (tree_depth Hp). lia. }
    assert (Hjr : j <> root).
    { intros ->. destruct (par_of (ic_i J)) as (p & _ & Hp & _ & Hpd); [congruence|]. pose proof (tree_depth Hp). lia. }
    apply pok_step. apply tree_pred_ok; [apply (ic_i J)|exact Hir|]. intros p Hp Hps _ Hpd. apply pok_step. apply tree_pred_ok; [apply (ic_j J)|exact Hjr|]. intros q Hq Hqs _ Hqd. apply pok_ret. exists (2 * length seq - length (li' ++ [i]) - length (lj' ++ [j])). split; [rewrite ?app_length; simpl; lia|]. split; [reflexivity|].
    exists (li' ++ [i]), (lj' ++ [j]). split; [reflexivity|]. split; [reflexivity|]. split; [reflexivity|].
    destruct J. constructor; auto.
    - apply (walk_snoc ic_li0 Hp).
    - apply (walk_snoc ic_lj0 Hq).
    - intros x Hx. apply in_app_iff in Hx as [Hx|[<-|[]]]; auto.
    - intros x Hx. apply in_app_iff in Hx as [Hx|[<-|[]]]; auto.
    - apply NoDup_snoc. split; [exact ic_nd0|]. intros Hx. apply in_app_iff in Hx as [Hx|[<-|[]]]; [specialize (ic_a'0 _ Hx)|]; lia.
    - apply NoDup_snoc. split; [exact ic_nd'0|]. intros Hx. apply in_app_iff in Hx as [Hx|[<-|[]]]; [specialize (ic_b'0 _ Hx)|]; lia.
    - intros x Hx. apply in_app_iff in Hx as [Hx|[<-|[]]]; [specialize (ic_a0 _ Hx)|]; lia.
    - intros x Hx. apply in_app_iff in Hx as [Hx|[<-|[]]]; [specialize (ic_b0 _ Hx)|]; lia.
    - intros x Hx. apply in_app_iff in Hx as [Hx|[<-|[]]]; [specialize (ic_a'0 _ Hx)|]; lia.
    - intros x Hx. apply in_app_iff in Hx as [Hx|[<-|[]]]; [specialize (ic_b'0 _ Hx)|]; lia.
    - intros x Hx Hx'. apply in_app_iff in Hx as [Hx|[<-|[]]]; apply in_app_iff in Hx' as [Hx'|[E|[]]].
      + apply (ic_c0 x Hx Hx').
      + subst x. specialize (ic_a0 _ Hx). lia.
      + specialize (ic_b0 _ Hx'). lia.
      + congruence.
  Qed.
  Lemma identify_ok fuel k l g : In k seq -> In l seq -> pok (simplex_identify_cycle fuel t k l) g (fun c h => h = g /\ NoDup c /\ walk (adj tes) l c k).
  Proof. intros Hk Hl. apply (tpk_pok (identify_t fuel g Hk Hl)). Qed.
End Tree.
