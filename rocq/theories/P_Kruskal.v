(* minimum_spanning_tree_kruskal returns a minimum spanning forest: proofs. *)
From Verif Require Import Py Util M_Graph P_Graph P_GraphLaws P_Attr Spec P_Walk S_Span P_Span P_Prim M_Kruskal P_DisjointSet P_Sets.
From Coq Require Import Sorting.Sorted.
Set Implicit Arguments. Unset Strict Implicit.

(** * the stable sort *)
Section Sort.
  Context {A : Type}.
  Variable key : A -> Z.
  Definition le_key (x y : A) : Prop := (key x <= key y)%Z.
  Lemma insert_perm x l : Permutation (insert_by key x l) (x :: l).
  Proof.
    induction l as [|y t IH]; simpl; [reflexivity|]. destruct (key x <=? key y)%Z; [reflexivity|].
    rewrite IH. apply perm_swap.
  Qed.
  Lemma sort_perm l : Permutation (sort_by key l) l.
  Proof. induction l as [|x t IH]; simpl; [reflexivity|]. rewrite insert_perm, IH. reflexivity. Qed.
  Lemma insert_sorted x l : StronglySorted le_key l -> StronglySorted le_key (insert_by key x l).
  Proof.
    induction 1 as [|y t Ht IH Hy]; simpl; [repeat constructor|]. destruct (Z.leb_spec (key x) (key y)).
    - constructor; [constructor; assumption|]. constructor; [assumption|]. eapply Forall_impl; [|exact Hy]. unfold le_key. intros; lia.
    - constructor; [assumption|]. apply Forall_forall. intros z Hz. apply (Permutation_in _ (insert_perm x t)) in Hz.
      destruct Hz as [<-|Hz]; [unfold le_key; lia|]. rewrite Forall_forall in Hy. auto.
  Qed.
  Lemma sort_sorted l : StronglySorted le_key (sort_by key l).
  Proof. induction l as [|x t IH]; simpl; [constructor|apply insert_sorted; assumption]. Qed.
End Sort.

(** * forests have fewer edges than nodes *)
Lemma acyclic_bound F (N : list name) : acyclic F -> (forall x y, In (x, y) F -> In x N /\ In y N) -> N <> [] -> length F <= length N - 1.
Proof.
  intros Ha Hi HN. destruct N as [|x0 N]; [congruence|]. clear HN.
  set (star := map (fun y => (x0, y)) N).
  assert (Hst : forall y, In y (x0 :: N) -> conn star x0 y).
  { intros y [<-|Hy]; [apply conn_refl|]. apply conn_edge. left. unfold star. apply in_map_iff. eauto. }
  replace (length (x0 :: N) - 1) with (length star) by (unfold star; rewrite map_length; simpl; lia).
  apply acyclic_len with (E := F ++ star); [intros e He; apply in_app_iff; auto|assumption|].
  split; [intros e He; apply in_app_iff; auto|]. apply conn_sub. intros x y Hxy. apply in_app_iff in Hxy as [Hxy|Hxy].
  - destruct (Hi _ _ Hxy) as [Hx Hy]. eapply conn_trans; [apply conn_sym|]; auto.
  - apply conn_edge. left. assumption.
Qed.
Lemma acyclic_full F (N : list name) : acyclic F -> (forall x y, In (x, y) F -> In x N /\ In y N) ->
  (Z.of_nat (length F) = Z.of_nat (length N) - 1)%Z -> forall x y, In x N -> In y N -> conn F x y.
Proof.
  intros Ha Hi Hl x y Hx Hy. destruct (conn_dec F x y) as [H|H]; [assumption|]. exfalso.
  assert (Hb : length ((x, y) :: F) <= length N - 1).
  { apply acyclic_bound; [apply acyclic_cons; assumption| |destruct N; [destruct Hx|discriminate]]. intros a b [[= <- <-]|Hab]; auto. }
  simpl in Hb. unfold edge in *. lia.
Qed.

Lemma ok_withD {A} (m : M dsj A) d d' a g (Q : A * dsj -> graph -> Prop) : m d = (d', Ok a) -> Q (a, d') g -> ok (withD m d) g Q.
Proof. intros H HQ. unfold withD. rewrite H. apply ok_ret. assumption. Qed.

Section Kruskal.
  Variable g : graph.
  Hypothesis W : wf g.
  Variable c : edge -> Z.
  Hypothesis Hc : forall e, In e (get_edge_list g) -> eattr g (fst e) (snd e) "cost" = Some (VI (c e)).
  Notation E := (get_edge_list g).
  Notation N := (get_node_list g).

  Definition kframe (h : graph) : Prop := same_shape g h /\ (forall x b, nattr h x b = nattr g x b) /\
    (forall x y b, b <> "color"%string -> eattr h x y b = eattr g x y b) /\ g_attr h = g_attr g /\ g_ncomp h = g_ncomp g.
  Lemma kframe_refl : kframe g.
  Proof. split; [apply ss_refl|auto]. Qed.
  Lemma edge_check e h : same_shape g h -> In e E -> check_edge h (fst e) (snd e) = true.
  Proof.
    intros S He. rewrite (ss_check_edge _ _ S). destruct e as [x y]; simpl. unfold check_edge.
    assert (dmem (g_edges g) (x, y) = true) as -> by (apply dmem_In; exact He). destruct (g_type g); reflexivity.
  Qed.
  Lemma ok_color e s h (Q : unit -> graph -> Prop) : kframe h -> In e E -> (forall h', kframe h' -> Q tt h') -> ok (set_edge_attr (fst e) (snd e) "color" (VS s)) h Q.
  Proof.
    intros (S & A & B & G & K) He HQ. apply ok_set_edge_attr; [eapply ss_wf; eauto|apply edge_check; assumption|].
    intros h' S' A' B' G' K' _. apply HQ. split; [eapply ss_trans; eauto|]. split; [intros; rewrite A'; apply A|].
    split; [|split; congruence]. intros x y b Hb. rewrite B'. destruct (eqb_spec b "color"%string); [contradiction|]. simpl. apply B; assumption.
  Qed.
  Lemma edge_nodes x y : In (x, y) E -> In x N /\ In y N.
  Proof. intros H. split; [eapply wf_edge_l|eapply wf_edge_r]; eauto. Qed.

  Lemma costs_ok : edge_costs E g = (g, Ok (map (fun e => (e, c e)) E)).
  Proof.
    apply ok_eq. unfold edge_costs. apply ok_foldM with (I := fun pre b s => b = map (fun e => (e, c e)) pre /\ s = g).
    - auto.
    - intros pre e post b s Hl [-> ->]. apply ok_bind. unfold get_edge_cost. eapply ok_get_edge_attr.
      + apply Hc. rewrite Hl, in_app_iff. simpl; auto.
      + cbv beta iota. apply ok_ret. split; [|reflexivity]. rewrite map_app. reflexivity.
    - auto.
  Qed.
  Lemma adds_ok d0 : ds_inv d0 [] [] ->
    ok (foldM (fun d n => '(_, d) <- withD (ds_add [n]) d ;; ret d) N d0) g (fun d s => ds_inv d N [] /\ s = g).
  Proof.
    intros D0. apply ok_foldM with (I := fun pre d s => ds_inv d pre [] /\ s = g).
    - auto.
    - intros pre n post d s Hl [D ->]. destruct (add_ok (a := n) (t := []) D) as (d' & He & D' & _).
      + repeat constructor; auto.
      + intros x [<-|[]]. pose proof (wf_nd W) as Hnd. change (NoDup N) in Hnd. rewrite Hl in Hnd. apply NoDup_remove_2 in Hnd.
        rewrite in_app_iff in Hnd. tauto.
      + apply ok_bind. eapply ok_withD; [exact He|]. cbv beta iota. apply ok_ret. auto.
    - auto.
  Qed.

  Variable fuel : nat.
  Hypothesis Hf : length N <= fuel.
  (* loop invariant: pre are the edges dealt with *)
  Record kinv (pre : list edge) (T : list edge) (d : dsj) (J : list edge) : Prop := {
    k_ds : ds_inv d N J;
    k_conn : forall x y, conn J x y <-> conn T x y;
    k_pre : forall e, In e pre -> conn T (fst e) (snd e);
    k_cut : cutseq c E (rev T)
  }.
  Lemma conn_rev T x y : conn (rev T) x y <-> conn T x y.
  Proof. split; apply conn_incl; intros e; rewrite <- in_rev; auto. Qed.
  Lemma kloop_ok l : forall pre T d J h, StronglySorted (le_key c) (pre ++ l) -> (forall e, In e (pre ++ l) <-> In e E) -> kinv pre T d J -> kframe h ->
    ok (kruskal_loop fuel l T d) h (fun T' h' => kframe h' /\ cutseq c E (rev T') /\ forall e, In e E -> conn T' (fst e) (snd e)).
  Proof.
    induction l as [|e t IH]; intros pre T d J h Hs Hin K F; simpl.
    - apply ok_ret. split; [assumption|]. split; [apply (k_cut K)|]. intros e He. apply (k_pre K). apply Hin in He. rewrite app_nil_r in He. assumption.
    - apply ok_bind, ok_gets.
      assert (HE : In e E) by (apply Hin; rewrite in_app_iff; simpl; auto).
      match goal with |- context [(?a =? ?b)%Z] => destruct (Z.eqb_spec a b) as [Hl|Hl] end.
      + apply ok_ret. split; [assumption|]. split; [apply (k_cut K)|]. intros f Hfe. rewrite (ss_node_list (proj1 F)) in Hl.
        apply conn_rev. apply acyclic_full with (N := N).
        * eapply cutseq_acyclic. apply (k_cut K).
        * intros x y Hxy. apply edge_nodes. exact (cutseq_incl (k_cut K) Hxy).
        * rewrite rev_length. assumption.
        * apply (edge_nodes (x := fst f) (y := snd f)). destruct f; assumption.
        * apply (edge_nodes (x := fst f) (y := snd f)). destruct f; assumption.
      + apply ok_bind, ok_color; [assumption|assumption|]. intros h1 F1. apply ok_bind.
        destruct (edge_nodes (x := fst e) (y := snd e)) as [H1 H2]; [destruct e; assumption|].
        destruct (union_ok (k_ds K) H1 H2 Hf) as (d' & b & Hu & D' & Hb). eapply ok_withD; [exact Hu|]. cbv beta iota.
        assert (Hs' : StronglySorted (le_key c) ((pre ++ [e]) ++ t)) by (rewrite <- app_assoc; exact Hs).
        assert (Hin' : forall f, In f ((pre ++ [e]) ++ t) <-> In f E) by (rewrite <- app_assoc; exact Hin).
        destruct b.
        * apply ok_bind, ok_color; [assumption|assumption|]. intros h2 F2. apply (IH (pre ++ [e]) (T ++ [e]) d' ((fst e, snd e) :: J)); auto.
          assert (Hnc : ~ conn T (fst e) (snd e)) by (rewrite <- (k_conn K); apply Hb; reflexivity).
          assert (Hinc : forall x y, conn T x y -> conn (T ++ [e]) x y) by (intros x y; apply conn_incl; intros f Hfx; apply in_app_iff; auto).
          constructor; [assumption|..].
          -- intros x y. split; apply conn_sub; intros a b Hab.
             ++ destruct Hab as [Hab|Hab]; [apply conn_edge; left; rewrite in_app_iff; right; left; destruct e; exact Hab|].
                apply Hinc, (k_conn K), conn_edge. left; assumption.
             ++ apply in_app_iff in Hab as [Hab|[->|[]]].
                ** assert (conn J a b) by (apply (k_conn K), conn_edge; left; assumption). revert H. apply conn_incl. intros z; simpl; auto.
                ** apply conn_edge. left. simpl; auto.
          -- intros f Hfe. apply in_app_iff in Hfe as [Hfe|[<-|[]]]; [apply Hinc, (k_pre K); assumption|].
             apply conn_edge. left. rewrite in_app_iff. right; left. destruct e; reflexivity.
          -- rewrite rev_app_distr. simpl. set (S := fun x => eqb (comp T x) (comp T (fst e))).
             assert (HS : forall x y, conn T x y -> S x = S y) by (intros x y H; apply comp_conn in H; unfold S; rewrite H; reflexivity).
             apply cs_cons with (S := S); [apply (k_cut K)|assumption|..].
             ++ unfold crosses, S. rewrite eqb_refl. intros H. symmetry in H. rewrite eqb_true in H. apply comp_conn in H. apply Hnc, conn_sym, H.
             ++ intros f Hfe Hx. apply in_rev in Hfe. apply Hx, HS, conn_edge. left. destruct f; assumption.
             ++ intros f Hfe Hx. apply Hin in Hfe. apply in_app_iff in Hfe as [Hfe|[<-|Hfe]].
                ** exfalso. apply Hx, HS, (k_pre K); assumption.
                ** lia.
                ** clear -Hs Hfe. induction pre as [|p pre IHp]; simpl in Hs; inversion Hs as [|? ? Hs1 Hs2]; subst; [|auto].
                   rewrite Forall_forall in Hs2. exact (Hs2 _ Hfe).
        * apply ok_bind, ok_color; [assumption|assumption|]. intros h2 F2.
          assert (Hcj : conn J (fst e) (snd e)). { destruct (conn_dec J (fst e) (snd e)) as [H|H]; [assumption|]. apply Hb in H. discriminate. }
          apply (IH (pre ++ [e]) T d' ((fst e, snd e) :: J)); auto.
          constructor; [assumption| | |apply (k_cut K)].
          -- intros x y. rewrite (conn_dup x y Hcj). apply (k_conn K).
          -- intros f Hfe. apply in_app_iff in Hfe as [Hfe|[<-|[]]]; [apply (k_pre K); assumption|]. apply (k_conn K). assumption.
  Qed.

  Lemma kruskal_ok opt kw : exists h T, kruskal fuel (new_ds opt kw) g = (h, Ok T) /\ kframe h /\
    min_spanning_forest c E T /\ ((forall e, In e E -> 0 <= c e)%Z -> min_connecting c E T).
  Proof.
    assert (G : ok (kruskal fuel (new_ds opt kw)) g (fun T h => kframe h /\ cutseq c E (rev T) /\ forall e, In e E -> conn T (fst e) (snd e))).
    { unfold kruskal. apply ok_bind, ok_gets. apply ok_bind. eapply ok_intro; [exact costs_ok|]. apply ok_bind, ok_gets.
      apply ok_bind. eapply ok_weaken; [apply adds_ok, new_ds_inv|]. intros d h H; cbn beta in H. destruct H as [D ->].
      set (l := sort_by snd (map (fun e => (e, c e)) E)).
      assert (Hl : forall p, In p l -> snd p = c (fst p)).
      { intros p Hp. apply (Permutation_in _ (sort_perm snd _)) in Hp. apply in_map_iff in Hp as (e & <- & _). reflexivity. }
      apply (kloop_ok (l := map fst l) (pre := []) (T := []) (J := [])); [| | |apply kframe_refl].
      - simpl. pose proof (sort_sorted snd (map (fun e => (e, c e)) E)) as Hs. fold l in Hs. clear -Hs Hl.
        induction Hs as [|p t Ht IH Hp]; simpl; [constructor|]. constructor; [apply IH; intros; apply Hl; simpl; auto|].
        rewrite Forall_forall in *. intros e He. apply in_map_iff in He as (q & <- & Hq). specialize (Hp _ Hq). unfold le_key in *.
        rewrite (Hl p), (Hl q) in Hp by (simpl; auto). assumption.
      - simpl. intros e. rewrite in_map_iff. split.
        + intros (p & <- & Hp). apply (Permutation_in _ (sort_perm snd _)) in Hp. apply in_map_iff in Hp as (f & <- & Hfe). assumption.
        + intros He. exists (e, c e). split; [reflexivity|]. apply (Permutation_in _ (Permutation_sym (sort_perm snd _))). apply in_map_iff. eauto.
      - constructor; [assumption|tauto|intros e []|apply cs_nil]. }
    apply ok_ex in G as (h & T & He & F & Cu & Sp). exists h, T. split; [assumption|]. split; [assumption|].
    assert (Hsp : spanning E (rev T)).
    { split; [eapply cutseq_incl; eauto|]. apply conn_sub. intros x y Hxy. apply conn_rev. apply (Sp (x, y) Hxy). }
    assert (P : Permutation (rev T) T) by (symmetry; apply Permutation_rev).
    split; [exact (msf_perm P (cutseq_min Cu Hsp))|]. intros Hnn. exact (mc_perm P (cutseq_connecting Cu Hnn)).
  Qed.
End Kruskal.
