(* Breadth-first search: hop distances. *)
From Coq Require Import Sorted.
From Verif Require Import Py Util M_Graph M_Search P_Graph Spec P_Walk P_Attr S_Frontier P_SearchAbs P_Search P_SearchInd P_SearchTop.
Set Implicit Arguments. Unset Strict Implicit.
Local Open Scope Z_scope.

Section Bfs.
  Variable fr : frontier.
  Variable els : fq fr -> list name.
  Hypothesis Hfifo : fifo els.
  Hypothesis Hnp : fq_is_pq fr = false.
  Variable al : algo.
  Hypothesis Hbfs : is_bfs al = true.
  Variable nb : name -> list name.
  Variable cost : name -> name -> option Z.
  Variable s0 : name.
  Variable V : list name.
  Notation E := (fun x y => In y (nb x)).
  Notation Inv_ := (Inv al nb s0 els V).
  Definition dz (s : ast fr) (x : name) : Z := match a_dist s x with Some z => z | None => 0 end.

  Lemma bfs_npq : is_pq_algo al = false.
  Proof. destruct al; try discriminate; reflexivity. Qed.

  Record BX (oc : option name) (s : ast fr) : Prop := {
    bx_sorted : StronglySorted (fun x y => dz s x <= dz s y) (els (a_q s));
    bx_spread : forall x t y, els (a_q s) = x :: t -> In y t -> dz s y <= dz s x + 1;
    bx_green : forall x y, In x (a_gr s) -> In y (els (a_q s)) -> dz s x <= dz s y;
    bx_src : dz s s0 = 0 /\ ~ In s0 (dkeys (a_pred s));
    bx_pred : forall x p, dget (a_pred s) x = Some p -> dz s x = dz s p + 1;
    bx_relaxed : forall x m, In x (a_gr s) -> In m (nb x) -> dz s m <= dz s x + 1;
    bx_head : forall cur, oc = Some cur -> exists t, els (a_q s) = cur :: t
  }.
  Definition BY (cur : name) (pre : list name) (s : ast fr) : Prop :=
    BX (Some cur) s /\ forall m, In m pre -> dz s m <= dz s cur + 1.

  Lemma visit_id (s : ast fr) cur : a_visit s cur = s.
  Proof. unfold a_visit. rewrite Hnp. reflexivity. Qed.
  Lemma edge_bfs cur n (t t' : ast fr) : a_edge al cost cur n t = Some t' -> exists d, a_dist t cur = Some d /\
    (a_dist t n <> None /\ t' = t \/ a_dist t n = None /\
      t' = mkA (dset (a_pred t) n cur) (fq_push (a_q t) n None) (a_gr t) (upd (a_dist t) n (Some (d + 1))) (a_prio t)).
  Proof.
    unfold a_edge. rewrite bfs_npq, Hbfs. destruct (a_dist t cur) as [d|]; [|discriminate]. simpl.
    destruct (a_dist t n) eqn:Hn; intros [= <-]; exists d; split; auto. left. split; congruence.
  Qed.
  Lemma SSorted_app_le {A} (R : A -> A -> Prop) l x : StronglySorted R l -> (forall y, In y l -> R y x) -> StronglySorted R (l ++ [x]).
  Proof.
    induction 1 as [|a l Hs IH Hf]; intros Hx; simpl; [repeat constructor|].
    constructor; [apply IH; intros; apply Hx; simpl; auto|].
    apply Forall_app. split; [assumption|]. repeat constructor. apply Hx; simpl; auto.
  Qed.
  Lemma SSorted_ext {A} (R R' : A -> A -> Prop) l : (forall x y, In x l -> In y l -> R x y -> R' x y) -> StronglySorted R l -> StronglySorted R' l.
  Proof.
    intros H Hs. induction Hs as [|a l Hs IH Hf]; constructor.
    - apply IH. intros; apply H; simpl; auto.
    - rewrite Forall_forall in *. intros y Hy. apply H; simpl; auto.
  Qed.

  Lemma BX_step dest s s' : bag els -> (forall x y, In x V -> In y (nb x) -> In y V) -> Inv_ None s -> BX None s ->
    a_iter al nb cost s0 dest s = Some (inl s') -> BX None s'.
  Proof.
    intros Hbag HnbV. pose proof bfs_npq as Hnpq.
    assert (Hal : al <> OtherAlgo) by (intros ->; discriminate).
    apply iter_ind with (els := els) (V := V) (Y := BY); auto; try congruence.
    - (* pop a green head *)
      intros t cur q' I B Hpk Hc Hg Hr. destruct (els (a_q t)) as [|x l] eqn:He; [destruct Hc|].
      pose proof (fifo_peek Hfifo He) as Hp. rewrite Hpk in Hp. injection Hp as <-.
      pose proof (fifo_remove Hfifo He Hr) as Hel.
      destruct B as [B1 B2 B3 B4 B5 B6 B7]. constructor; simpl; auto; try discriminate; unfold dz in *; simpl.
      + rewrite Hel. rewrite He in B1. inversion B1; assumption.
      + rewrite Hel. intros x t0 y -> Hy. assert (Hxy := B2 cur _ y He (or_intror Hy)).
        rewrite He in B1. inversion B1 as [|? ? _ Hf]; subst. rewrite Forall_forall in Hf. specialize (Hf x (or_introl eq_refl)). cbn beta in Hf. lia.
      + intros x y Hx Hy. rewrite Hel in Hy. apply B3; [assumption|]. rewrite He. simpl; auto.
    - (* start *)
      intros t cur I B Hpk Hc Hg. rewrite visit_id. destruct (els (a_q t)) as [|x l] eqn:He; [destruct Hc|].
      pose proof (fifo_peek Hfifo He) as Hp. rewrite Hpk in Hp. injection Hp as <-. split; [|intros m []].
      destruct B as [B1 B2 B3 B4 B5 B6 B7]. constructor; auto. intros c [= <-]. eauto.
    - (* green neighbour *)
      intros cur pre n t I C Hn Hg [B Bp]. split; [assumption|]. intros m Hm. apply in_app_or in Hm as [Hm|[<-|[]]]; [auto|].
      destruct (bx_head B eq_refl) as [tl Htl]. pose proof (bx_green B (y := cur) Hg) as H. rewrite Htl in H. specialize (H (or_introl eq_refl)). lia.
    - (* edge *)
      intros cur pre n t t' I C Hn Hg [B Bp] He.
      destruct (edge_bfs He) as (d & Hd & [[Hdn ->]|[Hdn ->]]).
      + (* already has a distance: it is discovered, not green, hence in the queue *)
        split; [assumption|]. intros m Hm. apply in_app_or in Hm as [Hm|[<-|[]]]; [auto|].
        apply (iv_dist I Hnpq) in Hdn. destruct (iv_disc I Hdn) as [?|Hin]; [contradiction|].
        destruct (bx_head B eq_refl) as [tl Htl]. rewrite Htl in Hin. destruct Hin as [<-|Hin]; [lia|]. apply (bx_spread B Htl Hin).
      + assert (Hnd : ~ disc s0 t n) by (intros H; apply (iv_dist I Hnpq) in H; contradiction).
        assert (Hdx : forall x, disc s0 t x -> x <> n) by (intros x Hx ->; contradiction).
        assert (Hz : dz t cur = d) by (unfold dz; rewrite Hd; reflexivity).
        set (t' := mkA _ _ _ _ _).
        assert (Hdz : forall x, dz t' x = if eq_dec n x then d + 1 else dz t x).
        { intros x. unfold dz, t'; simpl. unfold upd. destruct (eq_dec n x); reflexivity. }
        assert (Hold : forall x, disc s0 t x -> dz t' x = dz t x).
        { intros x Hx. rewrite Hdz. destruct (eq_dec n x) as [<-|]; [contradiction|reflexivity]. }
        assert (Hcd : disc s0 t cur) by apply C.
        assert (Hq : els (a_q t') = els (a_q t) ++ [n]) by (unfold t'; simpl; apply (fifo_push Hfifo)).
        destruct (bx_head B eq_refl) as [tl Htl].
        assert (Hle : forall y, In y (els (a_q t)) -> dz t y <= d + 1).
        { intros y Hy. rewrite Htl in Hy. destruct Hy as [<-|Hy]; [lia|]. rewrite <- Hz. apply (bx_spread B Htl Hy). }
        assert (Hmin : forall y, In y (els (a_q t)) -> d <= dz t y).
        { intros y Hy. pose proof (bx_sorted B) as Hs. rewrite Htl in Hs, Hy. inversion Hs as [|? ? _ Hf]; subst. rewrite Forall_forall in Hf.
          destruct Hy as [<-|Hy]; [lia|]. apply Hf; assumption. }
        split; [constructor|].
        * rewrite Hq. apply SSorted_app_le.
          -- eapply SSorted_ext; [|exact (bx_sorted B)]. intros x y Hx Hy Hxy. cbn beta in *. rewrite !Hold by (apply (iv_els I); assumption). exact Hxy.
          -- intros y Hy. cbn beta. rewrite Hold by (apply (iv_els I); assumption). rewrite Hdz. destruct (eq_dec n n); [|congruence]. apply Hle; assumption.
        * rewrite Hq, Htl. intros x t0 y [= <- <-] Hy. rewrite (Hold cur Hcd). apply in_app_or in Hy as [Hy|[<-|[]]].
          -- rewrite Hold by (apply (iv_els I); rewrite Htl; simpl; auto). apply (bx_spread B Htl Hy).
          -- rewrite Hdz. destruct (eq_dec n n); [lia|congruence].
        * intros x y Hx Hy. simpl in Hx. rewrite (Hold x) by (exact (proj1 (iv_gr I Hx))). rewrite Hq in Hy. apply in_app_or in Hy as [Hy|[<-|[]]].
          -- rewrite Hold by (apply (iv_els I); assumption). apply (bx_green B Hx Hy).
          -- rewrite Hdz. destruct (eq_dec n n); [|congruence]. pose proof (bx_green B (y := cur) Hx) as H. rewrite Htl in H. specialize (H (or_introl eq_refl)). lia.
        * destruct (bx_src B) as [S1 S2]. split; [rewrite Hold; [assumption|left; reflexivity]|].
          unfold t'; simpl. rewrite In_dkeys_dset. intros [H|H]; [apply Hnd; left; congruence|contradiction].
        * unfold t'; simpl. fold t'. intros x p. rewrite dget_dset. destruct (eq_dec n x) as [<-|Hnx].
          -- intros [= <-]. rewrite (Hold cur Hcd), Hdz. destruct (eq_dec n n); [lia|congruence].
          -- intros Hx. rewrite Hdz. destruct (eq_dec n x); [congruence|].
             rewrite (Hold p); [apply (bx_pred B Hx)|]. destruct (iv_pred I Hx) as [_ [Hp|[= ->]]]; [exact (proj1 (iv_gr I Hp))|assumption].
        * intros x m Hx Hm. simpl in Hx. destruct (iv_gr I Hx) as [X1 X2]. rewrite !Hold by auto. apply (bx_relaxed B Hx Hm).
        * intros c [= <-]. rewrite Hq, Htl. simpl. eauto.
        * intros m Hm. rewrite (Hold cur Hcd). apply in_app_or in Hm as [Hm|[<-|[]]].
          -- rewrite Hdz. destruct (eq_dec n m); [lia|]. apply Bp; assumption.
          -- rewrite Hdz. destruct (eq_dec n n); [lia|congruence].
    - (* end *)
      intros cur t q' I C [B Bp] Hr. destruct (bx_head B eq_refl) as [tl Htl]. pose proof (fifo_remove Hfifo Htl Hr) as Hel.
      assert (Hmin : forall y, In y (els (a_q t)) -> dz t cur <= dz t y).
      { intros y Hy. pose proof (bx_sorted B) as Hs. rewrite Htl in Hs, Hy. inversion Hs as [|? ? _ Hf]; subst. rewrite Forall_forall in Hf.
        destruct Hy as [<-|Hy]; [lia|]. apply Hf; assumption. }
      destruct B as [B1 B2 B3 B4 B5 B6 B7]. constructor; simpl; auto; try discriminate; unfold dz in *; simpl.
      + rewrite Hel. rewrite Htl in B1. inversion B1; assumption.
      + rewrite Hel. intros x t0 y -> Hy. pose proof (B2 cur _ y Htl (or_intror Hy)).
        rewrite Htl in Hmin. pose proof (Hmin x (or_intror (or_introl eq_refl))). lia.
      + intros x y Hx Hy. rewrite Hel in Hy. assert (Hy' : In y (els (a_q t))) by (rewrite Htl; simpl; auto).
        destruct Hx as [<-|Hx]; [apply Hmin; assumption|]. apply B3; assumption.
      + intros x m [<-|Hx] Hm; [apply Bp; assumption|]. apply B6; assumption.
  Qed.
  Lemma BX_init (q : fq fr) : els q = [s0] -> BX None (a_init al s0 q).
  Proof.
    intros He. pose proof bfs_npq as Hn. constructor; unfold a_init, dz; simpl; rewrite ?Hn; try discriminate; auto; try contradiction.
    - rewrite He. repeat constructor.
    - rewrite He. intros x t y [= <- <-] [].
    - rewrite upd_eq. auto.
  Qed.
  (* the pred path to a node has as many edges as its distance *)
  Lemma bt_len s l n : BX None s -> bt s0 (a_pred s) l n -> Z.of_nat (length l) = dz s n + 1.
  Proof.
    intros B. induction 1 as [|l p n Hb IH Hn Hp]; [rewrite (proj1 (bx_src B)); reflexivity|].
    rewrite app_length. simpl. rewrite (bx_pred B Hp). lia.
  Qed.
  Lemma dz_walk_green s p x : Inv_ None s -> BX None s -> walk E s0 p x -> forall k, incl (firstn k p) (a_gr s) -> (k < length p)%nat ->
    dz s (nth k p s0) <= Z.of_nat k.
  Proof.
    intros I B Hw. induction k as [|k IH]; intros Hi Hk.
    - destruct (walk_hd Hw) as [t ->]. simpl. destruct (bx_src B). lia.
    - assert (H1 : dz s (nth k p s0) <= Z.of_nat k).
      { apply IH; [|lia]. intros y Hy. apply Hi. rewrite <- (firstn_skipn k (firstn (S k) p)), firstn_firstn.
        apply in_or_app. left. rewrite Nat.min_l by lia. assumption. }
      assert (H2 : In (nth k p s0) (a_gr s)).
      { apply Hi. assert (Hnth : nth k p s0 = nth k (firstn (S k) p) s0).
        { rewrite <- (firstn_skipn (S k) p) at 1. apply app_nth1. rewrite firstn_length. lia. }
        rewrite Hnth. apply nth_In. rewrite firstn_length. lia. }
      assert (H3 : In (nth (S k) p s0) (nb (nth k p s0))).
      { exact (walk_nth s0 Hw Hk). }
      pose proof (bx_relaxed B H2 H3). lia.
  Qed.
  Lemma first_nongreen (gr p : list name) : (exists x, In x p /\ ~ In x gr) -> exists k, (k < length p)%nat /\ incl (firstn k p) gr /\ forall d, ~ In (nth k p d) gr.
  Proof.
    induction p as [|a p IH]; intros (x & Hx & Hg); [destruct Hx|].
    destruct (mem_spec a gr) as [Ha|Ha].
    - destruct IH as (k & H1 & H2 & H3). { exists x. split; [|assumption]. destruct Hx as [<-|Hx]; [contradiction|assumption]. }
      exists (S k). split; [simpl; lia|]. split; [|exact H3]. simpl. intros y [<-|Hy]; auto.
    - exists 0%nat. split; [simpl; lia|]. split; [intros y []|]. intros d. exact Ha.
  Qed.
  Lemma nth_last (p : list name) d : p <> [] -> nth (length p - 1) p d = last p d.
  Proof.
    induction p as [|a p IH]; [congruence|]. intros _. destruct p as [|b p]; [reflexivity|].
    replace (length (a :: b :: p) - 1)%nat with (S (length (b :: p) - 1)) by (simpl; lia). change (nth (S (length (b :: p) - 1)) (a :: b :: p) d) with (nth (length (b :: p) - 1) (b :: p) d). rewrite IH by discriminate. reflexivity.
  Qed.
  (* minimality of the distance of a green node, or of the node at the head of the queue *)
  Lemma dz_min s p x : Inv_ None s -> BX None s -> (In x (a_gr s) \/ exists t, els (a_q s) = x :: t) ->
    walk E s0 p x -> dz s x + 1 <= Z.of_nat (length p).
  Proof.
    intros I B Hx Hw. pose proof (walk_ne Hw) as Hne.
    assert (Hlen : (0 < length p)%nat) by (destruct p; [congruence|simpl; lia]).
    destruct (existsb (fun y => negb (mem y (a_gr s))) p) eqn:Hex.
    - apply existsb_exists in Hex as (y & Hy & Hyg). apply Bool.negb_true_iff in Hyg. apply mem_nIn in Hyg.
      destruct (first_nongreen (gr := a_gr s) (p := p)) as (k & K1 & K2 & K3); [eauto|].
      pose proof (dz_walk_green I B Hw K2 K1) as Hk. specialize (K3 s0). set (z := nth k p s0) in *.
      assert (Hz : In z (els (a_q s))).
      { assert (Hd : disc s0 s z).
        { destruct k as [|k]; [destruct (walk_hd Hw) as [t Ht]; unfold z; rewrite Ht; left; reflexivity|].
          assert (Hprev : In (nth k p s0) (a_gr s)).
          { apply K2. assert (Hnth : nth k p s0 = nth k (firstn (S k) p) s0).
            { rewrite <- (firstn_skipn (S k) p) at 1. apply app_nth1. rewrite firstn_length. lia. }
            rewrite Hnth. apply nth_In. rewrite firstn_length. lia. }
          apply (proj2 (iv_gr I Hprev)). exact (walk_nth s0 Hw K1). }
        destruct (iv_disc I Hd); [contradiction|assumption]. }
      assert (dz s x <= dz s z); [|lia].
      destruct Hx as [Hx|[t Ht]]; [apply (bx_green B); assumption|].
      pose proof (bx_sorted B) as Hs. rewrite Ht in Hs, Hz. inversion Hs as [|? ? _ Hf]; subst. rewrite Forall_forall in Hf.
      destruct Hz as [<-|Hz]; [lia|apply Hf; assumption].
    - assert (Hall : incl p (a_gr s)).
      { intros y Hy. destruct (mem_spec y (a_gr s)) as [H|H]; [assumption|]. exfalso.
        rewrite <- Bool.not_true_iff_false in Hex. apply Hex. apply existsb_exists. exists y. split; [assumption|]. apply Bool.negb_true_iff, mem_nIn; assumption. }
      assert (Hk : dz s (nth (length p - 1) p s0) <= Z.of_nat (length p - 1)).
      { eapply dz_walk_green; eauto; [|lia]. intros y Hy. apply Hall. rewrite <- (firstn_skipn (length p - 1) p). apply in_or_app; auto. }
      rewrite nth_last, (walk_last s0 Hw) in Hk by assumption. lia.
  Qed.
End Bfs.
