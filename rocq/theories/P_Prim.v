(* Prim's algorithm on the pure search machine. *)
From Verif Require Import Py Util M_Graph M_Search P_Graph Spec P_Walk S_Span P_Span S_Frontier P_SearchAbs P_Search P_SearchInd P_SearchTop P_Bfs.
From Coq Require Import Permutation.
Set Implicit Arguments. Unset Strict Implicit.
Local Open Scope Z_scope.

Lemma acyclic_perm T T' : Permutation T T' -> acyclic T -> acyclic T'.
Proof.
  intros HP HT l1 e l2 ->. destruct (Permutation_vs_elt_inv _ _ _ HP) as (m1 & m2 & ->).
  apply Permutation_app_inv in HP. intros Hc. apply (HT m1 e m2 eq_refl). eapply conn_incl; [|exact Hc].
  intros z. apply Permutation_in. symmetry; assumption.
Qed.
Lemma total_perm c T T' : Permutation T T' -> total c T = total c T'.
Proof. induction 1; simpl; lia. Qed.
Lemma msf_perm c E T T' : Permutation T T' -> min_spanning_forest c E T -> min_spanning_forest c E T'.
Proof.
  intros HP ((S1 & S2) & A & M). split; [split|split].
  - intros z Hz. apply S1. eapply Permutation_in; [symmetry; exact HP|assumption].
  - intros x y Hxy. eapply conn_incl; [|apply S2; exact Hxy]. intros z. apply Permutation_in; assumption.
  - eapply acyclic_perm; eauto.
  - intros F HF HA. rewrite <- (total_perm c HP). auto.
Qed.
Lemma mc_perm c E T T' : Permutation T T' -> min_connecting c E T -> min_connecting c E T'.
Proof. intros HP M F HF. rewrite <- (total_perm c HP). auto. Qed.

Section Prim.
  Variable fr : frontier.
  Variable els : fq fr -> list name.
  Hypothesis Hpq : prioq els.
  Variable nb : name -> list name.
  Variable cost : name -> name -> option Z.
  Variable s0 : name.
  Variable V : list name.
  Notation E := (fun x y => In y (nb x)).
  Notation Inv_ := (Inv Prim nb s0 els V).
  Hypothesis Hcost : forall x y, In y (nb x) -> cost x y <> None.
  Hypothesis Hloop : forall x, ~ In x (nb x).
  Definition pz (x y : name) : Z := match cost x y with Some c => c | None => 0 end.

  (* the visited nodes, latest first: each was the cheapest to attach *)
  Inductive okgr (pred : dict name name) : list name -> Prop :=
  | ok_src : okgr pred [s0]
  | ok_add x p old : okgr pred old -> dget pred x = Some p -> In p old -> ~ In x old -> In x (nb p) ->
      (forall u v, In u old -> ~ In v old -> In v (nb u) -> pz p x <= pz u v) -> okgr pred (x :: old).
  Definition okgr0 pred l := l = [] \/ okgr pred l.
  Lemma okgr_ext pred pred' l : (forall x, In x l -> dget pred' x = dget pred x) -> okgr pred l -> okgr pred' l.
  Proof.
    intros He. induction 1 as [|x p old Ho IH Hp Hpo Hx Hn Hm]; [constructor|].
    apply ok_add with (p := p); auto; [apply IH; intros; apply He; simpl; auto|]. rewrite He; [assumption|simpl; auto].
  Qed.
  Record PX0 (s : ast fr) : Prop := {
    px_src : ~ In s0 (dkeys (a_pred s));
    px_noq : forall x, In x (a_gr s) -> fq_prio (a_q s) x = None;
    px_prio : forall x p, ~ In x (a_gr s) -> dget (a_pred s) x = Some p -> fq_prio (a_q s) x = Some (pz p x);
    px_relaxed : forall u v, In u (a_gr s) -> In v (nb u) -> ~ In v (a_gr s) -> exists z, fq_prio (a_q s) v = Some z /\ z <= pz u v
  }.
  Definition PX (s : ast fr) : Prop := PX0 s /\ okgr0 (a_pred s) (a_gr s).
  Definition PY (cur : name) (pre : list name) (s : ast fr) : Prop :=
    PX0 s /\ okgr (a_pred s) (cur :: a_gr s) /\
    forall v, In v pre -> ~ In v (a_gr s) -> exists z, fq_prio (a_q s) v = Some z /\ z <= pz cur v.

  Lemma edge_prim cur n (t t' : ast fr) : a_edge Prim cost cur n t = Some t' -> In n (nb cur) ->
    (t' = t /\ In n (dkeys (a_pred t)) /\ (exists p, fq_prio (a_q t) n = Some p /\ p <= pz cur n) \/
     t' = mkA (dset (a_pred t) n cur) (fq_push (a_q t) n (Some (pz cur n))) (a_gr t) (a_dist t) (a_prio t) /\
     (~ In n (dkeys (a_pred t)) \/ In n (dkeys (a_pred t)) /\ exists p, fq_prio (a_q t) n = Some p /\ pz cur n < p)).
  Proof.
    unfold a_edge; simpl. intros H Hn. unfold pz. destruct (cost cur n) as [c|] eqn:Hc; [|exfalso; eapply Hcost; eauto].
    destruct (dmem (a_pred t) n) eqn:Hd.
    - apply dmem_In in Hd. destruct (fq_prio (a_q t) n) as [p|] eqn:Hpn; [|discriminate].
      destruct (c <? p) eqn:Hlt; injection H as <-.
      + right. split; [reflexivity|]. right. split; [assumption|]. exists p. split; [reflexivity|]. apply Z.ltb_lt; assumption.
      + left. split; [reflexivity|]. split; [assumption|]. exists p. split; [reflexivity|]. apply Z.ltb_ge; assumption.
    - apply dmem_nIn in Hd. injection H as <-. right. auto.
  Qed.
  Lemma PX_step dest (s s' : ast fr) : (forall x y, In x V -> In y (nb x) -> In y V) -> Inv_ None s -> PX s ->
    a_iter Prim nb cost s0 dest s = Some (inl s') -> PX s'.
  Proof.
    intros HnbV. pose proof (pq_bag Hpq) as Hbag.
    apply iter_ind with (els := els) (V := V) (Y := PY); auto; try discriminate.
    - intros t cur q' I [D _] Hpk Hc Hg Hr. exfalso. apply (pq_prio Hpq) in Hc. apply Hc. apply (px_noq D); assumption.
    - intros t cur I [D O] Hpk Hc Hg. unfold a_visit. rewrite (pq_is_pq Hpq).
      assert (D' : PX0 (with_prio t (upd (a_prio t) cur (fq_prio (a_q t) cur)))) by (destruct D; constructor; assumption).
      split; [exact D'|]. split; [|intros v []]. simpl. pose proof (iv_els I Hc) as Hd.
      destruct (iv_first I) as [Hs|[Hs|[Hs1 Hs2]]]; [|discriminate|].
      + destruct O as [O|O]; [rewrite O in Hs; destruct Hs|]. destruct Hd as [->|Hd]; [contradiction|].
        apply dget_exists in Hd as [p Hp]. destruct (iv_pred I Hp) as [Hn [Hpg|]]; [|discriminate].
        apply ok_add with (p := p); auto. intros u v Hu Hv Huv. destruct (px_relaxed D Hu Huv Hv) as (z & Hz & Hle).
        pose proof (px_prio D Hg Hp) as Hpc. pose proof (pq_peek Hpq Hpk Hpc Hz). lia.
      + rewrite Hs2. destruct Hd as [->|Hd]; [constructor|]. rewrite Hs1 in Hd. destruct Hd.
    - intros cur pre n t I C Hn Hg (D & O & P). split; [assumption|]. split; [assumption|].
      intros m Hm Hmg. apply in_app_or in Hm as [Hm|[<-|[]]]; [auto|contradiction].
    - intros cur pre n t t' I C Hn Hg (D & O & P) He. destruct C as (C1 & C2 & C3).
      destruct (edge_prim He Hn) as [(-> & Hnp & p & Hp & Hle)|(-> & Hcase)].
      { split; [assumption|]. split; [assumption|]. intros m Hm Hmg. apply in_app_or in Hm as [Hm|[<-|[]]]; [auto|]. eauto. }
      assert (Hnc : n <> cur) by (intros ->; eapply Hloop; eauto).
      assert (Hns : n <> s0).
      { intros ->. destruct (iv_first I) as [?|[H|[H1 H2]]]; [contradiction|injection H as ->; contradiction|].
        destruct C3 as [->|C3]; [contradiction|]. rewrite H1 in C3. destruct C3. }
      set (t' := mkA _ _ _ _ _).
      assert (Hq : forall y, fq_prio (a_q t') y = if eq_dec n y then Some (pz cur n) else fq_prio (a_q t) y) by (intros y; apply (pq_push Hpq)).
      assert (Hnz : forall z, fq_prio (a_q t) n = Some z -> pz cur n <= z).
      { intros z Hz. destruct Hcase as [Hnp|(_ & p & Hp & Hlt)].
        - exfalso. assert (Hin : In n (els (a_q t))) by (apply (pq_prio Hpq); congruence). apply (iv_els I) in Hin as [?|?]; contradiction.
        - rewrite Hz in Hp. injection Hp as ->. lia. }
      split; [constructor|split].
      + unfold t'; simpl. rewrite In_dkeys_dset. intros [?|?]; [congruence|]. apply (px_src D); assumption.
      + intros x Hx. rewrite Hq. destruct (eq_dec n x) as [<-|]; [contradiction|]. apply (px_noq D Hx).
      + intros x p Hx. rewrite Hq. unfold t'; simpl a_pred. rewrite dget_dset. destruct (eq_dec n x) as [<-|]; [congruence|]. apply (px_prio D Hx).
      + intros u v Hu Hv Hvg. rewrite Hq. destruct (px_relaxed D Hu Hv Hvg) as (z & Hz & Hle).
        destruct (eq_dec n v) as [<-|]; [|eauto]. eexists; split; [reflexivity|]. pose proof (Hnz z Hz). lia.
      + apply okgr_ext with (2 := O). intros x Hx. unfold t'; simpl. apply dget_dset_ne. destruct Hx as [<-|Hx]; [assumption|]. intros ->; contradiction.
      + intros v Hv Hvg. rewrite Hq. destruct (eq_dec n v) as [<-|]; [eexists; split; [reflexivity|lia]|].
        apply in_app_or in Hv as [Hv|[?|[]]]; [|contradiction]. apply P; assumption.
    - intros cur t q' I C (D & O & P) Hr.
      assert (Hq : forall y, fq_prio q' y = if eq_dec cur y then None else fq_prio (a_q t) y) by (intros y; apply (pq_remove Hpq y Hr)).
      split; [|right; exact O]. constructor; simpl.
      + apply (px_src D).
      + intros x Hx. rewrite Hq. destruct (eq_dec cur x); [reflexivity|]. destruct Hx as [?|Hx]; [contradiction|]. apply (px_noq D Hx).
      + intros x p Hx. rewrite Hq. destruct (eq_dec cur x) as [<-|]; [tauto|]. apply (px_prio D). tauto.
      + intros u v Hu Hv Hvg. rewrite Hq. destruct (eq_dec cur v) as [<-|]; [tauto|]. destruct Hu as [<-|Hu]; [apply P; tauto|]. apply (px_relaxed D Hu Hv). tauto.
  Qed.
  Lemma PX_init (q : fq fr) : PX (a_init Prim s0 q).
  Proof.
    split; [|left; reflexivity]. constructor; simpl; try contradiction; try discriminate; auto.
  Qed.

  (** ** from the visiting order to a cut sequence *)
  Variable norm : name -> name -> edge.
  Variable Es : list edge.
  Variable c : edge -> Z.
  Hypothesis Hnorm : forall p x, norm p x = (p, x) \/ norm p x = (x, p).
  Hypothesis Hc : forall p x, In x (nb p) -> c (norm p x) = pz p x.
  Hypothesis HEn : forall p x, reach E s0 p -> In x (nb p) -> In (norm p x) Es.
  Hypothesis HE : forall x y, In (x, y) Es -> In y (nb x) /\ In x (nb y) /\ c (x, y) = pz x y /\ c (x, y) = pz y x /\ reach E s0 x /\ reach E s0 y.
  Definition tedges (pred : dict name name) (l : list name) : list edge :=
    flat_map (fun x => match dget pred x with Some p => [norm p x] | None => [] end) l.
  Lemma tedges_in pred l : okgr pred l -> ~ In s0 (dkeys pred) -> forall e, In e (tedges pred l) -> In (fst e) l /\ In (snd e) l.
  Proof.
    intros O Hs e. induction O as [|x p old Ho IH Hp Hpo Hx Hn Hm]; simpl.
    - apply dget_None in Hs. rewrite Hs. intros [].
    - rewrite Hp. simpl. intros [<-|He]; [destruct (Hnorm p x) as [-> | ->]; simpl; auto|]. specialize (IH He). tauto.
  Qed.
  Lemma okgr_reach pred l : okgr pred l -> forall x, In x l -> reach E s0 x.
  Proof.
    induction 1 as [|x p old Ho IH Hp Hpo Hx Hn Hm]; intros y Hy.
    - destruct Hy as [<-|[]]. apply reach_refl.
    - destruct Hy as [<-|Hy]; [|auto]. eapply reach_step; [apply IH; eassumption|]. assumption.
  Qed.
  Lemma okgr_cutseq pred l : okgr pred l -> ~ In s0 (dkeys pred) -> cutseq c Es (tedges pred l).
  Proof.
    intros O Hs. induction O as [|x p old Ho IH Hp Hpo Hx Hn Hm]; simpl.
    - apply dget_None in Hs. rewrite Hs. constructor.
    - rewrite Hp. simpl. apply cs_cons with (S := fun y => mem y old); [assumption| | | |].
      + apply HEn; [eapply okgr_reach; eauto|assumption].
      + unfold crosses. apply mem_In in Hpo. apply mem_nIn in Hx. destruct (Hnorm p x) as [-> | ->]; simpl; congruence.
      + intros f Hf. destruct (tedges_in Ho Hs Hf) as [H1 H2]. unfold crosses. apply mem_In in H1, H2. congruence.
      + intros [a b] Hf Hcr. unfold crosses in Hcr; simpl in Hcr. destruct (HE Hf) as (N1 & N2 & C1 & C2 & _). rewrite Hc by assumption.
        destruct (mem_spec a old) as [Ha|Ha], (mem_spec b old) as [Hb|Hb]; try congruence.
        * rewrite C1. apply Hm; assumption.
        * rewrite C2. apply Hm; assumption.
  Qed.
  Lemma okgr_conn pred l : okgr pred l -> ~ In s0 (dkeys pred) -> forall x, In x l -> conn (tedges pred l) s0 x.
  Proof.
    intros O Hs. induction O as [|x p old Ho IH Hp Hpo Hx Hn Hm]; intros y Hy.
    - destruct Hy as [<-|[]]. apply conn_refl.
    - simpl. rewrite Hp. simpl.
      assert (Hold : forall z, In z old -> conn (norm p x :: tedges pred old) s0 z) by (intros z Hz; eapply conn_incl; [|apply IH; exact Hz]; intros w; simpl; auto).
      destruct Hy as [<-|Hy]; [|auto]. eapply conn_trans; [apply Hold; exact Hpo|]. apply conn_edge. unfold adj. destruct (Hnorm p x) as [-> | ->]; simpl; auto.
  Qed.
  Lemma okgr_nodup pred l : okgr pred l -> NoDup l.
  Proof. induction 1; [repeat constructor; auto|constructor; assumption]. Qed.
  Lemma prim_final (s : ast fr) : Inv_ None s -> PX s -> els (a_q s) = [] -> NoDup (dkeys (a_pred s)) ->
    let T := map (fun e => norm (snd e) (fst e)) (a_pred s) in
    cutseq c Es (tedges (a_pred s) (a_gr s)) /\ spanning Es (tedges (a_pred s) (a_gr s)) /\ Permutation (tedges (a_pred s) (a_gr s)) T.
  Proof.
    intros I (D & O) He Hnd. destruct (iv_first I) as [Hs|[?|[H1 H2]]]; [|discriminate|].
    2:{ exfalso. assert (Hd : disc s0 s s0) by (left; reflexivity). destruct (iv_disc I Hd) as [H|H]; [rewrite H2 in H|rewrite He in H]; destruct H. }
    destruct O as [O|O]; [rewrite O in Hs; destruct Hs|]. pose proof (px_src D) as Hsp.
    assert (Hall : forall x, reach E s0 x -> In x (a_gr s)).
    { intros y Hy. apply (done_reach y I He) in Hy. destruct (iv_disc I Hy) as [?|H]; [assumption|]. rewrite He in H. destruct H. }
    split; [apply okgr_cutseq; assumption|]. split; [split|].
    - apply (cutseq_incl (okgr_cutseq O Hsp)).
    - apply conn_sub. intros x y Hxy. destruct (HE Hxy) as (_ & _ & _ & _ & R1 & R2).
      eapply conn_trans; [apply conn_sym|]; apply okgr_conn; auto.
    - set (f := fun x : name => match dget (a_pred s) x with Some p => [norm p x] | None => [] end).
      assert (HP : Permutation (a_gr s) (s0 :: dkeys (a_pred s))).
      { apply NoDup_Permutation; [apply okgr_nodup with (1 := O)|constructor; assumption|].
        intros x. split.
        - intros Hx. destruct (proj1 (iv_gr I Hx)) as [->|Hx']; simpl; auto.
        - intros [<-|Hx]; [assumption|]. apply Hall. apply (proj1 (iv_reach I (or_intror Hx))). }
      unfold tedges. fold f. transitivity (flat_map f (s0 :: dkeys (a_pred s))); [apply Permutation_flat_map; assumption|].
      simpl. unfold f at 1. apply dget_None in Hsp. rewrite Hsp. simpl.
      assert (Hf : forall d, (forall x p, In (x, p) d -> dget (a_pred s) x = Some p) -> flat_map f (dkeys d) = map (fun e => norm (snd e) (fst e)) d).
      { induction d as [|[x p] d IH]; intros Hd; [reflexivity|]. simpl. unfold f at 1. rewrite (Hd x p) by (simpl; auto). simpl. f_equal. apply IH. intros; apply Hd; simpl; auto. }
      rewrite Hf; [reflexivity|]. intros x p Hx. apply In_dget; assumption.
  Qed.
End Prim.
