(* Dijkstra's algorithm on the pure search machine. *)
From Verif Require Import Py Util M_Graph M_Search P_Graph Spec P_Walk S_Frontier P_SearchAbs P_Search P_SearchInd P_SearchTop P_Bfs.
Set Implicit Arguments. Unset Strict Implicit.
Local Open Scope Z_scope.

Section Dij.
  Variable fr : frontier.
  Variable els : fq fr -> list name.
  Hypothesis Hpq : prioq els.
  Variable nb : name -> list name.
  Variable cost : name -> name -> option Z.
  Variable s0 : name.
  Variable V : list name.
  Notation E := (fun x y => In y (nb x)).
  Notation Inv_ := (Inv Dijkstra nb s0 els V).
  Hypothesis Hcost : forall x y, In y (nb x) -> exists c, cost x y = Some c /\ 0 <= c.
  Hypothesis Hloop : ~ In s0 (nb s0).
  Definition cz (x y : name) : Z := match cost x y with Some c => c | None => 0 end.

  Definition val_of (s : ast fr) (x : name) : option Z := if mem x (a_gr s) then a_prio s x else fq_prio (a_q s) x.
  Record DX (oc : option name) (s : ast fr) : Prop := {
    dx_green : forall x, In x (a_gr s) -> a_prio s x <> None;
    dx_noq : forall x, In x (a_gr s) -> fq_prio (a_q s) x = None;
    dx_mono : forall x z y w, In x (a_gr s) -> a_prio s x = Some z -> fq_prio (a_q s) y = Some w -> z <= w;
    dx_src : ~ In s0 (dkeys (a_pred s)) /\ val_of s s0 = Some 0;
    dx_pred : forall x p, dget (a_pred s) x = Some p -> exists zp, a_prio s p = Some zp /\ val_of s x = Some (zp + cz p x);
    dx_relaxed : forall x m, In x (a_gr s) -> In m (nb x) -> exists zx zm, a_prio s x = Some zx /\ val_of s m = Some zm /\ zm <= zx + cz x m;
    dx_head : forall cur, oc = Some cur -> exists pc, a_prio s cur = Some pc /\ fq_prio (a_q s) cur = Some pc /\
                forall y w, fq_prio (a_q s) y = Some w -> pc <= w
  }.
  Definition DY (cur : name) (pre : list name) (s : ast fr) : Prop :=
    DX (Some cur) s /\ forall m, In m pre -> exists pc zm, a_prio s cur = Some pc /\ val_of s m = Some zm /\ zm <= pc + cz cur m.

  Lemma cz_nonneg x y : In y (nb x) -> 0 <= cz x y.
  Proof. intros H. destruct (Hcost H) as (c & Hc & Hp). unfold cz. rewrite Hc. assumption. Qed.
  Lemma edge_dij cur n (t t' : ast fr) : a_edge Dijkstra cost cur n t = Some t' -> In n (nb cur) -> exists pc, fq_prio (a_q t) cur = Some pc /\
    (t' = t /\ In n (dkeys (a_pred t)) /\ (exists p, fq_prio (a_q t) n = Some p /\ p <= pc + cz cur n) \/
     t' = mkA (dset (a_pred t) n cur) (fq_push (a_q t) n (Some (pc + cz cur n))) (a_gr t) (a_dist t) (a_prio t) /\
     (~ In n (dkeys (a_pred t)) \/ In n (dkeys (a_pred t)) /\ exists p, fq_prio (a_q t) n = Some p /\ pc + cz cur n < p)).
  Proof.
    unfold a_edge; simpl. intros H Hn. destruct (fq_prio (a_q t) cur) as [pc|] eqn:Hpc; [|discriminate]. exists pc. split; [reflexivity|].
    destruct (Hcost Hn) as (c & Hc & Hp). unfold cz. rewrite Hc in *.
    destruct (dmem (a_pred t) n) eqn:Hd.
    - apply dmem_In in Hd. destruct (fq_prio (a_q t) n) as [p|] eqn:Hpn; [|discriminate].
      destruct (pc + c <? p) eqn:Hlt; injection H as <-.
      + right. split; [reflexivity|]. right. split; [assumption|]. exists p. split; [reflexivity|]. apply Z.ltb_lt; assumption.
      + left. split; [reflexivity|]. split; [assumption|]. exists p. split; [reflexivity|]. apply Z.ltb_ge; assumption.
    - apply dmem_nIn in Hd. injection H as <-. right. auto.
  Qed.
  Lemma val_green (s : ast fr) x : In x (a_gr s) -> val_of s x = a_prio s x.
  Proof. intros H. unfold val_of. apply mem_In in H. rewrite H. reflexivity. Qed.
  Lemma val_nongreen (s : ast fr) x : ~ In x (a_gr s) -> val_of s x = fq_prio (a_q s) x.
  Proof. intros H. unfold val_of. apply mem_nIn in H. rewrite H. reflexivity. Qed.

  Lemma DX_step dest (s s' : ast fr) : (forall x y, In x V -> In y (nb x) -> In y V) -> Inv_ None s -> DX None s ->
    a_iter Dijkstra nb cost s0 dest s = Some (inl s') -> DX None s'.
  Proof.
    intros HnbV. pose proof (pq_bag Hpq) as Hbag.
    apply iter_ind with (els := els) (V := V) (Y := DY); auto; try discriminate.
    - intros _ x y Hy. destruct (Hcost Hy) as (c & Hc & _). congruence.
    - intros t cur q' I D Hpk Hc Hg Hr. exfalso. apply (pq_prio Hpq) in Hc. apply Hc. apply (dx_noq D); assumption.
    - intros t cur I D Hpk Hc Hg. unfold a_visit. rewrite (pq_is_pq Hpq). pose proof Hc as Hc'. apply (pq_prio Hpq) in Hc'.
      destruct (fq_prio (a_q t) cur) as [pc|] eqn:Hp; [|congruence]. split; [|intros m []].
      assert (Hv : forall x, val_of (with_prio t (upd (a_prio t) cur (Some pc))) x = val_of t x).
      { intros x. unfold val_of; simpl. destruct (mem_spec x (a_gr t)); [|reflexivity]. apply upd_ne. intros ->; contradiction. }
      assert (Hne : forall x, In x (a_gr t) -> upd (a_prio t) cur (Some pc) x = a_prio t x) by (intros x Hx; apply upd_ne; intros ->; contradiction).
      constructor; simpl.
      + intros x Hx. rewrite Hne by assumption. apply (dx_green D Hx).
      + apply (dx_noq D).
      + intros x z y w Hx. rewrite Hne by assumption. apply (dx_mono D Hx).
      + rewrite Hv. apply (dx_src D).
      + intros x p Hx. rewrite Hv. destruct (iv_pred I Hx) as [_ [Hpg|]]; [|discriminate]. rewrite Hne by assumption. apply (dx_pred D Hx).
      + intros x m Hx Hm. rewrite Hv, Hne by assumption. apply (dx_relaxed D Hx Hm).
      + intros c [= <-]. exists pc. rewrite upd_eq. repeat split; auto. intros y w Hy. eapply (pq_peek Hpq); eauto.
    - intros cur pre n t I C Hn Hg [D Dp]. split; [assumption|]. intros m Hm. apply in_app_or in Hm as [Hm|[<-|[]]]; [auto|].
      destruct (dx_head D eq_refl) as (pc & P1 & P2 & P3). pose proof (dx_green D Hg) as Hgn.
      destruct (a_prio t n) as [z|] eqn:Hz; [|congruence]. exists pc, z. rewrite val_green by assumption. repeat split; auto.
      pose proof (dx_mono D Hg Hz P2). pose proof (cz_nonneg Hn). lia.
    - intros cur pre n t t' I C Hn Hg [D Dp] He. destruct (dx_head D eq_refl) as (pc & P1 & P2 & P3).
      destruct (edge_dij He Hn) as (pc' & Hpc & Hcase). rewrite P2 in Hpc. injection Hpc as <-. pose proof (cz_nonneg Hn) as Hc0.
      destruct Hcase as [(-> & Hnp & p & Hp & Hle)|(-> & Hcase)].
      { split; [assumption|]. intros m Hm. apply in_app_or in Hm as [Hm|[<-|[]]]; [auto|]. exists pc, p. rewrite val_nongreen; auto. }
      destruct C as (C1 & C2 & C3).
      assert (Hns : n <> s0).
      { intros ->. destruct (iv_first I) as [?|[H|[H1 H2]]]; [contradiction|injection H as ->; contradiction|].
        destruct C3 as [->|C3]; [contradiction|]. rewrite H1 in C3. destruct C3. }
      assert (Hnc : n <> cur).
      { intros ->. destruct Hcase as [Hnp|(_ & p & Hp & Hlt)].
        - destruct C3 as [?|?]; contradiction.
        - rewrite P2 in Hp. injection Hp as <-. lia. }
      set (t' := mkA _ _ _ _ _).
      assert (Hq : forall y, fq_prio (a_q t') y = if eq_dec n y then Some (pc + cz cur n) else fq_prio (a_q t) y) by (intros y; apply (pq_push Hpq)).
      assert (Hv : forall y, val_of t' y = if eq_dec n y then Some (pc + cz cur n) else val_of t y).
      { intros y. unfold val_of. change (a_gr t') with (a_gr t). change (a_prio t') with (a_prio t). rewrite Hq. destruct (eq_dec n y) as [<-|]; [|reflexivity].
        apply mem_nIn in Hg. rewrite Hg. reflexivity. }
      assert (Hnz : forall z, val_of t n = Some z -> pc + cz cur n <= z).
      { intros z. rewrite val_nongreen by assumption. intros Hz. destruct Hcase as [Hnp|(_ & p & Hp & Hlt)].
        - exfalso. assert (Hin : In n (els (a_q t))) by (apply (pq_prio Hpq); congruence). apply (iv_els I) in Hin as [?|?]; contradiction.
        - rewrite Hz in Hp. injection Hp as ->. lia. }
      split; [constructor|].
      + exact (dx_green D).
      + intros x Hx. rewrite Hq. destruct (eq_dec n x) as [<-|]; [contradiction|]. apply (dx_noq D Hx).
      + intros x z y w Hx Hz. rewrite Hq. destruct (eq_dec n y) as [<-|]; [|apply (dx_mono D Hx Hz)].
        intros [= <-]. pose proof (dx_mono D Hx Hz P2). lia.
      + destruct (dx_src D) as [S1 S2]. split.
        * unfold t'; simpl. rewrite In_dkeys_dset. intros [?|?]; congruence.
        * rewrite Hv. destruct (eq_dec n s0); [congruence|assumption].
      + intros x p. unfold t' at 1; simpl a_pred. rewrite dget_dset, Hv. change (a_prio t') with (a_prio t). destruct (eq_dec n x) as [<-|].
        * intros [= <-]. eauto.
        * apply (dx_pred D).
      + intros x m Hx Hm. destruct (dx_relaxed D Hx Hm) as (zx & zm & R1 & R2 & R3). change (a_prio t') with (a_prio t).
        rewrite Hv. destruct (eq_dec n m) as [<-|]; [|exists zx, zm; auto].
        exists zx, (pc + cz cur n). repeat split; auto. pose proof (Hnz zm R2). lia.
      + intros c [= <-]. exists pc. split; [assumption|]. split; [rewrite Hq; destruct (eq_dec n cur); [congruence|assumption]|].
        intros y w. rewrite Hq. destruct (eq_dec n y); [intros [= <-]; lia|apply P3].
      + intros m Hm. change (a_prio t') with (a_prio t). rewrite Hv. apply in_app_or in Hm as [Hm|[<-|[]]].
        * destruct (Dp m Hm) as (pc' & zm & R1 & R2 & R3). destruct (eq_dec n m) as [<-|]; [|eauto].
          rewrite P1 in R1. injection R1 as <-. exists pc, (pc + cz cur n). repeat split; auto. lia.
        * destruct (eq_dec n n); [|congruence]. exists pc, (pc + cz cur n). repeat split; auto. lia.
    - intros cur t q' I C [D Dp] Hr. destruct (dx_head D eq_refl) as (pc & P1 & P2 & P3). destruct C as (C1 & C2 & C3).
      set (t' := mkA _ _ _ _ _).
      assert (Hq : forall y, fq_prio (a_q t') y = if eq_dec cur y then None else fq_prio (a_q t) y) by (intros y; apply (pq_remove Hpq y Hr)).
      assert (Hv : forall y, val_of t' y = val_of t y).
      { intros y. unfold val_of at 1. change (a_gr t') with (cur :: a_gr t). change (a_prio t') with (a_prio t). rewrite Hq. destruct (mem_spec y (cur :: a_gr t)) as [[<-|Hy]|Hy].
        - rewrite val_nongreen by assumption. congruence.
        - rewrite val_green by assumption. reflexivity.
        - destruct (eq_dec cur y) as [<-|]; [exfalso; apply Hy; simpl; auto|]. rewrite val_nongreen; [reflexivity|]. intros H; apply Hy; simpl; auto. }
      constructor.
      + intros x [<-|Hx]; change (a_prio t') with (a_prio t); [congruence|apply (dx_green D Hx)].
      + intros x Hx. rewrite Hq. destruct (eq_dec cur x); [reflexivity|]. destruct Hx as [?|Hx]; [congruence|]. apply (dx_noq D Hx).
      + intros x z y w Hx Hz. rewrite Hq. destruct (eq_dec cur y); [discriminate|]. change (a_prio t') with (a_prio t) in Hz.
        destruct Hx as [<-|Hx]; [|apply (dx_mono D Hx Hz)]. rewrite P1 in Hz. injection Hz as <-. apply P3.
      + rewrite Hv. exact (dx_src D).
      + intros x p Hx. rewrite Hv. apply (dx_pred D Hx).
      + intros x m Hx Hm. rewrite Hv. change (a_prio t') with (a_prio t). destruct Hx as [<-|Hx]; [apply Dp; assumption|apply (dx_relaxed D Hx Hm)].
      + discriminate.
  Qed.
  Lemma DX_init (q : fq fr) : (forall x, fq_prio q x = if eq_dec s0 x then Some 0 else None) -> DX None (a_init Dijkstra s0 q).
  Proof.
    intros Hq. constructor; simpl; try contradiction; try discriminate.
    split; [auto|]. unfold val_of; simpl. rewrite Hq. destruct (eq_dec s0 s0); congruence.
  Qed.
  (* cost of the pred path *)
  Lemma bt_cost (s : ast fr) l n : Inv_ None s -> DX None s -> bt s0 (a_pred s) l n -> val_of s n = Some (wcost cz l).
  Proof.
    intros I D. induction 1 as [|l p n Hb IH Hn Hp]; [apply (dx_src D)|].
    destruct (dx_pred D Hp) as (zp & Z1 & Z2). rewrite Z2. destruct (iv_pred I Hp) as [_ [Hpg|]]; [|discriminate].
    rewrite val_green, Z1 in IH by assumption. injection IH as ->.
    rewrite (wcost_walk_snoc cz n (bt_walk I Hb)). reflexivity.
  Qed.
  (* walks through green nodes cost at least the value of their end *)
  Lemma green_walk (s : ast fr) p x y : Inv_ None s -> DX None s -> walk E x p y -> incl (removelast p) (a_gr s) -> forall zx zy,
    val_of s x = Some zx -> val_of s y = Some zy -> zy <= zx + wcost cz p.
  Proof.
    intros I D Hw. induction Hw as [a|a b p c He Hw IH]; intros Hi zx zy Hx Hy; [simpl; rewrite Hx in Hy; injection Hy as <-; lia|].
    destruct (walk_hd Hw) as [t Ht]. subst p. change (removelast (a :: b :: t)) with (a :: removelast (b :: t)) in Hi.
    assert (Ha : In a (a_gr s)) by (apply Hi; simpl; auto).
    destruct (dx_relaxed D Ha He) as (za & zb & R1 & R2 & R3). rewrite val_green, R1 in Hx by assumption. injection Hx as <-.
    rewrite wcost_cons2. specialize (IH (fun z Hz => Hi z (or_intror Hz)) zb zy R2 Hy). lia.
  Qed.
  Lemma val_min (s : ast fr) p x z : Inv_ None s -> DX None s -> val_of s x = Some z ->
    (els (a_q s) = [] \/ fq_peek (a_q s) = Some x /\ ~ In x (a_gr s)) -> walk E s0 p x -> z <= wcost cz p.
  Proof.
    intros I D Hz Hx Hw. destruct (dx_src D) as [_ S2].
    assert (Hgs : els (a_q s) = [] -> forall y, reach E s0 y -> In y (a_gr s)).
    { intros He y Hy. apply (done_reach y I He) in Hy. destruct (iv_disc I Hy) as [?|H]; [assumption|]. rewrite He in H. destruct H. }
    destruct (existsb (fun y => negb (mem y (a_gr s))) p) eqn:Hex.
    - apply existsb_exists in Hex as (y & Hy & Hyg). apply Bool.negb_true_iff in Hyg. apply mem_nIn in Hyg.
      destruct Hx as [He|[Hpk Hxg]].
      { exfalso. apply Hyg, Hgs; [assumption|]. apply (walk_in_reach Hw Hy). }
      destruct (first_nongreen (gr := a_gr s) (p := p)) as (k & K1 & K2 & K3); [eauto|]. specialize (K3 s0).
      pose proof (firstn_skipn k p) as Hsp. set (u := nth k p s0) in *.
      assert (Hsk : skipn k p = u :: skipn (S k) p).
      { unfold u. clear -K1. revert k K1. induction p as [|a p IH]; intros k K1; [simpl in K1; lia|]. destruct k as [|k]; [reflexivity|]. simpl in K1 |- *. apply IH. lia. }
      rewrite Hsk in Hsp. rewrite <- Hsp in Hw. pose proof (walk_prefix Hw) as Hw1. pose proof (walk_suffix Hw) as Hw2.
      rewrite <- Hsp, wcost_app.
      assert (H0 : 0 <= wcost cz (u :: skipn (S k) p)) by (eapply wcost_nonneg; [|exact Hw2]; intros; apply cz_nonneg; assumption).
      assert (Hu : exists zu, val_of s u = Some zu /\ z <= zu).
      { assert (Hd : disc s0 s u).
        { destruct (walk_snoc_inv Hw1) as [[_ Hsu]|(q & b & Heq & Hq & Hb)]; [left; congruence|].
          apply app_inj_tail in Heq as [<- _]. destruct (walk_snoc_form Hq) as [q' Hq'].
          assert (Hbg : In b (a_gr s)) by (apply K2; rewrite Hq'; apply in_or_app; simpl; auto).
          apply (proj2 (iv_gr I Hbg)). assumption. }
        destruct (iv_disc I Hd) as [?|Hin]; [contradiction|]. apply (pq_prio Hpq) in Hin.
        destruct (fq_prio (a_q s) u) as [zu|] eqn:Hzu; [|congruence]. exists zu. rewrite val_nongreen by assumption. split; [assumption|].
        rewrite val_nongreen in Hz by assumption. eapply (pq_peek Hpq); eauto. }
      destruct Hu as (zu & Hu & Hle). assert (zu <= 0 + wcost cz (firstn k p ++ [u])); [|lia].
      eapply green_walk; eauto. rewrite removelast_last. assumption.
    - assert (Hall : incl p (a_gr s)).
      { intros y Hy. destruct (mem_spec y (a_gr s)) as [H|H]; [assumption|]. exfalso.
        rewrite <- Bool.not_true_iff_false in Hex. apply Hex. apply existsb_exists. exists y. split; [assumption|]. apply Bool.negb_true_iff, mem_nIn; assumption. }
      assert (z <= 0 + wcost cz p); [|lia]. eapply green_walk; eauto. destruct (walk_snoc_form Hw) as [q ->]. rewrite removelast_last.
      intros y Hy. apply Hall. apply in_or_app; auto.
  Qed.
End Dij.
