(* A pure machine: search without the attribute bookkeeping. P_Search.v shows that the model of
   search simulates it; here are the invariants common to all algorithms. *)
From Verif Require Import Py Util M_Graph M_Search Spec P_Walk S_Frontier.
Set Implicit Arguments. Unset Strict Implicit.

Definition is_pq_algo (al : algo) : bool := match al with Dijkstra | Prim => true | _ => false end.
Definition upd {A} (f : name -> A) (n : name) (v : A) : name -> A := fun x => if eq_dec n x then v else f x.
Lemma upd_eq {A} (f : name -> A) n v : upd f n v n = v.
Proof. unfold upd. destruct (eq_dec n n); congruence. Qed.
Lemma upd_ne {A} (f : name -> A) n v x : n <> x -> upd f n v x = f x.
Proof. unfold upd. destruct (eq_dec n x); congruence. Qed.

Section Abs.
  Variable fr : frontier.
  Variable al : algo.
  Variable nb : name -> list name.
  Variable cost : name -> name -> option Z.
  Variable s0 : name.
  Variable dest : option name.

  Record ast := mkA { a_pred : dict name name; a_q : fq fr; a_gr : list name; a_dist : name -> option Z; a_prio : name -> option Z }.
  Definition with_q (s : ast) q := mkA (a_pred s) q (a_gr s) (a_dist s) (a_prio s).
  Definition with_prio (s : ast) p := mkA (a_pred s) (a_q s) (a_gr s) (a_dist s) p.

  Definition base (s : ast) (cur : name) : option Z :=
    match al with Dijkstra => fq_prio (a_q s) cur | _ => Some 0%Z end.
  Definition a_edge (cur n : name) (s : ast) : option ast :=
    if is_pq_algo al then
      match base s cur, cost cur n with
      | Some pc, Some c =>
        match (if dmem (a_pred s) n then match fq_prio (a_q s) n with Some p => Some (pc + c <? p)%Z | None => None end else Some true) with
        | Some true => Some (mkA (dset (a_pred s) n cur) (fq_push (a_q s) n (Some (pc + c)%Z)) (a_gr s) (a_dist s) (a_prio s))
        | Some false => Some s
        | None => None
        end
      | _, _ => None
      end
    else
      match a_dist s cur with
      | None => None
      | Some d =>
        if is_bfs al && match a_dist s n with Some _ => true | None => false end then Some s
        else Some (mkA (dset (a_pred s) n cur) (fq_push (a_q s) n None) (a_gr s) (upd (a_dist s) n (Some (d + 1)%Z)) (a_prio s))
      end.
  Fixpoint a_scan (cur : name) (l : list name) (s : ast) : option ast :=
    match l with
    | [] => Some s
    | n :: t => if mem n (a_gr s) then a_scan cur t s
                else match a_edge cur n s with Some s' => a_scan cur t s' | None => None end
    end.
  Definition a_visit (s : ast) (cur : name) : ast :=
    if fq_is_pq fr then with_prio s (upd (a_prio s) cur (fq_prio (a_q s) cur)) else s.
  Definition a_iter (s : ast) : option (ast + ast * bool) :=
    if fq_isEmpty (a_q s) then Some (inr (s, false))
    else match fq_peek (a_q s) with
    | None => None
    | Some cur =>
      if mem cur (a_gr s) then
        match fq_remove (a_q s) cur with Some q' => Some (inl (with_q s q')) | None => None end
      else if negb (eqb cur s0) && negb (dmem (a_pred s) cur) then None
      else if eqb (Some cur) dest then Some (inr (a_visit s cur, true))
      else match a_scan cur (nb cur) (a_visit s cur) with
      | None => None
      | Some s2 =>
        match fq_remove (a_q s2) cur with
        | Some q' => Some (inl (mkA (a_pred s2) q' (cur :: a_gr s2) (a_dist s2) (a_prio s2)))
        | None => None
        end
      end
    end.
  Fixpoint a_loop (fuel : nat) (s : ast) : option (ast * bool) :=
    match fuel with
    | O => None
    | S f => match a_iter s with Some (inl s') => a_loop f s' | Some (inr r) => Some r | None => None end
    end.

  (** ** Laws and invariants *)
  Variable els : fq fr -> list name.
  Hypothesis Hbag : bag els.
  Hypothesis Hpq : is_pq_algo al = true -> prioq els.
  Hypothesis Hnpq : is_pq_algo al = false -> fq_is_pq fr = false.
  Hypothesis Hal : al <> OtherAlgo.
  Variable V : list name.
  Hypothesis Hnb : forall x y, In x V -> In y (nb x) -> In y V.
  Hypothesis HV : NoDup V.
  Hypothesis Hcost : is_pq_algo al = true -> forall x y, In y (nb x) -> cost x y <> None.
  Hypothesis Hs0 : In s0 V.

  Notation E := (fun x y => In y (nb x)).
  Definition disc (s : ast) (x : name) : Prop := x = s0 \/ In x (dkeys (a_pred s)).

  Record Inv (oc : option name) (s : ast) : Prop := {
    iv_els : forall x, In x (els (a_q s)) -> disc s x;
    iv_disc : forall x, disc s x -> In x (a_gr s) \/ In x (els (a_q s));
    iv_pred : forall x p, dget (a_pred s) x = Some p -> In x (nb p) /\ (In p (a_gr s) \/ Some p = oc);
    iv_gr : forall x, In x (a_gr s) -> disc s x /\ forall m, In m (nb x) -> disc s m;
    iv_reach : forall x, disc s x -> reach E s0 x /\ In x V;
    iv_dist : is_pq_algo al = false -> forall x, disc s x <-> a_dist s x <> None;
    iv_first : In s0 (a_gr s) \/ oc = Some s0 \/ (a_pred s = [] /\ a_gr s = []);
    iv_nd : NoDup (a_gr s)
  }.
  (* the current node, while its neighbours are scanned *)
  Definition cur_ok (cur : name) (s : ast) : Prop := In cur (els (a_q s)) /\ ~ In cur (a_gr s) /\ disc s cur.

  (* what one edge does *)
  Definition relaxed (cur n : name) (s s' : ast) : Prop :=
    a_pred s' = dset (a_pred s) n cur /\ (exists p, a_q s' = fq_push (a_q s) n p) /\ a_gr s' = a_gr s /\ a_prio s' = a_prio s.
  Lemma a_edge_cases cur n s s' : a_edge cur n s = Some s' -> s' = s \/ relaxed cur n s s'.
  Proof.
    unfold a_edge. intros H. destruct (is_pq_algo al).
    - destruct (base s cur) as [pc|]; [|discriminate]. destruct (cost cur n) as [c|]; [|discriminate].
      match type of H with match ?b with _ => _ end = _ => destruct b as [[]|] end; [|injection H as <-; auto|discriminate].
      injection H as <-. right. unfold relaxed; simpl; eauto.
    - destruct (a_dist s cur) as [d|]; [|discriminate]. destruct (_ && _); injection H as <-; [auto|].
      right. unfold relaxed; simpl; eauto.
  Qed.
  Lemma a_edge_total cur n s : Inv (Some cur) s -> cur_ok cur s -> In n (nb cur) -> ~ In n (a_gr s) ->
    exists s', a_edge cur n s = Some s' /\ (s' = s -> disc s n).
  Proof.
    intros I (Hc & _ & Hcd) Hn Hng. unfold a_edge. destruct (is_pq_algo al) eqn:Hp.
    - pose proof (Hpq eq_refl) as P.
      assert (Hb : exists pc, base s cur = Some pc).
      { unfold base. destruct al; eauto. destruct (fq_prio (a_q s) cur) eqn:Hpc; [eauto|]. exfalso. apply (pq_prio P) in Hc. congruence. }
      destruct Hb as [pc ->]. destruct (cost cur n) as [c|] eqn:Hco; [|exfalso; eapply Hcost; eauto].
      destruct (dmem (a_pred s) n) eqn:Hd.
      + apply dmem_In in Hd. destruct (iv_disc I (or_intror Hd)) as [?|He]; [contradiction|].
        apply (pq_prio P) in He. destruct (fq_prio (a_q s) n) as [p|]; [|congruence].
        destruct (pc + c <? p)%Z; eexists; (split; [reflexivity|]); intros _; right; assumption.
      + eexists; split; [reflexivity|]. intros Heq. exfalso.
        apply dmem_nIn in Hd. apply (f_equal a_pred) in Heq. simpl in Heq. apply Hd. rewrite <- Heq. apply In_dkeys_dset; auto.
    - destruct (a_dist s cur) as [d|] eqn:Hdc; [|exfalso; eapply (iv_dist I); eauto].
      destruct (is_bfs al && _) eqn:Hb.
      + apply andb_prop in Hb as [_ Hb]. eexists; split; [reflexivity|]. intros _. apply (iv_dist I Hp).
        destruct (a_dist s n); congruence.
      + eexists; split; [reflexivity|]. intros Heq. apply (f_equal a_pred) in Heq. simpl in Heq. right. rewrite <- Heq. apply In_dkeys_dset; auto.
  Qed.
  Lemma disc_relaxed cur n s s' x : relaxed cur n s s' -> disc s' x <-> disc s x \/ x = n.
  Proof. intros (Hp & _). unfold disc. rewrite Hp, In_dkeys_dset. tauto. Qed.
  Lemma els_relaxed cur n s s' x : relaxed cur n s s' -> In x (els (a_q s')) <-> In x (els (a_q s)) \/ x = n.
  Proof. intros (_ & (p & Hq) & _). rewrite Hq, (bag_push Hbag). tauto. Qed.
  Lemma len_relaxed cur n s s' : relaxed cur n s s' -> length (els (a_q s')) <= S (length (els (a_q s))).
  Proof. intros (_ & (p & Hq) & _). rewrite Hq. apply (bag_push_len Hbag). Qed.

  Lemma dist_edge cur n s s' : is_pq_algo al = false -> a_edge cur n s = Some s' -> relaxed cur n s s' -> s' = s \/
    exists d, a_dist s cur = Some d /\ a_dist s' = upd (a_dist s) n (Some (d + 1)%Z).
  Proof.
    intros Hp. unfold a_edge. rewrite Hp. destruct (a_dist s cur) as [d|]; [|discriminate].
    destruct (_ && _); intros [= <-] _; [auto|]. right. exists d. auto.
  Qed.
  Lemma dist_edge_pq cur n s s' : is_pq_algo al = true -> a_edge cur n s = Some s' -> a_dist s' = a_dist s.
  Proof.
    intros Hp. unfold a_edge. rewrite Hp. destruct (base s cur) as [pc|]; [|discriminate]. destruct (cost cur n) as [c|]; [|discriminate].
    match goal with |- match ?b with _ => _ end = _ -> _ => destruct b as [[]|] end; intros [= <-]; reflexivity.
  Qed.

  Lemma a_edge_inv cur n s s' : Inv (Some cur) s -> cur_ok cur s -> In n (nb cur) -> ~ In n (a_gr s) ->
    a_edge cur n s = Some s' ->
    Inv (Some cur) s' /\ cur_ok cur s' /\ disc s' n /\ (forall x, disc s x -> disc s' x) /\ a_gr s' = a_gr s /\
    length (els (a_q s')) <= S (length (els (a_q s))) /\ a_prio s' = a_prio s.
  Proof.
    intros I C Hn Hng He. destruct (a_edge_total I C Hn Hng) as (s1 & He1 & Hs). rewrite He in He1. injection He1 as <-.
    destruct (a_edge_cases He) as [->|R].
    { do 3 (split; [auto|]). repeat split; auto. }
    pose proof R as (Rp & (p & Rq) & Rg & Rpr).
    assert (Dm : forall x, disc s x -> disc s' x) by (intros x Hx; apply (disc_relaxed x R); auto).
    destruct C as (C1 & C2 & C3).
    split; [|split; [|repeat split; auto]].
    - constructor.
      + intros x. rewrite (els_relaxed x R), (disc_relaxed x R). intros [Hx|Hx]; [left; apply (iv_els I); assumption|auto].
      + intros x. rewrite (els_relaxed x R), (disc_relaxed x R), Rg. intros [Hx|Hx]; [|auto].
        destruct (iv_disc I Hx); auto.
      + intros x px. rewrite Rp, Rg, dget_dset. destruct (eq_dec n x) as [<-|Hne].
        * intros [= <-]. auto.
        * apply (iv_pred I).
      + intros x. rewrite Rg. intros Hx. destruct (iv_gr I Hx) as [H1 H2]. split; auto.
      + intros x. rewrite (disc_relaxed x R). intros [Hx|Hx]; [apply (iv_reach I); assumption|]. subst x.
        destruct (iv_reach I C3) as [R1 R2]. split; [eapply reach_step; eauto|eauto].
      + intros Hp x. destruct (dist_edge Hp He R) as [->|(d & _ & Hd)]; [apply (iv_dist I Hp)|].
        rewrite (disc_relaxed x R), Hd. unfold upd. destruct (eq_dec n x) as [->|Hne].
        * split; [congruence|auto].
        * rewrite <- (iv_dist I Hp x). split; [intros [?|?]; congruence|auto].
      + rewrite Rg. destruct (iv_first I) as [H|[H|[H1 H2]]]; [auto|auto|].
        right; left. destruct C3 as [->|C3]; [reflexivity|]. rewrite H1 in C3. destruct C3.
      + rewrite Rg. apply (iv_nd I).
    - unfold cur_ok. rewrite (els_relaxed cur R), Rg. auto.
    - apply (disc_relaxed n R); auto.
    - eapply len_relaxed; eauto.
  Qed.
  (* scanning: total, and any property of edge steps carries over *)
  Lemma a_scan_inv cur l : forall s, Inv (Some cur) s -> cur_ok cur s -> (forall n, In n l -> In n (nb cur)) ->
    exists s', a_scan cur l s = Some s' /\ Inv (Some cur) s' /\ cur_ok cur s' /\ (forall n, In n l -> disc s' n) /\
      (forall x, disc s x -> disc s' x) /\ a_gr s' = a_gr s /\ length (els (a_q s')) <= length l + length (els (a_q s)) /\ a_prio s' = a_prio s.
  Proof.
    induction l as [|n l IH]; intros s I C Hl.
    { exists s. simpl. do 3 (split; [auto|]). split; [intros n []|]. repeat split; auto. }
    simpl. destruct (mem_spec n (a_gr s)) as [Hg|Hg].
    - destruct (IH s I C) as (s' & H1 & H2 & H3 & H4 & H5 & H6 & H7 & H8); [intros; apply Hl; simpl; auto|].
      exists s'. do 3 (split; [assumption|]). split; [intros x [<-|Hx]; [exact (H5 _ (proj1 (iv_gr I Hg)))|auto]|]. repeat split; auto; simpl; lia.
    - destruct (a_edge_total I C (Hl n (or_introl eq_refl)) Hg) as (s1 & He & _). rewrite He.
      destruct (a_edge_inv I C (Hl n (or_introl eq_refl)) Hg He) as (I1 & C1 & D1 & M1 & G1 & L1 & P1).
      destruct (IH s1 I1 C1) as (s' & H1 & H2 & H3 & H4 & H5 & H6 & H7 & H8); [intros; apply Hl; simpl; auto|].
      exists s'. do 3 (split; [assumption|]). split; [intros x [<-|Hx]; auto|]. repeat split; auto; try congruence. simpl; lia.
  Qed.
  Lemma a_scan_ind (X : ast -> Prop) cur l : forall s s', Inv (Some cur) s -> cur_ok cur s -> (forall n, In n l -> In n (nb cur)) ->
    (forall n t t', In n l -> ~ In n (a_gr t) -> Inv (Some cur) t -> cur_ok cur t -> a_gr t = a_gr s -> a_prio t = a_prio s -> X t -> a_edge cur n t = Some t' -> X t') ->
    X s -> a_scan cur l s = Some s' -> X s'.
  Proof.
    induction l as [|n l IH]; intros s s' I C Hl Hx X0 Hs; simpl in Hs; [congruence|].
    destruct (mem_spec n (a_gr s)) as [Hg|Hg].
    - eapply IH; [exact I|exact C| | |exact X0|exact Hs]; [intros; apply Hl; simpl; auto|].
      intros m t t' Hm. apply Hx; simpl; auto.
    - destruct (a_edge cur n s) as [s1|] eqn:He; [|discriminate].
      destruct (a_edge_inv I C (Hl n (or_introl eq_refl)) Hg He) as (I1 & C1 & _ & _ & G1 & _ & P1).
      eapply IH; [exact I1|exact C1| | | |exact Hs]; [intros; apply Hl; simpl; auto| |].
      + intros m t t' Hm Hmg It Ct Gt Pt Xt Het. eapply Hx with (t := t); eauto; try congruence. simpl; auto.
      + eapply Hx with (t := s); eauto. simpl; auto.
  Qed.

  Lemma Inv_visit oc s cur : Inv oc s -> Inv oc (a_visit s cur).
  Proof. intros I. unfold a_visit. destruct (fq_is_pq fr); [|exact I]. destruct I as [H1 H2 H3 H4 H5 H6 H7 H8]. constructor; assumption. Qed.
  Lemma Inv_start s cur : Inv None s -> fq_peek (a_q s) = Some cur -> In cur (els (a_q s)) -> ~ In cur (a_gr s) -> Inv (Some cur) s /\ cur_ok cur s.
  Proof.
    intros I Hp Hc Hg. split.
    - destruct I as [H1 H2 H3 H4 H5 H6 H7 H8]. constructor; auto.
      + intros x p Hx. destruct (H3 x p Hx) as [A [B|B]]; [auto|discriminate].
      + destruct H7 as [H|[H|H]]; [auto|discriminate|auto].
    - split; [assumption|]. split; [assumption|]. apply (iv_els I); assumption.
  Qed.

  Definition mu (s : ast) : nat := list_sum (map (fun x => if mem x (a_gr s) then 0 else S (length (nb x))) V) + length (els (a_q s)).
  Lemma mu_green cur gr : ~ In cur gr -> forall l, NoDup l -> 
    list_sum (map (fun x => if mem x (cur :: gr) then 0 else S (length (nb x))) l) + (if mem cur l then S (length (nb cur)) else 0) =
    list_sum (map (fun x => if mem x gr then 0 else S (length (nb x))) l).
  Proof.
    intros Hc. induction l as [|y l IH]; intros Hl; [reflexivity|]. inversion Hl as [|? ? Hy Hl']; subst. specialize (IH Hl').
    cbn [map list_sum fold_right] in *. fold (list_sum (map (fun x => if mem x (cur :: gr) then 0 else S (length (nb x))) l)).
    fold (list_sum (map (fun x => if mem x gr then 0 else S (length (nb x))) l)).
    destruct (eq_dec cur y) as [<-|Hne].
    - assert (Hm : mem cur l = false) by (apply mem_nIn; assumption). rewrite Hm in IH.
      assert (H1 : mem cur (cur :: gr) = true) by (apply mem_In; simpl; auto).
      assert (H2 : mem cur gr = false) by (apply mem_nIn; assumption).
      assert (H3 : mem cur (cur :: l) = true) by (apply mem_In; simpl; auto). rewrite H1, H2, H3. unfold list_sum in *. lia.
    - assert (H1 : mem y (cur :: gr) = mem y gr).
      { destruct (mem_spec y gr) as [H|H]; [apply mem_In; simpl; auto|apply mem_nIn; simpl; intros [?|?]; congruence]. }
      assert (H2 : mem cur (y :: l) = mem cur l).
      { destruct (mem_spec cur l) as [H|H]; [apply mem_In; simpl; auto|apply mem_nIn; simpl; intros [?|?]; congruence]. }
      rewrite H1, H2. unfold list_sum in *. lia.
  Qed.

  (* one iteration: total, keeps the invariant, decreases the measure *)
  Lemma a_iter_inv s : Inv None s -> exists r, a_iter s = Some r /\
    match r with
    | inl s' => Inv None s' /\ mu s' < mu s
    | inr (s', false) => s' = s /\ els (a_q s) = []
    | inr (s', true) => exists cur, dest = Some cur /\ disc s cur /\ ~ In cur (a_gr s) /\ s' = a_visit s cur /\ fq_peek (a_q s) = Some cur /\ In cur (els (a_q s))
    end.
  Proof.
    intros I. unfold a_iter. destruct (fq_isEmpty (a_q s)) eqn:Hem.
    { eexists; split; [reflexivity|]. split; [reflexivity|]. apply (bag_empty Hbag); assumption. }
    assert (Hne : els (a_q s) <> []). { intros H. apply (bag_empty Hbag) in H. congruence. }
    destruct (bag_peek Hbag Hne) as (cur & Hpk & Hc). rewrite Hpk.
    destruct (mem_spec cur (a_gr s)) as [Hg|Hg].
    - destruct (bag_remove Hbag Hc) as (q' & -> & Hl & H1 & H2). eexists; split; [reflexivity|]. split.
      + destruct I as [J1 J2 J3 J4 J5 J6 J7 J8]. constructor; simpl; auto.
        { intros x Hx. exact (J1 x (H1 x Hx)). }
        intros x Hx. destruct (J2 x Hx) as [?|He]; [auto|]. destruct (eq_dec x cur) as [->|Hxc]; auto.
      + unfold mu, with_q; simpl. lia.
    - destruct (Inv_start I Hpk Hc Hg) as [I1 C1]. destruct C1 as (_ & _ & Hd).
      assert (Hguard : negb (eqb cur s0) && negb (dmem (a_pred s) cur) = false).
      { destruct (eqb_spec cur s0) as [|Hcs]; [reflexivity|]. destruct Hd as [?|Hd]; [congruence|].
        assert (Hm : dmem (a_pred s) cur = true) by (apply dmem_In; assumption). rewrite Hm. reflexivity. }
      rewrite Hguard. destruct (eqb_spec (Some cur) dest) as [Hds|Hds].
      { eexists; split; [reflexivity|]. exists cur. repeat split; auto. }
      assert (Cv : cur_ok cur (a_visit s cur)) by (unfold cur_ok, a_visit; destruct (fq_is_pq fr); simpl; auto).
      destruct (a_scan_inv (Inv_visit cur I1) Cv (l := nb cur)) as (s2 & -> & I2 & C2 & D2 & M2 & G2 & L2 & P2); [auto|].
      destruct C2 as (C2a & C2b & C2c).
      destruct (bag_remove Hbag C2a) as (q' & -> & Hl & H1 & H2). eexists; split; [reflexivity|]. split.
      + destruct I2 as [J1 J2 J3 J4 J5 J6 J7 J8]. constructor; simpl; auto.
        * intros x Hx. exact (J1 x (H1 x Hx)).
        * intros x Hx. destruct (J2 x Hx) as [?|He]; [auto|]. destruct (eq_dec x cur) as [->|Hxc]; auto.
        * intros x p Hx. destruct (J3 x p Hx) as [A [B|B]]; [auto|]. injection B as ->. auto.
        * intros x [<-|Hx]; [auto|]. apply J4; assumption.
        * left. destruct J7 as [H|[H|[H3 H4]]]; [auto|injection H as ->; auto|].
          left. destruct C2c as [->|C2c]; [reflexivity|]. rewrite H3 in C2c. destruct C2c.
        * constructor; assumption.
      + assert (Gv : a_gr (a_visit s cur) = a_gr s) by (unfold a_visit; destruct (fq_is_pq fr); reflexivity).
        assert (Qv : a_q (a_visit s cur) = a_q s) by (unfold a_visit; destruct (fq_is_pq fr); reflexivity).
        unfold mu; simpl a_gr; simpl a_q. rewrite G2, Gv in *. rewrite Qv in L2.
        pose proof (mu_green Hg HV) as Hmu.
        assert (Hm : mem cur V = true) by (apply mem_In; apply (iv_reach I Hd)). rewrite Hm in Hmu. lia.
  Qed.

  Lemma a_loop_inv (X : ast -> Prop) : (forall s s', Inv None s -> X s -> a_iter s = Some (inl s') -> X s') ->
    forall fuel s, Inv None s -> X s -> mu s < fuel -> exists s' f, a_loop fuel s = Some (s', f) /\
      exists t, Inv None t /\ X t /\ a_iter t = Some (inr (s', f)) /\
      match f with
      | false => s' = t /\ els (a_q t) = []
      | true => exists cur, dest = Some cur /\ disc t cur /\ ~ In cur (a_gr t) /\ s' = a_visit t cur /\ fq_peek (a_q t) = Some cur /\ In cur (els (a_q t))
      end.
  Proof.
    intros HX. induction fuel as [|f IH]; intros s I Xs Hm; [lia|]. simpl.
    destruct (a_iter_inv I) as (r & Hr & H). rewrite Hr. destruct r as [s'|[s' b]].
    - destruct H as [I' Hlt]. apply IH; [assumption| |lia]. exact (HX s s' I Xs Hr).
    - exists s', b. split; [reflexivity|]. exists s. split; [assumption|]. split; [assumption|]. split; [assumption|]. destruct b; assumption.
  Qed.

  (* the state in which the loop starts *)
  Definition a_init (q : fq fr) : ast :=
    mkA [] q [] (if is_pq_algo al then fun _ => None else upd (fun _ => None) s0 (Some 0%Z)) (fun _ => None).
  Lemma Inv_init q : (forall x, In x (els q) <-> x = s0) -> Inv None (a_init q).
  Proof.
    intros Hq. constructor; unfold a_init, disc; simpl.
    - intros x Hx. left. apply Hq; assumption.
    - intros x [->|[]]. right. apply Hq; reflexivity.
    - discriminate.
    - intros x [].
    - intros x [->|[]]. split; [apply reach_refl|assumption].
    - intros -> x. unfold upd. destruct (eq_dec s0 x) as [<-|Hx]; split; try congruence; auto. intros [?|[]]; congruence.
    - auto.
    - constructor.
  Qed.
  Lemma mu_init q : (forall x, In x (els q) <-> x = s0) -> mu (a_init q) = length V + list_sum (map (fun x => length (nb x)) V) + length (els q).
  Proof.
    intros _. unfold mu, a_init; simpl. f_equal. clear. induction V as [|x l IH]; [reflexivity|]. simpl. rewrite IH. lia.
  Qed.

  (* at the end of a complete run: discovered = reachable *)
  Lemma done_reach s x : Inv None s -> els (a_q s) = [] -> disc s x <-> reach E s0 x.
  Proof.
    intros I He. split; [intros Hx; apply (iv_reach I Hx)|].
    assert (Hg : forall y, disc s y -> In y (a_gr s)).
    { intros y Hy. destruct (iv_disc I Hy) as [?|H]; [assumption|]. rewrite He in H. destruct H. }
    apply reach_closed; [left; reflexivity|]. intros y z Hy Hz. apply (iv_gr I (Hg y Hy)). assumption.
  Qed.

  (** ** Paths along pred *)
  Inductive bt (pred : dict name name) : list name -> name -> Prop :=
  | bt_src : bt pred [s0] s0
  | bt_cons l p n : bt pred l p -> n <> s0 -> dget pred n = Some p -> bt pred (l ++ [n]) n.
  Definition tree_ok (s : ast) : Prop := forall n, In n (a_gr s) -> exists l, bt (a_pred s) l n /\ incl l (a_gr s) /\ NoDup l.
  (* the only node whose own edge to itself may be relaxed is the source *)
  Hypothesis Hself : forall cur s s', Inv (Some cur) s -> cur_ok cur s -> In cur (nb cur) -> a_edge cur cur s = Some s' -> s' = s \/ cur = s0.

  Lemma bt_agree pred pred' l n : bt pred l n -> (forall x, In x l -> x <> s0 -> dget pred' x = dget pred x) -> bt pred' l n.
  Proof.
    induction 1 as [|l p n Hb IH Hn Hp]; intros Ha; [constructor|].
    apply bt_cons with p; [apply IH; intros; apply Ha; [apply in_or_app; auto|assumption]|assumption|].
    rewrite Ha; [assumption|apply in_or_app; simpl; auto|assumption].
  Qed.
  Lemma bt_In pred l n : bt pred l n -> In n l.
  Proof. destruct 1; [simpl; auto|apply in_or_app; simpl; auto]. Qed.
  Lemma bt_walk s oc l n : Inv oc s -> bt (a_pred s) l n -> walk E s0 l n.
  Proof.
    intros I. induction 1 as [|l p n Hb IH Hn Hp]; [constructor|]. eapply walk_snoc; [exact IH|]. apply (iv_pred I Hp).
  Qed.
  Lemma tree_step s s' : Inv None s -> tree_ok s -> a_iter s = Some (inl s') -> tree_ok s'.
  Proof.
    intros I T. unfold a_iter. destruct (fq_isEmpty (a_q s)) eqn:Hem; [discriminate|].
    assert (Hne : els (a_q s) <> []). { intros H. apply (bag_empty Hbag) in H. congruence. }
    destruct (bag_peek Hbag Hne) as (cur & Hpk & Hc). rewrite Hpk.
    destruct (mem_spec cur (a_gr s)) as [Hg|Hg].
    { destruct (fq_remove _ _); [|discriminate]. intros [= <-]. exact T. }
    destruct (_ && _); [discriminate|]. destruct (eqb _ _); [discriminate|].
    destruct (Inv_start I Hpk Hc Hg) as [I1 C1].
    assert (Cv : cur_ok cur (a_visit s cur)) by (destruct C1 as (A1 & A2 & A3); unfold cur_ok, a_visit; destruct (fq_is_pq fr); simpl; auto).
    destruct (a_scan cur (nb cur) (a_visit s cur)) as [s2|] eqn:Hs2; [|discriminate].
    destruct (fq_remove (a_q s2) cur) as [q'|]; [|discriminate]. intros [= <-].
    assert (Vp : a_pred (a_visit s cur) = a_pred s) by (unfold a_visit; destruct (fq_is_pq fr); reflexivity).
    assert (Vg : a_gr (a_visit s cur) = a_gr s) by (unfold a_visit; destruct (fq_is_pq fr); reflexivity).
    pose (X := fun t : ast => a_gr t = a_gr s /\ forall x, In x (cur :: a_gr s) -> x <> s0 -> dget (a_pred t) x = dget (a_pred s) x).
    assert (HX : X s2).
    { eapply a_scan_ind with (X := X); [exact (Inv_visit cur I1)|exact Cv|intros n Hn; exact Hn| | |exact Hs2].
      - intros n t t' Hn Hng It Ct Gt _ [X1 X2] He. destruct (a_edge_cases He) as [->|R]; [split; assumption|].
        destruct R as (Rp & _ & Rg & _). split; [congruence|]. intros x Hx Hxs. rewrite Rp, dget_dset.
        destruct (eq_dec n x) as [->|Hnx]; [|apply X2; assumption]. destruct Hx as [<-|Hx].
        + destruct (Hself It Ct Hn He) as [->|?]; [|congruence]. exfalso. 
          apply (f_equal (fun d => dget d cur)) in Rp. rewrite dget_dset_eq in Rp.
          rewrite (X2 cur (or_introl eq_refl) Hxs) in Rp. apply (iv_pred I) in Rp as [_ [Rp|Rp]]; [contradiction|discriminate].
        + rewrite Gt, Vg in Hng. contradiction.
      - split; [assumption|]. intros; rewrite Vp; reflexivity. }
    destruct HX as [X1 X2].
    assert (T' : forall n, In n (a_gr s) -> exists l, bt (a_pred s2) l n /\ incl l (a_gr s) /\ NoDup l).
    { intros n Hn. destruct (T n Hn) as (l & Hl1 & Hl2 & Hl3). exists l. split; [|auto].
      eapply bt_agree; [exact Hl1|]. intros x Hx Hxs. apply X2; [right; apply Hl2; assumption|assumption]. }
    intros n Hn. simpl in *. rewrite X1 in Hn |- *. destruct Hn as [<-|Hn].
    - destruct C1 as (_ & _ & [->|Hd]).
      + exists [s0]. split; [constructor|]. split; [intros x [<-|[]]; simpl; auto|repeat constructor; auto].
      + destruct (eq_dec cur s0) as [->|Hcs].
        { exists [s0]. split; [constructor|]. split; [intros x [<-|[]]; simpl; auto|repeat constructor; auto]. }
        apply dget_exists in Hd as [p Hp]. destruct (iv_pred I Hp) as [_ [Hpg|Hpn]]; [|discriminate].
        destruct (T' p Hpg) as (l & Hl1 & Hl2 & Hl3). exists (l ++ [cur]). split; [|split].
        * econstructor; [exact Hl1|assumption|]. rewrite X2; simpl; auto.
        * intros x Hx. apply in_app_or in Hx as [Hx|[<-|[]]]; simpl; auto.
        * apply NoDup_snoc. split; [assumption|]. intros Hx. apply Hg, Hl2; assumption.
    - destruct (T' n Hn) as (l & Hl1 & Hl2 & Hl3). exists l. split; [assumption|]. split; [|assumption].
      intros x Hx. right. apply Hl2; assumption.
  Qed.
  Lemma tree_init q : tree_ok (a_init q).
  Proof. intros n []. Qed.
  (* every discovered node has its pred path *)
  Lemma tree_path s n : Inv None s -> tree_ok s -> disc s n -> exists l, bt (a_pred s) l n /\ NoDup l /\ incl l V.
  Proof.
    intros I T Hd.
    assert (HgV : incl (a_gr s) V) by (intros x Hx; exact (proj2 (iv_reach I (proj1 (iv_gr I Hx))))).
    destruct (iv_disc I Hd) as [Hg|He].
    - destruct (T n Hg) as (l & Hl1 & Hl2 & Hl3). exists l. split; [assumption|]. split; [assumption|]. eapply incl_tran; eauto.
    - destruct (mem_spec n (a_gr s)) as [Hg|Hg].
      + destruct (T n Hg) as (l & Hl1 & Hl2 & Hl3). exists l. split; [assumption|]. split; [assumption|]. eapply incl_tran; eauto.
      + destruct (eq_dec n s0) as [->|Hn].
        * exists [s0]. split; [constructor|]. split; [repeat constructor; auto|]. intros x [<-|[]]; assumption.
        * destruct Hd as [?|Hd]; [contradiction|]. pose proof Hd as Hd'. apply dget_exists in Hd as [p Hp].
          destruct (iv_pred I Hp) as [_ [Hpg|Hpn]]; [|discriminate].
          destruct (T p Hpg) as (l & Hl1 & Hl2 & Hl3). exists (l ++ [n]). split; [econstructor; eauto|]. split.
          -- apply NoDup_snoc. split; [assumption|]. intros Hx. apply Hg, Hl2; assumption.
          -- intros x Hx. apply in_app_or in Hx as [Hx|[<-|[]]]; [apply HgV, Hl2; assumption|]. apply (iv_reach I). right; assumption.
  Qed.
End Abs.
