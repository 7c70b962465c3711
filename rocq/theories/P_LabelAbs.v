(* Label correcting on an abstract graph: the labels and predecessors kept by fifo_label_correcting. *)
From Verif Require Import Py Util M_Graph Spec P_Walk M_LabelCorr.
Set Implicit Arguments. Unset Strict Implicit.
Local Open Scope list_scope.

Definition PA (P : preds) (a b : name) : Prop := dget P b = Some (Some a).
Definition updl (D : name -> option Z) (j : name) (z : Z) : name -> option Z := fun n => if eq_dec n j then Some z else D n.
Lemma updl_eq D j z : updl D j z j = Some z.
Proof. unfold updl. destruct (eq_dec j j); congruence. Qed.
Lemma updl_ne D j z n : n <> j -> updl D j z n = D n.
Proof. unfold updl. destruct (eq_dec n j); congruence. Qed.

(* walks along predecessors are determined by their end *)
Lemma pa_unique P s p p' x : dget P s = Some None -> walk (PA P) s p x -> walk (PA P) s p' x -> p = p'.
Proof.
  intros Hs. revert p' x. induction p as [|y p IH] using rev_ind; intros p' x H H'; [apply walk_ne in H; congruence|].
  destruct (walk_snoc_inv H) as [[E1 E2]|(q & b & E1 & Hq & Hb)]; destruct (walk_snoc_inv H') as [[F1 F2]|(q' & b' & F1 & Hq' & Hb')]; subst.
  - congruence.
  - unfold PA in Hb'. congruence.
  - unfold PA in Hb. congruence.
  - apply app_inj_tail in E1 as [-> ->]. unfold PA in Hb, Hb'. assert (b = b') by congruence. subst. f_equal. apply (IH _ _ Hq Hq').
Qed.
Lemma pa_keys P s p x : In s (dkeys P) -> walk (PA P) s p x -> forall y, In y p -> In y (dkeys P).
Proof.
  intros Hs W. assert (G : forall a p b, walk (PA P) a p b -> In a (dkeys P) -> forall y, In y p -> In y (dkeys P)).
  { intros a q b Hw. induction Hw as [a|a b q d Hab Hw IH]; intros Ha y [<-|Hy]; [exact Ha|destruct Hy|exact Ha|].
    apply IH; [eapply dget_Some_keys; exact Hab|exact Hy]. }
  eapply G; eassumption.
Qed.

Lemma step_js P s i j p : walk (PA P) s p i -> ~ In j p -> j <> s.
Proof. intros Hp Nj ->. apply Nj. destruct (walk_hd Hp) as [t ->]. left. reflexivity. Qed.
Lemma step_ij P s i j p : walk (PA P) s p i -> ~ In j p -> i <> j.
Proof. intros Hp Nj ->. apply Nj. destruct (walk_snoc_form Hp) as [t ->]. apply in_elt. Qed.
Lemma step_PA P i j a b : b <> j -> PA (dset P j (Some i)) a b <-> PA P a b.
Proof. intros H. unfold PA. rewrite dget_dset_ne by congruence. reflexivity. Qed.
Lemma step_walk P i j a p b : walk (PA P) a p b -> ~ In j (tl p) -> walk (PA (dset P j (Some i))) a p b.
Proof.
  intros W. induction W as [a|a b p d Hab W IH]; intros Hn; [constructor|]. simpl in Hn. destruct (walk_hd W) as [t ->]. simpl in *.
  apply walk_step with b; [|apply IH; tauto]. apply step_PA; [intros ->; tauto|exact Hab].
Qed.

Section Abs.
  Variable V : list name.
  Variable E : name -> name -> Prop.
  Variable c : name -> name -> Z.
  Variable s : name.
  Hypothesis NV : NoDup V.
  Hypothesis EV : forall x y, E x y -> In x V /\ In y V.
  Hypothesis SV : In s V.
  Local Open Scope Z_scope.

  Definition row (x : name) : Z := zsum (fun y => Z.abs (c x y)) V.
  Definition B : Z := zsum row V.
  Lemma row_nonneg x : 0 <= row x.
  Proof. apply zsum_nonneg. intros; lia. Qed.
  Lemma B_nonneg : 0 <= B.
  Proof. apply zsum_nonneg. intros; apply row_nonneg. Qed.
  Lemma c_row x y : In y V -> Z.abs (c x y) <= row x.
  Proof. intros H. apply (zsum_le_mem (f := fun y => Z.abs (c x y)) (l := V)); [intros; lia|exact H]. Qed.
  Lemma c_B x y : E x y -> Z.abs (c x y) <= B.
  Proof.
    intros H. apply EV in H as [Hx Hy]. pose proof (c_row (x := x) Hy). pose proof (zsum_le_mem (f := row) (l := V) (x := x) ltac:(intros; apply row_nonneg) Hx). unfold B. lia.
  Qed.
  Lemma zsum_sub_le (f : name -> Z) (p : list name) : (forall x, 0 <= f x) -> NoDup p -> (forall x, In x p -> In x V) -> zsum f p <= zsum f V.
  Proof.
    intros Hf Np Ip. rewrite (zsum_split (fun x => mem x p) f V).
    assert (Hp : Permutation p (filter (fun x => mem x p) V)).
    { apply NoDup_incl_perm; [exact Np|apply NoDup_filter, NV|]. intros x. rewrite filter_In, mem_In. split; [auto|tauto]. }
    rewrite (zsum_perm f Hp). pose proof (zsum_nonneg (f := f) (l := filter (fun x => negb (mem x p)) V) ltac:(auto)). lia.
  Qed.
  Lemma wcost_low a p b : walk E a p b -> NoDup p -> - B <= wcost c p.
  Proof.
    intros W Np. assert (Ip : forall a p b, walk E a p b -> In a V -> (forall x, In x p -> In x V) /\ - zsum row p <= wcost c p).
    { intros a0 q b0 Hw. induction Hw as [a1|a1 b1 q d Hab Hw IH]; intros Ha.
      - split; [intros x [<-|[]]; exact Ha|]. simpl. pose proof (row_nonneg (x := a1)). lia.
      - destruct (EV Hab) as [_ Hb]. destruct (IH Hb) as [I1 I2]. split; [intros x [<-|Hx]; auto|].
        destruct (walk_hd Hw) as [t ->]. cbn [zsum] in *. rewrite wcost_cons2. pose proof (c_row (x := a1) Hb). lia. }
    assert (In a V \/ p = [a]) as [Ha| ->].
    { destruct W as [a|a b p d Hab _]; [auto|]. left. apply (EV Hab). }
    - destruct (Ip _ _ _ W Ha) as [I1 I2]. pose proof (zsum_sub_le (f := row) (p := p) (@row_nonneg) Np I1). unfold B. lia.
    - simpl. pose proof B_nonneg. lia.
  Qed.

  Record inv (D : name -> option Z) (P : preds) : Prop := {
    i_s : D s = Some 0;
    i_ps : dget P s = Some None;
    i_key : forall n, In n (dkeys P) <-> D n <> None;
    i_none : forall n, dget P n = Some None -> n = s;
    i_pred : forall p n, PA P p n -> E p n /\ exists dp dn, D p = Some dp /\ D n = Some dn /\ dp + c p n <= dn;
    i_tree : forall n, In n (dkeys P) -> exists p, walk (PA P) s p n /\ NoDup p;
    i_walk : forall n z, D n = Some z -> exists p, walk E s p n /\ wcost c p = z;
    i_nd : NoDup (dkeys P);
    i_V : forall n, In n (dkeys P) -> In n V;
    i_up : forall n z, D n = Some z -> z <= B * Z.of_nat (length P)
  }.

  Lemma inv_init D : D s = Some 0 -> (forall n, n <> s -> D n = None) -> inv D [(s, None)].
  Proof.
    intros H0 Hn. assert (G : forall n, dget [(s, None : option name)] n = if eq_dec n s then Some None else None) by (intros n; simpl; destruct (eq_dec n s); reflexivity).
    constructor; auto.
    - rewrite G. destruct (eq_dec s s); congruence.
    - intros n. simpl. destruct (eq_dec n s) as [->|Hne].
      + rewrite H0. split; [discriminate|auto].
      + rewrite (Hn n Hne). split; [intros [->|[]]; congruence|congruence].
    - intros n. rewrite G. destruct (eq_dec n s); [auto|discriminate].
    - intros p n. unfold PA. rewrite G. destruct (eq_dec n s); discriminate.
    - intros n [<-|[]]. exists [s]. split; [constructor|repeat constructor; intros []].
    - intros n z Hz. destruct (eq_dec n s) as [->|Hne]; [|rewrite (Hn n Hne) in Hz; discriminate]. exists [s]. split; [constructor|simpl; congruence].
    - repeat constructor. intros [].
    - intros n [<-|[]]. exact SV.
    - intros n z Hz. destruct (eq_dec n s) as [->|Hne]; [|rewrite (Hn n Hne) in Hz; discriminate]. pose proof B_nonneg. simpl. replace z with 0 by congruence. lia.
  Qed.

  Section Step.
    Variables (D : name -> option Z) (P : preds).
    Hypothesis I : inv D P.
    Lemma inv_skey : In s (dkeys P).
    Proof. eapply dget_Some_keys. apply (i_ps I). Qed.
    Lemma pa_cost a p b da : walk (PA P) a p b -> D a = Some da -> exists db, D b = Some db /\ da + wcost c p <= db.
    Proof.
      intros W. revert da. induction W as [a|a b p d Hab W IH]; intros da Ha; [exists da; split; [exact Ha|simpl; lia]|].
      destruct (i_pred I Hab) as (_ & dp & dn & H1 & H2 & H3). destruct (IH dn H2) as (db & G1 & G2). exists db. split; [exact G1|].
      destruct (walk_hd W) as [t ->]. rewrite wcost_cons2. assert (dp = da) by congruence. lia.
    Qed.
    Lemma pa_E a p b : walk (PA P) a p b -> walk E a p b.
    Proof. apply walk_mono. intros x y H. apply (i_pred I H). Qed.
    Lemma d_low n z : D n = Some z -> - B <= z.
    Proof.
      intros Hz. destruct (i_tree I (n := n)) as (p & Hp & Np); [apply (i_key I); congruence|].
      destruct (pa_cost Hp (i_s I)) as (db & Hb & Hl). pose proof (wcost_low (pa_E Hp) Np). assert (db = z) by congruence. lia.
    Qed.
    Lemma P_len : Z.of_nat (length P) <= Z.of_nat (length V).
    Proof. apply Nat2Z.inj_le. replace (length P) with (length (dkeys P)) by (unfold dkeys; apply map_length). apply NoDup_incl_len; [apply (i_nd I)|apply (i_V I)]. Qed.
    Lemma d_up n z : D n = Some z -> z <= B * Z.of_nat (length V).
    Proof. intros Hz. pose proof (i_up I Hz). pose proof P_len. pose proof B_nonneg. nia. Qed.

    Variables (i j : name) (di : Z).
    Hypothesis Hi : D i = Some di.
    Hypothesis Hij : E i j.
    Hypothesis Drop : match D j with Some dj => di + c i j < dj | None => True end.

    (* a path of predecessors that meets j closes a cycle of negative cost *)
    Lemma neg_cycle a b : walk (PA P) s (a ++ j :: b) i -> walk E j (j :: b ++ [j]) j /\ wcost c (j :: b ++ [j]) < 0.
    Proof.
      intros W. assert (Hk : In j (dkeys P)) by (eapply (pa_keys inv_skey W); apply in_elt).
      apply (i_key I) in Hk. destruct (D j) as [dj|] eqn:Hj; [|congruence]. apply walk_suffix in W.
      destruct (pa_cost W Hj) as (db & Hb & Hl). assert (db = di) by congruence. subst.
      split; [apply (walk_snoc (pa_E W) Hij)|]. change (j :: b ++ [j]) with ((j :: b) ++ [j]).
      rewrite (wcost_walk_snoc c j W). lia.
    Qed.

    Variable pi : list name.
    Hypothesis Hpi : walk (PA P) s pi i.
    Hypothesis Ni : NoDup pi.
    Hypothesis Nj : ~ In j pi.
    Let D' := updl D j (di + c i j).
    Let P' := dset P j (Some i).
    Lemma step_inv : inv D' P'.
    Proof.
      pose proof (step_js Hpi Nj) as Hjs. pose proof (step_ij Hpi Nj) as Hne. pose proof inv_skey as Hsk. pose proof B_nonneg as HB.
      assert (Hj' : D' j = Some (di + c i j)) by apply updl_eq. assert (Hn' : forall n, n <> j -> D' n = D n) by (intros; apply updl_ne; assumption).
      assert (Le : forall n z, D n = Some z -> exists z', D' n = Some z' /\ z' <= z).
      { intros n z Hz. destruct (eq_dec n j) as [->|H]; [|rewrite Hn' by exact H; exists z; split; [exact Hz|lia]]. rewrite Hz in Drop. exists (di + c i j). split; [exact Hj'|lia]. }
      assert (Len : Z.of_nat (length P) <= Z.of_nat (length P') /\ (D j = None -> Z.of_nat (length P') = Z.of_nat (length P) + 1)).
      { unfold P'. destruct (in_dec eq_dec j (dkeys P)) as [Hk|Hk].
        - split; [|intros H; apply (i_key I) in Hk; congruence].
          pose proof (dkeys_dset_in (Some i) Hk) as K. unfold dkeys in K. apply (f_equal (@length _)) in K. rewrite !map_length in K. lia.
        - rewrite dkeys_dset_nin by exact Hk. rewrite app_length. simpl. split; intros; lia. }
      constructor.
      - rewrite Hn' by congruence. apply (i_s I).
      - unfold P'. rewrite dget_dset_ne by exact Hjs. apply (i_ps I).
      - intros n. unfold P'. rewrite In_dkeys_dset. destruct (eq_dec n j) as [->|H]; [rewrite Hj'; split; [discriminate|auto]|].
        rewrite Hn' by exact H. rewrite (i_key I). tauto.
      - intros n H. destruct (eq_dec n j) as [->|Hnj]; unfold P' in H; [rewrite dget_dset_eq in H; discriminate|rewrite dget_dset_ne in H by congruence]. apply (i_none I H).
      - intros p n H. destruct (eq_dec n j) as [->|Hnj].
        + unfold PA, P' in H. rewrite dget_dset_eq in H. injection H as <-. split; [exact Hij|]. exists di, (di + c i j). rewrite Hn' by exact Hne. repeat split; [exact Hi|exact Hj'|lia].
        + apply step_PA in H; [|exact Hnj]. destruct (i_pred I H) as (G1 & dp & dn & G2 & G3 & G4). split; [exact G1|].
          destruct (Le p dp G2) as (z & Hz & Lz). exists z, dn. rewrite (Hn' n) by exact Hnj. repeat split; [exact Hz|exact G3|lia].
      - assert (Wj : walk (PA P') s (pi ++ [j]) j).
        { apply walk_snoc with i; [apply step_walk; [exact Hpi|]|unfold PA, P'; apply dget_dset_eq]. intros H. apply Nj. destruct pi; [destruct H|right; exact H]. }
        intros n Hn. unfold P' in Hn. apply In_dkeys_dset in Hn. destruct (eq_dec n j) as [->|Hnj].
        { exists (pi ++ [j]). split; [exact Wj|]. apply NoDup_snoc. auto. }
        destruct Hn as [->|Hn]; [congruence|]. destruct (i_tree I Hn) as (p & Hp & Np). destruct (in_dec eq_dec j p) as [Hjp|Hjp].
        + apply in_split in Hjp as (a & b & ->). exists ((pi ++ [j]) ++ b). apply NoDup_app_iff in Np as (Na & Nb & Nab). inversion Nb as [|? ? Nb1 Nb2]; subst. split.
          * apply walk_app with j; [exact Wj|]. apply step_walk; [apply (walk_suffix Hp)|exact Nb1].
          * apply NoDup_app_iff. split; [apply NoDup_snoc; auto|]. split; [exact Nb2|]. intros x Hx Hxb. apply in_app_iff in Hx as [Hx|[<-|[]]]; [|contradiction].
            (* x after j and on the path to i: the path to i meets j *)
            apply in_split in Hxb as (b1 & b2 & ->). apply in_split in Hx as (p1 & p2 & Ep).
            assert (Q1 : walk (PA P) s ((a ++ j :: b1) ++ [x]) x) by (apply walk_prefix with n b2; rewrite <- app_assoc; exact Hp).
            assert (Q2 : walk (PA P) s (p1 ++ [x]) x) by (apply walk_prefix with i p2; rewrite <- Ep; exact Hpi).
            pose proof (pa_unique (i_ps I) Q1 Q2) as Eq. apply app_inj_tail in Eq as [Eq _]. apply Nj. rewrite Ep, <- Eq. apply in_app_iff. left. apply in_elt.
        + exists p. split; [|exact Np]. apply step_walk; [exact Hp|]. intros H. apply Hjp. destruct p; [destruct H|right; exact H].
      - intros n z Hz. destruct (eq_dec n j) as [->|Hnj]; [|rewrite Hn' in Hz by exact Hnj; apply (i_walk I Hz)].
        rewrite Hj' in Hz. injection Hz as <-. destruct (i_walk I Hi) as (p & Hp & Hc). exists (p ++ [j]). split; [apply (walk_snoc Hp Hij)|]. rewrite (wcost_walk_snoc c j Hp). lia.
      - unfold P'. destruct (in_dec eq_dec j (dkeys P)) as [Hk|Hk]; [rewrite dkeys_dset_in by exact Hk; apply (i_nd I)|].
        rewrite dkeys_dset_nin' by exact Hk. apply NoDup_snoc. split; [apply (i_nd I)|exact Hk].
      - intros n. unfold P'. rewrite In_dkeys_dset. intros [->|H]; [apply (EV Hij)|apply (i_V I H)].
      - intros n z Hz. destruct Len as [L1 L2]. destruct (eq_dec n j) as [->|Hnj].
        + rewrite Hj' in Hz. injection Hz as <-. destruct (D j) as [dj|] eqn:Hj; [pose proof (i_up I Hj); nia|].
          pose proof (i_up I Hi). pose proof (c_B Hij). specialize (L2 eq_refl). nia.
        + rewrite Hn' in Hz by exact Hnj. pose proof (i_up I Hz). nia.
    Qed.
  End Step.

  (** the termination measure *)
  Definition lval (D : name -> option Z) (n : name) : Z := match D n with Some z => z | None => B * Z.of_nat (length V) + 1 end + B.
  Definition mu (D : name -> option Z) (q : list name) : nat := Z.to_nat (2 * zsum (lval D) V + Z.of_nat (length q)).
  Lemma lval_nonneg D P n : inv D P -> 0 <= lval D n.
  Proof.
    intros I. unfold lval. destruct (D n) as [z|] eqn:Hz; [pose proof (d_low I Hz); lia|]. pose proof B_nonneg. nia.
  Qed.
  Lemma mu_drop D P i j di q q' : inv D P -> inv (updl D j (di + c i j)) (dset P j (Some i)) -> In j V ->
    match D j with Some dj => di + c i j < dj | None => True end -> (length q' <= S (length q))%nat -> (mu (updl D j (di + c i j)) q' < mu D q)%nat.
  Proof.
    intros I I' Hj Drop Hq. set (D' := updl D j (di + c i j)) in *.
    assert (zsum (lval D') V + 1 <= zsum (lval D) V).
    { assert (H : forall n, lval D' n + (if eqb n j then 1 else 0) <= lval D n).
      { intros n. unfold lval. destruct (eqb_spec n j) as [->|Hn].
        - unfold D'. rewrite updl_eq. destruct (D j) as [dj|] eqn:Ej; [lia|]. pose proof (d_up I' (n := j) (z := di + c i j)) as U. specialize (U (updl_eq _ _ _)). lia.
        - unfold D'. rewrite updl_ne by exact Hn. lia. }
      pose proof (zsum_le (f := fun n => lval D' n + (if eqb n j then 1 else 0)) (h := lval D) (l := V) ltac:(intros; apply H)) as Hs.
      rewrite zsum_add, zsum_delta in Hs by exact NV. assert (mem j V = true) as Hm by (apply mem_In; exact Hj). rewrite Hm in Hs. lia. }
    unfold mu. pose proof (zsum_nonneg (f := lval D') (l := V) ltac:(intros; apply (lval_nonneg I'))). lia.
  Qed.

  (** labels that satisfy every arc are least costs *)
  Definition settled (D : name -> option Z) (x y : name) : Prop := forall dx, D x = Some dx -> exists dy, D y = Some dy /\ dy <= dx + c x y.
  Lemma settled_walk D a p b da : (forall x y, E x y -> settled D x y) -> walk E a p b -> D a = Some da -> exists db, D b = Some db /\ db <= da + wcost c p.
  Proof.
    intros St W. revert da. induction W as [a|a b p d Hab W IH]; intros da Ha; [exists da; split; [exact Ha|simpl; lia]|].
    destruct (St _ _ Hab _ Ha) as (db & Hb & Lb). destruct (IH db Hb) as (dd & Hd & Ld). exists dd. split; [exact Hd|].
    destruct (walk_hd W) as [t ->]. rewrite wcost_cons2. lia.
  Qed.
End Abs.
