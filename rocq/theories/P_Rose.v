(* Ordered trees given by a children function, and what a queue- or stack-driven traversal of them visits. *)
From Verif Require Import Py Util M_Graph M_Tree S_Tree Spec P_Walk.
Set Implicit Arguments. Unset Strict Implicit.
Local Open Scope list_scope.

Section RoseInd.
  Variable P : rose -> Prop.
  Hypothesis H : forall n ts, Forall P ts -> P (Rose n ts).
  Fixpoint rose_ind2 (r : rose) : P r :=
    match r with Rose n ts => H n ((fix go l : Forall P l := match l with [] => Forall_nil P | t :: l => Forall_cons t (rose_ind2 t) (go l) end) ts) end.
End RoseInd.

Lemma pre_last_first_eq n ts : pre_last_first (Rose n ts) = n :: flat_map pre_last_first (rev ts).
Proof.
  simpl. f_equal. induction ts as [|t ts IH]; [reflexivity|]. rewrite IH. simpl. rewrite flat_map_app. simpl. rewrite app_nil_r. reflexivity.
Qed.

Lemma reach_cons (E : name -> name -> Prop) a b c : E a b -> reach E b c -> reach E a c.
Proof. intros H [p Hp]. exists (a :: p). apply walk_step with (b := b); assumption. Qed.

Section Kids.
  Variable kids : name -> list name.
  Fixpoint rep (r : rose) : Prop :=
    match r with Rose n ts => kids n = map rroot ts /\ (fix all l := match l with [] => True | x :: l => rep x /\ all l end) ts end.
  Lemma rep_eq n ts : rep (Rose n ts) <-> kids n = map rroot ts /\ Forall rep ts.
  Proof.
    simpl. apply and_iff_compat_l. induction ts as [|t ts IH]; [split; auto|]. rewrite IH. split.
    - intros [? ?]; constructor; auto.
    - intros H; inversion H; auto.
  Qed.

  Variable lv : name -> Z.
  Variable N : list name.
  Hypothesis Hk : forall n c, In n N -> In c (kids n) -> In c N /\ lv c = (lv n + 1)%Z.

  Definition mu (n : name) : nat := length (filter (fun x => (lv n <? lv x)%Z) N).
  Lemma mu_kid n c : In n N -> In c (kids n) -> mu c < mu n.
  Proof.
    intros Hn Hc. destruct (Hk Hn Hc) as [Hc' Hl]. unfold mu. clear Hn Hc. induction N as [|x l IH]; [destruct Hc'|].
    assert (Hle : length (filter (fun x => (lv c <? lv x)%Z) l) <= length (filter (fun x => (lv n <? lv x)%Z) l)).
    { clear - Hl. induction l as [|y l IH]; simpl; [lia|]. destruct (lv c <? lv y)%Z eqn:A, (lv n <? lv y)%Z eqn:B; simpl; try lia. }
    simpl. destruct (eq_dec x c) as [->|Hne].
    - rewrite Z.ltb_irrefl. destruct (lv n <? lv c)%Z eqn:B; simpl; lia.
    - destruct Hc' as [->|Hc']; [congruence|]. assert (IH' : length (filter (fun x => (lv c <? lv x)%Z) l) < length (filter (fun x => (lv n <? lv x)%Z) l)).
      { clear - Hc' Hl. induction l as [|y l IH]; [destruct Hc'|]. simpl.
        destruct Hc' as [->|Hc'].
        - rewrite Z.ltb_irrefl. replace (lv n <? lv c)%Z with true by (symmetry; apply Z.ltb_lt; lia). simpl.
          clear - Hl. induction l as [|y l IH]; simpl; [lia|]. destruct (lv c <? lv y)%Z eqn:A, (lv n <? lv y)%Z eqn:B; simpl in *; lia.
        - specialize (IH Hc'). destruct (lv c <? lv y)%Z eqn:A, (lv n <? lv y)%Z eqn:B; simpl; lia. }
      destruct (lv c <? lv x)%Z eqn:A, (lv n <? lv x)%Z eqn:B; simpl; lia.
  Qed.
  Lemma mu_bound n : In n N -> mu n < length N.
  Proof.
    unfold mu. intros Hn. assert (H : forall l, length (filter (fun x => (lv n <? lv x)%Z) l) <= length l).
    { induction l as [|y l IH]; simpl; [lia|]. destruct (lv n <? lv y)%Z; simpl; lia. }
    apply in_split in Hn as (l1 & l2 & ->). rewrite filter_app, !app_length. simpl. rewrite Z.ltb_irrefl. specialize (H l1) as H1. specialize (H l2) as H2. lia.
  Qed.
  Lemma rose_exists n : In n N -> exists r, rroot r = n /\ rep r.
  Proof.
    remember (mu n) as k eqn:Ek. revert n Ek. induction k as [k IH] using lt_wf_ind. intros n -> Hn.
    assert (Hts : forall l, incl l (kids n) -> exists ts, l = map rroot ts /\ Forall rep ts).
    { induction l as [|c l IHl]; intros Hi; [exists []; auto|].
      destruct IHl as (ts & Hts & Hr); [intros x Hx; apply Hi; right; assumption|].
      assert (Hc : In c (kids n)) by (apply Hi; left; reflexivity).
      destruct (IH (mu c) (mu_kid Hn Hc) c eq_refl (proj1 (Hk Hn Hc))) as (r & Hr1 & Hr2).
      exists (r :: ts). split; [simpl; congruence|constructor; assumption]. }
    destruct (Hts (kids n) (incl_refl _)) as (ts & H1 & H2). exists (Rose n ts). split; [reflexivity|]. apply rep_eq. auto.
  Qed.

  Notation E := (fun p c => In c (kids p)).
  Lemma rep_reach r : rep r -> forall x, In x (rnodes r) <-> reach E (rroot r) x.
  Proof.
    induction r as [n ts IH] using rose_ind2. rewrite rep_eq. intros [Hkn Hr] x. simpl. split.
    - intros [->|Hx]; [apply reach_refl|]. apply in_flat_map in Hx as (t & Ht & Hx).
      rewrite Forall_forall in IH, Hr. apply (IH t Ht (Hr t Ht)) in Hx.
      apply reach_cons with (rroot t); [|exact Hx]. rewrite Hkn. apply in_map. exact Ht.
    - intros [p Hp]. inversion Hp as [|? b q ? Hb Hq]; subst; [auto|]. right.
      rewrite Hkn in Hb. apply in_map_iff in Hb as (t & <- & Ht). rewrite Forall_forall in IH, Hr.
      apply in_flat_map. exists t. split; [exact Ht|]. apply (IH t Ht (Hr t Ht)). exists q. exact Hq.
  Qed.
  Lemma rep_incl r : rep r -> In (rroot r) N -> incl (rnodes r) N.
  Proof.
    induction r as [n ts IH] using rose_ind2. rewrite rep_eq. intros [Hkn Hr] Hn x [->|Hx]; [exact Hn|].
    apply in_flat_map in Hx as (t & Ht & Hx). rewrite Forall_forall in IH, Hr. apply (IH t Ht (Hr t Ht)); [|exact Hx].
    refine (proj1 (Hk (n := n) Hn _)). rewrite Hkn. apply in_map. exact Ht.
  Qed.
  Lemma at_depth_level r : rep r -> In (rroot r) N -> forall d x, In x (at_depth d r) -> lv x = (lv (rroot r) + Z.of_nat d)%Z.
  Proof.
    induction r as [n ts IH] using rose_ind2. rewrite rep_eq. intros [Hkn Hr] Hn [|d] x Hx.
    - destruct Hx as [<-|[]]. simpl. lia.
    - simpl in Hx. apply in_flat_map in Hx as (t & Ht & Hx). rewrite Forall_forall in IH, Hr.
      destruct (Hk (n := n) (c := rroot t) Hn) as [H1 H2]; [rewrite Hkn; apply in_map; exact Ht|].
      rewrite (IH t Ht (Hr t Ht) H1 d x Hx), H2. simpl. lia.
  Qed.

  Hypothesis Hu : forall p q c, In p N -> In q N -> In c (kids p) -> In c (kids q) -> p = q.
  Hypothesis Hnd : forall n, In n N -> NoDup (kids n).
  Lemma reach_in a x : In a N -> reach E a x -> In x N /\ (lv a <= lv x)%Z.
  Proof.
    intros Ha [p Hp]. revert Ha. induction Hp as [a|a b p c Hb Hp IH]; intros Ha; [split; [assumption|lia]|].
    destruct (Hk Ha Hb) as [H1 H2]. destruct (IH H1). split; [assumption|lia].
  Qed.
  Lemma reach_last a x : reach E a x -> a = x \/ exists y, reach E a y /\ E y x.
  Proof.
    intros [p Hp]. induction Hp as [a|a b p c Hb Hp IH]; [left; reflexivity|right].
    destruct IH as [->|(y & Hy & Hyc)]; [exists a; split; [apply reach_refl|exact Hb]|].
    exists y. split; [|exact Hyc]. apply reach_cons with b; assumption.
  Qed.
  Lemma anc_unique a b x : In a N -> In b N -> reach E a x -> reach E b x -> lv a = lv b -> a = b.
  Proof.
    intros Ha Hb. remember (Z.to_nat (lv x - lv a)) as k eqn:Ek. revert x Ek. induction k as [|k IH]; intros x Ek Hax Hbx Hl.
    - destruct (reach_last Hax) as [->|(y & Hy & Hyx)].
      + destruct (reach_last Hbx) as [->|(z & Hz & Hzx)]; [reflexivity|]. exfalso.
        destruct (reach_in Hb Hz) as [H1 H2]. destruct (Hk H1 Hzx). lia.
      + destruct (reach_in Ha Hy) as [H1 H2]. destruct (Hk H1 Hyx). lia.
    - destruct (reach_last Hax) as [->|(y & Hy & Hyx)]; [lia|].
      destruct (reach_in Ha Hy) as [H1 H2]. destruct (Hk H1 Hyx) as [_ H3].
      destruct (reach_last Hbx) as [->|(z & Hz & Hzx)]; [lia|].
      destruct (reach_in Hb Hz) as [G1 G2]. rewrite <- (Hu H1 G1 Hyx Hzx) in Hz. apply (IH y); auto. lia.
  Qed.
  Lemma NoDup_flat_map {A} (f : A -> list name) l : NoDup l -> (forall x, In x l -> NoDup (f x)) ->
    (forall x y z, In x l -> In y l -> In z (f x) -> In z (f y) -> x = y) -> NoDup (flat_map f l).
  Proof.
    induction l as [|a l IH]; intros Hl Hf Hd; [constructor|]. inversion Hl; subst. simpl. apply NoDup_app_iff. split; [apply Hf; left; reflexivity|].
    split; [apply IH; auto; [intros; apply Hf; right; assumption|intros; eapply Hd; eauto; right; assumption]|].
    intros z Hz Hz2. apply in_flat_map in Hz2 as (y & Hy & Hz2). assert (a = y) by (eapply Hd; eauto; [left; reflexivity|right; exact Hy]). congruence.
  Qed.
  Lemma rep_NoDup r : rep r -> In (rroot r) N -> NoDup (rnodes r).
  Proof.
    induction r as [n ts IH] using rose_ind2. intros Hr0. pose proof Hr0 as Hr1. rewrite rep_eq in Hr0. destruct Hr0 as [Hkn Hr]. simpl. intros Hn.
    rewrite Forall_forall in IH, Hr.
    assert (Hkid : forall t, In t ts -> In (rroot t) N /\ lv (rroot t) = (lv n + 1)%Z).
    { intros t Ht. apply (Hk (n := n) Hn). rewrite Hkn. apply in_map, Ht. }
    constructor.
    - intros Hx. apply in_flat_map in Hx as (t & Ht & Hx). apply (rep_reach (Hr t Ht)) in Hx.
      destruct (Hkid t Ht) as [H1 H2]. destruct (reach_in H1 Hx). lia.
    - apply NoDup_flat_map.
      + apply NoDup_map_inv with (f := rroot). rewrite <- Hkn. apply Hnd, Hn.
      + intros t Ht. apply IH; auto. apply Hkid, Ht.
      + intros s t x Hs Ht Hx Hy. apply (rep_reach (Hr s Hs)) in Hx. apply (rep_reach (Hr t Ht)) in Hy.
        destruct (Hkid s Hs) as [H1 H2]. destruct (Hkid t Ht) as [H3 H4].
        assert (Heq : rroot s = rroot t) by (apply (anc_unique (x := x)); auto; lia).
        assert (Hnd' : NoDup (map rroot ts)) by (rewrite <- Hkn; apply Hnd, Hn).
        clear - Hs Ht Heq Hnd'. induction ts as [|a l IHl]; [destruct Hs|]. simpl in Hnd'. inversion Hnd' as [|? ? Hni Hnd2]; subst.
        destruct Hs as [->|Hs], Ht as [->|Ht]; auto; exfalso; apply Hni.
        * rewrite Heq. apply in_map, Ht.
        * rewrite <- Heq. apply in_map, Hs.
  Qed.
  Lemma rep_size r : rep r -> In (rroot r) N -> length (rnodes r) <= length N.
  Proof. intros Hr Hn. apply NoDup_incl_length; [apply rep_NoDup; assumption|apply rep_incl; assumption]. Qed.
End Kids.

(** * Traversals *)
Definition fsize (F : list rose) : nat := length (flat_map rnodes F).
Lemma fsize_app F G : fsize (F ++ G) = fsize F + fsize G.
Proof. unfold fsize. rewrite flat_map_app, app_length. reflexivity. Qed.
Lemma fsize_rev F : fsize (rev F) = fsize F.
Proof. induction F as [|t F IH]; [reflexivity|]. simpl rev. rewrite fsize_app, IH. unfold fsize. simpl. rewrite !app_length. simpl. lia. Qed.

(* level by level *)
Definition flevels (h : nat) (F : list rose) : list name := flat_map (fun d => flat_map (at_depth d) F) (seq 0 h).
Definition fheight (F : list rose) : nat := fold_right (fun t h => Nat.max (rheight t) h) 0 F.
Lemma at_depth_high r : forall d, rheight r <= d -> at_depth d r = [].
Proof.
  induction r as [n ts IH] using rose_ind2. intros [|d] Hd; simpl in Hd; [lia|]. simpl.
  assert (Hh : fold_right (fun t h => Nat.max (rheight t) h) 0 ts <= d) by lia. clear Hd.
  induction ts as [|t ts IHt]; [reflexivity|]. inversion IH; subst. simpl in *. rewrite H1 by lia. apply IHt; auto. lia.
Qed.
Lemma fheight_high F d : fheight F <= d -> flat_map (at_depth d) F = [].
Proof. induction F as [|t F IH]; simpl; intros Hd; [reflexivity|]. rewrite at_depth_high by lia. apply IH. lia. Qed.
Lemma flevels_more F h k : fheight F <= h -> flevels (h + k) F = flevels h F.
Proof.
  intros Hh. unfold flevels. rewrite seq_app, flat_map_app. simpl. rewrite (flat_map_concat_map _ (seq h k)).
  assert (H : concat (map (fun d => flat_map (at_depth d) F) (seq h k)) = []); [|rewrite H; apply app_nil_r].
  revert h Hh. induction k as [|k IH]; intros h Hh; [reflexivity|]. simpl. rewrite fheight_high by assumption. apply (IH (S h)). lia.
Qed.
Lemma flevels_enough F h : fheight F <= h -> flevels h F = flevels (fheight F) F.
Proof. intros H. replace h with (fheight F + (h - fheight F)) by lia. apply flevels_more. lia. Qed.
Lemma fheight_app F G : fheight (F ++ G) = Nat.max (fheight F) (fheight G).
Proof. induction F as [|t F IH]; simpl; [reflexivity|]. rewrite IH. lia. Qed.
Lemma fheight_kids F : fheight (flat_map rkids F) = pred (fheight F).
Proof.
  induction F as [|[n ts] F IH]; [reflexivity|]. cbn [flat_map rkids]. rewrite fheight_app, IH.
  change (fheight (Rose n ts :: F)) with (Nat.max (S (fheight ts)) (fheight F)). destruct (fheight F); lia.
Qed.
Lemma flevels_S h F : flevels (S h) F = map rroot F ++ flevels h (flat_map rkids F).
Proof.
  assert (H0 : flat_map (at_depth 0) F = map rroot F) by (induction F as [|[n ts] F IH]; [reflexivity|]; cbn [flat_map map]; rewrite IH; reflexivity).
  assert (H1 : forall d, flat_map (at_depth (S d)) F = flat_map (at_depth d) (flat_map rkids F)).
  { intros d. induction F as [|[n ts] F IH]; [reflexivity|]. cbn [flat_map]. rewrite flat_map_app, <- IH; [reflexivity|].
    clear. induction F as [|[n ts] F IH]; [reflexivity|]; cbn [flat_map map]; rewrite IH; reflexivity. }
  unfold flevels. change (seq 0 (S h)) with (0 :: seq 1 h). cbn [flat_map]. rewrite H0. f_equal.
  rewrite <- seq_shift, !flat_map_concat_map, map_map. f_equal. apply map_ext. intros d. rewrite <- !flat_map_concat_map. apply H1.
Qed.
Lemma level_order_eq r : level_order r = flevels (fheight [r]) [r].
Proof.
  unfold level_order, flevels. simpl. rewrite Nat.max_0_r. rewrite !flat_map_concat_map. f_equal. apply map_ext. intros d. rewrite app_nil_r. reflexivity.
Qed.

(* A loop whose body takes the head of the queue, emits [ev], and adds its children. *)
Section Run.
  Variable g : graph.
  Variable ro : option name.
  Variable kids : name -> list name.
  Variable fifo : bool.
  Variable body : list item -> M tree (list item + unit).
  Variable ev : name -> list event.
  Variable N : list name.
  Hypothesis body_nil : forall tr, body [] (mkTree g ro tr) = (mkTree g ro tr, Ok (inr tt)).
  Hypothesis body_cons : forall n q tr, In n N -> body (IName n :: q) (mkTree g ro tr) =
    (mkTree g ro (tr ++ ev n), Ok (inl (fold_left (put fifo) (map IName (kids n)) q))).
  Definition fnames (F : list rose) : list item := map (fun r => IName (rroot r)) F.
  Lemma fold_put_fifo l q : fold_left (put true) l q = q ++ l.
  Proof. revert q. induction l as [|x l IH]; intros q; simpl; [rewrite app_nil_r; reflexivity|]. rewrite IH. unfold put. rewrite <- app_assoc. reflexivity. Qed.
  Lemma fold_put_lifo l q : fold_left (put false) l q = rev l ++ q.
  Proof. revert q. induction l as [|x l IH]; intros q; simpl; [reflexivity|]. rewrite IH. unfold put. rewrite <- app_assoc. reflexivity. Qed.
  Definition evs (l : list name) : list event := flat_map ev l.

  Lemma run_dfs fuel : fifo = false -> forall F tr, Forall (rep kids) F -> incl (flat_map rnodes F) N -> fsize F < fuel ->
    loop fuel body (fnames F) (mkTree g ro tr) = (mkTree g ro (tr ++ evs (flat_map pre_last_first F)), Ok tt).
  Proof.
    intros Hf. induction fuel as [|f IH]; intros F tr Hr Hi Hs; [lia|]. cbn [loop].
    destruct F as [|[n ts] F].
    - erewrite bind_ok by apply body_nil. simpl. unfold evs. simpl. rewrite app_nil_r. reflexivity.
    - cbn [fnames map rroot]. inversion Hr as [|? ? Hr1 Hr2]; subst. apply rep_eq in Hr1 as [Hkn Hr1].
      erewrite bind_ok; [|apply body_cons; apply Hi; simpl; auto]. cbv beta iota. rewrite Hkn, fold_put_lifo.
      replace (rev (map IName (map rroot ts)) ++ _) with (fnames (rev ts ++ F)).
      2:{ unfold fnames. rewrite map_app, map_rev, map_map. reflexivity. }
      rewrite IH.
      + f_equal. f_equal. rewrite <- app_assoc. f_equal. unfold evs. rewrite flat_map_app. cbn [flat_map]. rewrite pre_last_first_eq. rewrite flat_map_app.
        cbn [flat_map app]. rewrite <- flat_map_app. rewrite <- flat_map_app. reflexivity.
      + apply Forall_app. split; [apply Forall_rev; assumption|assumption].
      + intros x Hx. apply Hi. simpl. rewrite flat_map_app in Hx. rewrite in_app_iff in *. right. destruct Hx as [Hx|Hx]; [left|right; exact Hx].
        apply in_flat_map in Hx as (t & Ht & Hx). apply in_flat_map. exists t. rewrite <- in_rev in Ht. auto.
      + rewrite fsize_app, fsize_rev. unfold fsize in *. simpl in Hs. rewrite app_length in Hs. lia.
  Qed.
  Lemma run_bfs fuel : fifo = true -> forall A B tr, Forall (rep kids) A -> Forall (rep kids) B -> incl (flat_map rnodes (A ++ B)) N ->
    fsize (A ++ B) < fuel -> forall h, fheight (B ++ flat_map rkids A) <= h ->
    loop fuel body (fnames (A ++ B)) (mkTree g ro tr) = (mkTree g ro (tr ++ evs (map rroot A ++ flevels h (B ++ flat_map rkids A))), Ok tt).
  Proof.
    intros Hf. induction fuel as [|f IH]; intros A B tr HA HB Hi Hs h Hh; [lia|].
    (* one step on a non-empty current level *)
    assert (step : forall n ts A' B' h', Forall (rep kids) (Rose n ts :: A') -> Forall (rep kids) B' -> incl (flat_map rnodes (Rose n ts :: A' ++ B')) N ->
       fsize (Rose n ts :: A' ++ B') < S f -> fheight (B' ++ flat_map rkids (Rose n ts :: A')) <= h' ->
       loop (S f) body (fnames (Rose n ts :: A' ++ B')) (mkTree g ro tr) =
       (mkTree g ro (tr ++ evs (map rroot (Rose n ts :: A') ++ flevels h' (B' ++ flat_map rkids (Rose n ts :: A')))), Ok tt)).
    { intros n ts A' B' h' HA' HB' Hi' Hs' Hh'. cbn [loop fnames map rroot]. inversion HA' as [|? ? Hr1 Hr2]; subst. apply rep_eq in Hr1 as [Hkn Hr1].
      erewrite bind_ok; [|apply body_cons; apply Hi'; simpl; auto]. cbv beta iota. rewrite Hkn, fold_put_fifo.
      replace (_ ++ map IName (map rroot ts)) with (fnames (A' ++ (B' ++ ts))).
      2:{ unfold fnames. rewrite !map_app, map_map, app_assoc. reflexivity. }
      rewrite IH with (h := h').
      - f_equal. f_equal. rewrite <- app_assoc. f_equal. cbn [flat_map rkids map rroot app]. unfold evs. cbn [flat_map]. f_equal.
        rewrite <- app_assoc. reflexivity.
      - assumption.
      - apply Forall_app; auto.
      - intros x Hx. apply Hi'. simpl. rewrite app_assoc in Hx. rewrite flat_map_app in Hx. rewrite in_app_iff in *. tauto.
      - unfold fsize in *. simpl in Hs'. rewrite app_length in Hs'. rewrite app_assoc, flat_map_app, app_length. lia.
      - cbn [flat_map rkids] in Hh'. rewrite <- app_assoc. exact Hh'. }
    destruct A as [|[n ts] A].
    - destruct B as [|[n ts] B].
      + cbn [app fnames map loop]. erewrite bind_ok by apply body_nil. cbv beta iota. simpl flat_map. unfold flevels. cbn [map app].
        assert (Hz : forall l, flat_map (fun d => flat_map (at_depth d) []) l = []) by (induction l; simpl; auto). rewrite Hz. unfold evs. simpl. rewrite app_nil_r. reflexivity.
      + cbn [app flat_map map]. rewrite app_nil_r in *. cbn [app] in *.
        specialize (step n ts B [] (fheight (flat_map rkids (Rose n ts :: B)))). rewrite app_nil_r in step. cbn [app] in step.
        rewrite step; auto. f_equal. f_equal. f_equal. f_equal. rewrite <- flevels_S.
        rewrite fheight_kids. assert (Hp : fheight (Rose n ts :: B) = S (pred (fheight (Rose n ts :: B)))) by (change (fheight (Rose n ts :: B)) with (Nat.max (S (fheight ts)) (fheight B)); lia).
        rewrite <- Hp. symmetry. apply flevels_enough. exact Hh.
    - apply step; auto.
  Qed.
End Run.
