From Verif Require Import Py M_Graph Spec.
Set Implicit Arguments. Unset Strict Implicit.

Section W.
  Variable E : name -> name -> Prop.
  Lemma walk_hd a p b : walk E a p b -> exists t, p = a :: t.
  Proof. destruct 1; eauto. Qed.
  Lemma walk_ne a p b : walk E a p b -> p <> [].
  Proof. destruct 1; discriminate. Qed.
  Lemma walk_last a p b d : walk E a p b -> last p d = b.
  Proof.
    induction 1 as [a|a x p c He Hw IH]; [reflexivity|]. destruct (walk_hd Hw) as [t ->]. simpl in *. exact IH.
  Qed.
  Lemma walk_app a p b q c : walk E a p b -> walk E b (b :: q) c -> walk E a (p ++ q) c.
  Proof.
    induction 1 as [a|a x p b He Hw IH]; intros Hq; [exact Hq|]. simpl. econstructor; eauto.
  Qed.
  Lemma walk_snoc a p b c : walk E a p b -> E b c -> walk E a (p ++ [c]) c.
  Proof. intros Hw He. eapply walk_app; [exact Hw|]. econstructor; [exact He|constructor]. Qed.
  Lemma walk_trans a p b q c : walk E a p b -> walk E b q c -> exists r, walk E a r c /\ S (length r) = length p + length q.
  Proof.
    intros Hp Hq. destruct (walk_hd Hq) as [t ->]. exists (p ++ t). split; [eapply walk_app; eauto|].
    rewrite app_length. simpl. lia.
  Qed.
  Lemma walk_snoc_inv a p c : walk E a p c -> p = [a] /\ a = c \/ exists q b, p = q ++ [c] /\ walk E a q b /\ E b c.
  Proof.
    induction 1 as [a|a x p c He Hw IH]; [left; auto|]. right.
    destruct IH as [[-> ->]|(q & b & -> & Hq & Hb)].
    - exists [a], a. repeat split; auto. constructor.
    - exists (a :: q), b. repeat split; auto. econstructor; eauto.
  Qed.
  Lemma walk_nth a p b d : walk E a p b -> forall k, S k < length p -> E (nth k p d) (nth (S k) p d).
  Proof.
    induction 1 as [a|a x p c He Hw IH]; intros k Hk; [simpl in Hk; lia|].
    destruct k as [|k]; [destruct (walk_hd Hw) as [t ->]; exact He|]. simpl in Hk. apply (IH k). lia.
  Qed.
  Lemma reach_refl a : reach E a a.
  Proof. exists [a]. constructor. Qed.
  Lemma reach_step a b c : reach E a b -> E b c -> reach E a c.
  Proof. intros [p Hp] He. exists (p ++ [c]). eapply walk_snoc; eauto. Qed.
  Lemma reach_pre a b c : E a b -> reach E b c -> reach E a c.
  Proof. intros He [p Hp]. exists (a :: p). econstructor; eauto. Qed.
  Lemma reach_trans a b c : reach E a b -> reach E b c -> reach E a c.
  Proof. intros [p Hp] [q Hq]. destruct (walk_trans Hp Hq) as (r & Hr & _). exists r; assumption. Qed.
  (* a set closed under E containing a contains everything reachable *)
  Lemma reach_closed (P : name -> Prop) a b : P a -> (forall x y, P x -> E x y -> P y) -> reach E a b -> P b.
  Proof.
    intros Ha Hc [p Hp]. revert Ha. induction Hp as [a|a x p c He Hw IH]; intros Ha; [assumption|].
    apply IH. eapply Hc; eauto.
  Qed.
  Lemma walk_suffix a p b q x : walk E a (p ++ x :: q) b -> walk E x (x :: q) b.
  Proof.
    revert a; induction p as [|y p IH]; intros a Hw; simpl in Hw.
    - destruct (walk_hd Hw) as [t Ht]. injection Ht as -> _. exact Hw.
    - inversion Hw as [? Ha|? z ? ? He Hw']; subst.
      + destruct p; discriminate.
      + eapply IH; eauto.
  Qed.
  Lemma walk_prefix a p b q x : walk E a (p ++ x :: q) b -> walk E a (p ++ [x]) x.
  Proof.
    revert a; induction p as [|y p IH]; intros a Hw; simpl in *.
    - destruct (walk_hd Hw) as [t Ht]. injection Ht as -> _. constructor.
    - inversion Hw as [? Ha|? z ? ? He Hw']; subst.
      + destruct p; discriminate.
      + econstructor; eauto.
  Qed.
  Lemma walk_in_reach a p b x : walk E a p b -> In x p -> reach E a x /\ reach E x b.
  Proof.
    intros Hw Hx. apply in_split in Hx as (l1 & l2 & ->). split.
    - exists (l1 ++ [x]). eapply walk_prefix; eauto.
    - exists (x :: l2). eapply walk_suffix; eauto.
  Qed.
End W.

Lemma walk_mono (E E' : name -> name -> Prop) a p b : (forall x y, E x y -> E' x y) -> walk E a p b -> walk E' a p b.
Proof. intros H; induction 1; econstructor; eauto. Qed.
Lemma reach_mono (E E' : name -> name -> Prop) a b : (forall x y, E x y -> E' x y) -> reach E a b -> reach E' a b.
Proof. intros H [p Hp]. exists p. eapply walk_mono; eauto. Qed.
Lemma walk_iff (E E' : name -> name -> Prop) a p b : (forall x y, E x y <-> E' x y) -> walk E a p b <-> walk E' a p b.
Proof. intros H; split; apply walk_mono; intros; apply H; assumption. Qed.
Lemma reach_iff (E E' : name -> name -> Prop) a b : (forall x y, E x y <-> E' x y) -> reach E a b <-> reach E' a b.
Proof. intros H; split; apply reach_mono; intros; apply H; assumption. Qed.
Lemma hops_iff (E E' : name -> name -> Prop) a b k : (forall x y, E x y <-> E' x y) -> hops E a b k <-> hops E' a b k.
Proof.
  intros H. unfold hops. split; intros [(p & Hp & Hl) Hm]; split.
  - exists p. split; [apply (walk_iff a p b H); assumption|assumption].
  - intros q Hq. apply Hm. apply (walk_iff a q b H); assumption.
  - exists p. split; [apply (walk_iff a p b H); assumption|assumption].
  - intros q Hq. apply Hm. apply (walk_iff a q b H); assumption.
Qed.
Lemma reach_sym (E : name -> name -> Prop) a b : (forall x y, E x y -> E y x) -> reach E a b -> reach E b a.
Proof.
  intros Hs [p Hp]. induction Hp as [a|a x p c He Hw IH]; [apply reach_refl|].
  eapply reach_step; [exact IH|]. apply Hs; assumption.
Qed.

(* cost of concatenations *)
Lemma wcost_cons2 c a b t : wcost c (a :: b :: t) = (c a b + wcost c (b :: t))%Z.
Proof. reflexivity. Qed.
Lemma wcost_snoc c p a b : wcost c (p ++ [a; b]) = (wcost c (p ++ [a]) + c a b)%Z.
Proof.
  induction p as [|x p IH]; [simpl; lia|]. destruct p as [|y p]; [simpl; lia|].
  change ((x :: y :: p) ++ [a; b]) with (x :: y :: (p ++ [a; b])).
  change ((x :: y :: p) ++ [a]) with (x :: y :: (p ++ [a])).
  rewrite !wcost_cons2. change (y :: p ++ [a; b]) with ((y :: p) ++ [a; b]). rewrite IH. simpl app. lia.
Qed.
Lemma wcost_app c p a q : wcost c (p ++ a :: q) = (wcost c (p ++ [a]) + wcost c (a :: q))%Z.
Proof.
  induction p as [|x p IH]; [simpl; lia|]. destruct p as [|y p]; [simpl; destruct q; lia|].
  change ((x :: y :: p) ++ a :: q) with (x :: y :: (p ++ a :: q)).
  change ((x :: y :: p) ++ [a]) with (x :: y :: (p ++ [a])).
  rewrite !wcost_cons2. change (y :: p ++ a :: q) with ((y :: p) ++ a :: q). rewrite IH. simpl app. lia.
Qed.
Lemma walk_snoc_form (E : name -> name -> Prop) a p b : walk E a p b -> exists q, p = q ++ [b].
Proof.
  intros H. destruct (walk_snoc_inv H) as [[-> ->]|(q & x & -> & _)]; [exists []; reflexivity|eauto].
Qed.
Lemma wcost_walk_snoc (E : name -> name -> Prop) c a p b x : walk E a p b -> wcost c (p ++ [x]) = (wcost c p + c b x)%Z.
Proof.
  intros H. destruct (walk_snoc_form H) as [q ->]. rewrite <- app_assoc. simpl. apply wcost_snoc.
Qed.
Lemma wcost_nonneg (E : name -> name -> Prop) c a p b : (forall x y, E x y -> 0 <= c x y)%Z -> walk E a p b -> (0 <= wcost c p)%Z.
Proof.
  intros Hc. induction 1 as [a|a x p d He Hw IH]; [simpl; lia|].
  destruct (walk_hd Hw) as [t ->]. rewrite wcost_cons2. specialize (Hc _ _ He). lia.
Qed.
