From Verif Require Import Py M_Graph M_Search S_Frontier.
Set Implicit Arguments. Unset Strict Implicit.

Lemma lremove_bag (x : name) (q : list name) : In x q -> exists q', lremove x q = Some q' /\
  length q' < length q /\ (forall y, In y q' -> In y q) /\ (forall y, In y q -> y <> x -> In y q').
Proof.
  induction q as [|a q IH]; [intros []|]. intros Hx. simpl.
  destruct (eq_dec x a) as [->|Hne].
  - exists q. repeat split; simpl; auto. intros y [->|Hy] Hya; congruence.
  - destruct Hx as [->|Hx]; [congruence|]. destruct (IH Hx) as (q' & -> & H1 & H2 & H3).
    exists (a :: q'). repeat split; simpl; [lia| |].
    + intros y [->|Hy]; auto.
    + intros y [->|Hy] Hyx; auto.
Qed.
Lemma stack_bag : @bag stack (fun q => q).
Proof.
  constructor; simpl.
  - intros [|]; split; congruence.
  - intros [|x t] H; [congruence|]. exists x; simpl; auto.
  - intros q x _ y. split; [intros [->|]; auto|intros [->|]; auto].
  - intros; lia.
  - intros q x. apply lremove_bag.
Qed.
Lemma queue_fifo : @fifo queue (fun q => q).
Proof.
  constructor.
  - constructor; simpl.
    + intros [|]; split; congruence.
    + intros [|x t] H; [congruence|]. exists x; simpl; auto.
    + intros q x _ y. rewrite in_app_iff. simpl. intuition.
    + intros q x _. rewrite app_length. simpl. lia.
    + intros q x. apply lremove_bag.
  - simpl. intros q x t ->. reflexivity.
  - reflexivity.
  - simpl. intros q x t q' ->. simpl. destruct (eq_dec x x); congruence.
Qed.
Lemma pmin_spec t : forall b, let r := fold_left (fun (b e : name * Z) => if (snd e <? snd b)%Z then e else b) t b in
  In r (b :: t) /\ forall e, In e (b :: t) -> (snd r <= snd e)%Z.
Proof.
  induction t as [|a t IH]; intros b; cbn [fold_left].
  - simpl. split; [auto|]. intros e [<-|[]]; lia.
  - destruct (snd a <? snd b)%Z eqn:Hlt; [apply Z.ltb_lt in Hlt|apply Z.ltb_ge in Hlt].
    + destruct (IH a) as [H1 H2]. split; [simpl in *; tauto|]. intros e [<-|He].
      * specialize (H2 a (or_introl eq_refl)). lia.
      * apply H2; assumption.
    + destruct (IH b) as [H1 H2]. split; [simpl in *; tauto|]. intros e [<-|[<-|He]].
      * apply H2; left; reflexivity.
      * specialize (H2 b (or_introl eq_refl)). lia.
      * apply H2; right; assumption.
Qed.
Lemma pqueue_prioq : @prioq pqueue (fun q => dkeys (proj1_sig q)).
Proof.
  assert (Hpk : forall q : fq pqueue, dkeys (proj1_sig q) <> [] -> exists x p, fq_peek q = Some x /\ dget (proj1_sig q) x = Some p /\
     forall y py, dget (proj1_sig q) y = Some py -> (p <= py)%Z).
  { intros [q Hq] Hne. simpl in *. destruct q as [|[x p] t]; [simpl in Hne; congruence|]. cbn [pmin].
    destruct (pmin_spec t (x, p)) as [H1 H2]. set (r := fold_left _ _ _) in *.
    exists (fst r), (snd r). split; [reflexivity|]. split.
    - apply In_dget; [assumption|]. rewrite <- surjective_pairing. assumption.
    - intros y py Hy. apply dget_In in Hy. apply (H2 (y, py)). assumption. }
  constructor; [constructor| | | | |].
  - intros [q Hq]; simpl. destruct q; simpl; split; congruence.
  - intros q Hne. destruct (Hpk q Hne) as (x & p & H1 & H2 & _). exists x. split; [assumption|]. eapply dget_Some_keys; eauto.
  - intros [q Hq] x p y; simpl. rewrite In_dkeys_dset. intuition.
  - intros [q Hq] x p; simpl. destruct (mem_spec x (dkeys q)) as [Hx|Hx].
    + rewrite dkeys_dset_in by assumption. lia.
    + rewrite dkeys_dset_nin' by assumption. rewrite app_length; simpl; lia.
  - intros [q Hq] x Hx; simpl in *. assert (Hm : dmem q x = true) by (apply dmem_In; assumption). rewrite Hm.
    eexists; split; [reflexivity|]. simpl. destruct (lremove_bag Hx) as (l' & Hl & H). rewrite (dkeys_ddel_lremove Hx) in Hl. injection Hl as <-. exact H.
  - reflexivity.
  - intros [q Hq] x; simpl. split.
    + intros Hx Hn. apply dget_None in Hn. contradiction.
    + intros Hn. destruct (dget q x) eqn:Hd; [|congruence]. eapply dget_Some_keys; eauto.
  - intros [q Hq] x p y; simpl. apply dget_dset.
  - intros q x px y py H1 H2 H3. destruct (Hpk q) as (x' & p & G1 & G2 & G3).
    { intros Hn. apply dget_Some_keys in H2. rewrite Hn in H2. destruct H2. }
    rewrite H1 in G1. injection G1 as <-. simpl in H2. rewrite H2 in G2. injection G2 as <-. exact (G3 y py H3).
  - intros [q Hq] x q' y; simpl. destruct (dmem q x) eqn:Hm; [|discriminate]. intros [= <-]. simpl. apply dget_ddel; assumption.
Qed.
