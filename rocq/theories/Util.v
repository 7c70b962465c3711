(* General lemmas about lists and integer sums. *)
From Verif Require Import Py.
Set Implicit Arguments.
Unset Strict Implicit.
Local Open Scope Z_scope.

Fixpoint zsum {A} (f : A -> Z) (l : list A) : Z :=
  match l with [] => 0 | x :: t => f x + zsum f t end.

Section ZSum.
  Context {A : Type}.
  Implicit Types (f h : A -> Z) (l : list A).
  Lemma zsum_app f l l' : zsum f (l ++ l') = zsum f l + zsum f l'.
  Proof. induction l as [|x t IH]; simpl; [reflexivity|]. rewrite IH. lia. Qed.
  Lemma zsum_ext f h l : (forall x, In x l -> f x = h x) -> zsum f l = zsum h l.
  Proof. induction l as [|x t IH]; simpl; intros H; [reflexivity|]. rewrite H by auto. rewrite IH by auto. reflexivity. Qed.
  Lemma zsum_add f h l : zsum (fun x => f x + h x) l = zsum f l + zsum h l.
  Proof. induction l as [|x t IH]; simpl; lia. Qed.
  Lemma zsum_sub f h l : zsum (fun x => f x - h x) l = zsum f l - zsum h l.
  Proof. induction l as [|x t IH]; simpl; lia. Qed.
  Lemma zsum_opp f l : zsum (fun x => - f x) l = - zsum f l.
  Proof. induction l as [|x t IH]; simpl; lia. Qed.
  Lemma zsum_scale c f l : zsum (fun x => c * f x) l = c * zsum f l.
  Proof. induction l as [|x t IH]; simpl; lia. Qed.
  Lemma zsum_scale_r c f l : zsum (fun x => f x * c) l = zsum f l * c.
  Proof. induction l as [|x t IH]; simpl; lia. Qed.
  Lemma zsum_zero f l : (forall x, In x l -> f x = 0) -> zsum f l = 0.
  Proof. induction l as [|x t IH]; simpl; intros H; [reflexivity|]. rewrite H, IH by auto. reflexivity. Qed.
  Lemma zsum_le f h l : (forall x, In x l -> f x <= h x) -> zsum f l <= zsum h l.
  Proof.
    induction l as [|x t IH]; simpl; intros H; [lia|]. pose proof (H x (or_introl eq_refl)).
    assert (zsum f t <= zsum h t) by auto. lia.
  Qed.
  Lemma zsum_nonneg f l : (forall x, In x l -> 0 <= f x) -> 0 <= zsum f l.
  Proof.
    induction l as [|x t IH]; simpl; intros H; [lia|]. pose proof (H x (or_introl eq_refl)).
    assert (0 <= zsum f t) by auto. lia.
  Qed.
  Lemma zsum_perm f l l' : Permutation l l' -> zsum f l = zsum f l'.
  Proof. induction 1; simpl; lia. Qed.
  Lemma zsum_const c l : zsum (fun _ => c) l = c * Z.of_nat (length l).
  Proof. induction l as [|x t IH]; cbn [zsum length]; lia. Qed.
  Lemma zsum_filter (p : A -> bool) f l : zsum f (filter p l) = zsum (fun x => if p x then f x else 0) l.
  Proof. induction l as [|x t IH]; simpl; [reflexivity|]. destruct (p x); simpl; lia. Qed.
  Lemma zsum_split (p : A -> bool) f l : zsum f l = zsum f (filter p l) + zsum f (filter (fun x => negb (p x)) l).
  Proof. induction l as [|x t IH]; simpl; [reflexivity|]. destruct (p x); simpl; lia. Qed.
  Lemma zsum_le_mem f l x : (forall y, In y l -> 0 <= f y) -> In x l -> f x <= zsum f l.
  Proof.
    intros H Hx. apply in_split in Hx as (a & b & ->). rewrite zsum_app. simpl.
    assert (0 <= zsum f a) by (apply zsum_nonneg; intros; apply H; rewrite in_app_iff; auto).
    assert (0 <= zsum f b) by (apply zsum_nonneg; intros; apply H; rewrite in_app_iff; simpl; auto). lia.
  Qed.
  Context {E : EqDec A}.
  Lemma zsum_delta (c : Z) (a : A) l : NoDup l -> zsum (fun x => if eqb x a then c else 0) l = if mem a l then c else 0.
  Proof.
    induction l as [|x t IH]; simpl; intros H; [reflexivity|]. inversion H as [|? ? Hn1 Hn2]; subst. rewrite IH by assumption.
    unfold eqb. destruct (eq_dec x a) as [->|Hne].
    - destruct (eq_dec a a); [|congruence]. apply mem_nIn in Hn1. rewrite Hn1. lia.
    - destruct (eq_dec a x); [congruence|]. lia.
  Qed.
  Lemma zsum_count f l (u : list A) : NoDup u -> (forall x, In x l -> In x u) ->
    zsum f l = zsum (fun x => f x * Z.of_nat (count_occ eq_dec l x)) u.
  Proof.
    intros Hu. induction l as [|x t IH]; intros Hi.
    - simpl. symmetry. apply zsum_zero. intros; lia.
    - cbn [zsum]. rewrite IH by (intros; apply Hi; simpl; auto).
      transitivity (zsum (fun y => (if eqb y x then f x else 0) + f y * Z.of_nat (count_occ eq_dec t y)) u).
      + rewrite zsum_add, zsum_delta by assumption.
        rewrite (proj2 (mem_In x u)) by (apply Hi; simpl; auto). reflexivity.
      + apply zsum_ext. intros y _. simpl. unfold eqb. destruct (eq_dec y x) as [->|Hn].
        * destruct (eq_dec x x); [lia|congruence].
        * destruct (eq_dec x y); [congruence|lia].
  Qed.
End ZSum.

Lemma zsum_map {A B} (g : A -> B) (f : B -> Z) l : zsum f (map g l) = zsum (fun x => f (g x)) l.
Proof. induction l as [|x t IH]; simpl; [reflexivity|]. rewrite IH. reflexivity. Qed.
Lemma zsum_swap {A B} (f : A -> B -> Z) la lb :
  zsum (fun a => zsum (f a) lb) la = zsum (fun b => zsum (fun a => f a b) la) lb.
Proof.
  induction la as [|a t IH]; simpl.
  - symmetry. apply zsum_zero. reflexivity.
  - rewrite IH, <- zsum_add. reflexivity.
Qed.
Lemma zsum_prod {A B} (f : A * B -> Z) la lb :
  zsum f (list_prod la lb) = zsum (fun a => zsum (fun b => f (a, b)) lb) la.
Proof.
  induction la as [|a t IH]; simpl; [reflexivity|]. rewrite zsum_app, IH, zsum_map. reflexivity.
Qed.
Lemma zsum_of_nat {A} (f : A -> nat) l : Z.of_nat (list_sum (map f l)) = zsum (fun x => Z.of_nat (f x)) l.
Proof.
  induction l as [|x t IH]; [reflexivity|].
  change (list_sum (map f (x :: t))) with (f x + list_sum (map f t))%nat. rewrite Nat2Z.inj_add, IH. reflexivity.
Qed.

(* lists *)
Lemma NoDup_incl_perm {A} (l l' : list A) : NoDup l -> NoDup l' -> (forall x, In x l <-> In x l') -> Permutation l l'.
Proof. intros. apply NoDup_Permutation; assumption. Qed.
Lemma NoDup_app_iff {A} (l l' : list A) : NoDup (l ++ l') <-> NoDup l /\ NoDup l' /\ (forall x, In x l -> ~ In x l').
Proof.
  induction l as [|x t IH]; simpl.
  - split; [intros H; repeat split; [constructor|assumption|tauto]|tauto].
  - split.
    + intros H. inversion H as [|? ? H1 H2]; subst. apply IH in H2 as (H2 & H3 & H4). rewrite in_app_iff in H1.
      repeat split; [constructor; tauto|assumption|]. intros y [->|Hy]; [tauto|auto].
    + intros (H1 & H2 & H3). inversion H1; subst. constructor.
      * rewrite in_app_iff. intros [H|H]; [tauto|]. apply (H3 x); auto.
      * apply IH. repeat split; auto.
Qed.
Lemma NoDup_snoc {A} (l : list A) x : NoDup (l ++ [x]) <-> NoDup l /\ ~ In x l.
Proof.
  rewrite NoDup_app_iff. split.
  - intros (H1 & _ & H2). split; [assumption|]. intros H. apply (H2 x H). simpl; auto.
  - intros [H1 H2]. repeat split; [assumption|repeat constructor; simpl; tauto|]. intros y Hy [<-|[]]. tauto.
Qed.
Lemma NoDup_list_prod {A B} (la : list A) (lb : list B) : NoDup la -> NoDup lb -> NoDup (list_prod la lb).
Proof.
  intros Ha Hb. induction la as [|a t IH]; simpl; [constructor|]. inversion Ha; subst.
  apply NoDup_app_iff. repeat split; [|auto|].
  - apply FinFun.Injective_map_NoDup; [intros x y H; congruence|assumption].
  - intros [x y] Hi Hj. apply in_map_iff in Hi as (? & [= <- <-] & _). apply in_prod_iff in Hj. tauto.
Qed.
Lemma NoDup_incl_len {A} (l l' : list A) : NoDup l -> (forall x, In x l -> In x l') -> (length l <= length l')%nat.
Proof. intros H1 H2. apply NoDup_incl_length; assumption. Qed.
