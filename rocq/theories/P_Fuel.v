(* The iteration bound of the models: once a result is not OutOfFuel, a larger bound gives the same one. *)
From Verif Require Import Py Util M_Graph M_Search M_Flow M_Floyd M_MinCost.
Set Implicit Arguments. Unset Strict Implicit.
Local Open Scope string_scope. Local Open Scope list_scope.

(* m' does at least as much as m *)
Definition more {S A} (m m' : M S A) : Prop := forall s, snd (m s) <> Err OutOfFuel -> m' s = m s.
Lemma more_refl {S A} (m : M S A) : more m m.
Proof. intros s _. reflexivity. Qed.
Lemma more_fail {S A} (m : M S A) : more (fail OutOfFuel) m.
Proof. intros s H. exfalso. apply H. reflexivity. Qed.
Lemma more_bind {S A B} (m m' : M S A) (f f' : A -> M S B) : more m m' -> (forall a, more (f a) (f' a)) -> more (bind m f) (bind m' f').
Proof.
  intros Hm Hf s H. unfold bind in *. destruct (m s) as [s1 r] eqn:E. specialize (Hm s). rewrite E in Hm.
  destruct r as [a|e]; [rewrite Hm by discriminate; apply Hf, H|]. rewrite Hm; [reflexivity|]. cbn [snd] in *. congruence.
Qed.
Lemma more_loop {S L R} (body body' : L -> M S (L + R)) k j l : (forall l, more (body l) (body' l)) -> k <= j -> more (loop k body l) (loop j body' l).
Proof.
  intros Hb. revert j l. induction k as [|k IH]; intros j l Hj; [apply more_fail|]. destruct j as [|j]; [lia|]. simpl.
  apply more_bind; [apply Hb|]. intros [l'|r]; [apply IH; lia|apply more_refl].
Qed.
Lemma more_ask {A} (m m' : M graph A) r : more m m' -> more (ask m r) (ask m' r).
Proof. intros H g Hr. unfold ask in *. cbn [snd] in Hr. rewrite (H r Hr). reflexivity. Qed.
Lemma more_ok {S A} (m m' : M S A) s h a : more m m' -> m s = (h, Ok a) -> m' s = (h, Ok a).
Proof. intros H E. rewrite H; rewrite E; [reflexivity|discriminate]. Qed.

Lemma walk_back_more k j n e : k <= j -> more (M_Floyd.walk_back k n e) (M_Floyd.walk_back j n e).
Proof. intros H. apply more_bind; [apply more_refl|]. intros a. apply more_loop; [|exact H]. intros l. apply more_refl. Qed.
Lemma get_cycle_more k j d n el : k <= j -> more (floyd_warshall_get_cycle k d n el) (floyd_warshall_get_cycle j d n el).
Proof.
  revert j el. induction k as [|k IH]; intros j el H; [apply more_fail|]. destruct j as [|j]; [lia|]. cbn [floyd_warshall_get_cycle].
  apply more_bind; [apply more_refl|]. intros e. apply more_bind; [apply walk_back_more, H|]. intros [cy k']. destruct (eqb k' e); [apply more_refl|]. apply IH. lia.
Qed.
Lemma negative_cycle_more k j : k <= j -> more (get_negative_cycle k) (get_negative_cycle j).
Proof.
  intros H. apply more_bind; [apply more_refl|]. intros [|x nl]; [apply more_refl|]. apply more_bind; [apply more_refl|]. intros [[v d] n]. destruct v; [apply more_refl|].
  apply more_bind; [apply get_cycle_more, H|]. intros c. apply more_refl.
Qed.
Section Flow.
  Variable fr : frontier.
  Lemma augment_more k j (q0 : fq fr) s t : k <= j -> more (augment k q0 s t) (augment j q0 s t).
  Proof.
    intros H. apply more_loop; [|exact H]. intros _. apply more_bind; [apply more_refl|]. intros _.
    apply more_bind. { apply more_loop; [|exact H]. intros l. apply more_refl. }
    intros pred. destruct (dmem pred t); [|apply more_refl]. apply more_bind. { apply more_loop; [|exact H]. intros l. apply more_refl. }
    intros d. apply more_bind; [|intros; apply more_refl]. apply more_loop; [|exact H]. intros l. apply more_refl.
  Qed.
  Lemma max_flow_more k j (q0 : fq fr) s t d : k <= j -> more (max_flow k q0 s t d) (max_flow j q0 s t d).
  Proof. intros H. apply more_bind; [apply more_refl|]. intros old. apply more_bind; [apply more_refl|]. intros _. apply more_bind; [apply augment_more, H|]. intros _. apply more_refl. Qed.
  Lemma feasible_more k j (q0 : fq fr) : k <= j -> more (find_feasible_flow k q0) (find_feasible_flow j q0).
  Proof.
    intros H. apply more_bind; [apply more_refl|]. intros nl. apply more_bind; [apply more_refl|]. intros _. apply more_bind; [apply max_flow_more, H|]. intros _. apply more_refl.
  Qed.
  Lemma cancel_more k j : k <= j -> more (cancel k) (cancel j).
  Proof.
    intros H. apply more_bind; [apply more_refl|]. intros r. apply more_bind; [apply more_ask, negative_cycle_more, H|]. intros c. apply more_loop; [|exact H].
    intros [r0 [c0|]]; [|apply more_refl]. apply more_bind; [apply more_refl|]. intros cap. apply more_bind; [apply more_refl|]. intros _. apply more_bind; [apply more_refl|]. intros r1.
    apply more_bind; [apply more_ask, negative_cycle_more, H|]. intros c1. apply more_refl.
  Qed.
  Lemma canceling_more k j (q0 : fq fr) : k <= j -> more (cycle_canceling k q0) (cycle_canceling j q0).
  Proof. intros H. apply more_bind; [apply feasible_more, H|]. intros b. destruct b; [apply cancel_more, H|apply more_refl]. Qed.
End Flow.
(* a round that returns to the same state goes on for ever *)
Lemma loop_fixed {S L R} (body : L -> M S (L + R)) l s k : body l s = (s, Ok (inl l)) -> loop k body l s = (s, Err OutOfFuel).
Proof. intros H. induction k as [|k IH]; [reflexivity|]. simpl. rewrite (bind_ok _ H). exact IH. Qed.
