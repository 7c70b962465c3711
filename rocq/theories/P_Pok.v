(* Runs that either exhaust the fuel or succeed: no other exception. *)
From Verif Require Import Py Util M_Graph M_MinCost M_NetSimplex P_EdgeFrame.
Set Implicit Arguments. Unset Strict Implicit.
Local Open Scope list_scope.

(* tpk B: the run succeeds, or B holds and the fuel is exhausted; pok: no B is required *)
Definition tpk (B : Prop) {S A} (m : M S A) (s : S) (Q : A -> S -> Prop) : Prop := (B /\ snd (m s) = Err OutOfFuel) \/ ok m s Q.
Notation pok := (tpk True).
Section Rules.
  Context {S : Type} {B0 : Prop}.
  Lemma pok_ok {A} (m : M S A) s Q : ok m s Q -> tpk B0 m s Q.
  Proof. right. assumption. Qed.
  Lemma pok_ret {A} (a : A) s (Q : A -> S -> Prop) : Q a s -> tpk B0 (ret a) s Q.
  Proof. intros H. apply pok_ok, ok_ret, H. Qed.
  Lemma pok_weaken {A} (m : M S A) s (Q Q' : A -> S -> Prop) : tpk B0 m s Q -> (forall a s', Q a s' -> Q' a s') -> tpk B0 m s Q'.
  Proof. intros [H|H] Hq; [left; exact H|right; eapply ok_weaken; eassumption]. Qed.
  Lemma pok_bind {A B} (m : M S A) (f : A -> M S B) s Q : tpk B0 m s (fun a s' => tpk B0 (f a) s' Q) -> tpk B0 (bind m f) s Q.
  Proof.
    intros [H|H].
    - left. split; [apply H|]. destruct H as [_ H]. unfold bind. destruct (m s) as [s' [a|e]]; simpl in *; congruence.
    - apply ok_ex in H as (s' & a & E & [H|H]); [left; rewrite (bind_ok _ E); exact H|right].
      apply ok_bind. apply (ok_intro E). exact H.
  Qed.
  Lemma pok_step {A B} (m : M S A) (f : A -> M S B) s Q : ok m s (fun a s' => tpk B0 (f a) s' Q) -> tpk B0 (bind m f) s Q.
  Proof. intros H. apply pok_bind, pok_ok, H. Qed.
  Lemma pok_foldM {A B} (f : B -> A -> M S B) (l : list A) (b : B) s (I : list A -> B -> S -> Prop) (Q : B -> S -> Prop) :
    I [] b s ->
    (forall pre a post b s, l = pre ++ a :: post -> I pre b s -> tpk B0 (f b a) s (fun b' s' => I (pre ++ [a]) b' s')) ->
    (forall b s, I l b s -> Q b s) ->
    tpk B0 (foldM f l b) s Q.
  Proof.
    intros H0 Hs Hq.
    assert (G : forall post pre b s, l = pre ++ post -> I pre b s -> tpk B0 (foldM f post b) s (fun b' s' => I l b' s')).
    { induction post as [|a post IH]; intros pre b1 s1 Hl Hi; simpl.
      - rewrite app_nil_r in Hl; subst. apply pok_ret; assumption.
      - apply pok_bind. eapply pok_weaken; [eapply Hs; eauto|]. intros b2 s2 H2.
        apply (IH (pre ++ [a])); [rewrite <- app_assoc; assumption|assumption]. }
    eapply pok_weaken; [apply (G l [] b s); auto|]. auto.
  Qed.
  Lemma tpk_loop {L R} (body : L -> M S (L + R)) (I : nat -> L -> S -> Prop) (Q : R -> S -> Prop) fuel : forall n l s, I n l s -> (fuel <= n -> B0) ->
    (forall n l s, I n l s -> tpk B0 (body l) s (fun r s' => match r with inl l' => exists n', n' < n /\ I n' l' s' | inr r => Q r s' end)) ->
    tpk B0 (loop fuel body l) s Q.
  Proof.
    induction fuel as [|fuel IH]; intros n l s HI Hf Hb; [left; split; [apply Hf; lia|reflexivity]|]. cbn [loop]. apply pok_bind.
    eapply pok_weaken; [eapply Hb, HI|]. intros [l'|r] s' H; cbn beta iota in H; [|apply pok_ret, H]. destruct H as (n' & Hn & H). apply (IH n'); [exact H| |exact Hb]. intros K. apply Hf. lia.
  Qed.
  Lemma pok_same {A} (m m' : M S A) s Q : m s = m' s -> tpk B0 m' s Q -> tpk B0 m s Q.
  Proof. intros E [H|H]; [left; rewrite E; exact H|right; apply (ok_same E H)]. Qed.
  Lemma tpk_elim {A} (m : M S A) s Q : tpk B0 m s Q -> (B0 /\ snd (m s) = Err OutOfFuel) \/ exists s' a, m s = (s', Ok a) /\ Q a s'.
  Proof. intros [H|H]; [left; exact H|right; apply ok_ex, H]. Qed.
  Lemma pok_out {A} (m : M S A) s (Q : A -> S -> Prop) : B0 -> snd (m s) = Err OutOfFuel -> tpk B0 m s Q.
  Proof. left. auto. Qed.
End Rules.
Lemma tpk_imp {S A} (B B' : Prop) (m : M S A) s Q : (B -> B') -> tpk B m s Q -> tpk B' m s Q.
Proof. intros H [[K1 K2]|K]; [left; auto|right; exact K]. Qed.
Lemma tpk_pok {S A} (B : Prop) (m : M S A) s Q : tpk B m s Q -> pok m s Q.
Proof. apply tpk_imp. auto. Qed.
Lemma tpk_ok {S A} (B : Prop) (m : M S A) s Q : ~ B -> tpk B m s Q -> ok m s Q.
Proof. intros H [[K _]|K]; [contradiction|exact K]. Qed.
Lemma pok_from {S A} (B B' : Prop) (m : M S A) s (Q Q' : A -> S -> Prop) : tpk B m s Q -> (B -> B') -> (forall a s', Q a s' -> Q' a s') -> tpk B' m s Q'.
Proof. intros H Hb Hq. eapply pok_weaken; [apply (tpk_imp Hb H)|exact Hq]. Qed.
Lemma NoDup_app_l {A} (l m : list A) : NoDup (l ++ m) -> NoDup l.
Proof. induction l as [|x l IH]; intros H; [constructor|]. inversion H as [|? ? H1 H2]; subst. constructor; [|apply IH, H2]. intros K. apply H1, in_app_iff. auto. Qed.
Section Rules2.
  Context {S : Type}.
  Lemma pok_loop {L R} (body : L -> M S (L + R)) (I : L -> S -> Prop) (Q : R -> S -> Prop) fuel : forall l s, I l s ->
    (forall l s, I l s -> pok (body l) s (fun r s' => match r with inl l' => I l' s' | inr r => Q r s' end)) ->
    pok (loop fuel body l) s Q.
  Proof.
    induction fuel as [|fuel IH]; intros l s HI Hb; [left; split; [exact Logic.I|reflexivity]|]. cbn [loop]. apply pok_bind.
    eapply pok_weaken; [apply Hb, HI|]. intros [l'|r] s' H; cbn beta iota in H; [apply IH; assumption|apply pok_ret, H].
  Qed.
  Lemma pok_elim {A} (m : M S A) s Q : pok m s Q -> snd (m s) = Err OutOfFuel \/ exists s' a, m s = (s', Ok a) /\ Q a s'.
  Proof. intros [H|H]; [left; apply H|right; apply ok_ex, H]. Qed.
End Rules2.


Lemma pok_ask {B0 A} (m : M graph A) r g (Q : A -> graph -> Prop) : tpk B0 m r (fun a _ => Q a g) -> tpk B0 (ask m r) g Q.
Proof.
  intros H. apply tpk_elim in H as [H|(r' & a & E & H)]; [left; exact H|right].
  eapply ok_intro; [unfold ask; rewrite E; reflexivity|exact H].
Qed.
Lemma pok_on {B0 A} (m : M graph A) r g (Q : graph -> graph -> Prop) : tpk B0 m r (fun _ r' => Q r' g) -> tpk B0 (on m r) g Q.
Proof.
  intros H. apply tpk_elim in H as [H|(r' & a & E & H)].
  - left. destruct H as [HB H]. split; [exact HB|]. unfold on. destruct (m r) as [r' [a|e]]; simpl in *; congruence.
  - right. eapply ok_intro; [unfold on; rewrite E; reflexivity|exact H].
Qed.
Lemma pok_call {B0 A} (m : M graph A) r g (Q : graph * A -> graph -> Prop) : tpk B0 m r (fun a r' => Q (r', a) g) -> tpk B0 (call m r) g Q.
Proof.
  intros H. apply tpk_elim in H as [H|(r' & a & E & H)].
  - left. destruct H as [HB H]. split; [exact HB|]. unfold call. destruct (m r) as [r' [a|e]]; simpl in *; congruence.
  - right. eapply ok_intro; [unfold call; rewrite E; reflexivity|exact H].
Qed.
Lemma ok_ask {A} (m : M graph A) r g (Q : A -> graph -> Prop) : ok m r (fun a _ => Q a g) -> ok (ask m r) g Q.
Proof. intros H. apply ok_ex in H as (r' & a & E & H). eapply ok_intro; [unfold ask; rewrite E; reflexivity|exact H]. Qed.
Lemma ok_on {A} (m : M graph A) r g (Q : graph -> graph -> Prop) : ok m r (fun _ r' => Q r' g) -> ok (on m r) g Q.
Proof. intros H. apply ok_ex in H as (r' & a & E & H). eapply ok_intro; [unfold on; rewrite E; reflexivity|exact H]. Qed.
Lemma ok_call {A} (m : M graph A) r g (Q : graph * A -> graph -> Prop) : ok m r (fun a r' => Q (r', a) g) -> ok (call m r) g Q.
Proof. intros H. apply ok_ex in H as (r' & a & E & H). eapply ok_intro; [unfold call; rewrite E; reflexivity|exact H]. Qed.
