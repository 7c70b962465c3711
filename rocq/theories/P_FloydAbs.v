(* The Floyd-Warshall iteration on functions: in-place updates, with or without negative cycles. *)
From Verif Require Import Py Util M_Graph Spec P_Walk.
From Coq Require ListDec.
Set Implicit Arguments. Unset Strict Implicit.
Local Open Scope list_scope.

Definition leo (o : option Z) (z : Z) : Prop := exists z', o = Some z' /\ (z' <= z)%Z.
Lemma leo_trans o z z' : leo o z -> (z <= z')%Z -> leo o z'.
Proof. intros (x & H & Hx) Hz. exists x. split; [exact H|lia]. Qed.

Section FW.
  Variable nl : list name.
  Hypothesis Hnl : NoDup nl.
  Variable E : name -> name -> Prop.
  Variable c : name -> name -> Z.
  Hypothesis HE : forall x y, E x y -> In x nl /\ In y nl.

  Notation fst2 := (name -> name -> option Z).
  Notation nx2 := (name -> name -> option name).
  Definition upd {V} (f : name -> name -> V) (i j : name) (v : V) : name -> name -> V := fun x y => if eqb (x, y) (i, j) then v else f x y.
  Lemma upd_eq {V} (f : name -> name -> V) i j v : upd f i j v i j = v.
  Proof. unfold upd. rewrite eqb_refl. reflexivity. Qed.
  Lemma upd_ne {V} (f : name -> name -> V) i j v x y : (x, y) <> (i, j) -> upd f i j v x y = f x y.
  Proof. intros H. unfold upd. apply eqb_false in H. rewrite H. reflexivity. Qed.
  Notation st := (fst2 * nx2)%type.
  Definition better (D : fst2) (k i j : name) : bool :=
    match D i k, D k j with
    | Some a, Some b => match D i j with None => true | Some z => (z >? a + b)%Z end
    | _, _ => false
    end.
  Definition through (D : fst2) (k i j : name) : option Z := match D i k, D k j with Some a, Some b => Some (a + b)%Z | _, _ => None end.
  Definition pstep (k i : name) (s : st) (j : name) : st :=
    if better (fst s) k i j then (upd (fst s) i j (through (fst s) k i j), upd (snd s) i j (snd s k j)) else s.
  Definition prow (k : name) (s : st) (i : name) : st := fold_left (pstep k i) nl s.
  Definition pround (s : st) (k : name) : st := fold_left (prow k) nl s.

  Lemma better_inv D k i j : better D k i j = true -> exists a b, D i k = Some a /\ D k j = Some b /\ (forall z, D i j = Some z -> (a + b < z)%Z) /\ through D k i j = Some (a + b)%Z.
  Proof.
    unfold better, through. destruct (D i k) as [a|] eqn:H1; [|discriminate]. destruct (D k j) as [b|] eqn:H2; [|discriminate]. intros H. exists a, b. split; [reflexivity|]. split; [reflexivity|].
    split; [|reflexivity]. intros z Hz. rewrite Hz in H. lia.
  Qed.

  (** ** walks with a given interior *)
  Definition via (ks : list name) (i : name) (p : list name) (j : name) (z : Z) : Prop :=
    walk E i (i :: p ++ [j]) j /\ incl p ks /\ wcost c (i :: p ++ [j]) = z.
  Lemma via_mono ks ks' i p j z : incl ks ks' -> via ks i p j z -> via ks' i p j z.
  Proof. intros H (H1 & H2 & H3). split; [exact H1|]. split; [|exact H3]. intros x Hx. auto. Qed.
  Lemma via_arc ks i j : E i j -> via ks i [] j (c i j).
  Proof. intros H. split; [apply walk_step with (b := j); [exact H|constructor]|]. split; [intros x []|simpl; lia]. Qed.
  Lemma via_app ks i p k q j a b : via ks i p k a -> via ks k q j b -> In k ks -> via ks i (p ++ k :: q) j (a + b).
  Proof.
    intros (H1 & H2 & H3) (G1 & G2 & G3) Hk. split; [|split].
    - replace (i :: (p ++ k :: q) ++ [j]) with ((i :: p ++ [k]) ++ q ++ [j]) by (simpl; rewrite <- !app_assoc; reflexivity).
      apply walk_app with (b := k); [exact H1|exact G1].
    - intros x Hx. apply in_app_iff in Hx as [Hx|[<-|Hx]]; auto.
    - replace (i :: (p ++ k :: q) ++ [j]) with ((i :: p) ++ k :: q ++ [j]) by (simpl; rewrite <- !app_assoc; reflexivity).
      rewrite wcost_app. simpl app. rewrite H3, G3. reflexivity.
  Qed.
  Lemma via_split ks i p k q j z : via ks i (p ++ k :: q) j z -> exists a b, via ks i p k a /\ via ks k q j b /\ (z = a + b)%Z /\ In k ks.
  Proof.
    intros (H1 & H2 & H3). replace (i :: (p ++ k :: q) ++ [j]) with ((i :: p) ++ k :: q ++ [j]) in * by (simpl; rewrite <- !app_assoc; reflexivity).
    exists (wcost c (i :: p ++ [k])), (wcost c (k :: q ++ [j])). split; [|split].
    - split; [apply (walk_prefix H1)|]. split; [|reflexivity]. intros x Hx. apply H2, in_app_iff. auto.
    - split; [apply (walk_suffix H1)|]. split; [|reflexivity]. intros x Hx. apply H2, in_app_iff. simpl. auto.
    - split; [|apply H2, in_elt]. rewrite wcost_app in H3. simpl app in H3. lia.
  Qed.
  Lemma via_snoc ks i p m j z : via ks i p m z -> E m j -> In m ks -> via ks i (p ++ [m]) j (z + c m j).
  Proof. intros H Hm Hk. apply via_app; [exact H|apply via_arc, Hm|exact Hk]. Qed.
  Lemma via_nodes ks i p j z : via ks i p j z -> In i nl /\ In j nl.
  Proof.
    intros (H & _). split.
    - inversion H; subst; [destruct p; discriminate|]. match goal with K : E i _ |- _ => apply HE in K; tauto end.
    - change (i :: p ++ [j]) with ((i :: p) ++ [j]) in H. destruct (walk_snoc_inv H) as [[K _]|(q & b & K & _ & Hb)]; [destruct p; discriminate|]. apply HE in Hb. tauto.
  Qed.
  Lemma walk_via a p b : walk E a p b -> a = b /\ p = [a] \/ exists q, via nl a q b (wcost c p) /\ p = a :: q ++ [b].
  Proof.
    intros H. pose proof H as H0. destruct (walk_hd H) as [t ->]. destruct (walk_snoc_form H) as [q Hq]. destruct q as [|x q].
    - injection Hq as -> ->. left. auto.
    - injection Hq as <- ->. right. exists q. split; [|reflexivity]. split; [exact H|]. split; [|reflexivity].
      intros y Hy. apply in_split in Hy as (q1 & q2 & ->). replace (a :: (q1 ++ y :: q2) ++ [b]) with ((a :: q1) ++ y :: q2 ++ [b]) in H by (simpl; rewrite <- !app_assoc; reflexivity).
      apply walk_suffix in H. inversion H; subst; [destruct q2; discriminate|]. match goal with K : E y _ |- _ => apply HE in K; tauto end.
  Qed.
  (* a walk can be replaced by one without repeated interior nodes that costs no more, unless there is such a walk from a node to itself that has negative cost *)
  Lemma shorten ks i p j z : via ks i p j z ->
    (exists q z', via ks i q j z' /\ NoDup q /\ (z' <= z)%Z) \/ (exists a q z', via ks a q a z' /\ NoDup q /\ (z' < 0)%Z).
  Proof.
    remember (length p) as n eqn:Hn. assert (Hn' : length p <= n) by lia. clear Hn. revert i p j z Hn'. induction n as [|n IH]; intros i p j z Hp H.
    - destruct p; [|simpl in Hp; lia]. left. exists [], z. split; [exact H|]. split; [constructor|lia].
    - destruct (ListDec.NoDup_dec eq_dec p) as [Hd|Hd]; [left; exists p, z; split; [exact H|]; split; [exact Hd|lia]|].
      assert (exists x p1 p2 p3, p = p1 ++ x :: p2 ++ x :: p3) as (x & p1 & p2 & p3 & ->).
      { clear - Hd. induction p as [|x p IHp]; [exfalso; apply Hd; constructor|]. destruct (mem_spec x p) as [Hx|Hx].
        - apply in_split in Hx as (p2 & p3 & ->). exists x, [], p2, p3. reflexivity.
        - destruct IHp as (y & p1 & p2 & p3 & ->); [intros H; apply Hd; constructor; assumption|]. exists y, (x :: p1), p2, p3. reflexivity. }
      apply via_split in H as (a & b & H1 & H2 & -> & Hk). apply via_split in H2 as (b1 & b2 & H2 & H3 & -> & _).
      rewrite !app_length in Hp. simpl in Hp. rewrite app_length in Hp. simpl in Hp.
      destruct (Z.ltb_spec b1 0) as [Hb|Hb].
      + destruct (IH x p2 x b1 ltac:(lia) H2) as [(q & z' & G1 & G2 & G3)|G]; [|right; exact G]. right. exists x, q, z'. split; [exact G1|]. split; [exact G2|lia].
      + destruct (IH i (p1 ++ x :: p3) j (a + b2)%Z) as [(q & z' & G1 & G2 & G3)|G]; [rewrite app_length; simpl; lia|apply via_app; assumption| |right; exact G].
        left. exists q, z'. split; [exact G1|]. split; [exact G2|lia].
  Qed.

  Lemma simple_interior ks i p j z : via ks i p j z -> exists q z', via ks i q j z' /\ NoDup q.
  Proof.
    remember (length p) as n eqn:Hn. assert (Hn' : length p <= n) by lia. clear Hn. revert i p j z Hn'. induction n as [|n IH]; intros i p j z Hp H.
    - destruct p; [|simpl in Hp; lia]. exists [], z. split; [exact H|constructor].
    - destruct (ListDec.NoDup_dec eq_dec p) as [Hd|Hd]; [exists p, z; auto|].
      assert (exists x p1 p2 p3, p = p1 ++ x :: p2 ++ x :: p3) as (x & p1 & p2 & p3 & ->).
      { clear - Hd. induction p as [|x p IHp]; [exfalso; apply Hd; constructor|]. destruct (mem_spec x p) as [Hx|Hx].
        - apply in_split in Hx as (p2 & p3 & ->). exists x, [], p2, p3. reflexivity.
        - destruct IHp as (y & p1 & p2 & p3 & ->); [intros H; apply Hd; constructor; assumption|]. exists y, (x :: p1), p2, p3. reflexivity. }
      apply via_split in H as (a & b & H1 & H2 & -> & Hk). apply via_split in H2 as (b1 & b2 & H2 & H3 & -> & _).
      rewrite !app_length in Hp. simpl in Hp. rewrite app_length in Hp. simpl in Hp.
      apply (IH i (p1 ++ x :: p3) j (a + b2)%Z); [rewrite app_length; simpl; lia|apply via_app; assumption].
  Qed.

  (** ** invariants of the steps *)
  Definition IA (ks : list name) (D : fst2) : Prop := forall i j z, In i nl -> In j nl -> D i j = Some z -> (i = j /\ z = 0%Z) \/ exists p, via ks i p j z.
  Definition IW (ks : list name) (s : st) : Prop := forall i j z, In i nl -> In j nl -> fst s i j = Some z ->
    (i = j /\ (0 <= z)%Z) \/ exists p m, snd s i j = Some m /\ E m j /\ m <> j /\ last p i = m /\ via ks i p j z.
  Definition IT (s : st) : Prop := forall m j, E m j -> m <> j -> exists z, fst s m j = Some z /\ (z <= c m j)%Z /\ (z = c m j -> snd s m j = Some m).
  Definition mono (D0 D : fst2) : Prop := forall i j z, D0 i j = Some z -> leo (D i j) z.
  Lemma mono_refl D : mono D D.
  Proof. intros i j z H. exists z. split; [exact H|lia]. Qed.
  Lemma mono_trans D1 D2 D3 : mono D1 D2 -> mono D2 D3 -> mono D1 D3.
  Proof. intros H G i j z Hz. destruct (H i j z Hz) as (z' & H1 & H2). destruct (G i j z' H1) as (z2 & H3 & H4). exists z2. split; [exact H3|lia]. Qed.

  Lemma step_mono k i s j : mono (fst s) (fst (pstep k i s j)).
  Proof.
    unfold pstep. destruct (better (fst s) k i j) eqn:B; [|apply mono_refl]. apply better_inv in B as (a & b & H1 & H2 & H3 & H4). simpl. rewrite H4.
    intros x y z Hz. destruct (eq_dec (x, y) (i, j)) as [[= -> ->]|Hne].
    - rewrite upd_eq. exists (a + b)%Z. split; [reflexivity|]. specialize (H3 z Hz). lia.
    - rewrite upd_ne by exact Hne. exists z. split; [exact Hz|lia].
  Qed.
  Lemma step_A k i j s ks : In k nl -> In i nl -> In j nl -> In k ks -> IA ks (fst s) -> IA ks (fst (pstep k i s j)).
  Proof.
    intros Hk Hi Hj Hks I. unfold pstep. destruct (better (fst s) k i j) eqn:B; [|exact I]. apply better_inv in B as (a & b & H1 & H2 & H3 & H4). simpl. rewrite H4.
    intros x y z Hx Hy Hz. destruct (eq_dec (x, y) (i, j)) as [[= -> ->]|Hne]; [|rewrite upd_ne in Hz by exact Hne; auto].
    rewrite upd_eq in Hz. injection Hz as <-. right.
    destruct (I i k a Hi Hk H1) as [[-> ->]|[p Hp]]; [specialize (H3 _ H2); lia|].
    destruct (I k j b Hk Hj H2) as [[-> ->]|[q Hq]]; [specialize (H3 _ H1); lia|].
    exists (p ++ k :: q). apply via_app; assumption.
  Qed.
  Lemma step_W k i j s ks : In k nl -> In i nl -> In j nl -> In k ks -> IA ks (fst s) -> IW ks s -> IW ks (pstep k i s j).
  Proof.
    intros Hk Hi Hj Hks A I. unfold pstep. destruct (better (fst s) k i j) eqn:B; [|exact I]. apply better_inv in B as (a & b & H1 & H2 & H3 & H4).
    intros x y z Hx Hy Hz. cbn [fst snd] in *. rewrite H4 in Hz. destruct (eq_dec (x, y) (i, j)) as [[= -> ->]|Hne]; [|rewrite upd_ne in Hz by exact Hne; rewrite upd_ne by exact Hne; auto].
    rewrite upd_eq in Hz. rewrite upd_eq. injection Hz as <-. right.
    destruct (A i k a Hi Hk H1) as [[-> ->]|[p Hp]]; [specialize (H3 _ H2); lia|].
    destruct (I k j b Hk Hj H2) as [[-> Hb]|(q & m & G1 & G2 & G3 & G4 & G5)]; [specialize (H3 _ H1); lia|].
    exists (p ++ k :: q), m. split; [exact G1|]. split; [exact G2|]. split; [exact G3|]. split; [|apply via_app; assumption].
    rewrite <- G4. clear. induction p as [|x p IH]; simpl.
    - destruct q; [reflexivity|]. clear. revert n; induction q as [|y q IH]; intros n; [reflexivity|]. simpl. apply IH.
    - destruct (p ++ k :: q) eqn:Ep; [destruct p; discriminate|]. exact IH.
  Qed.
  Lemma step_T k i j s : In j nl -> IT s -> IT (pstep k i s j).
  Proof.
    intros Hj I. unfold pstep. destruct (better (fst s) k i j) eqn:B; [|exact I]. apply better_inv in B as (a & b & H1 & H2 & H3 & H4).
    intros m y Hm Hne. cbn [fst snd]. rewrite H4. destruct (I m y Hm Hne) as (z & G1 & G2 & G3). destruct (eq_dec (m, y) (i, j)) as [[= -> ->]|Hd].
    - rewrite !upd_eq. exists (a + b)%Z. split; [reflexivity|]. specialize (H3 _ G1). split; lia.
    - rewrite !upd_ne by exact Hd. exists z. auto.
  Qed.
  Lemma round_inv (P : st -> Prop) k s : (forall i j s, In i nl -> In j nl -> P s -> P (pstep k i s j)) -> P s -> P (pround s k).
  Proof.
    intros H. unfold pround. assert (G : forall l s, incl l nl -> P s -> P (fold_left (prow k) l s)).
    { induction l as [|i l IH]; intros s0 Hl Hs; [exact Hs|]. simpl. apply IH; [intros x Hx; apply Hl; simpl; auto|].
      unfold prow. assert (R : forall l' s, incl l' nl -> P s -> P (fold_left (pstep k i) l' s)).
      { induction l' as [|j l' IH']; intros s1 Hl' Hs1; [exact Hs1|]. simpl. apply IH'; [intros x Hx; apply Hl'; simpl; auto|]. apply H; [apply Hl; simpl; auto|apply Hl'; simpl; auto|exact Hs1]. }
      apply R; [apply incl_refl|exact Hs]. }
    apply G, incl_refl.
  Qed.
  Lemma row_mono k i l s : mono (fst s) (fst (fold_left (pstep k i) l s)).
  Proof. revert s. induction l as [|j l IH]; intros s; simpl; [apply mono_refl|]. eapply mono_trans; [apply step_mono|apply IH]. Qed.
  Lemma rows_mono k l s : mono (fst s) (fst (fold_left (prow k) l s)).
  Proof. revert s. induction l as [|j l IH]; intros s; simpl; [apply mono_refl|]. eapply mono_trans; [apply row_mono|apply IH]. Qed.
  Lemma round_mono k s : mono (fst s) (fst (pround s k)).
  Proof. apply rows_mono. Qed.
  Lemma step_le k i j (s : st) a b : fst s i k = Some a -> fst s k j = Some b -> leo (fst (pstep k i s j) i j) (a + b).
  Proof.
    intros H1 H2. unfold pstep. destruct (better (fst s) k i j) eqn:B.
    - cbn [fst]. rewrite upd_eq. unfold through. rewrite H1, H2. exists (a + b)%Z. split; [reflexivity|lia].
    - unfold better in B. rewrite H1, H2 in B. destruct (fst s i j) as [z|]; [|discriminate]. exists z. split; [reflexivity|lia].
  Qed.
  Lemma round_le k i j (s : st) a b : In i nl -> In j nl -> fst s i k = Some a -> fst s k j = Some b -> leo (fst (pround s k) i j) (a + b).
  Proof.
    intros Hi Hj H1 H2. unfold pround. apply in_split in Hi as (l1 & l2 & Ei). rewrite Ei at 1. rewrite fold_left_app. cbn [fold_left].
    set (s1 := fold_left (prow k) l1 s). pose proof (@rows_mono k l1 s) as M1. fold s1 in M1.
    destruct (M1 _ _ _ H1) as (a1 & H1' & Ha). destruct (M1 _ _ _ H2) as (b1 & H2' & Hb).
    assert (L : leo (fst (prow k s1 i) i j) (a1 + b1)).
    { unfold prow. apply in_split in Hj as (m1 & m2 & Ej). rewrite Ej. rewrite fold_left_app. cbn [fold_left]. set (s2 := fold_left (pstep k i) m1 s1).
      pose proof (@row_mono k i m1 s1) as M2. fold s2 in M2. destruct (M2 _ _ _ H1') as (a2 & H1'' & Ha2). destruct (M2 _ _ _ H2') as (b2 & H2'' & Hb2).
      destruct (step_le H1'' H2'') as (z & Hz & Hle). destruct (@row_mono k i m2 (pstep k i s2 j) _ _ _ Hz) as (z' & Hz' & Hle'). exists z'. split; [exact Hz'|lia]. }
    destruct L as (z & Hz & Hle). destruct (@rows_mono k l2 (prow k s1 i) _ _ _ Hz) as (z' & Hz' & Hle'). exists z'. split; [exact Hz'|lia].
  Qed.
  Definition IB (ks : list name) (D : fst2) : Prop := forall i p j z, via ks i p j z -> NoDup p -> leo (D i j) z.
  Lemma round_B ks k s : In k nl -> IB ks (fst s) -> IB (ks ++ [k]) (fst (pround s k)).
  Proof.
    intros Hk I i p j z Hv Hp. destruct (via_nodes Hv) as [Hi Hj]. destruct (mem_spec k p) as [Hkp|Hkp].
    - apply in_split in Hkp as (p1 & p2 & ->). apply via_split in Hv as (a & b & V1 & V2 & -> & _).
      assert (R : forall q x y w, via (ks ++ [k]) x q y w -> ~ In k q -> via ks x q y w).
      { intros q x y w (G1 & G2 & G3) Hq. split; [exact G1|]. split; [|exact G3]. intros u Hu. specialize (G2 u Hu). apply in_app_iff in G2 as [G2|[<-|[]]]; [exact G2|contradiction]. }
      apply NoDup_remove in Hp as [Hp Hn]. rewrite in_app_iff in Hn.
      apply R in V1; [|tauto]. apply R in V2; [|tauto].
      destruct (I _ _ _ _ V1) as (a' & A1 & A2); [apply NoDup_app_iff in Hp; tauto|]. destruct (I _ _ _ _ V2) as (b' & B1 & B2); [apply NoDup_app_iff in Hp; tauto|].
      destruct (round_le Hi Hj A1 B1) as (z' & G1 & G2). exists z'. split; [exact G1|lia].
    - destruct Hv as (G1 & G2 & G3). destruct (I i p j z) as (z' & H1 & H2); [split; [exact G1|]; split; [|exact G3]|exact Hp|].
      + intros u Hu. specialize (G2 u Hu). apply in_app_iff in G2 as [G2|[<-|[]]]; [exact G2|contradiction].
      + destruct (@round_mono k s _ _ _ H1) as (z2 & H3 & H4). exists z2. split; [exact H3|lia].
  Qed.
  Lemma round_A ks k s : In k nl -> IA ks (fst s) -> IA (ks ++ [k]) (fst (pround s k)).
  Proof.
    intros Hk I. apply (round_inv (P := fun s => IA (ks ++ [k]) (fst s))).
    - intros i j s0 Hi Hj H. apply step_A; try assumption. apply in_app_iff. simpl. auto.
    - intros i j z Hi Hj Hz. destruct (I i j z Hi Hj Hz) as [H|[p H]]; [left; exact H|right]. exists p. apply (via_mono (ks := ks)); [intros x Hx; apply in_app_iff; auto|exact H].
  Qed.
  Lemma round_W ks k s : In k nl -> IA ks (fst s) -> IW ks s -> IW (ks ++ [k]) (pround s k).
  Proof.
    intros Hk A I. apply (round_inv (P := fun s => IA (ks ++ [k]) (fst s) /\ IW (ks ++ [k]) s)).
    - intros i j s0 Hi Hj [H1 H2]. split; [apply step_A|apply step_W]; try assumption; apply in_app_iff; simpl; auto.
    - split.
      + intros i j z Hi Hj Hz. destruct (A i j z Hi Hj Hz) as [H|[p H]]; [left; exact H|right]. exists p. apply (via_mono (ks := ks)); [intros x Hx; apply in_app_iff; auto|exact H].
      + intros i j z Hi Hj Hz. destruct (I i j z Hi Hj Hz) as [H|(p & m & G1 & G2 & G3 & G4 & G5)]; [left; exact H|right]. exists p, m. repeat (split; [assumption|]).
        apply (via_mono (ks := ks)); [intros x Hx; apply in_app_iff; auto|exact G5].
  Qed.
  Lemma round_T k s : IT s -> IT (pround s k).
  Proof. intros I. apply (round_inv (P := IT)); [|exact I]. intros i j s0 Hi Hj H. apply step_T; assumption. Qed.

  (** ** the whole iteration *)
  Definition pfw (ks : list name) (s : st) : st := fold_left pround ks s.
  Lemma fold_ind (P : list name -> st -> Prop) s0 : P [] s0 -> (forall pre k post s, nl = pre ++ k :: post -> P pre s -> P (pre ++ [k]) (pround s k)) -> P nl (pfw nl s0).
  Proof.
    intros H0 H. assert (G : forall post pre s, nl = pre ++ post -> P pre s -> P nl (fold_left pround post s)).
    { induction post as [|k post IH]; intros pre s El Hp; simpl; [rewrite app_nil_r in El; subst; exact Hp|]. apply IH with (pre := pre ++ [k]); [rewrite <- app_assoc; exact El|]. apply (H pre k post s El Hp). }
    apply (G nl [] s0 eq_refl H0).
  Qed.
  Record init (s : st) : Prop := {
    init_dist : forall i j, In i nl -> In j nl -> (E i j /\ fst s i j = Some (c i j)) \/ (~ E i j /\ fst s i j = if eqb i j then Some 0%Z else None);
    init_next : forall i j, E i j -> i <> j -> snd s i j = Some i
  }.
  Definition pos_loops : Prop := forall i, E i i -> (0 <= c i i)%Z.
  Lemma init_A s : init s -> IA [] (fst s).
  Proof.
    intros I i j z Hi Hj Hz. destruct (init_dist I Hi Hj) as [[He H]|[He H]]; rewrite H in Hz.
    - injection Hz as <-. right. exists []. apply via_arc, He.
    - destruct (eqb_spec i j) as [->|]; [injection Hz as <-; auto|discriminate].
  Qed.
  Lemma init_W s : init s -> pos_loops -> IW [] s.
  Proof.
    intros I P i j z Hi Hj Hz. destruct (init_dist I Hi Hj) as [[He H]|[He H]]; rewrite H in Hz.
    - injection Hz as <-. destruct (eq_dec i j) as [->|Hne]; [left; split; [reflexivity|apply P, He]|]. right. exists [], i. split; [apply (init_next I He Hne)|].
      split; [exact He|]. split; [exact Hne|]. split; [reflexivity|apply via_arc, He].
    - destruct (eqb_spec i j) as [->|]; [injection Hz as <-; left; split; [reflexivity|lia]|discriminate].
  Qed.
  Lemma init_T s : init s -> IT s.
  Proof.
    intros I m j He Hne. pose proof (HE He) as [H1 H2]. destruct (init_dist I H1 H2) as [[_ H]|[H _]]; [|contradiction]. exists (c m j). split; [exact H|]. split; [lia|]. intros _. apply (init_next I He Hne).
  Qed.
  Lemma init_B s : init s -> IB [] (fst s).
  Proof.
    intros I i p j z Hv _. pose proof (via_nodes Hv) as [Hi Hj]. destruct Hv as (H1 & H2 & H3). destruct p as [|x p]; [|destruct (H2 x); simpl; auto].
    simpl in *. assert (He : E i j) by (inversion H1; subst; match goal with K : walk E _ [_] _ |- _ => inversion K; subst; assumption end).
    destruct (init_dist I Hi Hj) as [[_ H]|[H _]]; [|contradiction]. exists (c i j). split; [exact H|lia].
  Qed.
  Section Final.
    Variable s0 : st.
    Hypothesis I0 : init s0.
    Notation D := (fst (pfw nl s0)).
    Notation N := (snd (pfw nl s0)).
    Lemma fin_A : IA nl D.
    Proof. apply (fold_ind (P := fun ks s => IA ks (fst s))); [apply init_A, I0|]. intros pre k post s El H. apply round_A; [rewrite El; apply in_elt|exact H]. Qed.
    Lemma fin_B : IB nl D.
    Proof. apply (fold_ind (P := fun ks s => IB ks (fst s))); [apply init_B, I0|]. intros pre k post s El H. apply round_B; [rewrite El; apply in_elt|exact H]. Qed.
    Lemma fin_W : pos_loops -> IW nl (pfw nl s0).
    Proof.
      intros P. apply (fold_ind (P := fun ks s => IA ks (fst s) /\ IW ks s)); [split; [apply init_A, I0|apply init_W; [exact I0|exact P]]|]. intros pre k post s El [H1 H2].
      assert (In k nl) by (rewrite El; apply in_elt). split; [apply round_A|apply round_W]; assumption.
    Qed.
    Lemma fin_T : IT (pfw nl s0).
    Proof. apply (fold_ind (P := fun _ s => IT s)); [apply init_T, I0|]. intros pre k post s El H. apply round_T, H. Qed.
    Lemma fin_diag i : In i nl -> ~ E i i -> leo (D i i) 0.
    Proof.
      intros Hi He. apply (fold_ind (P := fun _ s => leo (fst s i i) 0)).
      - destruct (init_dist I0 Hi Hi) as [[H _]|[_ H]]; [contradiction|]. rewrite eqb_refl in H. exists 0%Z. split; [exact H|lia].
      - intros pre k post s El (z & H1 & H2). destruct (@round_mono k s _ _ _ H1) as (z' & H3 & H4). exists z'. split; [exact H3|lia].
    Qed.
    Lemma fin_diag' i : In i nl -> exists z, D i i = Some z.
    Proof.
      intros Hi. assert (exists z, leo (D i i) z) as (z & z' & H & _); [|eauto].
      destruct (init_dist I0 Hi Hi) as [[He _]|[He _]]; [|exists 0%Z; apply fin_diag; assumption].
      exists (c i i). apply (fin_B (p := [])); [apply via_arc, He|constructor].
    Qed.
    Lemma fin_neg : (exists i z, In i nl /\ D i i = Some z /\ (z < 0)%Z) <-> exists a p, walk E a p a /\ (wcost c p < 0)%Z.
    Proof.
      split.
      - intros (i & z & Hi & H & Hz). destruct (fin_A Hi Hi H) as [[_ ->]|[p (H1 & _ & H3)]]; [lia|]. exists i, (i :: p ++ [i]). split; [exact H1|lia].
      - intros (a & p & Hw & Hc). destruct (walk_via Hw) as [[_ ->]|(q & Hv & _)]; [simpl in Hc; lia|].
        assert (S : exists a q z, via nl a q a z /\ NoDup q /\ (z < 0)%Z).
        { destruct (shorten Hv) as [(q' & z' & H1 & H2 & H3)|H]; [|exact H]. exists a, q', z'. split; [exact H1|]. split; [exact H2|lia]. }
        destruct S as (b & q' & z & H1 & H2 & H3). destruct (fin_B H1 H2) as (z' & H4 & H5). exists b, z'. split; [apply (via_nodes H1)|]. split; [exact H4|lia].
    Qed.
    Lemma fin_reach i j : In i nl -> In j nl -> i <> j -> (exists z, D i j = Some z) <-> reach E i j.
    Proof.
      intros Hi Hj Hne. split.
      - intros [z H]. destruct (fin_A Hi Hj H) as [[? _]|[p (H1 & _)]]; [contradiction|]. eexists; exact H1.
      - intros [p Hp]. destruct (walk_via Hp) as [[? _]|(q & Hv & _)]; [contradiction|].
        destruct (simple_interior Hv) as (q' & z' & H1 & H2). destruct (fin_B H1 H2) as (z & H & _). eauto.
    Qed.
  End Final.

  (** ** without negative cycles *)
  Section NoNeg.
    Hypothesis NC : forall a p, walk E a p a -> (0 <= wcost c p)%Z.
    Lemma nc_via ks a p z : via ks a p a z -> (0 <= z)%Z.
    Proof. intros (H1 & _ & <-). apply (NC H1). Qed.
    Lemma exact_B ks D : IB ks D -> forall i p j z, via ks i p j z -> leo (D i j) z.
    Proof.
      intros B i p j z H. destruct (shorten H) as [(q & z' & H1 & H2 & H3)|(a & q & z' & H1 & H2 & H3)].
      - apply (leo_trans (B _ _ _ _ H1 H2) H3).
      - apply nc_via in H1. lia.
    Qed.
    Lemma diag_pos ks D i z : IA ks D -> In i nl -> D i i = Some z -> (0 <= z)%Z.
    Proof. intros A Hi H. destruct (A i i z Hi Hi H) as [[_ ->]|[p Hp]]; [lia|apply (nc_via Hp)]. Qed.
    Lemma nc_loops : pos_loops.
    Proof. intros i Hi. specialize (NC (a := i) (p := [i; i])). simpl in NC. rewrite Z.add_0_r in NC. apply NC. apply walk_step with (b := i); [exact Hi|constructor]. Qed.

    (* the arc that nextn records *)
    Lemma next_arc ks (s : st) i j z : IA ks (fst s) -> IB ks (fst s) -> IW ks s -> In i nl -> In j nl -> i <> j -> fst s i j = Some z ->
      exists m, snd s i j = Some m /\ E m j /\ m <> j /\ ((m = i /\ z = c i j) \/ (m <> i /\ In m ks /\ exists z', fst s i m = Some z' /\ (z = z' + c m j)%Z)).
    Proof.
      intros A B W Hi Hj Hne Hz. destruct (W i j z Hi Hj Hz) as [[? _]|(p & m & G1 & G2 & G3 & G4 & G5)]; [contradiction|].
      exists m. split; [exact G1|]. split; [exact G2|]. split; [exact G3|].
      destruct (list_eq_dec eq_dec p []) as [->|Hp].
      { left. simpl in G4. subst m. destruct G5 as (_ & _ & G5). simpl in G5. split; [reflexivity|lia]. }
      destruct (exists_last Hp) as (p' & m' & ->). rewrite last_last in G4. subst m'.
      destruct (via_split G5) as (a & b & V1 & V2 & -> & Hm). destruct V2 as (_ & _ & V2). simpl in V2.
      assert (Hb : b = c m j) by lia. subst b. destruct (eq_dec m i) as [->|Hmi].
      - left. split; [reflexivity|]. pose proof (nc_via V1). destruct (exact_B B (via_arc ks G2)) as (z' & H1 & H2). rewrite Hz in H1. injection H1 as <-. lia.
      - right. split; [exact Hmi|]. split; [exact Hm|]. destruct (exact_B B V1) as (z' & H1 & H2). exists z'. split; [exact H1|].
        destruct (HE G2) as [Hmn _]. destruct (A i m z' Hi Hmn H1) as [[? _]|[q Hq]]; [congruence|]. destruct (exact_B B (via_snoc Hq G2 Hm)) as (z2 & H3 & H4). rewrite Hz in H3. injection H3 as <-. lia.
    Qed.

    (* in a round, row k and column k do not change *)
    Lemma not_better_col D k i : (forall z, D k k = Some z -> 0 <= z)%Z -> better D k i k = false.
    Proof. intros H. unfold better. destruct (D i k) as [a|]; [|reflexivity]. destruct (D k k) as [b|]; [|reflexivity]. specialize (H b eq_refl). lia. Qed.
    Lemma not_better_row D k j : (forall z, D k k = Some z -> 0 <= z)%Z -> better D k k j = false.
    Proof. intros H. unfold better. destruct (D k k) as [a|]; [|reflexivity]. destruct (D k j) as [b|]; [|reflexivity]. specialize (H a eq_refl). lia. Qed.
    Definition newD (D : fst2) k i j := if better D k i j then through D k i j else D i j.
    Definition newN (s : st) k i j := if better (fst s) k i j then snd s k j else snd s i j.
    Definition agrees (k : name) (s0 s : st) (done : name -> name -> Prop) : Prop :=
      forall i j, (done i j -> fst s i j = newD (fst s0) k i j /\ snd s i j = newN s0 k i j) /\ (~ done i j -> fst s i j = fst s0 i j /\ snd s i j = snd s0 i j).
    Lemma agrees_row k (s0 s : st) (done : name -> name -> Prop) i j : (forall z, fst s0 k k = Some z -> 0 <= z)%Z -> (done i j \/ ~ done i j) -> i = k \/ j = k -> agrees k s0 s done ->
      fst s i j = fst s0 i j /\ snd s i j = snd s0 i j.
    Proof.
      intros Hk Hd Hij A. destruct (A i j) as [A1 A2]. destruct Hd as [Hd|Hd]; [|apply A2, Hd]. destruct (A1 Hd) as [B1 B2]. rewrite B1, B2. unfold newD, newN.
      destruct Hij as [->| ->]; [rewrite (not_better_row _ Hk)|rewrite (not_better_col _ Hk)]; auto.
    Qed.
    Lemma round_spec k (s : st) : In k nl -> (forall z, fst s k k = Some z -> 0 <= z)%Z -> agrees k s (pround s k) (fun i j => In i nl /\ In j nl).
    Proof.
      intros Hk Hkk.
      assert (Row : forall s1 i done, agrees k s s1 done -> (forall x y, done x y \/ ~ done x y) -> (forall j, In j nl -> ~ done i j) -> 
        agrees k s (prow k s1 i) (fun x y => done x y \/ x = i /\ In y nl)).
      { intros s1 i done A Dd Hi. unfold prow.
        assert (G : forall post pre s2, nl = pre ++ post -> agrees k s s2 (fun x y => done x y \/ x = i /\ In y pre) -> agrees k s (fold_left (pstep k i) post s2) (fun x y => done x y \/ x = i /\ In y nl)).
        { induction post as [|j post IH]; intros pre s2 El A2; simpl; [rewrite app_nil_r in El; rewrite El; exact A2|].
          apply (IH (pre ++ [j])); [rewrite <- app_assoc; exact El|]. clear IH.
          assert (Dd2 : forall x y, (done x y \/ x = i /\ In y pre) \/ ~ (done x y \/ x = i /\ In y pre)).
          { intros x y. destruct (Dd x y) as [?|H]; [auto|]. destruct (eq_dec x i) as [->|]; [|right; tauto]. destruct (mem_spec y pre); [left; auto|right; tauto]. }
          destruct (agrees_row Hkk (Dd2 i k) (or_intror eq_refl) A2) as [R1 R2]. destruct (agrees_row Hkk (Dd2 k j) (or_introl eq_refl) A2) as [R3 R4].
          assert (Hj : In j nl) by (rewrite El; apply in_elt).
          assert (Hnj : ~ In j pre) by (pose proof Hnl as Hn; rewrite El in Hn; apply NoDup_remove_2 in Hn; rewrite in_app_iff in Hn; tauto).
          assert (Hnd : ~ (done i j \/ i = i /\ In j pre)) by (intros [H|[_ H]]; [apply (Hi j Hj H)|contradiction]).
          destruct (A2 i j) as [_ R5]. destruct (R5 Hnd) as [R6 R7].
          assert (Bt : better (fst s2) k i j = better (fst s) k i j) by (unfold better; rewrite R1, R3, R6; reflexivity).
          assert (Th : through (fst s2) k i j = through (fst s) k i j) by (unfold through; rewrite R1, R3; reflexivity).
          intros x y. unfold pstep. rewrite Bt, Th. destruct (eq_dec (x, y) (i, j)) as [[= -> ->]|Hne].
          - split; [intros _|intros H; exfalso; apply H; right; split; [reflexivity|apply in_app_iff; simpl; auto]]. unfold newD, newN. destruct (better (fst s) k i j); cbn [fst snd].
            + rewrite !upd_eq. split; [reflexivity|exact R4].
            + auto.
          - assert (Eq : fst (if better (fst s) k i j then (upd (fst s2) i j (through (fst s) k i j), upd (snd s2) i j (snd s2 k j)) else s2) x y = fst s2 x y /\
                         snd (if better (fst s) k i j then (upd (fst s2) i j (through (fst s) k i j), upd (snd s2) i j (snd s2 k j)) else s2) x y = snd s2 x y).
            { destruct (better (fst s) k i j); cbn [fst snd]; [rewrite !upd_ne by exact Hne|]; auto. }
            destruct Eq as [-> ->]. destruct (A2 x y) as [B1 B2]. split; intros H; [apply B1|apply B2].
            + destruct H as [H|[-> H]]; [auto|]. apply in_app_iff in H as [H|[<-|[]]]; [auto|congruence].
            + intros H'. apply H. destruct H' as [?|[-> ?]]; [auto|]. right. split; [reflexivity|apply in_app_iff; auto]. }
        apply (G nl [] s1 eq_refl). intros x y. destruct (A x y) as [B1 B2]. split; intros H; [apply B1|apply B2]; simpl in *; tauto. }
      unfold pround.
      assert (G : forall post pre s2, nl = pre ++ post -> agrees k s s2 (fun x y => In x pre /\ In y nl) -> agrees k s (fold_left (prow k) post s2) (fun x y => In x nl /\ In y nl)).
      { induction post as [|i post IH]; intros pre s2 El A2; simpl; [rewrite app_nil_r in El; subst pre; exact A2|].
        apply (IH (pre ++ [i])); [rewrite <- app_assoc; exact El|].
        assert (Hni : ~ In i pre) by (pose proof Hnl as Hn; rewrite El in Hn; apply NoDup_remove_2 in Hn; rewrite in_app_iff in Hn; tauto).
        assert (R := Row s2 i _ A2). intros x y. destruct (R (fun x y => ltac:(destruct (mem_spec x pre), (mem_spec y nl); tauto)) ltac:(intros; tauto) x y) as [B1 B2].
        split; intros H; [apply B1|apply B2]; rewrite in_app_iff in H; simpl in H.
        - destruct H as [[H|[<-|[]]] H']; auto.
        - intros [[K1 K2]|[-> K2]]; apply H; auto. }
      apply (G nl [] s eq_refl). intros x y. split; intros H; [simpl in H; tauto|auto].
    Qed.

    (** the chains of nextn *)
    Inductive chain (N : nx2) (i : name) : name -> list name -> Prop :=
    | ch0 j : N i j = Some i -> chain N i j []
    | ch1 j m p : N i j = Some m -> m <> i -> chain N i m p -> chain N i j (p ++ [m]).
    Definition IC (s : st) : Prop := forall i j z, In i nl -> In j nl -> i <> j -> fst s i j = Some z -> exists p, chain (snd s) i j p.
    Lemma round_C ks k (s : st) : In k nl -> incl ks nl -> IA ks (fst s) -> IB ks (fst s) -> IW ks s -> IC s -> IC (pround s k).
    Proof.
      intros Hk Hks A B W C. set (s' := pround s k).
      assert (Hkk : (forall z, fst s k k = Some z -> 0 <= z)%Z) by (intros z Hz; apply (diag_pos A Hk Hz)).
      pose proof (round_spec Hk Hkk) as R. fold s' in R.
      assert (RD : forall i j, In i nl -> In j nl -> fst s' i j = newD (fst s) k i j) by (intros i j Hi Hj; apply (R i j); auto).
      assert (RN : forall i j, In i nl -> In j nl -> snd s' i j = newN s k i j) by (intros i j Hi Hj; apply (R i j); auto).
      (* not improved: the old chain *)
      assert (Old : forall i j p, chain (snd s) i j p -> In i nl -> In j nl -> i <> j -> forall z, fst s i j = Some z -> better (fst s) k i j = false -> chain (snd s') i j p).
      { intros i j p Hc Hi. induction Hc as [j H|j m p H Hmi Hc IH]; intros Hj Hne z Hz Hb.
        - constructor. rewrite RN by assumption. unfold newN. rewrite Hb. exact H.
        - destruct (next_arc A B W Hi Hj Hne Hz) as (m' & N1 & N2 & N3 & N4). rewrite H in N1. injection N1 as <-.
          destruct N4 as [[? _]|(_ & Hm & z' & Hz' & ->)]; [contradiction|].
          econstructor; [rewrite RN by assumption; unfold newN; rewrite Hb; exact H|exact Hmi|]. apply (IH (Hks _ Hm) ltac:(congruence) z' Hz').
          destruct (better (fst s) k i m) eqn:Bm; [|reflexivity]. exfalso. apply better_inv in Bm as (a & b & H1 & H2 & H3 & _). specialize (H3 _ Hz').
          assert (Hkj : leo (fst s k j) (b + c m j)).
          { destruct (A k m b Hk (Hks _ Hm) H2) as [[-> ->]|[q Hq]].
            - rewrite Z.add_0_l. apply (exact_B B (via_arc ks N2)).
            - apply (exact_B B (via_snoc Hq N2 Hm)). }
          destruct Hkj as (y & Hy1 & Hy2). unfold better in Hb. rewrite H1, Hy1, Hz in Hb. lia. }
      intros i j z Hi Hj Hne Hz. rewrite RD in Hz by assumption. unfold newD in Hz. destruct (better (fst s) k i j) eqn:Bt.
      2:{ destruct (C i j z Hi Hj Hne Hz) as [p Hp]. exists p. apply (Old i j p Hp Hi Hj Hne z Hz Bt). }
      assert (Hki : k <> i) by (intros ->; rewrite (not_better_row _ Hkk) in Bt; discriminate).
      assert (Hkj : k <> j) by (intros ->; rewrite (not_better_col _ Hkk) in Bt; discriminate).
      assert (Hkc : exists p, chain (snd s) k j p) by (apply better_inv in Bt as (a & b & _ & H2 & _); apply (C k j b Hk Hj Hkj H2)).
      destruct Hkc as [q Hq]. clear z Hz. revert Hj Hne Bt Hkj. induction Hq as [j H|j m q H Hmk Hq IH]; intros Hj Hne Bt Hkj.
      - (* the arc k -> j *)
        pose proof Bt as Bt'. apply better_inv in Bt' as (a & b & H1 & H2 & H3 & _). destruct (C i k a Hi Hk ltac:(congruence) H1) as [p Hp].
        exists (p ++ [k]). constructor; [rewrite RN by assumption; unfold newN; rewrite Bt; exact H|exact Hki|]. apply (Old i k p Hp Hi Hk ltac:(congruence) a H1). apply not_better_col, Hkk.
      - pose proof Bt as Bt'. apply better_inv in Bt' as (a & b & H1 & H2 & H3 & _).
        destruct (next_arc A B W Hk Hj Hkj H2) as (m' & N1 & N2 & N3 & N4). rewrite H in N1. injection N1 as <-. destruct N4 as [[? _]|(_ & Hm & z' & Hz' & ->)]; [contradiction|].
        assert (Hmi : m <> i).
        { intros ->. destruct (exact_B B (via_arc ks N2)) as (y & Y1 & Y2). specialize (H3 _ Y1).
          destruct (A i k a Hi Hk H1) as [[? _]|[p1 P1]]; [congruence|]. destruct (A k i z' Hk Hi Hz') as [[? _]|[p2 P2]]; [congruence|].
          assert (V : via nl i (p1 ++ k :: p2) i (a + z')%Z) by (apply via_app; [apply (via_mono Hks P1)|apply (via_mono Hks P2)|exact Hk]). apply nc_via in V. lia. }
        assert (Hmn : In m nl) by (apply Hks, Hm).
        assert (Cm : exists p, chain (snd s') i m p).
        { destruct (better (fst s) k i m) eqn:Bm.
          - apply IH; auto.
          - unfold better in Bm. rewrite H1, Hz' in Bm. destruct (fst s i m) as [y|] eqn:Y; [|discriminate]. destruct (C i m y Hi Hmn ltac:(congruence) Y) as [p Hp]. exists p. apply (Old i m p Hp Hi Hmn ltac:(congruence) y Y).
            unfold better. rewrite H1, Hz', Y. exact Bm. }
        destruct Cm as [p Hp]. exists (p ++ [m]). econstructor; [rewrite RN by assumption; unfold newN; rewrite Bt; exact H|exact Hmi|exact Hp].
    Qed.
    Section Final2.
      Variable s0 : st.
      Hypothesis I0 : init s0.
      Notation D := (fst (pfw nl s0)).
      Notation N := (snd (pfw nl s0)).
      Lemma fin_exact i p j z : via nl i p j z -> leo (D i j) z.
      Proof. apply (exact_B (fin_B I0)). Qed.
      Lemma fin_least i j z : In i nl -> In j nl -> i <> j -> D i j = Some z -> least_cost E c i j z.
      Proof.
        intros Hi Hj Hne Hz. split.
        - destruct (fin_A I0 Hi Hj Hz) as [[? _]|[p (H1 & _ & H3)]]; [contradiction|]. exists (i :: p ++ [j]). auto.
        - intros p Hp. destruct (walk_via Hp) as [[? _]|(q & Hv & _)]; [contradiction|]. destruct (fin_exact Hv) as (z' & H1 & H2). rewrite Hz in H1. injection H1 as <-. exact H2.
      Qed.
      Lemma fin_self i : In i nl -> ~ E i i -> snd s0 i i = None -> snd (pfw nl s0) i i = None.
      Proof.
        intros Hi He Hn. apply (fold_ind (P := fun _ s => IA nl (fst s) /\ fst s i i = Some 0%Z /\ snd s i i = None)).
        - split; [intros x y z Hx Hy Hz; destruct (init_A I0 Hx Hy Hz) as [?|[p Hp]]; [auto|]; right; exists p; apply (via_mono (ks := [])); [intros w []|exact Hp]|]. split; [|exact Hn].
          destruct (init_dist I0 Hi Hi) as [[H _]|[_ H]]; [contradiction|]. rewrite eqb_refl in H. exact H.
        - intros pre k post s El H. assert (Hk : In k nl) by (rewrite El; apply in_elt). apply round_inv; [|exact H]. intros x y s' Hx Hy (A & H1 & H2). split; [apply step_A; assumption|].
          unfold pstep. destruct (better (fst s') k x y) eqn:Bt; [|auto]. cbn [fst snd].
          destruct (eq_dec (i, i) (x, y)) as [[= <- <-]|Hne]; [|rewrite !upd_ne by exact Hne; auto]. exfalso.
          apply better_inv in Bt as (a & b & B1 & B2 & B3 & _). specialize (B3 _ H1). destruct (A i k a Hi Hk B1) as [[Ei ->]|[p Hp]]; destruct (A k i b Hk Hi B2) as [[Ek ->]|[q Hq]]; try lia.
          + subst k. apply nc_via in Hq. lia.
          + subst k. apply nc_via in Hp. lia.
          + pose proof (nc_via (via_app Hp Hq Hk)). lia.
      Qed.
      Lemma fin_C : IC (pfw nl s0).
      Proof.
        apply (fold_ind (P := fun ks s => incl ks nl /\ IA ks (fst s) /\ IB ks (fst s) /\ IW ks s /\ IC s)).
        - split; [intros x []|]. split; [apply init_A, I0|]. split; [apply init_B, I0|]. split; [apply init_W; [exact I0|exact nc_loops]|].
          intros i j z Hi Hj Hne Hz. exists []. constructor. destruct (init_dist I0 Hi Hj) as [[He _]|[_ H]]; [apply (init_next I0 He Hne)|].
          rewrite H in Hz. destruct (eqb_spec i j); [contradiction|discriminate].
        - intros pre k post s El (H1 & H2 & H3 & H4 & H5). assert (Hk : In k nl) by (rewrite El; apply in_elt). split; [intros x Hx; apply in_app_iff in Hx as [Hx|[<-|[]]]; auto|].
          split; [apply round_A; assumption|]. split; [apply round_B; assumption|]. split; [apply round_W; assumption|]. apply (round_C Hk H1 H2 H3 H4 H5).
      Qed.
      Lemma chain_cost i j p : chain N i j p -> In i nl -> In j nl -> i <> j -> forall z, D i j = Some z ->
        via nl i p j z /\ forall p1 m p2, p ++ [j] = p1 ++ m :: p2 -> exists k, hd_error (rev (i :: p1)) = Some k /\ N k m = Some k.
      Proof.
        intros Hc Hi. induction Hc as [j H|j m p H Hmi Hc IH]; intros Hj Hne z Hz;
          destruct (next_arc (fin_A I0) (fin_B I0) (fin_W I0 nc_loops) Hi Hj Hne Hz) as (m' & N1 & N2 & N3 & N4); rewrite H in N1; injection N1 as <-.
        - destruct N4 as [[_ ->]|[? _]]; [|congruence]. split; [apply via_arc, N2|]. intros p1 m p2 Ep. destruct p1 as [|x p1]; [|destruct p1; discriminate]. injection Ep as <- <-. exists i. auto.
        - destruct N4 as [[? _]|(_ & Hm & z' & Hz' & ->)]; [congruence|]. destruct (IH Hm ltac:(congruence) z' Hz') as [V1 V2]. split; [apply (via_snoc V1 N2 Hm)|].
          intros p1 x p2 Ep. destruct (list_eq_dec eq_dec p2 []) as [->|Hp2].
          + apply app_inj_tail in Ep as [<- <-]. exists m. split; [rewrite app_comm_cons, rev_app_distr; reflexivity|].
            destruct (fin_T I0 N2 N3) as (y & Y1 & Y2 & Y3). apply Y3. destruct (fin_A I0 Hm Hj Y1) as [[? _]|[q Hq]]; [contradiction|].
            destruct (fin_exact (via_app V1 Hq Hm)) as (w & W1 & W2). rewrite Hz in W1. injection W1 as <-. lia.
          + destruct (exists_last Hp2) as (p3 & y & ->). rewrite app_comm_cons, app_assoc in Ep. apply app_inj_tail in Ep as [Ep _]. apply (V2 p1 x p3 Ep).
      Qed.
      Lemma chain_det i j p : chain N i j p -> forall q, chain N i j q -> p = q.
      Proof.
        induction 1 as [j H|j m p H Hmi Hc IH]; intros q Hq; inversion Hq; subst; try congruence.
        match goal with K : N i j = Some ?m' |- _ => rewrite H in K; injection K as <- end. f_equal. apply IH. assumption.
      Qed.
      Lemma chain_prefix i j p : chain N i j p -> forall x, In x p -> exists q, chain N i x q /\ length q < length p.
      Proof.
        induction 1 as [j H|j m p H Hmi Hc IH]; intros x Hx; [destruct Hx|]. apply in_app_iff in Hx as [Hx|[<-|[]]].
        - destruct (IH x Hx) as (q & Hq & Hl). exists q. split; [exact Hq|]. rewrite app_length. simpl. lia.
        - exists p. split; [exact Hc|]. rewrite app_length. simpl. lia.
      Qed.
      Lemma chain_NoDup i j p : chain N i j p -> i <> j -> NoDup (i :: p ++ [j]).
      Proof.
        intros Hc. assert (Hp : NoDup p /\ ~ In i p).
        { induction Hc as [j H|j m p H Hmi Hc IH]; [split; [constructor|intros []]|]. destruct IH as [IH1 IH2]. split.
          - apply NoDup_snoc. split; [exact IH1|]. intros Hm. destruct (chain_prefix Hc Hm) as (q & Hq & Hl). rewrite (chain_det Hc Hq) in Hl. lia.
          - rewrite in_app_iff. simpl. intros [?|[?|[]]]; congruence. }
        intros Hne. destruct Hp as [Hp1 Hp2]. constructor; [rewrite in_app_iff; simpl; intros [?|[?|[]]]; congruence|].
        apply NoDup_snoc. split; [exact Hp1|]. intros Hj. destruct (chain_prefix Hc Hj) as (q & Hq & Hl). rewrite (chain_det Hc Hq) in Hl. lia.
      Qed.
    End Final2.
  End NoNeg.
End FW.
