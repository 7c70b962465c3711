(* Forests and spanning trees given by a list of arcs, without graphs: connection along arcs in either direction,
   forests as sets of arcs each of which is a bridge. *)
From Verif Require Import Py Util Spec P_Walk S_Flow S_MinCost P_Flow P_MinCostAbs M_MinCost P_Residual.
Set Implicit Arguments. Unset Strict Implicit.
Local Open Scope list_scope.

Definition adj (es : arcs) (x y : name) : Prop := In (x, y) es \/ In (y, x) es.
Definition conn (es : arcs) : name -> name -> Prop := reach (adj es).
Definition without (e : name * name) (es : arcs) : arcs := filter (fun e' => negb (eqb e' e)) es.
Definition forest (es : arcs) : Prop := forall x y, In (x, y) es -> ~ conn (without (x, y) es) x y.
Definition spans (V : list name) (es : arcs) : Prop := forall x y, In x V -> In y V -> conn es x y.

Lemma adj_sym es x y : adj es x y -> adj es y x.
Proof. intros [H|H]; [right|left]; exact H. Qed.
Lemma adj_incl es es' x y : incl es es' -> adj es x y -> adj es' x y.
Proof. intros Hi [H|H]; [left|right]; apply Hi, H. Qed.
Lemma in_without e e' es : In e' (without e es) <-> In e' es /\ e' <> e.
Proof. unfold without. rewrite filter_In, negb_true_iff, eqb_false. reflexivity. Qed.
Lemma conn_refl es x : conn es x x.
Proof. apply reach_refl. Qed.
Lemma conn_sym es x y : conn es x y -> conn es y x.
Proof. apply reach_sym. intros; apply adj_sym; assumption. Qed.
Lemma conn_trans es x y z : conn es x y -> conn es y z -> conn es x z.
Proof. apply reach_trans. Qed.
Lemma conn_adj es x y : adj es x y -> conn es x y.
Proof. intros H. apply (reach_pre H), reach_refl. Qed.
Lemma conn_incl es es' x y : incl es es' -> conn es x y -> conn es' x y.
Proof. intros Hi. apply reach_mono. intros; eapply adj_incl; eassumption. Qed.
Lemma without_incl e es : incl (without e es) es.
Proof. intros x H. apply in_without in H. apply H. Qed.
Lemma without_mono e es es' : incl es es' -> incl (without e es) (without e es').
Proof. intros Hi x H. apply in_without in H as [H1 H2]. apply in_without. auto. Qed.

(* what one more arc connects *)
Lemma conn_with es es' u v x y : (forall e, In e es' -> In e es \/ e = (u, v)) ->
  conn es' x y -> conn es x y \/ (conn es x u /\ conn es v y) \/ (conn es x v /\ conn es u y).
Proof.
  intros Hi. apply (reach_closed (P := fun y => conn es x y \/ (conn es x u /\ conn es v y) \/ (conn es x v /\ conn es u y))); [left; apply conn_refl|].
  assert (K : forall a b, adj es a b -> conn es x a \/ (conn es x u /\ conn es v a) \/ (conn es x v /\ conn es u a) -> conn es x b \/ (conn es x u /\ conn es v b) \/ (conn es x v /\ conn es u b)).
  { intros a b A [H|[[H H']|[H H']]]; apply conn_adj in A; [left|right; left; split; [exact H|]|right; right; split; [exact H|]]; eapply conn_trans; eassumption. }
  intros a b Ha [He|He]; pose proof He as He'; apply Hi in He' as [He'|[= -> ->]].
  - apply (K a b); [left; exact He'|exact Ha].
  - destruct Ha as [H|[[H H']|[H H']]]; [right; left; split; [exact H|apply conn_refl]|right; left; split; [exact H|apply conn_refl]|left; exact H].
  - apply (K a b); [right; exact He'|exact Ha].
  - destruct Ha as [H|[[H H']|[H H']]]; [right; right; split; [exact H|apply conn_refl]|left; exact H|right; right; split; [exact H|apply conn_refl]].
Qed.

Lemma forest_incl es es' : incl es' es -> forest es -> forest es'.
Proof. intros Hi F x y H C. apply (F x y (Hi _ H)). revert C. apply conn_incl, without_mono, Hi. Qed.
Lemma forest_nil : forest [].
Proof. intros x y []. Qed.
(* an arc between two components *)
Lemma forest_add es es' u v : (forall e, In e es' <-> In e es \/ e = (u, v)) -> forest es -> ~ conn es u v -> forest es'.
Proof.
  intros Hi F N x y He C. destruct (eq_dec (x, y) (u, v)) as [[= -> ->]|Hne].
  - apply N. revert C. apply conn_incl. intros e H. apply in_without in H as [H1 H2]. apply Hi in H1 as [H1|H1]; [exact H1|contradiction].
  - apply Hi in He as [He|]; [|contradiction].
    assert (Hi' : forall e, In e (without (x, y) es') -> In e (without (x, y) es) \/ e = (u, v)).
    { intros e H. apply in_without in H as [H1 H2]. apply Hi in H1 as [H1| ->]; [left; apply in_without; auto|right; reflexivity]. }
    assert (A : conn es x y) by (apply conn_adj; left; exact He).
    assert (Up : forall a b, conn (without (x, y) es) a b -> conn es a b) by (intros a b; apply conn_incl, without_incl).
    destruct (conn_with Hi' C) as [H|[[H1 H2]|[H1 H2]]]; [exact (F x y He H)| |].
    + apply Up in H1, H2. apply N. apply conn_trans with x; [apply conn_sym, H1|]. apply conn_trans with y; [exact A|apply conn_sym, H2].
    + apply Up in H1, H2. apply N. apply conn_trans with y; [exact H2|]. apply conn_trans with x; [apply conn_sym, A|exact H1].
Qed.
(* a path that avoids an end of an arc does not use the arc *)
Lemma walk_avoid es e z a p b : (z = fst e \/ z = snd e) -> ~ In z p -> walk (adj es) a p b -> walk (adj (without e es)) a p b.
Proof.
  intros Hz Hn H. induction H as [a|a x p c He Hw IH]; [constructor|]. econstructor; [|apply IH; intros K; apply Hn; right; exact K].
  assert (Hxa : z <> a) by (intros ->; apply Hn; left; reflexivity).
  assert (Hxx : z <> x) by (destruct (walk_hd Hw) as [t ->]; intros ->; apply Hn; right; left; reflexivity).
  destruct He as [He|He]; [left|right]; apply in_without; (split; [exact He|]); intros <-; simpl in Hz; destruct Hz; congruence.
Qed.
Lemma path_split es u v l a b P1 P2 k : NoDup (P1 ++ a :: b :: P2) -> walk (adj es) l (P1 ++ a :: b :: P2) k -> (u = a /\ v = b) \/ (u = b /\ v = a) ->
  conn (without (u, v) es) l a /\ conn (without (u, v) es) b k.
Proof.
  intros Hn Hw Huv. assert (Ha : ~ In a (b :: P2)) by (apply NoDup_remove_2 in Hn; intros H; apply Hn, in_app_iff; right; exact H).
  assert (Hb : ~ In b (P1 ++ [a])).
  { replace (P1 ++ a :: b :: P2) with ((P1 ++ [a]) ++ b :: P2) in Hn by (rewrite <- app_assoc; reflexivity). apply NoDup_remove_2 in Hn. intros H. apply Hn, in_app_iff. left. exact H. }
  split.
  - exists (P1 ++ [a]). apply (walk_avoid (z := b)); [simpl; destruct Huv as [[-> ->]|[-> ->]]; auto|exact Hb|]. apply (walk_prefix Hw).
  - exists (b :: P2). apply (walk_avoid (z := a)); [simpl; destruct Huv as [[-> ->]|[-> ->]]; auto|exact Ha|].
    replace (P1 ++ a :: b :: P2) with ((P1 ++ [a]) ++ b :: P2) in Hw by (rewrite <- app_assoc; reflexivity). apply (walk_suffix Hw).
Qed.
(* replacing an arc of the cycle that a new arc closes *)
Section Swap.
  Variables (V : list name) (es : arcs) (k l u v : name) (P : list name).
  Hypothesis F : forest es.
  Hypothesis Sp : spans V es.
  Hypothesis Hkl : ~ In (k, l) es.
  Hypothesis Hw : walk (adj es) l P k.
  Hypothesis Hn : NoDup P.
  Hypothesis Huv : In (u, v) es.
  Hypothesis HP : exists P1 P2 a b, P = P1 ++ a :: b :: P2 /\ ((u = a /\ v = b) \/ (u = b /\ v = a)).
  Variable es' : arcs.
  Hypothesis E : forall e, In e es' <-> (In e es \/ e = (k, l)) /\ e <> (u, v).
  Lemma swap_in e : In e es' <-> In e (without (u, v) es) \/ e = (k, l).
  Proof. rewrite E, in_without. split; [tauto|]. intros [H| ->]; [tauto|]. split; [tauto|]. intros K. rewrite K in Hkl. contradiction. Qed.
  Lemma swap_parts : (conn (without (u, v) es) l u /\ conn (without (u, v) es) v k) \/ (conn (without (u, v) es) l v /\ conn (without (u, v) es) u k).
  Proof.
    destruct HP as (P1 & P2 & a & b & -> & H). destruct (path_split Hn Hw H) as [H1 H2]. destruct H as [[-> ->]|[-> ->]]; auto.
  Qed.
  Lemma forest_swap : forest es'.
  Proof.
    apply (forest_add (es := without (u, v) es) (u := k) (v := l)); [apply swap_in|apply (forest_incl (@without_incl _ _) F)|].
    intros C. apply (F Huv). destruct swap_parts as [[H1 H2]|[H1 H2]].
    - apply conn_trans with l; [apply conn_sym, H1|]. apply conn_trans with k; [apply conn_sym, C|apply conn_sym, H2].
    - apply conn_trans with k; [exact H2|]. apply conn_trans with l; [exact C|exact H1].
  Qed.
  Lemma spans_swap : spans V es'.
  Proof.
    assert (Kl : conn es' k l) by (apply conn_adj; left; apply swap_in; right; reflexivity).
    assert (Up : forall a b, conn (without (u, v) es) a b -> conn es' a b) by (intros a b; apply conn_incl; intros e H; apply swap_in; left; exact H).
    assert (UV : conn es' u v).
    { destruct swap_parts as [[H1 H2]|[H1 H2]]; apply Up in H1, H2.
      - apply conn_trans with l; [apply conn_sym, H1|]. apply conn_trans with k; [apply conn_sym, Kl|apply conn_sym, H2].
      - apply conn_trans with k; [exact H2|]. apply conn_trans with l; [exact Kl|exact H1]. }
    intros x y Hx Hy. specialize (Sp Hx Hy). revert Sp. apply (reach_closed (P := fun y => conn es' x y)); [apply conn_refl|].
    intros a b Ha Hab. apply (conn_trans Ha). destruct Hab as [Hab|Hab].
    - destruct (eq_dec (a, b) (u, v)) as [[= -> ->]|Hne]; [exact UV|]. apply Up, conn_adj. left. apply in_without. auto.
    - destruct (eq_dec (b, a) (u, v)) as [[= -> ->]|Hne]; [apply conn_sym, UV|]. apply Up, conn_adj. right. apply in_without. auto.
  Qed.
End Swap.

(* if every arc joins a node to its parent the arcs form a forest *)
Inductive above (P : name -> option name) (y : name) : name -> Prop :=
  | above_refl : above P y y
  | above_step z w : P z = Some w -> above P y w -> above P y z.
Lemma above_depth (P : name -> option name) (D : name -> Z) y z : (forall x p, P x = Some p -> D x = (D p + 1)%Z) -> above P y z -> (D y <= D z)%Z.
Proof. intros HD. induction 1 as [|z w Hz Ha IH]; [lia|]. rewrite (HD _ _ Hz). lia. Qed.
Lemma parent_forest es (P : name -> option name) (D : name -> Z) : asymmetric es -> (forall x p, P x = Some p -> D x = (D p + 1)%Z) ->
  (forall x y, In (x, y) es -> P x = Some y \/ P y = Some x) -> forest es.
Proof.
  intros As HD HP.
  assert (G : forall x y e, In e es -> (e = (x, y) \/ e = (y, x)) -> P y = Some x -> ~ conn (without e es) y x).
  { intros x y e He Hxy Hy C. assert (A : above P y x).
    { revert C. apply (reach_closed (P := above P y)); [constructor|]. intros z w Hz Hzw.
      assert (Hzw' : P z = Some w \/ P w = Some z) by (destruct Hzw as [H|H]; apply in_without in H as [H _]; apply HP in H; tauto).
      destruct Hzw' as [Hzp|Hwp]; [|exact (above_step Hwp Hz)]. inversion Hz as [|z' w' Hz' Ha]; subst.
      - exfalso. rewrite Hy in Hzp. injection Hzp as <-. destruct Hzw as [H|H]; apply in_without in H as [H1 H2]; destruct Hxy as [-> | ->]; try congruence; exact (As _ _ He H1).
      - rewrite Hzp in Hz'. injection Hz' as <-. exact Ha. }
    pose proof (above_depth HD A). rewrite (HD _ _ Hy) in *. lia. }
  intros x y He C. destruct (HP x y He) as [H|H].
  - apply (G y x (x, y) He); auto.
  - apply (G x y (x, y) He); auto. apply conn_sym, C.
Qed.
(* in a forest in which each node but the root has a neighbour as parent every arc joins a node to its parent *)
Lemma forest_parent es (S : name -> Prop) (P : name -> option name) r x y : forest es -> (forall z, S z -> above P r z) ->
  (forall z p, S z -> P z = Some p -> adj es z p /\ S p) -> S x -> S y -> In (x, y) es -> P x = Some y \/ P y = Some x.
Proof.
  intros F Hr HP Hx Hy He. destruct (eq_dec (P x) (Some y)) as [|N1]; [auto|]. destruct (eq_dec (P y) (Some x)) as [|N2]; [auto|]. exfalso.
  assert (G : forall z, above P r z -> S z -> conn (without (x, y) es) z r).
  { induction 1 as [|z w Hz Ha IH]; intros Sz; [apply conn_refl|]. destruct (HP z w Sz Hz) as [A Sw]. apply conn_trans with w; [|apply IH, Sw]. apply conn_adj.
    destruct A as [A|A]; [left|right]; apply in_without; (split; [exact A|]); congruence. }
  apply (F x y He). apply conn_trans with r; [apply G; auto|apply conn_sym, G; auto].
Qed.

(** ** successive pairs *)
Lemma in_consecutive l a b : In (a, b) (consecutive l) <-> exists P1 P2, l = P1 ++ a :: b :: P2.
Proof.
  induction l as [|x [|y t] IH].
  - split; [intros []|]. intros (P1 & P2 & H). destruct P1; discriminate.
  - split; [intros []|]. intros (P1 & P2 & H). destruct P1 as [|? [|]]; discriminate.
  - change (consecutive (x :: y :: t)) with ((x, y) :: consecutive (y :: t)). simpl In. rewrite IH. split.
    + intros [[= <- <-]|(P1 & P2 & H)]; [exists [], t; reflexivity|]. exists (x :: P1), P2. simpl. rewrite H. reflexivity.
    + intros (P1 & P2 & H). destruct P1 as [|z P1]; [injection H as -> -> _; left; reflexivity|]. injection H as _ H. right. exists P1, P2. exact H.
Qed.
Lemma consecutive_asym l a b : NoDup l -> In (a, b) (consecutive l) -> ~ In (b, a) (consecutive l).
Proof.
  intros Hn H1 H2. apply in_consecutive in H1 as (P1 & P2 & ->). apply in_consecutive in H2 as (Q1 & Q2 & H2).
  revert Q1 H2. induction P1 as [|x P1 IH]; intros Q1 H2.
  - destruct Q1 as [|y Q1]; [injection H2 as -> _ _; inversion Hn; simpl in *; tauto|]. injection H2 as -> H2. simpl in Hn. apply NoDup_cons_iff in Hn as [Hn _]. apply Hn. rewrite H2. apply in_app_iff. simpl. auto.
  - simpl in *. apply NoDup_cons_iff in Hn as [Hx Hn]. destruct Q1 as [|y Q1]; [injection H2 as -> H2; apply Hx, in_app_iff; simpl; auto|].
    injection H2 as _ H2. exact (IH Hn Q1 H2).
Qed.
Lemma consecutive_nd l : NoDup l -> NoDup (consecutive l).
Proof.
  induction l as [|x [|y t] IH]; intros H; [constructor|constructor|]. change (consecutive (x :: y :: t)) with ((x, y) :: consecutive (y :: t)).
  apply NoDup_cons_iff in H as [Hx H]. constructor; [|apply IH, H]. intros K. apply in_consecutive in K as (P1 & P2 & K). apply Hx. rewrite K. apply in_app_iff. simpl. auto.
Qed.
Lemma walk_consecutive (E : name -> name -> Prop) a p b : walk E a p b -> forall x y, In (x, y) (consecutive p) -> E x y.
Proof.
  induction 1 as [a|a x p c He Hw IH]; intros u v H; [destruct H|]. destruct (walk_hd Hw) as [t Ht]. subst p.
  change (consecutive (a :: x :: t)) with ((a, x) :: consecutive (x :: t)) in H. destruct H as [[= <- <-]|H]; [exact He|]. apply IH, H.
Qed.
Lemma consecutive_walk (E : name -> name -> Prop) a t d : (forall x y, In (x, y) (consecutive (a :: t)) -> E x y) -> walk E a (a :: t) (last (a :: t) d).
Proof.
  revert a. induction t as [|b t IH]; intros a H; [constructor|]. change (last (a :: b :: t) d) with (last (b :: t) d). econstructor; [apply H; left; reflexivity|].
  apply IH. intros x y Hxy. apply H. right. exact Hxy.
Qed.
