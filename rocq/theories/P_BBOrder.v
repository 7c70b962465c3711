(* Branch and bound (C63): the order in which the nodes are solved. *)
From Coq Require Import QArith Qround Qminmax Permutation Lqa.
From Verif Require Import Py Util M_Graph P_Graph P_GraphLaws P_Attr M_Flow M_Dot M_Tree S_Tree P_Tree M_BB S_BB P_BBLp P_BB P_BBRun P_BBLoop.
Set Implicit Arguments. Unset Strict Implicit.
Local Open Scope string_scope. Local Open Scope list_scope.

Lemma min_queue_laws (PQ : pqueue) (pitems : pq PQ -> list (item * Q)) : min_queue pitems -> queue_laws (fun q => map fst (pitems q)).
Proof.
  intros [M1 M2 M3 M4]. constructor.
  - rewrite M1. reflexivity.
  - intros q. rewrite M2. split; [intros ->; reflexivity|apply map_eq_nil].
  - intros q i p. apply (Permutation_map fst) with (l' := (i, p) :: pitems q), M3.
  - intros q Hq. destruct (M4 q) as (i & p & q' & E & Pm & _); [intros H; apply Hq; rewrite H; reflexivity|]. exists i, q'. split; [exact E|]. apply (Permutation_map fst Pm).
Qed.

Section Order.
  Variable P : instance.
  Variable solve : Z -> list con -> lp_result.
  Variable PQ : pqueue.
  Variable pitems : pq PQ -> list (item * Q).
  Variable bs : branching.
  Variable ss : searching.
  Variable ce : bool.
  Variable ladot : bool.
  Variable num : Q -> val.
  Hypothesis MQ : min_queue pitems.
  Local Notation items := (fun q => map fst (pitems q)).
  Local Notation run := (@P_BBRun.run P solve PQ ce ladot).

  Definition level (g : graph) (p : Z) : Z := match nattr g (NI p) "level" with VI z => z | _ => 0%Z end.
  Definition pkey (g : graph) (f : Z -> Q) (p : Z) : Q := match ss with DepthFirst => inject_Z (- level g p - 1) | _ => f p end.
  Record ord (s : bb PQ) (t : tree) (ids : list Z) (f : Z -> Q) : Prop := {
    o_first : forall x l, ids = x :: l -> x = 0%Z;
    o_prio : forall it pr p, In (it, pr) (pitems (b_q s)) -> parent_of it = Some p -> pr = pkey (t_g t) f p;
    o_obj : forall p, In p ids -> nattr (t_g t) (NI p) "obj" = num (f p);
    o_done : forall pre i post j pi pj, ids = pre ++ i :: post -> In j post -> nattr (t_g t) (NI i) "parent" = VI pi -> nattr (t_g t) (NI j) "parent" = VI pj -> In pj pre -> pkey (t_g t) f pi <= pkey (t_g t) f pj;
    o_wait : forall pre i post it pr pi pj, ids = pre ++ i :: post -> In (it, pr) (pitems (b_q s)) -> nattr (t_g t) (NI i) "parent" = VI pi -> parent_of it = Some pj -> In pj pre -> pkey (t_g t) f pi <= pkey (t_g t) f pj
  }.
  Lemma snoc_split {A} (l : list A) x pre i post : l ++ [x] = pre ++ i :: post -> (post = [] /\ pre = l /\ i = x) \/ (exists post', post = post' ++ [x] /\ l = pre ++ i :: post').
  Proof.
    intros H. destruct (rev post) as [|y r] eqn:E.
    - apply (f_equal (@rev A)) in E. rewrite rev_involutive in E. cbn in E. subst post. left. change (pre ++ [i]) with (pre ++ [i]) in H. apply app_inj_tail in H as [-> ->]. auto.
    - apply (f_equal (@rev A)) in E. rewrite rev_involutive in E. cbn in E. subst post. right. exists (rev r). change (pre ++ i :: rev r ++ [y]) with (pre ++ (i :: rev r) ++ [y]) in H. rewrite app_assoc in H. apply app_inj_tail in H as [-> ->]. auto.
  Qed.
  Lemma ord_step s t ids f s' t' : run s t (items (b_q s)) ids -> ord s t ids f -> stepped P solve items ss ce ladot num s t s' t' ->
    exists ids' f', run s' t' (items (b_q s')) ids' /\ ord s' t' ids' f'.
  Proof.
    intros R0 O (ids' & it & q & cs & relax & a & Hne & Ep & R & Hc & A & Sb & Ao & Apa & Hq & R' & _).
    assert (ids' = ids) as ->.
    { pose proof (r_list R) as H. rewrite (r_list R0) in H. apply app_inv_head in H. symmetry. revert H. clear. revert ids'. induction ids as [|x l IH]; intros [|y l'] H; try discriminate; [reflexivity|]. injection H as -> H. f_equal. apply IH, H. }
    destruct O as [O0 O1 O2 O3 O4]. set (i := fst it) in *. set (f' := fun p => if (p =? i)%Z then relax else f p). exists (ids ++ [i]), f'. split; [exact R'|].
    pose proof (r_wf R) as W.
    destruct (mq_pop MQ (q := b_q s)) as (it0 & pr0 & q0 & E0 & Pm & Hmin); [intros H; apply Hne; rewrite H; reflexivity|]. rewrite Ep in E0. injection E0 as <- <-.
    assert (Hin0 : In (it, pr0) (pitems (b_q s))) by (apply (Permutation_in _ (Permutation_sym Pm)); left; reflexivity).
    assert (Hold : forall e, In e (pitems q) -> In e (pitems (b_q s))) by (intros e He; apply (Permutation_in _ (Permutation_sym Pm)); right; exact He).
    assert (Hfresh : ~ In i ids).
    { destruct (r_its R (or_introl eq_refl)) as [H _]. destruct (snd it) as [[[[p x] se] r]|]; [tauto|]. destruct H as [_ ->]. intros []. }
    assert (N : ~ In (NI i) (get_node_list (t_g t))).
    { rewrite (r_list R). intros H. apply in_app_iff in H as [H|H]; [unfold keys in H; simpl in H; intuition discriminate|]. apply in_map_iff in H as (j & [= ->] & H). contradiction. }
    assert (Hidn : forall j, In (NI j) (get_node_list (t_g t)) <-> In j ids).
    { intros j. rewrite (r_list R), in_app_iff. split; [|intros Hj; right; apply in_map, Hj]. intros [H|H]; [unfold keys in H; simpl in H; intuition discriminate|]. apply in_map_iff in H as (k & [= ->] & H). exact H. }
    assert (Hpar : forall e p, In e (pitems (b_q s)) -> parent_of (fst e) = Some p -> In p ids).
    { intros e p He Hp. destruct (r_its R0 (in_map fst _ _ He)) as [H _]. unfold parent_of in Hp. destruct (snd (fst e)) as [[[[p' x] se] r]|]; [injection Hp as <-; tauto|discriminate]. }
    assert (Fk : forall p, In p ids -> pkey (t_g t') f' p = pkey (t_g t) f p).
    { intros p Hp. unfold pkey, level. rewrite (adds_old A N (proj2 (Hidn p) Hp)) by inreads. unfold f'. destruct (Z.eqb_spec p i) as [->|_]; [contradiction|reflexivity]. }
    assert (Ki : pkey (t_g t') f' i = prio ss cs relax).
    { unfold pkey, level, prio. rewrite (sub_level Sb). unfold f'. rewrite Z.eqb_refl. reflexivity. }
    assert (Fp : forall j, In j ids -> nattr (t_g t') (NI j) "parent" = nattr (t_g t) (NI j) "parent") by (intros j Hj; apply (adds_old A N (proj2 (Hidn j) Hj)); inreads).
    assert (Fi : forall p, nattr (t_g t') (NI i) "parent" = VI p -> parent_of it = Some p).
    { intros p. rewrite (ad_attr A), eqb_refl by inreads. rewrite Apa. destruct (parent_of it); congruence. }
    assert (Pin : forall j p, In j ids -> nattr (t_g t) (NI j) "parent" = VI p -> In p ids).
    { intros j p Hj Hp. destruct (r_shape R0 Hj) as (csj & S0 & _). inversion S0 as [? ? S E1 E2|k p' c cs' ? ? ? ? ? S ? ? S' E1 E2]; subst; [congruence|]. rewrite S in Hp. injection Hp as <-. apply Hidn, (sub_node W S'). }
    assert (Hnew : forall u pr, In (u, pr) (pitems (b_q s')) -> In (u, pr) (pitems q) \/ (parent_of u = Some i /\ pr = prio ss cs relax)).
    { intros u pr Hu. destruct Hq as [Eq|(x & Eq)]; rewrite Eq in Hu; [left; exact Hu|]. apply (Permutation_in _ (mq_push MQ _ _ _)) in Hu. destruct Hu as [[= <- <-]|Hu]; [right; split; reflexivity|].
      apply (Permutation_in _ (mq_push MQ _ _ _)) in Hu. destruct Hu as [[= <- <-]|Hu]; [right; split; reflexivity|]. left. exact Hu. }
    constructor.
    - intros x l E. destruct ids as [|y ids]; [|injection E as <- _; apply (O0 y ids eq_refl)]. injection E as <- _.
      destruct (r_its R (or_introl eq_refl)) as [H _]. destruct (snd it) as [[[[p z] se] r]|]; [destruct H as (_ & _ & [])|exact (proj1 H)].
    - intros u pr p Hu Hp. destruct (Hnew u pr Hu) as [H|[H ->]].
      + rewrite Fk by exact (Hpar _ p (Hold _ H) Hp). apply (O1 u pr p (Hold _ H) Hp).
      + rewrite H in Hp. injection Hp as <-. symmetry. exact Ki.
    - intros p Hp. apply in_app_iff in Hp as [Hp|[<-|[]]].
      + rewrite (adds_old A N (proj2 (Hidn p) Hp)) by inreads. unfold f'. destruct (Z.eqb_spec p i) as [->|_]; [contradiction|]. apply O2, Hp.
      + rewrite (ad_attr A), eqb_refl by inreads. unfold f'. rewrite Z.eqb_refl. exact Ao.
    - intros pre i0 post j pi pj E Hj Hpi Hpj Hin. destruct (snoc_split E) as [(-> & _)|(post' & -> & E')]; [destruct Hj|].
      assert (Hi0 : In i0 ids) by (rewrite E'; apply in_app_iff; right; left; reflexivity). assert (Hpjd : In pj ids) by (rewrite E'; apply in_app_iff; left; exact Hin).
      rewrite Fp in Hpi by exact Hi0. rewrite !Fk by (try exact Hpjd; exact (Pin i0 pi Hi0 Hpi)). apply in_app_iff in Hj as [Hj|[<-|[]]].
      + assert (Hjd : In j ids) by (rewrite E'; apply in_app_iff; right; right; exact Hj). rewrite Fp in Hpj by exact Hjd. apply (O3 pre i0 post' j pi pj E' Hj Hpi Hpj Hin).
      + apply (O4 pre i0 post' it pr0 pi pj E' Hin0 Hpi (Fi pj Hpj) Hin).
    - intros pre i0 post u pr pi pj E Hu Hpi Hpj Hin. destruct (snoc_split E) as [(-> & -> & ->)|(post' & -> & E')].
      + destruct (Hnew u pr Hu) as [H|[H _]]; [|rewrite H in Hpj; injection Hpj as <-; contradiction]. pose proof (Fi pi Hpi) as Hp.
        rewrite !Fk by (try exact Hin; exact (Hpar (it, pr0) pi Hin0 Hp)). rewrite <- (O1 it pr0 pi Hin0 Hp), <- (O1 u pr pj (Hold _ H) Hpj). apply (Hmin (u, pr) (Hold _ H)).
      + assert (Hpjd : In pj ids) by (rewrite E'; apply in_app_iff; left; exact Hin).
        destruct (Hnew u pr Hu) as [H|[H _]]; [|rewrite H in Hpj; injection Hpj as <-; contradiction].
        assert (Hi0 : In i0 ids) by (rewrite E'; apply in_app_iff; right; left; reflexivity). rewrite Fp in Hpi by exact Hi0. rewrite !Fk by (try exact Hpjd; exact (Pin i0 pi Hi0 Hpi)).
        apply (O4 pre i0 post' u pr pi pj E' (Hold _ H) Hpi Hpj Hin).
  Qed.
End Order.
