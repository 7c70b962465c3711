(* Preflows with distance labels: pushing, relabelling, the final cut, and a decreasing measure. *)
From Verif Require Import Py Util S_Flow P_Flow.
Set Implicit Arguments. Unset Strict Implicit.
Local Open Scope list_scope. Local Open Scope Z_scope.

(* N-1 consecutive levels and N nodes, two of which are on none of them *)
Lemma gap (d : name -> Z) (nodes : list name) u v a : NoDup nodes -> In u nodes -> In v nodes -> u <> v ->
  let N := Z.of_nat (length nodes) in
  ~ (a <= d u < a + N - 1) -> ~ (a <= d v < a + N - 1) ->
  exists k, a <= k < a + N - 1 /\ forall x, In x nodes -> d x <> k.
Proof.
  intros Hn Hu Hv Huv N Du Dv.
  set (levels := map (fun i => a + Z.of_nat i) (seq 0 (length nodes - 1))).
  destruct (Forall_Exists_dec (fun k => In k (map d nodes)) (fun k => in_dec Z.eq_dec k (map d nodes)) levels) as [F|E].
  2:{ apply Exists_exists in E as (k & Hk & Hd). exists k. apply in_map_iff in Hk as (i & <- & Hi). apply in_seq in Hi. split; [lia|].
      intros x Hx Hd'. apply Hd. apply in_map_iff. exists x. auto. }
  exfalso. rewrite Forall_forall in F. set (rest := filter (fun x => negb (eqb x u) && negb (eqb x v)) nodes).
  assert (Hi : incl levels (map d rest)).
  { intros k Hk. pose proof (F k Hk) as Hd. apply in_map_iff in Hd as (x & <- & Hx). apply in_map_iff in Hk as (i & Hi & Hs). apply in_seq in Hs.
    apply in_map_iff. exists x. split; [reflexivity|]. apply filter_In. split; [exact Hx|].
    destruct (eqb_spec x u) as [->|]; [exfalso; lia|]. destruct (eqb_spec x v) as [->|]; [exfalso; lia|reflexivity]. }
  assert (Nl : NoDup levels) by (apply FinFun.Injective_map_NoDup; [intros i j Hij; lia|apply seq_NoDup]).
  pose proof (NoDup_incl_length Nl Hi) as L. unfold levels in L. rewrite !map_length, seq_length in L.
  assert (Nr : NoDup (u :: v :: rest)).
  { constructor; [simpl; intros [H|H]; [congruence|]; apply filter_In in H as [_ H]; rewrite eqb_refl in H; discriminate|].
    constructor; [intros H; apply filter_In in H as [_ H]; rewrite eqb_refl, andb_false_r in H; discriminate|apply NoDup_filter, Hn]. }
  assert (Ir : incl (u :: v :: rest) nodes) by (intros x [<-|[<-|H]]; auto; apply filter_In in H; tauto).
  pose proof (NoDup_incl_length Nr Ir) as L2. simpl in L2. lia.
Qed.

Section Preflow.
  Variables (es : arcs) (nodes : list name) (c : name * name -> Z) (s t : name).
  Hypothesis Nes : NoDup es.
  Hypothesis Nn : NoDup nodes.
  Hypothesis Ends : forall x y, In (x, y) es -> In x nodes /\ In y nodes.
  Hypothesis Hs : In s nodes.
  Hypothesis Ht : In t nodes.
  Hypothesis Hst : s <> t.
  Notation N := (Z.of_nat (length nodes)).
  Notation fn := (name * name -> Z).
  Notation lab := (name -> Z).

  Definition resid (f : fn) (x y : name) : Prop := (In (x, y) es /\ f (x, y) < c (x, y)) \/ (In (y, x) es /\ 0 < f (y, x)).
  Record inv (f : fn) (e d : lab) : Prop := {
    iv_bounds : forall a, In a es -> 0 <= f a <= c a;
    iv_excess : forall x, In x nodes -> e x = net es f x;
    iv_pos : forall x, In x nodes -> x <> s -> 0 <= e x;
    iv_valid : forall x y, resid f x y -> d y < N -> d x <= d y + 1;
    iv_s : d s = N;
    iv_t : d t = 0;
    iv_dpos : forall x, In x nodes -> 0 <= d x
  }.
  Definition upd {K} {E : EqDec K} (f : K -> Z) (k : K) (v : Z) : K -> Z := fun k' => if eqb k' k then v else f k'.
  Lemma upd_eq {K} {E : EqDec K} (f : K -> Z) k v : upd f k v k = v.
  Proof. unfold upd. rewrite eqb_refl. reflexivity. Qed.
  Lemma upd_ne {K} {E : EqDec K} (f : K -> Z) k k' v : k' <> k -> upd f k v k' = f k'.
  Proof. unfold upd. destruct (eqb_spec k' k); congruence. Qed.
  (* residual capacity from i to m as process_edge_flow computes it *)
  Definition ra (f : fn) (i m : name) : Z := if mem (i, m) es then c (i, m) - f (i, m) else f (m, i).
  Definition adm (f : fn) (d : lab) (i m : name) : bool := (d i =? d m + 1) && negb (ra f i m =? 0).
  Definition amount (f : fn) (e : lab) (i m : name) : Z := Z.min (e i) (ra f i m).
  Definition push_f (f : fn) (e : lab) (i m : name) : fn :=
    if mem (i, m) es then upd f (i, m) (f (i, m) + amount f e i m) else upd f (m, i) (f (m, i) - amount f e i m).
  Definition push_e (f : fn) (e : lab) (i m : name) : lab := upd (upd e i (e i - amount f e i m)) m (e m + amount f e i m).
  Definition adj (x y : name) : Prop := In (x, y) es \/ In (y, x) es.

  Lemma adm_ne f d i m : adm f d i m = true -> i <> m /\ d i = d m + 1 /\ ra f i m <> 0.
  Proof. unfold adm. rewrite andb_true_iff, negb_true_iff. intros [A B]. split; [intros ->; lia|]. lia. Qed.
  Lemma ra_bounds f i m : (forall a, In a es -> 0 <= f a <= c a) -> adj i m -> 0 <= ra f i m.
  Proof.
    intros B A. unfold ra. destruct (mem_spec (i, m) es) as [H|H]; [apply B in H; lia|]. destruct A as [A|A]; [contradiction|]. apply B in A; lia.
  Qed.
  (* the arc changed by a push *)
  Definition the_arc (i m : name) : name * name := if mem (i, m) es then (i, m) else (m, i).
  Definition sgn (i m : name) : Z := if mem (i, m) es then 1 else -1.
  Lemma push_f_arc f e i m a : push_f f e i m a = if eqb a (the_arc i m) then f a + sgn i m * amount f e i m else f a.
  Proof. unfold push_f, the_arc, sgn, upd. destruct (mem (i, m) es); [destruct (eqb_spec a (i, m)) as [->|]|destruct (eqb_spec a (m, i)) as [->|]]; lia. Qed.
  Lemma the_arc_in i m : adj i m -> In (the_arc i m) es.
  Proof. clear. intros A. unfold the_arc. destruct (mem_spec (i, m) es) as [H|H]; [exact H|]. destruct A as [A|A]; [contradiction|exact A]. Qed.
  Lemma ra_resid f i m : adj i m -> 0 < ra f i m -> resid f i m.
  Proof.
    intros A H. unfold ra in H. unfold resid. destruct (mem_spec (i, m) es) as [Hi|Hi]; [left; split; [exact Hi|lia]|]. destruct A; [contradiction|]. right. auto.
  Qed.

  Section Push.
    Variables (f : fn) (e d : lab) (i m : name).
    Hypothesis I : inv f e d.
    Hypothesis A : adj i m.
    Hypothesis Hi : In i nodes.
    Hypothesis His : i <> s.
    Hypothesis Ad : adm f d i m = true.
    Lemma amount_bounds : 0 <= amount f e i m <= ra f i m /\ amount f e i m <= e i.
    Proof. pose proof (ra_bounds (iv_bounds I) A). pose proof (iv_pos I Hi His). unfold amount. lia. Qed.
    Lemma push_bounds a : In a es -> 0 <= push_f f e i m a <= c a.
    Proof.
      intros Ha. pose proof (iv_bounds I Ha) as B. rewrite push_f_arc. destruct (eqb_spec a (the_arc i m)) as [->|]; [|lia].
      pose proof amount_bounds as M. unfold the_arc, sgn, ra in *. destruct (mem (i, m) es); lia.
    Qed.
    Lemma push_resid x y : resid (push_f f e i m) x y -> resid f x y \/ (x = m /\ y = i).
    Proof.
      pose proof amount_bounds as M. unfold resid. rewrite !push_f_arc. intros H.
      destruct H as [[H1 H2]|[H1 H2]].
      - destruct (eqb_spec (x, y) (the_arc i m)) as [E|_]; [|left; left; tauto].
        unfold the_arc, sgn in *. destruct (mem_spec (i, m) es) as [Hm|Hm]; [left; left; split; [exact H1|lia]|]. injection E as -> ->. right; auto.
      - destruct (eqb_spec (y, x) (the_arc i m)) as [E|_]; [|left; right; tauto].
        unfold the_arc, sgn in *. destruct (mem_spec (i, m) es) as [Hm|Hm]; [injection E as -> ->; right; auto|]. left; right; split; [exact H1|lia].
    Qed.
    Lemma push_inv : inv (push_f f e i m) (push_e f e i m) d.
    Proof.
      destruct (adm_ne Ad) as (Him & Hd & Hr). pose proof amount_bounds as M. constructor.
      - apply push_bounds.
      - intros x Hx. erewrite net_change; [|exact Nes|apply (the_arc_in A)|intros a Ha; rewrite push_f_arc; reflexivity].
        rewrite <- (iv_excess I Hx). unfold push_e, upd, the_arc, sgn, ind.
        destruct (mem (i, m) es); cbn [fst snd];
          repeat (match goal with |- context [eqb ?a ?b] => destruct (eqb_spec a b) end); subst; try congruence; try lia.
      - intros x Hx Hxs. unfold push_e, upd. pose proof (iv_pos I Hx Hxs). destruct (eqb_spec x m) as [->|]; [lia|]. destruct (eqb_spec x i) as [->|]; lia.
      - intros x y H Hy. destruct (push_resid H) as [H'|[-> ->]]; [apply (iv_valid I H' Hy)|]. lia.
      - apply (iv_s I).
      - apply (iv_t I).
      - apply (iv_dpos I).
    Qed.
  End Push.

  (* what relabel computes *)
  Record new_label (f : fn) (d : lab) (i : name) (z : Z) : Prop := {
    nl_le : forall j, resid f i j -> z <= d j + 1;
    nl_max : z <= 2 * N + 2;
    nl_at : z = 2 * N + 2 \/ exists j, resid f i j /\ z = d j + 1
  }.
  Lemma resid_nodes f x y : resid f x y -> In x nodes /\ In y nodes.
  Proof. intros [[H _]|[H _]]; apply Ends in H; tauto. Qed.
  Lemma relabel_inv f e d i z : inv f e d -> In i nodes -> i <> s -> i <> t -> new_label f d i z -> inv f e (upd d i z).
  Proof.
    intros I Hi His Hit [L M X].
    assert (Z0 : 0 <= z) by (destruct X as [->|(j & Hj & ->)]; [lia|]; pose proof (iv_dpos I (proj2 (resid_nodes Hj))); lia).
    constructor; try apply I.
    - intros x y H. unfold upd. destruct (eqb_spec x i) as [->|Hx], (eqb_spec y i) as [->|Hy]; intros Hl; [lia|apply L, H| |apply (iv_valid I H Hl)].
      destruct X as [X|(j & Hj & X)]; [lia|]. assert (Hdj : d j < N) by lia. pose proof (iv_valid I Hj Hdj).
      assert (Hdi : d i < N) by lia. pose proof (iv_valid I H Hdi). lia.
    - rewrite upd_ne by congruence. apply I.
    - rewrite upd_ne by congruence. apply I.
    - intros x Hx. unfold upd. destruct (eqb x i); [exact Z0|apply (iv_dpos I Hx)].
  Qed.

  (* no excess left: the flow is feasible and a cut is saturated *)
  Lemma final f e d : inv f e d -> (forall x, In x nodes -> x <> s -> x <> t -> e x <= 0) ->
    is_flow es c s t f /\ exists S : name -> bool, S s = true /\ S t = false /\ value es t f = cut_capacity es c S.
  Proof.
    intros I He.
    assert (Fl : is_flow es c s t f).
    { constructor; [apply (iv_bounds I)|]. intros x Hx1 Hx2. destruct (mem_spec x nodes) as [Hx|Hx].
      - rewrite <- (iv_excess I Hx). pose proof (iv_pos I Hx Hx1). pose proof (He x Hx Hx1 Hx2). lia.
      - apply net_outside. intros H. apply Hx. unfold ends in H. apply nodup_In in H. apply in_app_iff in H as [H|H];
          apply in_map_iff in H as ([a b] & <- & H); apply Ends in H; simpl; tauto. }
    split; [exact Fl|].
    destruct (@gap d nodes s t 1 Nn Hs Ht Hst) as (k & Hk & Hg); [rewrite (iv_s I); lia|rewrite (iv_t I); lia|].
    exists (fun x => k <? d x). assert (A : (k <? d s) = true) by (rewrite (iv_s I); lia). assert (B : (k <? d t) = false) by (rewrite (iv_t I); lia).
    split; [exact A|]. split; [exact B|].
    assert (C : forall x y, resid f x y -> (k <? d x) = true -> (k <? d y) = false -> False).
    { intros x y H H1 H2. pose proof (Hg y (proj2 (resid_nodes H))). assert (Hy : d y < N) by lia. pose proof (iv_valid I H Hy). lia. }
    apply (tight_cut Fl A B).
    - intros [x y] Ha H1 H2. cbn [fst snd] in *. pose proof (iv_bounds I Ha). destruct (Z.eq_dec (f (x, y)) (c (x, y))) as [|Hne]; [assumption|].
      exfalso. apply (C x y); auto. left. split; [exact Ha|lia].
    - intros [x y] Ha H1 H2. cbn [fst snd] in *. pose proof (iv_bounds I Ha). destruct (Z.eq_dec (f (x, y)) 0) as [|Hne]; [assumption|].
      exfalso. apply (C y x); auto. right. split; [exact Ha|lia].
  Qed.

  (** ** termination *)
  Section Term.
    Variable R : name -> bool.
    Hypothesis Rs : R s = true.
    Hypothesis Rstep : forall x y, In (x, y) es -> R x = true -> R y = true.
    Record invT (f : fn) (d : lab) : Prop := {
      it_valid : forall x y, R x = true -> resid f x y -> d x <= d y + 1;
      it_flow : forall x y, In (x, y) es -> 0 < f (x, y) -> R x = true;
      it_max : forall x, In x nodes -> d x <= 2 * N + 2
    }.
    Lemma resid_R f d x y : invT f d -> R x = true -> resid f x y -> R y = true.
    Proof. intros T Hx [[H _]|[H1 H2]]; [apply (Rstep H Hx)|apply (it_flow T H1 H2)]. Qed.
    Lemma excess_bound f e d i : inv f e d -> invT f d -> In i nodes -> i <> s -> R i = true -> 0 < e i -> d i <= 2 * N - 1.
    Proof.
      intros I T Hi His Ri He. destruct (Z_le_gt_dec (d i) (2 * N - 1)) as [|Hd]; [assumption|]. exfalso.
      destruct (@gap d nodes s i (N + 1) Nn Hs Hi (not_eq_sym His)) as (k & Hk & Hg); [rewrite (iv_s I); lia|lia|].
      set (S := fun x => R x && (k <? d x)).
      assert (C : forall x y, resid f x y -> S x = true -> S y = false -> False).
      { intros x y H H1 H2. unfold S in *. apply andb_true_iff in H1 as [H1 H3]. rewrite (resid_R T H1 H) in H2. simpl in H2.
        pose proof (Hg y (proj2 (resid_nodes H))). pose proof (it_valid T H1 H). lia. }
      assert (Sum : zsum (net es f) (filter S nodes) <= 0).
      { rewrite net_sum by (try exact Nn; intros [x y] H; apply (Ends H)). rewrite <- zsum_sub.
        transitivity (zsum (fun _ => 0) es); [|rewrite zsum_zero by auto; lia]. apply zsum_le. intros [x y] Ha. cbn [fst snd]. pose proof (iv_bounds I Ha).
        destruct (S y) eqn:Hy, (S x) eqn:Hx; try lia. destruct (Z.eq_dec (f (x, y)) 0); [lia|]. exfalso. apply (C y x); auto. right. split; [exact Ha|lia]. }
      assert (P : 0 < zsum (net es f) (filter S nodes)).
      { assert (Hin : In i (filter S nodes)) by (apply filter_In; split; [exact Hi|]; unfold S; rewrite Ri; simpl; lia).
        pose proof (@zsum_le_mem _ (net es f) (filter S nodes) i) as L. rewrite <- (iv_excess I Hi) in L.
        assert (e i <= zsum (net es f) (filter S nodes)); [|lia]. apply L; [|exact Hin].
        intros y Hy. apply filter_In in Hy as [Hy Sy]. rewrite <- (iv_excess I Hy). apply (iv_pos I Hy). intros ->. unfold S in Sy. rewrite (iv_s I) in Sy. lia. }
      lia.
    Qed.
    Lemma push_invT f e d i m : inv f e d -> invT f d -> adj i m -> In i nodes -> i <> s -> R i = true -> adm f d i m = true -> invT (push_f f e i m) d.
    Proof.
      intros I T A Hi His Ri Ad. destruct (adm_ne Ad) as (Him & Hd & Hr). constructor; [| |apply T].
      - intros x y Hx H. destruct (push_resid I A Hi His H) as [H'|[-> ->]]; [apply (it_valid T Hx H')|lia].
      - intros x y Ha. rewrite push_f_arc. destruct (eqb_spec (x, y) (the_arc i m)) as [E|]; [|apply (it_flow T Ha)].
        pose proof (amount_bounds I A Hi His). unfold the_arc, sgn in *. destruct (mem (i, m) es); [injection E as -> ->; auto|].
        intros H'. apply (it_flow T Ha). lia.
    Qed.
    Lemma relabel_invT f e d i z : inv f e d -> invT f d -> In i nodes -> new_label f d i z -> (forall j, resid f i j -> d i <= d j) ->
      invT f (upd d i z) /\ d i <= z /\ (d i < z \/ d i = 2 * N + 2).
    Proof.
      intros I T Hi [L M X] Hn. pose proof (it_max T Hi) as Dm.
      assert (G : d i <= z /\ (d i < z \/ d i = 2 * N + 2)). { destruct X as [->|(j & Hj & ->)]; [lia|]. pose proof (Hn j Hj). lia. }
      split; [|exact G]. constructor.
      - intros x y Hx H. unfold upd. destruct (eqb_spec x i) as [->|Hxi], (eqb_spec y i) as [->|Hyi]; [lia|apply L, H| |apply (it_valid T Hx H)].
        pose proof (it_valid T Hx H). lia.
      - apply T.
      - intros x Hx. unfold upd. destruct (eqb x i); [lia|apply (it_max T Hx)].
    Qed.
    (* the measure *)
    Definition M1 (d : lab) : Z := zsum (fun x => 2 * N + 2 - d x) nodes.
    Definition ad1 (f : fn) (d : lab) (a : name * name) : Z :=
      (if (f a <? c a) && (d (fst a) =? d (snd a) + 1) then 1 else 0) + (if (0 <? f a) && (d (snd a) =? d (fst a) + 1) then 1 else 0).
    Definition A1 (f : fn) (d : lab) : Z := zsum (ad1 f d) es.
    Definition M2 (q : list name) (d : lab) : Z := zsum (fun x => if mem x q then (N + 1) ^ (d x) else 0) nodes.
    Definition KA : Z := 2 * Z.of_nat (length es) + 1.
    Definition KM : Z := N * (N + 1) ^ (2 * N + 2) + 1.
    Definition mu (f : fn) (d : lab) (q : list name) : Z := (M1 d * KA + A1 f d) * KM + M2 q d.
    Lemma A1_bounds f d : 0 <= A1 f d < KA.
    Proof.
      unfold A1, KA. assert (forall a, 0 <= ad1 f d a <= 2) as H by (intros a; unfold ad1; destruct (_ && _), (_ && _); lia).
      split; [apply zsum_nonneg; intros; apply H|]. assert (zsum (ad1 f d) es <= zsum (fun _ => 2) es) by (apply zsum_le; intros; apply H). rewrite zsum_const in *. lia.
    Qed.
    Lemma N_pos : 0 < N.
    Proof. destruct nodes; [destruct Hs|]. cbn [length]. lia. Qed.
    Lemma M2_bounds q d : (forall x, In x nodes -> 0 <= d x <= 2 * N + 2) -> 0 <= M2 q d < KM.
    Proof.
      intros Hd. pose proof N_pos as P. unfold M2, KM.
      assert (B : forall x, In x nodes -> 0 <= (if mem x q then (N + 1) ^ d x else 0) <= (N + 1) ^ (2 * N + 2)).
      { intros x Hx. specialize (Hd x Hx). assert (0 < (N + 1) ^ d x) by (apply Z.pow_pos_nonneg; lia).
        assert ((N + 1) ^ d x <= (N + 1) ^ (2 * N + 2)) by (apply Z.pow_le_mono_r; lia). destruct (mem x q); lia. }
      split; [apply zsum_nonneg; intros; apply B; assumption|].
      assert (zsum (fun x => if mem x q then (N + 1) ^ d x else 0) nodes <= zsum (fun _ => (N + 1) ^ (2 * N + 2)) nodes) by (apply zsum_le; intros; apply B; assumption).
      rewrite zsum_const in *. lia.
    Qed.
    Lemma M1_nonneg d : (forall x, In x nodes -> 0 <= d x <= 2 * N + 2) -> 0 <= M1 d.
    Proof. intros H. apply zsum_nonneg. intros x Hx. specialize (H x Hx). lia. Qed.
    Lemma mu_nonneg f d q : (forall x, In x nodes -> 0 <= d x <= 2 * N + 2) -> 0 <= mu f d q.
    Proof.
      intros H. pose proof (M1_nonneg H). pose proof (A1_bounds f d). pose proof (M2_bounds q H). unfold mu. assert (0 < KM) by lia. assert (0 <= M1 d * KA) by (apply Z.mul_nonneg_nonneg; lia).
      assert (0 <= (M1 d * KA + A1 f d) * KM) by (apply Z.mul_nonneg_nonneg; lia). lia.
    Qed.
    Lemma mu_lex f d q f' d' q' : (forall x, In x nodes -> 0 <= d x <= 2 * N + 2) -> (forall x, In x nodes -> 0 <= d' x <= 2 * N + 2) ->
      (M1 d' < M1 d \/ (M1 d' <= M1 d /\ A1 f' d' < A1 f d) \/ (M1 d' <= M1 d /\ A1 f' d' <= A1 f d /\ M2 q' d' < M2 q d)) -> mu f' d' q' < mu f d q.
    Proof.
      intros H H' L. pose proof (A1_bounds f d). pose proof (A1_bounds f' d'). pose proof (M2_bounds q H). pose proof (M2_bounds q' H'). unfold mu.
      generalize dependent KM. generalize dependent KA. intros ka HA HA' km HM HM'.
      destruct L as [L|[[L1 L2]|(L1 & L2 & L3)]].
      - assert (M1 d' * ka + A1 f' d' + 1 <= M1 d * ka + A1 f d) by nia. nia.
      - assert (M1 d' * ka + A1 f' d' + 1 <= M1 d * ka + A1 f d) by nia. nia.
      - assert (M1 d' * ka + A1 f' d' <= M1 d * ka + A1 f d) by nia. nia.
    Qed.
    Lemma M1_relabel d i z : In i nodes -> M1 (upd d i z) = M1 d + d i - z.
    Proof.
      intros Hi. unfold M1. rewrite (zsum_ext (h := fun x => (2 * N + 2 - d x) + (if eqb x i then d i - z else 0))).
      - rewrite zsum_add, zsum_delta by exact Nn. assert (mem i nodes = true) as -> by (apply mem_In; exact Hi). lia.
      - intros x _. unfold upd. destruct (eqb_spec x i) as [->|]; lia.
    Qed.
    Lemma A1_push f e d i m : inv f e d -> adj i m -> In i nodes -> i <> s -> adm f d i m = true ->
      A1 (push_f f e i m) d <= A1 f d /\ (0 < push_e f e i m i -> A1 (push_f f e i m) d < A1 f d).
    Proof.
      intros I A Hi His Ad. destruct (adm_ne Ad) as (Him & Hd & Hr). pose proof (amount_bounds I A Hi His) as M.
      pose proof (ra_bounds (iv_bounds I) A) as Rb. pose proof (push_bounds I A Hi His) as Pb.
      set (a0 := the_arc i m). assert (Ha0 : In a0 es) by apply (the_arc_in A).
      assert (Dl : A1 (push_f f e i m) d = A1 f d + (ad1 (push_f f e i m) d a0 - ad1 f d a0)).
      { unfold A1. rewrite (zsum_ext (h := fun a => ad1 f d a + (if eqb a a0 then ad1 (push_f f e i m) d a0 - ad1 f d a0 else 0))).
        - rewrite zsum_add, zsum_delta by exact Nes. assert (mem a0 es = true) as -> by (apply mem_In; exact Ha0). lia.
        - intros a _. destruct (eqb_spec a a0) as [->|Hne]; [lia|]. unfold ad1. rewrite !push_f_arc. destruct (eqb_spec a (the_arc i m)); [contradiction|lia]. }
      assert (Le : push_e f e i m i = e i - amount f e i m).
      { unfold push_e, upd. destruct (eqb_spec i m); [contradiction|]. rewrite eqb_refl. reflexivity. }
      rewrite Dl, Le. unfold amount in *.
      assert (K : ad1 f d a0 = 1 /\ ad1 (push_f f e i m) d a0 <= 1 /\ (0 < e i - Z.min (e i) (ra f i m) -> ad1 (push_f f e i m) d a0 = 0)); [|lia].
      unfold ad1. rewrite push_f_arc. fold a0. rewrite eqb_refl. unfold amount.
      unfold a0, the_arc, sgn, ra in *. destruct (mem (i, m) es) eqn:Hm; cbn [fst snd] in *.
      - assert (f (i, m) <? c (i, m) = true) as -> by lia. assert (d i =? d m + 1 = true) as -> by lia. assert (d m =? d i + 1 = false) as -> by lia.
        rewrite !andb_false_r, !andb_true_r. split; [lia|]. split; [destruct (_ <? _); lia|]. intros H. destruct (Z.ltb_spec (f (i, m) + 1 * Z.min (e i) (c (i, m) - f (i, m))) (c (i, m))); lia.
      - assert (0 <? f (m, i) = true) as -> by lia. assert (d i =? d m + 1 = true) as -> by lia. assert (d m =? d i + 1 = false) as -> by lia.
        rewrite !andb_false_r, !andb_true_r. split; [lia|]. split; [destruct (_ <? _); lia|]. intros H. destruct (Z.ltb_spec 0 (f (m, i) + -1 * Z.min (e i) (f (m, i)))); lia.
    Qed.
    (* removing i and adding nodes one level below *)
    Lemma M2_step q q' d i : (forall x, In x nodes -> 0 <= d x) -> In i nodes -> In i q -> ~ In i q' ->
      (forall x, In x q' -> In x q \/ d x = d i - 1) -> M2 q' d < M2 q d.
    Proof.
      intros Hd Hi Hq Hq' Hn. pose proof N_pos as P.
      assert (Di : 0 <= d i) by auto.
      destruct (Z.eq_dec (d i) 0) as [Hz|Hz].
      - (* level 0: nothing new below *)
        assert (L : M2 q' d <= zsum (fun x => (if mem x q then (N + 1) ^ d x else 0) - (if eqb x i then 1 else 0)) nodes).
        { unfold M2. apply zsum_le. intros x Hx. assert (0 < (N + 1) ^ d x) by (apply Z.pow_pos_nonneg; auto; lia).
          destruct (mem_spec x q') as [Hx'|Hx'].
          - destruct (eqb_spec x i) as [->|]; [contradiction|]. destruct (Hn x Hx') as [Ho|Ho]; [|pose proof (Hd x Hx); lia]. destruct (mem_spec x q); [lia|contradiction].
          - destruct (eqb_spec x i) as [->|]; [|destruct (mem x q); lia]. destruct (mem_spec i q); [lia|contradiction]. }
        rewrite zsum_sub, zsum_delta in L by exact Nn. assert (mem i nodes = true) as E by (apply mem_In; exact Hi). rewrite E in L. unfold M2 at 2. lia.
      - assert (Pow : (N + 1) ^ d i = (N + 1) * (N + 1) ^ (d i - 1)) by (rewrite <- Z.pow_succ_r by lia; f_equal; lia).
        set (b := (N + 1) ^ (d i - 1)) in *. assert (Hb : 0 < b) by (apply Z.pow_pos_nonneg; lia).
        assert (L : M2 q' d <= zsum (fun x => (if mem x q then (N + 1) ^ d x else 0) - (if eqb x i then (N + 1) ^ d i else 0) + b) nodes).
        { unfold M2. apply zsum_le. intros x Hx. assert (0 < (N + 1) ^ d x) by (apply Z.pow_pos_nonneg; auto; lia).
          destruct (mem_spec x q') as [Hx'|Hx'].
          - destruct (eqb_spec x i) as [->|]; [contradiction|]. destruct (Hn x Hx') as [Ho|Ho]; [destruct (mem_spec x q); [lia|contradiction]|]. rewrite Ho. fold b. destruct (mem x q); lia.
          - destruct (eqb_spec x i) as [->|]; [destruct (mem_spec i q); [lia|contradiction]|destruct (mem x q); lia]. }
        rewrite zsum_add, zsum_sub, zsum_delta, zsum_const in L by exact Nn. assert (mem i nodes = true) as E by (apply mem_In; exact Hi). rewrite E in L. unfold M2 at 2. nia.
    Qed.
  End Term.
End Preflow.
