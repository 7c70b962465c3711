(* Tarjan's algorithm: the stack invariant of strong_connect. *)
From Verif Require Import Py Util M_Graph P_Graph P_GraphLaws M_Search Spec P_Walk P_Attr P_Search M_Flow P_EdgeFrame M_Dfs P_Dfs.
Set Implicit Arguments. Unset Strict Implicit.
Local Open Scope string_scope. Local Open Scope list_scope.

Lemma before_split (F : list name) x y : before F x y -> In y F /\ In x F.
Proof. intros H. destruct (before_In H). auto. Qed.
Lemma before_total (F : list name) x y : In x F -> In y F -> x = y \/ before F x y \/ before F y x.
Proof.
  intros Hx Hy. apply in_split in Hx as (A & B & ->). apply in_app_iff in Hy as [Hy|[->|Hy]]; [right; right|left; reflexivity|right; left].
  - exists A, B. auto.
  - change (A ++ x :: B) with (A ++ [x] ++ B). rewrite app_assoc. apply before_cross; [apply in_app_iff; simpl; auto|exact Hy].
Qed.
Lemma before_app_inv (F G : list name) x y : before (F ++ G) x y -> before F x y \/ before G x y \/ In x F /\ In y G.
Proof.
  intros (A & B & E & Hx). revert F E. induction A as [|a A IH]; intros F E; [destruct Hx|]. destruct F as [|b F]; simpl in E.
  - right; left. subst G. exists (a :: A), B. auto.
  - injection E as <- E. destruct Hx as [<-|Hx].
    + assert (Hy : In y (F ++ G)) by (rewrite E; apply in_elt). apply in_app_iff in Hy as [Hy|Hy]; [left|right; right; split; [left; reflexivity|exact Hy]].
      change (b :: F) with ([b] ++ F). apply before_cross; [left; reflexivity|exact Hy].
    + destruct (IH Hx F E) as [K|[K|[K1 K2]]]; [left; apply (before_app_r [b] K)|right; left; exact K|right; right; split; [right; exact K1|exact K2]].
Qed.
Lemma before_one x a b : ~ before [a] x b.
Proof. intros (A & B & E & H). destruct A as [|c [|d A]]; [destruct H|discriminate|discriminate]. Qed.

Definition tattrs := ["index"; "lowlink"; "component"].
Section Tarjan.
  Variable g : graph.
  Hypothesis W : wf g.
  Notation nl := (get_node_list g).
  Notation R := (arc g).

  Record frame (h : graph) : Prop := {
    fr_shape : same_shape g h;
    fr_node : forall x b, ~ In b tattrs -> nattr h x b = nattr g x b;
    fr_edge : g_edges h = g_edges g;
    fr_attr : g_attr h = g_attr g
  }.
  Definition vis (h : graph) (x : name) : Prop := nattr h x "index" <> VNone.
  Definition idx (h : graph) (x : name) : Z := match nattr h x "index" with VI z => z | _ => 0%Z end.
  Definition done (h : graph) (q : list name) (x : name) : Prop := vis h x /\ ~ In x q.
  Lemma vis_dec h x : vis h x \/ nattr h x "index" = VNone.
  Proof. unfold vis. destruct (eq_dec (nattr h x "index") VNone); auto. Qed.

  (* gr: the nodes whose calls are active; q: the stack; n, k: next index and next component *)
  Record inv (gr : list name) (n k : Z) (q : list name) (h : graph) : Prop := {
    in_fr : frame h;
    in_nc : g_ncomp h = Some k;
    in_k : (0 <= k)%Z;
    in_idx : forall x, vis h x -> exists z, nattr h x "index" = VI z /\ (z < n)%Z;
    in_q : forall x, In x q -> vis h x;
    in_sort : forall x y, before q x y -> (idx h x < idx h y)%Z;
    in_nd : NoDup q;
    in_gr : forall x, In x gr -> In x q;
    in_done : forall x y, done h q x -> R x y -> done h q y;
    in_comp : forall x, done h q x -> exists c, nattr h x "component" = VI c /\ (0 <= c < k)%Z;
    in_same : forall x y, done h q x -> done h q y -> nattr h x "component" = nattr h y "component" <-> reach R x y /\ reach R y x;
    in_onto : forall c, (0 <= c < k)%Z -> exists x, done h q x /\ nattr h x "component" = VI c;
    in_down : forall x y, In x gr -> In y q -> (idx h x <= idx h y)%Z -> reach R x y;
    in_up : forall y, In y q -> exists x, In x gr /\ (idx h x <= idx h y)%Z /\ reach R y x;
    in_black : forall x y, In x q -> ~ In x gr -> R x y -> vis h y
  }.
  Lemma idx_lt gr n k q h x : inv gr n k q h -> vis h x -> (idx h x < n)%Z.
  Proof. intros I Hx. destruct (in_idx I Hx) as (z & E & Hz). unfold idx. rewrite E. exact Hz. Qed.
  Lemma idx_inj gr n k q h x y : inv gr n k q h -> In x q -> In y q -> idx h x = idx h y -> x = y.
  Proof. intros I Hx Hy E. destruct (before_total Hx Hy) as [?|[K|K]]; [assumption| |]; apply (in_sort I) in K; lia. Qed.
  (* the nodes of the stack older than node *)
  Lemma older gr n k q node q3 h x : inv gr n k (q ++ node :: q3) h -> In x (q ++ node :: q3) -> (idx h x < idx h node)%Z -> In x q.
  Proof.
    intros I Hx Hl. apply in_app_iff in Hx as [Hx|[->|Hx]]; [exact Hx|lia|]. exfalso.
    assert (K : before (q ++ node :: q3) node x) by (apply before_app_r; apply (before_cross (F := [node])); [left; reflexivity|exact Hx]). apply (in_sort I) in K. lia.
  Qed.
  Lemma younger gr n k q node q3 h x : inv gr n k (q ++ node :: q3) h -> In x q -> (idx h x < idx h node)%Z.
  Proof. intros I Hx. apply (in_sort I). apply before_cross; [exact Hx|left; reflexivity]. Qed.
  (* lowlink does not matter *)
  Lemma inv_ext gr n k q h h' : inv gr n k q h -> frame h' -> g_ncomp h' = g_ncomp h -> (forall x, nattr h' x "index" = nattr h x "index") -> (forall x, nattr h' x "component" = nattr h x "component") ->
    inv gr n k q h'.
  Proof.
    intros I F C E1 E2. assert (Ev : forall x, vis h' x <-> vis h x) by (intros x; unfold vis; rewrite E1; reflexivity). assert (Ei : forall x, idx h' x = idx h x) by (intros x; unfold idx; rewrite E1; reflexivity).
    assert (Ed : forall x, done h' q x <-> done h q x) by (intros x; unfold done; rewrite Ev; reflexivity).
    constructor.
    - exact F.
    - rewrite C. apply (in_nc I).
    - apply (in_k I).
    - intros x Hx. rewrite E1. apply (in_idx I), Ev, Hx.
    - intros x Hx. apply Ev, (in_q I Hx).
    - intros x y K. rewrite !Ei. apply (in_sort I K).
    - apply (in_nd I).
    - apply (in_gr I).
    - intros x y Hx Hxy. apply Ed. apply Ed in Hx. apply (in_done I Hx Hxy).
    - intros x Hx. rewrite E2. apply (in_comp I), Ed, Hx.
    - intros x y Hx Hy. rewrite !E2. apply (in_same I); apply Ed; assumption.
    - intros c Hc. destruct (in_onto I Hc) as (x & Hx & Ex). exists x. rewrite E2. split; [apply Ed, Hx|exact Ex].
    - intros x y Hx Hy. rewrite !Ei. apply (in_down I Hx Hy).
    - intros y Hy. destruct (in_up I Hy) as (x & Hx & Ex). exists x. rewrite !Ei. auto.
    - intros x y Hx Hn Hxy. apply Ev, (in_black I Hx Hn Hxy).
  Qed.
  Lemma done_reach gr n k q h x y : inv gr n k q h -> done h q x -> reach R x y -> done h q y.
  Proof. intros I Hx. apply reach_closed; [exact Hx|]. intros a b. apply (in_done I). Qed.

  (* entering node *)
  Lemma inv_push gr n k q h h' node : inv gr n k q h -> nattr h node "index" = VNone -> (forall x, In x gr -> reach R x node) ->
    frame h' -> g_ncomp h' = g_ncomp h -> (forall x, nattr h' x "index" = if eq_dec x node then VI n else nattr h x "index") -> (forall x, nattr h' x "component" = nattr h x "component") ->
    inv (node :: gr) (n + 1) k (q ++ [node]) h'.
  Proof.
    intros I Hw Hr F C E1 E2.
    assert (Nq : ~ In node q) by (intros K; apply (in_q I) in K; apply K, Hw).
    assert (Eo : forall x, x <> node -> nattr h' x "index" = nattr h x "index") by (intros x Hx; rewrite E1; destruct eq_dec; congruence).
    assert (En : nattr h' node "index" = VI n) by (rewrite E1; destruct eq_dec; congruence).
    assert (Vo : forall x, vis h x -> x <> node) by (intros x Hx ->; apply Hx, Hw).
    assert (Ev : forall x, vis h' x <-> vis h x \/ x = node).
    { intros x. unfold vis. destruct (eq_dec x node) as [->|Hne]; [rewrite En; split; [auto|discriminate]|rewrite (Eo x Hne); tauto]. }
    assert (Ei : forall x, vis h x -> idx h' x = idx h x) by (intros x Hx; unfold idx; rewrite (Eo x (Vo x Hx)); reflexivity).
    assert (Ein : idx h' node = n) by (unfold idx; rewrite En; reflexivity).
    assert (Ed : forall x, done h' (q ++ [node]) x <-> done h q x).
    { intros x. unfold done. rewrite Ev, in_app_iff. simpl. split; [intros [[H|H] K]; [tauto|exfalso; apply K; auto]|intros [H K]; split; [auto|]]. intros [K'|[K'|[]]]; [tauto|]. symmetry in K'. apply (Vo x H K'). }
    constructor.
    - exact F.
    - rewrite C. apply (in_nc I).
    - apply (in_k I).
    - intros x Hx. apply Ev in Hx as [Hx| ->]; [rewrite (Eo x (Vo x Hx)); destruct (in_idx I Hx) as (z & Hz & Hlt); exists z; split; [exact Hz|lia]|exists n; split; [exact En|lia]].
    - intros x Hx. apply Ev. apply in_app_iff in Hx as [Hx|[->|[]]]; [left; apply (in_q I Hx)|right; reflexivity].
    - intros x y K. apply before_app_inv in K as [K|[K|[K1 [<-|[]]]]]; [|exfalso; apply (before_one K)|].
      + destruct (before_split K) as [Ky Kx]. rewrite (Ei x (in_q I Kx)), (Ei y (in_q I Ky)). apply (in_sort I K).
      + rewrite Ein, (Ei x (in_q I K1)). apply (idx_lt I (in_q I K1)).
    - apply NoDup_snoc. split; [apply (in_nd I)|exact Nq].
    - intros x [<-|Hx]; apply in_app_iff; [right; left; reflexivity|left; apply (in_gr I Hx)].
    - intros x y Hx Hxy. apply Ed. apply Ed in Hx. apply (in_done I Hx Hxy).
    - intros x Hx. rewrite E2. apply (in_comp I), Ed, Hx.
    - intros x y Hx Hy. rewrite !E2. apply (in_same I); apply Ed; assumption.
    - intros c Hc. destruct (in_onto I Hc) as (x & Hx & Ex). exists x. rewrite E2. split; [apply Ed, Hx|exact Ex].
    - intros x y Hx Hy Hle. apply in_app_iff in Hy as [Hy|[<-|[]]].
      + rewrite (Ei y (in_q I Hy)) in Hle. destruct Hx as [<-|Hx]; [rewrite Ein in Hle; pose proof (idx_lt I (in_q I Hy)); lia|].
        rewrite (Ei x (in_q I (in_gr I Hx))) in Hle. apply (in_down I Hx Hy Hle).
      + destruct Hx as [<-|Hx]; [apply reach_refl|apply (Hr x Hx)].
    - intros y Hy. apply in_app_iff in Hy as [Hy|[<-|[]]].
      + destruct (in_up I Hy) as (x & Hx & Hle & Hre). exists x. split; [right; exact Hx|]. rewrite (Ei y (in_q I Hy)), (Ei x (in_q I (in_gr I Hx))). auto.
      + exists node. split; [left; reflexivity|]. split; [lia|apply reach_refl].
    - intros x y Hx Hn Hxy. apply Ev. left. apply in_app_iff in Hx as [Hx|[<-|[]]]; [|exfalso; apply Hn; left; reflexivity].
      apply (in_black I Hx); [intros K; apply Hn; right; exact K|exact Hxy].
  Qed.
  (* leaving node without popping: its low link is the index of an older node it reaches *)
  Lemma inv_keep gr n k q node q3 h x0 : inv (node :: gr) n k (q ++ node :: q3) h -> (forall x, In x gr -> In x q) -> In x0 q -> reach R node x0 -> (forall y, R node y -> vis h y) ->
    inv gr n k (q ++ node :: q3) h.
  Proof.
    intros I Hg H0 Hr Hv. constructor; try apply I.
    - intros x Hx. apply (in_gr I). right. exact Hx.
    - intros x y Hx. apply (in_down I). right. exact Hx.
    - intros y Hy. destruct (in_up I Hy) as (x & [<-|Hx] & Hle & Hre); [|exists x; auto].
      destruct (in_up I (y := x0)) as (x1 & Hx1 & Hle1 & Hre1); [apply in_app_iff; auto|]. pose proof (younger I H0) as Hlt.
      destruct Hx1 as [<-|Hx1]; [lia|]. exists x1. split; [exact Hx1|]. split; [lia|]. apply (reach_trans Hre), (reach_trans Hr Hre1).
    - intros x y Hx Hn Hxy. destruct (eq_dec x node) as [->|Hne]; [apply Hv, Hxy|]. apply (in_black I Hx); [|exact Hxy]. intros [K|K]; congruence.
  Qed.
  (* popping the component of node *)
  Lemma inv_pop gr n k q node q3 h h' : inv (node :: gr) n k (q ++ node :: q3) h -> (forall x, In x gr -> In x q) -> (forall y, R node y -> vis h y) ->
    (forall y z, In y (node :: q3) -> In z q -> ~ R y z) ->
    frame h' -> g_ncomp h' = Some (k + 1)%Z -> (forall x, nattr h' x "index" = nattr h x "index") ->
    (forall x, nattr h' x "component" = if in_dec eq_dec x (node :: q3) then VI k else nattr h x "component") ->
    inv gr n (k + 1) q h'.
  Proof.
    intros I Hg Hv Hno F C E1 E2. assert (Ev : forall x, vis h' x <-> vis h x) by (intros x; unfold vis; rewrite E1; reflexivity). assert (Ei : forall x, idx h' x = idx h x) by (intros x; unfold idx; rewrite E1; reflexivity).
    pose proof (in_nd I) as ND. apply NoDup_app_iff in ND as (NDq & ND3 & Dj).
    assert (Ed : forall x, done h' q x <-> done h (q ++ node :: q3) x \/ In x (node :: q3)).
    { intros x. unfold done. rewrite Ev. rewrite in_app_iff. split.
      - intros [H1 H2]. destruct (in_dec eq_dec x (node :: q3)) as [K|K]; [right; exact K|left; tauto].
      - intros [[H1 H2]|H]; [split; tauto|]. split; [apply (in_q I), in_app_iff; right; exact H|]. intros K. apply (Dj x K H). }
    assert (Old : forall x, done h (q ++ node :: q3) x -> ~ In x (node :: q3)) by (intros x [_ K] K'; apply K, in_app_iff; right; exact K').
    assert (Eold : forall x, done h (q ++ node :: q3) x -> nattr h' x "component" = nattr h x "component") by (intros x Hx; rewrite E2; destruct in_dec as [K|K]; [exfalso; apply (Old x Hx K)|reflexivity]).
    assert (Enew : forall x, In x (node :: q3) -> nattr h' x "component" = VI k) by (intros x Hx; rewrite E2; destruct in_dec; [reflexivity|contradiction]).
    assert (Down : forall y, In y (node :: q3) -> reach R node y).
    { intros y [<-|Hy]; [apply reach_refl|]. apply (in_down I (x := node)); [left; reflexivity|apply in_app_iff; simpl; auto|].
      assert (K : before (q ++ node :: q3) node y) by (apply before_app_r; apply (before_cross (F := [node])); [left; reflexivity|exact Hy]). apply (in_sort I) in K. lia. }
    assert (Up : forall y, In y (node :: q3) -> reach R y node).
    { intros y Hy. destruct (in_up I (y := y)) as (x & Hx & Hle & Hre); [apply in_app_iff; auto|]. destruct Hx as [<-|Hx]; [exact Hre|]. apply (reach_trans Hre).
      apply (in_down I (x := x)); [right; exact Hx|apply in_elt|]. pose proof (younger I (Hg x Hx)). lia. }
    assert (Ncl : forall x y, In x (node :: q3) -> R x y -> done h (q ++ node :: q3) y \/ In y (node :: q3)).
    { intros x y Hx Hxy. assert (Hy : vis h y).
      { destruct (eq_dec x node) as [->|Hne]; [apply Hv, Hxy|]. apply (in_black I (x := x)); [apply in_app_iff; auto| |exact Hxy].
        intros [K|K]; [congruence|]. apply (Dj x (Hg x K) Hx). }
      destruct (in_dec eq_dec y (q ++ node :: q3)) as [K|K]; [|left; split; assumption]. apply in_app_iff in K as [K|K]; [exfalso; apply (Hno x y Hx K Hxy)|right; exact K]. }
    constructor.
    - exact F.
    - exact C.
    - pose proof (in_k I). lia.
    - intros x Hx. rewrite E1. apply (in_idx I), Ev, Hx.
    - intros x Hx. apply Ev, (in_q I), in_app_iff. auto.
    - intros x y K. rewrite !Ei. apply (in_sort I). apply before_app_l, K.
    - exact NDq.
    - exact Hg.
    - intros x y Hx Hxy. apply Ed. apply Ed in Hx as [Hx|Hx]; [left; apply (in_done I Hx Hxy)|apply (Ncl x y Hx Hxy)].
    - intros x Hx. apply Ed in Hx as [Hx|Hx]; [rewrite (Eold x Hx); destruct (in_comp I Hx) as (c & Hc & Hlt); exists c; split; [exact Hc|lia]|].
      rewrite (Enew x Hx). exists k. pose proof (in_k I). split; [reflexivity|lia].
    - assert (Mix : forall x y, done h (q ++ node :: q3) x -> In y (node :: q3) -> nattr h' x "component" <> nattr h' y "component" /\ ~ reach R x y).
      { intros x y Hx Hy. split.
        - rewrite (Eold x Hx), (Enew y Hy). destruct (in_comp I Hx) as (c & -> & Hc). intros [= ->]. lia.
        - intros K. apply (Old y); [apply (done_reach I Hx K)|exact Hy]. }
      intros x y Hx Hy. apply Ed in Hx as [Hx|Hx]; apply Ed in Hy as [Hy|Hy].
      + rewrite (Eold x Hx), (Eold y Hy). apply (in_same I Hx Hy).
      + destruct (Mix x y Hx Hy). tauto.
      + destruct (Mix y x Hy Hx) as [M1 M2]. split; [intros K; exfalso; apply M1; symmetry; exact K|tauto].
      + rewrite (Enew x Hx), (Enew y Hy). split; [intros _; split; [apply (reach_trans (Up x Hx) (Down y Hy))|apply (reach_trans (Up y Hy) (Down x Hx))]|reflexivity].
    - intros c Hc. destruct (Z.eq_dec c k) as [->|Hne]; [exists node; split; [apply Ed; right; left; reflexivity|apply Enew; left; reflexivity]|].
      destruct (in_onto I (c := c)) as (x & Hx & Ex); [lia|]. exists x. split; [apply Ed; left; exact Hx|rewrite (Eold x Hx); exact Ex].
    - intros x y Hx Hy. rewrite !Ei. apply (in_down I); [right; exact Hx|apply in_app_iff; auto].
    - intros y Hy. destruct (in_up I (y := y)) as (x & [<-|Hx] & Hle & Hre); [apply in_app_iff; auto| |].
      + pose proof (younger I Hy). lia.
      + exists x. rewrite !Ei. auto.
    - intros x y Hx Hn Hxy. apply Ev. apply (in_black I (x := x)); [apply in_app_iff; auto| |exact Hxy]. intros [->|K]; [|contradiction]. apply (Dj x Hx). left. reflexivity.
  Qed.

  Lemma pop_ok l : forall node r k h (Q : list name -> graph -> Prop), ~ In node l -> (forall x, In x (node :: l) -> In x (dkeys (g_nodes h))) ->
    (forall h', same_shape h h' -> g_edges h' = g_edges h -> g_attr h' = g_attr h -> g_ncomp h' = g_ncomp h -> (forall x b, b <> "component" -> nattr h' x b = nattr h x b) ->
       (forall x, nattr h' x "component" = if in_dec eq_dec x (node :: l) then VI k else nattr h x "component") -> Q r h') ->
    ok (pop_component (l ++ node :: r) node k) h Q.
  Proof.
    induction l as [|m l IH]; intros node r k h Q Hn Hk HQ.
    - cbn [app pop_component]. apply ok_bind, ok_set_node_attr; [apply Hk; left; reflexivity|]. intros h1 S1 N1 E1 A1 C1 G1. rewrite eqb_refl. apply ok_ret.
      apply HQ; auto.
      + intros x b Hb. rewrite N1. destruct eq_dec as [[=]|]; [congruence|reflexivity].
      + intros x. rewrite N1. destruct eq_dec as [[= ->]|K], in_dec as [K'|K']; try reflexivity; [exfalso; apply K'; left; reflexivity|exfalso; destruct K' as [<-|[]]; congruence].
    - cbn [app pop_component]. apply ok_bind, ok_set_node_attr; [apply Hk; right; left; reflexivity|]. intros h1 S1 N1 E1 A1 C1 G1.
      destruct (eqb_spec node m) as [->|Hne]; [exfalso; apply Hn; left; reflexivity|]. apply IH.
      + intros K. apply Hn. right. exact K.
      + intros x Hx. rewrite (ss_nodes S1). apply Hk. destruct Hx as [<-|Hx]; [left; reflexivity|right; right; exact Hx].
      + intros h2 S2 G2 A2 C2 N2 P2. apply HQ; try congruence.
        * apply (ss_trans S1 S2).
        * intros x b Hb. rewrite (N2 x b Hb), N1. destruct eq_dec as [[=]|]; [congruence|reflexivity].
        * intros x. rewrite P2, N1. destruct (in_dec eq_dec x (node :: l)) as [K|K], (in_dec eq_dec x (node :: m :: l)) as [K'|K']; try reflexivity.
          -- exfalso. apply K'. destruct K as [<-|K]; [left; reflexivity|right; right; exact K].
          -- destruct eq_dec as [_|K2]; [reflexivity|]. exfalso. destruct K' as [<-|[<-|K']]; [apply K; left; reflexivity|congruence|apply K; right; exact K'].
          -- destruct eq_dec as [[= ->]|_]; [exfalso; apply K'; right; left; reflexivity|reflexivity].
  Qed.
  Lemma lower_ok node a b h (Q : unit -> graph -> Prop) : In node (dkeys (g_nodes h)) -> nattr h node "lowlink" = VI a ->
    (forall h', same_shape h h' -> g_edges h' = g_edges h -> g_attr h' = g_attr h -> g_ncomp h' = g_ncomp h ->
       (forall x c, nattr h' x c = if eq_dec (x, c) (node, "lowlink") then VI (Z.min a b) else nattr h x c) -> Q tt h') -> ok (lower node (VI b)) h Q.
  Proof.
    intros Hn Ha HQ. unfold lower. apply ok_bind, ok_get_node_attr; [exact Hn|]. rewrite Ha. apply ok_bind, ok_as_int. apply ok_bind, ok_as_int.
    apply ok_set_node_attr; [exact Hn|]. intros h' S N E A C G. apply HQ; assumption.
  Qed.
  Lemma frame_step h h' : frame h -> same_shape h h' -> g_edges h' = g_edges h -> g_attr h' = g_attr h -> (forall x b, ~ In b tattrs -> nattr h' x b = nattr h x b) -> frame h'.
  Proof.
    intros F S E A N. constructor; [apply (ss_trans (fr_shape F) S)|intros x b Hb; rewrite (N x b Hb); apply (fr_node F x Hb)|rewrite E; apply (fr_edge F)|rewrite A; apply (fr_attr F)].
  Qed.
  Lemma frame_nodes h : frame h -> dkeys (g_nodes h) = nl.
  Proof. intros F. rewrite (ss_nodes (fr_shape F)). apply (wf_nodes W). Qed.

  (* what a call leaves alone *)
  Definition keep (h h' : graph) : Prop := forall x, vis h x -> nattr h' x "index" = nattr h x "index" /\ nattr h' x "lowlink" = nattr h x "lowlink".
  Lemma keep_vis h h' x : keep h h' -> vis h x -> vis h' x.
  Proof. intros K Hx. unfold vis. rewrite (proj1 (K x Hx)). exact Hx. Qed.
  Lemma keep_idx h h' x : keep h h' -> vis h x -> idx h' x = idx h x.
  Proof. intros K Hx. unfold idx. rewrite (proj1 (K x Hx)). reflexivity. Qed.
  Lemma keep_white h h' x : keep h h' -> nattr h' x "index" = VNone -> nattr h x "index" = VNone.
  Proof. intros K Hx. destruct (vis_dec h x) as [Hv|]; [|assumption]. exfalso. apply (keep_vis K Hv Hx). Qed.
  Lemma keep_refl h : keep h h.
  Proof. intros x _. auto. Qed.
  Lemma keep_trans h1 h2 h3 : keep h1 h2 -> keep h2 h3 -> keep h1 h3.
  Proof. intros A B x Hx. destruct (A x Hx) as [A1 A2]. destruct (B x (keep_vis A Hx)) as [B1 B2]. split; congruence. Qed.

  Definition low_ok (q : list name) (node : name) (n L : Z) (h : graph) : Prop := (L <= n)%Z /\ (L = n \/ exists x, In x q /\ idx h x = L /\ reach R node x).
  Lemma sc_ok fuel : forall q node n k gr h U, inv gr n k q h -> nattr h node "index" = VNone -> In node nl -> (forall x, In x gr -> reach R x node) ->
    (forall x, In x nl -> nattr h x "index" = VNone -> In x U) -> length U <= fuel ->
    ok (strong_connect fuel q node n k) h (fun s h' => exists n' k' q2 L, s = (n', k', q ++ q2) /\ inv gr n' k' (q ++ q2) h' /\ (forall x, In x q2 -> nattr h x "index" = VNone) /\ keep h h' /\
      idx h' node = n /\ vis h' node /\ nattr h' node "lowlink" = VI L /\ low_ok q node n L h' /\ (forall y z, In y q2 -> In z q -> R y z -> (L <= idx h' z)%Z)).
  Proof.
    induction fuel as [|fuel IH]; intros q node n k gr h U I Hw Hn Hr HU Hf.
    { exfalso. specialize (HU node Hn Hw). destruct U; [destruct HU|simpl in Hf; lia]. }
    cbn [strong_connect]. pose proof (frame_nodes (in_fr I)) as Kn.
    apply ok_bind, ok_set_node_attr; [rewrite Kn; exact Hn|]. intros h1 S1 N1 _ A1 C1 G1.
    apply ok_bind, ok_set_node_attr; [rewrite (ss_nodes S1), Kn; exact Hn|]. intros h2 S2 N2 _ A2 C2 G2.
    assert (N : forall x b, nattr h2 x b = if eq_dec (x, b) (node, "lowlink") then VI n else if eq_dec (x, b) (node, "index") then VI n else nattr h x b) by (intros; rewrite N2, N1; reflexivity).
    assert (F2 : frame h2).
    { apply (frame_step (in_fr I)); [apply (ss_trans S1 S2)|congruence|congruence|]. intros x b Hb. rewrite N. unfold tattrs in Hb. simpl in Hb. do 2 (destruct eq_dec as [[= _ ->]|_]; [exfalso; apply Hb; auto|]). reflexivity. }
    assert (I2 : inv (node :: gr) (n + 1) k (q ++ [node]) h2).
    { apply (inv_push I Hw Hr F2); [congruence| |].
      - intros x. rewrite N. destruct eq_dec as [[=]|_]. destruct (eq_dec x node) as [->|K]; (destruct eq_dec as [K'|K']; congruence).
      - intros x. rewrite N. destruct eq_dec as [[=]|_]. destruct eq_dec as [[=]|_]. reflexivity. }
    assert (Kp2 : keep h h2).
    { intros x Hx. assert (x <> node) by (intros ->; apply Hx, Hw). rewrite !N. split; (repeat (destruct eq_dec as [E|_]; [exfalso; congruence|])); reflexivity. }
    assert (X2 : idx h2 node = n) by (unfold idx; rewrite N; destruct eq_dec as [[=]|_]; destruct eq_dec as [_|K]; [reflexivity|congruence]).
    assert (L2 : nattr h2 node "lowlink" = VI n) by (rewrite N; destruct eq_dec as [_|K]; [reflexivity|congruence]).
    clear h1 S1 N1 A1 C1 G1 S2 N2 A2 C2 G2 N. unfold get_neighbors.
    apply ok_bind, ok_nbr_list; [rewrite (ss_node_list (fr_shape F2)); exact Hn|]. rewrite (ss_nbrs (fr_shape F2)).
    assert (Hl : forall y, In y (list_at (g_nbrs g) node) <-> R node y) by (intros y; split; [apply (nbr_check_edge W)|apply (check_edge_nbr W)]).
    apply ok_bind. apply ok_foldM with (I := fun pre s h1 => exists n1 k1 q3 L, s = (n1, k1, q ++ node :: q3) /\ inv (node :: gr) n1 k1 (q ++ node :: q3) h1 /\ (forall x, In x q3 -> nattr h x "index" = VNone) /\ keep h h1 /\
       idx h1 node = n /\ nattr h1 node "lowlink" = VI L /\ low_ok q node n L h1 /\ (forall y z, In y q3 -> In z q -> R y z -> (L <= idx h1 z)%Z) /\ (forall y, In y pre -> vis h1 y /\ (In y q -> (L <= idx h1 y)%Z))).
    - exists (n + 1)%Z, k, [], n. split; [reflexivity|]. split; [exact I2|]. split; [intros x []|]. split; [exact Kp2|]. split; [exact X2|]. split; [exact L2|]. split; [split; [lia|auto]|]. split; [intros y z []|intros y []].
    - intros pre m post s h1 El (n1 & k1 & q3 & L & -> & I1 & Wq & Kp & X1 & LL & [Lle Lex] & Lq & Lpre).
      assert (Rm : R node m) by (apply Hl; rewrite El; apply in_elt). assert (Hm : In m nl) by (apply (check_edge_nodes W Rm)).
      pose proof (frame_nodes (in_fr I1)) as K1. assert (Vn1 : vis h1 node) by (apply (in_q I1), in_elt).
      assert (Vq : forall z, In z q -> vis h1 z) by (intros z Hz; apply (in_q I1), in_app_iff; auto).
      apply ok_bind, ok_get_node_attr; [rewrite K1; exact Hm|]. destruct (eqb_spec (nattr h1 m "index") VNone) as [Em|Em].
      + (* a new node *)
        apply ok_bind. eapply ok_weaken; [apply (IH (q ++ node :: q3) m n1 k1 (node :: gr) h1 (remove eq_dec node U) I1 Em Hm)|].
        { intros x [<-|Hx]; [apply (reach_step (reach_refl _ _) Rm)|apply (reach_step (Hr x Hx) Rm)]. }
        { intros x Hx Hwx. apply in_in_remove; [intros ->; apply (Vn1 Hwx)|]. apply HU; [exact Hx|apply (keep_white Kp Hwx)]. }
        { pose proof (remove_length_lt eq_dec U node (HU node Hn Hw)). lia. }
        intros s h3 (n' & k' & q2 & Lm & -> & I3 & W3 & Kp3 & X3 & V3 & LL3 & [Lle3 Lex3] & Lq3).
        rewrite <- app_assoc in I3. cbn [app] in I3. pose proof (frame_nodes (in_fr I3)) as K3.
        apply ok_bind, ok_get_node_attr; [rewrite K3; exact Hm|]. rewrite LL3.
        assert (LLn : nattr h3 node "lowlink" = VI L) by (rewrite (proj2 (Kp3 node Vn1)); exact LL).
        apply ok_bind. eapply lower_ok; [rewrite K3; exact Hn|exact LLn|]. intros h4 S4 G4 A4 C4 N4. apply ok_ret.
        assert (Ei : forall x, nattr h4 x "index" = nattr h3 x "index") by (intros x; rewrite N4; destruct eq_dec as [[=]|]; reflexivity).
        assert (Ec : forall x, nattr h4 x "component" = nattr h3 x "component") by (intros x; rewrite N4; destruct eq_dec as [[=]|]; reflexivity).
        assert (F4 : frame h4).
        { apply (frame_step (in_fr I3) S4 G4 A4). intros x b Hb. rewrite N4. destruct eq_dec as [[= _ ->]|]; [exfalso; apply Hb; simpl; auto|reflexivity]. }
        assert (X4 : forall x, vis h1 x -> idx h4 x = idx h1 x) by (intros x Hx; rewrite <- (keep_idx Kp3 Hx); unfold idx; rewrite Ei; reflexivity).
        assert (V4 : forall x, vis h3 x -> vis h4 x) by (intros x Hx; unfold vis; rewrite Ei; exact Hx).
        exists n', k', (q3 ++ q2), (Z.min L Lm). split; [rewrite <- app_assoc; reflexivity|]. split; [apply (inv_ext I3 F4 C4 Ei Ec)|].
        split; [intros x Hx; apply in_app_iff in Hx as [Hx|Hx]; [apply (Wq x Hx)|apply (keep_white Kp), (W3 x Hx)]|].
        split.
        { intros x Hx. destruct (keep_trans Kp Kp3 Hx) as [J1 J2]. rewrite Ei. split; [exact J1|]. rewrite N4. destruct eq_dec as [[= ->]|]; [exfalso; apply (Hx Hw)|exact J2]. }
        split; [rewrite (X4 node Vn1); exact X1|]. split; [rewrite N4; destruct eq_dec as [_|K]; [reflexivity|congruence]|]. split.
        { split; [lia|]. destruct (Z.le_gt_cases L Lm) as [HL|HL].
          - rewrite Z.min_l by lia. destruct Lex as [->|(x & Hx & Ex & Rx)]; [left; reflexivity|]. right. exists x. split; [exact Hx|]. split; [rewrite (X4 x (Vq x Hx)); exact Ex|exact Rx].
          - rewrite Z.min_r by lia. right. destruct Lex3 as [->|(x & Hx & Ex & Rx)].
            { pose proof (idx_lt I1 Vn1) as Hlt. rewrite X1 in Hlt. lia. }
            exists x. rewrite (keep_idx Kp3 (in_q I1 Hx)) in Ex. split; [apply (older I1 Hx); lia|]. split; [rewrite (X4 x (in_q I1 Hx)); exact Ex|apply (reach_pre Rm Rx)]. }
        split.
        { intros y z Hy Hz Ryz. rewrite (X4 z (Vq z Hz)). apply in_app_iff in Hy as [Hy|Hy]; [specialize (Lq y z Hy Hz Ryz); lia|].
          specialize (Lq3 y z Hy ltac:(apply in_app_iff; auto) Ryz). rewrite (keep_idx Kp3 (Vq z Hz)) in Lq3. lia. }
        intros y Hy. apply in_app_iff in Hy as [Hy|[<-|[]]].
        * destruct (Lpre y Hy) as [P1 P2]. split; [apply V4, (keep_vis Kp3 P1)|]. intros Hq. specialize (P2 Hq). rewrite (X4 y P1). lia.
        * split; [apply V4, V3|]. intros Hq. exfalso. apply (Vq m Hq Em).
      + (* a node met before *)
        destruct (mem_spec m (q ++ node :: q3)) as [Hq1|Hq1].
        * apply ok_bind, ok_get_node_attr; [rewrite K1; exact Hm|]. destruct (in_idx I1 Em) as (im & Eim & _). rewrite Eim.
          apply ok_bind. eapply lower_ok; [rewrite K1; exact Hn|exact LL|]. intros h4 S4 G4 A4 C4 N4. apply ok_ret.
          assert (Ei : forall x, nattr h4 x "index" = nattr h1 x "index") by (intros x; rewrite N4; destruct eq_dec as [[=]|]; reflexivity).
          assert (Ec : forall x, nattr h4 x "component" = nattr h1 x "component") by (intros x; rewrite N4; destruct eq_dec as [[=]|]; reflexivity).
          assert (F4 : frame h4).
          { apply (frame_step (in_fr I1) S4 G4 A4). intros x b Hb. rewrite N4. destruct eq_dec as [[= _ ->]|]; [exfalso; apply Hb; simpl; auto|reflexivity]. }
          assert (X4 : forall x, idx h4 x = idx h1 x) by (intros x; unfold idx; rewrite Ei; reflexivity).
          assert (Xm : idx h1 m = im) by (unfold idx; rewrite Eim; reflexivity).
          exists n1, k1, q3, (Z.min L im). split; [reflexivity|]. split; [apply (inv_ext I1 F4 C4 Ei Ec)|]. split; [exact Wq|].
          split.
          { intros x Hx. destruct (Kp x Hx) as [J1 J2]. rewrite Ei. split; [exact J1|]. rewrite N4. destruct eq_dec as [[= ->]|]; [exfalso; apply (Hx Hw)|exact J2]. }
          split; [rewrite X4; exact X1|]. split; [rewrite N4; destruct eq_dec as [_|K]; [reflexivity|congruence]|]. split.
          { split; [lia|]. destruct (Z.le_gt_cases L im) as [HL|HL].
            - rewrite Z.min_l by lia. destruct Lex as [->|(x & Hx & Ex & Rx)]; [left; reflexivity|]. right. exists x. rewrite X4. auto.
            - rewrite Z.min_r by lia. right. exists m. rewrite X4. split; [apply (older I1 Hq1); lia|]. split; [exact Xm|apply (reach_step (reach_refl _ _) Rm)]. }
          split; [intros y z Hy Hz Ryz; rewrite X4; specialize (Lq y z Hy Hz Ryz); lia|].
          intros y Hy. apply in_app_iff in Hy as [Hy|[<-|[]]].
          -- destruct (Lpre y Hy) as [P1 P2]. split; [unfold vis; rewrite Ei; exact P1|]. intros Hq. specialize (P2 Hq). rewrite X4. lia.
          -- split; [unfold vis; rewrite Ei; exact Em|]. intros _. rewrite X4. lia.
        * apply ok_ret. exists n1, k1, q3, L. split; [reflexivity|]. split; [exact I1|]. split; [exact Wq|]. split; [exact Kp|]. split; [exact X1|]. split; [exact LL|]. split; [split; assumption|]. split; [exact Lq|].
          intros y Hy. apply in_app_iff in Hy as [Hy|[<-|[]]]; [apply (Lpre y Hy)|]. split; [exact Em|]. intros Hq. exfalso. apply Hq1, in_app_iff. auto.
    - (* after the loop *)
      intros s h1 (n1 & k1 & q3 & L & -> & I1 & Wq & Kp & X1 & LL & [Lle Lex] & Lq & Lpre).
      pose proof (frame_nodes (in_fr I1)) as K1. assert (Vn1 : vis h1 node) by (apply (in_q I1), in_elt). destruct (in_idx I1 Vn1) as (z & Ez & _).
      assert (z = n) as -> by (unfold idx in X1; rewrite Ez in X1; exact X1).
      assert (Hv : forall y, R node y -> vis h1 y) by (intros y Hy; apply Lpre, Hl, Hy).
      assert (Hgr : forall x, In x gr -> In x q) by (intros x Hx; apply (in_gr I Hx)).
      apply ok_bind, ok_get_node_attr; [rewrite K1; exact Hn|]. apply ok_bind, ok_get_node_attr; [rewrite K1; exact Hn|]. rewrite LL, Ez.
      destruct (eqb_spec (VI L) (VI n)) as [[= ->]|Hne].
      + pose proof (in_nd I1) as ND. apply NoDup_app_iff in ND as (NDq & ND3 & Dj). assert (Nn3 : ~ In node q3) by (inversion ND3; assumption).
        apply ok_bind. replace (rev (q ++ node :: q3)) with (rev q3 ++ node :: rev q) by (rewrite rev_app_distr; simpl; rewrite <- app_assoc; reflexivity).
        apply pop_ok; [rewrite <- in_rev; exact Nn3| |].
        { intros x Hx. rewrite K1. assert (Vx : vis h1 x) by (apply (in_q I1), in_app_iff; right; destruct Hx as [<-|Hx]; [left; reflexivity|right; apply in_rev, Hx]).
          unfold vis, nattr in Vx. rewrite <- K1. destruct (dget (g_nodes h1) x) eqn:E; [|congruence]. apply (dget_Some_keys E). }
        clear h2 F2 I2 Kp2 X2 L2. intros h2 S2' G2' A2' C2' N2' P2'. apply ok_bind, ok_modify. apply ok_ret. rewrite rev_involutive.
        set (h3 := with_ncomp h2 (Some (k1 + 1)%Z)). assert (N3 : forall x b, nattr h3 x b = nattr h2 x b) by reflexivity.
        assert (Hno : forall y z, In y (node :: q3) -> In z q -> ~ R y z).
        { intros y z Hy Hz Ryz. pose proof (younger I1 Hz) as Hlt. destruct Hy as [<-|Hy].
          - destruct (Lpre z (proj2 (Hl z) Ryz)) as [_ P]. specialize (P Hz). lia.
          - specialize (Lq y z Hy Hz Ryz). lia. }
        assert (F3 : frame h3).
        { apply (frame_step (in_fr I1)); [apply (ss_trans S2'); constructor; reflexivity|exact G2'|exact A2'|]. intros x b Hb. rewrite N3. apply N2'. intros ->. apply Hb. simpl. auto. }
        assert (Ei : forall x, nattr h3 x "index" = nattr h1 x "index") by (intros x; rewrite N3; apply N2'; discriminate).
        assert (I3 : inv gr n1 (k1 + 1) q h3).
        { apply (inv_pop I1 Hgr Hv Hno F3); [reflexivity|exact Ei|]. intros x. rewrite N3, P2'.
          destruct (in_dec eq_dec x (node :: rev q3)) as [K|K], (in_dec eq_dec x (node :: q3)) as [K'|K']; try reflexivity; exfalso.
          - apply K'. destruct K as [<-|K]; [left; reflexivity|right; apply in_rev, K].
          - apply K. destruct K' as [<-|K']; [left; reflexivity|right; apply in_rev in K'; exact K']. }
        exists n1, (k1 + 1)%Z, [], n. rewrite app_nil_r. split; [reflexivity|]. split; [exact I3|]. split; [intros x []|]. split.
        { intros x Hx. destruct (Kp x Hx) as [J1 J2]. rewrite Ei, N3, N2' by discriminate. auto. }
        split; [unfold idx; rewrite Ei; exact X1|]. split; [unfold vis; rewrite Ei; exact Vn1|]. split; [rewrite N3, N2' by discriminate; exact LL|]. split; [split; [lia|auto]|intros y z []].
      + assert (HL : (L < n)%Z) by (assert (L <> n) by (intros ->; apply Hne; reflexivity); lia). apply ok_ret.
        destruct Lex as [->|(x0 & Hx0 & Ex0 & Rx0)]; [lia|].
        exists n1, k1, (node :: q3), L. split; [reflexivity|]. split; [apply (inv_keep I1 Hgr Hx0 Rx0 Hv)|]. split; [intros x [<-|Hx]; [exact Hw|apply (Wq x Hx)]|]. split; [exact Kp|]. split; [exact X1|].
        split; [exact Vn1|]. split; [exact LL|]. split; [split; [lia|right; exists x0; auto]|]. intros y w [<-|Hy] Hw' Ryw; [apply (Lpre w); [apply Hl, Ryw|exact Hw']|apply (Lq y w Hy Hw' Ryw)].
  Qed.

  Lemma tarjan_ok fuel h : frame h -> g_ncomp h = Some 0%Z -> (forall x, In x nl -> nattr h x "index" = VNone) -> length nl <= fuel ->
    ok (tarjan fuel) h (fun _ h' => exists n k, inv [] n k [] h' /\ forall x, In x nl -> vis h' x).
  Proof.
    intros F C Hw Hf. unfold tarjan. apply ok_bind, ok_gets. rewrite (ss_node_list (fr_shape F)). apply ok_bind.
    assert (Nv : forall x, ~ vis h x).
    { intros x Hx. destruct (in_dec eq_dec x nl) as [K|K]; [apply (Hx (Hw x K))|]. apply Hx. unfold nattr. destruct (dget (g_nodes h) x) eqn:E; [|reflexivity]. exfalso. apply K. rewrite <- (frame_nodes F). apply (dget_Some_keys E). }
    assert (I0 : inv [] 0 0 [] h).
    { constructor; [exact F|exact C|lia|intros x Hx; exfalso; apply (Nv x Hx)|intros x []|intros x y Hx; destruct (before_split Hx) as [[] _]|constructor|intros x []
        |intros x y [Hx _]; exfalso; apply (Nv x Hx)|intros x [Hx _]; exfalso; apply (Nv x Hx)|intros x y [Hx _]; exfalso; apply (Nv x Hx)|intros c Hc; lia|intros x y []|intros y []|intros x y []]. }
    apply ok_foldM with (I := fun pre s h1 => exists n k, s = (n, k, []) /\ inv [] n k [] h1 /\ keep h h1 /\ forall x, In x pre -> vis h1 x).
    - exists 0%Z, 0%Z. split; [reflexivity|]. split; [exact I0|]. split; [apply keep_refl|intros x []].
    - intros pre m post s h1 El (n & k & -> & I1 & Kp & Hp). assert (Hm : In m nl) by (rewrite El; apply in_elt).
      apply ok_bind, ok_get_node_attr; [rewrite (frame_nodes (in_fr I1)); exact Hm|]. destruct (eqb_spec (nattr h1 m "index") VNone) as [Em|Em].
      + eapply ok_weaken; [apply (@sc_ok fuel [] m n k [] h1 nl I1 Em Hm); [intros x []|auto|exact Hf]|].
        intros s h2 (n' & k' & q2 & L & -> & I2 & _ & Kp2 & _ & V2 & _). cbn [app] in *. assert (q2 = []) as ->.
        { destruct q2 as [|y q2]; [reflexivity|]. exfalso. destruct (in_up I2 (y := y)) as (x & [] & _). left. reflexivity. }
        exists n', k'. split; [reflexivity|]. split; [exact I2|]. split; [apply (keep_trans Kp Kp2)|]. intros x Hx. apply in_app_iff in Hx as [Hx|[<-|[]]]; [apply (keep_vis Kp2 (Hp x Hx))|exact V2].
      + apply ok_ret. exists n, k. split; [reflexivity|]. split; [exact I1|]. split; [exact Kp|]. intros x Hx. apply in_app_iff in Hx as [Hx|[<-|[]]]; [apply (Hp x Hx)|exact Em].
    - intros s h1 (n & k & -> & I1 & _ & Hp). apply ok_ret. exists n, k. auto.
  Qed.
End Tarjan.
