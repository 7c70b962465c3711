(* Consequences of the search invariants, in terms of the API. *)
From Verif Require Import Py Util M_Graph M_Search P_Graph P_GraphLaws Spec P_Walk S_Span P_Span P_Attr S_Frontier P_Frontier P_SearchAbs P_Search P_SearchTop P_SearchInd P_Bfs P_Dijkstra P_Prim.
Set Implicit Arguments. Unset Strict Implicit.
Local Open Scope string_scope. Local Open Scope list_scope.

Lemma snb_sarc g rev x y : wf g -> In y (snb g rev x) <-> sarc g rev x y.
Proof. intros W. unfold snb. apply nbd_sarc; assumption. Qed.
Lemma reach_snb g rev x y : wf g -> reach (fun x y => In y (snb g rev x)) x y <-> reach (sarc g rev) x y.
Proof. intros W. apply reach_iff. intros; apply snb_sarc; assumption. Qed.
Lemma walk_snb g rev x p y : wf g -> walk (fun x y => In y (snb g rev x)) x p y <-> walk (sarc g rev) x p y.
Proof. intros W. apply walk_iff. intros; apply snb_sarc; assumption. Qed.
Lemma has_costs_snb g rev : wf g -> has_costs g rev -> forall x y, In y (snb g rev x) -> scost g x y <> None.
Proof.
  intros W H x y Hxy. apply (snb_sarc rev x y W) in Hxy. destruct (H x y Hxy) as [z Hz]. unfold scost, eattr. rewrite Hz. discriminate.
Qed.
Lemma cost_scost g x y : edge_cost g x y = match scost g x y with Some z => z | None => 0%Z end.
Proof. unfold edge_cost, scost, eattr. destruct (obs _ _) as [[]|]; reflexivity. Qed.

(* self-loops that could make the path reconstruction loop *)
Definition loops_ok (al : algo) (g : graph) (rev : bool) (s : name) : Prop :=
  match al with
  | DFS | Prim => forall x, x <> s -> ~ arc g x x
  | Dijkstra => forall x, x <> s -> arc g x x -> (0 <= edge_cost g x x)%Z
  | _ => True
  end.
Lemma sarc_self g rev x : sarc g rev x x <-> arc g x x.
Proof. unfold sarc. destruct (g_type g), rev; reflexivity. Qed.

Section T.
  Variable fr : frontier.
  Variable els : fq fr -> list name.
  Hypothesis Hbag : bag els.
  Variable al : algo.
  Hypothesis Hal : al <> OtherAlgo.
  Hypothesis Hpqa : fq_is_pq fr = is_pq_algo al.
  Hypothesis Hpq : is_pq_algo al = true -> prioq els.
  Variable g : graph.
  Hypothesis W : wf g.
  Variable rev : bool.
  Hypothesis Hcost : is_pq_algo al = true -> has_costs g rev.
  Variable component : option Z.
  Variable s0 : name.
  Hypothesis Hs0 : In s0 (get_node_list g).
  Variable q0 : fq fr.
  Hypothesis Hq0 : els q0 = [].
  Variable fuel : nat.
  Hypothesis Hf : enough g fuel.

  Lemma Hcost' : is_pq_algo al = true -> forall x y, In y (snb g rev x) -> scost g x y <> None.
  Proof. intros H. apply has_costs_snb; auto. Qed.

  Lemma search_reach : exists h pred,
    search fuel s0 None component q0 al rev g = (h, Ok (RPred pred)) /\
    (forall n, n = s0 \/ In n (dkeys pred) <-> reach (sarc g rev) s0 n) /\
    (forall n p, dget pred n = Some p -> sarc g rev p n).
  Proof.
    destruct (ok_ex (search_all Hbag Hal Hpqa Hpq W Hcost' component Hs0 Hq0 (X := fun _ => True) (fun _ _ _ _ _ => Logic.I) Logic.I Hf))
      as (h & r & Hr & t & -> & I & _ & He & _).
    exists h, (a_pred t). split; [assumption|]. split.
    - intros n. rewrite <- (reach_snb rev s0 n W). apply (done_reach n I He).
    - intros n p Hp. apply (snb_sarc rev p n W). apply (iv_pred I Hp).
  Qed.
  Lemma self_ok : loops_ok al g rev s0 -> forall cur (s s' : ast fr), Inv al (snb g rev) s0 els (get_node_list g) (Some cur) s -> cur_ok s0 els cur s ->
    In cur (snb g rev cur) -> a_edge al (scost g) cur cur s = Some s' -> s' = s \/ cur = s0.
  Proof using Hal W.
    clear Hpqa Hpq Hcost. intros HL cur s s' I (C1 & C2 & C3) Hself He. destruct (eq_dec cur s0) as [->|Hne]; [auto|]. left.
    pose proof Hself as Hself'. apply (snb_sarc rev cur cur W), sarc_self in Hself'.
    destruct al eqn:Eal; simpl in HL; try (exfalso; apply (HL cur Hne); assumption); try congruence.
    - unfold a_edge in He; simpl in He. assert (Hd : a_dist s cur <> None) by (apply (iv_dist I eq_refl); assumption).
      destruct (a_dist s cur) as [d|]; [|congruence]. congruence.
    - unfold a_edge in He; simpl in He. assert (Hd : a_dist s cur <> None) by (apply (iv_dist I eq_refl); assumption).
      destruct (a_dist s cur) as [d|]; [|congruence]. congruence.
    - unfold a_edge in He; simpl in He. destruct (fq_prio (a_q s) cur) as [pc|]; [|discriminate].
      specialize (HL cur Hne Hself'). rewrite cost_scost in HL. destruct (scost g cur cur) as [c|]; [|discriminate].
      destruct C3 as [?|C3]; [contradiction|]. apply dmem_In in C3. rewrite C3 in He.
      assert (Hlt : (pc + c <? pc)%Z = false) by (apply Z.ltb_ge; lia). rewrite Hlt in He. congruence.
  Qed.
  Lemma search_path d : loops_ok al g rev s0 -> exists h,
    (exists l, search fuel s0 (Some d) component q0 al rev g = (h, Ok (RPath l)) /\ walk (sarc g rev) s0 l d /\ NoDup l) \/
    (search fuel s0 (Some d) component q0 al rev g = (h, Ok RNone) /\ ~ reach (sarc g rev) s0 d).
  Proof.
    intros HL.
    destruct (ok_ex (search_dest Hbag Hal Hpqa Hpq W Hcost' component Hs0 Hq0 (X := fun _ => True) (self_ok HL) (fun _ _ _ _ _ => Logic.I) Logic.I Hf (d := d)))
      as (h & r & Hr & t & I & _ & _ & [(Hds & -> & He & Hnd & _)|(l & -> & Hb & Hnd & Hd & _)]); exists h.
    - right. split; [assumption|]. rewrite <- (reach_snb rev s0 d W). intros Hx. apply Hnd. apply (done_reach d I He). assumption.
    - left. exists l. split; [assumption|]. split; [|assumption]. apply (walk_snb rev s0 l d W). eapply bt_walk; eauto.
  Qed.
End T.

(** ** breadth-first search *)
Section B.
  Variable fr : frontier.
  Variable els : fq fr -> list name.
  Hypothesis Hfifo : fifo els.
  Hypothesis Hnp : fq_is_pq fr = false.
  Variable al : algo.
  Hypothesis Hbfs : is_bfs al = true.
  Variable g : graph.
  Hypothesis W : wf g.
  Variable rev : bool.
  Variable component : option Z.
  Variable s0 : name.
  Hypothesis Hs0 : In s0 (get_node_list g).
  Variable q0 : fq fr.
  Hypothesis Hq0 : els q0 = [].
  Variable fuel : nat.
  Hypothesis Hf : enough g fuel.
  Let Hpqa : fq_is_pq fr = is_pq_algo al.
  Proof. rewrite (bfs_npq Hbfs). exact Hnp. Qed.
  Let Hal : al <> OtherAlgo.
  Proof. intros ->. discriminate. Qed.
  Let Hpq : is_pq_algo al = true -> prioq els.
  Proof. rewrite (bfs_npq Hbfs). discriminate. Qed.
  Let Hcost : is_pq_algo al = true -> forall x y, In y (snb g rev x) -> scost g x y <> None.
  Proof. rewrite (bfs_npq Hbfs). discriminate. Qed.
  Let Hstep dest (s s' : ast fr) : Inv al (snb g rev) s0 els (get_node_list g) None s -> BX els (snb g rev) s0 None s -> a_iter al (snb g rev) (scost g) s0 dest s = Some (inl s') -> BX els (snb g rev) s0 None s'.
  Proof. apply BX_step; auto. apply (fifo_bag Hfifo). intros x y _ H. eapply snb_V; eauto. Qed.
  Let Hinit : BX els (snb g rev) s0 None (a_init al s0 (q_init al s0 q0)).
  Proof. apply BX_init; auto. unfold q_init. rewrite (fifo_push Hfifo), Hq0. reflexivity. Qed.

  Lemma bfs_path_frame d : exists h, same_shape g h /\ g_attr h = g_attr g /\
    ((exists l, search fuel s0 (Some d) component q0 al rev g = (h, Ok (RPath l)) /\ walk (sarc g rev) s0 l d /\ forall p, walk (sarc g rev) s0 p d -> length l <= length p) \/
    (search fuel s0 (Some d) component q0 al rev g = (h, Ok RNone) /\ ~ reach (sarc g rev) s0 d)).
  Proof.
    assert (HL : loops_ok al g rev s0) by (destruct al; try discriminate; exact Logic.I).
    assert (Hself : forall cur (s s' : ast fr), Inv al (snb g rev) s0 els (get_node_list g) (Some cur) s -> cur_ok s0 els cur s ->
        In cur (snb g rev cur) -> a_edge al (scost g) cur cur s = Some s' -> s' = s \/ cur = s0).
    { exact (self_ok Hal W HL). }
    destruct (ok_ex (search_dest (fifo_bag Hfifo) Hal Hpqa Hpq W Hcost component Hs0 Hq0 Hself (@Hstep (Some d)) Hinit Hf))
      as (h & r & Hr & t & I & B & _ & Hcase); exists h.
    assert (Hfr : same_shape g h /\ g_attr h = g_attr g).
    { destruct Hcase as [(_ & _ & _ & _ & HR)|(l & _ & _ & _ & _ & [(_ & _ & HR)|(_ & _ & _ & _ & HR)])]; split; try exact (r_ss HR); exact (r_attr HR). }
    split; [apply Hfr|]. split; [apply Hfr|]. destruct Hcase as [(Hds & -> & He & Hnd & _)|(l & -> & Hb & _ & Hd & Hc)].
    - right. split; [assumption|]. rewrite <- (reach_snb rev s0 d W). intros Hx. apply Hnd. apply (done_reach d I He). assumption.
    - left. exists l. split; [assumption|]. split; [apply (walk_snb rev s0 l d W); eapply bt_walk; eauto|].
      intros p Hp. apply (walk_snb rev s0 p d W) in Hp.
      pose proof (bt_len B Hb) as Hlen. assert (dz t d + 1 <= Z.of_nat (length p))%Z; [|lia].
      destruct Hc as [(-> & _ & _)|(_ & _ & Hpk & Hin & _)].
      + destruct (bx_src B). destruct p; [destruct (walk_ne Hp); reflexivity|simpl; lia].
      + apply (dz_min I B (p := p)); [|assumption]. right. destruct (els (a_q t)) as [|x l'] eqn:He; [destruct Hin|].
        exists l'. rewrite (fifo_peek Hfifo He) in Hpk. congruence.
  Qed.

  Lemma bfs_path d : exists h,
    (exists l, search fuel s0 (Some d) component q0 al rev g = (h, Ok (RPath l)) /\ walk (sarc g rev) s0 l d /\ forall p, walk (sarc g rev) s0 p d -> length l <= length p) \/
    (search fuel s0 (Some d) component q0 al rev g = (h, Ok RNone) /\ ~ reach (sarc g rev) s0 d).
  Proof. destruct (bfs_path_frame d) as (h & _ & _ & H). exists h. exact H. Qed.
  Lemma bfs_dist : exists h pred, search fuel s0 None component q0 al rev g = (h, Ok (RPred pred)) /\
    forall n, In n (get_node_list g) ->
      (reach (sarc g rev) s0 n -> exists k, hops (sarc g rev) s0 n k /\ obs (get_node_attr n "distance") h = Ok (VI (Z.of_nat k))) /\
      (~ reach (sarc g rev) s0 n -> obs (get_node_attr n "distance") h = Ok VNone).
  Proof.
    assert (HL : loops_ok al g rev s0) by (destruct al; try discriminate; exact Logic.I).
    assert (Hself : forall cur (s s' : ast fr), Inv al (snb g rev) s0 els (get_node_list g) (Some cur) s -> cur_ok s0 els cur s ->
        In cur (snb g rev cur) -> a_edge al (scost g) cur cur s = Some s' -> s' = s \/ cur = s0).
    { exact (self_ok Hal W HL). }
    pose (X := fun t => BX els (snb g rev) s0 None t /\ tree_ok s0 t).
    assert (HX : forall s s', Inv al (snb g rev) s0 els (get_node_list g) None s -> X s -> a_iter al (snb g rev) (scost g) s0 None s = Some (inl s') -> X s').
    { intros s s' I [B T] Hi. split; [eapply Hstep; eauto|].
      exact (tree_step (fifo_bag Hfifo) Hpq (fun _ => Hnp) Hal (HnbV W (rev := rev)) Hcost Hself I T Hi). }
    assert (X0 : X (a_init al s0 (q_init al s0 q0))) by (split; [exact Hinit|intros n []]).
    destruct (ok_ex (search_all (fifo_bag Hfifo) Hal Hpqa Hpq W Hcost component Hs0 Hq0 HX X0 Hf))
      as (h & r & Hr & t & -> & I & [B T] & He & HR).
    exists h, (a_pred t). split; [assumption|]. intros n Hn.
    assert (Hobs : obs (get_node_attr n "distance") h = Ok (voZ (a_dist t n))).
    { rewrite obs_nattr; [f_equal; apply (r_dist HR); assumption|]. eapply R_V; eauto. }
    rewrite Hobs. pose proof (iv_dist I (bfs_npq Hbfs) n) as Hdd. pose proof (done_reach n I He) as Hre. rewrite (reach_snb rev s0 n W) in Hre. split.
    - intros Hx. apply Hre in Hx. destruct (iv_disc I Hx) as [Hg|Hg]; [|rewrite He in Hg; destruct Hg].
      destruct (T n Hg) as (l & Hl & _ & _). pose proof (bt_len B Hl) as Hlen. apply Hdd in Hx. unfold dz in Hlen.
      destruct (a_dist t n) as [z|] eqn:Hz; [|congruence]. exists (length l - 1).
      assert (Hw := bt_walk I Hl). pose proof (walk_ne Hw) as Hne. assert (Hpos : 0 < length l) by (destruct l; [congruence|simpl; lia]).
      split; [split|].
      + exists l. split; [apply (walk_snb rev s0 l n W); assumption|lia].
      + intros p Hp. apply (walk_snb rev s0 p n W) in Hp. pose proof (dz_min I B (or_introl Hg) Hp) as Hm. unfold dz in Hm. rewrite Hz in Hm. lia.
      + simpl. do 2 f_equal. lia.
    - intros Hx. rewrite <- Hre, Hdd in Hx. destruct (a_dist t n); [|reflexivity]. exfalso. apply Hx. discriminate.
  Qed.
End B.

(** ** Dijkstra *)
Section D.
  Variable fr : frontier.
  Variable els : fq fr -> list name.
  Hypothesis Hpq : prioq els.
  Variable g : graph.
  Hypothesis W : wf g.
  Variable rev : bool.
  Hypothesis Hcost : nonneg_costs g rev.
  Variable component : option Z.
  Variable s0 : name.
  Hypothesis Hs0 : In s0 (get_node_list g).
  Hypothesis Hloop : ~ arc g s0 s0.
  Variable q0 : fq fr.
  Hypothesis Hq0 : els q0 = [].
  Variable fuel : nat.
  Hypothesis Hf : enough g fuel.
  Let Hpqa : fq_is_pq fr = is_pq_algo Dijkstra := pq_is_pq Hpq.
  Let Hal : Dijkstra <> OtherAlgo. Proof. discriminate. Qed.
  Let Hc : forall x y, In y (snb g rev x) -> exists c, scost g x y = Some c /\ (0 <= c)%Z.
  Proof.
    intros x y H. apply (snb_sarc rev x y W) in H. destruct (Hcost H) as (z & Hz & H0). exists z. split; [|assumption].
    unfold scost, eattr. rewrite Hz. reflexivity.
  Qed.
  Let Hc1 : is_pq_algo Dijkstra = true -> forall x y, In y (snb g rev x) -> scost g x y <> None.
  Proof. intros _ x y H. destruct (Hc H) as (c & -> & _). discriminate. Qed.
  Let Hl : ~ In s0 (snb g rev s0).
  Proof. rewrite (snb_sarc rev s0 s0 W), sarc_self. assumption. Qed.
  Let Hself : forall cur (s s' : ast fr), Inv Dijkstra (snb g rev) s0 els (get_node_list g) (Some cur) s -> cur_ok s0 els cur s ->
        In cur (snb g rev cur) -> a_edge Dijkstra (scost g) cur cur s = Some s' -> s' = s \/ cur = s0.
  Proof.
    apply (self_ok Hal W). intros x _ Hx. rewrite cost_scost. apply (sarc_self g rev x), (snb_sarc rev x x W) in Hx.
    destruct (Hc Hx) as (c & -> & H). assumption.
  Qed.
  Let Hstep dest (s s' : ast fr) : Inv Dijkstra (snb g rev) s0 els (get_node_list g) None s -> DX (snb g rev) (scost g) s0 None s -> a_iter Dijkstra (snb g rev) (scost g) s0 dest s = Some (inl s') -> DX (snb g rev) (scost g) s0 None s'.
  Proof. eapply DX_step; eauto. intros x y _ H. eapply snb_V; eauto. Qed.
  Let Hinit : DX (snb g rev) (scost g) s0 None (a_init Dijkstra s0 (q_init Dijkstra s0 q0)).
  Proof.
    apply DX_init. intros x. unfold q_init. simpl. rewrite (pq_push Hpq). destruct (eq_dec s0 x); [reflexivity|].
    destruct (fq_prio q0 x) eqn:Hx; [|reflexivity]. assert (Hin : In x (els q0)) by (apply (pq_prio Hpq); congruence). rewrite Hq0 in Hin. destruct Hin.
  Qed.
  Let Hwc p : wcost (edge_cost g) p = wcost (cz (scost g)) p.
  Proof.
    induction p as [|a [|b p] IH]; [reflexivity|reflexivity|]. rewrite !wcost_cons2, IH. unfold cz at 1. rewrite cost_scost. reflexivity.
  Qed.
  Lemma dij_path d : exists h,
    (exists l, search fuel s0 (Some d) component q0 Dijkstra rev g = (h, Ok (RPath l)) /\ walk (sarc g rev) s0 l d /\
        forall p, walk (sarc g rev) s0 p d -> (wcost (edge_cost g) l <= wcost (edge_cost g) p)%Z) \/
    (search fuel s0 (Some d) component q0 Dijkstra rev g = (h, Ok RNone) /\ ~ reach (sarc g rev) s0 d).
  Proof.
    destruct (ok_ex (search_dest (pq_bag Hpq) Hal Hpqa (fun _ => Hpq) W Hc1 component Hs0 Hq0 Hself (@Hstep (Some d)) Hinit Hf))
      as (h & r & Hr & t & I & D & _ & [(Hds & -> & He & Hnd & _)|(l & -> & Hb & _ & Hd & Hcs)]); exists h.
    - right. split; [assumption|]. rewrite <- (reach_snb rev s0 d W). intros Hx. apply Hnd. apply (done_reach d I He). assumption.
    - left. exists l. split; [assumption|]. split; [apply (walk_snb rev s0 l d W); eapply bt_walk; eauto|].
      intros p Hp. apply (walk_snb rev s0 p d W) in Hp. rewrite !Hwc.
      pose proof (bt_cost I D Hb) as Hv. destruct Hcs as [(-> & -> & _)|(_ & Hg & Hpk & _ & _)].
      + destruct (dx_src D) as [_ S2]. rewrite S2 in Hv. injection Hv as <-. eapply wcost_nonneg; [|exact Hp].
        intros x y Hxy. apply (cz_nonneg Hc Hxy).
      + eapply val_min; eauto.
  Qed.
  Lemma dij_all : exists h pred, search fuel s0 None component q0 Dijkstra rev g = (h, Ok (RPred pred)) /\
    forall n, reach (sarc g rev) s0 n -> exists z, least_cost (sarc g rev) (edge_cost g) s0 n z /\
      obs (get_node_attr n "priority") h = Ok (VI z) /\
      (exists l, walk (pred_arc pred) s0 l n) /\
      (forall l, walk (pred_arc pred) s0 l n -> walk (sarc g rev) s0 l n /\ wcost (edge_cost g) l = z).
  Proof.
    pose (X := fun t : ast fr => DX (snb g rev) (scost g) s0 None t /\ tree_ok s0 t).
    assert (HX : forall s s', Inv Dijkstra (snb g rev) s0 els (get_node_list g) None s -> X s -> a_iter Dijkstra (snb g rev) (scost g) s0 None s = Some (inl s') -> X s').
    { intros s s' I [B T] Hi. split; [eapply Hstep; eauto|].
      exact (tree_step (pq_bag Hpq) (fun _ => Hpq) (fun H : is_pq_algo Dijkstra = false => match Bool.diff_true_false H with end) Hal (HnbV W (rev := rev)) Hc1 Hself I T Hi). }
    assert (X0 : X (a_init Dijkstra s0 (q_init Dijkstra s0 q0))) by (split; [exact Hinit|intros n []]).
    destruct (ok_ex (search_all (pq_bag Hpq) Hal Hpqa (fun _ => Hpq) W Hc1 component Hs0 Hq0 HX X0 Hf))
      as (h & r & Hr & t & -> & I & [D T] & He & HR).
    exists h, (a_pred t). split; [assumption|]. intros n Hn.
    pose proof (done_reach n I He) as Hre. rewrite (reach_snb rev s0 n W) in Hre. apply Hre in Hn as Hd.
    destruct (iv_disc I Hd) as [Hg|Hg]; [|rewrite He in Hg; destruct Hg].
    destruct (T n Hg) as (l & Hl1 & _ & _). pose proof (bt_cost I D Hl1) as Hv. pose proof Hv as Hv'. rewrite val_green in Hv' by assumption.
    assert (Hbw : forall l m, bt s0 (a_pred t) l m -> walk (pred_arc (a_pred t)) s0 l m).
    { induction 1 as [|l' p m Hb IH Hm Hp]; [constructor|]. eapply walk_snoc; [exact IH|exact Hp]. }
    assert (Hwb : forall l m, walk (pred_arc (a_pred t)) s0 l m -> bt s0 (a_pred t) l m).
    { intros l' m Hw. remember (length l') as k eqn:Hk. revert l' m Hw Hk. induction k as [|k IH]; intros l' m Hw Hk; [destruct l'; [destruct (walk_ne Hw); reflexivity|discriminate]|].
      destruct (walk_snoc_inv Hw) as [[-> <-]|(q & b & -> & Hq & Hb)]; [constructor|].
      apply bt_cons with (p := b); [apply IH; [assumption|rewrite app_length in Hk; simpl in Hk; lia]| |exact Hb].
      intros ->. unfold pred_arc in Hb. destruct (dx_src D) as [S1 _]. apply S1. eapply dget_Some_keys; eauto. }
    exists (wcost (edge_cost g) l). rewrite Hwc. split; [split|split; [|split]].
    - exists l. split; [apply (walk_snb rev s0 l n W); eapply bt_walk; eauto|apply Hwc].
    - intros p Hp. apply (walk_snb rev s0 p n W) in Hp. rewrite Hwc. eapply val_min; eauto.
    - rewrite obs_nattr; [|eapply R_V; [exact W|exact HR|apply (iv_reach I Hd)]]. f_equal.
      rewrite (r_prio HR) by congruence. rewrite Hv'. reflexivity.
    - exists l. auto.
    - intros l2 Hl2. apply Hwb in Hl2. split; [apply (walk_snb rev s0 l2 n W); eapply bt_walk; eauto|].
      pose proof (bt_cost I D Hl2) as Hv2. rewrite Hwc. congruence.
  Qed.
End D.

(** ** Prim *)
Section P.
  Variable fr : frontier.
  Variable els : fq fr -> list name.
  Hypothesis Hpq : prioq els.
  Variable g : graph.
  Hypothesis W : wf g.
  Hypothesis Hund : g_type g = Undirected.
  Variable rev : bool.
  Hypothesis Hcost : has_costs g rev.
  Variable component : option Z.
  Variable s0 : name.
  Hypothesis Hs0 : In s0 (get_node_list g).
  Hypothesis Hloop : forall x, ~ arc g x x.
  Variable q0 : fq fr.
  Hypothesis Hq0 : els q0 = [].
  Variable fuel : nat.
  Hypothesis Hf : enough g fuel.
  Let Hpqa : fq_is_pq fr = is_pq_algo Prim := pq_is_pq Hpq.
  Let Hal : Prim <> OtherAlgo. Proof. discriminate. Qed.
  Let Hc : forall x y, In y (snb g rev x) -> scost g x y <> None := has_costs_snb W Hcost.
  Let Hl : forall x, ~ In x (snb g rev x).
  Proof. intros x. rewrite (snb_sarc rev x x W), sarc_self. auto. Qed.
  Let Hsa : forall x y, sarc g rev x y <-> arc g x y.
  Proof. intros. unfold sarc. rewrite Hund. destruct rev; reflexivity. Qed.
  Let Hsnb : forall x y, In y (snb g rev x) <-> arc g x y.
  Proof. intros. rewrite (snb_sarc rev x y W). apply Hsa. Qed.
  Lemma edge_cost_sym x y : edge_cost g x y = edge_cost g y x.
  Proof.
    unfold edge_cost, obs, get_edge_attr. rewrite Hund. simpl.
    destruct (eq_dec x y) as [->|Hne]; [reflexivity|].
    pose proof (wf_anti W Hund Hne) as Ha.
    destruct (dget (g_edges g) (x, y)) as [d1|] eqn:H1, (dget (g_edges g) (y, x)) as [d2|] eqn:H2; try reflexivity.
    - exfalso. apply Ha; eapply dget_Some_keys; eauto.
  Qed.
  Lemma prim_mst : exists h pred, search fuel s0 None component q0 Prim rev g = (h, Ok (RPred pred)) /\
    forall Es, component_edges g s0 Es ->
      min_spanning_forest (fun e => edge_cost g (fst e) (snd e)) Es (pred_edges g pred) /\
      ((forall e, In e Es -> 0 <= edge_cost g (fst e) (snd e))%Z -> min_connecting (fun e => edge_cost g (fst e) (snd e)) Es (pred_edges g pred)).
  Proof.
    pose (X := fun t : ast fr => PX (snb g rev) (scost g) s0 t /\ NoDup (dkeys (a_pred t))).
    assert (HX : forall s s', Inv Prim (snb g rev) s0 els (get_node_list g) None s -> X s -> a_iter Prim (snb g rev) (scost g) s0 None s = Some (inl s') -> X s').
    { intros s s' I [P N] Hi. split; [eapply PX_step; eauto; intros x y _ H; eapply snb_V; eauto|].
      clear P. revert I N Hi.
      apply iter_ind with (els := els) (V := get_node_list g) (X := fun t : ast fr => NoDup (dkeys (a_pred t))) (Y := fun _ _ t => NoDup (dkeys (a_pred t))); auto; try discriminate.
      - apply (pq_bag Hpq).
      - intros x y _ H. eapply snb_V; eauto.
      - intros t cur _ N _ _ _. rewrite visit_pred. assumption.
      - intros cur pre n t t' _ _ Hn _ N He. destruct (edge_prim Hc He (nb := snb g rev)) as [(-> & _)|(-> & _)]; [assumption|assumption|]. apply NoDup_dset. assumption. }
    assert (X0 : X (a_init Prim s0 (q_init Prim s0 q0))) by (split; [apply PX_init|constructor]).
    destruct (ok_ex (search_all (pq_bag Hpq) Hal Hpqa (fun _ => Hpq) W (fun _ => Hc) component Hs0 Hq0 HX X0 Hf))
      as (h & r & Hr & t & -> & I & [P N] & He & HR).
    exists h, (a_pred t). split; [assumption|]. intros Es HEs.
    set (c := fun e : edge => edge_cost g (fst e) (snd e)).
    assert (Hz : forall x y, pz (scost g) x y = edge_cost g x y) by (intros; unfold pz; symmetry; apply cost_scost).
    assert (Hlist : forall p x, listed g p x = (p, x) \/ listed g p x = (x, p)) by (intros; unfold listed; destruct (mem _ _); auto).
    assert (HrE : forall x, reach (fun x y => In y (snb g rev x)) s0 x <-> reach (arc g) s0 x) by (intros; apply reach_iff; intros; apply Hsnb).
    assert (Harc : forall p x, arc g p x <-> In (listed g p x) (get_edge_list g)).
    { intros p x. unfold arc, check_edge. rewrite Hund. unfold listed. destruct (mem_spec (p, x) (get_edge_list g)) as [Hi|Hi].
      - split; [auto|]. intros _. apply dmem_In in Hi. rewrite Hi. reflexivity.
      - pose proof Hi as Hi'. apply dmem_nIn in Hi. rewrite Hi. simpl. apply dmem_In. }
    assert (HEn : forall p x, reach (fun x y => In y (snb g rev x)) s0 p -> In x (snb g rev p) -> In (listed g p x) Es).
    { intros p x Hp Hx. apply HEs. apply Hsnb in Hx. split; [apply Harc; assumption|].
      apply HrE in Hp. destruct (Hlist p x) as [-> | ->]; simpl; [assumption|]. eapply reach_step; eauto. }
    assert (HE : forall x y, In (x, y) Es -> In y (snb g rev x) /\ In x (snb g rev y) /\ c (x, y) = pz (scost g) x y /\ c (x, y) = pz (scost g) y x /\
        reach (fun x y => In y (snb g rev x)) s0 x /\ reach (fun x y => In y (snb g rev x)) s0 y).
    { intros x y Hxy. apply HEs in Hxy as [H1 H2]. simpl in H2.
      assert (A : arc g x y) by (unfold arc, check_edge; rewrite Hund; assert (H1' : dmem (g_edges g) (x, y) = true) by (apply dmem_In; exact H1); rewrite H1'; reflexivity).
      assert (A' : arc g y x) by (unfold arc in *; rewrite check_edge_sym; assumption).
      rewrite !Hsnb, !HrE, !Hz. unfold c; simpl. repeat split; auto; [apply edge_cost_sym|]. eapply reach_step; eauto. }
    assert (Hcn : forall p x, In x (snb g rev p) -> c (listed g p x) = pz (scost g) p x).
    { intros p x _. rewrite Hz. unfold c. destruct (Hlist p x) as [-> | ->]; simpl; [reflexivity|apply edge_cost_sym]. }
    destruct (prim_final (norm := listed g) (Es := Es) (c := c) Hlist Hcn HEn HE I P He N) as (F1 & F2 & F3).
    split.
    - apply (msf_perm F3). apply cutseq_min; assumption.
    - intros H0. apply (mc_perm F3). eapply cutseq_connecting; eauto.
  Qed.
End P.
