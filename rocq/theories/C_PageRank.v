(* page_rank: C41. *)
From Verif Require Import Py Util M_Graph P_Graph P_GraphLaws M_PageRank P_PageRank P_PageConv.
From Coq Require Import QArith Qabs Qpower Permutation Lqa.
Local Open Scope list_scope.
Local Open Scope Q_scope.

(** * Specification *)
Definition arcs_from (g : graph) (n : name) := filter (fun e => Py.eqb (fst e) n) (get_edge_list g).
Definition arcs_into (g : graph) (n : name) := filter (fun e => Py.eqb (snd e) n) (get_edge_list g).
Definition value (r : dict name Q) (n : name) : Q := match dget r n with Some q => q | None => 0 end.
(* (1 - d)/N + sum over the arcs (m, n) of d * r(m) / (number of arcs leaving m) *)
Definition equation_of (d : Q) (g : graph) (v : name -> Q) (n : name) : Q :=
  (1 - d) / qnat (length (get_node_list g)) +
  qsum (fun e => d * v (fst e) / qnat (length (arcs_from g (fst e)))) (arcs_into g n).
Definition equation (d : Q) (g : graph) (r : dict name Q) (n : name) : Q := equation_of d g (value r) n.
(* the page rank: a solution of the equations *)
Definition solution (d : Q) (g : graph) (p : name -> Q) : Prop := forall n, In n (get_node_list g) -> p n == equation_of d g p n.

Lemma out_perm g m : wf g -> g_type g = Directed -> Permutation (list_at (g_nbrs g) m) (map snd (arcs_from g m)).
Proof.
  intros W T. apply NoDup_Permutation.
  - apply (NoDup_count_occ eq_dec). intros x. rewrite (wf_nbrs W). unfold nb_count. rewrite T. destruct (dmem (g_edges g) (m, x)); cbn; lia.
  - unfold arcs_from, get_edge_list. pose proof (wf_ne W) as ND. induction ND as [|[a b] t Hn Hd IH]; [constructor|]. cbn [filter fst]. destruct (Py.eqb a m) eqn:E; [|exact IH].
    apply (proj1 (Py.eqb_true _ _)) in E. subst a. cbn [map snd]. constructor; [|exact IH]. intros H. apply in_map_iff in H as ([a c] & Ec & H). cbn in Ec. subst c.
    apply filter_In in H as [H E]. cbn in E. apply (proj1 (Py.eqb_true _ _)) in E. subst a. contradiction.
  - intros x. rewrite in_map_iff. split.
    + intros H. apply (count_occ_In eq_dec) in H. rewrite (wf_nbrs W) in H. unfold nb_count in H. rewrite T in H. destruct (dmem (g_edges g) (m, x)) eqn:E; [|cbn in H; lia].
      exists (m, x). split; [reflexivity|]. apply filter_In. split; [apply dmem_In; exact E|apply Py.eqb_refl].
    + intros ([a c] & Ec & H). cbn in Ec. subst c. apply filter_In in H as [H E]. cbn in E. apply (proj1 (Py.eqb_true _ _)) in E. subst a.
      apply (count_occ_In eq_dec). rewrite (wf_nbrs W). unfold nb_count. rewrite T. apply dmem_In in H. rewrite H. cbn. lia.
Qed.
Lemma in_perm g m : wf g -> g_type g = Directed -> Permutation (list_at (g_in g) m) (map fst (arcs_into g m)).
Proof.
  intros W T. apply NoDup_Permutation.
  - exact (ins_NoDup W T m).
  - unfold arcs_into, get_edge_list. pose proof (wf_ne W) as ND. induction ND as [|[b a] t Hn Hd IH]; [constructor|]. cbn [filter snd]. destruct (Py.eqb a m) eqn:E; [|exact IH].
    apply (proj1 (Py.eqb_true _ _)) in E. subst a. cbn [map fst]. constructor; [|exact IH]. intros H. apply in_map_iff in H as ([c a] & Ec & H). cbn in Ec. subst c.
    apply filter_In in H as [H E]. cbn in E. apply (proj1 (Py.eqb_true _ _)) in E. subst a. contradiction.
  - intros x. rewrite in_map_iff. split.
    + intros H. apply (count_occ_In eq_dec) in H. rewrite (wf_ins W), T in H. destruct (dmem (g_edges g) (x, m)) eqn:E; [|cbn in H; lia].
      exists (x, m). split; [reflexivity|]. apply filter_In. split; [apply dmem_In; exact E|apply Py.eqb_refl].
    + intros ([c a] & Ec & H). cbn in Ec. subst c. apply filter_In in H as [H E]. cbn in E. apply (proj1 (Py.eqb_true _ _)) in E. subst a.
      apply (count_occ_In eq_dec). rewrite (wf_ins W), T. apply dmem_In in H. rewrite H. cbn. lia.
Qed.
Lemma equation_rhs d g r n : wf g -> g_type g = Directed ->
  rhs d ((1 - d) / qnat (length (get_node_list g))) g r n == equation d g r n.
Proof.
  intros W T. unfold rhs, equation. apply Qplus_comp; [reflexivity|]. rewrite (@qsum_perm _ _ _ _ (in_perm g n W T)), qsum_map. apply qsum_ext. intros e He.
  unfold share, outdeg. rewrite (Permutation_length (out_perm g (fst e) W T)), map_length. reflexivity.
Qed.

Lemma init_ranks (q : Q) (l : list name) : NoDup l -> fold_left (fun d n => dset d n q) l [] = map (fun n => (n, q)) l.
Proof.
  intros H. assert (G : forall l (d : ranks), NoDup (dkeys d ++ l) -> fold_left (fun d n => dset d n q) l d = d ++ map (fun n => (n, q)) l).
  { clear. induction l as [|x t IH]; intros d H; [cbn; rewrite app_nil_r; reflexivity|]. cbn [fold_left map].
    assert (N : ~ In x (dkeys d)) by (apply NoDup_remove_2 in H; rewrite in_app_iff in H; tauto).
    rewrite dkeys_dset_nin by exact N. rewrite IH; [rewrite <- app_assoc; reflexivity|]. unfold dkeys in *. rewrite map_app, <- app_assoc. exact H. }
  apply (G l []). exact H.
Qed.
Lemma dget_pairs (q : Q) (l : list name) n : In n l -> dget (map (fun n => (n, q)) l) n = Some q.
Proof. induction l as [|x t IH]; intros H; [destruct H|]. cbn. destruct (eq_dec n x); [reflexivity|]. destruct H as [->|H]; [congruence|auto]. Qed.

(** * The call succeeds and gives one value to each node *)
Theorem C41_page_rank : forall g d k eps, wf g -> g_type g = Directed -> 0 <= d <= 1 ->
  exists r, page_rank d k eps g = (g, Ok r) /\ dkeys r = get_node_list g /\
    forall n, In n (get_node_list g) -> exists v, dget r n = Some v /\ (1 - d) / qnat (length (get_node_list g)) <= v.
Proof.
  intros g d k eps W T [D0 D1]. unfold page_rank, bind, gets. destruct (length (get_node_list g)) as [|N] eqn:EN.
  { exists []. destruct (get_node_list g); [|discriminate]. split; [reflexivity|]. split; [reflexivity|]. intros n []. }
  set (mv := (1 - d) / qnat (S N)). rewrite (init_ranks _ _ (wf_nd W)). change (dkeys (g_nbrs g)) with (get_node_list g).
  set (pr := map (fun n => (n, 1 / qnat (S N))) (get_node_list g)).
  assert (P : 1 <= qnat (S N)) by (apply qnat_pos; lia). destruct (qinv_le1 P) as [I0 I1].
  assert (MV : 0 <= mv) by (unfold mv, Qdiv; apply Qmult_le_0_compat; lra).
  assert (K : dkeys pr = get_node_list g) by (unfold pr, dkeys; rewrite map_map; cbn; apply map_id).
  assert (V : 0 <= 1 / qnat (S N)) by (unfold Qdiv; lra).
  destruct (sweeps_ok W T D0 MV eps k (pr := pr)) as (r & E & Kr & Lr & _); [rewrite K; auto|].
  exists r. split; [exact E|]. split; [congruence|]. intros n Hn.
  assert (Hk : In n (dkeys r)) by (rewrite Kr, K; exact Hn). destruct (dget_exists Hk) as [v Hv]. exists v. split; [exact Hv|].
  assert (L : mv <= rank r n); [|unfold rank in L; rewrite Hv in L; exact L]. apply Lr; [| |exact Hn].
  - intros m. unfold rank. destruct (dget pr m) as [q|] eqn:Eq; [|lra]. apply dget_In, in_map_iff in Eq as (x & [= _ <-] & _). exact V.
  - intros m Hm. unfold rank, pr. rewrite dget_pairs by exact Hm. unfold mv, Qdiv. apply Qmult_le_compat_r; lra.
Qed.
Print Assumptions C41_page_rank.

(* If one more permitted iteration makes no difference, the values satisfy the PageRank
   equations up to damping * min_delta. *)
Theorem C41_fixed_point : forall g d k eps r r', wf g -> g_type g = Directed -> 0 <= d <= 1 ->
  page_rank d k eps g = (g, Ok r) -> page_rank d (S k) eps g = (g, Ok r') ->
  (forall n, In n (get_node_list g) -> value r n == value r' n) ->
  forall n, In n (get_node_list g) -> Qabs (value r n - equation d g r n) <= d * Qabs eps.
Proof.
  intros g d k eps r r' W T [D0 D1] E E' Same n Hn. unfold page_rank, bind, gets in E, E'. destruct (length (get_node_list g)) as [|N] eqn:EN.
  { destruct (get_node_list g); [destruct Hn|discriminate]. }
  set (mv := (1 - d) / qnat (S N)) in *. pose proof (init_ranks (1 / qnat (S N)) (get_node_list g) (wf_nd W)) as IR. rewrite IR in E, E'. change (dkeys (g_nbrs g)) with (get_node_list g) in *.
  set (pr := map (fun n => (n, 1 / qnat (S N))) (get_node_list g)) in *.
  assert (P : 1 <= qnat (S N)) by (apply qnat_pos; lia). destruct (qinv_le1 P) as [I0 I1].
  assert (MV : 0 <= mv) by (unfold mv, Qdiv; apply Qmult_le_0_compat; lra).
  assert (K : dkeys pr = get_node_list g) by (unfold pr, dkeys; rewrite map_map; cbn; apply map_id).
  destruct (sweeps_ok W T D0 MV eps k (pr := pr)) as (r1 & E1 & Kr & Lr & r2 & E2 & F); [rewrite K; auto|].
  rewrite E1 in E. rewrite E2 in E'. injection E as ->. injection E' as ->.
  rewrite <- (equation_rhs d g r n W T). rewrite EN. fold mv. apply F; [|exact Hn]. intros m Hm. symmetry. exact (Same m Hm).
Qed.
Print Assumptions C41_fixed_point.

(* No damping factor, positive or not, makes the call raise. *)
Theorem C41_never_raises : forall g d k eps, wf g -> g_type g = Directed -> exists r, page_rank d k eps g = (g, Ok r) /\ dkeys r = get_node_list g.
Proof.
  intros g d k eps W T. unfold page_rank, bind, gets. destruct (length (get_node_list g)) as [|N] eqn:EN.
  { exists []. destruct (get_node_list g); [|discriminate]. split; reflexivity. }
  set (mv := (1 - d) / qnat (S N)). rewrite (init_ranks _ _ (wf_nd W)). change (dkeys (g_nbrs g)) with (get_node_list g).
  set (pr := map (fun n => (n, 1 / qnat (S N))) (get_node_list g)).
  assert (K : dkeys pr = get_node_list g) by (unfold pr, dkeys; rewrite map_map; cbn; apply map_id). clearbody pr. clear EN. clearbody mv.
  assert (Sw : forall pr, dkeys pr = get_node_list g -> exists diff pr', sweep d mv (get_node_list g) pr g = (g, Ok (diff, pr')) /\ dkeys pr' = get_node_list g).
  { intros p Kp. unfold sweep. assert (Inc : incl (get_node_list g) (get_node_list g)) by (intros x; auto). revert Inc. generalize (get_node_list g) at 1 3 as l. generalize 0 as df. revert p Kp.
    intros p Kp df l. revert p Kp df. induction l as [|x t IH]; intros p Kp df Inc; [eexists _, _; split; [reflexivity|exact Kp]|].
    assert (Hx : In x (get_node_list g)) by (apply Inc; left; reflexivity).
    destruct (@rank_of_ok g d mv W T p x) as (q & Eq & _); [rewrite Kp; auto|exact Hx|].
    assert (Hk : In x (dkeys p)) by (rewrite Kp; exact Hx). destruct (dget_exists Hk) as [o Ho].
    cbn [foldM]. unfold bind at 1, bind at 1. rewrite Eq. unfold bind at 1. rewrite Ho. cbn [lift ret].
    apply IH; [rewrite dkeys_dset_in by exact Hk; exact Kp|intros y Hy; apply Inc; right; exact Hy]. }
  revert pr K. induction k as [|k IH]; intros pr K; [exists pr; split; [reflexivity|exact K]|].
  destruct (Sw pr K) as (diff & pr' & E & K'). cbn [sweeps]. unfold bind at 1. rewrite E. cbn [fst snd]. destruct (Qle_bool eps diff); [apply IH; exact K'|exists pr'; split; [reflexivity|exact K']].
Qed.
Print Assumptions C41_never_raises.

(* An undirected graph has no in-neighbours: AttributeError as soon as an iteration starts. *)
Theorem C41_undirected : forall g d k eps, g_type g = Undirected -> get_node_list g <> [] ->
  page_rank d (S k) eps g = (g, Err AttributeError).
Proof.
  intros g d k eps T N. unfold page_rank, bind at 1, gets. destruct (get_node_list g) as [|x t]; [congruence|].
  cbn [length sweeps]. unfold bind at 1, sweep. cbn [foldM]. unfold bind at 1, bind at 1, rank_of, bind at 1, get_in_neighbors, in_list, bind at 1, in_dict. rewrite T. reflexivity.
Qed.
Print Assumptions C41_undirected.

(** * Convergence *)
Lemma equation_of_in d g v n : wf g -> g_type g = Directed ->
  equation_of d g v n == (1 - d) / qnat (length (get_node_list g)) + qsum (fun m => d * v m / qnat (outdeg g m)) (list_at (g_in g) n).
Proof.
  intros W T. unfold equation_of. apply Qplus_comp; [reflexivity|]. rewrite (@qsum_perm _ _ _ _ (in_perm g n W T)), qsum_map. apply qsum_ext. intros e He.
  unfold outdeg. rewrite (Permutation_length (out_perm g (fst e) W T)), map_length. reflexivity.
Qed.
Lemma shares_total g d v : wf g -> g_type g = Directed -> 0 <= d -> (forall m, 0 <= v m) ->
  qsum (fun n => qsum (fun m => d * v m / qnat (outdeg g m)) (list_at (g_in g) n)) (get_node_list g) <= d * qsum v (get_node_list g).
Proof.
  intros W T D0 P. rewrite (total_in W T), <- qsum_scale. apply qsum_le. intros m _. apply handed. apply Qmult_le_0_compat; auto.
Qed.
(* The total error of the equations after at most k iterations. *)
Theorem C41_residual : forall g d k eps r, wf g -> g_type g = Directed -> 0 <= d <= 1 -> page_rank d k eps g = (g, Ok r) ->
  let error := qsum (fun n => Qabs (value r n - equation d g r n)) (get_node_list g) in
  error <= 2 * d * Qpower d (Z.of_nat k) \/ error <= d * eps.
Proof.
  intros g d k eps r W T [D0 D1] E. cbv zeta. unfold page_rank, bind, gets in E. destruct (length (get_node_list g)) as [|N] eqn:EN.
  { destruct (get_node_list g); [|discriminate]. left. cbn [qsum]. apply Qmult_le_0_compat; [lra|apply Qpower_pos; exact D0]. }
  set (mv := (1 - d) / qnat (S N)) in *. rewrite (init_ranks _ _ (wf_nd W)) in E. change (dkeys (g_nbrs g)) with (get_node_list g) in *.
  set (pr := map (fun n => (n, 1 / qnat (S N))) (get_node_list g)) in *.
  assert (K : dkeys pr = get_node_list g) by (unfold pr, dkeys; rewrite map_map; cbn; apply map_id).
  destruct (sweeps_pushed mv W T D0 D1 eps k (pr := pr)) as (r1 & E1 & H); [rewrite K; auto|]. rewrite E1 in E. injection E as ->.
  assert (Er : qsum (fun n => Qabs (value r n - equation d g r n)) (get_node_list g) == qsum (resid g d mv r) (get_node_list g)).
  { apply qsum_ext. intros n _. unfold resid. rewrite <- (equation_rhs d g r n W T), EN. reflexivity. }
  rewrite Er. destruct H as [H|H]; [left|right; exact H]. eapply Qle_trans; [exact H|]. rewrite (Qmult_comm (2 * d)). apply qmul_le; [apply Qpower_pos; exact D0|].
  assert (P : 1 <= qnat (S N)) by (apply qnat_pos; lia). destruct (qinv_le1 P) as [I0 I1].
  (* at the start every value is 1/N *)
  assert (Rk : forall m, In m (get_node_list g) -> rank pr m = 1 / qnat (S N)) by (intros m Hm; unfold rank, pr; rewrite dget_pairs by exact Hm; reflexivity).
  set (u := fun _ : name => 1 / qnat (S N)).
  assert (Ru : forall n, In n (get_node_list g) -> resid g d mv pr n <= d / qnat (S N) + qsum (fun m => d * u m / qnat (outdeg g m)) (list_at (g_in g) n)).
  { intros n Hn. unfold resid, rhs. assert (Es : qsum (share d g pr) (list_at (g_in g) n) == qsum (fun m => d * u m / qnat (outdeg g m)) (list_at (g_in g) n)).
    { apply qsum_ext. intros m Hm. unfold share, u. rewrite Rk by exact (proj2 (ref_deg W T Hm)). reflexivity. }
    rewrite Es, (Rk n Hn). set (s := qsum _ _). assert (S0 : 0 <= s).
    { apply qsum_nonneg. intros m Hm. unfold u, Qdiv. pose proof (proj1 (ref_deg W T Hm)) as Pm. apply qnat_pos, qinv_le1 in Pm. apply Qmult_le_0_compat; [apply Qmult_le_0_compat; lra|tauto]. }
    setoid_replace (1 / qnat (S N) - (mv + s)) with (d / qnat (S N) - s) by (unfold mv, Qdiv; ring).
    assert (D2 : 0 <= d / qnat (S N)) by (unfold Qdiv; apply Qmult_le_0_compat; assumption). apply Qabs_case; lra. }
  eapply Qle_trans; [apply qsum_le; exact Ru|]. rewrite qsum_plus, qsum_const, EN.
  assert (L1 : qnat (S N) * (d / qnat (S N)) == d) by (apply Qmult_div_r; lra). rewrite L1.
  assert (L2 : qsum (fun n => qsum (fun m => d * u m / qnat (outdeg g m)) (list_at (g_in g) n)) (get_node_list g) <= d * qsum u (get_node_list g)).
  { apply (shares_total g d u W T D0). intros m. unfold u, Qdiv. lra. }
  assert (L3 : qsum u (get_node_list g) == 1). { unfold u. rewrite qsum_const, EN. apply Qmult_div_r. lra. }
  rewrite L3 in L2. lra.
Qed.
Print Assumptions C41_residual.

Lemma distance_residual g d p v : wf g -> g_type g = Directed -> 0 <= d -> solution d g p ->
  (1 - d) * qsum (fun n => Qabs (v n - p n)) (get_node_list g) <= qsum (fun n => Qabs (v n - equation_of d g v n)) (get_node_list g).
Proof.
  intros W T D0 Sol. set (e := fun n => Qabs (v n - p n)).
  assert (H : forall n, In n (get_node_list g) -> e n <= Qabs (v n - equation_of d g v n) + qsum (fun m => d * e m / qnat (outdeg g m)) (list_at (g_in g) n)).
  { intros n Hn. unfold e at 1. setoid_replace (v n - p n) with ((v n - equation_of d g v n) + (equation_of d g v n - equation_of d g p n)) by (rewrite <- (Sol n Hn); ring).
    eapply Qle_trans; [apply Qabs_triangle|]. apply Qplus_le_compat; [lra|]. rewrite !equation_of_in by assumption.
    assert (El : forall l, (1 - d) / qnat (length (get_node_list g)) + qsum (fun m => d * v m / qnat (outdeg g m)) l - ((1 - d) / qnat (length (get_node_list g)) + qsum (fun m => d * p m / qnat (outdeg g m)) l)
      == qsum (fun m => d * (v m - p m) / qnat (outdeg g m)) l).
    { induction l as [|m t IH]; cbn [qsum]; [ring|]. rewrite <- IH. unfold Qdiv. ring. }
    rewrite El. eapply Qle_trans; [apply qsum_abs|]. apply qsum_le. intros m Hm. unfold e, Qdiv. rewrite !Qabs_Qmult, (Qabs_pos d D0).
    pose proof (proj1 (ref_deg W T Hm)) as Pm. apply qnat_pos, qinv_le1 in Pm. rewrite (Qabs_pos (/ _)) by tauto. lra. }
  apply qsum_le in H. rewrite qsum_plus in H.
  assert (L : qsum (fun n => qsum (fun m => d * e m / qnat (outdeg g m)) (list_at (g_in g) n)) (get_node_list g) <= d * qsum e (get_node_list g)).
  { apply (shares_total g d e W T D0). intros m. apply Qabs_nonneg. }
  setoid_replace ((1 - d) * qsum e (get_node_list g)) with (qsum e (get_node_list g) - d * qsum e (get_node_list g)) by ring. lra.
Qed.
(* The result is close to the page rank: the error shrinks by the damping factor with each
   iteration, unless the call stops early because of min_delta. *)
Theorem C41_converges : forall g d k eps r p, wf g -> g_type g = Directed -> 0 <= d <= 1 -> page_rank d k eps g = (g, Ok r) -> solution d g p ->
  let distance := qsum (fun n => Qabs (value r n - p n)) (get_node_list g) in
  (1 - d) * distance <= 2 * d * Qpower d (Z.of_nat k) \/ (1 - d) * distance <= d * eps.
Proof.
  intros g d k eps r p W T D E Sol. cbv zeta. pose proof (distance_residual g d p (value r) W T (proj1 D) Sol) as X.
  destruct (C41_residual g d k eps r W T D E) as [H|H]; [left|right]; (eapply Qle_trans; [exact X|exact H]).
Qed.
Print Assumptions C41_converges.
(* There is at most one page rank if the damping factor is below 1. *)
Theorem C41_unique : forall g d p q, wf g -> g_type g = Directed -> 0 <= d < 1 -> solution d g p -> solution d g q ->
  forall n, In n (get_node_list g) -> p n == q n.
Proof.
  intros g d p q W T [D0 D1] Sp Sq n Hn. pose proof (distance_residual g d q p W T D0 Sq) as X.
  assert (Z : qsum (fun n => Qabs (p n - equation_of d g p n)) (get_node_list g) == 0).
  { transitivity (qsum (fun _ : name => 0) (get_node_list g)); [|apply qsum_0]. apply qsum_ext. intros m Hm. rewrite <- (Sp m Hm). setoid_replace (p m - p m) with 0 by ring. reflexivity. }
  rewrite Z in X. set (f := fun n => Qabs (p n - q n)) in *. assert (F0 : forall m, 0 <= f m) by (intros m; apply Qabs_nonneg).
  assert (S0 : qsum f (get_node_list g) <= 0).
  { apply (Qmult_le_l _ _ (1 - d)); [lra|]. lra. }
  assert (Fn : f n <= qsum f (get_node_list g)).
  { clear - Hn F0. induction (get_node_list g) as [|x t IH]; [destruct Hn|]. cbn [qsum]. assert (0 <= qsum f t) by (apply qsum_nonneg; auto). pose proof (F0 x). destruct Hn as [->|Hn]; [lra|]. specialize (IH Hn). lra. }
  assert (f n <= 0) by lra. apply Qabs_Qle_condition in H. lra.
Qed.
Print Assumptions C41_unique.
(* If every node has an arc leaving it, the values add up to 1 up to the same error. *)
Theorem C41_total : forall g d k eps r, wf g -> g_type g = Directed -> 0 <= d <= 1 -> page_rank d k eps g = (g, Ok r) ->
  get_node_list g <> [] -> (forall n, In n (get_node_list g) -> arcs_from g n <> []) ->
  let gap := Qabs (qsum (value r) (get_node_list g) - 1) in
  (1 - d) * gap <= 2 * d * Qpower d (Z.of_nat k) \/ (1 - d) * gap <= d * eps.
Proof.
  intros g d k eps r W T D E Ne Out. cbv zeta. set (S := qsum (value r) (get_node_list g)).
  assert (X : (1 - d) * Qabs (S - 1) <= qsum (fun n => Qabs (value r n - equation d g r n)) (get_node_list g)).
  { rewrite <- (Qabs_pos (1 - d)) by lra. rewrite <- Qabs_Qmult. eapply Qle_trans; [|apply qsum_abs]. apply Qle_lteq. right.
    setoid_replace ((1 - d) * (S - 1)) with (qsum (fun n => value r n - equation d g r n) (get_node_list g)); [reflexivity|].
    assert (Eq : qsum (equation d g r) (get_node_list g) == (1 - d) + d * S).
    { transitivity (qsum (fun n => (1 - d) / qnat (length (get_node_list g)) + qsum (fun m => d * value r m / qnat (outdeg g m)) (list_at (g_in g) n)) (get_node_list g)).
      { apply qsum_ext. intros n _. apply equation_of_in; assumption. }
      rewrite qsum_plus, qsum_const, (total_in W T). apply Qplus_comp.
      - apply Qmult_div_r. assert (P : 1 <= qnat (length (get_node_list g))); [|lra]. apply qnat_pos. destruct (get_node_list g); [congruence|cbn; lia].
      - unfold S. rewrite <- qsum_scale. apply qsum_ext. intros m Hm. apply handed_eq. unfold outdeg. rewrite (Permutation_length (out_perm g m W T)), map_length.
        specialize (Out m Hm). destruct (arcs_from g m); [congruence|cbn; lia]. }
    assert (Sub : forall l, qsum (fun n => value r n - equation d g r n) l == qsum (value r) l - qsum (equation d g r) l).
    { induction l as [|x t IH]; cbn [qsum]; [ring|rewrite IH; ring]. }
    rewrite Sub, Eq. fold S. ring. }
  destruct (C41_residual g d k eps r W T D E) as [H|H]; [left|right]; (eapply Qle_trans; [exact X|exact H]).
Qed.
Print Assumptions C41_total.

Local Open Scope string_scope.
Definition pr_ex : graph := history (new_graph (Some Directed) []) [OAddEdge (NI 1) (NI 2) []; OAddEdge (NI 2) (NI 1) []; OAddEdge (NI 2) (NI 3) []; OAddEdge (NI 3) (NI 3) []].
Example C41_nonvacuous : wf pr_ex /\ g_type pr_ex = Directed /\
  (forall n, In n (get_node_list pr_ex) -> value (match obs (page_rank 0 1 (1#100)) pr_ex with Ok r => r | _ => [] end) n ==
     value (match obs (page_rank 0 2 (1#100)) pr_ex with Ok r => r | _ => [] end) n) /\
  value (match obs (page_rank (1#2) 1 (1#100)) pr_ex with Ok r => r | _ => [] end) (NI 1) == 1#4.
Proof.
  split; [refine (proj1 (wf_history (wf_new (Some Directed) []) _)); discriminate|]. split; [reflexivity|]. split; [|vm_compute; reflexivity].
  assert (E : get_node_list pr_ex = [NI 1; NI 2; NI 3]) by (vm_compute; reflexivity). rewrite E. intros n [<-|[<-|[<-|[]]]]; vm_compute; reflexivity.
Qed.

(* the page rank of the same graph, and what is left after three iterations *)
Definition pr_sol (n : name) : Q := match n with NI 1 => 5#21 | NI 2 => 6#21 | NI 3 => 10#21 | _ => 0 end.
Example C41_solution_nonvacuous : solution (1#2) pr_ex pr_sol /\ (forall n, In n (get_node_list pr_ex) -> arcs_from pr_ex n <> []) /\
  (exists r, page_rank (1#2) 3 (1#100) pr_ex = (pr_ex, Ok r) /\ 0 < qsum (fun n => Qabs (value r n - pr_sol n)) (get_node_list pr_ex)) /\
  (exists r, page_rank (1#2) 9 (1#100) pr_ex = (pr_ex, Ok r) /\ page_rank (1#2) 99 (1#100) pr_ex = (pr_ex, Ok r)).
Proof.
  assert (E : get_node_list pr_ex = [NI 1; NI 2; NI 3]) by (vm_compute; reflexivity).
  split; [intros n; rewrite E; intros [<-|[<-|[<-|[]]]]; vm_compute; reflexivity|].
  split; [intros n; rewrite E; intros [<-|[<-|[<-|[]]]]; vm_compute; discriminate|].
  split; eexists; (split; [vm_compute; reflexivity|vm_compute; reflexivity]).
Qed.
