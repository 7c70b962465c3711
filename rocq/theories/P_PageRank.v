(* Proofs about page_rank. *)
From Verif Require Import Py Util M_Graph P_Graph P_GraphLaws M_PageRank.
From Coq Require Import QArith Qabs Permutation Lqa.
Set Implicit Arguments. Unset Strict Implicit.
Local Open Scope list_scope.

Fixpoint qsum {A} (f : A -> Q) (l : list A) : Q := match l with [] => 0%Q | x :: t => (f x + qsum f t)%Q end.
Local Open Scope Q_scope.
Section QSum.
  Context {A : Type}.
  Lemma qsum_ext (f h : A -> Q) l : (forall x, In x l -> f x == h x) -> qsum f l == qsum h l.
  Proof. induction l as [|x t IH]; intros H; cbn [qsum]; [reflexivity|]. rewrite H by (left; reflexivity). rewrite IH; [reflexivity|]. intros y Hy. apply H. right. exact Hy. Qed.
  Lemma qsum_0 (l : list A) : qsum (fun _ => 0) l == 0.
  Proof. induction l as [|x t IH]; [reflexivity|]. cbn [qsum]. rewrite IH. ring. Qed.
  Lemma qsum_perm (f : A -> Q) l l' : Permutation l l' -> qsum f l == qsum f l'.
  Proof. induction 1; cbn [qsum]; [reflexivity|rewrite IHPermutation; reflexivity|ring|rewrite IHPermutation1; exact IHPermutation2]. Qed.
  Lemma qsum_nonneg (f : A -> Q) l : (forall x, In x l -> 0 <= f x) -> 0 <= qsum f l.
  Proof.
    induction l as [|x t IH]; intros H; cbn [qsum]; [lra|]. assert (0 <= f x) by (apply H; left; reflexivity).
    assert (0 <= qsum f t) by (apply IH; intros y Hy; apply H; right; exact Hy). lra.
  Qed.
  Lemma qsum_map {B} (f : B -> Q) (h : A -> B) l : qsum f (map h l) = qsum (fun x => f (h x)) l.
  Proof. induction l as [|x t IH]; [reflexivity|]. cbn. rewrite IH. reflexivity. Qed.
End QSum.

Lemma qmul_le a x y : 0 <= a -> x <= y -> a * x <= a * y.
Proof. intros. rewrite !(Qmult_comm a). apply Qmult_le_compat_r; assumption. Qed.
Lemma qinv_le1 q : 1 <= q -> 0 <= / q /\ / q <= 1.
Proof. intros H. split; [apply Qinv_le_0_compat; lra|apply Qle_shift_inv_r; lra]. Qed.
Lemma qnat_pos k : (0 < k)%nat -> 1 <= qnat k.
Proof. intros H. unfold qnat, Qle. cbn. lia. Qed.

Lemma eqbF (x y : name) : x <> y -> Py.eqb x y = false.
Proof. intros H. apply Py.eqb_false. exact H. Qed.

Definition rank (pr : ranks) (n : name) : Q := match dget pr n with Some q => q | None => 0 end.
Definition outdeg (g : graph) (m : name) : nat := length (list_at (g_nbrs g) m).
Definition share (d : Q) (g : graph) (pr : ranks) (m : name) : Q := d * rank pr m / qnat (outdeg g m).
Definition rhs (d mv : Q) (g : graph) (pr : ranks) (n : name) : Q := mv + qsum (share d g pr) (list_at (g_in g) n).

Section PR.
  Variables (g : graph) (d mv : Q).
  Hypothesis W : wf g.
  Hypothesis T : g_type g = Directed.

  Lemma ref_deg m n : In m (list_at (g_in g) n) -> (0 < outdeg g m)%nat /\ In m (get_node_list g).
  Proof.
    intros H. assert (E : In (m, n) (dkeys (g_edges g))).
    { apply dmem_In. pose proof (wf_ins W n m) as X. rewrite T in X. apply (count_occ_In eq_dec) in H. rewrite X in H. destruct (dmem (g_edges g) (m, n)); [reflexivity|]. cbn in H. lia. }
    assert (Hn : In n (list_at (g_nbrs g) m)).
    { apply (count_occ_In eq_dec). rewrite (wf_nbrs W). unfold nb_count. rewrite T. apply dmem_In in E. rewrite E. cbn. lia. }
    split; [|apply list_at_In in Hn; exact Hn]. unfold outdeg. destruct (list_at (g_nbrs g) m); [destruct Hn|cbn; lia].
  Qed.
  Lemma ins_NoDup n : NoDup (list_at (g_in g) n).
  Proof. apply (NoDup_count_occ eq_dec). intros m. rewrite (wf_ins W), T. destruct (dmem (g_edges g) (m, n)); cbn; lia. Qed.

  Lemma rank_of_ok pr n : (forall x, In x (get_node_list g) -> In x (dkeys pr)) -> In n (get_node_list g) ->
    exists q, rank_of d mv pr n g = (g, Ok q) /\ q == rhs d mv g pr n.
  Proof.
    intros K Hn. unfold rank_of, get_in_neighbors, in_list, in_dict. unfold bind at 1, bind at 1. rewrite T.
    assert (Hi : In n (dkeys (g_in g))) by (rewrite (wf_in W), T; exact Hn). destruct (dget_exists Hi) as [l Hl]. rewrite Hl. cbn [lift ret].
    assert (El : list_at (g_in g) n = l) by (unfold list_at; rewrite Hl; reflexivity).
    unfold rhs. rewrite El. assert (R : forall m, In m l -> (0 < outdeg g m)%nat /\ In m (get_node_list g)) by (intros m Hm; rewrite <- El in Hm; exact (ref_deg Hm)).
    clear Hl El Hi. generalize mv. induction l as [|m t IH]; intros b.
    - exists b. split; [reflexivity|]. cbn. ring.
    - cbn [foldM qsum]. destruct (R m (or_introl eq_refl)) as [Hd Hm]. pose proof (K m Hm) as Hk. destruct (dget_exists Hk) as [p Hp].
      destruct (dget_exists Hm) as [lm Hlm].
      assert (Ed : outdeg g m = length lm) by (unfold outdeg, list_at; rewrite Hlm; reflexivity).
      unfold bind at 1, bind at 1. rewrite Hp. cbn [lift ret]. unfold bind at 1, get_neighbors, nbr_list. rewrite Hlm.
      destruct (length lm) as [|k] eqn:Ek; [lia|].
      destruct (IH (fun x Hx => R x (or_intror Hx)) (b + d * p / qnat (S k))) as (q & Eq & Hq). exists q. split; [exact Eq|].
      rewrite Hq. unfold share at 2. unfold rank. rewrite Hp, Ed. ring.
  Qed.

  (* changing one value moves a right-hand side by at most damping times the change *)
  Lemma share_ext pr pr' m : rank pr m == rank pr' m -> share d g pr m == share d g pr' m.
  Proof. unfold share. intros H. rewrite H. reflexivity. Qed.
  Lemma rhs_move pr x r n : 0 <= d -> Qabs (rhs d mv g (dset pr x r) n - rhs d mv g pr n) <= d * Qabs (rank pr x - r).
  Proof.
    intros Hd. unfold rhs. pose proof (ins_NoDup n) as ND. assert (R : forall m, In m (list_at (g_in g) n) -> (0 < outdeg g m)%nat) by (intros m Hm; exact (proj1 (ref_deg Hm))).
    set (A := Qabs (rank pr x - r)). assert (A0 : 0 <= A) by apply Qabs_nonneg.
    assert (G : forall l, NoDup l -> (forall m, In m l -> (0 < outdeg g m)%nat) ->
      Qabs (qsum (share d g (dset pr x r)) l - qsum (share d g pr) l) <= if mem x l then d * A else 0).
    { induction 1 as [|m t Hm Ht IH]; intros Rt.
      - cbn. unfold Qle. cbn. lia.
      - cbn [qsum mem]. specialize (IH (fun y Hy => Rt y (or_intror Hy))). unfold Py.eqb. destruct (eq_dec x m) as [<-|Ne].
        + cbn [orb]. apply mem_nIn in Hm. rewrite Hm in IH.
          assert (E1 : share d g (dset pr x r) x + qsum (share d g (dset pr x r)) t - (share d g pr x + qsum (share d g pr) t) ==
             (share d g (dset pr x r) x - share d g pr x) + (qsum (share d g (dset pr x r)) t - qsum (share d g pr) t)) by ring.
          rewrite E1. eapply Qle_trans; [apply Qabs_triangle|].
          assert (E2 : Qabs (share d g (dset pr x r) x - share d g pr x) <= d * A).
          { assert (E3 : share d g (dset pr x r) x - share d g pr x == d * ((r - rank pr x) / qnat (outdeg g x))).
            { unfold share. assert (rank (dset pr x r) x = r) as -> by (unfold rank; rewrite dget_dset_eq; reflexivity). unfold Qdiv. ring. }
            rewrite E3, Qabs_Qmult, (Qabs_pos d Hd). apply qmul_le; [exact Hd|]. unfold Qdiv. rewrite Qabs_Qmult.
            assert (P : 1 <= qnat (outdeg g x)) by (apply qnat_pos, Rt; left; reflexivity).
            destruct (qinv_le1 P) as [I0 I1].
            rewrite (Qabs_pos _ I0). unfold A. rewrite (Qabs_Qminus r). 
            fold A. rewrite <- (Qmult_1_r A) at 2. apply qmul_le; assumption. }
          lra.
        + destruct (eq_dec x m) as [->|_]; [congruence|]. cbn [orb].
          assert (E0 : share d g (dset pr x r) m == share d g pr m).
          { apply share_ext. unfold rank. rewrite dget_dset_ne by congruence. reflexivity. }
          rewrite E0. setoid_replace (share d g pr m + qsum (share d g (dset pr x r)) t - (share d g pr m + qsum (share d g pr) t)) with
            (qsum (share d g (dset pr x r)) t - qsum (share d g pr) t) by ring. exact IH. }
    specialize (G _ ND R). setoid_replace (mv + qsum (share d g (dset pr x r)) (list_at (g_in g) n) - (mv + qsum (share d g pr) (list_at (g_in g) n))) with
      (qsum (share d g (dset pr x r)) (list_at (g_in g) n) - qsum (share d g pr) (list_at (g_in g) n)) by ring.
    eapply Qle_trans; [exact G|]. destruct (mem x (list_at (g_in g) n)); [lra|]. apply Qmult_le_0_compat; assumption.
  Qed.

  Hypothesis D0 : 0 <= d.
  Hypothesis MV : 0 <= mv.
  Record swept (pr0 : ranks) (done : list name) (diff : Q) (pr : ranks) : Prop := {
    sw_keys : dkeys pr = dkeys pr0;
    sw_diff : diff == qsum (fun n => Qabs (rank pr0 n - rank pr n)) done;
    sw_res : forall n, In n done -> Qabs (rank pr n - rhs d mv g pr n) <= d * diff;
    sw_other : forall n, ~ In n done -> rank pr n = rank pr0 n;
    sw_low : (forall n, 0 <= rank pr0 n) -> (forall n, 0 <= rank pr n) /\ forall n, In n done -> mv <= rank pr n
  }.
  Lemma rank_dset pr x r n : rank (dset pr x r) n = if Py.eqb n x then r else rank pr n.
  Proof. unfold rank, Py.eqb. destruct (eq_dec n x) as [->|N]; [rewrite dget_dset_eq; reflexivity|rewrite dget_dset_ne by congruence; reflexivity]. Qed.
  Lemma rhs_low pr n : (forall n, 0 <= rank pr n) -> mv <= rhs d mv g pr n.
  Proof.
    intros H. unfold rhs. assert (0 <= qsum (share d g pr) (list_at (g_in g) n)); [|lra]. apply qsum_nonneg. intros m Hm.
    unfold share, Qdiv. apply Qmult_le_0_compat; [apply Qmult_le_0_compat; [exact D0|apply H]|]. apply qinv_le1. apply qnat_pos. exact (proj1 (ref_deg Hm)).
  Qed.
  Lemma swept_step pr0 done diff pr x r : swept pr0 done diff pr -> ~ In x done -> In x (dkeys pr0) -> r == rhs d mv g pr x ->
    swept pr0 (done ++ [x]) (diff + Qabs (rank pr x - r)) (dset pr x r).
  Proof.
    intros [K Df Rs Ot Lo] Hx Hk Hr. assert (A0 : 0 <= Qabs (rank pr x - r)) by apply Qabs_nonneg.
    assert (Df0 : 0 <= diff) by (rewrite Df; apply qsum_nonneg; intros; apply Qabs_nonneg).
    constructor.
    - rewrite dkeys_dset_in by (rewrite K; exact Hk). exact K.
    - assert (E : forall l, qsum (fun n => Qabs (rank pr0 n - rank (dset pr x r) n)) (l ++ [x]) ==
         qsum (fun n => Qabs (rank pr0 n - rank (dset pr x r) n)) l + Qabs (rank pr0 x - r)).
      { induction l as [|y t IH]; cbn [app qsum]; [rewrite rank_dset, Py.eqb_refl; ring|rewrite IH; ring]. }
      rewrite E, Df, (Ot x Hx). apply Qplus_comp; [|reflexivity]. apply qsum_ext. intros n Hn. rewrite rank_dset.
      rewrite eqbF by (intros ->; contradiction). reflexivity.
    - intros n Hn. apply in_app_iff in Hn. pose proof (@rhs_move pr x r n D0) as Mv. rewrite rank_dset.
      destruct (mem_spec n done) as [Hd|Hd].
      + rewrite eqbF by (intros ->; contradiction). specialize (Rs n Hd).
        setoid_replace (rank pr n - rhs d mv g (dset pr x r) n) with ((rank pr n - rhs d mv g pr n) + (rhs d mv g pr n - rhs d mv g (dset pr x r) n)) by ring.
        eapply Qle_trans; [apply Qabs_triangle|]. rewrite (Qabs_Qminus (rhs d mv g pr n)). rewrite Qmult_plus_distr_r. lra.
      + destruct Hn as [Hn|[->|[]]]; [contradiction|]. rewrite Py.eqb_refl. rewrite Hr at 1. rewrite (Qabs_Qminus (rhs d mv g pr n)).
        eapply Qle_trans; [exact Mv|]. apply qmul_le; [exact D0|lra].
    - intros n Hn. rewrite in_app_iff in Hn. rewrite rank_dset. rewrite eqbF by (intros ->; apply Hn; right; left; reflexivity). apply Ot. tauto.
    - intros P0. destruct (Lo P0) as [L1 L2]. assert (Lr : mv <= r) by (rewrite Hr; apply rhs_low; exact L1).
      split; intros n.
      + rewrite rank_dset. destruct (Py.eqb n x); [lra|apply L1].
      + intros Hn. rewrite rank_dset. destruct (Py.eqb n x) eqn:E; [exact Lr|]. apply in_app_iff in Hn as [Hn|[->|[]]]; [apply L2; exact Hn|].
        rewrite Py.eqb_refl in E. discriminate.
  Qed.
  Lemma sweep_ok pr : (forall x, In x (get_node_list g) -> In x (dkeys pr)) ->
    exists diff pr', sweep d mv (get_node_list g) pr g = (g, Ok (diff, pr')) /\ swept pr (get_node_list g) diff pr'.
  Proof.
    intros K. unfold sweep.
    assert (G : forall rest done diff pr', get_node_list g = done ++ rest -> swept pr done diff pr' ->
      exists diff2 pr2, foldM (fun (s : Q * ranks) node => let '(diff, pagerank) := s in
        rank <- rank_of d mv pagerank node ;; old <- lift (dget pagerank node) KeyError ;;
        ret (diff + Qabs (old - rank), dset pagerank node rank)) rest (diff, pr') g = (g, Ok (diff2, pr2)) /\ swept pr (done ++ rest) diff2 pr2).
    { induction rest as [|x t IH]; intros done diff pr' E Sw.
      - exists diff, pr'. rewrite app_nil_r. split; [reflexivity|exact Sw].
      - assert (Hx : In x (get_node_list g)) by (rewrite E; apply in_elt).
        assert (Nx : ~ In x done). { pose proof (wf_nd W) as ND. change (NoDup (get_node_list g)) in ND. rewrite E in ND. apply NoDup_remove_2 in ND. rewrite in_app_iff in ND. tauto. }
        destruct (@rank_of_ok pr' x) as (r & Er & Hr); [intros y Hy; rewrite (sw_keys Sw); auto|exact Hx|].
        assert (Hk : In x (dkeys pr')) by (rewrite (sw_keys Sw); auto). destruct (dget_exists Hk) as [old Ho].
        destruct (IH (done ++ [x]) (diff + Qabs (old - r)) (dset pr' x r)) as (diff2 & pr2 & E2 & S2).
        + rewrite <- app_assoc. exact E.
        + assert (Eo : rank pr' x = old) by (unfold rank; rewrite Ho; reflexivity). rewrite <- Eo. apply swept_step; auto.
        + exists diff2, pr2. split; [|rewrite <- app_assoc in S2; exact S2]. cbn [foldM]. unfold bind at 1, bind at 1. rewrite Er. unfold bind at 1. rewrite Ho. cbn [lift ret]. exact E2. }
    apply (G (get_node_list g) [] 0 pr eq_refl). constructor; try reflexivity.
    - intros n [].
    - intros P. split; [exact P|]. intros n [].
  Qed.

  (* result of k permitted sweeps *)
  Record settled (pr : ranks) (eps : Q) : Prop := {
    st_res : forall n, In n (get_node_list g) -> Qabs (rank pr n - rhs d mv g pr n) <= d * eps
  }.
  Lemma sweeps_ok eps k : forall pr, (forall x, In x (get_node_list g) -> In x (dkeys pr)) ->
    exists pr', sweeps k d mv eps (get_node_list g) pr g = (g, Ok pr') /\ dkeys pr' = dkeys pr /\
      ((forall n, 0 <= rank pr n) -> (forall n, In n (get_node_list g) -> mv <= rank pr n) -> forall n, In n (get_node_list g) -> mv <= rank pr' n) /\
      exists pr'', sweeps (S k) d mv eps (get_node_list g) pr g = (g, Ok pr'') /\
        ((forall n, In n (get_node_list g) -> rank pr'' n == rank pr' n) ->
         (forall n, In n (get_node_list g) -> Qabs (rank pr' n - rhs d mv g pr' n) <= d * Qabs eps)).
  Proof.
    induction k as [|k IH]; intros pr K; destruct (sweep_ok K) as (diff & pr1 & E1 & S1);
      assert (K1 : forall x, In x (get_node_list g) -> In x (dkeys pr1)) by (intros x Hx; rewrite (sw_keys S1); auto).
    - exists pr. split; [reflexivity|]. split; [reflexivity|]. split; [auto|]. cbn [sweeps]. unfold bind at 1. rewrite E1. cbn [fst snd].
      exists pr1. split; [destruct (Qle_bool eps diff); reflexivity|]. intros Eq n Hn.
      assert (D00 : diff == 0).
      { rewrite (sw_diff S1). transitivity (qsum (fun _ : name => 0) (get_node_list g)).
        - apply qsum_ext. intros x Hx. rewrite (Eq x Hx). setoid_replace (rank pr x - rank pr x) with 0 by ring. reflexivity.
        - apply qsum_0. }
      pose proof (sw_res S1 Hn) as R. rewrite D00 in R.
      assert (Er : rhs d mv g pr1 n == rhs d mv g pr n).
      { unfold rhs. apply Qplus_comp; [reflexivity|]. apply qsum_ext. intros m Hm. apply share_ext. apply Eq. exact (proj2 (ref_deg Hm)). }
      rewrite Er, (Eq n Hn) in R. eapply Qle_trans; [exact R|]. apply qmul_le; [exact D0|apply Qabs_nonneg].
    - assert (Eq : forall k, sweeps (S k) d mv eps (get_node_list g) pr g = if Qle_bool eps diff then sweeps k d mv eps (get_node_list g) pr1 g else (g, Ok pr1)).
      { intros j. cbn [sweeps]. unfold bind at 1. rewrite E1. cbn [fst snd]. destruct (Qle_bool eps diff); reflexivity. }
      rewrite (Eq k), (Eq (S k)). clear Eq. destruct (Qle_bool eps diff) eqn:B.
      + destruct (IH pr1 K1) as (pr' & E2 & K2 & L2 & pr'' & E3 & F). exists pr'. split; [exact E2|]. split; [rewrite K2; exact (sw_keys S1)|]. split; [|exists pr''; split; [exact E3|exact F]].
        intros P L. destruct (sw_low S1 P) as [P1 L1]. apply L2; assumption.
      + exists pr1. split; [reflexivity|]. split; [exact (sw_keys S1)|]. split; [intros P _; exact (proj2 (sw_low S1 P))|]. exists pr1. split; [reflexivity|].
        intros _ n Hn. eapply Qle_trans; [exact (sw_res S1 Hn)|]. apply qmul_le; [exact D0|].
        assert (~ eps <= diff) by (rewrite <- Qle_bool_iff, B; discriminate). pose proof (Qle_Qabs eps). lra.
  Qed.
End PR.
