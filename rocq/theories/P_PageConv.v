(* page_rank: a sweep multiplies the total residual by at most the damping factor. *)
From Verif Require Import Py Util M_Graph P_Graph P_GraphLaws M_PageRank P_PageRank.
From Coq Require Import QArith Qabs Qpower Permutation Lqa.
Set Implicit Arguments. Unset Strict Implicit.
Local Open Scope list_scope.
Local Open Scope Q_scope.

Section Sums.
  Context {A : Type}.
  Lemma qsum_app (f : A -> Q) l l' : qsum f (l ++ l') == qsum f l + qsum f l'.
  Proof. induction l as [|x t IH]; cbn [app qsum]; [ring|rewrite IH; ring]. Qed.
  Lemma qsum_plus (f h : A -> Q) l : qsum (fun x => f x + h x) l == qsum f l + qsum h l.
  Proof. induction l as [|x t IH]; cbn [qsum]; [ring|rewrite IH; ring]. Qed.
  Lemma qsum_scale c (f : A -> Q) l : qsum (fun x => c * f x) l == c * qsum f l.
  Proof. induction l as [|x t IH]; cbn [qsum]; [ring|rewrite IH; ring]. Qed.
  Lemma qsum_le (f h : A -> Q) l : (forall x, In x l -> f x <= h x) -> qsum f l <= qsum h l.
  Proof. induction l as [|x t IH]; intros H; cbn [qsum]; [lra|]. pose proof (H x (or_introl eq_refl)). specialize (IH (fun y Hy => H y (or_intror Hy))). lra. Qed.
  Lemma qsum_abs (f : A -> Q) l : Qabs (qsum f l) <= qsum (fun x => Qabs (f x)) l.
  Proof. induction l as [|x t IH]; cbn [qsum]; [cbn; lra|]. eapply Qle_trans; [apply Qabs_triangle|]. lra. Qed.
  Lemma qsum_const c (l : list A) : qsum (fun _ => c) l == qnat (length l) * c.
  Proof. induction l as [|x t IH]; cbn [qsum length]; [unfold qnat; cbn; ring|]. rewrite IH. unfold qnat. rewrite Nat2Z.inj_succ, <- Z.add_1_l, inject_Z_plus. ring. Qed.
  Lemma qsum_if (p : A -> bool) (f : A -> Q) l : qsum (fun x => if p x then f x else 0) l == qsum f (filter p l).
  Proof. induction l as [|x t IH]; cbn [qsum filter]; [reflexivity|]. rewrite IH. destruct (p x); cbn [qsum]; ring. Qed.
End Sums.
Lemma qsum_swap {A B} (f : A -> B -> Q) l l' : qsum (fun x => qsum (f x) l') l == qsum (fun y => qsum (fun x => f x y) l) l'.
Proof.
  induction l as [|x t IH]; cbn [qsum]; [symmetry; apply qsum_0|]. rewrite IH, qsum_plus. reflexivity.
Qed.

Section Conv.
  Variables (g : graph) (d mv : Q).
  Hypothesis W : wf g.
  Hypothesis T : g_type g = Directed.
  Local Notation V := (get_node_list g).
  Local Notation ins n := (list_at (g_in g) n).

  Lemma ins_nbrs m n : In m (ins n) <-> In n (list_at (g_nbrs g) m).
  Proof.
    rewrite !(count_occ_In eq_dec), (wf_ins W), (wf_nbrs W). unfold nb_count. rewrite T. tauto.
  Qed.
  Lemma nbrs_NoDup m : NoDup (list_at (g_nbrs g) m).
  Proof. apply (NoDup_count_occ eq_dec). intros x. rewrite (wf_nbrs W). unfold nb_count. rewrite T. destruct (dmem (g_edges g) (m, x)); cbn; lia. Qed.
  Lemma ins_node n m : In m (ins n) -> In n V.
  Proof. intros H. apply list_at_In in H. rewrite (wf_in W), T in H. exact H. Qed.
  Lemma column m : Permutation (filter (fun n => mem m (ins n)) V) (list_at (g_nbrs g) m).
  Proof.
    apply NoDup_Permutation; [apply NoDup_filter, (wf_nd W)|apply nbrs_NoDup|]. intros n. rewrite filter_In. split.
    - intros [_ H]. apply mem_In in H. apply ins_nbrs. exact H.
    - intros H. apply ins_nbrs in H. split; [exact (ins_node H)|apply mem_In; exact H].
  Qed.
  Lemma row n : Permutation (filter (fun m => mem m (ins n)) V) (ins n).
  Proof.
    apply NoDup_Permutation; [apply NoDup_filter, (wf_nd W)|apply (ins_NoDup W T)|]. intros m. rewrite filter_In, mem_In. split; [tauto|].
    intros H. split; [exact (proj2 (ref_deg W T H))|exact H].
  Qed.
  Lemma total_in (f : name -> Q) : qsum (fun n => qsum f (ins n)) V == qsum (fun m => qnat (outdeg g m) * f m) V.
  Proof.
    transitivity (qsum (fun n => qsum (fun m => if mem m (ins n) then f m else 0) V) V).
    { apply qsum_ext. intros n _. rewrite qsum_if. symmetry. apply qsum_perm, row. }
    rewrite qsum_swap. apply qsum_ext. intros m _. rewrite (qsum_if (fun n => mem m (ins n)) (fun _ => f m)), qsum_const.
    rewrite (Permutation_length (column m)). reflexivity.
  Qed.
  (* the shares a node hands out do not exceed its value *)
  Lemma handed c m : 0 <= c -> qnat (outdeg g m) * (c / qnat (outdeg g m)) <= c.
  Proof.
    intros H. destruct (outdeg g m) as [|k]; [change (qnat 0) with 0; rewrite Qmult_0_l; exact H|].
    assert (P : 1 <= qnat (S k)) by (apply qnat_pos; lia). rewrite Qmult_div_r by lra. lra.
  Qed.
  Lemma handed_eq c m : (0 < outdeg g m)%nat -> qnat (outdeg g m) * (c / qnat (outdeg g m)) == c.
  Proof. intros H. assert (P : 1 <= qnat (outdeg g m)) by (apply qnat_pos; exact H). apply Qmult_div_r. lra. Qed.

  (* change of the right-hand sides when one value changes *)
  Definition dlt (x : name) (c : Q) (n : name) : Q := if mem x (ins n) then d * c / qnat (outdeg g x) else 0.
  Lemma rhs_dset pr x r n : rhs d mv g (dset pr x r) n == rhs d mv g pr n + dlt x (r - rank pr x) n.
  Proof.
    unfold rhs, dlt. rewrite <- Qplus_assoc. apply Qplus_comp; [reflexivity|]. pose proof (ins_NoDup W T n) as ND. induction ND as [|m t Hm Ht IH]; cbn [qsum mem]; [ring|].
    unfold Py.eqb. destruct (eq_dec x m) as [<-|Ne].
    - cbn [orb]. apply mem_nIn in Hm. rewrite Hm in IH. rewrite IH. unfold share. rewrite rank_dset, Py.eqb_refl. unfold Qdiv. ring.
    - cbn [orb]. rewrite IH. unfold share. rewrite rank_dset, eqbF by congruence. ring.
  Qed.
  Lemma dlt_total x c : 0 <= d -> 0 <= c -> qsum (dlt x c) V <= d * c.
  Proof.
    intros D0 C0. unfold dlt. rewrite (qsum_if (fun n => mem x (ins n)) (fun _ => d * c / qnat (outdeg g x))), qsum_const, (Permutation_length (column x)).
    apply handed. apply Qmult_le_0_compat; assumption.
  Qed.
  Lemma dlt_abs x c n : 0 <= d -> Qabs (dlt x c n) == dlt x (Qabs c) n.
  Proof.
    intros D0. unfold dlt. destruct (mem x (ins n)); [|reflexivity]. unfold Qdiv. rewrite !Qabs_Qmult, (Qabs_pos d D0).
    rewrite (Qabs_pos (/ _)); [reflexivity|]. destruct (outdeg g x) as [|k]; [cbn; lra|]. apply qinv_le1, qnat_pos. lia.
  Qed.

  Hypothesis D0 : 0 <= d.
  Hypothesis D1 : d <= 1.
  Definition resid (pr : ranks) (n : name) : Q := Qabs (rank pr n - rhs d mv g pr n).
  Record pushed (pr0 : ranks) (done rest : list name) (diff : Q) (pr : ranks) : Prop := {
    pu_keys : dkeys pr = dkeys pr0;
    pu_all : qsum (resid pr) done + d * qsum (resid pr) rest <= d * qsum (resid pr0) V;
    pu_diff : qsum (resid pr) done <= d * diff
  }.
  Lemma resid_ext l (h : name -> Q) : forall pr pr', (forall n, In n l -> resid pr' n <= resid pr n + h n) -> qsum (resid pr') l <= qsum (resid pr) l + qsum h l.
  Proof. intros pr pr' H. rewrite <- qsum_plus. apply qsum_le. exact H. Qed.
  Lemma pushed_step pr0 done x rest diff pr r : V = done ++ x :: rest -> pushed pr0 done (x :: rest) diff pr -> In x (dkeys pr) -> r == rhs d mv g pr x ->
    pushed pr0 (done ++ [x]) rest (diff + Qabs (rank pr x - r)) (dset pr x r).
  Proof.
    intros EV [K A B] Hk Hr. set (a := Qabs (rank pr x - r)).
    assert (Ra : resid pr x == a) by (unfold resid, a; rewrite <- Hr; reflexivity).
    assert (A0 : 0 <= a) by apply Qabs_nonneg.
    pose proof (wf_nd W) as ND. change (NoDup V) in ND. rewrite EV in ND. apply NoDup_remove_2 in ND. rewrite in_app_iff in ND.
    set (h := dlt x a).
    assert (Ha : Qabs (r - rank pr x) == a) by (unfold a; rewrite Qabs_Qminus; reflexivity).
    assert (Hh : forall n, Qabs (dlt x (r - rank pr x) n) == h n).
    { intros n. rewrite dlt_abs by exact D0. unfold h, dlt. destruct (mem x (ins n)); [rewrite Ha; reflexivity|reflexivity]. }
    assert (H0 : forall n, 0 <= h n) by (intros n; rewrite <- Hh; apply Qabs_nonneg).
    assert (Stp : forall n, n <> x -> resid (dset pr x r) n <= resid pr n + h n).
    { intros n Ne. unfold resid. rewrite rank_dset, eqbF by exact Ne. rewrite rhs_dset, <- Hh.
      setoid_replace (rank pr n - (rhs d mv g pr n + dlt x (r - rank pr x) n)) with ((rank pr n - rhs d mv g pr n) + - dlt x (r - rank pr x) n) by ring.
      eapply Qle_trans; [apply Qabs_triangle|]. rewrite Qabs_opp. lra. }
    assert (Sx : resid (dset pr x r) x == h x).
    { unfold resid. rewrite rank_dset, Py.eqb_refl, rhs_dset, <- Hh.
      setoid_replace (r - (rhs d mv g pr x + dlt x (r - rank pr x) x)) with (- dlt x (r - rank pr x) x) by (rewrite <- Hr; ring).
      rewrite Qabs_opp. reflexivity. }
    assert (Tot : qsum h done + h x + qsum h rest <= d * a).
    { pose proof (@dlt_total x a D0 A0) as Dt. fold h in Dt. rewrite EV, qsum_app in Dt. cbn [qsum] in Dt. lra. }
    assert (S1 : qsum (resid (dset pr x r)) done <= qsum (resid pr) done + qsum h done) by (apply resid_ext; intros n Hn; apply Stp; intros ->; tauto).
    assert (S2 : qsum (resid (dset pr x r)) rest <= qsum (resid pr) rest + qsum h rest) by (apply resid_ext; intros n Hn; apply Stp; intros ->; tauto).
    assert (P1 : 0 <= qsum h rest) by (apply qsum_nonneg; auto).
    cbn [qsum] in A. rewrite Ra in A.
    constructor.
    - rewrite dkeys_dset_in by exact Hk. exact K.
    - rewrite qsum_app. cbn [qsum]. rewrite Sx.
      assert (d * qsum (resid (dset pr x r)) rest <= d * qsum (resid pr) rest + d * qsum h rest) by (rewrite <- Qmult_plus_distr_r; apply qmul_le; assumption).
      assert (d * qsum h rest <= qsum h rest) by (rewrite <- (Qmult_1_l (qsum h rest)) at 2; apply Qmult_le_compat_r; assumption).
      rewrite Qmult_plus_distr_r in A. lra.
    - rewrite qsum_app. cbn [qsum]. rewrite Sx, Qmult_plus_distr_r. lra.
  Qed.
  Lemma sweep_pushed pr : (forall x, In x V -> In x (dkeys pr)) ->
    exists diff pr', sweep d mv V pr g = (g, Ok (diff, pr')) /\ pushed pr V [] diff pr'.
  Proof.
    intros K. unfold sweep.
    assert (G : forall rest done diff pr', V = done ++ rest -> pushed pr done rest diff pr' ->
      exists diff2 pr2, foldM (fun (s : Q * ranks) node => let '(diff, pagerank) := s in
        rank <- rank_of d mv pagerank node ;; old <- lift (dget pagerank node) KeyError ;;
        ret (diff + Qabs (old - rank), dset pagerank node rank)) rest (diff, pr') g = (g, Ok (diff2, pr2)) /\ pushed pr (done ++ rest) [] diff2 pr2).
    { induction rest as [|x t IH]; intros done diff pr' E Sw.
      - exists diff, pr'. rewrite app_nil_r. split; [reflexivity|exact Sw].
      - assert (Hx : In x V) by (rewrite E; apply in_elt).
        destruct (@rank_of_ok g d mv W T pr' x) as (r & Er & Hr); [intros y Hy; rewrite (pu_keys Sw); auto|exact Hx|].
        assert (Hk : In x (dkeys pr')) by (rewrite (pu_keys Sw); auto). destruct (dget_exists Hk) as [old Ho].
        destruct (IH (done ++ [x]) (diff + Qabs (old - r)) (dset pr' x r)) as (diff2 & pr2 & E2 & S2).
        + rewrite <- app_assoc. exact E.
        + assert (Eo : rank pr' x = old) by (unfold rank; rewrite Ho; reflexivity). rewrite <- Eo. apply pushed_step; auto.
        + exists diff2, pr2. split; [|rewrite <- app_assoc in S2; exact S2]. cbn [foldM]. unfold bind at 1, bind at 1. rewrite Er. unfold bind at 1. rewrite Ho. cbn [lift ret]. exact E2. }
    apply (G V [] 0 pr eq_refl). constructor; cbn [qsum]; [reflexivity|lra|lra].
  Qed.
  Lemma sweeps_pushed eps k : forall pr, (forall x, In x V -> In x (dkeys pr)) ->
    exists pr', sweeps k d mv eps V pr g = (g, Ok pr') /\
      (qsum (resid pr') V <= Qpower d (Z.of_nat k) * qsum (resid pr) V \/ qsum (resid pr') V <= d * eps).
  Proof.
    induction k as [|k IH]; intros pr K.
    - exists pr. split; [reflexivity|]. left. cbn. lra.
    - destruct (sweep_pushed K) as (diff & pr1 & E1 & P1). cbn [sweeps]. unfold bind at 1. rewrite E1. cbn [fst snd].
      destruct (Qle_bool eps diff) eqn:B.
      + destruct (IH pr1) as (pr2 & E2 & H2); [intros x Hx; rewrite (pu_keys P1); auto|]. exists pr2. split; [exact E2|]. destruct H2 as [H2|H2]; [left|right; exact H2].
        eapply Qle_trans; [exact H2|]. pose proof (pu_all P1) as Al. cbn [qsum] in Al.
        assert (Pw : Qpower d (Z.of_nat (S k)) == Qpower d (Z.of_nat k) * d).
        { rewrite Nat2Z.inj_succ, <- Z.add_1_r, Qpower_plus' by lia. reflexivity. }
        rewrite Pw, <- Qmult_assoc. apply qmul_le; [|lra]. apply Qpower_pos; exact D0.
      + exists pr1. split; [reflexivity|]. right. eapply Qle_trans; [exact (pu_diff P1)|]. apply qmul_le; [exact D0|].
        assert (~ eps <= diff) by (rewrite <- Qle_bool_iff, B; discriminate). lra.
  Qed.
End Conv.
