(* Branch and bound (C62): the choice of the branching variable and what it does to the 0-1 points. *)
From Coq Require Import QArith Qround Qminmax Permutation Lqa.
From Verif Require Import Py Util M_Graph M_Tree M_BB S_BB.
Set Implicit Arguments. Unset Strict Implicit.
Local Open Scope string_scope. Local Open Scope list_scope.

Lemma lin_ext l c x y : (forall i, In i l -> x i == y i) -> lin l c x == lin l c y.
Proof. induction l as [|i l IH]; intros H; [reflexivity|]. cbn [lin fold_right]. rewrite (H i (or_introl eq_refl)). unfold lin in IH. rewrite IH; [reflexivity|]. intros j Hj. apply H. right. exact Hj. Qed.
Lemma frac_open q : 0 <= q <= 1 -> ~ q == 0 -> ~ q == 1 -> 0 < q < 1.
Proof. intros [H1 H2] H3 H4. split; apply Qnot_le_lt; intros H; [apply H3|apply H4]; lra. Qed.
Lemma floor_open q : 0 < q < 1 -> Qfloor q = 0%Z.
Proof.
  intros [H1 H2]. pose proof (Qfloor_le q) as A. pose proof (Qlt_floor q) as B. rewrite inject_Z_plus in B. change (inject_Z 1) with 1 in B.
  assert (C : inject_Z (Qfloor q) < inject_Z 1) by (change (inject_Z 1) with 1; lra). assert (D : inject_Z (-1) < inject_Z (Qfloor q)) by (change (inject_Z (-1)) with (-(1)); lra).
  rewrite <- Zlt_Qlt in C, D. lia.
Qed.
Lemma ceil_open q : 0 < q < 1 -> Qceiling q = 1%Z.
Proof.
  intros [H1 H2]. pose proof (Qle_ceiling q) as A. pose proof (Qceiling_lt q) as B. unfold Z.sub in B. rewrite inject_Z_plus in B. change (inject_Z (- (1))) with (-(1)) in B.
  assert (C : inject_Z 0 < inject_Z (Qceiling q)) by (change (inject_Z 0) with 0; lra). assert (D : inject_Z (Qceiling q) < inject_Z 2) by (change (inject_Z 2) with 2; lra).
  rewrite <- Zlt_Qlt in C, D. lia.
Qed.
Lemma frac_pos q : 0 < q < 1 -> 0 < frac q.
Proof. intros H. unfold frac. rewrite (floor_open H), (ceil_open H). change (inject_Z 0) with 0. change (inject_Z 1) with 1. apply Q.min_glb_lt; lra. Qed.
Lemma frac_int q : 0 <= q <= 1 -> 0 < frac q -> 0 < q < 1.
Proof.
  intros H F. apply frac_open; [exact H| |]; intros E.
  - unfold frac in F. pose proof (Q.le_min_l (q - inject_Z (Qfloor q)) (inject_Z (Qceiling q) - q)) as M. rewrite (Qfloor_comp _ _ E) in M, F. change (inject_Z (Qfloor 0)) with 0 in *. lra.
  - unfold frac in F. pose proof (Q.le_min_l (q - inject_Z (Qfloor q)) (inject_Z (Qceiling q) - q)) as M. rewrite (Qfloor_comp _ _ E) in M, F. change (inject_Z (Qfloor 1)) with 1 in *. lra.
Qed.

Section Lp.
  Variable P : instance.
  Definition cs_ok (cs : list con) : Prop := NoDup (map bound_var cs) /\ Forall (fixing P) cs.
  Lemma cs_incl cs : Forall (fixing P) cs -> incl (map bound_var cs) (VARIABLES P).
  Proof. intros H x Hx. apply in_map_iff in Hx as (c & <- & Hc). rewrite Forall_forall in H. destruct (H c Hc) as (y & Hy & [->| ->]); exact Hy. Qed.
  (* a variable that is fixed has the value 0 or 1 *)
  Lemma fixed_value cs v x : lp_feasible P cs v -> Forall (fixing P) cs -> In x (map bound_var cs) -> v x == 0 \/ v x == 1.
  Proof.
    intros (B & _ & F) H Hx. apply in_map_iff in Hx as (c & <- & Hc). rewrite Forall_forall in H, F. pose proof (F c Hc) as S. destruct (H c Hc) as (y & Hy & [->| ->]); cbn in *; pose proof (B y Hy).
    - left. change (inject_Z 0) with 0 in S. lra.
    - right. change (inject_Z 1) with 1 in S. lra.
  Qed.
  Lemma branch_fresh cs v x : lp_feasible P cs v -> cs_ok cs -> In x (VARIABLES P) -> 0 < v x < 1 -> ~ In x (map bound_var cs).
  Proof. intros L [_ H] Hx Hv Hi. destruct (fixed_value L H Hi); lra. Qed.
  Lemma depth_bound cs x : cs_ok cs -> In x (VARIABLES P) -> ~ In x (map bound_var cs) -> (length cs < length (VARIABLES P))%nat.
  Proof.
    intros [N H] Hx Hn. assert (NoDup (x :: map bound_var cs)) as N' by (constructor; assumption).
    assert (I : incl (x :: map bound_var cs) (VARIABLES P)) by (intros y [<-|Hy]; [exact Hx|apply (cs_incl H), Hy]).
    pose proof (NoDup_incl_length N' I) as K. cbn [length] in K. rewrite map_length in K. lia.
  Qed.
  Lemma integral_spec v : integral P v = true <-> forall i, In i (VARIABLES P) -> v i == 0 \/ v i == 1.
  Proof.
    unfold integral. rewrite forallb_forall. split; intros H i Hi; specialize (H i Hi).
    - apply orb_true_iff in H as [H|H]; apply Qeq_bool_iff in H; auto.
    - apply orb_true_iff. destruct H as [H|H]; apply Qeq_bool_iff in H; auto.
  Qed.
  Lemma integral_false v : integral P v = false -> exists i, In i (VARIABLES P) /\ ~ v i == 0 /\ ~ v i == 1.
  Proof.
    unfold integral. induction (VARIABLES P) as [|i l IH]; cbn [forallb]; [discriminate|]. intros H. apply andb_false_iff in H as [H|H].
    - apply orb_false_iff in H as [H1 H2]. exists i. split; [left; reflexivity|]. split; intros E; apply Qeq_bool_iff in E; congruence.
    - destruct (IH H) as (j & Hj & K). exists j. split; [right; exact Hj|exact K].
  Qed.
  (* both rules choose a variable whose value is strictly between 0 and 1 *)
  Lemma first_frac_ok obj v t : forall l, (exists i, In i l /\ 0 < frac (v i)) -> exists x, first_frac (LpOptimal obj v) l t = (t, Ok (Some x)) /\ In x l /\ 0 < frac (v x).
  Proof.
    induction l as [|i l IH]; intros (j & Hj & F); [destruct Hj|]. cbn [first_frac varValue]. unfold bind, ret. destruct (Qle_bool (frac (v i)) 0) eqn:E; cbn [negb].
    - apply Qle_bool_iff in E. destruct IH as (x & H1 & H2 & H3); [exists j; split; [destruct Hj as [->|Hj]; [lra|exact Hj]|exact F]|]. exists x. split; [exact H1|]. split; [right; exact H2|exact H3].
    - exists i. split; [reflexivity|]. split; [left; reflexivity|]. apply Qnot_le_lt. intros K. apply Qle_bool_iff in K. congruence.
  Qed.
  Lemma most_frac_ok obj v t : (exists i, In i (VARIABLES P) /\ 0 < frac (v i)) -> exists x, most_frac P (LpOptimal obj v) t = (t, Ok (Some x)) /\ In x (VARIABLES P) /\ 0 < frac (v x).
  Proof.
    intros (j & Hj & F). unfold most_frac.
    assert (O : ok (foldM (fun (s : Q * option string) i => v0 <- varValue (LpOptimal obj v) i ;; if negb (Qle_bool (frac v0) (fst s)) then ret (frac v0, Some i) else ret s) (VARIABLES P) (-(1), None)) t
      (fun b t' => t' = t /\ (forall i, In i (VARIABLES P) -> frac (v i) <= fst b) /\ match snd b with Some x => In x (VARIABLES P) /\ fst b == frac (v x) | None => fst b == -(1) end)).
    { apply ok_foldM with (I := fun pre b t' => t' = t /\ (forall i, In i pre -> frac (v i) <= fst b) /\ match snd b with Some x => In x (VARIABLES P) /\ fst b == frac (v x) | None => fst b == -(1) end).
      - split; [reflexivity|]. split; [intros i []|reflexivity].
      - intros pre i post b t' El (-> & H1 & H2). cbn [varValue]. apply ok_bind, ok_ret. destruct (Qle_bool (frac (v i)) (fst b)) eqn:E; cbn [negb]; apply ok_ret; (split; [reflexivity|]).
        + apply Qle_bool_iff in E. split; [|exact H2]. intros k Hk. apply in_app_iff in Hk as [Hk|[<-|[]]]; [apply H1, Hk|exact E].
        + assert (E' : fst b < frac (v i)) by (apply Qnot_le_lt; intros K; apply Qle_bool_iff in K; congruence). cbn [fst snd]. split.
          * intros k Hk. apply in_app_iff in Hk as [Hk|[<-|[]]]; [specialize (H1 k Hk); lra|lra].
          * split; [rewrite El; apply in_app_iff; right; left; reflexivity|reflexivity].
      - intros b t' H. exact H. }
    apply ok_ex in O as (t' & [b o] & E & -> & H1 & H2). cbn [fst snd] in *. rewrite (bind_ok _ E). cbn [snd]. specialize (H1 j Hj). destruct o as [x|]; [|lra].
    destruct H2 as [H2 H3]. exists x. split; [reflexivity|]. split; [exact H2|]. lra.
  Qed.
  Lemma choose_ok bs obj v t : bs <> OtherBranching -> (forall i, In i (VARIABLES P) -> 0 <= v i <= 1) -> integral P v = false ->
    exists x, choose P bs (LpOptimal obj v) t = (t, Ok (Some x)) /\ In x (VARIABLES P) /\ 0 < v x < 1.
  Proof.
    intros Hb B H. destruct (integral_false H) as (i & Hi & H0 & H1). assert (E : exists i, In i (VARIABLES P) /\ 0 < frac (v i)) by (exists i; split; [exact Hi|apply frac_pos, frac_open; auto]).
    destruct bs; [| |contradiction]; cbn [choose].
    - destruct (first_frac_ok obj t E) as (x & X1 & X2 & X3). exists x. split; [exact X1|]. split; [exact X2|]. apply frac_int; auto.
    - destruct (most_frac_ok obj t E) as (x & X1 & X2 & X3). exists x. split; [exact X1|]. split; [exact X2|]. apply frac_int; auto.
  Qed.
  (* a 0-1 point that satisfies the constraints is a point of the relaxation *)
  Lemma solution_feasible cs x : solution P x -> Forall (satisfies x) cs -> lp_feasible P cs x.
  Proof. intros [H1 H2] F. split; [|split; assumption]. intros i Hi. destruct (H1 i Hi); lra. Qed.
  Lemma feasible_solution cs v : lp_feasible P cs v -> integral P v = true -> solution P v.
  Proof. intros (_ & R & _) H. split; [apply integral_spec, H|exact R]. Qed.
  Lemma solution_ext x y : (forall i, In i (VARIABLES P) -> x i == y i) -> solution P x -> solution P y.
  Proof. intros E [H1 H2]. split; [intros i Hi; rewrite <- (E i Hi); apply H1, Hi|]. intros row Hr. rewrite <- (lin_ext _ E). apply H2, Hr. Qed.
  Lemma objective_ext x y : (forall i, In i (VARIABLES P) -> x i == y i) -> objective P x == objective P y.
  Proof. apply lin_ext. Qed.
End Lp.
