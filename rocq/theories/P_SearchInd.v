(* Induction principle for one iteration of the pure search machine. *)
From Verif Require Import Py Util M_Graph M_Search Spec P_Walk S_Frontier P_SearchAbs P_Search.
Set Implicit Arguments. Unset Strict Implicit.

Section Ind.
  Variable fr : frontier.
  Variable al : algo.
  Variable nb : name -> list name.
  Variable cost : name -> name -> option Z.
  Variable s0 : name.
  Variable els : fq fr -> list name.
  Hypothesis Hbag : bag els.
  Hypothesis Hpq : is_pq_algo al = true -> prioq els.
  Hypothesis Hnpq : is_pq_algo al = false -> fq_is_pq fr = false.
  Hypothesis Hal : al <> OtherAlgo.
  Variable V : list name.
  Hypothesis Hnb : forall x y, In x V -> In y (nb x) -> In y V.
  Hypothesis HV : NoDup V.
  Hypothesis Hcost : is_pq_algo al = true -> forall x y, In y (nb x) -> cost x y <> None.
  Notation Inv_ := (Inv al nb s0 els V).
  Variable X : ast fr -> Prop.
  Variable Y : name -> list name -> ast fr -> Prop.
  Hypothesis H_pop : forall s cur q', Inv_ None s -> X s -> fq_peek (a_q s) = Some cur -> In cur (els (a_q s)) -> In cur (a_gr s) ->
    fq_remove (a_q s) cur = Some q' -> X (with_q s q').
  Hypothesis H_start : forall s cur, Inv_ None s -> X s -> fq_peek (a_q s) = Some cur -> In cur (els (a_q s)) -> ~ In cur (a_gr s) ->
    Y cur [] (a_visit s cur).
  Hypothesis H_skip : forall cur pre n t, Inv_ (Some cur) t -> cur_ok s0 els cur t -> In n (nb cur) -> In n (a_gr t) -> Y cur pre t -> Y cur (pre ++ [n]) t.
  Hypothesis H_edge : forall cur pre n t t', Inv_ (Some cur) t -> cur_ok s0 els cur t -> In n (nb cur) -> ~ In n (a_gr t) -> Y cur pre t ->
    a_edge al cost cur n t = Some t' -> Y cur (pre ++ [n]) t'.
  Hypothesis H_end : forall cur t q', Inv_ (Some cur) t -> cur_ok s0 els cur t -> Y cur (nb cur) t -> fq_remove (a_q t) cur = Some q' ->
    X (mkA (a_pred t) q' (cur :: a_gr t) (a_dist t) (a_prio t)).

  Lemma scan_ind cur l : forall pre s s', Inv_ (Some cur) s -> cur_ok s0 els cur s -> (forall n, In n l -> In n (nb cur)) ->
    Y cur pre s -> a_scan al cost cur l s = Some s' -> Y cur (pre ++ l) s' /\ Inv_ (Some cur) s' /\ cur_ok s0 els cur s'.
  Proof.
    induction l as [|n l IH]; intros pre s s' I C Hl Ys Hs; simpl in Hs.
    - injection Hs as <-. rewrite app_nil_r. auto.
    - assert (Hn : In n (nb cur)) by (apply Hl; simpl; auto).
      replace (pre ++ n :: l) with ((pre ++ [n]) ++ l) by (rewrite <- app_assoc; reflexivity).
      destruct (mem_spec n (a_gr s)) as [Hg|Hg].
      + apply (IH (pre ++ [n]) s s' I C); [intros; apply Hl; simpl; auto|exact (H_skip I C Hn Hg Ys)|exact Hs].
      + destruct (a_edge al cost cur n s) as [s1|] eqn:He; [|discriminate].
        destruct (a_edge_inv Hbag Hpq Hnpq Hal Hnb Hcost I C Hn Hg He) as (I1 & C1 & _).
        apply (IH (pre ++ [n]) s1 s' I1 C1); [intros; apply Hl; simpl; auto| |exact Hs]. exact (H_edge I C Hn Hg Ys He).
  Qed.
  Lemma iter_ind dest s s' : Inv_ None s -> X s -> a_iter al nb cost s0 dest s = Some (inl s') -> X s'.
  Proof.
    intros I Xs. unfold a_iter. destruct (fq_isEmpty (a_q s)) eqn:Hem; [discriminate|].
    assert (Hne : els (a_q s) <> []). { intros H. apply (bag_empty Hbag) in H. congruence. }
    destruct (bag_peek Hbag Hne) as (cur & Hpk & Hc). rewrite Hpk.
    destruct (mem_spec cur (a_gr s)) as [Hg|Hg].
    { destruct (fq_remove _ _) eqn:Hr; [|discriminate]. intros [= <-]. exact (H_pop I Xs Hpk Hc Hg Hr). }
    destruct (_ && _); [discriminate|]. destruct (eqb _ _); [discriminate|].
    destruct (Inv_start I Hpk Hc Hg) as [I1 C1].
    assert (Cv : cur_ok s0 els cur (a_visit s cur)) by (destruct C1 as (A1 & A2 & A3); unfold cur_ok, disc; rewrite visit_gr, visit_q, visit_pred; auto).
    assert (Iv : Inv_ (Some cur) (a_visit s cur)) by (apply Inv_visit; auto).
    destruct (a_scan al cost cur (nb cur) (a_visit s cur)) as [s2|] eqn:Hs2; [|discriminate].
    destruct (fq_remove (a_q s2) cur) as [q'|] eqn:Hr; [|discriminate]. intros [= <-].
    destruct (scan_ind (pre := []) Iv Cv (fun n H => H) (H_start I Xs Hpk Hc Hg) Hs2) as (Y2 & I2 & C2).
    exact (H_end I2 C2 Y2 Hr).
  Qed.
End Ind.
