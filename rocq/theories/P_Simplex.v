(* The optimality test and the choice of the entering arc. *)
From Verif Require Import Py Util M_Graph P_Graph Spec P_Attr M_Search M_Flow S_Flow S_GraphFlow S_MinCost S_Simplex P_GraphLaws P_EdgeFrame P_MaxFlow P_MinCostAbs P_Residual P_Dfs M_Simplex.
Set Implicit Arguments. Unset Strict Implicit.
Local Open Scope string_scope. Local Open Scope list_scope.

Lemma edge_get_eq g x y a : g_type g = Directed -> In (x, y) (get_edge_list g) -> edge_get (x, y) a g = get_edge_attr x y a g.
Proof.
  intros D He. unfold edge_get, get_edge_attr. rewrite D. simpl. apply dget_exists in He as [d Ed]. rewrite Ed. destruct (dget d a); reflexivity.
Qed.
Section Simplex.
  Variable g : graph.
  Hypothesis W : wf g.
  Hypothesis D : g_type g = Directed.
  Hypothesis IF : int_attr g "flow".
  Hypothesis IC : int_attr g "capacity".
  Hypothesis HC : has_costs g false.
  Hypothesis IP : int_potentials g.
  Variable t : graph.
  Notation es := (get_edge_list g).
  Definition viol (e : name * name) : option Z :=
    if (flow_of g e =? 0)%Z then if (reduced_cost g e <? 0)%Z then Some (reduced_cost g e) else None
    else if (flow_of g e =? cap_of g e)%Z then if (reduced_cost g e >? 0)%Z then Some (reduced_cost g e) else None
    else None.
  Lemma violation_eq e : In e es -> violation e g = (g, Ok (viol e)).
  Proof.
    intros He. destruct e as [x y]. unfold violation, viol, reduced_cost, flow_of, cap_of, edge_cost, pot_of. cbn [fst snd].
    destruct (edge_nodes W D He) as [Hx Hy]. destruct (IF He) as [f Ef], (IC He) as [c Ec], (IP Hx) as [p Ep], (IP Hy) as [q Eq].
    destruct (HC (x := x) (y := y)) as [k Ek]; [unfold sarc, arc, check_edge; rewrite D; apply dmem_In, He|].
    rewrite !eattr_obs, Ef, Ec, Ek, Ep, Eq.
    assert (R : forall A (m : M graph A) r, obs m g = r -> fst (m g) = g -> m g = (g, r)) by (intros A m r H1 H2; unfold obs in H1; destruct (m g); simpl in *; congruence).
    assert (Fe : forall a v, obs (get_edge_attr x y a) g = Ok v -> edge_get (x, y) a g = (g, Ok v)) by (intros a v H; rewrite edge_get_eq by assumption; apply R; [exact H|unfold get_edge_attr; rewrite D; simpl; destruct (dget (g_edges g) (x, y)); reflexivity]).
    assert (Fn : forall n v, obs (get_node_attr n "potential") g = Ok v -> get_node_attr n "potential" g = (g, Ok v)) by (intros n v H; apply R; [exact H|reflexivity]).
    erewrite bind_ok by (apply Fe, Ef). erewrite bind_ok by (apply Fn, Ep). erewrite bind_ok by (apply Fn, Eq). erewrite bind_ok by (apply Fe, Ec). erewrite bind_ok by (apply Fe, Ek).
    repeat (erewrite bind_ok by reflexivity). 
    assert (E : forall a b, eqb (VI a) (VI b) = (a =? b)%Z).
    { intros a b. destruct (eqb_spec (VI a) (VI b)) as [K|K], (Z.eqb_spec a b); congruence. }
    rewrite !E. destruct (f =? 0)%Z; [reflexivity|]. destruct (f =? c)%Z; reflexivity.
  Qed.
  Lemma viol_eligible e : In e es -> (viol e <> None /\ ~ In e (get_edge_list t) <-> eligible g t e).
  Proof.
    intros He. unfold viol, eligible.
    destruct (Z.eqb_spec (flow_of g e) 0); [destruct (Z.ltb_spec (reduced_cost g e) 0)|destruct (Z.eqb_spec (flow_of g e) (cap_of g e)); [destruct (Z.gtb_spec (reduced_cost g e) 0)|]];
      (split; [intros [K1 K2]; try congruence; (split; [exact He|]); (split; [exact K2|]); auto|intros (_ & K1 & K2); (split; [try discriminate|exact K1]); intros _; destruct K2 as [[? ?]|(? & ? & ?)]; (congruence || lia)]).
  Qed.
  Lemma viol_cost e z : viol e = Some z -> z = reduced_cost g e.
  Proof. unfold viol. destruct (_ =? 0)%Z; [destruct (_ <? _)%Z|destruct (_ =? _)%Z; [destruct (_ >? _)%Z|]]; congruence. Qed.
  Definition pick (e : name * name) : option Z := if dmem (g_edges t) e then None else viol e.
  Lemma pick_eligible e : In e es -> (pick e <> None <-> eligible g t e).
  Proof.
    intros He. rewrite <- viol_eligible by exact He. unfold pick. destruct (dmem_spec (g_edges t) e) as [H|H]; unfold get_edge_list; [|tauto]. split; [congruence|]. intros [_ K]. contradiction.
  Qed.
  Lemma optimal_eq : simplex_optimal t g = (g, Ok (forallb (fun e => match pick e with Some _ => false | None => true end) es)).
  Proof.
    unfold simplex_optimal. erewrite bind_ok by reflexivity. assert (Hi : incl es es) by apply incl_refl. revert Hi. generalize es at 1 3 4. intros l. induction l as [|e l IH]; intros Hi; [reflexivity|].
    cbn [optimal_from forallb]. unfold pick at 1. destruct (dmem (g_edges t) e); [apply IH; intros x Hx; apply Hi; right; exact Hx|].
    erewrite bind_ok by (apply violation_eq, Hi; left; reflexivity). destruct (viol e); [reflexivity|]. apply IH. intros x Hx. apply Hi. right. exact Hx.
  Qed.
  Definition cands (l : list (name * name)) : list (name * name * Z) := flat_map (fun e => match pick e with Some z => [(e, z)] | None => [] end) l.
  Lemma candidates_eq : candidates t g = (g, Ok (cands es)).
  Proof.
    unfold candidates. erewrite bind_ok by reflexivity.
    assert (F : forall l acc, incl l es -> foldM (fun l e => if dmem (g_edges t) e then ret l else v <- violation e ;; match v with Some z => ret (l ++ [(e, z)]) | None => ret l end) l acc g = (g, Ok (acc ++ cands l))).
    2: { apply (F es []), incl_refl. }
    intros l. induction l as [|e l IH]; intros acc Hi; cbn [foldM cands flat_map]; [rewrite app_nil_r; reflexivity|].
    assert (Hl : incl l es) by (intros x Hx; apply Hi; right; exact Hx). fold (cands l). unfold pick. destruct (dmem (g_edges t) e).
    - erewrite bind_ok by reflexivity. apply IH, Hl.
    - unfold bind at 1 2. rewrite violation_eq by (apply Hi; left; reflexivity). destruct (viol e) as [z|]; cbn [ret]; rewrite IH by exact Hl; [rewrite <- app_assoc|]; reflexivity.
  Qed.
  Lemma max_violation_spec l best : let r := max_violation l best in
    (r = best \/ exists e z, In (e, z) l /\ r = (e, Z.abs z)) /\ (snd best <= snd r)%Z /\ forall e z, In (e, z) l -> (Z.abs z <= snd r)%Z.
  Proof.
    revert best. induction l as [|[e z] l IH]; intros best; cbn zeta; simpl; [split; [auto|split; [lia|tauto]]|].
    destruct (IH (if (snd best <? Z.abs z)%Z then (e, Z.abs z) else best)) as (H1 & H2 & H3). destruct (Z.ltb_spec (snd best) (Z.abs z)) as [Hlt|Hge].
    - split; [right; destruct H1 as [-> |(e' & z' & Hi & ->)]; [exists e, z; auto|exists e', z'; auto]|]. cbn [snd] in H2. split; [lia|]. intros e' z' [[= <- <-]|Hi]; [exact H2|eapply H3; eassumption].
    - split; [destruct H1 as [-> |(e' & z' & Hi & ->)]; [auto|right; exists e', z'; auto]|]. split; [exact H2|]. intros e' z' [[= <- <-]|Hi]; [lia|eapply H3; eassumption].
  Qed.
  Lemma first_eq l : incl l es -> forall r0, exists r, foldM (fun r e => if dmem (g_edges t) e then ret r else v <- violation e ;; match v with Some _ => ret (Some e) | None => ret r end) l r0 g = (g, Ok r) /\
    ((r = r0 /\ forall e, In e l -> pick e = None) \/ exists e l1 l2, r = Some e /\ l = l1 ++ e :: l2 /\ pick e <> None /\ forall e', In e' l2 -> pick e' = None).
  Proof.
    induction l as [|e l IH]; intros Hi r0; [exists r0; split; [reflexivity|left; split; [reflexivity|intros e []]]|].
    assert (Hl : incl l es) by (intros x Hx; apply Hi; right; exact Hx). cbn [foldM].
    assert (E : exists r1, (if dmem (g_edges t) e then ret r0 else v <- violation e ;; match v with Some _ => ret (Some e) | None => ret r0 end) g = (g, Ok r1) /\ r1 = match pick e with Some _ => Some e | None => r0 end).
    { unfold pick. destruct (dmem (g_edges t) e); [eexists; split; reflexivity|]. erewrite bind_ok by (apply violation_eq, Hi; left; reflexivity). destruct (viol e); eexists; split; reflexivity. }
    destruct E as (r1 & E & ->). erewrite bind_ok by exact E. destruct (IH Hl (match pick e with Some _ => Some e | None => r0 end)) as (r & Er & H). exists r. split; [exact Er|].
    destruct H as [[-> H]|(e' & l1 & l2 & -> & -> & H1 & H2)]; [|right; exists e', (e :: l1), l2; auto].
    destruct (pick e) as [z|] eqn:Ep; [right; exists e, [], l; repeat split; [congruence|exact H]|left; split; [reflexivity|intros e' [<-|He']; auto]].
  Qed.
End Simplex.
