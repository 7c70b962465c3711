(* The network simplex method on nondegenerate problems: every pivot lowers the cost, so the pivoting loop ends. *)
From Verif Require Import Py Util M_Graph P_Graph P_GraphLaws Spec P_Walk P_Attr M_Search M_Flow M_Dfs S_Flow S_GraphFlow S_MinCost S_Simplex P_EdgeFrame P_Flow P_MinCostAbs M_MinCost M_Simplex M_NetSimplex P_Residual P_PreflowTop P_Pok P_NetTree P_NetSearch P_NetPot P_NetPivot P_NetCycle P_NetLoop.
From Verif Require P_Span.
Set Implicit Arguments. Unset Strict Implicit.
Local Open Scope string_scope. Local Open Scope list_scope.

Section Term.
  Variables (V : list name) (es : arcs) (c k : fn) (b : name -> Z) (root : name).
  Hypothesis As : asymmetric es.
  Hypothesis Nd : NoDup es.
  Hypothesis NV : NoDup V.
  Hypothesis EV : forall e, In e es -> In (fst e) V /\ In (snd e) V.
  Hypothesis HI : int_names V.
  Hypothesis Hr : In root V.
  Local Open Scope Z_scope.

  (* what leaves a set of nodes minus what enters it *)
  Lemma cut_flow f (S : name -> bool) : feasible V es c b f -> zsum b (filter S V) = cut_capacity es f S - cut_capacity es f (fun x => negb (S x)).
  Proof.
    intros F. pose proof (potential_sum f (fun x => if S x then 1 else 0) NV EV) as H.
    assert (L1 : zsum (fun x => (if S x then 1 else 0) * net es f x) V = - zsum b (filter S V)).
    { rewrite zsum_filter, <- zsum_opp. apply zsum_ext. intros x Hx. rewrite <- (fs_demand F Hx), out_in. destruct (S x); lia. }
    assert (L2 : zsum (fun e => ((if S (snd e) then 1 else 0) - (if S (fst e) then 1 else 0)) * f e) es = - (cut_capacity es f S - cut_capacity es f (fun x => negb (S x)))).
    { unfold cut_capacity. rewrite !zsum_filter, <- zsum_sub, <- zsum_opp. apply zsum_ext. intros e _. destruct (S (fst e)), (S (snd e)); cbn [negb andb]; lia. }
    cbv beta in H. rewrite L1, L2 in H. lia.
  Qed.

  Hypothesis ND : nondegenerate V es c b.
  Lemma tree_strict f t h e : tsol V es c k b f t h -> In e (get_edge_list t) -> f e = 0 \/ f e = c e -> False.
  Proof.
    intros T He Hb. pose proof (ts_feas T) as F. destruct e as [u v]. set (T' := without (u, v) (get_edge_list t)).
    set (S := fun x => if P_Span.conn_dec T' u x then true else false).
    assert (HS : forall x, S x = true <-> conn T' u x) by (intros x; unfold S; destruct (P_Span.conn_dec T' u x) as [C|C]; split; intros K; solve [exact C|reflexivity|discriminate|destruct (C K)]).
    destruct (EV (ts_es T He)) as [Vu Vv]. cbn [fst snd] in Vu, Vv.
    assert (Cross : forall e, In e es -> S (fst e) <> S (snd e) -> f e = (if f e =? c e then c e else 0)).
    { intros e Hes Hc. assert (Hf : f e = 0 \/ f e = c e).
      { destruct (eq_dec e (u, v)) as [->|Hne]; [exact Hb|]. apply (ts_out T Hes). intros Ht.
        assert (A : adj T' (fst e) (snd e)) by (left; rewrite <- surjective_pairing; apply in_without; auto).
        assert (E : S (fst e) = true <-> S (snd e) = true).
        { rewrite !HS. split; intros K; [apply (conn_trans K), conn_adj, A|apply (conn_trans K), conn_adj, adj_sym, A]. }
        destruct (S (fst e)), (S (snd e)); intuition congruence. }
      destruct (Z.eqb_spec (f e) (c e)); [assumption|destruct Hf; [assumption|contradiction]]. }
    apply (proj2 ND S (fun e => f e =? c e)).
    - exists u. split; [exact Vu|apply HS, conn_refl].
    - exists v. split; [exact Vv|]. destruct (S v) eqn:E; [|reflexivity]. apply HS in E. destruct (ts_forest T He E).
    - rewrite (cut_flow S F). unfold cut_capacity. apply f_equal2; apply zsum_ext; intros e H; apply filter_In in H as [H1 H2]; apply Cross; try exact H1; destruct (S (fst e)), (S (snd e)); discriminate.
  Qed.
  Lemma tree_inner f t h e : tsol V es c k b f t h -> In e (get_edge_list t) -> 0 < f e < c e.
  Proof. intros T He. pose proof (fs_bounds (ts_feas T) (ts_es T He)) as B. pose proof (tree_strict T He) as N. lia. Qed.

  Section Pivot.
    Variables (f : fn) (t h : graph) (x y : name) (t1 : graph) (e : name * name) (m : Z) (cyc : list name).
    Hypothesis PS : psol V es c k b root f t h.
    Hypothesis El : eligible h t (x, y).
    Hypothesis L : leaving es c f t x y t1 e m cyc.
    Notation f' := (fold_left (push es m) (cycle_pairs cyc) f).
    Lemma amount_pos : 0 < m.
    Proof.
      destruct (ps_eligible PS El) as (He & Ht & Hb). pose proof (ps_sol PS) as T. destruct (lv_arc L) as (p & Hp & _ & <-).
      assert (Hu := lv_use L Hp). unfold room. pose proof (proj1 ND _ He) as Hc.
      assert (Both : forall q, In q (get_edge_list t ++ [(x, y)]) -> q = (x, y) \/ 0 < f q < c q) by (intros q Hq; apply in_app_iff in Hq as [Hq|[<-|[]]]; [right; apply (tree_inner T Hq)|auto]).
      assert (Ent : In (x, y) (cycle_pairs cyc) -> f (x, y) = 0).
      { intros K. destruct (lv_enter L) as [[_ K']|[K' _]]; [exact K'|]. destruct (lv_asym L K K'). }
      assert (Ent' : In (y, x) (cycle_pairs cyc) -> f (x, y) = c (x, y)).
      { intros K. destruct (lv_enter L) as [[K' _]|[_ K']]; [|exact K']. destruct (lv_asym L K K'). }
      assert (Hi : incl (get_edge_list t ++ [(x, y)]) es) by (intros q Hq; apply in_app_iff in Hq as [Hq|[<-|[]]]; [apply (ts_es T Hq)|exact He]).
      destruct (mem_spec p es) as [Hm|Hm].
      - assert (Hq : In p (get_edge_list t ++ [(x, y)])) by (destruct Hu as [Hu|Hu]; [exact Hu|]; exfalso; destruct p as [p1 p2]; apply (As Hm), Hi, Hu).
        destruct (Both p Hq) as [->|K]; [|lia]. rewrite (Ent Hp). lia.
      - destruct Hu as [Hu|Hu]; [destruct (Hm (Hi _ Hu))|]. destruct (Both _ Hu) as [K|K]; [|lia]. destruct p as [p1 p2]. cbn [fst snd] in *. injection K as -> ->. rewrite (Ent' Hp). lia.
    Qed.
    Lemma cost_drops : flow_cost es k f' < flow_cost es k f.
    Proof.
      destruct (ps_eligible PS El) as (He & Ht & Hb). pose proof (ps_sol PS) as T. pose proof (ts_feas T) as F. pose proof amount_pos as Hm. pose proof (proj1 ND _ He) as Hc.
      assert (Elg : f (x, y) = 0 /\ k (x, y) - pt h x + pt h y < 0 \/ f (x, y) <> 0 /\ f (x, y) = c (x, y) /\ 0 < k (x, y) - pt h x + pt h y).
      { destruct El as (_ & _ & H). rewrite (ps_flow PS He), (ps_cap PS He), (ps_reduced EV PS He) in H. exact H. }
      pose proof (new_feasible As Nd (ts_es T) L He F) as F'.
      assert (Z0 : zsum (fun e => (pt h (snd e) - pt h (fst e)) * (f' e - f e)) es = 0).
      { rewrite (potential_sum (fun e => f' e - f e) (pt h) NV EV). apply zsum_zero. intros z Hz. rewrite net_sub. pose proof (fs_demand F Hz). pose proof (fs_demand F' Hz). rewrite out_in in *. replace (net es f' z - net es f z) with 0 by lia. lia. }
      assert (Dif : flow_cost es k f' - flow_cost es k f = zsum (fun e => if eqb e (x, y) then (k (x, y) - pt h x + pt h y) * (f' (x, y) - f (x, y)) else 0) es).
      { unfold flow_cost. rewrite <- zsum_sub. rewrite <- (Z.add_0_r (zsum _ es)) at 1. rewrite <- Z0, <- zsum_add. apply zsum_ext. intros [u v] Huv. cbn [fst snd]. destruct (eqb_spec (u, v) (x, y)) as [[= -> ->]|Hne]; [lia|].
        destruct (in_dec eq_dec (u, v) (get_edge_list t)) as [Htr|Htr].
        - pose proof (ps_red PS Htr) as K. replace (k (u, v)) with (pt h u - pt h v) by lia. lia.
        - rewrite (other_flow As (ts_es T) L He Huv); [lia|]. intros K. apply in_app_iff in K as [K|[K|[]]]; [contradiction|congruence]. }
      rewrite zsum_delta in Dif by exact Nd. rewrite (proj2 (mem_In _ _) He) in Dif. rewrite (flow_at As L He) in Dif. cbn [fst snd] in Dif.
      destruct (lv_enter L) as [[K Kf]|[K Kf]].
      - rewrite (proj2 (mem_In _ _) K), (proj2 (mem_nIn _ _) (lv_asym L K)) in Dif. nia.
      - rewrite (proj2 (mem_In _ _) K), (proj2 (mem_nIn _ _) (lv_asym L K)) in Dif. nia.
    Qed.
  End Pivot.

  Definition cost_bound : Z := zsum (fun e => Z.abs (k e) * c e) es.
  Lemma cost_range f : feasible V es c b f -> - cost_bound <= flow_cost es k f <= cost_bound.
  Proof.
    intros F. unfold cost_bound, flow_cost. rewrite <- zsum_opp. split; apply zsum_le; intros e He; pose proof (fs_bounds F He); nia.
  Qed.
  Definition pivot_bound : nat := Z.to_nat (2 * cost_bound).
  Lemma pivots_t fuel display pivot f t h : pivot = "dantzig" \/ pivot = "first_eligible" -> psol V es c k b root f t h ->
    tpk (fuel <= pivot_bound + net_bound V)%nat (loop fuel (pivot_step fuel display pivot root) t) h (fun r h' => r = true /\ exists f', self V es c k f' h' /\ min_cost V es c b k f').
  Proof.
    intros Hp PS. apply tpk_loop with (n := Z.to_nat (flow_cost es k f + cost_bound)) (I := fun n t h => exists f, n = Z.to_nat (flow_cost es k f + cost_bound) /\ psol V es c k b root f t h); [eauto| |].
    - intros K. pose proof (cost_range (ts_feas (ps_sol PS))). unfold pivot_bound. lia.
    - intros ? t' h' (f0 & -> & PS'). eapply pok_from; [apply (pivot_t As Nd NV EV HI Hr fuel display Hp PS')|lia|]. intros [t2|r] h2 H; [|exact H].
      destruct H as (x & y & t1 & e & m & cyc & El & L & P2). eexists. split; [|eexists; split; [reflexivity|exact P2]].
      pose proof (cost_drops PS' El L). pose proof (cost_range (ts_feas (ps_sol P2))). lia.
  Qed.
End Term.
