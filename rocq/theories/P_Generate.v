(* The random instances of simplex_test.py. *)
From Coq Require Import Permutation.
From Verif Require Import Py Util M_Graph P_Graph P_GraphLaws M_Search M_Random M_SimplexTest Spec P_Attr S_Flow S_GraphFlow S_MinCost S_Generate P_Random P_EdgeFrame P_MaxFlow P_MinCostAbs P_Residual P_Feasible P_Pok.
Set Implicit Arguments. Unset Strict Implicit.
Local Open Scope string_scope. Local Open Scope list_scope. Local Open Scope Z_scope.

Lemma amount_dset d k v z : amount_at (dset d k v) z = if eq_dec z k then v else amount_at d z.
Proof. unfold amount_at. rewrite dget_dset. destruct (eq_dec k z), (eq_dec z k); congruence. Qed.

Section Gen.
  Variable o : oracle.
  Variable p : tparams.
  Hypothesis Hcap : fst (capacity_range p) <= snd (capacity_range p).
  Hypothesis Hcost : fst (cost_range p) <= snd (cost_range p).
  Hypothesis Hdem : fst (demand_range p) <= snd (demand_range p).
  Hypothesis Hn : 0 < tnumnodes p.
  Notation n := (tnumnodes p).
  Notation rstate := (graph * nat)%type.

  (** * Arcs *)
  Record arcs_ok (ga : attrs) (g : graph) : Prop := {
    ao_wf : wf g;
    ao_dir : g_type g = Directed;
    ao_attr : g_attr g = ga;
    ao_nodes : forall x, In x (get_node_list g) <-> exists y, In (x, y) (get_edge_list g) \/ In (y, x) (get_edge_list g);
    ao_range : forall x, In x (get_node_list g) -> exists z, x = NI z /\ 0 <= z < n;
    ao_asym : asymmetric (get_edge_list g);
    ao_attrs : forall x y, In (x, y) (get_edge_list g) ->
      (exists c, obs (get_edge_attr x y "capacity") g = Ok (VI c) /\ within (capacity_range p) c) /\
      (exists k, obs (get_edge_attr x y "cost") g = Ok (VI k) /\ within (cost_range p) k)
  }.
  Lemma try_ok ga g r i j : arcs_ok ga g -> 0 <= i < n -> 0 <= j < n -> ok (try_arc o p i j) (g, r) (fun _ s => arcs_ok ga (fst s)).
  Proof.
    intros A Hi Hj. unfold try_arc. destruct (Z.eqb_spec i j) as [|Ne]; [apply ok_ret; exact A|]. apply ok_bind, ok_gets. cbn [fst].
    destruct (mem (NI i, NI j) (get_edge_list g)) eqn:M1; [apply ok_ret; exact A|]. destruct (mem (NI j, NI i) (get_edge_list g)) eqn:M2; [apply ok_ret; exact A|].
    apply ok_bind, ok_coin. intros b. destruct b; [|apply ok_ret; exact A]. apply ok_bind, ok_randint; [exact Hcap|]. intros c Hc. apply ok_bind, ok_randint; [exact Hcost|]. intros k Hk. cbn [fst snd]. apply ok_ong.
    assert (N1 : ~ In (NI i, NI j) (get_edge_list g)) by (intros K; apply mem_In in K; congruence).
    assert (N2 : ~ In (NI j, NI i) (get_edge_list g)) by (intros K; apply mem_In in K; congruence).
    assert (Ck : check_edge g (NI i) (NI j) = false) by (unfold check_edge; rewrite (ao_dir A); apply not_true_iff_false; rewrite dmem_In; exact N1).
    assert (Nk : NoDup (dkeys [("cost", VI k); ("capacity", VI c)])) by (repeat constructor; simpl; intuition discriminate).
    destruct (add_edge_views (ao_wf A) Nk Ck) as (h & E & W & T & Nh & Lh & At & At' & _). pose proof (add_edge_attr (ao_wf A) Ck E) as Ga.
    eapply ok_intro; [exact E|]. cbn [fst].
    assert (Nd : forall x, In x (get_node_list h) <-> In x (get_node_list g) \/ x = NI i \/ x = NI j).
    { intros x. rewrite Nh, !in_app_iff. split.
      - intros [H|[H|H]]; [auto|destruct (mem (NI i) (get_node_list g)); [destruct H|destruct H as [<-|[]]; auto]|destruct (mem (NI j) (get_node_list g ++ [NI i])); [destruct H|destruct H as [<-|[]]; auto]].
      - intros [H|[->| ->]]; [auto| |].
        + destruct (mem (NI i) (get_node_list g)) eqn:M; [left; apply mem_In, M|right; left; left; reflexivity].
        + destruct (mem (NI j) (get_node_list g ++ [NI i])) eqn:M; [|right; right; left; reflexivity]. apply mem_In, in_app_or in M as [M|[[= ->]|[]]]; [auto|congruence]. }
    constructor.
    - exact W.
    - rewrite T. apply (ao_dir A).
    - rewrite Ga. apply (ao_attr A).
    - intros x. rewrite Nd, (ao_nodes A). setoid_rewrite Lh. setoid_rewrite in_app_iff. split.
      + intros [(y & [H|H])|[->| ->]]; [exists y; auto|exists y; auto|exists (NI j); left; right; left; reflexivity|exists (NI i); right; right; left; reflexivity].
      + intros (y & [[H|[[= <- <-]|[]]]|[H|[[= <- <-]|[]]]]); eauto.
    - intros x Hx. apply Nd in Hx as [Hx|[->| ->]]; [apply (ao_range A Hx)|eauto|eauto].
    - intros x y. rewrite !Lh, !in_app_iff. intros [H|[E1|[]]] [K|[E2|[]]]; [apply (ao_asym A H K)|injection E2 as <- <-; contradiction|injection E1 as <- <-; contradiction|congruence].
    - intros x y H. rewrite Lh in H. apply in_app_or in H as [H|[[= <- <-]|[]]].
      + assert (Cx : check_edge g x y = true) by (unfold check_edge; rewrite (ao_dir A); apply dmem_In, H). rewrite !At' by exact Cx. apply (ao_attrs A H).
      + rewrite !At. split; eexists; (split; [reflexivity|assumption]).
  Qed.

  (** * Demands and supplies *)
  Lemma draw_ok fuel count taken s : pok (draw_nodes o p fuel count taken) s (fun d s' => fst s' = fst s /\ NoDup (dkeys d) /\ length d = count /\ (forall z, In z (dkeys d) -> 0 <= z < n /\ ~ In z (dkeys taken))).
  Proof.
    unfold draw_nodes. apply pok_loop with (I := fun d s' => fst s' = fst s /\ NoDup (dkeys d) /\ (length d <= count)%nat /\ (forall z, In z (dkeys d) -> 0 <= z < n /\ ~ In z (dkeys taken))).
    { split; [reflexivity|]. split; [constructor|]. split; [simpl; lia|]. intros z []. }
    intros d s' (Es & N & L & R). destruct (Nat.ltb_spec (length d) count) as [Hl|Hl].
    - apply pok_step, ok_randint; [lia|]. intros z Hz. destruct (dmem taken z || dmem d z) eqn:M; [apply pok_ret; auto|]. apply orb_false_iff in M as [M1 M2].
      assert (Nd : ~ In z (dkeys d)) by (intros K; apply dmem_In in K; congruence). apply pok_ret. cbn [fst].
      split; [exact Es|]. rewrite (dkeys_dset_nin' _ Nd). split; [apply NoDup_app_iff; split; [exact N|split; [repeat constructor; intros []|]]; intros x Hx [<-|[]]; contradiction|].
      split; [rewrite (dkeys_dset_nin _ Nd), app_length; simpl; lia|]. intros x Hx. apply in_app_or in Hx as [Hx|[<-|[]]]; [apply R, Hx|]. split; [lia|]. intros K. apply dmem_In in K. congruence.
    - apply pok_ret. split; [exact Es|]. split; [exact N|]. split; [lia|exact R].
  Qed.
  Lemma amounts_ok d s : NoDup (dkeys d) -> ok (draw_amounts o p d) s (fun r s' => fst s' = fst s /\ dkeys (fst r) = dkeys d /\ length (fst r) = length d /\ (forall z a, dget (fst r) z = Some a -> fst (demand_range p) <= a) /\ snd r = total (fst r)).
  Proof.
    intros N. unfold draw_amounts. eapply ok_foldM with (I := fun pre (r : dict Z Z * Z) s' => fst s' = fst s /\ dkeys (fst r) = dkeys d /\ (forall z, In z pre -> fst (demand_range p) <= amount_at (fst r) z) /\ snd r = zsum (amount_at (fst r)) pre).
    - cbn [fst snd]. split; [reflexivity|]. split; [reflexivity|]. split; [intros z []|reflexivity].
    - intros pre z post [r t] s' Ep (Es & Ek & B & Et). cbn [fst snd] in *. assert (Nz : ~ In z pre) by (intros K; rewrite Ep in N; apply NoDup_remove_2 in N; apply N, in_or_app; auto).
      assert (Hz : In z (dkeys r)) by (rewrite Ek, Ep; apply in_elt).
      apply ok_bind, ok_randint; [exact Hdem|]. intros a Ha. apply ok_ret. cbn [fst snd]. split; [exact Es|]. split; [rewrite dkeys_dset_in by exact Hz; exact Ek|]. split.
      + intros x Hx. rewrite amount_dset. destruct (eq_dec x z); [lia|]. apply in_app_or in Hx as [Hx|[->|[]]]; [apply B, Hx|congruence].
      + rewrite zsum_app, Et. unfold zsum at 3. cbn [fold_right]. rewrite amount_dset. destruct (eq_dec z z); [|congruence]. f_equal; [|lia]. apply zsum_ext. intros x Hx. rewrite amount_dset. destruct (eq_dec x z); [subst; contradiction|reflexivity].
    - intros [r t] s' (Es & Ek & B & Et). cbn [fst snd] in *. split; [exact Es|]. split; [exact Ek|]. split; [rewrite <- (map_length fst r), <- (map_length fst d); unfold dkeys in Ek; rewrite Ek; reflexivity|]. split.
      + intros z a Hz. replace a with (amount_at r z) by (unfold amount_at; rewrite Hz; reflexivity). apply B. rewrite <- Ek. apply (dget_Some_keys Hz).
      + unfold total. rewrite Ek. exact Et.
  Qed.
  Lemma first_ok d e s : NoDup (dkeys d) -> 0 <= e -> (forall z a, dget d z = Some a -> fst (demand_range p) <= a) -> ok (add_first d e) s (fun d' s' => s' = s /\ dkeys d' = dkeys d /\ length d' = length d /\ (forall z a, dget d' z = Some a -> fst (demand_range p) <= a) /\ (d <> [] -> total d' = total d + e)).
  Proof.
    intros N He B. unfold add_first. destruct d as [|[k v] d]; [apply ok_ret; split; [reflexivity|]; split; [reflexivity|]; split; [reflexivity|]; split; [exact B|congruence]|]. cbn [dkeys map fst].
    assert (Ev : dget ((k, v) :: d) k = Some v) by (cbn [dget]; destruct (eq_dec k k); congruence). apply ok_bind. eapply ok_lift; [exact Ev|]. apply ok_ret. split; [reflexivity|].
    assert (Ed : dset ((k, v) :: d) k (v + e) = (k, v + e) :: d) by (cbn [dset]; destruct (eq_dec k k); congruence). rewrite Ed. split; [reflexivity|]. split; [reflexivity|]. split.
    - intros z a. rewrite <- Ed, dget_dset. destruct (eq_dec k z); [intros [= <-]; specialize (B k v Ev); lia|apply B].
    - intros _. rewrite <- Ed. unfold total. rewrite dkeys_dset_in by (left; reflexivity). cbn [dkeys map fst]. cbn [dkeys map fst] in N. inversion N as [|? ? N1 N2]; subst.
      unfold zsum. cbn [fold_right]. fold (zsum (amount_at (dset ((k, v) :: d) k (v + e))) (map fst d)) (zsum (amount_at ((k, v) :: d)) (map fst d)).
      rewrite amount_dset. destruct (eq_dec k k); [|congruence]. rewrite (@zsum_ext _ _ (amount_at ((k, v) :: d)) (map fst d)); [unfold amount_at at 2; rewrite Ev; lia|].
      intros x Hx. rewrite amount_dset. destruct (eq_dec x k); [subst; contradiction|reflexivity].
  Qed.
  Lemma set_demand_ok ga g r d s : arcs_ok ga g -> ok (forM_ (get_node_list g) (set_demand d s)) (g, r) (fun _ st => arcs_ok ga (fst st) /\ get_node_list (fst st) = get_node_list g /\
    forall z, In (NI z) (get_node_list g) -> nattr (fst st) (NI z) "demand" = VI (demand_from d s z)).
  Proof.
    intros A. eapply ok_forM with (I := fun pre st => same_shape g (fst st) /\ g_attr (fst st) = g_attr g /\ (forall x y b, eattr (fst st) x y b = eattr g x y b) /\ forall z, In (NI z) pre -> nattr (fst st) (NI z) "demand" = VI (demand_from d s z)).
    - cbn [fst]. split; [apply ss_refl|]. split; [reflexivity|]. split; [reflexivity|intros z []].
    - intros pre x post [h r'] Ep (Sh & Ga & Ea & Dm). cbn [fst] in *. assert (Hx : In x (get_node_list g)) by (rewrite Ep; apply in_elt). unfold set_demand. apply ok_ong.
      apply ok_set_node_attr; [rewrite (ss_nodes Sh), (wf_nodes (ao_wf A)); exact Hx|]. intros h' Sh' Nn Ne Ga' _ _. cbn [fst].
      split; [eapply ss_trans; eassumption|]. split; [congruence|]. split; [intros; rewrite Ne; apply Ea|]. intros z Hz. rewrite Nn. destruct (eq_dec (NI z, "demand") (x, "demand")) as [[= <-]|N].
      + f_equal. unfold demand_from, amount_at, dmem. destruct (dget d z); [lia|]. destruct (dget s z); reflexivity.
      + apply in_app_or in Hz as [Hz|[->|[]]]; [apply Dm, Hz|congruence].
    - intros [h r'] (Sh & Ga & Ea & Dm). cbn [fst] in *. assert (Ev : get_node_list h = get_node_list g) by apply (ss_node_list Sh). assert (Ee : get_edge_list h = get_edge_list g) by apply (ss_edges Sh). split; [|split; [exact Ev|exact Dm]].
      destruct A as [W D Ga0 An Ar As At]. constructor.
      + apply (ss_wf Sh W).
      + rewrite (ss_type Sh). exact D.
      + congruence.
      + intros x. rewrite Ev, Ee. apply An.
      + intros x. rewrite Ev. apply Ar.
      + rewrite Ee. exact As.
      + intros x y H. rewrite Ee in H. destruct (At x y H) as [(c & Hc & Rc) (k & Hk & Rk)].
        assert (Eo : forall a v, obs (get_edge_attr x y a) g = Ok v -> obs (get_edge_attr x y a) h = Ok v).
        { intros a v Hv. pose proof (Ea x y a) as K. rewrite !eattr_obs, Hv in K. destruct (obs (get_edge_attr x y a) h); congruence. }
        split; [exists c; split; [apply Eo, Hc|exact Rc]|exists k; split; [apply Eo, Hk|exact Rk]].
  Qed.
  Lemma generate_ok fuel : generate_graph o p fuel = Err OutOfFuel \/ exists g d s, generate_graph o p fuel = Ok (g, d, s) /\ generated p g d s /\ dget (g_attr g) "display" <> None.
  Proof.
    set (g0 := new_graph (Some Directed) [("splines", VS "true"); ("layout", VS "dot")]). set (ga := g_attr g0).
    enough (pok (generate_body o p fuel) (g0, O) (fun r s => arcs_ok ga (fst s) /\ (let '(d, s') := r in generated p (fst s) d s'))) as [[_ H]|H].
    { left. unfold generate_graph. fold g0. destruct (generate_body o p fuel (g0, O)) as [[g r] [[d s]|e]]; cbn [snd] in H; congruence. }
    { right. apply ok_ex in H as ([g r] & [d s] & E & A & G). cbn [fst] in *. exists g, d, s. unfold generate_graph. fold g0. rewrite E. split; [reflexivity|]. split; [exact G|]. rewrite (ao_attr A). unfold ga. vm_compute. discriminate. }
    assert (A0 : arcs_ok ga g0).
    { constructor; [apply wf_new|reflexivity|reflexivity|intros x; split; [intros []|intros (y & [[]|[]])]|intros x []|intros x y []|intros x y []]. }
    unfold generate_body. apply pok_step. eapply ok_forM with (I := fun _ s => arcs_ok ga (fst s)); [exact A0| |].
    { intros pre i post s Ep A. apply zrange_fresh in Ep as (_ & Hi & _). eapply ok_forM with (I := fun _ s => arcs_ok ga (fst s)); [exact A| |auto].
      intros pre' j post' [g r] Ep A'. apply zrange_fresh in Ep as (_ & Hj & _). apply (try_ok r A' Hi Hj). }
    intros [g r0] A. cbn [fst] in A. apply pok_bind. eapply pok_weaken; [apply draw_ok|]. intros d [g1 r1] (Eg & Nd & Ld & Rd). cbn [fst] in Eg. subst g1.
    apply pok_bind. eapply pok_weaken; [apply draw_ok|]. intros s [g1 r2] (Eg & Ns & Ls & Rs). cbn [fst] in Eg. subst g1.
    apply pok_step. eapply ok_weaken; [apply (amounts_ok _ Nd)|]. intros [d1 td] [g1 r3] (Eg & Kd & Ld1 & Bd & Td). cbn [fst snd] in *. subst g1 td.
    apply pok_step. eapply ok_weaken; [apply (amounts_ok _ Ns)|]. intros [s1 ts] [g1 r4] (Eg & Ks & Ls1 & Bs & Ts). cbn [fst snd] in *. subst g1 ts.
    assert (Nd1 : NoDup (dkeys d1)) by (rewrite Kd; exact Nd). assert (Ns1 : NoDup (dkeys s1)) by (rewrite Ks; exact Ns).
    assert (Zne : forall (l : dict Z Z) k, length l = k -> (0 < k)%nat -> l <> []) by (intros [|] k <-; [simpl; lia|discriminate]).
    apply pok_step. eapply ok_weaken with (Q := fun (r : dict Z Z * dict Z Z) st => st = (g, r4) /\ dkeys (fst r) = dkeys d1 /\ length (fst r) = length d1 /\ dkeys (snd r) = dkeys s1 /\ length (snd r) = length s1 /\
      (forall z a, dget (fst r) z = Some a -> fst (demand_range p) <= a) /\ (forall z a, dget (snd r) z = Some a -> fst (demand_range p) <= a) /\ (d1 <> [] -> s1 <> [] -> total (fst r) = total (snd r))).
    { rewrite Z.gtb_ltb. destruct (Z.ltb_spec (total s1) (total d1)) as [H|H].
      - apply ok_bind. eapply ok_weaken; [apply (first_ok _ Ns1); [lia|exact Bs]|]. intros s2 st (-> & K2 & L2 & B2 & T2). apply ok_ret. cbn [fst snd]. repeat (split; [auto|]). intros _ Hs. rewrite (T2 Hs). lia.
      - destruct (Z.ltb_spec (total d1) (total s1)) as [H'|H'].
        + apply ok_bind. eapply ok_weaken; [apply (first_ok _ Nd1); [lia|exact Bd]|]. intros d2 st (-> & K2 & L2 & B2 & T2). apply ok_ret. cbn [fst snd]. repeat (split; [auto|]). intros Hs _. rewrite (T2 Hs). lia.
        + apply ok_ret. cbn [fst snd]. repeat (split; [auto|]). intros _ _. lia. }
    intros [d2 s2] st (-> & K2 & L2 & K3 & L3 & B2 & B3 & T2). cbn [fst snd] in *. apply pok_step, ok_gets. cbn [fst].
    apply pok_step. eapply ok_weaken; [apply (set_demand_ok r4 d2 s2 A)|]. intros _ [h r5] (Ah & En & Dm). cbn [fst] in *. apply pok_ret. cbn [fst]. split; [exact Ah|].
    destruct Ah as [W D Ga An Ar As At]. constructor; try assumption.
    - split; [congruence|]. split; [congruence|]. split; [|exact B2]. intros z Hz. rewrite K2, Kd in Hz. apply (Rd z Hz).
    - split; [congruence|]. split; [congruence|]. split; [|exact B3]. intros z Hz. rewrite K3, Ks in Hz. apply (Rs z Hz).
    - intros z Hz Hs. rewrite K3, Ks in Hs. rewrite K2, Kd in Hz. apply (proj2 (Rs z Hs)). exact Hz.
    - intros H1 H2. apply T2; [apply (Zne _ (demand_numnodes p)); congruence|apply (Zne _ (supply_numnodes p)); congruence].
    - intros z Hz. rewrite obs_nattr by (rewrite (wf_nodes W); exact Hz). f_equal. apply Dm. rewrite <- En. exact Hz.
  Qed.
End Gen.

(** * Balance *)
Lemma zsum_incl {A} `{EqDec A} (f : A -> Z) (K V : list A) : NoDup K -> NoDup V -> (forall x, In x K -> In x V) -> (forall x, In x V -> ~ In x K -> f x = 0) -> zsum f V = zsum f K.
Proof.
  intros NK NV Hi Hz. rewrite (zsum_split (fun x => mem x K) f V). rewrite (@zsum_zero _ f (filter (fun x => negb (mem x K)) V)).
  - rewrite Z.add_0_r. apply zsum_perm. apply NoDup_Permutation; [apply NoDup_filter, NV|exact NK|]. intros x. rewrite filter_In, mem_In. split; [tauto|]. intros Hx. split; [apply Hi, Hx|exact Hx].
  - intros x Hx. apply filter_In in Hx as [Hx M]. apply Hz; [exact Hx|]. intros Kx. apply mem_In in Kx. rewrite Kx in M. discriminate.
Qed.
Definition at_name (d : dict Z Z) (x : name) : Z := match x with NI z => amount_at d z | NS _ => 0 end.
Lemma at_name_sum d V : NoDup (dkeys d) -> NoDup V -> (forall z, In z (dkeys d) -> In (NI z) V) -> zsum (at_name d) V = total d.
Proof.
  intros N NV Hi. rewrite (@zsum_incl _ _ (at_name d) (map NI (dkeys d)) V).
  - rewrite zsum_map. reflexivity.
  - apply FinFun.Injective_map_NoDup; [intros x y [= ->]; reflexivity|exact N].
  - exact NV.
  - intros x Hx. apply in_map_iff in Hx as (z & <- & Hz). apply Hi, Hz.
  - intros [z|t] Hx Nx; [|reflexivity]. cbn [at_name]. unfold amount_at. destruct (dget d z) eqn:E; [|reflexivity]. exfalso. apply Nx, in_map. apply (dget_Some_keys E).
Qed.
Lemma generated_balance p g d s : generated p g d s -> (0 < demand_numnodes p)%nat -> (0 < supply_numnodes p)%nat ->
  (forall z, In z (dkeys d) \/ In z (dkeys s) -> In (NI z) (get_node_list g)) -> zsum (demand_of g) (get_node_list g) = 0.
Proof.
  intros G Hd Hs Hall. destruct (gn_demand G) as (Nd & _). destruct (gn_supply G) as (Ns & _).
  rewrite (@zsum_ext _ _ (fun x => at_name s x - at_name d x)).
  - rewrite zsum_sub, !at_name_sum; [rewrite (gn_total G Hd Hs); lia|exact Nd|apply (wf_nd (gn_wf G))|auto|exact Ns|apply (wf_nd (gn_wf G))|auto].
  - intros x Hx. destruct (gn_range G Hx) as (z & -> & _). unfold demand_of. rewrite (gn_attrs G Hx). cbn [at_name]. unfold demand_from. destruct (dmem d z) eqn:M; [|unfold amount_at at 3; unfold dmem in M; destruct (dget d z); [discriminate|lia]].
    assert (Hz : ~ In z (dkeys s)) by (apply (gn_disjoint G), dmem_In, M). unfold amount_at at 2. destruct (dget s z) eqn:E; [|lia]. exfalso. apply Hz, (dget_Some_keys E).
Qed.
