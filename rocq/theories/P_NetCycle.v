(* simplex_find_cycle: the cycle it returns uses no ordered pair of neighbours twice; without a cycle the graph is a forest. *)
From Verif Require Import Py Util M_Graph P_Graph P_GraphLaws Spec P_Walk P_Attr M_Search M_Flow M_Dfs S_Flow S_MinCost P_EdgeFrame P_Flow P_MinCostAbs M_MinCost M_NetSimplex P_Residual P_Pok P_NetTree P_NetSearch P_NetPot P_NetPivot.
Set Implicit Arguments. Unset Strict Implicit.
Local Open Scope string_scope. Local Open Scope list_scope.

Lemma consecutive_app (l m : list name) s : consecutive (l ++ s :: m) = consecutive (l ++ [s]) ++ consecutive (s :: m).
Proof.
  induction l as [|x l IH]; [reflexivity|]. destruct l as [|y l]; [reflexivity|].
  change (consecutive ((x :: y :: l) ++ s :: m)) with ((x, y) :: consecutive ((y :: l) ++ s :: m)). rewrite IH. reflexivity.
Qed.
Lemma consecutive_in l a b : In (a, b) (consecutive l) -> In a l /\ In b l.
Proof. intros H. apply in_consecutive in H as (P1 & P2 & ->). split; apply in_app_iff; simpl; auto. Qed.
Lemma NoDup_app_join {A} (l m : list A) : NoDup l -> NoDup m -> (forall x, In x l -> ~ In x m) -> NoDup (l ++ m).
Proof.
  intros Hl Hm H. induction Hl as [|x l Hx Hl IH]; [exact Hm|]. simpl. constructor.
  - rewrite in_app_iff. intros [K|K]; [contradiction|]. apply (H x (or_introl eq_refl) K).
  - apply IH. intros y Hy. apply H. right. exact Hy.
Qed.

Lemma list_last {A} (l : list A) : l = [] \/ exists l1 z, l = l1 ++ [z].
Proof. destruct l as [|x t]; [auto|]. right. destruct (@exists_last _ (x :: t)) as (l1 & z & E); [discriminate|eauto]. Qed.
Lemma last_app_cons {A} (l m : list A) x d : last (l ++ x :: m) d = last (x :: m) d.
Proof. induction l as [|y l IH]; [reflexivity|]. simpl app. rewrite <- IH. destruct (l ++ x :: m) eqn:E; [destruct l; discriminate E|reflexivity]. Qed.

Lemma filter_length_le {A} (p : A -> bool) l : length (filter p l) <= length l.
Proof. induction l as [|x l IH]; simpl; [lia|]. destruct (p x); simpl; lia. Qed.
Lemma filter_le {A} (p q : A -> bool) l : (forall x, In x l -> q x = true -> p x = true) -> length (filter q l) <= length (filter p l).
Proof.
  induction l as [|x l IH]; intros H; simpl; [lia|]. assert (IH' := IH (fun y Hy => H y (or_intror Hy))). pose proof (H x (or_introl eq_refl)). destruct (q x), (p x); simpl; try lia.
Qed.
Lemma filter_lt {A} (p q : A -> bool) l x : (forall x, In x l -> q x = true -> p x = true) -> In x l -> p x = true -> q x = false -> length (filter q l) < length (filter p l).
Proof.
  intros H Hx Hp Hq. apply in_split in Hx as (l1 & l2 & ->). rewrite !filter_app, !app_length. simpl. rewrite Hp, Hq. simpl.
  assert (length (filter q l1) <= length (filter p l1)) by (apply filter_le; intros y Hy; apply H, in_app_iff; auto).
  assert (length (filter q l2) <= length (filter p l2)) by (apply filter_le; intros y Hy; apply H, in_app_iff; simpl; auto). lia.
Qed.
(* a cycle along which flow can be changed; the arc that closes it is used once *)
Definition good_cycle (es : arcs) (cyc : list name) : Prop := cyc <> [] /\ NoDup (cycle_pairs cyc) /\ (forall p, In p (cycle_pairs cyc) -> usable es p) /\
  forall x t, cyc = x :: t -> ~ In (x, last (x :: t) x) (cycle_pairs cyc).

Section Find.
  Variable r : graph.
  Notation V := (get_node_list r).
  Notation es := (get_edge_list r).
  Hypothesis W : wf r.
  Hypothesis Dr : g_type r = Directed.
  Hypothesis As : asymmetric es.
  Hypothesis HI : int_names V.
  Notation par pred x := (match dget pred x with Some o => o | None => None end).
  Notation dp depth x := (match dget depth x with Some z => z | None => 0%Z end).

  Section Component.
    Variables (s : name) (dn : list name).
    Hypothesis Hdn : forall x y, In x dn -> adj es x y -> In y dn.
    Hypothesis Hs : In s V.

    Record FC (C : name -> name -> Prop) (proc q : list name) (depth : dict name Z) (pred : dict name (option name)) (h : graph) : Prop := {
      fc_fr : nfr ["component"] r h;
      fc_keys : forall x, In x (dkeys depth) <-> In x (dkeys pred);
      fc_src : In s (dkeys pred) /\ par pred s = None;
      fc_par : forall x, In x (dkeys pred) -> x <> s -> exists p, par pred x = Some p /\ In p proc /\ adj es x p /\ dp depth x = (dp depth p + 1)%Z;
      fc_pq : forall x, In x (dkeys pred) <-> In x (proc ++ q);
      fc_nd : NoDup (proc ++ q);
      fc_V : incl (dkeys pred) V;
      fc_dn : forall x, In x (dkeys pred) -> ~ In x dn;
      fc_comp : forall x, In x V -> (nattr h x "component" = VNone <-> ~ In x dn /\ ~ In x (dkeys pred));
      fc_C : forall x y, C x y -> In x (dkeys pred) /\ In y (dkeys pred) /\ (par pred x = Some y \/ par pred y = Some x)
    }.
    Lemma FC_weaken (C C' : name -> name -> Prop) proc q depth pred h : (forall x y, C' x y -> C x y) -> FC C proc q depth pred h -> FC C' proc q depth pred h.
    Proof. intros H F. destruct F. constructor; auto. Qed.

    (** the chain of predecessors *)
    Section Chain.
      Variables (C : name -> name -> Prop) (proc q : list name) (depth : dict name Z) (pred : dict name (option name)) (h0 : graph).
      Hypothesis F : FC C proc q depth pred h0.
      Lemma par_key x : In x (dkeys pred) -> dget pred x = Some (par pred x).
      Proof. intros H. apply dget_exists in H as [o ->]. reflexivity. Qed.
      Lemma par_some x p : In x (dkeys pred) -> par pred x = Some p -> In p (dkeys pred) /\ adj es x p /\ dp depth x = (dp depth p + 1)%Z.
      Proof.
        intros Hx Hp. destruct (eq_dec x s) as [->|Hne]; [rewrite (proj2 (fc_src F)) in Hp; discriminate|]. destruct (fc_par F Hx Hne) as (p' & E & H1 & H2 & H3). rewrite Hp in E. injection E as ->.
        split; [apply (fc_pq F), in_app_iff; auto|auto].
      Qed.
      Lemma chain_ok fuel n h (Q : list name -> graph -> Prop) : In n (dkeys pred) ->
        (forall l, In n (dkeys pred) -> NoDup (l ++ [s]) -> (exists t, l ++ [s] = n :: t) -> incl l (dkeys pred) -> (forall a b, In (a, b) (consecutive (l ++ [s])) -> par pred a = Some b) -> Q (l ++ [s]) h) ->
        tpk (fuel <= length V + 1) (up_chain fuel pred n) h Q.
      Proof.
        intros Hn HQ. unfold up_chain.
        assert (Len : forall l, NoDup l -> incl l (dkeys pred) -> length l <= length V) by (intros l N K; apply NoDup_incl_length; [exact N|]; intros x Hx; apply (fc_V F), K, Hx).
        eapply tpk_loop with (n := length V + 1) (I := fun n0 st h' => h' = h /\ let '(l, o) := st in n0 = match o with Some _ => length V + 1 - length l | None => 0 end /\ NoDup l /\ incl l (dkeys pred) /\ (forall a b, In (a, b) (consecutive l) -> par pred a = Some b) /\
          match o with
          | Some y => In y (dkeys pred) /\ (forall x, In x l -> (dp depth y < dp depth x)%Z) /\ (exists t, l ++ [y] = n :: t) /\ (forall l1 z, l = l1 ++ [z] -> par pred z = Some y)
          | None => exists l1, l = l1 ++ [s] /\ exists t, l = n :: t
          end).
        - split; [reflexivity|]. split; [simpl; lia|]. split; [constructor|]. split; [intros ? []|]. split; [intros ? ? []|]. split; [exact Hn|]. split; [intros ? []|]. split; [exists []; reflexivity|].
          intros l1 z E. destruct l1; discriminate E.
        - auto.
        - intros ? [l [y|]] h' (-> & -> & Nl & Kl & Cl & J).
          + destruct J as (Hy & Hd & Ht & Hz). apply pok_step. eapply ok_lift; [apply (par_key Hy)|]. apply pok_ret.
            assert (Nl' : NoDup (l ++ [y])).
            { apply NoDup_app_join; [exact Nl|repeat constructor; simpl; tauto|]. intros x Hx [<-|[]]. specialize (Hd _ Hx). lia. }
            assert (Cl' : forall a b, In (a, b) (consecutive (l ++ [y])) -> par pred a = Some b).
            { intros a b Hab. destruct (list_last l) as [->|(l1 & z & ->)]; [destruct Hab|]. rewrite <- app_assoc in Hab. cbn [app] in Hab. rewrite consecutive_app in Hab. apply in_app_iff in Hab as [Hab|[Hab|[]]]; [apply Cl, Hab|].
              injection Hab as <- <-. apply (Hz l1 z eq_refl). }
            assert (Kl' : incl (l ++ [y]) (dkeys pred)) by (intros x Hx; apply in_app_iff in Hx as [Hx|[<-|[]]]; auto).
            exists (match par pred y with Some _ => length V + 1 - length (l ++ [y]) | None => 0 end). split.
            { pose proof (Len _ Nl' Kl') as H. rewrite app_length in *. simpl in *. destruct (par pred y); lia. }
            split; [reflexivity|]. split; [reflexivity|]. split; [exact Nl'|]. split; [exact Kl'|]. split; [exact Cl'|]. destruct (par pred y) as [p|] eqn:Ep.
            * destruct (par_some Hy Ep) as (Hp & _ & Hdp). split; [exact Hp|]. split; [|split].
              -- intros x Hx. apply in_app_iff in Hx as [Hx|[<-|[]]]; [specialize (Hd _ Hx)|]; lia.
              -- destruct Ht as [t ->]. exists (t ++ [p]). reflexivity.
              -- intros l1 z E. apply app_inj_tail in E as [_ <-]. exact Ep.
            * assert (y = s) as ->; [|eauto]. destruct (eq_dec y s) as [->|Hne]; [reflexivity|]. destruct (fc_par F Hy Hne) as (p & E & _). congruence.
          + destruct J as (l1 & -> & t & Ht). apply pok_ret. apply HQ; eauto. intros x Hx. apply Kl, in_app_iff. auto.
      Qed.
    End Chain.

    Lemma cycle_good C proc q depth pred h c1 c2 n cur : FC C proc q depth pred h -> adj es cur n -> par pred cur <> Some n -> par pred n <> Some cur ->
      NoDup (c1 ++ [s]) -> (exists t, c1 ++ [s] = n :: t) -> incl c1 (dkeys pred) -> (forall a b, In (a, b) (consecutive (c1 ++ [s])) -> par pred a = Some b) ->
      NoDup (c2 ++ [s]) -> (exists t, c2 ++ [s] = cur :: t) -> incl c2 (dkeys pred) -> (forall a b, In (a, b) (consecutive (c2 ++ [s])) -> par pred a = Some b) ->
      good_cycle es ((c2 ++ [s]) ++ rev (removelast (c1 ++ [s]))).
    Proof.
      intros F A Hc Hn N1 (t1 & E1) K1 P1 N2 (t2 & E2) K2 P2. rewrite removelast_last.
      assert (Kc : forall l, incl l (dkeys pred) -> forall a, In a (l ++ [s]) -> In a (dkeys pred)) by (intros l Hl a Ha; apply in_app_iff in Ha as [Ha|[<-|[]]]; [auto|apply (fc_src F)]).
      assert (Er : s :: rev c1 = rev (c1 ++ [s])) by (rewrite rev_app_distr; reflexivity).
      assert (Ec : (c2 ++ [s]) ++ rev c1 = c2 ++ s :: rev c1) by (rewrite <- app_assoc; reflexivity).
      assert (Ecs : consecutive ((c2 ++ [s]) ++ rev c1) = consecutive (c2 ++ [s]) ++ consecutive (rev (c1 ++ [s]))) by (rewrite Ec, consecutive_app, Er; reflexivity).
      assert (El : forall d, last ((c2 ++ [s]) ++ rev c1) d = n).
      { intros d. rewrite Ec, last_app_cons, Er, E1. simpl rev. apply last_last. }
      assert (Eh : exists w, (c2 ++ [s]) ++ rev c1 = cur :: w) by (rewrite E2; simpl; eauto). destruct Eh as [w Ew].
      assert (Ecp : cycle_pairs ((c2 ++ [s]) ++ rev c1) = (consecutive (c2 ++ [s]) ++ consecutive (rev (c1 ++ [s]))) ++ [(n, cur)]).
      { rewrite <- Ecs, <- (El cur). rewrite Ew. apply cycle_pairs_last. }
      split; [rewrite Ew; discriminate|]. rewrite Ecp. split.
      - apply NoDup_app_join.
        + apply NoDup_app_join; [apply consecutive_nd, N2|apply consecutive_nd, NoDup_rev, N1|].
          intros [a b] H1 H2. rewrite consecutive_rev in H2. pose proof (proj1 (consecutive_in H1)) as Ka. pose proof (proj1 (consecutive_in H2)) as Kb. apply P2 in H1. apply P1 in H2.
          apply (par_some F (Kc _ K2 _ Ka)) in H1 as (_ & _ & D1). apply (par_some F (Kc _ K1 _ Kb)) in H2 as (_ & _ & D2). lia.
        + repeat constructor. simpl. tauto.
        + intros [a b] H [[= <- <-]|[]]. apply in_app_iff in H as [H|H]; [apply P2 in H; contradiction|]. rewrite consecutive_rev in H. apply P1 in H. contradiction.
      - split; [|intros x0 t0 E0; rewrite <- E0, El; rewrite Ew in E0; injection E0 as <- _; intros H; apply in_app_iff in H as [H|[[= Z1 Z2]|[]]];
          [|subst n; destruct A as [A|A]; exact (As A A)]; apply in_app_iff in H as [H|H]; [apply P2 in H; contradiction|rewrite consecutive_rev in H; apply P1 in H; contradiction]].
        intros [a b] H. apply in_app_iff in H as [H|[[= <- <-]|[]]]; [|destruct A; [right|left]; assumption]. apply in_app_iff in H as [H|H].
        + pose proof (proj1 (consecutive_in H)) as Ka. apply P2 in H. apply (par_some F (Kc _ K2 _ Ka)) in H as (_ & H & _). exact H.
        + rewrite consecutive_rev in H. pose proof (proj1 (consecutive_in H)) as Ka. apply P1 in H. apply (par_some F (Kc _ K1 _ Ka)) in H as (_ & H & _). destruct H; [right|left]; assumption.
    Qed.

    Lemma scan_ok fuel z cur l0 proc : NoDup l0 -> (forall n, In n l0 -> adj es cur n) -> In cur proc -> forall l pre C q depth pred h, l0 = pre ++ l ->
      FC (fun x y => C x y \/ (x = cur /\ In y pre)) proc q depth pred h -> (forall x, In x (dkeys pred) -> par pred x = Some cur -> In x pre) ->
      tpk (fuel <= length V + 1) (fc_scan fuel z cur l (q, proc, depth, pred)) h (fun o h' => nfr ["component"] r h' /\
        match o with
        | inl (q', visited, depth', pred') => visited = proc /\ FC (fun x y => C x y \/ (x = cur /\ In y l0)) proc q' depth' pred' h'
        | inr cyc => good_cycle es cyc
        end).
    Proof.
      intros N0 A0 Hcur. induction l as [|n l IH]; intros pre C q depth pred h E F Hch; cbn [fc_scan].
      - rewrite app_nil_r in E. subst pre. apply pok_ret. split; [apply (fc_fr F)|]. auto.
      - assert (Kcur : In cur (dkeys pred)) by (apply (fc_pq F), in_app_iff; auto).
        assert (Hadj : adj es cur n) by (apply A0; rewrite E; apply in_app_iff; simpl; auto).
        assert (Vn : In n V) by (destruct Hadj as [Ha|Ha]; apply (edge_nodes W Dr) in Ha; tauto).
        assert (E' : l0 = (pre ++ [n]) ++ l) by (rewrite <- app_assoc; exact E).
        assert (Hnpre : ~ In n pre) by (rewrite E in N0; apply NoDup_remove_2 in N0; rewrite in_app_iff in N0; tauto).
        apply pok_step. eapply ok_lift; [apply (par_key Kcur)|]. destruct (eqb_spec (Some n) (par pred cur)) as [Ep|Ep].
        + (* the parent *)
          eapply IH with (C := C); [exact E'| |].
          * destruct F. constructor; auto. intros x y [H|[-> H]]; [apply fc_C0; auto|]. apply in_app_iff in H as [H|[<-|[]]]; [apply fc_C0; auto|].
            split; [exact Kcur|]. split; [|left; congruence]. symmetry in Ep. destruct (eq_dec cur s) as [Ecs|Hne]; [rewrite Ecs, (proj2 fc_src0) in Ep; discriminate|].
            destruct (fc_par0 cur Kcur Hne) as (p & Ep' & Hp & _). rewrite Ep in Ep'. injection Ep' as ->. apply fc_pq0, in_app_iff. auto.
          * intros x Hx Hp. apply in_app_iff. left. auto.
        + apply pok_step. apply ok_nset with (bs := ["component"]); [apply (nfr_wf (fc_fr F) W)|rewrite (nfr_nodes (fc_fr F)); exact Vn|simpl; auto|]. intros h1 F1 N1.
          pose proof (nfr_trans (fc_fr F) F1 (incl_refl _)) as FR.
          destruct (dmem_spec depth n) as [Hn|Hn].
          * (* a cycle *)
            apply (fc_keys F) in Hn. apply pok_bind. apply (chain_ok F fuel Hn). intros c1 _ N1' T1 K1 P1.
            apply pok_bind. apply (chain_ok F fuel Kcur). intros c2 _ N2' T2 K2 P2. apply pok_ret. split; [exact FR|].
            apply (cycle_good F Hadj (n := n) (cur := cur)); auto.
          * assert (Hnk : ~ In n (dkeys pred)) by (rewrite <- (fc_keys F); exact Hn).
            assert (Hnp : ~ In n (proc ++ q)) by (rewrite <- (fc_pq F); exact Hnk).
            assert (Kd : In cur (dkeys depth)) by (apply (fc_keys F), Kcur). apply dget_exists in Kd as [d Hd]. apply pok_step. eapply ok_lift; [exact Hd|].
            cbv zeta. rewrite (proj2 (mem_nIn n proc)) by (intros K; apply Hnp, in_app_iff; auto).
            eapply IH with (C := C); [exact E'| |].
            -- assert (Ep1 : forall x, par (dset pred n (Some cur)) x = if eq_dec n x then Some cur else par pred x) by (intros x; rewrite dget_dset; destruct (eq_dec n x); reflexivity).
               assert (Ed1 : forall x, dp (dset depth n (d + 1)%Z) x = if eq_dec n x then (d + 1)%Z else dp depth x) by (intros x; rewrite dget_dset; destruct (eq_dec n x); reflexivity).
               assert (Po : forall x, In x (dkeys pred) -> par (dset pred n (Some cur)) x = par pred x) by (intros x Hx; rewrite Ep1; destruct (eq_dec n x); [congruence|reflexivity]).
               assert (Do : forall x, In x (dkeys pred) -> dp (dset depth n (d + 1)%Z) x = dp depth x) by (intros x Hx; rewrite Ed1; destruct (eq_dec n x); [congruence|reflexivity]).
               assert (Pn : par (dset pred n (Some cur)) n = Some cur) by (rewrite Ep1; destruct (eq_dec n n); congruence).
               destruct F. constructor.
               ++ exact FR.
               ++ intros x. rewrite !In_dkeys_dset, fc_keys0. reflexivity.
               ++ destruct fc_src0 as [S1 S2]. rewrite In_dkeys_dset. split; [auto|]. rewrite (Po s S1). exact S2.
               ++ intros x Hx Hne. apply In_dkeys_dset in Hx as [->|Hx].
                  ** exists cur. split; [exact Pn|]. split; [exact Hcur|]. split; [apply adj_sym, Hadj|]. rewrite (Do cur Kcur), Hd, Ed1. destruct (eq_dec n n); congruence.
                  ** destruct (fc_par0 x Hx Hne) as (p & H1 & H2 & H3 & H4). exists p. rewrite (Po x Hx), (Do x Hx). split; [exact H1|]. split; [exact H2|]. split; [exact H3|].
                     rewrite Do; [exact H4|]. apply fc_pq0, in_app_iff. auto.
               ++ intros x. rewrite In_dkeys_dset, fc_pq0, !in_app_iff. simpl. intuition congruence.
               ++ apply (Permutation.Permutation_NoDup (l := n :: proc ++ q)); [apply Permutation.Permutation_middle|]. constructor; assumption.
               ++ intros x Hx. apply In_dkeys_dset in Hx as [->|Hx]; [exact Vn|apply fc_V0, Hx].
               ++ intros x Hx. apply In_dkeys_dset in Hx as [->|Hx]; [|apply fc_dn0, Hx]. intros K. apply (fc_dn0 cur Kcur), (Hdn K), adj_sym, Hadj.
               ++ intros x Hx. rewrite N1, In_dkeys_dset. destruct (eq_dec (x, "component") (n, "component")) as [[= ->]|Hne].
                  ** split; [discriminate|tauto].
                  ** rewrite (fc_comp0 x Hx). assert (x <> n) by congruence. tauto.
               ++ assert (Old : forall x y, (C x y \/ x = cur /\ In y pre) -> In x (dkeys (dset pred n (Some cur))) /\ In y (dkeys (dset pred n (Some cur))) /\
                    (par (dset pred n (Some cur)) x = Some y \/ par (dset pred n (Some cur)) y = Some x)).
                  { intros x y H. destruct (fc_C0 x y H) as (H1 & H2 & H3). rewrite !In_dkeys_dset, (Po x H1), (Po y H2). auto. }
                  intros x y [H|[-> H]]; [apply Old; auto|]. apply in_app_iff in H as [H|[<-|[]]]; [apply Old; auto|]. rewrite !In_dkeys_dset. auto.
            -- intros x Hx Hp. rewrite dget_dset in Hp. apply in_app_iff. destruct (eq_dec n x) as [->|Hne]; [simpl; auto|]. left. apply In_dkeys_dset in Hx as [->|Hx]; [contradiction|]. auto.
    Qed.

    (* the neighbours of a node, in both directions *)
    Lemma both_lists cur : In cur V -> NoDup (list_at (g_in r) cur ++ list_at (g_nbrs r) cur) /\ forall y, In y (list_at (g_in r) cur ++ list_at (g_nbrs r) cur) <-> adj es cur y.
    Proof.
      intros Hc. split.
      - apply NoDup_app_join; [apply NoDup_count; intros x; rewrite (wf_ins W), Dr; destruct (dmem _ _); simpl; lia|apply NoDup_count; intros x; rewrite (wf_nbrs W); unfold nb_count; rewrite Dr; destruct (dmem _ _); simpl; lia|]. intros x H1 H2. apply (ins_edge W Dr) in H1. apply (nbrs_edge W Dr) in H2. exact (As H1 H2).
      - intros y. rewrite in_app_iff, (nbrs_edge W Dr), (ins_edge W Dr). unfold adj. tauto.
    Qed.
    Lemma component_ok fuel z depth pred h : FC (fun _ _ => False) [] [s] depth pred h ->
      tpk (fuel <= length V + 1) (fc_component fuel z ([s], [], depth, pred)) h (fun o h' => nfr ["component"] r h' /\
        match o with
        | Some cyc => good_cycle es cyc
        | None => exists proc depth pred, FC (fun x y => In x proc /\ adj es x y) proc [] depth pred h'
        end).
    Proof.
      intros F0. unfold fc_component.
      eapply tpk_loop with (n := length V) (I := fun n0 st h' => let '(q, visited, depth, pred) := st in n0 = length V - length visited /\ FC (fun x y => In x visited /\ adj es x y) visited q depth pred h').
      - split; [simpl; lia|]. revert F0. apply FC_weaken. simpl. tauto.
      - lia.
      - intros ? [[[q visited] depth'] pred'] h' [-> F]. destruct q as [|cur q]; [apply pok_ret; split; [apply (fc_fr F)|eauto]|].
        assert (Vc : In cur V) by (apply (fc_V F), (fc_pq F), in_app_iff; simpl; auto). pose proof (fc_fr F) as FR.
        apply pok_step. apply (ok_in_list (nfr_wf FR W) (nfr_type FR Dr)); [rewrite (nfr_nodes FR); exact Vc|]. apply pok_step. apply ok_nbr_list; [rewrite (nfr_nodes FR); exact Vc|].
        rewrite (ss_in (nf_shape FR)), (ss_nbrs (nf_shape FR)). destruct (both_lists Vc) as [Nl Hl]. set (l := list_at (g_in r) cur ++ list_at (g_nbrs r) cur) in *.
        apply pok_bind. eapply pok_weaken; [apply (scan_ok fuel z (cur := cur) (l0 := l) (proc := visited ++ [cur])) with (pre := []) (C := fun x y => In x visited /\ adj es x y)|].
        + exact Nl.
        + intros n Hn. apply Hl, Hn.
        + apply in_app_iff. simpl. auto.
        + reflexivity.
        + assert (Eq : forall x, In x ((visited ++ [cur]) ++ q) <-> In x (visited ++ cur :: q)) by (intros x; rewrite <- app_assoc; reflexivity).
          destruct F. constructor; auto.
          * intros x Hx Hne. destruct (fc_par0 x Hx Hne) as (p & H1 & H2 & H3). exists p. split; [exact H1|]. split; [apply in_app_iff; auto|exact H3].
          * intros x. rewrite fc_pq0. symmetry. apply Eq.
          * rewrite <- app_assoc. exact fc_nd0.
          * intros x y [H|[_ []]]. auto.
        + intros x Hx Hp. exfalso. destruct (eq_dec x s) as [->|Hne]; [rewrite (proj2 (fc_src F)) in Hp; discriminate|]. destruct (fc_par F Hx Hne) as (p & E & Hin & _). rewrite Hp in E. injection E as <-.
          pose proof (fc_nd F) as Nd. apply NoDup_remove_2 in Nd. apply Nd, in_app_iff. auto.
        + intros [[[[q' v'] d'] p']|cyc] h'' (FR' & J); apply pok_ret.
          * destruct J as [-> J]. exists (length V - length (visited ++ [cur])). split.
            { assert (length (visited ++ [cur]) <= length V); [|rewrite app_length in *; simpl in *; lia]. apply NoDup_incl_length; [apply (NoDup_app_l (fc_nd J))|]. intros x Hx. apply (fc_V J), (fc_pq J), in_app_iff. auto. }
            split; [reflexivity|]. revert J. apply FC_weaken. intros x y [Hx Hxy]. apply in_app_iff in Hx as [Hx|[<-|[]]]; [auto|]. right. split; [reflexivity|]. apply Hl, Hxy.
          * auto.
    Qed.
  End Component.

  Lemma fresh_ok h nl (Q : option name -> graph -> Prop) : incl nl V -> nfr ["component"] r h ->
    (forall n, In n nl -> nattr h n "component" = VNone -> Q (Some n) h) -> ((forall n, In n nl -> nattr h n "component" <> VNone) -> Q None h) -> ok (fresh_node nl) h Q.
  Proof.
    intros Hi F. induction nl as [|n nl IH]; intros H1 H2; cbn [fresh_node]; [apply ok_ret, H2; intros ? []|].
    apply ok_bind, ok_get_node_attr.
    { rewrite (ss_nodes (nf_shape F)), (wf_nodes W). apply Hi. left. reflexivity. }
    destruct (eqb_spec (nattr h n "component") VNone) as [E|E]; [apply ok_ret, H1; [left; reflexivity|exact E]|]. apply IH.
    - intros x Hx. apply Hi. right. exact Hx.
    - intros x Hx. apply H1. right. exact Hx.
    - intros H. apply H2. intros x [<-|Hx]; auto.
  Qed.

  Definition fresh_count (h : graph) : nat := length (filter (fun x => eqb (nattr h x "component") VNone) V).
  Lemma find_cycle_t fuel : V <> [] -> tpk (fuel <= length V + 1) (simplex_find_cycle fuel) r (fun o r' => nfr ["component"] r r' /\ match o with Some cyc => good_cycle es cyc | None => forest es end).
  Proof.
    intros Hne. unfold simplex_find_cycle. apply pok_step, ok_gets. destruct (get_node_list r) as [|x0 nl0] eqn:Enl; [congruence|]. rewrite <- Enl. rewrite <- Enl in HI.
    assert (Hx0 : In x0 V) by (rewrite Enl; left; reflexivity). clear Hne.
    apply pok_step. eapply ok_forM with (I := fun pre h => nfr ["component"] r h /\ forall n, In n pre -> nattr h n "component" = VNone).
    - split; [apply nfr_refl|]. intros ? [].
    - intros pre n post h E [F N]. apply ok_nset with (bs := ["component"]); [apply (nfr_wf F W)|rewrite (nfr_nodes F), E; apply in_app_iff; simpl; auto|simpl; auto|]. intros h' F' N'.
      split; [apply (nfr_trans F F'), incl_refl|]. intros m Hm. rewrite N'. destruct (eq_dec (m, "component") (n, "component")) as [|Hmn]; [reflexivity|]. apply N. apply in_app_iff in Hm as [Hm|[<-|[]]]; [exact Hm|congruence].
    - intros h0 [F0 N0].
      eapply tpk_loop with (n := fresh_count h0) (I := fun k0 n h => k0 = fresh_count h /\ In n V /\ nfr ["component"] r h /\ exists dn (P : name -> option name) (D : name -> Z), ~ In n dn /\
        (forall x, In x V -> (nattr h x "component" = VNone <-> ~ In x dn)) /\
        (forall x p, P x = Some p -> D x = (D p + 1)%Z /\ In x dn /\ In p dn) /\
        (forall x y, In x dn -> adj es x y -> In y dn /\ (P x = Some y \/ P y = Some x))).
      + split; [reflexivity|]. split; [exact Hx0|]. split; [exact F0|]. exists [], (fun _ => None), (fun _ => 0%Z). simpl. split; [tauto|]. split; [intros x Hx; rewrite (N0 x Hx); tauto|]. split; [discriminate|tauto].
      + intros K. assert (fresh_count h0 <= length V) by apply filter_length_le. lia.
      + intros ? n h (-> & Hn & F & dn & P & D & Hndn & Hcomp & HP & Hadj).
        apply pok_step. destruct (HI Hn) as [z ->]. apply ok_ret. set (n := NI z) in *.
        apply pok_step. apply ok_nset with (bs := ["component"]); [apply (nfr_wf F W)|rewrite (nfr_nodes F); exact Hn|simpl; auto|]. intros h1 F1 N1.
        pose proof (nfr_trans F F1 (incl_refl _)) as FR. assert (Hdn : forall x y, In x dn -> adj es x y -> In y dn) by (intros x y Hx A; apply (Hadj x y Hx A)).
        apply pok_bind. eapply pok_weaken; [apply (component_ok (s := n) Hdn)|].
        * constructor; cbn [dkeys map fst]; auto.
          -- intros x. reflexivity.
          -- split; [left; reflexivity|]. cbn [dget]. destruct (eq_dec n n); reflexivity.
          -- intros x [<-|[]] K. congruence.
          -- intros x. reflexivity.
          -- repeat constructor. simpl. tauto.
          -- intros x [<-|[]]. exact Hn.
          -- intros x [<-|[]]. exact Hndn.
          -- intros x Hx. rewrite N1. simpl. destruct (eq_dec (x, "component") (n, "component")) as [[= ->]|Hne]; [split; [discriminate|tauto]|]. rewrite (Hcomp x Hx). assert (x <> n) by congruence. intuition congruence.
          -- intros ? ? [].
        * intros [cyc|] h2 (FR2 & J); [apply pok_ret; auto|]. destruct J as (proc & depth & pred & FCx).
          set (K := dkeys pred).
          assert (Kd : forall x, In x K -> ~ In x dn) by apply (fc_dn FCx).
          assert (Kproc : forall x, In x K -> In x proc) by (intros x Hx; apply (fc_pq FCx) in Hx; rewrite app_nil_r in Hx; exact Hx).
          set (P' := fun x => if mem x K then par pred x else P x). set (D' := fun x => if mem x K then dp depth x else D x).
          assert (PK : forall x, In x K -> P' x = par pred x /\ D' x = dp depth x) by (intros x Hx; unfold P', D'; rewrite (proj2 (mem_In x K) Hx); auto).
          assert (PD : forall x, In x dn -> P' x = P x /\ D' x = D x).
          { intros x Hx. unfold P', D'. rewrite (proj2 (mem_nIn x K)) by (intros Hk; apply (Kd x Hk Hx)). auto. }
          assert (HP' : forall x p, P' x = Some p -> D' x = (D' p + 1)%Z /\ In x (dn ++ K) /\ In p (dn ++ K)).
          { intros x p Hp. rewrite !in_app_iff. destruct (mem_spec x K) as [Hx|Hx].
            - destruct (PK x Hx) as [E1 E2]. rewrite E1 in Hp. destruct (par_some FCx Hx Hp) as (H1 & _ & H2). rewrite E2, (proj2 (PK p H1)). auto.
            - assert (Hp' : P x = Some p) by (unfold P' in Hp; rewrite (proj2 (mem_nIn x K) Hx) in Hp; exact Hp). destruct (HP x p Hp') as (H1 & H2 & H3). rewrite (proj2 (PD x H2)), (proj2 (PD p H3)). auto. }
          assert (HA' : forall x y, In x (dn ++ K) -> adj es x y -> In y (dn ++ K) /\ (P' x = Some y \/ P' y = Some x)).
          { intros x y Hx A. rewrite in_app_iff. apply in_app_iff in Hx as [Hx|Hx].
            - destruct (Hadj x y Hx A) as [H1 H2]. rewrite (proj1 (PD x Hx)), (proj1 (PD y H1)). auto.
            - destruct (fc_C FCx (x := x) (y := y)) as (_ & H1 & H2); [auto|]. rewrite (proj1 (PK x Hx)), (proj1 (PK y H1)). auto. }
          assert (HC' : forall x, In x V -> (nattr h2 x "component" = VNone <-> ~ In x (dn ++ K))) by (intros x Hx; rewrite (fc_comp FCx Hx), in_app_iff; fold K; tauto).
          apply pok_step. apply (fresh_ok (h := h2)); [apply incl_refl|exact FR2| |].
          -- intros m Hm Hmc. apply pok_ret. exists (fresh_count h2). split.
             { unfold fresh_count. apply (filter_lt (x := n)).
               - intros x Hx Hc. destruct (eqb_spec (nattr h2 x "component") VNone) as [E|E]; [|discriminate]. apply HC' in E; [|exact Hx]. destruct (eqb_spec (nattr h x "component") VNone) as [E'|E']; [reflexivity|]. exfalso. apply E', (Hcomp x Hx). intros K'. apply E, in_app_iff. auto.
               - exact Hn.
               - destruct (eqb_spec (nattr h n "component") VNone) as [E|E]; [reflexivity|]. exfalso. apply E, (Hcomp n Hn), Hndn.
               - destruct (eqb_spec (nattr h2 n "component") VNone) as [E|E]; [|reflexivity]. exfalso. apply (proj1 (HC' n Hn) E), in_app_iff. right. apply (fc_src FCx). }
             split; [reflexivity|]. split; [exact Hm|]. split; [exact FR2|]. exists (dn ++ K), P', D'. split; [apply HC'; assumption|auto].
          -- intros All. apply pok_ret. split; [exact FR2|]. apply (parent_forest (P := P') (D := D') As); [intros x p Hp; apply (HP' x p Hp)|].
             intros x y He. apply (HA' x y); [|left; exact He]. assert (Hx : In x V) by (apply (edge_nodes W Dr He)). destruct (in_dec eq_dec x (dn ++ K)) as [|Hn']; [assumption|]. exfalso. apply (All x Hx), HC'; assumption.
  Qed.
  Lemma find_cycle_ok fuel : V <> [] -> pok (simplex_find_cycle fuel) r (fun o r' => nfr ["component"] r r' /\ match o with Some cyc => good_cycle es cyc | None => forest es end).
  Proof. intros H. apply (tpk_pok (find_cycle_t fuel H)). Qed.
End Find.
