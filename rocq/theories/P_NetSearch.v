(* simplex_search: predecessors, depths and thread of the nodes reached along arcs in either direction. *)
From Verif Require Import Py Util M_Graph P_Graph Spec P_Attr M_Search M_Flow M_Dfs S_Flow S_MinCost P_Walk P_EdgeFrame P_Flow P_MinCostAbs M_MinCost M_NetSimplex P_Residual P_Pok P_NetTree.
Set Implicit Arguments. Unset Strict Implicit.
Local Open Scope string_scope. Local Open Scope list_scope.

(* h is g up to the node attributes in bs *)
Record nfr (bs : list string) (g h : graph) : Prop := {
  nf_shape : same_shape g h;
  nf_nodes : forall x b, ~ In b bs -> nattr h x b = nattr g x b;
  nf_edges : forall x y b, eattr h x y b = eattr g x y b;
  nf_attr : g_attr h = g_attr g;
  nf_store : g_edges h = g_edges g
}.
Lemma nfr_refl bs g : nfr bs g g.
Proof. constructor; try reflexivity. apply ss_refl. Qed.
Lemma nfr_trans bs bs' g h k : nfr bs g h -> nfr bs' h k -> incl bs' bs -> nfr bs g k.
Proof.
  intros [] [] Hi. constructor; try congruence.
  - eapply ss_trans; eassumption.
  - intros x b Hb. rewrite nf_nodes1, nf_nodes0 by auto. reflexivity.
Qed.
Lemma nfr_wf bs g h : nfr bs g h -> wf g -> wf h.
Proof. intros [S] H. apply (ss_wf S H). Qed.
Lemma nfr_type bs g h : nfr bs g h -> g_type g = Directed -> g_type h = Directed.
Proof. intros [S] H. rewrite (ss_type S). exact H. Qed.
Lemma nfr_nodes bs g h : nfr bs g h -> get_node_list h = get_node_list g.
Proof. intros [S]. apply (ss_node_list S). Qed.
Lemma nfr_edges bs g h : nfr bs g h -> get_edge_list h = get_edge_list g.
Proof. intros [S]. apply (ss_edges S). Qed.
Lemma ok_nset g n a v bs (Q : unit -> graph -> Prop) : wf g -> In n (get_node_list g) -> In a bs ->
  (forall h, nfr bs g h -> (forall x b, nattr h x b = if eq_dec (x, b) (n, a) then v else nattr g x b) -> Q tt h) -> ok (set_node_attr n a v) g Q.
Proof.
  intros W Hn Ha HQ. apply ok_set_node_attr; [rewrite (wf_nodes W); exact Hn|]. intros h H1 H2 H3 H4 H5 H6. apply HQ; [|exact H2].
  constructor; auto. intros x b Hb. rewrite H2. destruct (eq_dec (x, b) (n, a)) as [[= -> ->]|]; [contradiction|reflexivity].
Qed.
Definition int_names (V : list name) : Prop := forall x, In x V -> exists z, x = NI z.

(* what simplex_search leaves behind: the visiting order seq, parents P and depths D *)
Record tree_info (es : arcs) (r : graph) (source : name) (nr : val) (seq : list name) (P : name -> option name) (D : name -> Z) : Prop := {
  ti_nd : NoDup seq;
  ti_hd : exists rest, seq = source :: rest;
  ti_V : incl seq (get_node_list r);
  ti_comp : forall x, In x (get_node_list r) -> (In x seq -> nattr r x "component" = nr) /\ (~ In x seq -> nattr r x "component" = VNone);
  ti_pred : forall x, In x seq -> nattr r x "pred" = voname (P x);
  ti_depth : forall x, In x seq -> nattr r x "depth" = VI (D x);
  ti_src : P source = None;
  ti_par : forall s1 x s2, seq = s1 ++ x :: s2 -> x <> source -> exists p, P x = Some p /\ In p s1 /\ adj es x p /\ D x = (D p + 1)%Z;
  ti_thread : forall a b, In (a, b) (cycle_pairs seq) -> nattr r a "thread" = vname b;
  ti_closed : forall x y, In x seq -> adj es x y -> In y seq;
  ti_d0 : D source = 0%Z;
  ti_pre : forall s1 a b s2, seq = s1 ++ a :: b :: s2 -> exists p, P b = Some p /\ reach (fun x y => P y = Some x) p a
}.

Section Search.
  Variable g0 : graph.
  Hypothesis W : wf g0.
  Hypothesis Dr : g_type g0 = Directed.
  Notation V := (get_node_list g0).
  Notation es := (get_edge_list g0).
  Hypothesis HI : int_names V.
  Variable source : name.
  Hypothesis Hs : In source V.
  Variable nr : val.
  Notation attrs4 := ["component"; "thread"; "pred"; "depth"].
  Notation par pred x := (match dget pred x with Some o => o | None => None end) (only parsing).

  (* C x y: the neighbour y of x has been looked at *)
  Record SS (C : name -> name -> Prop) (seq q : list name) (pred : dict name (option name)) (depth : dict name Z) (h : graph) : Prop := {
    s_fr : nfr attrs4 g0 h;
    s_nd : NoDup (seq ++ q);
    s_V : incl (seq ++ q) V;
    s_keys : forall x, In x (dkeys pred) <-> In x (seq ++ q);
    s_dep : forall x, In x (dkeys pred) -> exists z, dget depth x = Some z;
    s_src : dget pred source = Some None;
    s_start : (seq = [] /\ q = [source]) \/ exists rest, seq = source :: rest;
    s_par : forall x, In x (dkeys pred) -> x <> source -> exists p z, dget pred x = Some (Some p) /\ In p seq /\ adj es x p /\ dget depth p = Some z /\ dget depth x = Some (z + 1)%Z;
    s_ord : forall s1 x s2 p, seq = s1 ++ x :: s2 -> dget pred x = Some (Some p) -> In p s1;
    s_comp : forall x, In x V -> (In x seq -> nattr h x "component" = nr) /\ (~ In x (seq ++ q) -> nattr h x "component" = VNone);
    s_closed : forall x y, C x y -> In y (dkeys pred);
    s_pnd : NoDup (dkeys pred);
    s_d0 : dget depth source = Some 0%Z;
    (* the parents of the nodes on the stack lie on the way from the source to the node visited last, deeper ones first *)
    s_stack : forall l1 y l2 z py pz, q = l1 ++ y :: l2 -> In z l2 -> dget pred y = Some (Some py) -> dget pred z = Some (Some pz) -> reach (fun a b => dget pred b = Some (Some a)) pz py;
    s_last : forall s1 cur y p, seq = s1 ++ [cur] -> In y q -> dget pred y = Some (Some p) -> reach (fun a b => dget pred b = Some (Some a)) p cur;
    s_pre : forall s1 a b s2, seq = s1 ++ a :: b :: s2 -> exists p, dget pred b = Some (Some p) /\ reach (fun a b => dget pred b = Some (Some a)) p a
  }.
  Lemma adj_nodes x y : adj es x y -> In x V /\ In y V.
  Proof. intros [H|H]; apply (edge_nodes W Dr) in H; tauto. Qed.

  Lemma ss_visit_ok C seq q pred depth h cur n s1 : SS C seq q pred depth h -> seq = s1 ++ [cur] -> adj es cur n ->
    ok (ss_visit nr cur (q, pred, depth) n) h (fun s h' => let '(q', pred', depth') := s in SS (fun x y => C x y \/ (x = cur /\ y = n)) seq q' pred' depth' h').
  Proof.
    intros J Hseq A. destruct (adj_nodes A) as [Vc Vn]. unfold ss_visit. destruct (dmem_spec pred n) as [Hn|Hn].
    - apply ok_ret. destruct J as [J1 J2 J3 J4 J5 J6 J7 J8 J9 J10 J11 J12 J13 J14 J15 J16]. constructor; auto. intros x y [H|[-> ->]]; [eauto|exact Hn].
    - assert (Hc : In cur seq) by (rewrite Hseq; apply in_app_iff; simpl; auto).
      assert (Hn' : ~ In n (seq ++ q)) by (rewrite <- (s_keys J); exact Hn).
      apply ok_bind. apply ok_nset with (bs := attrs4); [apply (nfr_wf (s_fr J) W)|rewrite (nfr_nodes (s_fr J)); exact Vn|simpl; auto|]. intros h' F' N'.
      destruct (s_dep J (x := cur)) as [d Hd]; [apply (s_keys J), in_app_iff; auto|].
      apply ok_bind. apply ok_lift with (a := d); [exact Hd|]. apply ok_ret.
      assert (Hin : forall x, In x (seq ++ n :: q) <-> x = n \/ In x (seq ++ q)) by (intros x; rewrite !in_app_iff; simpl; intuition).
      assert (Hns : n <> source) by (intros ->; apply Hn; apply dget_Some_keys with (v := None); apply (s_src J)).
      assert (Mono : forall a b, reach (fun a b => dget pred b = Some (Some a)) a b -> reach (fun a b => dget (dset pred n (Some cur)) b = Some (Some a)) a b).
      { intros a b. apply reach_mono. intros x y H. rewrite dget_dset_ne; [exact H|]. intros ->. apply Hn. eapply dget_Some_keys; eauto. }
      assert (Old : forall x p, x <> n -> dget (dset pred n (Some cur)) x = Some (Some p) -> dget pred x = Some (Some p)) by (intros x p Hx H; rewrite dget_dset_ne in H by congruence; exact H).
      assert (Hnq : forall x, In x q -> x <> n) by (intros x Hx ->; apply Hn', in_app_iff; auto).
      constructor.
      + apply (nfr_trans (s_fr J) F'), incl_refl.
      + apply NoDup_Add with (a := n) (l := seq ++ q); [apply Add_app|]. split; [apply (s_nd J)|exact Hn'].
      + intros x Hx. apply Hin in Hx as [->|Hx]; [exact Vn|apply (s_V J Hx)].
      + intros x. rewrite In_dkeys_dset, Hin, (s_keys J). reflexivity.
      + intros x Hx. rewrite dget_dset. destruct (eq_dec n x); [eauto|]. apply (s_dep J). apply In_dkeys_dset in Hx as [->|Hx]; [contradiction|exact Hx].
      + rewrite dget_dset_ne; [apply (s_src J)|]. intros ->. apply Hn. apply dget_Some_keys with (v := None). apply (s_src J).
      + destruct (s_start J) as [[-> _]|H]; [|right; exact H]. destruct s1; discriminate.
      + intros x Hx Hxs. rewrite dget_dset. destruct (eq_dec n x) as [<-|Hne].
        * exists cur, d. split; [reflexivity|]. split; [exact Hc|]. split; [apply adj_sym, A|]. rewrite !dget_dset.
          destruct (eq_dec n cur) as [->|_]; [exfalso; apply Hn', in_app_iff; auto|]. split; [exact Hd|]. destruct (eq_dec n n); [reflexivity|congruence].
        * apply In_dkeys_dset in Hx as [->|Hx]; [congruence|]. destruct (s_par J Hx Hxs) as (p & z & H1 & H2 & H3 & H4 & H5). exists p, z.
          rewrite !dget_dset. destruct (eq_dec n p) as [->|_]; [exfalso; apply Hn', in_app_iff; auto|]. destruct (eq_dec n x); [congruence|]. auto.
      + intros t1 x t2 p Hx. rewrite dget_dset. destruct (eq_dec n x) as [->|_]; [exfalso; apply Hn', in_app_iff; left; rewrite Hx; apply in_app_iff; simpl; auto|]. apply (s_ord J Hx).
      + intros x Hx. rewrite N'. destruct (s_comp J Hx) as [C1 C2]. split.
        * intros Hxs. destruct (eq_dec (x, "component") (n, "component")) as [[= ->]|_]; [reflexivity|auto].
        * intros Hxs. rewrite Hin in Hxs. destruct (eq_dec (x, "component") (n, "component")) as [[= ->]|_]; [exfalso; apply Hxs; auto|]. apply C2. tauto.
      + intros x y [H|[-> ->]]; apply In_dkeys_dset; [right; apply (s_closed J H)|left; reflexivity].
      + apply NoDup_dset, (s_pnd J).
      + rewrite dget_dset_ne by congruence. apply (s_d0 J).
      + intros l1 y l2 z py pz E Hz Hy Hp. destruct l1 as [|n' l1]; cbn [app] in E; injection E as <- Eq.
        * subst l2. rewrite dget_dset in Hy. destruct (eq_dec n n) as [_|]; [|congruence]. injection Hy as <-. apply Mono. apply (s_last J Hseq Hz). apply Old; auto.
        * apply Mono. apply (s_stack J Eq Hz); apply Old; auto; apply Hnq; rewrite Eq; apply in_app_iff; simpl; auto.
      + intros t1 c y p E Hy Hp. rewrite Hseq in E. apply app_inj_tail in E as [_ <-]. destruct Hy as [<-|Hy].
        * rewrite dget_dset in Hp. destruct (eq_dec n n) as [_|]; [|congruence]. injection Hp as <-. apply reach_refl.
        * apply Mono. apply (s_last J Hseq Hy). apply Old; auto.
      + intros t1 a b t2 E. destruct (s_pre J E) as (p & Hp & R). exists p. split; [|apply Mono, R]. rewrite dget_dset_ne; [exact Hp|]. intros <-. apply Hn. eapply dget_Some_keys; eauto.
  Qed.

  Lemma ss_loop_ok h0 fuel : nfr attrs4 g0 h0 -> (forall x, In x V -> nattr h0 x "component" = VNone) ->
    tpk (fuel <= length V) (ss_loop fuel nr source) h0 (fun r h => let '(pred, depth, seq) := r in SS (fun x y => In x seq /\ adj es x y) seq [] pred depth h).
  Proof.
    intros F0 N0. unfold ss_loop.
    apply tpk_loop with (n := length V) (I := fun n (s : (list name * dict name (option name) * dict name Z) * list name) h => let '((q, pred, depth), seq) := s in n = length V - length seq /\ SS (fun x y => In x seq /\ adj es x y) seq q pred depth h).
    { split; [simpl; lia|]. constructor; simpl.
      - exact F0.
      - repeat constructor; simpl; tauto.
      - intros x [<-|[]]. exact Hs.
      - tauto.
      - intros x [<-|[]]. unfold dget; simpl. destruct (eq_dec source source); [eauto|congruence].
      - unfold dget; simpl. destruct (eq_dec source source); [reflexivity|congruence].
      - auto.
      - intros x [<-|[]]; congruence.
      - intros s1 x s2 p H. destruct s1; discriminate.
      - intros x Hx. split; [tauto|]. intros _. apply N0, Hx.
      - tauto.
      - repeat constructor; simpl; tauto.
      - unfold dget; simpl. destruct (eq_dec source source); [reflexivity|congruence].
      - intros l1 y l2 z py pz E Hz. destruct l1 as [|? l1]; [injection E as <- <-; destruct Hz|destruct l1; discriminate].
      - intros s1 cur y p E. destruct s1; discriminate.
      - intros s1 a b s2 E. destruct s1; discriminate. }
    { auto. }
    intros ? [[[q pred] depth] seq] h [-> J]. destruct q as [|cur q]; [apply pok_ret; exact J|].
    assert (Vc : In cur V) by (apply (s_V J), in_app_iff; simpl; auto).
    apply pok_step. apply ok_nset with (bs := attrs4); [apply (nfr_wf (s_fr J) W)|rewrite (nfr_nodes (s_fr J)); exact Vc|simpl; auto|]. intros h1 F1 N1.
    pose proof (nfr_trans (s_fr J) F1 (incl_refl _)) as F2.
    apply pok_step. apply ok_in_list; [apply (nfr_wf F2 W)|apply (nfr_type F2 Dr)|rewrite (nfr_nodes F2); exact Vc|].
    apply pok_step. apply ok_nbr_list; [rewrite (nfr_nodes F2); exact Vc|].
    set (nb := list_at (g_in h1) cur ++ list_at (g_nbrs h1) cur).
    assert (Nb : forall n, In n nb <-> adj es cur n).
    { intros n. unfold nb. rewrite in_app_iff, (ins_edge (nfr_wf F2 W) (nfr_type F2 Dr)), (nbrs_edge (nfr_wf F2 W) (nfr_type F2 Dr)), (nfr_edges F2). unfold adj. tauto. }
    assert (J1 : SS (fun x y => (In x seq /\ adj es x y) \/ (x = cur /\ In y [])) (seq ++ [cur]) q pred depth h1).
    { assert (Eq : (seq ++ [cur]) ++ q = seq ++ cur :: q) by (rewrite <- app_assoc; reflexivity).
      constructor.
      - exact F2.
      - rewrite Eq. apply (s_nd J).
      - rewrite Eq. apply (s_V J).
      - rewrite Eq. apply (s_keys J).
      - apply (s_dep J).
      - apply (s_src J).
      - right. destruct (s_start J) as [[-> [= -> ->]]|[rest ->]]; [exists []; reflexivity|exists (rest ++ [cur]); reflexivity].
      - intros x Hx Hxs. destruct (s_par J Hx Hxs) as (p & z & H1 & H2 & H3). exists p, z. split; [exact H1|]. split; [apply in_app_iff; auto|exact H3].
      - intros s1 x s2 p Hx Hp. assert (Hxk : In x (dkeys pred)) by (eapply dget_Some_keys; eauto).
        destruct (eq_dec x source) as [->|Hxs]; [rewrite (s_src J) in Hp; discriminate|].
        destruct (exists_last (l := x :: s2)) as (s3 & y & E3); [discriminate|]. rewrite E3, app_assoc in Hx. apply app_inj_tail in Hx as [Hx ->].
        destruct s3 as [|x' s3].
        + injection E3 as -> ->. rewrite app_nil_r in Hx. subst s1. destruct (s_par J Hxk Hxs) as (p' & z & H1 & H2 & _). rewrite Hp in H1. injection H1 as ->. exact H2.
        + injection E3 as <- ->. apply (s_ord J Hx Hp).
      - intros x Hx. rewrite Eq, N1. destruct (s_comp J Hx) as [C1 C2]. split.
        + intros Hxs. destruct (eq_dec (x, "component") (cur, "component")) as [_|Hne]; [reflexivity|]. apply C1. apply in_app_iff in Hxs as [H|[->|[]]]; [exact H|congruence].
        + intros Hxs. destruct (eq_dec (x, "component") (cur, "component")) as [[= ->]|_]; [exfalso; apply Hxs, in_app_iff; simpl; auto|auto].
      - intros x y [H|[_ []]]. apply (s_closed J H).
      - apply (s_pnd J).
      - apply (s_d0 J).
      - intros l1 y l2 z py pz E. apply (s_stack J (l1 := cur :: l1)). rewrite E. reflexivity.
      - intros s1 c y p E Hy Hp. apply app_inj_tail in E as [<- <-].
        assert (Hck : In cur (dkeys pred)) by (apply (s_keys J), in_app_iff; simpl; auto).
        destruct (eq_dec cur source) as [->|Hcs].
        + exfalso. destruct (s_start J) as [[-> [= ->]]|[rest E]]; [destruct Hy|]. apply (NoDup_remove_2 _ _ _ (s_nd J)), in_app_iff. left. rewrite E. simpl. auto.
        + destruct (s_par J Hck Hcs) as (pc & z & Hpc & _). apply reach_step with (b := pc); [|exact Hpc]. apply (s_stack J (l1 := []) eq_refl Hy Hpc Hp).
      - intros s1 a b s2 E. destruct (exists_last (l := a :: b :: s2)) as (s3 & y & E3); [discriminate|]. rewrite E3, app_assoc in E. apply app_inj_tail in E as [E ->].
        destruct s3 as [|a' [|b' s3]]; [discriminate| |].
        + injection E3 as -> -> ->. assert (Hbk : In y (dkeys pred)) by (apply (s_keys J), in_app_iff; simpl; auto).
          destruct (eq_dec y source) as [->|Hys].
          * exfalso. destruct (s_start J) as [[E' _]|[rest E']]; [rewrite E' in E; destruct s1; discriminate|]. apply (NoDup_remove_2 _ _ _ (s_nd J)), in_app_iff. left. rewrite E'. simpl. auto.
          * destruct (s_par J Hbk Hys) as (pc & z & Hpc & _). exists pc. split; [exact Hpc|]. apply (s_last J E (y := y)); simpl; auto.
        + injection E3 as <- <- ->. apply (s_pre J E). }
    apply pok_step. apply ok_foldM with (I := fun pre s h => let '(q', pred', depth') := s in SS (fun x y => (In x seq /\ adj es x y) \/ (x = cur /\ In y pre)) (seq ++ [cur]) q' pred' depth' h).
    - exact J1.
    - intros pre n post [[q' pred'] depth'] h' Hsp J'. eapply ok_weaken; [apply (ss_visit_ok J' (s1 := seq) (cur := cur) (n := n) eq_refl)|].
      + apply Nb. rewrite Hsp. apply in_app_iff. simpl. auto.
      + intros [[q2 pred2] depth2] h2 J2. destruct J2 as [K1 K2 K3 K4 K5 K6 K7 K8 K9 K10 K11 K12 K13 K14 K15 K16]. constructor; auto. intros x y [H|[-> H]]; [apply (K11 x); auto|].
        apply in_app_iff in H as [H|[<-|[]]]; apply (K11 cur); auto.
    - intros [[q' pred'] depth'] h' J'. apply pok_ret. exists (length V - length (seq ++ [cur])). split.
      { assert (length (seq ++ [cur]) <= length V); [|rewrite app_length in *; simpl in *; lia]. apply NoDup_incl_length; [apply (NoDup_app_l (s_nd J'))|]. intros x Hx. apply (s_V J'), in_app_iff. auto. }
      split; [reflexivity|]. destruct J' as [K1 K2 K3 K4 K5 K6 K7 K8 K9 K10 K11 K12 K13 K14 K15 K16]. constructor; auto. intros x y [H A]. apply in_app_iff in H as [H|[<-|[]]]; [apply (K11 x); auto|]. apply (K11 cur). right. split; [reflexivity|]. apply Nb, A.
  Qed.

  Lemma int_name_ok x h (Q : Z -> graph -> Prop) : In x V -> (forall z, x = NI z -> Q z h) -> ok (int_name x) h Q.
  Proof. intros Hx HQ. destruct (HI Hx) as [z ->]. apply ok_ret, HQ. reflexivity. Qed.

  Lemma search_t fuel : tpk (fuel <= length V) (simplex_search fuel source nr) g0 (fun pred h => nfr attrs4 g0 h /\
    exists seq P D, tree_info es h source nr seq P D /\ (forall x, In x (dkeys pred) <-> In x seq) /\ forall x, In x seq -> dget pred x = Some (P x)).
  Proof.
    unfold simplex_search. apply pok_step, ok_gets. apply pok_step.
    eapply ok_forM with (I := fun pre h => nfr attrs4 g0 h /\ forall x, In x pre -> nattr h x "component" = VNone).
    { split; [apply nfr_refl|intros x []]. }
    { intros pre n post h Hsp [F N]. apply ok_nset with (bs := attrs4); [apply (nfr_wf F W)|rewrite (nfr_nodes F), Hsp; apply in_app_iff; simpl; auto|simpl; auto|].
      intros h' F' N'. split; [apply (nfr_trans F F'), incl_refl|]. intros x Hx. rewrite N'. destruct (eq_dec (x, "component") (n, "component")) as [_|Hne]; [reflexivity|].
      apply N. apply in_app_iff in Hx as [Hx|[->|[]]]; [exact Hx|congruence]. }
    intros h0 [F0 N0]. apply pok_bind. eapply pok_weaken; [apply (ss_loop_ok fuel F0 N0)|]. intros [[pred depth] seq] h J. cbn beta iota in J.
    pose proof (s_nd J) as Hnd. rewrite app_nil_r in Hnd. pose proof (s_V J) as HV. rewrite app_nil_r in HV.
    assert (Hst : exists rest, seq = source :: rest) by (destruct (s_start J) as [[_ H]|H]; [discriminate|exact H]).
    assert (Hkeys : forall x, In x (dkeys pred) <-> In x seq) by (intros x; rewrite (s_keys J), app_nil_r; reflexivity).
    (* threads *)
    apply pok_step. eapply ok_forM with (I := fun pre k => nfr ["thread"] h k /\ forall a b, In (a, b) pre -> nattr k a "thread" = vname b).
    { split; [apply nfr_refl|intros a b []]. }
    { intros pre [a b] post k Hsp [Fk Nk].
      assert (Hab : In (a, b) (consecutive seq)) by (rewrite Hsp; apply in_app_iff; simpl; auto). pose proof Hab as Hab'. apply in_consecutive in Hab' as (P1 & P2 & E).
      assert (Va : In a V) by (apply HV; rewrite E; apply in_app_iff; simpl; auto). assert (Vb : In b V) by (apply HV; rewrite E; apply in_app_iff; simpl; auto).
      pose proof (nfr_trans (s_fr J) Fk (fun x H => match H with or_introl e => or_intror (or_introl e) | or_intror f => match f with end end)) as Fg.
      apply ok_bind. cbn [fst snd]. apply int_name_ok; [exact Vb|]. intros z Hz. apply ok_nset with (bs := ["thread"]); [apply (nfr_wf Fg W)|rewrite (nfr_nodes Fg); exact Va|simpl; auto|].
      intros k' F' N'. split; [apply (nfr_trans Fk F'), incl_refl|]. intros u v Huv. rewrite N'. destruct (eq_dec (u, "thread") (a, "thread")) as [[= ->]|Hne].
      - assert (v = b); [|subst; reflexivity].
        apply in_app_iff in Huv as [Huv|[[= ->]|[]]]; [|reflexivity]. exfalso. assert (Hn : NoDup (map fst (consecutive seq))).
        { apply NoDup_app_iff with (l' := [last seq source]). destruct Hst as [rest ->]. replace (map fst (consecutive (source :: rest)) ++ [last (source :: rest) source]) with (map fst (cycle_pairs (source :: rest))) by (rewrite cycle_pairs_last, map_app; reflexivity).
          rewrite cycle_fst. exact Hnd. }
        rewrite Hsp, map_app in Hn. apply NoDup_remove_2 in Hn. apply Hn, in_app_iff. left. apply in_map_iff. exists (a, v). auto.
      - apply Nk. apply in_app_iff in Huv as [Huv|[[= -> ->]|[]]]; [exact Huv|congruence]. }
    intros k1 [Fk1 Nk1]. apply pok_step. destruct Hst as [rest Est]. rewrite Est.
    pose proof (nfr_trans (s_fr J) Fk1 (fun x H => match H with or_introl e => or_intror (or_introl e) | or_intror f => match f with end end)) as Fg1.
    apply ok_bind, int_name_ok; [exact Hs|]. intros zs Hzs.
    assert (Hlast : In (last (source :: rest) source) (source :: rest)) by (destruct (exists_last (l := source :: rest)) as (l' & y & ->); [discriminate|]; rewrite last_last; apply in_app_iff; simpl; auto).
    apply ok_nset with (bs := ["thread"]); [apply (nfr_wf Fg1 W)|rewrite (nfr_nodes Fg1); apply HV; rewrite Est; exact Hlast|simpl; auto|].
    intros k2 F2 N2. pose proof (nfr_trans Fk1 F2 (incl_refl _)) as Fk2.
    assert (Nk2 : forall a b, In (a, b) (cycle_pairs seq) -> nattr k2 a "thread" = vname b).
    { intros a b Hab. rewrite N2. rewrite Est, cycle_pairs_last, <- Est in Hab. destruct (eq_dec (a, "thread") (last (source :: rest) source, "thread")) as [E|Hne].
      - apply (f_equal fst) in E; cbn [fst] in E. apply in_app_iff in Hab as [Hab|[[= _ <-]|[]]]; [|rewrite Hzs; reflexivity]. exfalso.
        assert (Hn : NoDup (map fst (cycle_pairs seq))) by (rewrite cycle_fst; exact Hnd). rewrite Est, cycle_pairs_last, map_app in Hn. cbn [map fst] in Hn. rewrite <- E, <- Est in Hn. apply NoDup_snoc in Hn as [_ Hn].
        apply Hn, in_map_iff. exists (a, b). auto.
      - apply in_app_iff in Hab as [Hab|[[= <- <-]|[]]]; [apply Nk1, Hab|]. rewrite <- Est in Hne. congruence. }
    clear k1 Fk1 Nk1 Fg1 F2 N2. pose proof (nfr_trans (s_fr J) Fk2 (fun x H => match H with or_introl e => or_intror (or_introl e) | or_intror f => match f with end end)) as Fg2.
    (* predecessors and depths *)
    apply pok_step.
    assert (Hpn : forall k v, In (k, v) pred -> In k V) by (intros k v H; apply HV, Hkeys, in_map_iff; exists (k, v); auto).
    set (D := fun x => match dget depth x with Some z => z | None => 0%Z end).
    eapply ok_forM with (I := fun pre k => nfr ["pred"; "depth"] k2 k /\ forall x, In x (map fst pre) -> nattr k x "pred" = voname (par pred x) /\ nattr k x "depth" = VI (D x)).
    { split; [apply nfr_refl|intros x []]. }
    { intros pre [n o] post k Hsp [Fk Nk]. cbn [fst snd]. assert (Hin : In (n, o) pred) by (rewrite Hsp; apply in_app_iff; simpl; auto).
      pose proof (Hpn _ _ Hin) as Vn.
      pose proof (In_dget (s_pnd J) Hin) as Hnp. destruct (s_dep J (x := n)) as [d Hd]; [eapply dget_Some_keys; eauto|].
      pose proof (nfr_trans Fg2 Fk (fun x H => match H with or_introl e => or_intror (or_intror (or_introl e)) | or_intror (or_introl e) => or_intror (or_intror (or_intror (or_introl e))) | or_intror (or_intror f) => match f with end end)) as Fg.
      apply ok_bind. apply ok_nset with (bs := ["pred"; "depth"]); [apply (nfr_wf Fg W)|rewrite (nfr_nodes Fg); exact Vn|simpl; auto|]. intros k3 F3 N3.
      pose proof (nfr_trans Fg F3 (fun x H => match H with or_introl e => or_intror (or_intror (or_introl e)) | or_intror (or_introl e) => or_intror (or_intror (or_intror (or_introl e))) | or_intror (or_intror f) => match f with end end)) as Fg3.
      apply ok_bind. apply ok_lift with (a := d); [exact Hd|]. apply ok_nset with (bs := ["pred"; "depth"]); [apply (nfr_wf Fg3 W)|rewrite (nfr_nodes Fg3); exact Vn|simpl; auto|]. intros k4 F4 N4.
      split; [apply (nfr_trans (nfr_trans Fk F3 (incl_refl _)) F4), incl_refl|]. intros x Hx. rewrite !N4, !N3.
      destruct (eq_dec (x, "pred") (n, "depth")) as [E|_]; [discriminate E|]. destruct (eq_dec (x, "depth") (n, "pred")) as [E|_]; [discriminate E|].
      destruct (eq_dec x n) as [->|Hne].
      - destruct (eq_dec (n, "pred") (n, "pred")); [|congruence]. destruct (eq_dec (n, "depth") (n, "depth")); [|congruence]. unfold D. rewrite Hnp, Hd. auto.
      - destruct (eq_dec (x, "pred") (n, "pred")); [congruence|]. destruct (eq_dec (x, "depth") (n, "depth")); [congruence|].
        apply Nk. rewrite map_app in Hx. apply in_app_iff in Hx as [Hx|[Hx|[]]]; [exact Hx|simpl in Hx; congruence]. }
    intros k3 [F3 N3]. apply pok_ret.
    pose proof (nfr_trans Fg2 F3 (fun x H => match H with or_introl e => or_intror (or_intror (or_introl e)) | or_intror (or_introl e) => or_intror (or_intror (or_intror (or_introl e))) | or_intror (or_intror f) => match f with end end)) as Fg3.
    split; [exact Fg3|]. exists seq, (fun x => par pred x), D. split; [|split; [exact Hkeys|intros x Hx; apply Hkeys in Hx; destruct (dget pred x) as [o|] eqn:E; [reflexivity|apply dget_None in E; contradiction]]]. rewrite <- Est in *. constructor.
    - exact Hnd.
    - eauto.
    - rewrite (nfr_nodes Fg3). exact HV.
    - intros x Hx. rewrite (nfr_nodes Fg3) in Hx. destruct (s_comp J Hx) as [C1 C2]. rewrite app_nil_r in C2.
      rewrite (nf_nodes F3), (nf_nodes Fk2) by (simpl; intuition discriminate). auto.
    - intros x Hx. apply N3. apply Hkeys in Hx. exact Hx.
    - intros x Hx. apply N3. apply Hkeys in Hx. exact Hx.
    - rewrite (s_src J). reflexivity.
    - intros s1 x s2 Hx Hxs. assert (Hk : In x (dkeys pred)) by (apply Hkeys; rewrite Hx; apply in_app_iff; simpl; auto).
      destruct (s_par J Hk Hxs) as (p & z & H1 & H2 & H3 & H4 & H5). exists p. rewrite H1. split; [reflexivity|]. split; [apply (s_ord J Hx H1)|]. split; [exact H3|]. unfold D. rewrite H4, H5. reflexivity.
    - intros a b Hab. rewrite (nf_nodes F3) by (simpl; intuition discriminate). apply Nk2, Hab.
    - intros x y Hx A. apply Hkeys, (s_closed J (x := x)). auto.
    - unfold D. rewrite (s_d0 J). reflexivity.
    - intros s1 a b s2 E. destruct (s_pre J E) as (p & Hp & R). exists p. rewrite Hp. split; [reflexivity|]. revert R. apply reach_mono. intros x y H. rewrite H. reflexivity.
  Qed.
  Lemma search_ok fuel : pok (simplex_search fuel source nr) g0 (fun pred h => nfr attrs4 g0 h /\
    exists seq P D, tree_info es h source nr seq P D /\ (forall x, In x (dkeys pred) <-> In x seq) /\ forall x, In x seq -> dget pred x = Some (P x)).
  Proof. apply (tpk_pok (search_t fuel)). Qed.
End Search.
