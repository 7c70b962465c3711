(* Property theorems C33 and C55: Graph.fifo_label_correcting under Python 3 and under Python 2.
   The result inl pred stands for (True, pred) and inr cycle for (False, cycle). *)
From Verif Require Import Py Util M_Graph P_Graph P_GraphLaws M_Search M_Flow P_EdgeFrame M_LabelCorr Spec P_Walk P_Attr P_Search P_LabelAbs P_LabelCorr.
Local Open Scope string_scope. Local Open Scope list_scope.

(** C33: Python 3 *)
Lemma start_py3 : forall g fuel source, wf g -> In source (get_node_list g) ->
  exists h, fifo_label_correcting Py3 fuel source g = lc_main Py3 fuel ([(source, None)], [source]) h /\ same_shape g h /\
    (forall n, In n (get_node_list g) -> nattr h n "distance" = if eqb n source then VI 0 else VS "inf") /\
    (forall x y a, eattr h x y a = eattr g x y a).
Proof.
  intros g fuel s W Hs.
  assert (H : ok (set_node_attr s "distance" (VI 0) ;; nl <- gets get_node_list ;; forM_ nl (fun n => if eqb n s then ret tt else set_node_attr n "distance" (VS "inf"))) g
    (fun _ h => same_shape g h /\ (forall n, In n (get_node_list g) -> nattr h n "distance" = if eqb n s then VI 0 else VS "inf") /\ (forall x y a, eattr h x y a = eattr g x y a))).
  { apply ok_bind. apply ok_set_node_attr; [rewrite (wf_nodes W); exact Hs|]. intros h0 S0 N0 E0 _ _ _. apply ok_bind, ok_gets. rewrite (ss_node_list S0).
    apply (ok_forM (l := get_node_list g) (I := fun pre h => same_shape g h /\ (nattr h s "distance" = VI 0 /\ forall n, In n pre -> n <> s -> nattr h n "distance" = VS "inf") /\ (forall x y a, eattr h x y a = eattr g x y a))
      (Q := fun h => same_shape g h /\ (forall n, In n (get_node_list g) -> nattr h n "distance" = if eqb n s then VI 0 else VS "inf") /\ (forall x y a, eattr h x y a = eattr g x y a))).
    - split; [exact S0|]. split; [|exact E0]. split; [|intros n []]. rewrite N0. destruct (eq_dec (s, "distance") (s, "distance")); congruence.
    - intros pre x post h El (Sh & (Ds & Dn) & Eh). assert (Vx : In x (get_node_list g)) by (rewrite El; apply in_elt). destruct (eqb_spec x s) as [->|Hx].
      + apply ok_ret. split; [exact Sh|]. split; [|exact Eh]. split; [exact Ds|]. intros n Hn Hne. apply in_app_iff in Hn as [Hn|[->|[]]]; [auto|congruence].
      + apply ok_set_node_attr; [rewrite (ss_nodes Sh), (wf_nodes W); exact Vx|]. intros h' S' N' E' _ _ _. split; [eapply ss_trans; eassumption|]. split; [split|].
        * rewrite N'. destruct (eq_dec (s, "distance") (x, "distance")); [congruence|exact Ds].
        * intros n Hn Hne. rewrite N'. destruct (eq_dec (n, "distance") (x, "distance")) as [|Hd]; [reflexivity|]. apply in_app_iff in Hn as [Hn|[->|[]]]; [auto|congruence].
        * intros a b c. rewrite E'. apply Eh.
    - intros h (Sh & (Ds & Dn) & Eh). split; [exact Sh|]. split; [|exact Eh]. intros n Hn. destruct (eqb_spec n s) as [->|Hne]; [exact Ds|apply Dn; assumption]. }
  apply ok_ex in H as (h & [] & E & S & D & A). exists h. split; [|auto]. unfold fifo_label_correcting.
  revert E. unfold bind. destruct (set_node_attr s "distance" (VI 0) g) as [g1 [[]|e]]; [|discriminate]. cbn [gets]. intros E. rewrite E. reflexivity.
Qed.

(* one neighbour other than source: the comparison of 'inf' with an int raises TypeError *)
Lemma relax_inf g h fuel source y p q : wf g -> same_shape g h -> (forall n, In n (get_node_list g) -> nattr h n "distance" = if eqb n source then VI 0 else VS "inf") ->
  (forall x y a, eattr h x y a = eattr g x y a) -> has_costs g false -> In source (get_node_list g) -> arc g source y -> y <> source ->
  lc_relax Py3 fuel source (p, q) y h = (h, Err TypeError).
Proof.
  intros W S D A HC Hs Ha Hy. unfold lc_relax. assert (Vy : In y (get_node_list g)) by apply (check_edge_nodes W Ha).
  assert (Gn : forall n, In n (get_node_list g) -> get_node_attr n "distance" h = (h, Ok (nattr h n "distance"))).
  { intros n Hn. assert (Hk : In n (dkeys (g_nodes h))) by (rewrite (ss_nodes S), (wf_nodes W); exact Hn). pose proof (obs_nattr "distance" Hk) as O. unfold obs in O. unfold get_node_attr in *.
    destruct (dget (g_nodes h) n); [|discriminate]. cbn [snd] in O. rewrite O. reflexivity. }
  rewrite (bind_ok _ (Gn y Vy)), (bind_ok _ (Gn source Hs)), (D y Vy), (D source Hs), eqb_refl.
  assert (eqb y source = false) as -> by (apply eqb_false; exact Hy).
  pose proof (lc_cost HC Ha) as C. rewrite <- A in C.
  assert (Ge : get_edge_attr source y "cost" h = (h, Ok (VI (edge_cost g source y)))).
  { unfold eattr, obs in C. unfold get_edge_attr in *. cbn [snd] in C. match type of C with match ?x with _ => _ end = _ => destruct x; [injection C as ->; reflexivity|discriminate] end. }
  rewrite (bind_ok _ Ge). reflexivity.
Qed.
Lemma relax_self g h fuel source py p q : wf g -> same_shape g h -> (forall n, In n (get_node_list g) -> nattr h n "distance" = if eqb n source then VI 0 else VS "inf") ->
  (forall x y a, eattr h x y a = eattr g x y a) -> has_costs g false -> In source (get_node_list g) -> arc g source source ->
  lc_relax py fuel source (p, q) source h = (b <- label_gt py (VI 0) (edge_cost g source source) ;;
    if b : bool then
      set_node_attr source "distance" (VI (edge_cost g source source)) ;;
      let pred' := dset p source (Some source) in
      let q' := if mem source q then q else q ++ [source] in
      if dmem p source then
        r <- lc_check_cycle fuel source pred' ;;
        match r with Some cycle => ret (inr cycle) | None => ret (inl (pred', q')) end
      else ret (inl (pred', q'))
    else ret (inl (p, q))) h.
Proof.
  intros W S D A HC Hs Ha. unfold lc_relax.
  assert (Gn : get_node_attr source "distance" h = (h, Ok (nattr h source "distance"))).
  { assert (Hk : In source (dkeys (g_nodes h))) by (rewrite (ss_nodes S), (wf_nodes W); exact Hs). pose proof (obs_nattr "distance" Hk) as O. unfold obs in O. unfold get_node_attr in *.
    destruct (dget (g_nodes h) source); [|discriminate]. cbn [snd] in O. rewrite O. reflexivity. }
  rewrite (bind_ok _ Gn), (bind_ok _ Gn), (D source Hs), eqb_refl.
  pose proof (lc_cost HC Ha) as C. rewrite <- A in C.
  assert (Ge : get_edge_attr source source "cost" h = (h, Ok (VI (edge_cost g source source)))).
  { unfold eattr, obs in C. unfold get_edge_attr in *. cbn [snd] in C. match type of C with match ?x with _ => _ end = _ => destruct x; [injection C as ->; reflexivity|discriminate] end. }
  rewrite (bind_ok _ Ge). reflexivity.
Qed.

(* The documented result is never produced: as soon as source has a neighbour other than itself the call raises
   TypeError (a loop on source is harmless unless its cost is negative). *)
Theorem C33_py3_raises : forall g source fuel, wf g -> has_costs g false -> In source (get_node_list g) ->
  (exists y, arc g source y /\ y <> source) -> (arc g source source -> (0 <= edge_cost g source source)%Z) ->
  snd (fifo_label_correcting Py3 (S fuel) source g) = Err TypeError.
Proof.
  intros g s fuel W HC Hs (y & Hy & Hne) Hl. destruct (start_py3 g (S fuel) s W Hs) as (h & -> & Sh & D & A). unfold lc_main. cbn [loop]. unfold bind at 1.
  assert (Nl : nbr_list s h = (h, Ok (list_at (g_nbrs g) s))).
  { unfold nbr_list, list_at. rewrite (ss_nbrs Sh). unfold get_node_list in Hs. apply dget_exists in Hs as [l ->]. reflexivity. }
  rewrite (bind_ok _ Nl).
  assert (Hall : forall z, In z (list_at (g_nbrs g) s) -> arc g s z) by (intros z; apply (nbr_check_edge W)).
  assert (G : snd (lc_scan Py3 (S fuel) s (list_at (g_nbrs g) s) ([(s, None)], []) h) = Err TypeError).
  { pose proof (check_edge_nbr W Hy) as Hin. revert Hin Hall. generalize (list_at (g_nbrs g) s) as l. induction l as [|z l IH]; intros Hin Hall; [destruct Hin|]. cbn [lc_scan].
    destruct (eq_dec z s) as [->|Hz].
    - unfold bind at 1. rewrite (relax_self g h (S fuel) s Py3 _ _ W Sh D A HC Hs (Hall s (or_introl eq_refl))). unfold bind at 1. cbn [label_gt ret].
      assert ((0 >? edge_cost g s s)%Z = false) as ->.
      { specialize (Hl (Hall s (or_introl eq_refl))). rewrite Z.gtb_ltb. apply Z.ltb_ge. exact Hl. }
      cbn [ret]. apply IH; [destruct Hin as [E|Hin]; [congruence|exact Hin]|]. intros z Hz. apply Hall. right. exact Hz.
    - unfold bind at 1. rewrite (relax_inf g h (S fuel) s z _ _ W Sh D A HC Hs (Hall z (or_introl eq_refl)) Hz). reflexivity. }
  destruct (lc_scan Py3 (S fuel) s (list_at (g_nbrs g) s) ([(s, None)], []) h) as [h' r] eqn:Es. cbn [snd] in G. subst r. rewrite (bind_err _ Es). reflexivity.
Qed.
Print Assumptions C33_py3_raises.

(* in particular it raises whenever the first neighbour of source is another node, whatever the costs *)
Theorem C33_py3_first : forall g source fuel y l, wf g -> has_costs g false -> In source (get_node_list g) ->
  obs (get_neighbors source) g = Ok (y :: l) -> y <> source ->
  snd (fifo_label_correcting Py3 (S fuel) source g) = Err TypeError.
Proof.
  intros g s fuel y l W HC Hs Hn Hne. destruct (start_py3 g (S fuel) s W Hs) as (h & -> & Sh & D & A). unfold lc_main. cbn [loop]. unfold bind at 1.
  assert (El : list_at (g_nbrs g) s = y :: l).
  { unfold obs, get_neighbors, nbr_list in Hn. unfold list_at. cbn [snd] in Hn. destruct (dget (g_nbrs g) s); congruence. }
  assert (Nl : nbr_list s h = (h, Ok (list_at (g_nbrs g) s))).
  { unfold nbr_list, list_at. rewrite (ss_nbrs Sh). unfold get_node_list in Hs. apply dget_exists in Hs as [l' ->]. reflexivity. }
  rewrite (bind_ok _ Nl), El. cbn [lc_scan]. unfold bind at 1 2.
  rewrite (relax_inf g h (S fuel) s y _ _ W Sh D A HC Hs); [reflexivity| |exact Hne]. apply (nbr_check_edge W). rewrite El. left. reflexivity.
Qed.
Print Assumptions C33_py3_first.

(* the calls that do return under Python 3: source has no neighbour but itself *)
Theorem C33_py3_isolated : forall g source fuel, wf g -> has_costs g false -> In source (get_node_list g) ->
  (forall y, arc g source y -> y = source /\ (0 <= edge_cost g source source)%Z) ->
  snd (fifo_label_correcting Py3 (S (S fuel)) source g) = Ok (inl [(source, None)]).
Proof.
  intros g s fuel W HC Hs Hall0. destruct (start_py3 g (S (S fuel)) s W Hs) as (h & -> & Sh & D & A). unfold lc_main. remember (S (S fuel)) as F eqn:EF. rewrite EF at 1. cbn [loop]. unfold bind at 1.
  assert (Nl : nbr_list s h = (h, Ok (list_at (g_nbrs g) s))).
  { unfold nbr_list, list_at. rewrite (ss_nbrs Sh). unfold get_node_list in Hs. apply dget_exists in Hs as [l ->]. reflexivity. }
  rewrite (bind_ok _ Nl).
  assert (Hall : forall z, In z (list_at (g_nbrs g) s) -> arc g s z) by (intros z; apply (nbr_check_edge W)).
  assert (G : lc_scan Py3 F s (list_at (g_nbrs g) s) ([(s, None)], []) h = (h, Ok (inl ([(s, None)], [])))).
  { revert Hall. generalize (list_at (g_nbrs g) s) as l. induction l as [|z l IH]; intros Hall; [reflexivity|]. cbn [lc_scan].
    destruct (Hall0 z (Hall z (or_introl eq_refl))) as [-> Hc]. unfold bind at 1.
    rewrite (relax_self g h F s Py3 _ _ W Sh D A HC Hs (Hall s (or_introl eq_refl))). unfold bind at 1. cbn [label_gt ret].
    assert ((0 >? edge_cost g s s)%Z = false) as -> by (rewrite Z.gtb_ltb; apply Z.ltb_ge; exact Hc).
    cbn [ret]. apply IH. intros z Hz. apply Hall. right. exact Hz. }
  rewrite (bind_ok _ G). reflexivity.
Qed.
Print Assumptions C33_py3_isolated.

(* both versions: an unknown source raises AttributeError and changes nothing *)
Theorem C33_unknown_source : forall py g source fuel, wf g -> ~ In source (get_node_list g) ->
  fifo_label_correcting py fuel source g = (g, Err AttributeError).
Proof.
  intros py g s fuel W Hs. unfold fifo_label_correcting, bind. unfold set_node_attr.
  assert (dget (g_nodes g) s = None) as ->; [|reflexivity]. apply dget_None. rewrite (wf_nodes W). exact Hs.
Qed.
Print Assumptions C33_unknown_source.

(** C55: Python 2, where 'inf' compares greater than every number *)
Theorem C55_py2 : forall g source, wf g -> has_costs g false -> In source (get_node_list g) ->
  exists N, forall fuel, N <= fuel -> exists h r, fifo_label_correcting Py2 fuel source g = (h, Ok r) /\
    match r with
    | inl pred =>
        (* no closed walk of negative cost can be reached, the 'distance' attributes are the least costs, and
           following pred from a node leads back to source along a walk of that cost *)
        (forall a p, reach (arc g) source a -> walk (arc g) a p a -> (0 <= wcost (edge_cost g) p)%Z) /\
        (forall n, In n (get_node_list g) ->
           (reach (arc g) source n -> exists z p, obs (get_node_attr n "distance") h = Ok (VI z) /\ least_cost (arc g) (edge_cost g) source n z /\
              walk (fun x y => dget pred y = Some (Some x)) source p n /\ walk (arc g) source p n /\ wcost (edge_cost g) p = z) /\
           (~ reach (arc g) source n -> obs (get_node_attr n "distance") h = Ok (VS "inf") /\ dget pred n = None)) /\
        dget pred source = Some None
    | inr cycle =>
        (* [n_1, ..., n_k] without repetition; n_k -> n_1 -> ... -> n_k has negative cost and can be reached *)
        exists j b, cycle = b ++ [j] /\ NoDup cycle /\ reach (arc g) source j /\
          walk (arc g) j (j :: cycle) j /\ (wcost (edge_cost g) (j :: cycle) < 0)%Z
    end.
Proof.
  intros g s W HC Hs. exists (lc_fuel g s). intros fuel Hf. pose proof (fifo_ok W HC Hs Hf) as H. apply ok_ex in H as (h & r & E & F & R). exists h, r. split; [exact E|].
  destruct r as [P|cyc]; [|exact R]. destruct R as (D & I & Rep & St).
  assert (SW : forall a p b, walk (arc g) a p b -> forall da, D a = Some da -> exists db, D b = Some db /\ (db <= da + wcost (edge_cost g) p)%Z).
  { intros a p b Hw da Ha. apply (settled_walk St Hw Ha). }
  split; [|split; [|apply (i_ps I)]].
  - intros a p [q Hq] Hw. destruct (SW _ _ _ Hq _ (i_s I)) as (da & Ha & _). destruct (SW _ _ _ Hw _ Ha) as (da' & Ha' & Hl). assert (da' = da) by congruence. lia.
  - intros n Hn. assert (Kn : In n (dkeys (g_nodes h))) by (rewrite (ss_nodes (lf_shape F)), (wf_nodes W); exact Hn). rewrite (obs_nattr "distance" Kn), (Rep n Hn). split.
    + intros [q Hq]. destruct (SW _ _ _ Hq _ (i_s I)) as (z & Hz & _). rewrite Hz. destruct (i_tree I (n := n)) as (p & Hp & _); [apply (i_key I); congruence|].
      destruct (pa_cost I Hp (i_s I)) as (z' & Hz' & Hl). assert (z' = z) by congruence. subst z'. pose proof (pa_E I Hp) as Hp'. destruct (SW _ _ _ Hp' _ (i_s I)) as (z' & Hz2 & Hl').
      assert (z' = z) by congruence. subst z'. exists z, p. split; [reflexivity|]. split; [|split; [exact Hp|split; [exact Hp'|lia]]]. split; [apply (i_walk I Hz)|].
      intros p' Hw. destruct (SW _ _ _ Hw _ (i_s I)) as (z' & Hz3 & Hl3). assert (z' = z) by congruence. lia.
    + intros Hr. assert (Dn : D n = None). { destruct (D n) as [z|] eqn:Hz; [|reflexivity]. exfalso. apply Hr. destruct (i_walk I Hz) as (p & Hp & _). exists p. exact Hp. }
      rewrite Dn. split; [reflexivity|]. apply dget_None. rewrite (i_key I). congruence.
Qed.
Print Assumptions C55_py2.

(* only the 'distance' attributes of the nodes change *)
Theorem C55_py2_frame : forall g source, wf g -> has_costs g false -> In source (get_node_list g) ->
  exists N, forall fuel, N <= fuel -> exists h r, fifo_label_correcting Py2 fuel source g = (h, Ok r) /\
    get_node_list h = get_node_list g /\ g_edges h = g_edges g /\ g_attr h = g_attr g /\ g_type h = g_type g /\
    (forall n, In n (get_node_list g) -> obs (get_neighbors n) h = obs (get_neighbors n) g) /\
    (forall n a, In n (get_node_list g) -> a <> "distance" -> obs (get_node_attr n a) h = obs (get_node_attr n a) g).
Proof.
  intros g s W HC Hs. exists (lc_fuel g s). intros fuel Hf. pose proof (fifo_ok W HC Hs Hf) as H. apply ok_ex in H as (h & r & E & F & R). exists h, r. split; [exact E|].
  split; [apply (ss_node_list (lf_shape F))|]. split; [apply (lf_edges F)|]. split; [apply (lf_attr F)|]. split; [apply (ss_type (lf_shape F))|]. split.
  - intros n Hn. unfold obs, get_neighbors, nbr_list. cbn [snd]. rewrite (ss_nbrs (lf_shape F)). reflexivity.
  - intros n a Hn Ha. assert (Kg : In n (dkeys (g_nodes g))) by (rewrite (wf_nodes W); exact Hn).
    assert (Kn : In n (dkeys (g_nodes h))) by (rewrite (ss_nodes (lf_shape F)); exact Kg). rewrite (obs_nattr a Kn), (obs_nattr a Kg), (lf_nodes F) by exact Ha. reflexivity.
Qed.
Print Assumptions C55_py2_frame.

(* the two outcomes are exclusive: the call reports a cycle exactly when one of negative cost can be reached *)
Theorem C55_py2_decides : forall g source, wf g -> has_costs g false -> In source (get_node_list g) ->
  exists N, forall fuel, N <= fuel -> exists h r, fifo_label_correcting Py2 fuel source g = (h, Ok r) /\
    ((exists cycle, r = inr cycle) <-> exists a p, reach (arc g) source a /\ walk (arc g) a p a /\ (wcost (edge_cost g) p < 0)%Z).
Proof.
  intros g s W HC Hs. destruct (C55_py2 g s W HC Hs) as [N HN]. exists N. intros fuel Hf. destruct (HN fuel Hf) as (h & r & E & R). exists h, r. split; [exact E|]. destruct r as [P|cyc].
  - destruct R as (R & _). split; [intros [c Hc]; discriminate|]. intros (a & p & H1 & H2 & H3). specialize (R a p H1 H2). lia.
  - split; [intros _|eauto]. destruct R as (j & b & _ & _ & H1 & H2 & H3). exists j, (j :: cyc). auto.
Qed.
Print Assumptions C55_py2_decides.

Definition exlc (z : Z) : graph := history (new_graph (Some Directed) [])
  [OAddEdge (NI 1) (NI 2) [("cost", VI 4)]; OAddEdge (NI 1) (NI 3) [("cost", VI 1)]; OAddEdge (NI 3) (NI 2) [("cost", VI (-2))];
   OAddEdge (NI 2) (NI 4) [("cost", VI 3)]; OAddEdge (NI 4) (NI 3) [("cost", VI z)]; OAddNode (NI 5) []].
Lemma exlc_costs z : has_costs (exlc z) false.
Proof.
  intros x y H. unfold sarc, arc in H. change (g_type (exlc z)) with Directed in H. unfold check_edge in H. change (g_type (exlc z)) with Directed in H. apply dmem_In in H.
  change (dkeys (g_edges (exlc z))) with [(NI 1, NI 2); (NI 1, NI 3); (NI 3, NI 2); (NI 2, NI 4); (NI 4, NI 3)] in H.
  destruct H as [[= <- <-]|[[= <- <-]|[[= <- <-]|[[= <- <-]|[[= <- <-]|[]]]]]]; eexists; reflexivity.
Qed.
Lemma exlc_wf z : wf (exlc z).
Proof. refine (proj1 (wf_history (wf_new (Some Directed) []) _)). discriminate. Qed.
Example C33_nonvacuous : wf (exlc 0) /\ has_costs (exlc 0) false /\ In (NI 1) (get_node_list (exlc 0)) /\ arc (exlc 0) (NI 1) (NI 2) /\ ~ arc (exlc 0) (NI 1) (NI 1) /\
  snd (fifo_label_correcting Py3 20 (NI 1) (exlc 0)) = Err TypeError /\ snd (fifo_label_correcting Py3 20 (NI 5) (exlc 0)) = Ok (inl [(NI 5, None)]).
Proof.
  split; [apply exlc_wf|]. split; [apply exlc_costs|]. split; [vm_compute; auto|]. split; [vm_compute; reflexivity|]. split; [vm_compute; discriminate|]. split; vm_compute; reflexivity.
Qed.
(* both outcomes occur *)
Example C55_nonvacuous : wf (exlc 0) /\ has_costs (exlc 0) false /\ has_costs (exlc (-2)) false /\
  snd (fifo_label_correcting Py2 20 (NI 1) (exlc 0)) = Ok (inl [(NI 1, None); (NI 2, Some (NI 3)); (NI 3, Some (NI 1)); (NI 4, Some (NI 2))]) /\
  map (fun n => obs (get_node_attr (NI n) "distance") (fst (fifo_label_correcting Py2 20 (NI 1) (exlc 0)))) [1; 2; 3; 4; 5]%Z = [Ok (VI 0); Ok (VI (-1)); Ok (VI 1); Ok (VI 2); Ok (VS "inf")] /\
  snd (fifo_label_correcting Py2 20 (NI 1) (exlc (-2))) = Ok (inr [NI 2; NI 4; NI 3]).
Proof.
  split; [apply exlc_wf|]. split; [apply exlc_costs|]. split; [apply exlc_costs|]. repeat split; vm_compute; reflexivity.
Qed.
