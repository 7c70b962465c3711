(* Property theorems C71: simplex_search, the search along arcs in both directions that gives the network simplex
   method its tree. *)
From Verif Require Import Py Util M_Graph P_Graph Spec P_Walk P_Attr M_Search M_Flow M_MinCost M_NetSimplex P_Residual P_MinCostAbs S_Flow S_MinCost P_NetTree P_EdgeFrame P_NetSearch P_Pok S_SimplexSearch P_SimplexSearch P_GraphLaws C_MinCost.
Local Open Scope string_scope. Local Open Scope list_scope.

(** C71: what is reached, the tree of predecessors with its depths, the thread through it, and that nothing else changes *)
Theorem C71_simplex_search : forall (g : graph) (source : name) (nr : val) (fuel : nat),
  wf g -> g_type g = Directed -> (forall x, In x (get_node_list g) -> exists z, x = NI z) -> In source (get_node_list g) -> length (get_node_list g) < fuel ->
  exists h pred order depth, simplex_search fuel source nr g = (h, Ok pred) /\
    (* the nodes reached *)
    NoDup order /\ (forall x, In x order <-> reach (linked g) source x) /\ (forall x, In x (dkeys pred) <-> reach (linked g) source x) /\
    (forall x, In x (get_node_list g) -> (reach (linked g) source x -> obs (get_node_attr x "component") h = Ok nr) /\
                                         (~ reach (linked g) source x -> obs (get_node_attr x "component") h = Ok VNone)) /\
    (* the tree: every other node hangs on a neighbour, one level deeper *)
    dget pred source = Some None /\ depth source = 0%Z /\
    (forall x, In x order -> x <> source -> exists p, dget pred x = Some (Some p) /\ In p order /\ linked g x p /\ depth x = (depth p + 1)%Z) /\
    (forall x, In x order -> reach (tree_arc pred) source x) /\
    (* the attributes: predecessor, depth, and the thread, which runs through the tree in preorder and back to the source *)
    (forall x p, dget pred x = Some p -> obs (get_node_attr x "pred") h = Ok (voname p)) /\
    (forall x, In x order -> obs (get_node_attr x "depth") h = Ok (VI (depth x))) /\
    (exists rest, order = source :: rest) /\ preorder pred depth order /\
    (forall x y, In (x, y) (cycle_pairs order) -> obs (get_node_attr x "thread") h = Ok (vname y)) /\
    (* everything else is as before *)
    get_node_list h = get_node_list g /\ get_edge_list h = get_edge_list g /\ g_type h = g_type g /\ g_attr h = g_attr g /\
    (forall x a, ~ In a ["component"; "pred"; "depth"; "thread"] -> obs (get_node_attr x a) h = obs (get_node_attr x a) g) /\
    (forall x y a, obs (get_edge_attr x y a) h = obs (get_edge_attr x y a) g).
Proof.
  intros g source nr fuel W Dr HI Hs Hf. destruct (search_t W Dr HI Hs nr fuel) as [[K _]|(pred & h & E & F & seq & P & D & TI & Hk & Hp)]; [lia|].
  pose proof (nf_shape F) as Sh. pose proof (ss_wf Sh W) as Wh.
  assert (L : forall a b, linked g a b <-> adj (get_edge_list g) a b) by (intros a b; unfold linked, adj; reflexivity).
  assert (R : forall x, In x seq <-> reach (linked g) source x) by (intros x; apply (seq_reach TI Hk Hp x L)).
  assert (Hn : forall x, In x (get_node_list g) -> In x (dkeys (g_nodes h))) by (intros x Hx; rewrite (wf_nodes Wh), <- (nfr_nodes F) in *; exact Hx).
  assert (Hv : forall x, In x seq -> In x (get_node_list g)) by (intros x Hx; rewrite <- (nfr_nodes F); apply (ti_V TI Hx)).
  assert (Tp : forall x, In x seq -> x <> source -> exists p, dget pred x = Some (Some p) /\ In p seq /\ linked g x p /\ D x = (D p + 1)%Z).
  { intros x Hx Hxs. pose proof Hx as Hx'. apply in_split in Hx' as (s1 & s2 & Es). destruct (ti_par TI Es Hxs) as (p & H1 & H2 & H3 & H4). exists p. rewrite (Hp x Hx), H1. split; [reflexivity|].
    split; [rewrite Es; apply in_app_iff; auto|]. split; [apply L, H3|exact H4]. }
  assert (Hsrc : In source seq) by (apply R, reach_refl).
  exists h, pred, seq, D. split; [exact E|]. split; [apply (ti_nd TI)|]. split; [exact R|]. split; [intros x; rewrite Hk; apply R|].
  split. { intros x Hx. pose proof Hx as Hx'. rewrite <- (nfr_nodes F) in Hx'. destruct (ti_comp TI Hx') as [C1 C2]. rewrite (obs_nattr _ (Hn _ Hx)).
    split; [intros Q; rewrite C1; [reflexivity|apply R, Q]|]. intros Q. rewrite C2; [reflexivity|]. intros K. apply Q, R, K. }
  split; [rewrite (Hp _ Hsrc), (ti_src TI); reflexivity|]. split; [apply (ti_d0 TI)|]. split; [exact Tp|]. split.
  { intros x Hx. destruct (ti_hd TI) as [rest Er]. destruct (seq_preorder TI Hk Hp (s1 := []) Er) as (sub & rest' & Er' & B & _ & B').
    apply B. destruct rest' as [|y rest']; [rewrite app_nil_r in Er'; rewrite <- Er', <- Er; exact Hx|]. exfalso.
    assert (Hy : In y seq) by (rewrite Er, Er'; simpl; rewrite in_app_iff; simpl; auto).
    assert (Pos : forall s1 s2, seq = s1 ++ s2 -> forall z, In z s1 -> z = source \/ (0 < D z)%Z).
    { intros s1. induction s1 as [|z s1 IH] using rev_ind; intros s2 Es w Hw; [destruct Hw|]. rewrite <- app_assoc in Es. apply in_app_iff in Hw as [Hw|[<-|[]]]; [apply (IH _ Es _ Hw)|].
      destruct (eq_dec z source) as [->|Hz]; [auto|right]. destruct (ti_par TI Es Hz) as (p & _ & Hin & _ & Hd). destruct (IH _ Es _ Hin) as [->|H]; [rewrite (ti_d0 TI) in Hd|]; lia. }
    destruct (Pos seq [] (eq_sym (app_nil_r seq)) y Hy) as [->|Q]; [|rewrite (ti_d0 TI) in B'; lia].
    pose proof (ti_nd TI) as Nd. rewrite Er, Er' in Nd. inversion Nd as [|? ? N1 _]. apply N1, in_app_iff. simpl. auto. }
  split. { intros x p Hx. assert (Hxs : In x seq) by (apply Hk; eapply dget_Some_keys; exact Hx). rewrite (obs_nattr _ (Hn _ (Hv _ Hxs))), (ti_pred TI Hxs). rewrite (Hp _ Hxs) in Hx. injection Hx as <-. reflexivity. }
  split. { intros x Hx. rewrite (obs_nattr _ (Hn _ (Hv _ Hx))), (ti_depth TI Hx). reflexivity. }
  split; [apply (ti_hd TI)|]. split; [apply (seq_preorder TI Hk Hp)|].
  split. { intros x y Hxy. assert (Hx : In x seq). { apply (in_map fst) in Hxy. rewrite cycle_fst in Hxy. exact Hxy. } rewrite (obs_nattr _ (Hn _ (Hv _ Hx))), (ti_thread TI Hxy). reflexivity. }
  split; [apply (nfr_nodes F)|]. split; [apply (nfr_edges F)|]. split; [apply (ss_type Sh)|]. split; [apply (nf_attr F)|]. split.
  - intros x a Ha. destruct (in_dec eq_dec x (dkeys (g_nodes g))) as [Hx|Hx].
    + assert (Hx' : In x (dkeys (g_nodes h))) by (rewrite (ss_nodes Sh); exact Hx). rewrite (obs_nattr _ Hx), (obs_nattr _ Hx'), (nf_nodes F); [reflexivity|]. simpl in *. tauto.
    + assert (Hx' : ~ In x (dkeys (g_nodes h))) by (rewrite (ss_nodes Sh); exact Hx). apply dget_None in Hx, Hx'. rewrite !obs_node_attr, Hx, Hx'. reflexivity.
  - intros x y a. unfold obs, get_edge_attr. cbn [snd]. rewrite (nf_store F), (ss_type Sh). reflexivity.
Qed.
Print Assumptions C71_simplex_search.

(* the reset at the start of the call *)
Lemma reset_run g : wf g -> exists h, forM_ (get_node_list g) (fun n => set_node_attr n "component" VNone) g = (h, Ok tt) /\ nfr ["component"] g h /\
  forall x, In x (get_node_list g) -> nattr h x "component" = VNone.
Proof.
  intros W. assert (K : ok (forM_ (get_node_list g) (fun n => set_node_attr n "component" VNone)) g (fun _ h => nfr ["component"] g h /\ forall x, In x (get_node_list g) -> nattr h x "component" = VNone)).
  2:{ destruct K as ([] & h & E & K). exists h. auto. }
  eapply ok_forM with (I := fun pre h => nfr ["component"] g h /\ forall x, In x pre -> nattr h x "component" = VNone); [split; [apply nfr_refl|intros x []]| |auto].
  intros pre n post h Hsp [F N]. apply ok_nset with (bs := ["component"]); [apply (nfr_wf F W)|rewrite (nfr_nodes F), Hsp; apply in_app_iff; simpl; auto|simpl; auto|].
  intros h' F' N'. split; [apply (nfr_trans F F'), incl_refl|]. intros x Hx. rewrite N'. destruct (eq_dec (x, "component") (n, "component")) as [_|Hne]; [reflexivity|].
  apply N. apply in_app_iff in Hx as [Hx|[->|[]]]; [exact Hx|congruence].
Qed.
Lemma nfr_same g h bs : nfr bs g h -> (forall x a, ~ In a bs -> obs (get_node_attr x a) h = obs (get_node_attr x a) g) /\ (forall x y a, obs (get_edge_attr x y a) h = obs (get_edge_attr x y a) g).
Proof.
  intros F. pose proof (nf_shape F) as Sh. split.
  - intros x a Ha. destruct (in_dec eq_dec x (dkeys (g_nodes g))) as [Hx|Hx].
    + assert (Hx' : In x (dkeys (g_nodes h))) by (rewrite (ss_nodes Sh); exact Hx). rewrite (obs_nattr _ Hx), (obs_nattr _ Hx'), (nf_nodes F); [reflexivity|exact Ha].
    + assert (Hx' : ~ In x (dkeys (g_nodes h))) by (rewrite (ss_nodes Sh); exact Hx). apply dget_None in Hx, Hx'. rewrite !obs_node_attr, Hx, Hx'. reflexivity.
  - intros x y a. unfold obs, get_edge_attr. cbn [snd]. rewrite (nf_store F), (ss_type Sh). reflexivity.
Qed.

(** a source that is no node raises, after the components have been reset *)
Theorem C71_unknown_source : forall (g : graph) (source : name) (nr : val) (fuel : nat), wf g -> ~ In source (get_node_list g) ->
  exists h, simplex_search (S fuel) source nr g = (h, Err AttributeError) /\ (forall x, In x (get_node_list g) -> obs (get_node_attr x "component") h = Ok VNone) /\
    get_node_list h = get_node_list g /\ get_edge_list h = get_edge_list g /\
    (forall x a, a <> "component" -> obs (get_node_attr x a) h = obs (get_node_attr x a) g) /\ (forall x y a, obs (get_edge_attr x y a) h = obs (get_edge_attr x y a) g).
Proof.
  intros g source nr fuel W Hs. destruct (reset_run g W) as (h & E & F & N). exists h. pose proof (nf_shape F) as Sh. destruct (nfr_same _ _ _ F) as [S1 S2]. split.
  - unfold simplex_search. rewrite (bind_ok _ (s' := g) (a := get_node_list g)) by reflexivity. rewrite (bind_ok _ E). apply bind_err.
    assert (Hd : dget (g_nodes h) source = None) by (apply dget_None; rewrite (ss_nodes Sh), (wf_nodes W); exact Hs).
    unfold ss_loop. cbn [loop]. apply bind_err. apply bind_err. unfold set_node_attr. rewrite Hd. reflexivity.
  - split; [|split; [apply (nfr_nodes F)|split; [apply (nfr_edges F)|split; [|exact S2]]]].
    + intros x Hx. rewrite (obs_nattr (g := h)), (N x Hx); [reflexivity|]. rewrite (ss_nodes Sh), (wf_nodes W). exact Hx.
    + intros x a Ha. apply S1. simpl. intuition congruence.
Qed.
Print Assumptions C71_unknown_source.

(** on an undirected graph there are no in_neighbors: the call raises after visiting the source *)
Theorem C71_undirected : forall (g : graph) (source : name) (nr : val) (fuel : nat), wf g -> g_type g = Undirected -> In source (get_node_list g) ->
  exists h, simplex_search (S fuel) source nr g = (h, Err AttributeError) /\
    (forall x, In x (get_node_list g) -> obs (get_node_attr x "component") h = Ok (if eq_dec x source then nr else VNone)) /\
    get_node_list h = get_node_list g /\ get_edge_list h = get_edge_list g /\
    (forall x a, a <> "component" -> obs (get_node_attr x a) h = obs (get_node_attr x a) g) /\ (forall x y a, obs (get_edge_attr x y a) h = obs (get_edge_attr x y a) g).
Proof.
  intros g source nr fuel W U Hs. destruct (reset_run g W) as (h & E & F & N). pose proof (nf_shape F) as Sh.
  assert (K : ok (set_node_attr source "component" nr) h (fun _ k => nfr ["component"] h k /\ forall x b, nattr k x b = if eq_dec (x, b) (source, "component") then nr else nattr h x b)).
  { apply ok_nset with (bs := ["component"]); [apply (nfr_wf F W)|rewrite (nfr_nodes F); exact Hs|simpl; auto|auto]. }
  destruct K as ([] & k & Ek & Fk & Nk). pose proof (nfr_trans F Fk (incl_refl _)) as G. destruct (nfr_same _ _ _ G) as [S1 S2]. exists k. split.
  - unfold simplex_search. rewrite (bind_ok _ (s' := g) (a := get_node_list g)) by reflexivity. rewrite (bind_ok _ E). apply bind_err.
    unfold ss_loop. cbn [loop]. apply bind_err. rewrite (bind_ok _ Ek). apply bind_err. unfold in_list. apply bind_err.
    unfold in_dict. pose proof (ss_type (nf_shape G)) as Tk. rewrite U in Tk. rewrite Tk. reflexivity.
  - split; [|split; [apply (nfr_nodes G)|split; [apply (nfr_edges G)|split; [|exact S2]]]].
    + intros x Hx. rewrite (obs_nattr (g := k)); [|rewrite (ss_nodes (nf_shape G)), (wf_nodes W); exact Hx]. rewrite Nk. destruct (eq_dec x source) as [->|Hne].
      * destruct (eq_dec (source, "component") (source, "component")); [reflexivity|congruence].
      * destruct (eq_dec (x, "component") (source, "component")); [congruence|]. rewrite (N x Hx). reflexivity.
    + intros x a Ha. apply S1. simpl. intuition congruence.
Qed.
Print Assumptions C71_undirected.

(* a tree with root 1, children 2 and 3, and 4, 5 below 2, arcs in both directions, and a node apart: the thread is 1 2 5 4 3 1 *)
Definition extree : graph := history (new_graph (Some Directed) [])
  [OAddEdge (NI 1) (NI 2) []; OAddEdge (NI 3) (NI 1) []; OAddEdge (NI 4) (NI 2) []; OAddEdge (NI 2) (NI 5) []; OAddNode (NI 6) []].
Example C71_nonvacuous : wf extree /\ g_type extree = Directed /\ (forall x, In x (get_node_list extree) -> exists z, x = NI z) /\ In (NI 1) (get_node_list extree) /\ length (get_node_list extree) < 10 /\
  (let h := fst (simplex_search 10 (NI 1) (VI 7) extree) in
   map (fun a => map (fun x => obs (get_node_attr (NI x) a) h) [1; 2; 3; 4; 5; 6]%Z) ["component"; "pred"; "depth"; "thread"] =
   [[Ok (VI 7); Ok (VI 7); Ok (VI 7); Ok (VI 7); Ok (VI 7); Ok VNone];
    [Ok VNone; Ok (VI 1); Ok (VI 1); Ok (VI 2); Ok (VI 2); Ok VNone];
    [Ok (VI 0); Ok (VI 1); Ok (VI 1); Ok (VI 2); Ok (VI 2); Ok VNone];
    [Ok (VI 2); Ok (VI 5); Ok (VI 1); Ok (VI 3); Ok (VI 4); Ok VNone]]) /\
  obs (simplex_search 10 (NI 9) (VI 7)) extree = Err AttributeError.
Proof.
  split; [refine (proj1 (wf_history (wf_new (Some Directed) []) _)); discriminate|]. split; [reflexivity|].
  split; [intros x Hx; vm_compute in Hx; repeat (destruct Hx as [<-|Hx]; [eauto|]); destruct Hx|]. split; [vm_compute; auto|]. split; [vm_compute; lia|].
  split; vm_compute; reflexivity.
Qed.
