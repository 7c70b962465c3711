(* Property theorem C51: Graph.random.
   [random o p (g, k)] runs the modelled method with arguments [p] in state g, the random module being
   the arbitrary stream [o] read from position k. [populated g h n nf fmt labels cost_ok new] (S_Random.v)
   says that h is g with the nodes 0..n-1 and the edges [new] added. *)
From Verif Require Import Py Util M_Graph M_Search M_Random P_Graph P_GraphLaws S_Random P_Random P_RandomMore.
Local Open Scope string_scope. Local Open Scope list_scope. Local Open Scope Z_scope.

Lemma plain_nodes : forall (o : oracle) (p : params), NoDup (dkeys (node_format p)) -> forall i k, exists kw k', kw = node_format p /\ NoDup (dkeys kw) /\
  forall h, (ong (add_node (NI i) (node_format p)) : M (graph * nat) unit) (h, k) = (let '(h', r) := add_node (NI i) kw h in ((h', k'), r)).
Proof. intros o p Hn i k. exists (node_format p), k. auto. Qed.

(** C51, with a degree range *)
Theorem C51_degree_mode : forall (o : oracle) (p : params) (g : graph) (k : nat) (d1 d2 lo hi : Z),
  euclidean p = false -> degree_range p = Some (d1, d2) -> density p = false -> length_range p = Some (lo, hi) -> add_labels p = true ->
  wf g -> free_names g (numnodes p) -> NoDup (dkeys (node_format p)) -> NoDup (dkeys (edge_format p)) -> ~ In "cost" (dkeys (edge_format p)) ->
  d1 <= d2 -> lo <= hi -> 2 <= numnodes p \/ d2 <= 0 -> parallel_allowed p = false \/ g_type g = Directed ->
  exists h k' new, random o p (g, k) = ((h, k'), Ok tt) /\
    populated g h (numnodes p) (fun _ => node_format p) (edge_format p) true (cost_in (Some (lo, hi))) new /\
    (parallel_allowed p = false -> no_reversed new) /\
    (forall m, (tails m new <= Z.to_nat d2)%nat) /\
    (forall x y, In (x, y) new -> y <> NI 0).
Proof.
  intros o p g k d1 d2 lo hi He Hdr Hde Hl Hlab W F Nn Ne Nc Hd Hlo Hn Hp.
  assert (H : ok (random o p) (g, k) (fun _ s => exists new, populated g (fst s) (numnodes p) (fun _ => node_format p) (edge_format p) true (cost_in (Some (lo, hi))) new /\
     (parallel_allowed p = false -> no_reversed new) /\ (forall m, (tails m new <= Z.to_nat d2)%nat) /\ (forall x y, In (x, y) new -> y <> NI 0))).
  { unfold random. rewrite He, Hdr, Hde. cbn [negb]. apply ok_bind.
    eapply ok_weaken; [apply (nodes_ok (edge_format p) (add_labels p) (cost_in (Some (lo, hi))) k W F (plain_nodes o p Nn))|].
    intros u [h1 k1] (nf & Hnf & P). cbn [fst] in P.
    assert (P' : populated g h1 (numnodes p) (fun _ => node_format p) (edge_format p) (add_labels p) (cost_in (Some (lo, hi))) []).
    { destruct P as [P1 P2 P3 P4 P5 P6 P7 P8]. constructor; auto. intros i a Hi. rewrite P5, Hnf by assumption. reflexivity. }
    eapply ok_weaken; [apply (ok_degree o W F Ne Hl Hlo Hd Nc Hlab Hp k1 Hn P')|].
    intros u' s (new & D & Ps). rewrite Hlab in Ps. exists new. split; [exact Ps|]. split; [apply (di_rev D)|]. split; [|apply (di_head D)].
    intros m. destruct m as [z|s0]; [apply (di_max D)|].
    assert (Hz : tails (NS s0) new = 0%nat).
    { unfold tails. destruct (filter _ new) as [|[x y] t] eqn:Ef; [reflexivity|]. exfalso. assert (Hin : In (x, y) (filter (fun e => eqb (fst e) (NS s0)) new)) by (rewrite Ef; simpl; auto).
      apply filter_In in Hin as [Hin Hx]. simpl in Hx. apply (proj1 (eqb_true _ _)) in Hx. subst x. destruct (pop_edge_new Ps Hin) as (i & j & c & [=] & _). }
    rewrite Hz. lia. }
  destruct (ok_ex H) as ([h k'] & [] & Er & new & P & H1 & H2 & H3). exists h, k', new. auto.
Qed.
Print Assumptions C51_degree_mode.

(** C51, with a density *)
Theorem C51_density_mode : forall (o : oracle) (p : params) (g : graph) (k : nat),
  euclidean p = false -> density p = true ->
  wf g -> free_names g (numnodes p) -> NoDup (dkeys (node_format p)) -> NoDup (dkeys (edge_format p)) ->
  (forall lo hi, length_range p = Some (lo, hi) -> lo <= hi /\ ~ In "cost" (dkeys (edge_format p))) ->
  exists h k' new, random o p (g, k) = ((h, k'), Ok tt) /\
    populated g h (numnodes p) (fun _ => node_format p) (edge_format p) (add_labels p) (cost_in (length_range p)) new /\
    (parallel_allowed p = false -> no_reversed new) /\
    (g_type g = Undirected -> no_reversed new).
Proof.
  intros o p g k He Hde W F Nn Ne Hl.
  assert (H : ok (random o p) (g, k) (fun _ s => exists new, populated g (fst s) (numnodes p) (fun _ => node_format p) (edge_format p) (add_labels p) (cost_in (length_range p)) new /\
     (parallel_allowed p = false -> no_reversed new) /\ (g_type g = Undirected -> forall i j, In (NI i, NI j) new -> j < i))).
  { unfold random. rewrite He, Hde. cbn [negb]. apply ok_bind.
    eapply ok_weaken; [apply (nodes_ok (edge_format p) (add_labels p) (cost_in (length_range p)) k W F (plain_nodes o p Nn))|].
    intros u [h1 k1] (nf & Hnf & P). cbn [fst] in P.
    assert (P' : populated g h1 (numnodes p) (fun _ => node_format p) (edge_format p) (add_labels p) (cost_in (length_range p)) []).
    { destruct P as [P1 P2 P3 P4 P5 P6 P7 P8]. constructor; auto. intros i a Hi. rewrite P5, Hnf by assumption. reflexivity. }
    set (edge_of := fun m j => match length_range p with
        | Some (lo, hi) => len <- randint o lo hi ;; add_cost_edge p m j len ;; if add_labels p then set_label m j len else ret tt
        | None => ong (add_edge (NI m) (NI j) (edge_format p)) end).
    assert (Hedge : forall h k new i j, populated g h (numnodes p) (fun _ => node_format p) (edge_format p) (add_labels p) (cost_in (length_range p)) new ->
       0 <= i < numnodes p -> 0 <= j < numnodes p -> i <> j -> check_edge h (NI i) (NI j) = false ->
       ok (edge_of i j) (h, k) (fun _ s => populated g (fst s) (numnodes p) (fun _ => node_format p) (edge_format p) (add_labels p) (cost_in (length_range p)) (new ++ [(NI i, NI j)]))).
    { intros h k2 new i j Ph Hi Hj Hij Hc. unfold edge_of. destruct (length_range p) as [[lo hi]|] eqn:El.
      - destruct (Hl lo hi eq_refl) as [Hlo Nc]. apply ok_bind, ok_randint; [assumption|]. intros z Hz. cbn [fst snd].
        apply ok_cost_edge; auto. exists z. auto.
      - apply ok_plain_edge; auto. reflexivity. }
    assert (Hd : ok (forM_ (zrange (numnodes p)) (fun m => l <- others p m ;; forM_ l (density_try o p m))) (h1, k1)
        (fun _ s => exists new, populated g (fst s) (numnodes p) (fun _ => node_format p) (edge_format p) (add_labels p) (cost_in (length_range p)) new /\
           (parallel_allowed p = false -> no_reversed new) /\ (g_type g = Undirected -> forall i j, In (NI i, NI j) new -> j < i))).
    { exact (ok_density o W F Hedge k1 P'). }
    destruct (degree_range p) as [[d1 d2]|]; exact Hd. }
  destruct (ok_ex H) as ([h k'] & [] & Er & new & P & H1 & H2). exists h, k', new. split; [assumption|]. split; [exact P|]. split; [assumption|].
  intros T x y Hxy Hyx. destruct (pop_edge_new P Hxy) as (i & j & c & -> & -> & _). pose proof (H2 T i j Hxy). pose proof (H2 T j i Hyx). lia.
Qed.
Print Assumptions C51_density_mode.

(** with a degree range and no length range no edge is ever added *)
Theorem C51_no_length_no_edges : forall (o : oracle) (p : params) (g : graph) (k : nat) (d1 d2 : Z),
  euclidean p = false -> degree_range p = Some (d1, d2) -> density p = false -> length_range p = None ->
  wf g -> free_names g (numnodes p) -> NoDup (dkeys (node_format p)) -> d1 <= d2 -> 2 <= numnodes p \/ d2 <= 0 ->
  exists h k', random o p (g, k) = ((h, k'), Ok tt) /\
    populated g h (numnodes p) (fun _ => node_format p) (edge_format p) (add_labels p) (cost_in None) [].
Proof.
  intros o p g k d1 d2 He Hdr Hde Hl W F Nn Hd Hn.
  destruct (ok_ex (nodes_ok (body := fun m => ong (add_node (NI m) (node_format p))) (edge_format p) (add_labels p) (cost_in None) k W F (plain_nodes o p Nn))) as ([h1 k1] & [] & E1 & nf & Hnf & P). cbn [fst] in P.
  unfold random. rewrite He, Hdr, Hde. cbn [negb]. rewrite (bind_ok _ E1).
  clear E1. destruct (degree_no_length o Hd h1 k1 Hn Hl) as [[H1 H2]|(e & _ & [])].
  destruct (forM_ _ _ _) as [[h2 k2] r]. simpl in *. subst. exists h1, k2. split; [reflexivity|].
  destruct P as [P1 P2 P3 P4 P5 P6 P7 P8]. constructor; auto. intros i a Hi. rewrite P5, Hnf by assumption. reflexivity.
Qed.
Print Assumptions C51_no_length_no_edges.

(** with a degree range, a length range and add_labels=False the first edge raises *)
Theorem C51_no_labels_raises : forall (o : oracle) (p : params) (g : graph) (k : nat) (d1 d2 lo hi : Z),
  euclidean p = false -> degree_range p = Some (d1, d2) -> density p = false -> length_range p = Some (lo, hi) -> add_labels p = false ->
  wf g -> free_names g (numnodes p) -> NoDup (dkeys (node_format p)) -> NoDup (dkeys (edge_format p)) -> ~ In "cost" (dkeys (edge_format p)) ->
  d1 <= d2 -> lo <= hi -> 2 <= numnodes p \/ d2 <= 0 -> parallel_allowed p = false \/ g_type g = Directed ->
  exists h k' r, random o p (g, k) = ((h, k'), r) /\
    (r = Ok tt /\ populated g h (numnodes p) (fun _ => node_format p) (edge_format p) false (cost_in (Some (lo, hi))) [] \/
     r = Err MultipleEdgeException /\ exists e, populated g h (numnodes p) (fun _ => node_format p) (edge_format p) false (cost_in (Some (lo, hi))) [e]).
Proof.
  intros o p g k d1 d2 lo hi He Hdr Hde Hl Hlab W F Nn Ne Nc Hd Hlo Hn Hp.
  destruct (ok_ex (nodes_ok (body := fun m => ong (add_node (NI m) (node_format p))) (edge_format p) false (cost_in (Some (lo, hi))) k W F (plain_nodes o p Nn))) as ([h1 k1] & [] & E1 & nf & Hnf & P). cbn [fst] in P.
  unfold random. rewrite He, Hdr, Hde. cbn [negb]. rewrite (bind_ok _ E1).
  assert (T : forall h new, populated g h (numnodes p) nf (edge_format p) false (cost_in (Some (lo, hi))) new -> populated g h (numnodes p) (fun _ => node_format p) (edge_format p) false (cost_in (Some (lo, hi))) new).
  { intros h new [P1 P2 P3 P4 P5 P6 P7 P8]. constructor; auto. intros i a Hi. rewrite P5, Hnf by assumption. reflexivity. }
  clear E1. destruct (degree_no_labels o Ne Hd k1 Hn Hl Hlo Hlab Hp Nc P) as [[H1 H2]|(e & H1 & -> & x & y & H2)];
  destruct (forM_ _ _ _) as [[h2 k2] r]; simpl in *; subst; eexists _, _, _; (split; [reflexivity|]).
  - left. auto.
  - right. split; [reflexivity|]. exists (x, y). auto.
Qed.
Print Assumptions C51_no_labels_raises.

(** Euclidean, closest selection: costs are the rounded distances, the nearest nodes are joined first *)
Definition euclid_nodes (o : oracle) (p : params) : forall nf : Z -> attrs, Prop := fun nf =>
  forall i, 0 <= i < numnodes p -> exists x y, nf i = [("locationx", x); ("locationy", y); ("pos", VS (pos_str o x y))] ++ node_format p.
Lemma placed_nodes : forall (o : oracle) (p : params), NoDup (dkeys (node_format p)) ->
  ~ In "locationx" (dkeys (node_format p)) -> ~ In "locationy" (dkeys (node_format p)) -> ~ In "pos" (dkeys (node_format p)) ->
  forall i k, exists kw k', (exists x y, kw = [("locationx", x); ("locationy", y); ("pos", VS (pos_str o x y))] ++ node_format p) /\ NoDup (dkeys kw) /\
  forall h, place_node o p i (h, k) = (let '(h', r) := add_node (NI i) kw h in ((h', k'), r)).
Proof.
  intros o p Nn N1 N2 N3 i k. eexists _, (S (S k)). split; [exists (coord o k), (coord o (S k)); reflexivity|]. split.
  - simpl. repeat constructor; simpl; try assumption; intros H; repeat (destruct H as [H|H]; [discriminate|]); contradiction.
  - intros h. apply dmem_nIn in N1, N2, N3. unfold place_node, bind, draw_coord, kwargs. simpl. rewrite N1, N2, N3. simpl. unfold ong. cbn [fst snd]. reflexivity.
Qed.
Theorem C51_euclidean_closest : forall (o : oracle) (p : params) (g : graph) (k : nat) (d1 d2 : Z),
  euclidean p = true -> degree_range p = Some (d1, d2) -> density p = false -> node_selection p = "closest" ->
  wf g -> free_names g (numnodes p) -> NoDup (dkeys (node_format p)) ->
  ~ In "locationx" (dkeys (node_format p)) -> ~ In "locationy" (dkeys (node_format p)) -> ~ In "pos" (dkeys (node_format p)) ->
  NoDup (dkeys (edge_format p)) -> ~ In "cost" (dkeys (edge_format p)) ->
  d1 <= d2 -> d2 + 1 <= numnodes p ->
  exists h k' new nf, random o p (g, k) = ((h, k'), Ok tt) /\ euclid_nodes o p nf /\
    let dist i j := scaled o (loc_of (nf i)) (loc_of (nf j)) in
    populated g h (numnodes p) nf (edge_format p) (add_labels p) (fun i j c => c = Some (dist j i)) new /\
    (forall m j j', In (NI m, NI j) new -> 0 <= j' < numnodes p -> dist j' m < dist j m -> j' = m \/ check_edge h (NI m) (NI j') = true) /\
    (forall m, 0 <= m < numnodes p -> exists l, NoDup l /\ d1 <= Z.of_nat (length l) /\ forall j, In j l -> j <> m /\ check_edge h (NI m) (NI j) = true).
Proof.
  intros o p g k d1 d2 He Hdr Hde Hsel W F Nn N1 N2 N3 Ne Nc Hd Hd2.
  assert (NB := placed_nodes o p Nn N1 N2 N3).
  destruct (ok_ex (nodes_ok (body := place_node o p) (edge_format p) (add_labels p) (fun _ _ _ => True) k W F NB)) as ([h1 k1] & [] & E1 & nf & Hnf & P). cbn [fst] in P.
  assert (P' : populated g h1 (numnodes p) nf (edge_format p) (add_labels p) (fun i j c => c = Some (dist o nf j i)) []).
  { destruct P as [P1 P2 P3 P4 P5 P6 P7 P8]. constructor; auto. intros x y []. }
  destruct (ok_ex (ok_euclid_closest (o := o) Ne Nc Hd Hd2 Hsel k1 P')) as ([h k'] & b & Er & new & Q1 & Q2 & Q3). cbn [fst] in *.
  exists h, k', new, nf. unfold random. rewrite He, Hdr, Hde. cbn [negb]. rewrite (bind_ok _ E1), (bind_ok _ Er).
  split; [reflexivity|]. split; [exact Hnf|]. split; [exact Q1|]. split; [exact Q2|exact Q3].
Qed.
Print Assumptions C51_euclidean_closest.

(** Euclidean with a density: distances as costs without a length range, no cost with one *)
Theorem C51_euclidean_density : forall (o : oracle) (p : params) (g : graph) (k : nat),
  euclidean p = true -> density p = true ->
  wf g -> free_names g (numnodes p) -> NoDup (dkeys (node_format p)) ->
  ~ In "locationx" (dkeys (node_format p)) -> ~ In "locationy" (dkeys (node_format p)) -> ~ In "pos" (dkeys (node_format p)) ->
  NoDup (dkeys (edge_format p)) -> (length_range p = None -> ~ In "cost" (dkeys (edge_format p))) ->
  exists h k' new nf, random o p (g, k) = ((h, k'), Ok tt) /\ euclid_nodes o p nf /\
    populated g h (numnodes p) nf (edge_format p) (add_labels p)
      (fun i j c => c = match length_range p with None => Some (plain o (loc_of (nf j)) (loc_of (nf i))) | Some _ => None end) new /\
    (parallel_allowed p = false -> no_reversed new).
Proof.
  intros o p g k He Hde W F Nn N1 N2 N3 Ne Hl.
  assert (NB := placed_nodes o p Nn N1 N2 N3).
  destruct (ok_ex (nodes_ok (body := place_node o p) (edge_format p) (add_labels p) (fun _ _ _ => True) k W F NB)) as ([h1 k1] & [] & E1 & nf & Hnf & P). cbn [fst] in P.
  set (CP := fun (i j : Z) (c : option Z) => c = match length_range p with None => Some (plain o (loc_of (nf j)) (loc_of (nf i))) | Some _ => None end).
  assert (P' : populated g h1 (numnodes p) nf (edge_format p) (add_labels p) CP []).
  { destruct P as [P1 P2 P3 P4 P5 P6 P7 P8]. constructor; auto. intros x y []. }
  set (edge_of := fun m j => match length_range p with
      | None => ln <- location j ;; lm <- location m ;; let len := plain o ln lm in add_cost_edge p m j len ;; if add_labels p then set_label m j len else ret tt
      | Some _ => ong (add_edge (NI m) (NI j) (edge_format p)) end).
  assert (Hedge : forall h k new i j, populated g h (numnodes p) nf (edge_format p) (add_labels p) CP new ->
     0 <= i < numnodes p -> 0 <= j < numnodes p -> i <> j -> check_edge h (NI i) (NI j) = false ->
     ok (edge_of i j) (h, k) (fun _ s => populated g (fst s) (numnodes p) nf (edge_format p) (add_labels p) CP (new ++ [(NI i, NI j)]))).
  { intros h k2 new i j Ph Hi Hj Hij Hc. unfold edge_of. destruct (length_range p) as [[lo hi]|] eqn:El.
    - apply ok_plain_edge; auto. unfold CP. reflexivity.
    - apply ok_bind, (ok_location Ph Hj), ok_bind, (ok_location Ph Hi). apply ok_cost_edge; auto. unfold CP. reflexivity. }
  destruct (ok_ex (ok_density o W F Hedge k1 P')) as ([h k'] & [] & Er & new & Q1 & Q2 & _). cbn [fst] in *.
  exists h, k', new, nf.
  assert (Er' : random o p (g, k) = ((h, k'), Ok tt)).
  { unfold random. rewrite He, Hde. cbn [negb]. rewrite (bind_ok _ E1). destruct (degree_range p) as [[d1 d2]|]; exact Er. }
  split; [exact Er'|]. split; [exact Hnf|]. split; [exact Q1|exact Q2].
Qed.
Print Assumptions C51_euclidean_density.

(** node_selection='random' reads an unbound variable *)
Theorem C51_euclidean_random_raises : forall (o : oracle) (p : params) (g : graph) (k : nat) (d1 d2 : Z),
  euclidean p = true -> degree_range p = Some (d1, d2) -> density p = false -> node_selection p = "random" ->
  wf g -> free_names g (numnodes p) -> NoDup (dkeys (node_format p)) ->
  ~ In "locationx" (dkeys (node_format p)) -> ~ In "locationy" (dkeys (node_format p)) -> ~ In "pos" (dkeys (node_format p)) ->
  1 <= d1 <= d2 -> 1 <= numnodes p ->
  exists s, random o p (g, k) = (s, Err NameError).
Proof.
  intros o p g k d1 d2 He Hdr Hde Hsel W F Nn N1 N2 N3 Hd Hn.
  assert (NB := placed_nodes o p Nn N1 N2 N3).
  destruct (ok_ex (nodes_ok (body := place_node o p) (edge_format p) (add_labels p) (fun _ _ _ => True) k W F NB)) as ([h1 k1] & [] & E1 & nf & Hnf & P).
  unfold random. rewrite He, Hdr, Hde. cbn [negb]. rewrite (bind_ok _ E1).
  assert (Hz : exists l, zrange (numnodes p) = 0 :: l).
  { unfold zrange. destruct (Z.to_nat (numnodes p)) eqn:En; [lia|]. eexists. reflexivity. }
  destruct Hz as [l Hz]. rewrite Hz. simpl. unfold euclid_degree_node. rewrite Hsel. change (eqb "random" "random") with true.
  assert (Hd12 : d1 <= d2) by lia. destruct (randint_eq o h1 k1 Hd12) as (d & Hdr' & Ed). unfold bind. rewrite Ed.
  destruct (Z.ltb_spec 0 d); [|lia]. eexists. reflexivity.
Qed.
Print Assumptions C51_euclidean_random_raises.

(** a name that is already taken, or an empty degree range, raises *)
Theorem C51_taken_name_raises : forall (o : oracle) (p : params) (g : graph) (k : nat) (i : Z),
  euclidean p = false -> wf g -> NoDup (dkeys (node_format p)) -> 0 <= i < numnodes p -> In (NI i) (get_node_list g) ->
  exists s, random o p (g, k) = (s, Err MultipleNodeException).
Proof.
  intros o p g k i He W Nn Hi Ht.
  destruct (@taken_raises (fun m => ong (add_node (NI m) (node_format p))) i) with (l := zrange (numnodes p)) (h := g) (k := k) as [s Es]; auto.
  - intros j k0. destruct (plain_nodes o p Nn j k0) as (kw & k' & _ & H1 & H2). eauto.
  - apply In_zrange. assumption.
  - exists s. unfold random. rewrite He. cbn [negb]. unfold bind at 1. rewrite Es. reflexivity.
Qed.
Print Assumptions C51_taken_name_raises.
Theorem C51_bad_degree_range_raises : forall (o : oracle) (p : params) (g : graph) (k : nat) (d1 d2 : Z),
  euclidean p = false -> degree_range p = Some (d1, d2) -> density p = false -> wf g -> free_names g (numnodes p) -> NoDup (dkeys (node_format p)) ->
  d2 < d1 -> 1 <= numnodes p -> exists s, random o p (g, k) = (s, Err ValueError).
Proof.
  intros o p g k d1 d2 He Hdr Hde W F Nn Hd Hn.
  destruct (ok_ex (nodes_ok (body := fun m => ong (add_node (NI m) (node_format p))) (edge_format p) (add_labels p) (fun _ _ _ => True) k W F (plain_nodes o p Nn))) as ([h1 k1] & [] & E1 & nf & Hnf & P).
  unfold random. rewrite He, Hdr, Hde. cbn [negb]. rewrite (bind_ok _ E1).
  assert (Hz : exists l, zrange (numnodes p) = 0 :: l).
  { unfold zrange. destruct (Z.to_nat (numnodes p)) eqn:En; [lia|]. eexists. reflexivity. }
  destruct Hz as [l Hz]. rewrite Hz. unfold forM_. simpl. unfold degree_node, bind, randint. destruct (Z.ltb_spec d2 d1); [|lia]. eexists. reflexivity.
Qed.
Print Assumptions C51_bad_degree_range_raises.

(* a stream: alternating small numbers *)
Definition exo : oracle := {| rnd := fun k => Z.of_nat (k * 7); coin := fun k => Nat.even (k / 2); coord := fun k => VI (Z.of_nat (k * 3 mod 7));
  scaled := fun a b => match a, b with (VI x, VI y), (VI x', VI y') => Z.abs (x - x') + Z.abs (y - y') | _, _ => 0 end;
  plain := fun a b => match a, b with (VI x, VI y), (VI x', VI y') => Z.abs (x - x') + Z.abs (y - y') | _, _ => 0 end;
  pos_str := fun _ _ => "pos" |}.
Definition exp : params := {| numnodes := 4; degree_range := Some (2, 4); length_range := Some (1, 10); density := false;
  edge_format := default_edge_format; node_format := default_node_format; euclidean := false; add_labels := true; parallel_allowed := false; node_selection := "closest" |}.

(** on an undirected graph parallel_allowed=True does not make the degree mode total *)
Theorem C51_undirected_parallel_refuted : exists (o : oracle) (p : params), euclidean p = false /\ degree_range p = Some (2, 4) /\ density p = false /\
  length_range p = Some (1, 10) /\ add_labels p = true /\ parallel_allowed p = true /\ 2 <= numnodes p /\
  snd (random o p (new_graph (Some Undirected) [], 0%nat)) = Err MultipleEdgeException.
Proof.
  exists {| rnd := fun k => Z.of_nat (k / 2); coin := fun k => true; coord := fun _ => VNone; scaled := fun _ _ => 0; plain := fun _ _ => 0; pos_str := fun _ _ => "" |}.
  exists {| numnodes := 4; degree_range := Some (2, 4); length_range := Some (1, 10); density := false;
    edge_format := default_edge_format; node_format := default_node_format; euclidean := false; add_labels := true; parallel_allowed := true; node_selection := "closest" |}.
  repeat (split; [reflexivity || (cbn; lia)|]). vm_compute. reflexivity.
Qed.
Print Assumptions C51_undirected_parallel_refuted.

Example C51_nonvacuous :
  free_names (new_graph None []) 4 /\ NoDup (dkeys default_edge_format) /\ NoDup (dkeys default_node_format) /\ ~ In "cost" (dkeys default_edge_format) /\
  ~ In "locationx" (dkeys default_node_format) /\ ~ In "locationy" (dkeys default_node_format) /\ ~ In "pos" (dkeys default_node_format) /\
  (let '((h, _), r) := random exo exp (new_graph (Some Directed) [], 0%nat) in r = Ok tt /\ get_edge_list h = [(NI 0, NI 2); (NI 0, NI 1); (NI 1, NI 2); (NI 2, NI 3); (NI 3, NI 1)]) /\
  (let '((h, _), r) := random exo {| numnodes := 4; degree_range := Some (2, 3); length_range := None; density := false; edge_format := default_edge_format;
      node_format := default_node_format; euclidean := true; add_labels := true; parallel_allowed := false; node_selection := "closest" |} (new_graph (Some Undirected) [], 0%nat) in
    r = Ok tt /\ length (get_edge_list h) = 6%nat) /\
  (let '((h, _), r) := random exo {| numnodes := 4; degree_range := None; length_range := Some (1, 3); density := true; edge_format := default_edge_format;
      node_format := default_node_format; euclidean := false; add_labels := true; parallel_allowed := false; node_selection := "closest" |} (new_graph (Some Undirected) [], 0%nat) in
    r = Ok tt /\ length (get_edge_list h) = 2%nat).
Proof.
  split; [intros i _ []|].
  split; [repeat constructor; simpl; intros H; repeat (destruct H as [H|H]; [discriminate|]); destruct H|].
  split; [repeat constructor; simpl; intros H; repeat (destruct H as [H|H]; [discriminate|]); destruct H|].
  do 4 (split; [simpl; intros H; repeat (destruct H as [H|H]; [discriminate|]); destruct H|]).
  split; [vm_compute; split; reflexivity|]. split; vm_compute; split; reflexivity.
Qed.
