(* Property theorems C24 and C25: Kruskal's algorithm and DisjointSet.
   [conn F x y]: x and y are joined by a chain of pairs of F (S_Span.v). *)
From Verif Require Import Py Util M_Graph P_Graph P_Attr Spec P_Walk S_Span P_Span M_Kruskal S_Sets P_DisjointSet P_Sets P_Kruskal.
Local Open Scope string_scope. Local Open Scope list_scope.

(** C24 *)
Theorem C24_kruskal_mst : forall g opt kw fuel, wf g ->
  (forall x y, In (x, y) (get_edge_list g) -> exists z, obs (get_edge_attr x y "cost") g = Ok (VI z)) ->
  length (get_node_list g) <= fuel ->
  exists h T, kruskal fuel (new_ds opt kw) g = (h, Ok T) /\
    min_spanning_forest (fun e => edge_cost g (fst e) (snd e)) (get_edge_list g) T /\
    ((forall x y, In (x, y) (get_edge_list g) -> 0 <= edge_cost g x y)%Z -> min_connecting (fun e => edge_cost g (fst e) (snd e)) (get_edge_list g) T).
Proof.
  intros g opt kw fuel W Hc Hf.
  assert (Hc' : forall e, In e (get_edge_list g) -> eattr g (fst e) (snd e) "cost" = Some (VI (edge_cost g (fst e) (snd e)))).
  { intros [x y] He. destruct (Hc x y He) as [z Hz]. unfold eattr, edge_cost. simpl. rewrite Hz. reflexivity. }
  destruct (kruskal_ok W Hc' Hf opt kw) as (h & T & He & _ & H1 & H2). exists h, T. split; [exact He|]. split; [exact H1|].
  intros Hn. apply H2. intros [x y] Hxy. apply Hn. exact Hxy.
Qed.
Print Assumptions C24_kruskal_mst.
(* it only changes 'color' attributes of edges *)
Theorem C24_kruskal_frame : forall g opt kw fuel, wf g ->
  (forall x y, In (x, y) (get_edge_list g) -> exists z, obs (get_edge_attr x y "cost") g = Ok (VI z)) ->
  length (get_node_list g) <= fuel ->
  let h := fst (kruskal fuel (new_ds opt kw) g) in
  same_shape g h /\ (forall x y b v, b <> "color" -> (obs (get_edge_attr x y b) h = Ok v <-> obs (get_edge_attr x y b) g = Ok v)).
Proof.
  intros g opt kw fuel W Hc Hf h.
  assert (Hc' : forall e, In e (get_edge_list g) -> eattr g (fst e) (snd e) "cost" = Some (VI (edge_cost g (fst e) (snd e)))).
  { intros [x y] He. destruct (Hc x y He) as [z Hz]. unfold eattr, edge_cost. simpl. rewrite Hz. reflexivity. }
  destruct (kruskal_ok W Hc' Hf opt kw) as (h' & T & He & (S & _ & B & _) & _). unfold h. rewrite He. split; [exact S|].
  intros x y b v Hb. specialize (B x y b Hb). unfold eattr in B. cbn [fst].
  destruct (obs (get_edge_attr x y b) h'), (obs (get_edge_attr x y b) g); split; congruence.
Qed.
Print Assumptions C24_kruskal_frame.
Definition exk : graph := history (new_graph (Some Undirected) [])
  [OAddEdge (NI 1) (NI 2) [("cost", VI 4)]; OAddEdge (NI 2) (NI 3) [("cost", VI 1)]; OAddEdge (NI 3) (NI 1) [("cost", VI 2)];
   OAddEdge (NI 3) (NI 4) [("cost", VI (-2))]; OAddEdge (NI 4) (NI 4) [("cost", VI 0)]; OAddEdge (NI 5) (NI 6) [("cost", VI 2)]].
Example C24_nonvacuous : wf exk /\ (forall x y, In (x, y) (get_edge_list exk) -> exists z, obs (get_edge_attr x y "cost") exk = Ok (VI z)) /\
  obs (kruskal 6 (new_ds false [])) exk = Ok [(NI 3, NI 4); (NI 2, NI 3); (NI 3, NI 1); (NI 5, NI 6)] /\
  length (get_node_list exk) <= 6.
Proof.
  split; [refine (proj1 (wf_history (wf_new (Some Undirected) []) _)); reflexivity|]. split; [|split; [vm_compute; reflexivity|vm_compute; lia]].
  intros x y H. vm_compute in H. repeat (destruct H as [[= <- <-]|H]; [eexists; vm_compute; reflexivity|]). destruct H.
Qed.

(** C25 *)
Theorem C25_union_find : forall opt kw os fuel, NoDup (ditems os) -> length (ditems os) < fuel ->
  let d := dhistory fuel (new_ds opt kw) os in
  (forall i, In i (ditems os) -> exists d' r, ds_find fuel i d = (d', Ok r) /\ In r (ditems os)) /\
  (forall i, ~ In i (ditems os) -> ds_find fuel i d = (d, Err KeyError)) /\
  (forall i j, In i (ditems os) -> In j (ditems os) ->
     (snd (ds_find fuel i d) = snd (ds_find fuel j d) <-> conn (djoined [] os) i j)) /\
  (forall i j, In i (ditems os) -> In j (ditems os) ->
     exists d' b, ds_union fuel i j d = (d', Ok b) /\ (b = true <-> ~ conn (djoined [] os) i j)) /\
  get_node_list (ds_g d) = ditems os.
Proof. exact sets_ok. Qed.
Print Assumptions C25_union_find.
Definition ex_sets : list dop := [DAdd [NI 1; NI 2]; DAdd [NI 3]; DUnion (NI 2) (NI 9); DAdd [NI 4; NI 5; NI 6]; DUnion (NI 3) (NI 6); DFind (NI 3); DUnion (NI 2) (NI 5); DFind (NI 7)].
Example C25_nonvacuous : NoDup (ditems ex_sets) /\ length (ditems ex_sets) < 7 /\
  (let d := dhistory 7 (new_ds true []) ex_sets in snd (ds_find 7 (NI 1) d) = Ok (NI 4) /\ snd (ds_find 7 (NI 3) d) = Ok (NI 4) /\ get_edge_list (ds_g d) = [(NI 2, NI 1); (NI 5, NI 4); (NI 6, NI 4); (NI 3, NI 4); (NI 1, NI 4)]) /\
  djoined [] ex_sets = [(NI 2, NI 1); (NI 5, NI 4); (NI 6, NI 4); (NI 3, NI 6); (NI 2, NI 5)].
Proof.
  split; [|vm_compute; repeat split; lia]. vm_compute.
  repeat (constructor; [intros H; repeat (destruct H as [H|H]; [discriminate|]); destruct H|]). constructor.
Qed.
(* adding an item that is already below another one does not join it, and adding a list that repeats its first item makes find loop forever *)
Definition ds_loops (fuel : nat) := snd (ds_find fuel (NI 1) (dhistory fuel (new_ds true []) [DAdd [NI 1; NI 1]])).
Theorem C25_reused_item_refuted : exists os i j, conn (djoined [] os) i j /\ In i (ditems os) /\ In j (ditems os) /\
  forall fuel, length (ditems os) < fuel -> let d := dhistory fuel (new_ds true []) os in snd (ds_find fuel i d) <> snd (ds_find fuel j d).
Proof.
  exists [DAdd [NI 1]; DAdd [NI 2]; DUnion (NI 1) (NI 2); DAdd [NI 3; NI 1]], (NI 1), (NI 3).
  split; [|split; [simpl; auto|split; [simpl; auto|]]].
  - apply conn_edge. vm_compute. auto.
  - intros fuel Hf. vm_compute in Hf. do 5 (destruct fuel as [|fuel]; [lia|]). vm_compute. discriminate.
Qed.
Print Assumptions C25_reused_item_refuted.
Theorem C25_repeated_item_refuted : forall fuel, ds_loops fuel = Err OutOfFuel.
Proof.
  intros fuel. unfold ds_loops. set (d := dhistory fuel (new_ds true []) [DAdd [NI 1; NI 1]]).
  assert (Hd : ong (get_neighbors (NI 1)) d = (d, Ok [NI 1])) by (vm_compute; reflexivity). clearbody d.
  unfold ds_find. assert (Hl : ds_climb fuel (NI 1) d = (d, Err OutOfFuel)).
  { unfold ds_climb. match goal with |- loop _ ?b (_, ?a) _ = _ => assert (HL : forall acc, loop fuel b (NI 1, acc) d = (d, Err OutOfFuel)); [|apply HL] end.
    induction fuel as [|f IH]; intros acc; [reflexivity|]. cbn [loop]. cbv beta iota.
    erewrite bind_ok; [|erewrite bind_ok by exact Hd; reflexivity]. cbv beta iota. apply IH. }
  erewrite bind_err by exact Hl. reflexivity.
Qed.
Print Assumptions C25_repeated_item_refuted.
