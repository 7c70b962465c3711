(* Property theorem C23: Graph.label_strong_component labels the strongly connected components. *)
From Verif Require Import Py Util M_Graph P_Graph P_GraphLaws M_Search Spec P_Walk P_Attr P_Search M_Dfs P_Dfs P_Tarjan.
Local Open Scope string_scope. Local Open Scope list_scope.

Lemma obs_nl g x a : wf g -> In x (get_node_list g) -> obs (get_node_attr x a) g = Ok (nattr g x a).
Proof. intros W Hx. apply obs_nattr. rewrite (wf_nodes W). exact Hx. Qed.

Lemma label_strong_ok g fuel : wf g -> length (get_node_list g) <= fuel -> (forall x, In x (get_node_list g) -> obs (get_node_attr x "index") g = Ok VNone) ->
  exists h n k, label_strong_component fuel g = (h, Ok tt) /\ inv g [] n k [] h /\ forall x, In x (get_node_list g) -> vis h x.
Proof.
  intros W Hf Hi. assert (F : frame g (with_ncomp g (Some 0%Z))) by (constructor; try reflexivity; constructor; reflexivity).
  assert (H : ok (tarjan fuel) (with_ncomp g (Some 0%Z)) (fun _ h' => exists n k, inv g [] n k [] h' /\ forall x, In x (get_node_list g) -> vis h' x)).
  { apply (tarjan_ok W F); [reflexivity| |exact Hf]. intros x Hx. specialize (Hi x Hx). rewrite (obs_nl _ _ _ W Hx) in Hi. injection Hi as Hi. exact Hi. }
  destruct (ok_ex H) as (h & [] & E & n & k & I & V). exists h, n, k. split; [|auto]. unfold label_strong_component. erewrite bind_ok by reflexivity. exact E.
Qed.

Theorem C23_strong_components : forall g fuel, wf g -> length (get_node_list g) <= fuel -> (forall x, In x (get_node_list g) -> obs (get_node_attr x "index") g = Ok VNone) ->
  exists h k, label_strong_component fuel g = (h, Ok tt) /\ g_ncomp h = Some k /\
    (* the labels are 0 .. k-1, all of them used *)
    (forall x, In x (get_node_list g) -> exists c, obs (get_node_attr x "component") h = Ok (VI c) /\ (0 <= c < k)%Z) /\
    (forall c, (0 <= c < k)%Z -> exists x, In x (get_node_list g) /\ obs (get_node_attr x "component") h = Ok (VI c)) /\
    (* and tell exactly whether two nodes reach each other *)
    (forall x y, In x (get_node_list g) -> In y (get_node_list g) ->
       obs (get_node_attr x "component") h = obs (get_node_attr y "component") h <-> reach (arc g) x y /\ reach (arc g) y x) /\
    (* nothing else changes *)
    (forall x a, ~ In a ["index"; "lowlink"; "component"] -> obs (get_node_attr x a) h = obs (get_node_attr x a) g) /\
    get_node_list h = get_node_list g /\ get_edge_list h = get_edge_list g /\ (forall x, obs (get_neighbors x) h = obs (get_neighbors x) g) /\
    (forall x y a, obs (get_edge_attr x y a) h = obs (get_edge_attr x y a) g) /\ g_attr h = g_attr g.
Proof.
  intros g fuel W Hf Hi. destruct (label_strong_ok g fuel W Hf Hi) as (h & n & k & E & I & V). exists h, k. split; [exact E|]. split; [apply (in_nc I)|].
  pose proof (in_fr I) as F. pose proof (fr_shape F) as Sh. pose proof (ss_node_list Sh) as Nl. pose proof (ss_wf Sh W) as Wh.
  assert (O : forall x a, In x (get_node_list g) -> obs (get_node_attr x a) h = Ok (nattr h x a)) by (intros x a Hx; apply obs_nl; [exact Wh|rewrite Nl; exact Hx]).
  assert (D : forall x, In x (get_node_list g) -> done h [] x) by (intros x Hx; split; [apply V, Hx|intros []]).
  assert (Dn : forall x, vis h x -> In x (get_node_list g)).
  { intros x Hx. unfold vis, nattr in Hx. destruct (dget (g_nodes h) x) eqn:Ex; [|congruence]. apply dget_Some_keys in Ex. rewrite (wf_nodes Wh) in Ex. rewrite <- Nl. exact Ex. }
  split; [intros x Hx; rewrite (O _ _ Hx); destruct (in_comp I (D x Hx)) as (c & Ec & Hc); exists c; rewrite Ec; auto|].
  split; [intros c Hc; destruct (in_onto I Hc) as (x & [Hx _] & Ex); exists x; split; [apply Dn, Hx|]; rewrite (O _ _ (Dn x Hx)), Ex; reflexivity|].
  split; [intros x y Hx Hy; rewrite (O _ _ Hx), (O _ _ Hy); rewrite <- (in_same I (D x Hx) (D y Hy)); split; congruence|].
  split.
  { intros x a Ha. destruct (in_dec eq_dec x (get_node_list g)) as [Hx|Hx]; [rewrite (O _ _ Hx), (obs_nl _ _ _ W Hx), (fr_node F x Ha); reflexivity|].
    rewrite !obs_node_attr. assert (~ In x (dkeys (g_nodes g))) by (rewrite (wf_nodes W); exact Hx). assert (~ In x (dkeys (g_nodes h))) by (rewrite (ss_nodes Sh); assumption).
    rewrite (proj2 (dget_None (g_nodes h) x)), (proj2 (dget_None (g_nodes g) x)) by assumption. reflexivity. }
  split; [exact Nl|]. split; [apply (ss_edges Sh)|]. split; [intros x; rewrite !obs_neighbors, (ss_nbrs Sh); reflexivity|].
  split; [intros x y a; unfold obs, get_edge_attr; rewrite (ss_type Sh), (fr_edge F); reflexivity|apply (fr_attr F)].
Qed.
Print Assumptions C23_strong_components.

Definition exs : graph := history (new_graph (Some Directed) [])
  [OAddEdge (NI 1) (NI 2) []; OAddEdge (NI 2) (NI 3) []; OAddEdge (NI 3) (NI 1) []; OAddEdge (NI 3) (NI 4) []; OAddEdge (NI 4) (NI 5) []; OAddEdge (NI 5) (NI 4) []; OAddNode (NI 6) []].
Definition comps (g : graph) : list (res val) := map (fun x => obs (get_node_attr x "component") g) (get_node_list g).
Example C23_nonvacuous : wf exs /\ length (get_node_list exs) <= 6 /\ (forall x, In x (get_node_list exs) -> obs (get_node_attr x "index") exs = Ok VNone) /\
  get_node_list exs = [NI 1; NI 2; NI 3; NI 4; NI 5; NI 6] /\
  (let h := fst (label_strong_component 6 exs) in comps h = [Ok (VI 1); Ok (VI 1); Ok (VI 1); Ok (VI 0); Ok (VI 0); Ok (VI 2)] /\ g_ncomp h = Some 3%Z).
Proof.
  split; [refine (proj1 (wf_history (wf_new (Some Directed) []) _)); discriminate|]. split; [vm_compute; lia|]. split.
  { assert (H : forallb (fun x => match obs (get_node_attr x "index") exs with Ok VNone => true | _ => false end) (get_node_list exs) = true) by (vm_compute; reflexivity).
    intros x Hx. rewrite forallb_forall in H. specialize (H x Hx). destruct (obs _ _) as [[]|]; congruence. }
  repeat split; vm_compute; reflexivity.
Qed.

(* a second call finds every 'index' set: the labels stay, the number of components becomes 0 *)
Theorem C23_second_call : forall g fuel h fuel', wf g -> length (get_node_list g) <= fuel -> (forall x, In x (get_node_list g) -> obs (get_node_attr x "index") g = Ok VNone) ->
  label_strong_component fuel g = (h, Ok tt) ->
  exists h', label_strong_component fuel' h = (h', Ok tt) /\ g_ncomp h' = Some 0%Z /\ forall x a, obs (get_node_attr x a) h' = obs (get_node_attr x a) h.
Proof.
  intros g fuel h fuel' W Hf Hi E. destruct (label_strong_ok g fuel W Hf Hi) as (h1 & n & k & E1 & I & V). rewrite E in E1. injection E1 as <-.
  exists (with_ncomp h (Some 0%Z)). split; [|split; reflexivity]. unfold label_strong_component. erewrite bind_ok by reflexivity. unfold tarjan. erewrite bind_ok by reflexivity.
  pose proof (fr_shape (in_fr I)) as Sh. pose proof (ss_node_list Sh) as Nl. pose proof (ss_wf Sh W) as Wh.
  set (k0 := with_ncomp h (Some 0%Z)).
  assert (G : forall l, (forall x, In x l -> In x (get_node_list g)) -> foldM (fun (s : Z * Z * list name) n0 => let '(index, component, q) := s in i <- get_node_attr n0 "index" ;;
     if eqb i VNone then strong_connect fuel' q n0 index component else ret s) l (0%Z, 0%Z, []) k0 = (k0, Ok (0%Z, 0%Z, []))).
  { induction l as [|x l IH]; intros Hl; [reflexivity|]. cbn [foldM].
    assert (Ex : (i <- get_node_attr x "index" ;; if eqb i VNone then strong_connect fuel' [] x 0 0 else ret (0%Z, 0%Z, [])) k0 = (k0, Ok (0%Z, 0%Z, []))).
    { assert (Eg : get_node_attr x "index" k0 = (k0, Ok (nattr h x "index"))).
      { unfold get_node_attr, nattr. cbn [g_nodes k0 with_ncomp]. destruct (dget_exists (d := g_nodes h) (k := x)) as [d ->]; [|reflexivity]. rewrite (wf_nodes Wh). change (In x (get_node_list h)). rewrite Nl. apply Hl. left. reflexivity. }
      rewrite (bind_ok _ Eg). destruct (eqb_spec (nattr h x "index") VNone) as [K|K]; [exfalso; apply (V x (Hl x (or_introl eq_refl)) K)|reflexivity]. }
    rewrite (bind_ok _ Ex). apply IH. intros y Hy. apply Hl. right. exact Hy. }
  assert (Hk : forall x, In x (get_node_list k0) -> In x (get_node_list g)) by (intros x Hx; rewrite <- Nl; exact Hx).
  rewrite (bind_ok _ (G _ Hk)). reflexivity.
Qed.
Print Assumptions C23_second_call.
(* after a node is added, the next call numbers from 0 again: unrelated nodes get the same label *)
Theorem C23_incremental_refuted : exists g h, wf g /\ label_strong_component 2 g = (h, Ok tt) /\
  let h2 := fst (label_strong_component 3 (fst (add_node (NI 3) [] h))) in
  obs (get_node_attr (NI 1) "component") h2 = obs (get_node_attr (NI 3) "component") h2 /\ ~ reach (arc h2) (NI 1) (NI 3).
Proof.
  pose (g := history (new_graph (Some Directed) []) [OAddNode (NI 1) []; OAddNode (NI 2) []]).
  exists g, (fst (label_strong_component 2 g)). split; [refine (proj1 (wf_history (wf_new (Some Directed) []) _)); discriminate|]. split; [vm_compute; reflexivity|]. split; [vm_compute; reflexivity|].
  intros [p Hp]. inversion Hp as [|? b ? ? Hb _]; subst. unfold arc in Hb. revert Hb. generalize b. intros b' Hb.
  assert (E : get_edge_list (fst (label_strong_component 3 (fst (add_node (NI 3) [] (fst (label_strong_component 2 g)))))) = []) by (vm_compute; reflexivity).
  assert (D : g_type (fst (label_strong_component 3 (fst (add_node (NI 3) [] (fst (label_strong_component 2 g)))))) = Directed) by (vm_compute; reflexivity).
  revert E D Hb. generalize (fst (label_strong_component 3 (fst (add_node (NI 3) [] (fst (label_strong_component 2 g)))))). intros k E D Hb.
  unfold check_edge in Hb. rewrite D in Hb. apply dmem_In in Hb. unfold get_edge_list in E. rewrite E in Hb. destruct Hb.
Qed.
Print Assumptions C23_incremental_refuted.
