(* Property theorems C20-C22 and C50: Graph.dfs, acyclic_shortest_path and hamiltonian.
   [fuel] stands for the recursion depth Python allows; enough of it never leads to OutOfFuel. *)
From Verif Require Import Py Util M_Graph P_Graph P_GraphLaws M_Search Spec P_Walk P_Attr P_Search M_Flow P_EdgeFrame P_Floyd M_Dfs P_Dfs P_Asp.
Local Open Scope string_scope. Local Open Scope list_scope.

(* dfs looks at this attribute to decide whether a node was visited already *)
Definition mark (transpose : bool) : string := if transpose then "component" else "disc_time".
(* get_node(x).get_attr(...) of that attribute is None *)
Definition unmarked (g : graph) (transpose : bool) (x : name) : Prop := obs (get_node_attr x (mark transpose)) g = Ok VNone.

Lemma sarc_arc g x y : sarc g false x y <-> arc g x y.
Proof. unfold sarc. destruct (g_type g); reflexivity. Qed.
Lemma obs_nl g x a : wf g -> In x (get_node_list g) -> obs (get_node_attr x a) g = Ok (nattr g x a).
Proof. intros W Hx. apply obs_nattr. rewrite (wf_nodes W). exact Hx. Qed.
Lemma obs_same g h x a : same_shape g h -> nattr h x a = nattr g x a -> obs (get_node_attr x a) h = obs (get_node_attr x a) g.
Proof.
  intros S H. rewrite !obs_node_attr. unfold nattr in H. destruct (dget (g_nodes h) x) eqn:E1, (dget (g_nodes g) x) eqn:E2; try congruence.
  - exfalso. apply dget_None in E2. apply dget_Some_keys in E1. rewrite (ss_nodes S) in E1. contradiction.
  - exfalso. apply dget_None in E1. apply dget_Some_keys in E2. rewrite <- (ss_nodes S) in E2. contradiction.
Qed.
Lemma eattr_same g h x y b z : eattr h x y b = eattr g x y b -> obs (get_edge_attr x y b) h = Ok z <-> obs (get_edge_attr x y b) g = Ok z.
Proof. unfold eattr. intros H. destruct (obs (get_edge_attr x y b) h), (obs (get_edge_attr x y b) g); split; congruence. Qed.
Lemma walk_nl g tr x p y : wf g -> In x (get_node_list g) -> walk (sarc g tr) x p y -> In y (get_node_list g).
Proof. intros W Hx Hw. apply (reach_closed (P := fun n => In n (get_node_list g)) Hx (b := y) (E := sarc g tr)); [intros a b _ E; apply (sarc_V W E)|exists p; exact Hw]. Qed.

(** C20 *)
Theorem C20_dfs : forall g root d f component transpose display pred topo fuel,
  wf g -> In root (get_node_list g) -> length (get_node_list g) <= fuel ->
  (display = None -> dget (g_attr g) "display" <> None) -> (forall x p, pred_arc pred p x -> arc g p x) ->
  (transpose = true -> component <> VNone /\ forall x, In x (get_node_list g) -> exists z, obs (get_node_attr x "finish_time") g = Ok (VI z)) ->
  exists h V F pred',
    dfs fuel root d f component transpose display (pred, topo) g =
      (h, Ok ((d + Z.of_nat (length V))%Z, (f + Z.of_nat (length V))%Z, (pred', option_map (app (rev F)) topo))) /\
    (* visited nodes: in order of discovery V, in order of finishing F *)
    NoDup V /\ Permutation V F /\ (exists V', V = root :: V') /\ (exists F', F = F' ++ [root]) /\
    (forall x, In x V <-> exists p, walk (sarc g transpose) root p x /\ forall y, In y (tl p) -> unmarked g transpose y) /\
    (* what is stored at them *)
    (forall k x, nth_error V k = Some x -> obs (get_node_attr x "disc_time") h = Ok (VI (d + 1 + Z.of_nat k))) /\
    (forall k x, nth_error F k = Some x -> obs (get_node_attr x "finish_time") h = Ok (VI (f + Z.of_nat k))) /\
    (forall x, In x V -> obs (get_node_attr x "component") h = Ok component /\ obs (get_node_attr x "color") h = Ok (VS "green")) /\
    (* and nothing else changes *)
    (forall x a, ~ In x V -> obs (get_node_attr x a) h = obs (get_node_attr x a) g) /\
    (forall x a, ~ In a ["component"; "disc_time"; "label"; "color"; "finish_time"] -> obs (get_node_attr x a) h = obs (get_node_attr x a) g) /\
    (forall x y a z, a <> "color" -> obs (get_edge_attr x y a) h = Ok z <-> obs (get_edge_attr x y a) g = Ok z) /\
    get_node_list h = get_node_list g /\ get_edge_list h = get_edge_list g /\
    (forall x, obs (get_neighbors x) h = obs (get_neighbors x) g) /\
    g_attr h = match display with None => g_attr g | Some v => dset (g_attr g) "display" v end.
Proof.
  intros g root d f component transpose display pred topo fuel W Hr Hf Hd Hp Ht.
  set (g1 := match display with None => g | Some v => with_attr g (dset (g_attr g) "display" v) end).
  assert (E0 : dfs fuel root d f component transpose display (pred, topo) g = dfs fuel root d f component transpose None (pred, topo) g1).
  { destruct display as [v|]; [|reflexivity]. destruct fuel as [|fuel]; [destruct (get_node_list g); [destruct Hr|simpl in Hf; lia]|]. cbn [dfs]. unfold g1.
    assert (K : enter_display None (with_attr g (dset (g_attr g) "display" v)) = (with_attr g (dset (g_attr g) "display" v), Ok tt)).
    { unfold enter_display, bind, gets, lift. simpl. rewrite dget_dset_eq. reflexivity. }
    rewrite (bind_ok _ K). erewrite bind_ok by reflexivity. reflexivity. }
  assert (S1 : same_shape g g1) by (unfold g1; destruct display; constructor; reflexivity).
  assert (N1 : forall x a, nattr g1 x a = nattr g x a) by (intros; unfold g1; destruct display; reflexivity).
  assert (D1 : forall x y b, eattr g1 x y b = eattr g x y b) by (intros; unfold g1; destruct display; reflexivity).
  assert (G : good g transpose g1).
  { constructor; [exact S1| |].
    - unfold g1. destruct display as [v|]; [simpl; rewrite dget_dset_eq; discriminate|apply Hd; reflexivity].
    - intros Et x Hx. destruct (Ht Et) as [_ K]. destruct (K x Hx) as [z Hz]. rewrite (obs_nl _ _ _ W Hx) in Hz. exists z. rewrite N1. congruence. }
  assert (Hu : forall x, In x (get_node_list g) -> unmarked g transpose x <-> fresh transpose g1 x).
  { intros x Hx. unfold unmarked, fresh. rewrite (obs_nl _ _ _ W Hx), N1. unfold mark. split; congruence. }
  pose proof (dfs_ok (g := g) W (component := component) (tr := transpose) (fun E => proj1 (Ht E)) (fuel := fuel) (root := root) d f (pred := pred) topo (h := g1)
    (U := remove eq_dec root (get_node_list g)) G Hr Hp) as H.
  destruct (ok_ex (H (fun x Hx _ Hne => in_in_remove eq_dec _ Hne Hx) (Nat.lt_le_trans _ _ _ (remove_length_lt eq_dec _ _ Hr) Hf))) as (h & s & E & Vs & Fs & Vi & Sp & Cl & Fr & pred' & Pp & ->).
  rewrite E0, E. exists h, (root :: Vs), (Fs ++ [root]), pred'. split; [reflexivity|]. pose proof (ss_trans S1 (vi_shape Vi)) as Sh. pose proof (ss_wf Sh W) as Wh. pose proof (ss_node_list Sh) as Nl.
  assert (Vn : forall x, In x (root :: Vs) -> In x (get_node_list g)).
  { intros x [<-|Hx]; [exact Hr|]. destruct (sp_from Sp Hx) as (r & p & R1 & R2 & _). apply (walk_nl g transpose root (root :: p) x W Hr). apply (walk_step R1 R2). }
  split; [apply (vi_nd Vi)|]. split; [apply (vi_perm Vi)|]. split; [exists Vs; reflexivity|]. split; [exists Fs; reflexivity|]. split.
  { intros x. split.
    - intros [<-|Hx]; [exists [root]; split; [constructor|intros y []]|]. destruct (sp_from Sp Hx) as (r & p & R1 & R2 & R3). exists (root :: p). split; [apply (walk_step R1 R2)|].
      intros y Hy. simpl in Hy. destruct (proj1 (walk_in_reach R2 Hy)) as [q Hq]. apply Hu; [|apply (R3 y Hy)]. apply (walk_nl g transpose root (root :: q) y W Hr (walk_step R1 Hq)).
    - intros (p & Hw & Hm). destruct (walk_hd Hw) as [t ->]. simpl in Hm.
      assert (K : forall a t, walk (sarc g transpose) a (a :: t) x -> In a (root :: Vs) -> (forall y, In y t -> unmarked g transpose y) -> In x (root :: Vs)).
      { clear t Hw Hm. intros a t. revert a. induction t as [|b t IH]; intros a Hw Ha Hm; [inversion Hw as [|? ? ? ? _ K0]; subst; [exact Ha|inversion K0]|].
        inversion Hw as [|? b' ? ? Hab Hw']; subst. destruct (walk_hd Hw') as [t' [= <- <-]]. apply (IH b Hw'); [|intros y Hy; apply Hm; right; exact Hy].
        assert (Hb : fresh transpose g1 b) by (apply Hu; [apply (sarc_V W Hab)|apply Hm; left; reflexivity]).
        destruct (eq_dec b root) as [->|Hne]; [left; reflexivity|]. right. destruct Ha as [<-|Ha].
        - destruct (Cl b Hab) as [?|K]; [assumption|tauto].
        - destruct (sp_closed Sp Ha Hab) as [?|K]; [assumption|tauto]. }
      apply (K root t Hw (or_introl eq_refl) Hm). }
  assert (On : forall x a, In x (root :: Vs) -> obs (get_node_attr x a) h = Ok (nattr h x a)) by (intros x a Hx; apply obs_nl; [exact Wh|rewrite Nl; apply Vn, Hx]).
  split; [intros k x Hk; rewrite On by (apply (nth_error_In _ _ Hk)); f_equal; apply (vi_disc Vi Hk)|].
  split; [intros k x Hk; rewrite On by (apply (Permutation_in _ (Permutation_sym (vi_perm Vi))), (nth_error_In _ _ Hk)); f_equal; apply (vi_fin Vi Hk)|].
  split; [intros x Hx; rewrite !On by exact Hx; split; f_equal; [apply (vi_comp Vi Hx)|apply (vi_color Vi Hx)]|].
  split; [intros x a Hx; apply (obs_same _ _ _ _ Sh); rewrite (vi_out Vi) by exact Hx; apply N1|].
  split; [intros x a Ha; apply (obs_same _ _ _ _ Sh); rewrite (vi_keep Vi) by exact Ha; apply N1|].
  split; [intros x y a z Ha; apply eattr_same; rewrite (vi_edges Vi) by exact Ha; apply D1|].
  split; [exact Nl|]. split; [apply (ss_edges Sh)|]. split; [intros x; rewrite !obs_neighbors, (ss_nbrs Sh); reflexivity|].
  rewrite (vi_attr Vi). unfold g1. destruct display; reflexivity.
Qed.
Print Assumptions C20_dfs.

Definition exd : graph := history (new_graph (Some Directed) [])
  [OAddEdge (NI 1) (NI 2) [("cost", VI 4)]; OAddEdge (NI 1) (NI 3) [("cost", VI 1)]; OAddEdge (NI 3) (NI 2) [("cost", VI (-2))]; OAddEdge (NI 2) (NI 4) [("cost", VI 3)];
   OAddEdge (NI 4) (NI 1) [("cost", VI 1)]; OAddEdge (NI 5) (NI 1) []].
Lemma exd_wf : wf exd.
Proof. refine (proj1 (wf_history (wf_new (Some Directed) []) _)). discriminate. Qed.
Definition counters {A} (r : graph * res (Z * Z * A)) : option (Z * Z) := match snd r with Ok (d, f, _) => Some (d, f) | Err _ => None end.
(* a fresh call visits the four nodes reachable from 1; a second call finds every disc_time set and visits its root only;
   with the finish times in place, the transposed call visits 1 and the nodes that reach it *)
Example C20_nonvacuous : wf exd /\ In (NI 1) (get_node_list exd) /\ length (get_node_list exd) <= 5 /\ dget (g_attr exd) "display" <> None /\
  (let r := dfs 5 (NI 1) 0 1 VNone false None ([], Some []) exd in
   counters r = Some (4%Z, 5%Z) /\ obs (get_node_attr (NI 3) "disc_time") (fst r) = Ok (VI 4) /\ obs (get_node_attr (NI 5) "disc_time") (fst r) = Ok VNone /\
   counters (dfs 5 (NI 1) 0 1 VNone false None ([], None) (fst r)) = Some (1%Z, 2%Z) /\
   let r2 := dfs 5 (NI 5) 4 5 VNone false None ([], None) (fst r) in
   counters (dfs 5 (NI 1) 0 1 (VI 0) true None ([], None) (fst r2)) = Some (5%Z, 6%Z)).
Proof. split; [apply exd_wf|]. split; [vm_compute; auto|]. split; [vm_compute; lia|]. split; [vm_compute; discriminate|]. repeat split; vm_compute; reflexivity. Qed.

(* transpose=True with the default component=None: nodes are never marked, so from a node on a cycle the call never returns *)
Section Diverge.
  Variable g : graph.
  Hypothesis W : wf g.
  Variable C : name -> Prop.
  Hypothesis Cy : forall x, C x -> exists y, C y /\ sarc g true x y.
  Definition inv (h : graph) : Prop := same_shape g h /\ forall x, C x -> nattr h x "component" = VNone.
  Lemma whenok_set h n a v (Q : unit -> graph -> Prop) : (forall h', same_shape h h' -> (forall x b, nattr h' x b = if eq_dec (x, b) (n, a) then v else nattr h x b) -> Q tt h') ->
    whenok (set_node_attr n a v) h Q.
  Proof.
    intros H. destruct (In_dec eq_dec n (dkeys (g_nodes h))) as [Hn|Hn].
    - apply ok_whenok. apply ok_set_node_attr; [exact Hn|]. intros h' S N _ _ _ _. apply H; assumption.
    - apply whenok_intro. intros r h' E. exfalso. unfold set_node_attr in E. rewrite (proj2 (dget_None _ _) Hn) in E. discriminate.
  Qed.
  Lemma whenok_get h n a (Q : val -> graph -> Prop) : Q (nattr h n a) h -> whenok (get_node_attr n a) h Q.
  Proof.
    intros H. apply whenok_intro. intros r h' E. unfold get_node_attr in E. unfold nattr in H. destruct (dget (g_nodes h) n); [|discriminate]. injection E as <- <-. exact H.
  Qed.
  Lemma whenok_mapM {A B} (f : A -> M graph B) h l (P : list A -> list B -> Prop) : P [] [] -> (forall pre x bs, P pre bs -> whenok (f x) h (fun b h' => h' = h /\ P (pre ++ [x]) (bs ++ [b]))) ->
    whenok (mapM f l) h (fun bs h' => h' = h /\ P l bs).
  Proof.
    intros H0 H1. unfold mapM. apply whenok_foldM with (I := fun pre bs h' => h' = h /\ P pre bs); [auto| |auto].
    intros pre x post bs h' _ [-> HP]. apply whenok_bind. eapply whenok_weaken; [apply (H1 pre x bs HP)|]. intros b h' [-> HP']. apply whenok_ret. auto.
  Qed.
  Lemma whenok_by_finish h l : whenok (by_finish l) h (fun l' h' => h' = h /\ Permutation l l').
  Proof.
    unfold by_finish. apply whenok_bind. eapply whenok_weaken; [apply (whenok_mapM _ h l (fun pre bs => map fst bs = pre))|].
    - reflexivity.
    - intros pre x bs <-. apply whenok_bind, whenok_get, whenok_ret. split; [reflexivity|]. rewrite map_app. reflexivity.
    - intros ft h' [-> <-]. destruct ft as [|a [|b ft]]; [apply whenok_ret; split; [reflexivity|apply Permutation_refl]|apply whenok_ret; split; [reflexivity|apply Permutation_refl]|].
      apply whenok_bind. eapply whenok_weaken; [apply (whenok_mapM _ h (a :: b :: ft) (fun pre bs => map fst bs = map fst pre))|].
      + reflexivity.
      + intros pre x bs Eb. apply whenok_bind, whenok_intro. intros z h' Ez. unfold as_int in Ez. destruct (snd x); try discriminate. injection Ez as <- <-. apply whenok_ret. split; [reflexivity|]. rewrite !map_app, Eb. reflexivity.
      + intros ts h' [-> Et]. apply whenok_ret. split; [reflexivity|]. rewrite <- Et. etransitivity; [|apply Permutation_rev]. apply Permutation_map. symmetry. apply sort_times_perm.
  Qed.
  Lemma diverge fuel : forall root d f topo h, inv h ->
    whenok (dfs fuel root d f VNone true None ([], topo)) h (fun s h' => inv h' /\ fst (snd s) = [] /\ ~ C root).
  Proof.
    induction fuel as [|fuel IH]; intros root d f topo h I0; [apply whenok_fail|]. cbn [dfs].
    assert (Upd : forall h1 h2 n a v, inv h1 -> same_shape h1 h2 -> (forall x b, nattr h2 x b = if eq_dec (x, b) (n, a) then v else nattr h1 x b) -> a <> "component" \/ v = VNone -> inv h2).
    { intros h1 h2 n a v [S1 I1] S2 N2 Hav. split; [apply (ss_trans S1 S2)|]. intros x Hx. rewrite N2. destruct eq_dec as [[= -> <-]|]; [destruct Hav; congruence|apply I1, Hx]. }
    apply whenok_bind, whenok_intro. intros u h' Eu. assert (h' = h) as ->.
    { unfold enter_display, bind, gets, lift in Eu. cbn in Eu. destruct (dget (g_attr h) "display"); [injection Eu as <- _; reflexivity|discriminate]. } clear Eu.
    apply whenok_bind, whenok_intro. intros t h' Et. injection Et as <- <-.
    apply whenok_bind, whenok_set. intros h1 S1 N1. assert (I1 : inv h1) by (apply (Upd h h1 _ _ _ I0 S1 N1); auto).
    apply whenok_bind, whenok_set. intros h2 S2 N2. assert (I2 : inv h2) by (apply (Upd _ _ _ _ _ I1 S2 N2); left; discriminate).
    apply whenok_bind, whenok_set. intros h3 S3 N3. assert (I3 : inv h3) by (apply (Upd _ _ _ _ _ I2 S3 N3); left; discriminate).
    apply whenok_bind, whenok_set. intros h4 S4 N4. assert (I4 : inv h4) by (apply (Upd _ _ _ _ _ I3 S4 N4); left; discriminate).
    clear h1 S1 N1 I1 h2 S2 N2 I2 h3 S3 N3 I3 S4 N4. cbn [dget]. apply whenok_bind, whenok_ret. apply whenok_bind.
    assert (Et : g_type h4 = g_type g) by apply (ss_type (proj1 I4)). assert (Eh : g_type h = g_type g) by apply (ss_type (proj1 I0)).
    apply whenok_weaken with (Q := fun l h' => h' = h4 /\ forall y, sarc g true root y -> In y l).
    { apply whenok_intro. intros l h' El. assert (K : In root (get_node_list g) -> h' = h4 /\ l = list_at (nbd g true) root).
      { intros Hr. unfold nbd. rewrite Eh in El. destruct (g_type g) eqn:Tg.
        - unfold in_list, in_dict, bind, lift in El. rewrite Et in El. rewrite (ss_in (proj1 I4)) in El. unfold list_at. destruct (dget (g_in g) root); [|discriminate]. injection El as <- <-. auto.
        - unfold nbr_list in El. rewrite (ss_nbrs (proj1 I4)) in El. unfold list_at. destruct (dget (g_nbrs g) root); [|discriminate]. injection El as <- <-. auto. }
      destruct (In_dec eq_dec root (get_node_list g)) as [Hr|Hr].
      - destruct (K Hr) as [-> ->]. split; [reflexivity|]. intros y. apply nbd_sarc, W.
      - split; [|intros y Hy; exfalso; apply Hr, (sarc_V W Hy)].
        assert (Fi : forall n k, fst (in_list n k) = k).
        { intros n k. unfold in_list, in_dict, bind. destruct (g_type k); [|reflexivity]. unfold lift. destruct (dget _ n); reflexivity. }
        destruct (g_type h); [specialize (Fi root h4); rewrite El in Fi; exact Fi|]. unfold nbr_list in El. injection El as <- _. reflexivity. }
    intros l h' [-> Hl]. apply whenok_bind. eapply whenok_weaken; [apply whenok_by_finish|]. intros l' h' [-> Pl]. apply whenok_bind.
    apply whenok_weaken with (Q := fun s h' => inv h' /\ fst (snd s) = [] /\ forall x, In x l' -> ~ C x).
    { apply whenok_foldM with (I := fun pre s h' => inv h' /\ fst (snd s) = [] /\ forall x, In x pre -> ~ C x).
      - split; [exact I4|]. split; [reflexivity|intros x []].
      - intros pre i post [[d' f'] [pred' topo']] h' _ (Ih & Ep & Hpre). cbn [fst snd] in Ep. subst pred'. apply whenok_bind, whenok_get.
        destruct (eqb_spec (nattr h' i "component") VNone) as [En|En].
        + eapply whenok_weaken; [apply (IH i d' f' topo' h' Ih)|]. intros s h'' (J1 & J2 & J3). split; [exact J1|]. split; [exact J2|]. intros x Hx. apply in_app_iff in Hx as [Hx|[<-|[]]]; auto.
        + apply whenok_ret. split; [exact Ih|]. split; [reflexivity|]. intros x Hx. apply in_app_iff in Hx as [Hx|[<-|[]]]; [auto|]. intros Ci. apply En, (proj2 Ih), Ci.
      - auto. }
    intros [[d' f'] [pred' topo']] h' (Ih & Ep & Hno). cbn [fst snd] in Ep. subst pred'.
    apply whenok_bind, whenok_set. intros h5 S5 N5. assert (I5 : inv h5) by (apply (Upd _ _ _ _ _ Ih S5 N5); left; discriminate).
    apply whenok_bind, whenok_get. apply whenok_bind, whenok_set. intros h6 S6 N6. assert (I6 : inv h6) by (apply (Upd _ _ _ _ _ I5 S6 N6); left; discriminate).
    apply whenok_bind, whenok_set. intros h7 S7 N7. assert (I7 : inv h7) by (apply (Upd _ _ _ _ _ I6 S7 N7); left; discriminate).
    apply whenok_ret. split; [exact I7|]. split; [reflexivity|]. intros Hc. destruct (Cy root Hc) as (y & Hy & Hs). apply (Hno y); [|exact Hy]. apply (Permutation_in _ Pl), Hl, Hs.
  Qed.
End Diverge.
Theorem C20_transpose_diverges : forall g root b p d f topo, wf g -> sarc g true root b -> walk (sarc g true) b p root -> (forall x, In x p -> unmarked g true x) ->
  forall fuel s h, dfs fuel root d f VNone true None ([], topo) g <> (h, Ok s).
Proof.
  intros g root b p d f topo W Hb Hp Hu fuel s h E. pose (C := fun x => In x p).
  assert (Hn : forall x, C x -> In x (get_node_list g)).
  { intros x Hx. destruct (proj1 (walk_in_reach Hp Hx)) as [q Hq]. apply (walk_nl g true b q x W); [apply (sarc_V W Hb)|exact Hq]. }
  assert (Cy : forall x, C x -> exists y, C y /\ sarc g true x y).
  { intros x Hx. unfold C in Hx. apply in_split in Hx as (l1 & l2 & ->). pose proof (walk_suffix Hp) as Hw. inversion Hw as [|? y ? ? Exy Hw']; subst.
    - exists b. split; [|exact Hb]. unfold C. destruct (walk_hd Hp) as [t ->]. left. reflexivity.
    - exists y. split; [|exact Exy]. unfold C. destruct (walk_hd Hw') as [t ->]. rewrite in_app_iff. simpl. auto. }
  assert (I0 : inv g C g).
  { split; [apply ss_refl|]. intros x Hx. specialize (Hu x Hx). unfold unmarked in Hu. rewrite (obs_nl _ _ _ W (Hn x Hx)) in Hu. unfold mark in Hu. congruence. }
  destruct (whenok_elim (diverge g W C Cy fuel root d f topo g I0) E) as (_ & _ & K). apply K. unfold C. destruct (walk_snoc_form Hp) as [q ->]. apply in_app_iff. simpl. auto.
Qed.
Print Assumptions C20_transpose_diverges.
Example C20_transpose_nonvacuous : sarc exd true (NI 1) (NI 4) /\ walk (sarc exd true) (NI 4) [NI 4; NI 2; NI 1] (NI 1) /\ (forall x, In x [NI 4; NI 2; NI 1] -> unmarked exd true x).
Proof.
  split; [vm_compute; reflexivity|]. split.
  - apply walk_step with (b := NI 2); [vm_compute; reflexivity|]. apply walk_step with (b := NI 1); [vm_compute; reflexivity|]. constructor.
  - intros x [<-|[<-|[<-|[]]]]; vm_compute; reflexivity.
Qed.

(** C21 *)
(* what both C21 and C22 use *)
Lemma topo_ok g root d f component pred fuel : wf g -> g_type g = Directed -> In root (get_node_list g) -> length (get_node_list g) <= fuel -> dget (g_attr g) "display" <> None ->
  pred_ok g pred -> (forall x y, reach (arc g) root x -> arc g x y -> ~ reach (arc g) y x) -> (forall x, reach (arc g) root x -> nattr g x "disc_time" = VNone) ->
  exists h c1 c2 pred' rest, dfs fuel root d f component false None (pred, Some []) g = (h, Ok (c1, c2, (pred', Some (root :: rest)))) /\
    NoDup (root :: rest) /\ (forall x, In x (root :: rest) <-> reach (arc g) root x) /\
    (forall x y, reach (arc g) root x -> arc g x y -> before (root :: rest) x y) /\
    same_shape g h /\ (forall x y, eattr h x y "cost" = eattr g x y "cost") /\ g_attr h = g_attr g /\ (forall x, In x (root :: rest) -> nattr h x "disc_time" <> VNone).
Proof.
  intros W Dir Hr Hf Hd Hp Ac Hu.
  assert (Ra : forall x y, reach (sarc g false) x y <-> reach (arc g) x y) by (intros x y; apply reach_iff; intros; apply sarc_arc).
  assert (G : good g false g) by (constructor; [apply ss_refl|exact Hd|discriminate]).
  pose proof (dfs_ok (g := g) W (component := component) (tr := false) (fun E => match Bool.diff_false_true E with end) (fuel := fuel) (root := root) d f (pred := pred) (Some []) (h := g)
    (U := remove eq_dec root (get_node_list g)) G Hr Hp) as H.
  destruct (ok_ex (H (fun x Hx _ Hne => in_in_remove eq_dec _ Hne Hx) (Nat.lt_le_trans _ _ _ (remove_length_lt eq_dec _ _ Hr) Hf))) as (h & s & E & Vs & Fs & Vi & Sp & Cl & Fr & pred' & Pp & ->).
  assert (ER : option_map (app (rev (Fs ++ [root]))) (Some []) = Some (root :: rev Fs)) by (simpl; rewrite app_nil_r, rev_app_distr; reflexivity).
  rewrite ER in E. do 5 eexists. split; [exact E|]. clear E ER H.
  assert (Pm : Permutation (root :: Vs) (root :: rev Fs)).
  { apply perm_skip. etransitivity; [|apply Permutation_rev]. pose proof (vi_perm Vi) as P0. apply (Permutation_cons_inv (a := root)). rewrite P0. symmetry. apply Permutation_cons_append. }
  assert (Fr' : forall y, reach (arc g) root y -> fresh false g y) by (intros y Hy; apply (Hu y Hy)).
  assert (InV : forall x, In x (root :: Vs) <-> reach (arc g) root x).
  { intros x. split.
    - intros [<-|Hx]; [apply reach_refl|]. destruct (sp_from Sp Hx) as (r & p & R1 & R2 & _). apply Ra. exists (root :: p). apply (walk_step R1 R2).
    - intros Hx. pose proof Hx as Hx0. apply Ra in Hx.
      assert (K : In x (root :: Vs) /\ reach (arc g) root x); [|apply K]. revert Hx. apply reach_closed with (P := fun x => In x (root :: Vs) /\ reach (arc g) root x); [split; [left; reflexivity|apply reach_refl]|].
      intros a b [Ha Hra] Eab. assert (Hrb : reach (arc g) root b) by (eapply reach_step; [exact Hra|apply sarc_arc, Eab]). split; [|exact Hrb].
      destruct (eq_dec b root) as [->|Hne]; [left; reflexivity|right]. destruct Ha as [<-|Ha]; [destruct (Cl b Eab) as [?|K]|destruct (sp_closed Sp Ha Eab) as [?|K]]; try assumption; exfalso; apply K; split; auto. }
  split; [apply (Permutation_NoDup Pm), (vi_nd Vi)|]. split; [intros x; rewrite <- (InV x); split; apply Permutation_in; [symmetry|]; exact Pm|]. split.
  { intros x y Hx Hxy. assert (Hy : reach (arc g) root y) by (apply (reach_step Hx Hxy)).
    assert (Hyr : y <> root) by (intros ->; apply (Ac x root Hx Hxy), Hx).
    assert (Hxy' : sarc g false x y) by (apply sarc_arc, Hxy). apply InV in Hx as [<-|Hx].
    - apply InV in Hy as [K|Hy]; [congruence|]. assert (Hy' : In y (rev Fs)) by (apply (Permutation_in _ (Permutation_cons_inv Pm)), Hy). apply (before_cross (F := [root]) (or_introl eq_refl) Hy').
    - destruct (sp_order Sp Hx Hxy') as [K|[K|K]].
      + exfalso. apply K. split; [apply Fr', Hy|exact Hyr].
      + destruct K as (F1 & F2 & -> & K). rewrite rev_app_distr. simpl. rewrite <- app_assoc. simpl. apply in_split in K as (A1 & A2 & ->). rewrite rev_app_distr. simpl. rewrite <- app_assoc. simpl.
        exists (root :: rev F2 ++ x :: rev A2), (rev A1). simpl. rewrite <- app_assoc. split; [reflexivity|]. right. apply in_elt.
      + exfalso. apply (Ac x y); [apply InV; right; exact Hx|exact Hxy|apply Ra, K]. }
  split; [apply (vi_shape Vi)|]. split; [intros x y; apply (vi_edges Vi); discriminate|]. split; [apply (vi_attr Vi)|].
  intros x Hx. apply (Permutation_in _ (Permutation_sym Pm)) in Hx. apply In_nth_error in Hx as [k Hk]. rewrite (vi_disc Vi Hk). discriminate.
Qed.

Theorem C21_topological_order : forall g root d f component fuel, wf g -> g_type g = Directed -> In root (get_node_list g) -> length (get_node_list g) <= fuel -> dget (g_attr g) "display" <> None ->
  (forall x, reach (arc g) root x -> unmarked g false x) -> (forall x y, reach (arc g) root x -> arc g x y -> ~ reach (arc g) y x) ->
  exists h c1 c2 pred L, dfs fuel root d f component false None ([], Some []) g = (h, Ok (c1, c2, (pred, Some L))) /\
    NoDup L /\ (forall x, In x L <-> reach (arc g) root x) /\
    forall x y, reach (arc g) root x -> arc g x y -> exists L1 L2 L3, L = L1 ++ x :: L2 ++ y :: L3.
Proof.
  intros g root d f component fuel W Dir Hr Hf Hd Hu Ac.
  destruct (topo_ok g root d f component [] fuel W Dir Hr Hf Hd) as (h & c1 & c2 & pred & rest & E & ND & HI & HB & _); [intros x p [=]|exact Ac| |].
  { intros x Hx. specialize (Hu x Hx). unfold unmarked, mark in Hu. rewrite (obs_nl _ _ _ W) in Hu; [congruence|].
    destruct Hx as [p Hp]. apply (walk_nl g false root p x W Hr). apply (walk_iff (E := arc g)); [intros; symmetry; apply sarc_arc|exact Hp]. }
  exists h, c1, c2, pred, (root :: rest). split; [exact E|]. split; [exact ND|]. split; [exact HI|].
  intros x y Hx Hxy. destruct (HB x y Hx Hxy) as (F1 & F2 & -> & K). apply in_split in K as (A1 & A2 & ->). exists A1, A2, F2. rewrite <- app_assoc. reflexivity.
Qed.
Print Assumptions C21_topological_order.

Definition exdag : graph := history (new_graph (Some Directed) [])
  [OAddEdge (NI 1) (NI 2) [("cost", VI 4)]; OAddEdge (NI 1) (NI 3) [("cost", VI 1)]; OAddEdge (NI 3) (NI 2) [("cost", VI (-2))]; OAddEdge (NI 2) (NI 4) [("cost", VI 3)]; OAddEdge (NI 3) (NI 4) [("cost", VI 7)]].
Lemma exdag_wf : wf exdag.
Proof. refine (proj1 (wf_history (wf_new (Some Directed) []) _)). discriminate. Qed.
(* a numbering that increases along the arcs excludes cycles *)
Lemma acyclic_by g (r : name -> Z) : g_type g = Directed -> forallb (fun e => (r (fst e) <? r (snd e))%Z) (get_edge_list g) = true -> forall x y, arc g x y -> ~ reach (arc g) y x.
Proof.
  intros Dir H. rewrite forallb_forall in H. assert (Ha : forall x y, arc g x y -> (r x < r y)%Z).
  { intros x y Hxy. unfold arc, check_edge in Hxy. rewrite Dir in Hxy. apply dmem_In in Hxy. apply H in Hxy. simpl in Hxy. lia. }
  assert (Hr : forall x y, reach (arc g) x y -> (r x <= r y)%Z).
  { intros x y [p Hp]. induction Hp as [|a b p c Hab Hp IH]; [lia|]. specialize (Ha _ _ Hab). lia. }
  intros x y Hxy Hyx. specialize (Ha _ _ Hxy). specialize (Hr _ _ Hyx). lia.
Qed.
Definition exrank (x : name) : Z := match x with NI 1 => 1 | NI 3 => 2 | NI 2 => 3 | _ => 4 end%Z.
Lemma unmarked_all g tr : forallb (fun x => match obs (get_node_attr x (mark tr)) g with Ok VNone => true | _ => false end) (get_node_list g) = true -> forall x, In x (get_node_list g) -> unmarked g tr x.
Proof. intros H x Hx. rewrite forallb_forall in H. specialize (H x Hx). unfold unmarked. destruct (obs _ _) as [[]|]; congruence. Qed.
Lemma reach_nl g x y : wf g -> In x (get_node_list g) -> reach (arc g) x y -> In y (get_node_list g).
Proof. intros W Hx [p Hp]. apply (walk_nl g false x p y W Hx). apply (walk_iff (E := arc g)); [intros; symmetry; apply sarc_arc|exact Hp]. Qed.
Definition topo_of {A B} (r : graph * res (A * (B * option (list name)))) : option (list name) := match snd r with Ok (_, (_, t)) => t | Err _ => None end.
Example C21_nonvacuous : wf exdag /\ g_type exdag = Directed /\ In (NI 1) (get_node_list exdag) /\ length (get_node_list exdag) <= 4 /\ dget (g_attr exdag) "display" <> None /\
  (forall x, reach (arc exdag) (NI 1) x -> unmarked exdag false x) /\ (forall x y, reach (arc exdag) (NI 1) x -> arc exdag x y -> ~ reach (arc exdag) y x) /\
  topo_of (dfs 4 (NI 1) 0 1 VNone false None ([], Some []) exdag) = Some [NI 1; NI 3; NI 2; NI 4].
Proof.
  assert (H1 : In (NI 1) (get_node_list exdag)) by (vm_compute; auto).
  split; [apply exdag_wf|]. split; [vm_compute; reflexivity|]. split; [exact H1|]. split; [vm_compute; lia|]. split; [vm_compute; discriminate|]. split.
  { intros x Hx. apply unmarked_all; [vm_compute; reflexivity|]. apply (reach_nl exdag (NI 1) x exdag_wf H1 Hx). }
  split; [intros x y _; apply (acyclic_by exdag exrank); vm_compute; reflexivity|vm_compute; reflexivity].
Qed.

(** C22 *)
Section C22.
  Variables (g : graph) (source : name) (fuel : nat).
  Hypothesis W : wf g.
  Hypothesis Dir : g_type g = Directed.
  Hypothesis HC : has_costs g false.
  Hypothesis Hs : In source (get_node_list g).
  Hypothesis Hf : length (get_node_list g) <= fuel.
  Hypothesis Hd : dget (g_attr g) "display" <> None.
  Hypothesis All : forall x, In x (get_node_list g) -> reach (arc g) source x.
  Hypothesis Ac : forall x y, arc g x y -> ~ reach (arc g) y x.
  Hypothesis Hu : forall x, In x (get_node_list g) -> unmarked g false x.
  Lemma reach_iff_nl x : reach (arc g) source x <-> In x (get_node_list g).
  Proof. split; [apply (reach_nl g source x W Hs)|apply All]. Qed.
  Lemma costs x y : arc g x y -> eattr g x y "cost" = Some (VI (edge_cost g x y)).
  Proof. intros H. apply sarc_arc in H. destruct (HC x y H) as [z Hz]. unfold edge_cost, eattr. rewrite Hz. reflexivity. Qed.
  Lemma asp_first : exists h rest, same_shape g h /\ g_attr h = g_attr g /\ (forall x y, eattr h x y "cost" = eattr g x y "cost") /\ (forall x, In x (get_node_list g) -> nattr h x "disc_time" <> VNone) /\
    NoDup (source :: rest) /\ (forall x, In x (source :: rest) <-> In x (get_node_list g)) /\ (forall x y, arc g x y -> before (source :: rest) x y) /\
    forall dest, acyclic_shortest_path fuel source dest g = asp_tail source rest fuel dest h.
  Proof.
    destruct (topo_ok g source 0 1 VNone [] fuel W Dir Hs Hf Hd) as (h & c1 & c2 & pred & rest & E & ND & HI & HB & Sh & Hc & Ha & Hm); [intros x p [=]|intros; auto| |].
    { intros x Hx. apply reach_iff_nl in Hx. specialize (Hu x Hx). unfold unmarked, mark in Hu. rewrite (obs_nl _ _ _ W Hx) in Hu. congruence. }
    exists h, rest. split; [exact Sh|]. split; [exact Ha|]. split; [exact Hc|]. split; [intros x Hx; apply Hm, HI, reach_iff_nl, Hx|]. split; [exact ND|].
    split; [intros x; rewrite HI; apply reach_iff_nl|]. split; [intros x y Hxy; apply HB; [|exact Hxy]; apply reach_iff_nl; exact (proj1 (sarc_V W (proj2 (sarc_arc g x y) Hxy)))|].
    intros dest. unfold acyclic_shortest_path. rewrite (bind_ok _ E). reflexivity.
  Qed.
  Lemma asp_tail_g h rest : same_shape g h -> (forall x y, eattr h x y "cost" = eattr g x y "cost") -> NoDup (source :: rest) -> (forall x, In x (source :: rest) <-> In x (get_node_list g)) ->
    (forall x y, arc g x y -> before (source :: rest) x y) -> forall dest,
    ok (asp_tail source rest fuel dest) h (fun r h' => h' = h /\
      match r with
      | inl p => exists d, dest = Some d /\ walk (arc h) source p d /\ NoDup p /\ least_cost (arc h) (edge_cost g) source d (wcost (edge_cost g) p)
      | inr pred => (forall d, dest = Some d -> ~ In d (get_node_list h)) /\ forall n, In n (get_node_list h) -> exists p, walk (pred_arc pred) source p n /\ walk (arc h) source p n /\ NoDup p /\ least_cost (arc h) (edge_cost g) source n (wcost (edge_cost g) p)
      end).
  Proof.
    intros Sh Hc ND HI HB dest. pose proof (ss_node_list Sh) as Nl. assert (Aa : forall x y, arc h x y <-> arc g x y) by (intros; apply ss_arc, Sh).
    apply (asp_tail_ok (ss_wf Sh W) (eq_trans (ss_type Sh) Dir) (c := edge_cost g) (fun x y H => eq_trans (Hc x y) (costs x y (proj1 (Aa x y) H))) ND).
    - intros x. rewrite Nl. apply HI.
    - intros x y Hxy. apply HB, Aa, Hxy.
    - intros x Hx. rewrite Nl in Hx. apply (reach_iff (E := arc h) (E' := arc g)); [exact Aa|apply All, Hx].
    - rewrite Nl. exact Hf.
  Qed.
  Lemma asp_node_g h rest : same_shape g h -> (forall x y, eattr h x y "cost" = eattr g x y "cost") -> NoDup (source :: rest) -> (forall x, In x (source :: rest) <-> In x (get_node_list g)) ->
    (forall x y, arc g x y -> before (source :: rest) x y) -> ok (asp_node source ([], [])) h (fun s' h' => h' = h).
  Proof.
    intros Sh Hc ND HI HB. pose proof (ss_node_list Sh) as Nl. assert (Aa : forall x y, arc h x y <-> arc g x y) by (intros; apply ss_arc, Sh).
    eapply ok_weaken; [apply (asp_node_ok (ss_wf Sh W) (eq_trans (ss_type Sh) Dir) (c := edge_cost g) (fun x y H => eq_trans (Hc x y) (costs x y (proj1 (Aa x y) H))) ND) with (pre := []) (post := rest)|].
    - intros x. rewrite Nl. apply HI.
    - intros x y Hxy. apply HB, Aa, Hxy.
    - intros x Hx. rewrite Nl in Hx. apply (reach_iff (E := arc h) (E' := arc g)); [exact Aa|apply All, Hx].
    - reflexivity.
    - split; [intros n z [=]|split; [intros m n []|intros m []]].
    - intros s h' [-> _]. reflexivity.
  Qed.
End C22.
Theorem C22_acyclic_shortest_path : forall g source dest fuel, wf g -> g_type g = Directed -> has_costs g false -> In source (get_node_list g) -> length (get_node_list g) <= fuel ->
  dget (g_attr g) "display" <> None -> (forall x, In x (get_node_list g) -> reach (arc g) source x) -> (forall x y, arc g x y -> ~ reach (arc g) y x) ->
  (forall x, In x (get_node_list g) -> unmarked g false x) ->
  exists h r, acyclic_shortest_path fuel source dest g = (h, Ok r) /\ get_node_list h = get_node_list g /\ get_edge_list h = get_edge_list g /\
  match r with
  | inl p => exists d, dest = Some d /\ walk (arc g) source p d /\ NoDup p /\ least_cost (arc g) (edge_cost g) source d (wcost (edge_cost g) p)
  | inr pred => (forall d, dest = Some d -> ~ In d (get_node_list g)) /\
      forall n, In n (get_node_list g) -> exists p, walk (pred_arc pred) source p n /\ walk (arc g) source p n /\ least_cost (arc g) (edge_cost g) source n (wcost (edge_cost g) p)
  end.
Proof.
  intros g source dest fuel W Dir HC Hs Hf Hd All Ac Hu.
  destruct (asp_first g source fuel W Dir Hs Hf Hd All Ac Hu) as (h & rest & Sh & Ha & Hc & _ & ND & HI & HB & E). rewrite E. pose proof (ss_wf Sh W) as Wh. pose proof (ss_node_list Sh) as Nl.
  assert (Aa : forall x y, arc h x y <-> arc g x y) by (intros; apply ss_arc, Sh). assert (Ra : forall x y, reach (arc h) x y <-> reach (arc g) x y) by (intros; apply reach_iff, Aa).
  assert (Wa : forall x p y, walk (arc h) x p y <-> walk (arc g) x p y) by (intros; apply walk_iff, Aa).
  assert (La : forall x y z, least_cost (arc h) (edge_cost g) x y z -> least_cost (arc g) (edge_cost g) x y z).
  { intros x y z [(p & Hp & Hz) L]. split; [exists p; split; [apply Wa, Hp|exact Hz]|]. intros q Hq. apply L, Wa, Hq. }
  destruct (ok_ex (asp_tail_g g source fuel W Dir HC Hf All h rest Sh Hc ND HI HB dest)) as (h' & r & Er & -> & K). exists h, r. split; [exact Er|]. split; [exact Nl|]. split; [apply (ss_edges Sh)|].
  destruct r as [p|pred].
  - destruct K as (d & K1 & K2 & K3 & K4). exists d. split; [exact K1|]. split; [apply Wa, K2|]. split; [exact K3|]. apply La, K4.
  - destruct K as [K1 K2]. split; [intros d Ed; rewrite <- Nl; apply K1, Ed|]. intros n Hn. rewrite <- Nl in Hn. destruct (K2 n Hn) as (p & P1 & P2 & _ & P3). exists p. split; [exact P1|]. split; [apply Wa, P2|]. apply La, P3.
Qed.
Print Assumptions C22_acyclic_shortest_path.
Definition exd_path := snd (acyclic_shortest_path 4 (NI 1) (Some (NI 4)) exdag).
Lemma exdag_reach : forall x, In x (get_node_list exdag) -> reach (arc exdag) (NI 1) x.
Proof.
  assert (E12 : arc exdag (NI 1) (NI 2)) by (vm_compute; reflexivity). assert (E13 : arc exdag (NI 1) (NI 3)) by (vm_compute; reflexivity). assert (E24 : arc exdag (NI 2) (NI 4)) by (vm_compute; reflexivity).
  intros x Hx. change (In x [NI 1; NI 2; NI 3; NI 4]) in Hx. destruct Hx as [<-|[<-|[<-|[<-|[]]]]]; [apply reach_refl|exact (reach_step (reach_refl _ _) E12)|exact (reach_step (reach_refl _ _) E13)|exact (reach_step (reach_step (reach_refl _ _) E12) E24)].
Qed.
Lemma all_costs g : g_type g = Directed -> forallb (fun e => match obs (get_edge_attr (fst e) (snd e) "cost") g with Ok (VI _) => true | _ => false end) (get_edge_list g) = true -> has_costs g false.
Proof.
  intros D H x y Hs. unfold sarc, arc, check_edge in Hs. rewrite D in Hs. apply dmem_In in Hs. rewrite forallb_forall in H. specialize (H _ Hs). cbn [fst snd] in H.
  destruct (obs (get_edge_attr x y "cost") g) as [[]|]; try discriminate. eauto.
Qed.
Lemma exdag_costs : has_costs exdag false.
Proof. apply all_costs; vm_compute; reflexivity. Qed.
Example C22_nonvacuous : wf exdag /\ g_type exdag = Directed /\ has_costs exdag false /\ (forall x, In x (get_node_list exdag) -> reach (arc exdag) (NI 1) x) /\
  (forall x y, arc exdag x y -> ~ reach (arc exdag) y x) /\ (forall x, In x (get_node_list exdag) -> unmarked exdag false x) /\ exd_path = Ok (inl [NI 1; NI 3; NI 2; NI 4]).
Proof.
  split; [apply exdag_wf|]. split; [vm_compute; reflexivity|]. split; [apply exdag_costs|]. split; [apply exdag_reach|].
  split; [apply (acyclic_by exdag exrank); vm_compute; reflexivity|]. split; [apply unmarked_all; vm_compute; reflexivity|vm_compute; reflexivity].
Qed.

(* the same call again, on the graph the first one left: the order has one node only, since every disc_time is set *)
Theorem C22_second_call : forall g source dest fuel h r dest', wf g -> g_type g = Directed -> has_costs g false -> In source (get_node_list g) -> length (get_node_list g) <= fuel ->
  dget (g_attr g) "display" <> None -> (forall x, In x (get_node_list g) -> reach (arc g) source x) -> (forall x y, arc g x y -> ~ reach (arc g) y x) ->
  (forall x, In x (get_node_list g) -> unmarked g false x) -> 2 <= length (get_node_list g) ->
  acyclic_shortest_path fuel source dest g = (h, Ok r) -> dest' <> Some source ->
  snd (acyclic_shortest_path fuel source dest' h) = Err IndexError.
Proof.
  intros g source dest fuel h r dest' W Dir HC Hs Hf Hd All Ac Hu H2 E1 Hn.
  destruct (asp_first g source fuel W Dir Hs Hf Hd All Ac Hu) as (h1 & rest & Sh & Ha & Hc & Hm & ND & HI & HB & E).
  assert (h1 = h) as ->.
  { destruct (ok_ex (asp_tail_g g source fuel W Dir HC Hf All h1 rest Sh Hc ND HI HB dest)) as (h' & r' & Er & -> & _). rewrite E, Er in E1. congruence. }
  clear E E1. pose proof (ss_wf Sh W) as Wh. pose proof (ss_node_list Sh) as Nl.
  assert (G : good h false h) by (constructor; [apply ss_refl|rewrite Ha; exact Hd|discriminate]).
  assert (Hs' : In source (get_node_list h)) by (rewrite Nl; exact Hs). assert (Hf' : length (get_node_list h) <= fuel) by (rewrite Nl; exact Hf).
  pose proof (dfs_ok (g := h) Wh (component := VNone) (tr := false) (fun E => match Bool.diff_false_true E with end) (fuel := fuel) (root := source) 0 1 (pred := []) (Some []) (h := h)
    (U := remove eq_dec source (get_node_list h)) G Hs') as H.
  destruct (ok_ex (H (fun x p E => match @eq_ind _ None (fun o => match o with None => True | Some _ => False end) I _ E with end)
     (fun x Hx _ Hne => in_in_remove eq_dec _ Hne Hx) (Nat.lt_le_trans _ _ _ (remove_length_lt eq_dec _ _ Hs') Hf'))) as (h2 & s & E & Vs & Fs & Vi & Sp & Cl & Fr & pred' & Pp & ->).
  assert (Vs = []) as ->.
  { destruct Vs as [|x Vs]; [reflexivity|]. exfalso. assert (Hx : fresh false h x) by (apply Fr; left; reflexivity). apply (Hm x); [|exact Hx].
    destruct (sp_from Sp (or_introl eq_refl)) as (r0 & p & R1 & R2 & _). rewrite <- Nl. apply (walk_nl h false source (source :: p) x Wh Hs'), (walk_step R1 R2). }
  assert (Fs = []) as -> by (destruct Fs as [|y [|z Fs]]; [reflexivity| |]; pose proof (Permutation_length (vi_perm Vi)) as K; simpl in K; rewrite ?app_length in K; simpl in K; lia).
  unfold acyclic_shortest_path. rewrite (bind_ok _ E). cbn [snd option_map rev app].
  pose proof (ss_trans Sh (vi_shape Vi)) as Sh2. pose proof (ss_node_list Sh2) as Nl2.
  assert (Ek : gets (fun g0 => length (get_node_list g0)) h2 = (h2, Ok (length (get_node_list h2)))) by reflexivity. rewrite (bind_ok _ Ek), Nl2.
  destruct (get_node_list g) as [|x1 [|x2 l]] eqn:El; [simpl in H2; lia|simpl in H2; lia|]. rewrite <- El in *.
  pose proof (asp_node_g g source W Dir HC All h2 rest Sh2) as T.
  destruct (ok_ex (T (fun x y => eq_trans (vi_edges Vi (b := "cost") x y ltac:(discriminate)) (Hc x y)) ND HI HB)) as (h' & s' & Es & ->).
  rewrite El. change (length (x1 :: x2 :: l)) with (S (S (length l))).
  assert (EL : asp_loop (S (S (length l))) [source] dest' ([], []) h2 = (h2, Err IndexError)).
  { cbn [asp_loop]. destruct dest' as [d|]; [destruct (eqb_spec source d) as [->|_]; [congruence|]|]; rewrite (bind_ok _ Es); reflexivity. }
  rewrite (bind_err _ EL). reflexivity.
Qed.
Print Assumptions C22_second_call.
Example C22_second_nonvacuous : 2 <= length (get_node_list exdag) /\ snd (acyclic_shortest_path 4 (NI 1) (Some (NI 4)) (fst (acyclic_shortest_path 4 (NI 1) (Some (NI 4)) exdag))) = Err IndexError.
Proof. split; [vm_compute; lia|vm_compute; reflexivity]. Qed.

(* a source with an incoming and an outgoing arc: the distance of the source is never set *)
Theorem C22_interior_source_raises : forall g source dest fuel x y, wf g -> g_type g = Directed -> In source (get_node_list g) -> length (get_node_list g) <= fuel -> dget (g_attr g) "display" <> None ->
  arc g x source -> arc g source y -> dest <> Some source -> snd (acyclic_shortest_path fuel source dest g) = Err KeyError.
Proof.
  intros g source dest fuel x y W Dir Hs Hf Hd Hx Hy Hn.
  assert (G : good g false g) by (constructor; [apply ss_refl|exact Hd|discriminate]).
  pose proof (dfs_ok (g := g) W (component := VNone) (tr := false) (fun E => match Bool.diff_false_true E with end) (fuel := fuel) (root := source) 0 1 (pred := []) (Some []) (h := g)
    (U := remove eq_dec source (get_node_list g)) G Hs) as H.
  destruct (ok_ex (H (fun x p E => match @eq_ind _ None (fun o => match o with None => True | Some _ => False end) I _ E with end)
     (fun x Hx _ Hne => in_in_remove eq_dec _ Hne Hx) (Nat.lt_le_trans _ _ _ (remove_length_lt eq_dec _ _ Hs) Hf))) as (h & s & E & Vs & Fs & Vi & Sp & Cl & Fr & pred' & Pp & ->).
  assert (ER : option_map (app (rev (Fs ++ [source]))) (Some []) = Some (source :: rev Fs)) by (simpl; rewrite app_nil_r, rev_app_distr; reflexivity). rewrite ER in E.
  unfold acyclic_shortest_path. rewrite (bind_ok _ E). cbn [snd]. pose proof (vi_shape Vi) as Sh. pose proof (ss_node_list Sh) as Nl. pose proof (ss_wf Sh W) as Wh.
  assert (Ek : gets (fun g0 => length (get_node_list g0)) h = (h, Ok (length (get_node_list h)))) by reflexivity. rewrite (bind_ok _ Ek), Nl.
  destruct (get_node_list g) as [|x1 l] eqn:El; [destruct Hs|]. rewrite <- El in *.
  rewrite El at 1. cbn [length asp_loop].
  assert (Hs' : In source (get_node_list h)) by (rewrite Nl; exact Hs). assert (Dh : g_type h = Directed) by (rewrite (ss_type Sh); exact Dir).
  assert (EN : asp_node source ([], []) h = (h, Err KeyError)).
  { assert (Hx' : In x (list_at (g_in h) source)).
    { apply (ins_edge Wh Dh). unfold arc, check_edge in Hx. rewrite Dir in Hx. apply dmem_In in Hx. unfold get_edge_list. rewrite (ss_edges Sh). exact Hx. }
    assert (Hy' : In y (list_at (g_nbrs h) source)).
    { apply (nbrs_edge Wh Dh). unfold arc, check_edge in Hy. rewrite Dir in Hy. apply dmem_In in Hy. unfold get_edge_list. rewrite (ss_edges Sh). exact Hy. }
    unfold asp_node. assert (E1 : get_in_neighbors source h = (h, Ok (list_at (g_in h) source))) by (apply ok_eq, (ok_in_list Wh Dh Hs'); auto). rewrite (bind_ok _ E1).
    assert (E2 : get_out_neighbors source h = (h, Ok (list_at (g_nbrs h) source))) by (apply ok_eq, (ok_nbr_list Hs'); auto). rewrite (bind_ok _ E2).
    destruct (list_at (g_in h) source) as [|i1 li]; [destruct Hx'|]. destruct (list_at (g_nbrs h) source) as [|n1 ln]; [destruct Hy'|]. reflexivity. }
  destruct dest as [d|]; [destruct (eqb_spec source d) as [->|_]; [congruence|]|]; rewrite bind_bind, (bind_err _ EN); reflexivity.
Qed.
Print Assumptions C22_interior_source_raises.
Example C22_interior_nonvacuous : arc exdag (NI 1) (NI 3) /\ arc exdag (NI 3) (NI 2) /\ snd (acyclic_shortest_path 4 (NI 3) None exdag) = Err KeyError.
Proof. repeat split; vm_compute; reflexivity. Qed.

(** C50 *)
Lemma ham_scan h l : (forall x, In x l -> In x (dkeys (g_nodes h))) ->
  forM_ l (fun i => v <- get_node_attr i "visited" ;; if eqb v VNone then fail AttributeError else ret tt) h =
  (h, if existsb (fun x => eqb (nattr h x "visited") VNone) l then Err AttributeError else Ok tt).
Proof.
  unfold forM_. induction l as [|x l IH]; intros Hl; [reflexivity|]. simpl. unfold bind at 1. unfold bind at 1.
  assert (E : get_node_attr x "visited" h = (h, Ok (nattr h x "visited"))).
  { unfold get_node_attr, nattr. destruct (dget_exists (Hl x (or_introl eq_refl))) as [d ->]. reflexivity. }
  rewrite E. destruct (eqb (nattr h x "visited") VNone); [reflexivity|]. apply IH. intros y Hy. apply Hl. right. exact Hy.
Qed.
Theorem C50_hamiltonian : forall g source destination display, wf g -> In source (get_node_list g) -> (display = None -> dget (g_attr g) "display" <> None) ->
  let single := destination = Some source /\ length (get_node_list g) = 1 in
  let result := snd (hamiltonian source destination 0 display [] g) in
  (single -> result = Ok true) /\
  (~ single -> (exists x, arc g source x /\ x <> source /\ obs (get_node_attr x "visited") g = Ok VNone) -> result = Err AttributeError) /\
  (~ single -> (forall x, arc g source x -> x <> source -> obs (get_node_attr x "visited") g <> Ok VNone) -> result = Ok false).
Proof.
  intros g source destination display W Hs Hd single result. assert (Er : result = snd (hamiltonian source destination 0 display [] g)) by reflexivity. clearbody result.
  set (g1 := match display with None => g | Some v => with_attr g (dset (g_attr g) "display" v) end).
  assert (E0 : enter_display display g = (g1, Ok tt)).
  { unfold enter_display, g1. destruct display as [v|]; [reflexivity|]. unfold bind, gets, lift. destruct (dget (g_attr g) "display") eqn:E; [reflexivity|exfalso; apply (Hd eq_refl); reflexivity]. }
  assert (S1 : same_shape g g1) by (unfold g1; destruct display; constructor; reflexivity).
  assert (N1 : forall x a, nattr g1 x a = nattr g x a) by (intros; unfold g1; destruct display; reflexivity).
  assert (L : ok (ns <- gets get_node_list ;; forM_ ns (fun i => set_node_attr i "label" (VS "-"))) g1 (fun _ h => same_shape g1 h /\ forall x, nattr h x "visited" = nattr g1 x "visited")).
  { apply ok_bind, ok_gets. apply ok_forM with (I := fun _ h => same_shape g1 h /\ forall x, nattr h x "visited" = nattr g1 x "visited"); [split; [apply ss_refl|reflexivity]| |auto].
    intros pre a post h El [Sh Nh]. apply ok_set_node_attr; [rewrite (ss_nodes Sh), (wf_nodes (ss_wf S1 W)); change (In a (get_node_list g1)); rewrite El; apply in_elt|].
    intros h' S' N' _ _ _ _. split; [apply (ss_trans Sh S')|]. intros x. rewrite N'. destruct eq_dec as [[=]|]. apply Nh. }
  destruct (ok_ex L) as (h2 & [] & E2 & S2 & N2). pose proof (ss_trans S1 S2) as S12. pose proof (ss_node_list S12) as Nl.
  assert (Hn2 : In source (dkeys (g_nodes h2))) by (rewrite (ss_nodes S12), (wf_nodes W); exact Hs).
  unfold hamiltonian in Er. rewrite (bind_ok _ E0) in Er. change (0 =? 0)%Z with true in Er. cbv iota in Er. rewrite (bind_ok _ E2) in Er. erewrite bind_ok in Er by reflexivity. rewrite Nl in Er.
  set (stop := match destination with Some d => eqb source d && (0 =? Z.of_nat (length (get_node_list g)) - 1)%Z | None => (0 =? Z.of_nat (length (get_node_list g)))%Z end) in Er.
  assert (Hst : stop = true <-> single).
  { unfold stop, single. destruct destination as [d|].
    - destruct (eqb_spec source d) as [->|Hne]; cbn [andb]; [rewrite Z.eqb_eq; split; [intros K; split; [reflexivity|lia]|intros [_ K]; lia]|split; [discriminate|intros [[=] _]; congruence]].
    - rewrite Z.eqb_eq. split; [intros K; exfalso; destruct (get_node_list g); [destruct Hs|simpl in K; lia]|intros [[=] _]]. }
  split; [intros K; apply Hst in K; rewrite Er, K; reflexivity|].
  assert (R : ~ single -> result = if existsb (fun x => negb (eqb x source) && eqb (nattr g x "visited") VNone) (list_at (g_nbrs g) source) then Err AttributeError else Ok false).
  { intros K. rewrite Er. destruct stop; [exfalso; apply K, Hst; reflexivity|]. clear result Er Hst K.
    match goal with |- snd (?m h2) = ?r => assert (E : exists h3, m h2 = (h3, r)); [|destruct E as [h3 ->]; reflexivity] end.
    assert (P : ok (set_node_attr source "visited" (VBool true) ;; set_node_attr source "label" (VS (str_int 0)) ;; set_node_attr source "color" (VS "blue")) h2
      (fun _ h => same_shape g h /\ nattr h source "visited" = VBool true /\ forall x, x <> source -> nattr h x "visited" = nattr g x "visited")).
    { apply ok_bind, ok_set_node_attr; [exact Hn2|]. intros h3 S3 N3 _ _ _ _. apply ok_bind, ok_set_node_attr; [rewrite (ss_nodes S3); exact Hn2|]. intros h4 S4 N4 _ _ _ _.
      apply ok_set_node_attr; [rewrite (ss_nodes S4), (ss_nodes S3); exact Hn2|]. intros h5 S5 N5 _ _ _ _. split; [apply (ss_trans S12), (ss_trans S3), (ss_trans S4 S5)|].
      split.
      - rewrite N5. destruct eq_dec as [[=]|_]. rewrite N4. destruct eq_dec as [[=]|_]. rewrite N3. destruct eq_dec as [_|K]; [reflexivity|congruence].
      - intros x Hx. rewrite N5. destruct eq_dec as [[=]|_]. rewrite N4. destruct eq_dec as [[=]|_]. rewrite N3. destruct eq_dec as [[= K]|_]; [congruence|]. rewrite N2, N1. reflexivity. }
    destruct (ok_ex P) as (h3 & [] & E3 & S3 & V3 & V3'). exists h3.
    assert (C : forall (k : M graph bool), (set_node_attr source "visited" (VBool true) ;; set_node_attr source "label" (VS (str_int 0)) ;; set_node_attr source "color" (VS "blue") ;; k) h2 = k h3).
    { intros k. revert E3. unfold bind. destruct (set_node_attr source "visited" (VBool true) h2) as [? [|]]; [|discriminate]. destruct (set_node_attr source "label" _ _) as [? [|]]; [|discriminate].
      destruct (set_node_attr source "color" _ _) as [? [|]]; [|discriminate]. intros [= -> _]. reflexivity. }
    rewrite C. cbn [dget]. erewrite bind_ok by reflexivity.
    assert (E4 : get_neighbors source h3 = (h3, Ok (list_at (g_nbrs g) source))).
    { unfold get_neighbors, nbr_list, list_at. rewrite (ss_nbrs S3). destruct (dget_exists (d := g_nbrs g) Hs) as [l ->]. reflexivity. }
    rewrite (bind_ok _ E4).
    assert (Hl : forall x, In x (list_at (g_nbrs g) source) -> In x (dkeys (g_nodes h3))).
    { intros x Hx. rewrite (ss_nodes S3), (wf_nodes W). apply (nbr_check_edge W) in Hx. apply (check_edge_nodes W) in Hx. apply Hx. }
    assert (Hex : existsb (fun x => eqb (nattr h3 x "visited") VNone) (list_at (g_nbrs g) source) = existsb (fun x => negb (eqb x source) && eqb (nattr g x "visited") VNone) (list_at (g_nbrs g) source)).
    { clear Hl E4. induction (list_at (g_nbrs g) source) as [|x l IH]; [reflexivity|]. cbn [existsb]. rewrite IH. destruct (eqb_spec x source) as [->|Hne]; [rewrite V3; reflexivity|rewrite V3' by exact Hne; reflexivity]. }
    pose proof (ham_scan h3 _ Hl) as E5. rewrite Hex in E5. destruct (existsb (fun x => negb (eqb x source) && eqb (nattr g x "visited") VNone) (list_at (g_nbrs g) source)); [rewrite (bind_err _ E5)|rewrite (bind_ok _ E5)]; reflexivity. }
  assert (Hin : forall x, In x (list_at (g_nbrs g) source) <-> arc g source x) by (intros x; split; [apply (nbr_check_edge W)|apply (check_edge_nbr W)]).
  split; intros K; rewrite (R K).
  - intros (x & Hx & Hne & Hv). assert (existsb (fun x => negb (eqb x source) && eqb (nattr g x "visited") VNone) (list_at (g_nbrs g) source) = true) as ->; [|reflexivity].
    apply existsb_exists. exists x. split; [apply Hin, Hx|]. rewrite (obs_nl _ _ _ W) in Hv; [|apply (check_edge_nodes W Hx)]. injection Hv as ->. destruct (eqb_spec x source); [contradiction|reflexivity].
  - intros Hv. destruct (existsb _ _) eqn:Ex; [|reflexivity]. exfalso. apply existsb_exists in Ex as (x & Hx & Ex). apply andb_true_iff in Ex as [E1 E2']. apply negb_true_iff in E1. destruct (eqb_spec (nattr g x "visited") VNone) as [E2''|]; [|discriminate E2']. clear E2'.
    apply Hin in Hx. apply (Hv x Hx); [intros ->; destruct (eqb_spec source source); [discriminate E1|congruence]|]. rewrite (obs_nl _ _ _ W); [congruence|apply (check_edge_nodes W Hx)].
Qed.
Print Assumptions C50_hamiltonian.
(* so the documented result is wrong already on 1 -> 2, where 1, 2 is a Hamiltonian path *)
Theorem C50_documented_refuted : exists g s d, wf g /\ In s (get_node_list g) /\ (exists p, walk (arc g) s p d /\ Permutation p (get_node_list g)) /\
  snd (hamiltonian s (Some d) 0 None [] g) = Err AttributeError /\ snd (hamiltonian s None 0 None [] g) = Err AttributeError.
Proof.
  exists (history (new_graph (Some Directed) []) [OAddEdge (NI 1) (NI 2) []]), (NI 1), (NI 2).
  split; [refine (proj1 (wf_history (wf_new (Some Directed) []) _)); discriminate|]. split; [vm_compute; auto|].
  split; [exists [NI 1; NI 2]; split; [apply walk_step with (b := NI 2); [vm_compute; reflexivity|constructor]|vm_compute; apply Permutation_refl]|]. split; vm_compute; reflexivity.
Qed.
Print Assumptions C50_documented_refuted.
Example C50_nonvacuous : snd (hamiltonian (NI 1) None 0 None [] exdag) = Err AttributeError /\ snd (hamiltonian (NI 4) None 0 None [] exdag) = Ok false /\
  snd (hamiltonian (NI 1) (Some (NI 1)) 0 (Some (VS "off")) [] (history (new_graph None []) [OAddNode (NI 1) []])) = Ok true.
Proof. repeat split; vm_compute; reflexivity. Qed.
