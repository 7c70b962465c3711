(* Graph.random populates the graph as specified, whatever the random stream. *)
From Verif Require Import Py Util M_Graph M_Search M_Random P_Graph P_GraphLaws S_Random.
Set Implicit Arguments. Unset Strict Implicit.
Local Open Scope string_scope.
Local Open Scope list_scope.
Local Open Scope Z_scope.

Lemma ok_ong {A} (m : M graph A) h k (Q : A -> graph * nat -> Prop) : ok m h (fun a h' => Q a (h', k)) -> ok (ong m) (h, k) Q.
Proof.
  intros H. destruct (ok_ex H) as (h' & a & E & HQ). eapply ok_weaken; [apply ok_eq; unfold ong; cbn [fst snd]; rewrite E; reflexivity|].
  intros b s Hs; cbn beta in Hs; destruct Hs as [-> ->]. exact HQ.
Qed.
Lemma ok_randint o a b s (Q : Z -> graph * nat -> Prop) : a <= b -> (forall z, a <= z <= b -> Q z (fst s, S (snd s))) -> ok (randint o a b) s Q.
Proof.
  intros Hab HQ. eapply ok_weaken; [apply ok_eq; unfold randint; destruct (Z.ltb_spec b a); [lia|reflexivity]|].
  intros x t Ht; cbn beta in Ht; destruct Ht as [-> ->]. apply HQ.
  pose proof (Z.mod_pos_bound (rnd o (snd s)) (b - a + 1)). lia.
Qed.
Lemma ok_coin o s (Q : bool -> graph * nat -> Prop) : (forall b, Q b (fst s, S (snd s))) -> ok (draw_coin o) s Q.
Proof.
  intros HQ. eapply ok_weaken; [apply ok_eq; reflexivity|]. intros x t Ht; cbn beta in Ht; destruct Ht as [-> ->]. apply HQ.
Qed.
Lemma In_zrange n i : In i (zrange n) <-> 0 <= i < n.
Proof.
  unfold zrange. rewrite in_map_iff. split.
  - intros (k & <- & Hk). apply in_seq in Hk. lia.
  - intros H. exists (Z.to_nat i). split; [lia|]. apply in_seq. lia.
Qed.
Lemma NoDup_zrange n : NoDup (zrange n).
Proof. unfold zrange. apply FinFun.Injective_map_NoDup; [|apply seq_NoDup]. intros x y. lia. Qed.
Lemma length_zrange n : length (zrange n) = Z.to_nat n.
Proof. unfold zrange. rewrite map_length, seq_length. reflexivity. Qed.
Lemma zrange_fresh n pre a post : zrange n = pre ++ a :: post -> ~ In a pre /\ 0 <= a < n /\ (forall x, In x pre -> 0 <= x < n).
Proof.
  intros E. pose proof (NoDup_zrange n) as N. rewrite E in N. apply NoDup_remove_2 in N. rewrite in_app_iff in N.
  split; [tauto|]. split; [apply In_zrange; rewrite E; apply in_elt|]. intros x Hx. apply In_zrange. rewrite E. apply in_or_app; auto.
Qed.

(* one new edge, and its label *)
Definition mk_edge (fmt : attrs) (c : option Z) (lab : bool) (i j : Z) : M graph unit :=
  match c with
  | Some z => add_edge (NI i) (NI j) (("cost", VI z) :: fmt) ;; if lab then set_edge_attr (NI i) (NI j) "label" (VS (str_of_Z z)) else ret tt
  | None => add_edge (NI i) (NI j) fmt
  end.

Section P.
  Variables g : graph.
  Variable n : Z.
  Variable nf : Z -> attrs.
  Variable fmt : attrs.
  Hypothesis Hnd : NoDup (dkeys fmt).
  Variable lab : bool.
  Variable CP : Z -> Z -> option Z -> Prop.
  Hypothesis Hfree : free_names g n.
  Hypothesis Wg : wf g.
  Notation pop := (populated g).

  Lemma pop_node h new i : pop h n nf fmt lab CP new -> 0 <= i < n -> In (NI i) (get_node_list h).
  Proof. intros P Hi. rewrite (pop_nodes P). apply in_or_app. right. apply in_map. apply (proj2 (In_zrange n i)). assumption. Qed.
  Lemma new_not_old i y : 0 <= i < n -> check_edge g (NI i) y = false /\ check_edge g y (NI i) = false.
  Proof.
    intros Hi. split.
    - destruct (check_edge g (NI i) y) eqn:E; [|reflexivity]. destruct (Hfree Hi). apply (check_edge_nodes Wg E).
    - destruct (check_edge g y (NI i)) eqn:E; [|reflexivity]. destruct (Hfree Hi). apply (check_edge_nodes Wg E).
  Qed.
  Lemma edge_in_check h x y : In (x, y) (get_edge_list h) -> check_edge h x y = true.
  Proof. intros H. apply dmem_In in H. unfold check_edge. rewrite H. destruct (g_type h); reflexivity. Qed.

  Lemma mk_edge_ok h new i j c : pop h n nf fmt lab CP new -> 0 <= i < n -> 0 <= j < n -> i <> j ->
    check_edge h (NI i) (NI j) = false -> CP i j c -> (c <> None -> ~ In "cost" (dkeys fmt)) ->
    ok (mk_edge fmt c lab i j) h (fun _ h' => pop h' n nf fmt lab CP (new ++ [(NI i, NI j)])).
  Proof.
    intros P Hi Hj Hij Hc HC Hfmt. pose proof (pop_node P Hi) as Vi. pose proof (pop_node P Hj) as Vj.
    assert (Mi : mem (NI i) (get_node_list h) = true) by (apply mem_In; assumption).
    assert (Mj : mem (NI j) (get_node_list h ++ [NI i]) = true) by (apply mem_In, in_or_app; auto).
    set (kw := match c with Some z => ("cost", VI z) :: fmt | None => fmt end).
    assert (Nk : NoDup (dkeys kw)) by (unfold kw; destruct c; [constructor; [apply Hfmt; discriminate|assumption]|assumption]).
    destruct (add_edge_views (pop_wf P) Nk Hc) as (h1 & E1 & W1 & T1 & N1 & L1 & A1 & A2 & B1 & _).
    rewrite Mi, Mj in N1. simpl in N1. rewrite app_nil_r in N1.
    assert (Hin1 : check_edge h1 (NI i) (NI j) = true) by (apply edge_in_check; rewrite L1; apply in_or_app; simpl; auto).
    assert (Hnew : forall x y, In (x, y) new -> check_edge h x y = true).
    { intros x y Hxy. apply edge_in_check. rewrite (pop_edges P). apply in_or_app; auto. }
    assert (Hdiff : forall x y, check_edge h x y = true -> (x, y) <> (NI i, NI j) /\ (g_type h1 = Undirected -> (x, y) <> (NI j, NI i))).
    { intros x y Hxy. split; [intros [= -> ->]; congruence|]. rewrite T1. intros Hu [= -> ->]. unfold check_edge in Hxy, Hc. rewrite Hu in Hxy, Hc. rewrite Bool.orb_comm in Hxy. congruence. }
    assert (Hold : forall x y, check_edge g x y = true -> check_edge h x y = true).
    { intros x y. unfold check_edge. rewrite (pop_type P).
      assert (D : forall e, dmem (g_edges g) e = true -> dmem (g_edges h) e = true).
      { intros e He. apply dmem_In. apply dmem_In in He. change (In e (get_edge_list h)). rewrite (pop_edges P). apply in_or_app; auto. }
      destruct (g_type g); [apply D|]. intros H. apply orb_prop in H as [H|H]; apply orb_true_iff; auto. }
    (* the state after the optional label *)
    assert (R : forall h2, wf h2 -> g_type h2 = g_type h1 -> get_node_list h2 = get_node_list h1 -> get_edge_list h2 = get_edge_list h1 ->
      (forall x b, obs (get_node_attr x b) h2 = obs (get_node_attr x b) h1) ->
      (forall x y b, check_edge h x y = true -> obs (get_edge_attr x y b) h2 = obs (get_edge_attr x y b) h1) ->
      (forall a, obs (get_edge_attr (NI i) (NI j) a) h2 = edge_attr_of fmt c lab a) ->
      pop h2 n nf fmt lab CP (new ++ [(NI i, NI j)])).
    { intros h2 W2 T2 N2 L2 B2 A3 A4. constructor.
      - assumption.
      - rewrite T2, T1. apply (pop_type P).
      - rewrite N2, N1. apply (pop_nodes P).
      - rewrite L2, L1, (pop_edges P), app_assoc. reflexivity.
      - intros k a Hk. rewrite B2, B1 by (apply (pop_node P Hk)). apply (pop_node_new P); assumption.
      - intros x a Hx. rewrite B2, B1; [apply (pop_node_old P); assumption|]. rewrite (pop_nodes P). apply in_or_app; auto.
      - intros x y Hxy. apply in_app_or in Hxy as [Hxy|[[= <- <-]|[]]].
        + destruct (pop_edge_new P Hxy) as (i' & j' & c' & -> & -> & H1 & H2 & H3 & H4 & H5). exists i', j', c'.
          refine (conj eq_refl (conj eq_refl (conj H1 (conj H2 (conj H3 (conj H4 _)))))). intros a. rewrite A3, A2 by (apply Hnew; assumption). apply H5.
        + exists i, j, c. refine (conj eq_refl (conj eq_refl (conj Hi (conj Hj (conj Hij (conj HC _)))))). assumption.
      - intros x y a Hxy. rewrite A3, A2 by (apply Hold; assumption). apply (pop_edge_old P); assumption. }
    unfold mk_edge. destruct c as [z|].
    - apply ok_bind. eapply ok_weaken; [apply ok_eq; exact E1|]. intros u s Hs; cbn beta in Hs; destruct Hs as [-> ->].
      destruct lab.
      + destruct (set_edge_attr_views "label" (VS (str_of_Z z)) W1 Hin1) as (h2 & E2 & C1 & _ & C2 & C3 & C4 & C5 & _ & _ & C6).
        eapply ok_weaken; [apply ok_eq; exact E2|]. intros u s Hs; cbn beta in Hs; destruct Hs as [-> ->].
        apply R; auto.
        * pose proof (@set_edge_attr_wf h1 (NI i) (NI j) "label" (VS (str_of_Z z)) W1) as W2. rewrite E2 in W2. exact W2.
        * intros a. unfold edge_attr_of. destruct (eqb_spec a "label") as [->|Ha]; [exact C1|]. cbn [andb].
          rewrite C2 by auto. rewrite A1. unfold kw, fmt_attr. simpl dget. destruct (eqb_spec a "cost") as [->|Hac]; [reflexivity|].
          destruct (eq_dec a "cost"); [contradiction|]. destruct (eq_dec "cost" a); [congruence|]. reflexivity.
      + apply ok_ret. apply R; auto. intros a. rewrite A1. unfold edge_attr_of, kw, fmt_attr. rewrite Bool.andb_false_r. simpl dget.
        destruct (eqb_spec a "cost") as [->|Hac]; [reflexivity|]. destruct (eq_dec a "cost"); [contradiction|]. destruct (eq_dec "cost" a); [congruence|]. reflexivity.
    - eapply ok_weaken; [apply ok_eq; exact E1|]. intros u s Hs; cbn beta in Hs; destruct Hs as [-> ->].
      apply R; auto. 
  Qed.
End P.

(** ** the nodes *)
Lemma nodes_ok g n (body : Z -> M (graph * nat) unit) (NK : attrs -> Prop) fmt lab CP k : wf g -> free_names g n ->
  (forall i k, exists kw k', NK kw /\ NoDup (dkeys kw) /\ forall h, body i (h, k) = (let '(h', r) := add_node (NI i) kw h in ((h', k'), r))) ->
  ok (forM_ (zrange n) body) (g, k) (fun _ s => exists nf, (forall i, 0 <= i < n -> NK (nf i)) /\ populated g (fst s) n nf fmt lab CP []).
Proof.
  intros W F Hb.
  apply ok_forM with (I := fun pre s => wf (fst s) /\ g_type (fst s) = g_type g /\ get_node_list (fst s) = get_node_list g ++ map NI pre /\
     get_edge_list (fst s) = get_edge_list g /\
     (exists nf, (forall i, In i pre -> NK (nf i)) /\ forall i a, In i pre -> obs (get_node_attr (NI i) a) (fst s) = node_attr_of (nf i) a) /\
     (forall x a, In x (get_node_list g) -> obs (get_node_attr x a) (fst s) = obs (get_node_attr x a) g) /\
     (forall x y a, obs (get_edge_attr x y a) (fst s) = obs (get_edge_attr x y a) g)).
  - cbn [fst]. rewrite app_nil_r. repeat (split; [auto|]); [|split; auto]. exists (fun _ => []). split; intros i; [intros []|intros a []].
  - intros pre i post [h k1] E (W1 & T1 & N1 & L1 & (nf & K1 & A1) & B1 & C1). cbn [fst] in *.
    destruct (zrange_fresh E) as (Hi & Hin & Hpre). destruct (Hb i k1) as (kw & k2 & HK & Nd & Eb).
    assert (Hfr : ~ In (NI i) (get_node_list h)).
    { rewrite N1, in_app_iff, in_map_iff. intros [H|(x & [= ->] & Hx)]; [exact (F i Hin H)|contradiction]. }
    destruct (add_node_views W1 Nd Hfr) as (h2 & E2 & W2 & T2 & N2 & L2 & A2 & A3 & A4 & _).
    eapply ok_weaken; [apply ok_eq; rewrite Eb, E2; reflexivity|]. intros u s Hs; cbn beta in Hs; destruct Hs as [-> ->]. cbn [fst].
    split; [assumption|]. split; [congruence|]. split; [rewrite N2, N1, map_app, app_assoc; reflexivity|]. split; [congruence|]. split; [|split].
    + exists (fun j => if j =? i then kw else nf j). split.
      * intros j Hj. apply in_app_or in Hj as [Hj|[<-|[]]]; [destruct (Z.eqb_spec j i) as [->|]; [contradiction|auto]|rewrite Z.eqb_refl; assumption].
      * intros j a Hj. apply in_app_or in Hj as [Hj|[<-|[]]]; [|rewrite Z.eqb_refl; apply A2].
        destruct (Z.eqb_spec j i) as [->|Hji]; [contradiction|]. rewrite A3 by congruence. auto.
    + intros x a Hx. rewrite A3; [auto|]. intros ->. exact (F i Hin Hx).
    + intros. rewrite A4. auto.
  - intros [h k1] (W1 & T1 & N1 & L1 & (nf & K1 & A1) & B1 & C1). cbn [fst] in *. exists nf. split; [intros i Hi; apply K1, In_zrange; assumption|]. constructor; auto.
    + rewrite L1, app_nil_r. reflexivity.
    + intros i a Hi. apply A1, In_zrange. assumption.
    + intros x y [].
Qed.

Lemma kwargs_cost fmt len s (Q : attrs -> graph * nat -> Prop) : ~ In "cost" (dkeys fmt) -> Q (("cost", VI len) :: fmt) s -> ok (kwargs [("cost", VI len)] fmt) s Q.
Proof.
  intros Hn HQ. unfold kwargs. simpl. apply dmem_nIn in Hn. rewrite Hn. simpl. apply ok_ret. exact HQ.
Qed.

Section Modes.
  Variable o : oracle.
  Variable p : params.
  Variable g : graph.
  Hypothesis Wg : wf g.
  Hypothesis Hfree : free_names g (numnodes p).
  Hypothesis Hnd : NoDup (dkeys (edge_format p)).
  Notation n := (numnodes p).
  Notation fmt := (edge_format p).

  (* an edge with a cost, drawn or computed, and its label *)
  Lemma ok_cost_edge nf CP h k new i j len : ~ In "cost" (dkeys fmt) -> populated g h n nf fmt (add_labels p) CP new -> 0 <= i < n -> 0 <= j < n -> i <> j ->
    check_edge h (NI i) (NI j) = false -> CP i j (Some len) ->
    ok (add_cost_edge p i j len ;; if add_labels p then set_label i j len else ret tt) (h, k)
       (fun _ s => populated g (fst s) n nf fmt (add_labels p) CP (new ++ [(NI i, NI j)])).
  Proof.
    intros Hf P Hi Hj Hij Hc HC. pose proof (mk_edge_ok Hnd P Hi Hj Hij Hc HC (fun _ => Hf)) as HM. unfold mk_edge in HM.
    destruct (ok_ex HM) as (h2 & [] & E2 & P2).
    destruct (add_edge (NI i) (NI j) (("cost", VI len) :: fmt) h) as [h1 r] eqn:E1.
    unfold bind in E2. rewrite E1 in E2. destruct r as [[]|]; [|discriminate].
    apply ok_bind. unfold add_cost_edge. apply ok_bind, kwargs_cost; [assumption|]. apply ok_ong.
    eapply ok_weaken; [apply ok_eq; exact E1|]. intros u s Hs; cbn beta in Hs; destruct Hs as [-> ->].
    destruct (add_labels p).
    - unfold set_label. apply ok_ong. eapply ok_weaken; [apply ok_eq; exact E2|]. intros u s Hs; cbn beta in Hs; destruct Hs as [-> ->]. exact P2.
    - injection E2 as <-. apply ok_ret. exact P2.
  Qed.
  Lemma ok_plain_edge nf CP lab h k new i j : populated g h n nf fmt lab CP new -> 0 <= i < n -> 0 <= j < n -> i <> j ->
    check_edge h (NI i) (NI j) = false -> CP i j None ->
    ok (ong (add_edge (NI i) (NI j) fmt)) (h, k) (fun _ s => populated g (fst s) n nf fmt lab CP (new ++ [(NI i, NI j)])).
  Proof.
    intros P Hi Hj Hij Hc HC. apply ok_ong. refine (mk_edge_ok Hnd P Hi Hj Hij Hc HC _). intros H; destruct (H eq_refl).
  Qed.
  Lemma edge_old_in h nf lab CP new x y : populated g h n nf fmt lab CP new -> forall i, 0 <= i < n -> x = NI i \/ y = NI i ->
    In (x, y) (get_edge_list h) <-> In (x, y) new.
  Proof.
    intros P i Hi Hxy. rewrite (pop_edges P), in_app_iff. split; [|auto]. intros [H|H]; [|assumption]. exfalso. apply edge_in_check in H.
    destruct (new_not_old Hfree Wg (i := i) x Hi) as [_ H2]. destruct (new_not_old Hfree Wg (i := i) y Hi) as [H1 _]. destruct Hxy as [-> | ->]; congruence.
  Qed.
  Lemma ok_has_key h k i j (Q : bool -> graph * nat -> Prop) : Q (dmem (g_edges h) (NI i, NI j)) (h, k) -> ok (has_key i j) (h, k) Q.
  Proof. intros H. unfold has_key. apply ok_gets. exact H. Qed.

  Lemma tails_app x new e : tails x (new ++ [e]) = (tails x new + (if eqb (fst e) x then 1 else 0))%nat.
  Proof. unfold tails. rewrite filter_app, app_length. simpl. destruct (eqb (fst e) x); reflexivity. Qed.
  Lemma no_reversed_app new x y : no_reversed new -> x <> y -> ~ In (y, x) new -> no_reversed (new ++ [(x, y)]).
  Proof.
    intros H Hxy Hn a b. rewrite !in_app_iff. simpl. intros [Hab|[Hab|[]]] [Hba|[Hba|[]]]; try congruence.
    exact (H a b Hab Hba).
  Qed.

  (** ** degree ranges *)
  Section Degree.
    Variables lo hi d1 d2 : Z.
    Hypothesis Hlen : length_range p = Some (lo, hi).
    Hypothesis Hlo : lo <= hi.
    Hypothesis Hd : d1 <= d2.
    Hypothesis Hf : ~ In "cost" (dkeys fmt).
    Hypothesis Hlab : add_labels p = true.
    Hypothesis Hpar : parallel_allowed p = false \/ g_type g = Directed.
    Variable nf : Z -> attrs.
    Notation CP := (cost_in (Some (lo, hi))).
    Notation pop := (fun h new => populated g h n nf fmt (add_labels p) CP new).

    Lemma ok_degree_try m h k new : 2 <= n -> 0 <= m < n -> pop h new ->
      ok (degree_try o p m) (h, k) (fun _ s => exists new', pop (fst s) new' /\
        (new' = new \/ exists j, 1 <= j < n /\ m <> j /\ new' = new ++ [(NI m, NI j)] /\ ~ In (NI m, NI j) new /\ (parallel_allowed p = false -> ~ In (NI j, NI m) new))).
    Proof.
      intros Hn Hm P. unfold degree_try. apply ok_bind, ok_randint; [lia|]. intros j Hj. cbn [fst snd].
      apply ok_bind, ok_has_key. apply ok_bind, ok_has_key.
      destruct ((negb _ && _) && _) eqn:Eb.
      2:{ apply ok_ret. exists new. auto. }
      apply andb_prop in Eb as [Eb E3]. apply andb_prop in Eb as [E1 E2].
      apply negb_true_iff in E1, E2. apply Z.eqb_neq in E2. rewrite Hlen. apply ok_bind, ok_randint; [assumption|]. intros len Hl. cbn [fst snd].
      assert (Hj' : 0 <= j < n) by lia.
      assert (K1 : ~ In (NI m, NI j) new).
      { apply dmem_nIn in E1. intros H. apply E1. apply (edge_old_in P Hm (or_introl eq_refl)). assumption. }
      assert (K2 : parallel_allowed p = false -> ~ In (NI j, NI m) new).
      { intros Hp. rewrite Hp in E3. simpl in E3. apply negb_true_iff, dmem_nIn in E3. intros H. apply E3. apply (edge_old_in P Hm (or_intror eq_refl)). assumption. }
      assert (Hc : check_edge h (NI m) (NI j) = false).
      { unfold check_edge. rewrite E1, (pop_type P). destruct (g_type g) eqn:T; [reflexivity|]. simpl.
        destruct Hpar as [Hp|]; [|discriminate]. rewrite Hp in E3. simpl in E3. apply negb_true_iff in E3. exact E3. }
      rewrite Hlab. pose proof (@ok_cost_edge nf CP h (S (S k)) new m j len Hf P Hm Hj' E2 Hc) as HO. rewrite Hlab in HO.
      eapply ok_weaken; [apply HO; exists len; auto|]. intros u s Ps. cbn beta in Ps. rewrite Hlab in *.
      exists (new ++ [(NI m, NI j)]). split; [exact Ps|]. right. exists j. split; [lia|]. auto.
    Qed.
    Record dinv (pre : list Z) (new : list (name * name)) : Prop := {
      di_head : forall x y, In (x, y) new -> y <> NI 0;
      di_rev : parallel_allowed p = false -> no_reversed new;
      di_max : forall m, (tails (NI m) new <= Z.to_nat d2)%nat;
      di_none : forall m, ~ In m pre -> tails (NI m) new = 0%nat
    }.
    Lemma ok_degree_node m h k pre new : 2 <= n \/ d2 <= 0 -> 0 <= m < n -> ~ In m pre -> dinv pre new -> pop h new ->
      ok (degree_node o p d1 d2 m) (h, k) (fun _ s => exists new', dinv (pre ++ [m]) new' /\ pop (fst s) new').
    Proof.
      intros Hn Hm Hpre D P. unfold degree_node. apply ok_bind, ok_randint; [assumption|]. intros d Hd'. cbn [fst snd].
      apply ok_forM with (I := fun done s => exists new', pop (fst s) new' /\ (forall x y, In (x, y) new' -> y <> NI 0) /\ (parallel_allowed p = false -> no_reversed new') /\
        (tails (NI m) new' <= length done)%nat /\ (forall m', m' <> m -> tails (NI m') new' = tails (NI m') new)).
      - exists new. split; [exact P|]. split; [apply (di_head D)|]. split; [apply (di_rev D)|]. split; [rewrite (di_none D Hpre); simpl; lia|auto].
      - intros done a post [h1 k1] E (n1 & P1 & A1 & A2 & A3 & A4). cbn [fst] in *.
        assert (Hd0 : 0 < d) by (assert (In a (zrange d)) by (rewrite E; apply in_elt); apply In_zrange in H; lia).
        assert (Hn2 : 2 <= n) by (destruct Hn; [assumption|lia]).
        eapply ok_weaken; [apply (ok_degree_try k1 Hn2 Hm P1)|]. intros u [h2 k2] (n2 & P2 & Hc). cbn [fst] in *. exists n2. split; [exact P2|].
        rewrite app_length. destruct Hc as [->|(j & Hj & Hmj & -> & K1 & K2)].
        + split; [assumption|]. split; [assumption|]. split; [lia|assumption].
        + split; [|split; [|split]].
          * intros x y H. apply in_app_or in H as [H|[[= <- <-]|[]]]; [eauto|]. intros [= ->]. lia.
          * intros Hp. apply no_reversed_app; [auto|congruence|auto].
          * rewrite tails_app. simpl. destruct (eqb (NI m) (NI m)); lia.
          * intros m' Hm'. rewrite tails_app. simpl. destruct (eqb_spec (NI m) (NI m')); [congruence|]. rewrite A4 by assumption. lia.
      - intros [h1 k1] (n1 & P1 & A1 & A2 & A3 & A4). cbn [fst] in *. exists n1. split; [|exact P1]. rewrite length_zrange in A3. constructor; auto.
        + intros m'. destruct (Z.eq_dec m' m) as [->|Hmm]; [lia|]. rewrite A4 by assumption. apply (di_max D).
        + intros m' Hm'. rewrite in_app_iff in Hm'. rewrite A4 by (intros ->; simpl in Hm'; tauto). apply (di_none D). tauto.
    Qed.
    Lemma ok_degree h k : 2 <= n \/ d2 <= 0 -> pop h [] ->
      ok (forM_ (zrange n) (degree_node o p d1 d2)) (h, k) (fun _ s => exists new, dinv (zrange n) new /\ pop (fst s) new).
    Proof.
      intros Hn P. apply ok_forM with (I := fun pre s => exists new, dinv pre new /\ pop (fst s) new); [| |auto].
      - exists []. split; [|exact P]. constructor; unfold tails; simpl; auto; try lia; try contradiction. intros _ x y [].
      - intros pre m post [h1 k1] E (new & D & P1). destruct (zrange_fresh E) as (Hi & Hin & Hpre). cbn [fst] in P1. apply (ok_degree_node k1 Hn Hin Hi D P1).
    Qed.
  End Degree.

  (** ** densities; [edge_of m n] is what happens once the coin has come up *)
  Section Density.
    Variable edge_of : Z -> Z -> M (graph * nat) unit.
    Variable nf : Z -> attrs.
    Variable CP : Z -> Z -> option Z -> Prop.
    Notation pop := (fun h new => populated g h n nf fmt (add_labels p) CP new).
    Hypothesis Hedge : forall h k new i j, pop h new -> 0 <= i < n -> 0 <= j < n -> i <> j -> check_edge h (NI i) (NI j) = false ->
      ok (edge_of i j) (h, k) (fun _ s => pop (fst s) (new ++ [(NI i, NI j)])).
    Definition try_of (m j : Z) : M (graph * nat) unit :=
      b <- has_key j m ;;
      if (parallel_allowed p || negb b) && negb (m =? j) then c <- draw_coin o ;; (if c : bool then edge_of m j else ret tt) else ret tt.
    Record sinv (pre : list Z) (m : Z) (pre2 : list Z) (new : list (name * name)) : Prop := {
      si_dom : forall i j, In (NI i, NI j) new -> In i pre \/ i = m /\ In j pre2;
      si_und : g_type g = Undirected -> forall i j, In (NI i, NI j) new -> j < i;
      si_rev : parallel_allowed p = false -> no_reversed new
    }.
    Lemma ok_try m j h k pre pre2 new : pop h new -> 0 <= m < n -> 0 <= j < n -> ~ In m pre -> ~ In j pre2 -> (g_type g = Undirected -> j < m) -> sinv pre m pre2 new ->
      ok (try_of m j) (h, k) (fun _ s => exists new', pop (fst s) new' /\ sinv pre m (pre2 ++ [j]) new').
    Proof.
      intros P Hm Hj Hp1 Hp2 Hu S. unfold try_of. apply ok_bind, ok_has_key.
      assert (S' : sinv pre m (pre2 ++ [j]) new).
      { destruct S as [S1 S2 S3]. constructor; auto. intros i j' H. destruct (S1 i j' H) as [|[-> ?]]; [auto|]. right. split; [reflexivity|]. apply in_or_app; auto. }
      destruct (_ && _) eqn:E; [|apply ok_ret; exists new; split; [exact P|exact S']]. apply andb_prop in E as [E1 E2]. apply negb_true_iff, Z.eqb_neq in E2.
      apply ok_bind, ok_coin. intros [|]; cbn [fst snd]; [|apply ok_ret; exists new; split; [exact P|exact S']].
      assert (K1 : ~ In (NI m, NI j) new) by (intros H; destruct (si_dom S H) as [|[_ ?]]; contradiction).
      assert (K0 : dmem (g_edges h) (NI m, NI j) = false).
      { apply dmem_nIn. intros H. apply K1. apply (edge_old_in P Hm (or_introl eq_refl)). exact H. }
      assert (K2 : g_type g = Undirected -> dmem (g_edges h) (NI j, NI m) = false).
      { intros T. apply dmem_nIn. intros H. apply (edge_old_in P Hm (or_intror eq_refl)) in H. pose proof (si_und S T H). specialize (Hu T). lia. }
      assert (Hc : check_edge h (NI m) (NI j) = false) by (unfold check_edge; rewrite K0, (pop_type P); destruct (g_type g); [reflexivity|simpl; auto]).
      eapply ok_weaken; [exact (@Hedge h (Datatypes.S k) new m j P Hm Hj E2 Hc)|].
      - intros u [h2 k2] P2. cbn [fst] in *. exists (new ++ [(NI m, NI j)]). split; [exact P2|]. constructor.
        + intros a b H. apply in_app_or in H as [H|[[= <- <-]|[]]]; [apply (si_dom S'); assumption|]. right. split; [reflexivity|]. apply in_or_app; simpl; auto.
        + intros T a b H. apply in_app_or in H as [H|[[= <- <-]|[]]]; [apply (si_und S T); assumption|auto].
        + intros Hp. apply no_reversed_app; [apply (si_rev S Hp)|congruence|]. intros H. rewrite Hp in E1. simpl in E1. apply negb_true_iff, dmem_nIn in E1. apply E1.
          apply (edge_old_in P Hm (or_intror eq_refl)). exact H.
    Qed.
    Lemma ok_density h k : pop h [] ->
      ok (forM_ (zrange n) (fun m => l <- others p m ;; forM_ l (try_of m))) (h, k) (fun _ s => exists new, pop (fst s) new /\ (parallel_allowed p = false -> no_reversed new) /\
        (g_type g = Undirected -> forall i j, In (NI i, NI j) new -> j < i)).
    Proof.
      intros P. apply ok_forM with (I := fun pre s => exists new, pop (fst s) new /\ forall m, sinv pre m [] new).
      - exists []. split; [exact P|]. intros m. constructor; [intros i j []|intros _ i j []|intros _ x y []].
      - intros pre m post [h1 k1] E (new & P1 & S). cbn [fst] in P1. destruct (zrange_fresh E) as (Hi & Hin & Hpre).
        unfold others. apply ok_bind, ok_bind, ok_gets, ok_ret. cbn [fst]. rewrite (pop_type P1).
        set (l := match g_type g with Directed => zrange n | Undirected => zrange m end).
        assert (Hl : forall pre2 j post2, l = pre2 ++ j :: post2 -> ~ In j pre2 /\ 0 <= j < n /\ (g_type g = Undirected -> j < m)).
        { intros pre2 j post2 El. unfold l in El. destruct (g_type g); destruct (zrange_fresh El) as (A & B & _); (split; [assumption|]); (split; [lia|]); [discriminate|lia]. }
        apply ok_forM with (I := fun pre2 s => exists new, pop (fst s) new /\ sinv pre m pre2 new).
        + exists new. split; [exact P1|apply S].
        + intros pre2 j post2 [h2 k2] El (n2 & P2 & S2). cbn [fst] in P2. destruct (Hl _ _ _ El) as (A & B & C). apply (ok_try k2 P2 Hin B Hi A C S2).
        + intros [h2 k2] (n2 & P2 & S2). exists n2. split; [exact P2|]. intros m'. destruct S2 as [S3 S4 S5]. constructor; auto.
          intros i j H. left. apply in_or_app. destruct (S3 i j H) as [|[-> _]]; simpl; auto.
      - intros [h1 k1] (new & P1 & S). exists new. split; [exact P1|]. destruct (S 0) as [S3 S4 S5]. auto.
    Qed.
  End Density.
End Modes.
