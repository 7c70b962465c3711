(* The model of search simulates the pure machine of P_SearchAbs. *)
From Verif Require Import Py Util M_Graph M_Search P_Graph P_GraphLaws Spec P_Walk P_Attr S_Frontier P_SearchAbs.
Set Implicit Arguments. Unset Strict Implicit.
Local Open Scope string_scope. Local Open Scope list_scope.

Definition search_node_attrs : list string := ["label"; "priority"; "distance"; "color"; "component"; "depth"].

Section Rel.
  Variable g0 : graph.
  Hypothesis W0 : wf g0.
  Variable component : option Z.
  Variable base_comp : name -> val.
  Notation V := (get_node_list g0).

  (* attribute contents of h: green nodes, distances, priorities of green nodes, marked components *)
  Record R (gr : list name) (dist prio : name -> option Z) (cs : name -> bool) (h : graph) : Prop := {
    r_ss : same_shape g0 h;
    r_attr : g_attr h = g_attr g0;
    r_ncomp : g_ncomp h = g_ncomp g0;
    r_eattr : forall x y b, b <> "color" -> eattr h x y b = eattr g0 x y b;
    r_nattr : forall x b, ~ In b search_node_attrs -> nattr h x b = nattr g0 x b;
    r_green : forall x, In x V -> nattr h x "color" = VS "green" <-> In x gr;
    r_dist : forall x, In x V -> nattr h x "distance" = voZ (dist x);
    r_prio : forall x, prio x <> None -> nattr h x "priority" = voZ (prio x);
    r_comp : forall x, In x V -> nattr h x "component" = match component with Some c => if cs x then VI c else base_comp x | None => base_comp x end
  }.
  Lemma wf_V x : In x V <-> In x (dkeys (g_nodes g0)).
  Proof. unfold get_node_list. rewrite (wf_nodes W0). reflexivity. Qed.
  Lemma R_V gr d p cs h x : R gr d p cs h -> In x V -> In x (dkeys (g_nodes h)).
  Proof. intros H Hx. rewrite (ss_nodes (r_ss H)). apply wf_V; assumption. Qed.
  Lemma R_wf gr d p cs h : R gr d p cs h -> wf h.
  Proof. intros H. eapply ss_wf; [apply (r_ss H)|assumption]. Qed.

  Lemma pair_eqb (x n : name) (b a : string) (A : Type) (u v : A) :
    (if eq_dec (x, b) (n, a) then u else v) = if eqb b a && eqb x n then u else v.
  Proof.
    destruct (eq_dec (x, b) (n, a)) as [[= -> ->]|Hne]; [rewrite !eqb_refl; reflexivity|].
    destruct (eqb_spec b a), (eqb_spec x n); simpl; congruence.
  Qed.
  (* setting one node attribute: generic step *)
  Lemma R_set gr d p cs h n a v gr' (d' p' : name -> option Z) (cs' : name -> bool) :
    R gr d p cs h -> In n V -> In a search_node_attrs ->
    (forall x, In x V -> (if eqb "color" a && eqb x n then v else nattr h x "color") = VS "green" <-> In x gr') ->
    (forall x, In x V -> (if eqb "distance" a && eqb x n then v else nattr h x "distance") = voZ (d' x)) ->
    (forall x, p' x <> None -> (if eqb "priority" a && eqb x n then v else nattr h x "priority") = voZ (p' x)) ->
    (forall x, In x V -> (if eqb "component" a && eqb x n then v else nattr h x "component") = match component with Some c => if cs' x then VI c else base_comp x | None => base_comp x end) ->
    ok (set_node_attr n a v) h (fun _ h' => R gr' d' p' cs' h').
  Proof.
    intros H Hn Ha H1 H2 H3 H4. apply ok_set_node_attr; [eapply R_V; eauto|].
    intros h' S Hna Hea Hat Hnc _.
    constructor.
    - eapply ss_trans; [apply (r_ss H)|exact S].
    - rewrite Hat. apply (r_attr H).
    - rewrite Hnc. apply (r_ncomp H).
    - intros x y b Hb. rewrite Hea. apply (r_eattr H); assumption.
    - intros x b Hb. rewrite Hna. destruct (eq_dec (x, b) (n, a)) as [[= -> ->]|_]; [contradiction|]. apply (r_nattr H); assumption.
    - intros x Hx. rewrite Hna, pair_eqb. apply H1; assumption.
    - intros x Hx. rewrite Hna, pair_eqb. apply H2; assumption.
    - intros x Hx. rewrite Hna, pair_eqb. apply H3; assumption.
    - intros x Hx. rewrite Hna, pair_eqb. apply H4; assumption.
  Qed.
  Ltac cst := repeat match goal with |- context [@eqb string ?E ?a ?b] =>
     let v := eval vm_compute in (@eqb string E a b) in change (@eqb string E a b) with v end; cbn [andb].
  Ltac insn := simpl; tauto.
  Lemma R_label gr d p cs h n v : R gr d p cs h -> In n V -> ok (set_node_attr n "label" v) h (fun _ h' => R gr d p cs h').
  Proof. intros H Hn. apply (R_set H Hn); cst; [insn|apply (r_green H)|apply (r_dist H)|apply (r_prio H)|apply (r_comp H)]. Qed.
  Lemma R_depth gr d p cs h n v : R gr d p cs h -> In n V -> ok (set_node_attr n "depth" v) h (fun _ h' => R gr d p cs h').
  Proof. intros H Hn. apply (R_set H Hn); cst; [insn|apply (r_green H)|apply (r_dist H)|apply (r_prio H)|apply (r_comp H)]. Qed.
  Lemma R_distance gr d p cs h n z : R gr d p cs h -> In n V -> ok (set_node_attr n "distance" (VI z)) h (fun _ h' => R gr (upd d n (Some z)) p cs h').
  Proof.
    intros H Hn. apply (R_set H Hn); cst; [insn|apply (r_green H)| |apply (r_prio H)|apply (r_comp H)].
    intros x Hx. unfold upd. destruct (eqb_spec x n) as [->|Hne]; destruct (eq_dec n x) || destruct (eq_dec n n); try congruence; [reflexivity|].
    apply (r_dist H); assumption.
  Qed.
  Lemma R_priority gr d p cs h n o : R gr d p cs h -> In n V -> ok (set_node_attr n "priority" (voZ o)) h (fun _ h' => R gr d (upd p n o) cs h').
  Proof.
    intros H Hn. apply (R_set H Hn); cst; [insn|apply (r_green H)|apply (r_dist H)| |apply (r_comp H)].
    intros x. unfold upd. destruct (eqb_spec x n) as [->|Hne].
    - destruct (eq_dec n n); congruence.
    - destruct (eq_dec n x); [congruence|]. apply (r_prio H).
  Qed.
  Lemma R_color gr d p cs h n c : R gr d p cs h -> In n V -> ~ In n gr -> c <> "green" -> ok (set_node_attr n "color" (VS c)) h (fun _ h' => R gr d p cs h').
  Proof.
    intros H Hn Hg Hc. apply (R_set H Hn); cst; [insn| |apply (r_dist H)|apply (r_prio H)|apply (r_comp H)].
    intros x Hx. destruct (eqb_spec x n) as [->|Hne]; [|apply (r_green H); assumption]. split; [congruence|contradiction].
  Qed.
  Lemma R_component gr d p cs h n c : component = Some c -> R gr d p cs h -> In n V ->
    ok (set_node_attr n "component" (VI c)) h (fun _ h' => R gr d p (fun x => eqb x n || cs x) h').
  Proof.
    intros Hc H Hn. apply (R_set H Hn); cst; [insn|apply (r_green H)|apply (r_dist H)|apply (r_prio H)|].
    intros x Hx. rewrite (r_comp H Hx), Hc. destruct (eqb_spec x n) as [->|Hne]; reflexivity.
  Qed.
  Lemma R_cs gr d p cs cs' h : R gr d p cs h -> (component <> None -> forall x, In x V -> cs x = cs' x) -> R gr d p cs' h.
  Proof.
    intros [H1 H2 H3 H4 H5 H6 H7 H8 H9] He. constructor; auto. intros x Hx. rewrite H9 by assumption.
    destruct component; [|reflexivity]. rewrite He; [reflexivity|discriminate|assumption].
  Qed.
  Lemma R_setcomp gr d p cs h n : R gr d p cs h -> In n V -> ok (set_component n component) h (fun _ h' => R gr d p (fun x => eqb x n || cs x) h').
  Proof.
    intros H Hn. unfold set_component. destruct component as [c|] eqn:Hc.
    - apply ok_bind. eapply ok_weaken; [apply (R_component Hc H Hn)|]. intros u h1 H1; cbn beta in H1.
      apply R_label; assumption.
    - apply ok_ret. eapply R_cs; [exact H|]. congruence.
  Qed.
  Lemma R_source_comp gr d p cs h n : base_comp n = voZ component -> R gr d p cs h -> In n V ->
    ok (match component with Some c => set_node_attr n "component" (VI c) ;; set_node_attr n "label" (VI c) | None => set_node_attr n "label" (VI 0) end) h
      (fun _ h' => R gr d p cs h').
  Proof.
    intros Hb H Hn. destruct component as [c|] eqn:Hc; [|apply R_label; assumption].
    apply ok_bind. eapply ok_weaken; [apply (R_component Hc H Hn)|]. intros u h1 H1; cbn beta in H1.
    eapply ok_weaken; [apply (R_label (VI c) H1 Hn)|]. intros u2 h2 H2; cbn beta in H2.
    destruct H2 as [A1 A2 A3 A4 A5 A6 A7 A8 A9]. constructor; auto. intros x Hx. rewrite A9 by assumption. rewrite Hc in *.
    destruct (eqb_spec x n) as [->|Hne]; [|reflexivity]. simpl. rewrite Hb. destruct (cs n); reflexivity.
  Qed.
  Lemma R_edge gr d p cs h x y c : R gr d p cs h -> check_edge g0 x y = true -> ok (set_edge_attr x y "color" c) h (fun _ h' => R gr d p cs h').
  Proof.
    intros H Hc. apply ok_set_edge_attr; [eapply R_wf; eauto|rewrite (ss_check_edge x y (r_ss H)); assumption|].
    intros h' S Hna Hea Hat Hnc _. constructor.
    - eapply ss_trans; [apply (r_ss H)|exact S].
    - rewrite Hat. apply (r_attr H).
    - rewrite Hnc. apply (r_ncomp H).
    - intros x' y' b Hb. rewrite Hea. destruct (eqb_spec b "color"); [congruence|]. apply (r_eattr H); assumption.
    - intros z b Hb. rewrite Hna. apply (r_nattr H); assumption.
    - intros z Hz. rewrite Hna. apply (r_green H); assumption.
    - intros z Hz. rewrite Hna. apply (r_dist H); assumption.
    - intros z Hz. rewrite Hna. apply (r_prio H); assumption.
    - intros z Hz. rewrite Hna. apply (r_comp H); assumption.
  Qed.
  (* turning the current node green *)
  Lemma R_greening gr d p cs h n : R gr d p cs h -> In n V -> ok (set_node_attr n "color" (VS "green")) h (fun _ h' => R (n :: gr) d p cs h').
  Proof.
    intros H Hn. apply (R_set H Hn); cst; [insn| |apply (r_dist H)|apply (r_prio H)|apply (r_comp H)].
    intros x Hx. destruct (eqb_spec x n) as [->|Hne]; simpl; [tauto|]. rewrite (r_green H Hx). split; [auto|intros [?|?]; congruence].
  Qed.
End Rel.

(* neighbours followed by search, as lists *)
Definition nbd (g : graph) (rev : bool) : dict name (list name) :=
  match g_type g, rev with Directed, true => g_in g | _, _ => g_nbrs g end.
Lemma nbd_keys g rev : wf g -> dkeys (nbd g rev) = get_node_list g.
Proof. intros W. unfold nbd, get_node_list. destruct (g_type g) eqn:Ht, rev; try reflexivity. apply wf_in_keys; assumption. Qed.
Lemma check_edge_sym g x y : g_type g = Undirected -> check_edge g x y = check_edge g y x.
Proof. intros Ht. unfold check_edge. rewrite Ht. apply Bool.orb_comm. Qed.
Lemma nbd_sarc g rev x y : wf g -> In y (list_at (nbd g rev) x) <-> sarc g rev x y.
Proof.
  intros W. unfold nbd, sarc, arc. destruct (g_type g) eqn:Ht, rev.
  - rewrite (wf_in_In W Ht). unfold check_edge. rewrite Ht. symmetry. apply dmem_In.
  - split; [apply nbr_check_edge|apply check_edge_nbr]; assumption.
  - split; [apply nbr_check_edge|apply check_edge_nbr]; assumption.
  - split; [apply nbr_check_edge|apply check_edge_nbr]; assumption.
Qed.
Lemma sarc_color g rev x y : wf g -> sarc g rev x y -> (if rev then check_edge g y x else check_edge g x y) = true.
Proof.
  intros W. unfold sarc, arc. destruct (g_type g) eqn:Ht, rev; auto. rewrite check_edge_sym; auto.
Qed.
Lemma sarc_V g rev x y : wf g -> sarc g rev x y -> In x (get_node_list g) /\ In y (get_node_list g).
Proof.
  intros W H. unfold sarc, arc in H. destruct (g_type g), rev; apply (check_edge_nodes W) in H; unfold get_node_list; tauto.
Qed.

Lemma visit_pred fr (s : ast fr) cur : a_pred (a_visit s cur) = a_pred s.
Proof. unfold a_visit. destruct (fq_is_pq fr); reflexivity. Qed.
Lemma visit_q fr (s : ast fr) cur : a_q (a_visit s cur) = a_q s.
Proof. unfold a_visit. destruct (fq_is_pq fr); reflexivity. Qed.
Lemma visit_gr fr (s : ast fr) cur : a_gr (a_visit s cur) = a_gr s.
Proof. unfold a_visit. destruct (fq_is_pq fr); reflexivity. Qed.

Section Sim.
  Variable fr : frontier.
  Variable al : algo.
  Variable g0 : graph.
  Hypothesis W0 : wf g0.
  Variable rev : bool.
  Variable component : option Z.
  Variable s0 : name.
  Variable dest : option name.
  Notation V := (get_node_list g0).
  Hypothesis Hs0 : In s0 V.
  Hypothesis Hal : al <> OtherAlgo.
  Hypothesis Hpqa : fq_is_pq fr = is_pq_algo al.

  Definition snb (x : name) : list name := list_at (nbd g0 rev) x.
  Definition scost (x y : name) : option Z := match eattr g0 x y "cost" with Some (VI z) => Some z | _ => None end.
  Definition base_comp (x : name) : val :=
    if negb (is_pq_algo al) && eqb x s0 then voZ component else nattr g0 x "component".
  Definition cs_of (s : ast fr) (x : name) : bool := negb (is_pq_algo al) && dmem (a_pred s) x.
  Definition RR (s : ast fr) (h : graph) : Prop := R g0 component base_comp (a_gr s) (a_dist s) (a_prio s) (cs_of s) h.
  Notation edge_ := (a_edge al scost).
  Notation scan_ := (a_scan al scost).
  Notation iter_ := (a_iter al snb scost s0 dest).
  Notation loop_ := (a_loop al snb scost s0 dest).

  Ltac wk L := eapply ok_weaken; [eapply L; eauto; discriminate|]; let x := fresh "u" in let h := fresh "h" in let H := fresh "HR" in intros x h H; cbn beta in H.

  Lemma snb_V x y : In y (snb x) -> In x V /\ In y V.
  Proof. intros H. apply (nbd_sarc rev x y W0) in H. eapply sarc_V; eauto. Qed.
  Lemma sim_color s h x y c : RR s h -> In y (snb x) -> ok (color_edge rev x y c) h (fun _ h' => RR s h').
  Proof.
    intros H Hxy. apply (nbd_sarc rev x y W0) in Hxy. pose proof (sarc_color W0 Hxy) as Hc. unfold color_edge.
    destruct rev; apply (R_edge W0); assumption.
  Qed.
  Lemma sim_edge cur n s s' h : RR s h -> In n (snb cur) -> ~ In n (a_gr s) -> edge_ cur n s = Some s' ->
    ok (process_edge al component cur n (a_pred s, a_q s)) h (fun st h' => st = (a_pred s', a_q s') /\ RR s' h').
  Proof.
    intros H Hn Hg He. destruct (snb_V Hn) as [HcV HnV].
    destruct (is_pq_algo al) eqn:Hpa.
    - (* Dijkstra, Prim *)
      assert (G : forall pc c, base al s cur = Some pc -> scost cur n = Some c -> ok (relax_pq cur n (pc + c)%Z (a_pred s, a_q s)) h (fun st h' => st = (a_pred s', a_q s') /\ RR s' h')).
      { intros pc c Hb Hc. unfold a_edge in He. rewrite Hpa, Hb, Hc in He. unfold relax_pq, get_priority, push_prio. rewrite Hpqa.
        assert (Hup : forall (b : bool), (b = true -> s' = mkA (dset (a_pred s) n cur) (fq_push (a_q s) n (Some (pc + c)%Z)) (a_gr s) (a_dist s) (a_prio s)) ->
            (b = false -> s' = s) ->
            ok (if b then set_node_attr n "color" (VS "red") ;; set_node_attr n "label" (VI (pc + c)) ;;
                 q <- (ret (fq_push (a_q s) n (Some (pc + c)%Z)) : M graph _) ;; set_node_attr n "color" (VS "black") ;; ret (dset (a_pred s) n cur, q)
                else ret (a_pred s, a_q s)) h (fun st h' => st = (a_pred s', a_q s') /\ RR s' h')).
        { intros [|] H1 H2.
          - specialize (H1 eq_refl). clear H2. subst s'. simpl.
            apply ok_bind. wk R_color. apply ok_bind. wk R_label. apply ok_bind. apply ok_ret. apply ok_bind. wk R_color.
            apply ok_ret. split; [reflexivity|]. unfold RR; simpl. eapply R_cs; [eassumption|]. intros _ x _. unfold cs_of. rewrite Hpa. reflexivity.
          - specialize (H2 eq_refl). subst s'. apply ok_ret. split; [reflexivity|assumption]. }
        apply ok_bind. destruct (dmem (a_pred s) n) eqn:Hd; simpl.
        - destruct (fq_prio (a_q s) n) as [p|] eqn:Hp; [|discriminate]. apply ok_bind. apply ok_ret. simpl. apply ok_bind. apply ok_ret. apply ok_ret.
          apply Hup; intros Hb'; rewrite Hb' in He; congruence.
        - apply ok_ret. apply (Hup true); congruence. }
      assert (Hpc : exists pc c, base al s cur = Some pc /\ scost cur n = Some c).
      { unfold a_edge in He. rewrite Hpa in He. destruct (base al s cur) as [pc|]; [|discriminate]. destruct (scost cur n) as [c|]; [|discriminate]. eauto. }
      destruct Hpc as (pc & c & Hb & Hc). specialize (G pc c Hb Hc).
      assert (Hec : eattr h cur n "cost" = Some (VI c)).
      { rewrite (r_eattr H) by discriminate. unfold scost in Hc. destruct (eattr g0 cur n "cost") as [[| |z|]|]; congruence. }
      unfold base in Hb. destruct al; try discriminate; simpl.
      + unfold process_edge_dijkstra, get_priority. rewrite Hpqa. simpl.
        apply ok_bind, ok_ret, ok_bind. eapply ok_get_edge_attr; [exact Hec|]. rewrite Hb. apply ok_bind, ok_ret, ok_bind, ok_ret. exact G.
      + unfold process_edge_prim. injection Hb as <-.
        apply ok_bind. eapply ok_get_edge_attr; [exact Hec|]. apply ok_bind, ok_ret. exact G.
    - (* DFS, BFS *)
      unfold a_edge in He. rewrite Hpa in He. destruct (a_dist s cur) as [d|] eqn:Hdc; [|discriminate].
      assert (G : ok (d <- get_node_attr cur "distance" ;; d <- as_int d ;; let distance := (d + 1)%Z in
          dn <- get_node_attr n "distance" ;;
          if is_bfs al && negb (eqb dn VNone) then ret (a_pred s, a_q s)
          else set_node_attr n "distance" (VI distance) ;; set_node_attr n "label" (VS (str_of_Z distance)) ;;
            finish_edge component cur n (a_pred s, fq_push (a_q s) n None)) h (fun st h' => st = (a_pred s', a_q s') /\ RR s' h')).
      { apply ok_bind. apply ok_get_node_attr; [eapply R_V; eauto|]. rewrite (r_dist H HcV), Hdc. apply ok_bind, ok_ret. cbv zeta.
        apply ok_bind. apply ok_get_node_attr; [eapply R_V; eauto|]. rewrite (r_dist H HnV).
        assert (Heq : negb (eqb (voZ (a_dist s n)) VNone) = match a_dist s n with Some _ => true | None => false end).
        { destruct (a_dist s n); reflexivity. }
        rewrite Heq. destruct (is_bfs al && _).
        - injection He as <-. apply ok_ret. auto.
        - injection He as <-. apply ok_bind. wk R_distance. apply ok_bind. wk R_label. unfold finish_edge.
          apply ok_bind. wk R_color. apply ok_bind. wk R_setcomp. apply ok_ret. split; [reflexivity|].
          unfold RR; simpl. eapply R_cs; [eassumption|]. intros _ x _. unfold cs_of. simpl. rewrite Hpa. simpl. rewrite dmem_dset.
          destruct (eqb_spec x n), (eqb_spec n x); congruence. }
      destruct al; try discriminate; try congruence; unfold process_edge; rewrite Hpqa; exact G.
  Qed.
  Lemma sim_scan cur l : forall s s' h, RR s h -> (forall n, In n l -> In n (snb cur)) -> scan_ cur l s = Some s' ->
    ok (scan_neighbors al component rev cur l (a_pred s, a_q s)) h (fun st h' => st = (a_pred s', a_q s') /\ RR s' h').
  Proof.
    induction l as [|n l IH]; intros s s' h H Hl Hs; simpl in Hs.
    - injection Hs as <-. apply ok_ret. auto.
    - unfold scan_neighbors. simpl. assert (Hn : In n (snb cur)) by (apply Hl; simpl; auto). destruct (snb_V Hn) as [HcV HnV].
      apply ok_bind. apply ok_bind. apply ok_get_node_attr; [eapply R_V; eauto|].
      destruct (mem_spec n (a_gr s)) as [Hg|Hg].
      + apply (r_green H HnV) in Hg. rewrite Hg. simpl. apply ok_ret. apply IH; [assumption|intros; apply Hl; simpl; auto|assumption].
      + destruct (eqb_spec (nattr h n "color") (VS "green")) as [Hc|_]; [apply (r_green H HnV) in Hc; contradiction|].
        destruct (edge_ cur n s) as [s1|] eqn:He; [|discriminate].
        apply ok_bind. wk sim_color. apply ok_bind. wk sim_edge. destruct HR0 as [-> HR0].
        apply ok_bind. wk sim_color. apply ok_ret. apply IH; [assumption|intros; apply Hl; simpl; auto|assumption].
  Qed.
  Lemma RR_visit cur s h : RR s h -> In cur V -> ok (process_node_search cur (a_q s)) h (fun _ h' => RR (a_visit s cur) h').
  Proof.
    intros H Hc. unfold process_node_search, a_visit. destruct (fq_is_pq fr).
    - eapply ok_weaken; [apply (R_priority W0 (fq_prio (a_q s) cur) H Hc)|]. intros u h' H'; cbn beta in H'. exact H'.
    - apply ok_ret. exact H.
  Qed.
  Definition good (s : ast fr) : Prop :=
    (forall x p, dget (a_pred s) x = Some p -> In x (snb p)) /\ (forall x, fq_peek (a_q s) = Some x -> fq_isEmpty (a_q s) = false -> In x V).
  Lemma sim_iter s h r : RR s h -> good s -> iter_ s = Some r ->
    ok (search_iter al component rev s0 dest (nbd g0 rev) (a_pred s, a_q s)) h
      (fun r' h' => match r, r' with
        | inl s', inl st => st = (a_pred s', a_q s') /\ RR s' h'
        | inr (s', f), inr x => x = (f, a_pred s') /\ RR s' h'
        | _, _ => False end).
  Proof.
    intros H [Hgp HgV] Hi. unfold a_iter in Hi. unfold search_iter.
    destruct (fq_isEmpty (a_q s)) eqn:Hem. { injection Hi as <-. apply ok_ret. auto. }
    destruct (fq_peek (a_q s)) as [cur|] eqn:Hpk; [|discriminate]. specialize (HgV cur eq_refl eq_refl).
    apply ok_bind, ok_ret. apply ok_bind. apply ok_get_node_attr; [eapply R_V; eauto|].
    destruct (mem_spec cur (a_gr s)) as [Hg|Hg].
    - pose proof Hg as Hg'. apply (r_green H HgV) in Hg'. rewrite Hg'. simpl.
      destruct (fq_remove (a_q s) cur) as [q'|]; [|discriminate]. injection Hi as <-. apply ok_bind, ok_ret, ok_ret. auto.
    - destruct (eqb_spec (nattr h cur "color") (VS "green")) as [Hc|_]; [apply (r_green H HgV) in Hc; contradiction|].
      destruct (negb (eqb cur s0) && negb (dmem (a_pred s) cur)) eqn:Hguard; [discriminate|].
      apply ok_bind. wk RR_visit. apply ok_bind.
      eapply ok_weaken; [apply (R_color W0 (c := "blue") HR HgV); [rewrite visit_gr; assumption|discriminate]|]. intros u1 h1 HR1; cbn beta in HR1.
      apply ok_bind.
      assert (Hed : ok (if eqb cur s0 then ret tt else p <- lift (dget (a_pred s) cur) KeyError ;; color_edge rev p cur "green") h1
                 (fun _ h' => RR (a_visit s cur) h')).
      { destruct (eqb cur s0); [apply ok_ret; exact HR1|]. destruct (dget (a_pred s) cur) as [p|] eqn:Hp.
        - apply ok_bind, ok_ret. apply sim_color; [exact HR1|]. apply Hgp; assumption.
        - exfalso. simpl in Hguard. unfold dmem in Hguard. rewrite Hp in Hguard. discriminate. }
      eapply ok_weaken; [exact Hed|]. intros u2 h2 HR2; cbn beta in HR2. clear Hed.
      destruct (eqb (Some cur) dest).
      { injection Hi as <-. apply ok_ret. rewrite visit_pred. auto. }
      destruct (scan_ cur (snb cur) (a_visit s cur)) as [s2|] eqn:Hsc; [|discriminate].
      destruct (fq_remove (a_q s2) cur) as [q'|] eqn:Hrm; [|discriminate]. injection Hi as <-.
      apply ok_bind. apply ok_lift with (a := snb cur). { apply dget_list_at. rewrite nbd_keys; assumption. }
      apply ok_bind. pose proof (sim_scan HR2 (fun n Hn => Hn) Hsc) as Hss. rewrite visit_pred, visit_q in Hss.
      eapply ok_weaken; [exact Hss|]. intros st h3 Hst; cbn beta in Hst. destruct Hst as [-> HR3]. rewrite Hrm.
      apply ok_bind, ok_ret. apply ok_bind. eapply ok_weaken; [apply (R_greening W0 HR3 HgV)|]. intros u4 h4 HR4; cbn beta in HR4.
      apply ok_ret. split; [reflexivity|]. exact HR4.
  Qed.
  Lemma sim_loop (P : ast fr -> Prop) : (forall s, P s -> good s) -> (forall s s', P s -> iter_ s = Some (inl s') -> P s') ->
    forall fuel s h s' f, RR s h -> P s -> loop_ fuel s = Some (s', f) ->
    ok (loop fuel (search_iter al component rev s0 dest (nbd g0 rev)) (a_pred s, a_q s)) h (fun x h' => x = (f, a_pred s') /\ RR s' h').
  Proof.
    intros Pg Ps. induction fuel as [|fu IH]; intros s h s' f H HP Hl; [discriminate|]. simpl in *.
    destruct (iter_ s) as [r|] eqn:Hi; [|discriminate].
    apply ok_bind. eapply ok_weaken; [apply (sim_iter H (Pg s HP) Hi)|]. intros r' h' Hr'; cbn beta in Hr'.
    destruct r as [s1|[s1 f1]]; destruct r' as [st|x]; try contradiction.
    - destruct Hr' as [-> HR]. apply IH; auto. eapply Ps; eauto.
    - destruct Hr' as [-> HR]. injection Hl as <- <-. apply ok_ret. auto.
  Qed.

  (** ** Before the loop *)
  Record R0 (pre : list name) (h : graph) : Prop := {
    r0_ss : same_shape g0 h;
    r0_attr : g_attr h = g_attr g0;
    r0_ncomp : g_ncomp h = g_ncomp g0;
    r0_eattr : forall x y b, b <> "color" -> eattr h x y b = eattr g0 x y b;
    r0_nattr : forall x b, ~ In b search_node_attrs -> nattr h x b = nattr g0 x b;
    r0_color : forall x, In x pre -> nattr h x "color" = VS "black";
    r0_dist : forall x, In x pre -> nattr h x "distance" = VNone;
    r0_comp : forall x, nattr h x "component" = base_comp x
  }.
  Lemma R0_V pre h x : R0 pre h -> In x V -> In x (dkeys (g_nodes h)).
  Proof. intros H Hx. rewrite (ss_nodes (r0_ss H)). apply (wf_V W0); assumption. Qed.
  Lemma R0_set pre h n a v pre' : R0 pre h -> In n V -> In a search_node_attrs -> a <> "component" ->
    (forall x, In x pre' -> (if eqb "color" a && eqb x n then v else nattr h x "color") = VS "black") ->
    (forall x, In x pre' -> (if eqb "distance" a && eqb x n then v else nattr h x "distance") = VNone) ->
    ok (set_node_attr n a v) h (fun _ h' => R0 pre' h').
  Proof.
    intros H Hn Ha Hac H1 H2. apply ok_set_node_attr; [eapply R0_V; eauto|]. intros h' S Hna Hea Hat Hnc _. constructor.
    - eapply ss_trans; [apply (r0_ss H)|exact S].
    - rewrite Hat. apply (r0_attr H).
    - rewrite Hnc. apply (r0_ncomp H).
    - intros x y b Hb. rewrite Hea. apply (r0_eattr H); assumption.
    - intros x b Hb. rewrite Hna. destruct (eq_dec (x, b) (n, a)) as [[= -> ->]|_]; [contradiction|]. apply (r0_nattr H); assumption.
    - intros x Hx. rewrite Hna, pair_eqb. apply H1; assumption.
    - intros x Hx. rewrite Hna, pair_eqb. apply H2; assumption.
    - intros x. rewrite Hna, pair_eqb. destruct (eqb_spec "component" a); [congruence|]. apply (r0_comp H).
  Qed.
  Lemma R0_edge pre h x y c : R0 pre h -> In y (snb x) -> ok (color_edge rev x y c) h (fun _ h' => R0 pre h').
  Proof.
    intros H Hxy. apply (nbd_sarc rev x y W0) in Hxy. pose proof (sarc_color W0 Hxy) as Hc. unfold color_edge.
    assert (G : forall x y, check_edge g0 x y = true -> ok (set_edge_attr x y "color" (VS c)) h (fun _ h' => R0 pre h')).
    { clear x y Hxy Hc. intros x y Hc.
      apply ok_set_edge_attr; [eapply ss_wf; [apply (r0_ss H)|assumption]|rewrite (ss_check_edge x y (r0_ss H)); assumption|].
      intros h' S Hna Hea Hat Hnc _. constructor.
      - eapply ss_trans; [apply (r0_ss H)|exact S].
      - rewrite Hat. apply (r0_attr H).
      - rewrite Hnc. apply (r0_ncomp H).
      - intros x' y' b Hb. rewrite Hea. destruct (eqb_spec b "color"); [congruence|]. apply (r0_eattr H); assumption.
      - intros z b Hb. rewrite Hna. apply (r0_nattr H); assumption.
      - intros z Hz. rewrite Hna. apply (r0_color H); assumption.
      - intros z Hz. rewrite Hna. apply (r0_dist H); assumption.
      - intros z. rewrite Hna. apply (r0_comp H). }
    destruct rev; apply G; assumption.
  Qed.
  Ltac cst := repeat match goal with |- context [@eqb string ?E ?a ?b] =>
     let v := eval vm_compute in (@eqb string E a b) in change (@eqb string E a b) with v end; cbn [andb].
  Lemma sim_init h : R0 [] h -> ok (init_search rev (nbd g0 rev)) h (fun _ h' => R0 V h').
  Proof.
    intros H. unfold init_search. apply ok_bind, ok_gets. rewrite (ss_node_list (r0_ss H)).
    apply ok_forM with (I := R0); [assumption| |auto].
    intros pre n post h1 Hl H1. assert (Hn : In n V) by (rewrite Hl; apply in_or_app; simpl; auto).
    apply ok_bind. eapply ok_weaken; [apply (R0_set (pre' := pre) H1 Hn); cst; [simpl; tauto|discriminate|apply (r0_color H1)|apply (r0_dist H1)]|].
    intros u2 h2 H2; cbn beta in H2. apply ok_bind.
    apply ok_pop_node_attr; [eapply R0_V; eauto|]. intros h3 S Hna Hea Hat Hnc _.
    assert (H3 : R0 pre h3).
    { constructor.
      - eapply ss_trans; [apply (r0_ss H2)|exact S].
      - rewrite Hat. apply (r0_attr H2).
      - rewrite Hnc. apply (r0_ncomp H2).
      - intros x y b Hb. rewrite Hea. apply (r0_eattr H2); assumption.
      - intros x b Hb. rewrite Hna; [apply (r0_nattr H2); assumption|]. intros [= -> ->]. apply Hb. simpl; tauto.
      - intros x Hx. rewrite Hna by congruence. apply (r0_color H2); assumption.
      - intros x Hx. rewrite Hna by congruence. apply (r0_dist H2); assumption.
      - intros x. rewrite Hna by congruence. apply (r0_comp H2). }
    assert (Hin : forall x, In x (pre ++ [n]) -> x = n \/ In x pre).
    { intros x Hx. apply in_app_or in Hx as [?|[?|[]]]; auto. }
    apply ok_bind. 
    apply ok_set_node_attr; [eapply R0_V; eauto|]. intros h4 S4 Hna4 Hea4 Hat4 Hnc4 _.
    assert (H4 : R0 pre h4 /\ nattr h4 n "distance" = VNone).
    { split; [|rewrite Hna4, pair_eqb, !eqb_refl; reflexivity]. constructor.
      - eapply ss_trans; [apply (r0_ss H3)|exact S4].
      - rewrite Hat4. apply (r0_attr H3).
      - rewrite Hnc4. apply (r0_ncomp H3).
      - intros x y b Hb. rewrite Hea4. apply (r0_eattr H3); assumption.
      - intros x b Hb. rewrite Hna4. destruct (eq_dec (x, b) (n, "distance")) as [[= -> ->]|]; [exfalso; apply Hb; simpl; tauto|apply (r0_nattr H3); assumption].
      - intros x Hx. rewrite Hna4, pair_eqb. cst. apply (r0_color H3); assumption.
      - intros x Hx. rewrite Hna4, pair_eqb. cst. destruct (eqb x n); [reflexivity|]. apply (r0_dist H3); assumption.
      - intros x. rewrite Hna4, pair_eqb. cst. apply (r0_comp H3). }
    destruct H4 as [H4 H4d].
    apply ok_bind. eapply ok_weaken; [apply (R0_set (pre' := pre ++ [n]) H4 Hn); cst; [simpl; tauto|discriminate| |]|].
    { intros x Hx. destruct (eqb_spec x n) as [->|Hne]; [reflexivity|]. destruct (Hin x Hx) as [?|?]; [congruence|]. apply (r0_color H4); assumption. }
    { intros x Hx. destruct (Hin x Hx) as [->|?]; [assumption|]. apply (r0_dist H4); assumption. }
    intros u5 h5 H5; cbn beta in H5.
    apply ok_bind. apply ok_lift with (a := snb n). { apply dget_list_at. rewrite nbd_keys; assumption. }
    eapply ok_weaken.
    { apply ok_forM with (I := fun _ h => R0 (pre ++ [n]) h) (Q := fun h => R0 (pre ++ [n]) h); [assumption| |auto].
      intros pre' j post' h6 Hl6 H6. eapply ok_weaken; [apply (R0_edge "black" H6)|]; [|intros ? ? HH; exact HH].
      rewrite Hl6. apply in_or_app; simpl; auto. }
    intros u7 h7 H7. exact H7.
  Qed.
  Lemma R0_R h : R0 V h -> R g0 component base_comp [] (fun _ => None) (fun _ => None) (fun _ => false) h.
  Proof.
    intros H. constructor; try apply H.
    - intros x Hx. rewrite (r0_color H Hx). split; [discriminate|intros []].
    - congruence.
    - intros x Hx. rewrite (r0_comp H). destruct component; reflexivity.
  Qed.
  Definition q_init (q0 : fq fr) : fq fr := fq_push q0 s0 (if is_pq_algo al then Some 0%Z else None).
  Lemma sim_source h q0 : R0 V h -> ok (process_source al component s0 ([], q0)) h
    (fun st h' => st = (@nil (name * name), q_init q0) /\ RR (a_init al s0 (q_init q0)) h').
  Proof.
    intros H. apply R0_R in H. unfold process_source, RR, a_init, q_init. simpl.
    destruct (is_pq_algo al) eqn:Hpa.
    - assert (G : ok (process_source_pq s0 (@nil (name * name), q0)) h (fun st h' => st = ([], fq_push q0 s0 (Some 0%Z)) /\
         R g0 component base_comp [] (fun _ => None) (fun _ => None) (cs_of (mkA [] (fq_push q0 s0 (Some 0%Z)) [] (fun _ => None) (fun _ => None))) h')).
      { unfold process_source_pq, push_prio. rewrite Hpqa. apply ok_bind. wk R_color. apply ok_bind. wk R_label.
        apply ok_bind, ok_ret, ok_bind. wk R_color. apply ok_ret. split; [reflexivity|]. eapply R_cs; [eassumption|].
        intros _ x _. unfold cs_of; simpl. rewrite Hpa. reflexivity. }
      destruct al; try discriminate; exact G.
    - assert (G : ok (set_node_attr s0 "distance" (VI 0) ;;
          (match component with Some c => set_node_attr s0 "component" (VI c) ;; set_node_attr s0 "label" (VI c) | None => set_node_attr s0 "label" (VI 0) end) ;;
          ret (@nil (name * name), if fq_is_pq fr then fq_push q0 s0 (Some 0%Z) else fq_push q0 s0 None)) h (fun st h' => st = ([], fq_push q0 s0 None) /\
         R g0 component base_comp [] (upd (fun _ => None) s0 (Some 0%Z)) (fun _ => None) (cs_of (mkA [] (fq_push q0 s0 None) [] (upd (fun _ => None) s0 (Some 0%Z)) (fun _ => None))) h')).
      { rewrite Hpqa. apply ok_bind. wk R_distance. apply ok_bind.
        assert (G1 : ok (match component with Some c => set_node_attr s0 "component" (VI c) ;; set_node_attr s0 "label" (VI c) | None => set_node_attr s0 "label" (VI 0) end) h0
            (fun _ h' => R g0 component base_comp [] (upd (fun _ => None) s0 (Some 0%Z)) (fun _ => None) (fun _ => false) h')).
        { apply (R_source_comp W0); [|assumption|assumption]. unfold base_comp. rewrite Hpa, eqb_refl. reflexivity. }
        eapply ok_weaken; [exact G1|]. intros u1 h1 HR1; cbn beta in HR1. apply ok_ret. split; [reflexivity|]. eapply R_cs; [exact HR1|].
        intros _ x _. unfold cs_of; simpl. rewrite Bool.andb_false_r. reflexivity. }
      destruct al; try discriminate; try congruence; exact G.
  Qed.

  (** ** After the loop *)
  Lemma bt_last (pred : dict name name) l n : bt s0 pred l n -> exists k, l = k ++ [n].
  Proof. destruct 1 as [|l p n]; [exists []; reflexivity|exists l; reflexivity]. Qed.
  Lemma walk_back_loop (pred : dict name name) l n : bt s0 pred l n -> forall fuel path (h : graph), length l <= fuel ->
    loop fuel (fun st : name * list name => let '(cur, path) := st in if eqb cur s0 then ret (inr path)
      else p <- lift (dget pred cur) KeyError ;; ret (inl (p, p :: path))) (n, path) h = (h, Ok (removelast l ++ path)).
  Proof.
    induction 1 as [|l p n Hb IH Hn Hp]; intros fuel path h Hf.
    - destruct fuel as [|f]; [simpl in Hf; lia|]. simpl. unfold bind. rewrite eqb_refl. reflexivity.
    - rewrite app_length in Hf. simpl in Hf. destruct fuel as [|f]; [lia|]. simpl. unfold bind at 1.
      destruct (eqb_spec n s0); [contradiction|]. rewrite Hp. simpl. unfold bind, ret.
      rewrite IH by lia. rewrite removelast_last. destruct (bt_last Hb) as [k ->]. rewrite removelast_last, <- app_assoc. reflexivity.
  Qed.
  Lemma walk_back_ok (pred : dict name name) l n fuel (h : graph) : bt s0 pred l n -> length l <= fuel -> walk_back fuel s0 n pred h = (h, Ok l).
  Proof.
    intros Hb Hf. unfold walk_back. rewrite (walk_back_loop Hb) by assumption. destruct (bt_last Hb) as [k ->].
    rewrite removelast_last. reflexivity.
  Qed.
End Sim.
