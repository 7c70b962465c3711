(* DisjointSet is a union-find structure: proofs. *)
From Verif Require Import Py Util M_Graph P_Graph P_GraphLaws Spec P_Walk S_Span P_Span M_Kruskal.
Set Implicit Arguments. Unset Strict Implicit.

(** * parent functions *)
Inductive up (F : name -> option name) : name -> name -> nat -> Prop :=
| up_root x : F x = None -> up F x x 0
| up_step x p r k : F x = Some p -> up F p r k -> up F x r (S k).
Lemma up_det F x r k r' k' : up F x r k -> up F x r' k' -> r = r' /\ k = k'.
Proof.
  intros H. revert r' k'. induction H as [x H|x p r k H H1 IH]; intros r' k' H'; inversion H' as [? E|? q ? j E U]; subst; try congruence; [auto|].
  assert (q = p) by congruence. subst. destruct (IH _ _ U). subst; auto.
Qed.
Lemma up_top F x r k : up F x r k -> F r = None.
Proof. induction 1; auto. Qed.
Definition fupd (F : name -> option name) (x p : name) : name -> option name := fun y => if eq_dec x y then Some p else F y.
Lemma up_ext F F' x r k : (forall y, F y = F' y) -> up F x r k -> up F' x r k.
Proof. intros He. induction 1; [apply up_root; rewrite <- He; assumption|eapply up_step; [rewrite <- He; eassumption|assumption]]. Qed.
(* path compression *)
Lemma up_compress F x r k y r' k' : up F x r (S k) -> up F y r' k' -> exists k2, up (fupd F x r) y r' k2.
Proof.
  intros Hx Hy. assert (Hr : F r = None) by (eapply up_top; eassumption).
  assert (Hxn : F x <> None) by (inversion Hx; congruence).
  assert (Hrr : up (fupd F x r) r r 0) by (apply up_root; unfold fupd; eqd; [congruence|assumption]).
  induction Hy as [y H|y p r' k' H H1 [k2 IH]].
  - exists 0. apply up_root. unfold fupd. eqd; [congruence|assumption].
  - destruct (eq_dec x y) as [->|Hne].
    + destruct (up_det Hx (up_step H H1)) as [<- _]. exists 1. eapply up_step; [|exact Hrr]. unfold fupd. eqd; congruence.
    + exists (S k2). eapply up_step; [|exact IH]. unfold fupd. eqd; [congruence|assumption].
Qed.
(* linking a root below another root *)
Lemma up_link F r1 r2 y r k : F r1 = None -> F r2 = None -> r1 <> r2 -> up F y r k ->
  exists k2, up (fupd F r1 r2) y (if eq_dec r r1 then r2 else r) k2.
Proof.
  intros H1 H2 Hne Hy. assert (Hrr : up (fupd F r1 r2) r2 r2 0) by (apply up_root; unfold fupd; eqd; [congruence|assumption]).
  induction Hy as [y H|y p r k H Hp [k2 IH]].
  - eqd.
    + subst. exists 1. eapply up_step; [|exact Hrr]. unfold fupd. eqd; congruence.
    + exists 0. apply up_root. unfold fupd. eqd; [congruence|assumption].
  - exists (S k2). eapply up_step; [|exact IH]. unfold fupd. destruct (eq_dec r1 y); [congruence|assumption].
Qed.

(** * the representation *)
Definition par (g : graph) (x : name) : option name := hd_error (list_at (g_nbrs g) x).
Record ds_ok (d : dsj) (its : list name) : Prop := {
  do_wf : wf (ds_g d);
  do_dir : g_type (ds_g d) = Directed;
  do_its : get_node_list (ds_g d) = its;
  do_one : forall x, length (list_at (g_nbrs (ds_g d)) x) <= 1;
  do_up : forall x, In x its -> exists r k, up (par (ds_g d)) x r k;
  do_sz : forall r, In r its -> par (ds_g d) r = None -> In r (dkeys (ds_sizes d))
}.
Definition same_root (d : dsj) (x y : name) : Prop := exists r k k', up (par (ds_g d)) x r k /\ up (par (ds_g d)) y r k'.
Definition ds_inv (d : dsj) (its : list name) (J : list edge) : Prop :=
  ds_ok d its /\ (forall x y, In (x, y) J -> In x its /\ In y its) /\
  forall x y, In x its -> In y its -> (same_root d x y <-> conn J x y).
Lemma conn_least F (P : name -> name -> Prop) : (forall x, P x x) -> (forall x y, P x y -> P y x) -> (forall x y z, P x y -> P y z -> P x z) ->
  (forall x y, In (x, y) F -> P x y) -> forall x y, conn F x y -> P x y.
Proof.
  intros Hr Hs Ht Hf x y [p Hp]. induction Hp as [a|a b p c He Hw IH]; [apply Hr|]. apply Ht with b; [|assumption].
  destruct He as [He|He]; auto.
Qed.
Lemma same_root_trans d x y z : same_root d x y -> same_root d y z -> same_root d x z.
Proof. intros (r & k & k' & A & B) (r2 & k2 & k2' & A2 & B2). destruct (up_det B A2) as [<- _]. exists r, k, k2'. auto. Qed.
Lemma same_root_sym d x y : same_root d x y -> same_root d y x.
Proof. intros (r & k & k' & A & B). exists r, k', k. auto. Qed.
Lemma ds_inv_intro d its J : ds_ok d its -> (forall x y, In (x, y) J -> In x its /\ In y its) ->
  (forall x y, In (x, y) J -> same_root d x y) ->
  (forall x y r k k', In x its -> In y its -> up (par (ds_g d)) x r k -> up (par (ds_g d)) y r k' -> conn J x y) -> ds_inv d its J.
Proof.
  intros D Hi Hj Hc. split; [assumption|]. split; [assumption|]. intros x y Hx Hy. split.
  - intros (r & k & k' & A & B). eauto.
  - intros H. assert (G : same_root d x y \/ x = y).
    { revert H. apply (conn_least (P := fun x y => same_root d x y \/ x = y)); [auto|intros a b [E|E]; eauto using same_root_sym| |auto].
      intros a b c [E|E] [E'|E']; subst; eauto using same_root_trans. }
    destruct G as [G| ->]; [assumption|]. destruct (do_up D Hy) as (r & k & U). exists r, k, k. auto.
Qed.

Lemma list_at_par g x : length (list_at (g_nbrs g) x) <= 1 -> list_at (g_nbrs g) x = match par g x with Some p => [p] | None => [] end.
Proof. unfold par. destruct (list_at (g_nbrs g) x) as [|p [|q l]]; simpl; intros; [reflexivity..|lia]. Qed.
Lemma par_in d its x p : ds_ok d its -> par (ds_g d) x = Some p -> In x its /\ In p its /\ In (x, p) (dkeys (g_edges (ds_g d))).
Proof.
  intros D H. assert (Hi : In p (list_at (g_nbrs (ds_g d)) x)).
  { unfold par in H. destruct (list_at (g_nbrs (ds_g d)) x); [discriminate|]. injection H as ->. simpl; auto. }
  apply (wf_nbrs_In (do_wf D) (do_dir D)) in Hi. rewrite <- (do_its D). unfold get_node_list.
  split; [eapply wf_edge_l; eauto using do_wf|]. split; [eapply wf_edge_r; eauto using do_wf|assumption].
Qed.
Lemma up_in d its x r k : ds_ok d its -> In x its -> up (par (ds_g d)) x r k -> In r its.
Proof. intros D Hx Hu. revert Hx. induction Hu as [x H|x p r k H H1 IH]; intros Hx; [assumption|]. apply IH. apply (par_in D H). Qed.
(* the chain from x to its root has no repetition *)
Lemma up_chain F x r k : up F x r k -> exists l, length l = S k /\ NoDup l /\ (forall y, In y l -> exists k', up F y r k' /\ k' <= k) /\
  (forall S : name -> Prop, S x -> (forall y p, S y -> F y = Some p -> S p) -> forall y, In y l -> S y).
Proof.
  induction 1 as [x H|x p r k H H1 (l & Hl & Hnd & Hk & Hc)].
  - exists [x]. split; [reflexivity|]. split; [repeat constructor; auto|]. split.
    + intros y [<-|[]]. exists 0. split; [apply up_root; assumption|lia].
    + intros S Hx _ y [<-|[]]; assumption.
  - exists (x :: l). split; [simpl; lia|]. split; [constructor; [|assumption]|split].
    + intros Hi. destruct (Hk _ Hi) as (k' & Hu & Hle). destruct (up_det Hu (up_step H H1)). lia.
    + intros y [<-|Hy]; [exists (S k); split; [eapply up_step; eauto|lia]|]. destruct (Hk _ Hy) as (k' & Hu & Hle). exists k'. auto.
    + intros S Hx Hs y [<-|Hy]; [assumption|]. apply (Hc S); eauto.
Qed.
Lemma up_bound d its x r k : ds_ok d its -> In x its -> up (par (ds_g d)) x r k -> k < length its.
Proof.
  intros D Hx Hu. destruct (up_chain Hu) as (l & Hl & Hnd & _ & Hc).
  assert (length l <= length its). 2: lia. apply NoDup_incl_length; [assumption|]. intros y Hy.
  apply (Hc (fun y => In y its)); auto. intros z p _ Hp. apply (par_in D Hp).
Qed.

(** * one operation at a time *)
Lemma ok_ong {A} (m : M graph A) d (Q : A -> dsj -> Prop) :
  ok m (ds_g d) (fun a g => Q a (mkDsj g (ds_sizes d) (ds_opt d))) -> ok (ong m) d Q.
Proof.
  intros H. apply ok_ex in H as (g & a & Hm & HQ). eapply ok_intro; [unfold ong; rewrite Hm; reflexivity|exact HQ].
Qed.
Lemma ensure_id g n : In n (dkeys (g_nodes g)) -> ensure g n = g.
Proof. intros H. unfold ensure. apply dmem_In in H. rewrite H. reflexivity. Qed.
Lemma check_edge_dir g x y : g_type g = Directed -> check_edge g x y = dmem (g_edges g) (x, y).
Proof. intros H. unfold check_edge. rewrite H. reflexivity. Qed.

(* adding the arc a -> b below nodes without out-arc *)
Lemma add_arc g a b (Q : unit -> graph -> Prop) : wf g -> g_type g = Directed -> In a (get_node_list g) -> In b (get_node_list g) ->
  list_at (g_nbrs g) a = [] ->
  (forall h, wf h -> g_type h = Directed -> get_node_list h = get_node_list g ->
     (forall x, list_at (g_nbrs h) x = if eq_dec a x then [b] else list_at (g_nbrs g) x) -> Q tt h) ->
  ok (add_edge a b []) g Q.
Proof.
  intros W Hd Ha Hb Hl HQ.
  assert (Hc : check_edge g a b = false).
  { rewrite (check_edge_dir _ _ Hd). apply dmem_nIn. intros Hi. apply (wf_nbrs_In W Hd) in Hi. rewrite Hl in Hi. destruct Hi. }
  pose proof (add_edge_wf a b [] W) as Wh. pose proof (add_edge_new [] W Hc) as He. rewrite He in Wh. simpl in Wh.
  assert (Ea : ensure g a = g) by (apply ensure_id; rewrite (wf_nodes W); exact Ha).
  assert (Eb : ensure g b = g) by (apply ensure_id; rewrite (wf_nodes W); exact Hb).
  rewrite Ea, Eb in Wh, He.
  eapply ok_intro; [exact He|]. apply HQ; [assumption|..].
  - unfold link. rewrite Hd. reflexivity.
  - unfold link, get_node_list. rewrite Hd. simpl. apply dkeys_dset_in. assumption.
  - intros x. unfold link. rewrite Hd. simpl. rewrite list_at_dset, Hl. reflexivity.
Qed.
Lemma del_arc g a b (Q : unit -> graph -> Prop) : wf g -> g_type g = Directed -> list_at (g_nbrs g) a = [b] ->
  (forall h, wf h -> g_type h = Directed -> get_node_list h = get_node_list g ->
     (forall x, list_at (g_nbrs h) x = if eq_dec a x then [] else list_at (g_nbrs g) x) -> Q tt h) ->
  ok (del_edge a b) g Q.
Proof.
  intros W Hd Hl HQ.
  assert (Hc : check_edge g a b = true).
  { rewrite (check_edge_dir _ _ Hd). apply dmem_In. apply (wf_nbrs_In W Hd). rewrite Hl. simpl; auto. }
  pose proof (del_edge_present W Hc) as He. eapply ok_intro; [exact He|].
  apply HQ; [apply wf_p_del_edge; assumption|..]; unfold p_del_edge, get_node_list; rewrite Hd; simpl; [reflexivity|..].
  - apply dkeys_dset_in. apply (check_edge_nodes W Hc).
  - intros x. rewrite list_at_dset, Hl. unfold rem1. simpl. destruct (eq_dec b b); [reflexivity|congruence].
Qed.
Lemma par_fupd g h a b : (forall x, list_at (g_nbrs h) x = if eq_dec a x then [b] else list_at (g_nbrs g) x) -> forall x, par h x = fupd (par g) a b x.
Proof. intros H x. unfold par, fupd. rewrite H. eqd; reflexivity. Qed.

(** * find *)
(* d' has the same items, roots and sizes as d *)
Definition ds_eqv (d d' : dsj) : Prop :=
  (forall x r, (exists k, up (par (ds_g d)) x r k) <-> (exists k, up (par (ds_g d')) x r k)) /\ ds_sizes d' = ds_sizes d /\ ds_opt d' = ds_opt d.
Lemma ds_eqv_refl d : ds_eqv d d.
Proof. split; [tauto|auto]. Qed.
Lemma ds_eqv_trans d1 d2 d3 : ds_eqv d1 d2 -> ds_eqv d2 d3 -> ds_eqv d1 d3.
Proof. intros (A & B & C) (A' & B' & C'). split; [|split; congruence]. intros x r. rewrite A. apply A'. Qed.
Lemma ds_eqv_inv d d' its J : ds_inv d its J -> ds_ok d' its -> ds_eqv d d' -> ds_inv d' its J.
Proof.
  intros (D & HJ & H) D' (E & _). split; [assumption|]. split; [assumption|]. intros x y Hx Hy. rewrite <- (H x y Hx Hy). unfold same_root. split.
  - intros (r & k & k' & A & B). destruct (proj2 (E x r) (ex_intro _ k A)) as [k1 A']. destruct (proj2 (E y r) (ex_intro _ k' B)) as [k2 B']. eauto.
  - intros (r & k & k' & A & B). destruct (proj1 (E x r) (ex_intro _ k A)) as [k1 A']. destruct (proj1 (E y r) (ex_intro _ k' B)) as [k2 B']. eauto.
Qed.

(* the climb records the arcs of the chain *)
Lemma climb_ok fuel d its i r k : ds_ok d its -> In i its -> up (par (ds_g d)) i r k -> k < fuel ->
  exists el, ds_climb fuel i d = (d, Ok (r, el)) /\ Forall (fun e => par (ds_g d) (fst e) = Some (snd e) /\ exists k, up (par (ds_g d)) (snd e) r k) el /\ NoDup (map fst el).
Proof.
  intros D Hi Hu Hf. unfold ds_climb.
  assert (G : forall acc, Forall (fun e => par (ds_g d) (fst e) = Some (snd e) /\ exists k, up (par (ds_g d)) (snd e) r k) acc ->
     NoDup (map fst acc) -> (forall e, In e acc -> exists k', up (par (ds_g d)) (fst e) r k' /\ k < k') ->
     exists el, loop fuel (fun st : name * list (name * name) =>
        let '(current, edge_list) := st in
        l <- ong (get_neighbors current) ;;
        match l with
        | [] => ret (inr (current, edge_list))
        | successor :: _ => ret (inl (successor, edge_list ++ [(current, successor)]))
        end) (i, acc) d = (d, Ok (r, el)) /\ Forall (fun e => par (ds_g d) (fst e) = Some (snd e) /\ exists k, up (par (ds_g d)) (snd e) r k) el /\ NoDup (map fst el)).
  2: { apply G; [constructor|constructor|intros e []]. }
  revert fuel Hf Hi. induction Hu as [x H|x p r k H H1 IH]; intros fuel Hf Hi acc HF Hnd Hk; (destruct fuel as [|fuel]; [lia|]).
  - exists acc. split; [|auto]. assert (Hl : list_at (g_nbrs (ds_g d)) x = []) by (rewrite (list_at_par (do_one D x)), H; reflexivity).
    simpl. unfold bind at 1 2. unfold ong, get_neighbors, nbr_list. rewrite dget_list_at, Hl; [|rewrite <- (do_its D) in Hi; exact Hi].
    destruct d; reflexivity.
  - assert (Hl : list_at (g_nbrs (ds_g d)) x = [p]) by (rewrite (list_at_par (do_one D x)), H; reflexivity).
    edestruct (IH fuel) with (acc := acc ++ [(x, p)]) as (el & E1 & E2); [lia|apply (par_in D H)|..].
    + apply Forall_app. split; [assumption|]. repeat constructor; simpl; eauto.
    + rewrite map_app. simpl. apply NoDup_snoc. split; [assumption|]. intros Hin. apply in_map_iff in Hin as (e & He & Hin).
      destruct (Hk e Hin) as (k' & Hu' & Hlt). rewrite He in Hu'. destruct (up_det Hu' (up_step H H1)). lia.
    + intros e He. apply in_app_iff in He as [He|[<-|[]]].
      * destruct (Hk e He) as (k' & A & B). exists k'. split; [assumption|lia].
      * exists (S k). split; [eapply up_step; eauto|lia].
    + exists el. split; [|exact E2]. simpl. unfold bind at 1 2. unfold ong, get_neighbors, nbr_list.
      rewrite dget_list_at, Hl; [|rewrite <- (do_its D) in Hi; exact Hi]. destruct d as [gg ss oo]; cbn [ds_g ds_sizes ds_opt] in *. exact E1.
Qed.

Lemma find_ok fuel d its J i : ds_inv d its J -> In i its -> length its <= fuel ->
  exists d' r k, ds_find fuel i d = (d', Ok r) /\ up (par (ds_g d)) i r k /\ ds_inv d' its J /\ ds_eqv d d'.
Proof.
  intros DI Hi Hf. pose proof (proj1 DI) as D. destruct (do_up D Hi) as (r & k & Hu).
  destruct (climb_ok (fuel := fuel) D Hi Hu) as (el & Hc & Hel & Hnd); [pose proof (up_bound D Hi Hu); lia|].
  unfold ds_find. rewrite (bind_ok _ Hc). cbv iota beta. erewrite bind_ok by reflexivity.
  destruct (ds_opt d) eqn:Hopt.
  2: { exists d, r, k. erewrite bind_ok by reflexivity. auto using ds_eqv_refl. }
  assert (G : ok (forM_ el (fun e => if eqb (snd e) r then ret tt else ong (del_edge (fst e) (snd e)) ;; ong (add_edge (fst e) r []))) d
     (fun _ d' => ds_ok d' its /\ ds_eqv d d')).
  { apply ok_forM with (I := fun pre d' => ds_ok d' its /\ ds_eqv d d' /\ forall y, ~ In y (map fst pre) -> par (ds_g d') y = par (ds_g d) y).
    - auto using ds_eqv_refl.
    - intros pre [x p] post d1 -> (D1 & E1 & P1). simpl.
      apply Forall_app in Hel as [_ Hel]. inversion Hel as [|? ? [Hxp [kp Hp]] _]; subst. simpl in *.
      rewrite map_app in Hnd. simpl in Hnd. apply NoDup_remove_2 in Hnd. rewrite in_app_iff in Hnd.
      assert (Hx1 : par (ds_g d1) x = Some p) by (rewrite P1 by tauto; assumption).
      assert (Hix : In x its) by apply (par_in D Hxp).
      assert (Hir : In r its) by exact (up_in D Hi Hu).
      destruct (proj1 (proj1 E1 x r)) as [k1 Hu1]; [exists (S kp); eapply up_step; eauto|].
      destruct k1 as [|k1]; [inversion Hu1; congruence|].
      destruct (eqb_spec p r) as [->|Hpr].
      { apply ok_ret. split; [assumption|]. split; [assumption|]. intros y Hy. apply P1. rewrite map_app, in_app_iff in Hy. tauto. }
      apply ok_bind, ok_ong. apply del_arc; [apply (do_wf D1)|apply (do_dir D1)|rewrite (list_at_par (do_one D1 x)), Hx1; reflexivity|].
      intros h W1 T1 N1 L1. apply ok_ong. cbn [ds_g ds_sizes ds_opt].
      apply add_arc; [assumption|assumption|rewrite N1, (do_its D1); assumption..|rewrite L1; eqd; congruence|].
      intros h2 W2 T2 N2 L2.
      assert (L : forall y, list_at (g_nbrs h2) y = if eq_dec x y then [r] else list_at (g_nbrs (ds_g d1)) y).
      { intros y. rewrite L2, L1. eqd; reflexivity. }
      set (d2 := mkDsj h2 (ds_sizes d1) (ds_opt d1)).
      assert (PF : forall y, par (ds_g d2) y = fupd (par (ds_g d1)) x r y) by (apply par_fupd; exact L).
      assert (UP : forall y r', (exists k, up (par (ds_g d1)) y r' k) <-> (exists k, up (par (ds_g d2)) y r' k)).
      { assert (Hto : forall y r', (exists k, up (par (ds_g d1)) y r' k) -> (exists k, up (par (ds_g d2)) y r' k)).
        { intros y r' [ky Hy]. destruct (up_compress Hu1 Hy) as [k2 Hk2]. exists k2. eapply up_ext; [|exact Hk2]. intros z. symmetry; apply PF. }
        intros y r'. split; [apply Hto|]. intros [ky Hy].
        destruct (in_dec eq_dec y its) as [Hy'|Hy'].
        - destruct (do_up D1 Hy') as (r2 & k2 & H2). destruct (Hto y r2 (ex_intro _ k2 H2)) as [k3 H3].
          destruct (up_det H3 Hy) as [<- _]. eauto.
        - assert (Hn : par (ds_g d1) y = None) by (destruct (par (ds_g d1) y) eqn:E; [apply (par_in D1) in E; tauto|reflexivity]).
          assert (par (ds_g d2) y = None) by (rewrite PF; unfold fupd; eqd; [subst; contradiction|assumption]).
          inversion Hy; subst; [|congruence]. exists 0. apply up_root. assumption. }
      split; [|split].
      + constructor; auto.
        * change (get_node_list h2 = its). rewrite N2, N1. apply (do_its D1).
        * intros y. change (ds_g d2) with h2. rewrite L. eqd; [simpl; lia|apply (do_one D1)].
        * intros y Hy. destruct (do_up D1 Hy) as (r2 & k2 & H2). destruct (proj1 (UP y r2) (ex_intro _ k2 H2)) as [k3 H3]. eauto.
        * intros y Hy Hn. apply (do_sz D1 Hy). rewrite (PF y) in Hn. unfold fupd in Hn. eqdh; [discriminate|assumption].
      + eapply ds_eqv_trans; [exact E1|]. split; [exact UP|auto].
      + intros y Hy. rewrite map_app, in_app_iff in Hy. simpl in Hy. rewrite PF. unfold fupd. eqd; [subst; tauto|]. apply P1. tauto.
    - intros d1 (A & B & _). auto. }
  apply ok_ex in G as (d' & [] & He & D' & E'). exists d', r, k. rewrite (bind_ok _ He). split; [reflexivity|]. split; [assumption|].
  split; [|assumption]. eapply ds_eqv_inv; eauto.
Qed.

(** * union *)
Lemma up_none_list d its r : ds_ok d its -> par (ds_g d) r = None -> list_at (g_nbrs (ds_g d)) r = [].
Proof. intros D H. rewrite (list_at_par (do_one D r)), H. reflexivity. Qed.
Lemma link_inv d its J i j r0 r1 k0 k1 d' : ds_inv d its J -> In i its -> In j its ->
  up (par (ds_g d)) i r0 k0 -> up (par (ds_g d)) j r1 k1 -> r0 <> r1 ->
  wf (ds_g d') -> g_type (ds_g d') = Directed -> get_node_list (ds_g d') = its ->
  (forall x, list_at (g_nbrs (ds_g d')) x = if eq_dec r0 x then [r1] else list_at (g_nbrs (ds_g d)) x) ->
  (forall r, In r (dkeys (ds_sizes d)) -> In r (dkeys (ds_sizes d'))) ->
  ds_inv d' its ((i, j) :: J) /\ ds_inv d' its ((j, i) :: J).
Proof.
  intros (D & HJ & HC) Hi Hj U0 U1 Hne W T N L Sz.
  assert (PF : forall y, par (ds_g d') y = fupd (par (ds_g d)) r0 r1 y) by (apply par_fupd; exact L).
  assert (N0 : par (ds_g d) r0 = None) by (eapply up_top; eauto). assert (N1 : par (ds_g d) r1 = None) by (eapply up_top; eauto).
  assert (UP : forall y r k, up (par (ds_g d)) y r k -> exists k', up (par (ds_g d')) y (if eq_dec r r0 then r1 else r) k').
  { intros y r k Hy. destruct (up_link N0 N1 Hne Hy) as [k2 H2]. exists k2. eapply up_ext; [|exact H2]. intros z. symmetry. apply PF. }
  assert (D' : ds_ok d' its).
  { constructor; auto.
    - intros x. rewrite L. eqd; [simpl; lia|apply (do_one D)].
    - intros x Hx. destruct (do_up D Hx) as (r & k & U). destruct (UP _ _ _ U) as [k' U']. eauto.
    - intros r Hr Hn. apply Sz. apply (do_sz D Hr). rewrite PF in Hn. unfold fupd in Hn. eqdh; [discriminate|assumption]. }
  assert (SR : same_root d' i j).
  { destruct (UP _ _ _ U0) as [a A]. destruct (UP _ _ _ U1) as [b B]. destruct (eq_dec r0 r0); [|congruence]. destruct (eq_dec r1 r0); [congruence|].
    exists r1, a, b. auto. }
  assert (SJ : forall x y, In (x, y) J -> same_root d' x y).
  { intros x y Hxy. destruct (HJ _ _ Hxy) as [Hx Hy]. destruct (proj2 (HC x y Hx Hy)) as (r & k & k' & A & B); [apply conn_edge; left; assumption|].
    destruct (UP _ _ _ A) as [a A']. destruct (UP _ _ _ B) as [b B']. exists (if eq_dec r r0 then r1 else r), a, b. auto. }
  assert (SC : forall e, e = (i, j) \/ e = (j, i) -> forall x y r k k', In x its -> In y its -> up (par (ds_g d')) x r k -> up (par (ds_g d')) y r k' -> conn (e :: J) x y).
  { intros e He x y r k k' Hx Hy A B. destruct (do_up D Hx) as (rx & kx & Ux). destruct (do_up D Hy) as (ry & ky & Uy).
    destruct (UP _ _ _ Ux) as [a A']. destruct (UP _ _ _ Uy) as [b B']. destruct (up_det A A') as [E1 _]. destruct (up_det B B') as [E2 _].
    assert (Hinc : forall u v, conn J u v -> conn (e :: J) u v) by (intros u v; apply conn_incl; intros z; simpl; auto).
    assert (Hij : conn (e :: J) i j). { destruct He as [-> | ->]; [|apply conn_sym]; apply conn_edge; left; simpl; auto. }
    assert (Hu : forall u v r ku kv, In u its -> In v its -> up (par (ds_g d)) u r ku -> up (par (ds_g d)) v r kv -> conn (e :: J) u v).
    { intros u v q ku kv Hu Hv Uu Uv. apply Hinc, HC; auto. exists q, ku, kv. auto. }
    destruct (eq_dec rx r0), (eq_dec ry r0); subst; eauto.
    - apply conn_trans with i; [eapply Hu; eauto|]. apply conn_trans with j; [exact Hij|eapply Hu; eauto].
    - apply conn_sym. apply conn_trans with i; [eapply Hu; eauto|]. apply conn_trans with j; [exact Hij|eapply Hu; eauto]. }
  split; (apply ds_inv_intro; [assumption| | |apply SC; auto]); intros x y [[= <- <-]|Hxy]; auto using same_root_sym.
Qed.
Lemma ok_get_size r z d (Q : Z -> dsj -> Prop) : dget (ds_sizes d) r = Some z -> Q z d -> ok (get_size r) d Q.
Proof. intros H HQ. unfold get_size. apply ok_bind, ok_gets. eapply ok_lift; eauto. Qed.
Lemma conn_dup J i j x y : conn J i j -> conn ((i, j) :: J) x y <-> conn J x y.
Proof.
  intros H. split; [|apply conn_incl; intros z; simpl; auto]. apply conn_sub. intros a b [[= <- <-]|Hab]; [assumption|apply conn_edge; left; assumption].
Qed.
Lemma union_ok fuel d its J i j : ds_inv d its J -> In i its -> In j its -> length its <= fuel ->
  exists d' b, ds_union fuel i j d = (d', Ok b) /\ ds_inv d' its ((i, j) :: J) /\ (b = true <-> ~ conn J i j).
Proof.
  intros DI Hi Hj Hf. destruct (find_ok DI Hi Hf) as (d1 & r0 & k0 & F0 & U0 & D1 & E1).
  destruct (find_ok D1 Hj Hf) as (d2 & r1 & k1 & F1 & U1 & D2 & E2).
  destruct (proj1 (proj1 E1 i r0) (ex_intro _ _ U0)) as [k0' U0']. destruct (proj1 (proj1 E2 i r0) (ex_intro _ _ U0')) as [k0'' U0''].
  destruct (proj1 (proj1 E2 j r1) (ex_intro _ _ U1)) as [k1' U1'].
  clear E1 E2 U0 U0' U1. pose proof D2 as (O2 & HJ2 & HC2).
  unfold ds_union. rewrite (bind_ok _ F0). rewrite (bind_ok _ F1).
  destruct (eqb_spec r0 r1) as [<-|Hne].
  - exists d2, false. split; [reflexivity|]. assert (Hc : conn J i j) by (apply HC2; auto; exists r0, k0'', k1'; auto).
    split; [|split; [discriminate|tauto]]. split; [assumption|]. split; [intros x y [[= <- <-]|H]; auto|].
    intros x y Hx Hy. rewrite (conn_dup x y Hc). auto.
  - assert (I0 : In r0 its) by exact (up_in O2 Hi U0''). assert (I1 : In r1 its) by exact (up_in O2 Hj U1').
    assert (N0 : par (ds_g d2) r0 = None) by (eapply up_top; eauto). assert (N1 : par (ds_g d2) r1 = None) by (eapply up_top; eauto).
    destruct (dget_exists (do_sz O2 I0 N0)) as [s0 S0]. destruct (dget_exists (do_sz O2 I1 N1)) as [s1 S1].
    assert (Hn : ~ conn J i j).
    { intros Hc. apply HC2 in Hc as (r & k & k' & A & B); auto. destruct (up_det A U0'') as [-> _]. destruct (up_det B U1') as [-> _]. congruence. }
    assert (Hs : forall r z x, In x (dkeys (ds_sizes d2)) -> In x (dkeys (dset (ds_sizes d2) r z))) by (intros; apply In_dkeys_dset; auto).
    match goal with |- exists d' b, ?m d2 = _ /\ _ => assert (G : ok m d2 (fun b d' => b = true /\ ds_inv d' its ((i, j) :: J))) end.
    { apply ok_bind. eapply ok_get_size; [exact S0|]. apply ok_bind. eapply ok_get_size; [exact S1|]. apply ok_bind, ok_gets.
      destruct ((s0 <=? s1)%Z || negb (ds_opt d2)).
      - apply ok_bind, ok_ong. apply add_arc; [apply (do_wf O2)|apply (do_dir O2)|rewrite (do_its O2); assumption..|apply (up_none_list O2 N0)|].
        intros h W T N L. apply ok_bind. eapply ok_get_size; [exact S1|]. apply ok_bind. eapply ok_get_size; [exact S0|].
        apply ok_bind. apply ok_modify. apply ok_ret. split; [reflexivity|].
        apply (link_inv (d := d2) D2 Hi Hj U0'' U1' Hne); cbn [ds_g ds_sizes]; auto. rewrite N. apply (do_its O2).
      - apply ok_bind, ok_ong. apply add_arc; [apply (do_wf O2)|apply (do_dir O2)|rewrite (do_its O2); assumption..|apply (up_none_list O2 N1)|].
        intros h W T N L. apply ok_bind. eapply ok_get_size; [exact S0|]. apply ok_bind. eapply ok_get_size; [exact S1|].
        apply ok_bind. apply ok_modify. apply ok_ret. split; [reflexivity|].
        apply (link_inv (d := d2) D2 Hj Hi U1' U0'' (not_eq_sym Hne)); cbn [ds_g ds_sizes]; auto. rewrite N. apply (do_its O2). }
    apply ok_ex in G as (d' & b & He & -> & DI'). exists d', true. rewrite He. split; [reflexivity|]. split; [assumption|]. tauto.
Qed.

(** * add *)
Lemma add_arc_new g a b (Q : unit -> graph -> Prop) : wf g -> g_type g = Directed -> ~ In a (get_node_list g) -> In b (get_node_list g) ->
  (forall h, wf h -> g_type h = Directed -> get_node_list h = get_node_list g ++ [a] ->
     (forall x, list_at (g_nbrs h) x = if eq_dec a x then [b] else list_at (g_nbrs g) x) -> Q tt h) ->
  ok (add_edge a b []) g Q.
Proof.
  intros W Hd Ha Hb HQ.
  assert (Hc : check_edge g a b = false).
  { destruct (check_edge g a b) eqn:E; [|reflexivity]. exfalso. apply Ha. apply (check_edge_nodes W E). }
  pose proof (add_edge_wf a b [] W) as Wh. pose proof (add_edge_new [] W Hc) as He. rewrite He in Wh. simpl in Wh.
  pose proof (wf_ensure a W) as W1.
  assert (Eb : ensure (ensure g a) b = ensure g a). { apply ensure_id. rewrite (wf_nodes W1). apply ensure_mono. exact Hb. }
  rewrite Eb in *. assert (Td : g_type (ensure g a) = Directed) by (rewrite g_type_ensure; assumption).
  eapply ok_intro; [exact He|]. apply HQ; [assumption|..].
  - unfold link. rewrite Td. reflexivity.
  - unfold link, get_node_list. rewrite Td. simpl. rewrite dkeys_dset_in by (apply ensure_In; assumption).
    rewrite dkeys_ensure by assumption. destruct (mem_spec a (dkeys (g_nbrs g))) as [Hi|_]; [contradiction|reflexivity].
  - intros x. unfold link. rewrite Td. simpl. rewrite list_at_dset, !list_at_ensure by assumption.
    eqd; [|reflexivity]. rewrite (list_at_nin (d := g_nbrs g) (k := a)); [reflexivity|exact Ha].
Qed.

Lemma add_ok d its J a t : ds_inv d its J -> NoDup (a :: t) -> (forall x, In x (a :: t) -> ~ In x its) ->
  exists d', ds_add (a :: t) d = (d', Ok tt) /\ ds_inv d' (its ++ a :: t) (map (fun x => (x, a)) t ++ J) /\ ds_opt d' = ds_opt d.
Proof.
  intros (D & HJ & HC) Hnd Hfr. pose proof (do_wf D) as W. pose proof (do_dir D) as T.
  assert (Ha : ~ In a its) by (apply Hfr; simpl; auto).
  assert (G : ok (ds_add (a :: t)) d (fun _ d' => wf (ds_g d') /\ g_type (ds_g d') = Directed /\ get_node_list (ds_g d') = its ++ a :: t /\
     (forall x, list_at (g_nbrs (ds_g d')) x = if in_dec eq_dec x t then [a] else list_at (g_nbrs (ds_g d)) x) /\
     (forall r, r = a \/ In r (dkeys (ds_sizes d)) -> In r (dkeys (ds_sizes d'))) /\ ds_opt d' = ds_opt d)).
  { unfold ds_add. apply ok_bind, ok_ong.
    assert (Hn : ~ In a (get_node_list (ds_g d))) by (rewrite (do_its D); assumption).
    eapply ok_intro; [apply add_node_new; exact Hn|].
    apply ok_bind. eapply ok_weaken; [apply ok_forM with
      (I := fun pre d' => wf (ds_g d') /\ g_type (ds_g d') = Directed /\ get_node_list (ds_g d') = its ++ a :: pre /\
        (forall x, list_at (g_nbrs (ds_g d')) x = if in_dec eq_dec x pre then [a] else list_at (g_nbrs (ds_g d)) x) /\ ds_sizes d' = ds_sizes d /\ ds_opt d' = ds_opt d)
      (Q := fun d' => wf (ds_g d') /\ g_type (ds_g d') = Directed /\ get_node_list (ds_g d') = its ++ a :: t /\
        (forall x, list_at (g_nbrs (ds_g d')) x = if in_dec eq_dec x t then [a] else list_at (g_nbrs (ds_g d)) x) /\ ds_sizes d' = ds_sizes d /\ ds_opt d' = ds_opt d)|].
    - cbn [ds_g ds_sizes ds_opt]. split; [apply wf_p_add_node; assumption|]. split; [exact T|]. split; [|split; [|auto]].
      + unfold get_node_list, p_add_node. simpl. rewrite dkeys_dset_nin' by assumption. rewrite <- (do_its D). reflexivity.
      + intros x. simpl. rewrite list_at_dset. eqd; [|reflexivity]. subst. symmetry. apply list_at_nin. assumption.
    - intros pre x post d1 Ht (W1 & T1 & N1 & L1 & S1 & O1). apply ok_ong.
      assert (Hx : In x t) by (rewrite Ht, in_app_iff; simpl; auto). inversion Hnd as [|? ? Hat Hndt]; subst x0 l.
      assert (Hxp : ~ In x pre). { rewrite Ht in Hndt. apply NoDup_remove_2 in Hndt. rewrite in_app_iff in Hndt. tauto. }
      apply add_arc_new; [assumption|assumption|rewrite N1|rewrite N1|].
      + rewrite in_app_iff. simpl. intros [H|[H|H]]; [apply (Hfr x); simpl; auto|subst; contradiction|contradiction].
      + rewrite in_app_iff. simpl. auto.
      + intros h W2 T2 N2 L2. cbn [ds_g ds_sizes ds_opt]. split; [assumption|]. split; [assumption|]. split; [|split; [|auto]].
        * rewrite N2, N1, <- app_assoc. reflexivity.
        * intros y. rewrite L2, L1. destruct (eq_dec x y) as [->|Hxy].
          -- destruct (in_dec eq_dec y (pre ++ [y])) as [_|E]; [reflexivity|]. exfalso. apply E. rewrite in_app_iff. simpl; auto.
          -- destruct (in_dec eq_dec y pre) as [E|E], (in_dec eq_dec y (pre ++ [x])) as [E'|E']; try reflexivity; rewrite in_app_iff in E'; simpl in E'; tauto.
    - intros d1 H. exact H.
    - intros u d1 H; cbn beta in H. destruct H as (W1 & T1 & N1 & L1 & S1 & O1). apply ok_modify. cbn [ds_g ds_sizes ds_opt].
      do 4 (split; [assumption|]). split; [|assumption]. intros r Hr. apply In_dkeys_dset. rewrite S1. assumption. }
  apply ok_ex in G as (d' & [] & He & W' & T' & N' & L' & S' & O'). exists d'. split; [assumption|]. split; [|assumption].
  inversion Hnd as [|? ? Hat Hndt]; subst.
  assert (PF : forall x, par (ds_g d') x = if in_dec eq_dec x t then Some a else par (ds_g d) x).
  { intros x. unfold par. rewrite L'. destruct (in_dec eq_dec x t); reflexivity. }
  assert (Pa : par (ds_g d) a = None). { destruct (par (ds_g d) a) eqn:E; [|reflexivity]. apply (par_in D) in E. tauto. }
  assert (Ua : up (par (ds_g d')) a a 0). { apply up_root. rewrite PF. destruct (in_dec eq_dec a t); [contradiction|assumption]. }
  assert (Ut : forall x, In x t -> up (par (ds_g d')) x a 1). { intros x Hx. eapply up_step; [|exact Ua]. rewrite PF. destruct (in_dec eq_dec x t); [reflexivity|contradiction]. }
  assert (Uo : forall x r k, In x its -> up (par (ds_g d)) x r k -> up (par (ds_g d')) x r k).
  { intros x r k Hx U. revert Hx. assert (Hold : forall y, In y its -> par (ds_g d') y = par (ds_g d) y).
    { intros y Hy. rewrite PF. destruct (in_dec eq_dec y t) as [E|]; [|reflexivity]. exfalso. apply (Hfr y); simpl; auto. }
    induction U as [x H|x p r k H H1 IH]; intros Hx; [apply up_root; rewrite Hold; assumption|].
    eapply up_step; [rewrite Hold; eassumption|]. apply IH. apply (par_in D H). }
  assert (Cases : forall x, In x (its ++ a :: t) -> In x its \/ (up (par (ds_g d')) x a 0 \/ up (par (ds_g d')) x a 1) /\ conn (map (fun x => (x, a)) t ++ J) x a /\ In x (a :: t)).
  { intros x Hx. apply in_app_iff in Hx as [Hx|[<-|Hx]]; [auto|right|right].
    - split; [auto|]. split; [apply conn_refl|simpl; auto].
    - split; [auto|]. split; [|simpl; auto]. apply conn_edge. left. apply in_app_iff. left. apply in_map_iff. eauto. }
  apply ds_inv_intro.
  - constructor; auto.
    + intros x. rewrite L'. destruct (in_dec eq_dec x t); [simpl; lia|apply (do_one D)].
    + intros x Hx. destruct (Cases x Hx) as [Ho|[[U|U] _]]; eauto. destruct (do_up D Ho) as (r & k & U). eauto.
    + intros r Hr Hn. apply S'. apply in_app_iff in Hr as [Hr|[Hr|Hr]]; [right|auto|].
      * apply (do_sz D Hr). rewrite PF in Hn. destruct (in_dec eq_dec r t); [discriminate|assumption].
      * rewrite PF in Hn. destruct (in_dec eq_dec r t); [discriminate|contradiction].
  - intros x y Hxy. apply in_app_iff in Hxy as [Hxy|Hxy].
    + apply in_map_iff in Hxy as (z & [= <- <-] & Hz). rewrite !in_app_iff. simpl. auto.
    + apply HJ in Hxy. rewrite !in_app_iff. tauto.
  - intros x y Hxy. apply in_app_iff in Hxy as [Hxy|Hxy].
    + apply in_map_iff in Hxy as (z & [= <- <-] & Hz). exists a, 1, 0. auto.
    + destruct (HJ _ _ Hxy) as [Hx Hy]. destruct (proj2 (HC x y Hx Hy)) as (r & k & k' & A & B); [apply conn_edge; left; assumption|].
      exists r, k, k'. auto.
  - intros x y r k k' Hx Hy A B.
    assert (Hinc : forall u v, conn J u v -> conn (map (fun x => (x, a)) t ++ J) u v) by (intros u v; apply conn_incl; intros z Hz; apply in_app_iff; auto).
    assert (Hra : forall z, In z its -> forall kz, ~ up (par (ds_g d')) z a kz).
    { intros z Hz kz Uz. destruct (do_up D Hz) as (rz & k2 & U2). destruct (up_det (Uo _ _ _ Hz U2) Uz) as [-> _]. apply Ha. exact (up_in D Hz U2). }
    destruct (Cases x Hx) as [Hx'|[Ux [Cx _]]], (Cases y Hy) as [Hy'|[Uy [Cy _]]].
    + destruct (do_up D Hx') as (rx & kx & U1). destruct (do_up D Hy') as (ry & ky & U2).
      destruct (up_det (Uo _ _ _ Hx' U1) A) as [-> _]. destruct (up_det (Uo _ _ _ Hy' U2) B) as [-> _].
      apply Hinc, HC; auto. exists r, kx, ky. auto.
    + exfalso. destruct Uy as [U|U]; destruct (up_det U B) as [<- _]; exact (Hra x Hx' _ A).
    + exfalso. destruct Ux as [U|U]; destruct (up_det U A) as [<- _]; exact (Hra y Hy' _ B).
    + eapply conn_trans; [exact Cx|apply conn_sym; exact Cy].
Qed.
Lemma new_ds_inv opt kw : ds_inv (new_ds opt kw) [] [].
Proof.
  split; [|split; [intros x y []|intros x y []]]. constructor; cbn [new_ds ds_g]; [apply wf_new|reflexivity|reflexivity|intros x; simpl; lia|intros x []|intros x []].
Qed.
