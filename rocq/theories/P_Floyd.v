(* floyd_warshall of the model computes the iteration of P_FloydAbs; paths and cycles read from its result. *)
From Verif Require Import Py Util M_Graph P_Graph P_GraphLaws M_Search Spec P_Walk P_Attr M_Flow P_EdgeFrame M_Floyd P_FloydAbs.
Set Implicit Arguments. Unset Strict Implicit.
Local Open Scope string_scope. Local Open Scope list_scope.

Lemma bind_bind {S A B C} (m : M S A) (f : A -> M S B) (k : B -> M S C) s : bind (bind m f) k s = bind m (fun a => bind (f a) k) s.
Proof. unfold bind. destruct (m s) as [s' [a|e]]; reflexivity. Qed.
Section Floyd.
  Variable g : graph.
  Hypothesis W : wf g.
  Hypothesis Dir : g_type g = Directed.
  Hypothesis HC : has_costs g false.
  Notation nl := (get_node_list g).
  Notation el := (get_edge_list g).
  Notation A := (arc g).
  Notation c := (edge_cost g).
  Notation fst2 := (name -> name -> option Z).
  Notation nx2 := (name -> name -> option name).
  Lemma nl_NoDup : NoDup nl.
  Proof. apply (wf_nd W). Qed.
  Lemma arc_el x y : A x y <-> In (x, y) el.
  Proof. unfold arc, check_edge. rewrite Dir. apply dmem_In. Qed.
  Lemma arc_nl x y : A x y -> In x nl /\ In y nl.
  Proof. intros H. apply (edge_nodes W Dir), arc_el, H. Qed.
  Lemma arc_cost x y : A x y -> eattr g x y "cost" = Some (VI (c x y)).
  Proof.
    intros H. destruct (HC (x := x) (y := y)) as [z Hz]; [unfold sarc; rewrite Dir; exact H|]. unfold eattr, edge_cost. rewrite Hz. reflexivity.
  Qed.

  Definition rep (s : dists * nexts) (S : fst2 * nx2) : Prop :=
    forall i j, In i nl -> In j nl -> dget (fst s) (i, j) = Some (fst S i j) /\ dget (snd s) (i, j) = Some (snd S i j).
  Lemma ok_look {V} (d : dict (name * name) V) k v h (Q : V -> graph -> Prop) : dget d k = Some v -> Q v h -> ok (look d k) h Q.
  Proof. intros H HQ. eapply ok_lift; eassumption. Qed.

  Lemma fw_step_ok k i j s S h : In k nl -> In i nl -> In j nl -> rep s S -> ok (fw_step k i s j) h (fun s' h' => h' = h /\ rep s' (pstep k i S j)).
  Proof.
    intros Hk Hi Hj R. destruct s as [d n]. unfold fw_step, pstep, better, through.
    apply ok_bind. eapply ok_look; [apply (R i k Hi Hk)|]. destruct (fst S i k) as [a|]; [|apply ok_ret; auto].
    apply ok_bind. eapply ok_look; [apply (R k j Hk Hj)|]. destruct (fst S k j) as [b|]; [|apply ok_ret; auto].
    apply ok_bind. eapply ok_look; [apply (R i j Hi Hj)|].
    destruct (match fst S i j with Some z => (z >? a + b)%Z | None => true end); [|apply ok_ret; auto].
    apply ok_bind. eapply ok_look; [apply (R k j Hk Hj)|]. apply ok_ret. split; [reflexivity|].
    intros x y Hx Hy. cbn [fst snd]. destruct (eq_dec (x, y) (i, j)) as [[= -> ->]|Hne].
    - rewrite !dget_dset_eq, !upd_eq. auto.
    - rewrite !dget_dset_ne, !upd_ne by congruence. apply R; assumption.
  Qed.
  Lemma fold_rep (f : dists * nexts -> name -> M graph (dists * nexts)) (F : fst2 * nx2 -> name -> fst2 * nx2) h :
    (forall x s S, In x nl -> rep s S -> ok (f s x) h (fun s' h' => h' = h /\ rep s' (F S x))) ->
    forall s S, rep s S -> ok (foldM f nl s) h (fun s' h' => h' = h /\ rep s' (fold_left F nl S)).
  Proof.
    intros Hf s S R. apply ok_foldM with (I := fun pre s' h' => h' = h /\ rep s' (fold_left F pre S)).
    - auto.
    - intros pre x post s1 h1 El [-> R1]. eapply ok_weaken; [apply (Hf x _ _ ltac:(rewrite El; apply in_elt) R1)|]. intros s2 h2 [-> R2]. rewrite fold_left_app. auto.
    - auto.
  Qed.
  Lemma fw_main_ok s S h : rep s S ->
    ok (foldM (fun s k => foldM (fun s i => foldM (fw_step k i) nl s) nl s) nl s) h (fun s' h' => h' = h /\ rep s' (pfw nl nl S)).
  Proof.
    intros R. apply fold_rep; [|exact R]. intros k s1 S1 Hk R1. apply fold_rep; [|exact R1]. intros i s2 S2 Hi R2. apply fold_rep; [|exact R2]. intros j s3 S3 Hj R3.
    apply fw_step_ok; assumption.
  Qed.

  (** ** initialisation *)
  Definition S0 (d : dists) (n : nexts) : fst2 * nx2 :=
    (fun i j => match dget d (i, j) with Some x => x | None => None end, fun i j => match dget n (i, j) with Some x => x | None => None end).
  Lemma dget_fill (l1 l2 : list name) (d : dists) x y : In x l1 -> In y l2 ->
    dget (fold_left (fun d i => fold_left (fun d j => dset d (i, j) None) l2 d) l1 d) (x, y) = Some None.
  Proof.
    intros Hx Hy.
    assert (In2 : forall (i : name) (l : list name) (d : dists) (x y : name), dget (fold_left (fun d j => dset d (i, j) None) l d) (x, y) = if eqb x i && mem y l then Some None else dget d (x, y)).
    { intros i l. induction l as [|j l IH]; intros d0 x0 y0; simpl; [rewrite andb_false_r; reflexivity|]. rewrite IH.
      destruct (eqb_spec x0 i) as [->|Hi]; simpl; [|rewrite dget_dset_ne by congruence; reflexivity]. destruct (eq_dec y0 j) as [->|Hj].
      - rewrite dget_dset_eq. destruct (mem j l); reflexivity.
      - rewrite dget_dset_ne by congruence. reflexivity. }
    revert d. induction l1 as [|i l1 IH]; intros d; [destruct Hx|]. simpl. destruct (mem_spec x l1) as [H|H]; [apply IH, H|].
    destruct Hx as [<-|Hx]; [|contradiction].
    assert (Out : forall (l : list name) (d : dists), ~ In i l -> dget (fold_left (fun d i => fold_left (fun d j => dset d (i, j) None) l2 d) l d) (i, y) = dget d (i, y)).
    { induction l as [|k l IHl]; intros d0 Hl; simpl; [reflexivity|]. rewrite IHl by (intros K; apply Hl; simpl; auto). rewrite In2. destruct (eqb_spec i k) as [->|]; [exfalso; apply Hl; simpl; auto|reflexivity]. }
    rewrite Out by exact H. rewrite In2, eqb_refl. destruct (mem_spec y l2); [reflexivity|contradiction].
  Qed.
  Lemma dget_diag (l : list name) (d : dists) x y : dget (fold_left (fun d i => dset d (i, i) (Some 0%Z)) l d) (x, y) = if eqb x y && mem x l then Some (Some 0%Z) else dget d (x, y).
  Proof.
    revert d. induction l as [|i l IH]; intros d; simpl; [rewrite andb_false_r; reflexivity|]. rewrite IH. destruct (eqb_spec x y) as [->|Hne]; simpl.
    - destruct (eq_dec y i) as [->|Hi]; [rewrite dget_dset_eq; destruct (mem i l); reflexivity|rewrite dget_dset_ne by congruence; reflexivity].
    - rewrite dget_dset_ne by congruence. reflexivity.
  Qed.
  Lemma fw_dist_ok : ok (fw_dist nl el) g (fun d h => h = g /\ forall i j, In i nl -> In j nl ->
    dget d (i, j) = Some (if mem (i, j) el then Some (c i j) else if eqb i j then Some 0%Z else None)).
  Proof.
    unfold fw_dist. apply ok_foldM with (I := fun pre d h => h = g /\ forall i j, In i nl -> In j nl ->
      dget d (i, j) = Some (if mem (i, j) pre then Some (c i j) else if eqb i j then Some 0%Z else None)).
    - split; [reflexivity|]. intros i j Hi Hj. rewrite dget_diag. simpl. destruct (eqb_spec i j) as [->|Hne]; simpl.
      + destruct (mem_spec j nl); [reflexivity|contradiction].
      + apply dget_fill; assumption.
    - intros pre e post d h El [-> I]. destruct e as [x y]. assert (He : A x y) by (apply arc_el; rewrite El; apply in_elt).
      apply ok_bind. unfold get_edge_cost. cbn [fst snd]. eapply ok_get_edge_attr; [apply (arc_cost He)|]. apply ok_bind, ok_as_int. apply ok_ret. split; [reflexivity|].
      intros i j Hi Hj. assert (Mem : mem (i, j) (pre ++ [(x, y)]) = mem (i, j) pre || eqb (i, j) (x, y)).
      { clear. induction pre as [|e pre IH]; simpl; [unfold eqb; destruct (eq_dec (i, j) (x, y)); reflexivity|]. destruct (eq_dec (i, j) e); [reflexivity|apply IH]. }
      rewrite Mem. destruct (eqb_spec (i, j) (x, y)) as [[= -> ->]|Hne].
      + rewrite dget_dset_eq, orb_true_r. reflexivity.
      + rewrite dget_dset_ne by congruence. rewrite orb_false_r. apply I; assumption.
    - auto.
  Qed.
  Lemma fw_next_ok d : (forall i j, In i nl -> In j nl -> exists x, dget d (i, j) = Some x) ->
    ok (fw_next nl d) g (fun n h => h = g /\ forall i j, In i nl -> In j nl ->
      dget n (i, j) = Some (if eqb i j then None else match dget d (i, j) with Some (Some _) => Some i | _ => None end)).
  Proof.
    intros Full. unfold fw_next. set (v := fun i j => if eqb i j then None else match dget d (i, j) with Some (Some _) => Some i | _ => None end).
    apply ok_foldM with (I := fun pre n h => h = g /\ forall i j, In i pre -> In j nl -> dget n (i, j) = Some (v i j)).
    - split; [reflexivity|intros i j []].
    - intros pre i post n h El [-> I]. assert (Hi : In i nl) by (rewrite El; apply in_elt).
      assert (Hn : ~ In i pre) by (pose proof nl_NoDup as H; rewrite El in H; apply NoDup_remove_2 in H; rewrite in_app_iff in H; tauto).
      apply ok_foldM with (I := fun pre' n h => h = g /\ (forall x j, In x pre -> In j nl -> dget n (x, j) = Some (v x j)) /\ forall j, In j pre' -> dget n (i, j) = Some (v i j)).
      + split; [reflexivity|]. split; [exact I|intros j []].
      + intros pre' j post' n1 h El' (-> & I1 & I2). assert (Hj : In j nl) by (rewrite El'; apply in_elt).
        assert (Wr : forall w, w = v i j -> g = g /\ (forall x j', In x pre -> In j' nl -> dget (dset n1 (i, j) w) (x, j') = Some (v x j')) /\ forall j', In j' (pre' ++ [j]) -> dget (dset n1 (i, j) w) (i, j') = Some (v i j')).
        { intros w ->. split; [reflexivity|]. split.
          - intros x j' Hx Hj'. rewrite dget_dset_ne by (intros [= -> ->]; contradiction). auto.
          - intros j' Hj'. destruct (eq_dec j' j) as [->|Hne]; [apply dget_dset_eq|]. rewrite dget_dset_ne by congruence. apply I2. apply in_app_iff in Hj' as [?|[<-|[]]]; [assumption|congruence]. }
        unfold v in Wr at 1. destruct (eqb i j); [apply ok_ret, Wr; reflexivity|]. destruct (Full i j Hi Hj) as [x Hx].
        apply ok_bind. eapply ok_look; [exact Hx|]. rewrite Hx in Wr. destruct x; apply ok_ret, Wr; reflexivity.
      + intros n1 h (-> & I1 & I2). split; [reflexivity|]. intros x j Hx Hj. apply in_app_iff in Hx as [Hx|[<-|[]]]; auto.
    - auto.
  Qed.
  Lemma first_neg_ok d (D : fst2) (l : list name) h : (forall i, In i l -> exists z, dget d (i, i) = Some (Some z) /\ D i i = Some z) ->
    ok (first_neg l d) h (fun r h' => h' = h /\ match r with Some i => In i l /\ exists z, D i i = Some z /\ (z < 0)%Z | None => forall i z, In i l -> D i i = Some z -> (0 <= z)%Z end).
  Proof.
    induction l as [|i l IH]; intros H; cbn [first_neg]; [apply ok_ret; split; [reflexivity|intros i z []]|].
    destruct (H i (or_introl eq_refl)) as (z & Hz & HD). apply ok_bind. unfold is_neg. apply ok_bind. eapply ok_look; [exact Hz|]. apply ok_ret. destruct (Z.ltb_spec z 0) as [Hneg|Hpos].
    - apply ok_ret. split; [reflexivity|]. split; [simpl; auto|]. exists z. auto.
    - eapply ok_weaken; [apply IH; intros x Hx; apply H; simpl; auto|]. intros r h' [-> G]. split; [reflexivity|]. destruct r as [x|].
      + destruct G as [G1 G2]. split; [simpl; auto|exact G2].
      + intros x y [<-|Hx] Hy; [rewrite HD in Hy; injection Hy as <-; exact Hpos|apply (G x y Hx Hy)].
  Qed.

  (* the result of floyd_warshall: the final functions, and what they come from *)
  Definition result (v : bool) (d : dists) (n : nexts) (S : fst2 * nx2) : Prop :=
    exists s0, (init nl A c s0 /\ forall i, In i nl -> snd s0 i i = None) /\ S = pfw nl nl s0 /\ rep (d, n) S /\
      (if v then forall i z, In i nl -> fst S i i = Some z -> (0 <= z)%Z else exists i z, In i nl /\ fst S i i = Some z /\ (z < 0)%Z).
  Lemma floyd_warshall_ok : ok floyd_warshall g (fun r h => h = g /\ exists S, result (fst (fst r)) (snd (fst r)) (snd r) S).
  Proof.
    unfold floyd_warshall. apply ok_bind, ok_gets. apply ok_bind, ok_gets. apply ok_bind. eapply ok_weaken; [apply fw_dist_ok|]. intros d h [-> Hd].
    apply ok_bind. eapply ok_weaken; [apply (fw_next_ok (d := d))|]; [intros i j Hi Hj; eexists; apply (Hd i j Hi Hj)|]. intros n h [-> Hn].
    assert (R0 : rep (d, n) (S0 d n)).
    { intros i j Hi Hj. simpl. rewrite (Hd i j Hi Hj), (Hn i j Hi Hj). auto. }
    assert (I0 : init nl A c (S0 d n)).
    { constructor.
      - intros i j Hi Hj. simpl. rewrite (Hd i j Hi Hj). destruct (mem_spec (i, j) el) as [H|H]; [left|right]; (split; [rewrite arc_el; exact H|reflexivity]).
      - intros i j He Hne. simpl. destruct (arc_nl He) as [Hi Hj]. rewrite (Hn i j Hi Hj), (Hd i j Hi Hj). apply eqb_false in Hne. rewrite Hne.
        apply arc_el in He. destruct (mem_spec (i, j) el); [reflexivity|contradiction]. }
    apply ok_bind. eapply ok_weaken; [apply (fw_main_ok g R0)|]. intros [d' n'] h [-> R].
    assert (Dg : forall i, In i nl -> exists z, dget d' (i, i) = Some (Some z) /\ fst (pfw nl nl (S0 d n)) i i = Some z).
    { intros i Hi. destruct (fin_diag' arc_nl I0 Hi) as [z Hz]. exists z. split; [|exact Hz]. destruct (R i i Hi Hi) as [R1 _]. simpl in R1. rewrite R1, Hz. reflexivity. }
    apply ok_bind. eapply ok_weaken; [apply (first_neg_ok g Dg)|]. intros [i|] h [-> H]; apply ok_ret; (split; [reflexivity|]); exists (pfw nl nl (S0 d n)), (S0 d n); cbn [fst snd]; (split; [split; [exact I0|intros i' Hi'; simpl; rewrite (Hn i' i' Hi' Hi'), eqb_refl; reflexivity]|]; split; [reflexivity|]; split; [exact R|]).
    - destruct H as [Hi (z & H1 & H2)]. exists i, z. auto.
    - exact H.
  Qed.

  (** ** paths *)
  Section Paths.
    Variables (d : dists) (n : nexts) (S : fst2 * nx2).
    Hypothesis R : result true d n S.
    Lemma valid_nc : forall a p, walk A a p a -> (0 <= wcost c p)%Z.
    Proof.
      intros a p Hw. destruct R as (s0 & [I0 _] & -> & _ & Hv). destruct (Z.ltb_spec (wcost c p) 0) as [Hn|]; [|lia].
      destruct (proj2 (fin_neg arc_nl I0)) as (i & z & Hi & Hz & Hneg); [exists a, p; auto|]. specialize (Hv i z Hi Hz). lia.
    Qed.
    Fixpoint triples (l : list name) : list name := match l with [] => [] | x :: l => x :: x :: x :: triples l end.
    Lemma triples_app l l' : triples (l ++ l') = triples l ++ triples l'.
    Proof. induction l as [|x l IH]; simpl; [reflexivity|]. rewrite IH. reflexivity. Qed.
    Lemma get_path_ok i j z fuel : In i nl -> In j nl -> i <> j -> fst S i j = Some z -> length nl < fuel ->
      exists mids, walk A i (i :: mids ++ [j]) j /\ wcost c (i :: mids ++ [j]) = z /\ NoDup (i :: mids ++ [j]) /\
        ok (floyd_warshall_get_path fuel d n i j) g (fun r h => h = g /\ r = Some (i :: triples mids ++ [j])).
    Proof.
      intros Hi Hj Hne Hz Hf. pose proof valid_nc as NC. destruct R as (s0 & [I0 _] & -> & Rep & _).
      destruct (fin_C nl_NoDup arc_nl NC I0 Hi Hj Hne Hz) as [p Hp].
      destruct (chain_cost arc_nl NC I0 Hp Hi Hj Hne Hz) as [(V1 & V2 & V3) Arcs].
      pose proof (chain_NoDup Hp Hne) as ND. exists p. split; [exact V1|]. split; [exact V3|]. split; [exact ND|].
      assert (Hl : length p < fuel). { assert (length p <= length nl) by (apply NoDup_incl_len; [inversion ND; apply NoDup_snoc in H2; tauto|exact V2]). lia. }
      clear Hf V1 V3 ND. revert fuel z Hz Hl. induction Hp as [j H|j m p H Hmi Hc IH]; intros fuel z Hz Hl.
      - destruct fuel as [|fuel]; [lia|]. cbn [floyd_warshall_get_path]. destruct (Rep i j Hi Hj) as [R1 R2]. cbn [fst snd] in R1, R2.
        apply ok_bind. eapply ok_look; [exact R1|]. rewrite Hz. apply ok_bind. eapply ok_look; [exact R2|]. apply ok_bind. eapply ok_lift; [exact H|]. rewrite eqb_refl. apply ok_ret. auto.
      - destruct fuel as [|fuel]; [lia|]. rewrite app_length in Hl. simpl in Hl. cbn [floyd_warshall_get_path]. destruct (Rep i j Hi Hj) as [R1 R2]. cbn [fst snd] in R1, R2.
        assert (Hm : In m nl) by (apply V2, in_app_iff; simpl; auto).
        destruct (next_arc arc_nl NC (fin_A I0) (fin_B arc_nl I0) (fin_W I0 (nc_loops NC)) Hi Hj Hne Hz) as (m' & N1 & N2 & N3 & N4). rewrite H in N1. injection N1 as <-.
        destruct N4 as [[? _]|(_ & _ & z' & Hz' & ->)]; [congruence|].
        apply ok_bind. eapply ok_look; [exact R1|]. rewrite Hz. apply ok_bind. eapply ok_look; [exact R2|]. apply ok_bind. eapply ok_lift; [exact H|].
        destruct (eqb_spec i m) as [|_]; [congruence|].
        apply ok_bind. eapply ok_weaken; [apply (IH Hm ltac:(congruence)) with (z := z'); [intros x Hx; apply V2, in_app_iff; auto| |exact Hz'|lia]|].
        { intros p1 x p2 Ep. apply (Arcs p1 x (p2 ++ [j])). rewrite Ep, <- app_assoc. reflexivity. }
        intros r h [-> ->]. apply ok_bind. eapply ok_lift; [reflexivity|].
        destruct (Arcs (p ++ [m]) j [] eq_refl) as (k & K1 & K2). rewrite app_comm_cons, rev_app_distr in K1. injection K1 as <-.
        destruct fuel as [|fuel]; [lia|]. destruct (Rep m j Hm Hj) as [R3 R4]. cbn [fst snd] in R3, R4.
        destruct (fin_T arc_nl I0 N2 N3) as (y & Y & _).
        apply ok_bind. cbn [floyd_warshall_get_path]. apply ok_bind. eapply ok_look; [exact R3|]. rewrite Y. apply ok_bind. eapply ok_look; [exact R4|]. apply ok_bind. eapply ok_lift; [exact K2|]. rewrite eqb_refl. apply ok_ret.
        apply ok_bind. eapply ok_lift; [reflexivity|]. apply ok_ret. split; [reflexivity|]. rewrite triples_app. simpl. rewrite <- !app_assoc. reflexivity.
    Qed.
  End Paths.

  (** ** cycles *)
  Section Cycles.
    Variables (d : dists) (n : nexts) (S : fst2 * nx2).
    Hypothesis R : result false d n S.
    Hypothesis PL : pos_loops A c.
    (* what nextn says about a node x reached from e *)
    Lemma next_back e x : In e nl -> In x nl -> (exists z, fst S e x = Some z) -> (e = x -> exists z, fst S e x = Some z /\ (z < 0)%Z) ->
      exists m, dget n (e, x) = Some (Some m) /\ A m x /\ In m nl /\ (exists z, fst S e m = Some z).
    Proof.
      intros He Hx [z Hz] Hex. destruct R as (s0 & [I0 _] & -> & Rep & _). destruct (fin_W I0 PL He Hx Hz) as [[-> Hp]|(p & m & G1 & G2 & G3 & G4 & G5)].
      { destruct (Hex eq_refl) as (z' & Hz' & Hneg). rewrite Hz in Hz'. injection Hz' as <-. lia. }
      destruct (arc_nl G2) as [Hm _]. exists m. destruct (Rep e x He Hx) as [_ R2]. cbn [snd] in R2. split; [rewrite R2, G1; reflexivity|]. split; [exact G2|]. split; [exact Hm|].
      destruct (eq_dec e m) as [->|Hne]; [apply (fin_diag' arc_nl I0 Hm)|]. apply (fin_reach arc_nl I0 He Hm Hne).
      destruct (list_eq_dec eq_dec p []) as [->|Hp]; [simpl in G4; congruence|]. destruct (exists_last Hp) as (p' & m' & ->). rewrite last_last in G4. subst m'.
      destruct (via_split G5) as (a & b & V1 & _). destruct V1 as (V1 & _). eexists; exact V1.
    Qed.
    (* closed [e :: rest]: e -> ... -> last -> e *)
    Lemma walk_back_ok e fuel : In e nl -> (exists z, fst S e e = Some z /\ (z < 0)%Z) -> length nl < fuel ->
      ok (walk_back fuel n e) g (fun r h => h = g /\ exists rest, fst r = e :: rest /\ NoDup (e :: rest) /\ In (snd r) (e :: rest) /\ In (snd r) nl /\
        walk A (snd r) (snd r :: rest ++ [e]) e).
    Proof.
      intros He Hneg Hf. unfold walk_back. destruct Hneg as (z0 & Hz0 & Hneg0).
      destruct (next_back He He (ex_intro _ z0 Hz0) (fun _ => ex_intro _ z0 (conj Hz0 Hneg0))) as (k & K1 & K2 & K3 & K4).
      apply ok_bind. eapply ok_look; [exact K1|].
      apply ok_loop with (I := fun (s : list name * option name) h => h = g /\ exists k, snd s = Some k /\ In k nl /\ (exists z, fst S e k = Some z) /\ NoDup (e :: fst s) /\ incl (fst s) nl /\ walk A k (k :: fst s ++ [e]) e)
        (mu := fun (s : list name * option name) _ => length nl - length (fst s)).
      - split; [reflexivity|]. exists k. cbn [fst snd]. split; [reflexivity|]. split; [exact K3|]. split; [exact K4|]. split; [constructor; [intros []|constructor]|]. split; [intros x []|].
        apply walk_step with (b := e); [exact K2|constructor].
      - simpl. lia.
      - intros [rest k'] h (-> & x & Ek & Hx & Fx & ND & Inc & Wk). cbn [fst snd] in *. subst k'. destruct (mem_spec x (e :: rest)) as [Hin|Hin].
        + apply ok_ret. split; [reflexivity|]. exists rest. cbn [fst snd]. auto.
        + destruct (next_back He Hx Fx) as (m & M1 & M2 & M3 & M4); [intros ->; exfalso; apply Hin; simpl; auto|].
          apply ok_bind. eapply ok_look; [exact M1|]. apply ok_ret. split.
          * split; [reflexivity|]. exists m. cbn [fst snd]. split; [reflexivity|]. split; [exact M3|]. split; [exact M4|]. split.
            { inversion ND; subst. simpl in Hin. constructor; [simpl; intros [?|?]; [apply Hin; auto|contradiction]|]. constructor; [intros K; apply Hin; auto|assumption]. }
            split; [intros y [<-|Hy]; auto|]. apply walk_step with (b := x); [exact M2|exact Wk].
          * assert (length (x :: rest) <= length nl).
            { apply NoDup_incl_length; [|intros y [<-|Hy]; auto]. constructor; [intros K; apply Hin; simpl; auto|inversion ND; assumption]. }
            cbn [fst length] in *. lia.
    Qed.
    Lemma is_neg_spec e h : In e nl -> exists b, is_neg d (e, e) h = (h, Ok b) /\ (b = true -> exists z, fst S e e = Some z /\ (z < 0)%Z).
    Proof.
      intros He. destruct R as (s0 & [I0 _] & -> & Rep & _). destruct (fin_diag' arc_nl I0 He) as [z Hz]. destruct (Rep e e He He) as [R1 _]. cbn [fst] in R1.
      exists (z <? 0)%Z. split.
      - unfold is_neg, look, lift, bind. rewrite R1, Hz. reflexivity.
      - intros Hb. exists z. split; [exact Hz|lia].
    Qed.
    Lemma get_cycle_when fuel : forall el', (match el' with Some e => In e nl | None => True end) ->
      fst (floyd_warshall_get_cycle fuel d n el' g) = g /\
      match snd (floyd_warshall_get_cycle fuel d n el' g) with
      | Ok r => exists e rest, r = e :: rest /\ NoDup r /\ walk A e (r ++ [e]) e
      | Err x => x = OutOfFuel \/ exists m, x = PyException m
      end.
    Proof.
      (* walk_back with any fuel *)
      assert (WB : forall f e, In e nl -> (exists z, fst S e e = Some z /\ (z < 0)%Z) ->
        (exists rest k, walk_back f n e g = (g, Ok (e :: rest, k)) /\ NoDup (e :: rest) /\ In k nl /\ walk A k (k :: rest ++ [e]) e) \/ walk_back f n e g = (g, Err OutOfFuel)).
      { intros f e He Hn. pose proof (walk_back_ok (fuel := f + (length nl + 1)) He Hn ltac:(lia)) as H. apply ok_ex in H as (h & [c0 k] & Ew & -> & rest & E1 & E2 & E3 & E4 & E5). cbn [fst snd] in *. subst c0.
        assert (Al : always (walk_back f n e) g (fun h => h = g)).
        { unfold walk_back. apply always_bind; [unfold always, look, lift; destruct (dget n (e, e)); reflexivity|]. intros k0 s' _ ->. apply always_loop; [reflexivity|].
          intros [r [x|]] s' ->; [|reflexivity]. destruct (mem x (e :: r)); [reflexivity|]. unfold always, look, lift, bind. destruct (dget n (e, x)); reflexivity. }
        unfold always in Al. destruct (walk_back f n e g) as [h r] eqn:Ef. simpl in Al. subst h.
        assert (Dec : r = Err OutOfFuel \/ r <> Err OutOfFuel) by (destruct r as [|[]]; (left; reflexivity) || (right; discriminate)).
        destruct Dec as [->|Hr]; [right; reflexivity|]. left. exists rest, k. split; [|auto].
        assert (Em : walk_back (f + (length nl + 1)) n e g = (g, r)).
        { revert Ef. unfold walk_back, bind, look, lift. destruct (dget n (e, e)); [|exact (fun H => H)]. cbn [ret]. intros Ef. apply loop_mono; assumption. }
        rewrite Em in Ew. exact Ew. }
      induction fuel as [|fuel IH]; intros el' Hel; cbn [floyd_warshall_get_cycle]; [split; [reflexivity|left; reflexivity]|].
      assert (Body : forall e, In e nl -> (exists z, fst S e e = Some z /\ (z < 0)%Z) ->
        fst ((r <- walk_back (Datatypes.S fuel) n e ;; let '(cycle, k) := r in if eqb k e then ret cycle else floyd_warshall_get_cycle fuel d n (Some k)) g) = g /\
        match snd ((r <- walk_back (Datatypes.S fuel) n e ;; let '(cycle, k) := r in if eqb k e then ret cycle else floyd_warshall_get_cycle fuel d n (Some k)) g) with
        | Ok r => exists e rest, r = e :: rest /\ NoDup r /\ walk A e (r ++ [e]) e
        | Err x => x = OutOfFuel \/ exists m, x = PyException m
        end).
      { intros e He Hn. destruct (WB (Datatypes.S fuel) e He Hn) as [(rest & k & E1 & E2 & E3 & E4)|E1].
        - rewrite (bind_ok _ E1). destruct (eqb_spec k e) as [->|Hk].
          + split; [reflexivity|]. exists e, rest. auto.
          + apply (IH (Some k) E3).
        - rewrite (bind_err _ E1). split; [reflexivity|left; reflexivity]. }
      destruct el' as [e|].
      - destruct (is_neg_spec g Hel) as (b & E1 & E2). rewrite bind_bind. rewrite (bind_ok _ E1). destruct b.
        + erewrite bind_ok by reflexivity. apply Body; [exact Hel|apply E2; reflexivity].
        + erewrite bind_err by reflexivity. split; [reflexivity|]. right. eexists; reflexivity.
      - rewrite bind_bind. erewrite bind_ok by reflexivity. rewrite bind_bind.
        assert (H : ok (first_neg nl d) g (fun r h => h = g /\ match r with Some i => In i nl /\ exists z, fst S i i = Some z /\ (z < 0)%Z | None => forall i z, In i nl -> fst S i i = Some z -> (0 <= z)%Z end)).
        { apply first_neg_ok. intros i Hi. destruct R as (s0 & [I0 _] & -> & Rep & _). destruct (fin_diag' arc_nl I0 Hi) as [z Hz]. exists z. destruct (Rep i i Hi Hi) as [R1 _]. cbn [fst] in R1. rewrite R1, Hz. auto. }
        apply ok_ex in H as (h & r & Er & -> & H). rewrite (bind_ok _ Er). destruct r as [e|].
        + erewrite bind_ok by reflexivity. apply Body; apply H.
        + erewrite bind_err by reflexivity. split; [reflexivity|]. right. eexists; reflexivity.
    Qed.
  End Cycles.
End Floyd.
