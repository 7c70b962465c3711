(* Shapes of BinaryTree objects; the orders of print_nodes, dfs and bfs (C46, C47); printexp and postordereval (C48, C49). *)
From Verif Require Import Py Util M_Graph P_Graph P_GraphLaws P_Attr Spec P_Walk M_Tree S_Tree P_Rose P_Tree P_BinTree.
Set Implicit Arguments. Unset Strict Implicit.
Local Open Scope string_scope. Local Open Scope list_scope.

(* reading a child depends on the node dictionary only *)
Lemma get_child_nodes t t' s n : g_nodes (t_g t) = g_nodes (t_g t') -> tobs (get_child s (IName n)) t = tobs (get_child s (IName n)) t'.
Proof. intros H. unfold get_child. rewrite !tobs_ong, !obs_node_attr, H. reflexivity. Qed.
Lemma get_child_obs t s n v : tobs (get_child s (IName n)) t = Ok v -> forall t', g_nodes (t_g t') = g_nodes (t_g t) -> get_child s (IName n) t' = (t', Ok v).
Proof.
  intros H t' E. rewrite (get_child_nodes s n (eq_sym E)) in H. unfold tobs in H. unfold get_child in *. unfold ong, get_node_attr in *. destruct t'; simpl in *. congruence.
Qed.
Lemma get_child_inode t s n v : tobs (get_child s (IName n)) t = Ok v -> forall t', g_nodes (t_g t') = g_nodes (t_g t) -> get_child s (INode n) t' = (t', Ok v).
Proof. exact (@get_child_obs t s n v). Qed.

(** * print_nodes *)
Definition add_evs (t : tree) (es : list event) : tree := mkTree (t_g t) (t_root t) (t_trace t ++ es).
Lemma add_evs_nil t : add_evs t [] = t.
Proof. unfold add_evs. rewrite app_nil_r. destruct t; reflexivity. Qed.
Lemma add_evs_app t a b : add_evs (add_evs t a) b = add_evs t (a ++ b).
Proof. unfold add_evs. simpl. rewrite app_assoc. reflexivity. Qed.
Definition evrun (m : M tree unit) (t : tree) (P : list event -> Prop) : Prop := exists es, m t = (add_evs t es, Ok tt) /\ P es.
Lemma evrun_bind (m k : M tree unit) t P : evrun m t (fun es => evrun k (add_evs t es) (fun es' => P (es ++ es'))) -> evrun (m ;; k) t P.
Proof.
  intros (es & E & es' & E' & HP). exists (es ++ es'). split; [|exact HP]. erewrite bind_ok by exact E. rewrite E', add_evs_app. reflexivity.
Qed.
Lemma evrun_ret t (P : list event -> Prop) : P [] -> evrun (ret tt) t P.
Proof. intros H. exists []. split; [rewrite add_evs_nil; reflexivity|exact H]. Qed.
Lemma evrun_emit e t (P : list event -> Prop) : P [e] -> evrun (emit e) t P.
Proof. intros H. exists [e]. split; [reflexivity|exact H]. Qed.
Lemma evrun_show d x t (P : list event -> Prop) : P [] -> P [EHigh x] -> evrun (show d x) t P.
Proof. intros H1 H2. unfold show. destruct (truthy d); [apply evrun_emit, H2|apply evrun_ret, H1]. Qed.
Lemma evrun_weaken m t (P P' : list event -> Prop) : (forall es, P es -> P' es) -> evrun m t P -> evrun m t P'.
Proof. intros H (es & E & HP). exists es. auto. Qed.
Lemma prints_app a b : prints (a ++ b) = prints a ++ prints b.
Proof. unfold prints. apply flat_map_app. Qed.
Lemma visits_app a b : visits (a ++ b) = visits a ++ visits b.
Proof. unfold visits. apply flat_map_app. Qed.

Definition has_display (t : tree) (v : val) : Prop := dget (g_attr (t_g t)) "display" = Some v.
(* print_nodes between entering and leaving *)
Definition pbody (f : nat) (o : order) (s : side) (dsp : val) (n : name) : M tree unit :=
  let visit (c : side) :=
    v <- get_child c (IName n) ;;
    match v with
    | VNone => ret tt
    | _ => show dsp (IName n) ;; m <- as_name v ;; print_nodes f o s (Some dsp) (Some m)
    end in
  let print_if (p : order) := match o, p with
    | PreOrder, PreOrder | InOrder, InOrder | PostOrder, PostOrder => emit (EPrint (vname n))
    | _, _ => ret tt
    end in
  print_if PreOrder ;; visit s ;; print_if InOrder ;; visit (other s) ;; print_if PostOrder ;; show dsp (IName n).
Lemma bind_ext {S A B} (m : M S A) (f h : A -> M S B) s : (forall a s', f a s' = h a s') -> bind m f s = bind m h s.
Proof. intros H. unfold bind. destruct (m s) as [s' [a|e]]; auto. Qed.
Lemma print_nodes_eq f o s d root t : print_nodes (S f) o s d root t =
  (n <- match root with Some n => ret n | None => r <- gets t_root ;; lift r AttributeError end ;;
   '(dsp, old) <- enter_display d ;; (pbody f o s dsp n ;; leave_display old)) t.
Proof.
  cbn [print_nodes]. apply bind_ext. intros n t1. apply bind_ext. intros [dsp old] t2.
  unfold pbody. cbv zeta.
  assert (Ha : forall (m1 m2 m3 m4 m5 m6 m7 : M tree unit) x, (m1 ;; m2 ;; m3 ;; m4 ;; m5 ;; m6 ;; m7) x = ((m1 ;; m2 ;; m3 ;; m4 ;; m5 ;; m6) ;; m7) x).
  { clear. intros m1 m2 m3 m4 m5 m6 m7 x. unfold bind. repeat (match goal with |- context [match ?m ?y with _ => _ end] => destruct (m y) as [? [?|?]]; try reflexivity end). }
  apply Ha.
Qed.
Lemma set_display_same t v : has_display t v -> ong (set_graph_attr "display" v) t = (t, Ok tt).
Proof. intros H. unfold ong, set_graph_attr, modify. rewrite (dset_same H). destruct t as [[] ? ?]; reflexivity. Qed.

Lemma pbody_ok o s v b : forall f n t t0, bshape t0 (vname n) b -> g_nodes (t_g t) = g_nodes (t_g t0) -> has_display t v -> bheight b <= S f ->
  evrun (pbody f o s v n) t (fun es => prints es = map vname (blist o s b)).
Proof.
  induction b as [|m l IHl r IHr]; intros f n t t0 Hb Hg Hd Hf; inversion Hb as [E|? vl vr ? ? HL Hbl HR Hbr E]; subst.
  { symmetry in E. apply vname_not_none in E. destruct E. }
  apply vname_inj in E. subst m. cbn [bheight] in Hf.
  assert (Hsub : forall c t1, g_nodes (t_g t1) = g_nodes (t_g t0) -> has_display t1 v ->
    evrun (u <- get_child c (IName n) ;; match u with VNone => ret tt | _ => show v (IName n) ;; m <- as_name u ;; print_nodes f o s (Some v) (Some m) end) t1
      (fun es => prints es = map vname (match c with L => blist o s l | R => blist o s r end))).
  { intros c t1 Hg1 Hd1.
    assert (Hone : forall u b', (forall f n t t0, bshape t0 (vname n) b' -> g_nodes (t_g t) = g_nodes (t_g t0) -> has_display t v -> bheight b' <= S f ->
        evrun (pbody f o s v n) t (fun es => prints es = map vname (blist o s b'))) -> bshape t0 u b' -> bheight b' <= f -> tobs (get_child c (IName n)) t0 = Ok u ->
        evrun (u <- get_child c (IName n) ;; match u with VNone => ret tt | _ => show v (IName n) ;; m <- as_name u ;; print_nodes f o s (Some v) (Some m) end) t1
          (fun es => prints es = map vname (blist o s b'))).
    { intros u b' IH Hu Hh Hc. unfold evrun. erewrite bind_ok by (apply (get_child_obs Hc Hg1)).
      inversion Hu as [E|k ul ur lb rb Hk1 Hk2 Hk3 Hk4 E]; subst.
      - apply evrun_ret. reflexivity.
      - assert (Hrun : evrun (show v (IName n) ;; m <- as_name (vname k) ;; print_nodes f o s (Some v) (Some m)) t1 (fun es => prints es = map vname (blist o s (BN k lb rb)))).
        { apply evrun_bind. assert (Hk : forall es, prints es = [] -> evrun (m <- as_name (vname k) ;; print_nodes f o s (Some v) (Some m)) (add_evs t1 es) (fun es' => prints (es ++ es') = map vname (blist o s (BN k lb rb)))).
          { intros es Hes. unfold evrun, as_name. rewrite nameof_vname. erewrite bind_ok by reflexivity.
            destruct f as [|f']; [simpl in Hh; lia|]. rewrite print_nodes_eq. erewrite bind_ok by reflexivity.
            assert (Hd2 : has_display (add_evs t1 es) v) by exact Hd1.
            assert (Hent : enter_display (Some v) (add_evs t1 es) = (add_evs t1 es, Ok (v, v))).
            { unfold enter_display. erewrite bind_ok by reflexivity. rewrite Hd2. erewrite bind_ok by reflexivity.
              erewrite bind_ok by (apply set_display_same, Hd2). reflexivity. }
            erewrite bind_ok by exact Hent. cbv beta iota.
            destruct (IH f' k (add_evs t1 es) t0 Hu Hg1 Hd2 Hh) as (es2 & E2 & P2).
            exists es2. split; [|rewrite prints_app, Hes, P2; reflexivity].
            erewrite bind_ok by exact E2. unfold leave_display. destruct (truthy v); [|reflexivity].
            apply set_display_same. exact Hd1. }
          apply evrun_show; apply Hk; reflexivity. }
        destruct (vname_cases k) as (z & sx & [Ek|Ek]); rewrite Ek in *; exact Hrun. }
    destruct c; [apply (Hone vl l IHl Hbl ltac:(lia) HL)|apply (Hone vr r IHr Hbr ltac:(lia) HR)]. }
  unfold pbody. cbv zeta.
  assert (Hpr : forall (b : bool) t1 (P : list event -> Prop), P (if b then [EPrint (vname n)] else []) -> evrun (if b then emit (EPrint (vname n)) else ret tt) t1 P).
  { intros [] t1 P HP; [apply evrun_emit|apply evrun_ret]; exact HP. }
  set (pre := match o with PreOrder => true | _ => false end). set (ino := match o with InOrder => true | _ => false end). set (pos := match o with PostOrder => true | _ => false end).
  apply evrun_bind. replace (match o with PreOrder => _ | _ => _ end) with (if pre then emit (EPrint (vname n)) else ret tt) by (destruct o; reflexivity).
  apply Hpr. apply evrun_bind. eapply evrun_weaken; [|apply Hsub; [exact Hg|exact Hd]]. intros e1 H1. cbn beta in H1.
  apply evrun_bind. replace (match o with InOrder => _ | _ => _ end) with (if ino then emit (EPrint (vname n)) else ret tt) by (destruct o; reflexivity).
  apply Hpr. apply evrun_bind. eapply evrun_weaken; [|apply Hsub; [exact Hg|exact Hd]]. intros e2 H2. cbn beta in H2.
  apply evrun_bind. replace (match o with PostOrder => _ | _ => _ end) with (if pos then emit (EPrint (vname n)) else ret tt) by (destruct o; reflexivity).
  apply Hpr.
  assert (Hfin : forall es, prints es = [] -> prints ((if pre then [EPrint (vname n)] else []) ++ e1 ++ (if ino then [EPrint (vname n)] else []) ++ e2 ++ (if pos then [EPrint (vname n)] else []) ++ es) = map vname (blist o s (BN n l r))).
  { intros es He. rewrite !prints_app, H1, H2, He, app_nil_r. cbn [blist]. unfold pre, ino, pos. destruct o, s; simpl; rewrite ?map_app, ?app_nil_r; simpl; rewrite ?map_app; reflexivity. }
  apply evrun_show; apply Hfin; reflexivity.
Qed.

Lemma bheight_nodes b : bheight b <= length (bnodes b).
Proof. induction b as [|n l IHl r IHr]; simpl; [lia|]. rewrite app_length. lia. Qed.

(* print_nodes called by the user *)
Lemma print_nodes_ok o s t n b d0 disp root fuel : bshape t (vname n) b -> has_display t d0 -> truthy d0 = true ->
  root = Some n \/ (root = None /\ t_root t = Some n) -> bheight b <= fuel ->
  evrun (print_nodes fuel o s disp root) t (fun es => prints es = map vname (blist o s b)).
Proof.
  intros Hb Hd Ht Hr Hf. destruct fuel as [|f].
  { destruct b; [inversion Hb as [E|]; symmetry in E; apply vname_not_none in E; destruct E|simpl in Hf; lia]. }
  unfold evrun. setoid_rewrite print_nodes_eq.
  assert (Hroot : (match root with Some n => ret n | None => r <- gets t_root ;; lift r AttributeError end) t = (t, Ok n)).
  { destruct Hr as [->|[-> Hr]]; [reflexivity|]. erewrite bind_ok by reflexivity. rewrite Hr. reflexivity. }
  erewrite bind_ok by exact Hroot. destruct disp as [v|].
  - set (t1 := mkTree (with_attr (t_g t) (dset (g_attr (t_g t)) "display" v)) (t_root t) (t_trace t)).
    assert (Hent : enter_display (Some v) t = (t1, Ok (v, d0))).
    { unfold enter_display. erewrite bind_ok by reflexivity. rewrite Hd. erewrite bind_ok by reflexivity. reflexivity. }
    erewrite bind_ok by exact Hent. cbv beta iota.
    assert (Hd1 : has_display t1 v) by (unfold has_display; simpl; apply dget_dset_eq).
    destruct (pbody_ok (f := f) o s (t := t1) Hb eq_refl Hd1 Hf) as (es & E & P). exists es. split; [|exact P].
    erewrite bind_ok by exact E. unfold leave_display. rewrite Ht. unfold ong, set_graph_attr, modify, add_evs. simpl. unfold with_attr. simpl.
    rewrite dset_dset, (dset_same Hd). destruct t as [[] ? ?]; reflexivity.
  - assert (Hent : enter_display None t = (t, Ok (d0, VNone))).
    { unfold enter_display. erewrite bind_ok by reflexivity. rewrite Hd. erewrite bind_ok by reflexivity. reflexivity. }
    erewrite bind_ok by exact Hent. cbv beta iota.
    destruct (pbody_ok (f := f) o s (t := t) Hb eq_refl Hd Hf) as (es & E & P). exists es. split; [|exact P].
    erewrite bind_ok by exact E. reflexivity.
Qed.

(** * Shapes *)
Definition onm (v : val) : list name := match nameof v with Some c => [c] | None => [] end.
Definition bkids (t : tree) (s : side) (n : name) : list name := onm (nattr (t_g t) n (slot s)) ++ onm (nattr (t_g t) n (slot (other s))).
Fixpoint rose_of (s : side) (b : bt) : list rose :=
  match b with BL => [] | BN n l r => [Rose n (match s with L => rose_of s l ++ rose_of s r | R => rose_of s r ++ rose_of s l end)] end.

Section Inv.
  Variable t : tree.
  Hypothesis B : binv t.
  Notation g := (t_g t).
  Notation nodes := (get_node_list g).
  Definition blvl (n : name) : Z := match nattr g n "level" with VI z => z | _ => 0%Z end.
  Lemma child_obs n s : In n nodes -> tobs (get_child s (IName n)) t = Ok (nattr g n (slot s)).
  Proof. intros H. unfold tobs. rewrite get_child_run; [reflexivity|apply B|exact H]. Qed.
  Lemma slot_kid n s c : In n nodes -> nattr g n (slot s) = vname c -> In c nodes /\ blvl c = (blvl n + 1)%Z /\ nattr g c "parent" = vname n /\ nattr g c "direction" = dir s /\ In c (list_at (g_nbrs g) n).
  Proof.
    intros Hn E. destruct (bi_slot B s Hn) as [E'|(c' & l & E' & H1 & H2 & H3 & H4 & H5 & H6)]; rewrite E in E'.
    - apply vname_not_none in E'. destruct E'.
    - apply vname_inj in E'. subst c'. unfold blvl. rewrite H4, H5. auto 10.
  Qed.
  Lemma bkids_slot s n c : In n nodes -> (In c (bkids t s n) <-> exists s', nattr g n (slot s') = vname c).
  Proof.
    intros Hn. assert (Ho : forall s', In c (onm (nattr g n (slot s'))) <-> nattr g n (slot s') = vname c).
    { intros s'. unfold onm. destruct (bi_slot B s' Hn) as [->|(c' & l & -> & _)]; rewrite ?nameof_vname; simpl.
      - split; [intros []|]. intros H. symmetry in H. apply vname_not_none in H. exact H.
      - split; [intros [->|[]]; reflexivity|]. intros H. apply vname_inj in H. auto. }
    unfold bkids. rewrite in_app_iff, !Ho. split; [intros [?|?]; eauto|]. intros [s' H]. destruct (side_cases s s') as [->| ->]; auto.
  Qed.
  Lemma bkids_lvl s n c : In n nodes -> In c (bkids t s n) -> In c nodes /\ blvl c = (blvl n + 1)%Z.
  Proof. intros Hn Hc. apply bkids_slot in Hc as [s' Hc]; [|exact Hn]. destruct (slot_kid Hn Hc) as (H1 & H2 & _). auto. Qed.
  Lemma bkids_unique s p q c : In p nodes -> In q nodes -> In c (bkids t s p) -> In c (bkids t s q) -> p = q.
  Proof.
    intros Hp Hq H1 H2. apply bkids_slot in H1 as [s1 H1]; [|exact Hp]. apply bkids_slot in H2 as [s2 H2]; [|exact Hq].
    apply (slot_kid Hp) in H1 as (_ & _ & H1 & _). apply (slot_kid Hq) in H2 as (_ & _ & H2 & _). rewrite H1 in H2. apply vname_inj, H2.
  Qed.
  Lemma slots_ne n c : In n nodes -> nattr g n (slot L) = vname c -> nattr g n (slot R) <> vname c.
  Proof.
    intros Hn H1 H2. apply (slot_kid Hn) in H1 as (_ & _ & _ & H1 & _). apply (slot_kid Hn) in H2 as (_ & _ & _ & H2 & _). rewrite H1 in H2. discriminate.
  Qed.
  Lemma bkids_NoDup s n : In n nodes -> NoDup (bkids t s n).
  Proof.
    intros Hn. unfold bkids, onm. destruct (bi_slot B s Hn) as [->|(c & l & E & _)]; simpl.
    - destruct (nameof _); repeat constructor; simpl; tauto.
    - rewrite E, nameof_vname. destruct (bi_slot B (other s) Hn) as [->|(c' & l' & E' & _)]; simpl; [repeat constructor; simpl; tauto|].
      rewrite E', nameof_vname. repeat constructor; simpl; try tauto. intros [->|[]].
      destruct s; simpl in *; [apply (slots_ne Hn E E')|apply (slots_ne Hn E' E)].
  Qed.
  Lemma bshape_exists n : In n nodes -> exists b, bshape t (vname n) b.
  Proof.
    remember (mu blvl nodes n) as k eqn:Ek. revert n Ek. induction k as [k IH] using lt_wf_ind. intros n -> Hn.
    assert (Hs : forall s, exists b, bshape t (nattr g n (slot s)) b).
    { intros s. destruct (bi_slot B s Hn) as [->|(c & l & E & _)]; [exists BL; constructor|]. rewrite E.
      assert (Hc : In c (bkids t L n)) by (apply bkids_slot; eauto).
      apply (IH _ (mu_kid (bkids_lvl (s := L)) Hn Hc) c eq_refl). apply (bkids_lvl Hn Hc). }
    destruct (Hs L) as [l Hl], (Hs R) as [r Hr]. exists (BN n l r). apply bs_node with (vl := nattr g n (slot L)) (vr := nattr g n (slot R)); auto using child_obs.
  Qed.
  Lemma rose_of_rep s v b : bshape t v b -> (forall n, v = vname n -> In n nodes) ->
    Forall (rep (bkids t s)) (rose_of s b) /\ map rroot (rose_of s b) = onm v.
  Proof.
    intros Hb. induction Hb as [|n vl vr l r HL Hl IHl HR Hr IHr]; intros Hv; [split; [constructor|reflexivity]|].
    assert (Hn : In n nodes) by (apply Hv; reflexivity).
    rewrite child_obs in HL, HR by exact Hn. injection HL as <-. injection HR as <-.
    assert (Hin : forall s' m, nattr g n (slot s') = vname m -> In m nodes) by (intros s' m H; apply (slot_kid Hn H)).
    destruct (IHl (Hin L)) as [L1 L2]. destruct (IHr (Hin R)) as [R1 R2].
    unfold onm. rewrite nameof_vname. split; [|reflexivity]. cbn [rose_of]. constructor; [|constructor]. apply rep_eq. unfold bkids. destruct s; simpl other.
    - rewrite map_app, L2, R2. split; [reflexivity|apply Forall_app; auto].
    - rewrite map_app, L2, R2. split; [reflexivity|apply Forall_app; auto].
  Qed.
  Lemma rose_of_nodes s b : Permutation (flat_map rnodes (rose_of s b)) (bnodes b).
  Proof.
    induction b as [|n l IHl r IHr]; [constructor|]. cbn [rose_of flat_map rnodes bnodes]. rewrite app_nil_r. apply Permutation_cons; [reflexivity|].
    destruct s; rewrite flat_map_app, IHl, IHr; [reflexivity|apply Permutation_app_comm].
  Qed.
  Lemma rose_of_pre s b : flat_map pre_last_first (rev (rose_of s b)) = blist PreOrder (other s) b.
  Proof.
    induction b as [|n l IHl r IHr]; [reflexivity|]. cbn [rose_of rev app flat_map]. rewrite app_nil_r, pre_last_first_eq. cbn [blist]. f_equal.
    destruct s; rewrite rev_app_distr, flat_map_app, IHl, IHr; reflexivity.
  Qed.
  Lemma rose_of_depth s b : forall d, flat_map (at_depth d) (rose_of s b) = bat_depth s d b.
  Proof.
    induction b as [|n l IHl r IHr]; intros d; [destruct d; reflexivity|]. cbn [rose_of flat_map]. rewrite app_nil_r.
    destruct d; [reflexivity|]. cbn [at_depth rkids bat_depth]. destruct s; rewrite flat_map_app, IHl, IHr; reflexivity.
  Qed.
  Lemma rose_of_height s b : fheight (rose_of s b) = bheight b.
  Proof.
    induction b as [|n l IHl r IHr]; [reflexivity|]. cbn [rose_of bheight].
    change (fheight [Rose n ?x]) with (Nat.max (S (fheight x)) 0). destruct s; rewrite fheight_app, IHl, IHr; lia.
  Qed.
  Lemma rose_of_levels s b : flevels (bheight b) (rose_of s b) = blevel_order s b.
  Proof. unfold flevels, blevel_order. rewrite !flat_map_concat_map. f_equal. apply map_ext. intros d. apply rose_of_depth. Qed.

  (* the nodes of a shape: exactly the descendants, each once *)
  Lemma bshape_nodes n b : In n nodes -> bshape t (vname n) b -> NoDup (bnodes b) /\ incl (bnodes b) nodes /\ (forall x, In x (bnodes b) <-> reach (bchild_of t) n x).
  Proof.
    intros Hn Hb. destruct (rose_of_rep L Hb) as [H1 H2]; [intros m Hm; apply vname_inj in Hm; subst; exact Hn|].
    unfold onm in H2. rewrite nameof_vname in H2.
    destruct (rose_of L b) as [|r [|]] eqn:Er; try discriminate. injection H2 as H2. inversion H1 as [|? ? Hr _]; subst.
    pose proof (rose_of_nodes L b) as Hp. rewrite Er in Hp. simpl in Hp. rewrite app_nil_r in Hp.
    assert (Hu : forall p q c, In p nodes -> In q nodes -> In c (bkids t L p) -> In c (bkids t L q) -> p = q) by (intros; eapply (bkids_unique (s := L)); eauto).
    split; [apply (Permutation_NoDup Hp); apply (rep_NoDup (bkids_lvl (s := L)) Hu (bkids_NoDup L) Hr Hn)|].
    assert (Hi := rep_incl (bkids_lvl (s := L)) Hr Hn).
    split; [intros x Hx; apply Hi; apply (Permutation_in x (Permutation_sym Hp) Hx)|].
    intros x. assert (Hpi : In x (bnodes b) <-> In x (rnodes r)) by (split; apply Permutation_in; [symmetry|]; exact Hp). rewrite Hpi, (rep_reach Hr). split.
    - intros [p Hw]. revert Hn. clear -B Hw. generalize (rroot r) Hw. clear Hw. intros a Hw. induction Hw as [a|a b p c H Hw IH]; intros Ha; [apply reach_refl|].
      apply reach_cons with b; [|apply IH, (bkids_lvl Ha H)]. apply bkids_slot in H as [s H]; [|exact Ha]. exists s. rewrite child_obs by exact Ha. congruence.
    - intros [p Hw]. revert Hn. clear -B Hw. generalize (rroot r) Hw. clear Hw. intros a Hw. induction Hw as [a|a b p c [s H] Hw IH]; intros Ha; [apply reach_refl|].
      rewrite child_obs in H by exact Ha. injection H as H. apply reach_cons with b; [apply bkids_slot; eauto|]. apply IH, (slot_kid Ha H).
  Qed.

  (** ** traversals *)
  Section Trav.
    Variables (s : side) (fifo : bool) (v : val).
    Definition tbody : list item -> M tree (list item + unit) :=
      let push (c : side) (current : item) (q : list item) :=
        u <- get_child c current ;;
        match u with VNone => ret q | _ => m <- as_name u ;; ret (put fifo q (IName m)) end in
      fun q => match q with
        | [] => ret (inr tt)
        | current :: q => show v current ;; q <- push s current q ;; q <- push (other s) current q ;; ret (inl q)
        end.
    Variable g1 : graph.
    Variable ro : option name.
    Hypothesis Hg1 : g_nodes g1 = g_nodes g.
    Definition tev (x : item) : list event := if truthy v then [EHigh x] else [].
    Lemma tbody_step x n q tr : x = IName n \/ x = INode n -> In n nodes -> tbody (x :: q) (mkTree g1 ro tr) =
      (mkTree g1 ro (tr ++ tev x), Ok (inl (fold_left (put fifo) (map IName (bkids t s n)) q))).
    Proof.
      intros Hx Hn. unfold tbody. cbv zeta beta iota.
      assert (Hsh : show v x (mkTree g1 ro tr) = (mkTree g1 ro (tr ++ tev x), Ok tt)).
      { unfold show, tev. destruct (truthy v); [reflexivity|]. rewrite app_nil_r. reflexivity. }
      erewrite bind_ok by exact Hsh. set (t1 := mkTree g1 ro (tr ++ tev x)).
      assert (Hpush : forall c q, (u <- get_child c x ;; match u with VNone => ret q | _ => m <- as_name u ;; ret (put fifo q (IName m)) end) t1 =
        (t1, Ok (fold_left (put fifo) (map IName (onm (nattr g n (slot c)))) q))).
      { intros c q'. assert (Hc : get_child c x t1 = (t1, Ok (nattr g n (slot c)))).
        { destruct Hx as [->| ->]; [apply (get_child_obs (child_obs c Hn))|apply (get_child_inode (child_obs c Hn))]; exact Hg1. }
        erewrite bind_ok by exact Hc. destruct (bi_slot B c Hn) as [->|(k & l & E & _)]; [reflexivity|]. rewrite E. unfold onm. rewrite nameof_vname.
        destruct k; reflexivity. }
      erewrite bind_ok by apply Hpush. erewrite bind_ok by apply Hpush. unfold bkids. rewrite map_app, fold_left_app. reflexivity.
    Qed.
  End Trav.
  Lemma bin_run s v g1 ro n b x fuel tr : g_nodes g1 = g_nodes g -> In n nodes -> bshape t (vname n) b -> x = IName n \/ x = INode n -> length nodes < fuel ->
    loop fuel (tbody s false v) (put false [] x) (mkTree g1 ro tr) = (mkTree g1 ro (tr ++ tev v x ++ flat_map (fun y => tev v (IName y)) (tl (blist PreOrder (other s) b))), Ok tt) /\
    loop fuel (tbody s true v) (put true [] x) (mkTree g1 ro tr) = (mkTree g1 ro (tr ++ tev v x ++ flat_map (fun y => tev v (IName y)) (tl (blevel_order s b))), Ok tt).
  Proof.
    intros Hg1 Hn Hb Hx Hf. destruct (rose_of_rep s Hb) as [H1 H2]; [intros m Hm; apply vname_inj in Hm; subst; exact Hn|].
    pose proof (rose_of_nodes s b) as Hp. destruct (bshape_nodes Hn Hb) as (Hnd & Hinc & _).
    pose proof (rose_of_pre s b) as Hpre. pose proof (rose_of_levels s b) as Hlev. pose proof (rose_of_height s b) as Hh.
    destruct b as [|m l r]; [inversion Hb as [E|]; symmetry in E; apply vname_not_none in E; destruct E|].
    assert (m = n) by (inversion Hb as [|? ? ? ? ? _ _ _ _ E]; subst; apply vname_inj; assumption). subst m.
    cbn [rose_of] in *. set (ts := match s with L => rose_of s l ++ rose_of s r | R => rose_of s r ++ rose_of s l end) in *.
    inversion H1 as [|? ? Hr _]; subst. apply rep_eq in Hr as [Hk Hr].
    assert (Hi : incl (flat_map rnodes ts) nodes).
    { intros y Hy. apply Hinc. apply (Permutation_in y Hp). simpl. rewrite app_nil_r. right. exact Hy. }
    assert (Hsz : fsize ts < pred fuel).
    { pose proof (NoDup_incl_length Hnd Hinc) as Hlen. apply Permutation_length in Hp. simpl in Hp. rewrite app_nil_r in Hp. unfold fsize. simpl in Hlen. lia. }
    destruct fuel as [|f]; [lia|]. simpl pred in Hsz.
    cbn [loop]. split.
    - change (put false [] x) with [x]. erewrite bind_ok by (apply (tbody_step s false v ro Hg1 [] tr Hx Hn)). cbv beta iota.
      rewrite Hk, fold_put_lifo, app_nil_r. replace (rev (map IName (map rroot ts))) with (fnames (rev ts)) by (unfold fnames; rewrite map_rev, map_map; reflexivity).
      rewrite (@run_dfs g1 ro (bkids t s) false (tbody s false v) (fun y => tev v (IName y)) nodes).
      + f_equal. f_equal. rewrite <- app_assoc. f_equal. f_equal. unfold evs. f_equal. cbn [rev app flat_map] in Hpre. rewrite app_nil_r, pre_last_first_eq in Hpre.
        rewrite <- Hpre. reflexivity.
      + reflexivity.
      + intros y q tr' Hy. apply tbody_step; auto.
      + reflexivity.
      + apply Forall_rev, Hr.
      + intros y Hy. apply Hi. apply in_flat_map in Hy as (z & Hz & Hy). apply in_flat_map. exists z. rewrite <- in_rev in Hz. auto.
      + rewrite fsize_rev. exact Hsz.
    - change (put true [] x) with [x]. erewrite bind_ok by (apply (tbody_step s true v ro Hg1 [] tr Hx Hn)). cbv beta iota.
      rewrite Hk, fold_put_fifo. cbn [app]. replace (map IName (map rroot ts)) with (fnames ([] ++ ts)) by (unfold fnames; simpl; rewrite map_map; reflexivity).
      rewrite (@run_bfs g1 ro (bkids t s) true (tbody s true v) (fun y => tev v (IName y)) nodes) with (h := fheight ts).
      + f_equal. f_equal. rewrite <- app_assoc. f_equal. f_equal. unfold evs. f_equal. cbn [map app flat_map]. rewrite app_nil_r.
        rewrite <- Hlev. rewrite <- Hh. change (fheight [Rose n ts]) with (S (fheight ts)). rewrite flevels_S. cbn [map app flat_map rkids tl]. rewrite app_nil_r. reflexivity.
      + reflexivity.
      + intros y q tr' Hy. apply tbody_step; auto.
      + reflexivity.
      + constructor.
      + exact Hr.
      + exact Hi.
      + exact Hsz.
      + simpl. rewrite app_nil_r. lia.
  Qed.
End Inv.

Lemma blevel_hd s n l r : blevel_order s (BN n l r) = n :: tl (blevel_order s (BN n l r)).
Proof. reflexivity. Qed.
Lemma visits_tev v x n l : truthy v = true -> x = IName n \/ x = INode n -> visits (tev v x ++ flat_map (fun y => tev v (IName y)) l) = n :: l.
Proof.
  intros Hv Hx. unfold tev. rewrite Hv. simpl. assert (H : visits (flat_map (fun y => [EHigh (IName y)]) l) = l) by (induction l; simpl in *; congruence).
  unfold visits in *. simpl. rewrite H. destruct Hx as [->| ->]; reflexivity.
Qed.
Lemma bin_traverse_ok t s n b d0 disp root fuel (fifo : bool) : binv t -> In n (get_node_list (t_g t)) -> bshape t (vname n) b ->
  has_display t d0 -> truthy d0 = true -> root = Some n \/ (root = None /\ t_root t = Some n) -> length (get_node_list (t_g t)) < fuel ->
  evrun (bin_traverse fuel fifo s disp root) t (fun es => truthy (match disp with Some v => v | None => d0 end) = true ->
    visits es = if fifo then blevel_order s b else blist PreOrder (other s) b).
Proof.
  intros B Hn Hb Hd Ht Hr Hf.
  destruct b as [|m l r]; [inversion Hb as [E|]; symmetry in E; apply vname_not_none in E; destruct E|].
  assert (m = n) by (inversion Hb as [|? ? ? ? ? _ _ _ _ E]; subst; apply vname_inj; assumption). subst m.
  assert (Hroot : exists x, (x = IName n \/ x = INode n) /\ root_item root t = (t, Ok x)).
  { unfold root_item. destruct Hr as [->|[-> Hr]]; [exists (IName n); auto|]. exists (INode n). split; [auto|]. erewrite bind_ok by reflexivity. rewrite Hr. reflexivity. }
  destruct Hroot as (x & Hx & Hroot).
  assert (Hlist : forall v, truthy v = true -> visits (tev v x ++ flat_map (fun y => tev v (IName y)) (tl (if fifo then blevel_order s (BN n l r) else blist PreOrder (other s) (BN n l r)))) =
     if fifo then blevel_order s (BN n l r) else blist PreOrder (other s) (BN n l r)).
  { intros v Hv. rewrite (visits_tev _ Hv Hx). destruct fifo; [rewrite blevel_hd at 2; reflexivity|]. cbn [blist]. reflexivity. }
  assert (Hloop : forall v g1 tr, g_nodes g1 = g_nodes (t_g t) -> loop fuel (tbody s fifo v) (put fifo [] x) (mkTree g1 (t_root t) tr) =
     (mkTree g1 (t_root t) (tr ++ tev v x ++ flat_map (fun y => tev v (IName y)) (tl (if fifo then blevel_order s (BN n l r) else blist PreOrder (other s) (BN n l r)))), Ok tt)).
  { intros v g1 tr Hg1. destruct (bin_run B s v (t_root t) tr Hg1 Hn Hb Hx Hf) as [H1 H2]. destruct fifo; assumption. }
  unfold evrun, bin_traverse. erewrite bind_ok by exact Hroot. destruct disp as [v|].
  - set (g1 := with_attr (t_g t) (dset (g_attr (t_g t)) "display" v)).
    assert (Hent : enter_display (Some v) t = (mkTree g1 (t_root t) (t_trace t), Ok (v, d0))).
    { unfold enter_display. erewrite bind_ok by reflexivity. rewrite Hd. erewrite bind_ok by reflexivity. reflexivity. }
    erewrite bind_ok by exact Hent. cbv beta iota zeta. eexists. split; [|exact (Hlist v)].
    erewrite bind_ok by (apply (Hloop v g1); reflexivity). unfold leave_display. rewrite Ht. unfold ong, set_graph_attr, modify, add_evs. simpl. unfold with_attr. simpl.
    rewrite dset_dset, (dset_same Hd). destruct t as [[] ? ?]; reflexivity.
  - assert (Hent : enter_display None t = (t, Ok (d0, VNone))).
    { unfold enter_display. erewrite bind_ok by reflexivity. rewrite Hd. erewrite bind_ok by reflexivity. reflexivity. }
    erewrite bind_ok by exact Hent. cbv beta iota zeta. eexists. split; [|exact (Hlist d0)].
    pose proof (Hloop d0 (t_g t) (t_trace t) eq_refl) as H. replace (mkTree (t_g t) (t_root t) (t_trace t)) with t in H by (destruct t; reflexivity).
    erewrite bind_ok by exact H. reflexivity.
Qed.

(** * printexp and postordereval *)
Definition item_of (x : item) (n : name) (t : tree) : Prop := x = IName n \/ (x = INode n /\ tobs (root_label x) t = tobs (root_label (IName n)) t).
Lemma label_evs t es n : root_label (IName n) (add_evs t es) = (add_evs t es, tobs (root_label (IName n)) t).
Proof.
  unfold tobs, root_label, bind, ong, get_node_attr. simpl. destruct (dget (g_nodes (t_g t)) n) eqn:E; unfold lift, bind, ret, fail, gets; cbn; rewrite ?E; cbn; reflexivity.
Qed.
Lemma label_evs' t es x n v : item_of x n t -> tobs (root_label (IName n)) t = Ok v -> root_label x (add_evs t es) = (add_evs t es, Ok v).
Proof.
  intros [->|[-> H]] Hv; [rewrite label_evs, Hv; reflexivity|]. rewrite Hv in H. unfold tobs, root_label in *. simpl in *. rewrite H. reflexivity.
Qed.
Lemma label_run t x n v : item_of x n t -> tobs (root_label (IName n)) t = Ok v -> root_label x t = (t, Ok v).
Proof. intros Hx Hv. pose proof (label_evs' [] Hx Hv) as H. rewrite add_evs_nil in H. exact H. Qed.
Lemma child_item t s x n v : item_of x n t -> tobs (get_child s (IName n)) t = Ok v -> forall es, get_child s x (add_evs t es) = (add_evs t es, Ok v).
Proof. intros [->|[-> _]] H es; [apply (get_child_obs H)|apply (get_child_inode H)]; reflexivity. Qed.

Lemma emit_evs e t es : emit e (add_evs t es) = (add_evs t (es ++ [e]), Ok tt).
Proof. unfold add_evs, emit, modify; simpl. rewrite app_assoc. reflexivity. Qed.
Lemma printexp_ok t n e : lshape t n e -> forall fuel x es0, item_of x n t -> lsize e <= fuel ->
  evrun (printexp fuel x) (add_evs t es0) (fun es => es = map EPrint (infix e)).
Proof.
  intros Hl. induction Hl as [n v HL HR Hv|n v l r xl xr HL HR Tl Tr Hv Hl IHl Hr IHr]; intros fuel x es0 Hx Hf; (destruct fuel as [|f]; [simpl in Hf; lia|]); cbn [printexp]; unfold evrun.
  - erewrite bind_ok by (apply (child_item Hx HL)). erewrite bind_ok by reflexivity. erewrite bind_ok by (apply (label_evs' _ Hx Hv)).
    erewrite bind_ok by apply emit_evs.
    eexists. split; [|reflexivity]. erewrite bind_ok by (apply (child_item Hx HR (es0 ++ [EPrint v]))). unfold add_evs. simpl. unfold ret. rewrite app_assoc. reflexivity.
  - simpl in Hf. erewrite bind_ok by (apply (child_item Hx HL)). rewrite Tl.
    destruct (IHl f (IName l) (es0 ++ [EPrint (VS "(")]) (or_introl eq_refl) ltac:(lia)) as (e1 & E1 & ->).
    assert (S1 : (emit (EPrint (VS "(")) ;; c <- as_name (vname l) ;; printexp f (IName c)) (add_evs t es0) = (add_evs t (es0 ++ [EPrint (VS "(")] ++ map EPrint (infix xl)), Ok tt)).
    { erewrite bind_ok by apply emit_evs. unfold as_name. rewrite nameof_vname. erewrite bind_ok by reflexivity.
      rewrite E1, add_evs_app, <- app_assoc. reflexivity. }
    erewrite bind_ok by exact S1. erewrite bind_ok by (apply (label_evs' _ Hx Hv)).
    set (es1 := es0 ++ [EPrint (VS "(")] ++ map EPrint (infix xl)).
    erewrite bind_ok by apply emit_evs. erewrite bind_ok by (apply (child_item Hx HR)). rewrite Tr.
    unfold as_name. rewrite nameof_vname. erewrite bind_ok by reflexivity.
    destruct (IHr f (IName r) (es1 ++ [EPrint v]) (or_introl eq_refl) ltac:(lia)) as (e2 & E2 & ->).
    eexists. split; [|reflexivity]. erewrite bind_ok by exact E2. unfold emit, modify, add_evs, es1. simpl. f_equal. f_equal.
    rewrite ?map_app. simpl. rewrite ?map_app. simpl. rewrite <- ?app_assoc. simpl. rewrite <- ?app_assoc. reflexivity.
Qed.
Lemma infix_prefix x : forall y p q, no_parens x -> no_parens y -> infix x ++ p = infix y ++ q -> x = y /\ p = q.
Proof.
  induction x as [v|v l IHl r IHr]; intros [w|w l' r'] p q Hx Hy H; simpl in *.
  - injection H as -> ->. auto.
  - injection H as -> _. tauto.
  - injection H as <- _. tauto.
  - injection H as H. rewrite <- !app_assoc in H. destruct (IHl l' _ _ (proj1 (proj2 Hx)) (proj1 (proj2 Hy)) H) as [-> H1]. simpl in H1. injection H1 as -> H1.
    rewrite <- !app_assoc in H1. destruct (IHr r' _ _ (proj2 (proj2 Hx)) (proj2 (proj2 Hy)) H1) as [-> H2]. injection H2 as ->. auto.
Qed.

Section Eval.
  Variable A : arith.
  Fixpoint good (e : exp) : bool :=
    match e with ENum _ => true | EOp _ l r => good l && good r && nonzero (eval A l) && nonzero (eval A r) end.
  Lemma good_psub e : good e = true <-> forall e', psub e' e -> nonzero (eval A e') = true.
  Proof.
    induction e as [z|o l IHl r IHr]; simpl.
    - split; [intros _ e' H; inversion H|reflexivity].
    - rewrite !andb_true_iff, IHl, IHr. split.
      + intros [[[H1 H2] H3] H4] e' H. inversion H; subst; auto.
      + intros H. repeat split; [intros; apply H; apply ps_ll; assumption|intros; apply H; apply ps_rr; assumption|apply H; constructor|apply H; constructor].
  Qed.
  Lemma oper_label o : oper A (VS (opr_label o)) = Some (app_op (A := A) o).
  Proof. destruct o; reflexivity. Qed.
  Lemma int_of_label o : int_of (VS (opr_label o)) = Err ValueError.
  Proof. destruct o; reflexivity. Qed.
  Lemma postordereval_ok t n e : eshape t n e -> forall fuel x, item_of x n t -> esize e <= fuel ->
    postordereval A fuel x t = (t, if good e then Ok (eval A e) else Err ValueError).
  Proof.
    assert (Ev0 : forall t, add_evs t [] = t) by apply add_evs_nil.
    assert (Hc : forall t s x n v, item_of x n t -> tobs (get_child s (IName n)) t = Ok v -> get_child s x t = (t, Ok v)).
    { intros t' s x m v Hx Hv. pose proof (child_item Hx Hv []) as H. rewrite Ev0 in H. exact H. }
    intros He. induction He as [n z HL HR Hv|n s z HL HR Hv Hz|n o l r el er HL HR Tl Tr Hv Hl IHl Hr IHr]; intros fuel x Hx Hf; (destruct fuel as [|f]; [simpl in Hf; lia|]); cbn [postordereval].
    - erewrite bind_ok by (apply (Hc _ _ _ _ _ Hx HL)). erewrite bind_ok by reflexivity. erewrite bind_ok by (apply (label_run Hx Hv)).
      erewrite bind_ok by (apply (Hc _ _ _ _ _ Hx HR)). erewrite bind_ok by reflexivity. reflexivity.
    - erewrite bind_ok by (apply (Hc _ _ _ _ _ Hx HL)). erewrite bind_ok by reflexivity. erewrite bind_ok by (apply (label_run Hx Hv)).
      erewrite bind_ok by (apply (Hc _ _ _ _ _ Hx HR)). erewrite bind_ok by reflexivity. cbv zeta beta iota. unfold int_of. rewrite Hz. reflexivity.
    - simpl in Hf. erewrite bind_ok by (apply (Hc _ _ _ _ _ Hx HL)). rewrite Tl. unfold as_name. rewrite nameof_vname.
      specialize (IHl f (IName l) (or_introl eq_refl) ltac:(lia)). specialize (IHr f (IName r) (or_introl eq_refl) ltac:(lia)).
      cbn [good]. destruct (good el).
      2:{ erewrite bind_err; [reflexivity|]. erewrite bind_ok by reflexivity. erewrite bind_err by exact IHl. reflexivity. }
      erewrite bind_ok; [|erewrite bind_ok by reflexivity; erewrite bind_ok by exact IHl; reflexivity].
      erewrite bind_ok by (apply (label_run Hx Hv)). erewrite bind_ok by (apply (Hc _ _ _ _ _ Hx HR)). rewrite Tr, nameof_vname.
      destruct (good er).
      2:{ erewrite bind_err; [reflexivity|]. erewrite bind_ok by reflexivity. erewrite bind_err by exact IHr. reflexivity. }
      erewrite bind_ok; [|erewrite bind_ok by reflexivity; erewrite bind_ok by exact IHr; reflexivity].
      cbv zeta beta iota. simpl andb. destruct (nonzero (eval A el) && nonzero (eval A er)); [rewrite oper_label; reflexivity|]. rewrite int_of_label. reflexivity.
  Qed.
End Eval.
