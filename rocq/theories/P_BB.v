(* Branch and bound (C62): the drawn tree while it grows, the constraints read back from it, the invariant. *)
From Coq Require Import QArith Qround Qminmax Permutation DecimalString DecimalZ DecimalPos.
From Verif Require Import Py Util M_Graph P_Graph P_GraphLaws P_Attr M_Flow M_Dot M_Tree S_Tree P_Tree M_BB S_BB P_BBLp.
Set Implicit Arguments. Unset Strict Implicit.
Local Open Scope string_scope. Local Open Scope list_scope.

Lemma str_pos z : (0 < z)%Z -> str_int z <> "0".
Proof.
  intros Hz H. change "0" with (str_int 0) in H. unfold str_int in H.
  assert (N : forall z, NilZero.int_of_string (NilZero.string_of_int (Z.to_int z)) = Some (Z.to_int z)).
  { intros y. apply NilZero.isi; destruct y; cbn; try discriminate; intros [= E]; revert E; apply DecimalPos.Unsigned.to_uint_nonnil. }
  pose proof (N z) as A. rewrite H, N in A. injection A as A. change (Decimal.Pos (Decimal.D0 Decimal.Nil)) with (Z.to_int 0) in A. apply DecimalZ.to_int_inj in A. lia.
Qed.

(** * A node is added *)
Definition reads : list string := ["branch_var"; "sense"; "rhs"; "parent"; "level"; "status"; "fillcolor"; "obj"].
Record adds (g h : graph) (i : Z) (op : option Z) (a : attrs) : Prop := {
  ad_wf : wf h; ad_ty : g_type h = Directed;
  ad_list : get_node_list h = get_node_list g ++ [NI i];
  ad_nbrs : forall x, list_at (g_nbrs h) x = if eqb (option_map NI op) (Some x) then list_at (g_nbrs g) x ++ [NI i] else list_at (g_nbrs g) x;
  ad_attr : forall x b, In b reads -> nattr h x b = if eqb (NI i) x then aget a b else nattr g x b;
  ad_edge : forall x y b, y <> NI i -> eattr h x y b = eattr g x y b
}.
Lemma adds_old g h i op a x b : adds g h i op a -> ~ In (NI i) (get_node_list g) -> In x (get_node_list g) -> In b reads -> nattr h x b = nattr g x b.
Proof. intros A N Hx Hb. rewrite (ad_attr A) by exact Hb. destruct (eqb_spec (NI i) x) as [<-|]; [contradiction|reflexivity]. Qed.
Lemma nbr_node g n m : wf g -> In m (list_at (g_nbrs g) n) -> In m (get_node_list g).
Proof. intros W H. apply nbr_check_edge in H; [|exact W]. unfold check_edge in H. destruct (g_type g).
  - apply dmem_In in H. apply (wf_edge_r W) in H. exact H.
  - apply orb_true_iff in H as [H|H]; apply dmem_In in H; [apply (wf_edge_r W) in H|apply (wf_edge_l W) in H]; exact H.
Qed.
Lemma adds_nbr g h i op a x y : adds g h i op a -> In y (list_at (g_nbrs g) x) -> In y (list_at (g_nbrs h) x).
Proof. intros A H. rewrite (ad_nbrs A). destruct eqb; [apply in_app_iff; left|]; exact H. Qed.
Ltac inreads := unfold reads; simpl; tauto.
Lemma sub_adds ladot g h i op a j cs : wf g -> adds g h i op a -> ~ In (NI i) (get_node_list g) -> subproblem ladot g j cs -> subproblem ladot h j cs.
Proof.
  intros W A N H. induction H as [H0 H1 H1'|j p c cs Hj Hc H1 H2 H3 H4 H5 H6 H IH].
  - constructor; [rewrite (ad_list A); apply in_app_iff; left; exact H0| |]; rewrite (adds_old A N H0) by inreads; assumption.
  - pose proof (nbr_node W Hc) as Hn. assert (E : NI j <> NI i) by congruence.
    apply sub_child with (p := p); try (rewrite (adds_old A N Hn) by inreads); try assumption.
    + exact (adds_nbr A Hc).
    + rewrite (ad_edge A) by exact E. exact H6.
Qed.
Lemma visits_adds P solve ce ladot g h i op a ids lb : wf g -> adds g h i op a -> ~ In (NI i) (get_node_list g) -> incl [NS "C"; NS "I"; NS "S"; NS "P"] (get_node_list g) ->
  incl (map NI ids) (get_node_list g) -> visits P solve ce ladot g ids lb -> visits P solve ce ladot h ids lb.
Proof.
  intros W A N K L H. induction H as [|ids lb j cs st lb' H IH H1 H2 H3 H4]; [constructor|].
  rewrite map_app in L. apply vs_node with (lb := lb) (cs := cs) (st := st).
  - apply IH. intros x Hx. apply L, in_app_iff. left. exact Hx.
  - apply (sub_adds W A N H1).
  - exact H2.
  - rewrite (adds_old A N) by (try inreads; apply L, in_app_iff; right; left; reflexivity). exact H3.
  - assert (Hj : In (NI j) (get_node_list g)) by (apply L, in_app_iff; right; left; reflexivity).
    assert (Hs : In (NS st) (get_node_list g)) by (apply K; destruct H2; simpl; auto).
    rewrite (adds_old A N Hj), (adds_old A N Hs) by inreads. exact H4.
Qed.
Lemma sub_node ladot g j cs : wf g -> subproblem ladot g j cs -> In (NI j) (get_node_list g).
Proof. intros W [H _ _|i p c cs' _ H _ _ _ _ _ _ _]; [exact H|exact (nbr_node W H)]. Qed.
Lemma sub_level ladot g j cs : subproblem ladot g j cs -> nattr g (NI j) "level" = VI (Z.of_nat (length cs)).
Proof. intros [_ H _|i p c cs' _ _ _ _ _ _ H _ _]; exact H. Qed.
Lemma sub_fun ladot g j cs cs' : subproblem ladot g j cs -> subproblem ladot g j cs' -> cs = cs'.
Proof.
  intros H. revert cs'. induction H as [H0 H1 H1'|j p c cs Hj Hc H1 H2 H3 H4 H5 H6 H IH]; intros cs' H'; inversion H'; subst.
  - reflexivity.
  - lia.
  - lia.
  - match goal with E : nattr g (NI j) "parent" = VI ?q |- _ => rewrite H4 in E; injection E as <- end.
    f_equal; [|apply IH; assumption].
    match goal with A : nattr g (NI j) "branch_var" = VS (bound_var ?c0), B : nattr g (NI j) "sense" = VS (bound_sense ?c0), C : nattr g (NI j) "rhs" = VI (bound_rhs ?c0) |- _ = ?c0 =>
      rewrite H1 in A; rewrite H2 in B; rewrite H3 in C; destruct c, c0; cbn in *; congruence end.
Qed.

Lemma eattr_dir g x y b : g_type g = Directed -> eattr g x y b = match dget (g_edges g) (x, y) with Some d => dget d b | None => None end.
Proof. intros D. unfold eattr, obs, get_edge_attr. rewrite D. cbn [snd]. destruct (dget (g_edges g) (x, y)) as [d|]; [destruct (dget d b)|]; reflexivity. Qed.
(* add_root *)
Lemma add_root_run t i a : wf (t_g t) -> g_type (t_g t) = Directed -> NoDup (dkeys a) -> ~ In (NI i) (get_node_list (t_g t)) ->
  exists t', add_root (NI i) a t = (t', Ok tt) /\ adds (t_g t) (t_g t') i None (dset a "level" (VI 0)).
Proof.
  intros W D Ha N. destruct (@add_node_grown (t_g t) (NI i) (dset a "level" (VI 0)) W D (NoDup_dset _ _ Ha) N) as (h & E & G).
  unfold add_root. erewrite bind_ok by (apply ong_run, E). eexists. split; [reflexivity|]. cbn [t_g]. destruct G as [G1 G2 G3 G4 G5 G6 G7].
  constructor; auto. intros x y b _. rewrite !eattr_dir by assumption. rewrite (add_node_new _ N) in E. injection E as <-. reflexivity.
Qed.
(* add_child and the label of the edge *)
Lemma add_child_run t i p a lv l : wf (t_g t) -> g_type (t_g t) = Directed -> NoDup (dkeys a) -> ~ In (NI i) (get_node_list (t_g t)) -> In (NI p) (get_node_list (t_g t)) ->
  nattr (t_g t) (NI p) "level" = VI lv ->
  exists t', (add_child (NI i) (NI p) a ;; ong (set_edge_attr (NI p) (NI i) "label" l)) t = (t', Ok tt) /\
    adds (t_g t) (t_g t') i (Some p) (dset (dset a "level" (VI (lv + 1))) "parent" (VI p)) /\ eattr (t_g t') (NI p) (NI i) "label" = Some l.
Proof.
  intros W D Ha N Hp Hl. set (a' := dset (dset a "level" (VI (lv + 1))) "parent" (VI p)).
  destruct (@grow_below (t_g t) (NI i) (NI p) a' W D (NoDup_dset _ _ (NoDup_dset _ _ Ha)) N Hp) as (h1 & h & E1 & E2 & G).
  destruct G as [G1 G2 G3 G4 G5 G6 G7].
  assert (Ee : g_edges h = dset (g_edges (t_g t)) (NI p, NI i) []).
  { pose proof E1 as E1'. rewrite (add_node_new _ N) in E1'. injection E1' as <-.
    assert (W1 : wf (p_add_node (t_g t) (NI i) a')) by (pose proof (add_node_wf (NI i) a' W) as X; rewrite (add_node_new _ N) in X; exact X).
    assert (C : check_edge (p_add_node (t_g t) (NI i) a') (NI p) (NI i) = false).
    { destruct (check_edge _ _ _) eqn:C; [|reflexivity]. rewrite (add_edge_dup _ C) in E2. discriminate. }
    rewrite (add_edge_new _ W1 C) in E2. injection E2 as <-. unfold link. rewrite !g_type_ensure. cbn [p_add_node g_type]. rewrite D. cbn [g_edges]. rewrite !g_edges_ensure. reflexivity. }
  assert (Cb : check_edge h (NI p) (NI i) = true).
  { apply nbr_check_edge; [exact G1|]. rewrite G4, eqb_refl. apply in_app_iff. right. left. reflexivity. }
  destruct (ok_ex (ok_set_edge_attr (a := "label") (v := l) (Q := fun _ k => same_shape h k /\ (forall x b, nattr k x b = nattr h x b) /\
     (forall x y b, eattr k x y b = if eqb b "label" && same_edge h x y (NI p) (NI i) then Some l else eattr h x y b)) G1 Cb ltac:(intros; cbn beta; auto))) as (k & [] & Ek & S & Kn & Ke).
  exists (mkTree k (t_root t) (t_trace t)). split; [|split].
  - unfold add_child. unfold bind at 1. erewrite bind_ok by (apply ong_read; apply get_attr_run; assumption). rewrite Hl. erewrite bind_ok by reflexivity. cbv zeta.
    change (vname (NI p)) with (VI p). fold a'. erewrite bind_ok by (apply ong_run, E1). erewrite ong_run by (cbn [t_g]; exact E2). cbn [t_root t_trace].
    erewrite ong_run by (cbn [t_g]; exact Ek). reflexivity.
  - cbn [t_g]. constructor.
    + apply (ss_wf S G1).
    + rewrite (ss_type S). exact G2.
    + rewrite (ss_node_list S). exact G3.
    + intros x. rewrite (ss_nbrs S). apply G4.
    + intros x b _. rewrite Kn. apply G6.
    + intros x y b Hy. rewrite Ke. unfold same_edge. rewrite G2, orb_false_r. destruct (eqb_spec (x, y) (NI p, NI i)) as [E|_]; [congruence|]. rewrite andb_false_r.
      rewrite !eattr_dir by assumption. rewrite Ee, dget_dset. destruct (eq_dec (NI p, NI i) (x, y)); [congruence|reflexivity].
  - cbn [t_g]. rewrite Ke. unfold same_edge. rewrite !eqb_refl. reflexivity.
Qed.
(* set_node_attr of an attribute that is not read *)
Lemma adds_set g h i op a n b v : adds g h i op a -> In n (get_node_list h) -> ~ In b reads -> exists k, set_node_attr n b v h = (k, Ok tt) /\ adds g k i op a /\ forall ladot j cs, subproblem ladot h j cs -> subproblem ladot k j cs.
Proof.
  intros [A1 A2 A3 A4 A5 A6] Hn Hb. assert (Hn' : In n (dkeys (g_nodes h))) by (rewrite (wf_nodes A1); exact Hn).
  destruct (ok_ex (ok_set_node_attr (Q := fun u k => same_shape h k /\ (forall x c, nattr k x c = if eq_dec (x, c) (n, b) then v else nattr h x c) /\ (forall x y c, eattr k x y c = eattr h x y c)) (a := b) (v := v) Hn' ltac:(intros k H1 H2 H3 _ _ _; cbn beta; auto))) as (k & [] & E & S & Kn & Ke).
  exists k. split; [exact E|]. split; [constructor|intros ladot j cs H; induction H as [H0 H1 H1'|j p c cs Hj Hc H1 H2 H3 H4 H5 H6 H IH]].
  - apply (ss_wf S A1).
  - rewrite (ss_type S). exact A2.
  - rewrite (ss_node_list S). exact A3.
  - intros x. rewrite (ss_nbrs S). apply A4.
  - intros x c Hc. rewrite Kn. destruct (eq_dec (x, c) (n, b)) as [E'|_]; [congruence|]. apply A5, Hc.
  - intros x y c Hy. rewrite Ke. apply A6, Hy.
  - constructor; [rewrite (ss_node_list S); exact H0| |]; rewrite Kn; destruct (eq_dec (NI 0, _) (n, b)) as [[= _ <-]|_]; try (destruct Hb; inreads); assumption.
  - assert (Kr : forall x c, In c reads -> nattr k x c = nattr h x c) by (intros x d Hd; rewrite Kn; destruct (eq_dec (x, d) (n, b)) as [[= _ <-]|_]; [contradiction|reflexivity]).
    apply sub_child with (p := p); try (rewrite Kr by inreads); try assumption; [rewrite (ss_nbrs S); exact Hc|rewrite Ke; exact H6].
Qed.

(** * The constraints of the ancestors *)
Lemma ancestors_run P ladot t : wf (t_g t) -> forall cs p, subproblem ladot (t_g t) p cs -> Forall (fixing P) cs ->
  forall fuel acc, (length cs < fuel)%nat ->
  loop fuel (fun s : val * list con =>
      let '(pred, cs) := s in
      if eqb (str_val pred) "0" then ret (inr cs)
      else
        pred_branch_var <- attr_of pred "branch_var" ;;
        pred_rhs <- attr_of pred "rhs" ;;
        pred_sense <- attr_of pred "sense" ;;
        x <- match pred_branch_var with VS x => var P x | _ => fail KeyError end ;;
        r <- match pred_rhs with VI r => ret r | _ => fail TypeError end ;;
        let c := if eqb pred_sense (VS "<=") then CLe x r else CGe x r in
        pred <- attr_of pred "parent" ;;
        ret (inl (pred, cs ++ [c]))) (VI p, acc) t = (t, Ok (acc ++ cs)).
Proof.
  intros W cs p H. induction H as [H0 H1 H1'|i p c cs Hi Hc H1 H2 H3 H4 H5 H6 H IH]; intros F fuel acc L; (destruct fuel as [|fuel]; [cbn in L; lia|]).
  - cbn [loop]. unfold bind. cbn [str_val]. change (eqb (str_int 0) "0") with true. cbn iota. unfold ret. rewrite app_nil_r. reflexivity.
  - assert (Fc : Forall (fixing P) cs) by (inversion F; assumption). assert (F1 : fixing P c) by (inversion F; assumption).
    cbn [loop]. unfold bind at 1. cbn [str_val]. destruct (eqb_spec (str_int i) "0") as [E|_]; [destruct (str_pos Hi E)|].
    assert (Ra : forall b, attr_of (VI i) b t = (t, Ok (nattr (t_g t) (NI i) b))).
    { intros b. unfold attr_of. erewrite bind_ok by reflexivity. apply ong_read, get_attr_run; [exact (nbr_node W Hc)|exact W]. }
    rewrite (bind_ok _ (Ra _)), (bind_ok _ (Ra _)), (bind_ok _ (Ra _)), H1, H2, H3.
    assert (V : var P (bound_var c) t = (t, Ok (bound_var c))).
    { unfold var. replace (mem (bound_var c) (VARIABLES P)) with true; [reflexivity|]. symmetry. apply mem_In. destruct F1 as (x & Hx & [->| ->]); exact Hx. }
    rewrite (bind_ok _ V). erewrite bind_ok by reflexivity. cbv zeta. rewrite (bind_ok _ (Ra _)), H4. unfold ret at 1.
    replace (if eqb (VS (bound_sense c)) (VS "<=") then CLe (bound_var c) (bound_rhs c) else CGe (bound_var c) (bound_rhs c)) with c by (destruct c; reflexivity).
    cbn [length] in L. specialize (IH Fc fuel (acc ++ [c]) ltac:(lia)). rewrite <- app_assoc in IH. exact IH.
Qed.
