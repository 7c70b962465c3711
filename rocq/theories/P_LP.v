(* The linear program solve() builds is the minimum cost flow problem over the rationals. *)
From Coq Require Import QArith Permutation.
From Verif Require Import Py Util M_Graph P_Graph P_GraphLaws M_Search M_Flow M_MinCost M_Simplex M_NetSimplex M_Random M_SimplexTest Spec P_Attr S_Flow S_GraphFlow S_MinCost S_LP P_Flow P_EdgeFrame P_MinCostAbs C_MinCost.
Set Implicit Arguments. Unset Strict Implicit.
Local Open Scope string_scope. Local Open Scope list_scope.

Lemma dget_map_key {K A} `{EqDec K} (f : K -> A) l e : In e l -> dget (map (fun e => (e, f e)) l) e = Some (f e).
Proof. induction l as [|x l IH]; [intros []|]. intros Hi. cbn [map dget]. destruct (eq_dec x e) as [->|N]; [destruct (eq_dec e e); [reflexivity|congruence]|]. destruct (eq_dec e x); [congruence|]. destruct Hi as [->|Hi]; [congruence|auto]. Qed.
Lemma dkeys_map_key {K A} `{EqDec K} (f : K -> A) l : dkeys (map (fun e => (e, f e)) l) = l.
Proof. unfold dkeys. rewrite map_map. apply map_id. Qed.
Lemma dset_map_key {K A} `{EqDec K} (f : K -> A) l e : ~ In e l -> dset (map (fun e => (e, f e)) l) e (f e) = map (fun e => (e, f e)) (l ++ [e]).
Proof.
  induction l as [|x l IH]; intros Hn; [reflexivity|]. cbn [map app dset]. destruct (eq_dec e x) as [->|N]; [exfalso; apply Hn; left; reflexivity|]. f_equal. apply IH. intros K0. apply Hn. right. exact K0.
Qed.
Lemma fresh_elt {A} (l pre post : list A) a : NoDup l -> l = pre ++ a :: post -> ~ In a pre.
Proof. intros N ->. apply NoDup_remove_2 in N. rewrite in_app_iff in N. tauto. Qed.

(** * Sums *)
Lemma qsum_cons {A} (f : A -> Q) a l : qsum f (a :: l) = (f a + qsum f l)%Q.
Proof. reflexivity. Qed.
Lemma qsum_app {A} (f : A -> Q) l l' : (qsum f (l ++ l') == qsum f l + qsum f l')%Q.
Proof. induction l as [|x l IH]; cbn [app]; [unfold qsum at 2; cbn [fold_right]; ring|]. rewrite !qsum_cons, IH. ring. Qed.
Lemma qsum_perm {A} (f : A -> Q) l l' : Permutation l l' -> (qsum f l == qsum f l')%Q.
Proof. induction 1; rewrite ?qsum_cons; [reflexivity|rewrite IHPermutation; reflexivity|ring|rewrite IHPermutation1; assumption]. Qed.
Lemma linear_app x l l' : (linear_value x (l ++ l') == linear_value x l + linear_value x l')%Q.
Proof. apply (qsum_app (fun t => inject_Z (fst t) * x (snd t))%Q). Qed.
Lemma linear_map {A} x (k : A -> Z) (e : A -> edge) l : (linear_value x (map (fun a => (k a, e a)) l) == qsum (fun a => inject_Z (k a) * x (e a))%Q l)%Q.
Proof. induction l as [|a l IH]; [reflexivity|]. cbn [map]. rewrite qsum_cons, <- IH. reflexivity. Qed.
Lemma qsum_scale {A} (f : A -> Q) c l : (qsum (fun a => c * f a) l == c * qsum f l)%Q.
Proof. induction l as [|a l IH]; [unfold qsum; cbn [fold_right]; ring|]. rewrite !qsum_cons, IH. ring. Qed.
Lemma qsum_map {A B} (g : A -> B) (f : B -> Q) l : qsum f (map g l) = qsum (fun a => f (g a)) l.
Proof. induction l as [|a l IH]; [reflexivity|]. cbn [map]. rewrite !qsum_cons, IH. reflexivity. Qed.

Section LP.
  Variables (g : graph) (c k : name * name -> Z) (b : name -> Z).
  Notation V := (get_node_list g). Notation es := (get_edge_list g).
  Hypothesis W : wf g.
  Hypothesis D : g_type g = Directed.
  Hypothesis Hc : forall e, In e es -> eattr g (fst e) (snd e) "capacity" = Some (VI (c e)).
  Hypothesis Hk : forall e, In e es -> eattr g (fst e) (snd e) "cost" = Some (VI (k e)).
  Hypothesis Hb : forall x, In x V -> nattr g x "demand" = VI (b x).
  Definition constraint (i : name) : linear * Z :=
    (map (fun j => (1%Z, (i, j))) (list_at (g_nbrs g) i) ++ map (fun j => ((-1)%Z, (j, i))) (list_at (g_in g) i), b i).
  Definition flow_lp : lp := {| lp_vars := map (fun e => (e, (0%Z, c e))) es; lp_obj := map (fun e => (k e, e)) es; lp_cons := map constraint V |}.

  Lemma constraint_ok i : In i V -> ok (flow_constraint (map (fun e => (e, (0%Z, c e))) es) (map (fun i => (i, b i)) V) i) g (fun r h => h = g /\ r = constraint i).
  Proof.
    intros Hi. unfold flow_constraint. apply ok_bind. apply (ok_nbr_list Hi). apply ok_bind. apply (ok_in_list W D Hi).
    apply ok_bind. eapply ok_foldM with (I := fun pre l h => h = g /\ l = map (fun j => (1%Z, (i, j))) pre); [auto| |].
    { intros pre j post l h Ep [-> ->]. assert (He : In (i, j) es) by (apply (nbrs_edge W D); rewrite Ep; apply in_elt). unfold var. rewrite (proj2 (dmem_In _ _)) by (rewrite dkeys_map_key; exact He).
      apply ok_bind, ok_ret. apply ok_ret. split; [reflexivity|]. rewrite map_app. reflexivity. }
    intros l h [-> ->]. apply ok_bind. eapply ok_foldM with (I := fun pre l h => h = g /\ l = map (fun j => ((-1)%Z, (j, i))) pre); [auto| |].
    { intros pre j post l h Ep [-> ->]. assert (He : In (j, i) es) by (apply (ins_edge W D); rewrite Ep; apply in_elt). unfold var. rewrite (proj2 (dmem_In _ _)) by (rewrite dkeys_map_key; exact He).
      apply ok_bind, ok_ret. apply ok_ret. split; [reflexivity|]. rewrite map_app. reflexivity. }
    intros l h [-> ->]. apply ok_bind. eapply ok_lift; [apply dget_map_key; exact Hi|]. apply ok_ret. auto.
  Qed.
  Lemma build_ok : build_lp g = (g, Ok flow_lp).
  Proof.
    apply ok_eq. unfold build_lp. apply ok_bind, ok_gets. apply ok_bind, ok_gets.
    apply ok_bind. eapply ok_foldM with (I := fun pre s h => h = g /\ s = (map (fun e => (e, c e)) pre, map (fun e => (e, k e)) pre)); [auto| |].
    { intros pre e post s h Ep [-> ->]. assert (He : In e es) by (rewrite Ep; apply in_elt). pose proof (fresh_elt (wf_ne W) Ep) as Hn.
      apply ok_bind. eapply ok_get_edge_attr; [apply (Hc He)|]. apply ok_bind, ok_ret. apply ok_bind. eapply ok_get_edge_attr; [apply (Hk He)|]. apply ok_bind, ok_ret. apply ok_ret.
      cbn [fst snd]. rewrite !dset_map_key by exact Hn. auto. }
    intros s h [-> ->].
    apply ok_bind. eapply ok_foldM with (I := fun pre s h => h = g /\ s = map (fun i => (i, b i)) pre); [auto| |].
    { intros pre i post s h Ep [-> ->]. assert (Hi : In i V) by (rewrite Ep; apply in_elt). pose proof (fresh_elt (wf_nd W) Ep) as Hn.
      apply ok_bind. apply ok_get_node_attr; [rewrite (wf_nodes W); exact Hi|]. rewrite (Hb Hi). apply ok_bind, ok_ret. apply ok_ret. rewrite dset_map_key by exact Hn. auto. }
    intros s h [-> ->].
    apply ok_bind. eapply ok_foldM with (I := fun pre s h => h = g /\ s = map (fun e => (e, (0%Z, c e))) pre); [auto| |].
    { intros pre e post s h Ep [-> ->]. assert (He : In e es) by (rewrite Ep; apply in_elt). pose proof (fresh_elt (wf_ne W) Ep) as Hn.
      apply ok_bind. eapply ok_lift; [apply dget_map_key; exact He|]. apply ok_ret. rewrite (dset_map_key (fun e => (0%Z, c e))) by exact Hn. auto. }
    intros s h [-> ->].
    apply ok_bind. eapply ok_foldM with (I := fun pre s h => h = g /\ s = map (fun e => (k e, e)) pre); [auto| |].
    { intros pre e post s h Ep [-> ->]. assert (He : In e es) by (rewrite Ep; apply in_elt).
      apply ok_bind. eapply ok_lift; [apply dget_map_key; exact He|]. unfold var. rewrite (proj2 (dmem_In _ _)) by (rewrite dkeys_map_key; exact He). apply ok_bind, ok_ret. apply ok_ret. rewrite map_app. auto. }
    intros s h [-> ->].
    apply ok_bind. eapply ok_foldM with (I := fun pre s h => h = g /\ s = map constraint pre); [auto| |].
    { intros pre i post s h Ep [-> ->]. assert (Hi : In i V) by (rewrite Ep; apply in_elt). apply ok_bind. eapply ok_weaken; [apply (constraint_ok Hi)|]. intros r h [-> ->]. apply ok_ret. rewrite map_app. auto. }
    intros s h [-> ->]. apply ok_ret. auto.
  Qed.
  Lemma nbrs_perm i : Permutation (map (fun j => (i, j)) (list_at (g_nbrs g) i)) (filter (fun e => eqb (fst e) i) es).
  Proof.
    apply NoDup_Permutation.
    - apply FinFun.Injective_map_NoDup; [intros x y [= ->]; reflexivity|]. apply (NoDup_count_occ eq_dec). intros y. rewrite (wf_nbrs W). unfold nb_count. rewrite D. unfold b2n. destruct dmem; lia.
    - apply NoDup_filter, (wf_ne W).
    - intros [x y]. rewrite in_map_iff, filter_In. cbn [fst]. split.
      + intros (j & [= <- <-] & Hj). apply (nbrs_edge W D) in Hj. rewrite eqb_refl. auto.
      + intros [He Hx]. apply (proj1 (eqb_true _ _)) in Hx. subst x. exists y. split; [reflexivity|]. apply (nbrs_edge W D), He.
  Qed.
  Lemma ins_perm i : Permutation (map (fun j => (j, i)) (list_at (g_in g) i)) (filter (fun e => eqb (snd e) i) es).
  Proof.
    apply NoDup_Permutation.
    - apply FinFun.Injective_map_NoDup; [intros x y [= ->]; reflexivity|]. apply (NoDup_count_occ eq_dec). intros y. rewrite (wf_ins W), D. unfold b2n. destruct dmem; lia.
    - apply NoDup_filter, (wf_ne W).
    - intros [x y]. rewrite in_map_iff, filter_In. cbn [snd]. split.
      + intros (j & [= <- <-] & Hj). apply (ins_edge W D) in Hj. rewrite eqb_refl. auto.
      + intros [He Hx]. apply (proj1 (eqb_true _ _)) in Hx. subst y. exists x. split; [reflexivity|]. apply (ins_edge W D), He.
  Qed.
  Lemma constraint_value x i : (linear_value x (fst (constraint i)) == qoutflow es x i - qinflow es x i)%Q.
  Proof.
    unfold constraint. cbn [fst]. rewrite linear_app, !linear_map. rewrite !qsum_scale. unfold qoutflow, qinflow. rewrite <- (qsum_perm x (nbrs_perm i)), <- (qsum_perm x (ins_perm i)), !qsum_map. change (inject_Z 1) with 1%Q. change (inject_Z (-1)) with (-(1))%Q. ring.
  Qed.
  Lemma sat_feasible x : lp_sat flow_lp x <-> qfeasible V es c b x.
  Proof.
    split.
    - intros [H1 H2]. constructor.
      + intros e He. apply (H1 e 0%Z (c e)). apply in_map_iff. exists e. auto.
      + intros i Hi. rewrite <- constraint_value. apply H2. apply in_map_iff. exists i. split; [reflexivity|exact Hi].
    - intros [H1 H2]. split.
      + intros e lo hi He. apply in_map_iff in He as (e' & [= -> <- <-] & He). apply (H1 e He).
      + intros l d Hl. apply in_map_iff in Hl as (i & Ei & Hi). replace l with (fst (constraint i)) by (rewrite Ei; reflexivity). replace d with (b i) by (unfold constraint in Ei; congruence). rewrite constraint_value. apply (H2 i Hi).
  Qed.
  Lemma obj_cost x : (linear_value x (lp_obj flow_lp) == qflow_cost es k x)%Q.
  Proof. apply linear_map. Qed.
  Lemma flow_lp_wf : lp_wf flow_lp.
  Proof.
    constructor; cbn [flow_lp lp_vars lp_obj lp_cons].
    - rewrite map_map. cbn [fst]. rewrite map_id. apply (wf_ne W).
    - intros z e He. apply in_map_iff in He as (e' & [= <- <-] & He). rewrite map_map. cbn [fst]. rewrite map_id. exact He.
    - intros l d z e Hl He. rewrite map_map. cbn [fst]. rewrite map_id. apply in_map_iff in Hl as (i & Ei & Hi). unfold constraint in Ei. injection Ei as <- <-.
      apply in_app_or in He as [He|He]; apply in_map_iff in He as (j & [= <- <-] & Hj); [apply (nbrs_edge W D), Hj|apply (ins_edge W D), Hj].
  Qed.
  (* a flow of minimum cost is an optimal assignment *)
  Lemma lp_of_min f : min_cost V es c b k f -> lp_optimal flow_lp (fun e => inject_Z (f e)).
  Proof. intros [F O]. split; [apply sat_feasible, feasible_q, F|]. intros y Y. rewrite !obj_cost, qflow_cost_int. apply O, sat_feasible, Y. Qed.
  Lemma lp_value f x : min_cost V es c b k f -> lp_optimal flow_lp x -> (linear_value x (lp_obj flow_lp) == inject_Z (flow_cost es k f))%Q.
  Proof.
    intros M [S O]. pose proof (lp_of_min M) as [S' O']. apply Qle_antisym.
    - rewrite <- qflow_cost_int, <- obj_cost. apply O, S'.
    - rewrite <- qflow_cost_int, <- obj_cost. apply O', S.
  Qed.
End LP.
Lemma int_of_int v z : (v == inject_Z z)%Q -> int_of v = z.
Proof. unfold Qeq, inject_Z, int_of. cbn [Qnum Qden]. intros H. rewrite Z.mul_1_r in H. rewrite H. apply Z.quot_mul. discriminate. Qed.

(** * A correct solver, for problems with integer solutions: all integer points within the bounds are tried *)
Definition range (lo hi : Z) : list Z := map (fun n => (lo + Z.of_nat n)%Z) (seq 0 (Z.to_nat (hi - lo + 1))).
Lemma In_range lo hi z : In z (range lo hi) <-> (lo <= z <= hi)%Z.
Proof.
  unfold range. rewrite in_map_iff. split.
  - intros (n & <- & Hn). apply in_seq in Hn. lia.
  - intros H. exists (Z.to_nat (z - lo)). split; [lia|]. apply in_seq. lia.
Qed.
Fixpoint points (vs : list (edge * (Z * Z))) : list (edge -> Z) :=
  match vs with
  | [] => [fun _ => 0%Z]
  | (e, (lo, hi)) :: vs => flat_map (fun f => map (fun v e' => if eq_dec e' e then v else f e') (range lo hi)) (points vs)
  end.
Definition zvalue (x : edge -> Z) (l : linear) : Z := fold_right (fun t z => (fst t * x (snd t) + z)%Z) 0%Z l.
Definition zsat (p : lp) (x : edge -> Z) : bool :=
  forallb (fun v => (fst (snd v) <=? x (fst v)) && (x (fst v) <=? snd (snd v)))%Z (lp_vars p) && forallb (fun c => (zvalue x (fst c) =? snd c)%Z) (lp_cons p).
Fixpoint best (w : (edge -> Z) -> Z) (l : list (edge -> Z)) (b : edge -> Z) : edge -> Z :=
  match l with [] => b | f :: l => best w l (if (w f <? w b)%Z then f else b) end.
Definition brute_force (p : lp) : edge -> Q :=
  match filter (zsat p) (points (lp_vars p)) with
  | [] => fun _ => 0%Q
  | f :: l => fun e => inject_Z (best (fun x => zvalue x (lp_obj p)) l f e)
  end.
Lemma points_all vs (x : edge -> Z) : NoDup (map fst vs) -> (forall e lo hi, In (e, (lo, hi)) vs -> (lo <= x e <= hi)%Z) -> exists f, In f (points vs) /\ forall e, In e (map fst vs) -> f e = x e.
Proof.
  induction vs as [|(e & lo & hi) vs IH]; intros N H; [exists (fun _ => 0%Z); split; [left; reflexivity|intros e []]|]. cbn [map fst] in N. inversion N as [|? ? N1 N2]; subst.
  destruct IH as (f & Hf & Ef); [exact N2|intros; apply H; right; assumption|].
  exists (fun e' => if eq_dec e' e then x e else f e'). split.
  - cbn [points]. apply in_flat_map. exists f. split; [exact Hf|]. apply in_map_iff. exists (x e). split; [reflexivity|]. apply In_range, (H e lo hi). left. reflexivity.
  - intros e' [<-|He]; cbn [fst]; [destruct (eq_dec e e); congruence|]. destruct (eq_dec e' e) as [->|]; [reflexivity|apply Ef, He].
Qed.
Lemma best_in w l b : best w l b = b \/ In (best w l b) l.
Proof. revert b. induction l as [|f l IH]; intros b; cbn [best]; [auto|]. destruct (IH (if (w f <? w b)%Z then f else b)) as [->|H]; [destruct (_ <? _)%Z; cbn [In]; auto|cbn [In]; auto]. Qed.
Lemma best_le w l b f : f = b \/ In f l -> (w (best w l b) <= w f)%Z.
Proof.
  revert b f. induction l as [|f' l IH]; intros b f H; cbn [best]; [destruct H as [->|[]]; lia|]. destruct H as [->|[->|H]].
  - destruct (Z.ltb_spec (w f') (w b)); [etransitivity; [apply IH; left; reflexivity|lia]|apply IH; auto].
  - destruct (Z.ltb_spec (w f) (w b)); [apply IH; auto|etransitivity; [apply IH; left; reflexivity|lia]].
  - apply IH. auto.
Qed.
Lemma zvalue_q x l : (linear_value (fun e => inject_Z (x e)) l == inject_Z (zvalue x l))%Q.
Proof. induction l as [|t l IH]; [reflexivity|]. unfold linear_value, zvalue in *. cbn [fold_right]. rewrite IH, inject_Z_plus, inject_Z_mult. reflexivity. Qed.
Lemma zvalue_ext x y l : (forall z e, In (z, e) l -> x e = y e) -> zvalue x l = zvalue y l.
Proof.
  induction l as [|[z e] l IH]; intros H; [reflexivity|]. unfold zvalue in *. cbn [fold_right fst snd]. rewrite (H z e) by (left; reflexivity). rewrite IH; [reflexivity|]. intros z' e' He. apply (H z' e'). right. exact He.
Qed.
Lemma zsat_spec p x : zsat p x = true <-> lp_sat p (fun e => inject_Z (x e)).
Proof.
  unfold zsat. rewrite andb_true_iff, !forallb_forall. split.
  - intros [H1 H2]. split.
    + intros e lo hi He. specialize (H1 _ He). cbn [fst snd] in H1. apply andb_true_iff in H1 as [A B]. apply Z.leb_le in A, B. rewrite <- !Zle_Qle. auto.
    + intros l d Hl. specialize (H2 _ Hl). cbn [fst snd] in H2. apply Z.eqb_eq in H2. rewrite zvalue_q, H2. reflexivity.
  - intros [H1 H2]. split.
    + intros (e & lo & hi) He. cbn [fst snd]. specialize (H1 e lo hi He). rewrite <- !Zle_Qle in H1. apply andb_true_iff. rewrite !Z.leb_le. exact H1.
    + intros (l & d) Hl. cbn [fst snd]. specialize (H2 l d Hl). rewrite zvalue_q in H2. apply Z.eqb_eq. unfold Qeq, inject_Z in H2. cbn [Qnum Qden] in H2. lia.
Qed.
Lemma brute_force_solves : solves brute_force.
Proof.
  intros p x Wp [Sx Ox]. destruct (points_all (vs := lp_vars p) (x := x) (lw_nd Wp)) as (f & Hf & Ef).
  { intros e lo hi He. pose proof (proj1 Sx e lo hi He) as H. cbv beta in H. rewrite <- !Zle_Qle in H. exact H. }
  assert (Sf : zsat p f = true).
  { apply zsat_spec. split.
    - intros e lo hi He. rewrite Ef by (apply (in_map fst) in He; exact He). apply (proj1 Sx e lo hi He).
    - intros l d Hl. rewrite zvalue_q. rewrite (@zvalue_ext f x l); [rewrite <- zvalue_q; apply (proj2 Sx l d Hl)|]. intros z e He. apply Ef. apply (lw_cons Wp Hl He). }
  assert (Vf : zvalue f (lp_obj p) = zvalue x (lp_obj p)) by (apply zvalue_ext; intros z e He; apply Ef; apply (lw_obj Wp He)).
  assert (Hin : In f (filter (zsat p) (points (lp_vars p)))) by (apply filter_In; auto). unfold brute_force.
  destruct (filter (zsat p) (points (lp_vars p))) as [|f0 l] eqn:El; [destruct Hin|]. set (w := fun x : edge -> Z => zvalue x (lp_obj p)).
  assert (Hb : zsat p (best w l f0) = true).
  { assert (In (best w l f0) (f0 :: l)) as Hi by (destruct (best_in w l f0) as [->|]; cbn [In]; auto). rewrite <- El in Hi. apply filter_In in Hi. apply Hi. }
  split; [apply zsat_spec, Hb|]. intros y Sy. eapply Qle_trans; [|apply (Ox y Sy)]. rewrite !zvalue_q, <- Zle_Qle, <- Vf. apply (best_le (w := w)). destruct Hin; auto.
Qed.
