(* Flows and cycles, without graphs: augmenting along a cycle, optimality from potentials, the network with s and t. *)
From Coq Require Import QArith Qfield.
From Verif Require Import Py Util S_Flow S_MinCost P_Flow.
Set Implicit Arguments. Unset Strict Implicit.
Local Open Scope Z_scope. Local Open Scope list_scope.
Notation fn := (name * name -> Z).

Lemma out_in es f x : outflow es f x - inflow es f x = - net es f x.
Proof. unfold net. lia. Qed.
Lemma zsum_zero_each {A} (f : A -> Z) l : (forall x, In x l -> 0 <= f x) -> zsum f l <= 0 -> forall x, In x l -> f x = 0.
Proof. intros H0 Hs x Hx. pose proof (zsum_le_mem H0 Hx). specialize (H0 x Hx). lia. Qed.

Lemma forallb_filter_id {A} (p : A -> bool) l : forallb p l = true -> filter p l = l.
Proof. induction l as [|x l IH]; simpl; [reflexivity|]. intros H. apply andb_true_iff in H as [H1 H2]. rewrite H1, IH by exact H2. reflexivity. Qed.
Lemma forallb_filter_nil {A} (p : A -> bool) l : (forall x, In x l -> p x = false) -> filter p l = [].
Proof. induction l as [|x l IH]; simpl; [reflexivity|]. intros H. rewrite (H x) by auto. apply IH. auto. Qed.

(** ** one pair of a cycle *)
Definition push (es : arcs) (a : Z) (f : fn) (p : name * name) : fn :=
  if mem p es then fun e => if eqb e p then f e + a else f e
  else fun e => if eqb e (snd p, fst p) then f e - a else f e.
Definition usable (es : arcs) (p : name * name) : Prop := In p es \/ In (snd p, fst p) es.
Lemma push_net es a f p x : NoDup es -> usable es p -> net es (push es a f p) x = net es f x + a * (ind (snd p) x - ind (fst p) x).
Proof.
  intros Hn Hu. unfold push. destruct (mem_spec p es) as [Hp|Hp].
  - rewrite (net_change (e := p) (d := a) (f := f)); [reflexivity|exact Hn|exact Hp|]. reflexivity.
  - destruct Hu as [|Hu]; [contradiction|]. rewrite (net_change (e := (snd p, fst p)) (d := - a) (f := f)); [simpl; lia|exact Hn|exact Hu|]. intros; destruct (eqb _ _); lia.
Qed.
Lemma pushes_net es a ps f x : NoDup es -> (forall p, In p ps -> usable es p) ->
  net es (fold_left (push es a) ps f) x = net es f x + a * (zsum (fun p => ind (snd p) x) ps - zsum (fun p => ind (fst p) x) ps).
Proof.
  intros Hn. revert f. induction ps as [|p ps IH]; intros f Hu; simpl; [lia|]. rewrite IH by (intros; apply Hu; simpl; auto).
  rewrite push_net by (try assumption; apply Hu; simpl; auto). lia.
Qed.
Lemma map_fst_combine {A B} (l : list A) (l' : list B) : length l = length l' -> map fst (combine l l') = l.
Proof. revert l'. induction l as [|x l IH]; intros [|y l']; simpl; intros H; try discriminate; [reflexivity|]. rewrite IH; congruence. Qed.
Lemma map_snd_combine {A B} (l : list A) (l' : list B) : length l = length l' -> map snd (combine l l') = l'.
Proof. revert l'. induction l as [|x l IH]; intros [|y l']; simpl; intros H; try discriminate; [reflexivity|]. rewrite IH; congruence. Qed.
Lemma cycle_fst l : map fst (cycle_pairs l) = l.
Proof. destruct l as [|x t]; [reflexivity|]. apply map_fst_combine. rewrite app_length. simpl. lia. Qed.
Lemma cycle_snd x t : map snd (cycle_pairs (x :: t)) = t ++ [x].
Proof. apply map_snd_combine. rewrite app_length. simpl. lia. Qed.
Lemma cycle_closed l (h : name -> Z) : zsum (fun p => h (snd p)) (cycle_pairs l) = zsum (fun p => h (fst p)) (cycle_pairs l).
Proof.
  rewrite <- (zsum_map (@fst name name) h), <- (zsum_map (@snd name name) h), cycle_fst. destruct l as [|x t]; [reflexivity|]. rewrite cycle_snd, zsum_app. simpl. lia.
Qed.
Lemma cycle_net es a l f x : NoDup es -> (forall p, In p (cycle_pairs l) -> usable es p) -> net es (fold_left (push es a) (cycle_pairs l) f) x = net es f x.
Proof. intros Hn Hu. rewrite pushes_net by assumption. rewrite (cycle_closed l (fun y => ind y x)). lia. Qed.
Lemma cycle_NoDup l : NoDup l -> NoDup (cycle_pairs l).
Proof. intros H. apply (NoDup_map_inv fst). rewrite cycle_fst. exact H. Qed.

(* effect on one arc *)
Definition cnt (ps : list (name * name)) (p : name * name) : Z := zsum (fun q => if eqb q p then 1 else 0) ps.
Lemma pushes_at es a ps f e : asymmetric es -> In e es -> fold_left (push es a) ps f e = f e + a * (cnt ps e - cnt ps (snd e, fst e)).
Proof.
  intros As He. destruct e as [x y]. unfold cnt. revert f. induction ps as [|[u v] ps IH]; intros f; simpl; [lia|]. rewrite IH. simpl. clear IH.
  unfold push. destruct (mem_spec (u, v) es) as [Hp|Hp]; cbn [fst snd].
  - rewrite (eqb_sym (x, y)). destruct (eqb_spec (u, v) (y, x)) as [[= -> ->]|H].
    + exfalso. apply (As _ _ He Hp).
    + destruct (eqb_spec (u, v) (x, y)); lia.
  - rewrite (eqb_sym (x, y)). destruct (eqb_spec (u, v) (x, y)) as [[= -> ->]|H]; [contradiction|].
    destruct (eqb_spec (v, u) (x, y)) as [H1|H1].
    + injection H1 as -> ->. rewrite eqb_refl. lia.
    + destruct (eqb_spec (u, v) (y, x)) as [H2|H2]; [congruence|lia].
Qed.
Lemma cnt_nodup ps p : NoDup ps -> cnt ps p = if mem p ps then 1 else 0.
Proof. intros H. unfold cnt. rewrite zsum_delta by exact H. reflexivity. Qed.
(* room left on a pair: the residual capacity *)
Definition room (es : arcs) (c f : fn) (p : name * name) : Z := if mem p es then c p - f p else f (snd p, fst p).
Lemma cycle_bounds es c a l f : asymmetric es -> NoDup l -> 0 <= a -> (forall p, In p (cycle_pairs l) -> usable es p /\ a <= room es c f p) ->
  (forall e, In e es -> 0 <= f e <= c e) -> forall e, In e es -> 0 <= fold_left (push es a) (cycle_pairs l) f e <= c e.
Proof.
  intros As Nd Ha Hr Hb e He. rewrite pushes_at by assumption. rewrite !cnt_nodup by (apply cycle_NoDup, Nd). specialize (Hb e He).
  destruct e as [x y]. cbn [fst snd].
  destruct (mem_spec (x, y) (cycle_pairs l)) as [H1|H1], (mem_spec (y, x) (cycle_pairs l)) as [H2|H2].
  - lia.
  - apply Hr in H1 as [_ H1]. unfold room in H1. assert (mem (x, y) es = true) as E by (apply mem_In; exact He). rewrite E in H1. lia.
  - apply Hr in H2 as [_ H2]. unfold room in H2. assert (mem (y, x) es = false) as E by (apply mem_nIn; apply As; exact He). rewrite E in H2. cbn [fst snd] in H2. lia.
  - lia.
Qed.

(** ** optimality from potentials *)
Lemma potential_sum es (d : fn) (pi : name -> Z) V : NoDup V -> (forall e, In e es -> In (fst e) V /\ In (snd e) V) ->
  zsum (fun e => (pi (snd e) - pi (fst e)) * d e) es = zsum (fun x => pi x * net es d x) V.
Proof.
  intros Hn Hv.
  rewrite (zsum_ext (l := V) (h := fun x => zsum (fun e => (if eqb (snd e) x then pi (snd e) * d e else 0) - (if eqb (fst e) x then pi (fst e) * d e else 0)) es)).
  - rewrite zsum_swap. apply zsum_ext. intros e He. destruct (Hv e He) as [H1 H2]. rewrite zsum_sub.
    rewrite (zsum_ext (h := fun x => if eqb x (snd e) then pi (snd e) * d e else 0)) by (intros; rewrite eqb_sym; reflexivity).
    rewrite (zsum_ext (f := fun x => if eqb (fst e) x then _ else 0) (h := fun x => if eqb x (fst e) then pi (fst e) * d e else 0)) by (intros; rewrite eqb_sym; reflexivity).
    rewrite !zsum_delta by exact Hn. rewrite (proj2 (mem_In _ _) H1), (proj2 (mem_In _ _) H2). lia.
  - intros x _. unfold net. rewrite inflow_eq, outflow_eq, Z.mul_sub_distr_l, zsum_sub, <- !zsum_scale. f_equal; apply zsum_ext; intros e _.
    + destruct (eqb_spec (snd e) x) as [->|]; lia.
    + destruct (eqb_spec (fst e) x) as [->|]; lia.
Qed.
Lemma net_sub es (f f' : fn) x : net es (fun e => f' e - f e) x = net es f' x - net es f x.
Proof.
  unfold net. rewrite !inflow_eq, !outflow_eq.
  rewrite (zsum_ext (h := fun e => (if eqb (snd e) x then f' e else 0) - (if eqb (snd e) x then f e else 0))) by (intros; destruct (eqb _ _); lia).
  rewrite (zsum_ext (f := fun e => if eqb (fst e) x then f' e - f e else 0) (h := fun e => (if eqb (fst e) x then f' e else 0) - (if eqb (fst e) x then f e else 0))) by (intros; destruct (eqb _ _); lia).
  rewrite !zsum_sub. lia.
Qed.
Lemma optimal_int V es c b cost f pi : NoDup V -> (forall e, In e es -> In (fst e) V /\ In (snd e) V) -> feasible V es c b f ->
  (forall e, In e es -> f e < c e -> 0 <= cost e + pi (fst e) - pi (snd e)) ->
  (forall e, In e es -> 0 < f e -> cost e + pi (fst e) - pi (snd e) <= 0) -> forall f', feasible V es c b f' -> flow_cost es cost f <= flow_cost es cost f'.
Proof.
  intros Hn Hv F Up Dn f' F'.
  assert (H0 : zsum (fun e => (pi (snd e) - pi (fst e)) * (f' e - f e)) es = 0).
  { rewrite (potential_sum (fun e => f' e - f e) pi Hn Hv). apply zsum_zero. intros x Hx. rewrite net_sub.
    pose proof (fs_demand F Hx). pose proof (fs_demand F' Hx). rewrite out_in in *. replace (net es f' x - net es f x) with 0 by lia. lia. }
  assert (H1 : 0 <= zsum (fun e => (cost e + pi (fst e) - pi (snd e)) * (f' e - f e)) es).
  { apply zsum_nonneg. intros e He. pose proof (fs_bounds F He). pose proof (fs_bounds F' He).
    destruct (Z_lt_le_dec (f e) (f' e)); [apply Z.mul_nonneg_nonneg; [apply Up; [exact He|lia]|lia]|].
    destruct (Z_lt_le_dec (f' e) (f e)); [apply Z.mul_nonpos_nonpos; [apply Dn; [exact He|lia]|lia]|]. replace (f' e - f e) with 0 by lia. lia. }
  unfold flow_cost. rewrite (zsum_ext (l := es) (f := fun e => cost e * f' e)
    (h := fun e => (cost e * f e + (cost e + pi (fst e) - pi (snd e)) * (f' e - f e)) + (pi (snd e) - pi (fst e)) * (f' e - f e))) by (intros; lia).
  rewrite !zsum_add. lia.
Qed.

(* rational flows: the numerators over a common denominator are a flow of the problem scaled by it *)
Lemma common_den {A} (f : A -> Q) l : exists (D : positive) (g : A -> Z), forall e, In e l -> (f e == g e # D)%Q.
Proof.
  assert (K : exists D, forall e, In e l -> (Zpos (Qden (f e)) | Zpos D)).
  { induction l as [|x l [D IH]]; [exists 1%positive; intros e []|]. exists (Qden (f x) * D)%positive. intros e [<-|He]; rewrite Pos2Z.inj_mul; [apply Z.divide_factor_l|apply Z.divide_mul_r, IH, He]. }
  destruct K as [D K]. exists D, (fun e => Qnum (f e) * (Zpos D / Zpos (Qden (f e)))). intros e He. destruct (K e He) as [q Hq].
  rewrite Hq, Z.div_mul by lia. unfold Qeq. cbn [Qnum Qden]. rewrite Hq. ring.
Qed.
Lemma qsum_den {A} (f : A -> Q) g (D : positive) l : (forall e, In e l -> (f e == g e # D)%Q) -> (qsum f l == zsum g l # D)%Q.
Proof.
  induction l as [|x l IH]; intros H; [reflexivity|]. unfold qsum. cbn [fold_right]. fold (qsum f l). rewrite (IH (fun e He => H e (or_intror He))), (H x (or_introl eq_refl)). unfold zsum. cbn [fold_right]. fold (zsum g l). unfold Qeq, Qplus. cbn [Qnum Qden]. rewrite Pos2Z.inj_mul. ring.
Qed.
Lemma qfeasible_den V es c b f' : qfeasible V es c b f' -> exists (D : positive) g, (forall e, In e es -> (f' e == g e # D)%Q) /\ feasible V es (fun e => Zpos D * c e) (fun x => Zpos D * b x) g.
Proof.
  intros [B N]. destruct (common_den f' es) as (D & g & H). exists D, g. split; [exact H|]. constructor.
  - intros e He. specialize (B e He). rewrite (H e He) in B. unfold Qle in B. cbn [Qnum Qden inject_Z] in B. lia.
  - intros x Hx. specialize (N x Hx). unfold qoutflow, qinflow in N. rewrite !(qsum_den (g := g) (D := D)) in N by (intros e He; apply H; apply filter_In in He as [He _]; exact He).
    unfold outflow, inflow. set (A := zsum g (filter (fun e => eqb (fst e) x) es)) in *. set (Z := zsum g (filter (fun e => eqb (snd e) x) es)) in *.
    unfold Qeq, Qminus, Qplus, Qopp, inject_Z in N. cbn [Qnum Qden] in N. rewrite Pos2Z.inj_mul in N. nia.
Qed.
Lemma optimal_potentials V es c b cost f pi : NoDup V -> (forall e, In e es -> In (fst e) V /\ In (snd e) V) -> feasible V es c b f ->
  (forall e, In e es -> f e < c e -> 0 <= cost e + pi (fst e) - pi (snd e)) ->
  (forall e, In e es -> 0 < f e -> cost e + pi (fst e) - pi (snd e) <= 0) -> min_cost V es c b cost f.
Proof.
  intros Hn Hv F Up Dn. split; [exact F|]. intros f' F'. destruct (qfeasible_den F') as (D & g & H & G).
  assert (FD : feasible V es (fun e => Zpos D * c e) (fun x => Zpos D * b x) (fun e => Zpos D * f e)).
  { constructor.
    - intros e He. pose proof (fs_bounds F He). nia.
    - intros x Hx. pose proof (fs_demand F Hx) as K. unfold outflow, inflow in *. rewrite !zsum_scale. nia. }
  assert (K : flow_cost es cost (fun e => Zpos D * f e) <= flow_cost es cost g).
  { apply (optimal_int (pi := pi) Hn Hv FD); [| |exact G]; intros e He Hf; [apply Up; [exact He|nia]|apply Dn; [exact He|nia]]. }
  unfold qflow_cost. rewrite (qsum_den (g := fun e => cost e * g e) (D := D)) by (intros e He; rewrite (H e He); unfold Qeq, Qmult, inject_Z; cbn [Qnum Qden]; rewrite Pos.mul_1_l; reflexivity).
  unfold flow_cost in K. rewrite (zsum_ext (h := fun e => Zpos D * (cost e * f e))) in K by (intros; ring). rewrite zsum_scale in K.
  unfold Qle, inject_Z, flow_cost. cbn [Qnum Qden]. lia.
Qed.
Lemma feasible_q V es c b f : feasible V es c b f -> qfeasible V es c b (fun e => inject_Z (f e)).
Proof.
  intros F. constructor.
  - intros e He. pose proof (fs_bounds F He). unfold Qle, inject_Z. cbn [Qnum Qden]. lia.
  - intros x Hx. pose proof (fs_demand F Hx) as K. unfold qoutflow, qinflow. rewrite !(qsum_den (g := f) (D := 1)) by reflexivity. unfold outflow, inflow in K. unfold Qeq, Qminus, Qplus, Qopp, inject_Z. cbn [Qnum Qden]. lia.
Qed.
Lemma qflow_cost_int es cost f : (qflow_cost es cost (fun e => inject_Z (f e)) == inject_Z (flow_cost es cost f))%Q.
Proof. unfold qflow_cost. rewrite (qsum_den (g := fun e => cost e * f e) (D := 1)); [reflexivity|]. intros e _. unfold Qeq, Qmult, inject_Z. cbn [Qnum Qden]. lia. Qed.
Lemma min_cost_int V es c b cost f f' : min_cost V es c b cost f -> feasible V es c b f' -> flow_cost es cost f <= flow_cost es cost f'.
Proof. intros [_ H] F'. specialize (H _ (feasible_q F')). rewrite qflow_cost_int in H. rewrite <- Zle_Qle in H. exact H. Qed.
Lemma qsum_ext {A} (f h : A -> Q) l : (forall e, In e l -> (f e == h e)%Q) -> (qsum f l == qsum h l)%Q.
Proof. induction l as [|x l IH]; intros H; [reflexivity|]. unfold qsum. cbn [fold_right]. rewrite (H x (or_introl eq_refl)). fold (qsum f l) (qsum h l). rewrite (IH (fun e He => H e (or_intror He))). reflexivity. Qed.
(* min_cost looks at the arcs only *)
Lemma min_cost_ext V es c b k k' f f' : (forall e, In e es -> f' e = f e) -> (forall e, In e es -> k' e = k e) -> min_cost V es c b k f -> min_cost V es c b k' f'.
Proof.
  intros Hf Hk [F O]. split.
  - constructor; [intros e He; rewrite (Hf e He); apply (fs_bounds F He)|]. intros x Hx. rewrite <- (fs_demand F Hx). unfold outflow, inflow. f_equal; apply zsum_ext; intros e He; apply filter_In in He as [He _]; apply Hf, He.
  - intros g G. specialize (O g G). unfold flow_cost in *. rewrite (zsum_ext (h := fun e => k e * f e)) by (intros e He; rewrite (Hf e He), (Hk e He); reflexivity).
    unfold qflow_cost in *. rewrite (qsum_ext (h := fun e => (inject_Z (k e) * g e)%Q)) by (intros e He; rewrite (Hk e He); reflexivity). exact O.
Qed.

(** ** the network extended with arcs from s to the supply nodes and from the demand nodes to t *)
Section Extended.
  Variables (V : list name) (es : arcs) (b : name -> Z) (s t : name).
  Hypothesis NV : NoDup V.
  Hypothesis HV : forall e, In e es -> In (fst e) V /\ In (snd e) V.
  Hypothesis Hs : ~ In s V.
  Hypothesis Ht : ~ In t V.
  Hypothesis Hst : s <> t.
  Definition extra_of (i : name) : arcs := if b i >? 0 then [(s, i)] else if b i <? 0 then [(i, t)] else [].
  Definition extra : arcs := flat_map extra_of V.
  Lemma in_extra_of e i : In e (extra_of i) <-> (0 < b i /\ e = (s, i)) \/ (b i < 0 /\ e = (i, t)).
  Proof.
    unfold extra_of. destruct (Z.gtb_spec (b i) 0); [|destruct (Z.ltb_spec (b i) 0)]; simpl; split; intros H'; repeat match goal with H : _ \/ _ |- _ => destruct H end; try tauto; try lia; intuition (try congruence; try lia).
  Qed.
  Lemma in_extra e : In e extra <-> exists i, In i V /\ ((0 < b i /\ e = (s, i)) \/ (b i < 0 /\ e = (i, t))).
  Proof. unfold extra. rewrite in_flat_map. split; intros (i & Hi & He); exists i; (split; [exact Hi|]); apply in_extra_of; exact He. Qed.
  Lemma zsum_flat_map {A B} (g : A -> list B) (f : B -> Z) l : zsum f (flat_map g l) = zsum (fun x => zsum f (g x)) l.
  Proof. induction l as [|x l IH]; simpl; [reflexivity|]. rewrite zsum_app, IH. reflexivity. Qed.
  Lemma net_app es' (f : fn) x : net (es ++ es') f x = net es f x + net es' f x.
  Proof. unfold net. rewrite !inflow_eq, !outflow_eq, !zsum_app. lia. Qed.
  Lemma ne x : In x V -> x <> s /\ x <> t.
  Proof. intros H. split; intros ->; contradiction. Qed.
  Lemma net_extra f x : In x V -> net extra f x = if b x >? 0 then f (s, x) else if b x <? 0 then - f (x, t) else 0.
  Proof.
    intros Hx. destruct (ne Hx) as [N1 N2]. unfold net. rewrite inflow_eq, outflow_eq. unfold extra. rewrite !zsum_flat_map, <- zsum_sub.
    rewrite (zsum_ext (h := fun i => if eqb i x then (if b x >? 0 then f (s, x) else if b x <? 0 then - f (x, t) else 0) else 0)).
    - rewrite zsum_delta by exact NV. rewrite (proj2 (mem_In _ _) Hx). reflexivity.
    - intros i Hi. unfold extra_of. destruct (eqb_spec i x) as [->|Hne].
      + destruct (b x >? 0); [|destruct (b x <? 0)]; simpl; rewrite ?eqb_refl; rewrite ?(proj2 (eqb_false s x)), ?(proj2 (eqb_false t x)) by congruence; lia.
      + destruct (b i >? 0); [|destruct (b i <? 0)]; simpl; rewrite ?(proj2 (eqb_false s x)), ?(proj2 (eqb_false t x)), ?(proj2 (eqb_false i x)) by congruence; lia.
  Qed.
  Lemma value_extra f : (forall x, x <> s -> x <> t -> net (es ++ extra) f x = 0) ->
    net (es ++ extra) f t = zsum (fun i => f (s, i)) (filter (fun i => b i >? 0) V).
  Proof.
    intros Hb. rewrite (value_cut (S := fun x => eqb x s) (s := s) (t := t)); [|apply eqb_refl|apply eqb_false; congruence|exact Hb].
    rewrite !zsum_filter, !zsum_app.
    rewrite (zsum_zero (l := es)); [|intros [x y] He; apply HV in He as [A B]; apply ne in A as [A _]; cbn [fst snd]; rewrite (proj2 (eqb_false x s)) by exact A; reflexivity].
    rewrite (zsum_zero (l := es)); [|intros [x y] He; apply HV in He as [A B]; apply ne in B as [B _]; cbn [fst snd]; rewrite (proj2 (eqb_false y s)) by exact B; rewrite andb_false_r; reflexivity].
    rewrite (zsum_zero (f := fun x => if negb _ && _ then _ else _)).
    - unfold extra. rewrite zsum_flat_map. rewrite Z.add_0_l, Z.add_0_l, Z.sub_0_r. apply zsum_ext. intros i Hi. destruct (ne Hi) as [N1 N2]. unfold extra_of.
      destruct (b i >? 0) eqn:E; [|destruct (b i <? 0)]; simpl; rewrite ?eqb_refl; rewrite ?(proj2 (eqb_false i s)) by exact N1; simpl; try lia.
    - intros e He. apply in_extra in He as (i & Hi & [[_ ->]|[_ ->]]); cbn [fst snd].
      + rewrite eqb_refl. reflexivity.
      + rewrite (proj2 (eqb_false t s)) by congruence. rewrite andb_false_r. reflexivity.
  Qed.

  Variables c c1 : fn.
  Hypothesis C1 : forall e, In e es -> c1 e = c e.
  Hypothesis C2 : forall i, In i V -> 0 < b i -> c1 (s, i) = b i.
  Hypothesis C3 : forall i, In i V -> b i < 0 -> c1 (i, t) = - b i.

  (* a saturating flow of the extended network gives a flow that leaves the supply nodes *)
  Lemma saturating_weak f : is_flow (es ++ extra) c1 s t f -> (forall i, In i V -> 0 < b i -> f (s, i) = b i) -> weakly_feasible V es c b f.
  Proof.
    intros [Bd Bal] Sat. constructor.
    - intros e He. rewrite <- (C1 He). apply Bd, in_app_iff. auto.
    - intros x Hx Hb. destruct (ne Hx) as [N1 N2]. specialize (Bal x N1 N2). rewrite net_app, net_extra in Bal by exact Hx. rewrite out_in.
      destruct (Z.gtb_spec (b x) 0); [rewrite Sat in Bal by (try assumption; lia); lia|]. destruct (Z.ltb_spec (b x) 0); lia.
    - intros x Hx Hb. destruct (ne Hx) as [N1 N2]. specialize (Bal x N1 N2). rewrite net_app, net_extra in Bal by exact Hx. rewrite out_in.
      destruct (Z.gtb_spec (b x) 0); [lia|]. destruct (Z.ltb_spec (b x) 0); [|lia].
      assert (He : In (x, t) (es ++ extra)) by (apply in_app_iff; right; apply in_extra; exists x; auto).
      specialize (Bd _ He). rewrite C3 in Bd by assumption. lia.
  Qed.
  (* if the demands add up to zero nothing is missing *)
  Lemma weak_feasible f : zsum b V = 0 -> weakly_feasible V es c b f -> feasible V es c b f.
  Proof.
    intros Hz F. constructor; [apply (wf_bounds F)|]. 
    assert (Hle : forall x, In x V -> 0 <= - b x - net es f x).
    { intros x Hx. destruct (Z_lt_le_dec (b x) 0) as [H|H]; [pose proof (wf_demand F Hx H)|pose proof (wf_supply F Hx H)]; rewrite out_in in *; lia. }
    assert (Hsum : zsum (net es f) V = 0).
    { pose proof (net_sum f (fun _ => true) NV HV) as E. replace (filter (fun _ => true) V) with V in E by (clear; induction V; simpl; congruence). rewrite E. lia. }
    assert (Hs0 : zsum (fun x => - b x - net es f x) V <= 0) by (rewrite zsum_sub, zsum_opp; lia).
    intros x Hx. rewrite out_in. pose proof (zsum_zero_each Hle Hs0 Hx). simpl in *. lia.
  Qed.
  Lemma feasible_weak f : feasible V es c b f -> weakly_feasible V es c b f.
  Proof. intros F. constructor; [apply (fs_bounds F)|..]; intros x Hx Hb; pose proof (fs_demand F Hx); lia. Qed.
  (* conversely *)
  Lemma weak_saturating f : weakly_feasible V es c b f -> exists f1, is_flow (es ++ extra) c1 s t f1 /\
    value (es ++ extra) t f1 = zsum b (filter (fun i => b i >? 0) V).
  Proof.
    intros F. set (f1 := fun e : name * name => if mem e es then f e else if eqb (fst e) s then b (snd e) else net es f (fst e)).
    assert (Nes : forall i, ~ In (s, i) es /\ ~ In (i, t) es).
    { intros i. split; intros H; apply HV in H as [A B]; simpl in *; contradiction. }
    assert (E1 : forall e, In e es -> f1 e = f e) by (intros e He; unfold f1; rewrite (proj2 (mem_In _ _) He); reflexivity).
    assert (E2 : forall i, f1 (s, i) = b i).
    { intros i. unfold f1. rewrite (proj2 (mem_nIn _ _) (proj1 (Nes i))). simpl. rewrite eqb_refl. reflexivity. }
    assert (E3 : forall i, In i V -> f1 (i, t) = net es f i).
    { intros i Hi. unfold f1. rewrite (proj2 (mem_nIn _ _) (proj2 (Nes i))). simpl. destruct (ne Hi) as [N1 _]. rewrite (proj2 (eqb_false i s)) by exact N1. reflexivity. }
    assert (Bal : forall x, x <> s -> x <> t -> net (es ++ extra) f1 x = 0).
    { intros x N1 N2. destruct (mem_spec x V) as [Hx|Hx].
      - rewrite net_app, (net_ext x E1), net_extra by exact Hx. rewrite E2, E3 by exact Hx.
        destruct (Z_lt_le_dec (b x) 0) as [H|H]; [pose proof (wf_demand F Hx H)|pose proof (wf_supply F Hx H)]; rewrite out_in in *.
        + destruct (Z.gtb_spec (b x) 0); [lia|]. destruct (Z.ltb_spec (b x) 0); lia.
        + destruct (Z.gtb_spec (b x) 0); [lia|]. destruct (Z.ltb_spec (b x) 0); lia.
      - apply net_outside. unfold ends. rewrite nodup_In, in_app_iff, !in_map_iff. intros [([u v] & <- & He)|([u v] & <- & He)]; apply in_app_iff in He as [He|He]; cbn [fst snd] in *.
        + apply HV in He as [A _]. contradiction.
        + apply in_extra in He as (i & Hi & [[_ [= -> ->]]|[_ [= -> ->]]]); [congruence|contradiction].
        + apply HV in He as [_ A]. contradiction.
        + apply in_extra in He as (i & Hi & [[_ [= -> ->]]|[_ [= -> ->]]]); [contradiction|congruence]. }
    exists f1. split.
    - constructor; [|exact Bal]. intros e He. apply in_app_iff in He as [He|He].
      + rewrite (E1 e He), (C1 He). apply (wf_bounds F He).
      + apply in_extra in He as (i & Hi & [[Hb ->]|[Hb ->]]).
        * rewrite E2, C2 by assumption. lia.
        * rewrite E3, C3 by assumption. pose proof (wf_demand F Hi Hb). rewrite out_in in *. lia.
    - unfold value. rewrite value_extra by exact Bal. apply zsum_ext. intros i _. apply E2.
  Qed.
End Extended.
(* so a maximum flow saturates the arcs leaving s as soon as any flow of the problem scaled by D does *)
Lemma extra_scale V (b : name -> Z) s t (D : positive) : extra V (fun x => Zpos D * b x) s t = extra V b s t.
Proof.
  unfold extra. induction V as [|i V IH]; [reflexivity|]. cbn [flat_map]. rewrite IH. f_equal. unfold extra_of.
  destruct (Z.gtb_spec (b i) 0), (Z.gtb_spec (Zpos D * b i) 0); try nia; [reflexivity|]. destruct (Z.ltb_spec (b i) 0), (Z.ltb_spec (Zpos D * b i) 0); try nia; reflexivity.
Qed.
Lemma maximum_scaled V es b s t c c1 (D : positive) f f0 : NoDup V -> (forall e, In e es -> In (fst e) V /\ In (snd e) V) -> ~ In s V -> ~ In t V -> s <> t ->
  (forall e, In e es -> c1 e = c e) -> (forall i, In i V -> 0 < b i -> c1 (s, i) = b i) -> (forall i, In i V -> b i < 0 -> c1 (i, t) = - b i) ->
  is_flow (es ++ extra V b s t) c1 s t f ->
  (forall f', is_flow (es ++ extra V b s t) (fun e => Zpos D * c1 e) s t f' -> value (es ++ extra V b s t) t f' <= Zpos D * value (es ++ extra V b s t) t f) ->
  weakly_feasible V es (fun e => Zpos D * c e) (fun x => Zpos D * b x) f0 -> forall i, In i V -> 0 < b i -> f (s, i) = b i.
Proof.
  intros NV HV Hs Ht Hst C1 C2 C3 Fl Mx F0 i Hi Hb.
  destruct (@weak_saturating V es (fun x => Zpos D * b x) s t NV HV Hs Ht Hst (fun e => Zpos D * c e) (fun e => Zpos D * c1 e)) with (f := f0) as (f1 & F1 & V1); [| | |exact F0|].
  { intros e He. rewrite (C1 e He). reflexivity. }
  { intros j Hj K. rewrite C2 by (try exact Hj; nia). reflexivity. }
  { intros j Hj K. rewrite C3 by (try exact Hj; nia). ring. }
  rewrite extra_scale in F1, V1. specialize (Mx f1 F1). rewrite V1 in Mx. unfold value in Mx. rewrite (value_extra (b := b) HV Hs Ht Hst (flow_balance Fl)) in Mx.
  assert (Ef : filter (fun i => Zpos D * b i >? 0) V = filter (fun i => b i >? 0) V).
  { apply filter_ext. intros j. destruct (Z.gtb_spec (b j) 0), (Z.gtb_spec (Zpos D * b j) 0); try nia; reflexivity. }
  rewrite Ef, zsum_scale in Mx. apply Zmult_le_reg_r with (p := Zpos D) in Mx || apply Z.mul_le_mono_pos_l in Mx; [|lia].
  assert (Hin : In i (filter (fun i => b i >? 0) V)) by (apply filter_In; split; [exact Hi|apply Z.gtb_lt; lia]).
  enough (b i - f (s, i) = 0) by lia.
  apply (zsum_zero_each (f := fun i => b i - f (s, i)) (l := filter (fun i => b i >? 0) V)); [|rewrite zsum_sub; lia|exact Hin].
  intros j Hj. apply filter_In in Hj as [Hj Hp]. apply Z.gtb_lt in Hp.
  assert (He : In (s, j) (es ++ extra V b s t)) by (apply in_app_iff; right; apply in_extra; exists j; auto).
  pose proof (flow_bounds Fl He). rewrite C2 in * by assumption. lia.
Qed.
