(* Flow algebra: cuts, weak duality, updating a flow along an arc. *)
From Verif Require Import Py Util S_Flow.
Set Implicit Arguments. Unset Strict Implicit.
Local Open Scope Z_scope.

Lemma inflow_eq es f x : inflow es f x = zsum (fun e => if eqb (snd e) x then f e else 0) es.
Proof. apply zsum_filter. Qed.
Lemma outflow_eq es f x : outflow es f x = zsum (fun e => if eqb (fst e) x then f e else 0) es.
Proof. apply zsum_filter. Qed.
Lemma eqb_sym {A} {E : EqDec A} (x y : A) : eqb x y = eqb y x.
Proof. destruct (eqb_spec x y), (eqb_spec y x); congruence. Qed.
Lemma zsum_pick (f : Z) (a : name) (p : name -> bool) V : NoDup V -> In a V ->
  zsum (fun x => if eqb a x then f else 0) (filter p V) = if p a then f else 0.
Proof.
  intros Hn Ha. rewrite (zsum_ext (h := fun x => if eqb x a then f else 0)) by (intros; rewrite eqb_sym; reflexivity).
  rewrite zsum_delta by (apply NoDup_filter; exact Hn). destruct (p a) eqn:Hp.
  - assert (mem a (filter p V) = true) as -> by (apply mem_In, filter_In; auto). reflexivity.
  - assert (mem a (filter p V) = false) as ->; [|reflexivity]. apply mem_nIn. rewrite filter_In. intros [_ H]. congruence.
Qed.
Lemma net_sum es f (p : name -> bool) V : NoDup V -> (forall e, In e es -> In (fst e) V /\ In (snd e) V) ->
  zsum (net es f) (filter p V) = zsum (fun e => if p (snd e) then f e else 0) es - zsum (fun e => if p (fst e) then f e else 0) es.
Proof.
  intros Hn Hv. unfold net. rewrite zsum_sub. f_equal.
  - rewrite (zsum_ext (h := fun x => zsum (fun e => if eqb (snd e) x then f e else 0) es)) by (intros; apply inflow_eq).
    rewrite zsum_swap. apply zsum_ext. intros e He. apply zsum_pick; [exact Hn|apply Hv, He].
  - rewrite (zsum_ext (h := fun x => zsum (fun e => if eqb (fst e) x then f e else 0) es)) by (intros; apply outflow_eq).
    rewrite zsum_swap. apply zsum_ext. intros e He. apply zsum_pick; [exact Hn|apply Hv, He].
Qed.
Definition ends (es : arcs) : list name := nodup eq_dec (map fst es ++ map snd es).
Lemma ends_in es e : In e es -> In (fst e) (ends es) /\ In (snd e) (ends es).
Proof. intros H. unfold ends. rewrite !nodup_In, !in_app_iff. split; [left|right]; apply in_map; exact H. Qed.
Lemma net_outside es f x : ~ In x (ends es) -> net es f x = 0.
Proof.
  intros Hx. unfold net. rewrite inflow_eq, outflow_eq. rewrite !zsum_zero; [reflexivity|..]; intros e He; apply ends_in in He as [H1 H2].
  - destruct (eqb_spec (fst e) x); congruence.
  - destruct (eqb_spec (snd e) x); congruence.
Qed.

(* the value of a flow, read at a cut *)
Lemma value_cut es f (S : name -> bool) s t : S s = true -> S t = false ->
  (forall x, x <> s -> x <> t -> net es f x = 0) ->
  net es f t = zsum f (filter (fun e => S (fst e) && negb (S (snd e))) es) - zsum f (filter (fun e => negb (S (fst e)) && S (snd e)) es).
Proof.
  intros Hs Ht Hb.
  assert (E : zsum (net es f) (filter (fun x => negb (S x)) (ends es)) = net es f t).
  { rewrite zsum_filter. rewrite (zsum_ext (h := fun x => if eqb x t then net es f t else 0)).
    - rewrite zsum_delta by apply NoDup_nodup. destruct (mem_spec t (ends es)); [reflexivity|]. symmetry. apply net_outside. assumption.
    - intros x _. destruct (eqb_spec x t) as [->|Hx]; [rewrite Ht; reflexivity|]. destruct (S x) eqn:E; [reflexivity|]. apply Hb; congruence. }
  rewrite <- E, net_sum by (try apply NoDup_nodup; apply ends_in). rewrite !zsum_filter, <- !zsum_sub. apply zsum_ext. intros e _.
  destruct (S (fst e)), (S (snd e)); simpl; lia.
Qed.
Lemma weak_duality es c s t f (S : name -> bool) : is_flow es c s t f -> S s = true -> S t = false -> value es t f <= cut_capacity es c S.
Proof.
  intros [Hb Hn] Hs Ht. unfold value, cut_capacity. rewrite (value_cut Hs Ht Hn).
  assert (zsum f (filter (fun e => S (fst e) && negb (S (snd e))) es) <= zsum c (filter (fun e => S (fst e) && negb (S (snd e))) es)).
  { apply zsum_le. intros e He. apply filter_In in He as [He _]. apply Hb, He. }
  assert (0 <= zsum f (filter (fun e => negb (S (fst e)) && S (snd e)) es)).
  { apply zsum_nonneg. intros e He. apply filter_In in He as [He _]. apply Hb, He. }
  lia.
Qed.
Lemma tight_cut es c s t f (S : name -> bool) : is_flow es c s t f -> S s = true -> S t = false ->
  (forall e, In e es -> S (fst e) = true -> S (snd e) = false -> f e = c e) ->
  (forall e, In e es -> S (fst e) = false -> S (snd e) = true -> f e = 0) -> value es t f = cut_capacity es c S.
Proof.
  intros [Hb Hn] Hs Ht H1 H2. unfold value, cut_capacity. rewrite (value_cut Hs Ht Hn).
  rewrite (zsum_ext (f := f) (h := c)). 2:{ intros e He. apply filter_In in He as [He Hp]. apply andb_true_iff in Hp as [A B]. apply negb_true_iff in B. auto. }
  rewrite (zsum_zero (f := f)); [lia|]. intros e He. apply filter_In in He as [He Hp]. apply andb_true_iff in Hp as [A B]. apply negb_true_iff in A. auto.
Qed.
Lemma value_le es c s t f : is_flow es c s t f -> value es t f <= zsum c es.
Proof.
  intros [Hb _]. unfold value, net. rewrite inflow_eq, outflow_eq.
  assert (zsum (fun e => if eqb (snd e) t then f e else 0) es <= zsum c es) by (apply zsum_le; intros e He; specialize (Hb e He); destruct (eqb (snd e) t); lia).
  assert (0 <= zsum (fun e => if eqb (fst e) t then f e else 0) es) by (apply zsum_nonneg; intros e He; specialize (Hb e He); destruct (eqb (fst e) t); lia).
  lia.
Qed.
Lemma net_ext es f h x : (forall e, In e es -> f e = h e) -> net es f x = net es h x.
Proof. intros H. unfold net. rewrite !inflow_eq, !outflow_eq. f_equal; apply zsum_ext; intros e He; rewrite (H e He); reflexivity. Qed.
Lemma net_zero es x : net es (fun _ => 0) x = 0.
Proof. unfold net. rewrite inflow_eq, outflow_eq, !zsum_zero; [reflexivity|..]; intros e _; [destruct (eqb (fst e) x)|destruct (eqb (snd e) x)]; reflexivity. Qed.
Lemma is_flow_ext es c c' s t f f' : (forall e, In e es -> f e = f' e) -> (forall e, In e es -> c e = c' e) -> is_flow es c s t f -> is_flow es c' s t f'.
Proof. intros Hf Hc [H1 H2]. constructor; [intros e He; rewrite <- Hf, <- Hc by exact He; apply H1, He|]. intros x A B. rewrite <- (net_ext x Hf). apply H2; assumption. Qed.

(* changing the flow of one arc *)
Definition ind (x y : name) : Z := if eqb x y then 1 else 0.
Lemma net_change es f h e d x : NoDup es -> In e es -> (forall e', In e' es -> h e' = if eqb e' e then f e' + d else f e') ->
  net es h x = net es f x + d * (ind (snd e) x - ind (fst e) x).
Proof.
  intros Hn He Hh. unfold net. rewrite !inflow_eq, !outflow_eq.
  rewrite (zsum_ext (l := es) (f := fun e0 => if eqb (snd e0) x then h e0 else 0) (h := fun e0 => (if eqb (snd e0) x then f e0 else 0) + (if eqb e0 e then d * ind (snd e) x else 0))).
  2:{ intros e' He'. rewrite (Hh e' He'). unfold ind. destruct (eqb_spec e' e) as [->|Hne]; destruct (eqb _ x); lia. }
  rewrite (zsum_ext (l := es) (f := fun e0 => if eqb (fst e0) x then h e0 else 0) (h := fun e0 => (if eqb (fst e0) x then f e0 else 0) + (if eqb e0 e then d * ind (fst e) x else 0))).
  2:{ intros e' He'. rewrite (Hh e' He'). unfold ind. destruct (eqb_spec e' e) as [->|Hne]; destruct (eqb _ x); lia. }
  rewrite !zsum_add, !zsum_delta by exact Hn. assert (mem e es = true) as -> by (apply mem_In; exact He). lia.
Qed.
