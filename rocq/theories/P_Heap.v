(* The object model (M_Heap.v) refines the model by contents (M_Graph.v). *)
From Verif Require Import Py M_Graph M_Heap S_Heap.
Set Implicit Arguments. Unset Strict Implicit.
Local Open Scope string_scope. Local Open Scope list_scope.

(** ** Heaps *)
Lemma hset_eq {V} (h : nat -> V) a v : hset h a v a = v.
Proof. unfold hset. rewrite Nat.eqb_refl. reflexivity. Qed.
Lemma hset_ne {V} (h : nat -> V) a b v : a <> b -> hset h a v b = h b.
Proof. intros H. unfold hset. apply Nat.eqb_neq in H. rewrite H. reflexivity. Qed.

Section Contents.
  Context {K V : Type} {E : EqDec K}.
  Implicit Types (h : nat -> V) (d : dict K nat) (k : K).
  Lemma get_contents h d k : dget (contents h d) k = option_map h (dget d k).
  Proof. induction d as [|[k' a] t IH]; cbn; [reflexivity|]. eqd; [reflexivity|exact IH]. Qed.
  Lemma mem_contents h d k : dmem (contents h d) k = dmem d k.
  Proof. unfold dmem. rewrite get_contents. destruct (dget d k); reflexivity. Qed.
  Lemma set_contents h d k a : contents h (dset d k a) = dset (contents h d) k (h a).
  Proof. induction d as [|[k' b] t IH]; cbn; [reflexivity|]. eqd; [reflexivity|]. cbn. f_equal. exact IH. Qed.
  Lemma del_contents h d k : contents h (ddel d k) = ddel (contents h d) k.
  Proof. induction d as [|[k' b] t IH]; cbn; [reflexivity|]. eqd; [reflexivity|]. cbn. f_equal. exact IH. Qed.
  Lemma keys_contents h d : dkeys (contents h d) = dkeys d.
  Proof. unfold dkeys, contents. rewrite map_map. reflexivity. Qed.
  Lemma frame_contents h d a v : ~ In a (map snd d) -> contents (hset h a v) d = contents h d.
  Proof.
    intros H. unfold contents. apply map_ext_in. intros [k b] Hb. cbn [fst snd]. rewrite hset_ne; [reflexivity|].
    intros ->. apply H. apply in_map_iff. exists (k, b). auto.
  Qed.
  Lemma put_contents h d k a v : dget d k = Some a -> NoDup (map snd d) -> contents (hset h a v) d = dset (contents h d) k v.
  Proof.
    induction d as [|[k' b] t IH]; cbn [dget map snd]; [discriminate|]. intros H N. apply NoDup_cons_iff in N as [N1 N2].
    cbn. destruct (eq_dec k k') as [->|D].
    - injection H as ->. rewrite hset_eq. f_equal. apply frame_contents. exact N1.
    - rewrite hset_ne; [f_equal; apply IH; assumption|]. intros ->. apply N1. apply in_map_iff. exists (k, b). split; [reflexivity|]. apply dget_In. exact H.
  Qed.
End Contents.
Arguments contents : simpl never.
Lemma val_In {K} {E : EqDec K} (d : dict K nat) k a : dget d k = Some a -> In a (map snd d).
Proof. intros H. apply dget_In in H. apply in_map_iff. exists (k, a). auto. Qed.
Lemma vals_dset {K} {E : EqDec K} (d : dict K nat) k a b : In b (map snd (dset d k a)) -> b = a \/ In b (map snd d).
Proof. induction d as [|[k' c] t IH]; cbn; [intuition|]. eqd; cbn; intuition. Qed.
Lemma vals_ddel {K} {E : EqDec K} (d : dict K nat) k b : In b (map snd (ddel d k)) -> In b (map snd d).
Proof. induction d as [|[k' c] t IH]; cbn; [auto|]. eqd; cbn; intuition. Qed.
Lemma nodup_dset {K} {E : EqDec K} (d : dict K nat) k a : NoDup (map snd d) -> ~ In a (map snd d) -> NoDup (map snd (dset d k a)).
Proof.
  induction d as [|[k' c] t IH]; cbn; intros N H; [constructor; [auto|constructor]|]. apply NoDup_cons_iff in N as [N1 N2].
  eqd; cbn; constructor; auto. intros X. apply vals_dset in X as [->|X]; tauto.
Qed.
Lemma nodup_ddel {K} {E : EqDec K} (d : dict K nat) k : NoDup (map snd d) -> NoDup (map snd (ddel d k)).
Proof.
  induction d as [|[k' c] t IH]; cbn; intros N; [constructor|]. apply NoDup_cons_iff in N as [N1 N2].
  eqd; cbn; [exact N2|]. constructor; auto. intros X. apply vals_ddel in X. tauto.
Qed.
Lemma vals_gone {K} {E : EqDec K} (d : dict K nat) k a : NoDup (map snd d) -> dget d k = Some a -> ~ In a (map snd (ddel d k)).
Proof.
  induction d as [|[k' c] t IH]; cbn; intros N; [discriminate|]. apply NoDup_cons_iff in N as [N1 N2].
  eqd; [intros [= ->]; exact N1|]. intros H. cbn. intros [->|X]; [apply N1; exact (val_In H)|]. exact (IH N2 H X).
Qed.

(** ** Ownership: no object is referenced twice *)
Definition refs (s : ograph) := (o_type s, o_nbrs s, o_in s, o_nodes s, o_next s).
Record owns (s : ograph) : Prop := {
  ow_nbrs : NoDup (map snd (o_nbrs s));
  ow_in : NoDup (map snd (o_in s));
  ow_disj : forall a, In a (map snd (o_nbrs s)) -> ~ In a (map snd (o_in s));
  ow_nodes : NoDup (map snd (o_nodes s));
  ow_lt1 : forall a, In a (map snd (o_nbrs s)) -> a < o_next s;
  ow_lt2 : forall a, In a (map snd (o_in s)) -> a < o_next s;
  ow_lt3 : forall a, In a (map snd (o_nodes s)) -> a < o_next s }.
Lemma owns_refs s s' : refs s' = refs s -> owns s -> owns s'.
Proof. intros H [A B C D E F G]. unfold refs in H. injection H as H1 H2 H3 H4 H5. constructor; rewrite ?H1, ?H2, ?H3, ?H4, ?H5; assumption. Qed.

(* mo on objects does what mv does on contents *)
Definition conv {A B} (f : A -> B) (r : res A) : res B := match r with Ok a => Ok (f a) | Err e => Err e end.
Definition tracks {A} (mo : M ograph A) (mv : M graph A) : Prop :=
  forall s, owns s -> owns (fst (mo s)) /\ mv (graph_of s) = (graph_of (fst (mo s)), snd (mo s)).
(* and changes no reference *)
Definition still {A} (mo : M ograph A) : Prop := forall s, refs (fst (mo s)) = refs s.

Lemma tracks_bind {A B} (mo : M ograph A) (mv : M graph A) (fo : A -> M ograph B) (fv : A -> M graph B) :
  tracks mo mv -> (forall a, tracks (fo a) (fv a)) -> tracks (bind mo fo) (bind mv fv).
Proof.
  intros H1 H2 s Hs. destruct (H1 s Hs) as [O1 E1]. unfold bind. rewrite E1. destruct (mo s) as [s' [a|e]]; cbn [fst snd] in *; [|auto].
  exact (H2 a s' O1).
Qed.
Lemma tracks_ret {A} (a : A) : tracks (ret a) (ret a).
Proof. intros s Hs. split; [exact Hs|reflexivity]. Qed.
Lemma tracks_fail {A} e : tracks (@fail _ A e) (fail e).
Proof. intros s Hs. split; [exact Hs|reflexivity]. Qed.
Lemma tracks_gets {A} (f : ograph -> A) (g : graph -> A) : (forall s, g (graph_of s) = f s) -> tracks (gets f) (gets g).
Proof. intros H s Hs. split; [exact Hs|]. unfold gets. rewrite H. reflexivity. Qed.
Lemma still_bind {A B} (m : M ograph A) (f : A -> M ograph B) : still m -> (forall a, still (f a)) -> still (bind m f).
Proof. intros H1 H2 s. unfold bind. specialize (H1 s). destruct (m s) as [s' [a|e]]; cbn [fst] in *; [rewrite (H2 a s')|]; exact H1. Qed.
Lemma still_gets {A} (f : ograph -> A) : still (gets f). Proof. intros s. reflexivity. Qed.
Lemma still_ret {A} (a : A) : still (ret a). Proof. intros s. reflexivity. Qed.

(** ** The primitives *)
Lemma nbr_write s n a l : owns s -> dget (o_nbrs s) n = Some a ->
  graph_of (o_put_lists (hset (o_lists s) a l) s) = with_nbrs (graph_of s) (dset (g_nbrs (graph_of s)) n l).
Proof.
  intros H E. unfold graph_of, with_nbrs. cbn. rewrite (put_contents (o_lists s) l E (ow_nbrs H)), (@frame_contents _ _ _ (o_in s)); [reflexivity|].
  apply (ow_disj H). exact (val_In E).
Qed.
Lemma in_write s n a l : owns s -> dget (o_in s) n = Some a ->
  graph_of (o_put_lists (hset (o_lists s) a l) s) = with_in (graph_of s) (dset (g_in (graph_of s)) n l).
Proof.
  intros H E. unfold graph_of, with_in. cbn. rewrite (put_contents (o_lists s) l E (ow_in H)), (@frame_contents _ _ _ (o_nbrs s)); [reflexivity|].
  intros X. apply (ow_disj H) in X. apply X. exact (val_In E).
Qed.
Lemma t_nbr_append n m : tracks (b <- o_nbr n ;; list_append b m) (nbr_append n m).
Proof.
  intros s Hs. unfold nbr_append, nbr_list, o_nbr, bind at 1 2 3 4, list_append, modify. cbn [g_nbrs graph_of]. rewrite get_contents.
  destruct (dget (o_nbrs s) n) as [a|] eqn:E; cbn [option_map fst snd]; [|auto]. split; [eapply owns_refs; [|exact Hs]; reflexivity|].
  rewrite (nbr_write _ Hs E). reflexivity.
Qed.
Lemma t_nbr_remove n m : tracks (b <- o_nbr n ;; list_remove b m) (nbr_remove n m).
Proof.
  intros s Hs. unfold nbr_remove, nbr_list, o_nbr, bind at 1 2 3 4 5, list_remove, modify, lift. cbn [g_nbrs graph_of]. rewrite get_contents.
  destruct (dget (o_nbrs s) n) as [a|] eqn:E; cbn [option_map fst snd]; [|auto].
  destruct (lremove m (o_lists s a)) as [l|] eqn:L; cbn [fst snd ret fail]; [|auto]. split; [eapply owns_refs; [|exact Hs]; reflexivity|].
  rewrite (nbr_write _ Hs E). reflexivity.
Qed.
Lemma t_in_append n m : tracks (b <- o_inn n ;; list_append b m) (in_append n m).
Proof.
  intros s Hs. unfold in_append, in_list, in_dict, o_inn, bind, list_append, modify, lift. cbn [g_in g_type graph_of].
  destruct (o_type s); cbn [fst snd]; [|auto]. rewrite get_contents.
  destruct (dget (o_in s) n) as [a|] eqn:E; cbn [option_map fst snd ret fail]; [|auto]. split; [eapply owns_refs; [|exact Hs]; reflexivity|].
  rewrite (in_write _ Hs E). reflexivity.
Qed.
Lemma t_in_remove n m : tracks (b <- o_inn n ;; list_remove b m) (in_remove n m).
Proof.
  intros s Hs. unfold in_remove, in_list, in_dict, o_inn, bind, list_remove, modify, lift. cbn [g_in g_type graph_of].
  destruct (o_type s); cbn [fst snd]; [|auto]. rewrite get_contents.
  destruct (dget (o_in s) n) as [a|] eqn:E; cbn [option_map fst snd ret fail]; [|auto].
  destruct (lremove m (o_lists s a)) as [l|] eqn:L; cbn [fst snd ret fail]; [|auto]. split; [eapply owns_refs; [|exact Hs]; reflexivity|].
  rewrite (in_write _ Hs E). reflexivity.
Qed.
Lemma s_nbr n : still (o_nbr n). Proof. intros s. reflexivity. Qed.
Lemma s_inn n : still (o_inn n). Proof. intros s. unfold o_inn. destruct (o_type s); reflexivity. Qed.
Lemma s_append a m : still (list_append a m). Proof. intros s. reflexivity. Qed.
Lemma s_remove a m : still (list_remove a m). Proof. intros s. unfold list_remove. destruct (lremove m (o_lists s a)); reflexivity. Qed.
Lemma s_edge_del e : still (o_edge_del e). Proof. intros s. unfold o_edge_del. destruct (dmem (o_edges s) e); reflexivity. Qed.
Lemma t_edge_del e : tracks (o_edge_del e) (edge_del e).
Proof.
  intros s Hs. unfold o_edge_del, edge_del. cbn [g_edges graph_of]. destruct (dmem (o_edges s) e); cbn [fst snd]; [|auto].
  split; [|reflexivity]. eapply owns_refs; [|exact Hs]. reflexivity.
Qed.
(* loops over a list object *)
Lemma t_for (ref : ograph -> option nat) (get : graph -> list name) a bo bv :
  (forall s s', refs s' = refs s -> ref s' = ref s) ->
  (forall s, ref s = Some a -> get (graph_of s) = o_lists s a) ->
  (forall m, tracks (bo m) (bv m)) -> (forall m, still (bo m)) ->
  forall fuel i s, owns s -> ref s = Some a ->
    (owns (fst (list_for fuel i a bo s)) /\ live_for fuel i get bv (graph_of s) = (graph_of (fst (list_for fuel i a bo s)), snd (list_for fuel i a bo s))) /\
    refs (fst (list_for fuel i a bo s)) = refs s.
Proof.
  intros Hr Hg Ht Hs. induction fuel as [|f IH]; intros i s O R; [split; [split; [exact O|reflexivity]|reflexivity]|].
  assert (E : list_for (S f) i a bo s = match nth_error (o_lists s a) i with None => (s, Ok tt) | Some x => bind (bo x) (fun _ => list_for f (S i) a bo) s end)
    by (cbn [list_for]; unfold bind at 1, gets; destruct (nth_error (o_lists s a) i); reflexivity).
  assert (F : live_for (S f) i get bv (graph_of s) = match nth_error (o_lists s a) i with None => (graph_of s, Ok tt) | Some x => bind (bv x) (fun _ => live_for f (S i) get bv) (graph_of s) end)
    by (cbn [live_for]; unfold bind at 1, gets; rewrite (Hg s R); destruct (nth_error (o_lists s a) i); reflexivity).
  rewrite E, F. clear E F. destruct (nth_error (o_lists s a) i) as [x|]; [|cbn; auto].
  pose proof (Ht x s O) as [O1 E1]. pose proof (Hs x s) as S1. unfold bind. rewrite E1. destruct (bo x s) as [s' [u|e]]; cbn [fst snd] in *; [|auto].
  destruct (IH (S i) s' O1 ltac:(rewrite (Hr s s' S1); exact R)) as [X Y]. split; [exact X|]. congruence.
Qed.

(** ** The methods *)
Lemma fresh_not (s : ograph) (P : owns s) : ~ In (o_next s) (map snd (o_nbrs s)) /\ ~ In (o_next s) (map snd (o_in s)) /\ ~ In (o_next s) (map snd (o_nodes s)).
Proof. repeat split; intros H; [apply (ow_lt1 P) in H|apply (ow_lt2 P) in H|apply (ow_lt3 P) in H]; lia. Qed.
Lemma t_add_node n a : tracks (o_add_node n a ;; ret tt) (add_node n a).
Proof.
  intros s Hs. destruct (fresh_not Hs) as (F1 & F2 & F3).
  assert (L1 := ow_lt1 Hs). assert (L2 := ow_lt2 Hs). assert (L3 := ow_lt3 Hs).
  unfold add_node, o_add_node. cbn [g_nbrs graph_of]. rewrite mem_contents. unfold bind. destruct (dmem (o_nbrs s) n) eqn:D; [split; [exact Hs|reflexivity]|].
  destruct (o_type s) eqn:T; unfold new_list, new_node, modify, ret; cbn [fst snd g_type graph_of with_nbrs]; rewrite T.
  - split.
    + constructor; cbn.
      * apply nodup_dset; [apply Hs|exact F1].
      * apply nodup_dset; [apply Hs|]. intros H. apply L2 in H. lia.
      * intros x H H'. apply vals_dset in H, H'. destruct H as [->|H], H' as [H'|H']; [lia|tauto|subst x; apply L1 in H; lia|exact (ow_disj Hs H H')].
      * apply nodup_dset; [apply Hs|]. intros H. apply L3 in H. lia.
      * intros x H. apply vals_dset in H as [->|H]; [lia|]. apply L1 in H. lia.
      * intros x H. apply vals_dset in H as [->|H]; [lia|]. apply L2 in H. lia.
      * intros x H. apply vals_dset in H as [->|H]; [lia|]. apply L3 in H. lia.
    + f_equal. unfold graph_of, with_nbrs, with_in, with_nodes. cbn. rewrite T, !set_contents. rewrite !hset_eq.
      rewrite (@hset_ne _ _ (S (o_next s)) (o_next s)) by lia. rewrite !hset_eq.
      rewrite !frame_contents by (assumption || (intros H; (apply L1 in H || apply L2 in H || apply L3 in H); lia)). reflexivity.
  - split.
    + constructor; cbn.
      * apply nodup_dset; [apply Hs|exact F1].
      * apply Hs.
      * intros x H. apply vals_dset in H as [->|H]; [exact F2|exact (ow_disj Hs H)].
      * apply nodup_dset; [apply Hs|]. intros H. apply L3 in H. lia.
      * intros x H. apply vals_dset in H as [->|H]; [lia|]. apply L1 in H. lia.
      * intros x H. apply L2 in H. lia.
      * intros x H. apply vals_dset in H as [->|H]; [lia|]. apply L3 in H. lia.
    + f_equal. unfold graph_of, with_nbrs, with_in, with_nodes. cbn. rewrite T, !set_contents. rewrite !hset_eq.
      rewrite !frame_contents by (assumption || (intros H; (apply L1 in H || apply L2 in H || apply L3 in H); lia)). reflexivity.
Qed.
Lemma tracks_ext {A} (mo mo' : M ograph A) (mv mv' : M graph A) : (forall s, mo s = mo' s) -> (forall g, mv g = mv' g) -> tracks mo' mv' -> tracks mo mv.
Proof. intros H H' T s Hs. rewrite H, H'. exact (T s Hs). Qed.
Lemma bind_bind {S A B C} (m : M S A) (f : A -> M S B) (k : B -> M S C) s : bind (bind m f) k s = bind m (fun a => bind (f a) k) s.
Proof. unfold bind. destruct (m s) as [s' [a|e]]; reflexivity. Qed.
Lemma tracks_step {X A B} (o : M ograph X) (f : X -> M ograph A) (mv : M graph A) (ko : A -> M ograph B) (kv : A -> M graph B) :
  tracks (bind o f) mv -> (forall a, tracks (ko a) (kv a)) -> tracks (bind o (fun b => bind (f b) ko)) (bind mv kv).
Proof. intros H K. apply tracks_ext with (mo' := bind (bind o f) ko) (mv' := bind mv kv); [intros s; symmetry; apply bind_bind|reflexivity|]. apply tracks_bind; assumption. Qed.
Lemma tracks_nodes {A} n (fo : bool -> M ograph A) (fv : bool -> M graph A) : (forall b, tracks (fo b) (fv b)) ->
  tracks (d <- gets o_nodes ;; fo (dmem d n)) (d <- gets g_nodes ;; fv (dmem d n)).
Proof. intros H s Hs. unfold bind at 1 2 3 4, gets. cbn [g_nodes graph_of]. rewrite mem_contents. exact (H _ s Hs). Qed.
Lemma tracks_type {A} (fo : gtype -> M ograph A) (fv : gtype -> M graph A) : (forall t, tracks (fo t) (fv t)) -> tracks (t <- gets o_type ;; fo t) (t <- gets g_type ;; fv t).
Proof. intros H. apply tracks_bind; [apply tracks_gets; reflexivity|exact H]. Qed.
Lemma tracks_edges f : tracks (modify (fun s => o_put_edges (f (o_edges s)) s)) (modify (fun g => with_edges g (f (g_edges g)))).
Proof. intros s Hs. split; [|reflexivity]. eapply owns_refs; [|exact Hs]. reflexivity. Qed.

Lemma t_add_edge n m a : tracks (o_add_edge n m a) (add_edge n m a).
Proof.
  intros s Hs. unfold o_add_edge, add_edge. cbn [g_edges g_type graph_of]. destruct (dmem (o_edges s) (n, m)); [split; [exact Hs|reflexivity]|].
  destruct (match o_type s with Directed => false | Undirected => dmem (o_edges s) (m, n) end); [split; [exact Hs|reflexivity]|].
  revert s Hs. apply tracks_bind; [exact (tracks_edges (fun d => dset d (n, m) (dupdate [] a)))|intros _].
  apply (@tracks_nodes unit n (fun b => (if b then ret tt else o_add_node n [] ;; ret tt) ;; _) (fun b => (if b then ret tt else add_node n []) ;; _)). intros b.
  apply tracks_bind; [destruct b; [apply tracks_ret|apply t_add_node]|intros _].
  apply (@tracks_nodes unit m (fun b => (if b then ret tt else o_add_node m [] ;; ret tt) ;; _) (fun b => (if b then ret tt else add_node m []) ;; _)). intros b'.
  apply tracks_bind; [destruct b'; [apply tracks_ret|apply t_add_node]|intros _].
  apply tracks_step; [apply t_nbr_append|intros _]. apply tracks_type. intros [|]; [apply t_in_append|apply t_nbr_append].
Qed.
Lemma t_del_edge n m : tracks (o_del_edge n m) (del_edge n m).
Proof.
  intros s Hs. unfold o_del_edge, del_edge. cbn [g_edges g_type graph_of]. destruct (o_type s).
  - destruct (dmem (o_edges s) (n, m)); [|split; [exact Hs|reflexivity]]. revert s Hs.
    apply tracks_bind; [exact (tracks_edges (fun d => ddel d (n, m)))|intros _]. apply tracks_step; [apply t_nbr_remove|intros _; apply t_in_remove].
  - destruct (dmem (o_edges s) (n, m)); [|destruct (dmem (o_edges s) (m, n)); [|split; [exact Hs|reflexivity]]]; revert s Hs.
    + apply tracks_bind; [exact (tracks_edges (fun d => ddel d (n, m)))|intros _]. apply tracks_step; [apply t_nbr_remove|intros _; apply t_nbr_remove].
    + apply tracks_bind; [exact (tracks_edges (fun d => ddel d (m, n)))|intros _]. apply tracks_step; [apply t_nbr_remove|intros _; apply t_nbr_remove].
Qed.
Lemma t_set_node_attr n a v : tracks (o_set_node_attr n a v) (set_node_attr n a v).
Proof.
  intros s Hs. unfold o_set_node_attr, set_node_attr, o_get_node. cbn [g_nodes graph_of]. rewrite get_contents.
  destruct (dget (o_nodes s) n) as [x|] eqn:E; cbn [option_map]; [|split; [exact Hs|reflexivity]].
  split; [eapply owns_refs; [|exact Hs]; reflexivity|]. cbn. unfold graph_of, with_nodes. cbn.
  rewrite (put_contents (o_objs s) _ E (ow_nodes Hs)). reflexivity.
Qed.
Lemma t_set_edge_attr n m a v : tracks (o_set_edge_attr n m a v) (set_edge_attr n m a v).
Proof.
  intros s Hs. unfold o_set_edge_attr, set_edge_attr. cbn [g_edges g_type graph_of].
  destruct (dget (o_edges s) (n, m)); [split; [eapply owns_refs; [|exact Hs]; reflexivity|reflexivity]|].
  destruct (o_type s); [split; [exact Hs|reflexivity]|]. destruct (dget (o_edges s) (m, n)); split; try exact Hs; try reflexivity.
  eapply owns_refs; [|exact Hs]; reflexivity.
Qed.

Lemma list_at_nbrs s n a : dget (o_nbrs s) n = Some a -> list_at (g_nbrs (graph_of s)) n = o_lists s a.
Proof. intros E. unfold list_at. cbn [g_nbrs graph_of]. rewrite get_contents, E. reflexivity. Qed.
Lemma list_at_in s n a : dget (o_in s) n = Some a -> list_at (g_in (graph_of s)) n = o_lists s a.
Proof. intros E. unfold list_at. cbn [g_in graph_of]. rewrite get_contents, E. reflexivity. Qed.
Lemma t_drop_in n : tracks
  (t <- gets o_type ;;
   match t with
   | Directed => d <- gets o_in ;; if dmem d n then modify (fun s => o_put_in (ddel (o_in s) n) s) else fail KeyError
   | Undirected => fail AttributeError
   end)
  (d <- in_dict ;; if dmem d n then modify (fun g => with_in g (ddel (g_in g) n)) else fail KeyError).
Proof.
  intros s Hs. unfold bind, gets, in_dict. cbn [g_type g_in graph_of]. destruct (o_type s); [|split; [exact Hs|reflexivity]].
  rewrite mem_contents. destruct (dmem (o_in s) n); [|split; [exact Hs|reflexivity]]. split.
  - destruct Hs as [A B C D E F G]. constructor; cbn; auto; [apply nodup_ddel; exact B|intros a X Y; apply vals_ddel in Y; exact (C a X Y)|intros a X; apply vals_ddel in X; auto].
  - unfold modify, graph_of, with_in. cbn. rewrite del_contents. reflexivity.
Qed.
Lemma tail_del n : tracks
  (modify (fun s => o_put_nbrs (ddel (o_nbrs s) n) s) ;;
   t <- gets o_type ;;
   (match t with
    | Directed => d <- gets o_in ;; if dmem d n then modify (fun s => o_put_in (ddel (o_in s) n) s) else fail KeyError
    | Undirected => fail AttributeError
    end) ;;
   d <- gets o_nodes ;;
   (if dmem d n then modify (fun s => o_put_nodes (ddel (o_nodes s) n) s) else fail KeyError))
  (modify (fun g => with_nbrs g (ddel (g_nbrs g) n)) ;;
   d <- in_dict ;;
   (if dmem d n then modify (fun g => with_in g (ddel (g_in g) n)) else fail KeyError) ;;
   nd <- gets g_nodes ;;
   (if dmem nd n then modify (fun g => with_nodes g (ddel (g_nodes g) n)) else fail KeyError)).
Proof.
  apply tracks_bind.
  { intros s Hs. split.
    - destruct Hs as [A B C D E F G]. constructor; cbn; auto; [apply nodup_ddel; exact A|intros a X; apply vals_ddel in X; auto..].
    - unfold modify, graph_of, with_nbrs. cbn. rewrite del_contents. reflexivity. }
  intros _. eapply tracks_ext; [intros s; symmetry; apply bind_bind|intros g; symmetry; apply bind_bind|].
  apply tracks_bind; [apply t_drop_in|intros _].
  apply (@tracks_nodes unit n (fun b : bool => if b then modify (fun s => o_put_nodes (ddel (o_nodes s) n) s) else fail KeyError)
           (fun b : bool => if b then modify (fun g => with_nodes g (ddel (g_nodes g) n)) else fail KeyError)).
  intros [|]; [|apply tracks_fail]. intros s Hs. split.
  - destruct Hs as [A B C D E F G]. constructor; cbn; auto; [apply nodup_ddel; exact D|intros a X; apply vals_ddel in X; auto].
  - unfold modify, graph_of, with_nodes. cbn. rewrite del_contents. reflexivity.
Qed.
Lemma s_type {A} (f : gtype -> M ograph A) : (forall t, still (f t)) -> still (t <- gets o_type ;; f t).
Proof. intros H. apply still_bind; [apply still_gets|exact H]. Qed.
Lemma s_nbr_remove n m : still (b <- o_nbr n ;; list_remove b m).
Proof. apply still_bind; [apply s_nbr|intros b; apply s_remove]. Qed.
Lemma s_in_remove n m : still (b <- o_inn n ;; list_remove b m).
Proof. apply still_bind; [apply s_inn|intros b; apply s_remove]. Qed.
Lemma refs_nbrs s s' n : refs s' = refs s -> dget (o_nbrs s') n = dget (o_nbrs s) n.
Proof. unfold refs. congruence. Qed.
Lemma refs_in s s' n : refs s' = refs s -> dget (o_in s') n = dget (o_in s) n.
Proof. unfold refs. congruence. Qed.

(* the two loops of del_node *)
Definition del_out (n m : name) : M ograph unit :=
  o_edge_del (n, m) ;; t <- gets o_type ;; match t with Undirected => b <- o_nbr m ;; list_remove b n | Directed => b <- o_inn m ;; list_remove b n end.
Definition del_inn (n m : name) : M ograph unit := o_edge_del (m, n) ;; b <- o_nbr m ;; list_remove b n.
Lemma s_del_out n m : still (del_out n m).
Proof. apply still_bind; [apply s_edge_del|intros _]. apply s_type. intros [|]; [apply s_in_remove|apply s_nbr_remove]. Qed.
Lemma s_del_inn n m : still (del_inn n m).
Proof. apply still_bind; [apply s_edge_del|intros _]. apply s_nbr_remove. Qed.
Lemma t_del_out n m : tracks (del_out n m) (edge_del (n, m) ;; t <- gets g_type ;; match t with Undirected => nbr_remove m n | Directed => in_remove m n end).
Proof. apply tracks_bind; [apply t_edge_del|intros _]. apply tracks_type. intros [|]; [apply t_in_remove|apply t_nbr_remove]. Qed.
Lemma t_del_inn n m : tracks (del_inn n m) (edge_del (m, n) ;; nbr_remove m n).
Proof. apply tracks_bind; [apply t_edge_del|intros _]. apply t_nbr_remove. Qed.
Definition out_loop (n : name) : M ograph unit := a <- o_nbr n ;; l <- gets (fun s => o_lists s a) ;; list_for (S (length l)) 0 a (del_out n).
Definition in_loop (n : name) : M ograph unit :=
  t <- gets o_type ;;
  match t with
  | Directed => a <- o_inn n ;; l <- gets (fun s => o_lists s a) ;; list_for (S (length l)) 0 a (del_inn n)
  | Undirected => ret tt
  end.
Lemma t_out_loop n s : owns s -> dmem (o_nbrs s) n = true ->
  (owns (fst (out_loop n s)) /\
   live_for (S (length (list_at (g_nbrs (graph_of s)) n))) 0 (fun g => list_at (g_nbrs g) n)
     (fun m => edge_del (n, m) ;; t <- gets g_type ;; match t with Undirected => nbr_remove m n | Directed => in_remove m n end) (graph_of s) =
   (graph_of (fst (out_loop n s)), snd (out_loop n s))) /\ refs (fst (out_loop n s)) = refs s.
Proof.
  intros Hs D. unfold dmem in D. destruct (dget (o_nbrs s) n) as [a|] eqn:E; [|discriminate].
  assert (X : out_loop n s = list_for (S (length (o_lists s a))) 0 a (del_out n) s) by (unfold out_loop, bind at 1, o_nbr; rewrite E; reflexivity).
  rewrite X, (list_at_nbrs E). apply (@t_for (fun s => dget (o_nbrs s) n)); auto; [intros u u' H; exact (refs_nbrs n H)|intros u H; exact (list_at_nbrs H)|apply t_del_out|apply s_del_out].
Qed.
Lemma t_in_loop n : tracks (in_loop n)
  (t <- gets g_type ;;
   match t with
   | Directed => l <- in_list n ;; live_for (S (length l)) 0 (fun g => list_at (g_in g) n) (fun m => edge_del (m, n) ;; nbr_remove m n)
   | Undirected => ret tt
   end).
Proof.
  apply tracks_type. intros [|]; [|apply tracks_ret]. intros s Hs.
  assert (X : o_inn n s = (s, match o_type s with Directed => match dget (o_in s) n with Some a => Ok a | None => Err KeyError end | Undirected => Err AttributeError end))
    by (unfold o_inn; destruct (o_type s); reflexivity).
  assert (Y : in_list n (graph_of s) = (graph_of s, match o_type s with Directed => match dget (o_in s) n with Some a => Ok (o_lists s a) | None => Err KeyError end | Undirected => Err AttributeError end)).
  { unfold in_list, in_dict, bind. cbn [g_type g_in graph_of]. destruct (o_type s); [|reflexivity]. rewrite get_contents. destruct (dget (o_in s) n); reflexivity. }
  destruct (o_type s); [|rewrite (bind_err _ X), (bind_err _ Y); split; [exact Hs|reflexivity]].
  destruct (dget (o_in s) n) as [a|] eqn:E; [|rewrite (bind_err _ X), (bind_err _ Y); split; [exact Hs|reflexivity]].
  rewrite (bind_ok _ X), (bind_ok _ Y).
  change ((l <- gets (fun s => o_lists s a) ;; list_for (S (length l)) 0 a (del_inn n)) s) with (list_for (S (length (o_lists s a))) 0 a (del_inn n) s).
  apply (@t_for (fun s => dget (o_in s) n)); auto; [intros u u' H; exact (refs_in n H)|intros u H; exact (list_at_in H)|apply t_del_inn|apply s_del_inn].
Qed.
Lemma o_del_node_eq n s : dmem (o_nbrs s) n = true -> o_del_node n s = (out_loop n ;; in_loop n ;;
   modify (fun s => o_put_nbrs (ddel (o_nbrs s) n) s) ;;
   t <- gets o_type ;;
   (match t with
    | Directed => d <- gets o_in ;; if dmem d n then modify (fun s => o_put_in (ddel (o_in s) n) s) else fail KeyError
    | Undirected => fail AttributeError
    end) ;;
   d <- gets o_nodes ;;
   (if dmem d n then modify (fun s => o_put_nodes (ddel (o_nodes s) n) s) else fail KeyError)) s.
Proof.
  intros D. unfold o_del_node. rewrite D. cbn [negb]. unfold dmem in D. destruct (dget (o_nbrs s) n) as [a|] eqn:E; [|discriminate].
  assert (X : o_nbr n s = (s, Ok a)) by (unfold o_nbr; rewrite E; reflexivity).
  assert (Y : out_loop n s = list_for (S (length (o_lists s a))) 0 a (del_out n) s) by (unfold out_loop; rewrite (bind_ok _ X); reflexivity).
  assert (Z : forall K : unit -> M ograph unit, bind (out_loop n) K s = bind (list_for (S (length (o_lists s a))) 0 a (del_out n)) K s)
    by (intros K; unfold bind; rewrite Y; reflexivity).
  rewrite Z, (bind_ok _ X). reflexivity.
Qed.
Lemma t_del_node n : tracks (o_del_node n) (del_node n).
Proof.
  intros s Hs. unfold del_node. cbn [g_nbrs graph_of]. rewrite mem_contents. destruct (dmem (o_nbrs s) n) eqn:D; cbn [negb].
  2: { unfold o_del_node. rewrite D. split; [exact Hs|reflexivity]. }
  rewrite (o_del_node_eq D). destruct (t_out_loop Hs D) as [[O1 E1] _]. cbn [g_nbrs graph_of] in E1.
  destruct (out_loop n s) as [s1 [u|e]] eqn:L; cbn [fst snd] in *; [|rewrite (bind_err _ L), (bind_err _ E1); auto].
  rewrite (bind_ok _ L), (bind_ok _ E1). clear L E1 D Hs s u. rename s1 into s. revert s O1.
  apply (@tracks_ext _ _ (in_loop n ;; (modify (fun s => o_put_nbrs (ddel (o_nbrs s) n) s) ;; t <- gets o_type ;;
     (match t with
      | Directed => d <- gets o_in ;; if dmem d n then modify (fun s => o_put_in (ddel (o_in s) n) s) else fail KeyError
      | Undirected => fail AttributeError
      end) ;;
     d <- gets o_nodes ;;
     (if dmem d n then modify (fun s => o_put_nodes (ddel (o_nodes s) n) s) else fail KeyError))) _
    ((t <- gets g_type ;;
      match t with
      | Directed => l <- in_list n ;; live_for (S (length l)) 0 (fun g => list_at (g_in g) n) (fun m => edge_del (m, n) ;; nbr_remove m n)
      | Undirected => ret tt
      end) ;;
     (modify (fun g => with_nbrs g (ddel (g_nbrs g) n)) ;;
      d <- in_dict ;;
      (if dmem d n then modify (fun g => with_in g (ddel (g_in g) n)) else fail KeyError) ;;
      nd <- gets g_nodes ;;
      (if dmem nd n then modify (fun g => with_nodes g (ddel (g_nodes g) n)) else fail KeyError)))); [reflexivity|reflexivity|].
  apply tracks_bind; [apply t_in_loop|intros _; apply tail_del].
Qed.
Lemma t_exec o : tracks (o_exec o) (exec o).
Proof.
  destruct o; cbn [o_exec exec]; [apply t_add_node|apply t_del_node|apply t_add_edge|apply t_del_edge|apply t_set_node_attr|apply t_set_edge_attr].
Qed.
Lemma owns_new ty kw : owns (o_new ty kw).
Proof. constructor; cbn; try constructor; intros; contradiction. Qed.
Lemma graph_of_new ty kw : graph_of (o_new ty kw) = new_graph ty kw.
Proof. reflexivity. Qed.
Lemma t_history os : forall s, owns s -> owns (o_history s os) /\ graph_of (o_history s os) = history (graph_of s) os.
Proof.
  induction os as [|o os IH]; intros s Hs; [split; [exact Hs|reflexivity]|]. cbn [o_history history fold_left] in *.
  destruct (t_exec o Hs) as [O E]. destruct (IH _ O) as [O' E']. split; [exact O'|]. unfold o_history in E'. rewrite E', E. reflexivity.
Qed.

(** ** Which references change *)
(* every reference of a node of the graph stays, except those of node x *)
Definition keeps (x : option name) (s s' : ograph) : Prop :=
  forall n a, Some n <> x -> dget (o_nbrs s) n = Some a ->
    dget (o_nbrs s') n = Some a /\ dget (o_in s') n = dget (o_in s) n /\ dget (o_nodes s') n = dget (o_nodes s) n.
(* lists and Node objects that the graph does not refer to keep their contents *)
Definition unowned (a : nat) (s : ograph) : Prop := a < o_next s /\ ~ In a (map snd (o_nbrs s)) /\ ~ In a (map snd (o_in s)).
Definition unowned_node (x : nat) (s : ograph) : Prop := x < o_next s /\ ~ In x (map snd (o_nodes s)).
Definition leaves (s s' : ograph) : Prop :=
  (forall a, unowned a s -> unowned a s' /\ o_lists s' a = o_lists s a) /\
  (forall x, unowned_node x s -> unowned_node x s' /\ o_objs s' x = o_objs s x).
Definition cares (x : option name) (s s' : ograph) : Prop := keeps x s s' /\ leaves s s' /\ o_type s' = o_type s.
Definition careful {A} (x : option name) (m : M ograph A) : Prop := forall s, cares x s (fst (m s)).
Lemma careful_bind {A B} x (m : M ograph A) (f : A -> M ograph B) : careful x m -> (forall a, careful x (f a)) -> careful x (bind m f).
Proof.
  intros H1 H2 s. unfold bind. specialize (H1 s). destruct (m s) as [s1 [a|e]]; cbn [fst] in *; [|exact H1].
  specialize (H2 a s1). destruct (f a s1) as [s2 r]. cbn [fst] in *. destruct H1 as (K1 & [A1 B1] & T1), H2 as (K2 & [A2 B2] & T2). split; [|split; [split|congruence]].
  - intros n b Hn Hb. destruct (K1 n b Hn Hb) as (X1 & X2 & X3). destruct (K2 n b Hn X1) as (Y1 & Y2 & Y3). repeat split; congruence.
  - intros b H. destruct (A1 b H) as [H1 E1]. destruct (A2 b H1) as [H2 E2]. split; [exact H2|congruence].
  - intros b H. destruct (B1 b H) as [H1 E1]. destruct (B2 b H1) as [H2 E2]. split; [exact H2|congruence].
Qed.
Lemma careful_same x s s' : refs s' = refs s -> o_lists s' = o_lists s -> o_objs s' = o_objs s -> cares x s s'.
Proof.
  unfold refs, cares. intros H L O. injection H as T N I D X. unfold keeps, leaves, unowned, unowned_node. rewrite T, N, I, D, X, L, O. auto 10.
Qed.
Lemma careful_gets {A} x (f : ograph -> A) : careful x (gets f). Proof. intros s. apply careful_same; reflexivity. Qed.
Lemma careful_ret {A} x (a : A) : careful x (ret a). Proof. intros s. apply careful_same; reflexivity. Qed.
Lemma careful_fail {A} x e : careful x (@fail ograph A e). Proof. intros s. apply careful_same; reflexivity. Qed.
Lemma careful_edges x f : careful x (modify (fun s => o_put_edges (f (o_edges s)) s)). Proof. intros s. apply careful_same; reflexivity. Qed.
Lemma careful_edge_del x e : careful x (o_edge_del e). Proof. intros s. unfold o_edge_del. destruct (dmem (o_edges s) e); apply careful_same; reflexivity. Qed.
Lemma careful_list x s a l : In a (map snd (o_nbrs s)) \/ In a (map snd (o_in s)) ->
  cares x s (o_put_lists (hset (o_lists s) a l) s).
Proof.
  intros H. split; [|split; [split|reflexivity]].
  - intros n b _ Hb. auto.
  - intros b (X & Y & Z). split; [repeat split; assumption|]. cbn. apply hset_ne. intros <-. tauto.
  - intros b Hb. split; [exact Hb|reflexivity].
Qed.
Lemma careful_nbr {A} x n (f : nat -> M ograph A) : (forall s a, dget (o_nbrs s) n = Some a -> cares x s (fst (f a s))) -> careful x (b <- o_nbr n ;; f b).
Proof. intros H s. unfold bind, o_nbr. destruct (dget (o_nbrs s) n) as [a|] eqn:E; [exact (H s a E)|]. apply careful_same; reflexivity. Qed.
Lemma careful_inn {A} x n (f : nat -> M ograph A) : (forall s a, dget (o_in s) n = Some a -> cares x s (fst (f a s))) -> careful x (b <- o_inn n ;; f b).
Proof. intros H s. unfold bind, o_inn. destruct (o_type s) eqn:T; [|apply careful_same; reflexivity]. destruct (dget (o_in s) n) as [a|] eqn:E; [exact (H s a E)|]. apply careful_same; reflexivity. Qed.
Lemma c_nbr_append x n m : careful x (b <- o_nbr n ;; list_append b m).
Proof. apply careful_nbr. intros s a E. apply careful_list. left. exact (val_In E). Qed.
Lemma c_in_append x n m : careful x (b <- o_inn n ;; list_append b m).
Proof. apply careful_inn. intros s a E. apply careful_list. right. exact (val_In E). Qed.
Lemma c_nbr_remove x n m : careful x (b <- o_nbr n ;; list_remove b m).
Proof. apply careful_nbr. intros s a E. unfold list_remove. destruct (lremove m (o_lists s a)); [apply careful_list; left; exact (val_In E)|apply careful_same; reflexivity]. Qed.
Lemma c_in_remove x n m : careful x (b <- o_inn n ;; list_remove b m).
Proof. apply careful_inn. intros s a E. unfold list_remove. destruct (lremove m (o_lists s a)); [apply careful_list; right; exact (val_In E)|apply careful_same; reflexivity]. Qed.
Lemma careful_step {X A B} x (o : M ograph X) (f : X -> M ograph A) (k : A -> M ograph B) : careful x (bind o f) -> (forall a, careful x (k a)) -> careful x (bind o (fun b => bind (f b) k)).
Proof. intros H K s. rewrite <- (bind_bind o f k s). exact (careful_bind H K s). Qed.
Lemma c_for x a body : (forall m, careful x (body m)) -> forall fuel i, careful x (list_for fuel i a body).
Proof.
  intros H. induction fuel as [|f IH]; intros i; [apply careful_fail|]. cbn [list_for]. apply careful_bind; [apply careful_gets|]. intros l.
  destruct (nth_error l i); [|apply careful_ret]. apply careful_bind; [apply H|intros _; apply IH].
Qed.
Lemma c_add_node x n a : careful x (o_add_node n a ;; ret tt).
Proof.
  intros s. unfold o_add_node, bind. destruct (dmem (o_nbrs s) n) eqn:D; [apply careful_same; reflexivity|].
  assert (N : forall k b, dget (o_nbrs s) k = Some b -> n <> k) by (intros k b H ->; unfold dmem in D; rewrite H in D; discriminate).
  destruct (o_type s) eqn:T; unfold new_list, new_node, modify, ret; cbn [fst snd].
  - split; [|split; [split|exact T || reflexivity]].
    + intros k b _ Hb. cbn. pose proof (N k b Hb). rewrite !dget_dset_ne by assumption. auto.
    + intros b (X & Y & Z). cbn. split; [|rewrite !hset_ne by lia; reflexivity]. repeat split; cbn; [lia|intros W; apply vals_dset in W as [W|W]; [lia|tauto]..].
    + intros b (X & Y). cbn. split; [|rewrite !hset_ne by lia; reflexivity]. split; cbn; [lia|intros W; apply vals_dset in W as [W|W]; [lia|tauto]].
  - split; [|split; [split|exact T || reflexivity]].
    + intros k b _ Hb. cbn. pose proof (N k b Hb). rewrite !dget_dset_ne by assumption. auto.
    + intros b (X & Y & Z). cbn. split; [|rewrite !hset_ne by lia; reflexivity]. repeat split; cbn; [lia|intros W; apply vals_dset in W as [W|W]; [lia|tauto]|exact Z].
    + intros b (X & Y). cbn. split; [|rewrite !hset_ne by lia; reflexivity]. split; cbn; [lia|intros W; apply vals_dset in W as [W|W]; [lia|tauto]].
Qed.
Lemma c_add_edge x n m a : careful x (o_add_edge n m a).
Proof.
  intros s. unfold o_add_edge. destruct (dmem (o_edges s) (n, m)); [apply careful_same; reflexivity|].
  destruct (match o_type s with Directed => false | Undirected => dmem (o_edges s) (m, n) end); [apply careful_same; reflexivity|].
  revert s. apply careful_bind; [exact (@careful_edges x (fun d => dset d (n, m) (dupdate [] a)))|intros _].
  apply careful_bind; [apply careful_gets|intros d]. apply careful_bind; [destruct (dmem d n); [apply careful_ret|apply c_add_node]|intros _].
  apply careful_bind; [apply careful_gets|intros d']. apply careful_bind; [destruct (dmem d' m); [apply careful_ret|apply c_add_node]|intros _].
  apply careful_step; [apply c_nbr_append|intros _]. apply careful_bind; [apply careful_gets|]. intros [|]; [apply c_in_append|apply c_nbr_append].
Qed.
Lemma c_del_edge x n m : careful x (o_del_edge n m).
Proof.
  intros s. unfold o_del_edge. destruct (o_type s).
  - destruct (dmem (o_edges s) (n, m)); [|apply careful_same; reflexivity]. revert s.
    apply careful_bind; [exact (@careful_edges x (fun d => ddel d (n, m)))|intros _]. apply careful_step; [apply c_nbr_remove|intros _; apply c_in_remove].
  - destruct (dmem (o_edges s) (n, m)); [|destruct (dmem (o_edges s) (m, n)); [|apply careful_same; reflexivity]]; revert s.
    + apply careful_bind; [exact (@careful_edges x (fun d => ddel d (n, m)))|intros _]. apply careful_step; [apply c_nbr_remove|intros _; apply c_nbr_remove].
    + apply careful_bind; [exact (@careful_edges x (fun d => ddel d (m, n)))|intros _]. apply careful_step; [apply c_nbr_remove|intros _; apply c_nbr_remove].
Qed.
Lemma c_del_out x n m : careful x (del_out n m).
Proof. apply careful_bind; [apply careful_edge_del|intros _]. apply careful_bind; [apply careful_gets|]. intros [|]; [apply c_in_remove|apply c_nbr_remove]. Qed.
Lemma c_del_inn x n m : careful x (del_inn n m).
Proof. apply careful_bind; [apply careful_edge_del|intros _]. apply c_nbr_remove. Qed.
Lemma c_out_loop x n : careful x (out_loop n).
Proof. apply careful_bind; [intros s; apply careful_same; reflexivity|]. intros a. apply careful_bind; [apply careful_gets|]. intros l. apply c_for. apply c_del_out. Qed.
Lemma c_in_loop x n : careful x (in_loop n).
Proof.
  apply careful_bind; [apply careful_gets|]. intros [|]; [|apply careful_ret]. apply careful_bind; [intros s; unfold o_inn; destruct (o_type s) eqn:T; apply careful_same; reflexivity|].
  intros a. apply careful_bind; [apply careful_gets|]. intros l. apply c_for. apply c_del_inn.
Qed.
Lemma c_del_nbrs n : careful (Some n) (modify (fun s => o_put_nbrs (ddel (o_nbrs s) n) s)).
Proof.
  intros s. split; [|split; [split|reflexivity]]; cbn.
  - intros k a Hk Ha. cbn. rewrite dget_ddel_ne by congruence. auto.
  - intros a (X & Y & Z). split; [|reflexivity]. repeat split; cbn; auto. intros W. apply vals_ddel in W. tauto.
  - intros a H. split; [exact H|reflexivity].
Qed.
Lemma c_del_in n : careful (Some n) (modify (fun s => o_put_in (ddel (o_in s) n) s)).
Proof.
  intros s. split; [|split; [split|reflexivity]]; cbn.
  - intros k a Hk Ha. cbn. rewrite dget_ddel_ne by congruence. auto.
  - intros a (X & Y & Z). split; [|reflexivity]. repeat split; cbn; auto. intros W. apply vals_ddel in W. tauto.
  - intros a H. split; [exact H|reflexivity].
Qed.
Lemma c_del_nodes n : careful (Some n) (modify (fun s => o_put_nodes (ddel (o_nodes s) n) s)).
Proof.
  intros s. split; [|split; [split|reflexivity]]; cbn.
  - intros k a Hk Ha. cbn. rewrite dget_ddel_ne by congruence. auto.
  - intros a H. split; [exact H|reflexivity].
  - intros a (X & Y). split; [|reflexivity]. split; cbn; auto. intros W. apply vals_ddel in W. tauto.
Qed.
Lemma c_del_node n : careful (Some n) (o_del_node n).
Proof.
  intros s. destruct (dmem (o_nbrs s) n) eqn:D; [|unfold o_del_node; rewrite D; apply careful_same; reflexivity].
  rewrite (o_del_node_eq D). revert s D. intros s _. revert s.
  apply careful_bind; [apply c_out_loop|intros _]. apply careful_bind; [apply c_in_loop|intros _]. apply careful_bind; [apply c_del_nbrs|intros _].
  apply careful_bind; [apply careful_gets|intros t]. apply careful_bind.
  - destruct t; [|apply careful_fail]. apply careful_bind; [apply careful_gets|]. intros d. destruct (dmem d n); [apply c_del_in|apply careful_fail].
  - intros _. apply careful_bind; [apply careful_gets|]. intros d. destruct (dmem d n); [apply c_del_nodes|apply careful_fail].
Qed.
Lemma c_set_node_attr x n a v : careful x (o_set_node_attr n a v).
Proof.
  intros s. unfold o_set_node_attr, o_get_node. destruct (dget (o_nodes s) n) as [y|] eqn:E; [|apply careful_same; reflexivity].
  split; [|split; [split|reflexivity]]; cbn.
  - intros k b _ Hb. auto.
  - intros b H. split; [exact H|reflexivity].
  - intros b (X & Y). split; [split; assumption|]. cbn. apply hset_ne. intros <-. apply Y. exact (val_In E).
Qed.
Lemma c_set_edge_attr x n m a v : careful x (o_set_edge_attr n m a v).
Proof.
  intros s. unfold o_set_edge_attr. destruct (dget (o_edges s) (n, m)); [apply careful_same; reflexivity|].
  destruct (o_type s) eqn:T; [apply careful_same; reflexivity|]. destruct (dget (o_edges s) (m, n)); apply careful_same; reflexivity.
Qed.
Lemma c_exec x o : (forall n, o = ODelNode n -> x = Some n) -> careful x (o_exec o).
Proof.
  intros H. destruct o; cbn [o_exec]; [apply c_add_node|rewrite (H _ eq_refl); apply c_del_node|apply c_add_edge|apply c_del_edge|apply c_set_node_attr|apply c_set_edge_attr].
Qed.
(* one node over a history in which it is not deleted *)
Lemma history_keeps x : forall os s a, ~ In (ODelNode x) os -> dget (o_nbrs s) x = Some a ->
  dget (o_nbrs (o_history s os)) x = Some a /\ dget (o_in (o_history s os)) x = dget (o_in s) x /\ dget (o_nodes (o_history s os)) x = dget (o_nodes s) x /\
  o_type (o_history s os) = o_type s.
Proof.
  induction os as [|o os IH]; intros s a H E; [auto|]. cbn [o_history fold_left]. unfold o_history in IH.
  assert (C : keeps (match o with ODelNode n => Some n | _ => None end) s (fst (o_exec o s)) /\ o_type (fst (o_exec o s)) = o_type s).
  { destruct (@c_exec (match o with ODelNode n => Some n | _ => None end) o ltac:(intros n ->; reflexivity) s) as (K & _ & T). auto. }
  destruct C as [C T]. destruct (C x a) as (X1 & X2 & X3); [|exact E|].
  { destruct o; try discriminate. intros [= <-]. apply H. left. reflexivity. }
  destruct (IH (fst (o_exec o s)) a) as (Y1 & Y2 & Y3 & Y4); [intros Y; apply H; right; exact Y|exact X1|]. repeat split; congruence.
Qed.
Lemma history_leaves : forall os s, leaves s (o_history s os).
Proof.
  induction os as [|o os IH]; intros s; [split; auto|]. cbn [o_history fold_left]. unfold o_history in IH.
  destruct (@c_exec (match o with ODelNode n => Some n | _ => None end) o ltac:(intros n ->; reflexivity) s) as (_ & [A1 B1] & _).
  destruct (IH (fst (o_exec o s))) as [A2 B2]. split; intros b H.
  - destruct (A1 b H) as [H1 E1]. destruct (A2 b H1) as [H2 E2]. split; [exact H2|congruence].
  - destruct (B1 b H) as [H1 E1]. destruct (B2 b H1) as [H2 E2]. split; [exact H2|congruence].
Qed.
