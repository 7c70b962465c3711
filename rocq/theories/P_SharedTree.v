(* Traversals of trees that share a stack (M_Shared.v). *)
From Verif Require Import Py Util M_Graph P_Graph M_Tree P_Attr Spec S_Frontier P_SearchAbs P_Search P_SearchInd P_SearchTop P_SearchThm.
From Verif Require Import M_Shared.
From Verif Require M_Dfs.
Set Implicit Arguments. Unset Strict Implicit.
Local Open Scope string_scope. Local Open Scope list_scope.

(* m, with the stack k in the state, does what m' does; E says what the stack is when an exception is raised *)
Definition simt {A A'} (P : A -> A' -> tree -> list item -> Prop) (E : exn -> list item -> Prop) (t : tree) (k : list item) (m : M (tree * list item) A) (m' : M tree A') : Prop :=
  match m' t with
  | (t', Ok a') => exists a k', m (t, k) = ((t', k'), Ok a) /\ P a a' t' k'
  | (t', Err e) => exists k', m (t, k) = ((t', k'), Err e) /\ E e k'
  end.
Section R.
  Variable E : exn -> list item -> Prop.
  Lemma simt_ret A A' (P : A -> A' -> tree -> list item -> Prop) t k a a' : P a a' t k -> simt P E t k (ret a) (ret a').
  Proof. intros H. exists a, k. split; [reflexivity|assumption]. Qed.
  Lemma simt_fail A A' (P : A -> A' -> tree -> list item -> Prop) t k e : E e k -> simt P E t k (fail e) (fail e).
  Proof. exists k. split; [reflexivity|assumption]. Qed.
  Lemma simt_bind A A' B B' (P : A -> A' -> tree -> list item -> Prop) (P' : B -> B' -> tree -> list item -> Prop) t k m m' f f' :
    simt P E t k m m' -> (forall a a' t' k', P a a' t' k' -> simt P' E t' k' (f a) (f' a')) -> simt P' E t k (bind m f) (bind m' f').
  Proof.
    unfold simt, bind. intros H H2. destruct (m' t) as [h [a'|e]].
    - destruct H as (a & q' & H & Hp). rewrite H. apply H2, Hp.
    - destruct H as (q' & H & He). exists q'. rewrite H. auto.
  Qed.
  Lemma simt_onT A B B' (P : B -> B' -> tree -> list item -> Prop) t k (m : M tree A) f f' :
    (forall t' e, m t = (t', Err e) -> E e k) ->
    (forall a t', m t = (t', Ok a) -> simt P E t' k (f a) (f' a)) -> simt P E t k (bind (onT m) f) (bind m f').
  Proof.
    intros He H. apply simt_bind with (P := fun a a' t' k' => a = a' /\ k' = k /\ m t = (t', Ok a)).
    - unfold simt, onT. cbn [fst snd]. destruct (m t) as [h [a|e]]; [exists a, k; auto|exists k; split; [reflexivity|apply (He h e eq_refl)]].
    - intros a a' t' k' (-> & -> & Em). apply H, Em.
  Qed.
  Lemma simt_map A A' B' (P : A -> A' -> tree -> list item -> Prop) (P' : A -> B' -> tree -> list item -> Prop) t k m m' (f : A' -> B') :
    simt P E t k m m' -> (forall a a' t' k', P a a' t' k' -> P' a (f a') t' k') -> simt P' E t k m (bind m' (fun a => ret (f a))).
  Proof.
    unfold simt, bind. intros H H2. destruct (m' t) as [h [a'|e]]; [|exact H]. destruct H as (a & q' & H & Hp). exists a, q'. auto.
  Qed.
  Lemma simt_setk B B' (P : B -> B' -> tree -> list item -> Prop) t k f x m' : simt P E t (f k) x m' -> simt P E t k (setk f ;; x) m'.
  Proof. intros H. exact H. Qed.
End R.

Lemma forM_push l t k : forM_ l (fun n => setk (cons (IName n))) (t, k) = ((t, fold_left (put false) (map IName l) k), Ok tt).
Proof. unfold forM_. revert k. induction l as [|n l IH]; intros k; [reflexivity|]. cbn [foldM map fold_left]. unfold bind at 1. cbn [setk modify fst snd]. apply IH. Qed.

Lemma drain_cons f visit t c k : drain (S f) visit (t, c :: k) = match visit c (t, k) with (s, Ok _) => drain f visit s | (s, Err e) => (s, Err e) end.
Proof. unfold drain. cbn [loop]. unfold bind at 1 2 3 4. cbn [gets setk modify fst snd]. destruct (visit c (t, k)) as [s [u|e]]; reflexivity. Qed.
Definition emptied (e : exn) (k : list item) : Prop := e <> OutOfFuel -> k = [].
(* a loop that raises only in its first turn, or on elements it did not push *)
Lemma drain_sim (I : list item -> tree -> Prop) (visit : item -> M (tree * list item) unit) (body : list item -> M tree (list item + unit)) fuel :
  (forall t, body [] t = (t, Ok (inr tt))) ->
  (forall c k t, I (c :: k) t -> simt (fun _ r t' k' => r = inl k' /\ I k' t') emptied t k (visit c) (body (c :: k))) ->
  forall k t, I k t -> simt (fun _ _ _ k' => k' = []) emptied t k (drain fuel visit) (loop fuel body k).
Proof.
  intros H0 H1. induction fuel as [|f IH]; intros k t Hi; [apply simt_fail; intros []; reflexivity|].
  destruct k as [|c k].
  - unfold simt. cbn [loop]. unfold bind at 1. rewrite H0. exists tt, []. split; reflexivity.
  - specialize (H1 c k t Hi). unfold simt in *. rewrite drain_cons. cbn [loop]. unfold bind at 1. destruct (body (c :: k) t) as [t' [r|e]].
    + destruct H1 as (u & k' & Hv & -> & Hi'). rewrite Hv. exact (IH k' t' Hi').
    + destruct H1 as (k' & Hv & He). exists k'. split; [|assumption]. rewrite Hv. reflexivity.
Qed.
Lemma drain_empty (visit : item -> M (tree * list item) unit) fuel : forall t k t' k' u, drain fuel visit (t, k) = ((t', k'), Ok u) -> k' = [].
Proof.
  induction fuel as [|f IH]; intros t k t' k' u; [discriminate|].
  destruct k as [|c k]; [intros [= _ <-]; reflexivity|]. rewrite drain_cons.
  destruct (visit c (t, k)) as [[t1 k1] [u'|e]]; [|discriminate]. apply IH.
Qed.

(* all items below the first are names of nodes *)
Definition names (g : graph) (k : list item) : Prop := forall x, In x k -> exists n, x = IName n /\ In n (get_node_list g).
Lemma fold_put l k x : In x (fold_left (put false) (map IName l) k) <-> (exists n, x = IName n /\ In n l) \/ In x k.
Proof.
  revert k. induction l as [|n l IH]; intros k; cbn [map fold_left]; [split; [auto|intros [(n & _ & [])|H]; assumption]|].
  rewrite IH. unfold put. simpl. split.
  - intros [(m & -> & H)|[<-|H]]; eauto.
  - intros [(m & -> & [->|H])|H]; eauto.
Qed.

(** Tree.traverse *)
Definition tstart (k : list item) (t : tree) : Prop := wf (t_g t) /\ (names (t_g t) k \/ exists r, k = [r]).
Lemma tree_shared fuel root t : wf (t_g t) -> simt (fun _ _ _ k' => k' = []) emptied t [] (tree_traverse_shared fuel root) (tree_traverse fuel false root).
Proof.
  intros W. unfold tree_traverse_shared, tree_traverse. apply simt_onT.
  - intros t' e. unfold root_item. destruct root; discriminate.
  - intros r t' Er. assert (t' = t) by (unfold root_item in Er; destruct root; injection Er; auto). subst t'.
    apply simt_setk. apply drain_sim with (I := tstart); [reflexivity| |split; [assumption|right; exists r; reflexivity]].
    intros c k t1 [W1 Hk]. apply simt_onT; [discriminate|]. intros [] t2 [= <-]. apply simt_onT.
    + intros t3 e He _. destruct Hk as [Hk|[r' [= _ ->]]]; [|reflexivity]. exfalso. destruct (Hk c) as (n & -> & Hn); [left; reflexivity|].
      cbn [get_children_i] in He. unfold get_children, ong, get_neighbors, nbr_list in He. cbn [t_g] in He. apply dget_keys in Hn. destruct Hn as [l Hl]. rewrite Hl in He. discriminate.
    + intros l t3 El. unfold simt. rewrite forM_push. cbn [ret]. exists tt. eexists. split; [reflexivity|]. split; [reflexivity|].
      destruct c as [n| |]; try discriminate El. cbn [get_children_i] in El. unfold get_children, ong, get_neighbors, nbr_list in El. cbn [t_g] in El.
      destruct (dget (g_nbrs (t_g t1)) n) as [l'|] eqn:Dl; [|discriminate El]. injection El as <- <-. split; [exact W1|]. left. cbn [t_g].
      intros x Hx. apply fold_put in Hx. destruct Hx as [(m & -> & Hm)|Hx].
      * exists m. split; [reflexivity|]. apply (snb_V W1) with (rev := false) (x := n). unfold snb, nbd, list_at. destruct (g_type (t_g t1)); rewrite Dl; exact Hm.
      * destruct Hk as [Hk|[r' [= _ ->]]]; [apply Hk; right; assumption|destruct Hx].
Qed.

(** BinaryTree.traverse *)
Definition bin_ok (g : graph) : Prop := forall n s, In n (dkeys (g_nodes g)) -> nattr g n (slot s) = VNone \/ exists m, nattr g n (slot s) = vname m /\ In m (dkeys (g_nodes g)).
Definition isnode (g : graph) (x : item) : Prop := exists n, (x = IName n \/ x = INode n) /\ In n (dkeys (g_nodes g)).
Definition bstart (k : list item) (t : tree) : Prop := bin_ok (t_g t) /\ ((forall x, In x k -> isnode (t_g t) x) \/ exists r, k = [r]).
Notation add c current := (v <- onT (get_child c current) ;; match v with VNone => ret tt | _ => m <- onT (as_name v) ;; setk (cons (IName m)) end).
Notation push c current q := (v <- get_child c current ;; match v with VNone => ret q | _ => m <- as_name v ;; ret (put false q (IName m)) end).
Lemma add_sim s c t k : bin_ok (t_g t) -> k = [] \/ isnode (t_g t) c ->
  simt (fun _ r t' k' => r = k' /\ t' = t /\ isnode (t_g t) c /\ forall x, In x k' -> In x k \/ isnode (t_g t) x) emptied t k (add s c) (push s c k).
Proof.
  intros B Hc. apply simt_onT.
  - intros t' e He _. destruct Hc as [Hc|(n & Hn & Hi)]; [exact Hc|]. apply dget_keys in Hi. destruct Hi as [d Hd].
    destruct Hn as [-> | ->]; cbn [get_child] in He; unfold ong, get_node_attr in He; rewrite Hd in He; discriminate.
  - intros v t' Ev. assert (G : exists n, (c = IName n \/ c = INode n) /\ In n (dkeys (g_nodes (t_g t))) /\ v = nattr (t_g t) n (slot s) /\ t' = t).
    { destruct c as [n|n|]; [| |discriminate Ev]; exists n; (split; [auto|]); cbn [get_child] in Ev; unfold ong, get_node_attr in Ev; destruct (dget (g_nodes (t_g t)) n) as [d|] eqn:Dn;
        try discriminate Ev; injection Ev as <- <-; (split; [apply dget_keys; eauto|]); (split; [unfold nattr; rewrite Dn; reflexivity|destruct t; reflexivity]). }
    destruct G as (n & Hn & Hi & -> & ->). assert (N : isnode (t_g t) c) by (exists n; auto).
    destruct (B n s Hi) as [->|(m & -> & Hm)]; [apply simt_ret; auto|].
    destruct m as [z|z]; cbn [vname]; unfold as_name; cbn [nameof lift]; (apply simt_onT; [discriminate|]); intros m t' [= <- <-]; unfold simt; cbn [ret];
      exists tt; eexists; (split; [reflexivity|]); (split; [reflexivity|]); (split; [reflexivity|]); (split; [exact N|]); intros x [<-|Hx]; auto; right; eexists; eauto.
Qed.
Lemma bin_shared fuel s display root t : bin_ok (t_g t) -> simt (fun _ _ _ k' => k' = []) emptied t [] (bin_traverse_shared fuel s display root) (bin_traverse fuel false s display root).
Proof.
  intros B. unfold bin_traverse_shared, bin_traverse. apply simt_onT; [intros t' e _ _; reflexivity|]. intros r t' Er.
  assert (t' = t) by (unfold root_item in Er; destruct root; injection Er; auto). subst t'. clear Er.
  apply simt_onT; [intros t' e _ _; reflexivity|]. intros [dsp old] t1 E1.
  assert (B1 : bin_ok (t_g t1)).
  { unfold enter_display, bind, gets in E1. destruct (dget (g_attr (t_g t)) "display") as [d|]; [|discriminate E1]. cbn [lift ret] in E1.
    destruct display as [v|]; injection E1 as <- _ _; exact B. }
  clear E1. apply simt_setk. apply simt_bind with (P := fun _ _ _ k' => k' = []).
  - apply drain_sim with (I := bstart); [reflexivity| |split; [exact B1|right; exists r; reflexivity]].
    intros c k t2 [B2 Hk]. apply simt_onT; [intros t' e; unfold show; destruct (truthy dsp); discriminate|].
    intros [] t3 E3. assert (G3 : t_g t3 = t_g t2) by (unfold show in E3; destruct (truthy dsp); injection E3 as <-; reflexivity). rewrite <- G3 in B2, Hk. clear E3.
    assert (Hc : k = [] \/ isnode (t_g t3) c) by (destruct Hk as [Hk|[r' [= _ ->]]]; [right; apply Hk; left; reflexivity|left; reflexivity]).
    eapply simt_bind; [apply add_sim; assumption|]. intros [] q t4 k' (-> & -> & Nc & H4).
    eapply simt_map; [apply add_sim; auto|]. intros [] q t4 k2 (-> & -> & _ & H5). split; [reflexivity|]. split; [assumption|]. left.
    intros x Hx. destruct (H5 x Hx) as [Hx'|]; [|assumption]. destruct (H4 x Hx') as [Hx2|]; [|assumption].
    destruct Hk as [Hk|[r' [= _ ->]]]; [apply Hk; right; assumption|destruct Hx2].
  - intros [] [] t2 k2 ->. unfold simt, onT. cbn [fst snd]. destruct (leave_display old t2) as [t3 [u|e]]; [exists u, []; auto|exists []; split; [reflexivity|intros _; reflexivity]].
Qed.
