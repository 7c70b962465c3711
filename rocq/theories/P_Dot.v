(* Proofs about Graph.to_string. *)
From Verif Require Import Py Util M_Graph P_Graph M_Flow M_Dot S_Dot.
From Coq Require Import Permutation.
Set Implicit Arguments. Unset Strict Implicit.
Local Open Scope string_scope. Local Open Scope list_scope.

Lemma append_nil_r s : (s ++ "")%string = s.
Proof. induction s as [|c t IH]; [reflexivity|]. cbn. rewrite IH. reflexivity. Qed.
Lemma append_assoc a b c : ((a ++ b) ++ c)%string = (a ++ b ++ c)%string.
Proof. induction a as [|x t IH]; [reflexivity|]. cbn. rewrite IH. reflexivity. Qed.
Lemma concat_cons sep a l : String.concat sep (a :: l) = match l with [] => a | _ => (a ++ sep ++ String.concat sep l)%string end.
Proof. destruct l; reflexivity. Qed.
Lemma concat0_cons a l : String.concat "" (a :: l) = (a ++ String.concat "" l)%string.
Proof. destruct l; cbn; [rewrite append_nil_r|]; reflexivity. Qed.
Lemma lines_cons {A} (f : A -> string) x l : lines f (x :: l) = (f x ++ lines f l)%string.
Proof. unfold lines. cbn [map]. apply concat0_cons. Qed.
Lemma join_cons x l : join (x :: l) = (x ++ join l)%string.
Proof. reflexivity. Qed.
Lemma join_app a b : join (a ++ b) = (join a ++ join b)%string.
Proof. induction a as [|x t IH]; [reflexivity|]. cbn [app]. rewrite !join_cons, IH. symmetry. apply append_assoc. Qed.
Lemma join_flat {A} (f : A -> list string) l : join (flat_map f l) = lines (fun x => join (f x)) l.
Proof. induction l as [|x t IH]; [reflexivity|]. cbn [flat_map]. rewrite join_app, lines_cons, IH. reflexivity. Qed.
Lemma lines_ext {A} (f h : A -> string) l : (forall x, In x l -> f x = h x) -> lines f l = lines h l.
Proof.
  induction l as [|x t IH]; intros H; [reflexivity|]. rewrite !lines_cons, H by (left; reflexivity). rewrite IH; [reflexivity|].
  intros y Hy. apply H. right. exact Hy.
Qed.
Lemma removelast_app_ne {A} (a b : list A) : b <> [] -> removelast (a ++ b) = a ++ removelast b.
Proof. apply removelast_app. Qed.

(** ** Statements *)
Lemma attr_pieces_ne p d : attr_pieces (p :: d) <> [].
Proof. discriminate. Qed.
Lemma join_attr_pieces d : d <> [] -> join (removelast (attr_pieces d)) = attr_text d.
Proof.
  induction d as [|p t IH]; [congruence|]. intros _. destruct t as [|q u].
  - cbn. rewrite !append_nil_r. reflexivity.
  - change (attr_pieces (p :: q :: u)) with ([fst p; "="; quote_string (str_val (snd p)); ", "] ++ attr_pieces (q :: u)).
    rewrite removelast_app by apply attr_pieces_ne. rewrite join_app, IH by discriminate.
    unfold attr_text at 2. cbn [map]. rewrite concat_cons. cbn [map]. unfold attr_text. cbn [map join fold_right]. rewrite !append_assoc. reflexivity.
Qed.
Lemma node_stmt n d : (node_to_string n d ++ ";" ++ nl)%string = node_line n d.
Proof.
  unfold node_to_string, node_line, eol. destruct d as [|p t].
  - cbn [attr_pieces flat_map app]. rewrite !join_cons. cbn [join fold_right]. unfold attr_text. cbn [map String.concat]. rewrite !append_assoc. reflexivity.
  - rewrite removelast_app by apply attr_pieces_ne. rewrite !join_app, join_attr_pieces by discriminate. rewrite !join_cons. cbn [join fold_right].
    rewrite !append_nil_r, !append_assoc. reflexivity.
Qed.
Lemma edge_stmt g e d : dget (g_edges g) e = Some d ->
  exists s, edge_to_string g e = Ok s /\ (s ++ ";" ++ nl)%string = edge_line (g_type g) e d.
Proof.
  intros H. unfold edge_to_string. rewrite H. destruct d as [|p t]; eexists; (split; [reflexivity|]); unfold edge_line, eol, connect_symbol.
  - rewrite !join_cons. cbn [join fold_right]. rewrite !append_nil_r, !append_assoc. reflexivity.
  - rewrite app_assoc. rewrite removelast_app by apply attr_pieces_ne. rewrite !join_app, join_attr_pieces by discriminate. rewrite !join_cons. cbn [join fold_right].
    rewrite !append_nil_r, !append_assoc. reflexivity.
Qed.

(** ** What an action writes *)
Definition emits (m : M dot_state unit) (ps : list string) (es : list (name * name)) : Prop :=
  forall d, m d = (mkDot (d_out d ++ ps) (d_done d ++ es), Ok tt).
Lemma emits_ret : emits (ret tt) [] [].
Proof. intros [o e]. cbn. rewrite !app_nil_r. reflexivity. Qed.
Lemma emits_put s : emits (put s) [s] [].
Proof. intros [o e]. cbn. rewrite !app_nil_r. reflexivity. Qed.
Lemma emits_processed e : emits (processed e) [] [e].
Proof. intros [o d]. cbn. rewrite !app_nil_r. reflexivity. Qed.
Lemma emits_bind m k ps es ps' es' : emits m ps es -> emits (k tt) ps' es' -> emits (bind m k) (ps ++ ps') (es ++ es').
Proof. intros A B d. unfold bind. rewrite A, B. cbn. rewrite !app_assoc. reflexivity. Qed.
Lemma emits_forM {A} (f : A -> M dot_state unit) ps es l : (forall x, In x l -> emits (f x) (ps x) (es x)) ->
  emits (forM_ l f) (flat_map ps l) (flat_map es l).
Proof.
  unfold forM_. induction l as [|x t IH]; intros H; [apply emits_ret|]. cbn [foldM flat_map]. apply emits_bind; [apply H; left; reflexivity|].
  apply IH. intros y Hy. apply H. right. exact Hy.
Qed.
Lemma flat_nil {A B} (l : list A) : flat_map (fun _ => @nil B) l = [].
Proof. induction l; auto. Qed.

Lemma emits_node g n d : dget (g_nodes g) n = Some d -> emits (put_node g n) [g_node_line g n] [].
Proof. intros H. unfold put_node, g_node_line, attrs_of. rewrite H, node_stmt. apply emits_put. Qed.
Lemma emits_edge g e : In e (dkeys (g_edges g)) -> emits (put_edge g e) [g_edge_line g e] [].
Proof.
  intros H. destruct (dget_exists H) as [d Hd]. unfold put_edge, g_edge_line, attrs_of. rewrite Hd.
  destruct (edge_stmt Hd) as (s & E & <-). intros st. unfold bind, of_res. rewrite E. apply emits_put.
Qed.
Lemma known_same a : mem a GRAPH_ATTRIBUTES = mem a known_attributes.
Proof.
  assert (H : forall l l' : list string, forallb (fun x => mem x l') l = true -> incl l l') by (intros l l' H x Hx; apply mem_In; exact (proj1 (forallb_forall _ _) H x Hx)).
  assert (H1 : incl GRAPH_ATTRIBUTES known_attributes) by (apply H; vm_compute; reflexivity).
  assert (H2 : incl known_attributes GRAPH_ATTRIBUTES) by (apply H; vm_compute; reflexivity). clear H.
  destruct (mem_spec a GRAPH_ATTRIBUTES) as [H|H], (mem_spec a known_attributes) as [H'|H']; auto; exfalso; auto.
Qed.
Lemma graph_attr_emits av : exists ps, emits (put_graph_attr av) ps [] /\ join ps = graph_attr_line av.
Proof.
  destruct av as [a v]. unfold put_graph_attr, graph_attr_line. cbn [fst snd]. rewrite known_same. destruct (mem a known_attributes); cbn [negb].
  - destruct v; eexists; (split; [eapply (@emits_bind _ _ _ [] _ []); apply emits_put|]); cbn [app]; rewrite !join_cons; cbn [join fold_right]; unfold eol;
      rewrite !append_nil_r, ?append_assoc; reflexivity.
  - exists []. split; [apply emits_ret|reflexivity].
Qed.

Definition stringy (a : string) (v : val) : Prop := (exists s, v = VS s) \/ (a = "label" /\ exists b, v = VBool b).
Lemma cluster_attr_emits av : stringy (fst av) (snd av) -> emits (put_cluster_attr av) [cluster_attr_line av] [].
Proof.
  destruct av as [a v]. unfold put_cluster_attr, cluster_attr_line, stringy. cbn [fst snd]. intros H.
  assert (E : exists s, (if Py.eqb a "label" then quote_if_necessary v else v) = VS s /\ s = (if Py.eqb a "label" then str_val (quote_if_necessary v) else raw v)).
  { destruct H as [[s ->]|[-> [b ->]]]; [destruct (Py.eqb a "label"); eexists; split; reflexivity|]. destruct b; eexists; split; reflexivity. }
  destruct E as (s & E1 & <-). rewrite E1. intros d. unfold bind, plus_str, ret. apply emits_put.
Qed.

Lemma node_attrs_emits d : (forall a v, In (a, v) d -> exists s, v = VS s) ->
  exists ps, emits (put_cluster_node_attrs d) ps [] /\ join ps = cluster_node_attrs_line d.
Proof.
  intros H. destruct d as [|p t] eqn:E.
  { exists []. split; [|reflexivity]. apply (@emits_bind _ _ [] [] [] []); [apply emits_ret|]. apply (@emits_bind _ _ [] [] [] []); apply emits_ret. }
  rewrite <- E in H. set (pc := fun av : string * val => [(fst av ++ "=" ++ raw (snd av))%string; ","]).
  assert (L : emits (forM_ d (fun av => s <- plus_str (snd av) ;; put (fst av ++ "=" ++ s)%string ;; put ",")) (flat_map pc d) []).
  { rewrite <- (flat_nil (B := name * name) d). apply emits_forM. intros [a v] Hin. destruct (H a v Hin) as [s ->]. cbn [fst snd].
    eapply (@emits_bind (put _) _ [_] [] [_] []); apply emits_put. }
  exists ((["node ["] ++ removelast (flat_map pc d)) ++ [("];" ++ nl)%string]). split.
  - assert (F : flat_map pc d <> []) by (rewrite E; discriminate). clearbody pc. rewrite <- E. clear H.
    intros [o e]. unfold put_cluster_node_attrs. destruct d as [|p' t'] eqn:E'; [discriminate|]. rewrite <- E' in *.
    unfold bind at 1. rewrite (emits_put _ _). cbn [d_out d_done].
    unfold bind at 1. rewrite L. cbn [d_out d_done]. unfold unput, put, modify, bind. cbn [d_out d_done]. rewrite !app_nil_r. f_equal. f_equal.
    rewrite removelast_app by exact F. rewrite <- !app_assoc. reflexivity.
  - rewrite join_app. cbn [app]. rewrite join_cons.
    assert (J : forall d, d <> [] -> join (removelast (flat_map pc d)) = String.concat "," (map (fun p => (fst p ++ "=" ++ raw (snd p))%string) d)).
    { clear. induction d as [|p t IH]; [congruence|]. intros _. destruct t as [|q u].
      - cbn. rewrite !append_nil_r. reflexivity.
      - cbn [flat_map]. rewrite removelast_app by discriminate. rewrite join_app. cbn [flat_map] in IH. rewrite IH by discriminate.
        cbn [map]. rewrite (concat_cons "," (fst p ++ _)%string). unfold pc. cbn [join fold_right]. rewrite ?append_nil_r, ?append_assoc. reflexivity. }
    rewrite J by (rewrite E; discriminate). rewrite E. unfold cluster_node_attrs_line, eol. cbn [join fold_right]. rewrite ?append_nil_r, ?append_assoc. reflexivity.
Qed.

(** ** Clusters *)
Definition inner_edges (g : graph) (c : cluster) : list (name * name) :=
  filter (fun e => check_edge g (fst e) (snd e)) (list_prod (c_nodes c) (c_nodes c)).
Lemma flat_filter_prod {B} (p : name * name -> bool) (h : name * name -> B) l l' :
  flat_map (fun n => flat_map (fun m => if p (n, m) then [h (n, m)] else []) l') l = map h (filter p (list_prod l l')).
Proof.
  induction l as [|n t IH]; [reflexivity|]. cbn [flat_map list_prod]. rewrite filter_app, map_app, IH. f_equal.
  clear. induction l' as [|m u IH]; [reflexivity|]. cbn [flat_map map filter]. rewrite IH. destruct (p (n, m)); reflexivity.
Qed.

Record cluster_ok (g : graph) (c : cluster) : Prop := {
  co_writable : writable c;
  co_nodes : forall n, In n (c_nodes c) -> In n (dkeys (g_nodes g));
  co_inner : forall n m, In n (c_nodes c) -> In m (c_nodes c) -> check_edge g n m = true -> In (n, m) (dkeys (g_edges g))
}.

Lemma cluster_emits g c : cluster_ok g (snd c) ->
  exists ps, emits (put_cluster g c) ps (inner_edges g (snd c)) /\ join ps = subgraph_text g c (inner_edges g (snd c)).
Proof.
  intros [[W1 W2] N I]. destruct (node_attrs_emits W2) as (pa & Ea & Ja).
  assert (A : emits (forM_ (c_attrs (snd c)) put_cluster_attr) (flat_map (fun av => [cluster_attr_line av]) (c_attrs (snd c))) []).
  { rewrite <- (flat_nil (B := name * name) (c_attrs (snd c))). apply emits_forM. intros [a v] H. apply cluster_attr_emits. exact (W1 a v H). }
  assert (Nd : emits (forM_ (c_nodes (snd c)) (put_node g)) (flat_map (fun n => [g_node_line g n]) (c_nodes (snd c))) []).
  { rewrite <- (flat_nil (B := name * name) (c_nodes (snd c))). apply emits_forM. intros n H. apply N in H. destruct (dget_exists H) as [d Hd].
    eapply emits_node. exact Hd. }
  set (P := fun e : name * name => check_edge g (fst e) (snd e)).
  assert (Ed : emits (forM_ (c_nodes (snd c)) (fun n => forM_ (c_nodes (snd c)) (fun m =>
    if check_edge g n m then put_edge g (n, m) ;; processed (n, m) else ret tt)))
    (map (g_edge_line g) (inner_edges g (snd c))) (inner_edges g (snd c))).
  { unfold inner_edges. fold P.
    pose proof (map_id (filter P (list_prod (c_nodes (snd c)) (c_nodes (snd c))))) as Eid.
    rewrite <- Eid at 2. rewrite <- !flat_filter_prod.
    apply emits_forM. intros n Hn. apply emits_forM. intros m Hm. unfold P. cbn [fst snd].
    destruct (check_edge g n m) eqn:E; [|apply emits_ret].
    apply (@emits_bind _ _ [_] [] [] [_]); [apply emits_edge; auto|apply emits_processed]. }
  eexists. split.
  - assert (X : emits (put_cluster g c) ([("subgraph cluster_" ++ str_val (fst c) ++ " {" ++ nl)%string] ++
       flat_map (fun av => [cluster_attr_line av]) (c_attrs (snd c)) ++ pa ++
       flat_map (fun n => [g_node_line g n]) (c_nodes (snd c)) ++ map (g_edge_line g) (inner_edges g (snd c)) ++ [("}" ++ nl)%string])
       ([] ++ [] ++ [] ++ [] ++ inner_edges g (snd c) ++ [])).
    { unfold put_cluster. apply emits_bind; [apply emits_put|]. apply emits_bind; [exact A|]. apply emits_bind; [exact Ea|].
      apply emits_bind; [exact Nd|]. apply emits_bind; [exact Ed|apply emits_put]. }
    cbn [app] in X. rewrite app_nil_r in X. exact X.
  - cbn [app]. rewrite join_cons, !join_app, Ja, !join_flat. unfold subgraph_text.
    assert (S : forall A (f : A -> string) l, lines (fun x => join [f x]) l = lines f l).
    { intros. apply lines_ext. intros. cbn. apply append_nil_r. }
    rewrite !S. assert (Q : join (map (g_edge_line g) (inner_edges g (snd c))) = lines (g_edge_line g) (inner_edges g (snd c))).
    { generalize (inner_edges g (snd c)). intros l. induction l as [|x t IH]; [reflexivity|]. cbn [map]. rewrite join_cons, lines_cons, IH. reflexivity. }
    rewrite Q. cbn [join fold_right]. rewrite !append_nil_r, !append_assoc. reflexivity.
Qed.

(** ** The whole text *)
Lemma join_map {A} (f : A -> string) l : join (map f l) = lines f l.
Proof. induction l as [|x t IH]; [reflexivity|]. cbn [map]. rewrite join_cons, lines_cons, IH. reflexivity. Qed.

Lemma emits_forM_ex {A} (f : A -> M dot_state unit) (txt : A -> string) es l :
  (forall x, In x l -> exists ps, emits (f x) ps (es x) /\ join ps = txt x) ->
  exists ps, emits (forM_ l f) ps (flat_map es l) /\ join ps = lines txt l.
Proof.
  induction l as [|x t IH]; intros H; [exists []; split; [apply emits_ret|reflexivity]|].
  destruct (H x (or_introl eq_refl)) as (ps & E & J). destruct IH as (qs & E' & J'); [intros y Hy; apply H; right; exact Hy|].
  exists (ps ++ qs). split; [|rewrite join_app, lines_cons, J, J'; reflexivity].
  unfold forM_. cbn [foldM flat_map]. apply emits_bind; [exact E|exact E'].
Qed.

Lemma to_string_ok gname g :
  (forall c, In c (g_cluster g) -> cluster_ok g (snd c)) ->
  dkeys (g_nodes g) = dkeys (g_nbrs g) ->
  to_string gname g = Ok (graph_text gname g (map (fun c => (c, inner_edges g (snd c))) (g_cluster g))
    (filter (fun n => negb (in_some_cluster g n)) (dkeys (g_nbrs g)))
    (filter (fun e => negb (mem e (flat_map (fun c => inner_edges g (snd c)) (g_cluster g)))) (dkeys (g_edges g)))).
Proof.
  intros HC HN.
  destruct (@emits_forM_ex _ put_graph_attr graph_attr_line (fun _ => []) (g_attr g)) as (pa & Ea & Ja).
  { intros x _. apply graph_attr_emits. }
  rewrite flat_nil in Ea.
  destruct (@emits_forM_ex _ (put_cluster g) (fun c => subgraph_text g c (inner_edges g (snd c))) (fun c => inner_edges g (snd c)) (g_cluster g)) as (pc & Ec & Jc).
  { intros c Hc. apply cluster_emits. auto. }
  set (done := flat_map (fun c => inner_edges g (snd c)) (g_cluster g)) in *.
  assert (En : emits (forM_ (dkeys (g_nbrs g)) (fun n => if in_some_cluster g n then ret tt else put_node g n))
     (map (g_node_line g) (filter (fun n => negb (in_some_cluster g n)) (dkeys (g_nbrs g)))) []).
  { assert (F : forall l, flat_map (fun n => if in_some_cluster g n then [] else [g_node_line g n]) l =
      map (g_node_line g) (filter (fun n => negb (in_some_cluster g n)) l)).
    { induction l as [|x t IH]; [reflexivity|]. cbn [flat_map filter]. rewrite IH. destruct (in_some_cluster g x); reflexivity. }
    rewrite <- F, <- (flat_nil (B := name * name) (dkeys (g_nbrs g))). apply emits_forM. intros n Hn. rewrite <- HN in Hn.
    destruct (in_some_cluster g n); [apply emits_ret|]. destruct (dget_exists Hn) as [d Hd]. eapply emits_node. exact Hd. }
  assert (Ee : forall l o, (forall e, In e l -> In e (dkeys (g_edges g))) ->
     forM_ l (fun e => done <- gets d_done ;; if mem e done then ret tt else put_edge g e) (mkDot o done) =
     (mkDot (o ++ map (g_edge_line g) (filter (fun e => negb (mem e done)) l)) done, Ok tt)).
  { induction l as [|e t IH]; intros o Hl; [cbn; rewrite app_nil_r; reflexivity|]. unfold forM_ in *. cbn [foldM filter].
    unfold bind at 1, bind at 1, gets. cbn [d_done]. destruct (mem e done) eqn:E; cbn [negb map].
    - cbn [ret]. apply IH. intros. apply Hl. right. assumption.
    - rewrite (emits_edge (Hl e (or_introl eq_refl))). cbn [d_out d_done]. rewrite app_nil_r. rewrite IH by (intros; apply Hl; right; assumption).
      rewrite <- app_assoc. reflexivity. }
  unfold to_string, write_dot. unfold bind at 1. rewrite (emits_put _ _). cbn [d_out d_done app]. unfold bind at 1. rewrite Ea. cbn [d_out d_done].
  unfold bind at 1. rewrite Ec. cbn [d_out d_done app]. unfold bind at 1. rewrite En. cbn [d_out d_done]. rewrite app_nil_r. unfold bind at 1. rewrite Ee by auto.
  rewrite (emits_put _ _). cbn [d_out d_done]. f_equal. rewrite !join_app. cbn [app]. rewrite !join_cons, ?join_app, Ja, Jc, !join_map. unfold graph_text.
  assert (S : lines (fun s => subgraph_text g (fst s) (snd s)) (map (fun c => (c, inner_edges g (snd c))) (g_cluster g)) =
    lines (fun c => subgraph_text g c (inner_edges g (snd c))) (g_cluster g)).
  { unfold lines. rewrite map_map. reflexivity. }
  rewrite S. cbn [join fold_right]. rewrite !append_nil_r, !append_assoc. destruct (g_type g); reflexivity.
Qed.

(** ** Each node and edge once *)
Lemma in_some_cluster_spec g n : in_some_cluster g n = true <-> In n (flat_map (fun c => c_nodes (snd c)) (g_cluster g)).
Proof.
  unfold in_some_cluster. rewrite existsb_exists, in_flat_map. split; intros (c & Hc & H); exists c; (split; [exact Hc|]); apply mem_In; exact H.
Qed.
Lemma NoDup_prod {A B} (l : list A) (l' : list B) : NoDup l -> NoDup l' -> NoDup (list_prod l l').
Proof.
  intros H H'. induction H as [|x t Hx Ht IH]; [constructor|]. cbn [list_prod]. apply NoDup_app_iff. split; [|split; [exact IH|]].
  - apply FinFun.Injective_map_NoDup; [|exact H']. intros a b [= ->]. reflexivity.
  - intros [a b] P Q. apply in_map_iff in P as (y & [= <- <-] & _). apply in_prod_iff in Q as [Q _]. contradiction.
Qed.
Lemma inner_In g c e : In e (inner_edges g c) <-> In (fst e) (c_nodes c) /\ In (snd e) (c_nodes c) /\ check_edge g (fst e) (snd e) = true.
Proof. unfold inner_edges. rewrite filter_In. destruct e as [n m]. rewrite in_prod_iff. cbn [fst snd]. tauto. Qed.
Lemma inner_NoDup g (cs : dict val cluster) : NoDup (flat_map (fun c => c_nodes (snd c)) cs) ->
  NoDup (flat_map (fun c => inner_edges g (snd c)) cs).
Proof.
  induction cs as [|c t IH]; intros H; [constructor|]. cbn [flat_map] in *. apply NoDup_app_iff in H as (H1 & H2 & H3).
  apply NoDup_app_iff. split; [apply NoDup_filter, NoDup_prod; assumption|]. split; [apply IH; assumption|].
  intros e P Q. apply inner_In in P as (P & _). apply in_flat_map in Q as (d & Hd & Q). apply inner_In in Q as (Q & _).
  apply (H3 (fst e) P). apply in_flat_map. eauto.
Qed.

(** ** KeyError on undirected graphs *)
Definition kerr (m : M dot_state unit) : Prop := forall d, snd (m d) = Ok tt \/ snd (m d) = Err KeyError.
Definition stops (m : M dot_state unit) : Prop := forall d, snd (m d) = Err KeyError.
Lemma emits_kerr m ps es : emits m ps es -> kerr m.
Proof. intros H d. rewrite H. left. reflexivity. Qed.
Lemma kerr_bind m k : kerr m -> kerr (k tt) -> kerr (bind m k).
Proof. intros A B d. unfold bind. specialize (A d). destruct (m d) as [d' [[]|e]]; [apply B|]. right. destruct A as [A|A]; [discriminate|exact A]. Qed.
Lemma stops_l m k : stops m -> stops (bind m k).
Proof. intros A d. unfold bind. specialize (A d). destruct (m d) as [d' [[]|e]]; [discriminate|exact A]. Qed.
Lemma stops_r m k : kerr m -> stops (k tt) -> stops (bind m k).
Proof. intros A B d. unfold bind. specialize (A d). destruct (m d) as [d' [[]|e]]; [apply B|]. destruct A as [A|A]; [discriminate|exact A]. Qed.
Lemma kerr_forM {A} (f : A -> M dot_state unit) l : (forall x, In x l -> kerr (f x)) -> kerr (forM_ l f).
Proof.
  unfold forM_. induction l as [|x t IH]; intros H; [intros d; left; reflexivity|]. cbn [foldM]. apply kerr_bind; [apply H; left; reflexivity|].
  apply IH. intros y Hy. apply H. right. exact Hy.
Qed.
Lemma stops_forM {A} (f : A -> M dot_state unit) l x : (forall x, In x l -> kerr (f x)) -> In x l -> stops (f x) -> stops (forM_ l f).
Proof.
  unfold forM_. induction l as [|y t IH]; intros H Hx S; [destruct Hx|]. cbn [foldM]. destruct Hx as [->|Hx]; [apply stops_l, S|].
  apply stops_r; [apply H; left; reflexivity|]. apply IH; auto. intros z Hz. apply H. right. exact Hz.
Qed.
Lemma edge_kerr g e : kerr (put_edge g e).
Proof.
  destruct (dget (g_edges g) e) as [d|] eqn:E.
  - eapply emits_kerr, emits_edge, dget_Some_keys. exact E.
  - intros s. right. unfold put_edge, of_res, bind, edge_to_string. rewrite E. reflexivity.
Qed.
Lemma edge_stops g e : ~ In e (dkeys (g_edges g)) -> stops (put_edge g e).
Proof. intros H s. apply dget_None in H. unfold put_edge, of_res, bind, edge_to_string. rewrite H. reflexivity. Qed.

Section Undirected.
  Variables (g : graph) (c : val * cluster).
  Hypothesis W : writable (snd c).
  Hypothesis N : forall n, In n (c_nodes (snd c)) -> In n (dkeys (g_nodes g)).
  Let edge n m := if check_edge g n m then put_edge g (n, m) ;; processed (n, m) else ret tt.
  Lemma edge_k n m : kerr (edge n m).
  Proof.
    unfold edge. destruct (check_edge g n m); [|eapply emits_kerr, emits_ret]. apply kerr_bind; [apply edge_kerr|eapply emits_kerr, emits_processed].
  Qed.
  Lemma head_attr : kerr (forM_ (c_attrs (snd c)) put_cluster_attr).
  Proof. apply kerr_forM. intros [a v] H. eapply emits_kerr, cluster_attr_emits. exact (proj1 W a v H). Qed.
  Lemma head_node_attr : kerr (put_cluster_node_attrs (c_node_attrs (snd c))).
  Proof. destruct (node_attrs_emits (proj2 W)) as (ps & E & _). eapply emits_kerr, E. Qed.
  Lemma head_nodes : kerr (forM_ (c_nodes (snd c)) (put_node g)).
  Proof. apply kerr_forM. intros n H. apply N in H. destruct (dget_exists H) as [d Hd]. eapply emits_kerr, emits_node. exact Hd. Qed.
  Lemma cluster_kerr : kerr (put_cluster g c).
  Proof.
    unfold put_cluster. apply kerr_bind; [eapply emits_kerr, emits_put|]. apply kerr_bind; [exact head_attr|]. apply kerr_bind; [exact head_node_attr|].
    apply kerr_bind; [exact head_nodes|]. apply kerr_bind; [|eapply emits_kerr, emits_put]. apply kerr_forM. intros n _. apply kerr_forM. intros m _. apply edge_k.
  Qed.
  Lemma cluster_stops n m : In n (c_nodes (snd c)) -> In m (c_nodes (snd c)) -> check_edge g n m = true -> ~ In (n, m) (dkeys (g_edges g)) ->
    stops (put_cluster g c).
  Proof.
    intros Hn Hm Hc He. unfold put_cluster. apply stops_r; [eapply emits_kerr, emits_put|]. apply stops_r; [exact head_attr|]. apply stops_r; [exact head_node_attr|].
    apply stops_r; [exact head_nodes|]. apply stops_l. apply stops_forM with n; [|exact Hn|].
    - intros x _. apply kerr_forM. intros y _. apply edge_k.
    - apply stops_forM with m; [intros y _; apply edge_k|exact Hm|]. rewrite Hc. apply stops_l, edge_stops, He.
  Qed.
End Undirected.

Lemma to_string_stops gname g c n m :
  (forall c, In c (g_cluster g) -> writable (snd c) /\ forall n, In n (c_nodes (snd c)) -> In n (dkeys (g_nodes g))) ->
  In c (g_cluster g) -> In n (c_nodes (snd c)) -> In m (c_nodes (snd c)) -> check_edge g n m = true -> ~ In (n, m) (dkeys (g_edges g)) ->
  to_string gname g = Err KeyError.
Proof.
  intros HC Hc Hn Hm Hk He.
  assert (S : stops (write_dot gname g)).
  { unfold write_dot. apply stops_r; [eapply emits_kerr, emits_put|]. apply stops_r.
    - apply kerr_forM. intros x _. destruct (graph_attr_emits x) as (ps & E & _). eapply emits_kerr, E.
    - apply stops_l. apply stops_forM with c; [|exact Hc|].
      + intros x Hx. destruct (HC x Hx). apply cluster_kerr; assumption.
      + destruct (HC c Hc) as [A B]. exact (cluster_stops A B Hn Hm Hk He). }
  unfold to_string. specialize (S (mkDot [] [])). destruct (write_dot gname g (mkDot [] [])) as [d r]. cbn [snd] in S. rewrite S. reflexivity.
Qed.
