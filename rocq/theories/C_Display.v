(* Property theorems C60 and C61: Graph.display, Graph.create and Graph.write. A [world] is a graph and the
   files; an [env] says which packages are installed and how mkstemp, open, Graphviz, latex and the windows
   answer each call (M_Display.v). display h b f p c is g.display(highlight = h, basename = b, format = f,
   pause = p, wait_for_click = c). *)
From Verif Require Import Py Util M_Graph M_Flow M_Dot M_Display S_Display P_Graph P_GraphLaws P_Attr P_Display P_DisplayFiles C_Dfs.
Local Open Scope string_scope. Local Open Scope list_scope.

(** * C60: what display changes in the graph *)
(* display mode 'off' *)
Theorem C60_off : forall E gname h b f p c w, dget (g_attr (w_graph w)) "display" = Some (VS "off") -> display E gname h b f p c w = (w, Ok tt).
Proof. intros E gname h b f p c w H. unfold display, attr_get, gets, lift, bind. cbn. rewrite H. reflexivity. Qed.
Print Assumptions C60_off.

(* set_display_mode writes the one attribute display() reads; turned off, display() does nothing *)
Theorem C60_set_display_mode : forall v w w' r, set_display_mode v w = (w', r) -> r = Ok tt /\ w_files w' = w_files w /\
  dget (g_attr (w_graph w')) "display" = Some v /\ (forall a, a <> "display" -> dget (g_attr (w_graph w')) a = dget (g_attr (w_graph w)) a) /\
  (forall n a, obs (get_node_attr n a) (w_graph w') = obs (get_node_attr n a) (w_graph w)) /\
  (forall x y a, obs (get_edge_attr x y a) (w_graph w') = obs (get_edge_attr x y a) (w_graph w)) /\
  (v = VS "off" -> forall E gname h b f p c, display E gname h b f p c w' = (w', Ok tt)).
Proof.
  intros v w w' r H. unfold set_display_mode, attr_set, lg, set_graph_attr, modify in H. cbn in H. injection H as <- <-. cbn.
  split; [reflexivity|]. split; [reflexivity|]. assert (D : dget (dset (g_attr (w_graph w)) "display" v) "display" = Some v) by apply dget_dset_eq.
  split; [exact D|]. split; [intros a Ha; apply dget_dset_ne; congruence|]. split; [reflexivity|]. split; [reflexivity|].
  intros -> E gname h b f p c. apply C60_off. exact D.
Qed.
Print Assumptions C60_set_display_mode.

(* Whatever happens during the call, also when it raises: nodes, edges, neighbours, clusters, all attributes of
   edges and all attributes of nodes but the color of the highlighted nodes are what they were; of the
   attributes of the graph only display, layout and d2tgraphstyle may differ. *)
Theorem C60_frame : forall E gname h b f p c w w' r, display E gname h b f p c w = (w', r) ->
  let g := w_graph w in let g' := w_graph w' in
  g_type g' = g_type g /\ get_node_list g' = get_node_list g /\ get_edge_list g' = get_edge_list g /\
  (forall n, obs (get_neighbors n) g' = obs (get_neighbors n) g /\ obs (get_in_neighbors n) g' = obs (get_in_neighbors n) g) /\
  g_cluster g' = g_cluster g /\
  (forall x y a, obs (get_edge_attr x y a) g' = obs (get_edge_attr x y a) g) /\
  (forall n a, ~ (a = "color" /\ In n (hlist h)) -> obs (get_node_attr n a) g' = obs (get_node_attr n a) g) /\
  (forall a, ~ In a ["display"; "layout"; "d2tgraphstyle"] -> dget (g_attr g') a = dget (g_attr g) a).
Proof.
  intros E gname h b f p c w w' r H g g'. pose proof (display_frame E gname h b f p c w) as F. rewrite H in F. cbn [fst] in F. destruct F as [S N D A _]. fold g g' in S, N, D, A.
  split; [apply (ss_type S)|]. split; [apply (ss_node_list S)|]. split; [unfold get_edge_list; apply (ss_edges S)|].
  split. { intros n. unfold obs, get_neighbors, get_in_neighbors, nbr_list, in_list, in_dict, bind, gets, lift. cbn. rewrite (ss_nbrs S), (ss_in S). split; [reflexivity|]. rewrite (ss_type S). destruct (g_type g); [|reflexivity]. destruct (dget (g_in g) n); reflexivity. }
  split; [apply (ss_cluster S)|]. split; [intros x y a; unfold obs, get_edge_attr; cbn; rewrite (ss_type S), D; reflexivity|].
  split; [intros n a Hn; apply (obs_same _ _ _ _ S), N, Hn|exact A].
Qed.
Print Assumptions C60_frame.

(* After a call that returns the display mode is what it was, except that it is 'off' when the package for the
   mode is missing, and 'file' when the layout is 'dot2tex'; with that layout only 'dot' can be left as layout. *)
Theorem C60_mode : forall E gname h b f p c w w' m, display E gname h b f p c w = (w', Ok tt) ->
  dget (g_attr (w_graph w)) "display" = Some m -> m <> VS "off" ->
  exists l, dget (g_attr (w_graph w)) "layout" = Some l /\
    (l <> VS "dot2tex" -> dget (g_attr (w_graph w')) "layout" = Some l /\ dget (g_attr (w_graph w')) "display" = Some (if missing E m then VS "off" else m)) /\
    (l = VS "dot2tex" -> e_dot2tex E = true /\ dget (g_attr (w_graph w')) "display" = Some (VS "file") /\
       (dget (g_attr (w_graph w')) "layout" = Some (VS "dot2tex") \/ dget (g_attr (w_graph w')) "layout" = Some (VS "dot"))).
Proof.
  intros E gname h b f p c w w' m H Hm Ho. destruct (whenok_elim (@wo_display E gname h b f p c w m Hm Ho) H) as (l & Hl & _ & F & NF & L & T). exists l. split; [exact Hl|]. split.
  - intros Hd. split; [apply L, Hd|]. destruct (eq_dec m (VS "file")) as [->|Hf]; [apply F; auto|apply NF; assumption].
  - intros Hd. destruct (T Hd) as [T1 T2]. split; [exact T1|]. split; [apply F; auto|tauto].
Qed.
Print Assumptions C60_mode.

(* After a call that returns, every highlighted name is a node; its color is 'red' when a file was written and
   'black' in the other modes, whatever it was before. *)
Theorem C60_highlight : forall E gname h b f p c w w' m l n, display E gname h b f p c w = (w', Ok tt) ->
  dget (g_attr (w_graph w)) "display" = Some m -> m <> VS "off" -> dget (g_attr (w_graph w)) "layout" = Some l -> In n (hlist h) ->
  obs (get_node_attr n "color") (w_graph w') = Ok (VS (if eqb m (VS "file") || eqb l (VS "dot2tex") then "red" else "black")).
Proof.
  intros E gname h b f p c w w' m l n H Hm Ho Hl Hn. destruct (whenok_elim (@wo_display E gname h b f p c w m Hm Ho) H) as (l' & Hl' & N & F & NF & _). rewrite Hl in Hl'. injection Hl' as <-.
  pose proof (display_frame E gname h b f p c w) as Fr. rewrite H in Fr. cbn [fst] in Fr.
  assert (Hn' : In n (dkeys (g_nodes (w_graph w')))) by (rewrite (ss_nodes (df_shape Fr)); apply N, Hn).
  apply dget_exists in Hn' as [d Hd]. rewrite obs_node_attr, Hd.
  assert (K : forall s, colored s (hlist h) (w_graph w') -> Ok (match dget d "color" with Some v => v | None => VNone end) = Ok (VS s)).
  { intros s C. pose proof (C n Hn) as K. unfold nattr in K. rewrite Hd in K. rewrite K. reflexivity. }
  destruct (eqb_spec m (VS "file")) as [Hf|Hf]; [apply K, F; auto|]. destruct (eqb_spec l (VS "dot2tex")) as [Hd2|Hd2]; [apply K, F; auto|apply K, NF; assumption].
Qed.
Print Assumptions C60_highlight.

(* A name that is no node among the highlighted ones: AttributeError, before anything is written or shown. *)
Lemma highlight_unknown c l : forall w n, In n l -> ~ In n (dkeys (g_nodes (w_graph w))) ->
  exists w', highlight_all (Some l) c w = (w', Err AttributeError) /\ w_files w' = w_files w /\ w_calls w' = w_calls w.
Proof.
  unfold highlight_all, forM_. induction l as [|x t IH]; intros w n Hn Hu; [destruct Hn|]. cbn [foldM].
  destruct (dget (g_nodes (w_graph w)) x) as [d|] eqn:Hd.
  - assert (O : ok (set_node_attr x "color" (VS c)) (w_graph w) (fun _ h => dkeys (g_nodes h) = dkeys (g_nodes (w_graph w)))).
    { apply ok_set_node_attr; [apply (dget_Some_keys Hd)|]. intros h S _ _ _ _ _. apply (ss_nodes S). }
    apply ok_ex in O as (h & [] & Eo & K).
    assert (Hx : n <> x) by (intros ->; apply Hu, (dget_Some_keys Hd)). destruct Hn as [->|Hn]; [contradiction|].
    destruct (IH (with_graph w h) n Hn) as (w' & E1 & E2 & E3); [cbn; rewrite K; exact Hu|]. exists w'.
    assert (L : lg (set_node_attr x "color" (VS c)) w = (with_graph w h, Ok tt)) by (unfold lg; rewrite Eo; reflexivity).
    rewrite (bind_ok _ L). auto.
  - exists (with_graph w (w_graph w)). split; [|auto]. unfold bind at 1, lg. unfold set_node_attr at 1. rewrite Hd. reflexivity.
Qed.
Theorem C60_unknown_node : forall E gname h b f p c w m n, dget (g_attr (w_graph w)) "display" = Some m -> m <> VS "off" ->
  wf (w_graph w) -> In n (hlist h) -> ~ In n (get_node_list (w_graph w)) ->
  exists w', display E gname h b f p c w = (w', Err AttributeError) /\ w_files w' = w_files w /\ w_calls w' = w_calls w.
Proof.
  intros E gname h b f p c w m n Hm Ho W Hn Hu. destruct h as [l|]; [|destruct Hn].
  destruct (@highlight_unknown "red" l w n Hn) as (w' & E1 & E2 & E3); [rewrite (wf_nodes W); exact Hu|]. exists w'. split; [|auto].
  unfold display. assert (A : attr_get "display" w = (w, Ok m)) by (unfold attr_get, gets, lift, bind; cbn; rewrite Hm; reflexivity).
  rewrite (bind_ok _ A). rewrite (proj2 (eqb_false _ _) Ho). apply (bind_err _ E1).
Qed.
Print Assumptions C60_unknown_node.

(** * C61: the files *)
(* create returns the output of Graphviz for the text of the graph, and leaves the files as they were *)
Theorem C61_create : forall E gname layout format w w' o, fresh_temp E -> create E gname layout format w = (w', Ok (Some o)) ->
  w_graph w' = w_graph w /\ fs_eq (w_files w') (w_files w) /\
  exists l s k, layout = VS l /\ to_string gname (w_graph w) = Ok s /\ e_graphviz E k l format s = Ended 0 o.
Proof.
  intros E gname layout format w w' o Hf H. destruct (whenok_elim (@wo_create E gname Hf layout format w) H) as [G (l & s & k & A & B & C & D)]. split; [exact G|]. split; [exact D|]. exists l, s, k. auto.
Qed.
Print Assumptions C61_create.
(* whatever the outcome, create leaves the graph and the files that were there as they were *)
Theorem C61_create_kept : forall E gname layout format w w' r, fresh_temp E -> create E gname layout format w = (w', r) ->
  w_graph w' = w_graph w /\ forall p, w_files w p <> None -> w_files w' p = w_files w p.
Proof.
  intros E gname layout format w w' r Hf H. split; [pose proof (create_graph E gname layout format w) as K; rewrite H in K; exact K|].
  pose proof (@fk_create E gname Hf (w_files w) (fun _ => False) layout format w (fun p _ _ => eq_refl)) as K. unfold always in K. rewrite H in K. intros p Hp. apply K; auto.
Qed.
Print Assumptions C61_create_kept.
(* but when Graphviz is not there or fails, the temporary file stays: no claim that create cleans up holds *)
Theorem C61_create_leaks : forall E gname l format w t s,
  e_mkstemp E (w_calls w) (w_files w) = Some t -> to_string gname (w_graph w) = Ok s -> (forall k out, e_graphviz E k l format s <> Ended 0 out) ->
  exists w' r, create E gname (VS l) format w = (w', r) /\ (r = Ok None \/ r = Err CalledProcessError) /\ w_files w' t = Some s.
Proof.
  intros E gname l format w t s Ht Hs Hg. unfold create, mkstemp, tick, gets, lift, dot_text, file_append, file_put, file_get, file_remove, modify, bind, ret, fail. cbn. rewrite Ht. cbn. rewrite Hs. cbn. rewrite !eqb_refl. cbn.
  destruct (e_graphviz E (Datatypes.S (w_calls w)) l format s) as [|code out] eqn:G.
  - do 2 eexists. split; [reflexivity|]. split; [auto|]. cbn. rewrite eqb_refl. reflexivity.
  - destruct (Z.eqb_spec code 0) as [->|]; [destruct (Hg _ _ G)|]. do 2 eexists. split; [reflexivity|]. split; [auto|]. cbn. rewrite eqb_refl. reflexivity.
Qed.
Print Assumptions C61_create_leaks.

(* write(file, layout, format): the text of the graph (format 'dot') or the output of Graphviz is appended to the
   open file, and nothing else changes; without Graphviz nothing is appended. *)
Theorem C61_write : forall E gname p l format old w w', fresh_temp E -> w_files w p = Some old -> l <> VNone ->
  write E gname p (Some l) format w = (w', Ok tt) ->
  w_graph w' = w_graph w /\
  exists s, to_string gname (w_graph w) = Ok s /\
    (format = "dot" -> w_files w' p = Some (old ++ s)%string /\ fs_eq_but p (w_files w') (w_files w)) /\
    (format <> "dot" -> exists ls k, l = VS ls /\
       ((exists o, e_graphviz E k ls format s = Ended 0 o /\ w_files w' p = Some (old ++ o)%string /\ fs_eq_but p (w_files w') (w_files w)) \/
        (e_graphviz E k ls format s = NotStarted /\ w_files w' p = Some old))).
Proof.
  intros E gname p l format old w w' Hf Hp Hl H. destruct (whenok_elim (@wo_write E gname Hf p l format old w Hp Hl) H) as [G (s & Hs & R)]. split; [exact G|]. exists s. split; [exact Hs|].
  destruct (eqb_spec format "dot") as [Hd|Hd]; (split; [intros|intros]); try contradiction; [exact R|]. destruct R as (ls & k & -> & R). exists ls, k. split; [reflexivity|].
  destruct R as [R|(R & t & R1 & _ & _ & R4)]; [left; exact R|right]. split; [exact R|]. rewrite R4 by congruence. exact Hp.
Qed.
Print Assumptions C61_write.

(* display mode 'file': basename.format holds the text of the graph (with the highlighted nodes in red) or what
   Graphviz makes of it, whatever it held before. All other files are as they were. *)
Theorem C61_display_file : forall E gname h b f p c w w' l, fresh_temp E ->
  dget (g_attr (w_graph w)) "display" = Some (VS "file") -> dget (g_attr (w_graph w)) "layout" = Some (VS l) -> l <> "dot2tex" ->
  display E gname h b f p c w = (w', Ok tt) ->
  exists s, to_string gname (w_graph w') = Ok s /\
    (f = "dot" -> w_files w' (b ++ "." ++ f)%string = Some s /\ fs_eq_but (b ++ "." ++ f) (w_files w') (w_files w)) /\
    (f <> "dot" -> exists k,
       (exists o, e_graphviz E k l f s = Ended 0 o /\ w_files w' (b ++ "." ++ f)%string = Some o /\ fs_eq_but (b ++ "." ++ f) (w_files w') (w_files w)) \/
       (e_graphviz E k l f s = NotStarted /\ w_files w' (b ++ "." ++ f)%string = Some "")).
Proof.
  intros E gname h b f p c w w' l Hf Hm Hl Hd H.
  assert (Hd' : VS l <> VS "dot2tex") by congruence. assert (Hn : VS l <> VNone) by discriminate.
  destruct (whenok_elim (@wo_display_file E gname Hf h b f p c w (VS l) Hm Hl Hd' Hn) H) as (w0 & G & F0 & (s & Hs & R) & P0). rewrite G in Hs. exists s. split; [exact Hs|].
  destruct (eqb_spec f "dot") as [Hdot|Hdot]; (split; [intros|intros]); try contradiction.
  - destruct R as [R1 R2]. split; [exact R1|]. intros q Hq. rewrite (R2 q Hq). apply F0, Hq.
  - destruct R as (ls & k & [= <-] & R). exists k. destruct R as [(o & R1 & R2 & R3)|(R & t & R1 & _ & _ & R4)].
    + left. exists o. split; [exact R1|]. split; [exact R2|]. intros q Hq. rewrite (R3 q Hq). apply F0, Hq.
    + right. split; [exact R|]. rewrite R4 by congruence. exact P0.
Qed.
Print Assumptions C61_display_file.

(* display modes 'PIL' and 'matplotlib': what is shown is the output of Graphviz for the graph with the
   highlighted nodes in red and everything else as it was; no file is left. *)
Definition highlighted (h : option (list name)) (g g1 : graph) : Prop :=
  get_node_list g1 = get_node_list g /\ get_edge_list g1 = get_edge_list g /\ g_type g1 = g_type g /\ g_cluster g1 = g_cluster g /\ g_attr g1 = g_attr g /\
  (forall x y a, obs (get_edge_attr x y a) g1 = obs (get_edge_attr x y a) g) /\
  (forall n a, obs (get_node_attr n a) g1 = if eqb a "color" && mem n (hlist h) then Ok (VS "red") else obs (get_node_attr n a) g).
Lemma highlighted_intro h g g1 : dfr (hlist h) g g1 -> colored "red" (hlist h) g1 -> g_attr g1 = g_attr g -> (forall n, In n (hlist h) -> In n (dkeys (g_nodes g))) -> highlighted h g g1.
Proof.
  intros [S N D A _] C At Hn. split; [apply (ss_node_list S)|]. split; [unfold get_edge_list; apply (ss_edges S)|]. split; [apply (ss_type S)|]. split; [apply (ss_cluster S)|]. split; [exact At|].
  split; [intros x y a; unfold obs, get_edge_attr; cbn; rewrite (ss_type S), D; reflexivity|]. intros n a.
  destruct (eqb_spec a "color") as [->|Ha]; cbn [andb]; [|apply (obs_same _ _ _ _ S), N; intros [? _]; contradiction].
  destruct (mem n (hlist h)) eqn:M.
  - apply mem_In in M. pose proof (Hn n M) as Hk. rewrite <- (ss_nodes S) in Hk. apply dget_exists in Hk as [d Hd]. rewrite obs_node_attr, Hd. pose proof (C n M) as K. unfold nattr in K. rewrite Hd in K. rewrite K. reflexivity.
  - apply mem_nIn in M. apply (obs_same _ _ _ _ S), N. tauto.
Qed.
Theorem C61_display_picture : forall E gname h b f p c w w' m l, fresh_temp E ->
  dget (g_attr (w_graph w)) "display" = Some m -> dget (g_attr (w_graph w)) "layout" = Some (VS l) -> l <> "dot2tex" -> f <> "dot" ->
  m = VS "PIL" \/ m = VS "matplotlib" -> missing E m = false ->
  display E gname h b f p c w = (w', Ok tt) ->
  exists g1 s k k', highlighted h (w_graph w) g1 /\ to_string gname g1 = Ok s /\
    ((exists o, e_graphviz E k l f s = Ended 0 o /\ (if eqb m (VS "PIL") then e_show E k' o else e_plot E k' c p o) = None /\ fs_eq (w_files w') (w_files w)) \/
     e_graphviz E k l f s = NotStarted).
Proof.
  intros E gname h b f p c w w' m l Hf Hm Hl Hd Hdot Hmm Mi H.
  assert (Ho : m <> VS "off") by (destruct Hmm as [->| ->]; discriminate). assert (Hf' : m <> VS "file") by (destruct Hmm as [->| ->]; discriminate).
  assert (Hd' : VS l <> VS "dot2tex") by congruence. assert (Hn : VS l <> VNone) by discriminate.
  destruct (whenok_elim (@wo_display_picture E gname Hf h b f p c w m (VS l) Hm Hl Ho Hf' Hd' Hn) H) as (w1 & Fr & C1 & F1 & A1 & S1 & S2 & _).
  destruct (whenok_elim (@wo_display E gname h b f p c w m Hm Ho) H) as (l0 & _ & N & _).
  pose proof (highlighted_intro h _ _ Fr C1 A1 N) as Hi.
  assert (P : pictured E gname f (fun k' o => if eqb m (VS "PIL") then e_show E k' o else e_plot E k' c p o) w1 (w_files w')).
  { destruct Hmm as [->| ->]; cbn in Mi |- *.
    - apply S1; [reflexivity|]. destruct (e_pil E); [reflexivity|discriminate].
    - destruct (e_matplotlib E), (e_pil E); try discriminate. apply S2; reflexivity. }
  destruct P as (s & k & o & Hs & U & [[? _]|[_ (k' & l' & Hl' & P)]]); [contradiction|]. rewrite A1, Hl in Hl'. injection Hl' as <-. exists (w_graph w1), s, k', k. split; [exact Hi|]. split; [exact Hs|].
  destruct P as [[P1 P2]|[P1 _]]; [left|right; exact P1]. exists o. split; [exact P1|]. split; [exact U|]. rewrite <- F1. exact P2.
Qed.
Print Assumptions C61_display_picture.
(* display mode 'xdot' shows the text of the highlighted graph and touches no file; an unknown display mode or a
   missing package: nothing is written *)
Theorem C61_display_xdot : forall E gname h b f p c w w' m l, fresh_temp E ->
  dget (g_attr (w_graph w)) "display" = Some m -> dget (g_attr (w_graph w)) "layout" = Some (VS l) -> l <> "dot2tex" ->
  m <> VS "file" -> (m <> VS "PIL" /\ m <> VS "matplotlib") \/ missing E m = true -> display E gname h b f p c w = (w', Ok tt) ->
  fs_eq (w_files w') (w_files w) /\
  (m = VS "xdot" -> missing E m = false -> exists g1 s k, highlighted h (w_graph w) g1 /\ to_string gname g1 = Ok s /\ e_window E k s = None).
Proof.
  intros E gname h b f p c w w' m l Hf Hm Hl Hd Hf' Hmm H.
  destruct (eq_dec m (VS "off")) as [->|Ho]. { rewrite (C60_off _ _ _ _ _ _ _ _ Hm) in H. injection H as <-. split; [intros q; reflexivity|discriminate]. }
  assert (Hd' : VS l <> VS "dot2tex") by congruence. assert (Hn : VS l <> VNone) by discriminate.
  destruct (whenok_elim (@wo_display_picture E gname Hf h b f p c w m (VS l) Hm Hl Ho Hf' Hd' Hn) H) as (w1 & Fr & C1 & F1 & A1 & S1 & S2 & S3 & S4 & S5).
  destruct (whenok_elim (@wo_display E gname h b f p c w m Hm Ho) H) as (l0 & _ & N & _).
  pose proof (highlighted_intro h _ _ Fr C1 A1 N) as Hi. rewrite <- F1. split; [destruct Hmm as [[X1 X2]|X]; [apply S4; assumption|apply S5, X]|].
  intros -> Mi. cbn in Mi. destruct (S3 eq_refl) as (k & s & Hs & Hw); [destruct (e_xdot E); [reflexivity|discriminate]|]. exists (w_graph w1), s, k. auto.
Qed.
Print Assumptions C61_display_xdot.

(* Whatever happens, also when the call raises: the files that were there are as they were, but for
   basename.format in display mode 'file' and for basename.dot, basename.tex and what the TeX programs change
   when the layout is 'dot2tex'. *)
Theorem C61_display_kept : forall E gname h b f p c w w' r (W : string -> Prop), fresh_temp E -> display E gname h b f p c w = (w', r) ->
  (dget (g_attr (w_graph w)) "layout" = Some (VS "dot2tex") -> commands_change_only E W /\ W (b ++ ".dot")%string /\ W (b ++ ".tex")%string) ->
  (dget (g_attr (w_graph w)) "layout" <> Some (VS "dot2tex") -> dget (g_attr (w_graph w)) "display" = Some (VS "file") -> W (b ++ "." ++ f)%string) ->
  forall q, w_files w q <> None -> ~ W q -> w_files w' q = w_files w q.
Proof.
  intros E gname h b f p c w w' r W Hf H H1 H2. pose proof (@display_kept E gname Hf (w_files w) W h b f p c w (fun q _ _ => eq_refl) H1 H2) as K.
  unfold always in K. rewrite H in K. exact K.
Qed.
Print Assumptions C61_display_kept.

(** * The hypotheses can be met *)
(* Everything is installed; mkstemp takes the first free one of two names; Graphviz echoes its input. *)
Definition env0 : env := {|
  e_xdot := true; e_dot2tex := true; e_pil := true; e_matplotlib := false;
  e_mkstemp := fun _ f => match f "/tmp/a" with None => Some "/tmp/a" | Some _ => match f "/tmp/b" with None => Some "/tmp/b" | Some _ => None end end;
  e_open := fun _ _ => true;
  e_graphviz := fun _ l f s => if eqb l "dot" then Ended 0 (l ++ "-" ++ f ++ ":" ++ s) else if eqb l "bad" then Ended 1 "" else NotStarted;
  e_show := fun _ _ => None; e_plot := fun _ _ _ _ => None; e_window := fun _ _ => None;
  e_to_tex := fun _ s => Ok ("tex:" ++ s)%string;
  e_call := fun _ _ f => (fun p => if eqb p "graph.pdf" then Some "pdf" else f p, None) |}.
Lemma env0_fresh : fresh_temp env0.
Proof.
  intros k f p. cbn. destruct (f "/tmp/a") eqn:A; [|intros [= <-]; exact A]. destruct (f "/tmp/b") eqn:B; [discriminate|intros [= <-]; exact B].
Qed.
Definition g0 (mode layout : string) : graph := history (new_graph (Some Directed) [("display", VS mode); ("layout", VS layout)])
  [OAddEdge (NI 1) (NI 2) [("label", VS "x")]; OSetNodeAttr (NI 1) "color" (VS "green")].
Definition w0 (mode layout : string) : world := mkWorld (g0 mode layout) (fun p => if eqb p "graph.png" then Some "old" else if eqb p "notes" then Some "n" else None) 0.
Definition see {A} (x : world * res A) (n : name) (files : list string) := (snd x, obs (get_node_attr n "color") (w_graph (fst x)), dget (g_attr (w_graph (fst x))) "display", map (w_files (fst x)) files).
Definition show0 (m l : string) (h : option (list name)) : world * res unit := display env0 "G" h "graph" "png" false true (w0 m l).
Definition text0 (l : string) : string := match to_string "G" (fst (set_node_attr (NI 1) "color" (VS "red") (g0 "PIL" l))) with Ok s => s | Err _ => "" end.
Example C60_nonvacuous :
  wf (g0 "PIL" "dot") /\ missing env0 (VS "PIL") = false /\ missing env0 (VS "matplotlib") = true /\
  (* a file; a picture; a missing package; a name that is no node; dot2tex *)
  see (show0 "file" "dot" (Some [NI 1])) (NI 1) [] = (Ok tt, Ok (VS "red"), Some (VS "file"), []) /\
  see (show0 "PIL" "dot" (Some [NI 1])) (NI 1) [] = (Ok tt, Ok (VS "black"), Some (VS "PIL"), []) /\
  see (show0 "matplotlib" "dot" (Some [NI 1])) (NI 1) [] = (Ok tt, Ok (VS "black"), Some (VS "off"), []) /\
  see (show0 "xdot" "dot" (Some [NI 1; NI 7])) (NI 1) [] = (Err AttributeError, Ok (VS "red"), Some (VS "xdot"), []) /\
  see (show0 "xdot" "dot2tex" (Some [NI 1])) (NI 1) [] = (Ok tt, Ok (VS "red"), Some (VS "file"), []) /\
  see (show0 "off" "dot" (Some [NI 1])) (NI 1) [] = (Ok tt, Ok (VS "green"), Some (VS "off"), []).
Proof.
  split; [refine (proj1 (wf_history (wf_new (Some Directed) _) _)); discriminate|].
  repeat split; vm_compute; reflexivity.
Qed.
(* "highlighting is undone after the display" is false: the color is not restored *)
Theorem C60_restore_refuted : exists E gname h b f p c w w' n, fresh_temp E /\ wf (w_graph w) /\ display E gname h b f p c w = (w', Ok tt) /\
  dget (g_attr (w_graph w)) "display" = Some (VS "PIL") /\ missing E (VS "PIL") = false /\
  obs (get_node_attr n "color") (w_graph w) = Ok (VS "green") /\ obs (get_node_attr n "color") (w_graph w') = Ok (VS "black").
Proof.
  exists env0, "G", (Some [NI 1]), "graph", "png", false, true, (w0 "PIL" "dot"), (fst (show0 "PIL" "dot" (Some [NI 1]))), (NI 1).
  split; [exact env0_fresh|]. split; [exact (proj1 C60_nonvacuous)|]. split; [|repeat split; vm_compute; reflexivity].
  assert (H : snd (show0 "PIL" "dot" (Some [NI 1])) = Ok tt) by (vm_compute; reflexivity). unfold show0 in *. destruct (display _ _ _ _ _ _ _ _). cbn [fst snd] in *. congruence.
Qed.
Print Assumptions C60_restore_refuted.
Example C61_nonvacuous :
  fresh_temp env0 /\ commands_change_only env0 (fun p => p = "graph.pdf" \/ p = "graph.tex" \/ p = "graph.dot") /\
  see (show0 "file" "dot" (Some [NI 1])) (NI 1) ["graph.png"; "notes"; "/tmp/a"; "/tmp/b"] = (Ok tt, Ok (VS "red"), Some (VS "file"), [Some ("dot-png:" ++ text0 "dot")%string; Some "n"; None; None]) /\
  see (show0 "PIL" "dot" (Some [NI 1])) (NI 1) ["graph.png"; "notes"; "/tmp/a"; "/tmp/b"] = (Ok tt, Ok (VS "black"), Some (VS "PIL"), [Some "old"; Some "n"; None; None]) /\
  (* Graphviz is not there: the picture is an empty file and the temporary file of create stays *)
  see (show0 "PIL" "neato" (Some [NI 1])) (NI 1) ["graph.png"; "notes"; "/tmp/a"; "/tmp/b"] = (Ok tt, Ok (VS "black"), Some (VS "PIL"), [Some "old"; Some "n"; None; Some (text0 "neato")]) /\
  (* Graphviz fails: both temporary files stay *)
  see (show0 "PIL" "bad" (Some [NI 1])) (NI 1) ["graph.png"; "notes"; "/tmp/a"; "/tmp/b"] = (Err CalledProcessError, Ok (VS "red"), Some (VS "PIL"), [Some "old"; Some "n"; Some ""; Some (text0 "bad")]) /\
  see (show0 "PIL" "dot2tex" (Some [NI 1])) (NI 1) ["graph.png"; "notes"; "graph.tex"; "graph.pdf"] = (Ok tt, Ok (VS "red"), Some (VS "file"), [Some "old"; Some "n"; Some ("tex:" ++ text0 "dot")%string; Some "pdf"]) /\
  snd (create env0 "G" (VS "dot") "png" (w0 "PIL" "dot")) <> Ok None /\ snd (create env0 "G" (VS "neato") "png" (w0 "PIL" "dot")) = Ok None.
Proof.
  split; [exact env0_fresh|]. split. { intros k c f p Hp. cbn. destruct (eqb_spec p "graph.pdf"); [tauto|reflexivity]. }
  repeat split; vm_compute; try reflexivity. discriminate.
Qed.
