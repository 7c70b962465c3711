(* What display, write and create change. *)
From Verif Require Import Py Util M_Graph M_Dot M_Display S_Display P_Graph P_Attr.
Set Implicit Arguments. Unset Strict Implicit.
Local Open Scope string_scope. Local Open Scope list_scope.

(* h is g up to the color of the nodes hl and three graph attributes *)
Record dfr (hl : list name) (g h : graph) : Prop := {
  df_shape : same_shape g h;
  df_nodes : forall x b, ~ (b = "color" /\ In x hl) -> nattr h x b = nattr g x b;
  df_edges : g_edges h = g_edges g;
  df_attr : forall a, ~ In a ["display"; "layout"; "d2tgraphstyle"] -> dget (g_attr h) a = dget (g_attr g) a;
  df_ncomp : g_ncomp h = g_ncomp g
}.
Lemma dfr_refl hl g : dfr hl g g.
Proof. constructor; auto. apply ss_refl. Qed.
Lemma dfr_trans hl g h k : dfr hl g h -> dfr hl h k -> dfr hl g k.
Proof.
  intros [A1 A2 A3 A4 A5] [B1 B2 B3 B4 B5]. constructor; [apply (ss_trans A1 B1)|..]; intros; try congruence.
  - rewrite B2, A2; auto.
  - rewrite B4, A4; auto.
Qed.
Lemma dfr_attr hl g a v : In a ["display"; "layout"; "d2tgraphstyle"] -> dfr hl g (with_attr g (dset (g_attr g) a v)).
Proof. intros Ha. constructor; try reflexivity. - constructor; reflexivity. - intros b Hb. cbn. apply dget_dset_ne. intros ->. contradiction. Qed.
Lemma dfr_color hl g n v : In n hl -> dfr hl g (fst (set_node_attr n "color" v g)).
Proof.
  intros Hn. destruct (dget (g_nodes g) n) as [d|] eqn:Hd.
  - assert (O : ok (set_node_attr n "color" v) g (fun _ h => dfr hl g h)).
    { apply ok_set_node_attr; [apply (dget_Some_keys Hd)|]. intros h H1 H2 H3 H4 H5 H6. constructor; auto; [|intros; congruence].
      intros x b Hb. rewrite H2. destruct (eq_dec (x, b) (n, "color")) as [[= -> ->]|]; [|reflexivity]. exfalso. apply Hb. auto. }
    apply ok_ex in O as (h & [] & E & H). rewrite E. exact H.
  - unfold set_node_attr. rewrite Hd. apply dfr_refl.
Qed.

Section Frame.
  Variable E : env.
  Variable gname : string.
  (* a property of the graph that the calls keep, whether they raise or not *)
  Variable P : graph -> Prop.
  Definition dkeep {A} (m : M world A) : Prop := forall w, P (w_graph w) -> always m w (fun w => P (w_graph w)).
  Lemma dk_ret {A} (a : A) : dkeep (ret a).
  Proof. intros w H. exact H. Qed.
  Lemma dk_fail {A} e : dkeep (fail e : M world A).
  Proof. intros w H. exact H. Qed.
  Lemma dk_bind {A B} (m : M world A) (f : A -> M world B) : dkeep m -> (forall a, dkeep (f a)) -> dkeep (bind m f).
  Proof. intros Hm Hf w H. apply always_bind; [apply Hm, H|]. intros a w' _ H'. apply Hf, H'. Qed.
  Lemma dk_try {A} (m h : M world A) : dkeep m -> dkeep h -> dkeep (try_any m h).
  Proof.
    intros Hm Hh w H. unfold always, try_any. pose proof (Hm w H) as K. unfold always in K. destruct (m w) as [w' [a|e]]; cbn [fst] in *; [exact K|]. apply Hh, K.
  Qed.
  Lemma dk_gets {A} (f : world -> A) : dkeep (gets f).
  Proof. intros w H. exact H. Qed.
  Lemma dk_tick : dkeep tick.
  Proof. intros w H. exact H. Qed.
  Lemma dk_files f : dkeep (modify (fun w => with_files w (f w))).
  Proof. intros w H. exact H. Qed.
  Lemma dk_put p c : dkeep (file_put p c).
  Proof. apply dk_files with (f := fun w q => if eqb q p then Some c else w_files w q). Qed.
  Lemma dk_remove p : dkeep (file_remove p).
  Proof. apply dk_files with (f := fun w q => if eqb q p then None else w_files w q). Qed.
  Lemma dk_fileget p : dkeep (file_get p).
  Proof. apply dk_gets. Qed.
  Lemma dk_append p c : dkeep (file_append p c).
  Proof. apply dk_bind; [apply dk_fileget|intros; apply dk_put]. Qed.
  Lemma dk_lift {A} (o : option A) e : dkeep (lift o e).
  Proof. destruct o; [apply dk_ret|apply dk_fail]. Qed.
  Lemma dk_outcome o : dkeep (outcome o).
  Proof. destruct o; [apply dk_fail|apply dk_ret]. Qed.
  Lemma dk_attr_get a : dkeep (attr_get a).
  Proof. apply dk_bind; [apply dk_gets|intros; apply dk_lift]. Qed.
  Lemma dk_dot : dkeep (dot_text gname).
  Proof. intros w H. exact H. Qed.
  Lemma dk_mkstemp : dkeep (mkstemp E).
  Proof. apply dk_bind; [apply dk_tick|]; intros k. apply dk_bind; [apply dk_gets|]; intros f. apply dk_bind; [apply dk_lift|]; intros p. apply dk_bind; [apply dk_put|intros; apply dk_ret]. Qed.
  Lemma dk_open p : dkeep (open_new E p).
  Proof. apply dk_bind; [apply dk_tick|]; intros k. destruct (e_open E k p); [apply dk_put|apply dk_fail]. Qed.
  Lemma dk_command c : dkeep (command E c).
  Proof. apply dk_bind; [apply dk_tick|]; intros k. apply dk_bind; [apply dk_gets|]; intros f. destruct (e_call E k c f). apply dk_bind; [|intros; apply dk_outcome]. intros w H. exact H. Qed.
  Lemma dk_create l f : dkeep (create E gname l f).
  Proof.
    apply dk_bind; [apply dk_mkstemp|]; intros t. apply dk_bind; [apply dk_dot|]; intros s. apply dk_bind; [apply dk_append|]; intros _.
    destruct l; try apply dk_fail. apply dk_bind; [apply dk_tick|]; intros k. apply dk_bind; [apply dk_fileget|]; intros c. destruct (e_graphviz _ _ _ _ _); [apply dk_ret|].
    destruct (code =? 0)%Z; [|apply dk_fail]. apply dk_bind; [apply dk_remove|intros; apply dk_ret].
  Qed.
  Lemma dk_write p l f : dkeep (write E gname p l f).
  Proof.
    apply dk_bind; [destruct l as [[]|]; try apply dk_ret; apply dk_attr_get|]. intros l'. destruct (eqb f "dot"); [apply dk_bind; [apply dk_dot|intros; apply dk_append]|].
    apply dk_bind; [apply dk_create|]. intros [o|]; [apply dk_append|apply dk_ret].
  Qed.
  Lemma dk_picture f u : dkeep (picture E gname f u).
  Proof.
    apply dk_bind; [apply dk_mkstemp|]; intros t. apply dk_bind; [apply dk_attr_get|]; intros l. apply dk_bind; [apply dk_write|]; intros _. apply dk_bind; [apply dk_tick|]; intros k.
    apply dk_bind; [apply dk_fileget|]; intros c. apply dk_bind; [apply dk_outcome|intros; apply dk_remove].
  Qed.
  Variable hl : list name.
  Lemma dk_set_attr a v : (forall g, P g -> P (with_attr g (dset (g_attr g) a v))) -> dkeep (attr_set a v).
  Proof. intros Ha w H. unfold always. cbn. apply Ha, H. Qed.
  Hypothesis HA : forall a v g, In a ["layout"; "d2tgraphstyle"] -> P g -> P (with_attr g (dset (g_attr g) a v)).
  Lemma dk_attr_set a v : In a ["layout"; "d2tgraphstyle"] -> dkeep (attr_set a v).
  Proof. intros Ha. apply dk_set_attr. intros g. apply HA, Ha. Qed.
  Lemma dk_set_layout v : dkeep (set_layout v).
  Proof. apply dk_bind; [apply dk_attr_set; simpl; tauto|]; intros _. destruct (eqb v (VS "dot2tex")); [apply dk_attr_set; simpl; tauto|apply dk_ret]. Qed.
  Lemma dk_dot2tex b f : dkeep (display_dot2tex E gname b f).
  Proof.
    apply dk_bind.
    - apply dk_try.
      + destruct (e_dot2tex E); [|apply dk_ret]. apply dk_bind; [apply dk_set_layout|]; intros _. apply dk_bind; [apply dk_dot|]; intros s. apply dk_bind; [apply dk_tick|]; intros k.
        apply dk_bind; [intros w H; exact H|intros; apply dk_ret].
      + apply dk_bind; [|intros; apply dk_ret]. apply dk_try; [|apply dk_ret]. apply dk_bind; [apply dk_set_layout|]; intros _. apply dk_bind; [apply dk_open|]; intros _.
        apply dk_bind; [apply dk_attr_get|]; intros l. apply dk_bind; [apply dk_write|intros; apply dk_command].
    - intros [tex fm]. apply dk_bind; [apply dk_open|]; intros _. apply dk_bind; [apply dk_lift|]; intros t. apply dk_bind; [apply dk_append|]; intros _.
      apply dk_try; [|apply dk_ret]. apply dk_bind; [apply dk_command|]; intros _. apply dk_bind; [|intros; apply dk_set_layout].
      destruct (eqb fm "ps"); [apply dk_command|]. destruct (eqb fm "pdf"); [apply dk_command|apply dk_ret].
  Qed.
  Hypothesis HC : forall n v g, In n hl -> P g -> P (fst (set_node_attr n "color" v g)).
  Lemma dk_highlight h c : (forall l, h = Some l -> incl l hl) -> dkeep (highlight_all h c).
  Proof.
    intros Hh. destruct h as [l|]; [|apply dk_ret]. specialize (Hh l eq_refl). intros w H. apply always_foldM; [exact H|]. intros _ n w' Hn H'. unfold always, lg.
    pose proof (HC (VS c) (Hh n Hn) H') as K. destruct (set_node_attr n "color" (VS c) (w_graph w')) as [h' r]. exact K.
  Qed.
  Hypothesis HD : forall v g, P g -> P (with_attr g (dset (g_attr g) "display" v)).
  Lemma dk_display h b f p c : (forall l, h = Some l -> incl l hl) -> dkeep (display E gname h b f p c).
  Proof.
    intros Hh. apply dk_bind; [apply dk_attr_get|]; intros d. destruct (eqb d (VS "off")); [apply dk_ret|].
    apply dk_bind; [apply dk_highlight, Hh|]; intros _. apply dk_bind; [apply dk_attr_get|]; intros l. apply dk_bind.
    { destruct (eqb l _); [|apply dk_ret]. apply dk_bind; [apply dk_attr_get|]; intros d'. destruct (eqb d' _); [apply dk_ret|apply dk_set_attr, HD]. }
    intros _. apply dk_bind; [apply dk_attr_get|]; intros d'. destruct (eqb d' (VS "file")).
    { apply dk_bind; [apply dk_attr_get|]; intros l'. destruct (eqb l' _); [apply dk_dot2tex|]. apply dk_bind; [apply dk_open|]; intros _. apply dk_bind; [apply dk_attr_get|intros; apply dk_write]. }
    apply dk_bind; [|intros; apply dk_highlight, Hh].
    destruct (eqb d' (VS "PIL")); [destruct (e_pil E); [apply dk_picture|apply dk_set_attr, HD]|].
    destruct (eqb d' (VS "matplotlib")); [destruct (e_matplotlib E && e_pil E); [apply dk_picture|apply dk_set_attr, HD]|].
    destruct (eqb d' (VS "xdot")); [|apply dk_ret]. destruct (e_xdot E); [|apply dk_set_attr, HD].
    apply dk_bind; [apply dk_dot|]; intros s. apply dk_bind; [apply dk_tick|]; intros k. apply dk_outcome.
  Qed.
End Frame.
Lemma display_frame E gname h b f p c w : dfr (hlist h) (w_graph w) (w_graph (fst (display E gname h b f p c w))).
Proof.
  apply (@dk_display E gname) with (P := dfr (hlist h) (w_graph w)) (hl := hlist h).
  - intros a v g Ha H. apply (dfr_trans H), dfr_attr. simpl in *. tauto.
  - intros n v g Hn H. apply (dfr_trans H), dfr_color, Hn.
  - intros v g H. apply (dfr_trans H), dfr_attr. simpl. tauto.
  - intros l ->. apply incl_refl.
  - apply dfr_refl.
Qed.
Lemma write_graph E gname p l f w : w_graph (fst (write E gname p l f w)) = w_graph w.
Proof. apply (dk_write E gname (P := fun g => g = w_graph w)). reflexivity. Qed.
Lemma create_graph E gname l f w : w_graph (fst (create E gname l f w)) = w_graph w.
Proof. apply (dk_create E gname (P := fun g => g = w_graph w)). reflexivity. Qed.

(** ** the result of a call that returns *)
Lemma wo_keep {A} (P : graph -> Prop) (m : M world A) w (Q : A -> world -> Prop) : dkeep P m -> P (w_graph w) -> (forall a w', P (w_graph w') -> Q a w') -> whenok m w Q.
Proof. intros K H HQ. apply whenok_weaken with (Q := fun _ w' => P (w_graph w')); [|intros; apply HQ; assumption]. Transparent whenok. intros a w' Hm. Opaque whenok. pose proof (K w H) as A0. unfold always in A0. rewrite Hm in A0. exact A0. Qed.
Lemma wo_attr a w (Q : val -> world -> Prop) : (forall v, dget (g_attr (w_graph w)) a = Some v -> Q v w) -> whenok (attr_get a) w Q.
Proof.
  intros HQ. unfold attr_get. apply whenok_bind. Transparent whenok. intros o w' [= <- <-]. Opaque whenok.
  destruct (dget (g_attr (w_graph w)) a) eqn:E; [apply whenok_ret, HQ; reflexivity|apply whenok_fail].
Qed.
Lemma wo_attr_set a v w (Q : unit -> world -> Prop) : Q tt (with_graph w (with_attr (w_graph w) (dset (g_attr (w_graph w)) a v))) -> whenok (attr_set a v) w Q.
Proof. intros HQ. Transparent whenok. intros u w' [= <- <-]. Opaque whenok. exact HQ. Qed.
(* after highlight_all *)
Definition colored (c : string) (l : list name) (g : graph) : Prop := forall n, In n l -> nattr g n "color" = VS c.
Lemma wo_highlight h c w : whenok (highlight_all h c) w (fun _ w' => colored c (hlist h) (w_graph w') /\ g_attr (w_graph w') = g_attr (w_graph w) /\
  w_files w' = w_files w /\ w_calls w' = w_calls w /\ forall n, In n (hlist h) -> In n (dkeys (g_nodes (w_graph w)))).
Proof.
  destruct h as [l|]; cbn [highlight_all]; [|apply whenok_ret; repeat split; intros n []].
  unfold forM_. apply whenok_foldM with (I := fun pre _ w' => colored c pre (w_graph w') /\ g_attr (w_graph w') = g_attr (w_graph w) /\ w_files w' = w_files w /\ w_calls w' = w_calls w /\
      (forall n, In n pre -> In n (dkeys (g_nodes (w_graph w)))) /\ dkeys (g_nodes (w_graph w')) = dkeys (g_nodes (w_graph w))).
  - repeat split; intros n [].
  - intros pre n post _ w1 El (C & A & Fs & Cl & N & K). Transparent whenok. intros u w2 H2. Opaque whenok.
    unfold lg in H2. destruct (dget (g_nodes (w_graph w1)) n) as [d|] eqn:Hd; [|unfold set_node_attr in H2; rewrite Hd in H2; discriminate].
    assert (O : ok (set_node_attr n "color" (VS c)) (w_graph w1) (fun _ h => colored c (pre ++ [n]) h /\ g_attr h = g_attr (w_graph w1) /\ dkeys (g_nodes h) = dkeys (g_nodes (w_graph w1)))).
    { apply ok_set_node_attr; [apply (dget_Some_keys Hd)|]. intros h S N2 E2 A2 C2 _. split; [|split; [exact A2|apply (ss_nodes S)]].
      intros m Hm. rewrite N2. destruct (eq_dec (m, "color") (n, "color")) as [_|Hne]; [reflexivity|]. apply C. apply in_app_iff in Hm as [Hm|[<-|[]]]; [exact Hm|congruence]. }
    apply ok_ex in O as (h & [] & Eo & C2 & A2 & K2). rewrite Eo in H2. injection H2 as <- <-. cbn [w_graph with_graph w_files w_calls].
    split; [exact C2|]. split; [congruence|]. split; [exact Fs|]. split; [exact Cl|]. split; [|congruence].
    intros m Hm. apply in_app_iff in Hm as [Hm|[<-|[]]]; [apply N, Hm|]. rewrite <- K. apply (dget_Some_keys Hd).
  - intros _ w1 (C & A & Fs & Cl & N & _). auto.
Qed.

Lemma wo_try {A} (m h : M world A) w (Q : A -> world -> Prop) : whenok m w Q -> (forall w1 e, m w = (w1, Err e) -> whenok h w1 Q) -> whenok (try_any m h) w Q.
Proof.
  intros Hm Hh. Transparent whenok. intros a w' H. unfold try_any in H. destruct (m w) as [w1 [a1|e]] eqn:E; [injection H as -> ->; apply Hm; exact E|]. apply (Hh w1 e eq_refl). exact H. Opaque whenok.
Qed.
Lemma dk_err {A} (P : graph -> Prop) (m : M world A) w w' r : dkeep P m -> P (w_graph w) -> m w = (w', r) -> P (w_graph w').
Proof. intros K H E. pose proof (K w H) as A0. unfold always in A0. rewrite E in A0. exact A0. Qed.
(* display_dot2tex returns only if the library is there; the layout may end as 'dot' *)
Lemma wo_dot2tex E gname b f w : whenok (display_dot2tex E gname b f) w (fun _ w' => e_dot2tex E = true /\
  (dget (g_attr (w_graph w')) "layout" = Some (VS "dot") \/ dget (g_attr (w_graph w')) "layout" = Some (VS "dot2tex"))).
Proof.
  unfold display_dot2tex. apply whenok_bind.
  apply whenok_weaken with (Q := fun r w1 => fst r = None \/ (e_dot2tex E = true /\ dget (g_attr (w_graph w1)) "layout" = Some (VS "dot"))).
  - apply wo_try.
    + destruct (e_dot2tex E); [|apply whenok_ret; left; reflexivity]. apply whenok_bind. unfold set_layout. apply whenok_bind, wo_attr_set.
      destruct (eqb_spec (VS "dot") (VS "dot2tex")); [discriminate|]. apply whenok_ret.
      set (w1 := with_graph _ _). assert (L : dget (g_attr (w_graph w1)) "layout" = Some (VS "dot")) by apply dget_dset_eq. clearbody w1.
      apply (wo_keep (P := fun g => dget (g_attr g) "layout" = Some (VS "dot"))); [|exact L|auto].
      apply dk_bind; [apply dk_dot|]. intros s. apply dk_bind; [apply dk_tick|]. intros k. apply dk_bind; [intros w2 H2; exact H2|]. intros t. apply dk_ret.
    + intros w1 e _. apply whenok_bind. Transparent whenok. intros u w2 _ r w3 [= <- <-]. Opaque whenok. left. reflexivity.
  - intros [tex fm] w1 H. cbn [fst] in H. destruct H as [->|[Hd L]].
    { apply whenok_bind. Transparent whenok. intros u w2 _ r w3 H. Opaque whenok. cbn [lift] in H. unfold bind, fail in H. discriminate. }
    apply whenok_bind. apply (wo_keep (P := fun g => dget (g_attr g) "layout" = Some (VS "dot"))); [apply dk_open|exact L|]. intros _ w2 L2.
    apply whenok_bind. apply (wo_keep (P := fun g => dget (g_attr g) "layout" = Some (VS "dot"))); [apply dk_lift|exact L2|]. intros t w3 L3.
    apply whenok_bind. apply (wo_keep (P := fun g => dget (g_attr g) "layout" = Some (VS "dot"))); [apply dk_append|exact L3|]. intros _ w4 L4.
    apply (wo_keep (P := fun g => dget (g_attr g) "layout" = Some (VS "dot") \/ dget (g_attr g) "layout" = Some (VS "dot2tex"))); [|auto|auto].
    apply dk_try; [|apply dk_ret]. apply dk_bind; [apply dk_command|]. intros _. apply dk_bind.
    + destruct (eqb fm "ps"); [apply dk_command|]. destruct (eqb fm "pdf"); [apply dk_command|apply dk_ret].
    + intros _ w5 L5. right. unfold set_layout. cbn. rewrite dget_dset_ne by discriminate. apply dget_dset_eq.
Qed.
Lemma wo_display E gname h b f p c w m : dget (g_attr (w_graph w)) "display" = Some m -> m <> VS "off" ->
  whenok (display E gname h b f p c) w (fun _ w' => exists l, dget (g_attr (w_graph w)) "layout" = Some l /\
    let hl := hlist h in
    (forall n, In n hl -> In n (dkeys (g_nodes (w_graph w)))) /\
    (m = VS "file" \/ l = VS "dot2tex" -> colored "red" hl (w_graph w') /\ dget (g_attr (w_graph w')) "display" = Some (VS "file")) /\
    (m <> VS "file" -> l <> VS "dot2tex" -> colored "black" hl (w_graph w') /\ dget (g_attr (w_graph w')) "display" = Some (if missing E m then VS "off" else m)) /\
    (l <> VS "dot2tex" -> dget (g_attr (w_graph w')) "layout" = Some l) /\
    (l = VS "dot2tex" -> e_dot2tex E = true /\ (dget (g_attr (w_graph w')) "layout" = Some (VS "dot") \/ dget (g_attr (w_graph w')) "layout" = Some (VS "dot2tex")))).
Proof.
  intros Hm Hoff. unfold display. apply whenok_bind, wo_attr. intros v Hv. rewrite Hm in Hv. injection Hv as <-. rewrite (proj2 (eqb_false _ _) Hoff).
  set (hl := hlist h).
  apply whenok_bind. eapply whenok_weaken; [apply wo_highlight|]. intros _ w1 (C1 & A1 & _ & _ & N1). fold hl in C1, N1.
  apply whenok_bind, wo_attr. intros l Hl. rewrite A1 in Hl.
  apply whenok_bind.
  apply whenok_weaken with (Q := fun _ w2 => colored "red" hl (w_graph w2) /\ dget (g_attr (w_graph w2)) "layout" = Some l /\ dget (g_attr (w_graph w2)) "display" = Some (if eqb l (VS "dot2tex") then VS "file" else m)).
  { destruct (eqb_spec l (VS "dot2tex")) as [Hd|Hd].
    - apply whenok_bind, wo_attr. intros v Hv. rewrite A1, Hm in Hv. injection Hv as <-. destruct (eqb_spec m (VS "file")) as [Hf|Hf].
      + apply whenok_ret. rewrite A1. split; [exact C1|]. split; [exact Hl|]. congruence.
      + apply wo_attr_set. cbn [w_graph with_graph g_attr with_attr]. split; [exact C1|]. split; [rewrite dget_dset_ne by discriminate; rewrite A1; exact Hl|apply dget_dset_eq].
    - apply whenok_ret. rewrite A1. auto. }
  intros _ w2 (C2 & L2 & D2). apply whenok_bind, wo_attr. intros v Hv. rewrite D2 in Hv. injection Hv as <-.
  destruct (eqb_spec (if eqb l (VS "dot2tex") then VS "file" else m) (VS "file")) as [Hf|Hf].
  - rewrite Hf in D2. set (P := fun g => colored "red" hl g /\ dget (g_attr g) "display" = Some (VS "file")).
    assert (HP : forall a v g, In a ["layout"; "d2tgraphstyle"] -> P g -> P (with_attr g (dset (g_attr g) a v))).
    { intros a v g Ha [G1 G2]. split; [exact G1|]. cbn [g_attr with_attr]. rewrite dget_dset_ne; [exact G2|]. simpl in Ha. intuition congruence. }
    apply whenok_bind, wo_attr. intros v Hv. rewrite L2 in Hv. injection Hv as <-. destruct (eqb_spec l (VS "dot2tex")) as [Hd|Hd].
    + Transparent whenok. intros u w' Hw'. Opaque whenok.
      pose proof (whenok_elim (@wo_dot2tex E gname b f w2) Hw') as [T1 T2]. pose proof (@dk_err _ P _ w2 w' _ (dk_dot2tex E gname HP b f) (conj C2 D2) Hw') as K.
      exists l. split; [exact Hl|]. split; [exact N1|]. split; [intros _; exact K|]. split; [congruence|]. split; [congruence|]. auto.
    + apply (wo_keep (P := fun g => P g /\ dget (g_attr g) "layout" = Some l)).
      * apply dk_bind; [apply dk_open|]. intros _. apply dk_bind; [apply dk_attr_get|]. intros l'. apply dk_write.
      * split; [split; [exact C2|exact D2]|exact L2].
      * intros _ w' [K1 K2]. exists l. split; [exact Hl|]. split; [exact N1|]. split; [intros _; exact K1|]. split; [congruence|]. split; [intros _; exact K2|contradiction].
  - destruct (eqb_spec l (VS "dot2tex")) as [Hd|Hd]; [contradiction|].
    apply whenok_bind. apply whenok_weaken with (Q := fun _ w3 => dget (g_attr (w_graph w3)) "layout" = Some l /\ dget (g_attr (w_graph w3)) "display" = Some (if missing E m then VS "off" else m)).
    { assert (Off : whenok (attr_set "display" (VS "off")) w2 (fun _ w3 => dget (g_attr (w_graph w3)) "layout" = Some l /\ dget (g_attr (w_graph w3)) "display" = Some (VS "off"))).
      { apply wo_attr_set. cbn [w_graph with_graph g_attr with_attr]. rewrite dget_dset_ne by discriminate. rewrite dget_dset_eq. auto. }
      assert (Same : forall A (x : M world A), dkeep (fun g => dget (g_attr g) "layout" = Some l /\ dget (g_attr g) "display" = Some m) x ->
        whenok x w2 (fun _ w3 => dget (g_attr (w_graph w3)) "layout" = Some l /\ dget (g_attr (w_graph w3)) "display" = Some m)) by (intros A x K; apply (wo_keep K); auto).
      unfold missing. destruct (eqb m (VS "PIL")); [destruct (e_pil E); [apply Same, dk_picture|exact Off]|].
      destruct (eqb m (VS "matplotlib")); [destruct (e_matplotlib E && e_pil E); [apply Same, dk_picture|exact Off]|].
      destruct (eqb m (VS "xdot")); [|apply Same, dk_ret]. destruct (e_xdot E); [|exact Off]. apply Same.
      apply dk_bind; [apply dk_dot|]; intros s. apply dk_bind; [apply dk_tick|]; intros k. apply dk_outcome. }
    intros _ w3 [L3 D3]. eapply whenok_weaken; [apply wo_highlight|]. intros _ w4 (C4 & A4 & _). fold hl in C4. exists l. split; [exact Hl|]. split; [exact N1|]. rewrite A4.
    split; [intros [?|?]; contradiction|]. split; [auto|]. split; [auto|contradiction].
Qed.
