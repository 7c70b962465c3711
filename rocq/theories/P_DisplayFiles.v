(* The files that display, write and create leave behind. *)
From Verif Require Import Py Util M_Graph M_Dot M_Display S_Display P_Graph P_Attr P_Display.
Set Implicit Arguments. Unset Strict Implicit.
Local Open Scope string_scope. Local Open Scope list_scope.

Section Kept.
  Variable E : env.
  Variable gname : string.
  Hypothesis Hfresh : fresh_temp E.
  (* the files at the start, and the paths that may be changed *)
  Variable f0 : fs.
  Variable W : string -> Prop.
  Definition kept (w : world) : Prop := forall p, f0 p <> None -> ~ W p -> w_files w p = f0 p.
  Definition may (p : string) : Prop := f0 p <> None -> ~ W p -> False.
  Definition fk {A} (m : M world A) : Prop := forall w, kept w -> always m w kept.
  Lemma fk_ret {A} (a : A) : fk (ret a).
  Proof. intros w H. exact H. Qed.
  Lemma fk_fail {A} e : fk (fail e : M world A).
  Proof. intros w H. exact H. Qed.
  Lemma fk_bind {A B} (m : M world A) (f : A -> M world B) : fk m -> (forall a, fk (f a)) -> fk (bind m f).
  Proof. intros Hm Hf w H. apply always_bind; [apply Hm, H|]. intros a w' _ H'. apply Hf, H'. Qed.
  Lemma fk_try {A} (m h : M world A) : fk m -> fk h -> fk (try_any m h).
  Proof.
    intros Hm Hh w H. unfold always, try_any. pose proof (Hm w H) as K. unfold always in K. destruct (m w) as [w' [a|e]]; cbn [fst] in *; [exact K|]. apply Hh, K.
  Qed.
  Lemma fk_gets {A} (f : world -> A) : fk (gets f).
  Proof. intros w H. exact H. Qed.
  Lemma fk_tick : fk tick.
  Proof. intros w H. exact H. Qed.
  Lemma fk_lg {A} (m : M graph A) : fk (lg m).
  Proof. intros w H. unfold always, lg. destruct (m (w_graph w)). exact H. Qed.
  Lemma fk_put p c : may p -> fk (file_put p c).
  Proof. intros Hp w H q Hq Hw. cbn. destruct (eqb_spec q p) as [->|]; [destruct (Hp Hq Hw)|apply H; assumption]. Qed.
  Lemma fk_remove p : may p -> fk (file_remove p).
  Proof. intros Hp w H q Hq Hw. cbn. destruct (eqb_spec q p) as [->|]; [destruct (Hp Hq Hw)|apply H; assumption]. Qed.
  Lemma fk_append p c : may p -> fk (file_append p c).
  Proof. intros Hp. apply fk_bind; [apply fk_gets|intros; apply fk_put, Hp]. Qed.
  Lemma fk_lift {A} (o : option A) e : fk (lift o e).
  Proof. destruct o; [apply fk_ret|apply fk_fail]. Qed.
  Lemma fk_outcome o : fk (outcome o).
  Proof. destruct o; [apply fk_fail|apply fk_ret]. Qed.
  Lemma fk_attr_get a : fk (attr_get a).
  Proof. apply fk_bind; [apply fk_gets|intros; apply fk_lift]. Qed.
  Lemma fk_attr_set a v : fk (attr_set a v).
  Proof. apply fk_lg. Qed.
  Lemma fk_dot : fk (dot_text gname).
  Proof. intros w H. exact H. Qed.
  (* what follows mkstemp may change the new file *)
  Lemma fk_mkstemp {B} (f : string -> M world B) : (forall p, may p -> fk (f p)) -> fk (bind (mkstemp E) f).
  Proof.
    intros Hf w H. unfold always, mkstemp, tick, gets, lift, bind, ret, fail. cbn.
    destruct (e_mkstemp E (w_calls w) (w_files w)) as [p|] eqn:Ep; [|exact H]. cbn.
    assert (Hp : may p). { intros A B0. apply A. rewrite <- (H p A B0). apply (Hfresh Ep). }
    apply (Hf p Hp). refine (@fk_put p "" Hp _ _). exact H.
  Qed.
  Lemma fk_open p : may p -> fk (open_new E p).
  Proof. intros Hp. apply fk_bind; [apply fk_tick|]; intros k. destruct (e_open E k p); [apply fk_put, Hp|apply fk_fail]. Qed.
  Lemma fk_create l f : fk (create E gname l f).
  Proof.
    apply fk_mkstemp; intros t Ht. apply fk_bind; [apply fk_dot|]; intros s. apply fk_bind; [apply fk_append, Ht|]; intros _.
    destruct l; try apply fk_fail. apply fk_bind; [apply fk_tick|]; intros k. apply fk_bind; [apply fk_gets|]; intros c. destruct (e_graphviz _ _ _ _ _); [apply fk_ret|].
    destruct (code =? 0)%Z; [|apply fk_fail]. apply fk_bind; [apply fk_remove, Ht|intros; apply fk_ret].
  Qed.
  Lemma fk_write p l f : may p -> fk (write E gname p l f).
  Proof.
    intros Hp. apply fk_bind; [destruct l as [[]|]; try apply fk_ret; apply fk_attr_get|]. intros l'. destruct (eqb f "dot"); [apply fk_bind; [apply fk_dot|intros; apply fk_append, Hp]|].
    apply fk_bind; [apply fk_create|]. intros [o|]; [apply fk_append, Hp|apply fk_ret].
  Qed.
  Lemma fk_picture f u : fk (picture E gname f u).
  Proof.
    apply fk_mkstemp; intros t Ht. apply fk_bind; [apply fk_attr_get|]; intros l. apply fk_bind; [apply fk_write, Ht|]; intros _. apply fk_bind; [apply fk_tick|]; intros k.
    apply fk_bind; [apply fk_gets|]; intros c. apply fk_bind; [apply fk_outcome|intros; apply fk_remove, Ht].
  Qed.
  Lemma fk_set_layout v : fk (set_layout v).
  Proof. apply fk_bind; [apply fk_attr_set|]; intros _. destruct (eqb v (VS "dot2tex")); [apply fk_attr_set|apply fk_ret]. Qed.
  Lemma fk_highlight h c : fk (highlight_all h c).
  Proof. destruct h as [l|]; [|apply fk_ret]. intros w H. apply always_foldM; [exact H|]. intros _ n w' Hn H'. apply fk_lg, H'. Qed.
  Lemma fk_command c : commands_change_only E W -> fk (command E c).
  Proof.
    intros Hc. intros w H. unfold always, command, tick, gets, bind. cbn. pose proof (Hc (w_calls w) c (w_files w)) as K. destruct (e_call E (w_calls w) c (w_files w)) as [f o]. cbn in *.
    assert (H' : kept (with_files (mkWorld (w_graph w) (w_files w) (Datatypes.S (w_calls w))) f)). { intros p A B. cbn. rewrite (K p B). apply H; assumption. }
    destruct o; exact H'.
  Qed.
  Lemma fk_dot2tex b f : commands_change_only E W -> W (b ++ ".dot")%string -> W (b ++ ".tex")%string -> fk (display_dot2tex E gname b f).
  Proof.
    intros Hc Hd Ht. assert (Md : may (b ++ ".dot")%string) by (intros _ H; contradiction). assert (Mt : may (b ++ ".tex")%string) by (intros _ H; contradiction).
    apply fk_bind.
    - apply fk_try.
      + destruct (e_dot2tex E); [|apply fk_ret]. apply fk_bind; [apply fk_set_layout|]; intros _. apply fk_bind; [apply fk_dot|]; intros s. apply fk_bind; [apply fk_tick|]; intros k.
        apply fk_bind; [intros w H; exact H|intros; apply fk_ret].
      + apply fk_bind; [|intros; apply fk_ret]. apply fk_try; [|apply fk_ret]. apply fk_bind; [apply fk_set_layout|]; intros _. apply fk_bind; [apply fk_open, Md|]; intros _.
        apply fk_bind; [apply fk_attr_get|]; intros l. apply fk_bind; [apply fk_write, Md|intros; apply fk_command, Hc].
    - intros [tex fm]. apply fk_bind; [apply fk_open, Mt|]; intros _. apply fk_bind; [apply fk_lift|]; intros t. apply fk_bind; [apply fk_append, Mt|]; intros _.
      apply fk_try; [|apply fk_ret]. apply fk_bind; [apply fk_command, Hc|]; intros _. apply fk_bind; [|intros; apply fk_set_layout].
      destruct (eqb fm "ps"); [apply fk_command, Hc|]. destruct (eqb fm "pdf"); [apply fk_command, Hc|apply fk_ret].
  Qed.
  Lemma always_attr a w {B} (f : val -> M world B) (I : world -> Prop) : I w -> (forall v, dget (g_attr (w_graph w)) a = Some v -> always (f v) w I) -> always (bind (attr_get a) f) w I.
  Proof. intros H Hf. unfold always, attr_get, gets, bind, lift. cbn. destruct (dget (g_attr (w_graph w)) a) as [v|] eqn:Ev; [apply (Hf v eq_refl)|exact H]. Qed.
  Lemma display_kept h b f p c w : kept w ->
    (dget (g_attr (w_graph w)) "layout" = Some (VS "dot2tex") -> commands_change_only E W /\ W (b ++ ".dot")%string /\ W (b ++ ".tex")%string) ->
    (dget (g_attr (w_graph w)) "layout" <> Some (VS "dot2tex") -> dget (g_attr (w_graph w)) "display" = Some (VS "file") -> W (b ++ "." ++ f)%string) ->
    always (display E gname h b f p c) w kept.
  Proof.
    intros H Hx Hf. unfold display. apply always_attr; [exact H|]. intros m Hm. destruct (eqb_spec m (VS "off")); [apply fk_ret, H|].
    assert (Lg : forall w1, highlight_all h "red" w = (w1, Ok tt) -> g_attr (w_graph w1) = g_attr (w_graph w)).
    { intros w1 E1. apply (whenok_elim (@wo_highlight h "red" w) E1). }
    apply always_bind; [apply fk_highlight, H|]. intros [] w1 E1 H1. specialize (Lg w1 E1). rewrite <- Lg in Hm, Hx, Hf.
    apply always_attr; [exact H1|]. intros l Hl. rewrite Hl in Hx, Hf.
    apply always_bind.
    { destruct (eqb l (VS "dot2tex")); [|apply fk_ret, H1]. apply fk_bind; [apply fk_attr_get| |exact H1]. intros d. destruct (eqb d _); [apply fk_ret|apply fk_attr_set]. }
    intros [] w2 E2 H2.
    assert (A2 : dget (g_attr (w_graph w2)) "layout" = Some l /\ (l <> VS "dot2tex" -> w_graph w2 = w_graph w1)).
    { revert E2. destruct (eqb_spec l (VS "dot2tex")) as [Hd|Hd]; [|intros [= <-]; auto]. unfold attr_get, gets, lift, bind. cbn. rewrite Hm.
      cbn. destruct (eqb m (VS "file")); intros [= <-]; [split; [exact Hl|reflexivity]|]. cbn. rewrite dget_dset_ne by discriminate. split; [exact Hl|contradiction]. }
    destruct A2 as [L2 G2]. apply always_attr; [exact H2|]. intros d Hd. destruct (eqb_spec d (VS "file")) as [->|Hnf].
    - apply always_attr; [exact H2|]. intros l' Hl'. rewrite L2 in Hl'. injection Hl' as <-. destruct (eqb_spec l (VS "dot2tex")) as [->|Hnd].
      + destruct (Hx eq_refl) as (X1 & X2 & X3). apply fk_dot2tex; assumption.
      + rewrite (G2 Hnd) in Hd. assert (Mf : may (b ++ "." ++ f)%string). { intros _ K. apply K, Hf; [congruence|exact Hd]. }
        apply fk_bind; [apply fk_open, Mf| |exact H2]. intros _. apply fk_bind; [apply fk_attr_get|intros; apply fk_write, Mf].
    - apply fk_bind; [|intros; apply fk_highlight|exact H2].
      destruct (eqb d (VS "PIL")); [destruct (e_pil E); [apply fk_picture|apply fk_attr_set]|].
      destruct (eqb d (VS "matplotlib")); [destruct (e_matplotlib E && e_pil E); [apply fk_picture|apply fk_attr_set]|].
      destruct (eqb d (VS "xdot")); [|apply fk_ret]. destruct (e_xdot E); [|apply fk_attr_set].
      apply fk_bind; [apply fk_dot|]; intros s. apply fk_bind; [apply fk_tick|]; intros k. apply fk_outcome.
  Qed.
End Kept.

(** ** the files after a call that returns *)
Lemma wo_gets {A} (f : world -> A) w (Q : A -> world -> Prop) : Q (f w) w -> whenok (gets f) w Q.
Proof. intros H. Transparent whenok. intros a w' [= <- <-]. Opaque whenok. exact H. Qed.
Lemma wo_modify (f : world -> world) w (Q : unit -> world -> Prop) : Q tt (f w) -> whenok (modify f) w Q.
Proof. intros H. Transparent whenok. intros a w' [= <- <-]. Opaque whenok. exact H. Qed.
Lemma wo_lift {A} (o : option A) e w (Q : A -> world -> Prop) : (forall a, o = Some a -> Q a w) -> whenok (lift o e) w Q.
Proof. intros H. destruct o; [apply whenok_ret, H; reflexivity|apply whenok_fail]. Qed.
Lemma wo_tick w (Q : nat -> world -> Prop) : Q (w_calls w) (mkWorld (w_graph w) (w_files w) (Datatypes.S (w_calls w))) -> whenok tick w Q.
Proof. intros H. Transparent whenok. intros a w' [= <- <-]. Opaque whenok. exact H. Qed.
Lemma wo_dot gname w (Q : string -> world -> Prop) : (forall s, to_string gname (w_graph w) = Ok s -> Q s w) -> whenok (dot_text gname) w Q.
Proof. intros H. Transparent whenok. intros a w' K. Opaque whenok. unfold dot_text in K. destruct (to_string gname (w_graph w)) eqn:T; [|discriminate]. injection K as <- <-. apply H. reflexivity. Qed.
Lemma wo_append p c w (Q : unit -> world -> Prop) :
  (forall f, f p = Some ((match w_files w p with Some o => o | None => "" end) ++ c)%string -> fs_eq_but p f (w_files w) -> Q tt (with_files w f)) -> whenok (file_append p c) w Q.
Proof.
  intros H. unfold file_append. apply whenok_bind, wo_gets, wo_modify, H; [rewrite eqb_refl; reflexivity|]. intros q Hq. destruct (eqb_spec q p); [contradiction|reflexivity].
Qed.
Section Returned.
  Variable E : env.
  Variable gname : string.
  Hypothesis Hfresh : fresh_temp E.
  (* what create gives: the output of Graphviz on the text of the graph, and no file is left *)
  Definition created (layout : val) (format : string) (w : world) (r : option string) (f' : fs) : Prop :=
    exists l s k, layout = VS l /\ to_string gname (w_graph w) = Ok s /\
      match r with
      | Some o => e_graphviz E k l format s = Ended 0 o /\ fs_eq f' (w_files w)
      | None => e_graphviz E k l format s = NotStarted /\ exists t, w_files w t = None /\ f' t = Some s /\ fs_eq_but t f' (w_files w)
      end.
  Lemma wo_create layout format w : whenok (create E gname layout format) w (fun r w' => w_graph w' = w_graph w /\ created layout format w r (w_files w')).
  Proof.
    unfold create, mkstemp. apply whenok_bind, whenok_bind, wo_tick. cbn [w_files w_graph w_calls]. apply whenok_bind, wo_gets. cbn [w_files w_graph w_calls]. apply whenok_bind, wo_lift. intros t Ht. pose proof (Hfresh Ht) as Ft.
    apply whenok_bind. unfold file_put at 1. apply wo_modify. apply whenok_ret. apply whenok_bind, wo_dot. cbn [w_files w_graph w_calls with_files]. intros s Hs.
    apply whenok_bind, wo_append. cbn [w_files w_graph w_calls with_files]. rewrite eqb_refl. cbn [append]. intros f F1 F2. destruct layout; try apply whenok_fail.
    apply whenok_bind, wo_tick. cbn [w_files w_graph w_calls with_files]. apply whenok_bind. unfold file_get. apply wo_gets. cbn [w_files w_graph w_calls with_files]. rewrite F1.
    assert (F3 : fs_eq_but t f (w_files w)). { intros p Hp. rewrite (F2 p Hp). destruct (eqb_spec p t); [contradiction|reflexivity]. }
    destruct (e_graphviz E (Datatypes.S (w_calls w)) s0 format s) as [|code out] eqn:G.
    - apply whenok_ret. split; [reflexivity|]. exists s0, s, (Datatypes.S (w_calls w)). split; [reflexivity|]. split; [exact Hs|]. split; [exact G|]. exists t. auto.
    - destruct (Z.eqb_spec code 0) as [->|]; [|apply whenok_fail]. apply whenok_bind. unfold file_remove. apply wo_modify, whenok_ret. cbn [w_files w_graph w_calls with_files].
      split; [reflexivity|]. exists s0, s, (Datatypes.S (w_calls w)). split; [reflexivity|]. split; [exact Hs|]. split; [exact G|].
      intros p. destruct (eqb_spec p t) as [->|Hp]; [symmetry; exact Ft|apply F3, Hp].
  Qed.
  (* what write gives: [old] is the content of the file before *)
  Definition written (p : string) (layout : val) (format old : string) (w : world) (f' : fs) : Prop :=
    exists s, to_string gname (w_graph w) = Ok s /\
      if eqb format "dot" then f' p = Some (old ++ s)%string /\ fs_eq_but p f' (w_files w)
      else exists l k, layout = VS l /\
        ((exists o, e_graphviz E k l format s = Ended 0 o /\ f' p = Some (old ++ o)%string /\ fs_eq_but p f' (w_files w)) \/
         (e_graphviz E k l format s = NotStarted /\ exists t, t <> p /\ w_files w t = None /\ f' t = Some s /\ fs_eq_but t f' (w_files w))).
  Lemma wo_write p l format old w : w_files w p = Some old -> l <> VNone ->
    whenok (write E gname p (Some l) format) w (fun _ w' => w_graph w' = w_graph w /\ written p l format old w (w_files w')).
  Proof.
    intros Hp Hl. unfold write, written. apply whenok_bind. replace (match Some l with Some VNone | None => get_layout | Some l0 => ret l0 end) with (ret l : M world val) by (destruct l; congruence).
    apply whenok_ret. destruct (eqb format "dot").
    - apply whenok_bind, wo_dot. intros s Hs. apply wo_append. rewrite Hp. intros f F1 F2. split; [reflexivity|]. exists s. auto.
    - apply whenok_bind. eapply whenok_weaken; [apply wo_create|]. intros r w1 [G1 (ls & s & k & -> & Hs & R)]. destruct r as [o|].
      + destruct R as [R1 R2]. apply wo_append. rewrite (R2 p), Hp. intros f F1 F2. split; [exact G1|]. exists s. split; [exact Hs|]. exists ls, k. split; [reflexivity|]. left. exists o.
        split; [exact R1|]. split; [exact F1|]. intros q Hq. cbn [w_files with_files]. rewrite (F2 q Hq). apply R2.
      + apply whenok_ret. split; [exact G1|]. exists s. split; [exact Hs|]. exists ls, k. split; [reflexivity|]. right. destruct R as [R1 (t & R2 & R3 & R4)]. split; [exact R1|]. exists t. split; [congruence|auto].
  Qed.
  Lemma wo_open p w (Q : unit -> world -> Prop) :
    (forall f n, f p = Some "" -> fs_eq_but p f (w_files w) -> Q tt (mkWorld (w_graph w) f n)) -> whenok (open_new E p) w Q.
  Proof.
    intros H. unfold open_new. apply whenok_bind, wo_tick. destruct (e_open E (w_calls w) p); [|apply whenok_fail]. unfold file_put. apply wo_modify. apply H; [rewrite eqb_refl; reflexivity|].
    intros q Hq. cbn. destruct (eqb_spec q p); [contradiction|reflexivity].
  Qed.
  (* display mode 'file' *)
  Lemma wo_display_file h b f p c w l : dget (g_attr (w_graph w)) "display" = Some (VS "file") -> dget (g_attr (w_graph w)) "layout" = Some l ->
    l <> VS "dot2tex" -> l <> VNone ->
    whenok (display E gname h b f p c) w (fun _ w' => exists w0, w_graph w0 = w_graph w' /\ fs_eq_but (b ++ "." ++ f)%string (w_files w0) (w_files w) /\
      written (b ++ "." ++ f)%string l f "" w0 (w_files w') /\ w_files w0 (b ++ "." ++ f)%string = Some "").
  Proof.
    intros Hm Hl Hd Hn. unfold display. apply whenok_bind, wo_attr. intros v Hv. rewrite Hm in Hv. injection Hv as <-. cbn [eqb]. destruct (eqb_spec (VS "file") (VS "off")); [discriminate|].
    apply whenok_bind. eapply whenok_weaken; [apply wo_highlight|]. intros _ w1 (C1 & A1 & F1 & K1 & _).
    apply whenok_bind, wo_attr. intros v Hv. rewrite A1, Hl in Hv. injection Hv as <-. apply whenok_bind. destruct (eqb_spec l (VS "dot2tex")); [contradiction|]. apply whenok_ret.
    apply whenok_bind, wo_attr. intros v Hv. rewrite A1, Hm in Hv. injection Hv as <-. destruct (eqb_spec (VS "file") (VS "file")); [|contradiction].
    apply whenok_bind, wo_attr. intros v Hv. rewrite A1, Hl in Hv. injection Hv as <-. destruct (eqb_spec l (VS "dot2tex")); [contradiction|].
    apply whenok_bind, wo_open. intros f1 k1 P1 P2. apply whenok_bind, wo_attr. cbn [w_graph]. intros v Hv. rewrite A1, Hl in Hv. injection Hv as <-.
    eapply whenok_weaken; [apply wo_write with (old := ""); [exact P1|exact Hn]|]. intros _ w' [G W']. eexists. split; [symmetry; exact G|]. cbn [w_files]. split; [|split; [exact W'|exact P1]].
    intros q Hq. rewrite (P2 q Hq), F1. reflexivity.
  Qed.
  (* a picture *)
  Definition pictured (format : string) (use : nat -> string -> option exn) (w : world) (f' : fs) : Prop :=
    exists s k c, to_string gname (w_graph w) = Ok s /\ use k c = None /\
      ((format = "dot" /\ c = s /\ fs_eq f' (w_files w)) \/
       (format <> "dot" /\ exists k' l, dget (g_attr (w_graph w)) "layout" = Some (VS l) /\
          ((e_graphviz E k' l format s = Ended 0 c /\ fs_eq f' (w_files w)) \/
           (e_graphviz E k' l format s = NotStarted /\ c = "")))).
  Lemma wo_picture format use w : dget (g_attr (w_graph w)) "layout" <> Some VNone ->
    whenok (picture E gname format use) w (fun _ w' => w_graph w' = w_graph w /\ pictured format use w (w_files w')).
  Proof.
    intros Hn. unfold picture, mkstemp. apply whenok_bind, whenok_bind, wo_tick. cbn [w_files w_graph w_calls]. apply whenok_bind, wo_gets. cbn [w_files w_graph w_calls]. apply whenok_bind, wo_lift. intros t Ht. pose proof (Hfresh Ht) as Ft.
    apply whenok_bind. unfold file_put at 1. apply wo_modify. apply whenok_ret. apply whenok_bind, wo_attr. cbn [w_graph with_files]. intros l Hl. apply whenok_bind.
    set (w1 := with_files _ _). assert (Pt : w_files w1 t = Some "") by (cbn; rewrite eqb_refl; reflexivity).
    assert (Po : fs_eq_but t (w_files w1) (w_files w)) by (intros q Hq; cbn; destruct (eqb_spec q t); [contradiction|reflexivity]).
    assert (Pg : w_graph w1 = w_graph w) by reflexivity. clearbody w1.
    eapply whenok_weaken; [apply wo_write with (old := ""); [exact Pt|congruence]|]. intros _ w2 [G2 W2]. apply whenok_bind, wo_tick. apply whenok_bind. unfold file_get. apply wo_gets. cbn [w_files w_graph].
    apply whenok_bind. destruct W2 as (s & Hs & W2). rewrite Pg in Hs.
    set (c := match w_files w2 t with Some c => c | None => "" end). destruct (use (w_calls w2) c) as [e|] eqn:U; [apply whenok_fail|]. apply whenok_ret. unfold file_remove. apply wo_modify. cbn [w_files w_graph with_files].
    split; [congruence|]. exists s, (w_calls w2), c. split; [exact Hs|]. split; [exact U|].
    assert (Gone : fs_eq_but t (w_files w2) (w_files w1) -> fs_eq (fun q => if eqb q t then None else w_files w2 q) (w_files w)).
    { intros H q. destruct (eqb_spec q t) as [->|Hq]; [congruence|]. rewrite (H q Hq). apply Po, Hq. }
    destruct (eqb_spec format "dot") as [Hd|Hd].
    - destruct W2 as [W2 W3]. left. split; [exact Hd|]. split; [unfold c; rewrite W2; reflexivity|apply Gone, W3].
    - destruct W2 as (ls & k' & -> & W2). right. split; [exact Hd|]. exists k', ls. split; [exact Hl|]. destruct W2 as [(o & W2 & W3 & W4)|(W2 & t' & W3 & W4 & W5 & W6)].
      + left. split; [|apply Gone, W4]. unfold c. rewrite W3. exact W2.
      + right. split; [exact W2|]. unfold c. rewrite (W6 t) by congruence. rewrite Pt. reflexivity.
  Qed.
  (* display modes 'PIL', 'matplotlib' and 'xdot': the graph g1 that is shown has the highlighted nodes in red *)
  Definition shows (m : val) (f : string) (p c : bool) (w1 : world) (f' : fs) : Prop :=
    (m = VS "PIL" -> e_pil E = true -> pictured f (e_show E) w1 f') /\
    (m = VS "matplotlib" -> e_matplotlib E = true -> e_pil E = true -> pictured f (fun k => e_plot E k c p) w1 f') /\
    (m = VS "xdot" -> e_xdot E = true -> exists k s, to_string gname (w_graph w1) = Ok s /\ e_window E k s = None) /\
    (m <> VS "PIL" -> m <> VS "matplotlib" -> fs_eq f' (w_files w1)) /\
    (missing E m = true -> fs_eq f' (w_files w1)).
  Lemma wo_display_picture h b f p c w m l : dget (g_attr (w_graph w)) "display" = Some m -> dget (g_attr (w_graph w)) "layout" = Some l ->
    m <> VS "off" -> m <> VS "file" -> l <> VS "dot2tex" -> l <> VNone ->
    whenok (display E gname h b f p c) w (fun _ w' => exists w1, dfr (hlist h) (w_graph w) (w_graph w1) /\
      colored "red" (hlist h) (w_graph w1) /\ w_files w1 = w_files w /\ g_attr (w_graph w1) = g_attr (w_graph w) /\ shows m f p c w1 (w_files w')).
  Proof.
    intros Hm Hl Ho Hf Hd Hn. unfold display. apply whenok_bind, wo_attr. intros v Hv. rewrite Hm in Hv. injection Hv as <-. destruct (eqb_spec m (VS "off")); [contradiction|].
    apply whenok_bind. Transparent whenok. intros u1 w1 E1. Opaque whenok. pose proof (whenok_elim (@wo_highlight h "red" w) E1) as (C1 & A1 & F1 & K1 & _).
    assert (D1 : dfr (hlist h) (w_graph w) (w_graph w1)).
    { refine (@dk_err _ (dfr _ (w_graph w)) _ w w1 _ _ (dfr_refl _ _) E1). apply dk_highlight with (hl := hlist h).
      - intros n0 v g Hi H. apply (dfr_trans H), dfr_color, Hi.
      - intros l0 ->. apply incl_refl. }
    apply whenok_bind, wo_attr. intros v Hv. rewrite A1, Hl in Hv. injection Hv as <-. apply whenok_bind. destruct (eqb_spec l (VS "dot2tex")); [contradiction|]. apply whenok_ret.
    apply whenok_bind, wo_attr. intros v Hv. rewrite A1, Hm in Hv. injection Hv as <-. destruct (eqb_spec m (VS "file")); [contradiction|].
    apply whenok_bind. apply whenok_weaken with (Q := fun _ w2 => shows m f p c w1 (w_files w2)).
    - assert (Hn1 : dget (g_attr (w_graph w1)) "layout" <> Some VNone) by (rewrite A1; congruence). unfold shows, missing.
      destruct (eqb_spec m (VS "PIL")) as [->|N1].
      { destruct (e_pil E).
        - eapply whenok_weaken; [apply wo_picture, Hn1|]. intros _ w2 [_ P2]. repeat split; try discriminate; auto. intros H; destruct H; reflexivity.
        - apply wo_attr_set. repeat split; discriminate. }
      destruct (eqb_spec m (VS "matplotlib")) as [->|N2].
      { destruct (e_matplotlib E), (e_pil E); cbn [andb]; try (apply wo_attr_set; repeat split; try discriminate).
        eapply whenok_weaken; [apply wo_picture, Hn1|]. intros _ w2 [_ P2]. repeat split; try discriminate; auto. intros _ H; destruct H; reflexivity. }
      destruct (eqb_spec m (VS "xdot")) as [->|N3].
      { destruct (e_xdot E).
        - apply whenok_bind, wo_dot. intros s Hs. apply whenok_bind, wo_tick. destruct (e_window E (w_calls w1) s) eqn:Ew; [apply whenok_fail|]. apply whenok_ret.
          repeat split; try discriminate. intros _ _. exists (w_calls w1), s. auto.
        - apply wo_attr_set. repeat split; discriminate. }
      apply whenok_ret. repeat split; try contradiction; discriminate.
    - intros _ w2 S2. eapply whenok_weaken; [apply wo_highlight|]. intros _ w3 (_ & _ & F3 & _). exists w1. split; [exact D1|]. split; [exact C1|]. split; [exact F1|]. split; [exact A1|]. rewrite F3. exact S2.
  Qed.
End Returned.
