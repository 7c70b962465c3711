(* Graph.dfs: what a call visits, the times it issues, and the order in which nodes finish. *)
From Verif Require Import Py Util M_Graph P_Graph P_GraphLaws M_Search Spec P_Walk P_Attr P_Search M_Flow P_EdgeFrame M_Dfs.
Set Implicit Arguments. Unset Strict Implicit.
Local Open Scope string_scope. Local Open Scope list_scope.

Local Transparent whenok.
Lemma whenok_intro {S A} (m : M S A) s (Q : A -> S -> Prop) : (forall a s', m s = (s', Ok a) -> Q a s') -> whenok m s Q.
Proof. intros H; exact H. Qed.
Local Opaque whenok.

(* y stands before x in F *)
Definition before (F : list name) (y x : name) : Prop := exists F1 F2, F = F1 ++ x :: F2 /\ In y F1.
Lemma before_app_l F G y x : before F y x -> before (F ++ G) y x.
Proof. intros (F1 & F2 & -> & H). exists F1, (F2 ++ G). rewrite <- app_assoc. auto. Qed.
Lemma before_app_r F G y x : before G y x -> before (F ++ G) y x.
Proof. intros (F1 & F2 & -> & H). exists (F ++ F1), F2. rewrite <- app_assoc. split; [reflexivity|apply in_app_iff; auto]. Qed.
Lemma before_cross F G y x : In y F -> In x G -> before (F ++ G) y x.
Proof. intros Hy Hx. apply in_split in Hx as (G1 & G2 & ->). exists (F ++ G1), G2. rewrite <- app_assoc. split; [reflexivity|apply in_app_iff; auto]. Qed.
Lemma before_In F y x : before F y x -> In y F /\ In x F.
Proof. intros (F1 & F2 & -> & H). rewrite !in_app_iff. simpl. auto. Qed.

Lemma ok_mapM {A B} (f : A -> M graph B) (h : A -> B) l g (Q : list B -> graph -> Prop) :
  (forall x, In x l -> f x g = (g, Ok (h x))) -> Q (map h l) g -> ok (mapM f l) g Q.
Proof.
  intros Hf HQ. unfold mapM. apply ok_foldM with (I := fun pre acc g' => g' = g /\ acc = map h pre).
  - auto.
  - intros pre x post acc g' El [-> ->]. apply ok_bind. eapply ok_intro; [apply Hf; rewrite El; apply in_elt|]. apply ok_ret. rewrite map_app. auto.
  - intros acc g' [-> ->]. exact HQ.
Qed.
Lemma insert_time_perm x l : Permutation (insert_time x l) (x :: l).
Proof.
  induction l as [|y l IH]; simpl; [reflexivity|]. destruct (snd x <? snd y)%Z; [reflexivity|]. rewrite IH. apply perm_swap.
Qed.
Lemma sort_times_perm l : Permutation (sort_times l) l.
Proof.
  unfold sort_times. assert (H : forall l acc, Permutation (fold_left (fun acc x => insert_time x acc) l acc) (l ++ acc)).
  { clear. induction l as [|x l IH]; intros acc; simpl; [reflexivity|]. rewrite IH, insert_time_perm. symmetry. apply Permutation_middle. }
  rewrite H, app_nil_r. reflexivity.
Qed.
Lemma ok_by_finish l g (Q : list name -> graph -> Prop) : (forall n, In n l -> In n (dkeys (g_nodes g)) /\ exists z, nattr g n "finish_time" = VI z) ->
  (forall l', (forall x, In x l' <-> In x l) -> Q l' g) -> ok (by_finish l) g Q.
Proof.
  intros Hl HQ. unfold by_finish. apply ok_bind.
  eapply ok_mapM with (h := fun n => (n, nattr g n "finish_time")).
  { intros x Hx. destruct (Hl x Hx) as [Hn _]. pose proof (obs_nattr "finish_time" Hn) as E. unfold bind. destruct (get_node_attr x "finish_time" g) as [g' r] eqn:Eg.
    unfold obs in E. rewrite Eg in E. simpl in E. subst r. unfold get_node_attr in Eg. injection Eg as <- _. reflexivity. }
  assert (Id : map fst (map (fun n => (n, nattr g n "finish_time")) l) = l) by (rewrite map_map; apply map_id).
  destruct (map (fun n => (n, nattr g n "finish_time")) l) as [|a [|b t]] eqn:Em.
  - apply ok_ret, HQ. rewrite <- Id. reflexivity.
  - apply ok_ret, HQ. rewrite <- Id. reflexivity.
  - rewrite <- Em in *. clear Em a b t. apply ok_bind.
    eapply ok_mapM with (h := fun nt => (fst nt, match snd nt with VI z => z | _ => 0%Z end)).
    { intros [n v] Hx. apply in_map_iff in Hx as (n' & [= -> <-] & Hx). destruct (Hl n Hx) as [_ [z Hz]]. rewrite Hz. reflexivity. }
    apply ok_ret, HQ. intros x. rewrite <- in_rev. rewrite (Permutation_in' eq_refl (Permutation_map fst (sort_times_perm _))), !map_map. simpl. rewrite map_id. reflexivity.
Qed.

Definition dattrs := ["component"; "disc_time"; "label"; "color"; "finish_time"].

Section Dfs.
  Variable g : graph.
  Hypothesis W : wf g.
  Variables (component : val) (tr : bool).
  Hypothesis Hc : tr = true -> component <> VNone.
  Notation nl := (get_node_list g).
  Notation R := (sarc g tr).
  Notation mk := (if tr then "component" else "disc_time").
  Definition fresh (h : graph) (x : name) : Prop := nattr h x mk = VNone.
  Lemma fresh_dec h x : fresh h x \/ ~ fresh h x.
  Proof. unfold fresh. destruct (eq_dec (nattr h x mk) VNone); auto. Qed.

  (* what may be assumed of every state met on the way *)
  Record good (h : graph) : Prop := {
    gd_shape : same_shape g h;
    gd_disp : dget (g_attr h) "display" <> None;
    gd_time : tr = true -> forall x, In x nl -> exists z, nattr h x "finish_time" = VI z
  }.
  (* h' is h after the nodes V were discovered (in that order) and finished in the order F *)
  Record visit (h h' : graph) (d f : Z) (V F : list name) : Prop := {
    vi_shape : same_shape h h';
    vi_out : forall x b, ~ In x V -> nattr h' x b = nattr h x b;
    vi_keep : forall x b, ~ In b dattrs -> nattr h' x b = nattr h x b;
    vi_comp : forall x, In x V -> nattr h' x "component" = component;
    vi_disc : forall k x, nth_error V k = Some x -> nattr h' x "disc_time" = VI (d + 1 + Z.of_nat k);
    vi_fin : forall k x, nth_error F k = Some x -> nattr h' x "finish_time" = VI (f + Z.of_nat k);
    vi_color : forall x, In x V -> nattr h' x "color" = VS "green";
    vi_edges : forall x y b, b <> "color" -> eattr h' x y b = eattr h x y b;
    vi_attr : g_attr h' = g_attr h;
    vi_ncomp : g_ncomp h' = g_ncomp h;
    vi_nd : NoDup V;
    vi_perm : Permutation V F
  }.
  Lemma vi_fin_In h h' d f V F x : visit h h' d f V F -> In x V -> exists z, nattr h' x "finish_time" = VI z.
  Proof. intros H Hx. apply (Permutation_in _ (vi_perm H)) in Hx. apply In_nth_error in Hx as [k Hk]. eexists. apply (vi_fin H Hk). Qed.
  Lemma vi_good h h' d f V F : visit h h' d f V F -> good h -> good h'.
  Proof.
    intros H G. constructor.
    - eapply ss_trans; [apply (gd_shape G)|apply (vi_shape H)].
    - rewrite (vi_attr H). apply (gd_disp G).
    - intros Ht x Hx. destruct (mem_spec x V) as [Hv|Hv]; [apply (vi_fin_In H Hv)|]. rewrite (vi_out H) by exact Hv. apply (gd_time G Ht Hx).
  Qed.
  Lemma vi_refl h d f : visit h h d f [] [].
  Proof. constructor; try reflexivity; [apply ss_refl|intros x []|intros [|k] x [=]|intros [|k] x [=]|intros x []|constructor]. Qed.
  Lemma vi_trans h1 h2 h3 d f V1 F1 V2 F2 : visit h1 h2 d f V1 F1 -> visit h2 h3 (d + Z.of_nat (length V1)) (f + Z.of_nat (length V1)) V2 F2 ->
    (forall x, In x V1 -> ~ In x V2) -> visit h1 h3 d f (V1 ++ V2) (F1 ++ F2).
  Proof.
    intros A B Dj. assert (Hl : length V1 = length F1) by (apply Permutation_length, (vi_perm A)).
    assert (Dj' : forall x, In x F1 -> ~ In x V2) by (intros x Hx; apply Dj, (Permutation_in _ (Permutation_sym (vi_perm A))), Hx).
    constructor.
    - eapply ss_trans; [apply (vi_shape A)|apply (vi_shape B)].
    - intros x b Hx. rewrite in_app_iff in Hx. rewrite (vi_out B), (vi_out A) by tauto. reflexivity.
    - intros x b Hb. rewrite (vi_keep B), (vi_keep A) by exact Hb. reflexivity.
    - intros x Hx. apply in_app_iff in Hx as [Hx|Hx]; [rewrite (vi_out B) by (apply Dj, Hx); apply (vi_comp A Hx)|apply (vi_comp B Hx)].
    - intros k x Hk. destruct (Nat.lt_ge_cases k (length V1)) as [Hlt|Hge].
      + rewrite nth_error_app1 in Hk by exact Hlt. rewrite (vi_out B) by (apply Dj, (nth_error_In _ _ Hk)). apply (vi_disc A Hk).
      + rewrite nth_error_app2 in Hk by exact Hge. rewrite (vi_disc B Hk). f_equal. lia.
    - intros k x Hk. destruct (Nat.lt_ge_cases k (length F1)) as [Hlt|Hge].
      + rewrite nth_error_app1 in Hk by exact Hlt. rewrite (vi_out B) by (apply Dj', (nth_error_In _ _ Hk)). apply (vi_fin A Hk).
      + rewrite nth_error_app2 in Hk by exact Hge. rewrite (vi_fin B Hk). f_equal. lia.
    - intros x Hx. apply in_app_iff in Hx as [Hx|Hx]; [rewrite (vi_out B) by (apply Dj, Hx); apply (vi_color A Hx)|apply (vi_color B Hx)].
    - intros x y b Hb. rewrite (vi_edges B), (vi_edges A) by exact Hb. reflexivity.
    - rewrite (vi_attr B). apply (vi_attr A).
    - rewrite (vi_ncomp B). apply (vi_ncomp A).
    - apply NoDup_app_iff. split; [apply (vi_nd A)|]. split; [apply (vi_nd B)|]. exact Dj.
    - apply Permutation_app; [apply (vi_perm A)|apply (vi_perm B)].
  Qed.
  Lemma vi_marked h h' d f V F x : visit h h' d f V F -> In x V -> ~ fresh h' x.
  Proof.
    intros H Hx Hf. unfold fresh in Hf. destruct tr.
    - rewrite (vi_comp H Hx) in Hf. apply (Hc eq_refl Hf).
    - apply In_nth_error in Hx as [k Hk]. rewrite (vi_disc H Hk) in Hf. discriminate.
  Qed.
  Lemma vi_fresh h h' d f V F x : visit h h' d f V F -> fresh h' x <-> fresh h x /\ ~ In x V.
  Proof.
    intros H. destruct (mem_spec x V) as [Hv|Hv]; [split; [intros K; exfalso; apply (vi_marked H Hv K)|tauto]|]. unfold fresh. rewrite (vi_out H) by exact Hv. tauto.
  Qed.

  (* the nodes V visited while the nodes fr are not marked yet, finished in the order F: where they come from,
     that they are closed, and how their finish order relates to the arcs *)
  Record spread (fr roots : name -> Prop) (V F : list name) : Prop := {
    sp_from : forall x, In x V -> exists r p, roots r /\ walk R r p x /\ forall y, In y p -> fr y;
    sp_closed : forall x y, In x V -> R x y -> In y V \/ ~ fr y;
    sp_order : forall x y, In x V -> R x y -> ~ fr y \/ before F y x \/ reach R y x
  }.
  Definition pred_ok (pred : dict name name) : Prop := forall x p, dget pred x = Some p -> arc g p x.

  (* the statements of dfs before the loop *)
  Definition start (h h1 : graph) (root : name) (d : Z) : Prop :=
    same_shape h h1 /\ (forall x b, x <> root \/ ~ In b ["component"; "disc_time"; "label"; "color"] -> nattr h1 x b = nattr h x b) /\
    nattr h1 root "component" = component /\ nattr h1 root "disc_time" = VI (d + 1) /\
    (forall x y b, b <> "color" -> eattr h1 x y b = eattr h x y b) /\ g_attr h1 = g_attr h /\ g_ncomp h1 = g_ncomp h.
  Lemma dfs_ok fuel : forall root d f pred topo h U, good h -> In root nl -> pred_ok pred ->
    (forall x, In x nl -> fresh h x -> x <> root -> In x U) -> length U < fuel ->
    ok (dfs fuel root d f component tr None (pred, topo)) h (fun s h' => exists Vs Fs, visit h h' d f (root :: Vs) (Fs ++ [root]) /\
      spread (fun x => fresh h x /\ x <> root) (R root) Vs Fs /\ (forall y, R root y -> In y Vs \/ ~ (fresh h y /\ y <> root)) /\ (forall x, In x Vs -> fresh h x) /\
      exists pred', pred_ok pred' /\ s = ((d + Z.of_nat (length (root :: Vs)))%Z, (f + Z.of_nat (length (root :: Vs)))%Z, (pred', option_map (app (rev (Fs ++ [root]))) topo))).
  Proof.
    induction fuel as [|fuel IH]; intros root d f pred topo h U G Hr Hp HU Hf; [lia|]. cbn [dfs].
    assert (Sh := gd_shape G). assert (Wh : wf h) by (apply (ss_wf Sh W)). assert (Nh : get_node_list h = nl) by (apply (ss_node_list Sh)).
    assert (Kh : dkeys (g_nodes h) = nl) by (rewrite (ss_nodes Sh); apply (wf_nodes W)).
    apply ok_bind. unfold enter_display. apply ok_bind, ok_gets. destruct (dget (g_attr h) "display") as [dv|] eqn:Ed; [|exfalso; apply (gd_disp G Ed)].
    apply ok_bind. eapply ok_lift; [reflexivity|]. apply ok_ret. apply ok_bind, ok_gets.
    (* the statements before the loop *)
    apply ok_bind, ok_set_node_attr; [rewrite Kh; exact Hr|]. intros h1 S1 N1 E1 A1 C1 _.
    apply ok_bind, ok_set_node_attr; [rewrite (ss_nodes S1), Kh; exact Hr|]. intros h2 S2 N2 E2 A2 C2 _. assert (S2' := ss_trans S1 S2).
    apply ok_bind, ok_set_node_attr; [rewrite (ss_nodes S2'), Kh; exact Hr|]. intros h3 S3 N3 E3 A3 C3 _. assert (S3' := ss_trans S2' S3).
    apply ok_bind, ok_set_node_attr; [rewrite (ss_nodes S3'), Kh; exact Hr|]. intros h4 S4 N4 E4 A4 C4 _. assert (S4' := ss_trans S3' S4).
    assert (N : forall x b, nattr h4 x b = if eq_dec (x, b) (root, "color") then VS "blue" else if eq_dec (x, b) (root, "label") then VS (str_int (d + 1) ++ ",-") else
       if eq_dec (x, b) (root, "disc_time") then VI (d + 1) else if eq_dec (x, b) (root, "component") then component else nattr h x b) by (intros; rewrite N4, N3, N2, N1; reflexivity).
    assert (E : forall x y b, eattr h4 x y b = eattr h x y b) by (intros; rewrite E4, E3, E2, E1; reflexivity).
    assert (St : start h h4 root d).
    { split; [exact S4'|]. split.
      { intros x b Hxb. rewrite N. repeat match goal with |- context [eq_dec ?a ?b] => destruct (eq_dec a b) as [[= -> ->]|_]; [exfalso; simpl in Hxb; intuition congruence|] end. reflexivity. }
      split; [rewrite N; repeat match goal with |- context [eq_dec ?a ?b] => destruct (eq_dec a b); try congruence end|].
      split; [rewrite N; repeat match goal with |- context [eq_dec ?a ?b] => destruct (eq_dec a b); try congruence end|].
      split; [intros; apply E|]. split; congruence. }
    apply ok_bind. apply ok_weaken with (Q := fun _ h5 => start h h5 root d).
    { destruct (dget pred root) as [p|] eqn:Ep; [|apply ok_ret, St].
      apply ok_set_edge_attr; [apply (ss_wf S4' Wh)|rewrite (ss_check_edge _ _ S4'), (ss_check_edge _ _ Sh); apply (Hp _ _ Ep)|]. intros h5 S5 N5 E5 A5 C5 _.
      destruct St as (T1 & T2 & T3 & T4 & T5 & T6 & T7). split; [apply (ss_trans T1 S5)|]. split; [intros; rewrite N5; auto|]. split; [rewrite N5; exact T3|]. split; [rewrite N5; exact T4|].
      split; [|split; congruence]. intros x y b Hb. rewrite E5. destruct (eqb_spec b "color") as [->|_]; [congruence|]. simpl. apply T5, Hb. }
    clear h1 S1 N1 E1 A1 C1 h2 S2 N2 E2 A2 C2 S2' h3 S3 N3 E3 A3 C3 S3' h4 S4 N4 E4 A4 C4 S4' N E St.
    intros [] h1 St. destruct St as (T1 & T2 & T3 & T4 & T5 & T6 & T7).
    assert (G1 : good h1).
    { constructor; [apply (ss_trans Sh T1)|rewrite T6; apply (gd_disp G)|]. intros Ht x Hx. rewrite T2; [apply (gd_time G Ht Hx)|]. right. simpl. intuition discriminate. }
    assert (F1 : forall x, fresh h1 x <-> fresh h x /\ x <> root).
    { intros x. destruct (eq_dec x root) as [->|Hne].
      - split; [|tauto]. intros K. exfalso. unfold fresh in K. destruct tr; [rewrite T3 in K; apply (Hc eq_refl K)|rewrite T4 in K; discriminate].
      - unfold fresh. rewrite T2 by auto. tauto. }
    (* the list of neighbours *)
    apply ok_bind. apply ok_weaken with (Q := fun l h' => h' = h1 /\ l = list_at (nbd g tr) root).
    { unfold nbd. rewrite <- (ss_type Sh). assert (K1 : In root (get_node_list h1)) by (rewrite (ss_node_list (gd_shape G1)); exact Hr). assert (W1 := ss_wf T1 Wh).
      assert (Nb : ok (nbr_list root) h1 (fun l h' => h' = h1 /\ l = list_at (g_nbrs g) root)) by (apply ok_nbr_list; [exact K1|rewrite <- (ss_nbrs (gd_shape G1)); auto]).
      destruct (g_type h) eqn:Et; [|exact Nb]. destruct tr; [|exact Nb].
      apply ok_in_list; [exact W1|rewrite (ss_type T1); exact Et|exact K1|rewrite <- (ss_in (gd_shape G1)); auto]. }
    intros l0 h' [-> ->].
    apply ok_bind. apply ok_weaken with (Q := fun l h' => h' = h1 /\ forall x, In x l <-> R root x).
    { destruct tr eqn:Etr.
      - apply ok_by_finish.
        + intros n Hn. apply (nbd_sarc true root n W) in Hn. apply (sarc_V W) in Hn as [_ Hn]. split; [rewrite (ss_nodes T1), Kh; exact Hn|apply (gd_time G1 Etr Hn)].
        + intros l' Hl'. split; [reflexivity|]. intros x. rewrite Hl'. apply nbd_sarc, W.
      - apply ok_ret. split; [reflexivity|]. intros x. apply nbd_sarc, W. }
    intros l h' [-> Hl].
    apply ok_bind. eapply ok_foldM with (I := fun pre (s : Z * Z * dloc) h2 => exists Vs Fs, visit h1 h2 (d + 1) f Vs Fs /\ spread (fresh h1) (R root) Vs Fs /\
      (forall y, In y pre -> In y Vs \/ ~ fresh h1 y) /\ (forall x, In x Vs -> fresh h1 x) /\
      exists pred', pred_ok pred' /\ s = ((d + 1 + Z.of_nat (length Vs))%Z, (f + Z.of_nat (length Vs))%Z, (pred', option_map (app (rev Fs)) topo))).
    - exists [], []. split; [apply vi_refl|]. split; [constructor; [intros x []|intros x y []|intros x y []]|]. split; [intros y []|]. split; [intros y []|]. exists pred. split; [exact Hp|]. simpl. rewrite !Z.add_0_r.
      destruct topo; reflexivity.
    - intros pre i post s h2 El (Vs & Fs & Vi & Sp & Cov & Fr & pred' & Hp' & ->).
      assert (Hi : R root i) by (apply Hl; rewrite El; apply in_elt). pose proof (sarc_V W Hi) as [_ Hin]. assert (G2 := vi_good Vi G1).
      apply ok_bind. apply ok_get_node_attr; [rewrite (ss_nodes (gd_shape G2)), (wf_nodes W); exact Hin|].
      destruct (eqb_spec (nattr h2 i mk) VNone) as [Hfi|Hfi].
      2:{ apply ok_ret. exists Vs, Fs. split; [exact Vi|]. split; [exact Sp|]. split; [|split; [exact Fr|exists pred'; auto]].
          intros y Hy. apply in_app_iff in Hy as [Hy|[<-|[]]]; [apply Cov, Hy|]. destruct (mem_spec i Vs) as [|Hv]; [auto|]. right. intros K. apply Hfi, (vi_fresh i Vi). auto. }
      change (fresh h2 i) in Hfi. pose proof (proj1 (vi_fresh i Vi) Hfi) as [Hf1 Hnv].
      assert (Hp'' : pred_ok (if tr then pred' else dset pred' i root)).
      { destruct tr; [exact Hp'|]. intros x p. destruct (eq_dec x i) as [->|Hne]; [rewrite dget_dset_eq; intros [= <-]; unfold sarc in Hi; destruct (g_type g); exact Hi|rewrite dget_dset_ne by congruence; apply Hp']. }
      assert (HiU : In i U) by (destruct (proj1 (F1 i) Hf1); apply HU; assumption).
      eapply ok_weaken; [apply (IH i (d + 1 + Z.of_nat (length Vs))%Z (f + Z.of_nat (length Vs))%Z _ (option_map (app (rev Fs)) topo) h2 (remove eq_dec i U) G2 Hin Hp'')|].
      { intros x Hx Hfx Hne. apply in_in_remove; [exact Hne|]. apply (vi_fresh x Vi) in Hfx as [Hfx _]. destruct (proj1 (F1 x) Hfx). apply HU; assumption. }
      { pose proof (remove_length_lt eq_dec U i HiU). lia. }
      intros s h3 (Vs' & Fs' & Vi' & Sp' & Cl' & Fr' & pred2 & Hp2 & ->).
      pose proof (vi_nd Vi') as ND'. inversion ND' as [|? ? Hni Hnd']; subst.
      assert (PF : forall y, In y Vs' -> In y Fs').
      { intros y Hy. assert (K : In y (Fs' ++ [i])) by (apply (Permutation_in _ (vi_perm Vi')); simpl; auto). apply in_app_iff in K as [K|[<-|[]]]; [exact K|contradiction]. }
      assert (PF0 : forall y, In y Vs -> In y Fs) by (intros y; apply (Permutation_in _ (vi_perm Vi))).
      assert (Dj : forall x, In x Vs -> ~ In x (i :: Vs')).
      { intros x Hx [<-|Hx']; [contradiction|]. apply Fr' in Hx'. apply (vi_fresh x Vi) in Hx'. tauto. }
      assert (Old : forall y, ~ (fresh h2 y /\ y <> i) -> y = i \/ In y Vs \/ ~ fresh h1 y).
      { intros y K. destruct (eq_dec y i) as [->|Hne]; [auto|]. right. destruct (mem_spec y Vs) as [|Hv]; [auto|]. right. intros K1. apply K. split; [apply (vi_fresh y Vi); auto|exact Hne]. }
      exists (Vs ++ i :: Vs'), (Fs ++ Fs' ++ [i]). split; [apply (vi_trans Vi Vi' Dj)|]. split.
      { constructor.
        - intros x Hx. apply in_app_iff in Hx as [Hx|[<-|Hx]]; [apply (sp_from Sp Hx)| |].
          + exists i, [i]. split; [exact Hi|]. split; [constructor|]. intros y [<-|[]]. exact Hf1.
          + destruct (sp_from Sp' Hx) as (r & p & P1 & P2 & P3). exists i, (i :: p). split; [exact Hi|]. split; [apply (walk_step P1 P2)|].
            intros y [<-|Hy]; [exact Hf1|]. apply P3 in Hy as [Hy _]. apply (vi_fresh y Vi), Hy.
        - assert (New : forall y, In y Vs' \/ ~ (fresh h2 y /\ y <> i) -> In y (Vs ++ i :: Vs') \/ ~ fresh h1 y).
          { intros y [Hy|Hy]; [left; apply in_app_iff; simpl; auto|]. apply Old in Hy as [->|[Hy|Hy]]; [left; apply in_app_iff; simpl; auto|left; apply in_app_iff; auto|auto]. }
          intros x y Hx Hxy. apply in_app_iff in Hx as [Hx|[<-|Hx]]; [|apply New, Cl', Hxy|apply New, (sp_closed Sp' Hx Hxy)].
          destruct (sp_closed Sp Hx Hxy); [left; apply in_app_iff|]; auto.
        - assert (New : forall x y, In x (i :: Vs') -> ~ (fresh h2 y /\ y <> i) -> (y = i -> reach R y x) -> ~ fresh h1 y \/ before (Fs ++ Fs' ++ [i]) y x \/ reach R y x).
          { intros x y Hx Hy Hyi. apply Old in Hy as [->|[Hy|Hy]]; [auto| |auto]. right. left. apply before_cross; [apply PF0, Hy|apply in_app_iff]. destruct Hx as [<-|Hx]; [simpl; auto|left; apply PF, Hx]. }
          intros x y Hx Hxy. apply in_app_iff in Hx as [Hx|[<-|Hx]].
          + destruct (sp_order Sp Hx Hxy) as [?|[?|?]]; [auto| |auto]. right. left. apply before_app_l. assumption.
          + destruct (Cl' y Hxy) as [Hy|Hy].
            * right. left. apply before_app_r, before_cross; [apply PF, Hy|simpl; auto].
            * apply New; [simpl; auto|exact Hy|]. intros ->. exists [i]. constructor.
          + destruct (sp_order Sp' Hx Hxy) as [Hy|[Hy|Hy]]; [|right; left; apply before_app_r, before_app_l, Hy|auto].
            apply New; [simpl; auto|exact Hy|]. intros ->. destruct (sp_from Sp' Hx) as (r & p & P1 & P2 & _). exists (i :: p). apply (walk_step P1 P2). }
      split. { intros y Hy. apply in_app_iff in Hy as [Hy|[<-|[]]]; [|left; apply in_app_iff; simpl; auto]. destruct (Cov y Hy); [left; apply in_app_iff|]; auto. }
      split. { intros x Hx. apply in_app_iff in Hx as [Hx|[<-|Hx]]; [apply Fr, Hx|exact Hf1|]. apply (vi_fresh x Vi), Fr', Hx. }
      exists pred2. split; [exact Hp2|]. rewrite !app_length. simpl length. f_equal; [f_equal; lia|]. f_equal. destruct topo as [t|]; [|reflexivity]. simpl. f_equal. rewrite !rev_app_distr. simpl. rewrite <- !app_assoc. reflexivity.
    - intros s h2 (Vs & Fs & Vi & Sp & Cov & Fr & pred' & Hp' & ->). cbv beta iota zeta.
      assert (G2 := vi_good Vi G1). assert (Kr : In root (dkeys (g_nodes h2))) by (rewrite (ss_nodes (gd_shape G2)), (wf_nodes W); exact Hr).
      assert (Hnr : ~ In root Vs) by (intros K; apply Fr, F1 in K; tauto).
      assert (HrF : ~ In root Fs) by (intros K; apply Hnr, (Permutation_in _ (Permutation_sym (vi_perm Vi))), K).
      apply ok_bind, ok_set_node_attr; [exact Kr|]. intros h3 S3 N3 E3 A3 C3 _.
      apply ok_bind, ok_get_node_attr; [rewrite (ss_nodes S3); exact Kr|].
      apply ok_bind, ok_set_node_attr; [rewrite (ss_nodes S3); exact Kr|]. intros h4 S4 N4 E4 A4 C4 _.
      apply ok_bind, ok_set_node_attr; [rewrite (ss_nodes S4), (ss_nodes S3); exact Kr|]. intros h5 S5 N5 E5 A5 C5 _.
      set (lab := VS (quote ++ str_val (nattr h3 root "disc_time") ++ "," ++ str_int (f + Z.of_nat (length Vs)) ++ quote)) in *.
      assert (N : forall x b, nattr h5 x b = if eq_dec (x, b) (root, "color") then VS "green" else if eq_dec (x, b) (root, "label") then lab else
        if eq_dec (x, b) (root, "finish_time") then VI (f + Z.of_nat (length Vs)) else nattr h2 x b) by (intros; rewrite N5, N4, N3; reflexivity).
      assert (Nx : forall x b, x <> root \/ ~ In b ["color"; "label"; "finish_time"] -> nattr h5 x b = nattr h2 x b).
      { intros x b Hxb. rewrite N. repeat match goal with |- context [eq_dec ?a ?b] => destruct (eq_dec a b) as [[= -> ->]|_]; [exfalso; simpl in Hxb; intuition congruence|] end. reflexivity. }
      assert (Lf : length Fs = length Vs) by (symmetry; apply Permutation_length, (vi_perm Vi)).
      apply ok_ret. exists Vs, Fs. split.
      { constructor.
        - apply (ss_trans T1), (ss_trans (vi_shape Vi)), (ss_trans S3), (ss_trans S4), S5.
        - intros x b Hx. simpl in Hx. rewrite Nx, (vi_out Vi), T2; [reflexivity| | |]; intuition congruence.
        - intros x b Hb. unfold dattrs in Hb. simpl in Hb. rewrite Nx by (right; simpl; intuition congruence). rewrite (vi_keep Vi) by exact Hb. apply T2. right. simpl. intuition congruence.
        - intros x [<-|Hx]; [|rewrite Nx by (left; congruence); apply (vi_comp Vi Hx)]. rewrite Nx by (right; simpl; intuition discriminate). rewrite (vi_out Vi) by exact Hnr. exact T3.
        - intros [|k] x Hk; simpl in Hk.
          + injection Hk as <-. rewrite Nx by (right; simpl; intuition discriminate). rewrite (vi_out Vi) by exact Hnr. rewrite T4. f_equal. lia.
          + rewrite Nx by (left; intros ->; apply Hnr, (nth_error_In _ _ Hk)). rewrite (vi_disc Vi Hk). f_equal. lia.
        - intros k x Hk. destruct (Nat.lt_ge_cases k (length Fs)) as [Hlt|Hge].
          + rewrite nth_error_app1 in Hk by exact Hlt. rewrite Nx by (left; intros ->; apply HrF, (nth_error_In _ _ Hk)). apply (vi_fin Vi Hk).
          + rewrite nth_error_app2 in Hk by exact Hge. destruct (k - length Fs) as [|j] eqn:Ek; simpl in Hk; [|destruct j; discriminate]. injection Hk as <-.
            rewrite N. destruct (eq_dec (root, "finish_time") (root, "color")); [congruence|]. destruct (eq_dec (root, "finish_time") (root, "label")); [congruence|].
            destruct (eq_dec (root, "finish_time") (root, "finish_time")); [|congruence]. f_equal. lia.
        - intros x [<-|Hx]; [|rewrite Nx by (left; congruence); apply (vi_color Vi Hx)]. rewrite N. destruct (eq_dec (root, "color") (root, "color")); [reflexivity|congruence].
        - intros x y b Hb. rewrite E5, E4, E3, (vi_edges Vi), T5 by exact Hb. reflexivity.
        - rewrite A5, A4, A3, (vi_attr Vi). exact T6.
        - rewrite C5, C4, C3, (vi_ncomp Vi). exact T7.
        - constructor; [exact Hnr|apply (vi_nd Vi)].
        - rewrite <- Permutation_cons_append. constructor. apply (vi_perm Vi). }
      assert (Fq : forall y, ~ fresh h1 y -> ~ (fresh h y /\ y <> root)) by (intros y K K'; apply K, F1, K').
      split. { constructor.
        - intros x Hx. destruct (sp_from Sp Hx) as (r & p & P1 & P2 & P3). exists r, p. split; [exact P1|]. split; [exact P2|]. intros y Hy. apply F1, P3, Hy.
        - intros x y Hx Hxy. destruct (sp_closed Sp Hx Hxy); auto.
        - intros x y Hx Hxy. destruct (sp_order Sp Hx Hxy); auto. }
      split. { intros y Hy. destruct (Cov y); [apply Hl, Hy|auto|auto]. }
      split. { intros x Hx. apply F1, Fr, Hx. }
      exists pred'. split; [exact Hp'|]. simpl length. f_equal; [f_equal; lia|]. f_equal. destruct topo as [t|]; [|reflexivity]. simpl. rewrite rev_app_distr. reflexivity.
  Qed.
End Dfs.
