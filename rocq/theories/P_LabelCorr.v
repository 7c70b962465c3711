(* fifo_label_correcting of the model follows the steps of P_LabelAbs. *)
From Verif Require Import Py Util M_Graph P_Graph P_GraphLaws M_Search Spec P_Walk P_Attr P_Search M_Flow P_EdgeFrame M_LabelCorr P_LabelAbs.
Set Implicit Arguments. Unset Strict Implicit.
Local Open Scope string_scope. Local Open Scope list_scope.

Lemma bind_lift {S A B} (o : option A) e (f : A -> M S B) s a : o = Some a -> bind (lift o e) f s = f a s.
Proof. intros ->. reflexivity. Qed.

(** ** following predecessors *)
Section Follow.
  Variables (P : preds) (j : name) (g : graph).
  Lemma gc_loop b : forall k cyc fuel, walk (PA P) j (j :: b) k -> ~ In j b -> length b < fuel ->
    loop fuel (fun s : list name * option name =>
      let '(cycle, cur) := s in
      match cur with
      | Some k => if eqb k j then ret (inr (rev cycle))
                  else p <- lift (dget P k) KeyError ;; ret (inl (cycle ++ [k], p))
      | None => fail KeyError
      end) (cyc, Some k) g = (g, Ok (b ++ rev cyc)).
  Proof.
    induction b as [|k' b IH] using rev_ind; intros k cyc fuel Hw Hj Hf; (destruct fuel as [|fuel]; [lia|]); cbn [loop].
    - inversion Hw as [|? ? ? ? ? Hw']; subst; [|inversion Hw']. unfold bind. rewrite eqb_refl. reflexivity.
    - pose proof (walk_last k Hw) as El. change (j :: b ++ [k']) with ((j :: b) ++ [k']) in El, Hw. rewrite last_last in El. subst k'.
      destruct (walk_snoc_inv Hw) as [[E1 E2]|(q & x & E1 & Hq & Hx)]; [destruct b; discriminate|]. apply app_inj_tail in E1 as [<- _].
      rewrite in_app_iff in Hj. assert (Hk : eqb k j = false) by (apply eqb_false; intros ->; apply Hj; right; left; reflexivity).
      unfold bind at 1. rewrite Hk. rewrite (@bind_lift _ _ _ _ _ _ _ (Some x)) by (apply Hx). cbn [ret].
      rewrite app_length in Hf. simpl in Hf. rewrite (IH x (cyc ++ [k]) fuel Hq ltac:(tauto) ltac:(lia)). rewrite rev_app_distr. simpl. rewrite <- app_assoc. reflexivity.
  Qed.
  Lemma gc_run b i fuel : PA P i j -> walk (PA P) j (j :: b) i -> ~ In j b -> length b < fuel -> lc_get_cycle fuel j P g = (g, Ok (b ++ [j])).
  Proof.
    intros Hi Hw Hj Hf. unfold lc_get_cycle, bind, lift. unfold PA in Hi. rewrite Hi. cbn [ret]. apply (gc_loop [j] Hw Hj Hf).
  Qed.
  Definition cc_body (fuel0 : nat) (s : dict name (option name) * option name) : M graph (dict name (option name) * option name + option (list name)) :=
    let '(labelled, cur) := s in
    match cur with
    | None => ret (inr None)
    | Some k =>
        l <- lift (dget labelled k) KeyError ;;
        if eqb l (Some j) then c <- lc_get_cycle fuel0 j P ;; ret (inr (Some c))
        else p <- lift (dget P k) KeyError ;; ret (inl (dset labelled k (Some j), p))
    end.
  Lemma cc_none fuel0 s p : dget P s = Some None -> forall k lab fuel, walk (PA P) s p k -> NoDup p -> (forall x, In x p -> dget lab x = Some None) -> length p < fuel ->
    loop fuel (cc_body fuel0) (lab, Some k) g = (g, Ok None).
  Proof.
    intros Hs. induction p as [|k' p IH] using rev_ind; intros k lab fuel Hw Np Hl Hf; [apply walk_ne in Hw; congruence|].
    destruct fuel as [|fuel]; [lia|]. cbn [loop]. unfold bind at 1. unfold cc_body at 1.
    pose proof (walk_last k Hw) as El. rewrite last_last in El. subst k'. rewrite (@bind_lift _ _ _ _ _ _ _ (None)) by (apply (Hl k), in_elt).
    change (eqb None (Some j)) with false. cbn match. rewrite app_length in Hf. simpl in Hf. apply NoDup_snoc in Np as [Np Nk].
    destruct (walk_snoc_inv Hw) as [[E1 E2]|(q & x & E1 & Hq & Hx)].
    - subst s. rewrite (@bind_lift _ _ _ _ _ _ _ (None)) by (apply Hs). cbn [ret]. destruct fuel; [lia|]. reflexivity.
    - apply app_inj_tail in E1 as [<- _]. rewrite (@bind_lift _ _ _ _ _ _ _ (Some x)) by (apply Hx). cbn [ret].
      apply IH; [exact Hq|exact Np| |lia]. intros y Hy. rewrite dget_dset_ne by (intros ->; contradiction). apply Hl, in_or_app. auto.
  Qed.
  Lemma cc_cycle fuel0 cyc b : lc_get_cycle fuel0 j P g = (g, Ok cyc) -> forall k lab fuel, walk (PA P) j (j :: b) k -> ~ In j b -> NoDup b ->
    (forall x, In x b -> dget lab x = Some None) -> dget lab j = Some (Some j) -> length b < fuel ->
    loop fuel (cc_body fuel0) (lab, Some k) g = (g, Ok (Some cyc)).
  Proof.
    intros Hc. induction b as [|k' b IH] using rev_ind; intros k lab fuel Hw Hj Nb Hl Hlj Hf; (destruct fuel as [|fuel]; [lia|]); cbn [loop]; unfold bind at 1; unfold cc_body at 1.
    - inversion Hw as [|? ? ? ? ? Hw']; subst; [|inversion Hw']. rewrite (@bind_lift _ _ _ _ _ _ _ (Some j)) by (apply Hlj).
      rewrite eqb_refl. rewrite (bind_ok _ Hc). reflexivity.
    - pose proof (walk_last k Hw) as El. change (j :: b ++ [k']) with ((j :: b) ++ [k']) in El, Hw. rewrite last_last in El. subst k'.
      rewrite (@bind_lift _ _ _ _ _ _ _ (None)) by (apply (Hl k), in_elt). change (eqb None (Some j)) with false. cbn match.
      destruct (walk_snoc_inv Hw) as [[E1 E2]|(q & x & E1 & Hq & Hx)]; [destruct b; discriminate|]. apply app_inj_tail in E1 as [<- _].
      rewrite (@bind_lift _ _ _ _ _ _ _ (Some x)) by (apply Hx). cbn [ret]. rewrite app_length in Hf. simpl in Hf. apply NoDup_snoc in Nb as [Nb Nk].
      rewrite in_app_iff in Hj. apply IH; [exact Hq|tauto|exact Nb| | |lia].
      + intros y Hy. rewrite dget_dset_ne by (intros ->; contradiction). apply Hl, in_or_app. auto.
      + rewrite dget_dset_ne; [exact Hlj|]. intros ->. apply Hj. right. left. reflexivity.
  Qed.
  Lemma lab0 (l : list name) (d : dict name (option name)) x : In x l \/ dget d x = Some None -> dget (fold_left (fun d n => dset d n None) l d) x = Some None.
  Proof.
    revert d. induction l as [|y l IH]; intros d H; simpl; [destruct H as [[]|]; assumption|]. apply IH. destruct (eq_dec x y) as [->|Hne]; [right; apply dget_dset_eq|].
    rewrite dget_dset_ne by congruence. destruct H as [[->|H]|H]; [congruence|auto|auto].
  Qed.
End Follow.

Lemma cc_run_none P i j s pi g fuel : dget P s = Some None -> PA P i j -> walk (PA P) s pi i -> NoDup pi -> ~ In j pi -> In j (get_node_list g) -> (forall x, In x pi -> In x (get_node_list g)) ->
  S (length pi) < fuel -> lc_check_cycle fuel j P g = (g, Ok None).
Proof.
  intros Hs Hij Hw Np Hj Hv Hi Hf. unfold lc_check_cycle. unfold bind at 1, gets. change (loop fuel (cc_body P j fuel) (fold_left (fun d n => dset d n None) (get_node_list g) [], Some j) g = (g, Ok None)).
  apply (cc_none j g fuel Hs (p := pi ++ [j])).
  - apply (walk_snoc Hw Hij).
  - apply NoDup_snoc. auto.
  - intros x Hx. apply lab0. left. apply in_app_iff in Hx as [Hx|[<-|[]]]; auto.
  - rewrite app_length. simpl. lia.
Qed.
Lemma cc_run_cycle P i j b g fuel : PA P i j -> walk (PA P) j (j :: b) i -> ~ In j b -> NoDup b -> (forall x, In x (j :: b) -> In x (get_node_list g)) ->
  S (length b) < fuel -> lc_check_cycle fuel j P g = (g, Ok (Some (b ++ [j]))).
Proof.
  intros Hij Hw Hj Nb Hi Hf. unfold lc_check_cycle. unfold bind at 1, gets. change (loop fuel (cc_body P j fuel) (fold_left (fun d n => dset d n None) (get_node_list g) [], Some j) g = (g, Ok (Some (b ++ [j])))).
  assert (Hg : lc_get_cycle fuel j P g = (g, Ok (b ++ [j]))) by (apply (gc_run g Hij Hw Hj); lia).
  assert (L : forall x, In x (j :: b) -> dget (fold_left (fun d n => dset d n None) (get_node_list g) []) x = Some None) by (intros; apply lab0; auto).
  generalize dependent (fold_left (fun (d : dict name (option name)) n => dset d n None) (get_node_list g) []). intros lab L.
  destruct fuel as [|f]; [lia|]. cbn [loop]. unfold bind at 1. unfold cc_body at 1. rewrite (@bind_lift _ _ _ _ _ _ _ (None)) by (apply (L j); left; reflexivity).
  change (eqb None (Some j)) with false. cbn match. rewrite (@bind_lift _ _ _ _ _ _ _ (Some i)) by (apply Hij). cbn [ret].
  apply (cc_cycle Hg Hw Hj Nb); [|apply dget_dset_eq|lia]. intros x Hx. rewrite dget_dset_ne by (intros ->; contradiction). apply L. right. exact Hx.
Qed.

(** ** the whole call *)
Section Fifo.
  Variable g : graph.
  Hypothesis W : wf g.
  Hypothesis HC : has_costs g false.
  Variable s : name.
  Notation V := (get_node_list g).
  Hypothesis SV : In s V.
  Notation E := (arc g).
  Notation c := (edge_cost g).
  Lemma lc_NV : NoDup V. Proof. apply (wf_nd W). Qed.
  Lemma lc_EV x y : E x y -> In x V /\ In y V. Proof. apply (check_edge_nodes W). Qed.
  Lemma lc_cost x y : E x y -> eattr g x y "cost" = Some (VI (c x y)).
  Proof.
    intros H. destruct (HC (x := x) (y := y)) as [z Hz]; [unfold sarc; destruct (g_type g); exact H|]. unfold eattr, edge_cost. rewrite Hz. reflexivity.
  Qed.
  Record lfr (h : graph) : Prop := {
    lf_shape : same_shape g h;
    lf_nodes : forall n a, a <> "distance" -> nattr h n a = nattr g n a;
    lf_edges : g_edges h = g_edges g;
    lf_eattr : forall x y a, eattr h x y a = eattr g x y a;
    lf_attr : g_attr h = g_attr g;
    lf_ncomp : g_ncomp h = g_ncomp g }.
  Definition lrep (h : graph) (D : name -> option Z) : Prop := forall n, In n V -> nattr h n "distance" = match D n with Some z => VI z | None => VS "inf" end.
  Notation inv := (inv V E c s).
  Notation mu := (mu V c).
  Definition goodcycle (cyc : list name) : Prop := exists j b, cyc = b ++ [j] /\ NoDup cyc /\ reach E s j /\ walk E j (j :: cyc) j /\ (wcost c (j :: cyc) < 0)%Z.
  (* between two steps of the for loop over the neighbours of i; [pre] have been examined *)
  Definition scanning (N : nat) (i : name) (pre : list name) (P : preds) (q : list name) (h : graph) : Prop :=
    lfr h /\ exists D di, inv D P /\ lrep h D /\ D i = Some di /\ (forall x, In x q -> D x <> None) /\
      (forall x y, E x y -> ~ In x q -> (x = i -> In y pre) -> settled c D x y) /\ mu D q < N.
  Lemma nodes_in h n : lfr h -> In n V -> In n (dkeys (g_nodes h)).
  Proof. intros F Hn. rewrite (ss_nodes (lf_shape F)), (wf_nodes W). exact Hn. Qed.

  Lemma relax_ok fuel N i j pre P q h : length V + 1 < fuel -> E i j -> scanning N i pre P q h ->
    ok (lc_relax Py2 fuel i (P, q) j) h (fun r h' => match r with
      | inl (P', q') => scanning N i (pre ++ [j]) P' q' h'
      | inr cyc => lfr h' /\ goodcycle cyc end).
  Proof.
    intros Hf Hij (F & D & di & I & R & Hi & Hq & St & Hm). destruct (lc_EV Hij) as [Vi Vj]. unfold lc_relax.
    apply ok_bind, ok_get_node_attr; [apply nodes_in; assumption|]. apply ok_bind, ok_get_node_attr; [apply nodes_in; assumption|].
    apply ok_bind. eapply ok_get_edge_attr; [rewrite (lf_eattr F); apply (lc_cost Hij)|]. rewrite (R i Vi), Hi. apply ok_bind, ok_as_int. apply ok_bind, ok_as_int.
    assert (Hb : exists b, label_gt Py2 (nattr h j "distance") (di + c i j) h = (h, Ok b) /\
       if b then match D j with Some dj => (di + c i j < dj)%Z | None => True end else exists dj, D j = Some dj /\ (dj <= di + c i j)%Z).
    { rewrite (R j Vj). destruct (D j) as [dj|]; cbn [label_gt]; [|exists true; split; [reflexivity|exact Logic.I]].
      exists (dj >? di + c i j)%Z. split; [reflexivity|]. destruct (Z.gtb_spec dj (di + c i j)); [lia|]. exists dj. split; [reflexivity|lia]. }
    destruct Hb as (b & Hb & Drop). apply ok_bind. eapply ok_intro; [exact Hb|]. destruct b.
    2:{ apply ok_ret. split; [exact F|]. exists D, di. refine (conj I (conj R (conj Hi (conj Hq (conj _ Hm))))). intros x y Hxy Hx Hp. destruct (eq_dec x i) as [->|Hne].
        - destruct (eq_dec y j) as [->|Hy].
          + intros dx Hdx. destruct Drop as (dj & H1 & H2). exists dj. split; [exact H1|]. replace dx with di by congruence. exact H2.
          + apply St; auto. intros _. specialize (Hp eq_refl). apply in_app_iff in Hp as [Hp|[->|[]]]; [exact Hp|congruence].
        - apply St; auto. intros; contradiction. }
    apply ok_bind. apply ok_set_node_attr; [apply nodes_in; assumption|]. intros h' S' N' E' A' C' G'.
    assert (F' : lfr h').
    { constructor; [eapply ss_trans; [apply (lf_shape F)|exact S']| | | | |].
      - intros n a Ha. rewrite N'. destruct (eq_dec (n, a) (j, "distance")); [congruence|]. apply (lf_nodes F); exact Ha.
      - rewrite G'. apply (lf_edges F).
      - intros x y a. rewrite E'. apply (lf_eattr F).
      - rewrite A'. apply (lf_attr F).
      - rewrite C'. apply (lf_ncomp F). }
    assert (R' : lrep h' (updl D j (di + c i j))).
    { intros n Hn. rewrite N'. destruct (eq_dec (n, "distance") (j, "distance")) as [[= ->]|Hne]; [rewrite updl_eq; reflexivity|]. rewrite updl_ne by congruence. apply R, Hn. }
    set (P' := dset P j (Some i)). set (q' := if mem j q then q else q ++ [j]).
    assert (Hq' : forall x, In x q' <-> In x q \/ x = j).
    { intros x. unfold q'. destruct (mem_spec j q) as [H|H]; [split; [auto|intros [Hx| ->]; assumption]|]. rewrite in_app_iff. simpl. split; intros [Hx|Hx]; auto. destruct Hx as [->|[]]; auto. }
    assert (Lq : length q' <= S (length q)) by (unfold q'; destruct (mem j q); [lia|rewrite app_length; simpl; lia]).
    pose proof (inv_skey I) as Sk. destruct (i_tree I (n := i)) as (pi & Hpi & Ni); [apply (i_key I); congruence|].
    assert (Kpi : forall x, In x pi -> In x V) by (intros x Hx; apply (i_V I), (pa_keys Sk Hpi Hx)).
    assert (Lpi : length pi <= length V) by (apply NoDup_incl_len; assumption).
    assert (PAij : PA P' i j) by apply dget_dset_eq.
    (* a step without a cycle *)
    assert (Next : ~ In j pi -> scanning N i (pre ++ [j]) P' q' h').
    { intros Nj. pose proof (step_inv lc_EV I Hi Hij Drop Hpi Ni Nj) as I'. split; [exact F'|]. exists (updl D j (di + c i j)), di.
      pose proof (step_ij Hpi Nj) as Hne. split; [exact I'|]. split; [exact R'|]. split; [rewrite updl_ne by exact Hne; exact Hi|]. split; [|split].
      - intros x Hx. destruct (eq_dec x j) as [->|Hx2]; [rewrite updl_eq; discriminate|]. rewrite updl_ne by exact Hx2. apply Hq' in Hx as [Hx|Hx]; [apply Hq, Hx|congruence].
      - intros x y Hxy Hx Hp dx Hdx. rewrite Hq' in Hx. rewrite updl_ne in Hdx by tauto. destruct (eq_dec y j) as [->|Hy].
        + rewrite updl_eq. exists (di + c i j)%Z. split; [reflexivity|]. destruct (eq_dec x i) as [->|Hxi]; [replace dx with di by congruence; lia|].
          destruct (St x j Hxy) with (dx := dx) as (dy & Hdy & Ldy); [tauto|intros; contradiction|exact Hdx|]. rewrite Hdy in Drop. lia.
        + rewrite updl_ne by exact Hy. apply (St x y Hxy); [tauto| |exact Hdx]. intros Ex. specialize (Hp Ex). apply in_app_iff in Hp as [Hp|[->|[]]]; [exact Hp|congruence].
      - pose proof (mu_drop lc_NV lc_EV I I' Vj Drop Lq). lia. }
    destruct (dmem P j) eqn:Hm'.
    - destruct (in_dec eq_dec j pi) as [Jp|Jp].
      + apply in_split in Jp as (a & b & ->). apply NoDup_app_iff in Ni as (Na & Nb & Nab). inversion Nb as [|? ? Nb1 Nb2]; subst.
        destruct (neg_cycle I Hi Hij Drop Hpi) as [Cw Cc]. pose proof (walk_suffix Hpi) as Hs.
        assert (Hs' : walk (PA P') j (j :: b) i) by (apply step_walk; [exact Hs|exact Nb1]).
        apply ok_bind. eapply ok_intro; [apply (cc_run_cycle (g := h') (fuel := fuel) PAij Hs' Nb1 Nb2)|].
        * intros x Hx. rewrite (ss_node_list (lf_shape F')). apply Kpi, in_or_app. right. exact Hx.
        * rewrite app_length in Lpi. simpl in Lpi. lia.
        * apply ok_ret. split; [exact F'|]. exists j, b. repeat split; [apply NoDup_snoc; auto| |exact Cw|exact Cc].
          exists (a ++ [j]). apply (pa_E I). apply walk_prefix with i b. exact Hpi.
      + apply ok_bind. eapply ok_intro; [apply (cc_run_none (g := h') (fuel := fuel) (s := s) (pi := pi) (i := i))|].
        * unfold P'. rewrite dget_dset_ne; [apply (i_ps I)|apply (step_js Hpi Jp)].
        * exact PAij.
        * apply step_walk; [exact Hpi|]. intros H. apply Jp. destruct pi; [destruct H|right; exact H].
        * exact Ni.
        * exact Jp.
        * rewrite (ss_node_list (lf_shape F')). exact Vj.
        * intros x Hx. rewrite (ss_node_list (lf_shape F')). apply Kpi, Hx.
        * lia.
        * apply ok_ret. apply Next, Jp.
    - apply ok_ret. apply Next. intros Hj. apply dmem_nIn in Hm'. apply Hm'. apply (pa_keys Sk Hpi Hj).
  Qed.
  Lemma scan_ok fuel N i l : length V + 1 < fuel -> forall pre P q h, (forall j, In j l -> E i j) -> scanning N i pre P q h ->
    ok (lc_scan Py2 fuel i l (P, q)) h (fun r h' => match r with
      | inl (P', q') => scanning N i (pre ++ l) P' q' h'
      | inr cyc => lfr h' /\ goodcycle cyc end).
  Proof.
    intros Hf. induction l as [|j l IH]; intros pre P q h Hl H; cbn [lc_scan]; [apply ok_ret; rewrite app_nil_r; exact H|].
    apply ok_bind. eapply ok_weaken; [apply (relax_ok Hf (Hl j (or_introl eq_refl)) H)|]. intros [[P' q']|cyc] h' H'; [|apply ok_ret; exact H'].
    replace (pre ++ j :: l) with ((pre ++ [j]) ++ l) by (rewrite <- app_assoc; reflexivity). apply IH; [intros x Hx; apply Hl; right; exact Hx|exact H'].
  Qed.
  Definition main_inv (st : preds * list name) (h : graph) : Prop :=
    lfr h /\ exists D, inv D (fst st) /\ lrep h D /\ (forall x, In x (snd st) -> D x <> None) /\
      (forall x y, E x y -> ~ In x (snd st) -> settled c D x y).
  Definition labelled (r : preds + list name) (h : graph) : Prop :=
    lfr h /\ match r with
    | inl P => exists D, inv D P /\ lrep h D /\ forall x y, E x y -> settled c D x y
    | inr cyc => goodcycle cyc
    end.
  (* the labels are a function of the graph, so the measure is one of the state *)
  Definition dofg (h : graph) (n : name) : option Z := match nattr h n "distance" with VI z => Some z | _ => None end.
  Lemma lrep_dofg h D n : lrep h D -> In n V -> dofg h n = D n.
  Proof. intros R Hn. unfold dofg. rewrite (R n Hn). destruct (D n); reflexivity. Qed.
  Lemma mu_dofg h D q : lrep h D -> mu (dofg h) q = mu D q.
  Proof. intros R. unfold P_LabelAbs.mu. do 3 f_equal. apply zsum_ext. intros n Hn. unfold lval. rewrite (lrep_dofg R Hn). reflexivity. Qed.
  Lemma main_ok fuel fuel' st h : length V + 1 < fuel -> main_inv st h -> mu (dofg h) (snd st) < fuel' ->
    ok (loop fuel' (fun s : preds * list name =>
      let '(pred, q) := s in
      match q with
      | [] => ret (inr (inl pred))
      | i :: q' =>
          l <- nbr_list i ;;
          r <- lc_scan Py2 fuel i l (pred, q') ;;
          match r with inl s' => ret (inl s') | inr cycle => ret (inr (inr cycle)) end
      end) st) h labelled.
  Proof.
    intros Hf M0 Hm. apply ok_loop with (I := main_inv) (mu := fun st h => mu (dofg h) (snd st)); [exact M0|exact Hm|].
    clear st h M0 Hm. intros [P q] h (F & D & I & R & Hq & St). cbn [fst snd] in *. rewrite (mu_dofg q R).
    destruct q as [|i q]; [apply ok_ret; split; [exact F|]; exists D; refine (conj I (conj R _)); intros x y Hxy; apply St; [exact Hxy|auto]|].
    destruct (D i) as [di|] eqn:Hi; [|exfalso; apply (Hq i); [left; reflexivity|exact Hi]].
    assert (Vi : In i V) by (apply (i_V I), (i_key I); congruence).
    apply ok_bind. apply ok_nbr_list; [rewrite (ss_node_list (lf_shape F)); exact Vi|]. rewrite (ss_nbrs (lf_shape F)).
    apply ok_bind. eapply ok_weaken; [apply scan_ok with (pre := []) (N := mu D (i :: q)); [exact Hf|intros j Hj; apply (nbr_check_edge W Hj)|]|].
    - split; [exact F|]. exists D, di. refine (conj I (conj R (conj Hi (conj _ (conj _ _))))).
      + intros x Hx. apply Hq. right. exact Hx.
      + intros x y Hxy Hx Hp. apply St; [exact Hxy|]. intros [->|Hx']; [apply Hp; reflexivity|contradiction].
      + unfold P_LabelAbs.mu. cbn [length]. pose proof (zsum_nonneg (f := lval V c D) (l := V) ltac:(intros; apply (lval_nonneg lc_NV lc_EV I))). lia.
    - intros [[P' q']|cyc] h'; cbn [app].
      + intros (F' & D' & di' & I' & R' & Hi' & Hq' & St' & Hm'). apply ok_ret. cbn [fst snd]. split; [|rewrite (mu_dofg q' R'); exact Hm'].
        split; [exact F'|]. exists D'. cbn [fst snd]. refine (conj I' (conj R' (conj Hq' _))). intros x y Hxy Hx. apply St'; [exact Hxy|exact Hx|]. intros ->. apply (check_edge_nbr W Hxy).
      + intros [F' G]. apply ok_ret. split; assumption.
  Qed.
  Definition lc_fuel : nat := length V + 2 + mu (fun n => if eq_dec n s then Some 0%Z else None) [s].
  Lemma fifo_ok fuel : lc_fuel <= fuel -> ok (fifo_label_correcting Py2 fuel s) g labelled.
  Proof.
    intros Hf. unfold lc_fuel in Hf. unfold fifo_label_correcting. pose proof SV as Sn.
    assert (NG : forall n, In n V -> In n (dkeys (g_nodes g))) by (intros n Hn; rewrite (wf_nodes W); exact Hn).
    apply ok_bind. apply ok_set_node_attr; [apply NG, Sn|]. intros h0 S0 N0 E0 A0 C0 G0. apply ok_bind, ok_gets. apply ok_bind. rewrite (ss_node_list S0).
    eapply ok_weaken; [apply (ok_forM (l := V) (I := fun pre h => lfr h /\ forall n, nattr h n "distance" = if eqb n s then VI 0 else if mem n pre then VS "inf" else nattr g n "distance") (Q := fun h => lfr h /\ forall n, nattr h n "distance" = if eqb n s then VI 0 else if mem n V then VS "inf" else nattr g n "distance"))|].
    - split.
      + constructor; auto. intros n a Ha. rewrite N0. destruct (eq_dec (n, a) (s, "distance")); [congruence|reflexivity].
      + intros n. rewrite N0. simpl. destruct (eqb_spec n s) as [->|Hn]; [destruct (eq_dec (s, "distance") (s, "distance")); congruence|].
        destruct (eq_dec (n, "distance") (s, "distance")); [congruence|reflexivity].
    - intros pre x post h El [F Hd]. assert (Vx : In x V) by (rewrite El; apply in_elt). destruct (eqb_spec x s) as [->|Hx].
      + apply ok_ret. split; [exact F|]. intros n. rewrite Hd. destruct (eqb_spec n s); [reflexivity|].
        assert (mem n (pre ++ [s]) = mem n pre) as ->; [|reflexivity]. destruct (mem_spec n pre) as [H|H]; [apply mem_In, in_or_app; auto|]. apply mem_nIn. rewrite in_app_iff. intros [H'|[->|[]]]; congruence.
      + apply ok_set_node_attr; [apply nodes_in; assumption|]. intros h' S' N' E' A' C' G'. split.
        * constructor; [eapply ss_trans; [apply (lf_shape F)|exact S']| | | | |].
          -- intros n a Ha. rewrite N'. destruct (eq_dec (n, a) (x, "distance")); [congruence|]. apply (lf_nodes F); exact Ha.
          -- rewrite G'. apply (lf_edges F).
          -- intros y z a. rewrite E'. apply (lf_eattr F).
          -- rewrite A'. apply (lf_attr F).
          -- rewrite C'. apply (lf_ncomp F).
        * intros n. rewrite N'. destruct (eq_dec (n, "distance") (x, "distance")) as [[= ->]|Hne].
          -- destruct (eqb_spec x s); [congruence|]. assert (mem x (pre ++ [x]) = true) as -> by (apply mem_In, in_elt). reflexivity.
          -- rewrite Hd. destruct (eqb_spec n s); [reflexivity|]. assert (mem n (pre ++ [x]) = mem n pre) as ->; [|reflexivity].
             destruct (mem_spec n pre) as [H|H]; [apply mem_In, in_or_app; auto|]. apply mem_nIn. rewrite in_app_iff. intros [H'|[->|[]]]; congruence.
    - auto.
    - intros _ h [F Hd]. unfold lc_main. set (D := fun n => if eq_dec n s then Some 0%Z else None) in *.
      assert (R : lrep h D).
      { intros n Hn. rewrite Hd. unfold D. destruct (eqb_spec n s), (eq_dec n s); try congruence. assert (mem n V = true) as -> by (apply mem_In; exact Hn). reflexivity. }
      apply main_ok; [lia| |cbn [snd]; rewrite (mu_dofg [s] R); lia]. split; [exact F|]. exists D. cbn [fst snd].
      assert (Ds : D s = Some 0%Z) by (unfold D; destruct (eq_dec s s); congruence).
      split; [|split; [exact R|split]].
      + apply inv_init; [exact SV|exact Ds|]. intros n Hn. unfold D. destruct (eq_dec n s); congruence.
      + intros x [<-|[]]. congruence.
      + intros x y _ Hx dx Hdx. unfold D in Hdx. destruct (eq_dec x s) as [->|]; [exfalso; apply Hx; left; reflexivity|discriminate].
  Qed.
End Fifo.
