(* The order in which simplex_search visits the nodes is a preorder of the tree of predecessors. *)
From Verif Require Import Py Util M_Graph P_Graph Spec P_Walk P_Attr M_Flow M_MinCost M_NetSimplex S_Flow S_MinCost P_EdgeFrame P_NetTree P_NetSearch S_SimplexSearch.
Set Implicit Arguments. Unset Strict Implicit.
Local Open Scope string_scope. Local Open Scope list_scope.

Section Pre.
  Variables (es : arcs) (r : graph) (source : name) (nr : val) (seq : list name) (P : name -> option name) (D : name -> Z) (pred : dict name (option name)).
  Hypothesis TI : tree_info es r source nr seq P D.
  Hypothesis Hk : forall x, In x (dkeys pred) <-> In x seq.
  Hypothesis Hp : forall x, In x seq -> dget pred x = Some (P x).
  Notation T := (tree_arc pred).
  Lemma t_par x y : T x y -> In y seq /\ P y = Some x.
  Proof. intros H. assert (Hy : In y seq) by (apply Hk; eapply dget_Some_keys; exact H). split; [exact Hy|]. unfold tree_arc in H. rewrite (Hp Hy) in H. congruence. Qed.
  Lemma par_t x y : In y seq -> P y = Some x -> T x y.
  Proof. intros Hy H. unfold tree_arc. rewrite (Hp Hy), H. reflexivity. Qed.
  Lemma reach_inv x y : reach T x y -> y = x \/ exists p, T p y /\ reach T x p.
  Proof. intros [l H]. apply walk_snoc_inv in H as [[_ ->]|(q & b & _ & H & A)]; [auto|]. right. exists b. split; [exact A|exists q; exact H]. Qed.
  Lemma par_before s1 y s2 p : seq = s1 ++ y :: s2 -> T p y -> In p s1 /\ D y = (D p + 1)%Z.
  Proof.
    intros E A. apply t_par in A as [_ A]. destruct (eq_dec y source) as [->|Hs]; [rewrite (ti_src TI) in A; discriminate|].
    destruct (ti_par TI E Hs) as (p' & H1 & H2 & _ & H3). rewrite A in H1. injection H1 as <-. auto.
  Qed.
  Lemma anc x : forall s1 y s2, seq = s1 ++ y :: s2 -> reach T x y -> y = x \/ (In x s1 /\ (D x < D y)%Z).
  Proof.
    intros s1. assert (H : exists n, length s1 < n) by (exists (S (length s1)); lia). destruct H as [n Hn]. revert s1 Hn. induction n as [|n IH]; intros s1 Hn y s2 E R; [lia|].
    apply reach_inv in R as [R|(p & A & R)]; [auto|]. right. destruct (par_before E A) as [Hp1 Hd]. apply in_split in Hp1 as (a & b & ->). rewrite <- app_assoc in E. cbn [app] in E.
    rewrite app_length in Hn. cbn [length] in Hn. assert (Hl : length a < n) by lia. destruct (IH a Hl p _ E R) as [->|[H1 H2]]; (split; [apply in_app_iff; simpl; auto|lia]).
  Qed.
  Lemma desc_dec x : forall s1 s2, seq = s1 ++ s2 -> forall y, In y s1 -> reach T x y \/ ~ reach T x y.
  Proof.
    intros s1. induction s1 as [|y s1 IH] using rev_ind; intros s2 E z Hz; [destruct Hz|]. rewrite <- app_assoc in E. cbn [app] in E.
    apply in_app_iff in Hz as [Hz|[<-|[]]]; [apply (IH _ E z Hz)|]. destruct (eq_dec y x) as [->|Hne]; [left; apply reach_refl|].
    destruct (eq_dec y source) as [->|Hs].
    - right. intros R. apply reach_inv in R as [R|(p & A & _)]; [congruence|]. apply t_par in A as [_ A]. rewrite (ti_src TI) in A. discriminate.
    - destruct (ti_par TI E Hs) as (p & Hpar & Hin & _). assert (Hy : In y seq) by (rewrite E; apply in_app_iff; simpl; auto). pose proof (par_t Hy Hpar) as A.
      destruct (IH _ E p Hin) as [R|R]; [left; apply (reach_step R A)|]. right. intros R'. apply reach_inv in R' as [R'|(p' & A' & R')]; [congruence|].
      apply t_par in A' as [_ A']. rewrite Hpar in A'. injection A' as <-. contradiction.
  Qed.
  Lemma pre_step s1 a b s2 : seq = s1 ++ a :: b :: s2 -> exists p, T p b /\ reach T p a.
  Proof.
    intros E. destruct (ti_pre TI E) as (p & Hb & R). assert (Hbs : In b seq) by (rewrite E; apply in_app_iff; simpl; auto).
    exists p. split; [apply (par_t Hbs Hb)|]. assert (Has : In a seq) by (rewrite E; apply in_app_iff; simpl; auto). destruct R as [l Hw]. exists l.
    clear - Hw Has TI Hp. induction Hw as [c|c d l e A Hw IH]; [constructor|]. econstructor; [|apply IH, Has].
    assert (K : forall u l v, walk (fun x y => P y = Some x) u l v -> In v seq -> In u seq).
    { clear - TI. intros u l v H. induction H as [|u w l v A H IH]; [auto|]. intros Hv. specialize (IH Hv). apply in_split in IH as (t1 & t2 & E).
      destruct (eq_dec w source) as [->|Hs]; [rewrite (ti_src TI) in A; discriminate|]. destruct (ti_par TI E Hs) as (p' & H1 & H2 & _). rewrite A in H1. injection H1 as <-. rewrite E. apply in_app_iff. auto. }
    unfold tree_arc. rewrite (Hp (K _ _ _ Hw Has)), A. reflexivity.
  Qed.
  Lemma gone x : forall l s1 a, seq = s1 ++ a :: l -> ~ In x l -> ~ reach T x a -> forall y, In y l -> ~ reach T x y.
  Proof.
    induction l as [|b l IH]; intros s1 a E Hx Ha y Hy; [destruct Hy|]. destruct (pre_step E) as (p & A & R).
    assert (Hb : ~ reach T x b).
    { intros R'. apply reach_inv in R' as [->|(p' & A' & R')]; [apply Hx; simpl; auto|]. unfold tree_arc in A, A'. rewrite A in A'. injection A' as <-. apply Ha, (reach_trans R' R). }
    destruct Hy as [<-|Hy]; [exact Hb|]. apply (IH (s1 ++ [a]) b); auto; [rewrite <- app_assoc; exact E|]. intros H. apply Hx. simpl. auto.
  Qed.
  Lemma comparable p x a : reach T p a -> reach T x a -> reach T p x \/ reach T x p.
  Proof.
    intros R R'. destruct R' as [l H]. assert (K : exists n, length l < n) by (exists (S (length l)); lia). destruct K as [n Hn]. revert p l a R H Hn. induction n as [|n IH]; intros p l a R H Hn; [lia|].
    apply walk_snoc_inv in H as [[_ ->]|(q & b & -> & H & A)]; [auto|]. apply reach_inv in R as [->|(c & A' & R)]; [right; exists (q ++ [p]); eapply walk_snoc; eauto|].
    unfold tree_arc in A, A'. rewrite A in A'. injection A' as <-. apply (IH p q b R H). rewrite app_length in Hn. simpl in Hn. lia.
  Qed.
  Lemma block x s1 : forall s2 mid, seq = s1 ++ x :: mid ++ s2 -> (forall y, In y mid -> reach T x y) ->
    exists sub rest, s2 = sub ++ rest /\ (forall y, In y sub -> reach T x y) /\ match rest with [] => True | y :: _ => ~ reach T x y end.
  Proof.
    induction s2 as [|y s2 IH]; intros mid E Hm; [exists [], []; repeat split; intros ? []|].
    assert (E' : seq = s1 ++ x :: (mid ++ [y]) ++ s2) by (rewrite <- app_assoc; exact E).
    assert (Hy : reach T x y \/ ~ reach T x y) by (apply (desc_dec x (s1 := seq) (s2 := [])); [rewrite app_nil_r; reflexivity|rewrite E'; repeat (rewrite in_app_iff; simpl); auto 7]).
    destruct Hy as [Hy|Hy]; [|exists [], (y :: s2); repeat split; [intros ? []|exact Hy]].
    destruct (IH _ E') as (sub & rest & -> & H1 & H2); [intros z Hz; apply in_app_iff in Hz as [Hz|[<-|[]]]; auto|].
    exists (y :: sub), rest. repeat split; [|exact H2]. intros z [<-|Hz]; auto.
  Qed.
  Lemma seq_preorder : preorder pred D seq.
  Proof.
    intros s1 x s2 E. destruct (block (mid := []) E) as (sub & rest & -> & Hs & Hr); [intros ? []|].
    pose proof (ti_nd TI) as Nd. rewrite E in Nd. pose proof (NoDup_remove_2 _ _ _ Nd) as Nx.
    exists sub, rest. split; [reflexivity|]. split; [|split].
    - intros y. split; [intros [<-|H]; [apply reach_refl|auto]|]. intros R.
      assert (Hy : In y seq). { destruct (reach_inv R) as [->|(p & A & _)]; [rewrite E; apply in_app_iff; simpl; auto|apply (t_par A)]. }
      rewrite E in Hy. apply in_app_iff in Hy as [Hy|[<-|Hy]]; [exfalso|simpl; auto|].
      + apply in_split in Hy as (a & b & ->). pose proof E as E2. rewrite <- app_assoc in E2. cbn [app] in E2. destruct (anc E2 R) as [->|[H _]]; apply Nx; rewrite !in_app_iff; simpl; auto.
      + apply in_app_iff in Hy as [Hy|Hy]; [simpl; auto|]. exfalso. destruct rest as [|b rest]; [destruct Hy|]. destruct Hy as [<-|Hy]; [contradiction|].
        revert R. apply (gone (l := rest) (s1 := s1 ++ x :: sub) (a := b)); auto; [rewrite <- app_assoc; exact E|]. intros H. apply Nx. rewrite !in_app_iff. simpl. auto.
    - intros y Hy. pose proof (Hs y Hy) as R. apply in_split in Hy as (a & b & Eb). assert (E2 : seq = (s1 ++ x :: a) ++ y :: b ++ rest) by (rewrite E, Eb, <- !app_assoc; reflexivity).
      destruct (anc E2 R) as [->|[_ H]]; [|exact H]. exfalso. apply Nx. rewrite Eb, !in_app_iff. simpl. auto.
    - destruct rest as [|b rest]; [trivial|]. destruct (exists_last (l := x :: sub)) as (pre & a & Ea); [discriminate|].
      assert (E2 : seq = (s1 ++ pre) ++ a :: b :: rest). { rewrite E. change (x :: sub ++ b :: rest) with ((x :: sub) ++ b :: rest). rewrite Ea, <- !app_assoc. reflexivity. }
      destruct (pre_step E2) as (p & A & R).
      assert (Ra : reach T x a). { assert (Hin : In a (x :: sub)) by (rewrite Ea; apply in_app_iff; simpl; auto). destruct Hin as [<-|Hin]; [apply reach_refl|auto]. }
      assert (E3 : seq = ((s1 ++ pre) ++ [a]) ++ b :: rest) by (rewrite E2, <- !app_assoc; reflexivity). destruct (par_before E3 A) as [_ Hd].
      destruct (comparable R Ra) as [C|C]; [|exfalso; apply Hr, (reach_step C A)]. destruct (anc E C) as [->|[_ H]]; [|lia]. exfalso. apply Hr, (reach_step (reach_refl _ _) A).
  Qed.
  Lemma seq_reach g x : (forall a b, linked g a b <-> adj es a b) -> (In x seq <-> reach (linked g) source x).
  Proof.
    intros L. assert (Hs : In source seq) by (destruct (ti_hd TI) as [rest ->]; simpl; auto). split.
    - assert (K : forall s1 s2, seq = s1 ++ s2 -> forall y, In y s1 -> reach (linked g) source y).
      { intros s1. induction s1 as [|y s1 IH] using rev_ind; intros s2 E z Hz; [destruct Hz|]. rewrite <- app_assoc in E. cbn [app] in E.
        apply in_app_iff in Hz as [Hz|[<-|[]]]; [apply (IH _ E z Hz)|]. destruct (eq_dec y source) as [->|Hne]; [apply reach_refl|].
        destruct (ti_par TI E Hne) as (p & _ & Hin & A & _). apply reach_step with (b := p); [apply (IH _ E p Hin)|]. apply L, adj_sym, A. }
      intros Hx. apply (K seq [] (eq_sym (app_nil_r seq)) x Hx).
    - intros [l H]. assert (K : forall a l b, walk (linked g) a l b -> In a seq -> In b seq); [|apply (K _ _ _ H Hs)].
      clear - L TI. intros a l b H. induction H as [|a b l c A _ IH]; [auto|]. intros Ha. apply IH, (ti_closed TI Ha), L, A.
  Qed.
End Pre.
