(* Exchange argument for spanning forests built greedily across cuts. *)
From Verif Require Import Py Util M_Graph Spec P_Walk S_Span.
Set Implicit Arguments. Unset Strict Implicit.

Lemma walk_mono_in (E E' : name -> name -> Prop) a p b : walk E a p b -> (forall x y, In x p -> In y p -> E x y -> E' x y) -> walk E' a p b.
Proof.
  induction 1 as [a|a x p c He Hw IH]; intros H; [constructor|]. apply walk_step with (b := x).
  - apply H; [simpl; auto| |assumption]. right. destruct (walk_hd Hw) as [t ->]. simpl; auto.
  - apply IH. intros; apply H; simpl; auto.
Qed.
Lemma walk_nodup (E : name -> name -> Prop) a p b : walk E a p b -> exists q, walk E a q b /\ NoDup q /\ incl q p.
Proof.
  induction 1 as [a|a x p c He Hw (q & Hq & Hnd & Hi)].
  - exists [a]. split; [constructor|]. split; [repeat constructor; auto|apply incl_refl].
  - destruct (mem_spec a q) as [Ha|Ha].
    + apply in_split in Ha as (l1 & l2 & ->). exists (a :: l2). split; [eapply walk_suffix; eauto|].
      split; [apply NoDup_app_iff in Hnd; tauto|]. intros y [<-|Hy]; [simpl; auto|]. right. apply Hi. apply in_or_app; simpl; auto.
    + exists (a :: q). split; [econstructor; eauto|]. split; [constructor; assumption|]. intros y [<-|Hy]; simpl; auto.
Qed.
Lemma walk_cross (E : name -> name -> Prop) (S : name -> bool) a p b : walk E a p b -> S a <> S b ->
  exists p1 x y p2, p = p1 ++ x :: y :: p2 /\ E x y /\ S x <> S y.
Proof.
  induction 1 as [a|a x p c He Hw IH]; intros HS; [congruence|].
  destruct (Bool.bool_dec (S a) (S x)) as [Heq|Hne].
  - destruct IH as (p1 & u & v & p2 & -> & H1 & H2); [congruence|]. exists (a :: p1), u, v, p2. auto.
  - destruct (walk_hd Hw) as [t ->]. exists [], a, x, t. auto.
Qed.

Lemma adj_sym F x y : adj F x y -> adj F y x.
Proof. unfold adj; tauto. Qed.
Lemma conn_refl F x : conn F x x.
Proof. apply reach_refl. Qed.
Lemma conn_sym F x y : conn F x y -> conn F y x.
Proof. apply reach_sym. intros a b; apply adj_sym. Qed.
Lemma conn_trans F x y z : conn F x y -> conn F y z -> conn F x z.
Proof. apply reach_trans. Qed.
Lemma conn_edge F x y : adj F x y -> conn F x y.
Proof. intros H. exists [x; y]. repeat (econstructor; eauto). Qed.
Lemma conn_sub F F' : (forall x y, In (x, y) F -> conn F' x y) -> forall x y, conn F x y -> conn F' x y.
Proof.
  intros H x y [p Hp]. induction Hp as [a|a b p c He Hw IH]; [apply conn_refl|].
  eapply conn_trans; [|exact IH]. destruct He as [He|He]; [auto|apply conn_sym; auto].
Qed.
Lemma conn_incl F F' x y : incl F F' -> conn F x y -> conn F' x y.
Proof. intros Hi. apply conn_sub. intros a b Hab. apply conn_edge. left; auto. Qed.

(* computable components *)
Fixpoint comp (F : list edge) (x : name) : name :=
  match F with
  | [] => x
  | (a, b) :: F' => if eq_dec (comp F' x) (comp F' a) then comp F' b else comp F' x
  end.
Lemma comp_conn F x y : comp F x = comp F y <-> conn F x y.
Proof.
  split.
  - revert x y. induction F as [|[a b] F IH]; intros x y; simpl; [intros ->; apply conn_refl|].
    assert (Hs : forall u v, conn F u v -> conn ((a, b) :: F) u v) by (intros u v; apply conn_incl; intros z; simpl; auto).
    assert (Hab : conn ((a, b) :: F) a b) by (apply conn_edge; left; simpl; auto).
    destruct (eq_dec (comp F x) (comp F a)) as [H1|H1], (eq_dec (comp F y) (comp F a)) as [H2|H2]; intros H; apply IH in H.
    + apply Hs. apply IH. congruence.
    + apply IH in H1. eapply conn_trans; [apply Hs; exact H1|]. eapply conn_trans; [exact Hab|]. apply Hs. assumption.
    + apply IH in H2. eapply conn_trans; [apply Hs; exact H|]. eapply conn_trans; [apply conn_sym; exact Hab|]. apply Hs, conn_sym. assumption.
    + apply Hs; assumption.
  - intros [p Hp]. induction Hp as [a|a b p c He Hw IH]; [reflexivity|]. rewrite <- IH. clear -He.
    induction F as [|[u v] F IHF]; [destruct He as [[]|[]]|]. simpl.
    assert (adj F a b -> comp F a = comp F b) by auto.
    destruct He as [[He|He]|[He|He]].
    + injection He as -> ->. destruct (eq_dec (comp F a) (comp F a)); [|congruence]. destruct (eq_dec (comp F b) (comp F a)); congruence.
    + rewrite H by (left; assumption). reflexivity.
    + injection He as -> ->. destruct (eq_dec (comp F b) (comp F b)); [|congruence]. destruct (eq_dec (comp F a) (comp F b)); congruence.
    + rewrite H by (right; assumption). reflexivity.
Qed.
Lemma conn_dec F x y : {conn F x y} + {~ conn F x y}.
Proof. destruct (eq_dec (comp F x) (comp F y)) as [H|H]; [left; apply comp_conn; assumption|right; rewrite <- comp_conn; assumption]. Qed.
Lemma conn_cons u v F x y : conn ((u, v) :: F) x y -> conn F x y \/ (conn F x u /\ conn F v y) \/ (conn F x v /\ conn F u y).
Proof.
  rewrite <- !comp_conn. simpl. destruct (eq_dec (comp F x) (comp F u)), (eq_dec (comp F y) (comp F u)); intros H; intuition congruence.
Qed.
Lemma conn_swap l1 e l2 x y : conn (l1 ++ e :: l2) x y <-> conn (e :: l1 ++ l2) x y.
Proof. split; apply conn_incl; intros z; simpl; rewrite !in_app_iff; simpl; tauto. Qed.

Lemma acyclic_cons e T : acyclic T -> ~ conn T (fst e) (snd e) -> acyclic (e :: T).
Proof.
  intros HT He l1 f l2 Heq. destruct l1 as [|x l1]; simpl in Heq; injection Heq as <- ->; [assumption|].
  simpl. intros Hc. destruct e as [u v]. pose proof (HT l1 f l2 eq_refl) as Hf. destruct f as [a b]; simpl in *.
  assert (Hs : forall x y, conn (l1 ++ l2) x y -> conn (l1 ++ (a, b) :: l2) x y) by (intros x y; apply conn_incl; intros z; rewrite !in_app_iff; simpl; tauto).
  assert (Hab : conn (l1 ++ (a, b) :: l2) a b) by (apply conn_edge; left; rewrite in_app_iff; simpl; auto).
  apply conn_cons in Hc as [Hc|[[H1 H2]|[H1 H2]]]; [contradiction| |]; apply He.
  - eapply conn_trans; [apply Hs, conn_sym; exact H1|]. eapply conn_trans; [exact Hab|]. apply Hs, conn_sym, H2.
  - eapply conn_trans; [apply Hs; exact H2|]. eapply conn_trans; [apply conn_sym; exact Hab|]. apply Hs, H1.
Qed.
Lemma acyclic_nodup T : acyclic T -> NoDup T.
Proof.
  intros H. induction T as [|e T IH]; constructor.
  - intros Hin. apply (H [] e T eq_refl). simpl. apply conn_edge. left. destruct e; assumption.
  - apply IH. intros l1 f l2 -> Hc. apply (H (e :: l1) f l2 eq_refl). eapply conn_incl; [|exact Hc]. intros z; simpl; auto.
Qed.
Lemma acyclic_tail e T : acyclic (e :: T) -> acyclic T /\ ~ conn T (fst e) (snd e).
Proof.
  intros H. split; [|apply (H [] e T eq_refl)]. intros l1 f l2 -> Hc. apply (H (e :: l1) f l2 eq_refl). eapply conn_incl; [|exact Hc]. intros z; simpl; auto.
Qed.

Section Exchange.
  Variable c : edge -> Z.
  Variable E : list edge.
  Definition crosses (S : name -> bool) (e : edge) : Prop := S (fst e) <> S (snd e).
  (* each edge (the last one first) crosses a cut that no earlier edge crosses, as cheaply as possible *)
  Inductive cutseq : list edge -> Prop :=
  | cs_nil : cutseq []
  | cs_cons e T (S : name -> bool) : cutseq T -> In e E -> crosses S e -> (forall f, In f T -> ~ crosses S f) ->
      (forall f, In f E -> crosses S f -> (c e <= c f)%Z) -> cutseq (e :: T).
  Lemma cutseq_incl T : cutseq T -> incl T E.
  Proof. induction 1; intros f Hf; [destruct Hf|]. destruct Hf as [<-|Hf]; auto. Qed.
  Lemma not_conn_cut S T e : crosses S e -> (forall f, In f T -> ~ crosses S f) -> ~ conn T (fst e) (snd e).
  Proof.
    intros He HT [p Hp]. destruct (walk_cross Hp He) as (p1 & x & y & p2 & _ & [H|H] & HS).
    - apply (HT _ H). exact HS.
    - apply (HT _ H). unfold crosses; simpl. congruence.
  Qed.
  Lemma cutseq_acyclic T : cutseq T -> acyclic T.
  Proof.
    induction 1 as [|e T S HT IH He Hc Hn Hm].
    - intros l1 e l2 H. destruct l1; discriminate.
    - apply acyclic_cons; [assumption|]. eapply not_conn_cut; eauto.
  Qed.
  Lemma total_mid l1 e l2 : total c (l1 ++ e :: l2) = (c e + total c (l1 ++ l2))%Z.
  Proof. induction l1; simpl; lia. Qed.
  Lemma swap S T F e : spanning E F -> incl T F -> In e E -> crosses S e -> (forall f, In f T -> ~ crosses S f) ->
    (forall f, In f E -> crosses S f -> (c e <= c f)%Z) ->
    exists F', spanning E F' /\ incl (e :: T) F' /\ length F' = length F /\ (total c F' <= total c F)%Z.
  Proof.
    intros [HF1 HF2] Hi He Hc Hn Hm. destruct e as [u v].
    assert (Huv : conn F u v) by (apply HF2, conn_edge; left; assumption).
    destruct Huv as [p0 Hp0]. destruct (walk_nodup Hp0) as (p & Hp & Hnd & _).
    destruct (walk_cross Hp Hc) as (p1 & a & b & p2 & -> & Hab & HS).
    assert (Hf : exists f, In f F /\ crosses S f /\ (f = (a, b) \/ f = (b, a))).
    { destruct Hab as [H|H]; eexists; (split; [exact H|]); split; auto; unfold crosses; simpl; congruence. }
    destruct Hf as (f & Hf & HfS & Hfe). apply in_split in Hf as (l1 & l2 & ->).
    exists (l1 ++ (u, v) :: l2).
    assert (Hsub : incl (l1 ++ l2) (l1 ++ (u, v) :: l2)) by (intros z; rewrite !in_app_iff; simpl; tauto).
    assert (Huv : conn (l1 ++ (u, v) :: l2) u v) by (apply conn_edge; left; rewrite in_app_iff; simpl; auto).
    assert (Hadj : forall x y z, In z [a; b] -> x <> z -> y <> z -> adj (l1 ++ f :: l2) x y -> adj (l1 ++ l2) x y).
    { intros x y z Hz Hx Hy. unfold adj. rewrite !in_app_iff. simpl.
      intros [[?|[Hq|?]]|[?|[Hq|?]]]; auto; exfalso; destruct Hfe as [-> | ->]; injection Hq as -> ->; destruct Hz as [<-|[<-|[]]]; congruence. }
    assert (Hua : conn (l1 ++ (u, v) :: l2) u a).
    { eapply conn_incl; [exact Hsub|]. exists (p1 ++ [a]). pose proof (walk_prefix Hp) as Hw. eapply walk_mono_in; [exact Hw|].
      assert (Hb : ~ In b (p1 ++ [a])).
      { intros Hb. replace (p1 ++ a :: b :: p2) with ((p1 ++ [a]) ++ b :: p2) in Hnd by (rewrite <- app_assoc; reflexivity).
        apply NoDup_remove_2 in Hnd. apply Hnd. apply in_or_app; auto. }
      intros x y Hx Hy. apply (Hadj x y b); [simpl; auto|congruence|congruence]. }
    assert (Hbv : conn (l1 ++ (u, v) :: l2) b v).
    { eapply conn_incl; [exact Hsub|]. exists (b :: p2).
      replace (p1 ++ a :: b :: p2) with ((p1 ++ [a]) ++ b :: p2) in Hp by (rewrite <- app_assoc; reflexivity).
      pose proof (walk_suffix Hp) as Hw. eapply walk_mono_in; [exact Hw|].
      assert (Ha : ~ In a (b :: p2)). { apply NoDup_remove_2 in Hnd. intros Ha. apply Hnd. apply in_or_app; auto. }
      intros x y Hx Hy. apply (Hadj x y a); [simpl; auto|congruence|congruence]. }
    assert (Hconab : conn (l1 ++ (u, v) :: l2) a b).
    { eapply conn_trans; [apply conn_sym; exact Hua|]. eapply conn_trans; [exact Huv|]. apply conn_sym; exact Hbv. }
    split; [split|split; [|split]].
    - intros z Hz. apply in_app_or in Hz as [Hz|[<-|Hz]]; [|assumption|]; apply HF1; rewrite in_app_iff; simpl; auto.
    - intros x y Hxy. apply HF2 in Hxy. revert x y Hxy. apply conn_sub. intros x y Hxy.
      apply in_app_or in Hxy as [Hxy|[Hxy|Hxy]].
      + apply conn_edge; left; rewrite in_app_iff; auto.
      + destruct Hfe as [-> | ->]; injection Hxy as -> ->; [assumption|apply conn_sym; assumption].
      + apply conn_edge; left; rewrite in_app_iff; simpl; auto.
    - intros z [<-|Hz]; [rewrite in_app_iff; simpl; auto|]. pose proof (Hi z Hz) as Hz'. rewrite in_app_iff in *. simpl in *.
      destruct Hz' as [?|[->|?]]; auto. exfalso. apply (Hn _ Hz). assumption.
    - rewrite !app_length. reflexivity.
    - rewrite !total_mid. assert (c (u, v) <= c f)%Z; [|lia]. apply Hm; [|assumption]. apply HF1. rewrite in_app_iff; simpl; auto.
  Qed.
  Lemma exchange T : cutseq T -> forall F, spanning E F ->
    exists F', spanning E F' /\ incl T F' /\ length F' = length F /\ (total c F' <= total c F)%Z.
  Proof.
    induction 1 as [|e T S HT IH He Hc Hn Hm]; intros F HF.
    - exists F. split; [assumption|]. split; [intros z []|]. split; [reflexivity|lia].
    - destruct (IH F HF) as (F1 & H1 & H2 & H3 & H4). destruct (swap H1 H2 He Hc Hn Hm) as (F2 & K1 & K2 & K3 & K4).
      exists F2. split; [assumption|]. split; [assumption|]. split; [congruence|lia].
  Qed.
  Lemma total_incl_nonneg T F : NoDup T -> incl T F -> (forall e, In e F -> 0 <= c e)%Z -> (total c T <= total c F)%Z.
  Proof.
    revert F. induction T as [|e T IH]; intros F Hnd Hi Hc; simpl.
    - clear Hi. induction F as [|f F IHF]; simpl; [lia|]. pose proof (Hc f (or_introl eq_refl)). specialize (IHF (fun e H => Hc e (or_intror H))). lia.
    - inversion Hnd as [|? ? Hn Hnd']; subst. destruct (in_split e F) as (l1 & l2 & ->); [apply Hi; simpl; auto|].
      rewrite total_mid. assert (total c T <= total c (l1 ++ l2))%Z; [|lia]. apply IH; [assumption| |].
      + intros z Hz. pose proof (Hi z (or_intror Hz)) as Hz'. rewrite in_app_iff in *. simpl in Hz'. destruct Hz' as [?|[->|?]]; auto. contradiction.
      + intros z Hz. apply Hc. rewrite in_app_iff in *. simpl. tauto.
  Qed.
  Lemma total_incl_len T F : NoDup T -> incl T F -> length F <= length T -> total c T = total c F.
  Proof.
    revert F. induction T as [|e T IH]; intros F Hnd Hi Hl.
    - destruct F; [reflexivity|simpl in Hl; lia].
    - inversion Hnd as [|? ? Hn Hnd']; subst. destruct (in_split e F) as (l1 & l2 & ->); [apply Hi; simpl; auto|].
      rewrite total_mid. simpl. f_equal. apply IH; [assumption| |].
      + intros z Hz. pose proof (Hi z (or_intror Hz)) as Hz'. rewrite in_app_iff in *. simpl in Hz'. destruct Hz' as [?|[->|?]]; auto. contradiction.
      + rewrite app_length in *. simpl in Hl. lia.
  Qed.
  Lemma cutseq_connecting T : cutseq T -> (forall e, In e E -> 0 <= c e)%Z -> min_connecting c E T.
  Proof.
    intros HT Hc F HF. destruct (exchange HT HF) as (F' & [H1 H1'] & H2 & H3 & H4).
    pose proof (total_incl_nonneg (acyclic_nodup (cutseq_acyclic HT)) H2). assert (forall e, In e F' -> 0 <= c e)%Z by auto. specialize (H H0). lia.
  Qed.
End Exchange.

(* every acyclic set is a cut sequence for constant costs *)
Lemma acyclic_cutseq E T : incl T E -> acyclic T -> cutseq (fun _ => 0%Z) E T.
Proof.
  induction T as [|e T IH]; intros Hi Ha; [constructor|].
  destruct (acyclic_tail Ha) as [Ha' Hn].
  apply cs_cons with (S := fun x => if eq_dec (comp T x) (comp T (fst e)) then true else false).
  - apply IH; [|assumption]. intros z Hz; apply Hi; simpl; auto.
  - apply Hi; simpl; auto.
  - unfold crosses. destruct (eq_dec (comp T (fst e)) (comp T (fst e))); [|congruence].
    destruct (eq_dec (comp T (snd e)) (comp T (fst e))) as [H|]; [|discriminate]. exfalso. apply Hn. apply comp_conn. congruence.
  - intros [x y] Hf. unfold crosses; simpl. assert (H : comp T x = comp T y) by (apply comp_conn, conn_edge; left; assumption).
    rewrite H. congruence.
  - intros; lia.
Qed.
Lemma acyclic_len E T F : incl T E -> acyclic T -> spanning E F -> length T <= length F.
Proof.
  intros Hi Ha HF. destruct (exchange (acyclic_cutseq Hi Ha) HF) as (F' & _ & H2 & H3 & _). rewrite <- H3.
  apply NoDup_incl_length; [apply acyclic_nodup; assumption|assumption].
Qed.
Theorem cutseq_min c E T : cutseq c E T -> spanning E T -> min_spanning_forest c E T.
Proof.
  intros HT HS. split; [assumption|]. pose proof (cutseq_acyclic HT) as Ha. split; [assumption|].
  intros F HF HaF. destruct (exchange HT HF) as (F' & H1 & H2 & H3 & H4).
  rewrite (total_incl_len c (acyclic_nodup Ha) H2); [assumption|]. rewrite H3. eapply acyclic_len; eauto. apply HF.
Qed.
