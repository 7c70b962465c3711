(* Branch and bound (C62): the invariant of the loop. *)
From Coq Require Import QArith Qround Qminmax Permutation Lqa.
From Verif Require Import Py Util M_Graph P_Graph P_GraphLaws P_Attr M_Flow M_Dot M_Tree S_Tree P_Tree M_BB S_BB P_BBLp P_BB.
Set Implicit Arguments. Unset Strict Implicit.
Local Open Scope string_scope. Local Open Scope list_scope.

Definition keys : list name := [NS "C"; NS "I"; NS "S"; NS "P"].
Definition nsum (l : list nat) : nat := fold_right Nat.add 0%nat l.
Lemma nsum_perm l l' : Permutation l l' -> nsum l = nsum l'.
Proof. unfold nsum. induction 1; cbn in *; lia. Qed.
Lemma nsum_app l l' : nsum (l ++ l') = (nsum l + nsum l')%nat.
Proof. unfold nsum. induction l; cbn in *; [reflexivity|]. lia. Qed.

Section Run.
  Variable P : instance.
  Variable solve : Z -> list con -> lp_result.
  Variable PQ : pqueue.
  Variable items : pq PQ -> list item.
  Variable bs : branching.
  Variable ss : searching.
  Variable ce : bool.
  Variable ladot : bool.
  Variable num : Q -> val.
  Variable fmt : Q -> string.
  Hypothesis Nd : NoDup (VARIABLES P).
  Hypothesis Ex : exact P solve.
  Hypothesis QL : queue_laws items.
  Hypothesis Hbs : bs <> OtherBranching.
  Hypothesis Hss : ss <> OtherSearch.
  Local Notation n := (length (VARIABLES P)).
  Local Notation sub := (subproblem ladot).

  (* the bounds of a queued item *)
  Definition icons (g : graph) (it : item) (cs : list con) : Prop :=
    match it with
    | (_, None) => cs = []
    | (_, Some (p, x, se, r)) => exists c cs', cs = c :: cs' /\ x = bound_var c /\ se = bound_sense c /\ r = bound_rhs c /\ sub g p cs'
    end.
  Definition weight (g : graph) (it : item) : nat :=
    match it with
    | (_, None) => (2 ^ (n + 1) - 1)%nat
    | (_, Some (p, _, _, _)) => match nattr g (NI p) "level" with VI z => (2 ^ (n - Z.to_nat z) - 1)%nat | _ => 0%nat end
    end.
  Definition parent_of (it : item) : option Z := match snd it with Some (p, _, _, _) => Some p | None => None end.
  Definition kid (g : graph) (its : list item) (i k : Z) (c : con) (cs : list con) : Prop :=
    In (NI k) (list_at (g_nbrs g) (NI i)) /\ sub g k (c :: cs) \/ In (k, Some (i, bound_var c, bound_sense c, bound_rhs c)) its.
  Definition shape (g : graph) (its : list item) (i : Z) : Prop := exists cs, sub g i cs /\ cs_ok P cs /\
    ((nattr g (NI i) "status" = VS "C" /\ exists x a, kid g its i a (CLe x 0) cs /\ kid g its i (a + 1) (CGe x 1) cs /\ incl (list_at (g_nbrs g) (NI i)) [NI a; NI (a + 1)] /\ (In x (VARIABLES P) /\ ~ In x (map bound_var cs)) /\
        forall it, In it its -> parent_of it = Some i -> fst it = a \/ fst it = (a + 1)%Z)
     \/ (nattr g (NI i) "status" <> VS "C" /\ list_at (g_nbrs g) (NI i) = [] /\ forall it, In it its -> parent_of it <> Some i)).

  Record run (s : bb PQ) (t : tree) (its : list item) (ids : list Z) : Prop := {
    r_wf : wf (t_g t); r_ty : g_type (t_g t) = Directed;
    r_list : get_node_list (t_g t) = keys ++ map NI ids;
    r_ids : forall i, In i ids -> (0 <= i <= b_nodes s)%Z;
    r_lps : b_lps s = Z.of_nat (length ids);
    r_iter : b_iter s = Z.of_nat (length ids);
    r_nodes : b_nodes s = Z.of_nat (length ids + length its);
    r_idx : NoDup (map fst its);
    r_its : forall it, In it its -> match snd it with
              | None => fst it = 0%Z /\ ids = []
              | Some (p, _, _, _) => (1 < fst it <= b_nodes s)%Z /\ ~ In (fst it) ids /\ In p ids
              end /\ exists cs, icons (t_g t) it cs /\ cs_ok P cs;
    r_shape : forall i, In i ids -> shape (t_g t) its i;
    r_visits : visits P solve ce ladot (t_g t) ids (b_lb s);
    r_cover : forall y, solution P y -> objective P y <= b_lb s \/ exists it cs, In it its /\ icons (t_g t) it cs /\ Forall (satisfies y) cs;
    r_best : exists x, (forall i, In i (VARIABLES P) -> dget (b_opt s) i = Some (x i)) /\ ((b_lb s = -9999 # 1 /\ forall i, In i (VARIABLES P) -> x i = 0) \/ (solution P x /\ objective P x == b_lb s));
    r_key : forall st, In (NS st) keys -> nattr (t_g t) (NS st) "fillcolor" = VS (if eqb st "C" then "yellow" else if eqb st "I" then "orange" else if eqb st "S" then "lightblue" else "red");
    r_color : forall c, b_color s = Some c -> ~ In c reads;
    r_work : (length ids + nsum (map (weight (t_g t)) its) <= 2 ^ (n + 1) - 1)%nat
  }.
  Lemma shape_incl g its its' i : (forall it, In it its <-> In it its') -> shape g its i -> shape g its' i.
  Proof.
    intros E (cs & H1 & H2 & H3). exists cs. split; [exact H1|]. split; [exact H2|]. destruct H3 as [(S & x & a & K1 & K2 & L & X & F)|(S & L & F)]; [left|right].
    - split; [exact S|]. exists x, a. unfold kid in *. rewrite <- !E. split; [exact K1|]. split; [exact K2|]. split; [exact L|]. split; [exact X|]. intros it Hit. apply F, E, Hit.
    - split; [exact S|]. split; [exact L|]. intros it Hit. apply F, E, Hit.
  Qed.
  Lemma run_perm s t its its' ids : Permutation its its' -> run s t its ids -> run s t its' ids.
  Proof.
    intros Hp [R1 R2 R3 R4 R5 R6 R7 R8 R9 R10 R11 R12 R13 R14 R15 R16].
    assert (E : forall it, In it its <-> In it its') by (intros it; split; apply Permutation_in; [exact Hp|apply Permutation_sym; exact Hp]).
    constructor; auto.
    - rewrite R7, (Permutation_length Hp). reflexivity.
    - apply (Permutation_NoDup (Permutation_map fst Hp)), R8.
    - intros it Hit. apply R9, E, Hit.
    - intros i Hi. apply (shape_incl E), R10, Hi.
    - intros y Hy. destruct (R12 y Hy) as [H|(it & cs & H1 & H2)]; [left; exact H|]. right. exists it, cs. rewrite <- E. auto.
    - rewrite <- (nsum_perm (Permutation_map (weight (t_g t)) Hp)). exact R16.
  Qed.
  Lemma run_queue s q t its ids lb opt nodes it lps col : run (mkBB q lb opt nodes it lps col) t its ids -> s = mkBB q lb opt nodes it lps col -> run s t its ids.
  Proof. intros H ->. exact H. Qed.

  (* the node of an item is added, and if it is a candidate its two children are queued *)
  Lemma icons_adds g h i op a it cs : wf g -> adds g h i op a -> ~ In (NI i) (get_node_list g) -> icons g it cs -> icons h it cs.
  Proof.
    intros W A N. destruct it as [j [[[[p x] se] r]|]]; cbn [icons]; [|auto]. intros (c & cs' & H1 & H2 & H3 & H4 & H5). exists c, cs'. repeat (split; [assumption|]). apply (sub_adds W A N H5).
  Qed.
  Lemma weight_adds g h i op a it : adds g h i op a -> ~ In (NI i) (get_node_list g) -> (forall p, parent_of it = Some p -> In (NI p) (get_node_list g)) -> weight h it = weight g it.
  Proof.
    intros A N H. destruct it as [j [[[[p x] se] r]|]]; cbn [weight]; [|reflexivity]. rewrite (adds_old A N); [reflexivity|apply H; reflexivity|inreads].
  Qed.
  Definition children (i m : Z) (x : string) : list item := [((m + 1)%Z, Some (i, x, "<=", 0%Z)); ((m + 2)%Z, Some (i, x, ">=", 1%Z))].
  Lemma icons_fun g it cs cs' : icons g it cs -> icons g it cs' -> cs = cs'.
  Proof.
    destruct it as [j [[[[p x] se] r]|]]; cbn [icons]; [|congruence]. intros (c & l & -> & A1 & A2 & A3 & A4) (c' & l' & -> & B1 & B2 & B3 & B4).
    f_equal; [destruct c, c'; cbn in *; congruence|apply (sub_fun A4 B4)].
  Qed.
  Lemma icons_weight g it cs : icons g it cs -> weight g it = (2 ^ (n + 1 - length cs) - 1)%nat.
  Proof.
    destruct it as [j [[[[p x] se] r]|]]; cbn [icons weight].
    - intros (c & l & -> & _ & _ & _ & H). rewrite (sub_level H), Nat2Z.id. cbn [length]. do 2 f_equal. lia.
    - intros ->. cbn [length]. do 2 f_equal. lia.
  Qed.
  Lemma cs_length cs : cs_ok P cs -> (length cs <= n)%nat.
  Proof. intros [N H]. rewrite <- (map_length bound_var cs). apply (NoDup_incl_length N), (cs_incl H). Qed.
  Lemma verdict_mono lb r st lb' : verdict P ce lb r st lb' -> lb <= lb'.
  Proof. destruct 1; try apply Qle_refl. apply Qlt_le_weak. assumption. Qed.

  Lemma run_next s t it its ids s' t' cs a st news : run s t (it :: its) ids -> icons (t_g t) it cs -> cs_ok P cs ->
    adds (t_g t) (t_g t') (fst it) (parent_of it) a -> sub (t_g t') (fst it) cs ->
    aget a "status" = VS st -> aget a "fillcolor" = VS (if eqb st "C" then "yellow" else if eqb st "I" then "orange" else if eqb st "S" then "lightblue" else "red") ->
    verdict P ce (b_lb s) (solve (Z.of_nat (length ids)) cs) st (b_lb s') ->
    b_nodes s' = (b_nodes s + Z.of_nat (length news))%Z -> b_iter s' = (b_iter s + 1)%Z -> b_lps s' = (b_lps s + 1)%Z ->
    (forall c, b_color s' = Some c -> ~ In c reads) ->
    (exists x, (forall i, In i (VARIABLES P) -> dget (b_opt s') i = Some (x i)) /\ ((b_lb s' = -9999 # 1 /\ forall i, In i (VARIABLES P) -> x i = 0) \/ (solution P x /\ objective P x == b_lb s'))) ->
    (st <> "C" /\ news = []) \/ (st = "C" /\ exists x, In x (VARIABLES P) /\ ~ In x (map bound_var cs) /\ news = children (fst it) (b_nodes s) x) ->
    run s' t' (news ++ its) (ids ++ [fst it]) /\ (nsum (map (weight (t_g t')) (news ++ its)) < nsum (map (weight (t_g t)) (it :: its)))%nat.
  Proof.
    intros R Hc Hok A Sb Est Ef V En Ei El Hcol Hb Hn. set (i := fst it) in *.
    assert (Hbound : forall u, In u (it :: its) -> (0 <= fst u <= b_nodes s)%Z).
    { intros u Hu. destruct (r_its R Hu) as [H _]. pose proof (r_nodes R) as X. destruct (snd u) as [[[[p x] se] r]|]; destruct H as [H _]; lia. }
    assert (Hfresh : ~ In i ids).
    { destruct (r_its R (or_introl eq_refl)) as [H _]. destruct (snd it) as [[[[p x] se] r]|]; [tauto|]. destruct H as [_ ->]. intros []. }
    assert (N : ~ In (NI i) (get_node_list (t_g t))).
    { rewrite (r_list R). intros H. apply in_app_iff in H as [H|H]; [unfold keys in H; simpl in H; intuition discriminate|]. apply in_map_iff in H as (j & [= ->] & H). contradiction. }
    pose proof (r_wf R) as W.
    assert (Hidn : forall j, In j ids -> In (NI j) (get_node_list (t_g t))).
    { intros j Hj. rewrite (r_list R). apply in_app_iff. right. apply in_map, Hj. }
    assert (Hkey : forall k, In k keys -> In k (get_node_list (t_g t))) by (intros k Hk; rewrite (r_list R); apply in_app_iff; left; exact Hk).
    assert (Hi' : In (NI i) (get_node_list (t_g t'))) by (rewrite (ad_list A); apply in_app_iff; right; left; reflexivity).
    pose proof (r_idx R) as NDi. cbn [map] in NDi. inversion NDi as [|? ? Ni NDi']; subst. fold i in Ni.
    assert (Hpar : forall u p, In u (it :: its) -> parent_of u = Some p -> In p ids).
    { intros u p Hu Hp. destruct (r_its R Hu) as [H _]. unfold parent_of in Hp. destruct (snd u) as [[[[p' x] se] r]|]; [injection Hp as <-; tauto|discriminate]. }
    assert (Hsome : forall u, In u its -> snd u <> None).
    { intros u Hu E. destruct (r_its R (or_intror Hu)) as [H _]. rewrite E in H. destruct H as [Hu0 Hids]. destruct (r_its R (or_introl eq_refl)) as [H _].
      destruct (snd it) as [[[[p x] se] r]|]; [rewrite Hids in H; destruct H as (_ & _ & [])|]. apply Ni. unfold i. destruct H as [-> _]. rewrite <- Hu0. apply in_map, Hu. }
    assert (Hnbi : list_at (g_nbrs (t_g t')) (NI i) = []).
    { rewrite (ad_nbrs A). destruct (parent_of it) as [p|] eqn:Ep; cbn [option_map].
      - destruct (eqb_spec (Some (NI p)) (Some (NI i))) as [E|_]; [injection E as ->; destruct (Hfresh (Hpar it i (or_introl eq_refl) Ep))|].
        apply list_at_nin. exact N.
      - destruct (eqb_spec (@None name) (Some (NI i))); [discriminate|]. apply list_at_nin. exact N. }
    assert (Hst' : nattr (t_g t') (NI i) "status" = VS st) by (rewrite (ad_attr A) by inreads; rewrite eqb_refl; exact Est).
    assert (Hnews : forall u, In u news -> exists x c k, In x (VARIABLES P) /\ ~ In x (map bound_var cs) /\ u = (k, Some (i, bound_var c, bound_sense c, bound_rhs c)) /\ (c = CLe x 0 /\ k = (b_nodes s + 1)%Z \/ c = CGe x 1 /\ k = (b_nodes s + 2)%Z)).
    { intros u Hu. destruct Hn as [[_ ->]|(_ & x & X1 & X2 & ->)]; [destruct Hu|]. destruct Hu as [<-|[<-|[]]]; exists x; [exists (CLe x 0), (b_nodes s + 1)%Z|exists (CGe x 1), (b_nodes s + 2)%Z]; auto 7. }
    assert (Wold : map (weight (t_g t')) its = map (weight (t_g t)) its).
    { apply map_ext_in. intros u Hu. apply (weight_adds A N). intros p Hp. apply Hidn, (Hpar u p (or_intror Hu) Hp). }
    assert (Wdec : (nsum (map (weight (t_g t')) (news ++ its)) < nsum (map (weight (t_g t)) (it :: its)))%nat).
    { rewrite map_app, nsum_app, Wold. cbn [map]. change (nsum (?a :: ?l)) with (a + nsum l)%nat. rewrite (icons_weight Hc). pose proof (cs_length Hok) as Lc.
      destruct Hn as [[_ ->]|(_ & x & X1 & X2 & ->)].
      - cbn [map nsum fold_right]. assert (2 ^ 1 <= 2 ^ (n + 1 - length cs))%nat by (apply Nat.pow_le_mono_r; lia). cbn [Nat.pow] in *. lia.
      - unfold children. cbn [map weight]. rewrite (sub_level Sb), Nat2Z.id. cbn [nsum fold_right]. replace (n + 1 - length cs)%nat with (S (n - length cs)) by (pose proof (depth_bound Hok X1 X2); lia).
        cbn [Nat.pow]. pose proof (Nat.pow_nonzero 2 (n - length cs) ltac:(lia)). lia. }
    split; [|exact Wdec]. constructor.
    - exact (ad_wf A).
    - exact (ad_ty A).
    - rewrite (ad_list A), (r_list R), map_app, app_assoc. reflexivity.
    - intros j Hj. apply in_app_iff in Hj as [Hj|[<-|[]]]; [pose proof (r_ids R Hj)|pose proof (Hbound it (or_introl eq_refl)) as Hbi; change (fst it) with i in Hbi]; lia.
    - rewrite El, (r_lps R), app_length. cbn [length]. lia.
    - rewrite Ei, (r_iter R), app_length. cbn [length]. lia.
    - rewrite En, (r_nodes R), !app_length. cbn [length]. lia.
    - rewrite map_app. apply NoDup_app_iff; split; [|split].
      + destruct Hn as [[_ ->]|(_ & x & X1 & X2 & ->)]; [constructor|]. cbn. constructor; [intros [H|[]]; lia|]. constructor; [intros []|constructor].
      + exact NDi'.
      + intros k Hk1 Hk2. apply in_map_iff in Hk1 as (u & <- & Hu). apply in_map_iff in Hk2 as (u' & Eu & Hu'). pose proof (Hbound u' (or_intror Hu')).
        destruct (Hnews u Hu) as (x & c & k & _ & _ & -> & [[_ ->]|[_ ->]]); cbn [fst] in *; lia.
    - intros u Hu. apply in_app_iff in Hu as [Hu|Hu].
      + destruct (Hnews u Hu) as (x & c & k & X1 & X2 & -> & Hk). cbn [snd fst]. pose proof (r_nodes R) as Xn. cbn [length] in Xn.
        assert (Ln : length news = 2%nat) by (destruct Hn as [[_ ->]|(_ & x' & _ & _ & ->)]; [destruct Hu|reflexivity]). rewrite En, Ln.
        split; [split; [destruct Hk as [[_ ->]|[_ ->]]; lia|]; split; [|apply in_app_iff; right; left; reflexivity]|].
        * intros H. assert (k <= b_nodes s)%Z; [|destruct Hk as [[_ ->]|[_ ->]]; lia]. apply in_app_iff in H as [H|[<-|[]]]; [apply (r_ids R H)|apply (Hbound it (or_introl eq_refl))].
        * exists (c :: cs). split; [exists c, cs; auto 7|]. destruct Hok as [O1 O2]. assert (bound_var c = x) by (destruct Hk as [[-> _]|[-> _]]; reflexivity).
          split; [cbn [map]; constructor; [congruence|exact O1]|]. constructor; [|exact O2]. exists x. split; [exact X1|]. destruct Hk as [[-> _]|[-> _]]; auto.
      + destruct (r_its R (or_intror Hu)) as [H (cs' & H1 & H2)]. split; [|exists cs'; split; [apply (icons_adds W A N H1)|exact H2]].
        destruct (snd u) as [[[[p x] se] r]|] eqn:Eu; [|destruct (Hsome u Hu Eu)]. destruct H as (B1 & B2 & B3). split; [lia|]. split; [|apply in_app_iff; left; exact B3].
        intros H. apply in_app_iff in H as [H|[H|[]]]; [contradiction|]. apply Ni. rewrite H. apply in_map, Hu.
    - intros j Hj. apply in_app_iff in Hj as [Hj|[<-|[]]].
      + destruct (r_shape R Hj) as (csj & S1 & S2 & S3). exists csj. split; [apply (sub_adds W A N S1)|]. split; [exact S2|].
        assert (Ej : nattr (t_g t') (NI j) "status" = nattr (t_g t) (NI j) "status") by (apply (adds_old A N); [apply Hidn, Hj|inreads]). rewrite Ej.
        assert (Hij : i <> j) by congruence.
        assert (Enb : list_at (g_nbrs (t_g t')) (NI j) = if eqb (parent_of it) (Some j) then list_at (g_nbrs (t_g t)) (NI j) ++ [NI i] else list_at (g_nbrs (t_g t)) (NI j)).
        { rewrite (ad_nbrs A). destruct (parent_of it) as [p|]; cbn [option_map]; [|reflexivity]. destruct (eqb_spec (Some p) (Some j)) as [[= ->]|Hne]; [rewrite eqb_refl; reflexivity|].
          destruct (eqb_spec (Some (NI p)) (Some (NI j))); [congruence|reflexivity]. }
        destruct S3 as [(S3 & x & b & K1 & K2 & L & X & F)|(S3 & L & F)]; [left|right]; (split; [exact S3|]).
        * exists x, b.
          assert (Kid : forall k c, kid (t_g t) (it :: its) j k c csj -> kid (t_g t') (news ++ its) j k c csj).
          { intros k c [[H1 H2]|[H|H]].
            - left. split; [apply (adds_nbr A H1)|apply (sub_adds W A N H2)].
            - left. assert (Ei1 : i = k) by (unfold i; rewrite H; reflexivity). assert (Ep1 : parent_of it = Some j) by (rewrite H; reflexivity). rewrite <- Ei1. split.
              + rewrite Enb, Ep1, eqb_refl. apply in_app_iff. right. left. reflexivity.
              + rewrite H in Hc. destruct Hc as (c' & cs' & E1 & E2 & E3 & E4 & E5). rewrite (sub_fun E5 S1) in E1. assert (c' = c) as -> by (destruct c, c'; cbn in *; congruence). rewrite <- E1. exact Sb.
            - right. apply in_app_iff. right. exact H. }
          split; [apply Kid, K1|]. split; [apply Kid, K2|]. split; [|split; [exact X|]].
          -- rewrite Enb. destruct (eqb_spec (parent_of it) (Some j)) as [E|_]; [|exact L]. intros y Hy. apply in_app_iff in Hy as [Hy|[<-|[]]]; [apply L, Hy|].
             destruct (F it (or_introl eq_refl) E) as [H|H]; fold i in H; rewrite H; simpl; auto.
          -- intros u Hu Hp. apply in_app_iff in Hu as [Hu|Hu]; [|apply F; [right; exact Hu|exact Hp]]. destruct (Hnews u Hu) as (? & ? & ? & _ & _ & -> & _). cbn in Hp. congruence.
        * split.
          -- rewrite Enb. destruct (eqb_spec (parent_of it) (Some j)) as [E|_]; [destruct (F it (or_introl eq_refl) E)|exact L].
          -- intros u Hu Hp. apply in_app_iff in Hu as [Hu|Hu]; [|apply (F u (or_intror Hu) Hp)]. destruct (Hnews u Hu) as (? & ? & ? & _ & _ & -> & _). cbn in Hp. congruence.
      + exists cs. split; [exact Sb|]. split; [exact Hok|]. rewrite Hst', Hnbi. destruct Hn as [[Hne ->]|(-> & x & X1 & X2 & ->)]; [right|left].
        * split; [congruence|]. split; [reflexivity|]. intros u Hu Hp. cbn [app] in Hu. apply Hfresh, (Hpar u i (or_intror Hu) Hp).
        * split; [reflexivity|]. exists x, (b_nodes s + 1)%Z. split; [right; left; reflexivity|]. split; [replace (b_nodes s + 1 + 1)%Z with (b_nodes s + 2)%Z by lia; right; right; left; reflexivity|]. split; [intros y []|]. split; [split; [exact X1|exact X2]|].
          intros u Hu Hp. apply in_app_iff in Hu as [[<-|[<-|[]]]|Hu]; cbn [fst]; [lia|lia|]. destruct (Hfresh (Hpar u i (or_intror Hu) Hp)).
    - apply vs_node with (lb := b_lb s) (cs := cs) (st := st); auto.
      + apply (visits_adds W A N); [intros k Hk; apply Hkey, Hk| |exact (r_visits R)]. intros y Hy. apply in_map_iff in Hy as (j & <- & Hj). apply Hidn, Hj.
      + rewrite (ad_attr A) by inreads. rewrite eqb_refl, Ef. assert (Hk : In (NS st) keys) by (destruct V; simpl; auto).
        rewrite (adds_old A N (Hkey _ Hk)) by inreads. rewrite (r_key R Hk). reflexivity.
    - intros y Hy. pose proof (verdict_mono V) as M. destruct (r_cover R Hy) as [H|(u & cs' & [<-|Hu] & H1 & H2)]; [left; lra| |].
      + rewrite (icons_fun H1 Hc) in H2. pose proof (solution_feasible Hy H2) as L. pose proof (Ex (Z.of_nat (length ids)) (proj2 Hok)) as X.
        inversion V as [Er E1 E2|obj v Hz Hl Er E1 E2|obj v Hz Hl Er E1 E2|obj v Hz Hl1 Hl Er E1 E2|obj v Hz Hl Er E1 E2]; rewrite <- Er in X.
        * destruct (X y L).
        * destruct X as (_ & _ & X). left. rewrite <- E2. apply X, L.
        * destruct X as (_ & _ & X). left. specialize (X y L). lra.
        * destruct X as (_ & _ & X). left. specialize (X y L). lra.
        * destruct Hn as [[Hne _]|(_ & x & X1 & X2 & ->)]; [congruence|]. right. destruct (proj1 Hy x X1) as [Hx|Hx].
          -- eexists _, (CLe x 0 :: cs). split; [apply in_app_iff; left; left; reflexivity|]. split; [exists (CLe x 0), cs; auto 7|]. constructor; [cbn; change (inject_Z 0) with 0; lra|exact H2].
          -- eexists _, (CGe x 1 :: cs). split; [apply in_app_iff; left; right; left; reflexivity|]. split; [exists (CGe x 1), cs; auto 7|]. constructor; [cbn; change (inject_Z 1) with 1; lra|exact H2].
      + right. exists u, cs'. split; [apply in_app_iff; right; exact Hu|]. split; [apply (icons_adds W A N H1)|exact H2].
    - exact Hb.
    - intros k Hk. rewrite (adds_old A N (Hkey _ Hk)) by inreads. apply (r_key R Hk).
    - exact Hcol.
    - rewrite app_length. cbn [length]. pose proof (r_work R). lia.
  Qed.
End Run.
