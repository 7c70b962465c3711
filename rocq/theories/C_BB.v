(* C62: the branch and bound of examples/BB.py. *)
From Coq Require Import QArith Qround Qminmax Permutation Lqa.
From Verif Require Import Py Util M_Graph P_Graph P_GraphLaws P_Attr M_Flow M_Dot M_Tree S_Tree P_Tree M_BB S_BB P_BBLp P_BB P_BBRun P_BBLoop.
Local Open Scope string_scope. Local Open Scope list_scope.

(** * The key *)
Definition key_graph (kw : attrs) : graph :=
  let g := t_g (new_tree kw) in
  let node l c := [("label", VS l); ("style", VS "filled"); ("color", VS c); ("fillcolor", VS c)] in
  let edge := [("style", VS "invisible"); ("arrowhead", VS "none")] in
  mkGraph Directed (g_attr g)
    [(NS "C", [NS "I"]); (NS "I", [NS "S"]); (NS "S", [NS "P"]); (NS "P", [])]
    [(NS "C", []); (NS "I", [NS "C"]); (NS "S", [NS "I"]); (NS "P", [NS "S"])]
    [(NS "C", node "Candidate" "yellow"); (NS "I", node "Infeasible" "orange"); (NS "S", node "Solution" "lightblue"); (NS "P", node "Pruned" "red")]
    [((NS "C", NS "I"), edge); ((NS "I", NS "S"), edge); ((NS "S", NS "P"), edge)]
    [(VS "Key", mkCluster [NS "C"; NS "I"; NS "S"; NS "P"] [("name", VS "Key"); ("label", VS "Key"); ("fontsize", VS "12")] [])] None.
Lemma setup_run kw : bb_setup (new_tree kw) = (mkTree (key_graph kw) None [], Ok tt).
Proof. reflexivity. Qed.
Lemma wf_key kw : wf (key_graph kw).
Proof.
  set (g0 := t_g (new_tree kw)). assert (W0 : wf g0) by exact (ti_wf (tinv_new kw)).
  pose proof (add_node_wf (NS "C") (key_attrs "Candidate" "yellow") W0) as W1.
  pose proof (add_node_wf (NS "I") (key_attrs "Infeasible" "orange") W1) as W2.
  pose proof (add_node_wf (NS "S") (key_attrs "Solution" "lightblue") W2) as W3.
  pose proof (add_node_wf (NS "P") (key_attrs "Pruned" "red") W3) as W4.
  pose proof (add_edge_wf (NS "C") (NS "I") key_edge W4) as W5.
  pose proof (add_edge_wf (NS "I") (NS "S") key_edge W5) as W6.
  pose proof (add_edge_wf (NS "S") (NS "P") key_edge W6) as W7.
  destruct W7 as [A1 A2 A3 A4 A5 A6 A7]. constructor; [exact A1|exact A2|exact A3|exact A4|exact A5|exact A6|exact A7].
Qed.

Section Theorems.
  Variable P : instance.
  Variable solve : Z -> list con -> lp_result.
  Variable PQ : pqueue.
  Variable items : pq PQ -> list item.
  Variable bs : branching.
  Variable ss : searching.
  Variable ce ladot : bool.
  Variable num : Q -> val.
  Variable fmt : Q -> string.
  Hypothesis Nd : NoDup (VARIABLES P).
  Hypothesis Ex : exact P solve.
  Hypothesis QL : queue_laws items.
  Hypothesis Hbs : bs <> OtherBranching.
  Hypothesis Hss : ss <> OtherSearch.
  Local Notation n := (length (VARIABLES P)).

  Lemma dget_map_const (l : list string) (i : string) : In i l -> dget (map (fun i => (i, 0)) l) i = Some 0.
  Proof. induction l as [|j l IH]; [intros []|]. cbn [map dget]. intros H. eqd; [reflexivity|]. apply IH. destruct H as [H|H]; [congruence|exact H]. Qed.
  Lemma inv_init kw : inv P solve items ce ladot (bb_init P PQ) (mkTree (key_graph kw) None []) /\ (mu P items (bb_init P PQ) (mkTree (key_graph kw) None []) = 2 ^ (n + 1) - 1)%nat.
  Proof.
    assert (Eq : items (b_q (bb_init P PQ)) = [(0%Z, None)]).
    { pose proof (ql_push QL (pq_empty PQ) (0%Z, None) INFINITY) as H. rewrite (ql_empty QL) in H. apply Permutation_sym, Permutation_length_1_inv in H. exact H. }
    assert (Ew : (nsum (map (weight P (key_graph kw)) [(0%Z, None)]) = 2 ^ (n + 1) - 1)%nat) by (cbn [map weight nsum fold_right]; lia).
    split; [|unfold mu; rewrite Eq; exact Ew]. exists []. rewrite Eq. constructor; cbn [bb_init b_nodes b_lps b_iter b_lb b_opt b_color t_g length].
    - apply wf_key.
    - reflexivity.
    - reflexivity.
    - intros i [].
    - reflexivity.
    - reflexivity.
    - reflexivity.
    - repeat constructor. intros [].
    - intros it [<-|[]]. split; [split; reflexivity|]. exists []. split; [reflexivity|]. split; constructor.
    - intros i [].
    - constructor.
    - intros y _. right. exists (0%Z, None), []. split; [left; reflexivity|]. split; [reflexivity|constructor].
    - exists (fun _ => 0). split; [intros i Hi; apply (dget_map_const _ _ Hi)|]. left. split; reflexivity.
    - intros st [[= <-]|[[= <-]|[[= <-]|[[= <-]|[]]]]]; reflexivity.
    - discriminate.
    - rewrite Ew. apply Nat.le_refl.
  Qed.
  Lemma search_run kw fuel : (2 ^ (n + 1) <= fuel)%nat ->
    exists t s ids, branch_and_bound P solve PQ bs ss ce ladot num fmt fuel (new_tree kw) = (t, Ok s) /\ run P solve ce ladot s t [] ids.
  Proof.
    intros Hf. destruct (inv_init kw) as [I0 M0]. pose proof (Nat.pow_nonzero 2 (n + 1) ltac:(lia)) as Hz.
    assert (Hn : (n < fuel)%nat) by (pose proof (Nat.pow_gt_lin_r 2 (n + 1) ltac:(lia)); lia).
    assert (O : ok (loop fuel (bb_iter P solve bs ss ce ladot num fmt fuel) (bb_init P PQ)) (mkTree (key_graph kw) None []) (fun s t => exists ids, run P solve ce ladot s t [] ids)).
    { apply ok_loop with (I := inv P solve items ce ladot) (mu := mu P items); [exact I0|lia|]. intros s t Hi. eapply ok_weaken; [apply (iter_run num fmt Ex QL Hbs Hss Hn Hi)|].
      intros [s'|s'] t' H; cbn beta iota in H; [exact (stepped_inv H)|]. destruct H as (-> & -> & E). destruct Hi as (ids & R). rewrite E in R. exists ids. exact R. }
    apply ok_ex in O as (t & s & E & ids & R). exists t, s, ids. split; [|exact R]. unfold branch_and_bound. rewrite (bind_ok _ (setup_run kw)). exact E.
  Qed.

  Lemma bb_bound : forall kw fuel, (2 ^ (n + 1) <= fuel)%nat ->
    exists t s, branch_and_bound P solve PQ bs ss ce ladot num fmt fuel (new_tree kw) = (t, Ok s) /\
      (forall y, solution P y -> objective P y <= b_lb s) /\
      exists x, (forall i, In i (VARIABLES P) -> dget (b_opt s) i = Some (x i)) /\
        ((b_lb s = -9999 # 1 /\ forall i, In i (VARIABLES P) -> x i = 0) \/ (solution P x /\ objective P x == b_lb s)).
  Proof.
    intros kw fuel Hf. destruct (search_run kw fuel Hf) as (t & s & ids & E & R). exists t, s. split; [exact E|]. split; [|exact (r_best R)].
    intros y Hy. destruct (r_cover R Hy) as [H|(it & cs & [] & _)]. exact H.
  Qed.
  Lemma bb_optimal : forall kw fuel z, (2 ^ (n + 1) <= fuel)%nat -> solution P z -> -9999 # 1 < objective P z ->
    exists t s x, branch_and_bound P solve PQ bs ss ce ladot num fmt fuel (new_tree kw) = (t, Ok s) /\
      (forall i, In i (VARIABLES P) -> dget (b_opt s) i = Some (x i)) /\
      solution P x /\ objective P x == b_lb s /\ forall y, solution P y -> objective P y <= objective P x.
  Proof.
    intros kw fuel z Hf Hz Ho. destruct (bb_bound kw fuel Hf) as (t & s & E & Hu & x & Hx & [[Hl _]|[H1 H2]]).
    - specialize (Hu z Hz). rewrite Hl in Hu. lra.
    - exists t, s, x. split; [exact E|]. split; [exact Hx|]. split; [exact H1|]. split; [exact H2|]. intros y Hy. rewrite H2. apply Hu, Hy.
  Qed.
  Lemma bb_tree : forall kw fuel, (2 ^ (n + 1) <= fuel)%nat ->
    exists t s ids, branch_and_bound P solve PQ bs ss ce ladot num fmt fuel (new_tree kw) = (t, Ok s) /\
      get_node_list (t_g t) = [NS "C"; NS "I"; NS "S"; NS "P"] ++ map NI ids /\ NoDup ids /\
      b_lps s = Z.of_nat (length ids) /\ b_nodes s = b_lps s /\ b_iter s = b_lps s /\ (length ids <= 2 ^ (n + 1) - 1)%nat /\
      visits P solve ce ladot (t_g t) ids (b_lb s).
  Proof.
    intros kw fuel Hf. destruct (search_run kw fuel Hf) as (t & s & ids & E & R). exists t, s, ids. split; [exact E|]. split; [exact (r_list R)|]. split.
    - pose proof (wf_nd (r_wf R)) as Hn. change (NoDup (get_node_list (t_g t))) in Hn. rewrite (r_list R) in Hn. apply NoDup_app_iff in Hn as (_ & Hn & _). apply (NoDup_map_inv _ _ Hn).
    - split; [exact (r_lps R)|]. split; [rewrite (r_lps R), (r_nodes R); cbn [length]; lia|]. split; [rewrite (r_lps R), (r_iter R); reflexivity|]. split; [|exact (r_visits R)].
      pose proof (r_work R) as H. cbn [map nsum fold_right] in H. lia.
  Qed.
  Lemma nbrs_nodup g x : wf g -> g_type g = Directed -> NoDup (list_at (g_nbrs g) x).
  Proof.
    intros W D. apply (NoDup_count_occ eq_dec). intros y. rewrite (wf_nbrs W). unfold nb_count. rewrite D. unfold b2n. destruct dmem; lia.
  Qed.
  Lemma bb_children : forall kw fuel, (2 ^ (n + 1) <= fuel)%nat ->
    exists t s ids, branch_and_bound P solve PQ bs ss ce ladot num fmt fuel (new_tree kw) = (t, Ok s) /\
      get_node_list (t_g t) = [NS "C"; NS "I"; NS "S"; NS "P"] ++ map NI ids /\
      forall i, In i ids -> exists cs, subproblem ladot (t_g t) i cs /\
        ((nattr (t_g t) (NI i) "status" = VS "C" /\ exists x a b l, tobs (get_children (NI i)) t = Ok l /\ Permutation l [NI a; NI b] /\
            In x (VARIABLES P) /\ ~ In x (map bound_var cs) /\ subproblem ladot (t_g t) a (CLe x 0 :: cs) /\ subproblem ladot (t_g t) b (CGe x 1 :: cs)) \/
         (nattr (t_g t) (NI i) "status" <> VS "C" /\ tobs (get_children (NI i)) t = Ok [])).
  Proof.
    intros kw fuel Hf. destruct (search_run kw fuel Hf) as (t & s & ids & E & R). exists t, s, ids. split; [exact E|]. split; [exact (r_list R)|]. intros i Hi.
    destruct (r_shape R Hi) as (cs & S1 & S2 & S3). exists cs. split; [exact S1|].
    assert (Hc : tobs (get_children (NI i)) t = Ok (list_at (g_nbrs (t_g t)) (NI i))).
    { rewrite tobs_children, obs_nbrs. rewrite dget_list_at; [reflexivity|]. change (In (NI i) (get_node_list (t_g t))). apply (sub_node (r_wf R) S1). }
    destruct S3 as [(H1 & x & a & K1 & K2 & L & [X X'] & _)|(H1 & H2 & _)]; [left|right]; (split; [exact H1|]).
    - destruct K1 as [[K1 K1']|[]]. destruct K2 as [[K2 K2']|[]]. exists x, a, (a + 1)%Z, (list_at (g_nbrs (t_g t)) (NI i)). split; [exact Hc|]. split; [|split; [exact X|]; split; [|split; assumption]].
      + apply NoDup_Permutation; [apply (nbrs_nodup _ _ (r_wf R) (r_ty R))|constructor; [intros [[= H]|[]]; lia|repeat constructor; intros []]|]. intros y. split; [apply L|]. intros [<-|[<-|[]]]; assumption.
      + exact X'.
    - rewrite Hc, H2. reflexivity.
  Qed.
End Theorems.
(** * C62. The LP solver [solve] is exact, the queue [PQ] keeps what is pushed until it is popped (S_BB.v), and the
   branching and search strategies are among those the script knows. [2 ^ (n + 1)] bounds the iterations. *)
(* The search ends, and its final lower bound is at least the value of every solution. *)
Theorem C62_bound : forall (P : instance) (solve : Z -> list con -> lp_result) (PQ : pqueue) (items : pq PQ -> list item)
    (bs : branching) (ss : searching) (ce ladot : bool) (num : Q -> val) (fmt : Q -> string),
  exact P solve -> queue_laws items -> bs <> OtherBranching -> ss <> OtherSearch ->
  forall kw fuel, (2 ^ (length (VARIABLES P) + 1) <= fuel)%nat ->
    exists t s, branch_and_bound P solve PQ bs ss ce ladot num fmt fuel (new_tree kw) = (t, Ok s) /\
      (forall y, solution P y -> objective P y <= b_lb s) /\
      exists x, (forall i, In i (VARIABLES P) -> dget (b_opt s) i = Some (x i)) /\
        ((b_lb s = -9999 # 1 /\ forall i, In i (VARIABLES P) -> x i = 0) \/ (solution P x /\ objective P x == b_lb s)).
Proof. intros P solve PQ items bs ss ce ladot num fmt Ex QL Hbs Hss. eapply bb_bound; eassumption. Qed.
Print Assumptions C62_bound.
(* When some solution is worth more than -9999, [opt] is an optimal solution and [LB] its value. *)
Theorem C62_optimal : forall (P : instance) (solve : Z -> list con -> lp_result) (PQ : pqueue) (items : pq PQ -> list item)
    (bs : branching) (ss : searching) (ce ladot : bool) (num : Q -> val) (fmt : Q -> string),
  exact P solve -> queue_laws items -> bs <> OtherBranching -> ss <> OtherSearch ->
  forall kw fuel z, (2 ^ (length (VARIABLES P) + 1) <= fuel)%nat -> solution P z -> -9999 # 1 < objective P z ->
    exists t s x, branch_and_bound P solve PQ bs ss ce ladot num fmt fuel (new_tree kw) = (t, Ok s) /\
      (forall i, In i (VARIABLES P) -> dget (b_opt s) i = Some (x i)) /\
      solution P x /\ objective P x == b_lb s /\ forall y, solution P y -> objective P y <= objective P x.
Proof. intros P solve PQ items bs ss ce ladot num fmt Ex QL Hbs Hss. eapply bb_optimal; eassumption. Qed.
Print Assumptions C62_optimal.
(* The drawn tree: the key and one node for each LP, in the order in which they were solved, with the bounds, the
   status and the colour that belong to its LP. *)
Theorem C62_tree : forall (P : instance) (solve : Z -> list con -> lp_result) (PQ : pqueue) (items : pq PQ -> list item)
    (bs : branching) (ss : searching) (ce ladot : bool) (num : Q -> val) (fmt : Q -> string),
  exact P solve -> queue_laws items -> bs <> OtherBranching -> ss <> OtherSearch ->
  forall kw fuel, (2 ^ (length (VARIABLES P) + 1) <= fuel)%nat ->
    exists t s ids, branch_and_bound P solve PQ bs ss ce ladot num fmt fuel (new_tree kw) = (t, Ok s) /\
      get_node_list (t_g t) = [NS "C"; NS "I"; NS "S"; NS "P"] ++ map NI ids /\ NoDup ids /\
      b_lps s = Z.of_nat (length ids) /\ b_nodes s = b_lps s /\ b_iter s = b_lps s /\ (length ids <= 2 ^ (length (VARIABLES P) + 1) - 1)%nat /\
      visits P solve ce ladot (t_g t) ids (b_lb s).
Proof. intros P solve PQ items bs ss ce ladot num fmt Ex QL Hbs Hss. eapply bb_tree; eassumption. Qed.
Print Assumptions C62_tree.
(* A candidate has exactly two children: the programs with the additional bounds x <= 0 and x >= 1 for a variable
   whose value is not fixed yet. All other nodes are leaves. *)
Theorem C62_children : forall (P : instance) (solve : Z -> list con -> lp_result) (PQ : pqueue) (items : pq PQ -> list item)
    (bs : branching) (ss : searching) (ce ladot : bool) (num : Q -> val) (fmt : Q -> string),
  exact P solve -> queue_laws items -> bs <> OtherBranching -> ss <> OtherSearch ->
  forall kw fuel, (2 ^ (length (VARIABLES P) + 1) <= fuel)%nat ->
    exists t s ids, branch_and_bound P solve PQ bs ss ce ladot num fmt fuel (new_tree kw) = (t, Ok s) /\
      get_node_list (t_g t) = [NS "C"; NS "I"; NS "S"; NS "P"] ++ map NI ids /\
      forall i, In i ids -> exists cs, subproblem ladot (t_g t) i cs /\
        ((nattr (t_g t) (NI i) "status" = VS "C" /\ exists x a b l, tobs (get_children (NI i)) t = Ok l /\ Permutation l [NI a; NI b] /\
            In x (VARIABLES P) /\ ~ In x (map bound_var cs) /\ subproblem ladot (t_g t) a (CLe x 0 :: cs) /\ subproblem ladot (t_g t) b (CGe x 1 :: cs)) \/
         (nattr (t_g t) (NI i) "status" <> VS "C" /\ tobs (get_children (NI i)) t = Ok [])).
Proof. intros P solve PQ items bs ss ce ladot num fmt Ex QL Hbs Hss. eapply bb_children; eassumption. Qed.
Print Assumptions C62_children.

(** * A queue *)
(* a list of pairs of an item and its priority; pop removes the item with the least priority that was pushed last *)
Fixpoint take_min (l : list (item * Q)) : option ((item * Q) * list (item * Q)) :=
  match l with
  | [] => None
  | e :: l => match take_min l with
              | None => Some (e, [])
              | Some (m, rest) => if Qle_bool (snd e) (snd m) then Some (e, l) else Some (m, e :: rest)
              end
  end.
Definition list_queue : pqueue := {|
  pq := list (item * Q); pq_empty := []; pq_isEmpty := fun q => match q with [] => true | _ => false end;
  pq_push := fun q i p => (i, p) :: q;
  pq_pop := fun q => match take_min q with Some (e, rest) => Some (fst e, rest) | None => None end |}.
Lemma take_min_some l : l <> [] -> exists e rest, take_min l = Some (e, rest) /\ Permutation l (e :: rest) /\ Forall (fun f => snd e <= snd f) l.
Proof.
  induction l as [|e l IH]; [congruence|]. intros _. cbn [take_min]. destruct l as [|f l'].
  - exists e, []. split; [reflexivity|]. split; [apply Permutation_refl|]. constructor; [apply Qle_refl|constructor].
  - destruct IH as (m & rest & -> & Pm & Hm); [discriminate|]. destruct (Qle_bool (snd e) (snd m)) eqn:El.
    + apply Qle_bool_iff in El. exists e, (f :: l'). split; [reflexivity|]. split; [apply Permutation_refl|]. constructor; [apply Qle_refl|]. eapply Forall_impl; [|exact Hm]. cbn. intros x Hx. lra.
    + apply Qle_bool_false in El. exists m, (e :: rest). split; [reflexivity|]. split; [etransitivity; [apply perm_skip, Pm|apply perm_swap]|]. constructor; [lra|exact Hm].
Qed.
Lemma list_queue_laws : queue_laws (PQ := list_queue) (map fst).
Proof.
  constructor.
  - reflexivity.
  - intros [|e q]; cbn; split; congruence.
  - intros q i p. apply Permutation_refl.
  - intros q Hq. destruct (take_min_some q) as (e & rest & E & Pm & _); [destruct q; [destruct (Hq eq_refl)|discriminate]|].
    exists (fst e), rest. cbn [pq_pop list_queue]. rewrite E. split; [reflexivity|]. apply (Permutation_map fst) in Pm. exact Pm.
Qed.

(** * maximize 2 x + 3 y subject to 2 x + 2 y <= 3 *)
Definition P0 : instance := {| VARIABLES := ["x"; "y"]; OBJ := fun i => if eqb i "x" then 2%Z else 3%Z; ROWS := [(fun _ => 2%Z, 3%Z)] |}.
Definition val2 (a b : Q) (i : string) : Q := if eqb i "x" then a else b.
Definition has (c : con) (cs : list con) : bool := existsb (fun d => match c, d with CLe x r, CLe y s | CGe x r, CGe y s => eqb x y && (r =? s)%Z | _, _ => false end) cs.
Definition solve0 (_ : Z) (cs : list con) : lp_result :=
  match has (CLe "x" 0) cs, has (CGe "x" 1) cs, has (CLe "y" 0) cs, has (CGe "y" 1) cs with
  | true, true, _, _ | _, _, true, true | _, true, _, true => LpInfeasible
  | false, false, false, _ => LpOptimal 4 (val2 (1 # 2) 1)
  | true, false, false, _ => LpOptimal 3 (val2 0 1)
  | false, true, false, false => LpOptimal (7 # 2) (val2 1 (1 # 2))
  | true, false, true, false => LpOptimal 0 (val2 0 0)
  | false, _, true, false => LpOptimal 2 (val2 1 0)
  end.
Lemma has_In c cs : has c cs = true <-> In c cs.
Proof.
  unfold has. rewrite existsb_exists. split.
  - intros (d & Hd & E). destruct c, d; try discriminate; apply andb_true_iff in E as [E1 E2]; apply Z.eqb_eq in E2; destruct (eqb_spec x x0); try discriminate; subst; exact Hd.
  - intros H. exists c. split; [exact H|]. destruct c; rewrite eqb_refl, Z.eqb_refl; reflexivity.
Qed.
Lemma exact0 : exact P0 solve0.
Proof.
  intros k cs F. unfold solve0.
  assert (Fc : forall y c, lp_feasible P0 cs y -> has c cs = true -> satisfies y c) by (intros y c (_ & _ & S) H; apply has_In in H; rewrite Forall_forall in S; apply S, H).
  assert (Fy : forall y, lp_feasible P0 cs y -> 0 <= y "x" <= 1 /\ 0 <= y "y" <= 1 /\ 2 * y "x" + 2 * y "y" <= 3).
  { intros y (B & R & _). split; [apply B; left; reflexivity|]. split; [apply B; right; left; reflexivity|]. specialize (R _ (or_introl eq_refl)). cbn in R. unfold inject_Z in R. lra. }
  assert (Fo : forall y, objective P0 y == 2 * y "x" + 3 * y "y") by (intros y; unfold objective, lin; cbn; unfold inject_Z; lra).
  assert (Ff : forall a b, 0 <= a <= 1 -> 0 <= b <= 1 -> 2 * a + 2 * b <= 3 -> (has (CLe "x" 0) cs = true -> a <= 0) -> (has (CGe "x" 1) cs = true -> 1 <= a) -> (has (CLe "y" 0) cs = true -> b <= 0) -> (has (CGe "y" 1) cs = true -> 1 <= b) -> lp_feasible P0 cs (val2 a b)).
  { intros a b Ha Hb Hr H1 H2 H3 H4. split; [|split].
    - intros i [<-|[<-|[]]]; assumption.
    - intros row [<-|[]]. cbn. unfold inject_Z. lra.
    - rewrite Forall_forall in *. intros c Hc. destruct (F c Hc) as (x & Hx & [->| ->]); destruct Hx as [<-|[<-|[]]]; apply has_In in Hc; cbn; [apply H1|apply H3|apply H2|apply H4]; exact Hc. }
  destruct (has (CLe "x" 0) cs) eqn:E1, (has (CGe "x" 1) cs) eqn:E2, (has (CLe "y" 0) cs) eqn:E3, (has (CGe "y" 1) cs) eqn:E4;
    try (intros y Hy; pose proof (Fy y Hy); try pose proof (Fc y _ Hy E1) as S1; try pose proof (Fc y _ Hy E2) as S2; try pose proof (Fc y _ Hy E3) as S3; try pose proof (Fc y _ Hy E4) as S4; cbn in *; unfold inject_Z in *; lra);
    (split; [apply Ff; intros; try discriminate; unfold Qle; cbn; try (split; unfold Qle; cbn); lia|]); (split; [rewrite Fo; cbn; reflexivity|]);
    (intros y Hy; rewrite Fo; pose proof (Fy y Hy); try pose proof (Fc y _ Hy E1) as S1; try pose proof (Fc y _ Hy E2) as S2; try pose proof (Fc y _ Hy E3) as S3; try pose proof (Fc y _ Hy E4) as S4; cbn in *; unfold inject_Z in *; lra).
Qed.
Definition num0 (q : Q) : val := VI (Qfloor q).
Definition fmt0 (q : Q) : string := str_int (Qfloor q).
Definition bb0 := branch_and_bound P0 solve0 list_queue MostFrac DepthFirst false false num0 fmt0 8 (new_tree []).
Example C62_nonvacuous : NoDup (VARIABLES P0) /\ exact P0 solve0 /\ queue_laws (PQ := list_queue) (map fst) /\ (2 ^ (length (VARIABLES P0) + 1) <= 8)%nat /\
  solution P0 (val2 0 1) /\ -9999 # 1 < objective P0 (val2 0 1) /\
  match bb0 with
  | (t, Ok s) => b_lb s = 3 /\ b_opt s = [("x", 0); ("y", 1)] /\ b_lps s = 5%Z /\
      map (fun i => nattr (t_g t) (NI i) "status") [0; 2; 3; 4; 5]%Z = [VS "C"; VS "S"; VS "C"; VS "S"; VS "I"]
  | _ => False
  end.
Proof.
  split; [repeat constructor; simpl; intuition discriminate|]. split; [exact exact0|]. split; [exact list_queue_laws|]. split; [cbn; lia|].
  split; [split; [intros i [<-|[<-|[]]]; [left|right]; reflexivity|intros row [<-|[]]; cbn; unfold Qle; cbn; lia]|]. split; [reflexivity|]. vm_compute. auto.
Qed.

(* A program whose only solution is worth less than -9999 is reported like an infeasible one: LB stays at -9999 and
   opt at 0, which is not a solution. *)
Definition P1 : instance := {| VARIABLES := ["x"]; OBJ := fun _ => (-10000)%Z; ROWS := [(fun _ => (-1)%Z, (-1)%Z)] |}.
Definition solve1 (_ : Z) (cs : list con) : lp_result := if has (CLe "x" 0) cs then LpInfeasible else LpOptimal (-10000 # 1) (fun _ => 1).
Lemma exact1 : exact P1 solve1.
Proof.
  intros k cs F. unfold solve1.
  assert (Fy : forall y, lp_feasible P1 cs y -> y "x" == 1).
  { intros y (B & R & _). pose proof (B "x" (or_introl eq_refl)). specialize (R _ (or_introl eq_refl)). cbn in R. unfold inject_Z in R. lra. }
  destruct (has (CLe "x" 0) cs) eqn:E.
  - intros y Hy. pose proof (Fy y Hy). destruct Hy as (_ & _ & S). apply has_In in E. rewrite Forall_forall in S. specialize (S _ E). cbn in S. unfold inject_Z in S. lra.
  - split; [|split].
    + split; [intros i _; split; unfold Qle; cbn; lia|]. split; [intros row [<-|[]]; cbn; unfold Qle; cbn; lia|]. rewrite Forall_forall in *. intros c Hc.
      destruct (F c Hc) as (x & [<-|[]] & [->| ->]); [apply has_In in Hc; congruence|cbn; unfold Qle; cbn; lia].
    + reflexivity.
    + intros y Hy. pose proof (Fy y Hy) as Hx. unfold objective, lin. cbn. rewrite Hx. unfold Qle. cbn. lia.
Qed.
Theorem C62_infinity_refuted : exact P1 solve1 /\ solution P1 (fun _ => 1) /\
  forall kw, match branch_and_bound P1 solve1 list_queue MostFrac DepthFirst false false num0 fmt0 4 (new_tree kw) with
  | (_, Ok s) => b_lb s = -9999 # 1 /\ b_opt s = [("x", 0)] /\ ~ solution P1 (fun _ => 0)
  | _ => False
  end.
Proof.
  split; [exact exact1|]. split; [split; [right; reflexivity|intros row [<-|[]]; cbn; unfold Qle; cbn; lia]|]. intros kw.
  assert (N : ~ solution P1 (fun _ => 0)) by (intros [_ R]; specialize (R _ (or_introl eq_refl)); cbn in R; unfold Qle in R; cbn in R; lia).
  set (m := branch_and_bound _ _ _ _ _ _ _ _ _ _ _). cbv in m. subst m. cbv iota. split; [reflexivity|]. split; [reflexivity|exact N].
Qed.
Print Assumptions C62_infinity_refuted.
