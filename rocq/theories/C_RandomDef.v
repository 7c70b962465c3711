(* Property theorem C51, continued: random() with the default arguments. *)
From Verif Require Import Py M_Graph M_Search P_Graph M_Random S_Random C_Random.
Local Open Scope string_scope. Local Open Scope list_scope. Local Open Scope Z_scope.

(* graph.py:3165-3169 the default arguments of Graph.random *)
Definition default_params : params := {| numnodes := 10; degree_range := Some (2, 4); length_range := Some (1, 10); density := false;
  edge_format := default_edge_format; node_format := default_node_format; euclidean := false; add_labels := true; parallel_allowed := false; node_selection := "closest" |}.

(** random() on a new graph, whatever is drawn: the nodes 0, ..., 9 as small red-labelled circles, and arcs with a whole cost from 1 to 10, shown as a blue label; at most 4 arcs start at a node,
   none joins a node to itself or runs against another one *)
Theorem C51_defaults : forall (o : oracle) (ty : option gtype) (kw : attrs) (k : nat), exists h k', random o default_params (new_graph ty kw, k) = ((h, k'), Ok tt) /\
  get_node_list h = map NI [0; 1; 2; 3; 4; 5; 6; 7; 8; 9] /\
  (forall x, In x (get_node_list h) -> obs (get_node_attr x "height") h = Ok (VS "0.5") /\ obs (get_node_attr x "width") h = Ok (VS "0.5") /\ obs (get_node_attr x "fixedsize") h = Ok (VS "true") /\
     obs (get_node_attr x "fontsize") h = Ok (VI 10) /\ obs (get_node_attr x "fontcolor") h = Ok (VS "red") /\ obs (get_node_attr x "shape") h = Ok (VS "circle") /\
     (length (filter (fun e => eqb (fst e) x) (get_edge_list h)) <= 4)%nat) /\
  (forall x y, In (x, y) (get_edge_list h) -> x <> y /\ ~ In (y, x) (get_edge_list h) /\ In x (get_node_list h) /\ In y (get_node_list h) /\
     exists c, 1 <= c <= 10 /\ obs (get_edge_attr x y "cost") h = Ok (VI c) /\ obs (get_edge_attr x y "label") h = Ok (VS (str_of_Z c)) /\
       obs (get_edge_attr x y "fontsize") h = Ok (VI 10) /\ obs (get_edge_attr x y "fontcolor") h = Ok (VS "blue")).
Proof.
  intros o ty kw k.
  assert (Nn : NoDup (dkeys default_node_format)) by (repeat constructor; vm_compute; intuition discriminate).
  assert (Ne : NoDup (dkeys default_edge_format)) by (repeat constructor; vm_compute; intuition discriminate).
  assert (Nc : ~ In "cost" (dkeys default_edge_format)) by (vm_compute; intuition discriminate).
  assert (F : free_names (new_graph ty kw) 10) by (intros i _ []).
  destruct (C51_degree_mode o default_params (new_graph ty kw) k 2 4 1 10 eq_refl eq_refl eq_refl eq_refl eq_refl (wf_new ty kw) F Nn Ne Nc) as (h & k' & new & E & P & R & T & _); [lia|lia|cbn; lia|left; reflexivity|].
  destruct P as [P1 P2 P3 P4 P5 P6 P7 P8]. exists h, k'. split; [exact E|]. cbn [numnodes default_params] in *.
  assert (N : get_node_list h = map NI [0; 1; 2; 3; 4; 5; 6; 7; 8; 9]) by (rewrite P3; reflexivity). split; [exact N|].
  assert (Ed : get_edge_list h = new) by (rewrite P4; reflexivity). split.
  - intros x Hx. rewrite N in Hx. apply in_map_iff in Hx as (i & <- & Hi). assert (Hr : 0 <= i < 10) by (cbn in Hi; lia).
    rewrite !P5 by exact Hr. do 6 (split; [reflexivity|]). rewrite Ed. exact (T (NI i)).
  - intros x y H. rewrite Ed in *. destruct (P7 x y H) as (i & j & c & -> & -> & Hi & Hj & Hn & (z & -> & Hz) & A).
    split; [congruence|]. split; [apply (R eq_refl), H|].
    assert (M : forall m, 0 <= m < 10 -> In (NI m) (get_node_list h)) by (intros m Hm; rewrite N; apply in_map; cbn; lia).
    split; [apply M, Hi|]. split; [apply M, Hj|]. exists z. split; [exact Hz|]. rewrite !A. repeat split.
Qed.
Print Assumptions C51_defaults.

Example C51_defaults_nonvacuous : let h := fst (fst (random exo default_params (new_graph None [], 0%nat))) in (10 <= length (get_edge_list h))%nat.
Proof. vm_compute. lia. Qed.
