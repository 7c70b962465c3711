(* The iteration bound of the network simplex method: a larger bound gives the same result. *)
From Verif Require Import Py Util M_Graph M_Search M_Flow M_Floyd M_MinCost M_Simplex M_NetSimplex P_Fuel.
Set Implicit Arguments. Unset Strict Implicit.
Local Open Scope string_scope. Local Open Scope list_scope.

Lemma more_on {A} (m m' : M graph A) r : more m m' -> more (on m r) (on m' r).
Proof. intros H g Hr. unfold on in *. assert (snd (m r) <> Err OutOfFuel) by (destruct (m r) as [r' [a|e]]; cbn [snd] in *; congruence). rewrite (H r) by assumption. reflexivity. Qed.
Lemma more_call {A} (m m' : M graph A) r : more m m' -> more (call m r) (call m' r).
Proof. intros H g Hr. unfold call in *. assert (snd (m r) <> Err OutOfFuel) by (destruct (m r) as [r' [a|e]]; cbn [snd] in *; congruence). rewrite (H r) by assumption. reflexivity. Qed.
Ltac mb := apply more_bind; [first [apply more_refl | idtac]|].
Ltac ml H := apply more_loop; [|exact H]; intros ?; try apply more_refl.
Lemma search_more k j x c : k <= j -> more (simplex_search k x c) (simplex_search j x c).
Proof. intros H. mb. intros nl. mb. intros _. mb; [ml H|]. intros [[p d] s]. apply more_refl. Qed.
Lemma scan_more k j c n l s : k <= j -> more (fc_scan k c n l s) (fc_scan j c n l s).
Proof.
  intros H. revert s. induction l as [|m l IH]; intros [[[q v] d] p]; [apply more_refl|]. cbn [fc_scan]. mb. intros o. destruct (eqb (Some m) o); [apply IH|].
  mb. intros _. destruct (dmem d m); [mb; [ml H|]; intros c1; mb; [ml H|]; intros; apply more_refl|]. mb. intros z. apply IH.
Qed.
Lemma component_more k j c s : k <= j -> more (fc_component k c s) (fc_component j c s).
Proof. intros H. ml H. destruct l as [[[[|x q] v] d] p]; [apply more_refl|]. mb. intros l1. mb. intros l2. mb; [apply scan_more, H|]. intros; apply more_refl. Qed.
Lemma find_cycle_more k j : k <= j -> more (simplex_find_cycle k) (simplex_find_cycle j).
Proof. intros H. mb. intros [|x nl]; [apply more_refl|]. mb. intros _. ml H. mb. intros c. mb. intros _. mb; [apply component_more, H|]. intros; apply more_refl. Qed.
Lemma find_tree_more k j : k <= j -> more (simplex_find_tree k) (simplex_find_tree j).
Proof.
  intros H. apply more_bind.
  { ml H. mb. intros r. apply more_bind; [apply more_call, find_cycle_more, H|]. intros; apply more_refl. }
  intros r. apply more_bind; [|intros; apply more_refl]. ml H. apply more_bind; [|intros; apply more_refl].
  unfold simplex_connect. destruct (get_node_list l) as [|x nl]; [apply more_refl|]. apply more_bind; [apply more_call, search_more, H|]. intros; apply more_refl.
Qed.
Lemma redraw_more k j d x : k <= j -> more (simplex_redraw k d x) (simplex_redraw j d x).
Proof. intros H. mb. intros el. mb. intros n. apply more_bind; [ml H|]. intros; apply more_refl. Qed.
Lemma potentials_more k j t x : k <= j -> more (simplex_compute_potentials k t x) (simplex_compute_potentials j t x).
Proof. intros H. mb. intros _. mb. intros v. ml H. Qed.
Lemma leaving_more k j t x y : k <= j -> more (simplex_determine_leaving_arc k t x y) (simplex_determine_leaving_arc j t x y).
Proof. intros H. apply more_bind; [|intros; apply more_refl]. apply more_bind; [|intros; apply more_refl]. ml H. Qed.
Lemma step_more k j d p x t : k <= j -> more (pivot_step k d p x t) (pivot_step j d p x t).
Proof.
  intros H. mb. intros b. destruct b; [apply more_refl|]. mb. intros [a c]. mb. intros _. apply more_bind; [apply leaving_more, H|]. intros [t1 [[[u v] z] cy]]. mb. intros _. mb. intros t2. mb. intros _.
  apply more_bind; [apply more_ask, redraw_more, H|]. intros _. apply more_bind; [apply more_on, search_more, H|]. intros t3. apply more_bind; [apply potentials_more, H|]. intros; apply more_refl.
Qed.
Lemma simplex_more (fr : frontier) k j (q0 : fq fr) d p x : k <= j -> more (network_simplex k q0 d p x) (network_simplex j q0 d p x).
Proof.
  intros H. apply more_bind; [apply feasible_more, H|]. intros b. destruct b; [|apply more_refl]. apply more_bind; [apply find_tree_more, H|]. intros t. mb. intros _. mb. intros _.
  apply more_bind; [apply more_ask, redraw_more, H|]. intros _. mb. intros t1. apply more_bind; [apply more_on, search_more, H|]. intros t3. apply more_bind; [apply potentials_more, H|]. intros _.
  apply more_loop; [|exact H]. intros l. apply step_more, H.
Qed.
