(* Concrete graphs on which search misbehaves. *)
From Verif Require Import Py Util M_Graph M_Search P_Graph S_Frontier.
Set Implicit Arguments. Unset Strict Implicit.
Local Open Scope string_scope. Local Open Scope list_scope.

(* s -> a -> a, a -> d *)
Definition loop_ops : list op := [OAddEdge (NS "s") (NS "a") []; OAddEdge (NS "a") (NS "a") []; OAddEdge (NS "a") (NS "d") []].
Definition loop_graph : graph := history (new_graph (Some Directed) []) loop_ops.

Lemma walk_back_loops (src a : name) (pred : dict name name) fuel path (h : graph) : a <> src -> dget pred a = Some a ->
  loop fuel (fun st : name * list name => let '(cur, path) := st in
      if eqb cur src then ret (inr path) else p <- lift (dget pred cur) KeyError ;; ret (inl (p, p :: path))) (a, path) h = (h, Err OutOfFuel).
Proof.
  intros Hne Hp. revert path. induction fuel as [|f IH]; intros path; [reflexivity|]. simpl.
  unfold bind at 1. rewrite (proj2 (eqb_false a src) Hne), Hp. apply IH.
Qed.
Lemma walk_back_loops2 (src d a : name) (pred : dict name name) fuel (h : graph) : d <> src -> a <> src -> dget pred d = Some a -> dget pred a = Some a ->
  walk_back fuel src d pred h = (h, Err OutOfFuel).
Proof.
  intros Hd Ha Hp Hp'. destruct fuel as [|fuel]; [reflexivity|]. unfold walk_back. simpl. unfold bind at 1.
  rewrite (proj2 (eqb_false d src) Hd), Hp. apply walk_back_loops; assumption.
Qed.
Lemma loop_diverges : forall fuel, obs (search fuel (NS "s") (Some (NS "d")) None ([] : fq stack) DFS false) loop_graph = Err OutOfFuel.
Proof.
  intros fuel. destruct (le_lt_dec fuel 5) as [Hle|Hlt].
  { do 6 (destruct fuel as [|fuel]; [vm_compute; reflexivity|]). lia. }
  unfold obs, search.
  erewrite bind_ok by (vm_compute; reflexivity). erewrite bind_ok by (vm_compute; reflexivity).
  erewrite bind_ok by (vm_compute; reflexivity). erewrite bind_ok by (vm_compute; reflexivity).
  erewrite bind_ok by (vm_compute; reflexivity).
  replace fuel with (5 + (fuel - 5)) at 1 by lia.
  destruct (eqb _ _) eqn:He; [discriminate|]. clear He.
  erewrite bind_ok; [|apply loop_mono; [vm_compute; reflexivity|discriminate]].
  cbv iota beta. erewrite bind_err; [reflexivity|].
  apply walk_back_loops2 with (a := NS "a"); first [discriminate|reflexivity].
Qed.
