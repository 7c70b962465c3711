(* Model of fifo_label_correcting and its two helpers (graph.py:2217-2319). *)
From Verif Require Import Py M_Graph M_Search.
Set Implicit Arguments. Unset Strict Implicit.
Local Open Scope string_scope. Local Open Scope list_scope.

(* The module is written for both Python versions (it imports future and past); they differ in what
   the comparison of a string or None with an int does. *)
Inductive python := Py2 | Py3.
Definition preds := dict name (option name).

(* distance_j > x (graph.py:2252). Python 3 raises TypeError for a string or None; Python 2 orders None
   before every number and every string after every number *)
Definition label_gt (py : python) (dj : val) (x : Z) : M graph bool :=
  match dj, py with
  | VI z, _ => ret (z >? x)%Z
  | VBool b, _ => ret ((if b then 1 else 0) >? x)%Z
  | _, Py3 => fail TypeError
  | VS _, Py2 => ret true
  | VNone, Py2 => ret false
  end.

(* graph.py:2293-2319 label_correcting_get_cycle; pred[None] raises KeyError *)
Definition lc_get_cycle (fuel : nat) (j : name) (pred : preds) : M graph (list name) :=
  cur <- lift (dget pred j) KeyError ;;
  loop fuel (fun s : list name * option name =>
    let '(cycle, cur) := s in
    match cur with
    | Some k => if eqb k j then ret (inr (rev cycle))
                else p <- lift (dget pred k) KeyError ;; ret (inl (cycle ++ [k], p))
    | None => fail KeyError
    end) ([j], cur).

(* graph.py:2265-2291 label_correcting_check_cycle *)
Definition lc_check_cycle (fuel : nat) (j : name) (pred : preds) : M graph (option (list name)) :=
  nl <- gets get_node_list ;;
  loop fuel (fun s : dict name (option name) * option name =>
    let '(labelled, cur) := s in
    match cur with
    | None => ret (inr None)
    | Some k =>
        l <- lift (dget labelled k) KeyError ;;
        if eqb l (Some j) then c <- lc_get_cycle fuel j pred ;; ret (inr (Some c))
        else p <- lift (dget pred k) KeyError ;; ret (inl (dset labelled k (Some j), p))
    end) (fold_left (fun d n => dset d n None) nl [], Some j).

(* graph.py:2249-2262 the body of the for loop. distance_i and c_ij must be ints: as_int raises TypeError
   otherwise (Python raises it too unless both are strings, a case left out).
   [inr cycle] stands for the early return (False, cycle). *)
Definition lc_relax (py : python) (fuel : nat) (i : name) (s : preds * list name) (j : name) : M graph (preds * list name + list name) :=
  let '(pred, q) := s in
  dj <- get_node_attr j "distance" ;;
  di <- get_node_attr i "distance" ;;
  c <- get_edge_attr i j "cost" ;;
  di <- as_int di ;; c <- as_int c ;;
  b <- label_gt py dj (di + c)%Z ;;
  if b : bool then
    set_node_attr j "distance" (VI (di + c)%Z) ;;
    let pred' := dset pred j (Some i) in
    let q' := if mem j q then q else q ++ [j] in
    if dmem pred j then
      r <- lc_check_cycle fuel j pred' ;;
      match r with Some cycle => ret (inr cycle) | None => ret (inl (pred', q')) end
    else ret (inl (pred', q'))
  else ret (inl (pred, q)).
(* graph.py:2248 for j in self.neighbors[i], left at once when the body returned *)
Fixpoint lc_scan (py : python) (fuel : nat) (i : name) (l : list name) (s : preds * list name) : M graph (preds * list name + list name) :=
  match l with
  | [] => ret (inl s)
  | j :: t => r <- lc_relax py fuel i s j ;;
              match r with inl s' => lc_scan py fuel i t s' | inr cycle => ret (inr cycle) end
  end.
(* graph.py:2245-2263 the while loop; inl pred is (True, pred), inr cycle is (False, cycle) *)
Definition lc_main (py : python) (fuel : nat) (s : preds * list name) : M graph (preds + list name) :=
  loop fuel (fun s : preds * list name =>
    let '(pred, q) := s in
    match q with
    | [] => ret (inr (inl pred))
    | i :: q' =>
        l <- nbr_list i ;;
        r <- lc_scan py fuel i l (pred, q') ;;
        match r with inl s' => ret (inl s') | inr cycle => ret (inr (inr cycle)) end
    end) s.
(* graph.py:2217-2263 fifo_label_correcting *)
Definition fifo_label_correcting (py : python) (fuel : nat) (source : name) : M graph (preds + list name) :=
  set_node_attr source "distance" (VI 0) ;;
  nl <- gets get_node_list ;;
  forM_ nl (fun n => if eqb n source then ret tt else set_node_attr n "distance" (VS "inf")) ;;
  lc_main py fuel ([(source, None)], [source]).
