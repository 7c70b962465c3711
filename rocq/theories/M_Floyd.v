(* Model of floyd_warshall and the methods that read its result (graph.py:2045-2190). *)
From Verif Require Import Py M_Graph M_Search.
Set Implicit Arguments. Unset Strict Implicit.
Local Open Scope string_scope. Local Open Scope list_scope.

(* distance: None stands for the string 'infinity' *)
Definition dists := dict (name * name) (option Z).
Definition nexts := dict (name * name) (option name).
(* d[k] *)
Definition look {V} (d : dict (name * name) V) (k : name * name) : M graph V := lift (dget d k) KeyError.

(* graph.py:2092-2101 initial distances; costs are ints, anything else raises TypeError here
   (Python would raise it when the value is first compared or added) *)
Definition fw_dist (nl : list name) (el : list (name * name)) : M graph dists :=
  let d := fold_left (fun d i => fold_left (fun d j => dset d (i, j) None) nl d) nl [] in
  let d := fold_left (fun d i => dset d (i, i) (Some 0%Z)) nl d in
  foldM (fun d e => c <- get_edge_cost e ;; c <- as_int c ;; ret (dset d e (Some c))) el d.
(* graph.py:2102-2109 *)
Definition fw_next (nl : list name) (d : dists) : M graph nexts :=
  foldM (fun n i => foldM (fun n j =>
    if eqb i j then ret (dset n (i, j) None)
    else x <- look d (i, j) ;; match x with None => ret (dset n (i, j) None) | Some _ => ret (dset n (i, j) (Some i)) end) nl n) nl [].
(* graph.py:2115-2122 the innermost step *)
Definition fw_step (k i : name) (s : dists * nexts) (j : name) : M graph (dists * nexts) :=
  let '(d, n) := s in
  dik <- look d (i, k) ;;
  match dik with
  | None => ret s
  | Some a =>
      dkj <- look d (k, j) ;;
      match dkj with
      | None => ret s
      | Some b =>
          dij <- look d (i, j) ;;
          if match dij with None => true | Some z => (z >? a + b)%Z end then
            nkj <- look n (k, j) ;; ret (dset d (i, j) (Some (a + b)%Z), dset n (i, j) nkj)
          else ret s
      end
  end.
(* d[k] < 0; the string 'infinity' cannot be compared with 0 *)
Definition is_neg (d : dists) (k : name * name) : M graph bool :=
  x <- look d k ;; match x with Some z => ret (z <? 0)%Z | None => fail TypeError end.
(* the first i in l with d[(i, i)] < 0 *)
Fixpoint first_neg (l : list name) (d : dists) : M graph (option name) :=
  match l with
  | [] => ret None
  | i :: l => b <- is_neg d (i, i) ;; if b : bool then ret (Some i) else first_neg l d
  end.
(* graph.py:2068-2131 floyd_warshall *)
Definition floyd_warshall : M graph (bool * dists * nexts) :=
  nl <- gets get_node_list ;;
  el <- gets get_edge_list ;;
  d <- fw_dist nl el ;;
  n <- fw_next nl d ;;
  s <- foldM (fun s k => foldM (fun s i => foldM (fw_step k i) nl s) nl s) nl (d, n) ;;
  b <- first_neg nl (fst s) ;;
  match b with Some _ => ret (false, fst s, snd s) | None => ret (true, fst s, snd s) end.
(* graph.py:2133-2154 floyd_warshall_get_path; a next of None is no key of distance; None + list raises TypeError *)
Fixpoint floyd_warshall_get_path (fuel : nat) (d : dists) (n : nexts) (i j : name) : M graph (option (list name)) :=
  match fuel with
  | 0 => fail OutOfFuel
  | S fuel =>
      x <- look d (i, j) ;;
      match x with
      | None => ret None
      | Some _ =>
          k <- look n (i, j) ;;
          k <- lift k KeyError ;;
          if eqb i k then ret (Some [i; j])
          else
            p <- floyd_warshall_get_path fuel d n i k ;; p <- lift p TypeError ;;
            q <- floyd_warshall_get_path fuel d n k j ;; q <- lift q TypeError ;;
            ret (Some (p ++ [k] ++ q))
      end
  end.
(* graph.py:2183-2186 the while loop; [rest] is the cycle behind its first element *)
Definition walk_back (fuel : nat) (n : nexts) (element : name) : M graph (list name * name) :=
  k <- look n (element, element) ;;
  loop fuel (fun s : list name * option name =>
    let '(rest, k) := s in
    match k with
    | Some k => if mem k (element :: rest) then ret (inr (element :: rest, k))
                else k' <- look n (element, k) ;; ret (inl (k :: rest, k'))
    | None => fail KeyError     (* None is not in the cycle, and (element, None) is no key of nextn *)
    end) ([], k).
(* graph.py:2156-2190 floyd_warshall_get_cycle *)
Fixpoint floyd_warshall_get_cycle (fuel : nat) (d : dists) (n : nexts) (element : option name) : M graph (list name) :=
  match fuel with
  | 0 => fail OutOfFuel
  | S fuel' =>
      e <- match element with
           | None =>
               nl <- gets get_node_list ;;
               e <- first_neg nl d ;; lift e (PyException "Graph does not have a negative cycle!")
           | Some e =>
               b <- is_neg d (e, e) ;;
               if b : bool then ret e else fail (PyException "Graph does not have a negative cycle that contains node")
           end ;;
      r <- walk_back fuel n e ;;
      let '(cycle, k) := r in
      if eqb k e then ret cycle else floyd_warshall_get_cycle fuel' d n (Some k)
  end.
(* graph.py:2045-2066 get_negative_cycle *)
Definition get_negative_cycle (fuel : nat) : M graph (option (list name)) :=
  nl <- gets get_node_list ;;
  match nl with
  | [] => fail IndexError
  | _ =>
      r <- floyd_warshall ;;
      let '(valid, d, n) := r in
      if valid : bool then ret None
      else c <- floyd_warshall_get_cycle fuel d n None ;; ret (Some c)
  end.
