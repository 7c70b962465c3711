(* Model of Graph.page_rank (graph.py:3318-3360). Floats are modelled by exact rationals. *)
From Verif Require Import Py M_Graph.
From Coq Require Import QArith Qabs.
Set Implicit Arguments. Unset Strict Implicit.
Local Open Scope list_scope.

Definition ranks := dict name Q.
Definition qnat (n : nat) : Q := inject_Z (Z.of_nat n).

(* graph.py:3348-3351: the inner loop over the referring pages; '/' by len(...) raises ZeroDivisionError *)
Definition rank_of (damping min_value : Q) (pagerank : ranks) (node : name) : M graph Q :=
  pages <- get_in_neighbors node ;;
  foldM (fun rank referring_page =>
    p <- lift (dget pagerank referring_page) KeyError ;;
    l <- get_neighbors referring_page ;;
    match length l with
    | 0%nat => fail ZeroDivisionError
    | k => ret (rank + damping * p / qnat k)%Q
    end) pages min_value.
(* graph.py:3346-3353: one sweep over the nodes; returns diff and the dictionary *)
Definition sweep (damping min_value : Q) (nodes : list name) (pagerank : ranks) : M graph (Q * ranks) :=
  foldM (fun (s : Q * ranks) node =>
    let '(diff, pagerank) := s in
    rank <- rank_of damping min_value pagerank node ;;
    old <- lift (dget pagerank node) KeyError ;;
    ret (diff + Qabs (old - rank), dset pagerank node rank)%Q) nodes (0%Q, pagerank).
(* graph.py:3344-3357: at most k sweeps *)
Fixpoint sweeps (k : nat) (damping min_value min_delta : Q) (nodes : list name) (pagerank : ranks) : M graph ranks :=
  match k with
  | 0%nat => ret pagerank
  | S k =>
      s <- sweep damping min_value nodes pagerank ;;
      if Qle_bool min_delta (fst s) then sweeps k damping min_value min_delta nodes (snd s) else ret (snd s)
  end.
(* graph.py:3318-3360; [max_iterations] is the length of range(max_iterations) *)
Definition page_rank (damping : Q) (max_iterations : nat) (min_delta : Q) : M graph ranks :=
  nodes <- gets get_node_list ;;
  let graph_size := length nodes in
  match graph_size with
  | 0%nat => ret []
  | _ =>
      let min_value := ((1 - damping) / qnat graph_size)%Q in
      let pagerank := fold_left (fun d n => dset d n (1 / qnat graph_size)%Q) nodes [] in
      sweeps max_iterations damping min_value min_delta nodes pagerank
  end.
