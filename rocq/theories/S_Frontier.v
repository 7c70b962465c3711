(* What the search theorems assume about blimpy's containers (they are not part of /repo), and
   concrete stacks, queues and priority queues that satisfy it. *)
From Verif Require Import Py M_Graph M_Search.
Set Implicit Arguments. Unset Strict Implicit.

(* [els q] lists the items held by q (with repetitions, in no particular order). *)
Record bag (fr : frontier) (els : fq fr -> list name) : Prop := {
  bag_empty : forall q, fq_isEmpty q = true <-> els q = [];
  bag_peek : forall q, els q <> [] -> exists x, fq_peek q = Some x /\ In x (els q);
  bag_push : forall q x p y, In y (els (fq_push q x p)) <-> y = x \/ In y (els q);
  bag_push_len : forall q x p, length (els (fq_push q x p)) <= S (length (els q));
  bag_remove : forall q x, In x (els q) -> exists q', fq_remove q x = Some q' /\
     length (els q') < length (els q) /\
     (forall y, In y (els q') -> In y (els q)) /\
     (forall y, In y (els q) -> y <> x -> In y (els q'))
}.
(* first in, first out: a bag whose items are listed oldest first *)
Record fifo (fr : frontier) (els : fq fr -> list name) : Prop := {
  fifo_bag : bag els;
  fifo_peek : forall q x t, els q = x :: t -> fq_peek q = Some x;
  fifo_push : forall q x p, els (fq_push q x p) = els q ++ [x];
  fifo_remove : forall q x t q', els q = x :: t -> fq_remove q x = Some q' -> els q' = t
}.
(* a priority queue: every item held has a priority, pushing an item already held updates its
   priority, peek returns some item of least priority *)
Record prioq (fr : frontier) (els : fq fr -> list name) : Prop := {
  pq_bag : bag els;
  pq_is_pq : fq_is_pq fr = true;
  pq_prio : forall q x, In x (els q) <-> fq_prio q x <> None;
  pq_push : forall (q : fq fr) x p y, fq_prio (fq_push q x (Some p)) y = if eq_dec x y then Some p else fq_prio q y;
  pq_peek : forall (q : fq fr) x px y py, fq_peek q = Some x -> fq_prio q x = Some px -> fq_prio q y = Some py -> (px <= py)%Z;
  pq_remove : forall (q : fq fr) x q' y, fq_remove q x = Some q' -> fq_prio q' y = if eq_dec x y then None else fq_prio q y
}.

(* a stack: push and peek at the head of a list, remove the first occurrence *)
Definition stack : frontier := {|
  fq := list name; fq_is_pq := false;
  fq_isEmpty := fun q => match q with [] => true | _ => false end;
  fq_peek := fun q => hd_error q;
  fq_push := fun q x _ => x :: q;
  fq_remove := fun q x => lremove x q;
  fq_prio := fun _ _ => None |}.
Definition queue : frontier := {|
  fq := list name; fq_is_pq := false;
  fq_isEmpty := fun q => match q with [] => true | _ => false end;
  fq_peek := fun q => hd_error q;
  fq_push := fun q x _ => q ++ [x];
  fq_remove := fun q x => lremove x q;
  fq_prio := fun _ _ => None |}.
(* a priority queue as a dict from items to priorities *)
Definition pmin (q : dict name Z) : option name :=
  match q with
  | [] => None
  | (x, p) :: t => Some (fst (fold_left (fun b e => if (snd e <? snd b)%Z then e else b) t (x, p)))
  end.
Definition pqueue : frontier := {|
  fq := { q : dict name Z | NoDup (dkeys q) }; fq_is_pq := true;
  fq_isEmpty := fun q => match proj1_sig q with [] => true | _ => false end;
  fq_peek := fun q => pmin (proj1_sig q);
  fq_push := fun q x p => exist _ (dset (proj1_sig q) x (match p with Some p => p | None => 0%Z end)) (NoDup_dset _ _ (proj2_sig q));
  fq_remove := fun q x => if dmem (proj1_sig q) x then Some (exist _ (ddel (proj1_sig q) x) (NoDup_ddel _ (proj2_sig q))) else None;
  fq_prio := fun q x => dget (proj1_sig q) x |}.
