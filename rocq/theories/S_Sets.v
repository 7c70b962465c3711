(* Specification vocabulary for DisjointSet: call histories and what they join. *)
From Verif Require Import Py M_Graph S_Span M_Kruskal.
Set Implicit Arguments. Unset Strict Implicit.

Inductive dop := DAdd (l : list name) | DUnion (i j : name) | DFind (i : name).
(* run one call; an exception is ignored by the caller, its effects stay *)
Definition dexec (fuel : nat) (o : dop) (d : dsj) : dsj :=
  match o with
  | DAdd l => fst (ds_add l d)
  | DUnion i j => fst (ds_union fuel i j d)
  | DFind i => fst (ds_find fuel i d)
  end.
Definition dhistory (fuel : nat) (d : dsj) (os : list dop) : dsj := fold_left (fun d o => dexec fuel o d) os d.
(* the items added by a history *)
Definition ditems_of (o : dop) : list name := match o with DAdd l => l | _ => [] end.
Definition ditems (os : list dop) : list name := flat_map ditems_of os.
(* the pairs joined by a history: an added list joins its members with the first one, union(i, j)
   joins i and j (unless one of them has not been added: [seen] are the items so far) *)
Definition djoined_of (seen : list name) (o : dop) : list edge :=
  match o with
  | DAdd (a :: t) => map (fun x => (x, a)) t
  | DUnion i j => if mem i seen && mem j seen then [(i, j)] else []
  | _ => []
  end.
Fixpoint djoined (seen : list name) (os : list dop) : list edge :=
  match os with [] => [] | o :: t => djoined_of seen o ++ djoined (seen ++ ditems_of o) t end.
