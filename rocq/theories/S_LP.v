(* Linear programs: what it means to satisfy one and to be optimal. *)
From Coq Require Import QArith.
From Verif Require Import Py M_SimplexTest.
Set Implicit Arguments. Unset Strict Implicit.
Local Open Scope Q_scope.

(* x is within the bounds of the variables and satisfies the equations *)
Definition lp_sat (p : lp) (x : edge -> Q) : Prop :=
  (forall e lo hi, In (e, (lo, hi)) (lp_vars p) -> inject_Z lo <= x e <= inject_Z hi) /\
  (forall l d, In (l, d) (lp_cons p) -> linear_value x l == inject_Z d).
(* and no such assignment has a smaller objective *)
Definition lp_optimal (p : lp) (x : edge -> Q) : Prop := lp_sat p x /\ forall y, lp_sat p y -> linear_value x (lp_obj p) <= linear_value y (lp_obj p).
(* the variables are different from each other and no others are used *)
Record lp_wf (p : lp) : Prop := {
  lw_nd : NoDup (map fst (lp_vars p));
  lw_obj : forall z e, In (z, e) (lp_obj p) -> In e (map fst (lp_vars p));
  lw_cons : forall l d z e, In (l, d) (lp_cons p) -> In (z, e) l -> In e (map fst (lp_vars p))
}.
(* the solver returns an optimal assignment for every problem that has one; it is enough that it does so for
   the problems that have one with integer values *)
Definition solves (solver : lp -> edge -> Q) : Prop := forall p (x : edge -> Z), lp_wf p -> lp_optimal p (fun e => inject_Z (x e)) -> lp_optimal p (solver p).
