(* Specification of the display code: words used in C60 and C61. *)
From Verif Require Import Py M_Graph M_Display.
Set Implicit Arguments. Unset Strict Implicit.
Local Open Scope string_scope. Local Open Scope list_scope.

(* tempfile.mkstemp() creates a file that was not there *)
Definition fresh_temp (E : env) : Prop := forall k f p, e_mkstemp E k f = Some p -> f p = None.
(* the programs dot2tex, latex, dvips and pdflatex change nothing but the paths W *)
Definition commands_change_only (E : env) (W : string -> Prop) : Prop := forall k c f p, ~ W p -> fst (e_call E k c f) p = f p.
(* the same files; the same files but for one path *)
Definition fs_eq (f g : fs) : Prop := forall p, f p = g p.
Definition fs_eq_but (x : string) (f g : fs) : Prop := forall p, p <> x -> f p = g p.
(* the argument highlight *)
Definition hlist (h : option (list name)) : list name := match h with Some l => l | None => [] end.
(* the packages for the display mode m are not there *)
Definition missing (E : env) (m : val) : bool :=
  if eqb m (VS "PIL") then negb (e_pil E) else if eqb m (VS "matplotlib") then negb (e_matplotlib E && e_pil E)
  else if eqb m (VS "xdot") then negb (e_xdot E) else false.
