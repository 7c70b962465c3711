(* Specification for the text of a graph. *)
From Coq Require Import Ascii.
From Verif Require Import Py.
Set Implicit Arguments. Unset Strict Implicit.
Local Open Scope string_scope. Local Open Scope list_scope.

(* names whose text is unambiguous: ints, and strs made of ASCII letters, digits and underscores that do not start with a digit *)
Definition letter (c : ascii) : bool :=
  let n := nat_of_ascii c in ((65 <=? n) && (n <=? 90) || (97 <=? n) && (n <=? 122) || (n =? 95))%nat%bool.
Definition digit (c : ascii) : bool := let n := nat_of_ascii c in ((48 <=? n) && (n <=? 57))%nat%bool.
Definition plain (n : name) : Prop :=
  match n with
  | NI _ => True
  | NS EmptyString => False
  | NS (String c t) => letter c = true /\ forall d, In d (list_ascii_of_string t) -> letter d = true \/ digit d = true
  end.

(* Reading a Python str literal: a quote, characters and escape sequences, the same quote. A literal holds no newline
   and no carriage return. *)
Definition escaped (d : ascii) : option ascii :=
  match nat_of_ascii d with
  | 92 => Some d                       (* backslash *)
  | 39 => Some d                       (* single quote *)
  | 34 => Some d                       (* double quote *)
  | 110 => Some (ascii_of_nat 10)      (* n *)
  | 114 => Some (ascii_of_nat 13)      (* r *)
  | 116 => Some (ascii_of_nat 9)       (* t *)
  | _ => None
  end.
Fixpoint read_rest (q : ascii) (s : string) : option string :=
  match s with
  | EmptyString => None
  | String c t =>
      if Ascii.eqb c q then match t with EmptyString => Some EmptyString | _ => None end
      else if Nat.eqb (nat_of_ascii c) 92 then
        match t with
        | EmptyString => None
        | String d u => match escaped d, read_rest q u with Some e, Some r => Some (String e r) | _, _ => None end
        end
      else if Nat.eqb (nat_of_ascii c) 10 || Nat.eqb (nat_of_ascii c) 13 then None
      else match read_rest q t with Some r => Some (String c r) | None => None end
  end.
Definition read_literal (s : string) : option string :=
  match s with
  | EmptyString => None
  | String q t => if Nat.eqb (nat_of_ascii q) 39 || Nat.eqb (nat_of_ascii q) 34 then read_rest q t else None
  end.
