(* Python substrate: decidable equality, insertion-ordered dictionaries, Python
   list operations, values, exceptions, the state+exception monad, loops.
   Nothing here is specific to GiMPy; it models the CPython semantics that
   /repo/src/gimpy/*.py relies on (dicts preserve insertion order, list.remove
   removes the first occurrence, an exception keeps the mutations made so far). *)
From Coq Require Export String Ascii.
From Coq Require Export List ZArith Bool Lia Permutation Arith.
Export ListNotations.
Set Implicit Arguments.
Unset Strict Implicit.
Open Scope list_scope.

(** * Decidable equality *)
Class EqDec (A : Type) := eq_dec : forall x y : A, {x = y} + {x <> y}.

Definition eqb {A} {E : EqDec A} (x y : A) : bool := if eq_dec x y then true else false.

Global Instance EqDec_Z : EqDec Z := Z.eq_dec.
Global Instance EqDec_nat : EqDec nat := Nat.eq_dec.
Global Instance EqDec_string : EqDec string := string_dec.
Global Instance EqDec_bool : EqDec bool := bool_dec.
Global Instance EqDec_ascii : EqDec ascii := ascii_dec.
Global Instance EqDec_prod {A B} {EA : EqDec A} {EB : EqDec B} : EqDec (A * B).
Proof. intros [a b] [a' b']. destruct (eq_dec a a'); destruct (eq_dec b b'); [left; congruence|right; congruence..]. Defined.
Global Instance EqDec_option {A} {EA : EqDec A} : EqDec (option A).
Proof. intros [a|] [a'|]; [destruct (eq_dec a a'); [left|right]; congruence|right; congruence|right; congruence|left; reflexivity]. Defined.
Global Instance EqDec_list {A} {EA : EqDec A} : EqDec (list A) := list_eq_dec eq_dec.

Ltac eqd :=
  match goal with
  | |- context [@eq_dec ?A ?E ?x ?y] => destruct (@eq_dec A E x y)
  end.
Ltac eqdh :=
  match goal with
  | H : context [@eq_dec ?A ?E ?x ?y] |- _ => destruct (@eq_dec A E x y)
  end.

Lemma eqb_spec {A} {E : EqDec A} (x y : A) : reflect (x = y) (eqb x y).
Proof. unfold eqb. eqd; constructor; assumption. Qed.
Lemma eqb_true {A} {E : EqDec A} (x y : A) : eqb x y = true <-> x = y.
Proof. destruct (eqb_spec x y); split; congruence. Qed.
Lemma eqb_false {A} {E : EqDec A} (x y : A) : eqb x y = false <-> x <> y.
Proof. destruct (eqb_spec x y); split; congruence. Qed.
Lemma eqb_refl {A} {E : EqDec A} (x : A) : eqb x x = true.
Proof. apply eqb_true; reflexivity. Qed.

(** * Python lists *)
(* [x in l] *)
Fixpoint mem {A} {E : EqDec A} (x : A) (l : list A) : bool :=
  match l with [] => false | y :: t => if eq_dec x y then true else mem x t end.

(* [l.remove(x)]: removes the first occurrence; [None] stands for ValueError *)
Fixpoint lremove {A} {E : EqDec A} (x : A) (l : list A) : option (list A) :=
  match l with
  | [] => None
  | y :: t => if eq_dec x y then Some t
              else match lremove x t with Some t' => Some (y :: t') | None => None end
  end.

Section ListLemmas.
  Context {A : Type} {E : EqDec A}.
  Implicit Types (x y : A) (l : list A).

  Lemma mem_In x l : mem x l = true <-> In x l.
  Proof.
    induction l as [|y t IH]; simpl; [split; [discriminate|tauto]|].
    eqd; [split; auto|]. rewrite IH. split; [tauto|]. intros [H|H]; [congruence|assumption].
  Qed.
  Lemma mem_nIn x l : mem x l = false <-> ~ In x l.
  Proof. rewrite <- mem_In. destruct (mem x l); split; congruence. Qed.
  Lemma mem_spec x l : reflect (In x l) (mem x l).
  Proof. destruct (mem x l) eqn:Hm; constructor; [apply mem_In|apply mem_nIn]; assumption. Qed.
  Lemma mem_app x l l' : mem x (l ++ l') = mem x l || mem x l'.
  Proof. induction l as [|y t IH]; simpl; [reflexivity|]. eqd; [reflexivity|apply IH]. Qed.

  Lemma lremove_Some x l : In x l -> exists l', lremove x l = Some l'.
  Proof.
    induction l as [|y t IH]; simpl; [tauto|]. intros H. eqd; [eauto|].
    destruct H as [H|H]; [congruence|]. destruct (IH H) as [l' ->]. eauto.
  Qed.
  Lemma lremove_None x l : lremove x l = None <-> ~ In x l.
  Proof.
    induction l as [|y t IH]; simpl; [tauto|]. eqd.
    - split; [discriminate|]. intros H; exfalso; apply H; auto.
    - destruct (lremove x t) as [t'|].
      + split; [discriminate|]. intros H; exfalso.
        assert (Some t' = None) by (apply IH; tauto). discriminate.
      + split; [|reflexivity]. intros _ [H|H]; [congruence|]. apply IH in H; auto.
  Qed.
  Lemma lremove_split x l l' : lremove x l = Some l' ->
    exists a b, l = a ++ x :: b /\ l' = a ++ b /\ ~ In x a.
  Proof.
    revert l'; induction l as [|y t IH]; simpl; intros l'; [discriminate|]. eqd.
    - intros [= <-]. subst. exists [], t. auto.
    - destruct (lremove x t) as [t'|] eqn:Hr; [|discriminate]. intros [= <-].
      destruct (IH _ eq_refl) as (a & b & -> & -> & Hn). exists (y :: a), b. simpl. repeat split; auto.
      intros [H|H]; [congruence|auto].
  Qed.
  Lemma lremove_app_notin x l l' : ~ In x l ->
    lremove x (l ++ l') = match lremove x l' with Some t => Some (l ++ t) | None => None end.
  Proof.
    induction l as [|y t IH]; simpl; intros H; [destruct (lremove x l'); reflexivity|].
    eqd; [exfalso; apply H; auto|]. rewrite IH by tauto. destruct (lremove x l'); reflexivity.
  Qed.
  Lemma lremove_NoDup x l l' : lremove x l = Some l' -> NoDup l -> NoDup l'.
  Proof.
    intros H Hn. apply lremove_split in H as (a & b & -> & -> & _). apply NoDup_remove_1 in Hn; assumption.
  Qed.
  Lemma lremove_In x l l' y : lremove x l = Some l' -> NoDup l -> (In y l' <-> In y l /\ y <> x).
  Proof.
    intros H Hn. apply lremove_split in H as (a & b & -> & -> & Hx).
    pose proof (NoDup_remove_2 _ _ _ Hn) as Hx'. rewrite !in_app_iff in *. simpl.
    split; [|intuition congruence]. intros [H|H]; (split; [tauto|]); intros ->; tauto.
  Qed.
  Lemma lremove_count x l l' : lremove x l = Some l' ->
    forall y, count_occ eq_dec l y = count_occ eq_dec l' y + (if eq_dec x y then 1 else 0).
  Proof.
    intros H y. apply lremove_split in H as (a & b & -> & -> & Hx).
    rewrite !count_occ_app. simpl. destruct (eq_dec x y); subst; lia.
  Qed.
  Lemma lremove_length x l l' : lremove x l = Some l' -> length l = S (length l').
  Proof.
    intros H. apply lremove_split in H as (a & b & -> & -> & Hx). rewrite !app_length. simpl. lia.
  Qed.
  Lemma lremove_Permutation x l l' : lremove x l = Some l' -> Permutation l (x :: l').
  Proof.
    intros H. apply lremove_split in H as (a & b & -> & -> & Hx). symmetry. apply Permutation_middle.
  Qed.
End ListLemmas.

(** * Insertion-ordered dictionaries *)
Definition dict (K V : Type) := list (K * V).

Section Dict.
  Context {K V : Type} {E : EqDec K}.
  Implicit Types (d : dict K V) (k : K) (v : V).

  (* [d.get(k)] *)
  Fixpoint dget d k : option V :=
    match d with [] => None | (k', v) :: t => if eq_dec k k' then Some v else dget t k end.
  (* [d[k] = v]: overwrites in place, or appends a new key at the end *)
  Fixpoint dset d k v : dict K V :=
    match d with
    | [] => [(k, v)]
    | (k', v') :: t => if eq_dec k k' then (k', v) :: t else (k', v') :: dset t k v
    end.
  (* [del d[k]] / [d.pop(k, None)] *)
  Fixpoint ddel d k : dict K V :=
    match d with [] => [] | (k', v') :: t => if eq_dec k k' then t else (k', v') :: ddel t k end.
  Definition dkeys d : list K := map fst d.
  (* [k in d] *)
  Definition dmem d k : bool := match dget d k with Some _ => true | None => false end.
  Definition dupdate d (kv : dict K V) : dict K V := fold_left (fun d p => dset d (fst p) (snd p)) kv d.

  Lemma dget_dset_eq d k v : dget (dset d k v) k = Some v.
  Proof.
    induction d as [|[k' v'] t IH]; simpl; [eqd; congruence|].
    destruct (eq_dec k k') as [->|Hn]; simpl; [eqd; congruence|]. destruct (eq_dec k k'); [congruence|]. apply IH.
  Qed.
  Lemma dget_dset_ne d k k' v : k <> k' -> dget (dset d k v) k' = dget d k'.
  Proof.
    intros Hk. induction d as [|[k1 v1] t IH]; simpl; [eqd; congruence|].
    destruct (eq_dec k k1) as [->|Hn]; simpl; [eqd; congruence|]. destruct (eq_dec k' k1); [reflexivity|]. apply IH.
  Qed.
  Lemma dget_dset d k k' v : dget (dset d k v) k' = if eq_dec k k' then Some v else dget d k'.
  Proof. eqd; [subst; apply dget_dset_eq|apply dget_dset_ne; assumption]. Qed.

  Lemma dget_In d k v : dget d k = Some v -> In (k, v) d.
  Proof.
    induction d as [|[k' v'] t IH]; simpl; [discriminate|]. eqd; [intros [= ->]; subst; auto|auto].
  Qed.
  Lemma dget_keys d k : (exists v, dget d k = Some v) <-> In k (dkeys d).
  Proof.
    unfold dkeys. induction d as [|[k' v'] t IH]; simpl; [split; [intros [v H]; discriminate|tauto]|].
    eqd; [split; [auto|eauto]|]. rewrite IH. split; [tauto|]. intros [H|H]; [congruence|assumption].
  Qed.
  Lemma dget_Some_keys d k v : dget d k = Some v -> In k (dkeys d).
  Proof. intros H. apply dget_keys. eauto. Qed.
  Lemma dget_None d k : dget d k = None <-> ~ In k (dkeys d).
  Proof.
    rewrite <- dget_keys. destruct (dget d k) as [v|]; split; try congruence; try tauto.
    - intros H; exfalso; apply H; eauto.
    - intros _ [v H]; discriminate.
  Qed.
  Lemma dget_exists d k : In k (dkeys d) -> exists v, dget d k = Some v.
  Proof. apply dget_keys. Qed.
  Lemma dmem_In d k : dmem d k = true <-> In k (dkeys d).
  Proof.
    unfold dmem. rewrite <- dget_keys. destruct (dget d k); split; eauto; try congruence. intros [v H]; discriminate.
  Qed.
  Lemma dmem_nIn d k : dmem d k = false <-> ~ In k (dkeys d).
  Proof. rewrite <- dmem_In. destruct (dmem d k); split; congruence. Qed.
  Lemma dmem_spec d k : reflect (In k (dkeys d)) (dmem d k).
  Proof. destruct (dmem d k) eqn:Hm; constructor; [apply dmem_In|apply dmem_nIn]; assumption. Qed.
  Lemma In_dget d k v : NoDup (dkeys d) -> In (k, v) d -> dget d k = Some v.
  Proof.
    unfold dkeys. induction d as [|[k' v'] t IH]; simpl; [tauto|]. intros Hn [H|H].
    - injection H as -> ->. eqd; congruence.
    - inversion Hn; subst. eqd; [subst; exfalso; apply H2; apply in_map_iff; exists (k', v); auto|auto].
  Qed.

  Lemma dkeys_dset_in d k v : In k (dkeys d) -> dkeys (dset d k v) = dkeys d.
  Proof.
    unfold dkeys. induction d as [|[k' v'] t IH]; simpl; [tauto|]. intros H. eqd; [reflexivity|]. simpl.
    f_equal. apply IH. destruct H; [congruence|assumption].
  Qed.
  Lemma dkeys_dset_nin d k v : ~ In k (dkeys d) -> dset d k v = d ++ [(k, v)].
  Proof.
    unfold dkeys. induction d as [|[k' v'] t IH]; simpl; [reflexivity|]. intros H. eqd; [exfalso; apply H; auto|].
    f_equal. apply IH. tauto.
  Qed.
  Lemma dkeys_dset_nin' d k v : ~ In k (dkeys d) -> dkeys (dset d k v) = dkeys d ++ [k].
  Proof. intros H. rewrite dkeys_dset_nin by assumption. unfold dkeys. rewrite map_app. reflexivity. Qed.
  Lemma In_dkeys_dset d k v k' : In k' (dkeys (dset d k v)) <-> k' = k \/ In k' (dkeys d).
  Proof.
    rewrite <- !dget_keys. setoid_rewrite dget_dset. destruct (eq_dec k k') as [->|Hn].
    - split; [auto|]. intros _. eauto.
    - split; [tauto|]. intros [->|H]; [congruence|assumption].
  Qed.
  Lemma NoDup_dset d k v : NoDup (dkeys d) -> NoDup (dkeys (dset d k v)).
  Proof.
    intros Hn. destruct (in_dec eq_dec k (dkeys d)) as [Hi|Hi].
    - rewrite dkeys_dset_in; assumption.
    - rewrite dkeys_dset_nin' by assumption. apply Permutation_NoDup with (k :: dkeys d); [apply Permutation_cons_append|]. constructor; assumption.
  Qed.

  Lemma dkeys_ddel d k : NoDup (dkeys d) -> forall k', In k' (dkeys (ddel d k)) <-> In k' (dkeys d) /\ k' <> k.
  Proof.
    unfold dkeys. induction d as [|[k1 v1] t IH]; simpl; [tauto|]. intros Hn k'. inversion Hn; subst.
    eqd; simpl.
    - subst. split; [intros H; split; [auto|intros ->; tauto]|]. intuition congruence.
    - rewrite IH by assumption. intuition congruence.
  Qed.
  Lemma NoDup_ddel d k : NoDup (dkeys d) -> NoDup (dkeys (ddel d k)).
  Proof.
    unfold dkeys. induction d as [|[k1 v1] t IH]; simpl; [auto|]. intros Hn. inversion Hn; subst.
    eqd; simpl; [assumption|]. constructor; [|auto]. intros Hi.
    apply (dkeys_ddel k) in Hi; [|assumption]. tauto.
  Qed.
  Lemma dget_ddel_eq d k : NoDup (dkeys d) -> dget (ddel d k) k = None.
  Proof. intros Hn. apply dget_None. rewrite dkeys_ddel by assumption. tauto. Qed.
  Lemma dget_ddel_ne d k k' : k <> k' -> dget (ddel d k) k' = dget d k'.
  Proof.
    intros Hk. induction d as [|[k1 v1] t IH]; simpl; [reflexivity|].
    destruct (eq_dec k k1) as [->|Hn]; simpl; [eqd; congruence|]. eqd; [reflexivity|apply IH].
  Qed.
  Lemma dget_ddel d k k' : NoDup (dkeys d) -> dget (ddel d k) k' = if eq_dec k k' then None else dget d k'.
  Proof. intros Hn. eqd; [subst; apply dget_ddel_eq; assumption|apply dget_ddel_ne; assumption]. Qed.
  Lemma ddel_nin d k : ~ In k (dkeys d) -> ddel d k = d.
  Proof.
    unfold dkeys. induction d as [|[k1 v1] t IH]; simpl; [reflexivity|]. intros H. eqd; [exfalso; apply H; auto|].
    f_equal. apply IH. tauto.
  Qed.
  Lemma ddel_app d d' k : ~ In k (dkeys d) -> ddel (d ++ d') k = d ++ ddel d' k.
  Proof.
    unfold dkeys. induction d as [|[k1 v1] t IH]; simpl; [reflexivity|]. intros H. eqd; [exfalso; apply H; auto|].
    f_equal. apply IH. tauto.
  Qed.
  Lemma ddel_dset_new d k v : ~ In k (dkeys d) -> ddel (dset d k v) k = d.
  Proof.
    intros H. rewrite dkeys_dset_nin by assumption. rewrite ddel_app by assumption. simpl.
    eqd; [apply app_nil_r|congruence].
  Qed.
  Lemma ddel_length d k : In k (dkeys d) -> length d = S (length (ddel d k)).
  Proof.
    unfold dkeys. induction d as [|[k1 v1] t IH]; simpl; [tauto|]. intros H. eqd; [reflexivity|]. simpl. f_equal.
    apply IH. destruct H; [congruence|assumption].
  Qed.
  Lemma dkeys_ddel_lremove d k : In k (dkeys d) -> lremove k (dkeys d) = Some (dkeys (ddel d k)).
  Proof.
    unfold dkeys. induction d as [|[k1 v1] t IH]; simpl; [tauto|]. intros H. eqd; [reflexivity|]. simpl.
    rewrite IH; [reflexivity|]. destruct H; [congruence|assumption].
  Qed.
  Lemma dset_dset d k v v' : dset (dset d k v) k v' = dset d k v'.
  Proof.
    induction d as [|[k1 v1] t IH]; simpl; [eqd; congruence|]. destruct (eq_dec k k1); simpl.
    - eqd; congruence.
    - eqd; [congruence|]. f_equal. apply IH.
  Qed.
  Lemma dset_same d k v : dget d k = Some v -> dset d k v = d.
  Proof.
    induction d as [|[k1 v1] t IH]; simpl; [discriminate|]. eqd; [intros [= ->]; reflexivity|].
    intros H. f_equal. auto.
  Qed.
  Lemma dset_comm d k k' v v' : k <> k' -> In k (dkeys d) -> dset (dset d k v) k' v' = dset (dset d k' v') k v.
  Proof.
    intros Hk. unfold dkeys. induction d as [|[k1 v1] t IH]; simpl; [tauto|]. intros H.
    destruct (eq_dec k k1) as [->|Hn]; simpl.
    - destruct (eq_dec k' k1); [congruence|]. simpl. destruct (eq_dec k1 k1); [reflexivity|congruence].
    - destruct (eq_dec k' k1); simpl; destruct (eq_dec k k1); try congruence. f_equal. apply IH.
      destruct H; [congruence|assumption].
  Qed.
  Lemma dict_ext d d' : dkeys d = dkeys d' -> NoDup (dkeys d) -> (forall k, dget d k = dget d' k) -> d = d'.
  Proof.
    unfold dkeys. revert d'; induction d as [|[k v] t IH]; intros [|[k' v'] t']; simpl; try discriminate; [reflexivity|].
    intros [= <- Hk] Hn Hg. inversion Hn; subst. f_equal.
    - specialize (Hg k). destruct (eq_dec k k); congruence.
    - apply IH; [assumption..|]. intros k1. specialize (Hg k1). destruct (eq_dec k1 k) as [->|]; [|assumption].
      transitivity (@None V); [|symmetry]; apply dget_None; [assumption|]. unfold dkeys. rewrite <- Hk. assumption.
  Qed.
End Dict.

(** * Names, values, exceptions *)
(* Node names: Python ints or strs (hashable, compared by ==). *)
Inductive name := NI (z : Z) | NS (s : string).
(* Attribute values. *)
Inductive val := VNone | VBool (b : bool) | VI (z : Z) | VS (s : string).

Global Instance EqDec_name : EqDec name.
Proof. intros [a|a] [b|b]; try (right; discriminate); destruct (eq_dec a b); [left|right|left|right]; congruence. Defined.
Global Instance EqDec_val : EqDec val.
Proof.
  intros [|a|a|a] [|b|b|b]; try (right; discriminate); try (left; reflexivity);
    destruct (eq_dec a b); [left|right|left|right|left|right]; congruence.
Defined.

Definition vname (n : name) : val := match n with NI z => VI z | NS s => VS s end.
Definition voname (n : option name) : val := match n with Some n => vname n | None => VNone end.
(* reading a value back as a node name *)
Definition nameof (v : val) : option name :=
  match v with VI z => Some (NI z) | VS s => Some (NS s) | _ => None end.
Lemma nameof_vname n : nameof (vname n) = Some n.
Proof. destruct n; reflexivity. Qed.
Lemma vname_inj n m : vname n = vname m -> n = m.
Proof. intros H. apply (f_equal nameof) in H. rewrite !nameof_vname in H. congruence. Qed.
Lemma vname_not_none n : vname n <> VNone.
Proof. destruct n; discriminate. Qed.

Definition attrs := dict string val.

Inductive exn :=
| KeyError | AttributeError | TypeError | ValueError | IndexError | NameError | ZeroDivisionError
| MultipleNodeException | MultipleEdgeException
| PyException (msg : string)
| OutOfFuel.        (* not a Python exception: a fuelled loop ran out of fuel *)

Inductive res (A : Type) := Ok (a : A) | Err (e : exn).
Arguments Ok {A}. Arguments Err {A}.

(** * State + exception monad: state changes survive exceptions *)
Definition M (S A : Type) := S -> S * res A.
Definition ret {S A} (a : A) : M S A := fun s => (s, Ok a).
Definition fail {S A} (e : exn) : M S A := fun s => (s, Err e).
Definition bind {S A B} (m : M S A) (f : A -> M S B) : M S B :=
  fun s => match m s with (s', Ok a) => f a s' | (s', Err e) => (s', Err e) end.
Definition gets {S A} (f : S -> A) : M S A := fun s => (s, Ok (f s)).
Definition modify {S} (f : S -> S) : M S unit := fun s => (f s, Ok tt).
Definition lift {S A} (o : option A) (e : exn) : M S A := match o with Some a => ret a | None => fail e end.

Notation "x <- m ;; k" := (bind m (fun x => k)) (at level 61, m at next level, right associativity).
Notation "' p <- m ;; k" := (bind m (fun x => match x with p => k end))
  (at level 61, p pattern, m at next level, right associativity).
Notation "m ;; k" := (bind m (fun _ => k)) (at level 61, right associativity).

(* for x in l: acc = f acc x *)
Fixpoint foldM {S A B} (f : B -> A -> M S B) (l : list A) (b : B) : M S B :=
  match l with [] => ret b | a :: t => bind (f b a) (foldM f t) end.
Definition forM_ {S A} (l : list A) (f : A -> M S unit) : M S unit := foldM (fun _ a => f a) l tt.

(* while loop carrying local variables [l : L]; body returns [inl] to go on, [inr] to leave the loop *)
Fixpoint loop {S L R} (fuel : nat) (body : L -> M S (L + R)) (l : L) : M S R :=
  match fuel with
  | O => fail OutOfFuel
  | Datatypes.S f => bind (body l) (fun r => match r with inl l' => loop f body l' | inr r => ret r end)
  end.

Lemma bind_ok {S A B} (m : M S A) (f : A -> M S B) s s' a : m s = (s', Ok a) -> bind m f s = f a s'.
Proof. intros H. unfold bind. rewrite H. reflexivity. Qed.
Lemma bind_err {S A B} (m : M S A) (f : A -> M S B) s s' e : m s = (s', Err e) -> bind m f s = (s', Err e).
Proof. intros H. unfold bind. rewrite H. reflexivity. Qed.

(** ** Total correctness: [ok m s Q] = m run in s returns normally with Q *)
Definition ok {S A} (m : M S A) (s : S) (Q : A -> S -> Prop) : Prop :=
  exists a s', m s = (s', Ok a) /\ Q a s'.

Section OkRules.
  Context {S : Type}.
  Lemma ok_ret {A} (a : A) (s : S) (Q : A -> S -> Prop) : Q a s -> ok (ret a) s Q.
  Proof. intros H. exists a, s. auto. Qed.
  Lemma ok_bind {A B} (m : M S A) (f : A -> M S B) s Q :
    ok m s (fun a s' => ok (f a) s' Q) -> ok (bind m f) s Q.
  Proof. intros (a & s' & Hm & Hf). unfold ok, bind. rewrite Hm. exact Hf. Qed.
  Lemma ok_weaken {A} (m : M S A) s (Q Q' : A -> S -> Prop) :
    ok m s Q -> (forall a s', Q a s' -> Q' a s') -> ok m s Q'.
  Proof. intros (a & s' & Hm & Hq) H. exists a, s'. auto. Qed.
  Lemma ok_conj {A} (m : M S A) s (Q Q' : A -> S -> Prop) :
    ok m s Q -> ok m s Q' -> ok m s (fun a s' => Q a s' /\ Q' a s').
  Proof.
    intros (a & s' & Hm & Hq) (a2 & s2 & Hm2 & Hq2). rewrite Hm in Hm2. injection Hm2 as <- <-.
    exists a, s'. auto.
  Qed.
  Lemma ok_gets {A} (f : S -> A) s (Q : A -> S -> Prop) : Q (f s) s -> ok (gets f) s Q.
  Proof. intros H. exists (f s), s. auto. Qed.
  Lemma ok_modify (f : S -> S) s (Q : unit -> S -> Prop) : Q tt (f s) -> ok (modify f) s Q.
  Proof. intros H. exists tt, (f s). auto. Qed.
  Lemma ok_lift {A} (o : option A) e s (Q : A -> S -> Prop) a : o = Some a -> Q a s -> ok (lift o e) s Q.
  Proof. intros -> H. apply ok_ret; assumption. Qed.
  Lemma ok_eq {A} (m : M S A) s s' a : ok m s (fun b t => b = a /\ t = s') <-> m s = (s', Ok a).
  Proof.
    split; [intros (b & t & Hm & -> & ->); assumption|]. intros H; exists a, s'; auto.
  Qed.

  (* for-loop rule: invariant indexed by the processed prefix *)
  Lemma ok_foldM {A B} (f : B -> A -> M S B) (l : list A) (b : B) s (I : list A -> B -> S -> Prop) (Q : B -> S -> Prop) :
    I [] b s ->
    (forall pre a post b s, l = pre ++ a :: post -> I pre b s -> ok (f b a) s (fun b' s' => I (pre ++ [a]) b' s')) ->
    (forall b s, I l b s -> Q b s) ->
    ok (foldM f l b) s Q.
  Proof.
    intros H0 Hs Hq.
    assert (G : forall post pre b s, l = pre ++ post -> I pre b s -> ok (foldM f post b) s (fun b' s' => I l b' s')).
    { induction post as [|a post IH]; intros pre b1 s1 Hl Hi; simpl.
      - rewrite app_nil_r in Hl; subst. apply ok_ret; assumption.
      - apply ok_bind. eapply ok_weaken; [eapply Hs; eauto|]. intros b2 s2 H2.
        apply (IH (pre ++ [a])); [rewrite <- app_assoc; assumption|assumption]. }
    eapply ok_weaken; [apply (G l [] b s); auto|]. auto.
  Qed.
  Lemma ok_forM {A} (f : A -> M S unit) (l : list A) s (I : list A -> S -> Prop) (Q : S -> Prop) :
    I [] s ->
    (forall pre a post s, l = pre ++ a :: post -> I pre s -> ok (f a) s (fun _ s' => I (pre ++ [a]) s')) ->
    (forall s, I l s -> Q s) ->
    ok (forM_ l f) s (fun _ s' => Q s').
  Proof.
    intros H0 Hs Hq. unfold forM_. apply ok_foldM with (I := fun pre _ s => I pre s); [assumption|..].
    - intros; eapply Hs; eassumption.
    - intros; auto.
  Qed.

  (* while-loop rule: invariant and natural-number variant *)
  Lemma ok_loop {L R} (body : L -> M S (L + R)) (I : L -> S -> Prop) (mu : L -> S -> nat) (Q : R -> S -> Prop) fuel l s :
    I l s -> mu l s < fuel ->
    (forall l s, I l s -> ok (body l) s (fun r s' => match r with
        | inl l' => I l' s' /\ mu l' s' < mu l s
        | inr r => Q r s' end)) ->
    ok (loop fuel body l) s Q.
  Proof.
    intros Hi Hf Hb. revert l s Hi Hf. induction fuel as [|f IH]; intros l s Hi Hf; [lia|]. simpl.
    apply ok_bind. eapply ok_weaken; [apply Hb; assumption|]. intros [l'|r] s' H; simpl in H.
    - destruct H as [H1 H2]. apply IH; [assumption|lia].
    - apply ok_ret; assumption.
  Qed.

  (* partial correctness *)
  Definition whenok {A} (m : M S A) (s : S) (Q : A -> S -> Prop) : Prop :=
    forall a s', m s = (s', Ok a) -> Q a s'.
  Lemma whenok_bind {A B} (m : M S A) (f : A -> M S B) s Q :
    whenok m s (fun a s' => whenok (f a) s' Q) -> whenok (bind m f) s Q.
  Proof.
    intros H b s' Hb. unfold bind in Hb. destruct (m s) as [s1 [a|e]] eqn:Hm; [|discriminate].
    eapply H; eauto.
  Qed.
  Lemma whenok_ret {A} (a : A) s (Q : A -> S -> Prop) : Q a s -> whenok (ret a) s Q.
  Proof. intros H b s' [= <- <-]. assumption. Qed.
  Lemma whenok_fail {A} e s (Q : A -> S -> Prop) : whenok (fail e) s Q.
  Proof. intros b s' H. discriminate. Qed.
  Lemma ok_whenok {A} (m : M S A) s Q : ok m s Q -> whenok m s Q.
  Proof. intros (a & s' & Hm & Hq) b t Hb. rewrite Hm in Hb. injection Hb as <- <-. assumption. Qed.
  Lemma whenok_weaken {A} (m : M S A) s (Q Q' : A -> S -> Prop) :
    whenok m s Q -> (forall a s', Q a s' -> Q' a s') -> whenok m s Q'.
  Proof. intros H Hq a s' Hm. auto. Qed.
  Lemma whenok_loop {L R} (body : L -> M S (L + R)) (I : L -> S -> Prop) (Q : R -> S -> Prop) fuel l s :
    I l s ->
    (forall l s, I l s -> whenok (body l) s (fun r s' => match r with inl l' => I l' s' | inr r => Q r s' end)) ->
    whenok (loop fuel body l) s Q.
  Proof.
    intros Hi Hb. revert l s Hi. induction fuel as [|f IH]; intros l s Hi; [apply whenok_fail|]. simpl.
    apply whenok_bind. eapply whenok_weaken; [apply Hb; assumption|]. intros [l'|r] s' H; simpl in H.
    - apply IH; assumption.
    - apply whenok_ret; assumption.
  Qed.
  Lemma whenok_foldM {A B} (f : B -> A -> M S B) (l : list A) (b : B) s (I : list A -> B -> S -> Prop) (Q : B -> S -> Prop) :
    I [] b s ->
    (forall pre a post b s, l = pre ++ a :: post -> I pre b s -> whenok (f b a) s (fun b' s' => I (pre ++ [a]) b' s')) ->
    (forall b s, I l b s -> Q b s) ->
    whenok (foldM f l b) s Q.
  Proof.
    intros H0 Hs Hq.
    assert (G : forall post pre b s, l = pre ++ post -> I pre b s -> whenok (foldM f post b) s (fun b' s' => I l b' s')).
    { induction post as [|a post IH]; intros pre b1 s1 Hl Hi; simpl.
      - rewrite app_nil_r in Hl; subst. apply whenok_ret; assumption.
      - apply whenok_bind. eapply whenok_weaken; [eapply Hs; eauto|]. intros b2 s2 H2.
        apply (IH (pre ++ [a])); [rewrite <- app_assoc; assumption|assumption]. }
    eapply whenok_weaken; [apply (G l [] b s); auto|]. auto.
  Qed.

  (* invariants that hold whether or not the call raises *)
  Definition always {A} (m : M S A) (s : S) (P : S -> Prop) : Prop := P (fst (m s)).
  Lemma always_bind {A B} (m : M S A) (f : A -> M S B) s (P : S -> Prop) :
    always m s P -> (forall a s', m s = (s', Ok a) -> P s' -> always (f a) s' P) -> always (bind m f) s P.
  Proof.
    unfold always, bind. intros H Hf. destruct (m s) as [s' [a|e]] eqn:Hm; simpl in *; auto.
  Qed.
  Lemma always_foldM {A B} (f : B -> A -> M S B) (l : list A) b s (P : S -> Prop) :
    P s -> (forall b a s, In a l -> P s -> always (f b a) s P) -> always (foldM f l b) s P.
  Proof.
    revert b s; induction l as [|a t IH]; intros b s Hp Hf; simpl; [assumption|].
    apply always_bind; [apply Hf; simpl; auto|]. intros b' s' _ Hp'. apply IH; [assumption|].
    intros; apply Hf; simpl; auto.
  Qed.
  Lemma always_loop {L R} (body : L -> M S (L + R)) fuel l s (P : S -> Prop) :
    P s -> (forall l s, P s -> always (body l) s P) -> always (loop fuel body l) s P.
  Proof.
    revert l s; induction fuel as [|f IH]; intros l s Hp Hb; simpl; [assumption|].
    apply always_bind; [apply Hb; assumption|]. intros [l'|r] s' _ Hp'; [apply IH; assumption|assumption].
  Qed.
  Lemma ok_ex {A} (m : M S A) s (Q : A -> S -> Prop) : ok m s Q -> exists s' a, m s = (s', Ok a) /\ Q a s'.
  Proof. intros (a & s' & H); eauto. Qed.
  Lemma ok_intro {A} (m : M S A) s s' a (Q : A -> S -> Prop) : m s = (s', Ok a) -> Q a s' -> ok m s Q.
  Proof. intros H1 H2. exists a, s'; auto. Qed.
  Lemma whenok_elim {A} (m : M S A) s s' a (Q : A -> S -> Prop) : whenok m s Q -> m s = (s', Ok a) -> Q a s'.
  Proof. unfold whenok. auto. Qed.
  (* more fuel does not change the result of a loop that ended *)
  Lemma loop_mono {L R} (body : L -> M S (L + R)) k j l s s' r :
    loop k body l s = (s', r) -> r <> Err OutOfFuel -> loop (k + j) body l s = (s', r).
  Proof.
    revert l s; induction k as [|k IH]; intros l s H Hr; simpl in *; [injection H as <- <-; congruence|].
    unfold bind in *. destruct (body l s) as [s1 [[l'|r1]|e]]; [apply IH; assumption|assumption|assumption].
  Qed.
End OkRules.

Global Opaque ok whenok.

Definition run {S A} (m : M S A) (s : S) : S := fst (m s).
