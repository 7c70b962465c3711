(* Numbers and their decimal strings: int() in tree.py (M_Tree.v) and str() (M_Flow.v). *)
From Verif Require Import Py M_Graph M_Flow M_Tree.
From Coq Require Import Decimal DecimalString DecimalZ DecimalPos.
Set Implicit Arguments. Unset Strict Implicit.
Local Open Scope string_scope. Local Open Scope list_scope.

Lemma digits_acc d : forall acc, digits (NilEmpty.string_of_uint d) (Zpos acc) = Some (Zpos (Pos.of_uint_acc d acc)).
Proof.
  induction d as [|d IH|d IH|d IH|d IH|d IH|d IH|d IH|d IH|d IH|d IH]; intros acc; [reflexivity|..]; cbn [NilEmpty.string_of_uint digits Pos.of_uint_acc];
    match goal with |- context [nat_of_ascii ?c] => let k := eval vm_compute in (nat_of_ascii c) in change (nat_of_ascii c) with k end;
    cbn [Nat.leb andb Nat.sub]; rewrite <- IH; f_equal; lia.
Qed.
Lemma digits_uint d : digits (NilEmpty.string_of_uint d) 0 = Some (Z.of_N (Pos.of_uint d)).
Proof. induction d as [|d IH|d IH|d IH|d IH|d IH|d IH|d IH|d IH|d IH|d IH]; [reflexivity|exact IH|exact (digits_acc d _)..]. Qed.
Lemma uint_first d : d <> Nil -> exists c t, NilEmpty.string_of_uint d = String c t /\ (c =? "-")%char = false /\ (c =? "+")%char = false.
Proof. destruct d; [congruence|..]; intros _; do 2 eexists; (split; [reflexivity|split; reflexivity]). Qed.
Lemma zero_uint d : d <> Nil -> NilZero.string_of_uint d = NilEmpty.string_of_uint d.
Proof. destruct d; [congruence|reflexivity..]. Qed.
Lemma int_of_uint d : d <> Nil -> int_of_string (NilEmpty.string_of_uint d) = Some (Z.of_N (Pos.of_uint d)).
Proof.
  intros H. destruct (uint_first H) as (c & t & E & E1 & E2). rewrite <- digits_uint, E. unfold int_of_string. rewrite E1, E2. cbn [orb]. destruct (digits _ _); reflexivity.
Qed.
Lemma signed_uint (s : ascii) d : d <> Nil -> ((s =? "-") || (s =? "+"))%char = true ->
  int_of_string (String s (NilEmpty.string_of_uint d)) = Some (if (s =? "-")%char then - Z.of_N (Pos.of_uint d) else Z.of_N (Pos.of_uint d))%Z.
Proof. intros H Hs. unfold int_of_string. rewrite Hs, digits_uint. destruct (uint_first H) as (c & t & E & _). rewrite E. reflexivity. Qed.
Lemma pos_uint p : Pos.to_uint p <> Nil.
Proof. apply DecimalPos.Unsigned.to_uint_nonnil. Qed.
Lemma int_str z : int_of_string (str_int z) = Some z.
Proof.
  unfold str_int. rewrite <- (DecimalZ.of_to z) at 2. destruct z as [|p|p]; cbn [Z.to_int NilZero.string_of_int].
  - reflexivity.
  - rewrite (zero_uint (@pos_uint p)), (int_of_uint (@pos_uint p)). reflexivity.
  - rewrite (zero_uint (@pos_uint p)), (@signed_uint "-" _ (@pos_uint p) eq_refl). reflexivity.
Qed.
Lemma int_plus z : (0 <= z)%Z -> int_of_string (String "+" (str_int z)) = Some z.
Proof.
  intros Hz. unfold str_int. rewrite <- (DecimalZ.of_to z) at 2. destruct z as [|p|p]; cbn [Z.to_int NilZero.string_of_int]; [reflexivity| |lia].
  rewrite (zero_uint (@pos_uint p)), (@signed_uint "+" _ (@pos_uint p) eq_refl). reflexivity.
Qed.
Lemma digits_bad c s : In c (list_ascii_of_string s) -> (nat_of_ascii c < 48 \/ 57 < nat_of_ascii c)%nat -> forall acc, digits s acc = None.
Proof.
  intros H Hc. induction s as [|d t IH]; [destruct H|]. intros acc. cbn [digits]. destruct H as [->|H].
  - destruct (48 <=? nat_of_ascii c)%nat eqn:A; [|reflexivity]. destruct (nat_of_ascii c <=? 57)%nat eqn:B; [|reflexivity]. apply Nat.leb_le in A, B. lia.
  - destruct (_ && _); [apply IH; exact H|reflexivity].
Qed.
Lemma int_bad c s : In c (list_ascii_of_string s) -> (nat_of_ascii c < 48 \/ 57 < nat_of_ascii c)%nat -> c <> "-"%char -> c <> "+"%char -> int_of_string s = None.
Proof.
  intros H Hc N1 N2. destruct s as [|d t]; [reflexivity|]. unfold int_of_string.
  destruct ((d =? "-") || (d =? "+"))%char eqn:S.
  - assert (Ht : In c (list_ascii_of_string t)).
    { destruct H as [->|H]; [|exact H]. apply orb_true_iff in S as [S|S]; apply Ascii.eqb_eq in S; congruence. }
    destruct t; [reflexivity|]. rewrite (digits_bad Ht Hc). reflexivity.
  - rewrite (digits_bad H Hc). reflexivity.
Qed.
