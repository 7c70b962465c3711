(* The text of Graph.__repr__ determines the adjacency lists of a graph with plain names. *)
From Coq Require Import Ascii Decimal DecimalString DecimalPos DecimalZ.
From Verif Require Import Py Util M_Graph P_Graph P_EdgeFrame M_Flow M_Dot M_Repr S_Repr.
Set Implicit Arguments. Unset Strict Implicit.
Local Open Scope string_scope. Local Open Scope list_scope.

Lemma app_assoc_s (a b c : string) : ((a ++ b) ++ c = a ++ (b ++ c))%string.
Proof. induction a as [|x a IH]; simpl; congruence. Qed.
Lemma app_nil_s (a : string) : (a ++ "" = a)%string.
Proof. induction a as [|x a IH]; simpl; congruence. Qed.
Definition starts_out (p : ascii -> bool) (s : string) : Prop := match s with EmptyString => True | String c _ => p c = false end.
Lemma span_unique p a b x y : all_chars p a = true -> all_chars p b = true -> starts_out p x -> starts_out p y -> (a ++ x = b ++ y)%string -> a = b /\ x = y.
Proof.
  revert b. induction a as [|c a IH]; intros [|d b] Ha Hb Hx Hy E; simpl in *; subst.
  - auto.
  - simpl in Hx. apply andb_true_iff in Hb as [Hb _]. congruence.
  - simpl in Hy. apply andb_true_iff in Ha as [Ha _]. congruence.
  - injection E as -> E. apply andb_true_iff in Ha as [_ Ha]. apply andb_true_iff in Hb as [_ Hb]. destruct (IH b Ha Hb Hx Hy E) as [-> ->]. auto.
Qed.
Lemma all_chars_imp (p q : ascii -> bool) s : (forall c, p c = true -> q c = true) -> all_chars p s = true -> all_chars q s = true.
Proof. intros H. induction s as [|c s IH]; simpl; [auto|]. intros K. apply andb_true_iff in K as [K1 K2]. rewrite (H c K1), (IH K2). reflexivity. Qed.

(* the characters of numbers and identifiers *)
Definition word (c : ascii) : bool := is_alpha c || is_digit c || Ascii.eqb c (ch "-").
Lemma uint_digits u : all_chars is_digit (NilEmpty.string_of_uint u) = true.
Proof. induction u; simpl; auto. Qed.
Lemma int_shape z : exists c t, str_int z = String c t /\ is_alpha c = false /\ word c = true /\ all_chars word t = true.
Proof.
  unfold str_int. assert (H : forall u, u <> Nil -> exists c t, NilZero.string_of_uint u = String c t /\ is_alpha c = false /\ word c = true /\ all_chars word t = true).
  { intros u Hu. assert (D : forall v, all_chars word (NilEmpty.string_of_uint v) = true) by (intros v; apply (all_chars_imp (p := is_digit)); [intros c Hc; unfold word; rewrite Hc, orb_true_r; reflexivity|apply uint_digits]).
    destruct u; [congruence|..]; do 2 eexists; (split; [reflexivity|]; split; [reflexivity|split; [reflexivity|apply D]]). }
  destruct z as [|p|p]; cbn [Z.to_int NilZero.string_of_int].
  - do 2 eexists. repeat split; reflexivity.
  - apply H, DecimalPos.Unsigned.to_uint_nonnil.
  - destruct (H (Pos.to_uint p) (DecimalPos.Unsigned.to_uint_nonnil p)) as (c & t & E & _ & Hc & Ht). do 2 eexists. split; [reflexivity|]. split; [reflexivity|]. split; [reflexivity|]. rewrite E. simpl. rewrite Hc, Ht. reflexivity.
Qed.
Lemma str_int_injective a b : str_int a = str_int b -> a = b.
Proof.
  unfold str_int. intros H.
  assert (N : forall z, NilZero.int_of_string (NilZero.string_of_int (Z.to_int z)) = Some (Z.to_int z)).
  { intros z. apply NilZero.isi; destruct z; cbn; try discriminate; intros [= E]; revert E; apply DecimalPos.Unsigned.to_uint_nonnil. }
  pose proof (N a) as A. rewrite H, N in A. injection A as A. apply DecimalZ.to_int_inj. symmetry. exact A.
Qed.
Lemma letter_alpha c : letter c = is_alpha c.
Proof. destruct c as [[] [] [] [] [] [] [] []]; reflexivity. Qed.
Lemma digit_digit c : digit c = is_digit c.
Proof. destruct c as [[] [] [] [] [] [] [] []]; reflexivity. Qed.
Lemma plain_word n : plain n -> all_chars word (str_name n) = true.
Proof.
  destruct n as [z|s]; cbn [plain]; intros H.
  - change (all_chars word (str_int z) = true). destruct (int_shape z) as (c & t & -> & _ & H1 & H2). simpl. rewrite H1, H2. reflexivity.
  - change (all_chars word s = true). destruct s as [|c s]; [destruct H|]. destruct H as [H1 H2]. simpl. unfold word at 1. rewrite <- letter_alpha, H1. simpl. clear H1. induction s as [|d s IH]; [reflexivity|]. simpl.
    rewrite IH by (intros e He; apply H2; right; exact He). unfold word. rewrite <- letter_alpha, <- digit_digit. destruct (H2 d (or_introl eq_refl)) as [-> | ->]; rewrite ?orb_true_r; reflexivity.
Qed.
Lemma plain_inj n m : plain n -> plain m -> str_name n = str_name m -> n = m.
Proof.
  destruct n as [z|s], m as [w|t]; intros H1 H2 E.
  - f_equal. apply str_int_injective, E.
  - exfalso. change (str_int z = t) in E. destruct (int_shape z) as (c & r & E' & K & _). rewrite E' in E. subst t. destruct H2 as [H2 _]. rewrite letter_alpha in H2. congruence.
  - exfalso. change (s = str_int w) in E. destruct (int_shape w) as (c & r & E' & K & _). rewrite E' in E. subst s. destruct H1 as [H1 _]. rewrite letter_alpha in H1. congruence.
  - change (s = t) in E. congruence.
Qed.
Lemma word_plain_char c : word c = true -> Ascii.eqb c squote = false /\ Ascii.eqb c dquote = false /\ Ascii.eqb c backslash = false /\ Ascii.eqb c newline = false /\ Ascii.eqb c carriage = false /\ Ascii.eqb c tab = false.
Proof.
  intros H. repeat split; match goal with |- Ascii.eqb c ?d = false => destruct (Ascii.eqb_spec c d) as [->|]; [vm_compute in H; discriminate|reflexivity] end.
Qed.
Lemma repr_word s : all_chars word s = true -> repr_str s = ("'" ++ s ++ "'")%string.
Proof.
  intros H. unfold repr_str.
  assert (N : some_char (fun c => Ascii.eqb c squote) s = false).
  { unfold some_char. rewrite (all_chars_imp (p := word)); [reflexivity| |exact H]. intros c Hc. destruct (word_plain_char Hc) as (-> & _). reflexivity. }
  rewrite N. simpl. f_equal. f_equal. clear N. induction s as [|c s IH]; [reflexivity|]. simpl in H. apply andb_true_iff in H as [H1 H2]. simpl. destruct (word_plain_char H1) as (-> & _ & -> & -> & -> & ->). simpl. rewrite (IH H2). reflexivity.
Qed.
Definition quoted (n : name) : string := match n with NI _ => str_name n | NS s => ("'" ++ s ++ "'")%string end.
Lemma repr_plain n : plain n -> repr_name n = quoted n.
Proof. destruct n as [z|s]; intros H; [reflexivity|]. simpl. apply repr_word. apply (plain_word (n := NS s) H). Qed.

(* one element of a list, followed by something that is no word character *)
Lemma quoted_unique n m x y : plain n -> plain m -> starts_out word x -> starts_out word y -> (quoted n ++ x = quoted m ++ y)%string -> n = m /\ x = y.
Proof.
  intros Hn Hm Hx Hy E. pose proof (plain_word Hn) as Wn. pose proof (plain_word Hm) as Wm. destruct n as [z|s], m as [w|t]; cbn [quoted] in E.
  - destruct (span_unique Wn Wm Hx Hy E) as [K ->]. split; [apply (plain_inj Hn Hm K)|reflexivity].
  - exfalso. change (str_name (NI z)) with (str_int z) in E. destruct (int_shape z) as (c & r & E' & _ & K & _). rewrite E' in E. injection E as -> _. vm_compute in K. discriminate.
  - exfalso. change (str_name (NI w)) with (str_int w) in E. destruct (int_shape w) as (c & r & E' & _ & K & _). rewrite E' in E. injection E as <- _. vm_compute in K. discriminate.
  - rewrite !app_assoc_s in E. injection E as E. destruct (@span_unique word s t ("'" ++ x)%string ("'" ++ y)%string Wn Wm eq_refl eq_refl E) as [-> K]. injection K as ->. auto.
Qed.
(* the rest of a list after its first element *)
Definition tail_text (l : list name) : string := fold_right (fun n s => (", " ++ quoted n ++ s)%string) "]" l.
Lemma tail_unique l l' x y : (forall n, In n l -> plain n) -> (forall n, In n l' -> plain n) -> (tail_text l ++ x = tail_text l' ++ y)%string -> l = l' /\ x = y.
Proof.
  assert (Out : forall l x, starts_out word (tail_text l ++ x)%string) by (intros [|? ?] ?; reflexivity).
  revert l'. induction l as [|n l IH]; intros [|m l'] H H' E; cbn [tail_text fold_right] in E.
  - injection E as ->. auto.
  - discriminate.
  - discriminate.
  - rewrite !app_assoc_s in E. injection E as E. fold (tail_text l) (tail_text l') in E. destruct (quoted_unique (H n (or_introl eq_refl)) (H' m (or_introl eq_refl)) (Out l x) (Out l' y) E) as [-> E'].
    destruct (IH l' (fun n Hn => H n (or_intror Hn)) (fun n Hn => H' n (or_intror Hn)) E') as [-> ->]. auto.
Qed.
Definition list_text (l : list name) : string := match l with [] => "[]" | n :: t => ("[" ++ quoted n ++ tail_text t)%string end.
Lemma repr_list_text l : (forall n, In n l -> plain n) -> repr_list l = list_text l.
Proof.
  intros H. unfold repr_list. destruct l as [|n l]; [reflexivity|]. cbn [list_text]. f_equal. revert n H. induction l as [|m l IH]; intros n H.
  - simpl. rewrite (repr_plain (H n (or_introl eq_refl))). reflexivity.
  - specialize (IH m (fun k Hk => H k (or_intror Hk))). cbn [map String.concat] in *. rewrite (repr_plain (H n (or_introl eq_refl))). rewrite app_assoc_s. f_equal. cbn [tail_text fold_right]. fold (tail_text l). rewrite app_assoc_s, IH. reflexivity.
Qed.
Lemma list_unique l l' x y : (forall n, In n l -> plain n) -> (forall n, In n l' -> plain n) -> (list_text l ++ x = list_text l' ++ y)%string -> l = l' /\ x = y.
Proof.
  assert (Out : forall l x, starts_out word (tail_text l ++ x)%string) by (intros [|? ?] ?; reflexivity).
  assert (Nb : forall n s, plain n -> (quoted n ++ s)%string <> String (ch "]") x /\ (quoted n ++ s)%string <> String (ch "]") y).
  { intros n s Hn. assert (exists c r, quoted n = String c r /\ c <> ch "]") as (c & r & -> & K).
    { destruct n as [z|t]; cbn [quoted]; [|do 2 eexists; split; [reflexivity|discriminate]]. change (str_name (NI z)) with (str_int z). destruct (int_shape z) as (c & r & E & _ & K & _). exists c, r. split; [exact E|]. intros ->. vm_compute in K. discriminate. }
    simpl. split; intros [= ? ?]; contradiction. }
  destruct l as [|n l], l' as [|m l']; intros H H' E; cbn [list_text] in E.
  - injection E as ->. auto.
  - exfalso. rewrite !app_assoc_s in E. simpl in E. injection E as E. symmetry in E. revert E. apply Nb, H'. left. reflexivity.
  - exfalso. rewrite !app_assoc_s in E. simpl in E. injection E as E. revert E. apply Nb, H. left. reflexivity.
  - rewrite !app_assoc_s in E. injection E as E. destruct (quoted_unique (H n (or_introl eq_refl)) (H' m (or_introl eq_refl)) (Out l x) (Out l' y) E) as [-> E'].
    destruct (tail_unique (fun n Hn => H n (or_intror Hn)) (fun n Hn => H' n (or_intror Hn)) E') as [-> ->]. auto.
Qed.

Section Text.
  Variable nb : name -> list name.
  Definition line (n : name) : string := (str_name n ++ " -> " ++ repr_list (nb n))%string.
  Definition text (l : list name) : string := fold_right (fun n s => (line n ++ nl ++ s)%string) "" l.
  Lemma but_last_nl s : but_last (s ++ nl) = s.
  Proof. induction s as [|c s IH]; [reflexivity|]. simpl in *. rewrite IH. destruct (s ++ nl)%string eqn:E; [destruct s; discriminate|]. reflexivity. Qed.
  Lemma text_concat l : l <> [] -> text l = (String.concat nl (map line l) ++ nl)%string.
  Proof.
    induction l as [|n l IH]; [congruence|]. intros _. destruct l as [|m l]; [cbn [text fold_right map String.concat]; reflexivity|].
    cbn [text fold_right]. fold (text l). change (line m ++ nl ++ text l)%string with (text (m :: l)). rewrite IH by discriminate. cbn [map String.concat]. rewrite !app_assoc_s. reflexivity.
  Qed.
  Lemma repr_text l : but_last (text l) = String.concat nl (map line l).
  Proof. destruct l as [|n l]; [reflexivity|]. rewrite text_concat by discriminate. apply but_last_nl. Qed.
End Text.
Lemma text_unique nb nb' l l' : (forall n, In n l -> plain n) -> (forall n, In n l' -> plain n) -> (forall n m, In n l -> In m (nb n) -> plain m) -> (forall n m, In n l' -> In m (nb' n) -> plain m) ->
  text nb l = text nb' l' -> l = l' /\ forall n, In n l -> nb n = nb' n.
Proof.
  revert l'. induction l as [|n l IH]; intros [|m l'] Hl Hl' Hb Hb' E; cbn [text fold_right] in E.
  - split; [reflexivity|intros n []].
  - exfalso. unfold line in E. destruct (str_name m); discriminate.
  - exfalso. unfold line in E. destruct (str_name n); discriminate.
  - fold (text nb l) (text nb' l') in E. unfold line in E. rewrite !app_assoc_s in E.
    assert (E1 : n = m /\ (" -> " ++ repr_list (nb n) ++ nl ++ text nb l = " -> " ++ repr_list (nb' m) ++ nl ++ text nb' l')%string).
    { edestruct (@span_unique word) as [K1 K2]; [apply (plain_word (Hl n (or_introl eq_refl)))|apply (plain_word (Hl' m (or_introl eq_refl)))| | |exact E|]; [reflexivity|reflexivity|].
      split; [apply plain_inj; [apply Hl; left; reflexivity|apply Hl'; left; reflexivity|exact K1]|exact K2]. }
    assert (Arrow : forall a b, (" -> " ++ a = " -> " ++ b)%string -> a = b) by (intros a b [= K]; exact K).
    assert (Nl : forall a b, (nl ++ a = nl ++ b)%string -> a = b) by (intros a b [= K]; exact K).
    destruct E1 as [<- E1]. apply Arrow in E1. rewrite !repr_list_text in E1 by (intros k Hk; first [apply (Hb n k (or_introl eq_refl) Hk)|apply (Hb' n k (or_introl eq_refl) Hk)]).
    apply list_unique in E1 as [E1 E2]; [|intros k Hk; apply (Hb n k (or_introl eq_refl) Hk)|intros k Hk; apply (Hb' n k (or_introl eq_refl) Hk)]. apply Nl in E2.
    destruct (IH l') as [-> Hn]; [intros k Hk; apply Hl; right; exact Hk|intros k Hk; apply Hl'; right; exact Hk|intros k j Hk; apply Hb; right; exact Hk|intros k j Hk; apply Hb'; right; exact Hk|exact E2|].
    split; [reflexivity|]. intros k [<-|Hk]; [exact E1|apply Hn, Hk].
Qed.
Lemma graph_repr_ok g : wf g -> graph_repr g = (g, Ok (but_last (text (list_at (g_nbrs g)) (get_node_list g)))).
Proof.
  intros W. assert (H : ok graph_repr g (fun s h => h = g /\ s = but_last (text (list_at (g_nbrs g)) (get_node_list g)))).
  { unfold graph_repr. apply ok_bind, ok_gets. apply ok_bind. rewrite (wf_nodes W).
    eapply ok_foldM with (I := fun pre data h => h = g /\ data = text (list_at (g_nbrs g)) pre).
    - split; reflexivity.
    - intros pre n post data h Hl (-> & ->). apply ok_bind, ok_nbr_list; [change (In n (dkeys (g_nbrs g))); rewrite Hl; apply in_elt|]. apply ok_ret. split; [reflexivity|].
      clear. induction pre as [|x pre IH]; cbn [text fold_right app]; [unfold line; rewrite !app_assoc_s, app_nil_s; reflexivity|]. fold (text (list_at (g_nbrs g)) pre) in *. fold (text (list_at (g_nbrs g)) (pre ++ [n])) in *. rewrite <- IH, !app_assoc_s. reflexivity.
    - intros data h (-> & ->). apply ok_ret. split; reflexivity. }
  apply ok_ex in H as (h & s & E & -> & ->). exact E.
Qed.

(** ** repr of a str reads back *)
Lemma read_escape q s : q = squote \/ q = dquote -> read_rest q (escape q s ++ String q EmptyString)%string = Some s.
Proof.
  intros Hq. induction s as [|c t IH]; [cbn [escape String.append read_rest]; rewrite Ascii.eqb_refl; reflexivity|].
  cbn [escape].
  assert (Hbq : Ascii.eqb backslash q = false) by (destruct Hq as [-> | ->]; reflexivity).
  destruct (Ascii.eqb c backslash || Ascii.eqb c q) eqn:E1.
  - cbn [String.append read_rest]. rewrite Hbq. change (Nat.eqb (nat_of_ascii backslash) 92) with true. cbv iota. rewrite IH.
    apply orb_prop in E1 as [E1|E1]; apply Ascii.eqb_eq in E1; subst c; [reflexivity|]. destruct Hq as [-> | ->]; reflexivity.
  - apply orb_false_elim in E1 as [E1 E1'].
    destruct (Ascii.eqb c newline) eqn:E2; [|destruct (Ascii.eqb c carriage) eqn:E3; [|destruct (Ascii.eqb c tab) eqn:E4]].
    1-3: cbn [String.append read_rest]; rewrite Hbq; change (Nat.eqb (nat_of_ascii backslash) 92) with true; cbv iota; rewrite IH;
      repeat match goal with H : Ascii.eqb _ _ = true |- _ => apply Ascii.eqb_eq in H; subst c end; reflexivity.
    cbn [String.append read_rest]. rewrite E1', IH.
    assert (Hne : forall k, k < 256 -> Ascii.eqb c (ascii_of_nat k) = false -> Nat.eqb (nat_of_ascii c) k = false).
    { intros k Hk H. apply Nat.eqb_neq. intros <-. rewrite ascii_nat_embedding, Ascii.eqb_refl in H. discriminate. }
    rewrite (Hne 92), (Hne 10), (Hne 13); try lia; try assumption. reflexivity.
Qed.
