(* Lemmas about quoting (M_Dot.v) and DOT identifiers (S_Dot.v). *)
From Verif Require Import Py M_Graph M_Flow M_Dot S_Dot.
From Coq Require Import Ascii.
Set Implicit Arguments. Unset Strict Implicit.
Local Open Scope string_scope. Local Open Scope list_scope.

Lemma all_chars_app p a b : all_chars p (a ++ b)%string = all_chars p a && all_chars p b.
Proof. induction a as [|c t IH]; cbn [all_chars String.append]; [reflexivity|]. rewrite IH, andb_assoc. reflexivity. Qed.
Lemma all_chars_impl (p q : ascii -> bool) s : (forall c, p c = true -> q c = true) -> all_chars p s = true -> all_chars q s = true.
Proof.
  intros H. induction s as [|c t IH]; cbn [all_chars]; [reflexivity|]. rewrite !andb_true_iff. intros [A B]. auto.
Qed.
Lemma all_chars_and (p q r : ascii -> bool) s : (forall c, p c = true -> q c = true -> r c = true) ->
  all_chars p s = true -> all_chars q s = true -> all_chars r s = true.
Proof.
  intros H. induction s as [|c t IH]; cbn [all_chars]; [reflexivity|]. rewrite !andb_true_iff. intros [A B] [C D]. auto.
Qed.
Lemma last_char_all p s c : all_chars p s = true -> last_char s = Some c -> p c = true.
Proof.
  induction s as [|d t IH]; cbn [all_chars last_char]; [discriminate|]. rewrite andb_true_iff. intros [A B].
  destruct t as [|e u]; [intros [= <-]; exact A|]. intros H. apply IH; assumption.
Qed.
Lemma last_char_snoc s c : last_char (s ++ String c "")%string = Some c.
Proof.
  induction s as [|d t IH]; [reflexivity|]. cbn [String.append last_char]. rewrite IH.
  destruct t; reflexivity.
Qed.
Definition isnt (a : ascii) (c : ascii) : bool := negb (Ascii.eqb c a).
Lemma isnt_spec a c : isnt a c = true <-> c <> a.
Proof. unfold isnt. rewrite negb_true_iff. split; [intros H ->; rewrite Ascii.eqb_refl in H; discriminate|apply Ascii.eqb_neq]. Qed.

(** ** Escaping *)
Lemma replace_char_id a b s : all_chars (isnt a) s = true -> replace_char a b s = s.
Proof.
  induction s as [|c t IH]; cbn [all_chars replace_char]; [reflexivity|]. rewrite andb_true_iff. intros [A B].
  unfold isnt in A. apply negb_true_iff in A. rewrite A, IH by assumption. reflexivity.
Qed.
Lemma replace_char_all p a b s : all_chars p b = true -> all_chars p s = true -> all_chars p (replace_char a b s) = true.
Proof.
  intros Hb. induction s as [|c t IH]; cbn [all_chars replace_char]; [reflexivity|]. rewrite andb_true_iff. intros [A B].
  destruct (Ascii.eqb c a); [rewrite all_chars_app, Hb, IH by assumption; reflexivity|].
  cbn [all_chars]. rewrite A, IH by assumption. reflexivity.
Qed.
Definition esc (s : string) : string := replace_char dquote (bs dq) s.
Lemma esc_cons c t : esc (String c t) = if Ascii.eqb c dquote then String backslash (String dquote (esc t)) else String c (esc t).
Proof. reflexivity. Qed.
Lemma rbs_cons b c t : replace_bs_space b (String c t) =
  match t with
  | String d u => if Ascii.eqb c backslash && Ascii.eqb d space then (b ++ replace_bs_space b u)%string else String c (replace_bs_space b t)
  | EmptyString => String c EmptyString
  end.
Proof. reflexivity. Qed.
Lemma rbs_skip b c t : c <> backslash -> replace_bs_space b (String c t) = String c (replace_bs_space b t).
Proof.
  intros H. rewrite rbs_cons. destruct t; [reflexivity|]. apply Ascii.eqb_neq in H. rewrite H. reflexivity.
Qed.
Lemma rbs_esc b s : all_chars (isnt backslash) s = true -> replace_bs_space b (esc s) = esc s.
Proof.
  induction s as [|c t IH]; [reflexivity|]. cbn [all_chars]. rewrite andb_true_iff, isnt_spec. intros [A B].
  rewrite esc_cons. destruct (Ascii.eqb_spec c dquote) as [->|N].
  - rewrite rbs_cons. change (Ascii.eqb backslash backslash && Ascii.eqb dquote space) with false.
    rewrite rbs_skip by discriminate. rewrite IH by assumption. reflexivity.
  - rewrite rbs_skip by assumption. rewrite IH by assumption. reflexivity.
Qed.
Lemma body_cons c d u : quoted_body (String c (String d u)) =
  if Ascii.eqb c dquote then None else
  if Ascii.eqb c backslash && Ascii.eqb d dquote then option_map (String dquote) (quoted_body u)
  else option_map (String c) (quoted_body (String d u)).
Proof. reflexivity. Qed.
Lemma body_skip c t : c <> dquote -> c <> backslash -> t <> "" -> quoted_body (String c t) = option_map (String c) (quoted_body t).
Proof.
  intros A B C. destruct t as [|d u]; [congruence|]. rewrite body_cons. apply Ascii.eqb_neq in A, B. rewrite A, B. reflexivity.
Qed.
Lemma snoc_ne s c : (s ++ String c "")%string <> "".
Proof. destruct s; discriminate. Qed.
Lemma body_esc s : all_chars (isnt backslash) s = true -> quoted_body (esc s ++ dq)%string = Some s.
Proof.
  induction s as [|c t IH]; [reflexivity|]. cbn [all_chars]. rewrite andb_true_iff, isnt_spec. intros [A B].
  rewrite esc_cons. destruct (Ascii.eqb_spec c dquote) as [->|N]; cbn [String.append].
  - rewrite body_cons. change (Ascii.eqb backslash dquote) with false.
    change (Ascii.eqb backslash backslash && Ascii.eqb dquote dquote) with true. cbn iota. rewrite IH by assumption. reflexivity.
  - rewrite body_skip by (assumption || apply snoc_ne). rewrite IH by assumption. reflexivity.
Qed.
Lemma esc_id s : all_chars (isnt dquote) s = true -> esc s = s.
Proof. apply replace_char_id. Qed.

Lemma dquote_token s : dot_id (String dquote s) = quoted_body s.
Proof. reflexivity. Qed.

Lemma quote_needed s : needs_quotes s = true -> s <> "" -> quote_string s =
  (dq ++ replace_bs_space (bs (bs " ")) (replace_char carriage (bs "r") (replace_char newline (bs "n") (esc s))) ++ dq)%string.
Proof. intros Q N. unfold quote_string. rewrite Q. destruct s; [congruence|]. reflexivity. Qed.

(* Everything that is put between quotes and has no backslash or line end denotes itself *)
Lemma quoted_ok s : needs_quotes s = true -> s <> "" -> all_chars (isnt backslash) s = true ->
  all_chars (isnt newline) s = true -> all_chars (isnt carriage) s = true ->
  quote_string s = (dq ++ esc s ++ dq)%string /\ dot_id (quote_string s) = Some s.
Proof.
  intros Q Ne B N C. assert (E : quote_string s = (dq ++ esc s ++ dq)%string).
  { unfold quote_string. rewrite Q. destruct s as [|c t]; [congruence|]. set (s := String c t) in *. cbv zeta.
    change (replace_char dquote (bs dq) s) with (esc s).
    rewrite (@replace_char_id newline) by (apply replace_char_all; [reflexivity|assumption]).
    rewrite (@replace_char_id carriage) by (apply replace_char_all; [reflexivity|assumption]).
    rewrite rbs_esc by assumption. reflexivity. }
  split; [exact E|]. rewrite E. change (dq ++ esc s ++ dq)%string with (String dquote (esc s ++ dq)).
  rewrite dquote_token. apply body_esc. assumption.
Qed.

(** ** Regular expressions *)
Lemma chop_id s : all_chars (isnt newline) s = true -> chop s = s.
Proof.
  intros H. unfold chop. destruct (last_char s) as [c|] eqn:L; [|reflexivity]. apply (last_char_all H) in L.
  unfold isnt in L. apply negb_true_iff in L. rewrite L. reflexivity.
Qed.
Lemma dollar_id m s : all_chars (isnt newline) s = true -> dollar m s = m s.
Proof. intros H. unfold dollar. rewrite chop_id by assumption. apply orb_diag. Qed.

Lemma port_colon s : all_chars (isnt colon) s = true -> re_with_port s = None.
Proof.
  induction s as [|c t IH]; cbn [all_chars re_with_port]; [reflexivity|]. rewrite andb_true_iff. intros [A B].
  unfold isnt in A. apply negb_true_iff in A. rewrite A, IH by assumption. reflexivity.
Qed.
Lemma keyword_list s : In s DOT_KEYWORDS -> keyword s = true.
Proof. intros H. repeat (destruct H as [<-|H]; [reflexivity|]). destruct H. Qed.

Ltac oc := unfold ordinary_char, isnt; intros; repeat (match goal with H : _ && _ = true |- _ => apply andb_true_iff in H as [? ?] end); assumption || auto.
Lemma oc_backslash c : ordinary_char c = true -> isnt backslash c = true. Proof. oc. Qed.
Lemma oc_dquote c : ordinary_char c = true -> isnt dquote c = true. Proof. oc. Qed.
Lemma oc_comma c : ordinary_char c = true -> isnt comma c = true. Proof. oc. Qed.
Lemma oc_colon c : ordinary_char c = true -> isnt colon c = true. Proof. oc. Qed.
Lemma oc_lt c : ordinary_char c = true -> isnt (ch "<") c = true. Proof. oc. Qed.
Lemma oc_newline c : ordinary_char c = true -> isnt newline c = true.
Proof. intros H. apply isnt_spec. intros ->. discriminate. Qed.
Lemma oc_carriage c : ordinary_char c = true -> isnt carriage c = true.
Proof. intros H. apply isnt_spec. intros ->. discriminate. Qed.

Lemma id_char c : ordinary_char c = true ->
  (is_alpha c || is_digit c || Ascii.eqb c comma || Ascii.eqb c colon || Ascii.eqb c dquote) = true -> (id_start c || is_digit c) = true.
Proof.
  intros H. pose proof (oc_comma H) as A. pose proof (oc_colon H) as B. pose proof (oc_dquote H) as C. unfold isnt in *.
  apply negb_true_iff in A, B, C. rewrite A, B, C, !orb_false_r. unfold id_start. destruct (is_alpha c), (is_digit c), (127 <? _)%nat; auto.
Qed.

Lemma ordinary_ok s : ordinary s -> dot_id (quote_string s) = Some s.
Proof.
  intros (Ne & Ch & Kw). destruct (needs_quotes s) eqn:Q.
  { apply quoted_ok; try assumption; eapply all_chars_impl; try exact Ch; auto using oc_backslash, oc_newline, oc_carriage. }
  assert (E : quote_string s = s) by (unfold quote_string; rewrite Q; destruct s; reflexivity). rewrite E.
  assert (NL : all_chars (isnt newline) s = true) by (eapply all_chars_impl; [exact oc_newline|exact Ch]).
  unfold needs_quotes in Q. rewrite port_colon in Q by (eapply all_chars_impl; [exact oc_colon|exact Ch]).
  unfold needs_quotes_plain in Q. destruct (mem s DOT_KEYWORDS) eqn:K.
  { apply mem_In, keyword_list in K. congruence. }
  destruct (_ && negb (re_html s)); [discriminate|].
  destruct (re_alpha_nums s || re_num s || re_dbl_quoted s || re_html s || re_with_ports s) eqn:R; [|discriminate]. clear Q E.
  destruct s as [|c t]; [congruence|]. unfold dot_id.
  assert (Hc : ordinary_char c = true /\ all_chars ordinary_char t = true) by (cbn [all_chars] in Ch; apply andb_true_iff in Ch; exact Ch).
  destruct Hc as [Hc Ht].
  assert (Pl : is_alpha c = true -> all_chars (fun c => is_alpha c || is_digit c || Ascii.eqb c comma || Ascii.eqb c colon || Ascii.eqb c dquote) t = true ->
    plain_id (String c t) = true).
  { intros A B. unfold plain_id. rewrite Kw. unfold id_start at 1. rewrite A. cbn [orb andb negb]. rewrite andb_true_r.
    eapply all_chars_and; [|exact Ht|exact B]. exact id_char. }
  rewrite !orb_true_iff in R. unfold re_alpha_nums, re_num, re_dbl_quoted, re_html, re_with_ports, re_delimited in R.
  rewrite !dollar_id in R by assumption. destruct R as [[[[R|R]|R]|R]|R].
  - apply andb_true_iff in R as [A B]. rewrite Pl; [reflexivity|assumption|].
    eapply all_chars_impl; [|exact B]. intros d Hd. cbn beta in *. rewrite Hd. reflexivity.
  - assert (N : numeral (String c t) = true).
    { unfold numeral. eapply all_chars_and; [|exact Ch|exact R]. intros d Hd. cbn beta. apply oc_comma in Hd. unfold isnt in Hd.
      apply negb_true_iff in Hd. rewrite Hd, orb_false_r. auto. }
    rewrite N, orb_true_r. reflexivity.
  - apply andb_true_iff in R as [A _]. apply oc_dquote in Hc. unfold isnt in Hc. rewrite A in Hc. discriminate.
  - apply andb_true_iff in R as [A _]. apply oc_lt in Hc. unfold isnt in Hc. rewrite A in Hc. discriminate.
  - rewrite !andb_true_iff in R. destruct R as [[A B] _]. rewrite Pl by assumption. reflexivity.
Qed.

(** ** Where the guarantee stops *)
Lemma keyword_prefix c s : mem c (map (fun k => match k with String a _ => a | _ => zero end) DOT_KEYWORDS) = false -> mem (String c s) DOT_KEYWORDS = false.
Proof.
  intros H. destruct (mem (String c s) DOT_KEYWORDS) eqn:E; [|reflexivity]. exfalso. apply mem_In in E.
  assert (In c (map (fun k => match k with String a _ => a | _ => zero end) DOT_KEYWORDS)) as M.
  { apply in_map_iff. exists (String c s). auto. }
  apply mem_In in M. congruence.
Qed.
Lemma dollar_true m s : m s = true -> dollar m s = true.
Proof. unfold dollar. intros ->. reflexivity. Qed.

(* a string already between double quotes is left alone *)
Lemma already_quoted s : quote_string (dq ++ s ++ dq)%string = (dq ++ s ++ dq)%string.
Proof.
  change (dq ++ s ++ dq)%string with (String dquote (s ++ String dquote "")).
  assert (D : re_dbl_quoted (String dquote (s ++ String dquote "")) = true).
  { apply dollar_true. rewrite last_char_snoc. reflexivity. }
  assert (N : needs_quotes (String dquote (s ++ String dquote "")) = false).
  { unfold needs_quotes, needs_quotes_plain. rewrite (@keyword_prefix dquote) by reflexivity. rewrite D. cbn [negb]. rewrite !andb_false_r. cbn [andb].
    rewrite !orb_true_r. reflexivity. }
  unfold quote_string. rewrite N. reflexivity.
Qed.

Lemma last_char_kw s : In s DOT_KEYWORDS -> last_char s <> Some backslash.
Proof. intros H. repeat (destruct H as [<-|H]; [discriminate|]). destruct H. Qed.

Lemma body_open s : all_chars (isnt backslash) s = true -> all_chars (isnt dquote) s = true ->
  quoted_body ((s ++ bs "") ++ dq)%string = None.
Proof.
  induction s as [|c t IH]; [reflexivity|]. cbn [all_chars]. rewrite !andb_true_iff, !isnt_spec. intros [A B] [C D].
  cbn [String.append]. rewrite body_skip by (assumption || apply snoc_ne). rewrite IH by assumption. reflexivity.
Qed.
Lemma rbs_none b s : all_chars (isnt space) s = true -> replace_bs_space b s = s.
Proof.
  induction s as [|c t IH]; [reflexivity|]. cbn [all_chars]. rewrite andb_true_iff. intros [A B]. rewrite rbs_cons.
  destruct t as [|d u]; [reflexivity|]. rewrite (IH B). cbn [all_chars] in B. apply andb_true_iff in B as [B _]. unfold isnt in B.
  apply negb_true_iff in B. rewrite B, andb_false_r. reflexivity.
Qed.
Lemma rbs_snoc b s : all_chars (isnt backslash) s = true -> replace_bs_space b (s ++ bs "")%string = (s ++ bs "")%string.
Proof.
  induction s as [|c t IH]; [reflexivity|]. cbn [all_chars]. rewrite andb_true_iff, isnt_spec. intros [A B].
  cbn [String.append]. rewrite rbs_skip by assumption. rewrite IH by assumption. reflexivity.
Qed.

Lemma backslash_end s : all_chars ordinary_char s = true -> dot_id (quote_string (s ++ bs "")) = None.
Proof.
  intros Ch. set (u := (s ++ bs "")%string).
  assert (NL : all_chars (isnt newline) u = true).
  { unfold u. rewrite all_chars_app. rewrite (all_chars_impl oc_newline Ch). reflexivity. }
  assert (L : last_char u = Some backslash) by apply last_char_snoc.
  assert (F : forall p, p backslash = false -> all_chars p u = false).
  { intros p Hp. unfold u. rewrite all_chars_app. cbn [all_chars bs]. rewrite Hp. cbn [andb]. apply andb_false_r. }
  assert (F1 : forall p c t, u = String c t -> is_alpha c = true -> p backslash = false -> all_chars p t = false).
  { intros p c t E A Hp. destruct (all_chars p t) eqn:X; [|reflexivity]. rewrite E in L. cbn [last_char] in L.
    destruct t as [|d v]; [injection L as ->; discriminate|]. apply (last_char_all X) in L. congruence. }
  assert (L1 : forall a b c t, u = String c t -> Ascii.eqb c a = true -> a <> backslash -> b <> backslash ->
     match last_char t with Some l => Ascii.eqb l b | None => false end = false).
  { intros a b c t E A Ha Hb. rewrite E in L. cbn [last_char] in L. destruct t as [|d v]; [reflexivity|].
    rewrite L. apply Ascii.eqb_neq. congruence. }
  assert (Q : needs_quotes u = true).
  { unfold needs_quotes, needs_quotes_plain. destruct (mem u DOT_KEYWORDS) eqn:K; [apply mem_In, last_char_kw in K; congruence|].
    destruct (_ && negb (re_html u)); [reflexivity|].
    assert (R : re_alpha_nums u || re_num u || re_dbl_quoted u || re_html u || re_with_ports u = false).
    { unfold re_alpha_nums, re_num, re_dbl_quoted, re_html, re_with_ports, re_delimited. rewrite !dollar_id by assumption.
      destruct u as [|c t] eqn:E; [reflexivity|]. rewrite !orb_false_iff. repeat split.
      - destruct (is_alpha c) eqn:A; [|reflexivity]. apply (F1 _ c t eq_refl A). reflexivity.
      - apply F. reflexivity.
      - destruct (Ascii.eqb c dquote) eqn:A; [|reflexivity]. apply (L1 _ _ c t eq_refl A); discriminate.
      - destruct (Ascii.eqb c (ch "<")) eqn:A; [|reflexivity]. apply (L1 _ _ c t eq_refl A); discriminate.
      - destruct (is_alpha c) eqn:A; [|reflexivity]. rewrite (F1 _ c t eq_refl A) by reflexivity. reflexivity. }
    rewrite R. rewrite port_colon; [reflexivity|]. unfold u. rewrite all_chars_app, (all_chars_impl oc_colon Ch). reflexivity. }
  assert (E : quote_string u = (dq ++ u ++ dq)%string).
  { rewrite quote_needed by (assumption || apply snoc_ne). unfold esc.
    rewrite (@replace_char_id dquote) by (unfold u; rewrite all_chars_app, (all_chars_impl oc_dquote Ch); reflexivity).
    rewrite (@replace_char_id newline) by assumption.
    rewrite (@replace_char_id carriage) by (unfold u; rewrite all_chars_app, (all_chars_impl oc_carriage Ch); reflexivity).
    unfold u. rewrite rbs_snoc by exact (all_chars_impl oc_backslash Ch). reflexivity. }
  rewrite E. change (dq ++ u ++ dq)%string with (String dquote (u ++ dq)). rewrite dquote_token.
  apply body_open; [exact (all_chars_impl oc_backslash Ch)|exact (all_chars_impl oc_dquote Ch)].
Qed.

(** ** Strings with a character that ends a token *)
Definition tok (c : ascii) : bool := is_alpha c || is_digit c || Ascii.eqb c comma || Ascii.eqb c colon.
Lemma breaks_tok c : breaks_token c = true -> tok c = false.
Proof. destruct c as [[] [] [] [] [] [] [] []]; vm_compute; congruence. Qed.
Lemma all_In p s c : all_chars p s = true -> In c (list_ascii_of_string s) -> p c = true.
Proof.
  induction s as [|d t IH]; [intros _ []|]. cbn [all_chars list_ascii_of_string]. intros H. apply andb_true_iff in H as [H1 H2]. intros [<-|H]; auto.
Qed.
Lemma in_app_s a b c : In c (list_ascii_of_string (a ++ b)%string) -> In c (list_ascii_of_string a) \/ In c (list_ascii_of_string b).
Proof. induction a as [|d t IH]; [auto|]. cbn. intros [<-|H]; [auto|]. destruct (IH H); auto. Qed.
Lemma port_split s a b : re_with_port s = Some (a, b) -> s = (a ++ String colon b)%string.
Proof.
  revert a b. induction s as [|c t IH]; intros a b; [discriminate|]. cbn [re_with_port]. destruct (Ascii.eqb_spec c colon) as [->|Hc].
  - destruct (all_chars _ t); [|discriminate]. intros [= <- <-]. reflexivity.
  - destruct (re_with_port t) as [[a' b']|]; [|discriminate]. intros [= <- <-]. rewrite (IH a' b' eq_refl). reflexivity.
Qed.
Lemma clean_is c : clean_char c = true -> isnt backslash c = true /\ isnt dquote c = true /\ isnt newline c = true /\ isnt carriage c = true /\ isnt (ch "<") c = true.
Proof. unfold clean_char, isnt. rewrite !andb_true_iff. tauto. Qed.
Lemma plain_breaks s c : all_chars clean_char s = true -> In c (list_ascii_of_string s) -> breaks_token c = true -> needs_quotes_plain s <> Some false.
Proof.
  intros Ch Hc Hb. pose proof (breaks_tok Hb) as Ht. unfold needs_quotes_plain.
  assert (NL : all_chars (isnt newline) s = true) by (eapply all_chars_impl; [|exact Ch]; intros d Hd; apply (clean_is Hd)).
  destruct (mem s DOT_KEYWORDS) eqn:K.
  { apply mem_In in K. exfalso. assert (X : all_chars tok s = true) by (repeat (destruct K as [<-|K]; [vm_compute; reflexivity|]); destruct K).
    pose proof (all_In X Hc). congruence. }
  destruct (_ && negb (re_html s)); [discriminate|].
  assert (Hd : isnt dquote c = true) by (apply (clean_is (all_In Ch Hc))).
  destruct (re_alpha_nums s || re_num s || re_dbl_quoted s || re_html s || re_with_ports s) eqn:R; [|discriminate]. exfalso.
  destruct s as [|c0 t]; [destruct Hc|].
  rewrite !orb_true_iff in R. unfold re_alpha_nums, re_num, re_dbl_quoted, re_html, re_with_ports, re_delimited in R.
  rewrite !dollar_id in R by assumption.
  assert (H0 : clean_char c0 = true) by (cbn [all_chars] in Ch; apply andb_true_iff in Ch; apply Ch).
  assert (Hno : forall p, (forall d, p d = true -> tok d = true \/ isnt dquote d = false) -> all_chars p (String c0 t) = true -> False).
  { intros p Hp H. destruct (Hp c (all_In H Hc)); congruence. }
  destruct R as [[[[R|R]|R]|R]|R].
  - apply andb_true_iff in R as [A B].
    apply (Hno (fun d => is_alpha d || is_digit d || Ascii.eqb d comma)); [intros d Hd'; left; unfold tok; rewrite Hd'; reflexivity|].
    cbn [all_chars]. rewrite A, B. reflexivity.
  - apply (Hno (fun d => is_digit d || Ascii.eqb d comma)); [|exact R]. intros d Hd'. left. unfold tok. destruct (is_alpha d); [reflexivity|]. cbn [orb]. rewrite Hd'. reflexivity.
  - apply andb_true_iff in R as [A _]. apply Ascii.eqb_eq in A. subst c0. discriminate H0.
  - apply andb_true_iff in R as [A _]. apply Ascii.eqb_eq in A. subst c0. discriminate H0.
  - apply andb_true_iff in R as [R _]. apply andb_true_iff in R as [A B].
    apply (Hno (fun d => is_alpha d || is_digit d || Ascii.eqb d comma || Ascii.eqb d colon || Ascii.eqb d dquote)).
    + intros d Hd'. apply orb_true_iff in Hd' as [Hd'|Hd']; [left; exact Hd'|right; unfold isnt; rewrite Hd'; reflexivity].
    + cbn [all_chars]. rewrite A, B. reflexivity.
Qed.
Lemma breaks_ok s c : all_chars clean_char s = true -> In c (list_ascii_of_string s) -> breaks_token c = true -> quote_string s = (dq ++ s ++ dq)%string /\ dot_id (quote_string s) = Some s.
Proof.
  intros Ch Hc Hb.
  assert (Q : needs_quotes s = true).
  { unfold needs_quotes. pose proof (plain_breaks Ch Hc Hb) as Hp. destruct (needs_quotes_plain s) as [[]|]; [reflexivity|congruence|].
    destruct (re_with_port s) as [[a b]|] eqn:Ep; [|reflexivity]. apply port_split in Ep. subst s.
    rewrite all_chars_app in Ch. apply andb_true_iff in Ch as [Ca Cb]. cbn [all_chars] in Cb. apply andb_true_iff in Cb as [_ Cb].
    assert (G : forall u, all_chars clean_char u = true -> In c (list_ascii_of_string u) -> needs_quotes_group u = true).
    { intros u Hu Hi. unfold needs_quotes_group. pose proof (plain_breaks Hu Hi Hb). destruct (needs_quotes_plain u) as [[]|]; [reflexivity|congruence|reflexivity]. }
    apply in_app_s in Hc as [Hc|[<-|Hc]]; [rewrite (G a Ca Hc); reflexivity|vm_compute in Hb; discriminate|rewrite (G b Cb Hc), orb_true_r; reflexivity]. }
  assert (Hx : forall p : ascii -> bool, (forall d, clean_char d = true -> p d = true) -> all_chars p s = true) by (intros p Hp; exact (all_chars_impl Hp Ch)).
  destruct (@quoted_ok s Q) as [E1 E2]; [intros ->; destruct Hc|apply Hx; intros d Hd; apply (clean_is Hd)..|].
  split; [|exact E2]. rewrite E1, esc_id; [reflexivity|]. apply Hx. intros d Hd. apply (clean_is Hd).
Qed.

(** ** Numbers with colons *)
Lemma digits_plain s : all_chars is_digit s = true -> s <> "" -> needs_quotes_group s = false.
Proof.
  intros H N. unfold needs_quotes_group, needs_quotes_plain. destruct (mem s DOT_KEYWORDS); [reflexivity|].
  assert (A : some_char (fun c => (127 <? nat_of_ascii c)%nat || (nat_of_ascii c =? 0)%nat) s = false).
  { unfold some_char. apply negb_false_iff. revert H. apply all_chars_impl. intros c. destruct c as [[] [] [] [] [] [] [] []]; vm_compute; congruence. }
  rewrite A. cbn [andb].
  assert (B : re_num s = true).
  { unfold re_num, dollar. destruct s as [|c t]; [congruence|]. apply orb_true_iff. left. revert H. apply all_chars_impl. intros d ->. reflexivity. }
  rewrite B, orb_true_r. reflexivity.
Qed.
Lemma digits_colon a b : all_chars is_digit a = true -> a <> "" -> all_chars (fun c => is_digit c || Ascii.eqb c colon) b = true ->
  needs_quotes_plain (a ++ String colon b)%string = None.
Proof.
  intros Ha N Hb. destruct a as [|d u]; [congruence|]. set (s := (String d u ++ String colon b)%string).
  assert (Hs : all_chars (fun c => is_digit c || Ascii.eqb c colon) s = true).
  { unfold s. rewrite all_chars_app. cbn [all_chars]. rewrite Hb, Ascii.eqb_refl, orb_true_r. cbn [andb]. rewrite andb_true_r.
    change (all_chars (fun c => is_digit c || Ascii.eqb c colon) (String d u) = true). revert Ha. apply all_chars_impl. intros c ->. reflexivity. }
  assert (Hd : is_digit d = true) by (cbn [all_chars] in Ha; apply andb_true_iff in Ha; apply Ha).
  unfold needs_quotes_plain. destruct (mem s DOT_KEYWORDS) eqn:K.
  { apply mem_In in K. exfalso. unfold s in K. repeat (destruct K as [K|K]; [injection K as <- _; discriminate Hd|]). destruct K. }
  assert (A : some_char (fun c => (127 <? nat_of_ascii c)%nat || (nat_of_ascii c =? 0)%nat) s = false).
  { unfold some_char. apply negb_false_iff. revert Hs. apply all_chars_impl. intros c. destruct c as [[] [] [] [] [] [] [] []]; vm_compute; congruence. }
  rewrite A. cbn [andb].
  assert (NL : all_chars (isnt newline) s = true).
  { revert Hs. apply all_chars_impl. intros c. destruct c as [[] [] [] [] [] [] [] []]; vm_compute; congruence. }
  assert (Al : is_alpha d = false /\ Ascii.eqb d dquote = false /\ Ascii.eqb d (ch "<") = false).
  { clear - Hd. destruct d as [[] [] [] [] [] [] [] []]; vm_compute in Hd |- *; try discriminate; auto. }
  destruct Al as (A1 & A2 & A3).
  unfold re_alpha_nums, re_num, re_dbl_quoted, re_html, re_with_ports, re_delimited. rewrite !dollar_id by assumption.
  assert (B : all_chars (fun c => is_digit c || Ascii.eqb c comma) s = false).
  { unfold s. rewrite all_chars_app. cbn [all_chars]. apply andb_false_r. }
  unfold s in *. cbn [String.append] in *. rewrite A1, A2, A3, B. reflexivity.
Qed.
Lemma port_join a b : all_chars (isnt colon) a = true -> re_with_port (a ++ String colon b)%string = if all_chars (isnt colon) b then Some (a, b) else None.
Proof.
  intros H. induction a as [|c t IH]; cbn [String.append re_with_port]; [rewrite Ascii.eqb_refl; reflexivity|].
  cbn [all_chars] in H. apply andb_true_iff in H as [H1 H2]. unfold isnt in H1. apply negb_true_iff in H1. rewrite H1, (IH H2). destruct (all_chars _ b); reflexivity.
Qed.
Lemma digit_isnt_colon s : all_chars is_digit s = true -> all_chars (isnt colon) s = true.
Proof. apply all_chars_impl. intros c. destruct c as [[] [] [] [] [] [] [] []]; vm_compute; congruence. Qed.
Lemma port_number a b : all_chars is_digit a = true -> a <> "" -> all_chars is_digit b = true -> b <> "" ->
  quote_string (a ++ String colon b)%string = (a ++ String colon b)%string /\ dot_id (a ++ String colon b)%string = None.
Proof.
  intros Ha Na Hb Nb. split.
  - assert (Q : needs_quotes (a ++ String colon b)%string = false).
    { unfold needs_quotes. rewrite digits_colon by (assumption || (revert Hb; apply all_chars_impl; intros c ->; reflexivity)).
      rewrite port_join, (digit_isnt_colon Hb), !digits_plain by (assumption || exact (digit_isnt_colon Ha)). reflexivity. }
    unfold quote_string. rewrite Q. destruct a; reflexivity.
  - destruct a as [|d u]; [congruence|]. unfold dot_id.
    assert (Hd : is_digit d = true) by (cbn [all_chars] in Ha; apply andb_true_iff in Ha; apply Ha).
    assert (A : id_start d = false /\ Ascii.eqb d dquote = false).
    { clear - Hd. destruct d as [[] [] [] [] [] [] [] []]; vm_compute in Hd |- *; try discriminate; auto. }
    destruct A as [A1 A2]. unfold plain_id, numeral. cbn [String.append]. rewrite A1, A2. cbn [andb orb].
    change (String d (u ++ String colon b)%string) with (String d u ++ String colon b)%string. rewrite all_chars_app. cbn [all_chars].
    change (is_digit colon) with false. cbn [andb]. rewrite !andb_false_r. reflexivity.
Qed.
Lemma port_numbers a b c : all_chars is_digit a = true -> a <> "" -> all_chars is_digit b = true -> all_chars is_digit c = true ->
  let s := (a ++ String colon (b ++ String colon c))%string in quote_string s = (dq ++ s ++ dq)%string /\ dot_id (quote_string s) = Some s.
Proof.
  intros Ha Na Hb Hc s.
  assert (Hs : all_chars (fun c => is_digit c || Ascii.eqb c colon) (b ++ String colon c)%string = true).
  { rewrite all_chars_app. cbn [all_chars]. rewrite Ascii.eqb_refl, orb_true_r.
    rewrite (@all_chars_impl is_digit (fun c => is_digit c || Ascii.eqb c colon) b), (@all_chars_impl is_digit (fun c => is_digit c || Ascii.eqb c colon) c) by (assumption || (intros x ->; reflexivity)). reflexivity. }
  assert (Q : needs_quotes s = true).
  { unfold needs_quotes, s. rewrite digits_colon by assumption. rewrite port_join by exact (digit_isnt_colon Ha).
    rewrite all_chars_app. cbn [all_chars]. change (isnt colon colon) with false. cbn [andb]. rewrite andb_false_r. reflexivity. }
  assert (Hx : forall p : ascii -> bool, (forall d, is_digit d || Ascii.eqb d colon = true -> p d = true) -> all_chars p s = true).
  { intros p Hp. apply (all_chars_impl Hp). unfold s. rewrite all_chars_app. cbn [all_chars]. rewrite Hs, Ascii.eqb_refl, orb_true_r.
    rewrite (@all_chars_impl is_digit (fun c => is_digit c || Ascii.eqb c colon) a) by (assumption || (intros x ->; reflexivity)). reflexivity. }
  assert (Ns : s <> "") by (unfold s; destruct a; [congruence|discriminate]).
  destruct (@quoted_ok s Q) as [E1 E2]; [exact Ns|apply Hx; intros d; clear; destruct d as [[] [] [] [] [] [] [] []]; vm_compute; congruence..|].
  split; [|exact E2]. rewrite E1, esc_id; [reflexivity|]. apply Hx. intros d. clear. destruct d as [[] [] [] [] [] [] [] []]; vm_compute; congruence.
Qed.
