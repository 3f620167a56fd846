(** Character classification of the Rust standard library and the [regex] crate, as a parameter of the
    model (the Unicode tables are not modelled), with the few facts about them that theorems may assume. *)
From Verif Require Import Base.

(** ASCII classes. *)
Definition ascii_digit (c : char) : bool := (48 <=? c)%N && (c <=? 57)%N.
Definition ascii_upper (c : char) : bool := (65 <=? c)%N && (c <=? 90)%N.
Definition ascii_lower (c : char) : bool := (97 <=? c)%N && (c <=? 122)%N.
Definition ascii_alpha (c : char) : bool := ascii_upper c || ascii_lower c.
Definition ascii_alnum (c : char) : bool := ascii_alpha c || ascii_digit c.
Definition ascii_white (c : char) : bool := ((9 <=? c)%N && (c <=? 13)%N) || N.eqb c 32.
Definition ascii_word (c : char) : bool := ascii_alnum c || N.eqb c 95.
(** [char::to_ascii_lowercase], [char::to_ascii_uppercase] *)
Definition to_ascii_lower (c : char) : char := if ascii_upper c then (c + 32)%N else c.
Definition to_ascii_upper (c : char) : char := if ascii_lower c then (c - 32)%N else c.

(** [char::is_alphabetic], [is_alphanumeric], [is_uppercase], [is_whitespace] (also the regex class [\s]), the
    regex class [\w], and [char::to_lowercase]. *)
Record unicode := Unicode {
  u_alphabetic : char -> bool;
  u_alphanumeric : char -> bool;
  u_uppercase : char -> bool;
  u_whitespace : char -> bool;
  u_word : char -> bool;
  u_lower : char -> str }.

(** What is assumed of the tables: their ASCII rows, that upper-case characters are alphanumeric, and that
    alphabetic characters are alphanumeric; lower-casing an alphanumeric character yields at least one character
    and no hyphen, and starts with an alphabetic one if the character is alphabetic. *)
Record unicode_ok (U : unicode) : Prop := UnicodeOk {
  uo_alphabetic : forall c, (c < 128)%N -> u_alphabetic U c = ascii_alpha c;
  uo_alphanumeric : forall c, (c < 128)%N -> u_alphanumeric U c = ascii_alnum c;
  uo_uppercase : forall c, (c < 128)%N -> u_uppercase U c = ascii_upper c;
  uo_whitespace : forall c, (c < 128)%N -> u_whitespace U c = ascii_white c;
  uo_word : forall c, (c < 128)%N -> u_word U c = ascii_word c;
  uo_lower : forall c, (c < 128)%N -> u_lower U c = [to_ascii_lower c];
  uo_upper_alnum : forall c, u_uppercase U c = true -> u_alphanumeric U c = true;
  uo_alpha_alnum : forall c, u_alphabetic U c = true -> u_alphanumeric U c = true;
  uo_lower_hyphen : forall c, u_alphanumeric U c = true -> ~ In 45%N (u_lower U c);
  uo_lower_nonempty : forall c, u_alphanumeric U c = true -> u_lower U c <> [];
  uo_lower_alpha : forall c, u_alphabetic U c = true ->
    exists d r, u_lower U c = d :: r /\ u_alphabetic U d = true }.

(** An instance (pure ASCII tables), used in examples. *)
Definition ascii_unicode : unicode :=
  Unicode ascii_alpha ascii_alnum ascii_upper ascii_white ascii_word (fun c => [to_ascii_lower c]).

Lemma lower_not_hyphen c : ascii_alnum c = true -> to_ascii_lower c <> 45%N.
Proof.
  unfold to_ascii_lower, ascii_alnum, ascii_alpha. destruct (ascii_upper c) eqn:E.
  - unfold ascii_upper in E. apply andb_true_iff in E as [E1 E2]. rewrite N.leb_le in E1. intros _. lia.
  - unfold ascii_lower, ascii_digit. cbn [orb]. rewrite orb_true_iff, !andb_true_iff, !N.leb_le. lia.
Qed.
Lemma lower_alpha c : ascii_alpha c = true -> ascii_alpha (to_ascii_lower c) = true.
Proof.
  unfold to_ascii_lower. destruct (ascii_upper c) eqn:E; [|auto]. intros _.
  unfold ascii_upper in E. apply andb_true_iff in E as [E1 E2]. rewrite N.leb_le in E1, E2.
  unfold ascii_alpha, ascii_lower. rewrite orb_true_iff, !andb_true_iff, !N.leb_le. right; lia.
Qed.
Lemma ascii_unicode_ok : unicode_ok ascii_unicode.
Proof.
  split; intros c; simpl; try reflexivity.
  - unfold ascii_alnum, ascii_alpha. intros ->. reflexivity.
  - unfold ascii_alnum. intros ->. reflexivity.
  - intros H [E|[]]. apply (lower_not_hyphen c H). exact E.
  - discriminate.
  - intros H. exists (to_ascii_lower c), []. split; [reflexivity | apply lower_alpha; exact H].
Qed.
