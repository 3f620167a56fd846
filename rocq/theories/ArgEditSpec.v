(** What C40-C42 mean: lists of arguments as written, and texts after edits. *)
From Verif Require Import Base PositionModel TranslateModel SyntaxModel AttrModel AttrSpec EditSpec.

Definition comma : elem := Tok COMMA (lit ",").
(** White space and comments. *)
Definition blank (l : list elem) : Prop :=
  Forall (fun e => exists k t, e = Tok k t /\ is_trivia k = true /\ t <> []) l.
(** An argument: tokens and token trees without a comma of its own, from its first to its last token that is not
    white space or a comment. *)
Definition argument (c : list elem) : Prop :=
  Forall (fun e => balanced e /\ kind_of e <> COMMA) c
  /\ (exists f r, c = f :: r /\ is_trivia (kind_of f) = false)
  /\ (exists r l, c = r ++ [l] /\ is_trivia (kind_of l) = false).
(** [listed args trailing body]: [body] is the list of the arguments [args] as written between parentheses:
    separated by single commas, with a comma after the last one iff [trailing]. *)
Inductive listed : list (list elem) -> bool -> list elem -> Prop :=
  | listed_none t : blank t -> listed [] false t
  | listed_last c t1 t2 : argument c -> blank t1 -> blank t2 -> listed [c] false (t1 ++ c ++ t2)
  | listed_trailing c t1 t2 t3 : argument c -> blank t1 -> blank t2 -> blank t3 ->
      listed [c] true (t1 ++ c ++ t2 ++ comma :: t3)
  | listed_more c t1 t2 d cs b body : argument c -> blank t1 -> blank t2 -> listed (d :: cs) b body ->
      listed (c :: d :: cs) b (t1 ++ c ++ t2 ++ comma :: body).

(** [name] or [name = ...] *)
Definition plain_argument (c : list elem) : Prop :=
  exists k n rest, c = Tok k n :: rest /\ (k = IDENT \/ k = IMPL_KW)
    /\ (rest = [] \/ exists t e v, rest = t ++ Tok EQ e :: v /\ blank t).

Definition without {A} (i : nat) (l : list A) : list A := firstn i l ++ skipn (S i) l.

(** A file in which the token tree of an attribute stands between [pre] and [post]. *)
Definition text (l : list (skind * str)) : str := flat_map snd l.
Definition paren_tree (body : list elem) : elem := Node TOKEN_TREE (Tok L_PAREN (lit "(") :: body ++ [Tok R_PAREN (lit ")")]).
Definition file_tokens (pre : list (skind * str)) (body : list elem) (post : list (skind * str)) : list (skind * str) :=
  pre ++ leaves (paren_tree body) ++ post.
Definition file_text (pre : list (skind * str)) (body : list elem) (post : list (skind * str)) : str :=
  text (file_tokens pre body post).
(** The tree with its offset in that file. *)
Definition tree_at (pre : list (skind * str)) (body : list elem) : lelem := (bytes (text pre), paren_tree body).

(** Edits that can be applied together: each ends before the next starts. *)
Definition apart (a b : text_edit) : Prop :=
  snd (te_range a) <= fst (te_range b) \/ snd (te_range b) <= fst (te_range a).
