(** What C46 means: one attribute with the same arguments. *)
From Verif Require Import Base PositionModel TranslateModel SyntaxModel AttrModel AttrSpec ArgEditSpec.

(** The text of a value that is an expression. *)
Definition vexpr_text (e : vexpr) : str := match e with VELiteral _ t => t | VEPath t => t end.

(** Tokens a value can be written with: not a lone [_] or [@], no comma or closing parenthesis of its own. *)
Definition value_tokens (v : list elem) : Prop :=
  v <> [] /\ (forall e, In e v -> kind_of e <> COMMA /\ plain_element e)
  /\ (forall k t, filter (fun e => negb (is_trivia (kind_of e))) v = [Tok k t] -> k <> UNDERSCORE /\ k <> AT).
(** The expression parser: it ignores blanks in front, and an expression printed is parsed back. *)
Definition prints_back (px : expr_parser) : Prop :=
  (forall s, px (lit " " ++ s) = px s)
  /\ (forall s e, px s = Some e ->
        px (vexpr_text e) = Some e /\ exists v, value_tokens v /\ texts_of v = vexpr_text e).

(** Two arguments that say the same: same name, same nested argument, and the same value (kind and text). An
    unreadable value keeps its tokens. *)
Inductive same_value : moption mvalue -> moption mvalue -> Prop :=
  | sv_none : same_value MNone MNone
  | sv_ok x y : value_skind x = value_skind y -> value_text x = value_text y -> same_value (MOk x) (MOk y)
  | sv_err l l' : map snd l' = Tok WHITESPACE (lit " ") :: map snd l -> same_value (MErr l) (MErr l').
Inductive same_arg : meta -> meta -> Prop :=
  | same_arg_intro m m' n n' :
      m_name m = MOk n -> m_name m' = MOk n' -> text_of (snd n) = text_of (snd n') ->
      (m_eq m = None <-> m_eq m' = None) ->
      same_value (m_value m) (m_value m') ->
      same_nested (m_nested m) (m_nested m') ->
      same_arg m m'
with same_nested : option meta -> option meta -> Prop :=
  | sn_none : same_nested None None
  | sn_some m m' : same_arg m m' -> same_nested (Some m) (Some m').

(** In order of precedence: those of an entity, then the other known ones, then the unknown ones, each group in
    the given order. *)
Definition is_entity (k : arg_kind) : bool := existsb (arg_kind_eqb k) entity_args.
Definition is_unknown (k : arg_kind) : bool := arg_kind_eqb k AUnknown.
Definition by_precedence {A} (kind : A -> arg_kind) (l : list A) : list A :=
  filter (fun x => is_entity (kind x)) l
  ++ filter (fun x => negb (is_entity (kind x)) && negb (is_unknown (kind x))) l
  ++ filter (fun x => is_unknown (kind x)) l.

(** The kind of an attribute such as [#[ink(message)]], and the attributes of that form. *)
Definition arg_of (a : ink_attr) : option arg_kind := match at_kind a with AkArg k => Some k | AkMacro _ => None end.
Definition arg_attrs (l : list ink_attr) : list ink_attr := filter (fun a => is_some (arg_of a)) l.
Definition arg_or_unknown (a : ink_attr) : arg_kind := match arg_of a with Some k => k | None => AUnknown end.

(** An ink! attribute as written in a file. *)
Definition written (px : expr_parser) (a : ink_attr) : Prop :=
  attr_cast px (at_syntax a) = Some a
  /\ (as_token_tree (at_syntax a) = None
      \/ exists o ws body, as_token_tree (at_syntax a) = Some (o, paren_tree body) /\ writes_args ws body).

(** A path as written. *)
Fixpoint path_text (l : list str) : str :=
  match l with [] => [] | [s] => s | s :: l' => s ++ lit "::" ++ path_text l' end.

(** [new] is the text of one attribute of the kind of [p] that carries the arguments [args]. *)
Definition says (px : expr_parser) (new : str) (k : attr_kind) (args : list ink_arg) : Prop :=
  exists segs tt, new = lit "#[" ++ path_text segs ++ text_of tt ++ lit "]"
    /\ forall o r, exists a, attr_cast px (AttrSyntax segs (Some (o, tt)) r) = Some a
         /\ at_kind a = k /\ Forall2 same_arg args (at_args a).
