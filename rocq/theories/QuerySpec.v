(** What it means that a question about a position of a file is answered at all. *)
From Coq Require Import List.
From Verif Require Import Base PositionModel TranslateModel SyntaxModel AttrModel AttrSpec ArgEditModel RuleModel RuleSpec EntityModel EntitySpec ArgCheckModel ArgCheckSpec HintModel HintSpec.
Import ListNotations.

(** The position [off] is not inside a character of the file. *)
Definition between_characters (root : elem) (off : nat) : Prop :=
  exists before behind, text_of root = before ++ behind /\ off = bytes before.
(** The range [r] is part of the file. *)
Definition range_in (root : elem) (r : nat * nat) : Prop := fst r <= snd r <= len_of root.

(** Documentation and attributes of an item stand in front of the rest of it. *)
Definition declared : list skind := [MODULE; TRAIT; IMPL; FN; ENUM; STRUCT; UNION; TYPE_ALIAS].
Definition notes_in_front (root : elem) : Prop :=
  forall o K cs, HintSpec.in_file root (o, Node K cs) -> In K declared -> exists front core, cs = front ++ core /\ front_only front
    /\ begins_solid core /\ no_docs core /\ (forall x, ~ In (Node ATTR x) core).

(** The arguments of the attributes of the file that are read as ink! attributes have ranges, as they have when they are written name
    first (C61). *)
Definition arguments_ranged (px : expr_parser) (pr : path_reader) (root : elem) : Prop :=
  forall a ia x, HintSpec.in_file root a -> lkind a = ATTR -> attr_cast px (read_attr pr a) = Some ia -> In x (at_args ia) ->
  exists r, meta_range x = Done r.

(** Every attribute of the file is closed with a bracket. *)
Definition attributes_closed (root : elem) : Prop :=
  forall a, HintSpec.in_file root a -> lkind a = ATTR -> exists x, child_token R_BRACK a = Some x.
(** So do nested arguments, and all of them stand in their attribute and contain their name. *)
Definition arguments_placed (px : expr_parser) (pr : path_reader) (root : elem) : Prop :=
  forall a ia top x, HintSpec.in_file root a -> lkind a = ATTR -> attr_cast px (read_attr pr a) = Some ia -> In top (at_args ia) -> within top x ->
  exists r, meta_range x = Done r /\ lstart a <= snd r <= lend a /\ (forall n, m_name x = MOk n -> lend n <= snd r).

(** The arguments of the file's ink! attributes are written name first. *)
Definition arguments_written (px : expr_parser) (pr : path_reader) (root : elem) : Prop :=
  forall a ia o mcs cs, HintSpec.in_file root a -> lkind a = ATTR -> attr_cast px (read_attr pr a) = Some ia ->
  element_of a (o, Node META mcs) -> In (Node TOKEN_TREE cs) mcs ->
  exists ws body, writes_args ws body /\ cs = Tok L_PAREN (lit "(") :: body ++ [Tok R_PAREN (lit ")")].
