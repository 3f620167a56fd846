(** What the claims about the removal of several arguments mean. *)
From Verif Require Import Base PositionModel TranslateModel SyntaxModel AttrModel AttrSpec.

(** The elements of a list that are not chosen *)
Fixpoint unchosen {A} (l : list A) (chosen : list bool) : list A :=
  match l, chosen with
  | x :: l', c :: chosen' => if c then unchosen l' chosen' else x :: unchosen l' chosen'
  | _, _ => []
  end.
(** White space or a comment behind the last argument *)
Definition padded (body : list elem) : Prop := exists b l, body = b ++ [l] /\ is_trivia (kind_of l) = true.

(** ink! 5 has no [additional_contracts] and [keep_attr] for e2e tests. *)
Definition dropped (a : ink_arg) : bool := match ia_kind a with AAdditionalContracts | AKeepAttr => true | _ => false end.
Definition gives (k : arg_kind) (a : ink_attr) : Prop := exists x, In x (at_args a) /\ ia_kind x = k.
(** Neither is given twice. *)
Definition once_each (a : ink_attr) : Prop := NoDup (map ia_kind (filter dropped (at_args a))).
