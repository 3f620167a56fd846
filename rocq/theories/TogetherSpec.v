(** What C104 means: what stands right behind a deletion, and edits that can be applied together. *)
From Coq Require Import Permutation.
From Verif Require Import Base Unicode PositionModel TranslateModel SyntaxModel EditModel EditSpec ChainSpec.

(** Every deletion deletes something, up to the end of a token. *)
Definition deletions_end_on_tokens (e : elem) (es : list text_edit) : Prop :=
  forall d, In d es -> te_text d = [] -> fst (te_range d) < snd (te_range d) /\ ends_on_token e (te_range d).
(** No edit starts in, or right in front of, white space that stands right behind a deletion. *)
Definition clear_behind_deletions (e : elem) (es : list text_edit) : Prop :=
  forall d x pre ws post, In d es -> In x es -> te_text d = [] ->
    leaves e = pre ++ (WHITESPACE, ws) :: post -> bytes (flat_map snd pre) = snd (te_range d) ->
    snd (te_range d) <= fst (te_range x) -> snd (te_range d) + bytes ws <= fst (te_range x).
(** Each edit belongs to one of the five parts of a migration. *)
Definition of_parts (parts : list (list text_edit)) (e : text_edit) : Prop := exists p, In p parts /\ In e p.
