(** What C101 means: taking an item out of a list of elements, putting it into another one, and the text that is written for it. *)
From Coq Require Import List Permutation.
From Verif Require Import Base Unicode PositionModel TranslateModel SyntaxModel EditSpec UtilSpec RuleModel RuleSpec EntityModel EntitySpec ExtractSpec.
Import ListNotations.

(** Edits performed at once: they do not overlap. *)
Inductive performs : nat -> str -> list text_edit -> str -> Prop :=
  | pf_nil o s : performs o s [] s
  | pf_cons o a b c e es c' : fst (te_range e) = o + bytes a -> snd (te_range e) = o + bytes (a ++ b) -> performs (snd (te_range e)) c es c' ->
      performs o (a ++ b ++ c) (e :: es) (a ++ te_text e ++ c').
Definition performed (file : str) (edits : list text_edit) (result : str) : Prop :=
  exists sorted, Permutation edits sorted /\ performs 0 file sorted result.

(** [l'] is [l] without [x]; [l] begins at [o]. *)
Inductive cut (o : nat) (x : lelem) : list elem -> list elem -> Prop :=
  | cut_here a b : fst x = o + bytes (texts_of a) -> cut o x (a ++ snd x :: b) (a ++ b)
  | cut_in a k cs cs' b : cut (o + bytes (texts_of a)) x cs cs' -> cut o x (a ++ Node k cs :: b) (a ++ Node k cs' :: b).
(** [x] is taken out of one of two lists; the first begins at [o]. *)
Definition taken (o : nat) (x : lelem) (a b a' b' : list elem) : Prop :=
  (cut o x a a' /\ b' = b) \/ (a' = a /\ cut (o + bytes (texts_of a)) x b b').

(** The place for an item of the scope in the module of a contract *)
Definition scope_place (scope : str) (a b : list elem) : Prop :=
  (scope = lit "storage" /\ at_start a b) \/ (scope = lit "event" /\ after_structs a b) \/ (scope = lit "impl" /\ for_impl a b)
  \/ (scope <> lit "storage" /\ scope <> lit "event" /\ scope <> lit "impl" /\ at_end a b).

(** The text of an item that had the indentation [own], with the indentation [target]: the visible characters are the same; line by
    line, if the item does not end in a blank line. *)
Definition reindented (U : unicode) (own target old new : str) : Prop :=
  visible U new = visible U old
  /\ forall ls, tidy old ls -> ~ In c_cr target -> (exists l c, In c l /\ u_whitespace U c = false /\ exists ls0, ls = ls0 ++ [l]) ->
     exists ls1 ls2, Forall2 (dedented own) ls ls1 /\ Forall2 (indented target) ls1 ls2 /\ new = unlines ls2.
(** What is written for [x], which is indented by [own]: its text, indented by [target], between [before] and [behind] *)
Definition carried (U : unicode) (own target before behind : str) (x : lelem) (new : str) : Prop :=
  exists t, new = before ++ t ++ behind /\ reindented U own target (text_of (snd x)) t.
(** The file with [e'] in the place of [e] *)
Definition becomes (root : elem) (e : lelem) (e' : elem) (result : str) : Prop :=
  spliced (text_of root) (fst e, fst e + len_of (snd e)) (text_of e') result.

(** The item [x] is somewhere inside the braces of another one; [own] and [j]: how the two are indented *)
Record within (U : unicode) (root : elem) (x : lelem) (up inner : list lelem) (K L : skind) (om : nat) (head l tail : list elem) (outer : list lelem)
    (own j : str) : Prop := Within {
  wi_file : parsed U root /\ full root;
  wi_around : around root x up;
  wi_up : up = inner ++ (om + bytes (texts_of head), braced L l) :: (om, item_with K L head l tail) :: outer;
  wi_list : heads L head;
  wi_items : an_item (snd x) = true /\ an_item (Node K []) = true;
  wi_own : exists prev, right_before x up prev /\ indented_by U prev own;
  wi_indent : exists prev, right_before (om, item_with K L head l tail) outer prev /\ indented_by U prev j }.
(** The item is taken out of the list of the other one, and put into it again at the place [P]. *)
Definition moved_to (P : list elem -> list elem -> Prop) (U : unicode) (root : elem) (x : lelem) (K L : skind) (om : nat) (head l tail : list elem)
    (own target before behind : str) (edits : list text_edit) : Prop :=
  exists a b a' b' t, l = a ++ b /\ P a b /\ taken (om + bytes (texts_of head) + 1) x a b a' b' /\ carried U own target before behind x t
    /\ forall new, text_of new = t -> exists result,
         performed (text_of root) edits result /\ becomes root (om, item_with K L head l tail) (item_with K L head (a' ++ new :: b') tail) result.

(** No impl blocks in the list; nor around the item *)
Definition no_impl (l : list elem) : Prop := forall e, In e l -> kind_of e <> IMPL.
Definition outside_impl (up : list lelem) : Prop := forall y, In y up -> lkind y <> IMPL.
(** The item [x] in a list; [own]: how it is indented *)
Record lies (U : unicode) (root : elem) (x c : lelem) (rest : list lelem) (own : str) : Prop := Lies {
  li_file : parsed U root /\ full root;
  li_around : around root x (c :: rest);
  li_item : an_item (snd x) = true /\ lkind x <> IMPL;
  li_own : exists prev, right_before x (c :: rest) prev /\ indented_by U prev own }.

(** [l'] has exactly the elements of [l] with the property, in the same order. *)
Inductive sifted {A} (P : A -> Prop) : list A -> list A -> Prop :=
  | sifted_nil : sifted P [] []
  | sifted_keep x l l' : P x -> sifted P l l' -> sifted P (x :: l) (x :: l')
  | sifted_drop x l l' : ~ P x -> sifted P l l' -> sifted P (x :: l) l'.
(** A function right in the impl block: no other item is between them. *)
Definition right_in (om : nat) (head l tail : list elem) (outer : list lelem) (c : lelem * list lelem) : Prop :=
  lkind (fst c) = FN /\ exists inner, snd c = inner ++ (om + bytes (texts_of head), braced ASSOC_ITEM_LIST l) :: (om, item_with IMPL ASSOC_ITEM_LIST head l tail) :: outer
    /\ forall y, In y inner -> an_item (snd y) = false.
