(** What C95 means: which event is extracted, what the new file contains, and what becomes of the contract's file. *)
From Coq Require Import List.
From Verif Require Import Base Unicode PositionModel TranslateModel SyntaxModel CommandModel AttrModel EditSpec UtilModel UtilSpec ChainSpec RuleModel EntityModel HintSpec ExtractModel.
Import ListNotations.

(** [up] are the elements around [e], innermost first: its parent, the parent of that, ... *)
Inductive inside_of : list lelem -> lelem -> lelem -> list lelem -> Prop :=
  | io_here acc e : inside_of acc e e acc
  | io_child acc o k cs c e up : In c (place o cs) -> inside_of ((o, Node k cs) :: acc) c e up -> inside_of acc (o, Node k cs) e up.
Definition around (root : elem) (e : lelem) (up : list lelem) : Prop := inside_of [] (0, root) e up.

(** ** The struct *)

(** What stands before the declaration: comments and attributes, each with the white space behind it *)
Inductive head := Head (e : elem) (ws : option str).
Definition head_ok (h : head) : Prop :=
  match h with Head e _ => (exists t, e = Tok COMMENT t /\ t <> []) \/ (exists cs, e = Node ATTR cs /\ texts_of cs <> []) end.
Definition head_elems (h : head) : list elem :=
  match h with Head e ws => e :: match ws with Some w => [Tok WHITESPACE w] | None => [] end end.
(** The declaration: no attributes and comments right in it (its fields may have some) *)
Definition decl_ok (U : unicode) (decl : list elem) : Prop :=
  (forall e, In e decl -> kind_of e <> ATTR /\ kind_of e <> COMMENT)
  /\ (forall e l, decl = e :: l -> kind_of e <> WHITESPACE)
  /\ (exists c rest, texts_of decl = c :: rest /\ u_whitespace U c = false).
Definition struct_of (heads : list head) (decl : list elem) : elem := Node STRUCT (flat_map head_elems heads ++ decl).
Definition attribute (e : lelem) : bool := match snd e with Node ATTR _ => true | _ => false end.
Definition comments (heads : list head) : list str :=
  flat_map (fun h => match h with Head (Tok COMMENT t) _ => [t] | _ => [] end) heads.
(** The attributes of the struct, at their places *)
Definition attributes (s : lelem) : list lelem := filter attribute (match snd s with Node _ cs => place (fst s) cs | Tok _ _ => [] end).

Section Spec.
  Context (read : lelem -> option ink_attr).
  Definition event_struct (s : lelem) : Prop :=
    exists a i, In a (attributes s) /\ read a = Some i /\ (at_kind i = AkArg AEvent \/ at_kind i = AkMacro MEvent).
  Definition carries (s : lelem) (k : arg_kind) (x : ink_arg) : Prop :=
    exists a i, In a (attributes s) /\ read a = Some i /\ In x (at_args i) /\ ia_kind x = k.
  (** The new attribute: with the argument [anonymous], or else the signature topic *)
  Inductive event_line (s : lelem) : str -> Prop :=
    | el_anonymous x : carries s AAnonymous x -> event_line s (lit "#[ink::event(" ++ meta_str x ++ lit ")]")
    | el_signature x : (forall y, ~ carries s AAnonymous y) -> carries s ASignatureTopic x ->
        event_line s (lit "#[ink::event(" ++ meta_str x ++ lit ")]")
    | el_plain : (forall y, ~ carries s AAnonymous y) -> (forall y, ~ carries s ASignatureTopic y) -> event_line s (lit "#[ink::event]").
  Definition other_attrs (s : lelem) : list str := map (fun a => text_of (snd a)) (filter (fun a => negb (is_some (read a))) (attributes s)).
  (** The new file: the comments, the attributes that are not ink!'s, the new attribute, the declaration *)
  Definition new_file (s : lelem) (heads : list head) (body content : str) : Prop :=
    exists line, event_line s line /\ content = unlines (comments heads ++ other_attrs s ++ [line; body]).
End Spec.

(** The declaration with the indentation of the struct taken from its lines *)
Definition unindented (indent text body : str) : Prop :=
  exists ls ls', is_lines text ls /\ body = unlines ls' /\ Forall2 (dedented indent) ls ls'.

(** ** The contract's file *)

(** Where the import goes: behind the last [use] declaration of the module, or else behind its brace *)
Definition use_item (e : lelem) : Prop := exists cs, snd e = Node USE cs.
Inductive import_place (il : lelem) : nat -> Prop :=
  | ip_use k cs l1 u l2 : snd il = Node k cs -> place (fst il) cs = l1 ++ u :: l2 -> use_item u -> (forall x, In x l2 -> ~ use_item x) ->
      import_place il (lend u)
  | ip_brace k c cs : snd il = Node k (Tok L_CURLY c :: cs) -> (forall x, In x (place (fst il) (Tok L_CURLY c :: cs)) -> ~ use_item x) ->
      import_place il (fst il + bytes c).
(** The module around the struct: [mod m { .. }]; [outer] are the elements around it. *)
Definition in_module (up : list lelem) (m il : lelem) (outer : list lelem) : Prop :=
  exists inner, up = inner ++ il :: m :: outer
    /\ (forall e, In e (inner ++ [il]) -> lkind e <> MODULE /\ lkind e <> USE)
    /\ (exists k, snd m = Node MODULE k) /\ (exists c cs, snd il = Node ITEM_LIST (Tok L_CURLY c :: cs)).
(** The first list of items of the module is that one. *)
Definition list_of (m il : lelem) : Prop :=
  exists cs l1 l2, snd m = Node MODULE cs /\ place (fst m) cs = l1 ++ il :: l2 /\ (forall x, In x l1 -> lkind x <> ITEM_LIST).
(** The name of the struct is its first name. *)
Definition named (s : elem) (name : str) : Prop :=
  exists k l1 n l2, s = Node k (l1 ++ n :: l2) /\ (exists cs, n = Node NAME cs) /\ text_of n = name /\ (forall x, In x l1 -> kind_of x <> NAME).
(** The struct has no items in it. *)
Definition no_items (s : lelem) : Prop := forall k cs c e, snd s = Node k cs -> In c (place (fst s) cs) -> element_of c e -> item_node (snd e) = false.
(** Tokens are not empty, white space is white, and no token is an attribute. *)
Definition parsed (U : unicode) (root : elem) : Prop := lexed U root /\ forall t, ~ In (ATTR, t) (leaves root).
(** No item is empty. *)
Definition full (root : elem) : Prop := forall e, in_file root e -> item_node (snd e) = true -> 0 < len_of (snd e).
(** What stands right before an element *)
Definition right_before (e : lelem) (up : list lelem) (prev : option elem) : Prop :=
  match up with
  | [] => prev = None
  | p :: _ => exists k cs l1 l2, snd p = Node k cs /\ place (fst p) cs = l1 ++ e :: l2
                /\ match prev with None => l1 = [] | Some x => exists l o, l1 = l ++ [(o, x)] end
  end.
(** The indentation of an element: repetitions of one character; none if there is no white space before it *)
Inductive indented_by (U : unicode) : option elem -> str -> Prop :=
  | ib_some ws i c : all_white U ws -> ends_with_indent ws i -> (forall x, In x i -> x = c) -> indented_by U (Some (Tok WHITESPACE ws)) i
  | ib_none prev : (forall e, prev = Some e -> kind_of e <> WHITESPACE) -> indented_by U prev [].
(** What the user points at: the struct or something in it, but not several tokens of an attribute of a field *)
Definition points_at (r : nat * nat) (s : lelem) : Prop :=
  points_into r s /\ (fst r < snd r -> forall a, element_of s a -> lkind a = ATTR -> inside r (range_of a) -> In a (attributes s)).
(** The file with the struct (and white space behind it) taken out, and the import put in *)
Definition taken_out (U : unicode) (file : str) (s : lelem) (import : str) (o : nat) (result : str) : Prop :=
  exists a w c, file = a ++ text_of (snd s) ++ w ++ c /\ bytes a = fst s /\ all_white U w
    /\ ((exists a1 a2, a = a1 ++ a2 /\ bytes a1 = o /\ result = a1 ++ import ++ a2 ++ c)
        \/ (exists c1 c2, c = c1 ++ c2 /\ bytes (a ++ text_of (snd s) ++ w ++ c1) = o /\ result = a ++ c1 ++ import ++ c2)).

(** ** The event at [r] that is extracted *)
Record extractable (U : unicode) (read : lelem -> option ink_attr) (root : elem) (r : nat * nat) (s : lelem) (heads : list head) (decl : list elem)
    (name : str) (up : list lelem) (m il : lelem) (outer : list lelem) : Prop := Extractable {
  xt_file : parsed U root /\ full root;
  xt_struct : snd s = struct_of heads decl /\ Forall head_ok heads /\ decl_ok U decl /\ no_items s /\ named (snd s) name;
  xt_event : event_struct read s;
  xt_around : around root s up /\ in_module up m il outer /\ list_of m il;
  xt_at : points_at r s }.
(** The indentation of the new [use] declaration: two times that of the module, four spaces if it has none *)
Definition member_indent (i : str) : str := match i with [] => lit "    " | _ => i ++ i end.
