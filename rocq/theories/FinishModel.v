(** Model of the completions inside attributes: crates/analyzer/src/analysis/completions.rs L59-279 [macro_completions] and
    L282-470 [argument_completions], with crates/ir/src/tree/item_at_offset.rs L124-295 (attributes that are not closed). *)
From Coq Require Import List.
From Verif Require Import Base PositionModel VersionModel TranslateModel SyntaxModel AttrModel EditModel SuggestModel ArgEditModel RuleModel ArgCheckModel EntityModel HintModel ExtractModel FocusModel CompleteModel.
Import ListNotations.

(** ** The attribute and the item at the cursor *)

(** item_at_offset.rs L84-87 [prev_non_trivia_token] *)
Definition prev_solid (root : elem) (t : leaf) : option leaf := closest_solid (leaves_before (file_toks root) t).
(** A token of the file with its ancestors, looked up by its start *)
Definition token_path (root : elem) (t : leaf) : option path :=
  find (fun p : path => is_tok (snd (fst p)) && (lstart (fst p) =? lf_start t)) (paths [] 0 root).
(** L97-100 [parent_attr] *)
Definition attr_around (p : path) : option path := closest is_attr (snd p).
(** L129-144 [probable_unclosed_parent_attr] *)
Definition unclosed_attr (root : elem) (p : path) : option path :=
  match attr_around p with
  | Some a => if closed_attr (fst a) then None else Some a
  | None => match obind (obind (prev_solid root (leaf_of (fst p))) (token_path root)) attr_around with
            | Some a => if closed_attr (fst a) then None else Some a
            | None => None
            end
  end.
(** L214-221 [normalized_parent_attr] *)
Definition attr_at (root : elem) (p : path) : option path :=
  match attr_around p with Some a => Some a | None => unclosed_attr root p end.

(** L113-128 [parent_ast_item]; L245-263 [normalized_parent_ast_item_keyword], the kind of the keyword *)
Definition PUB_KW := OTHER 180.
Definition KEYWORDS := [MOD_KW; TRAIT_KW; ENUM_KW; STRUCT_KW; UNION_KW; FN_KW; IMPL_KW].
Definition item_keyword (item : lelem) : option skind :=
  let has k := if is_some (child_token k item) then Some k else None in
  match lkind item with
  | MODULE => has MOD_KW | TRAIT => has TRAIT_KW | ENUM => has ENUM_KW | STRUCT => has STRUCT_KW | UNION => has UNION_KW
  | FN => has FN_KW | IMPL => has IMPL_KW | _ => None
  end.
Definition item_around (p : path) : option path :=
  match attr_around p with
  | Some a => if closed_attr (fst a) then parent_item a else None
  | None => parent_item p
  end.
(** L163-202 [probable_parent_ast_item_keyword]; [punct] is rust-analyzer's [SyntaxKind::is_punct] *)
Definition next_keyword (punct : skind -> bool) (root : elem) (p : path) : option skind :=
  match unclosed_attr root p with
  | Some _ =>
      option_map lf_kind (closest_which (is_kind KEYWORDS)
        (fun t => negb (is_trivia (lf_kind t)) && negb (punct (lf_kind t)) && negb (skind_eqb (lf_kind t) PUB_KW))
        (leaves_after (file_toks root) (leaf_of (fst p))))
  | None => None
  end.
Definition keyword (punct : skind -> bool) (root : elem) (p : path) : option skind :=
  match item_around p with Some i => item_keyword (fst i) | None => next_keyword punct root p end.

(** L45-58: the part of the token before the cursor, if there is one; [split_at] panics inside a character *)
Definition typed (f : leaf) (off : nat) : outcome (option str) :=
  obind_o (split_bytes (off - lf_start f) (lf_text f)) (fun ba => Done (if is_nil (fst ba) then None else Some (fst ba))).

(** ** Macros *)

Definition is_crate (s : str) : bool := str_eqb s (lit "ink") || str_eqb s (lit "ink_e2e").
Definition is_colons (s : str) : bool := str_eqb s (lit "::") || str_eqb s (lit ":").
Definition is_some_and {A} (p : A -> bool) (o : option A) : bool := match o with Some x => p x | None => false end.
Definition leaf_is (k : skind) (t : leaf) : bool := skind_eqb (lf_kind t) k.

(** What the completions know about the attribute and its item: the item for the filters of SuggestModel, and whether it has
    other ink! attributes (L118-127). *)
Record around_attr := AroundAttr { aa_item : item; aa_others : bool; aa_other_macros : bool }.

(** L72-100 *)
Definition in_ink_path (root : elem) (f : leaf) : bool :=
  let prev := prev_solid root f in
  (is_crate (lf_text f) && is_some_and (leaf_is L_BRACK) prev)
  || (is_colons (lf_text f) && is_some_and (fun t => is_crate (lf_text t)) prev)
  || (is_some_and (fun t => str_eqb (lf_text t) (lit "::")) prev
      && is_some_and (fun t => is_crate (lf_text t)) (obind prev (prev_solid root))).
(** L209-236: the text for a macro *)
Definition macro_text (bracket behind : bool) (f : str) (m : macro_kind) : str :=
  (if bracket || behind || is_crate f then macro_crate m else [])
  ++ (if bracket || behind || is_crate f || is_colons f then lit "::" else [])
  ++ macro_name m.
(** L107-113, L444-451: the range is the token, or the place behind a delimiter *)
Definition token_range (delimiter : bool) (f : leaf) : trange := if delimiter then (lf_end f, lf_end f) else (lf_start f, lf_end f).
(** L247-276: the crates, or the attribute *)
Definition crate_completions (others : bool) : list (str * option str) :=
  if others then [(lit "ink()", Some (lit "ink($1)"))] else [(lit "ink", None); (lit "ink_e2e", None)].

Section Attributes.
(** External code: the expression parser and the path of an attribute (see HintModel), [is_punct]; and what SuggestModel and
    ArgCheckModel need to know about the place of an attribute. *)
Context (px : expr_parser) (pr : path_reader) (punct : skind -> bool)
  (around : path -> around_attr) (env : path -> option str) (ids : path -> arg_kind -> list N).

(** L59-279 [macro_completions] *)
Definition macro_completions (root : elem) (off : nat) (v : version) : outcome (list text_edit) :=
  obind_o (focused_token root off) (fun p =>
  match p with
  | None => Done []
  | Some p =>
  match attr_at root p with
  | None => Done []
  | Some a =>
      let f := leaf_of (fst p) in
      let bracket := leaf_is L_BRACK f in
      let behind := is_some_and (leaf_is L_BRACK) (prev_solid root f) in
      let path := in_ink_path root f in
      if bracket || behind || path then
        let range := token_range bracket f in
        let c := around a in
        let crate := if path && negb (is_crate (lf_text f)) then option_map fst (hd_error (pr (fst a))) else None in
        obind_o (if negb (aa_others c) && negb bracket && negb behind && negb (is_crate (lf_text f) || is_colons (lf_text f))
                 then typed f off else Done None) (fun prefix =>
        match completion_macros (aa_item c) (aa_others c) (keyword punct root p) path crate prefix v with
        | [] =>
            if behind && negb (aa_other_macros c) then
              obind_o (typed f off) (fun prefix =>
              Done (map (fun s => edit_replace_snippet (fst s) range (snd s))
                     (filter (fun s => is_some_and (fun t => starts_with t (fst s)) prefix) (crate_completions (aa_others c)))))
            else Done []
        | ms => Done (map (fun m => edit_replace_snippet (macro_text bracket behind (lf_text f) m) range None) ms)
        end)
      else Done []
  end
  end).

(** ** Arguments *)

(** L229-236 [normalized_parent_ink_attr] *)
Definition ink_attr_at (root : elem) (p : path) : option (path * ink_attr) :=
  let cast a := option_map (pair a) (attr_cast px (read_attr pr (fst a))) in
  match obind (attr_around p) cast with Some r => Some r | None => obind (unclosed_attr root p) cast end.
(** L267-294 [normalized_parent_item_syntax_kind] *)
Definition item_kind (root : elem) (p : path) : option skind :=
  match keyword punct root p with
  | Some k => Some k
  | None =>
      match ink_attr_at root p with
      | Some ((a, parent :: up), _) =>
          if (skind_eqb (lkind parent) RECORD_FIELD || skind_eqb (lkind parent) RECORD_FIELD_LIST)
             && is_some_and (fun i : path => skind_eqb (lkind (fst i)) STRUCT) (parent_item (parent, up))
          then Some (if closed_attr a then lkind parent else RECORD_FIELD)
          else None
      | _ => None
      end
  end.

(** L320-324: a known argument at the cursor *)
Definition meta_is_empty (m : meta) : bool :=
  match m_name m, m_eq m, m_value m, m_nested m with MNone, None, MNone, None => true | _, _, _, _ => false end.
Definition at_cursor (off : nat) (a : ink_arg) : outcome bool :=
  obind_o (meta_range a) (fun r =>
  Done (negb (arg_kind_eqb (ia_kind a) AUnknown) && contains_inclusive r off && negb (meta_is_empty a))).
Fixpoint first_at_cursor (off : nat) (l : list ink_arg) : outcome (option ink_arg) :=
  match l with
  | [] => Done None
  | a :: l' => obind_o (at_cursor off a) (fun b => if b then Done (Some a) else first_at_cursor off l')
  end.
(** L325-338 *)
Fixpoint innermost_arg (off : nat) (a : ink_arg) : outcome ink_arg :=
  match m_nested a with
  | Some n => obind_o (at_cursor off n) (fun b => if b then innermost_arg off n else Done a)
  | None => Done a
  end.
(** L340-345 *)
Definition nested_kinds (k : arg_kind) : list arg_kind :=
  match value_kind k with VArg a _ => [a] | VChoice a b _ => [a; b] | _ => [] end.
(** L346-357: the name of the argument, and the range behind it *)
Definition nested_place (a : ink_arg) : outcome (str * trange) :=
  match m_name a with
  | MOk n => obind_o (meta_range a) (fun r => obind_o (mk_range (lend n) (snd r)) (fun r => Done (text_of (snd n), r)))
  | _ => Panic
  end.
Definition nested_suggestions (off : nat) (args : list ink_arg) : outcome (option (list arg_kind * (str * trange))) :=
  obind_o (first_at_cursor off args) (fun top =>
  match top with
  | None => Done None
  | Some top =>
      obind_o (innermost_arg off top) (fun a =>
      match nested_kinds (ia_kind a) with
      | [] => Done None
      | ks => obind_o (nested_place a) (fun n => Done (Some (ks, n)))
      end)
  end).

(** L421-431 *)
Definition keeps (prefix : option str) (parent : option str) (k : arg_kind) : bool :=
  match prefix with
  | Some p => starts_with p (arg_kind_str k) || is_some_and (str_eqb p) parent
  | None => true
  end.

(** L282-470 [argument_completions] *)
Definition argument_completions (root : elem) (off : nat) (v : version) : outcome (list text_edit) :=
  obind_o (focused_token root off) (fun p =>
  match p with
  | None => Done []
  | Some p =>
  match ink_attr_at root p with
  | None => Done []
  | Some (a, ia) =>
      let f := leaf_of (fst p) in
      let delimiter := leaf_is L_PAREN f || leaf_is COMMA f in
      let behind_comma := is_some_and (leaf_is COMMA) (prev_solid root f) in
      let spaced := match hd_error (leaves_before (file_toks root) f) with Some t => leaf_is WHITESPACE t | None => true end in
      if delimiter || behind_comma || is_some_and (leaf_is L_PAREN) (prev_solid root f) then
        obind_o (nested_suggestions off (at_args ia)) (fun nested =>
        let kinds := match nested with
                     | Some (ks, _) => ks
                     | None => completion_args ia (aa_item (around a)) (item_kind root p) v
                     end in
        obind_o (if delimiter then Done None else typed f off) (fun prefix =>
        let affixes := if is_some nested then (lit "(", lit ")")
                       else if leaf_is COMMA f || (behind_comma && negb spaced) then (lit " ", [])
                       else ([], []) in
        let range := match nested with Some (_, (_, r)) => r | None => token_range delimiter f end in
        collect (fun k =>
          obind_o (arg_insert_text (file_toks root) (lrange_of (fst a)) (snd range) (env a) (ids a) k) (fun t =>
          Done (Some (edit_replace_snippet (fst affixes ++ fst t ++ snd affixes) range
                        (option_map (fun s => fst affixes ++ s ++ snd affixes) (snd t))))))
          (filter (keeps prefix (option_map (fun n => fst (snd n)) nested)) kinds)))
      else Done []
  end
  end).
End Attributes.
