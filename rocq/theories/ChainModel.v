(** Model of the rules for the items of ink! chain extensions and trait definitions:
    crates/analyzer/src/analysis/diagnostics/chain_extension.rs L79-395 and L496-517, trait_definition.rs L64-171, and the
    trait case of [ast_item_declaration_range], analysis/utils.rs L1285-1402 and L2043-2051. The labels of the fixes are left
    out, and of the messages only which one it is. *)
From Verif Require Import Base Unicode VersionModel PositionModel TranslateModel SyntaxModel CommandModel AttrModel EditModel UtilModel ArgEditModel RuleModel
  CallableModel EntityModel.

(** The messages *)
Inductive crule :=
  | CNotExtension | CNotMessage | CWildcard
  | CName | CGenerics | CBounds | CNoType
  | CNoErrorCode | CSecondErrorCode
  | CNoId.
(** A diagnostic: the message, the range and the edits of its only quick fix *)
Record cdiag := CDiag { cd_rule : crule; cd_range : trange; cd_fix : option (list text_edit) }.

(** ** Functions *)

(** An attribute node as far as the rules look at it: the kind of the ink! attribute and the kinds of its arguments
    (ir attrs.rs, modelled in [AttrModel]) *)
Record seen := Seen { sn_kind : attr_kind; sn_args : list arg_kind }.
(** What the ink! attributes are; [None]: another attribute *)
Definition reader := elem -> option seen.
Definition is_ink_attr (read : reader) (e : elem) : bool := is_some (read e).
(** ir tree/utils.rs L18-22 [ink_attrs]: the ink! attributes of a node *)
Definition attrs_of (read : reader) (item : lelem) : list lelem := ink_attr_nodes (is_ink_attr read) item.
(** [ink_attr_to_entity] finds an entity of the argument's type *)
Definition attr_is (read : reader) (ks : list arg_kind) (a : lelem) : bool :=
  match read (snd a) with
  | Some s => match sn_kind s with AkArg k => existsb (arg_kind_eqb k) ks | AkMacro _ => false end
  | None => false
  end.
Definition is_entity (read : reader) (k : arg_kind) (item : lelem) : bool := existsb (attr_is read [k]) (attrs_of read item).
(** ir tree/utils.rs L116-118 [ink_arg_by_kind]: is there one? *)
Definition has_arg (read : reader) (k : arg_kind) (item : lelem) : bool :=
  existsb (fun a => match read (snd a) with Some s => existsb (arg_kind_eqb k) (sn_args s) | None => false end) (attrs_of read item).

(** The insertion of an attribute and the removal of the ink! attributes not of these kinds: chain_extension.rs L317-332,
    trait_definition.rs L104-127 *)
Definition attribute_edits (read : reader) (toks : list leaf) (keep : list arg_kind) (text : str) (snippet : option str) (item : lelem)
  : list text_edit :=
  edit_insert_snippet text (first_attr_offset (is_ink_attr read) toks item) snippet
  :: map (fun a => edit_delete (lrange_of a)) (filter (fun a => negb (attr_is read keep a)) (attrs_of read item)).

Definition kind_name (v : version) : str := match v with V5 => lit "function" | V4 => lit "extension" end.
(** chain_extension.rs L282-335 [assoc_fn_validator]: the report and the ids in use afterwards *)
Definition chain_fn (v : version) (read : reader) (toks : list leaf) (ids : list N) (item : lelem) : outcome (list cdiag * list N) :=
  let '(id, ids') := suggest_unique_id_mut (id_max v) None ids in
  let id := match id with Found n => n | _ => 1%N end in
  obind_o (fn_range toks item) (fun rg =>
  let suppressed := match v with V5 => has_arg read AExtension item | V4 => false end in
  Done (if suppressed then []
        else [CDiag CNotExtension rg
                (Some (attribute_edits read toks [id_kind v; AHandleStatus]
                         (lit "#[ink(" ++ kind_name v ++ lit " = " ++ dec id ++ lit ")]")
                         (Some (lit "#[ink(" ++ kind_name v ++ lit " = ${1:" ++ dec id ++ lit "})]")) item))],
        ids')).
(** chain_extension.rs L241-270, common.rs L1627-1692 (the functions among the items); what is checked of a function that
    is an extension is modelled in [RuleModel]. *)
Fixpoint chain_fns (v : version) (read : reader) (toks : list leaf) (ids : list N) (fns : list lelem) : outcome (list cdiag) :=
  match fns with
  | [] => Done []
  | f :: fns' =>
      if is_entity read (id_kind v) f then chain_fns v read toks ids fns'
      else obind_o (chain_fn v read toks ids f) (fun r =>
           obind_o (chain_fns v read toks (snd r) fns') (fun ds => Done (fst r ++ ds)))
  end.

(** trait_definition.rs L86-130 *)
Definition trait_fn (read : reader) (toks : list leaf) (item : lelem) : outcome (list cdiag) :=
  if is_entity read AMessage item then Done []
  else obind_o (fn_range toks item) (fun rg =>
       Done [CDiag CNotMessage rg
               (Some (attribute_edits read toks [AMessage; ADefault; APayable; ASelector] (lit "#[ink(message)]") None item))]).
(** trait_definition.rs L132-157: the arguments of the function's ink! attributes with the value [_] *)
Definition has_wildcard (a : ink_arg) : bool := match arg_value a with Some v => value_is_wildcard v | None => false end.
Definition wildcard_diag (toks : list leaf) (attr : ink_attr) (a : ink_arg) : outcome cdiag :=
  obind_o (arg_removal_range toks a (Some attr)) (fun rg =>
  obind_o (meta_range a) (fun r => Done (CDiag CWildcard r (Some [edit_delete rg])))).
Definition wildcard_diags (toks : list leaf) (attrs : list ink_attr) : outcome (list cdiag) :=
  all_done (flat_map (fun attr => map (wildcard_diag toks attr) (filter has_wildcard (at_args attr))) attrs).

(** ** Associated types *)

(** utils.rs L2043-2051, L1285-1402: from the first token after the attributes and doc comments to the opening brace *)
Definition trait_range (toks : list leaf) (item : lelem) : outcome trange :=
  match child_node ASSOC_ITEM_LIST item with
  | Some l => mk_range (declaration_start toks item) (match child_token L_CURLY l with Some c => lf_end c | None => lend l end)
  | None => Done (lrange_of item)
  end.
Definition ERROR_CODE := lit "ErrorCode".
Definition is_error_code (alias : lelem) : bool := match node_name alias with Some n => str_eqb n ERROR_CODE | None => false end.
(** The checks of [RuleModel] as diagnostics of this file *)
Definition as_cdiags (r : crule) (c : check) : outcome (list cdiag) :=
  obind_o c (fun l => Done (map (fun d => CDiag r (rd_range d) (hd_error (rd_fixes d))) l)).
(** chain_extension.rs L156-240 [assoc_type_validator]; [tr]: the trait, for a type without a name *)
Definition alias_name (toks : list leaf) (tr alias : lelem) : outcome (list cdiag) :=
  if is_error_code alias then Done []
  else match child_node NAME alias with
       | Some n => Done [CDiag CName (lrange_of n) (Some [edit_replace ERROR_CODE (lrange_of n)])]
       | None => obind_o (trait_range toks tr) (fun rg => Done [CDiag CName rg None])
       end.
Definition alias_type (alias : lelem) : list cdiag :=
  if is_some (child_type alias) then []
  else
    let eq := child_token EQ alias in
    let semi := child_token SEMICOLON alias in
    let offset := or_else (oor (option_map lf_end eq) (option_map lf_start semi)) (lstart alias) in
    let prefix := if is_some eq then [] else lit " = " in
    let suffix := if is_some semi then [] else lit ";" in
    [CDiag CNoType (lrange_of alias)
       (Some [edit_insert_snippet (prefix ++ lit "()" ++ suffix) offset (Some (prefix ++ lit "${1:()}" ++ suffix))])].
Definition alias_diags (toks : list leaf) (tr alias : lelem) : outcome (list cdiag) :=
  obind_o (alias_name toks tr alias) (fun a =>
  obind_o (as_cdiags CGenerics (no_generics alias)) (fun b =>
  obind_o (as_cdiags CBounds (no_supertraits alias)) (fun c => Done (a ++ b ++ c ++ alias_type alias)))).

(** chain_extension.rs L343-395 [ensure_error_code_type_quantity] *)
Definition error_codes (l : lelem) : list lelem :=
  filter (fun c => skind_eqb (lkind c) TYPE_ALIAS && is_error_code c) (assoc_items l).
Definition quantity_diags (U : unicode) (toks : list leaf) (tr : item_at) : outcome (list cdiag) :=
  match child_node ASSOC_ITEM_LIST (im_item tr) with
  | None => Done []
  | Some l =>
      match error_codes l with
      | [] => obind_o (trait_range toks (im_item tr)) (fun rg =>
              Done [CDiag CNoErrorCode rg (option_map (fun e => [e]) (add_error_code U tr None))])
      | _ :: more => Done (map (fun c => CDiag CSecondErrorCode (lrange_of c) (Some [edit_delete (lrange_of c)])) more)
      end
  end.

(** ** Ids of chain extensions *)

(** chain_extension.rs L88-142 [ensure_extension_arg] (ink! 5): [attrs] are the ink! attributes of the trait, the first of
    them the one of the entity, at [rg]; [place] is where [ink_arg_insert_offset_and_affixes] puts an argument (modelled in
    [ArgEditModel]); [ids]: the ids of the chain extensions of the file. The snippet is the text with a placeholder for
    the id. *)
Definition extension_arg (attrs : list ink_attr) (rg : trange) (place : option insertion) (ids : list N) : list cdiag :=
  if is_some (arg_by_kind attrs AExtension) then []
  else
    let id := match suggest_unique_id U16_MAX None ids with Found n => n | _ => 1%N end in
    [CDiag CNoId rg
       (option_map (fun p =>
          let '(o, (pre, suf)) := p in
          [edit_insert_snippet (or_else pre [] ++ lit "extension = " ++ dec id ++ or_else suf []) o
             (Some (or_else pre [] ++ lit "extension = ${1:" ++ dec id ++ lit "}" ++ or_else suf []))]) place)].
