(** Model of the checks on the shape of ink! entities and of their quick fixes: crates/analyzer/src/analysis/diagnostics/contract.rs L114-242,
    contract/ink_impl.rs L83-95, L139-180 and L278-305, common.rs L1141-1275 (the kinds and numbers of items), event.rs L106-137,
    event/topic.rs L28-42, storage_item.rs L30-55, trait_definition.rs L175-199, file.rs L59-71, with actions.rs L62-82 and
    analysis/utils.rs L2023-2051. The texts of messages and labels are left out. *)
From Coq Require Import List.
From Verif Require Import Base Unicode PositionModel TranslateModel SyntaxModel AttrModel EditModel UtilModel ArgEditModel RuleModel EntityModel HintModel
  ExtractModel FocusModel ImportModel.
Import ListNotations.

Definition PATH_TYPE := OTHER 135.
Definition GENERIC_ARG_LIST := OTHER 190.

(** The messages: what is wrong *)
Inductive problem :=
  | PInline | PKind | PTooMany | PNoStorage | PNoConstructor | PNoMessage | PNoCallable | PCfg | PSelfArgs | PNamespace.
(** A diagnostic: what is wrong, the range and the edits of each quick fix *)
Record sdiag := SDiag { sd_problem : problem; sd_range : trange; sd_fixes : list (list text_edit) }.

(** actions.rs L62-82 [remove_attribute] and [remove_item]: the edits *)
Definition remove_node (n : lelem) : list text_edit := [edit_delete (lrange_of n)].
(** ir macro entity.rs [ink_attr]: the first attribute that makes the item the entity it is checked for ([ink], see [AttrModel]) *)
Definition entity_attr (ink : elem -> bool) (item : lelem) : option lelem := find (fun a => ink (snd a)) (child_nodes ATTR item).
Definition remove_attr (ink : elem -> bool) (item : lelem) : list (list text_edit) :=
  match entity_attr ink item with Some a => [remove_node a] | None => [] end.
(** utils.rs L2023-2051 [contract_declaration_range], [ink_impl_declaration_range] and [ink_trait_declaration_range] *)
Definition declared (toks : list leaf) (k : skind) (item : lelem) : outcome trange :=
  if node_at k item then obind_o (declaration_range toks item) (fun r => Done (or_else r (lrange_of item)))
  else Done (lrange_of item).

(** contract.rs L114-170 [ensure_inline_module] *)
Definition inline_module (ink : elem -> bool) (toks : list leaf) (item : lelem) : outcome (list sdiag) :=
  obind_o (declared toks MODULE item) (fun r =>
  Done (if node_at MODULE item then
          match child_node ITEM_LIST item with
          | Some _ => []
          | None =>
              [SDiag PInline r
                 [[match child_token SEMICOLON item with
                   | Some t => edit_replace (lit " {}") (lf_range t)
                   | None => edit_replace (lit "{}") (lrange_of item)
                   end]]]
          end
        else [SDiag PKind r (remove_attr ink item ++ (if skind_eqb (lkind item) ITEM_LIST then [] else [remove_node item]))])).

(** What the item of an entity must be: common.rs L1196-1275 [ensure_pub_struct], [ensure_fn], [ensure_trait], ink_impl.rs L83-95
    [ensure_impl], storage_item.rs L30-55 [ensure_adt] and topic.rs L28-42 [ensure_struct_field], with their callers *)
Definition fits (k : attr_kind) (item : lelem) : bool :=
  match k with
  | AkArg AConstructor | AkArg AMessage | AkArg AExtension | AkArg AFunction | AkMacro MTest | AkMacro ME2ETest => node_at FN item
  | AkMacro MTraitDefinition | AkMacro MChainExtension => node_at TRAIT item
  | AkArg AStorage | AkArg AEvent | AkMacro MEvent => node_at STRUCT item
  | AkMacro MStorageItem => node_at STRUCT item || node_at ENUM item || node_at UNION item
  | AkArg ATopic => node_at RECORD_FIELD item
  | AkArg AImpl => node_at IMPL item
  | _ => true
  end.
(** Their reports. The item is not what the declaration's range of L93 is for, so that range is the item's. A topic without
    attribute is none (topic.rs L32). *)
Definition wrong_kind (ink : elem -> bool) (k : attr_kind) (item : lelem) : list sdiag :=
  if fits k item then []
  else match k, entity_attr ink item with
       | AkArg ATopic, None => []
       | _, _ => [SDiag PKind (lrange_of item) (remove_attr ink item)]
       end.

(** common.rs L1166-1194 [ensure_at_most_one_item], and file.rs L59-71 [ensure_contract_quantity] for the contracts of a file *)
Definition too_many (ink : elem -> bool) (items : list lelem) : list sdiag :=
  if 1 <? length items
  then map (fun x => SDiag PTooMany (lrange_of x) (remove_attr ink x ++ [remove_node x])) (skipn 1 items)
  else [].

Section Required.
  Variable U : unicode.

  Definition only_edit (e : option text_edit) : list (list text_edit) := match e with Some e => [[e]] | None => [] end.
  (** contract.rs L172-192 [ensure_storage_quantity]; [storages]: the closest ink! storage items in the contract (see [TreeModel]) *)
  Definition storage_quantity (ink : elem -> bool) (toks : list leaf) (item : lelem) (storages : list lelem) (c : contract) : outcome (list sdiag) :=
    obind_o (declared toks MODULE item) (fun r =>
    Done (match storages with
          | [] => [SDiag PNoStorage r (only_edit (add_storage U c None))]
          | _ => too_many ink storages
          end)).
  (** contract.rs L194-218 [ensure_contains_constructor], L220-242 [ensure_contains_message] *)
  Definition contains_constructor (toks : list leaf) (item : lelem) (constructors : list lelem) (c : contract) : outcome (list sdiag) :=
    obind_o (declared toks MODULE item) (fun r =>
    Done (match constructors with [] => [SDiag PNoConstructor r (only_edit (add_constructor U c None))] | _ => [] end)).
  Definition contains_message (toks : list leaf) (item : lelem) (messages : list lelem) (c : contract) : outcome (list sdiag) :=
    obind_o (declared toks MODULE item) (fun r =>
    Done (match messages with [] => [SDiag PNoMessage r (only_edit (add_message U c None))] | _ => [] end)).
  (** trait_definition.rs L175-199 [ensure_contains_message]; only a trait gets a message (actions/entity.rs L353-377) *)
  Definition trait_contains_message (toks : list leaf) (t : EntityModel.item_at) (messages : list lelem) : outcome (list sdiag) :=
    obind_o (declared toks TRAIT (im_item t)) (fun r =>
    Done (match messages with
          | [] => [SDiag PNoMessage r (only_edit (if node_at TRAIT (im_item t) then add_trait_message U t [] None else None))]
          | _ => []
          end)).
  (** ink_impl.rs L278-305 [ensure_annotation_or_contains_callable]; [annotated]: it has the attribute [impl] *)
  Definition annotation_or_callable (toks : list leaf) (i : EntityModel.item_at) (annotated : bool) (constructors messages : list lelem) : outcome (list sdiag) :=
    obind_o (declared toks IMPL (im_item i)) (fun r =>
    Done (match annotated, constructors, messages with
          | false, [], [] =>
              [SDiag PNoCallable r
                 (if node_at IMPL (im_item i)
                  then only_edit (add_constructor_to_impl U i None) ++ only_edit (add_message_to_impl U i None)
                  else [])]
          | _, _, _ => []
          end)).
End Required.

(** event.rs L106-137 [ensure_no_cfg_event_fields]; [ast::Attr::path] is the path of its [Meta] *)
Definition attr_path (a : lelem) : option lelem := obind (child_node META a) (child_node PATH).
Definition cfg_attrs (item : lelem) : list lelem :=
  if node_at STRUCT item then
    match field_list item with
    | Some l =>
        if skind_eqb (lkind l) RECORD_FIELD_LIST
        then flat_map (fun f => filter (fun a => match attr_path a with Some p => str_eqb (text_of (snd p)) (lit "cfg") | None => false end)
                                  (child_nodes ATTR f)) (child_nodes RECORD_FIELD l)
        else []
    | None => []
    end
  else [].
Definition no_cfg_fields (item : lelem) : list sdiag := map (fun a => SDiag PCfg (lrange_of a) [remove_node a]) (cfg_attrs item).

(** [ast::Path::segments]: those of the qualifier, and its own. Simplified: the qualifier stands in front of the segment. *)
Fixpoint segments (e : elem) (o : nat) : list lelem :=
  match e with
  | Tok _ _ => []
  | Node _ cs =>
      (fix go (l : list elem) (o : nat) : list lelem :=
         match l with
         | [] => []
         | c :: l' => (match c with
                       | Tok _ _ => []
                       | Node k _ => if skind_eqb k PATH then segments c o else if skind_eqb k PATH_SEGMENT then [(o, c)] else []
                       end) ++ go l' (o + len_of c)
         end) cs o
  end.
(** [ast::Impl::self_ty]: the second type, or else the only one *)
Definition self_type (item : lelem) : option lelem :=
  match type_nodes item with [] => None | [t] => Some t | _ :: t :: _ => Some t end.
(** ink_impl.rs L139-162 *)
Definition self_args (item : lelem) : list sdiag :=
  if node_at IMPL item then
    match self_type item with
    | Some t =>
        if node_at PATH_TYPE t
        then match child_node PATH t with
             | Some p => filter_map (fun s => option_map (fun g => SDiag PSelfArgs (lrange_of g) [remove_node g]) (child_node GENERIC_ARG_LIST s))
                           (segments (snd p) (fst p))
             | None => []
             end
        else []
    | None => []
    end
  else [].
(** ink_impl.rs L164-180; [arg]: the namespace argument of the impl block and the attribute around it *)
Definition no_trait_namespace (toks : list leaf) (item : lelem) (arg : option (ink_arg * ink_attr)) : outcome (list sdiag) :=
  if node_at IMPL item && of_trait item then
    match arg with
    | Some (x, a) =>
        obind_o (arg_removal_range toks x (Some a)) (fun r =>
        obind_o (meta_range x) (fun m => Done [SDiag PNamespace m [[edit_delete r]]]))
    | None => Done []
    end
  else Done [].
