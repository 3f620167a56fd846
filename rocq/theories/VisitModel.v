(** Model of which checks run on which items: the calls between crates/analyzer/src/analysis/diagnostics/*.rs,
    from the file down, and the reports about the place of an ink! attribute each of them makes.

    A check is named by the attribute kind of the entity it is for; the checks of a file itself are not in the
    list. The other reports of each check (C39 to C95 are about many of them) are left out. *)
From Verif Require Import Base PositionModel VersionModel SyntaxModel AttrModel SuggestModel TreeModel.

Definition check : Type := (attr_kind * loc)%type.
Definition check_all (k : attr_kind) (ls : list loc) : list check := map (pair k) ls.

(** event.rs L19-61 [diagnostics]: an event (either syntax) and its topics *)
Definition event_checks (k : attr_kind) (l : loc) : list check :=
  (k, l) :: check_all (AkArg ATopic) (ink_closest_descendants (AkArg ATopic) l).

(** [ast::Trait::assoc_item_list().assoc_items()], of which the functions (common.rs L1637-1671); an entity's
    [trait_item()] is its node, if that is a trait. *)
Definition trait_fns (l : loc) : list loc :=
  match loc_kind l with
  | TRAIT => match find (fun c => skind_eqb (loc_kind c) ASSOC_ITEM_LIST) (loc_children l) with
             | Some items => filter (fun c => skind_eqb (loc_kind c) FN) (loc_children items)
             | None => []
             end
  | _ => []
  end.
(** trait_definition.rs L86-90 and chain_extension.rs L253-257: the functions that have an attribute of the
    kind *)
Definition trait_entities (k : attr_kind) (l : loc) : list loc := filter (fun c => has_kind k (fst c)) (trait_fns l).

(** trait_definition.rs L24-62 [diagnostics] *)
Definition trait_definition_checks (l : loc) : list check :=
  (AkMacro MTraitDefinition, l)
  :: check_all (AkArg AMessage) (trait_entities (AkArg AMessage) l)
  ++ check_all (AkArg AMessage) (ink_closest_descendants (AkArg AMessage) l).

(** chain_extension.rs L28-78 [diagnostics] with L241-272. The checks of functions and extensions are the same
    code; which of the two they check for only depends on the version (extension_fn.rs L52-60). *)
Definition extension_kind (v : version) : attr_kind := match v with V4 => AkArg AExtension | V5 => AkArg AFunction end.
Definition chain_extension_checks (v : version) (l : loc) : list check :=
  (AkMacro MChainExtension, l)
  :: check_all (extension_kind v) (trait_entities (extension_kind v) l)
  ++ check_all (extension_kind v) (ink_closest_descendants (AkArg AExtension) l).

(** contract.rs L26-112 [diagnostics] *)
Definition contract_checks (td : loc -> bool) (l : loc) : list check :=
  let c := contract_of td l in
  (AkMacro MContract, l)
  :: check_all (AkArg AStorage) (ink_closest_descendants (AkArg AStorage) l)
  ++ flat_map (event_checks (AkArg AEvent)) (co_events c)
  ++ check_all (AkArg AImpl) (co_impls c)
  ++ check_all (AkArg AConstructor) (co_constructors c)
  ++ check_all (AkArg AMessage) (co_messages c)
  ++ check_all (AkMacro MTest) (co_tests c)
  ++ check_all (AkMacro ME2ETest) (co_e2e_tests c).

(** file.rs L12-57 [diagnostics] *)
Definition checks (v : version) (td : loc -> bool) (l : loc) : list check :=
  let f := file_of l in
  flat_map (contract_checks td) (fi_contracts f)
  ++ flat_map (event_checks (AkMacro MEvent)) (fi_events_v2 f)
  ++ flat_map trait_definition_checks (fi_trait_definitions f)
  ++ flat_map (chain_extension_checks v) (fi_chain_extensions f)
  ++ check_all (AkMacro MStorageItem) (fi_storage_items f)
  ++ check_all (AkMacro MTest) (fi_tests f)
  ++ check_all (AkMacro ME2ETest) (fi_e2e_tests f).

(** The attribute a report is placed on. *)
Definition report_attr (r : scope_report) : ink_attr := match r with RInvalidScope a _ | RNotAllowed a _ => a end.

(** event.rs L87-104 [ensure_only_ink_topic_descendants] *)
Definition only_topics (l : loc) : list ink_attr :=
  filter (fun a => negb (attr_kind_eqb (at_kind a) (AkArg ATopic))) (map snd (ink_attrs_descendants l)).

(** The attributes that the check of an entity reports as out of place: storage.rs L35, storage_item.rs L25,
    topic.rs L25 ([ensure_no_ink_descendants]), event.rs L52, and, for the others, the calls of
    [ensure_valid_quasi_direct_ink_descendants_by_kind]: contract.rs L684, ink_impl.rs L938, constructor.rs L50,
    message.rs L48, extension_fn.rs L56, ink_test.rs L29, ink_e2e_test.rs L27, trait_definition.rs L213,
    chain_extension.rs L487. *)
Definition out_of_place (v : version) (c : check) : list ink_attr :=
  match fst c with
  | AkArg AStorage | AkArg ATopic | AkMacro MStorageItem => map report_attr (ensure_no_descendants false (snd c))
  | AkArg AEvent | AkMacro MEvent => only_topics (snd c)
  | k => map report_attr (ensure_scope k v (snd c))
  end.

(** All attributes of a file that are reported as out of place. *)
Definition misplaced (v : version) (td : loc -> bool) (l : loc) : list ink_attr :=
  flat_map (out_of_place v) (checks v td l) ++ map report_attr (file_scope v l).
