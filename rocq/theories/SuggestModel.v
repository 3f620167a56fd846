(** Model of the ink! attribute suggestions and of the attribute diagnostics of an item:
    crates/analyzer/src/analysis/utils.rs L25-721 (tables and filters), completions.rs L60-440, actions/attr.rs,
    actions/item.rs (macro and argument actions), diagnostics/common.rs L451-1194. *)
From Verif Require Import Base PositionModel SyntaxModel VersionModel AttrModel.

Definition contains_arg (l : list arg_kind) (k : arg_kind) : bool := existsb (arg_kind_eqb k) l.
Definition contains_macro (l : list macro_kind) (k : macro_kind) : bool := existsb (macro_kind_eqb k) l.
Definition contains_kind (l : list attr_kind) (k : attr_kind) : bool := existsb (attr_kind_eqb k) l.

(** ** Tables *)

(** utils.rs L25-163 [valid_sibling_ink_args] *)
Definition sibling_args (k : attr_kind) (v : version) : list arg_kind :=
  match k with
  | AkMacro m =>
      match m, v with
      | MChainExtension, V5 => [AExtension]
      | MChainExtension, V4 => []
      | MContract, _ => [AEnv; AKeepAttr]
      | MEvent, V5 => [AAnonymous; ASignatureTopic]
      | MStorageItem, _ => [ADerive]
      | MTest, _ => []
      | MTraitDefinition, _ => [AKeepAttr; ANamespace]
      | ME2ETest, V5 => [ABackend; AEnvironment]
      | ME2ETest, V4 => [AAdditionalContracts; AEnvironment; AKeepAttr]
      | MScaleDerive, V5 => [AEncode; ADecode; ATypeInfo]
      | _, _ => []
      end
  | AkArg a =>
      match a, v with
      | AStorage, _ => []
      | AEvent, V5 => [AAnonymous; ASignatureTopic]
      | ASignatureTopic, V5 => [AEvent]
      | AEvent, V4 => [AAnonymous]
      | AAnonymous, _ => [AEvent]
      | ATopic, _ => []
      | AImpl, _ => [ANamespace]
      | AConstructor, _ => [ADefault; APayable; ASelector]
      | AMessage, _ => [ADefault; APayable; ASelector]
      | AEnv, _ => [AKeepAttr]
      | AExtension, V5 => []
      | AExtension, V4 => [AHandleStatus]
      | AFunction, V5 => [AHandleStatus]
      | ADerive, _ => []
      | AKeepAttr, _ => [AEnv; ANamespace]
      | ANamespace, _ => [AKeepAttr; AImpl]
      | AHandleStatus, V5 => [AFunction]
      | AHandleStatus, V4 => [AExtension]
      | APayable, _ => [AConstructor; ADefault; AMessage; ASelector]
      | ADefault, _ => [AConstructor; AMessage; APayable; ASelector]
      | ASelector, _ => [AConstructor; ADefault; AMessage; APayable]
      | _, _ => []
      end
  end.

(** utils.rs L170-283 [valid_quasi_direct_descendant_ink_args] *)
Definition descendant_args (k : attr_kind) (v : version) : list arg_kind :=
  match k with
  | AkMacro m =>
      match m, v with
      | MChainExtension, V5 => [AFunction; AHandleStatus]
      | MChainExtension, V4 => [AExtension; AHandleStatus]
      | MContract, V5 =>
          [AAnonymous; AConstructor; ADefault; AEvent; AImpl; AMessage; ANamespace; APayable; ASelector;
           ASignatureTopic; AStorage]
      | MContract, V4 =>
          [AAnonymous; AConstructor; ADefault; AEvent; AImpl; AMessage; ANamespace; APayable; ASelector; AStorage]
      | MEvent, V5 => [ATopic]
      | MTraitDefinition, _ => [ADefault; AMessage; APayable; ASelector]
      | _, _ => []
      end
  | AkArg a =>
      match a, v with
      | AEvent, _ | AAnonymous, _ => [ATopic]
      | ASignatureTopic, V5 => [ATopic]
      | ATopic, _ => []
      | AEnv, _ | AKeepAttr, _ =>
          [AAnonymous; AConstructor; ADefault; AEvent; AImpl; AMessage; ANamespace; APayable; ASelector; AStorage]
      | AImpl, _ | ANamespace, _ => [AConstructor; ADefault; AMessage; APayable; ASelector]
      | _, _ => []
      end
  end.

(** utils.rs L290-361 [valid_quasi_direct_descendant_ink_macros] *)
Definition descendant_macros (k : attr_kind) (v : version) : list macro_kind :=
  match k with
  | AkMacro m =>
      match m, v with
      | MContract, V5 =>
          [MChainExtension; MEvent; MScaleDerive; MStorageItem; MTest; MTraitDefinition; ME2ETest]
      | MContract, V4 => [MChainExtension; MStorageItem; MTest; MTraitDefinition; ME2ETest]
      | MChainExtension, V5 | MTraitDefinition, V5 | MTest, V5 | ME2ETest, V5 => [MScaleDerive]
      | _, _ => []
      end
  | AkArg a =>
      match a, v with
      | AStorage, V5 | AEvent, V5 | AAnonymous, V5 | ASignatureTopic, V5 => []
      | _, V5 => [MScaleDerive]
      | _, V4 => []
      end
  end.

(** utils.rs L367-410 [valid_ink_args_by_syntax_kind] *)
Definition args_by_syntax (k : skind) (v : version) : list arg_kind :=
  match k, v with
  | MODULE, _ | MOD_KW, _ | TRAIT, _ | TRAIT_KW, _ => []
  | STRUCT, V5 | STRUCT_KW, V5 => [AAnonymous; AEvent; ASignatureTopic; AStorage]
  | STRUCT, V4 | STRUCT_KW, V4 => [AAnonymous; AEvent; AStorage]
  | ENUM, _ | ENUM_KW, _ | UNION, _ | UNION_KW, _ => []
  | RECORD_FIELD, _ => [ATopic]
  | FN, V5 | FN_KW, V5 => [AConstructor; ADefault; AFunction; AHandleStatus; AMessage; APayable; ASelector]
  | FN, V4 | FN_KW, V4 => [AConstructor; ADefault; AExtension; AHandleStatus; AMessage; APayable; ASelector]
  | IMPL, _ | IMPL_KW, _ => [AImpl; ANamespace]
  | _, _ => []
  end.

(** utils.rs L416-444 [valid_ink_macros_by_syntax_kind] *)
Definition macros_by_syntax (k : skind) (v : version) : list macro_kind :=
  match k, v with
  | MODULE, _ | MOD_KW, _ => [MContract]
  | TRAIT, _ | TRAIT_KW, _ => [MChainExtension; MTraitDefinition]
  | STRUCT, V5 | STRUCT_KW, V5 => [MEvent; MScaleDerive; MStorageItem]
  | ENUM, V5 | ENUM_KW, V5 | UNION, V5 | UNION_KW, V5 => [MScaleDerive; MStorageItem]
  | ENUM, V4 | ENUM_KW, V4 | STRUCT, V4 | STRUCT_KW, V4 | UNION, V4 | UNION_KW, V4 => [MStorageItem]
  | FN, _ | FN_KW, _ => [MTest; ME2ETest]
  | _, _ => []
  end.

(** utils.rs L482-533 [primary_ink_attribute_kind_suggestions] *)
Definition primary_suggestions (k : attr_kind) (v : version) : list attr_kind :=
  match k with
  | AkMacro _ => []
  | AkArg a =>
      match a, v with
      | AAdditionalContracts, V5 => []
      | ABackend, V5 | AEnvironment, V5 => [AkMacro ME2ETest]
      | AAdditionalContracts, V4 | AEnvironment, V4 => [AkMacro ME2ETest]
      | AAnonymous, V5 | ASignatureTopic, V5 => [AkMacro MEvent; AkArg AEvent]
      | AAnonymous, V4 => [AkArg AEvent]
      | ADecode, V5 | AEncode, V5 | ATypeInfo, V5 => [AkMacro MScaleDerive]
      | AKeepAttr, _ => [AkMacro MContract; AkMacro MTraitDefinition; AkMacro ME2ETest]
      | AHandleStatus, _ => [AkArg AExtension]
      | ANamespace, _ => [AkMacro MTraitDefinition; AkArg AImpl]
      | APayable, _ | ADefault, _ | ASelector, _ => [AkArg AConstructor; AkArg AMessage]
      | _, _ => []
      end
  end.

(** ** Filters *)

(** What the suggestions read from the annotated item ([attr_parent], [target]). *)
Record item := Item {
  it_kind : skind;                (** [target.kind()] *)
  it_attrs : list ink_attr;       (** [ink_attrs(target)] *)
  it_scope : list ink_attr;       (** [ink_attrs_closest_ancestors(target)] *)
  it_trait_impl : bool;           (** an [impl] block with [impl_item.trait_().is_some()] *)
  it_td_message : bool;           (** [is_trait_definition_impl_message(target)] *)
  it_cfg_test : bool;             (** an enclosing item has a [cfg] attribute with [test] *)
  it_cfg_e2e : bool }.            (** an enclosing item has a [cfg] attribute with [test] and [e2e-tests] *)

(** All arguments on the item, in source order. *)
Definition all_args (attrs : list ink_attr) : list ink_arg := flat_map at_args attrs.

(** utils.rs L537-548 [remove_duplicate_ink_arg_suggestions] *)
Definition remove_duplicate_args (s : list arg_kind) (it : item) : list arg_kind :=
  filter (fun k => negb (contains_arg (map ia_kind (all_args (it_attrs it))) k)) s.

(** utils.rs L551-564 [remove_duplicate_ink_macro_suggestions] *)
Definition remove_duplicate_macros (s : list macro_kind) (it : item) : list macro_kind :=
  let present := filter_map (fun a => match at_kind a with AkMacro m => Some m | AkArg _ => None end)
                   (it_attrs it) in
  filter (fun k => negb (contains_macro present k)) s.

(** crates/ir/src/tree/utils.rs [ink_arg_by_kind]: is there an argument of the kind on the item *)
Definition has_arg (attrs : list ink_attr) (k : arg_kind) : bool :=
  existsb (fun x => arg_kind_eqb (ia_kind x) k) (all_args attrs).

(** The test of utils.rs L585-591 and common.rs L563-569. *)
Definition is_event_kind (k : attr_kind) : bool :=
  match k with
  | AkMacro MEvent | AkArg AEvent | AkArg AAnonymous | AkArg ASignatureTopic => true
  | _ => false
  end.

(** utils.rs L567-605 [remove_conflicting_ink_arg_suggestions] *)
Definition remove_conflicting_args (s : list arg_kind) (it : item) (v : version) : list arg_kind :=
  match primary_candidate (it_attrs it) with
  | None => s
  | Some (p, _) =>
      let kind := at_kind p in
      let s := filter (contains_arg (sibling_args kind v)) s in
      match v with
      | V5 =>
          if is_event_kind kind then
            let is_anonymous := attr_kind_eqb kind (AkArg AAnonymous) || has_arg (it_attrs it) AAnonymous in
            let has_signature := attr_kind_eqb kind (AkArg ASignatureTopic)
                                 || has_arg (it_attrs it) ASignatureTopic in
            if is_anonymous || has_signature then
              filter (fun k => (negb is_anonymous || negb (arg_kind_eqb k ASignatureTopic))
                               && (negb has_signature || negb (arg_kind_eqb k AAnonymous))) s
            else s
          else s
      | V4 => s
      end
  end.

(** utils.rs L610-623 [remove_invalid_ink_arg_suggestions_for_parent_item] *)
Definition remove_invalid_for_item (s : list arg_kind) (it : item) : list arg_kind :=
  if skind_eqb (it_kind it) IMPL && it_trait_impl it
  then filter (fun k => negb (arg_kind_eqb k ANamespace)) s else s.

(** utils.rs L626-643 [remove_invalid_ink_arg_suggestions_for_parent_ink_scope] *)
Definition remove_invalid_for_scope (s : list arg_kind) (it : item) (v : version) : list arg_kind :=
  let valid := flat_map (fun a => descendant_args (at_kind a) v) (it_scope it) in
  match valid with [] => s | _ => filter (contains_arg valid) s end.

(** utils.rs L648-670 [remove_duplicate_conflicting_and_invalid_scope_ink_arg_suggestions]. An attribute in a
    file always has a parent. *)
Definition remove_invalid_args (s : list arg_kind) (a : ink_attr) (it : item) (v : version) : list arg_kind :=
  let s := remove_duplicate_args s it in
  let s := remove_conflicting_args s it v in
  match at_kind a with AkArg _ => remove_invalid_for_scope s it v | AkMacro _ => s end.

(** utils.rs L673-692 [remove_invalid_ink_macro_suggestions_for_parent_ink_scope] *)
Definition remove_invalid_macros_for_scope (s : list macro_kind) (it : item) (v : version) : list macro_kind :=
  match it_scope it with
  | [] => s
  | _ =>
      let valid := flat_map (fun a => descendant_macros (at_kind a) v) (it_scope it) in
      filter (fun k => negb (match valid with [] => true | _ => false end) && contains_macro valid k) s
  end.

(** utils.rs L695-721 [remove_invalid_ink_macro_suggestions_for_parent_cfg_scope]; the search for an e2e
    ancestor only happens when there is a test ancestor. *)
Definition remove_invalid_macros_for_cfg (s : list macro_kind) (it : item) : list macro_kind :=
  let is_test k := match k with MTest | ME2ETest => true | _ => false end in
  if existsb is_test s then
    let e2e := it_cfg_test it && it_cfg_e2e it in
    filter (fun k => negb (is_test k) || (macro_kind_eqb k MTest && it_cfg_test it)
                     || (macro_kind_eqb k ME2ETest && e2e)) s
  else s.

(** ** Suggestions *)

(** completions.rs L380-405: the arguments suggested inside an attribute of unknown kind *)
Definition args_unknown_item (v : version) : list arg_kind :=
  match v with
  | V5 => [AAnonymous; AConstructor; ADefault; AEvent; AFunction; AHandleStatus; AImpl; AMessage; ANamespace;
           APayable; ASelector; ASignatureTopic; AStorage; ATopic]
  | V4 => [AAnonymous; AConstructor; ADefault; AEvent; AExtension; AHandleStatus; AImpl; AMessage; ANamespace;
           APayable; ASelector; AStorage; ATopic]
  end.

(** completions.rs L362-418: the "normal" (not nested) argument completions inside attribute [a] of [it], before
    they are filtered by the typed prefix; [parent] is [normalized_parent_item_syntax_kind()]. *)
Definition completion_args (a : ink_attr) (it : item) (parent : option skind) (v : version) : list arg_kind :=
  let base :=
    if attr_kind_unknown (at_kind a) then
      match parent with Some k => args_by_syntax k v | None => args_unknown_item v end
    else sibling_args (at_kind a) v in
  remove_invalid_args base a it v.

(** completions.rs L421-428: the typed prefix (None: the cursor is on a delimiter). *)
Definition filter_prefix (p : option str) (s : list arg_kind) : list arg_kind :=
  match p with Some p => filter (fun k => starts_with p (arg_kind_str k)) s | None => s end.

(** actions/attr.rs L11-70: the arguments offered as actions on attribute [a] ([closed]: it has its [']']). *)
Definition attr_action_args (a : ink_attr) (closed : bool) (it : item) (v : version) : list arg_kind :=
  if closed && negb (it_td_message it)
  then remove_invalid_args (sibling_args (at_kind a) v) a it v
  else [].

(** actions/item.rs L168-213: the arguments offered as actions on the item's declaration *)
Definition item_action_args (it : item) (v : version) : list arg_kind :=
  if it_td_message it then [] else
  let primary := primary_candidate (it_attrs it) in
  let s := match primary with
           | Some (p, _) => sibling_args (at_kind p) v
           | None => args_by_syntax (it_kind it) v
           end in
  let s := remove_duplicate_args s it in
  let s := remove_conflicting_args s it v in
  let s := remove_invalid_for_item s it in
  match primary with
  | Some (p, _) => match at_kind p with AkMacro _ => s | AkArg _ => remove_invalid_for_scope s it v end
  | None => remove_invalid_for_scope s it v
  end.

(** actions/item.rs L127-166: the macros offered as actions on the item's declaration *)
Definition item_action_macros (it : item) (v : version) : list macro_kind :=
  match it_attrs it with
  | [] =>
      let s := macros_by_syntax (it_kind it) v in
      let s := remove_duplicate_macros s it in
      let s := remove_invalid_macros_for_scope s it v in
      remove_invalid_macros_for_cfg s it
  | _ => []
  end.

(** completions.rs L125-150 *)
Definition macros_unknown_item (v : version) : list macro_kind :=
  match v with
  | V5 => [MChainExtension; MContract; MEvent; MScaleDerive; MStorageItem; MTest; MTraitDefinition; ME2ETest]
  | V4 => [MChainExtension; MContract; MStorageItem; MTest; MTraitDefinition; ME2ETest]
  end.

(** completions.rs L106-196: the macros suggested at a path position. [others]: the item has other ink!
    attributes; [keyword]: the kind of the item's keyword (or of nothing); [in_path]: the cursor is inside an
    [ink::]/[ink_e2e::] path; [crate]: the crate segment that must match; [prefix]: the typed name prefix. *)
Definition completion_macros (it : item) (others : bool) (keyword : option skind) (in_path : bool)
    (crate prefix : option str) (v : version) : list macro_kind :=
  if others then [] else
  let s := match keyword with
           | Some k => macros_by_syntax k v
           | None => if in_path then macros_unknown_item v else []
           end in
  let s := match crate with Some c => filter (fun m => str_eqb (macro_crate m) c) s | None => s end in
  let s := match prefix with Some p => filter (fun m => starts_with p (macro_name m)) s | None => s end in
  remove_invalid_macros_for_scope s it v.

(** ** Diagnostics of the attributes of one item *)

(** The diagnostics, with what they are placed on; the texts are left out. [fix_] says what the quick fix of a
    conflicting attribute removes: the whole attribute, or some of its arguments. *)
Inductive conflict_fix := FixAttr | FixArgs (l : list ink_arg).
Inductive report :=
  | RDuplicateMacro (a : ink_attr)
  | RDuplicateArg (a : ink_attr) (x : ink_arg)
  | RAnonymousSignature (second first : ink_arg)
  | RMissingExtension (a : ink_attr)
  | RDeprecatedExtension (x : ink_arg)
  | RDeprecatedContracts (x : ink_arg)
  | RDeprecatedKeepAttr (x : ink_arg)
  | RNotFirstAttr (a : ink_attr)
  | RNotFirstArg (a : ink_attr) (x : option ink_arg)
  | RNoPrimary (a : ink_attr) (suggested : list attr_kind)
  | RAttrConflict (a : ink_attr) (fix_ : conflict_fix)
  | RArgConflict (a : ink_attr) (x : ink_arg).

(** common.rs L451-494 [ensure_no_duplicate_attributes_and_arguments]: the arguments of one attribute *)
Fixpoint duplicate_args (a : ink_attr) (xs : list ink_arg) (seen : list arg_kind) : list report * list arg_kind :=
  match xs with
  | [] => ([], seen)
  | x :: xs' =>
      let k := ia_kind x in
      let r := if negb (arg_kind_eqb k AUnknown) && contains_arg seen k then [RDuplicateArg a x] else [] in
      let '(rs, seen') := duplicate_args a xs' (k :: seen) in
      (r ++ rs, seen')
  end.
(** common.rs L458-493 *)
Fixpoint duplicates (attrs : list ink_attr) (seen_m : list macro_kind) (seen_a : list arg_kind) : list report :=
  match attrs with
  | [] => []
  | a :: attrs' =>
      let '(rm, seen_m') :=
        match at_kind a with
        | AkMacro m =>
            (if negb (macro_kind_eqb m MUnknown) && contains_macro seen_m m then [RDuplicateMacro a] else [],
             m :: seen_m)
        | AkArg _ => ([], seen_m)
        end in
      let '(ra, seen_a') := duplicate_args a (at_args a) seen_a in
      rm ++ ra ++ duplicates attrs' seen_m' seen_a'
  end.
Definition ensure_no_duplicates (attrs : list ink_attr) : list report := duplicates attrs [] [].

(** common.rs L553-557 [find_arg] *)
Definition find_arg (attrs : list ink_attr) (k : arg_kind) : option ink_arg :=
  find (fun x => arg_kind_eqb (ia_kind x) k) (all_args attrs).

(** common.rs L570-604. The code orders the two arguments by their start offsets; the arguments of an item are
    listed in source order, so the model takes the one met first. *)
Definition anonymous_signature (kind : attr_kind) (attrs : list ink_attr) : list report :=
  if is_event_kind kind then
    match find_arg attrs AAnonymous, find_arg attrs ASignatureTopic with
    | Some a, Some s =>
        match find (fun x => arg_kind_eqb (ia_kind x) AAnonymous || arg_kind_eqb (ia_kind x) ASignatureTopic)
                (all_args attrs) with
        | Some x => if arg_kind_eqb (ia_kind x) AAnonymous then [RAnonymousSignature s a]
                    else [RAnonymousSignature a s]
        | None => []
        end
    | _, _ => []
    end
  else [].

(** [*attr == primary_ink_attr_candidate]: the attributes of an item are distinct nodes, told apart by range. *)
Definition same_attr (a b : ink_attr) : bool := range_eqb (at_range a) (at_range b).

(** common.rs L981-1012 [is_valid_sibling_attr] *)
Definition valid_sibling_attr (v : version) (p a : ink_attr) : bool :=
  match at_kind p with
  | AkMacro m =>
      match v with
      | V5 => match m, at_kind a with
              | MScaleDerive, AkMacro MScaleDerive | MScaleDerive, AkMacro MStorageItem
              | MStorageItem, AkMacro MScaleDerive | MStorageItem, AkMacro MStorageItem => true
              | _, _ => false
              end
      | V4 => false
      end
  | AkArg _ =>
      match at_kind a with
      | AkMacro _ => contains_kind (primary_suggestions (at_kind p) v) (at_kind a)
      | AkArg k => contains_arg (sibling_args (at_kind p) v) k
      end
  end.

(** common.rs L1039-1079: the quick fix of a conflicting attribute *)
Definition conflict_fix_of (v : version) (p a : ink_attr) : conflict_fix :=
  match at_kind p, at_kind a with
  | AkArg _, AkArg _ =>
      let conflicting := filter (fun x => negb (contains_arg (sibling_args (at_kind p) v) (ia_kind x)))
                           (at_args a) in
      if length conflicting =? length (at_args a) then FixAttr else FixArgs conflicting
  | _, _ => FixAttr
  end.

(** common.rs L724-738 [is_already_reported_as_deprecated] *)
Definition already_deprecated (v : version) (p : ink_attr) (k : arg_kind) : bool :=
  match v, at_kind p, k with
  | V5, AkMacro ME2ETest, AAdditionalContracts | V5, AkMacro ME2ETest, AKeepAttr => true
  | _, _, _ => false
  end.

(** common.rs L979-1137: conflicts of one attribute; [skip]: it is the first one and not the primary one *)
Definition attr_conflicts (v : version) (p : ink_attr) (skip : bool) (a : ink_attr) : list report :=
  if same_attr a p || skip || valid_sibling_attr v p a then
    flat_map (fun x =>
      if negb (attr_kind_eqb (at_kind a) (AkArg (ia_kind x)))
         && negb (contains_arg (sibling_args (at_kind p) v) (ia_kind x))
         && negb (already_deprecated v p (ia_kind x))
      then [RArgConflict a x] else []) (at_args a)
  else [RAttrConflict a (conflict_fix_of v p a)].

Definition conflicts (v : version) (p : ink_attr) (first : bool) (attrs : list ink_attr) : list report :=
  match attrs with
  | [] => []
  | a :: attrs' => attr_conflicts v p (negb first) a ++ flat_map (attr_conflicts v p false) attrs'
  end.

(** common.rs L519-1138 [validate_entity_attributes]; [ce]: the primary attribute is inside a chain extension *)
Definition validate_entity (attrs : list ink_attr) (ce : bool) (v : version) : list report :=
  match primary_candidate attrs with
  | None => []
  | Some (p, first) =>
      let kind := at_kind p in
      let suggested := primary_suggestions kind v in
      let is_namespace := attr_kind_eqb kind (AkArg ANamespace) in
      let rest :=
        (if negb first && match suggested with [] => true | _ => false end then [RNotFirstAttr p] else [])
        ++ (if match suggested with [] => true | _ => false end || is_namespace then
              match kind with
              | AkArg k =>
                  if match at_args p with x :: _ => arg_kind_eqb (ia_kind x) k | [] => false end then []
                  else [RNotFirstArg p (find (fun x => arg_kind_eqb (ia_kind x) k) (at_args p))]
              | AkMacro _ => []
              end
            else [])
        ++ (if negb (match suggested with [] => true | _ => false end) && negb is_namespace
            then [RNoPrimary p suggested] else [])
        ++ conflicts v p first attrs in
      match v with
      | V4 => rest
      | V5 =>
          let r1 := anonymous_signature kind attrs in
          let r2 := match kind, find_arg attrs AExtension with
                    | AkMacro MChainExtension, None => [RMissingExtension p]
                    | _, _ => []
                    end in
          match kind, ce, find_arg attrs AExtension with
          | AkArg AExtension, true, Some x => r1 ++ r2 ++ [RDeprecatedExtension x]
          | _, _, _ =>
              let r3 := match kind, find_arg attrs AAdditionalContracts with
                        | AkMacro ME2ETest, Some x | AkArg AAdditionalContracts, Some x => [RDeprecatedContracts x]
                        | _, _ => []
                        end in
              match kind, r3 with
              | AkArg AAdditionalContracts, _ :: _ => r1 ++ r2 ++ r3
              | _, _ =>
                  let r4 := match kind, find_arg attrs AKeepAttr with
                            | AkMacro ME2ETest, Some x => [RDeprecatedKeepAttr x]
                            | _, _ => []
                            end in
                  r1 ++ r2 ++ r3 ++ r4 ++ rest
              end
          end
      end
  end.

(** ** Quantity rules *)

(** A reported item: with a quick fix that removes its attribute (if it has one) and one that removes it. *)
Inductive quantity_report (T : Type) := QMissing | QTooMany (x : T) (remove_attribute : bool).
Arguments QMissing {T}.
Arguments QTooMany {T} _ _.

(** common.rs L1141-1146 [ensure_at_least_one_item] *)
Definition at_least_one {T} (items : list T) : list (quantity_report T) :=
  match items with [] => [QMissing] | _ => [] end.
(** common.rs L1166-1194 [ensure_at_most_one_item]; [attr]: the item has an ink! attribute *)
Definition at_most_one {T} (attr : T -> bool) (items : list T) : list (quantity_report T) :=
  if 1 <? length items then map (fun x => QTooMany x (attr x)) (skipn 1 items) else [].
(** common.rs L1149-1163 [ensure_exactly_one_item] *)
Definition exactly_one {T} (attr : T -> bool) (items : list T) : list (quantity_report T) :=
  match items with [] => [QMissing] | _ => at_most_one attr items end.
