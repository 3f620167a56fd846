(** Model of the ink! entities that are offered as code actions: crates/analyzer/src/analysis/actions/item.rs
    L295-663 [item_ink_entity_actions] and [root_ink_entity_actions], with the tests for conditional compilation of
    crates/analyzer/src/analysis/utils.rs L723-746.

    Only which actions are offered is modelled here. Where they are offered at all is modelled in [FocusModel],
    where the new code goes and what it is in [EntityModel]. *)
From Verif Require Import Base Unicode PositionModel VersionModel SyntaxModel AttrModel SuggestModel TreeModel CallableModel.

(** The code that an action adds; the last two are the actions that migrate the project (L739-746 [add_migrate])
    and extract the event (L749-757 [add_extract_event]). *)
Inductive new_item :=
  | NStorage | NEvent | NEvent2 | NConstructor | NMessage | NTopic | NErrorCode | NExtension | NTest | NE2ETest
  | NContract | NTraitDefinition | NChainExtension | NCombine | NStorageItem | NEnvironment | NMigrate | NExtract.

(** ** Conditional compilation *)

Fixpoint skip_white (U : unicode) (s : str) : str :=
  match s with c :: s' => if u_whitespace U c then skip_white U s' else s | [] => [] end.
(** The regular expressions of utils.rs L727 and L738: one of [(] and [,], the words with white space before each,
    white space, one of [,] and [)]. The words do not start with white space, so that matching needs no
    backtracking. *)
Definition is_open (c : char) : bool := N.eqb c 40 || N.eqb c 44.
Definition is_close (c : char) : bool := N.eqb c 44 || N.eqb c 41.
Fixpoint operand_at (U : unicode) (words : list str) (s : str) : bool :=
  match words with
  | [] => match skip_white U s with c :: _ => is_close c | [] => false end
  | w :: words' => match strip_prefix w (skip_white U s) with Some r => operand_at U words' r | None => false end
  end.
(** [Regex::is_match]: somewhere in the text *)
Fixpoint has_operand (U : unicode) (words : list str) (s : str) : bool :=
  match s with
  | [] => false
  | c :: s' => (is_open c && operand_at U words s') || has_operand U words s'
  end.
(** [str::trim] *)
Definition trim (U : unicode) (s : str) : str := rev (skip_white U (rev (skip_white U s))).

(** An attribute: the texts of its path and of its token tree, if any. *)
Definition plain_attr : Type := (option str * option str)%type.
Definition TEST_WORDS := [lit "test"].
Definition E2E_WORDS := [lit "feature"; lit "="; lit """e2e-tests"""].
(** utils.rs L724-731 [is_cfg_test_attr] *)
Definition is_cfg_test (U : unicode) (a : plain_attr) : bool :=
  match fst a with Some p => str_eqb (trim U p) (lit "cfg") | None => false end
  && match snd a with Some t => has_operand U TEST_WORDS t | None => false end.
(** utils.rs L735-742 [is_cfg_e2e_tests_attr] *)
Definition is_cfg_e2e (U : unicode) (a : plain_attr) : bool :=
  is_cfg_test U a && match snd a with Some t => has_operand U E2E_WORDS t | None => false end.

(** ** Actions *)

(** What the trees of [TreeModel] leave out. [fa_td]: the block implements a trait that resolves to an ink! trait
    definition; [fa_trait]: the block implements a trait ([ast::Impl::trait_]); [fa_error_code]: the trait has an
    associated type [ErrorCode]; [fa_attrs]: all attributes of an item; [fa_room]: there is a place for the new
    code in the item, i.e. the function of entity.rs returns an action ([EntityModel] has these functions). *)
Record facts := Facts {
  fa_td : loc -> bool;
  fa_trait : loc -> bool;
  fa_error_code : loc -> bool;
  fa_attrs : loc -> list plain_attr;
  fa_room : loc -> new_item -> bool }.

Section Offer.
Variables (U : unicode) (F : facts) (v : version).

Definition v4 : bool := match v with V4 => true | V5 => false end.
Definition v5 : bool := match v with V4 => false | V5 => true end.
Definition when (b : bool) (e : new_item) : list new_item := if b then [e] else [].
(** [add_result_opt!], L302-309 *)
Definition add_opt (l : loc) (e : new_item) : list new_item := when (fa_room F l e) e.

(** ink_impl.rs L25-27 [trait_type] of an entity *)
Definition implements_trait (l : loc) : bool := match loc_kind l with IMPL => fa_trait F l | _ => false end.
(** traits/shared.rs L15-18 [selector_arg] and selector.rs L217-221 [is_wildcard] *)
Definition wildcard_message (m : loc) : bool :=
  match ink_arg_by_kind (fst m) ASelector with Some a => is_wildcard a | None => false end.

(** L316-389. [place]: None if the cursor is on the declaration, otherwise whether it is in the body. *)
Definition contract_entities (place : option bool) (l : loc) : list new_item :=
  let c := contract_of (fa_td F) l in
  when v4 NMigrate
  ++ (if is_some (co_storage c) then [] else add_opt l NStorage)
  ++ when v5 NEvent2
  ++ add_opt l NEvent
  ++ (if match place with
         | None => true
         | Some body => body && negb (existsb (fun i => negb (implements_trait i)) (co_impls c))
         end
      then add_opt l NConstructor
           ++ (if negb v5 || negb (existsb wildcard_message (co_messages c)) then add_opt l NMessage else [])
      else []).
(** L390-413 *)
Definition module_entities (l : loc) : list new_item :=
  (if existsb (is_cfg_test U) (fa_attrs F l) then add_opt l NTest else [])
  ++ (if existsb (is_cfg_e2e U) (fa_attrs F l) then add_opt l NE2ETest else []).
(** L416-461; [InkImpl::messages] are the closest descendants (macro/src/entity.rs L85). *)
Definition impl_entities (l : loc) : list new_item :=
  if negb (fa_trait F l) && (impl_can_cast (fa_td F) l || is_some (ink_parent (AkMacro MContract) l)) then
    let wildcard :=
      match ink_parent (AkMacro MContract) l with
      | Some p => existsb wildcard_message (co_messages (contract_of (fa_td F) p))
      | None => false
      end
      || (impl_can_cast (fa_td F) l && existsb wildcard_message (ink_closest_descendants (AkArg AMessage) l)) in
    add_opt l NConstructor ++ (if negb v5 || negb wildcard then add_opt l NMessage else [])
  else [].
(** L462-523 *)
Definition trait_entities (l : loc) : list new_item :=
  match primary_candidate (ink_attrs (fst l)) with
  | Some (a, _) =>
      match at_kind a with
      | AkMacro MChainExtension =>
          when v4 NMigrate ++ (if fa_error_code F l then [] else add_opt l NErrorCode) ++ add_opt l NExtension
      | AkMacro MTraitDefinition => when v4 NMigrate ++ add_opt l NMessage
      | _ => []
      end
  | None => []
  end.
(** L524-574 *)
Definition struct_entities (l : loc) : list new_item :=
  if has_kind (AkArg AEvent) (fst l) then add_opt l NTopic ++ when v5 NExtract
  else if has_kind (AkMacro MEvent) (fst l) then add_opt l NTopic ++ [NExtract]
  else when (v4 && has_kind (AkMacro MStorageItem) (fst l)) NMigrate.
(** L296-599 [item_ink_entity_actions] *)
Definition item_entities (place : option bool) (l : loc) : list new_item :=
  match loc_kind l with
  | MODULE => if has_kind (AkMacro MContract) (fst l) then contract_entities place l else module_entities l
  | IMPL => impl_entities l
  | TRAIT => trait_entities l
  | STRUCT => struct_entities l
  | ENUM | UNION => when (v4 && has_kind (AkMacro MStorageItem) (fst l)) NMigrate
  | _ => []
  end.

(** L602-663 [root_ink_entity_actions] *)
Definition root_entities (l : loc) : list new_item :=
  when v4 NMigrate
  ++ when (match fi_contracts (file_of l) with [] => true | _ => false end) NContract
  ++ when v5 NEvent2
  ++ [NTraitDefinition; NChainExtension]
  ++ when v5 NCombine
  ++ [NStorageItem; NEnvironment].
End Offer.
