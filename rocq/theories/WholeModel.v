(** Model of the actions that add a whole contract, trait definition, chain extension, storage item or environment:
    crates/analyzer/src/analysis/actions/entity.rs L490-530 and L557-580, text_edit/common.rs L75-91, L239-247, L273-290 and L410-436,
    with the texts of crates/analyzer/src/codegen/snippets.rs. The texts of contracts are those of [TemplateModel]. The kind of
    the action is not modelled. *)
From Verif Require Import Base VersionModel PositionModel TranslateModel SyntaxModel CommandModel EditModel UtilModel EntityModel TemplateModel.

(** snippets.rs L278-282 *)
Definition TRAIT_DEFINITION_PLAIN : str := join_lines
  [lit "#[ink::trait_definition]";
   lit "pub trait TraitDefinition {";
   lit "    #[ink(message)]";
   lit "    fn my_message(&self);";
   lit "}"].
(** snippets.rs L283-287 *)
Definition TRAIT_DEFINITION_SNIPPET : str := join_lines
  [lit "#[ink::trait_definition]";
   lit "pub trait ${1:TraitDefinition} {";
   lit "    #[ink(message)]";
   lit "    fn ${2:my_message}(&${3:self});";
   lit "}"].
(** snippets.rs L289-310 *)
Definition CHAIN_EXTENSION_PLAIN : str := join_lines
  [lit "#[ink::chain_extension]";
   lit "pub trait ChainExtension {";
   lit "    type ErrorCode = CustomErrorCode;";
   [];
   lit "    #[ink(extension = 1)]";
   lit "    fn my_extension();";
   lit "}";
   [];
   lit "#[derive(scale::Encode, scale::Decode, scale_info::TypeInfo)]";
   lit "pub enum CustomErrorCode {";
   lit "  CustomError,";
   lit "}";
   [];
   lit "impl ink::env::chain_extension::FromStatusCode for CustomErrorCode {";
   lit "  fn from_status_code(status_code: u32) -> Result<(), Self> {";
   lit "    match status_code {";
   lit "      0 => Ok(()),";
   lit "      1 => Err(Self::CustomError),";
   lit "      _ => panic!(""encountered unknown status code""),";
   lit "    }";
   lit "  }";
   lit "}"].
(** snippets.rs L311-332 *)
Definition CHAIN_EXTENSION_SNIPPET : str := join_lines
  [lit "#[ink::chain_extension]";
   lit "pub trait ${1:ChainExtension} {";
   lit "    type ErrorCode = ${2:CustomErrorCode};";
   [];
   lit "    #[ink(extension = ${3:1})]";
   lit "    fn ${4:my_extension}();";
   lit "}";
   [];
   lit "#[derive(scale::Encode, scale::Decode, scale_info::TypeInfo)]";
   lit "pub enum ${2:CustomErrorCode} {";
   lit "  ${5:CustomError},";
   lit "}";
   [];
   lit "impl ink::env::chain_extension::FromStatusCode for ${2:CustomErrorCode} {";
   lit "  fn from_status_code(${6:status_code}: u32) -> Result<(), Self> {";
   lit "    match ${6:status_code} {";
   lit "      0 => Ok(()),";
   lit "      1 => Err(Self::${5:CustomError}),";
   lit "      _ => panic!(""encountered unknown status code""),";
   lit "    }";
   lit "  }";
   lit "}"].
(** snippets.rs L334-355 *)
Definition CHAIN_EXTENSION_PLAIN_V5 : str := join_lines
  [lit "#[ink::chain_extension(extension = 1)]";
   lit "pub trait ChainExtension {";
   lit "    type ErrorCode = CustomErrorCode;";
   [];
   lit "    #[ink(function = 1)]";
   lit "    fn my_function();";
   lit "}";
   [];
   lit "#[ink::scale_derive(Encode, Decode, TypeInfo)]";
   lit "pub enum CustomErrorCode {";
   lit "  CustomError,";
   lit "}";
   [];
   lit "impl ink::env::chain_extension::FromStatusCode for CustomErrorCode {";
   lit "  fn from_status_code(status_code: u32) -> Result<(), Self> {";
   lit "    match status_code {";
   lit "      0 => Ok(()),";
   lit "      1 => Err(Self::CustomError),";
   lit "      _ => panic!(""encountered unknown status code""),";
   lit "    }";
   lit "  }";
   lit "}"].
(** snippets.rs L356-377 *)
Definition CHAIN_EXTENSION_SNIPPET_V5 : str := join_lines
  [lit "#[ink::chain_extension(extension = ${1:1})]";
   lit "pub trait ${2:ChainExtension} {";
   lit "    type ErrorCode = ${3:CustomErrorCode};";
   [];
   lit "    #[ink(function = ${4:1})]";
   lit "    fn ${5:my_function}();";
   lit "}";
   [];
   lit "#[ink::scale_derive(Encode, Decode, TypeInfo)]";
   lit "pub enum ${3:CustomErrorCode} {";
   lit "  ${6:CustomError},";
   lit "}";
   [];
   lit "impl ink::env::chain_extension::FromStatusCode for ${3:CustomErrorCode} {";
   lit "  fn from_status_code(${7:status_code}: u32) -> Result<(), Self> {";
   lit "    match ${7:status_code} {";
   lit "      0 => Ok(()),";
   lit "      1 => Err(Self::${6:CustomError}),";
   lit "      _ => panic!(""encountered unknown status code""),";
   lit "    }";
   lit "  }";
   lit "}"].
(** snippets.rs L392-393 *)
Definition STORAGE_ITEM_PLAIN : str := join_lines
  [lit "#[ink::storage_item]";
   lit "pub struct StorageItem {}"].
(** snippets.rs L394-397 *)
Definition STORAGE_ITEM_SNIPPET : str := join_lines
  [lit "#[ink::storage_item]";
   lit "pub ${1:struct} ${2:StorageItem} {";
   lit "    $3";
   lit "}"].
(** snippets.rs L399-412 *)
Definition ENVIRONMENT_PLAIN : str := join_lines
  [lit "#[derive(Debug, Clone, PartialEq, Eq)]";
   lit "#[cfg_attr(feature = ""std"", derive(scale_info::TypeInfo))]";
   lit "pub enum MyEnvironment {}";
   [];
   lit "impl ink::env::Environment for MyEnvironment {";
   lit "    const MAX_EVENT_TOPICS: usize = 4;";
   [];
   lit "    type AccountId = ::ink::primitives::AccountId;";
   lit "    type Balance = u128;";
   lit "    type Hash = ::ink::primitives::Hash;";
   lit "    type Timestamp = u64;";
   lit "    type BlockNumber = u32;";
   lit "    type ChainExtension = ::ink::env::NoChainExtension;";
   lit "}"].
(** snippets.rs L414-429 *)
Definition ENVIRONMENT_SNIPPET : str := join_lines
  [lit "#[derive(Debug, Clone, PartialEq, Eq)]";
   lit "#[cfg_attr(feature = ""std"", derive(scale_info::TypeInfo))]";
   lit "pub ${1:enum} ${2:MyEnvironment} {";
   lit "    $3";
   lit "}";
   [];
   lit "impl ink::env::Environment for ${4:MyEnvironment} {";
   lit "    const MAX_EVENT_TOPICS: usize = ${5:4};";
   [];
   lit "    type AccountId = ${6:::ink::primitives::AccountId};";
   lit "    type Balance = ${7:u128};";
   lit "    type Hash = ${8:::ink::primitives::Hash};";
   lit "    type Timestamp = ${9:u64};";
   lit "    type BlockNumber = ${10:u32};";
   lit "    type ChainExtension = ${11:::ink::env::NoChainExtension};";
   lit "}"].
(** snippets.rs L431-444 *)
Definition ENVIRONMENT_PLAIN_V5 : str := join_lines
  [lit "#[derive(Debug, Clone, PartialEq, Eq)]";
   lit "#[ink::scale_derive(TypeInfo)]";
   lit "pub enum MyEnvironment {}";
   [];
   lit "impl ink::env::Environment for MyEnvironment {";
   lit "    const MAX_EVENT_TOPICS: usize = 4;";
   [];
   lit "    type AccountId = ::ink::primitives::AccountId;";
   lit "    type Balance = u128;";
   lit "    type Hash = ::ink::primitives::Hash;";
   lit "    type Timestamp = u64;";
   lit "    type BlockNumber = u32;";
   lit "    type ChainExtension = ::ink::env::NoChainExtension;";
   lit "}"].
(** snippets.rs L446-461 *)
Definition ENVIRONMENT_SNIPPET_V5 : str := join_lines
  [lit "#[derive(Debug, Clone, PartialEq, Eq)]";
   lit "#[ink::scale_derive(TypeInfo)]";
   lit "pub ${1:enum} ${2:MyEnvironment} {";
   lit "    $3";
   lit "}";
   [];
   lit "impl ink::env::Environment for ${4:MyEnvironment} {";
   lit "    const MAX_EVENT_TOPICS: usize = ${5:4};";
   [];
   lit "    type AccountId = ${6:::ink::primitives::AccountId};";
   lit "    type Balance = ${7:u128};";
   lit "    type Hash = ${8:::ink::primitives::Hash};";
   lit "    type Timestamp = ${9:u64};";
   lit "    type BlockNumber = ${10:u32};";
   lit "    type ChainExtension = ${11:::ink::env::NoChainExtension};";
   lit "}"].

(** text_edit/common.rs L75-91 [add_contract] *)
Definition add_contract_text (r : trange) (indent : option str) (v : version) : text_edit :=
  edit_with_indent (match v with V5 => CONTRACT_PLAIN_V5 | V4 => CONTRACT_PLAIN end, match v with V5 => CONTRACT_SNIPPET_V5 | V4 => CONTRACT_SNIPPET end) r indent.
(** L239-247 [add_trait_def] *)
Definition add_trait_def (r : trange) (indent : option str) : text_edit :=
  edit_with_indent (TRAIT_DEFINITION_PLAIN, TRAIT_DEFINITION_SNIPPET) r indent.
(** L273-290 [add_chain_extension] *)
Definition add_chain_extension_text (r : trange) (indent : option str) (v : version) : text_edit :=
  edit_with_indent (match v with V5 => CHAIN_EXTENSION_PLAIN_V5 | V4 => CHAIN_EXTENSION_PLAIN end,
                    match v with V5 => CHAIN_EXTENSION_SNIPPET_V5 | V4 => CHAIN_EXTENSION_SNIPPET end) r indent.
(** L410-418 [add_storage_item] *)
Definition add_storage_item_text (r : trange) (indent : option str) : text_edit :=
  edit_with_indent (STORAGE_ITEM_PLAIN, STORAGE_ITEM_SNIPPET) r indent.
(** L420-436 [add_environment] *)
Definition add_environment_text (r : trange) (indent : option str) (v : version) : text_edit :=
  edit_with_indent (match v with V5 => ENVIRONMENT_PLAIN_V5 | V4 => ENVIRONMENT_PLAIN end,
                    match v with V5 => ENVIRONMENT_SNIPPET_V5 | V4 => ENVIRONMENT_SNIPPET end) r indent.

(** An action: its label, its range and its edits *)
Record whole_action := WholeAction { wa_label : str; wa_range : trange; wa_edits : list text_edit }.
(** entity.rs L490-503 [add_contract] *)
Definition add_contract (r : trange) (indent : option str) (v : version) : whole_action :=
  WholeAction (lit "Add ink! contract `mod`.") r [add_contract_text r indent v].
(** L505-517 [add_trait_definition] *)
Definition add_trait_definition (r : trange) (indent : option str) : whole_action :=
  WholeAction (lit "Add ink! trait definition.") r [add_trait_def r indent].
(** L519-536 [add_chain_extension] *)
Definition add_chain_extension (r : trange) (indent : option str) (v : version) : whole_action :=
  WholeAction (lit "Add ink! chain extension `trait`.") r [add_chain_extension_text r indent v].
(** L557-565 [add_storage_item] *)
Definition add_storage_item (r : trange) (indent : option str) : whole_action :=
  WholeAction (lit "Add ink! storage item `ADT` (i.e. `struct`, `enum` or `union`).") r [add_storage_item_text r indent].
(** L567-580 [add_environment] *)
Definition add_environment (r : trange) (indent : option str) (v : version) : whole_action :=
  WholeAction (lit "Add custom ink! environment implementation.") r [add_environment_text r indent v].
