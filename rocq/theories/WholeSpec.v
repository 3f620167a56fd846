(** What C108 means: the code of whole entities, and what becomes of it when something is typed into the snippet. *)
From Verif Require Import Base Unicode VersionModel PositionModel TranslateModel EntitySpec.

(** What an editor makes of a snippet: [f i] is what is typed at the places with number [i], if anything is. Placeholders
    [${i:text}] have their text otherwise, tab stops [$i] nothing; places with the same number change together. *)
Inductive typed (f : N -> option str) : str -> str -> Prop :=
  | typed_nil : typed f [] []
  | typed_char c s t : c <> 36%N -> typed f s t -> typed f (c :: s) (c :: t)
  | typed_hole i x s t : ~ In 125%N x -> typed f s t ->
      typed f (lit "${" ++ dec i ++ lit ":" ++ x ++ lit "}" ++ s) (match f i with Some y => y | None => x end ++ t)
  | typed_stop i s t : (forall c r, s = c :: r -> ~ (48 <= c <= 57)%N) -> typed f s t ->
      typed f (lit "$" ++ dec i ++ s) (match f i with Some y => y | None => [] end ++ t).

(** The whole entities, and their lines; [h i x] is the text at the place with number [i], which is [x] unless something else
    is typed there. *)
Inductive whole := WContract (v : version) | WTrait | WChain (v : version) | WItem | WEnv (v : version).
Definition whole_lines (h : N -> str -> str) (w : whole) : list str :=
  match w with
  | WContract V4 =>
      [lit "#![cfg_attr(not(feature = ""std""), no_std)]";
       [];
       lit "#[ink::contract]";
       lit "pub mod " ++ h 1%N (lit "my_contract") ++ lit " {";
       lit "    #[ink(storage)]";
       lit "    pub struct " ++ h 2%N (lit "MyContract") ++ lit " {" ++ h 3%N [] ++ lit "}";
       [];
       lit "    impl " ++ h 2%N (lit "MyContract") ++ lit " {";
       lit "        #[ink(constructor)]";
       lit "        pub fn " ++ h 4%N (lit "new") ++ lit "() -> " ++ h 5%N (lit "Self") ++ lit " {";
       lit "            " ++ h 6%N (lit "todo!()");
       lit "        }";
       [];
       lit "        #[ink(message)]";
       lit "        pub fn " ++ h 7%N (lit "my_message") ++ lit "(&" ++ h 8%N (lit "self") ++ lit ") {";
       lit "            " ++ h 9%N (lit "todo!()");
       lit "        }";
       lit "    }";
       [];
       lit "    #[cfg(test)]";
       lit "    mod tests {";
       lit "        use super::*;";
       [];
       lit "        #[ink::test]";
       lit "        fn " ++ h 10%N (lit "it_works") ++ lit "() {";
       lit "            " ++ h 11%N (lit "todo!()");
       lit "        }";
       lit "    }";
       [];
       lit "    #[cfg(all(test, feature = ""e2e-tests""))]";
       lit "    mod e2e_tests {";
       lit "        use super::*;";
       [];
       lit "        type E2EResult<T> = std::result::Result<T, Box<dyn std::error::Error>>;";
       [];
       lit "        #[ink_e2e::test]";
       lit "        async fn " ++ h 12%N (lit "it_works") ++ lit "(" ++ h 13%N (lit "mut client: ink_e2e::Client<C, E>") ++ lit ") -> " ++ h 14%N (lit "E2EResult<()>") ++ lit " {";
       lit "            " ++ h 15%N (lit "todo!();");
       [];
       lit "            Ok(())";
       lit "        }";
       lit "    }";
       lit "}"]
  | WContract V5 =>
      [lit "#![cfg_attr(not(feature = ""std""), no_std)]";
       [];
       lit "#[ink::contract]";
       lit "pub mod " ++ h 1%N (lit "my_contract") ++ lit " {";
       lit "    #[ink(storage)]";
       lit "    pub struct " ++ h 2%N (lit "MyContract") ++ lit " {" ++ h 3%N [] ++ lit "}";
       [];
       lit "    impl " ++ h 2%N (lit "MyContract") ++ lit " {";
       lit "        #[ink(constructor)]";
       lit "        pub fn " ++ h 4%N (lit "new") ++ lit "() -> " ++ h 5%N (lit "Self") ++ lit " {";
       lit "            " ++ h 6%N (lit "todo!()");
       lit "        }";
       [];
       lit "        #[ink(message)]";
       lit "        pub fn " ++ h 7%N (lit "my_message") ++ lit "(&" ++ h 8%N (lit "self") ++ lit ") {";
       lit "            " ++ h 9%N (lit "todo!()");
       lit "        }";
       lit "    }";
       [];
       lit "    #[cfg(test)]";
       lit "    mod tests {";
       lit "        use super::*;";
       [];
       lit "        #[ink::test]";
       lit "        fn " ++ h 10%N (lit "it_works") ++ lit "() {";
       lit "            " ++ h 11%N (lit "todo!()");
       lit "        }";
       lit "    }";
       [];
       lit "    #[cfg(all(test, feature = ""e2e-tests""))]";
       lit "    mod e2e_tests {";
       lit "        use super::*;";
       [];
       lit "        type E2EResult<T> = std::result::Result<T, Box<dyn std::error::Error>>;";
       [];
       lit "        #[ink_e2e::test]";
       lit "        async fn " ++ h 12%N (lit "it_works") ++ lit "<" ++ h 13%N (lit "Client: E2EBackend") ++ lit ">(" ++ h 14%N (lit "mut client: Client") ++ lit ") -> " ++ h 15%N (lit "E2EResult<()>") ++ lit " {";
       lit "            " ++ h 16%N (lit "todo!();");
       [];
       lit "            Ok(())";
       lit "        }";
       lit "    }";
       lit "}"]
  | WTrait =>
      [lit "#[ink::trait_definition]";
       lit "pub trait " ++ h 1%N (lit "TraitDefinition") ++ lit " {";
       lit "    #[ink(message)]";
       lit "    fn " ++ h 2%N (lit "my_message") ++ lit "(&" ++ h 3%N (lit "self") ++ lit ");";
       lit "}"]
  | WChain V4 =>
      [lit "#[ink::chain_extension]";
       lit "pub trait " ++ h 1%N (lit "ChainExtension") ++ lit " {";
       lit "    type ErrorCode = " ++ h 2%N (lit "CustomErrorCode") ++ lit ";";
       [];
       lit "    #[ink(extension = " ++ h 3%N (lit "1") ++ lit ")]";
       lit "    fn " ++ h 4%N (lit "my_extension") ++ lit "();";
       lit "}";
       [];
       lit "#[derive(scale::Encode, scale::Decode, scale_info::TypeInfo)]";
       lit "pub enum " ++ h 2%N (lit "CustomErrorCode") ++ lit " {";
       lit "  " ++ h 5%N (lit "CustomError") ++ lit ",";
       lit "}";
       [];
       lit "impl ink::env::chain_extension::FromStatusCode for " ++ h 2%N (lit "CustomErrorCode") ++ lit " {";
       lit "  fn from_status_code(" ++ h 6%N (lit "status_code") ++ lit ": u32) -> Result<(), Self> {";
       lit "    match " ++ h 6%N (lit "status_code") ++ lit " {";
       lit "      0 => Ok(()),";
       lit "      1 => Err(Self::" ++ h 5%N (lit "CustomError") ++ lit "),";
       lit "      _ => panic!(""encountered unknown status code""),";
       lit "    }";
       lit "  }";
       lit "}"]
  | WChain V5 =>
      [lit "#[ink::chain_extension(extension = " ++ h 1%N (lit "1") ++ lit ")]";
       lit "pub trait " ++ h 2%N (lit "ChainExtension") ++ lit " {";
       lit "    type ErrorCode = " ++ h 3%N (lit "CustomErrorCode") ++ lit ";";
       [];
       lit "    #[ink(function = " ++ h 4%N (lit "1") ++ lit ")]";
       lit "    fn " ++ h 5%N (lit "my_function") ++ lit "();";
       lit "}";
       [];
       lit "#[ink::scale_derive(Encode, Decode, TypeInfo)]";
       lit "pub enum " ++ h 3%N (lit "CustomErrorCode") ++ lit " {";
       lit "  " ++ h 6%N (lit "CustomError") ++ lit ",";
       lit "}";
       [];
       lit "impl ink::env::chain_extension::FromStatusCode for " ++ h 3%N (lit "CustomErrorCode") ++ lit " {";
       lit "  fn from_status_code(" ++ h 7%N (lit "status_code") ++ lit ": u32) -> Result<(), Self> {";
       lit "    match " ++ h 7%N (lit "status_code") ++ lit " {";
       lit "      0 => Ok(()),";
       lit "      1 => Err(Self::" ++ h 6%N (lit "CustomError") ++ lit "),";
       lit "      _ => panic!(""encountered unknown status code""),";
       lit "    }";
       lit "  }";
       lit "}"]
  | WItem =>
      [lit "#[ink::storage_item]";
       lit "pub " ++ h 1%N (lit "struct") ++ lit " " ++ h 2%N (lit "StorageItem") ++ lit " {" ++ h 3%N [] ++ lit "}"]
  | WEnv V4 =>
      [lit "#[derive(Debug, Clone, PartialEq, Eq)]";
       lit "#[cfg_attr(feature = ""std"", derive(scale_info::TypeInfo))]";
       lit "pub " ++ h 1%N (lit "enum") ++ lit " " ++ h 2%N (lit "MyEnvironment") ++ lit " {" ++ h 3%N [] ++ lit "}";
       [];
       lit "impl ink::env::Environment for " ++ h 4%N (lit "MyEnvironment") ++ lit " {";
       lit "    const MAX_EVENT_TOPICS: usize = " ++ h 5%N (lit "4") ++ lit ";";
       [];
       lit "    type AccountId = " ++ h 6%N (lit "::ink::primitives::AccountId") ++ lit ";";
       lit "    type Balance = " ++ h 7%N (lit "u128") ++ lit ";";
       lit "    type Hash = " ++ h 8%N (lit "::ink::primitives::Hash") ++ lit ";";
       lit "    type Timestamp = " ++ h 9%N (lit "u64") ++ lit ";";
       lit "    type BlockNumber = " ++ h 10%N (lit "u32") ++ lit ";";
       lit "    type ChainExtension = " ++ h 11%N (lit "::ink::env::NoChainExtension") ++ lit ";";
       lit "}"]
  | WEnv V5 =>
      [lit "#[derive(Debug, Clone, PartialEq, Eq)]";
       lit "#[ink::scale_derive(TypeInfo)]";
       lit "pub " ++ h 1%N (lit "enum") ++ lit " " ++ h 2%N (lit "MyEnvironment") ++ lit " {" ++ h 3%N [] ++ lit "}";
       [];
       lit "impl ink::env::Environment for " ++ h 4%N (lit "MyEnvironment") ++ lit " {";
       lit "    const MAX_EVENT_TOPICS: usize = " ++ h 5%N (lit "4") ++ lit ";";
       [];
       lit "    type AccountId = " ++ h 6%N (lit "::ink::primitives::AccountId") ++ lit ";";
       lit "    type Balance = " ++ h 7%N (lit "u128") ++ lit ";";
       lit "    type Hash = " ++ h 8%N (lit "::ink::primitives::Hash") ++ lit ";";
       lit "    type Timestamp = " ++ h 9%N (lit "u64") ++ lit ";";
       lit "    type BlockNumber = " ++ h 10%N (lit "u32") ++ lit ";";
       lit "    type ChainExtension = " ++ h 11%N (lit "::ink::env::NoChainExtension") ++ lit ";";
       lit "}"]
  end.
(** Nothing is typed, or [f] is. *)
Definition untouched (_ : N) (x : str) : str := x.
Definition given (f : N -> option str) (i : N) (x : str) : str := match f i with Some y => y | None => x end.
(** Only [x] is typed, at number [i]. *)
Definition only (i : N) (x : str) : N -> option str := fun j => if (j =? i)%N then Some x else None.

(** The label of the action *)
Definition whole_label (w : whole) : str :=
  match w with
  | WContract _ => lit "Add ink! contract `mod`."
  | WTrait => lit "Add ink! trait definition."
  | WChain _ => lit "Add ink! chain extension `trait`."
  | WItem => lit "Add ink! storage item `ADT` (i.e. `struct`, `enum` or `union`)."
  | WEnv _ => lit "Add custom ink! environment implementation."
  end.
