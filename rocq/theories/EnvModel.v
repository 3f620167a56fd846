(** Model of the checks of environments and of the [ErrorCode] of chain extensions: crates/analyzer/src/resolution.rs L32-74,
    L231-283, analysis/diagnostics/environment.rs, analysis/diagnostics/chain_extension/error_code.rs and
    [ensure_external_trait_impl] of analysis/diagnostics/common.rs. *)
From Verif Require Import Base Unicode PositionModel TranslateModel CommandModel CallableModel EditModel UtilModel ResolveModel ExternalModel.

(** ** Searching a file *)

(** [SyntaxNode::descendants]: the node and everything below it, in document order *)
Fixpoint below (up : list snode) (n : snode) : list place :=
  (n, up) :: match n with SNode _ _ cs => flat_map (below (n :: up)) cs end.
Definition descendants_at (l : place) : list place := below (snd l) (fst l).
(** [Iterator::find] with a test that is given a bound on its depth; later elements are not tested. *)
Fixpoint find_res {A} (f : A -> res bool) (l : list A) : res (option A) :=
  match l with
  | [] => Ret None
  | x :: l' => match f x with Spent => Spent | Ret true => Ret (Some x) | Ret false => find_res f l' end
  end.
(** [ast::Adt]: structs, enums and unions *)
Definition is_adt (n : snode) : bool := match n_data n with DNamed k _ => Nat.leb k 2 | _ => false end.

Section Env.
Variable parse : str -> option rpath.

(** resolution.rs L32-58 [external_trait_impls]: the test of one node *)
Definition implements_trait (trait : str) (qs : list str) (fuel : nat) (l : place) : res bool :=
  match n_data (fst l) with
  | DImpl (Some t) _ => is_external parse trait qs fuel t l
  | _ => Ret false
  end.
(** resolution.rs L61-74 [external_trait_impl_by_name] *)
Definition impl_for (name : str) (l : place) : bool :=
  match n_data (fst l) with DImpl _ (Some p) => is_path_target name p | _ => false end.
Definition trait_impl_by_name (name trait : str) (qs : list str) (fuel : nat) (node : place) : res (option place) :=
  find_res (fun l => match implements_trait trait qs fuel l with Ret true => Ret (impl_for name l) | r => r end)
    (descendants_at node).
(** resolution.rs L252-272 [find_adt_by_name] *)
Definition adt_by_name (p : rpath) (ref : place) : option place :=
  match obind (last_seg p) seg_name with
  | Some name => find (fun l => is_adt (fst l) && named name (fst l)) (descendants_at (crate_root ref))
  | None => None
  end.
(** resolution.rs L274-283 [find_adt_for_impl] *)
Definition adt_for_impl (l : place) (ref : place) : option place :=
  match n_data (fst l) with DImpl _ (Some p) => adt_by_name p ref | _ => None end.
(** resolution.rs L231-250 [candidate_adt_by_name_or_external_trait_impl] *)
Definition candidate_adt (trait : str) (qs : list str) (fuel : nat) (ref : place) (p : option rpath) : res (option place) :=
  match obind p (fun p => adt_by_name p ref) with
  | Some a => Ret (Some a)
  | None =>
      match find_res (implements_trait trait qs fuel) (descendants_at (crate_root ref)) with
      | Spent => Spent
      | Ret None => Ret None
      | Ret (Some i) => Ret (adt_for_impl i ref)
      end
  end.

(** What is read of the source text: the range of a node, that of its declaration (utils.rs [ast_item_declaration_range])
    and its indentation (utils.rs [item_indenting]). *)
Record source := Source {
  src_range : place -> trange; src_declaration : place -> option trange; src_indent : place -> option str }.
Variable S : source.

(** diagnostics/common.rs L1909-1962 [ensure_external_trait_impl] *)
Definition ensure_external_trait_impl (adt : place) (trait : str) (qs : list str) (fuel : nat) (node : place)
    (message label plain : str) (snippet : option str) : res (option adiag) :=
  match n_name (fst adt) with
  | None => Ret None
  | Some name =>
      match trait_impl_by_name name trait qs fuel node with
      | Spent => Spent
      | Ret (Some _) => Ret None
      | Ret None =>
          let range := match src_declaration S adt with Some r => r | None => src_range S adt end in
          let indented (s : str) := match src_indent S adt with Some i => apply_indenting s i | None => s end in
          Ret (Some (ADiag message range SevError (Some [Action label AkQuickFix range
            [edit_insert_snippet (indented plain) (snd (src_range S adt)) (option_map indented snippet)]])))
      end
  end.

(** ** diagnostics/environment.rs *)
Definition ENV_QUALIFIERS : list str := [lit "ink::env"; lit "ink_env"].
(** snippets.rs L463-483 *)
Definition ENVIRONMENT_IMPL_PLAIN : str := join_lines
  [lit "impl ink::env::Environment for MyEnvironment {"; lit "    const MAX_EVENT_TOPICS: usize = 4;"; [];
   lit "    type AccountId = ::ink::primitives::AccountId;"; lit "    type Balance = u128;";
   lit "    type Hash = ::ink::primitives::Hash;"; lit "    type Timestamp = u64;"; lit "    type BlockNumber = u32;";
   lit "    type ChainExtension = ::ink::env::NoChainExtension;"; lit "}"].
Definition ENVIRONMENT_IMPL_SNIPPET : str := join_lines
  [lit "impl ink::env::Environment for ${1:MyEnvironment} {"; lit "    const MAX_EVENT_TOPICS: usize = ${2:4};"; [];
   lit "    type AccountId = ${3:::ink::primitives::AccountId};"; lit "    type Balance = ${4:u128};";
   lit "    type Hash = ${5:::ink::primitives::Hash};"; lit "    type Timestamp = ${6:u64};"; lit "    type BlockNumber = ${7:u32};";
   lit "    type ChainExtension = ${8:::ink::env::NoChainExtension};"; lit "}"].
(** The environment argument: its name, range and value (ir/src/environment.rs L25-80); [None]: no value that is a path. *)
Record env_arg := EnvArg { ev_name : str; ev_range : trange; ev_value_range : option trange; ev_path : option rpath }.
(** ir/src/traits/shared.rs L52-59 [environment] *)
Definition environment (a : option env_arg) (fuel : nat) (item : place) : res (option place) :=
  match obind a ev_path with Some p => resolve_item parse is_adt fuel p item | None => Ret None end.
(** L30-91 [ensure_resolvable] *)
Definition ensure_env_resolvable (a : option env_arg) (fuel : nat) (item : place) : res (option adiag) :=
  match a with
  | None => Ret None
  | Some arg =>
      match ev_path arg with
      | None => Ret None
      | Some p =>
          match environment a fuel item with
          | Spent => Spent
          | Ret (Some _) => Ret None
          | Ret None =>
              match is_external parse (lit "DefaultEnvironment") ENV_QUALIFIERS fuel p item with
              | Spent => Spent
              | Ret true => Ret None
              | Ret false =>
                  match candidate_adt (lit "Environment") ENV_QUALIFIERS fuel item (Some p) with
                  | Spent => Spent
                  | Ret c =>
                      let range := match ev_value_range arg with Some r => r | None => ev_range arg end in
                      Ret (Some (ADiag
                        (lit "`" ++ ev_name arg ++ lit "` argument value should be a path to a custom type that implements the `ink::env::Environment` trait.")
                        range SevError
                        (option_map (fun s =>
                           [Action (lit "Replace `" ++ ev_name arg ++ lit "` argument value with `" ++ s ++ lit "`.") AkQuickFix range
                              [edit_replace_snippet (ev_name arg ++ lit " = " ++ s) (ev_range arg)
                                 (Some (ev_name arg ++ lit " = ${1:" ++ s ++ lit "}"))]])
                           (obind c item_path))))
                  end
              end
          end
      end
  end.
(** L94-119 [ensure_impl_environment] *)
Definition ensure_impl_environment (a : option env_arg) (fuel : nat) (item : place) : res (option adiag) :=
  match environment a fuel item with
  | Spent => Spent
  | Ret None => Ret None
  | Ret (Some adt) =>
      match n_name (fst adt) with
      | None => Ret None
      | Some name =>
          ensure_external_trait_impl adt (lit "Environment") ENV_QUALIFIERS fuel (crate_root item)
            (lit "Environment values must implement the `ink::env::Environment` trait.")
            (lit "Add `ink::env::Environment` implementation for `" ++ name ++ lit "`.")
            (str_replace (lit "MyEnvironment") name ENVIRONMENT_IMPL_PLAIN)
            (Some (str_replace (lit "MyEnvironment") name ENVIRONMENT_IMPL_SNIPPET))
      end
  end.
(** L14-28 [diagnostics] *)
Definition env_diagnostics (a : option env_arg) (fuel : nat) (item : place) : res (list adiag) :=
  match ensure_env_resolvable a fuel item, ensure_impl_environment a fuel item with
  | Ret r1, Ret r2 => Ret ((match r1 with Some d => [d] | None => [] end) ++ (match r2 with Some d => [d] | None => [] end))
  | _, _ => Spent
  end.

(** ** diagnostics/chain_extension/error_code.rs *)
Definition STATUS_QUALIFIERS : list str := [lit "ink::env::chain_extension"; lit "ink_env::chain_extension"].
(** snippets.rs L485-495 *)
Definition FROM_STATUS_CODE_IMPL_PLAIN : str := join_lines
  [lit "impl ink::env::chain_extension::FromStatusCode for MyErrorCode {";
   lit "    fn from_status_code(status_code: u32) -> Result<(), Self> {"; lit "        todo!()"; lit "    }"; lit "}"].
Definition FROM_STATUS_CODE_IMPL_SNIPPET : str := join_lines
  [lit "impl ink::env::chain_extension::FromStatusCode for MyErrorCode {";
   lit "    fn from_status_code(status_code: u32) -> Result<(), Self> {"; lit "        ${1:todo!()}"; lit "    }"; lit "}"].
(** The [ErrorCode] type of a chain extension: its text, its range and its path, if it is one. *)
Record error_code := ErrorCode { ec_text : str; ec_range : trange; ec_path : option rpath }.
(** L167-172 [error_code_adt] *)
Definition error_code_adt (e : option error_code) (fuel : nat) (ext : place) : res (option place) :=
  match obind e ec_path with Some p => resolve_item parse is_adt fuel p ext | None => Ret None end.
Definition STATUS_MESSAGE : str := lit "`ErrorCode` associated type must implement the `ink::env::chain_extension::FromStatusCode` trait.".
(** L46-90 [ensure_resolvable] *)
Definition ensure_error_resolvable (e : option error_code) (fuel : nat) (ext : place) : res (option adiag) :=
  match e with
  | None => Ret None
  | Some ec =>
      match error_code_adt e fuel ext with
      | Spent => Spent
      | Ret (Some _) => Ret None
      | Ret None =>
          match candidate_adt (lit "FromStatusCode") STATUS_QUALIFIERS fuel ext (ec_path ec) with
          | Spent => Spent
          | Ret c =>
              Ret (Some (ADiag STATUS_MESSAGE (ec_range ec) SevError
                (option_map (fun s =>
                   [Action (lit "Replace `" ++ ec_text ec ++ lit "` associated type with `" ++ s ++ lit "`.") AkQuickFix (ec_range ec)
                      [edit_replace_snippet s (ec_range ec) (Some (lit "${1:" ++ s ++ lit "}"))]])
                   (obind c item_path))))
          end
      end
  end.
(** L93-112 [ensure_impl_from_status_code] *)
Definition ensure_impl_from_status_code (e : option error_code) (fuel : nat) (ext : place) : res (option adiag) :=
  match error_code_adt e fuel ext with
  | Spent => Spent
  | Ret None => Ret None
  | Ret (Some adt) =>
      match n_name (fst adt) with
      | None => Ret None
      | Some name =>
          ensure_external_trait_impl adt (lit "FromStatusCode") STATUS_QUALIFIERS fuel (crate_root ext) STATUS_MESSAGE
            (lit "Add `ink::env::chain_extension::FromStatusCode` implementation for `" ++ name ++ lit "`.")
            (str_replace (lit "MyErrorCode") name FROM_STATUS_CODE_IMPL_PLAIN)
            (Some (str_replace (lit "MyErrorCode") name FROM_STATUS_CODE_IMPL_SNIPPET))
      end
  end.
(** L131-165 [ensure_no_self_error_code_usage]; the argument: the [ast::Path] nodes of the chain extension in document
    order, a path before its qualifier, with their texts and ranges. *)
Definition self_usages (fix_path : option str) (paths : list (str * trange)) : list adiag :=
  filter_map (fun p : str * trange =>
    if str_eqb (no_spaces (fst p)) (lit "Self::ErrorCode") then
      Some (ADiag
        (lit "Due to technical limitations, it is not possible to refer to the `ErrorCode` associated type using `Self::ErrorCode` anywhere within the chain extension and its defined methods. " ++ [c_nl] ++ lit "Use the error code type directly instead.")
        (snd p) SevError
        (option_map (fun s => [Action (lit "Replace `" ++ fst p ++ lit "` with `" ++ s ++ lit "`") AkQuickFix (snd p)
           [edit_replace_snippet s (snd p) (Some (lit "${1:" ++ s ++ lit "}"))]]) fix_path))
    else None) paths.
Definition ensure_no_self_usage (e : option error_code) (fuel : nat) (ext : place) (paths : list (str * trange)) : res (list adiag) :=
  match error_code_adt e fuel ext with Spent => Spent | Ret o => Ret (self_usages (obind o item_path) paths) end.
End Env.
