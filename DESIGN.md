# Formal model of ink-analyzer in Rocq: design

The code in `/repo` (crates `ir`, `analyzer`, `lsp-server`) is modelled function by function as total, computable Gallina
functions. Each area has

* `<Area>Model.v`  - executable definitions only; every definition cites the file and lines it models and says where it simplifies;
* `<Area>Spec.v`   - (where useful) a small specification that does not use the model's helpers;
* `<Area>Proofs.v` - lemmas;
* `<Area>Props.v`  - the property theorems only, closed by `exact`, with `Print Assumptions` and an `Example` meeting the hypotheses.

Strings are lists of Unicode scalar values (`list N`), integers of the code are `N`/`Z` with explicit bounds only where the
property is about bounds, panics and errors are explicit values, external calls are Section variables (so they become parameters
of the theorems) and are listed in the trusted base below.

## Plan per property

| property | what is modelled | how it is proved |
|---|---|---|
| C01 | `Memory` + the three notification handlers as a state machine over abstract URIs/texts | refinement to "last event for this URI wins", induction over the history |
| C02 | `Dispatcher` (memory, snapshots, change set, fuel) with `process_changes` | invariant over all message histories |
| C03 | the same machine with its outgoing messages | trace theorem per step, from the invariant |
| C04, C05 | request/notification routers over an arbitrary handler table, main loop | induction over the handler table and the message list |
| C06 | notification router + main loop | refuted: witness session |
| C07 | language-version logic with the shared countdown | refinement to a history-based specification |
| C08 | `guess_version` and the regular expression as a decision procedure | equivalence with a regex denotation; full claim refuted for e.g. "4.5.0" |
| C09, C10 | `process_command_response`, `handle_response` | case analysis lifted to all histories |
| C11 | `position_encoding` | induction on the capability list |
| C12-C14 | line index (external crate `line-index`, modelled), `to_lsp`/`from_lsp` | induction over the text; out-of-range columns refuted |
| C15 | `add_signature`, LSP `signature_help` | arithmetic of label lengths by induction |
| C16 | `package_name` | invariant of the character loop |
| C17 | `migrate_cargo_toml` over a TOML table model | algebraic laws (idempotence, frame) |
| C18, C19 | searches with a file-system oracle | induction on the bounded search |
| C20, C21, C56 | kinds, names, ranks, primary selection | finite sweeps lifted, induction over argument lists with stable sort |
| C22 | `parse_meta_items` over token lists | round-trip and partition theorems |
| C23 | `as_int` | equivalence on plain literals; refuted for `1_000` |
| C24 | selector bytes | arithmetic; hash is an oracle |
| C25, C26, C48 | rose trees with annotations | structural induction on trees |
| C27 | `flatten_use_tree` | induction on use trees |
| C28 | resolution of type aliases as fuelled recursion | refuted: for a witness file no amount of fuel suffices |
| C29 | `item_path` | refuted for two or more modules, proved for at most one |
| C30, C31 | id/name suggestion loops | least-element characterisation |
| C32 | `apply_indenting`, `reduce_indenting`, `str::lines` | induction over lines |
| C33 | `format_edit` over token contexts | case analysis + whitespace-erasure lemma |
| C34, C35 | dedup + stable sort pipelines | list theory |
| C36-C39 | the diagnostics loops | induction with seen-set invariants |
| C40-C42 | token sequences of an argument list, comma handling | list surgery lemmas; overlap and whitespace cases refuted |
| C43, C54 | attribute/argument ranges | filter characterisation |
| C44, C45 | suggestion filters and the validity tables | finite sweeps + list induction |
| C46 | `flatten_attrs` | permutation / stable sort |
| C47 | `new_project`, `pascal_case` | character-class invariants |
| C49, C50 | migration of chain extensions and derived SCALE traits on token lists | list theory over placed tokens |
| C51, C75 | the SCALE trait check and its quick fix | list theory; C51 refuted for ink! 5, C75 for a second derive |
| C76-C80 | rules for functions, traits, events, impl blocks and trait items, with their fixes | items described by their parts; each check is shown to find its part, ranges by list theory over the tokens of the file; fixes by induction on the number of reports; C77 and C80 refuted for three fixes |
| C81-C84 | checks of attribute arguments, their fixes, inserted text, unknown attributes | a table of documented forms; structural induction on nested arguments in both directions; fixes by parsing the written text again (C22); tokens by list theory over the file; refuted for several fixes |
| C85 | recognition of items of other crates | an inductive meaning of paths under a module's imports; both directions by list theory over the words of paths; refuted for `::`, `self::`, renamed re-exports, local modules and two globs |
| C86 | custom environments and `ErrorCode` types | the search for types and impls over the syntax tree against an independent naming relation; suggestion shown to resolve for types at the root or in one module; refuted for deeper modules, types of the same name, `()` and line breaks |
| C87 | code added for entities | templates as in the source, replaced and indented, against the documented lines; snippets against an expansion relation; refuted for the selector message, functions of version 5, a single combined extension, names of other kinds of items, unnamed fields |
| C88 | places of added entities | offsets computed on the syntax tree shown to split the list of items at the documented place; edits applied to the whole file |
| C89 | functions of chain extensions and trait definitions | the validators on syntax trees; fixes with several edits as a rewriting of a text in pieces; ids by induction over the functions; refuted for the least id next to ink! 4 attributes and for ids of two rules |
| C90 | associated types of chain extensions | reports against a record of the parts of a type; each fix yields the tree of the repaired record; refuted for a type with neither `=` nor `;` |
| C91 | migration of host functions | trees with accessors; the text of the migrated file is defined top-down by what each method call is called on, the code works bottom-up from the inner calls; equality of the edits up to order by induction over the tree; refuted for conditions, guards, arguments, unrelated methods, imports, repeated migration |
| C92 | migration of e2e tests | which nodes are looked at and what changes at each are relations on syntax trees; the visitor's findings are exactly these (a lemma for all visitors, by induction over trees); freedom from overlap by induction, with the outer edits of a node (callback, `?`) accounted for at its parent; refuted: overlap for a message named `balance`, arguments of client calls, unrelated methods, macros and conditions, signatures that are migrated already |
| C93 | deprecated imports | use declarations as written (paths, lists, blanks, commas) and the paths they import; the file that results has, for each declaration, a smaller one that imports all but the deprecated paths, or nothing; by induction over use trees with the removed ranges as pieces of the text; refuted: overlap for two deprecated items at the end of a list, braces in braces, leading `::`, imports of the file around the test's module |
| C94 | custom types of extension functions | types as trees with paths, nested types and generic arguments; resolution and the check of one item are parameters; the checked items are exactly those the signature stands for, without duplicates; by mutual induction over types, paths and arguments; refuted: types in the generic arguments of a local type |
| C95 | extraction of events | file trees with an event struct at any depth in a module; what the user points at is found by the model of `focused_element`; the new file and the resulting contract file are given by relations in ExtractSpec; by induction over trees and lines; refuted: events outside modules; ink! attributes that do not make it an event |
| C96 | where item actions apply | file trees with a module, trait, impl, struct, union or enum at any depth; the cursor is placed by byte offsets of the item's parts; the tokens and ancestors at the cursor by induction over trees; refuted: right before the closing brace, and for selections of several elements, new code goes behind the item; a topic behind a field without comma |
| C97 | which checks run on which item, from the file down | on the trees of C25/C48/C66; "in place" is an inductive relation over the nearest annotated items, independent of the walk; coverage by induction over the nesting, reports by the theorems of C48; refuted: items inside a SCALE derive, functions of version 5 chain extensions that are no `fn`, `impl` on something that is no item |
| C98 | the line, the range and the entities of `entity_completions` | on the trees of C72/C95/C96; the line is stated on the text of the file, the words on its tokens, the item around as the innermost item; the token list is split at the cursor into what is before, on and after the line; refuted: strings and comments of several lines are replaced, finished items on the line are |
| C99 | which entities are offered as actions in an item, and which in the file, and the `cfg` predicates that tell test modules | on the trees of C66/C97; what is offered is stated with paths and attributes, the predicates as a language with its own meaning; each list of the model is compared with it, and with the places of C97; refuted: tests are offered in `cfg(not(test))` modules |
| C100 | completions in attributes: of macro paths, of arguments, of nested arguments, and the item keyword they go by | on the tokens of C98; the effect is stated on the text of the file with the lists of arguments of C40, what is offered with the relations of C44; refuted: closing brackets and parentheses at the cursor are replaced, names joined, a parenthesis is doubled |
| C101 | the quick fixes that move storage, events, impl blocks and callables | on syntax trees; the effect is stated on trees (the item cut out of a list, and an element with its re-indented text put into another one) and on the text that results from both edits; by induction on the nesting |
| C102 | the code actions for attribute macros and arguments | on syntax trees; the item or attribute is given as written, with what stands before and behind it, and the effect as the text of the file after the edit; the texts of new arguments are given by a table; from C42, C44, C88 and C96 |
| C103 | the checks on the kind, number and parts of ink! entities, with their quick fixes | on syntax trees; what a report marks is given by the parts of the item as written, and each fix by the tree that results; by induction on trees (nested paths, attributes of fields), and from C40, C87 and C88 |
| C104 | all edits of an action or of a migration, formatted | the file as a sequence of kept and replaced pieces; white space that a deletion takes is moved from a kept piece into the replaced one; by induction on the pieces |
| C105 | what the features of a migrated manifest refer to | Cargo's forms of feature values as a predicate; from the exact description of the migrated document (C17) |
| C106 | panics of the position queries (tokens at an offset, splitting a token, ranges) | positions as prefixes of the text (QuerySpec); every panic of the models of C96, C98, C100 and C102 is followed to its cause: the end of the file, the inside of a character, a declaration that would end before it starts |
| C107 | `migrate_e2e_attribute` (ArgEditModel) | lists of arguments as written (ArgEditSpec `listed`) before and after all edits together (ChainSpec `rewritten`); induction over the list, each cut takes a comma of its own |
| C108 | `add_contract`, `add_trait_definition`, `add_chain_extension`, `add_storage_item`, `add_environment` (WholeModel) | how an editor fills a snippet (WholeSpec `typed`) and the lines of each entity (`whole_lines`); induction over lines and parts; a snippet is filled in one way |
| C52 | trait definition impl checks | set characterisation |
| C53 | `ensure_no_ink_identifiers` | refuted: `__ink___ink_x`-like names |
| C55, C57 | capability dependent translation, announced kinds | case analysis; refuted parts with witnesses |
| C58, C59 | event extraction and manifest migration over TOML tables | frame lemmas; refuted for name clashes and inherited entries |
| C60 | the whole server loop with an arbitrary analyzer | invariant over sessions; refuted for positions past the end |
| C61-C63 | argument ranges, trailing commas, string values | induction over the token list; refuted with witnesses |
| C64 | item and end indentation | list theory; refuted for mixed indentation |
| C65 | the validity tables against the documented combinations | sweep over the tables, lifted to all attribute lists |
| C66 | entity collections of a file and a contract | structural induction on trees |
| C67 | scopes of the diagnostics for entity counts | filter characterisation |
| C68 | lookup of items by path | case analysis over modules; refuted for nested modules |
| C69-C71 | results translated to LSP, created projects, resolve round trip | case analysis, refinement of the edited file store |
| C72 | signature help of attributes | exact parameter lists; refuted for split constructors and `keep_attr` |
| C73 | ink! arguments of trait implementations | set characterisation |
| C74 | moving events out of contracts | text-level refinement; refuted for repeated attribute texts |

## What is modelled and what is not

| model | code (paths below `crates/`) | left out or abstracted |
|---|---|---|
| `PositionModel` | `lsp-server/src/translator*.rs`, `utils.rs` (position encoding), `parse_range`; the crate `line-index` | `u32` overflow of offsets |
| `TranslateModel` | `lsp-server/src/translator/to_lsp.rs`, capability queries of `utils.rs` | JSON numbers other than integers |
| `VersionModel` | `dispatch.rs` L420-549, `utils.rs` `find_cargo_toml`; the version regular expression | the file system (record `fsys`), TOML text parsing |
| `CommandModel` | `dispatch/handlers/command.rs` | error texts; TOML printing/parsing (round trip assumed where stated) |
| `ServerModel` | `memory.rs`, `dispatch.rs`, routers, handlers, `actions.rs`, shutdown handshake of the crate `lsp-server` | serde decoding (record `decoders`), the analyzer (record `analyzer`), error texts, failing sends |
| `AttrModel`, `SyntaxModel` | `ir/src/attrs.rs`, `attrs/*`; trees of `ra_ap_syntax` | the Rust parser (theorems quantify over trees), expression parser (parameter) |
| `TreeModel` | `ir/src/tree/utils.rs`, `iter.rs`, `file.rs`, `contract.rs`, `ink_impl.rs`, the entity macro; scope diagnostics | token contents of nodes |
| `CallableModel`, `Blake2Model` | `ir/src/selector.rs`, overlap checks of `diagnostics/contract.rs` and `chain_extension.rs`; BLAKE2b-256 | the hash is a parameter of the theorems |
| `SuggestModel` | `analysis/utils.rs` L25-721, `completions.rs`, `actions/{attr,item}.rs`, `diagnostics/common.rs` L451-1194 | texts of messages |
| `UtilModel`, `TemplateModel` | text helpers of `analysis/utils.rs`, `analyzer/src/utils.rs`, `codegen.rs` and its templates, identifier rule | Unicode tables (record `unicode`) |
| `EditModel` | `analysis/text_edit.rs`, collection of actions and diagnostics | `add_extension` |
| `ArgEditModel` | `analysis/utils.rs` L1000-1187, L1468-1624, quick fixes and e2e migration built on them | - |
| `HintModel` | `inlay_hints.rs`, `hover.rs`, `signature_help.rs`, `item_at_offset.rs` (token lookup) | focus of unclosed attributes |
| `ResolveModel` | `ir/src/tree/ast_ext.rs` (use trees, item paths), `analyzer/src/resolution.rs` | name parsing (parameter) |
| `FlattenModel`, `ImplModel` | `actions/item.rs` L665-706, `diagnostics/contract/ink_impl.rs` L361-962 | texts of messages |
| `MigrateModel`, `ScaleFixModel` | `migrate.rs` L41-335, `diagnostics/common.rs` L1965-2248 | resolution of trait names (parameter) |
| `RuleModel` | `diagnostics/common.rs` L1196-1692, `message.rs`, `contract/constructor.rs`, `contract/ink_impl.rs` L102-277, `chain_extension/extension_fn.rs`, `event.rs`, `trait_definition.rs` L158-171, `analysis/utils.rs` L1285-1532 | parsing (the trees are given), the texts of the messages; custom types of extension functions are in `CustomModel` |
| `ArgCheckModel` | `diagnostics/common.rs` L22-72, L106-446, `analysis/utils.rs` L744-968, `ir/src/meta/value.rs` L196-231 | hex decoding and identifier lexing (record `externals`), expression parser (parameter) |
| `ExternalModel` | `analyzer/src/resolution.rs` L76-229, L285-291 | paths with generic arguments inside a qualifier are opaque text; the parser of use paths is a parameter |
| `EnvModel` | `analyzer/src/resolution.rs` L32-74, L231-283; `analysis/diagnostics/environment.rs`; `analysis/diagnostics/chain_extension/error_code.rs`; `analysis/diagnostics/common.rs` L1909-1962 | ranges and indentation of declarations are read from the source through a record; a path's text is its words without white space |
| `EntityModel` | `analyzer/src/analysis/actions/entity.rs`; `analysis/text_edit/common.rs` L27-478; `analysis/snippets.rs` L3-98, L379-391; `analysis/utils.rs` L970-998, L1125-1133, L1627-1920 | an action is its edit (label, kind and range are left out); a contract is its module, storage name, callables and impl blocks; items that an editor is still typing (no braces) only in the model, not in the theorems |
| `ChainModel` | `analyzer/src/analysis/diagnostics/chain_extension.rs` L79-395, L496-517; `trait_definition.rs` L64-171; `analysis/utils.rs` L1285-1402 (traits), L2043-2051 | which ink! attributes a node has is a parameter (`AttrModel` models it); labels are left out |
| `TravModel` | `analyzer/src/analysis/migrate/traversal.rs`, `migrate/common.rs` | trees are given with the accessor of ra_ap_syntax that returns each child; `is_external_crate_item` and `path_from_str` are parameters (the former is modelled in `ExternalModel`) |
| `HostModel` | `analyzer/src/analysis/migrate/host_fn.rs` L12-256 | nothing simplified |
| `E2EModel` | `analyzer/src/analysis/migrate/e2e_test.rs` L63-175, L308-654 | whether the text of an integer literal is zero is a parameter (`IntNumber::value`); the places for imports are given (they come from `parent_ast_item`, `item_insert_offset_start` and the doc comments of the file); the set of traits is a list without repetitions |
| `ImportModel` | `analyzer/src/analysis/migrate/e2e_test.rs` L177-306 | the result of `parent_ast_item` for the test is given |
| `CustomModel` | `analyzer/src/analysis/diagnostics/chain_extension/extension_fn.rs` L66-190 | resolution of one path (ResolveModel) and the check of one item (ScaleFixModel) are parameters |
| `ExtractModel` | `analyzer/src/analysis/extract.rs` L28-94 | the text of each ink! attribute is read by a parameter (AttrModel); `remove_attrs_and_docs` of ra_ap_syntax modelled on children lists; siblings are compared by start and kind |
| `FocusModel` | `analyzer/src/analysis/actions/item.rs` L17-125, L700-735, `utils.rs` L1263-1282, L1285-1442 | what is offered is abstract here (attributes, entities of an item, entities of the file); statements, functions' bodies and type aliases are in the model, not in the theorems about cursors |
| `VisitModel` | `analyzer/src/analysis/diagnostics/`: the calls between the `diagnostics` functions of `file.rs`, `contract.rs`, `event.rs`, `trait_definition.rs`, `chain_extension.rs` and their reports about places | each check is named by the attribute kind it is for; of its reports only those about places; `error_code.rs` and `environment.rs` (C22, C94) are not in the walk |
| `CompleteModel` | `analyzer/src/analysis/completions.rs` L472-942 | labels, details and the texts of the edits (C87) are left out; what the completions ask about the item around (is it a contract with a storage, a test module, ...) is a parameter; the parent of the next token is looked up by its start |
| `OfferModel` | `analyzer/src/analysis/actions/item.rs` L295-663, `analysis/utils.rs` L723-746 | which implementation is of a trait (or of an ink! trait definition), whether there is an error code type and whether an insertion point is found are parameters; texts and ranges of the edits are C87/C89; the regular expressions are written as functions |
| `FinishModel` | `analyzer/src/analysis/completions.rs` L59-470, `ir/src/item_at_offset.rs` L124-295 | the segments of the path of an attribute, which tokens are punctuation, and what the completions ask about the ink! item around the attribute are parameters; labels and details are left out |
| `MoveModel` | `analysis/actions.rs` L84-136, `diagnostics/common.rs` L1697-1778, `diagnostics/contract.rs` L582-615, `diagnostics/contract/ink_impl.rs` L308-336 | which items are contracts, and what is read of a contract, are parameters (see `AttrModel`, `TreeModel`, `EntityModel`); nodes are compared by place and kind; messages and labels of reports are left out |
| `AnnotateModel` | `analysis/actions/item.rs` L131-291, `analysis/actions/attr.rs` L11-103, `analysis/actions.rs` L41-60 | the expression parser, the segments of an attribute's path, the scope of an item (see `SuggestModel`), the environment and the ids in use are parameters; the actions that add ink! entities are in `OfferModel`; labels are left out |
| `StructureModel` | `diagnostics/contract.rs` L114-242, `contract/ink_impl.rs` L83-95, L139-180, L278-305, `common.rs` L1141-1275, `event.rs` L106-137, `event/topic.rs` L28-42, `storage_item.rs` L30-55, `trait_definition.rs` L175-199, `file.rs` L59-71 | which attribute makes an item an entity, and the entities found in an item, are parameters (see `AttrModel`, `TreeModel`); a path's qualifier stands in front of its segment; messages and labels are left out |
| `TogetherModel` | `migrate.rs` L18-40, `migrate/e2e_test.rs` L17-35 | the parts are those of `MigrateModel`, `HostModel`, `ArgEditModel`, `E2EModel` and `ImportModel`; what a test is made of is given |
| `WholeModel` | actions/entity.rs L490-580 and text_edit/common.rs (whole contracts, trait definitions, chain extensions, storage items, environments) with their texts in codegen/snippets.rs; the kind of an action is not modelled |

Not modelled at all: the VS Code extension, the Rust parser and macro expansion,
the per-entity diagnostics not named above, threads (the server loop is single threaded) and memory use.

## Trusted base

* Coq 8.16.1's kernel (the build compiles every file; nothing switches off a kernel check).
* No axioms: see the list at the end. `vcheck` also lists the constants of `Coq.ssr.ssrunder`, which are loaded with the
  standard library; no theorem depends on them.
* That the definitions cited line by line are faithful to `/repo`. Each definition's comment names its source and simplifications.
* Parameters standing for external code, over which the theorems quantify: Unicode tables (`unicode`, with `unicode_ok` where
  facts are needed), the file system (`fsys`), decoders of LSP parameters (`decoders`), the analyzer as seen from the server
  (`analyzer`), expression and path parsers, the hash function, and the texts of resolved names. A theorem's hypotheses say what it assumes of them.
* TOML: documents are tables; where text matters, the theorem assumes that the library reads back what it prints.

## Findings

Claims that are false of the code; each is a theorem ending in `_refuted` with a witness.

* C06, C60: a document notification that does not decode, a position past the end of the text, and a command range that ends before it starts end the server. C14 is the same for the command range.
  So does a text whose diagnostics fail: `#[ink((a) selector)]` is one (C81_malformed_refuted, C60_diagnostics_refuted; hovering and completing there: C106_hover_refuted), so that typing it ends the server.
* C106: asking for completions in front of the last brace of `impl S { #[ink( }` ends the analyzer: the range of the brace is looked up in the attribute, which ends before it (C106_arguments_refuted).
* C08: requirements admitting only 4.x are taken for ink! 5 and vice versa; a workspace root that is its own member is not found.
* C13: positions outside the text are accepted and denote other places.
* C23, C63: integer literals with underscores or suffixes, raw strings and escaped quotes are misread.
* C24: the reserved selector is that of `new`, not of its documented text; trait names with several segments are hashed wrongly.
* C27-C29, C68: nested `self` groups and line breaks in use trees, two glob imports or alias cycles (resolution never ends), item paths and lookups through nested modules.
* C31: after 253 attempts a used name is suggested.
* C32, C64: trailing line breaks and CRLF are lost when re-indenting, mixed indentation is reversed.
* C33: deletions that end inside a token and replacements inside white space.
* C36, C37: the fix for a duplicate macro drops arguments; the rename fix can create another overlap.
* C40-C42: removing nested, padded or only arguments, removing the last two arguments together, inserting after a trailing comma; the migration's event and derive edits overlap.
* C44, C45, C65: suggestions in scopes that allow nothing; three ink! 5 suggestions are reported themselves; `storage_item` with `scale_derive`.
* C46: flattening loses the path of an unknown macro.
* C47: a project name containing the placeholder.
* C48, C66: an unknown macro hides a misplaced attribute; a repeated attribute is counted twice.
* C50, C74: second `derive` of a `cfg_attr` and its condition; the attribute's text in doc comments.
* C51, C75: the ink! 5 fix drops derived traits, the ink! 4 fix for `derive()` is no valid list, a second `derive` is ignored.
* C77: "Add immutable self reference receiver" on `fn m(self)` gives `fn m(&selfself)`; "Make function un-variadic" on `args: ...` leaves `args: `.
* C80: "Remove function body" leaves a trait function without its semicolon.
* C81: `payable(foo)` and `backend(node =)` are not reported, raw strings are, and `#[ink(constructor)] #[ink(selector = @)]` escapes the ink! 5 rule.
* C82: the fixes `signature_topic = ""`, `node(url)` and `backend(5)` are reported again; fixes of an argument with parentheses leave the closing one.
* C84: `#[ink(xyz)]` is reported twice.
* C85: `::foo::scale::Encode` is accepted for an alias `foo`, `::Encode` for an import, `scale::Encode` for a module `scale` of the file; `self::Encode`, renamed re-exports and imports of a function are not recognised; two glob imports make the search endless.
* C86: for a type two modules deep the suggested path names the modules in reverse order and is reported again; an implementation for another type of the same name is enough; `type ErrorCode = ();`, which the analyzer itself inserts, is always reported; `Self::ErrorCode` over two lines is not reported.
* C87: the message added for a missing wildcard complement selector is always called `my_message`, also if the contract has one; for version 5 neither names nor ids of the existing functions of a chain extension are avoided; with exactly one chain extension the combined one keeps a field for a type `Extension2`; an event may get the name of an enum of its module and a constructor that of a plain function; a topic for a struct with unnamed fields is a named field; code in an item that is indented by eight columns is indented by sixteen.
* C88: constructors and messages go to the first impl block without a trait, also if it is for another type than the storage.
* C89: in a chain extension for ink! 5, a function that still has the `extension` argument uses up an id, so that the next suggestion is not the least free id; the fixes for repeated ids and for missing attributes do not know of each other and suggest the same id.
* C90: for `type ErrorCode` with neither `=` nor `;` the fix inserts ` = ();` in front of `type`.
* C91: calls of host functions stay unmigrated in conditions of `if` and `while`, in what a `for` iterates over, in guards of match arms, in blocks of `let … else` and in the arguments of calls that are migrated; a method `invoke_contract` of an unrelated type is renamed when it is called on the result of a method call; the imports of renamed functions stay, so that `invoke_contract_v1` is not imported, and an imported function with another name gets `_v1` added to that name; `build_create(..).instantiate_v1()` becomes `build_create(..).instantiate_v1().instantiate_v1()`.
* C92: the edits for `build_message(..).call(|c| c.balance(a))` overlap (one replaces the callback, one renames `balance` in it), for any contract whose message has the name and number of arguments of a method of the client; arguments of method calls on `client` keep `build_message` and callbacks; `upload`, `call`, `balance` and so on of unrelated values are changed; calls in macros such as `assert!` and in conditions are not; a test that has the signature of ink! 5 gets the generic parameters a second time; a trait that is imported already is imported again.
* C93: `use ink_e2e::{Client, build_message, MessageBuilder};` gets two overlapping edits (each takes the comma between the two items), so the edits cannot be applied; `use ink_e2e::{{build_message}};` and `use ::ink_e2e::build_message;` keep the deprecated import; so does the file around the module of the test, which sees it by `use super::*;`.
* C94: a local generic type hides the types in its arguments: in `fn f(a: Local<Bad>)` the type `Bad` is not checked.
* C95: an event outside any module (allowed for `#[ink::event]`) is offered for extraction, but nothing is extracted.
* C95: all ink! attributes of the struct are dropped, also `#[ink::scale_derive(Decode)]`.
* C95: the declaration is copied as it is; private fields stay private, and the contract, now in another package, can no longer name them.
* C96: right before the closing brace of a module, impl block or struct (with white space before it), a new entity is inserted behind the brace: the token at the cursor is the brace.
* C96: when several elements of a body are selected, a new entity is inserted behind the item.
* C96: a topic added at the cursor behind a field without a comma is not separated from it.
* C97: inside an item annotated `#[ink::scale_derive]` nothing is checked or reported: `#[ink(topic)]` on a field of such a struct is silently accepted, although it is reported for a struct without any annotation.
* C97: in version 5, `#[ink(function = 1)]` on anything but a function right in the trait (e.g. on `type ErrorCode`) is not checked; `#[ink(extension = 1)]` in version 4 is.
* C97: `#[ink(impl)]` on something that is no item (e.g. a field of a struct in a contract) is neither checked nor reported.
* C98: behind a string of several lines, completing an entity replaces all lines of the string (the walk to the beginning of the line stops only at white space and comments with a line break).
* C98: behind a comment of several lines that is indented, completing an entity replaces the whole comment (the indentation before the comment is taken for the one of the line).
* C98: an entity is offered on a line with a finished item, e.g. `use a::t;` (`t` is part of `struct`), and replaces it.
* C99: tests are offered in modules that are never compiled for tests, e.g. `#[cfg(not(test))]` (the text of the predicate is only searched for an operand `test`).
* C100: with the cursor after white space and before a closing bracket or parenthesis, completions replace that bracket: `#[ |]` becomes `#[ ink::event`, `#[ink(event, |)]` becomes `#[ink(event, anonymous]`, and `struct S { #[ink( |}` loses the brace of the structure (C100_brace_refuted).
* C100: behind a bracket and directly before a name, the new path is joined with it (`#[|event]` becomes `#[ink::eventevent]`).
* C100: completing an option that is in parentheses writes a second closing one (`backend(no|)` becomes `backend(node))`).
* C100: behind `ink::ink` the crate is written a second time (`#[ink::ink|]` becomes `#[ink::ink::event]`).
* C100: macros are offered (and inserted) in the values of arguments, e.g. `env = ink::c|`.
* C101: an impl block is among its own siblings: marked as a callable, it is moved into itself, by overlapping edits.
* C101: a callable is moved into the nearest impl block even if that is for a trait and another one is not.
* C102: a new attribute for an extension, function or selector always has the id 1, also if that id is in use in the same chain extension.
* C103: the fix for a contract's module that is not closed (neither a list nor a semicolon) replaces the whole contract by `{}`.
* C103: a topic on a field of a tuple struct is reported as not being on a struct field.
* C103: the message added to a trait definition may be called like a function of the trait that is not a message.
* C101: the lines of a string literal in a moved item are indented anew, which changes the string.
* C104: when `use ink_e2e::build_message;` is the last import of a module with e2e tests, the migration deletes it together with the line breaks behind it and inserts the new imports right behind it, in the middle of the deleted range: the edits overlap and cannot be applied.
* C104: a callable that is the last item of a contract without impl blocks and has a comment behind it is moved into a new impl block that is inserted right behind it; its deletion takes the white space in front of the comment as well, so the insertion lies in the deleted range.
* C105: a feature value such as `scale/full` stays although the dependency `scale` is removed, which Cargo refuses; the options of `ink_e2e` (e.g. its features) are lost, and it is raised in `dev-dependencies` only; dependencies written as an inline table are refused although the version is read from them.
* C106: `struct S(u8) /** d */ where` ends the analyzer when actions are asked for anywhere in it: the declaration would start behind the documentation comment and end before it (`ast_item_declaration_range`; the same function is called for diagnostics of custom types, which is not modelled).
* C107: `#[ink_e2e::test(additional_contracts = "..", backend(..))]` loses `backend` in the migration: without an `environment`, the whole list is deleted.
* C108: a name typed for a new environment changes the type but not the `impl` below it, which stays an implementation for `MyEnvironment` (two placeholders, where chain extensions and contracts have one).
* C108: the names of whole entities do not depend on the file, so adding one twice declares the same name twice; a new contract begins with an inner attribute wherever it is added.
* C52: white space inside a parameter and a trailing comma count as differences.
* C53: the suggested name can again start with `__ink_`.
* C54, C72: hovering a nested argument name; signature help for split constructors and `keep_attr`.
* C55, C57: resolve-only actions and kinds that were not announced.
* C58, C59: event extraction overwrites a dependency; an inherited ink entry is not migrated.
* C61, C62, C43: `#[ink((a) b)]` panics; white space after a trailing comma gives a nameless argument.

## Print Assumptions

The build prints the assumptions of every theorem named in MANIFEST.json (`Print Assumptions` follows each theorem in its file). For each of the 642 theorems below the answer is `Closed under the global context`: no axiom, neither of the standard library nor of our own, is used.

* C01: `C01_documents_mirror_client`, `C01_held_iff_open`, `C01_store`
* C02: `C02_answers_from_latest_text`, `C02_requests_read_only`, `C02_analyses_current`
* C03: `C03_published`, `C03_last_published`
* C04: `C04_one_response`, `C04_response_ids`
* C05: `C05_error_codes`, `C05_loop_end`
* C06: `C06_malformed_notification_refuted`, `C06_wellformed_notification_partial`
* C07: `C07_version_sticky`, `C07_recheck`, `C07_no_recheck_without_migration`
* C08: `C08_guess_meaning`, `C08_three_part_requirements`, `C08_right_version_partial`, `C08_right_version_refuted`, `C08_own_requirement`, `C08_inherited_requirement`, `C08_inherited_fallback`, `C08_default`, `C08_workspace_root_refuted`
* C09: `C09_command`, `C09_only_commands`
* C10: `C10_show_document`, `C10_only_responses`, `C10_created_project_opened`
* C11: `C11_encoding_negotiation`
* C12: `C12_position_meaning`, `C12_roundtrip`, `C12_total_injective`
* C13: `C13_positions_partial`, `C13_accepted_positions_exist_refuted`
* C14: `C14_client_ranges`, `C14_server_ranges_ordered`, `C14_range_roundtrip`, `C14_command_range_no_panic_refuted`, `C14_command_range_partial`
* C15: `C15_signatures`, `C15_answered`, `C15_answer_is_sent`, `C15_label_offset`, `C15_active_signature`, `C15_no_signatures`, `C15_parameter_label`, `C15_signature_kept`
* C16: `C16_package_name`, `C16_ascii_package_name`, `C16_refused_iff`
* C17: `C17_refused_iff`, `C17_ink_entry`, `C17_everything_else`, `C17_idempotent`, `C17_text_idempotent`, `C17_command`
* C18: `C18_first_free`, `C18_none_free`, `C18_extract_creates`, `C18_extract_contents`
* C19: `C19_nearest_manifest`, `C19_none`
* C20: `C20_argument_names`, `C20_other_argument_names`, `C20_argument_names_bijective`, `C20_macro_names`, `C20_other_macro_names`, `C20_macro_names_printed`
* C21: `C21_is_ink_attribute`, `C21_arguments`, `C21_macro_kind`, `C21_argument_kind`, `C21_primary_exists_unique`, `C21_no_arguments`, `C21_primary_stable`, `C21_primary_first`
* C22: `C22_arguments_are_segments`, `C22_every_list_is_covered`, `C22_every_list_is_separated`, `C22_tokens_preserved`, `C22_written_arguments_are_read`
* C23: `C23_integer_sound`, `C23_denotation_unique`, `C23_integer_complete_partial`, `C23_integer_complete_refuted`, `C23_only_integer_literals`, `C23_booleans`
* C24: `C24_number_round_trip`, `C24_bytes_round_trip`, `C24_equality`, `C24_four_bytes`, `C24_written`, `C24_complement`, `C24_computed`, `C24_total`, `C24_trait_partial`, `C24_trait_refuted`, `C24_reserved_text_refuted`
* C25: `C25_closest_exact`, `C25_closest_order`, `C25_closest_exists`, `C25_descendants_exact`, `C25_descendants_order`, `C25_in_scope_exact`
* C26: `C26_closest_ancestors`, `C26_closest_ancestors_attr`, `C26_nearest_unique`, `C26_ancestors`, `C26_ancestors_attr`, `C26_agrees_with_C25`
* C27: `C27_use_tree_partial`, `C27_scope_paths`, `C27_scope_aliases`, `C27_use_tree_refuted`, `C27_line_break_refuted`
* C28: `C28_depth`, `C28_terminates_partial`, `C28_two_globs_refuted`, `C28_alias_cycle_refuted`, `C28_glob_cycle_refuted`
* C29: `C29_item_path_partial`, `C29_item_path_refuted`
* C30: `C30_least_unused_id`, `C30_none_iff_exhausted`, `C30_repeated_suggestions_distinct`, `C30_suggestion_is_recorded`
* C31: `C31_first_free_name_partial`, `C31_preferred_if_free`, `C31_names_refuted`
* C32: `C32_indenting_partial`, `C32_dedenting_partial`, `C32_round_trip_partial`, `C32_moved_item_partial`, `C32_round_trip_refuted`
* C33: `C33_only_whitespace_added`, `C33_deletion_partial`, `C33_visible_text_kept_partial`, `C33_applied_unique`, `C33_visible_text_kept_refuted`, `C33_total_partial`, `C33_empty_lines_around`, `C33_empty_lines_inside`, `C33_same_line_around`, `C33_same_line_inside`, `C33_empty_lines_inside_refuted`
* C34: `C34_actions`, `C34_generic_actions`, `C34_nothing_lost`
* C35: `C35_diagnostics`
* C36: `C36_duplicate_arguments`, `C36_duplicate_macros`, `C36_only_duplicates`, `C36_one_argument_stays`, `C36_duplicate_macro_fix_refuted`
* C37: `C37_selectors_exact`, `C37_same_selector`, `C37_ids_exact`, `C37_suggested_selectors`, `C37_ids_read`, `C37_suggested_ids`, `C37_id_found`, `C37_selector_found`, `C37_selector_edit`, `C37_id_edit`, `C37_fixed_selectors`, `C37_fixed_ids`, `C37_rename_refuted`
* C38: `C38_wildcards`, `C38_selector_args`, `C38_complement_exact`, `C38_allowed`, `C38_beside`, `C38_fixes`, `C38_no_wildcard`
* C39: `C39_at_least_one`, `C39_at_most_one`, `C39_none`, `C39_accepted`
* C40: `C40_others_stay_partial`, `C40_only_argument`, `C40_nested_refuted`, `C40_padded_value_refuted`, `C40_only_argument_refuted`, `C40_conflicting_partial`
* C41: `C41_conflicting_arguments_partial`, `C41_e2e_migration_partial`, `C41_make_first`, `C41_conflicting_arguments_refuted`, `C41_e2e_migration_refuted`, `C41_migration_refuted`
* C42: `C42_primary_inserted_first`, `C42_inserted_last_partial`, `C42_list_added`, `C42_inserted_before_first`, `C42_inserted_last_refuted`
* C43: `C43_exact`, `C43_answered`, `C43_answered_written`, `C43_malformed_refuted`
* C44: `C44_no_repetition`, `C44_completion_arguments`, `C44_attribute_action_arguments`, `C44_item_action_arguments`, `C44_item_action_complete`, `C44_item_action_first`, `C44_item_action_macros`, `C44_completion_macros`, `C44_empty_scope_refuted`, `C44_typed_prefix`
* C45: `C45_no_conflict`, `C45_no_duplicate`, `C45_new_attribute`, `C45_macro`, `C45_chain_extension_refuted`, `C45_primary_suggestions_refuted`
* C46: `C46_same_arguments`, `C46_each_once`, `C46_offered`, `C46_unknown_macro_refuted`
* C47: `C47_valid_names`, `C47_substitution_partial`, `C47_substitution_refuted`
* C48: `C48_sound`, `C48_once`, `C48_complete_partial`, `C48_complete_refuted`, `C48_no_descendants`, `C48_nothing_below`, `C48_file`
* C49: `C49_ids`, `C49_written`
* C50: `C50_standalone`, `C50_conditional_partial`, `C50_other_attributes`, `C50_moved`, `C50_second_derive_refuted`, `C50_condition_refuted`
* C51: `C51_existing_v4_partial`, `C51_new`, `C51_existing_v5_refuted`, `C51_empty_derive_refuted`
* C52: `C52_undeclared`, `C52_missing`, `C52_missing_iff`, `C52_missing_fixed`, `C52_stub_signature`, `C52_signature_reported`, `C52_signature_sound`, `C52_whitespace_refuted`, `C52_trailing_comma_refuted`, `C52_not_message`
* C53: `C53_reported_exactly`, `C53_suggestion_partial`, `C53_suggestion_refuted`
* C54: `C54_first_argument`, `C54_otherwise_the_attribute`, `C54_range_inside`, `C54_outside`, `C54_name_hit`, `C54_documentation_distinct`, `C54_suggestions_documented`, `C54_nested_name_refuted`
* C55: `C55_action_dropped_iff`, `C55_trigger_mechanism`, `C55_edit_action`, `C55_no_edit_lost`, `C55_completion_snippets`, `C55_resolve_announced_refuted`
* C56: `C56_primary_attribute`, `C56_primary_attribute_exists`
* C57: `C57_kinds_announced_refuted`, `C57_announced_kinds`
* C58: `C58_dependency_added_partial`, `C58_no_dependency_lost_refuted`
* C59: `C59_migrated_manifest_is_v5_refuted`, `C59_migrated_manifest_partial`
* C60: `C60_no_crash_refuted`, `C60_position_past_end_refuted`, `C60_diagnostics_refuted`, `C60_inlay_refuted`, `C60_no_crash_partial`
* C61: `C61_argument_range_partial`, `C61_range_end`, `C61_argument_range_refuted`
* C62: `C62_trailing_comma_partial`, `C62_trailing_comma_refuted`
* C63: `C63_string_value_partial`, `C63_string_value_refuted`
* C64: `C64_indentation_partial`, `C64_indentation_reversed`, `C64_indentation_refuted`
* C65: `C65_documented_accepted`, `C65_only_documented_partial`, `C65_storage_item_scale_derive_refuted`, `C65_incomplete_refuted`, `C65_conflict_fix`, `C65_anonymous_signature`
* C66: `C66_closest_entities`, `C66_storage`, `C66_callables`, `C66_callables_once`, `C66_file_entities`, `C66_file_entities_once`, `C66_contract`, `C66_file`, `C66_impls_sound`, `C66_impls_once`, `C66_impls_cover`, `C66_closest_once_refuted`, `C66_closest_once`
* C67: `C67_root_items`, `C67_callables`
* C68: `C68_current_module_partial`, `C68_parent_module_partial`, `C68_file_partial`, `C68_file_module_partial`, `C68_nested_refuted`, `C68_super_super_refuted`
* C69: `C69_diagnostic`, `C69_completion`, `C69_hover`, `C69_inlay_hint`, `C69_dropped`
* C70: `C70_created_files`, `C70_create_written`, `C70_extract_written`, `C70_project_root`
* C71: `C71_command`, `C71_resolve`
* C72: `C72_split_constructor_refuted`, `C72_entity_signature`, `C72_macro_signature`, `C72_companion`, `C72_open`, `C72_keep_attr_refuted`
* C73: `C73_extra_args`, `C73_values`, `C73_missing_args`, `C73_missing_args_sound`
* C74: `C74_moved_partial`, `C74_anonymous_partial`, `C74_all_events`, `C74_moved_refuted`
* C75: `C75_complete`, `C75_exact_partial`, `C75_second_derive_refuted`
* C76: `C76_exact`, `C76_clean`, `C76_documentation`, `C76_types`
* C77: `C77_fixes_partial`, `C77_terminates_partial`, `C77_receiver_refuted`, `C77_variadic_refuted`, `C77_snippets`
* C78: `C78_exact`, `C78_fixes_end`
* C79: `C79_exact`, `C79_fixed`
* C80: `C80_exact`, `C80_fixed`, `C80_body_refuted`
* C81: `C81_accepts`, `C81_reports_partial`, `C81_one_report`, `C81_no_panic`, `C81_overlooked_refuted`, `C81_raw_string_refuted`, `C81_split_attribute_refuted`, `C81_malformed_refuted`
* C82: `C82_value_fix_partial`, `C82_bare_fix`, `C82_missing_option_fixes`, `C82_other_option_fixes`, `C82_value_to_option_fix`, `C82_option_accepted`, `C82_fixes_refuted`, `C82_parenthesis_refuted`
* C83: `C83_next_token`, `C83_names`, `C83_outside`, `C83_text`, `C83_value_partial`, `C83_ids`
* C84: `C84_unknown_attributes`, `C84_clean`, `C84_once_refuted`
* C85: `C85_recognised`, `C85_sound_partial`, `C85_full_path`, `C85_reexported`, `C85_one_answer`, `C85_crate_paths`, `C85_only_crates`, `C85_self_imports`, `C85_global_refuted`, `C85_global_name_refuted`, `C85_local_module_refuted`, `C85_self_path_refuted`, `C85_renamed_crate_refuted`, `C85_renamed_refuted`, `C85_two_globs_refuted`, `C85_function_use_refuted`
* C86: `C86_environment_impl`, `C86_error_code_impl`, `C86_fix_accepted`, `C86_error_code_fix_accepted`, `C86_resolved`, `C86_error_code_resolved`, `C86_default_environment`, `C86_types`, `C86_candidate`, `C86_suggestion_partial`, `C86_error_code_suggestion_partial`, `C86_self_error_code`, `C86_one_report`, `C86_suggestion_refuted`, `C86_other_type_refuted`, `C86_unit_error_code_refuted`, `C86_line_break_refuted`
* C87: `C87_storage`, `C87_event`, `C87_event2`, `C87_topic`, `C87_callable_in_impl`, `C87_callable_at`, `C87_trait_message`, `C87_error_code`, `C87_extension`, `C87_test`, `C87_e2e_test`, `C87_combine`, `C87_selector_message`, `C87_selector_name_refuted`, `C87_callable_name_refuted`, `C87_event_name_refuted`, `C87_function_refuted`, `C87_combine_refuted`, `C87_indent_refuted`, `C87_tuple_topic_refuted`
* C88: `C88_callable_alone`, `C88_callable`, `C88_callable_elsewhere`, `C88_new_impl`, `C88_by_scope`, `C88_attribute`, `C88_other_type_refuted`, `C88_no_list`
* C89: `C89_functions`, `C89_trait_functions`, `C89_wildcards_each`, `C89_wildcards`, `C89_only_wildcard`, `C89_extension_argument`, `C89_extension_argument_alone`, `C89_least_refuted`, `C89_same_id_refuted`
* C90: `C90_alias`, `C90_fixed`, `C90_no_name`, `C90_superfluous`, `C90_no_error_code`, `C90_type_refuted`
* C91: `C91_migrated`, `C91_condition_refuted`, `C91_places_refuted`, `C91_arguments_refuted`, `C91_other_method_refuted`, `C91_again_refuted`, `C91_import_refuted`, `C91_alias_refuted`
* C92: `C92_body`, `C92_imports_once`, `C92_clear`, `C92_overlap_refuted`, `C92_arguments_refuted`, `C92_other_method_refuted`, `C92_missed_refuted`, `C92_signature`, `C92_signature_bare`, `C92_signature_again_refuted`
* C93: `C93_module_partial`, `C93_file_partial`, `C93_deprecated`, `C93_untouched`, `C93_overlap_refuted`, `C93_nested_refuted`, `C93_leading_refuted`, `C93_outer_refuted`
* C94: `C94_checked`, `C94_reports`, `C94_all`, `C94_hidden_refuted`
* C95: `C95_extracts`, `C95_only_events`, `C95_standalone_refuted`, `C95_derive_refuted`
* C96: `C96_body`, `C96_brace_partial`, `C96_declaration`, `C96_function`, `C96_semicolon`, `C96_field`, `C96_attribute`, `C96_root`, `C96_only`, `C96_brace_refuted`, `C96_selection_refuted`, `C96_topic_refuted`
* C97: `C97_checked_partial`, `C97_reported_partial`, `C97_covered_partial`, `C97_checks_entities`, `C97_reports`, `C97_quiet`, `C97_scale_derive_refuted`, `C97_function_refuted`, `C97_impl_refuted`
* C98: `C98_completions_partial`, `C98_quiet`, `C98_once`, `C98_string_refuted`, `C98_comment_refuted`, `C98_finished_refuted`, `C98_apart`
* C99: `C99_contract`, `C99_block`, `C99_trait`, `C99_struct`, `C99_data`, `C99_module`, `C99_file`, `C99_other_items`, `C99_once`, `C99_belongs`, `C99_belongs_in_file`, `C99_tests`, `C99_tests_only_partial`, `C99_not_test_refuted`
* C100: `C100_macro_partial`, `C100_opened_partial`, `C100_keyword`, `C100_keyword_unclosed`, `C100_keyword_none`, `C100_field`, `C100_word`, `C100_delimiter_partial`, `C100_options_partial`, `C100_bracket_refuted`, `C100_joined_refuted`, `C100_parenthesis_refuted`, `C100_brace_refuted`, `C100_option_refuted`, `C100_value_refuted`, `C100_crate_refuted`, `C100_in_attribute`
* C101: `C101_no_contract`, `C101_callables`, `C101_self_refuted`, `C101_trait_impl_refuted`, `C101_string_refuted`
* C102: `C102_macro`, `C102_new_argument`, `C102_extended_partial`, `C102_list_added`, `C102_unclosed`, `C102_attribute_partial`, `C102_attribute_list_added`, `C102_declaration`, `C102_cursor`, `C102_selection`, `C102_total`, `C102_target`, `C102_formatted`, `C102_insertion_formatted`, `C102_id_refuted`
* C103: `C103_module_inline`, `C103_bodiless`, `C103_not_module`, `C103_not_module_unmarked`, `C103_fitting_partial`, `C103_kind`, `C103_tuple_topic_refuted`, `C103_too_many`, `C103_storage_surplus`, `C103_no_storage`, `C103_enough`, `C103_into_impl`, `C103_into_new_impl`, `C103_trait_message`, `C103_impl_callables`, `C103_cfg`, `C103_self_args`, `C103_namespace_inherent`, `C103_namespace_partial`, `C103_namespace_only`, `C103_unclosed_refuted`, `C103_trait_name_refuted`
* C104: `C104_tests`, `C104_test`, `C104_formatted_partial`, `C104_apart`, `C104_done`, `C104_performed`, `C104_migration`, `C104_migrated_partial`, `C104_hosts`, `C104_import_refuted`, `C104_moved_refuted`
* C105: `C105_features_partial`, `C105_others`, `C105_features_refuted`, `C105_options_refuted`, `C105_elsewhere_refuted`, `C105_inline_refuted`
* C106: `C106_past_end`, `C106_entities`, `C106_macros`, `C106_attributes`, `C106_items_partial`, `C106_extractions`, `C106_hover_partial`, `C106_hover_written`, `C106_arguments_partial`, `C106_arguments_refuted`, `C106_hover_refuted`, `C106_items_refuted`, `C106_inside_character_refuted`
* C107: `C107_others_stay_partial`, `C107_list_goes`, `C107_unchanged`, `C107_backend_refuted`
* C108: `C108_added`, `C108_untouched`, `C108_error_code`, `C108_storage`, `C108_environment_refuted`, `C108_same_names_refuted`, `C108_inner_refuted`
