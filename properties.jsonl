{"id": "C01", "title": "Server's document store mirrors the client's open documents", "statement": "After any sequence of didOpen/didChange/didClose notifications, the text and version the server holds for a URI are exactly those of the last accepted event for that URI: a Rust document opened and not closed since is held with the text of its last (non-empty) change; a document that is closed, never opened, or only ever opened with another language id is not held (re-opening a held document with another language id is ignored); events about other URIs have no effect on it.", "quantifier": "every history of notifications over every set of URIs, texts and versions", "why_tests_cant": "The state after n notifications depends on the whole interleaving over all URIs; tests fix a handful of short histories.", "anchors": ["crates/lsp-server/src/memory.rs: Memory::insert, get, update, remove, take_changes", "crates/lsp-server/src/dispatch/handlers/notification.rs: handle_did_open_text_document, handle_did_change_text_document, handle_did_close_text_document"]}
{"id": "C02", "title": "Answers are computed from the latest text", "statement": "Whenever the server starts processing a message, the analysis it uses for a URI exists iff the document is held, and was built from exactly the held text and version; processing a request never changes the held documents or the text any analysis was built from.", "quantifier": "every history of client messages (requests, notifications, responses) in any order", "why_tests_cant": "Staleness only shows up after particular interleavings of edits, closes, re-opens and requests.", "anchors": ["crates/lsp-server/src/dispatch.rs: Dispatcher::handle_request, handle_notification, process_changes", "crates/lsp-server/src/memory.rs: Memory::take_changes"]}
{"id": "C03", "title": "Diagnostics are published for exactly the documents that changed, with the right version", "statement": "Each accepted document event makes the server publish diagnostics for that URI exactly once (if it parses as a URL), computed from the new text and tagged with its version; closing publishes an empty, unversioned list; no other document's diagnostics are republished, and messages that change no document publish nothing.", "quantifier": "every message history", "why_tests_cant": "A missing or spurious publication depends on leftover change marks from earlier messages in the history.", "anchors": ["crates/lsp-server/src/dispatch.rs: Dispatcher::process_changes", "crates/lsp-server/src/dispatch/actions.rs: publish_diagnostics", "crates/lsp-server/src/memory.rs"]}
{"id": "C04", "title": "Every request gets exactly one response, with its own id", "statement": "For every request the server processes without crashing (see C60), it sends exactly one response, and that response carries the request's id; it is sent before any message caused by a later client message; notifications and responses from the client never cause a response to be sent.", "quantifier": "every message history, every request id and method, every outcome of the request handlers", "why_tests_cant": "Must hold for every method, every parameter value, every handler outcome and every interleaving.", "anchors": ["crates/lsp-server/src/dispatch.rs: main_loop, Dispatcher::handle_request, process_command_response", "crates/lsp-server/src/dispatch/routers/request.rs: RequestRouter::process, RequestRouter::finish"]}
{"id": "C05", "title": "Error codes classify failures and request failures never stop the server", "statement": "An unsupported method is answered with MethodNotFound, a supported method with undecodable params with InvalidParams, a failing handler with InternalError, and a success with a result and no error; exactly one handler runs for a supported method with decodable params and none otherwise; the loop ends only on a completed shutdown handshake, an exit notification, a protocol/transport error or a recognised notification with undecodable params.", "quantifier": "every request (method, params) and every list of registered handlers", "why_tests_cant": "The router chain must be right for every method/handler table position and every decode outcome.", "anchors": ["crates/lsp-server/src/dispatch/routers/request.rs: RequestRouter", "crates/lsp-server/src/dispatch/routers/notification.rs: NotificationRouter", "crates/lsp-server/src/dispatch.rs: main_loop"]}
{"id": "C06", "title": "The server does not die on malformed document notifications", "statement": "A client notification whose params cannot be decoded does not end the server's session.", "quantifier": "every notification", "why_tests_cant": "Needs all malformed payloads at all points of a session.", "anchors": ["crates/lsp-server/src/dispatch/routers/notification.rs: NotificationRouter::process", "crates/lsp-server/src/dispatch.rs: handle_notification, main_loop"]}
{"id": "C07", "title": "ink! language version of an open document is sticky, and re-detected after migration", "statement": "The language version used to analyse a document is the one detected from the project's manifest when it was first analysed after being opened, and stays so across edits, until the document is closed or a migration was requested; each migration request makes exactly the next two re-analyses (of any documents) re-detect the version.", "quantifier": "every message history and every manifest state over time", "why_tests_cant": "Depends on a hidden countdown shared by all documents across the whole history.", "anchors": ["crates/lsp-server/src/dispatch.rs: Dispatcher::process_changes, handle_request (version_check_fuel), version_check"]}
{"id": "C08", "title": "Version requirement strings are mapped to the right ink! language version", "statement": "A project is analysed as ink! 5 iff its manifest's ink requirement admits major version 5 (or is a wildcard), or it has a path/git dependency without version; otherwise as ink! 4.", "quantifier": "every manifest requirement string", "why_tests_cant": "Infinite set of requirement strings; unanchored pattern matching has corner cases.", "anchors": ["crates/lsp-server/src/dispatch.rs: ProjectVersion::guess_version, is_v5_version_string, parse_ink_project_version"]}
{"id": "C09", "title": "Workspace edits follow an empty reply, and only when asked for", "statement": "workspace/applyEdit is sent only as the immediate consequence of a successful createProject, migrateProject or extractEvent command; it is preceded by an empty success reply to that command, its id identifies the command and target uri, and its edits are those computed by the handler; commands that create files require the client's resource-creation capability, otherwise the raw result is returned and no edit is sent.", "quantifier": "every message history, client capability set and command outcome", "why_tests_cant": "Combination of capabilities x commands x outcomes x histories.", "anchors": ["crates/lsp-server/src/dispatch.rs: Dispatcher::process_command_response", "crates/lsp-server/src/utils.rs: can_create_workspace_resources"]}
{"id": "C10", "title": "Newly created project's lib.rs is opened exactly for project-creation replies", "statement": "A window/showDocument request is sent iff the client responds to a request whose id is initialize-project::<url>, and it targets lib.rs under that url.", "quantifier": "every client response id", "why_tests_cant": "Unbounded set of ids; only prefix matches must trigger.", "anchors": ["crates/lsp-server/src/dispatch.rs: Dispatcher::handle_response, request_id prefix consts"]}
{"id": "C11", "title": "Negotiated position encoding is one both sides support", "statement": "The position encoding used is UTF-8 or UTF-32 only if the client listed it, the first such in the client's order; otherwise UTF-16; the announced capability and the one used to translate positions agree.", "quantifier": "every client capability list", "why_tests_cant": "All orderings and unknown encodings.", "anchors": ["crates/lsp-server/src/utils.rs: position_encoding", "crates/lsp-server/src/initialize.rs: server_capabilities", "crates/lsp-server/src/dispatch.rs: process_changes"]}
{"id": "C12", "title": "Offset/position translation round-trips in every encoding", "statement": "For every document text and every offset on a character boundary, translating it to an LSP position in the negotiated encoding and back yields the same offset; the position's line is the number of line feeds before the offset and its column the number of code units of the encoding between the line start and the offset; offsets past the end or inside a character have no position.", "quantifier": "every text (any mix of 1-4 byte characters and newlines), every offset, all three encodings", "why_tests_cant": "Unbounded texts; errors only show with multi-byte characters before the offset on the same line.", "anchors": ["crates/lsp-server/src/translator/to_lsp.rs: position, range", "crates/lsp-server/src/translator/from_lsp.rs: offset, text_range", "crates/lsp-server/src/translator.rs: PositionTranslationContext"]}
{"id": "C13", "title": "Client positions outside the text are rejected", "statement": "A client position whose line or column does not exist in the document is rejected or clamped, never turned into an offset of another line or beyond the text.", "quantifier": "every text and position", "why_tests_cant": "Adversarial positions for all texts.", "anchors": ["crates/lsp-server/src/translator/from_lsp.rs: offset, text_range"]}
{"id": "C14", "title": "Ranges translate to ordered ranges or are rejected", "statement": "A client range whose end precedes its start is rejected (no panic) and any accepted range translates to an ordered text range; a text range translates to an ordered LSP range (or none).", "quantifier": "every text, every pair of positions, every encoding", "why_tests_cant": "All pairs of positions and texts.", "anchors": ["crates/lsp-server/src/translator/from_lsp.rs: text_range", "crates/lsp-server/src/translator/to_lsp.rs: range", "crates/lsp-server/src/dispatch/handlers/request.rs: parse_range"]}
{"id": "C15", "title": "Signature help always points at an existing signature and parameter", "statement": "Every signature help answer has an in-range active signature, an in-range active parameter for each signature, and parameter offsets that delimit exactly the parameter's text inside the label, in order and without overlap; re-triggering keeps the previously active signature only if it is still offered.", "quantifier": "every attribute text, cursor position and previous signature help state", "why_tests_cant": "All argument lists and all previous client states.", "anchors": ["crates/analyzer/src/analysis/signature_help.rs: add_signature, signature_help", "crates/lsp-server/src/translator/to_lsp.rs: signature_help"]}
{"id": "C16", "title": "Extracted-event package and crate names are valid Cargo names", "statement": "A package name produced from an event name is non-empty, starts with a letter, contains only lowercase letters, digits, hyphens or underscores, has no leading, trailing or doubled hyphen, and the crate name is the same with hyphens replaced by underscores; a name is refused iff it has no usable character or does not start with a letter.", "quantifier": "every event name", "why_tests_cant": "Unbounded strings.", "anchors": ["crates/lsp-server/src/dispatch/handlers/command.rs: package_name"]}
{"id": "C17", "title": "Manifest migration is idempotent and only touches ink-related entries", "statement": "Migrating a Cargo.toml sets the ink dependency to 5.0.0 keeping its other keys, removes scale and scale-info and their std features, bumps ink_e2e, leaves every other entry and the order of the remaining features unchanged, is idempotent, and refuses manifests without an ink dependency.", "quantifier": "every manifest document", "why_tests_cant": "Unbounded manifests; preservation is about everything not mentioned.", "anchors": ["crates/lsp-server/src/dispatch/handlers/command.rs: migrate_cargo_toml"]}
{"id": "C18", "title": "Event extraction never overwrites an existing package directory", "statement": "The directory chosen for an extracted event is one that does not exist, is the first free one of name, name1, ..., name10, and the command fails if none is free.", "quantifier": "every file-system state and event name", "why_tests_cant": "All occupancy patterns.", "anchors": ["crates/lsp-server/src/dispatch/handlers/command.rs: handle_extract_event"]}
{"id": "C19", "title": "The manifest used for a file is the nearest one", "statement": "The Cargo.toml associated with a file is the one in its directory or else in the nearest ancestor directory, looking at most ten levels up; none is reported iff none of these exists.", "quantifier": "every directory structure and path depth", "why_tests_cant": "All depths and occupancy patterns.", "anchors": ["crates/lsp-server/src/utils.rs: find_cargo_toml"]}
{"id": "C20", "title": "Attribute and argument names classify exactly", "statement": "Every ink! argument/macro name is recognised as its own kind and printed back to the same name; every other name is Unknown; recognition is case-sensitive.", "quantifier": "every string", "why_tests_cant": "All strings that are not names must be unknown.", "anchors": ["crates/ir/src/attrs/args.rs: InkArgKind::from, Display", "crates/ir/src/attrs.rs: InkMacroKind::from, Display, path_as_str"]}
{"id": "C21", "title": "The kind of an attribute is its primary argument", "statement": "For every ink! attribute the reported kind is: the named macro for two-segment paths, Unknown for others without arguments, and for argument attributes the first written argument among those of the smallest rank (entity kinds before complementary before unknown); adding an unknown or complementary argument after an entity argument never changes the kind.", "quantifier": "every attribute path and argument list", "why_tests_cant": "All argument lists and permutations.", "anchors": ["crates/ir/src/attrs.rs: InkAttribute::cast, InkAttributeKind::cmp", "crates/ir/src/attrs/args.rs: ink_arg_kind_sort_order"]}
{"id": "C22", "title": "Attribute arguments are parsed exactly as written", "statement": "For every token sequence between the attribute's parentheses the parsed arguments are, in order, the non-empty comma-separated segments at nesting depth zero; each argument's name is what precedes its first '=' and its value what follows; printing arguments and parsing them back yields the same arguments; no argument's tokens are lost or shared.", "quantifier": "every token sequence, including malformed ones", "why_tests_cant": "Unbounded (malformed) token sequences while typing.", "anchors": ["crates/ir/src/attrs/parser.rs: parse_meta_items, parse_meta_name, parse_meta_value"]}
{"id": "C23", "title": "Integer and boolean argument values denote what Rust says they denote", "statement": "An integer-literal argument value is read as the number the Rust literal denotes, in every radix and with underscores and suffixes.", "quantifier": "every integer literal", "why_tests_cant": "All literals.", "anchors": ["crates/ir/src/attrs/meta/value.rs: MetaValue::as_int, as_u32, as_bool"]}
{"id": "C24", "title": "Selectors determine and are determined by four bytes", "statement": "A u32 selector and its big-endian 4-byte form determine each other; the computed selector of a callable depends only on its namespace/trait/name path bytes and always yields four bytes; selector equality is equality of the four bytes.", "quantifier": "every u32 and every name/path", "why_tests_cant": "2^32 values and all strings.", "anchors": ["crates/ir/src/selector.rs: Selector::compose, into_be_u32, SelectorArg::as_u32"]}
{"id": "C25", "title": "Closest ink! descendants are exactly the nearest annotated ones", "statement": "For every syntax tree, the closest ink! descendants of a node are exactly the ink! attributes of descendant nodes with no annotated node strictly between, each once and in source order; closest descendants exist iff any descendant attribute exists.", "quantifier": "every syntax tree", "why_tests_cant": "Unbounded trees.", "anchors": ["crates/ir/src/tree/utils.rs: ink_attrs_closest_descendants, ink_attrs_descendants, ink_attrs_in_scope"]}
{"id": "C26", "title": "Closest ink! ancestors are exactly the nearest annotated ones", "statement": "The closest ink! ancestors of a node are the ink! attributes of its nearest annotated ancestor; a node is a closest descendant of an annotated item iff that item is its closest annotated ancestor.", "quantifier": "every syntax tree and node", "why_tests_cant": "Unbounded trees.", "anchors": ["crates/ir/src/tree/utils.rs: ink_attrs_ancestors, ink_attrs_closest_ancestors, ink_parent"]}
{"id": "C27", "title": "Use trees are flattened to exactly the paths they import", "statement": "Every use declaration, however nested, is flattened to exactly the (path, alias) pairs it imports.", "quantifier": "every use tree", "why_tests_cant": "Unbounded nesting.", "anchors": ["crates/ir/src/tree/ast_ext.rs: flatten_use_tree, simple_use_paths_and_aliases_in_scope"]}
{"id": "C28", "title": "Path resolution terminates", "statement": "Resolving a path to an item or external crate path terminates for every source file.", "quantifier": "every source file and path", "why_tests_cant": "Non-termination shows only on cyclic inputs, and cannot be concluded by a test.", "anchors": ["crates/ir/src/tree/ast_ext.rs: resolve_item", "crates/analyzer/src/resolution.rs: match_path_to_external_crate_in_scope, external_crate_uses_and_aliases_in_scope"]}
{"id": "C29", "title": "Suggested item paths resolve to the item", "statement": "The path suggested for an item is crate:: followed by its enclosing modules, outermost first, and the item's name.", "quantifier": "every nesting of modules", "why_tests_cant": "Any depth.", "anchors": ["crates/analyzer/src/resolution.rs: item_path"]}
{"id": "C30", "title": "Suggested ids are unused", "statement": "A suggested selector/extension/function id is at least the preferred id (or 1), is not one of the ids in use, and is the least such; none is suggested iff all ids from there to the maximum are in use; repeated suggestions within one diagnostics run are pairwise distinct.", "quantifier": "every set of used ids, every preferred id", "why_tests_cant": "Any set of ids up to the 32-bit space.", "anchors": ["crates/analyzer/src/analysis/utils.rs: suggest_unique_id, suggest_unique_id_mut"]}
{"id": "C31", "title": "Suggested names are unused", "statement": "A suggested item name is not used by any existing item, and is the preferred name if that is free, otherwise the preferred name with the least free suffix from 2.", "quantifier": "every set of used names", "why_tests_cant": "Sets of any size.", "anchors": ["crates/analyzer/src/analysis/utils.rs: suggest_unique_name"]}
{"id": "C32", "title": "Re-indenting preserves the code", "statement": "Indenting or dedenting a moved item changes only leading indentation of its lines: lines keep their count, order and content, blank lines stay blank, and removing an indentation that was applied gives back the text.", "quantifier": "every text and indentation", "why_tests_cant": "All texts, including blank lines, CRLF and trailing newlines.", "anchors": ["crates/analyzer/src/analysis/utils.rs: apply_indenting, reduce_indenting", "crates/analyzer/src/analysis/actions.rs: move_item_with_affixes"]}
{"id": "C33", "title": "Edit formatting adds only whitespace", "statement": "Formatting an insert or replacement keeps its range and adds only whitespace around its text (the same around the snippet); formatting a deletion only extends it over whitespace; so the non-whitespace text of the edited file is exactly that of applying the unformatted edit.", "quantifier": "every file and edit", "why_tests_cant": "All files, token contexts and edits.", "anchors": ["crates/analyzer/src/analysis/text_edit.rs: format_edit, affix_edit_between_whitespace_or_file_boundaries, affix_edit_after_whitespace_or_bof"]}
{"id": "C34", "title": "Code actions are in range, without duplicates and ordered by kind", "statement": "The code actions offered for a range are quick fixes overlapping it by containment plus generic actions; no two have the same edits; migrations come first, then quick fixes, refactors and extractions, otherwise in discovery order; every discovered edit list is represented by its first discoverer.", "quantifier": "every list of diagnostics and generic actions and every range", "why_tests_cant": "All combinations.", "anchors": ["crates/analyzer/src/analysis.rs: Analysis::actions", "crates/analyzer/src/analysis/actions.rs: actions, ActionKind"]}
{"id": "C35", "title": "Diagnostics are reported once", "statement": "No two reported diagnostics share range, severity and (unformatted) quick-fix edits; each discovered diagnostic is represented by the first one with the same range, severity and edits; order of discovery is preserved and formatting does not add or drop any.", "quantifier": "every list of raw diagnostics", "why_tests_cant": "All lists.", "anchors": ["crates/analyzer/src/analysis/diagnostics.rs: diagnostics"]}
{"id": "C36", "title": "Duplicate attributes and arguments are reported exactly", "statement": "An ink! argument or macro on an item is reported as a duplicate iff the same kind already occurred earlier on that item; unknown kinds never are; after removing the reported ones no duplicates remain and every kind that was present still is.", "quantifier": "every list of attributes", "why_tests_cant": "All lists.", "anchors": ["crates/analyzer/src/analysis/diagnostics/common.rs: ensure_no_duplicate_attributes_and_arguments"]}
{"id": "C37", "title": "Overlapping selectors/ids are reported exactly and fixed uniquely", "statement": "A constructor (message, extension) is reported as overlapping iff an earlier one of the same class has the same selector (id); applying the suggested ids of one run leaves no overlap.", "quantifier": "every list of callables", "why_tests_cant": "All lists and ids.", "anchors": ["crates/analyzer/src/analysis/diagnostics/contract.rs: ensure_no_overlapping_selectors", "crates/analyzer/src/analysis/diagnostics/chain_extension.rs: ensure_no_overlapping_ids"]}
{"id": "C38", "title": "Wildcard selector rules are enforced exactly", "statement": "At most one wildcard selector per callable class goes unreported; in ink! 5 no wildcard-selector diagnostics are reported iff there is no complement without wildcard, and with a wildcard there is exactly the one complement message beside it.", "quantifier": "every list of messages with selectors", "why_tests_cant": "All lists and orders.", "anchors": ["crates/analyzer/src/analysis/diagnostics/contract.rs: ensure_at_most_one_wildcard_selector, validate_wildcard_complement_selector"]}
{"id": "C39", "title": "Quantity rules are enforced exactly", "statement": "At-least-one, exactly-one and at-most-one rules report nothing iff the number of items satisfies the rule; otherwise at-least-one reports once, and at-most-one reports each item after the first.", "quantifier": "every list of items", "why_tests_cant": "All list lengths.", "anchors": ["crates/analyzer/src/analysis/diagnostics/common.rs: ensure_at_least_one_item, ensure_exactly_one_item, ensure_at_most_one_item", "crates/analyzer/src/analysis/diagnostics/file.rs", "crates/analyzer/src/analysis/diagnostics/contract.rs: ensure_storage_quantity"]}
{"id": "C40", "title": "Removing an argument leaves a well-formed attribute with the other arguments", "statement": "Deleting the range computed for an ink! argument leaves all other arguments and exactly the commas between them; removing the only argument removes the attribute (or the parenthesised list for macros).", "quantifier": "every argument list (with or without trailing comma) and argument", "why_tests_cant": "All list lengths and positions.", "anchors": ["crates/analyzer/src/analysis/utils.rs: ink_arg_and_delimiter_removal_range, token_and_delimiter_range"]}
{"id": "C41", "title": "Edits of one code action or quick fix never overlap", "statement": "The text edits of a single quick fix, code action or migration never overlap, so that they can be applied simultaneously.", "quantifier": "every source file", "why_tests_cant": "All files and all combinations of edits.", "anchors": ["crates/analyzer/src/analysis/diagnostics/common.rs: validate_entity_attributes", "crates/analyzer/src/analysis/migrate/e2e_test.rs: attribute", "crates/analyzer/src/analysis/migrate.rs: migrate"]}
{"id": "C42", "title": "Inserting an argument leaves a well-formed attribute", "statement": "Inserting a suggested argument at the computed offset with the computed affixes yields an attribute whose arguments are the old ones plus the new one, properly separated, primary arguments first; unclosed attributes are left alone.", "quantifier": "every argument list layout", "why_tests_cant": "All layouts incl. whitespace and trailing commas.", "anchors": ["crates/analyzer/src/analysis/utils.rs: ink_arg_insert_offset_and_affixes, first_ink_arg_insert_offset_and_affixes"]}
{"id": "C43", "title": "Inlay hints cover exactly the typed arguments in range", "statement": "For a requested range, a hint is returned for exactly the (nested) arguments that take a value and lie inside the range, positioned right after their name.", "quantifier": "every set of attributes and every range", "why_tests_cant": "All files and ranges.", "anchors": ["crates/analyzer/src/analysis/inlay_hints.rs: inlay_hints"]}
{"id": "C44", "title": "Argument and macro suggestions never introduce duplicates or conflicts", "statement": "A suggested ink! argument or macro is not already present on the item, is a valid sibling of the item's primary ink! attribute, is valid for the closest ink! scope, and in ink! 5 anonymous and signature_topic are never suggested beside each other; filters only remove suggestions.", "quantifier": "every item, attribute list and scope", "why_tests_cant": "All combinations.", "anchors": ["crates/analyzer/src/analysis/utils.rs: remove_duplicate_ink_arg_suggestions, remove_conflicting_ink_arg_suggestions, remove_invalid_ink_arg_suggestions_for_parent_ink_scope, remove_duplicate_conflicting_and_invalid_scope_ink_arg_suggestions, primary_ink_attribute_candidate"]}
{"id": "C45", "title": "What is suggested is not diagnosed", "statement": "An ink! argument the analyzer suggests next to an attribute is never itself reported as conflicting with that attribute by the diagnostics, in either order.", "quantifier": "every pair of attribute kinds and both language versions", "why_tests_cant": "Symmetry over all pairs and orders and argument lists.", "anchors": ["crates/analyzer/src/analysis/utils.rs: valid_sibling_ink_args", "crates/analyzer/src/analysis/diagnostics/common.rs: validate_entity_attributes"]}
{"id": "C46", "title": "Flattening attributes preserves their arguments", "statement": "The flatten action replaces several ink! attributes of an item by one that carries exactly the same arguments (each once: entity arguments first, then the primary attribute's, then those of the others in order), and deletes exactly the flattened ones.", "quantifier": "every attribute list", "why_tests_cant": "All lists.", "anchors": ["crates/analyzer/src/analysis/actions/item.rs: flatten_attrs"]}
{"id": "C47", "title": "New project names are validated and substituted", "statement": "A new project is generated iff the name is non-empty, consists of alphanumerics, _ or -, and starts with a letter; the generated module name is an identifier form of the name and the contract type name is its Pascal case, and no placeholder remains.", "quantifier": "every project name", "why_tests_cant": "All strings.", "anchors": ["crates/analyzer/src/codegen.rs: new_project", "crates/analyzer/src/utils.rs: pascal_case"]}
{"id": "C48", "title": "Scope diagnostics are sound and complete", "statement": "An item's ink! descendants are reported as invalid iff the closest annotated descendant's primary attribute is not allowed directly inside the item's kind; allowed kinds are never reported; unknown attributes never are.", "quantifier": "every tree of annotated items and both language versions", "why_tests_cant": "Unbounded trees.", "anchors": ["crates/analyzer/src/analysis/diagnostics/common.rs: ensure_valid_quasi_direct_ink_descendants_by_kind, ensure_valid_quasi_direct_ink_descendants, ensure_no_ink_descendants"]}
{"id": "C49", "title": "Migration gives every chain extension a distinct id and removes deprecated args", "statement": "Migrating chain extensions adds an extension id to exactly those lacking one, all ids distinct, and renames each extension = id to function = id keeping the id.", "quantifier": "every list of chain extensions", "why_tests_cant": "All lists of ids.", "anchors": ["crates/analyzer/src/analysis/migrate.rs: chain_extensions"]}
{"id": "C50", "title": "Derive migration splits the derive list without loss", "statement": "Migrating #[derive(...)] with SCALE traits leaves the other derives in order and moves exactly the SCALE traits to scale_derive.", "quantifier": "every derive list", "why_tests_cant": "All lists.", "anchors": ["crates/analyzer/src/analysis/migrate.rs: scale_derive"]}
{"id": "C51", "title": "Quick fix for missing SCALE traits keeps the traits already derived", "statement": "Applying the quick fix for missing SCALE codec traits results in an item deriving all required traits and no fewer than before.", "quantifier": "every subset of traits already derived or implemented, both language versions", "why_tests_cant": "All subsets x versions x derive forms.", "anchors": ["crates/analyzer/src/analysis/diagnostics/common.rs: ensure_impl_scale_codec_traits"]}
{"id": "C52", "title": "Trait-definition implementations are checked exactly", "statement": "For an impl of an ink! trait definition, a method is reported as undeclared iff the trait does not declare it, and the messages reported as missing are exactly the declared messages not implemented.", "quantifier": "every pair of trait and impl", "why_tests_cant": "All lists of methods.", "anchors": ["crates/analyzer/src/analysis/diagnostics/contract/ink_impl.rs: ensure_trait_definition_impl_invariants"]}
{"id": "C53", "title": "Identifier quick fix removes the reserved prefix", "statement": "An identifier is reported iff it starts with __ink_, and the suggested replacement does not start with __ink_.", "quantifier": "every identifier", "why_tests_cant": "All strings.", "anchors": ["crates/analyzer/src/analysis/diagnostics/common.rs: ensure_no_ink_identifiers"]}
{"id": "C54", "title": "Hover describes the innermost argument under the cursor", "statement": "Hovering inside an ink! attribute yields documentation for the first argument containing the range if any, otherwise for the macro; the returned range lies within the attribute and contains the requested one when an argument's name was hit.", "quantifier": "every attribute and range", "why_tests_cant": "All layouts and ranges.", "anchors": ["crates/analyzer/src/analysis/hover.rs: hover"]}
{"id": "C55", "title": "Code actions respect client capabilities", "statement": "Code actions sent have at least one translatable edit or are migrate/extract triggers; triggers use the resolve mechanism iff the client supports resolving edits, otherwise a command; snippets are used only with snippet support.", "quantifier": "every action, capability set and text", "why_tests_cant": "All combinations.", "anchors": ["crates/lsp-server/src/translator/to_lsp.rs: code_action, completion", "crates/lsp-server/src/utils.rs: code_action_edit_resolve_support, snippet_support, code_actions_kinds", "crates/lsp-server/src/initialize.rs: server_capabilities"]}
{"id": "C56", "title": "Primary attribute selection", "statement": "The primary ink! attribute of an item is the first among those of minimal kind (macros before entity arguments before complementary ones), unknown attributes are never primary, and the reported flag says whether it is the first attribute of the item.", "quantifier": "every list of attributes", "why_tests_cant": "All lists.", "anchors": ["crates/analyzer/src/analysis/utils.rs: primary_ink_attribute_candidate"]}
{"id": "C57", "title": "Code actions sent match what the server announced", "statement": "Every code action kind the server announces is one both it and the client listed; every code action it sends has an announced kind (or a sub-kind), and deferred (resolve) actions are only sent when the server announced a resolve provider.", "quantifier": "every client capability set, document and analysis result", "why_tests_cant": "All capability combinations times all actions.", "anchors": ["crates/lsp-server/src/initialize.rs: server_capabilities", "crates/lsp-server/src/translator/to_lsp.rs: code_action"]}
{"id": "C58", "title": "Extracting an event keeps every other dependency", "statement": "Adding the extracted event's package to the contract's manifest adds or sets that one entry; every other dependency, section and their order stay, and no existing dependency is replaced.", "quantifier": "every manifest and package name", "why_tests_cant": "All TOML documents and names.", "anchors": ["crates/lsp-server/src/dispatch/handlers/command.rs: add_dependency_to_cargo_toml, handle_extract_event"]}
{"id": "C59", "title": "A migrated project is an ink! 5 project", "statement": "After applying the manifest migration, the version the server detects from the manifest is ink! 5.", "quantifier": "every manifest with an ink dependency", "why_tests_cant": "All TOML documents.", "anchors": ["crates/lsp-server/src/dispatch/handlers/command.rs: migrate_cargo_toml", "crates/lsp-server/src/utils.rs: parse_ink_project_version"]}
{"id": "C60", "title": "No client message crashes the server", "statement": "Whatever sequence of messages a client sends, the server process never panics.", "quantifier": "every sequence of messages", "why_tests_cant": "All message histories.", "anchors": ["crates/lsp-server/src/dispatch.rs: main_loop", "crates/lsp-server/src/dispatch/handlers/request.rs: handle_execute_command, handle_code_action_resolve"]}
{"id": "C61", "title": "Every attribute argument has a range", "statement": "Computing the source range of an ink! attribute argument never fails, and the range starts at the argument's name and contains it.", "quantifier": "every token sequence between an attribute's parentheses", "why_tests_cant": "All token sequences, including malformed ones typed in an editor.", "anchors": ["crates/ir/src/attrs/meta.rs: MetaNameValue::text_range", "crates/ir/src/attrs/meta/value.rs: MetaValue::text_range"]}
{"id": "C62", "title": "A trailing comma adds no argument", "statement": "An argument list with a trailing comma has the same arguments as without it, whatever white space follows the comma.", "quantifier": "every argument list", "why_tests_cant": "All argument lists and layouts.", "anchors": ["crates/ir/src/attrs/parser.rs: parse_meta_items"]}
{"id": "C63", "title": "String argument values denote what Rust says they denote", "statement": "A string-literal argument value is read as the text the Rust literal denotes, for plain, raw and escaped strings.", "quantifier": "every string literal", "why_tests_cant": "All string literals.", "anchors": ["crates/ir/src/attrs/meta/value.rs: MetaValue::as_string"]}
{"id": "C64", "title": "An item's indentation is the text before it on its line", "statement": "The indentation the analyzer finds for an item (and uses for code it moves or inserts) is exactly the whitespace between the start of the line and the item.", "quantifier": "every whitespace before an item", "why_tests_cant": "All mixes of tabs and spaces.", "anchors": ["crates/analyzer/src/analysis/utils.rs: item_indenting, end_indenting"]}
{"id": "C65", "title": "Documented attribute combinations are accepted and others are reported", "statement": "For the ink! attributes of one item: if they form a documented combination (one attribute macro with its arguments, or an entity argument first with its companions in the same or further attributes, nothing twice, no mutually exclusive pair), no conflict, duplicate, order or completeness diagnostic is produced; if they do not, at least one is.", "quantifier": "every ink! version, every list of attributes and arguments, in any order and number", "why_tests_cant": "the number of attribute lists is unbounded and the rules interact through the choice of the primary attribute", "anchors": ["crates/analyzer/src/analysis/diagnostics/common.rs: validate_entity_attributes, ensure_no_duplicate_attributes_and_arguments", "crates/analyzer/src/analysis/utils.rs: valid_sibling_ink_args, primary_ink_attribute_kind_suggestions"]}
{"id": "C66", "title": "Entities of a contract and a file are found exactly", "statement": "The storage, events, tests, constructors, messages and impl blocks of a contract, and the contracts, events, trait definitions, chain extensions and storage items of a file, are exactly the items declared as such that are not hidden behind another annotated item (except the impl block of a callable and the contract of a file-level entity); each is listed once; the impl block around every collected message or constructor is collected too.", "quantifier": "every syntax tree", "why_tests_cant": "trees of unbounded depth and any placement of attributes", "anchors": ["crates/ir/src/tree/utils.rs: ink_closest_descendants, ink_peekable_quasi_closest_descendants, ink_callable_closest_descendants, ink_impl_closest_descendants", "crates/ir/src/contract.rs: Contract", "crates/ir/src/file.rs: InkFile"]}
{"id": "C67", "title": "Items outside the contract root are reported, others are not", "statement": "Storage, events and impl blocks of a contract are reported exactly when another item lies between them and the contract module; messages and constructors exactly when they are not functions right inside an impl block.", "quantifier": "every syntax tree", "why_tests_cant": "trees of unbounded depth", "anchors": ["crates/analyzer/src/analysis/diagnostics/contract.rs: ensure_root_items, ensure_impl_parent_for_callables", "crates/analyzer/src/analysis/diagnostics/common.rs: ensure_impl_parent"]}
{"id": "C68", "title": "A module path resolves to the item it names", "statement": "Resolving a path of modules (crate::, ::, self::, super:: or relative) to an item yields the item of that kind and name declared in the named module, at any depth.", "quantifier": "every syntax tree, path and place it is written at", "why_tests_cant": "module trees of unbounded depth", "anchors": ["crates/ir/src/tree/ast_ext.rs: resolve_item, resolve_qualifier, resolve_current_module, resolve_item_list_root"]}
{"id": "C69", "title": "Results keep their content and their place on the way to the editor", "statement": "Every diagnostic, completion, hover text and inlay hint the analyzer computes reaches the editor with the same text, severity and edit, at the line and column of its byte range; it is left out exactly when that range is not inside the document.", "quantifier": "every document, encoding and analysis result", "why_tests_cant": "all documents, ranges and encodings", "anchors": ["crates/lsp-server/src/translator/to_lsp.rs: diagnostic, completion, hover, inlay_hint"]}
{"id": "C70", "title": "Performing a command's edit leaves exactly the promised files", "statement": "When the editor performs the workspace edit of createProject or extractEvent, the files the project consists of exist with exactly the generated text, and no other file changes. The root directory may be given with or without a final slash.", "quantifier": "every file store, root, name and generated project", "why_tests_cant": "the edit is a sequence of operations whose order and overlap matter", "anchors": ["crates/lsp-server/src/dispatch/handlers/command.rs: handle_create_project, handle_extract_event", "crates/lsp-server/src/dispatch.rs", "crates/lsp-server/src/dispatch/actions.rs"]}
{"id": "C71", "title": "An offered migration or extraction acts on the document and range it was offered for", "statement": "A code action that starts a command carries the document and range it was computed for: running its command, or resolving it, performs the migration or extraction on exactly that document and range, and both ways give the same edits.", "quantifier": "every document URL, range below 2^32, and state of the server", "why_tests_cant": "round trip of untyped JSON through the editor", "anchors": ["crates/lsp-server/src/translator/to_lsp.rs: code_action", "crates/lsp-server/src/dispatch/handlers/request.rs: handle_execute_command, handle_code_action_resolve"]}
{"id": "C72", "title": "Hints and signatures offer exactly what the attribute accepts", "statement": "Inside the argument list of an ink! attribute, signature help shows exactly the arguments the attribute's macro or entity argument accepts in that ink! version, together with the values each takes; inlay hints name only values accepted there.", "quantifier": "every ink! attribute, cursor position, combination of attributes on the item, and ink! version", "why_tests_cant": "Every split of arguments over attributes and every partial attribute; a test fixes one attribute.", "anchors": ["crates/analyzer/src/analysis/signature_help.rs: signature_help, add_signature", "crates/analyzer/src/analysis/inlay_hints.rs: inlay_hints"]}
{"id": "C73", "title": "Arguments of an implemented message agree with its declaration", "statement": "For each message an impl of an ink! trait definition implements, exactly the arguments the declaration lacks are reported as extra (with their removal), exactly the declared arguments the message lacks are reported as missing (each once, with edits that write all of them), and a missing or different value is reported exactly when the declaration gives the argument a value; the fix writes the declared argument.", "quantifier": "every trait definition, impl, split of arguments over attributes, and ink! version", "why_tests_cant": "Every combination of attributes on both sides; tests fix one pair.", "anchors": ["crates/analyzer/src/analysis/diagnostics/contract/ink_impl.rs: ensure_trait_definition_impl_message_args"]}
{"id": "C74", "title": "Migrated events keep their definition", "statement": "Migrating a file to ink! 5 moves each legacy event out of its contract: the text inserted before the contract is the event's text with its ink! attribute replaced by #[ink::event] or #[ink::event(anonymous)], a standalone anonymous attribute removed and its lines re-indented; the contract imports it and the old definition is deleted; nothing else in the definition changes.", "quantifier": "every contract, event text, indentation and way of marking the event anonymous", "why_tests_cant": "The replacement is textual: it depends on what else the definition contains, such as comments and strings.", "anchors": ["crates/analyzer/src/analysis/migrate.rs: events", "crates/analyzer/src/analysis/utils.rs: reduce_indenting, apply_indenting"]}
{"id": "C75", "title": "Missing SCALE traits are reported exactly", "statement": "A SCALE codec trait is reported as missing for a type exactly when the type neither derives it (in any derive attribute, conditional or not, or in ink::scale_derive) nor implements it; the message names the missing traits in order.", "quantifier": "every type, set of attributes, list of derived names, layout and both language versions", "why_tests_cant": "Combinations of attributes, conditional derives, names and white space are unbounded.", "anchors": ["crates/analyzer/src/analysis/diagnostics/common.rs: ensure_impl_scale_codec_traits"]}
{"id": "C76", "title": "Rules for ink! functions are reported exactly", "statement": "For a constructor, message or chain extension function, the diagnostics name exactly the broken rules (visibility, generics, const, async, unsafe, extern, variadic parameters, receiver, return type), in a fixed order; each marks the offending part (or the declaration if something is missing) and offers a fix; the check never panics.", "quantifier": "every function that Rust's grammar allows, with any attributes, comments, white space and parameters, at any place of any file", "why_tests_cant": "The combinations of optional parts, comments and layouts are unbounded, and ranges depend on all the text before.", "anchors": ["crates/analyzer/src/analysis/diagnostics/common.rs: ensure_fn_invariants, ensure_callable_invariants, ensure_no_self_receiver", "crates/analyzer/src/analysis/diagnostics/message.rs", "crates/analyzer/src/analysis/diagnostics/contract/constructor.rs", "crates/analyzer/src/analysis/diagnostics/chain_extension/extension_fn.rs", "crates/analyzer/src/analysis/utils.rs: ast_item_declaration_range, token_and_trivia_range"]}
{"id": "C77", "title": "Fixes for ink! functions end with a clean function", "statement": "Applying any offered fix of a function rule changes only the offending part, gives a function that breaks exactly one rule less, and after as many fixes as there were reports, in any order, nothing is reported.", "quantifier": "every function, every choice and order of fixes", "why_tests_cant": "Sequences of edits on arbitrary layouts are unbounded.", "anchors": ["crates/analyzer/src/analysis/diagnostics/message.rs: ensure_receiver_is_self_ref, ensure_not_return_self", "crates/analyzer/src/analysis/diagnostics/common.rs: ensure_fn_invariants"]}
{"id": "C78", "title": "Rules for traits, events and impl blocks are reported exactly and their fixes work", "statement": "For a trait definition or chain extension, an event struct and an ink! impl block, the diagnostics name exactly the broken rules (unsafe, auto, default, generics, visibility, supertraits), mark the offending part, and the one fix of each removes exactly that offence.", "quantifier": "every item with any attributes, comments, gaps, generics, bounds and following text, at any place of any file", "why_tests_cant": "The combinations of optional parts and layouts are unbounded.", "anchors": ["crates/analyzer/src/analysis/diagnostics/common.rs: ensure_trait_invariants, ensure_pub_struct, ensure_no_trait_bounds", "crates/analyzer/src/analysis/diagnostics/contract/ink_impl.rs", "crates/analyzer/src/analysis/diagnostics/event.rs"]}
{"id": "C79", "title": "Visibility of functions in impl blocks", "statement": "A function of an ink! impl block is reported exactly if it has a visibility although the block implements a trait, or is not pub although it does not; the one fix gives it the required visibility and changes nothing else; then nothing is reported.", "quantifier": "every function and both kinds of impl blocks", "why_tests_cant": "Where the visibility is to be inserted depends on which optional parts the function has.", "anchors": ["crates/analyzer/src/analysis/diagnostics/contract/ink_impl.rs: ensure_impl_invariants"]}
{"id": "C80", "title": "Items of a trait definition are reported one by one", "statement": "In a trait definition every associated constant, macro call, associated type and function body is reported, in order and nothing else; each report marks that very item and its fix removes it and nothing else, leaving a valid trait.", "quantifier": "every trait and list of items", "why_tests_cant": "Lists of items of any length, with equal items at several places.", "anchors": ["crates/analyzer/src/analysis/diagnostics/common.rs: ensure_trait_item_invariants", "crates/analyzer/src/analysis/diagnostics/trait_definition.rs"]}
{"id": "C81", "title": "Attribute arguments are checked exactly", "statement": "An ink! attribute argument is reported if and only if it is not written as documented (no value, a number within its range or an allowed symbol, a string, identifier, 32 byte hex string, URL, boolean, path, or an allowed nested argument); there is at most one report per argument, within the argument, a warning exactly for unknown names; the check never panics.", "quantifier": "every argument with any name, value, nesting and text, both language versions, every attribute", "why_tests_cant": "Values, names and nesting depths are unbounded; the accepted values differ by argument and version.", "anchors": ["crates/analyzer/src/analysis/diagnostics/common.rs: validate_arg, nested_arg_validator, is_url_like", "crates/ir/src/meta/value.rs"]}
{"id": "C82", "title": "Fixes of attribute arguments leave arguments that are accepted", "statement": "Every quick fix for a badly written argument rewrites exactly that argument (or its nested argument) into one that, read back, is written as documented.", "quantifier": "every reported argument, every offered fix, every set of ids in use", "why_tests_cant": "The result of a fix must be parsed and checked again; the ids and values around it are unbounded.", "anchors": ["crates/analyzer/src/analysis/diagnostics/common.rs: validate_arg", "crates/analyzer/src/analysis/utils.rs: ink_arg_insert_text"]}
{"id": "C83", "title": "Inserted arguments fit the text that follows", "statement": "The text inserted for an argument is its name, followed by an equal sign and an accepted default value if the argument takes a value and no equal sign follows, or by a nested argument in parentheses if one is needed and no parenthesis follows; suggested ids are the least unused ones; accepting the snippet gives the plain text.", "quantifier": "every argument, file, attribute and offset in the attribute", "why_tests_cant": "What follows the cursor, including white space and comments, is arbitrary.", "anchors": ["crates/analyzer/src/analysis/utils.rs: ink_arg_insert_text, ink_arg_insert_offset_and_affixes"]}
{"id": "C84", "title": "Unknown attributes are reported once, and the generic checks are exact", "statement": "Each unknown ink! attribute yields exactly one warning whose fix removes the attribute; the generic checks of an item report nothing if and only if there is no reserved identifier, unknown attribute or badly written argument.", "quantifier": "every item with any list of attributes and arguments", "why_tests_cant": "Lists of attributes and arguments are unbounded.", "anchors": ["crates/analyzer/src/analysis/diagnostics/common.rs: run_generic_diagnostics, ensure_no_unknown_ink_attributes, ensure_valid_attribute_arguments"]}
{"id": "C85", "title": "Items of other crates are recognised however they are imported", "statement": "A path is taken for an item of a crate (such as the SCALE traits or an ink! environment) if and only if it stands for one: written in full, imported by name or with everything else, renamed, through an imported or renamed part of its path, or re-exported under the same name by a module of the file. The answer does not depend on anything but the file, and the search collects only paths of the wanted crates.", "quantifier": "every module with any list of use declarations (nested groups, stars, aliases), every path and every list of accepted qualifiers", "why_tests_cant": "The number, nesting and combination of imports, aliases and path lengths is unbounded.", "anchors": ["crates/analyzer/src/resolution.rs: is_external_crate_item, external_crate_uses_and_aliases_in_scope, match_path_to_external_crate_item, is_crate_item_path"]}
{"id": "C86", "title": "Environment and ErrorCode types are found, required to implement their trait, and the fixes are accepted", "statement": "The custom environment of a contract and the ErrorCode type of a chain extension are the types their paths name. A type without an implementation of the required trait is reported once, on the type, with a fix that inserts a complete implementation for it right after the type; a type for which such an implementation is written is not reported. A path that names no type is reported with a path to a type of the file that has the wanted name or already implements the trait; the default environment is accepted however it is imported. Each use of Self::ErrorCode in the extension is reported on exactly these words, with the path of the type as the fix.", "quantifier": "every file (nested modules, any number of types, impls and imports), every path and position of the contract or chain extension", "why_tests_cant": "The nesting of modules, the number of types, impl blocks and imports is unbounded.", "anchors": ["crates/analyzer/src/analysis/diagnostics/environment.rs", "crates/analyzer/src/analysis/diagnostics/chain_extension/error_code.rs", "crates/analyzer/src/resolution.rs: candidate_adt_by_name_or_external_trait_impl, adt_by_name, external_trait_impl", "crates/analyzer/src/analysis/diagnostics/common.rs: ensure_external_trait_impl"]}
{"id": "C87", "title": "Code added for an ink! entity is complete, indented and freshly named", "statement": "Each action that adds an ink! entity (storage, event, topic, constructor, message, trait message, error code, chain extension function, combined extension, test, e2e test) writes exactly the documented lines for that entity, each non-empty line indented by the indentation of the enclosing item; its name is the preferred one or else the first numbered one that no sibling entity has, and ids are the least free id; the snippet, if nothing is typed, expands to the same code.", "quantifier": "every file, position and set of existing items, names and ids", "why_tests_cant": "Names, ids, nesting and the indentation around the insertion are unbounded.", "anchors": ["crates/analyzer/src/analysis/actions/entity.rs", "crates/analyzer/src/analysis/text_edit/common.rs", "crates/analyzer/src/analysis/snippets.rs", "crates/analyzer/src/analysis/utils.rs: suggest_unique_name, suggest_unique_id, item_children_indenting"]}
{"id": "C88", "title": "Added entities go to the documented place", "statement": "An entity added without a requested position goes where the documentation says: storage after the imports of the contract's module, events after its last struct, constructors and messages behind the items of the first impl block without a trait, or else into a new impl block for the contract behind the last impl block or struct, associated items behind the last one, tests at the end of the module, topics behind the last field and its comma, attributes behind the ink! attributes of the item or else behind all its attributes; nothing else of the file changes.", "quantifier": "every file, with any items, attributes, comments and white space", "why_tests_cant": "The items, attributes and trivia around the place are unbounded.", "anchors": ["crates/analyzer/src/analysis/utils.rs: item_insert_offset_start, item_insert_offset_end, item_insert_offset_impl, assoc_item_insert_offset_end, field_insert_offset_end_and_affixes, callable_insert_offset_indent_and_affixes, ink_attribute_insert_offset", "crates/analyzer/src/analysis/actions/entity.rs"]}
{"id": "C89", "title": "Functions of chain extensions and trait definitions are reported and repaired as documented", "statement": "In a chain extension exactly the functions without the function (ink! 5) or extension (ink! 4) attribute are reported, at their signature; the fix puts the attribute in front of the function's ink! attributes, removes those of other kinds and changes nothing else, with ids different from one another and from those in use, each the least such id. In a trait definition exactly the functions that are no messages are reported, with the corresponding fix, and exactly the arguments with the value _, whose fix removes that argument only. A chain extension for ink! 5 without an extension argument is reported; the fix adds the argument with the least id that no chain extension of the file uses.", "quantifier": "every list of functions, attributes, arguments and ids in use", "why_tests_cant": "The functions, their attributes and trivia and the ids in use are unbounded.", "anchors": ["crates/analyzer/src/analysis/diagnostics/chain_extension.rs: ensure_extension_arg, ensure_trait_item_invariants", "crates/analyzer/src/analysis/diagnostics/trait_definition.rs: ensure_trait_item_invariants", "crates/analyzer/src/analysis/utils.rs: suggest_unique_id_mut, first_ink_attribute_insert_offset"]}
{"id": "C90", "title": "A chain extension has exactly one ErrorCode type, and its associated types are repaired as documented", "statement": "An associated type of a chain extension is reported once for each of: a name other than ErrorCode, generics, bounds, a missing type; each report marks that part, and its fix removes what is wrong and makes nothing else wrong. If no associated type is called ErrorCode the declaration of the trait is reported, and the fix adds one at the start of the trait; of several, all but the first are reported, and the fix deletes exactly that one.", "quantifier": "every trait with any associated items, comments and white space", "why_tests_cant": "The items and trivia are unbounded and the fixes must hold for every combination of defects.", "anchors": ["crates/analyzer/src/analysis/diagnostics/chain_extension.rs: ensure_trait_item_invariants, ensure_error_code_type_quantity", "crates/analyzer/src/analysis/utils.rs: ast_item_declaration_range"]}
{"id": "C91", "title": "Migration renames the calls of host functions and changes nothing else", "statement": "In all function bodies of a file, at every place of an expression except those listed as left out, migration replaces the qualifier of Call::new by ink::env::call::CallV1 with the same generic arguments, adds _v1 to the names of instantiate_contract and invoke_contract (called by path, or as a method after Self::env() or another method call), renames the method call that ends a chain of options on build_call to call_v1 and appends .instantiate_v1() to build_create; the edits never overlap and all other text of the file is kept.", "quantifier": "every file (syntax tree of any depth), every resolution of paths", "why_tests_cant": "Expressions nest without bound and edits made from inner calls change outer ones.", "anchors": ["crates/analyzer/src/analysis/migrate/host_fn.rs: migrate, BodyVisitor, chained_env_host_fn_call, chained_host_fn_call", "crates/analyzer/src/analysis/migrate/traversal.rs: walk_expr, walk_block, walk_call, walk_if_expr, walk_method_call", "crates/analyzer/src/analysis/migrate/common.rs: is_call_path, simplify_path"]}
{"id": "C92", "title": "Migration changes the bodies of e2e tests exactly at the calls of the old API", "statement": "In the body of every e2e test, the edits are exactly: at each expression that is looked at, build_message and MessageBuilder::from_account_id become ink_e2e::create_call_builder with the same contract type, a callback behind them becomes the method call it ends with, instantiate, call and upload (and the dry runs) get the shorter argument list with setters for a value other than zero and a limit other than None and .submit() or .dry_run(), awaited dry runs get ?, balance becomes free_balance; and one import for every trait that these need. Edits do not overlap unless something changes inside of an argument list that is replaced. The parameters of the test are replaced by the generic client.", "quantifier": "every body (syntax tree of any depth), every resolution of paths", "why_tests_cant": "Expressions nest without bound; which calls are looked at depends on all calls around them.", "anchors": ["crates/analyzer/src/analysis/migrate/e2e_test.rs: fn_sig, fn_body, BodyVisitor, MessageBuilderCall", "crates/analyzer/src/analysis/migrate/traversal.rs: Visitor"]}
{"id": "C93", "title": "Migration removes the imports that ink! 5 deprecates, and nothing else", "statement": "In the module right around an e2e test, or else in the whole file, every use declaration, however deep, loses its imports of ink_e2e::build_message and ink_e2e::MessageBuilder; declarations that import nothing else go as a whole; all other imports stay, in their order and with valid syntax; the rest of the file is as before and the edits do not overlap. Without such an import there is no edit.", "quantifier": "every file, every number and nesting of use declarations and lists", "why_tests_cant": "Use trees nest without bound; commas are shared between neighbours of a list.", "anchors": ["crates/analyzer/src/analysis/migrate/e2e_test.rs: deprecated_imports, deprecated_imports_inner", "crates/analyzer/src/analysis/utils.rs: node_and_delimiter_range, token_and_delimiter_range"]}
{"id": "C94", "title": "Every local type in the signature of an extension function is checked for the SCALE traits", "statement": "For every extension function the analyzer checks each local type that its parameters or its result name, also inside references, arrays, slices, tuples and generic arguments, exactly once, and reports exactly those that fail the check; it checks no other item.", "quantifier": "every signature: any number of parameters, any nesting of types, any set of local types", "why_tests_cant": "Types nest without bound, and the same type can occur many times.", "anchors": ["crates/analyzer/src/analysis/diagnostics/chain_extension/extension_fn.rs: ensure_custom_types_impl_scale_codec_traits, extract_custom_types, extract_resolvable_custom_types"]}
{"id": "C95", "title": "Extracting an event moves it, and only it, into a package of its own", "statement": "For every event in a module, extraction yields its name; a new file with its comments, its other attributes, one ink::event attribute (with the argument anonymous or the signature topic if it has them) and its declaration without the indentation; and edits that delete the event with the white space behind it and put an import behind the last use declaration of the module or behind its brace. Everything else of the contract's file stays. Nothing but an event at the given place is extracted.", "quantifier": "every file, every event in it, every place in the event", "why_tests_cant": "Files, events and their attributes are unbounded.", "anchors": ["crates/analyzer/src/analysis/extract.rs: extract_event", "crates/analyzer/src/analysis/utils.rs: focused_element, item_children_indenting, item_indenting, reduce_indenting"]}
{"id": "C96", "title": "Actions are offered for what the user points at, and new code goes where they point", "statement": "With the cursor in the body of an item (and in none of its items, fields and attributes), new entities are offered for that item, and they go into its body: to the cursor, if it is in white space, otherwise behind the token at the cursor. With the cursor in the declaration of an item, attributes are offered for the item and entities at their usual place; before the declaration nothing. In a field, attributes for the field. In an attribute, nothing of this. Between the items of a file, entities for the file. For every selection, only what contains the selection is offered anything.", "quantifier": "every file, item and cursor position; for the last sentence every selection", "why_tests_cant": "Files, items and positions are unbounded.", "anchors": ["crates/analyzer/src/analysis/actions/item.rs: actions, is_focused_on_item_declaration, is_focused_on_item_body", "crates/analyzer/src/analysis/utils.rs: focused_element, covering_attribute, parent_ast_item, ast_item_declaration_range, ast_item_terminal_token"]}
{"id": "C97", "title": "No ink! item goes unnoticed", "statement": "Every item of a file that is annotated as an ink! entity is checked as what it is when it and the annotated items around it are where they belong; otherwise it or an item around it is reported as being out of place. Only items declared as an entity are checked as one, every such report is about an attribute that the file or the entity around it does not allow, and a file with everything in its place has no such report.", "quantifier": "every file, every annotated item at any depth, both versions", "why_tests_cant": "Files and nestings are unbounded, and the walk is spread over sixteen modules that each see only their own descendants.", "anchors": ["crates/analyzer/src/analysis/diagnostics/file.rs: diagnostics", "crates/analyzer/src/analysis/diagnostics/contract.rs: diagnostics", "crates/analyzer/src/analysis/diagnostics/chain_extension.rs: diagnostics, ensure_trait_item_invariants", "crates/analyzer/src/analysis/diagnostics/event.rs: diagnostics, ensure_only_ink_topic_descendants", "crates/analyzer/src/analysis/diagnostics/common.rs: ensure_valid_quasi_direct_ink_descendants_by_kind, ensure_no_ink_descendants"]}
{"id": "C98", "title": "Completing an entity replaces the line of the cursor", "statement": "Completing an ink! entity replaces the line of the cursor from its beginning to its end and nothing else, and no finished item; an entity is offered, once, exactly if it belongs into the item around and the line is blank or one of its words is part of a keyword of the entity. In comments and attributes nothing is offered.", "quantifier": "every file, every cursor position, both versions", "why_tests_cant": "Files, lines and tokens are unbounded, and the range depends on how the cursor stands to white space, line breaks and tokens on both sides.", "anchors": ["crates/analyzer/src/analysis/completions.rs: entity_completions", "crates/analyzer/src/analysis/utils.rs: end_indenting", "crates/ir/src/tree/item_at_offset.rs: focused_token, parent_ast_item"]}
{"id": "C99", "title": "What is offered to be added belongs there", "statement": "The ink! entities that can be added at the cursor are, each once, exactly those that fit: a storage only into a contract without one, constructors and messages only into contracts and impl blocks that implement no trait (and no message beside one with a wildcard selector in version 5), a topic only into events, an error code only into chain extensions without one, a contract only into a file without one, tests only into modules for tests. Nothing is offered that C48/C97 would report as misplaced.", "quantifier": "every file, every item of it, both versions", "why_tests_cant": "Files are arbitrary trees; what may be added depends on everything inside and around the item, at any depth.", "anchors": ["crates/analyzer/src/analysis/actions/item.rs: item_ink_entity_actions, root_ink_entity_actions", "crates/analyzer/src/analysis/actions/entity.rs", "crates/analyzer/src/analysis/utils.rs: is_cfg_test_attr, is_cfg_e2e_tests_attr"]}
{"id": "C100", "title": "Completing an attribute finishes what has been typed", "statement": "In an attribute, accepting a completion changes only the word at the cursor (nothing, behind a bracket, parenthesis or comma) and leaves the attribute with the complete path of a macro, or a list of arguments with one more. Exactly those macros and arguments are offered that belong there (C44), that the kind of the item allows and that begin with the text before the cursor; for an attribute without its bracket, the item is the next one.", "quantifier": "every file, every offset in it, every attribute and list of arguments, both versions", "why_tests_cant": "Cursors, attributes being typed and what surrounds them combine without bound; tests complete some prefixes of a few attributes.", "anchors": ["crates/analyzer/src/analysis/completions.rs: macro_completions, argument_completions", "crates/ir/src/item_at_offset.rs: ItemAtOffset", "crates/analyzer/src/analysis/utils.rs: ink_arg_insert_text"]}
{"id": "C101", "title": "A misplaced item is moved to its place", "statement": "A storage, event or impl item that is not right in its contract's module is reported, and the fix takes it out of where it is and puts it, with the indentation of its new place, into the module of the closest contract: storage behind the imports, events behind the structs, impl blocks behind the impl blocks. A constructor or message that is not right in an impl block is reported, and goes behind the items of the closest impl block around it, or else of the nearest one before it, or else behind it, or else of the first one of the contract without a trait, or else into a new one. Nothing else of the file changes: its edits do not overlap. Items in their place are not reported.", "quantifier": "every file, item and contract, at every depth of nesting", "why_tests_cant": "an off-by-one place destroys code for particular trees only; tests have a few trees", "anchors": ["crates/analyzer/src/analysis/actions.rs: Action::move_item, Action::move_item_with_affixes", "crates/analyzer/src/analysis/diagnostics/common.rs: ensure_contract_parent, ensure_impl_parent", "crates/analyzer/src/analysis/diagnostics/contract.rs: ensure_parent_contract", "crates/analyzer/src/analysis/diagnostics/contract/ink_impl.rs: ensure_parent_impl"]}
{"id": "C102", "title": "Attribute actions annotate the item or attribute at the cursor", "statement": "On the declaration of an item without an ink! attribute, each action for an attribute macro writes that attribute right before the item proper, and there is one for each macro that fits the item and its place and for no other. Each action for an argument writes it with its default value: into the list of the primary ink! attribute if there is one (first if it declares what the item is, else last), with a list if it has none, else as a new ink! attribute on the item. In an attribute, the actions extend that attribute. Nothing else of the file changes apart from white space around the new text, accepting the snippet gives the text, and no file makes it panic.", "quantifier": "every file, item, attribute, cursor and version", "why_tests_cant": "positions depend on comments, white space and the list of arguments; tests have a few files", "anchors": ["crates/analyzer/src/analysis/actions/item.rs: actions, ink_macro_actions, ink_arg_actions", "crates/analyzer/src/analysis/actions/attr.rs: actions", "crates/analyzer/src/analysis/actions.rs: actions"]}
{"id": "C103", "title": "Entities of the wrong shape are reported and repaired", "statement": "A contract that is not an inline module is reported, and `mod name;` becomes an empty inline module. An entity on an item of another kind is reported, and the fix removes its attribute. Of items of which there may be one, all but the first are reported, and the fixes remove the attribute or the item. A contract without storage, constructor or message, a trait definition without message and an impl block without annotation and callables are reported on their declaration, and the fixes add what is missing in its place; with it, nothing is reported. Each `cfg` attribute of a field of an event, each list of generic arguments of the type of an impl block and a namespace on an impl block for a trait are reported, and each fix removes just that.", "quantifier": "every file, entity and item, with any attributes, comments and parts", "why_tests_cant": "each report has a range and edits that depend on all of what is written around them; tests have a few files", "anchors": ["crates/analyzer/src/analysis/diagnostics/contract.rs: ensure_inline_module, ensure_storage_quantity, ensure_contains_constructor, ensure_contains_message", "crates/analyzer/src/analysis/diagnostics/contract/ink_impl.rs: ensure_impl, ensure_impl_invariants, ensure_annotation_or_contains_callable", "crates/analyzer/src/analysis/diagnostics/common.rs: ensure_at_most_one_item, ensure_pub_struct, ensure_fn, ensure_trait", "crates/analyzer/src/analysis/diagnostics/event.rs: ensure_no_cfg_event_fields", "crates/analyzer/src/analysis/diagnostics/event/topic.rs: ensure_struct_field", "crates/analyzer/src/analysis/diagnostics/storage_item.rs: ensure_adt", "crates/analyzer/src/analysis/diagnostics/trait_definition.rs: ensure_contains_message"]}
{"id": "C104", "title": "Edits of one action can be applied together after formatting", "statement": "The edits of an action are formatted one by one, for the file as it is. If they can be applied together, the formatted ones can be as well: none overlaps another, and the result differs in white space only. The migration of a file gives the edits of its parts (events, chain extensions, SCALE derives, host functions, e2e tests), each once.", "quantifier": "every file and every list of edits with the stated ends; every combination of the parts of a migration", "why_tests_cant": "deletions grow over white space and other edits may stand there; tests apply a few combinations", "anchors": ["crates/analyzer/src/analysis/text_edit.rs: format_edits, format_edit", "crates/analyzer/src/analysis/migrate.rs: migrate", "crates/analyzer/src/analysis/migrate/e2e_test.rs: migrate", "crates/analyzer/src/analysis/migrate/host_fn.rs: migrate"]}
{"id": "C105", "title": "A migrated manifest is consistent", "statement": "After the migration of a manifest no feature refers to a dependency that the migration removed, values that refer to other dependencies keep what they refer to, and the dependencies that are raised keep their options.", "quantifier": "every manifest document", "why_tests_cant": "manifests are unbounded; tests use the features of the templates", "anchors": ["crates/lsp-server/src/dispatch/handlers/command.rs: migrate_cargo_toml"]}
{"id": "C106", "title": "A position in the text never ends the analyzer", "statement": "Asking for completions, actions, hover content or an extraction at a position of the file never ends the analyzer: completions of entities and of macros are computed at every position between two characters of every file, and actions for every selection; a position behind the end of the file ends it.", "quantifier": "every file, every position and selection, every version of ink!", "why_tests_cant": "files while typing are arbitrary; tests use complete contracts", "anchors": ["crates/analyzer/src/analysis/completions.rs: macro_completions, entity_completions", "crates/analyzer/src/analysis/actions/item.rs: actions", "crates/analyzer/src/analysis/actions/attr.rs: actions", "crates/analyzer/src/analysis/utils.rs: ast_item_declaration_range, focused_element", "crates/ir/src/tree/item_at_offset.rs: ItemAtOffset"]}
{"id": "C107", "title": "The migrated attribute of an e2e test keeps what ink! 5 knows", "statement": "After a migration the attribute of an e2e test lists exactly the arguments it had, in their order and as a well-formed list, without additional_contracts and keep_attr; without any of the two, it is not changed.", "quantifier": "every e2e test attribute with any number and order of arguments, in every file", "why_tests_cant": "arguments come in every number and order; each deletion takes one of the commas between them", "anchors": ["crates/analyzer/src/analysis/migrate/e2e_test.rs: attribute", "crates/analyzer/src/analysis/utils.rs: ink_arg_and_delimiter_removal_range"]}
{"id": "C108", "title": "A whole entity is added as its template says, and a name typed into it is used everywhere", "statement": "Adding a contract, trait definition, chain extension, storage item or environment replaces exactly the range asked for by the code of that entity for the version, every line indented alike. Whatever is typed into the snippet, the result is that code with what is typed at all places that mean the same name, up to white space; if nothing is typed it is the code without snippet. Names do not clash with those of the file.", "quantifier": "every entity, version, range, white space as indentation, and every text typed at every placeholder", "why_tests_cant": "what is typed and the indentation are arbitrary texts; places of a template that mean the same name have to change together", "anchors": ["crates/analyzer/src/analysis/actions/entity.rs: add_contract, add_trait_definition, add_chain_extension, add_storage_item, add_environment", "crates/analyzer/src/analysis/text_edit/common.rs: add_contract, add_trait_def, add_chain_extension, add_storage_item, add_environment", "crates/analyzer/src/codegen/snippets.rs"]}
