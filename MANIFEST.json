{
 "claims": [
  {
   "property": "C01",
   "status": "proved",
   "theorems": [
    "C01_documents_mirror_client",
    "C01_held_iff_open",
    "C01_store"
   ],
   "note": "For every history of messages on which the server is still running; decoded URIs are assumed normalised (decoders_ok). C01_store adds the store alone, for every sequence of operations between two rounds of processing."
  },
  {
   "property": "C02",
   "status": "proved",
   "theorems": [
    "C02_answers_from_latest_text",
    "C02_requests_read_only",
    "C02_analyses_current"
   ],
   "note": "answer (ServerSpec) is the spec of a reply from a text; every query is answered by it on the client's current text."
  },
  {
   "property": "C03",
   "status": "proved",
   "theorems": [
    "C03_published",
    "C03_last_published"
   ],
   "note": "Per message and as an invariant over histories."
  },
  {
   "property": "C04",
   "status": "proved",
   "theorems": [
    "C04_one_response",
    "C04_response_ids"
   ],
   "note": "Per message and as equality of id sequences, for every run including those that end or crash."
  },
  {
   "property": "C05",
   "status": "proved",
   "theorems": [
    "C05_error_codes",
    "C05_loop_end"
   ],
   "note": "Codes are characterised exactly for -32601 and -32602; loop ends are classified."
  },
  {
   "property": "C06",
   "status": "partial",
   "theorems": [
    "C06_malformed_notification_refuted",
    "C06_wellformed_notification_partial"
   ],
   "note": "refuted. Any known document notification with undecodable params ends the server with an error; all others keep it running, as long as the diagnostics of the text do not fail."
  },
  {
   "property": "C07",
   "status": "proved",
   "theorems": [
    "C07_version_sticky",
    "C07_recheck",
    "C07_no_recheck_without_migration"
   ],
   "note": "Version after each message, with re-checks tied to the number of analyses since the last migration request."
  },
  {
   "property": "C08",
   "status": "partial",
   "theorems": [
    "C08_guess_meaning",
    "C08_three_part_requirements",
    "C08_right_version_partial",
    "C08_right_version_refuted",
    "C08_own_requirement",
    "C08_inherited_requirement",
    "C08_inherited_fallback",
    "C08_default",
    "C08_workspace_root_refuted"
   ],
   "note": "Exact meaning of the guess for all requirement strings; the claim that it is the right version is refuted (minor number 5, bare major, workspace root that is its own member)."
  },
  {
   "property": "C09",
   "status": "proved",
   "theorems": [
    "C09_command",
    "C09_only_commands"
   ],
   "note": "The results of the command handlers themselves are the subject of C16-C18, C58."
  },
  {
   "property": "C10",
   "status": "proved",
   "theorems": [
    "C10_show_document",
    "C10_only_responses",
    "C10_created_project_opened"
   ],
   "note": "The response's content is ignored by the code, so lib.rs is shown even when the client reports that the edit was not applied."
  },
  {
   "property": "C11",
   "status": "proved",
   "theorems": [
    "C11_encoding_negotiation"
   ],
   "note": "Full."
  },
  {
   "property": "C12",
   "status": "proved",
   "theorems": [
    "C12_position_meaning",
    "C12_roundtrip",
    "C12_total_injective"
   ],
   "note": "Full, over the modelled line index (external crate line-index 0.1)."
  },
  {
   "property": "C13",
   "status": "partial",
   "theorems": [
    "C13_positions_partial",
    "C13_accepted_positions_exist_refuted"
   ],
   "note": "The full claim is false: columns past the end of a line and positions inside a surrogate pair are accepted (refuted with a witness). The partial theorem covers what is rejected and that accepted offsets lie in the text."
  },
  {
   "property": "C14",
   "status": "partial",
   "theorems": [
    "C14_client_ranges",
    "C14_server_ranges_ordered",
    "C14_range_roundtrip",
    "C14_command_range_no_panic_refuted",
    "C14_command_range_partial"
   ],
   "note": "Ranges sent and received are ordered; the executeCommand/resolve range path panics for start > end (refuted with a witness), and the partial theorem gives the exact condition."
  },
  {
   "property": "C15",
   "status": "proved",
   "theorems": [
    "C15_signatures",
    "C15_answered",
    "C15_answer_is_sent",
    "C15_label_offset",
    "C15_active_signature",
    "C15_no_signatures",
    "C15_parameter_label",
    "C15_signature_kept"
   ],
   "note": "Full on both sides: the analyzer's signatures (for the attribute found at the offset) and their translation. Which attribute is at the offset (ItemAtOffset for unclosed attributes) is an input."
  },
  {
   "property": "C16",
   "status": "proved",
   "theorems": [
    "C16_package_name",
    "C16_ascii_package_name",
    "C16_refused_iff"
   ],
   "note": "Full, for any Unicode tables meeting the listed facts; lower-casing is per character."
  },
  {
   "property": "C17",
   "status": "proved",
   "theorems": [
    "C17_refused_iff",
    "C17_ink_entry",
    "C17_everything_else",
    "C17_idempotent",
    "C17_text_idempotent",
    "C17_command"
   ],
   "note": "Full, over TOML documents; the text-level version assumes the TOML library reads back what it prints."
  },
  {
   "property": "C18",
   "status": "proved",
   "theorems": [
    "C18_first_free",
    "C18_none_free",
    "C18_extract_creates",
    "C18_extract_contents"
   ],
   "note": "Full, at the level of the command handler."
  },
  {
   "property": "C19",
   "status": "proved",
   "theorems": [
    "C19_nearest_manifest",
    "C19_none"
   ],
   "note": "Full."
  },
  {
   "property": "C20",
   "status": "proved",
   "theorems": [
    "C20_argument_names",
    "C20_other_argument_names",
    "C20_argument_names_bijective",
    "C20_macro_names",
    "C20_other_macro_names",
    "C20_macro_names_printed"
   ],
   "note": "Full, against the tables of names in AttrSpec."
  },
  {
   "property": "C21",
   "status": "proved",
   "theorems": [
    "C21_is_ink_attribute",
    "C21_arguments",
    "C21_macro_kind",
    "C21_argument_kind",
    "C21_primary_exists_unique",
    "C21_no_arguments",
    "C21_primary_stable",
    "C21_primary_first"
   ],
   "note": "Full."
  },
  {
   "property": "C22",
   "status": "proved",
   "theorems": [
    "C22_arguments_are_segments",
    "C22_every_list_is_covered",
    "C22_every_list_is_separated",
    "C22_tokens_preserved",
    "C22_written_arguments_are_read"
   ],
   "note": "Segments and their reading for every token tree, token preservation for balanced ones, and reading back of written arguments in any layout."
  },
  {
   "property": "C23",
   "status": "partial",
   "theorems": [
    "C23_integer_sound",
    "C23_denotation_unique",
    "C23_integer_complete_partial",
    "C23_integer_complete_refuted",
    "C23_only_integer_literals",
    "C23_booleans"
   ],
   "note": "Sound for all literals; the completeness claim is refuted (underscores, suffixes, octal and binary are not read) and proved for plain decimal and hexadecimal literals."
  },
  {
   "property": "C24",
   "status": "partial",
   "theorems": [
    "C24_number_round_trip",
    "C24_bytes_round_trip",
    "C24_equality",
    "C24_four_bytes",
    "C24_written",
    "C24_complement",
    "C24_computed",
    "C24_total",
    "C24_trait_partial",
    "C24_trait_refuted",
    "C24_reserved_text_refuted"
   ],
   "note": "Byte and number forms determine each other; written, complement and computed selectors are exact for every hash with values in bytes (BLAKE2b-256 is also modelled, and the selectors in the tests of the code are examples). The rule for the trait's part holds for paths of one segment, relative paths of two and global paths of three or more (C24_trait_partial); C24_trait_refuted shows `::a::B` and `a::b::D` differ from ink!, C24_reserved_text_refuted that the reserved selector is the hash of `new`, not of its documented text."
  },
  {
   "property": "C25",
   "status": "proved",
   "theorems": [
    "C25_closest_exact",
    "C25_closest_order",
    "C25_closest_exists",
    "C25_descendants_exact",
    "C25_descendants_order",
    "C25_in_scope_exact"
   ],
   "note": "Closest and all descendants: exact sets, text order, no repetition."
  },
  {
   "property": "C26",
   "status": "proved",
   "theorems": [
    "C26_closest_ancestors",
    "C26_closest_ancestors_attr",
    "C26_nearest_unique",
    "C26_ancestors",
    "C26_ancestors_attr",
    "C26_agrees_with_C25"
   ],
   "note": "Closest ancestors = attributes of the nearest annotated node above; agrees with C25; the search terminates."
  },
  {
   "property": "C27",
   "status": "partial",
   "theorems": [
    "C27_use_tree_partial",
    "C27_scope_paths",
    "C27_scope_aliases",
    "C27_use_tree_refuted",
    "C27_line_break_refuted"
   ],
   "note": "Exact for every nesting of use trees whose paths contain no line breaks or comments and whose `self` stands directly in a group with a path (C27_use_tree_partial), and for whole scopes. C27_use_tree_refuted: `use a::{{self}}` loses its import; C27_line_break_refuted: a line break in a path stays in the path."
  },
  {
   "property": "C28",
   "status": "partial",
   "theorems": [
    "C28_depth",
    "C28_terminates_partial",
    "C28_two_globs_refuted",
    "C28_alias_cycle_refuted",
    "C28_glob_cycle_refuted"
   ],
   "note": "Resolution ends for files whose declarations refer to other crates only (C28_terminates_partial), for every parser that reads plain paths. It does not in general: two glob imports in a contract make every lookup of an undeclared name run forever (C28_two_globs_refuted), as do aliases that name each other and modules that glob-import each other."
  },
  {
   "property": "C29",
   "status": "partial",
   "theorems": [
    "C29_item_path_partial",
    "C29_item_path_refuted"
   ],
   "note": "Holds for at most one enclosing module; with more the modules come innermost first (C29_item_path_refuted)."
  },
  {
   "property": "C30",
   "status": "proved",
   "theorems": [
    "C30_least_unused_id",
    "C30_none_iff_exhausted",
    "C30_repeated_suggestions_distinct",
    "C30_suggestion_is_recorded"
   ],
   "note": "Least unused id from the preferred one (or 1), none iff exhausted, loop always ends, successive suggestions distinct."
  },
  {
   "property": "C31",
   "status": "partial",
   "theorems": [
    "C31_first_free_name_partial",
    "C31_preferred_if_free",
    "C31_names_refuted"
   ],
   "note": "Refuted: after 253 suffixes the used preferred name is suggested; proved: first free candidate otherwise."
  },
  {
   "property": "C32",
   "status": "partial",
   "theorems": [
    "C32_indenting_partial",
    "C32_dedenting_partial",
    "C32_round_trip_partial",
    "C32_moved_item_partial",
    "C32_round_trip_refuted"
   ],
   "note": "Refuted: trailing line breaks are lost and CRLF is normalised; proved for texts without carriage returns whose last line is not blank, incl. moved items."
  },
  {
   "property": "C33",
   "status": "partial",
   "theorems": [
    "C33_only_whitespace_added",
    "C33_deletion_partial",
    "C33_visible_text_kept_partial",
    "C33_applied_unique",
    "C33_visible_text_kept_refuted",
    "C33_total_partial",
    "C33_empty_lines_around",
    "C33_empty_lines_inside",
    "C33_same_line_around",
    "C33_same_line_inside",
    "C33_empty_lines_inside_refuted"
   ],
   "note": "Refuted for deletions ending inside a token (none is built by the analyzer) and replacements inside whitespace; proved otherwise: only whitespace added, deletions extended over whitespace only, visible text kept, empty lines around inserted code."
  },
  {
   "property": "C34",
   "status": "proved",
   "theorems": [
    "C34_actions",
    "C34_generic_actions",
    "C34_nothing_lost"
   ],
   "note": "Candidates, first discoverer kept, no duplicate edits, ordered by kind, stable."
  },
  {
   "property": "C35",
   "status": "proved",
   "theorems": [
    "C35_diagnostics"
   ],
   "note": "Kept reports are the first ones by range, severity and edits; formatting keeps message, range, severity and the number of fixes and edits."
  },
  {
   "property": "C36",
   "status": "partial",
   "theorems": [
    "C36_duplicate_arguments",
    "C36_duplicate_macros",
    "C36_only_duplicates",
    "C36_one_argument_stays",
    "C36_duplicate_macro_fix_refuted"
   ],
   "note": "Reports exact for arguments and macros; removing reported arguments keeps each kind once. Refuted: the quick fix for a duplicate macro removes its whole attribute, with arguments that are written only there."
  },
  {
   "property": "C37",
   "status": "partial",
   "theorems": [
    "C37_selectors_exact",
    "C37_same_selector",
    "C37_ids_exact",
    "C37_suggested_selectors",
    "C37_ids_read",
    "C37_suggested_ids",
    "C37_id_found",
    "C37_selector_found",
    "C37_selector_edit",
    "C37_id_edit",
    "C37_fixed_selectors",
    "C37_fixed_ids",
    "C37_rename_refuted"
   ],
   "note": "Exactly the repeated selectors and ids are reported, suggested numbers are fresh and fixing leaves no overlap, for written values. PARTIAL: the quick fix that renames a function without a written selector can choose another function's name (C37_rename_refuted)."
  },
  {
   "property": "C38",
   "status": "proved",
   "theorems": [
    "C38_wildcards",
    "C38_selector_args",
    "C38_complement_exact",
    "C38_allowed",
    "C38_beside",
    "C38_fixes",
    "C38_no_wildcard"
   ],
   "note": "Wildcards and complements: exact characterisation of what is reported and of the classes that pass."
  },
  {
   "property": "C39",
   "status": "proved",
   "theorems": [
    "C39_at_least_one",
    "C39_at_most_one",
    "C39_none",
    "C39_accepted"
   ],
   "note": "Exact for all three rules."
  },
  {
   "property": "C40",
   "status": "partial",
   "theorems": [
    "C40_others_stay_partial",
    "C40_only_argument",
    "C40_nested_refuted",
    "C40_padded_value_refuted",
    "C40_only_argument_refuted",
    "C40_conflicting_partial"
   ],
   "note": "Proved for lists of any length with arbitrary white space and comments, for arguments written name or name = value. False (refuted with witnesses) for nested arguments (a closing parenthesis stays), for a last argument whose value is followed by white space (its comma stays), and for the only argument of a list ending in a comma and white space. The removal of several arguments by one fix is covered by C40_conflicting_partial (all edits together), unless the last two both go."
  },
  {
   "property": "C41",
   "status": "partial",
   "theorems": [
    "C41_conflicting_arguments_partial",
    "C41_e2e_migration_partial",
    "C41_make_first",
    "C41_conflicting_arguments_refuted",
    "C41_e2e_migration_refuted",
    "C41_migration_refuted"
   ],
   "note": "Proved for the quick fix that moves an argument to the front (with the resulting list), and, unless the last two arguments are both removed, for the removal of conflicting arguments and the e2e migration. False when the last two arguments are both removed: both edits contain the comma between them. Refuted also for the migration to ink! 5: the deletion of an event and the edit of its derive attribute overlap. Other actions with several edits are not modelled."
  },
  {
   "property": "C42",
   "status": "partial",
   "theorems": [
    "C42_primary_inserted_first",
    "C42_inserted_last_partial",
    "C42_list_added",
    "C42_inserted_before_first",
    "C42_inserted_last_refuted"
   ],
   "note": "Full for primary arguments, for insertion before the first argument and for attributes without list. Insertion as last argument is false after a trailing comma with white space and for an empty list with white space (refuted)."
  },
  {
   "property": "C43",
   "status": "partial",
   "theorems": [
    "C43_exact",
    "C43_answered",
    "C43_answered_written",
    "C43_malformed_refuted"
   ],
   "note": "The full claim holds for all attributes; the answer itself exists unless an argument has no range. #[ink((a) b)] with a range panics (refuted with a witness, same cause as C61)."
  },
  {
   "property": "C44",
   "status": "partial",
   "theorems": [
    "C44_no_repetition",
    "C44_completion_arguments",
    "C44_attribute_action_arguments",
    "C44_item_action_arguments",
    "C44_item_action_complete",
    "C44_item_action_first",
    "C44_item_action_macros",
    "C44_completion_macros",
    "C44_empty_scope_refuted",
    "C44_typed_prefix"
   ],
   "note": "Completions, attribute and item actions, macros: filtered exactly. Refuted: no filtering when the enclosing ink! item allows no arguments."
  },
  {
   "property": "C45",
   "status": "partial",
   "theorems": [
    "C45_no_conflict",
    "C45_no_duplicate",
    "C45_new_attribute",
    "C45_macro",
    "C45_chain_extension_refuted",
    "C45_primary_suggestions_refuted"
   ],
   "note": "Suggested arguments, written anywhere in the attribute or in a new one, are not reported. Refuted for three ink! 5 suggestions (chain_extension macro action; extension for handle_status; ink_e2e::test for keep_attr)."
  },
  {
   "property": "C46",
   "status": "partial",
   "theorems": [
    "C46_same_arguments",
    "C46_each_once",
    "C46_offered",
    "C46_unknown_macro_refuted"
   ],
   "note": "Proved for every list of attributes written with the argument grammar and every expression parser that prints back what it parses. Refuted for an unknown macro as primary attribute: its path is lost (#[ink::foo] #[ink(message)] becomes #[(message)])."
  },
  {
   "property": "C47",
   "status": "partial",
   "theorems": [
    "C47_valid_names",
    "C47_substitution_partial",
    "C47_substitution_refuted"
   ],
   "note": "Refuted: a name containing MyContract garbles the module name; proved for all other valid names; names accepted iff valid."
  },
  {
   "property": "C48",
   "status": "partial",
   "theorems": [
    "C48_sound",
    "C48_once",
    "C48_complete_partial",
    "C48_complete_refuted",
    "C48_no_descendants",
    "C48_nothing_below",
    "C48_file"
   ],
   "note": "soundness, uniqueness and the scopes allowing nothing are exact; completeness for container scopes needs that the item has no unknown ink! macro attribute, otherwise refuted."
  },
  {
   "property": "C49",
   "status": "proved",
   "theorems": [
    "C49_ids",
    "C49_written"
   ],
   "note": "Ids: for every file with at most 65535 chain extensions. The id is written as the first argument of the attribute (all lists C42 covers)."
  },
  {
   "property": "C50",
   "status": "partial",
   "theorems": [
    "C50_standalone",
    "C50_conditional_partial",
    "C50_other_attributes",
    "C50_moved",
    "C50_second_derive_refuted",
    "C50_condition_refuted"
   ],
   "note": "Proved for #[derive(..)] and for the first derive of a #[cfg_attr(..)], for every way of resolving names that ignores white space. Refuted: a second derive in one cfg_attr keeps its SCALE traits, and the condition of a cfg_attr is lost."
  },
  {
   "property": "C51",
   "status": "partial",
   "theorems": [
    "C51_existing_v4_partial",
    "C51_new",
    "C51_existing_v5_refuted",
    "C51_empty_derive_refuted"
   ],
   "note": "Proved: with no attribute to extend (both versions), a new attribute with exactly the missing traits is inserted after the attributes, and the type then provides all three (for ink! 5 by parsing the inserted text); for ink! 4 with a derive that lists names, exactly that attribute is rewritten to one listing the same names and then the missing ones, no derive is lost and all three are provided; the snippet expands to the text. Refuted: ink! 5 with an existing scale_derive loses the traits already derived; ink! 4 with `derive()` yields a list starting with a comma. Which texts name a trait, and implementations elsewhere in the file, are parameters."
  },
  {
   "property": "C52",
   "status": "partial",
   "theorems": [
    "C52_undeclared",
    "C52_missing",
    "C52_missing_iff",
    "C52_missing_fixed",
    "C52_stub_signature",
    "C52_signature_reported",
    "C52_signature_sound",
    "C52_whitespace_refuted",
    "C52_trailing_comma_refuted",
    "C52_not_message"
   ],
   "note": "Undeclared methods, missing messages (with the inserted stubs), other items and signatures are characterised exactly. The fixes are refuted in two cases: white space inside a parameter counts as a difference, and for a declaration with a comma after its last parameter the inserted stub is itself reported."
  },
  {
   "property": "C53",
   "status": "partial",
   "theorems": [
    "C53_reported_exactly",
    "C53_suggestion_partial",
    "C53_suggestion_refuted"
   ],
   "note": "Refuted: the suggestion can start with __ink_ again or not be an identifier; proved: reported iff prefixed, suggestion is the rest if it does not contain the prefix."
  },
  {
   "property": "C54",
   "status": "partial",
   "theorems": [
    "C54_first_argument",
    "C54_otherwise_the_attribute",
    "C54_range_inside",
    "C54_outside",
    "C54_name_hit",
    "C54_documentation_distinct",
    "C54_suggestions_documented",
    "C54_nested_name_refuted"
   ],
   "note": "First argument, fallback, range inside the attribute, no answer outside, exact name on a name hit, and distinct documentation. For the name of a nested argument the claim is false (refuted with a witness). Paths of attributes are read by a parameter (ra_ap_syntax)."
  },
  {
   "property": "C55",
   "status": "partial",
   "theorems": [
    "C55_action_dropped_iff",
    "C55_trigger_mechanism",
    "C55_edit_action",
    "C55_no_edit_lost",
    "C55_completion_snippets",
    "C55_resolve_announced_refuted"
   ],
   "note": "Mechanism choice is exact; refuted: a client with edit-resolve support gets resolve-only actions although no resolve provider was announced."
  },
  {
   "property": "C56",
   "status": "proved",
   "theorems": [
    "C56_primary_attribute",
    "C56_primary_attribute_exists"
   ],
   "note": "Full."
  },
  {
   "property": "C57",
   "status": "partial",
   "theorems": [
    "C57_kinds_announced_refuted",
    "C57_announced_kinds"
   ],
   "note": "Announced kinds are exactly the intersection; refuted: unannounced kinds are sent."
  },
  {
   "property": "C58",
   "status": "partial",
   "theorems": [
    "C58_dependency_added_partial",
    "C58_no_dependency_lost_refuted"
   ],
   "note": "Frame proved; refuted: a dependency of the same name is overwritten."
  },
  {
   "property": "C59",
   "status": "partial",
   "theorems": [
    "C59_migrated_manifest_is_v5_refuted",
    "C59_migrated_manifest_partial"
   ],
   "note": "Proved for entries with their own requirement; refuted for entries inherited from the workspace."
  },
  {
   "property": "C60",
   "status": "partial",
   "theorems": [
    "C60_no_crash_refuted",
    "C60_position_past_end_refuted",
    "C60_diagnostics_refuted",
    "C60_inlay_refuted",
    "C60_no_crash_partial"
   ],
   "note": "refuted by positions past the end of the text, by reversed command ranges, by texts whose diagnostics fail (C60_diagnostics_refuted; such texts exist, C81_malformed_refuted) and by texts whose inlay hints fail (C60_inlay_refuted, C43_malformed_refuted); proved for sessions whose positions exist and whose texts the analyzer can deal with (manageable)."
  },
  {
   "property": "C61",
   "status": "partial",
   "theorems": [
    "C61_argument_range_partial",
    "C61_range_end",
    "C61_argument_range_refuted"
   ],
   "note": "Refuted: #[ink((a) b)] makes the range computation panic; proved for all arguments written name first."
  },
  {
   "property": "C62",
   "status": "partial",
   "theorems": [
    "C62_trailing_comma_partial",
    "C62_trailing_comma_refuted"
   ],
   "note": "Refuted: white space after the trailing comma gives one more, nameless argument; proved for a comma directly before the parenthesis."
  },
  {
   "property": "C63",
   "status": "partial",
   "theorems": [
    "C63_string_value_partial",
    "C63_string_value_refuted"
   ],
   "note": "Refuted for raw strings and escaped quotes; proved for strings without quotes and escapes."
  },
  {
   "property": "C64",
   "status": "partial",
   "theorems": [
    "C64_indentation_partial",
    "C64_indentation_reversed",
    "C64_indentation_refuted"
   ],
   "note": "Refuted: the characters are collected in reverse, so mixed tabs and spaces are swapped; proved for uniform indentation."
  },
  {
   "property": "C65",
   "status": "partial",
   "theorems": [
    "C65_documented_accepted",
    "C65_only_documented_partial",
    "C65_storage_item_scale_derive_refuted",
    "C65_incomplete_refuted",
    "C65_conflict_fix",
    "C65_anonymous_signature"
   ],
   "note": "Documented combinations accepted (all); converse proved where the primary attribute declares something, except the ink! 5 pair storage_item + scale_derive, for which it is refuted, as it is for lone derive/env arguments."
  },
  {
   "property": "C66",
   "status": "partial",
   "theorems": [
    "C66_closest_entities",
    "C66_storage",
    "C66_callables",
    "C66_callables_once",
    "C66_file_entities",
    "C66_file_entities_once",
    "C66_contract",
    "C66_file",
    "C66_impls_sound",
    "C66_impls_once",
    "C66_impls_cover",
    "C66_closest_once_refuted",
    "C66_closest_once"
   ],
   "note": "exact membership for all entity kinds; each once for callables, impls and file entities; for closest entities each once unless an attribute is repeated (refuted otherwise)."
  },
  {
   "property": "C67",
   "status": "proved",
   "theorems": [
    "C67_root_items",
    "C67_callables"
   ],
   "note": "Exact."
  },
  {
   "property": "C68",
   "status": "partial",
   "theorems": [
    "C68_current_module_partial",
    "C68_parent_module_partial",
    "C68_file_partial",
    "C68_file_module_partial",
    "C68_nested_refuted",
    "C68_super_super_refuted"
   ],
   "note": "Items of the current module, its parent, the file and the file's modules are found for crate::, ::, self::, super:: and relative paths. C68_nested_refuted: crate::a::b::X is never found (modules are looked up among the children of the module node, not of its item list); C68_super_super_refuted."
  },
  {
   "property": "C69",
   "status": "proved",
   "theorems": [
    "C69_diagnostic",
    "C69_completion",
    "C69_hover",
    "C69_inlay_hint",
    "C69_dropped"
   ],
   "note": "Exact content and place for each kind of result; left out exactly when a range end is outside the document."
  },
  {
   "property": "C70",
   "status": "proved",
   "theorems": [
    "C70_created_files",
    "C70_create_written",
    "C70_extract_written",
    "C70_project_root"
   ],
   "note": "For distinct file URLs; the files hold exactly the generated text after performing the edit on any store, everything else is unchanged; the root rule is exact."
  },
  {
   "property": "C71",
   "status": "proved",
   "theorems": [
    "C71_command",
    "C71_resolve"
   ],
   "note": "Through the command and through resolving, for URLs that the URL parser reads back as themselves (which holds for URLs the server itself received as parsed values)."
  },
  {
   "property": "C72",
   "status": "partial",
   "theorems": [
    "C72_split_constructor_refuted",
    "C72_entity_signature",
    "C72_macro_signature",
    "C72_companion",
    "C72_open",
    "C72_keep_attr_refuted"
   ],
   "note": "entities and macros show exactly their arguments; two refutations: keep_attr alone is shown with arguments no attribute takes together, and a constructor's selector in its own attribute is said to accept @."
  },
  {
   "property": "C73",
   "status": "proved",
   "theorems": [
    "C73_extra_args",
    "C73_values",
    "C73_missing_args",
    "C73_missing_args_sound"
   ],
   "note": "Exact characterisation of extra, missing and differing arguments; the removal range is the one of C40."
  },
  {
   "property": "C74",
   "status": "partial",
   "theorems": [
    "C74_moved_partial",
    "C74_anonymous_partial",
    "C74_all_events",
    "C74_moved_refuted"
   ],
   "note": "Proved when the text of the attribute occurs in the event only once. Refuted otherwise: a doc comment that mentions #[ink(event)] is rewritten too."
  },
  {
   "property": "C75",
   "status": "partial",
   "theorems": [
    "C75_complete",
    "C75_exact_partial",
    "C75_second_derive_refuted"
   ],
   "note": "Proved: every trait neither derived nor implemented is reported; with at most one attribute of each kind, the message names exactly the missing traits in order and there is no report iff none is missing. Refuted for a second derive attribute, which is ignored."
  },
  {
   "property": "C76",
   "status": "proved",
   "theorems": [
    "C76_exact",
    "C76_clean",
    "C76_documentation",
    "C76_types"
   ],
   "note": "For every function that follows the grammar (parts in order, gaps of white space and comments) in every file. The parse itself is ra_ap_syntax's (trusted); the checks of attributes and the shared generic checks are modelled elsewhere."
  },
  {
   "property": "C77",
   "status": "partial",
   "theorems": [
    "C77_fixes_partial",
    "C77_terminates_partial",
    "C77_receiver_refuted",
    "C77_variadic_refuted",
    "C77_snippets"
   ],
   "note": "Proved for every fix except two: adding &self to a message with a receiver by value (the fix gives `&selfself`), and removing `...` from a named parameter (leaves `args: `); both refuted by witnesses."
  },
  {
   "property": "C78",
   "status": "proved",
   "theorems": [
    "C78_exact",
    "C78_fixes_end"
   ],
   "note": "For every item of the described shape."
  },
  {
   "property": "C79",
   "status": "proved",
   "theorems": [
    "C79_exact",
    "C79_fixed"
   ],
   "note": ""
  },
  {
   "property": "C80",
   "status": "partial",
   "theorems": [
    "C80_exact",
    "C80_fixed",
    "C80_body_refuted"
   ],
   "note": "Exact reports and exact removal are proved for all traits; the fix for a function body leaves a function without a semicolon (refuted), so the result is not always a valid trait."
  },
  {
   "property": "C81",
   "status": "partial",
   "theorems": [
    "C81_accepts",
    "C81_reports_partial",
    "C81_one_report",
    "C81_no_panic",
    "C81_overlooked_refuted",
    "C81_raw_string_refuted",
    "C81_split_attribute_refuted",
    "C81_malformed_refuted"
   ],
   "note": "Proved: documented arguments are never reported; at most one report, within the argument, warnings exactly for unknown names; no panic given ranges; unreported arguments with plain string values are documented ones or have a stray part. Refuted: stray parentheses and equal signs are overlooked, raw strings and split constructor attributes are misjudged. For an argument that starts with a list, as in #[ink((a) selector)], the check fails (C81_malformed_refuted)."
  },
  {
   "property": "C82",
   "status": "partial",
   "theorems": [
    "C82_value_fix_partial",
    "C82_bare_fix",
    "C82_missing_option_fixes",
    "C82_other_option_fixes",
    "C82_value_to_option_fix",
    "C82_option_accepted",
    "C82_fixes_refuted",
    "C82_parenthesis_refuted"
   ],
   "note": "Proved for all values except hex strings (and 16 bit extension ids when all are used), for superfluous values, and for options that may stand alone, by parsing the written text again. Refuted for signature topics, options that need a value, values that are no option, and arguments with parentheses."
  },
  {
   "property": "C83",
   "status": "partial",
   "theorems": [
    "C83_next_token",
    "C83_names",
    "C83_outside",
    "C83_text",
    "C83_value_partial",
    "C83_ids"
   ],
   "note": "The shape of the text, the token it depends on, snippets and ids are proved for all files and offsets; that the value is accepted is proved except for signature topics (default \"\" is refused, see C82)."
  },
  {
   "property": "C84",
   "status": "partial",
   "theorems": [
    "C84_unknown_attributes",
    "C84_clean",
    "C84_once_refuted"
   ],
   "note": "Exact reports and the iff are proved; refuted: an attribute whose only argument is unknown is reported twice (as attribute and as argument)."
  },
  {
   "property": "C85",
   "status": "partial",
   "theorems": [
    "C85_recognised",
    "C85_sound_partial",
    "C85_full_path",
    "C85_reexported",
    "C85_one_answer",
    "C85_crate_paths",
    "C85_only_crates",
    "C85_self_imports",
    "C85_global_refuted",
    "C85_global_name_refuted",
    "C85_local_module_refuted",
    "C85_self_path_refuted",
    "C85_renamed_crate_refuted",
    "C85_renamed_refuted",
    "C85_two_globs_refuted",
    "C85_function_use_refuted"
   ],
   "note": "Completeness is proved for every module that imports from the wanted crates and for re-exports under the same name; soundness for modules that import from the wanted crates only and paths that are not type aliases. Refuted: leading ::, local modules with a crate's name, self:: paths, renamed re-exports, imports inside functions, two glob imports (endless)."
  },
  {
   "property": "C86",
   "status": "partial",
   "theorems": [
    "C86_environment_impl",
    "C86_error_code_impl",
    "C86_fix_accepted",
    "C86_error_code_fix_accepted",
    "C86_resolved",
    "C86_error_code_resolved",
    "C86_default_environment",
    "C86_types",
    "C86_candidate",
    "C86_suggestion_partial",
    "C86_error_code_suggestion_partial",
    "C86_self_error_code",
    "C86_one_report",
    "C86_suggestion_refuted",
    "C86_other_type_refuted",
    "C86_unit_error_code_refuted",
    "C86_line_break_refuted"
   ],
   "note": "Reports, edits and acceptance of the fixes are exact for every file; the suggested path is proved to resolve for types at the root of the file or in a module of the root. Refuted: types in deeper modules (reversed path), implementations for another type of the same name, () as ErrorCode, Self::ErrorCode with a line break."
  },
  {
   "property": "C87",
   "status": "partial",
   "theorems": [
    "C87_storage",
    "C87_event",
    "C87_event2",
    "C87_topic",
    "C87_callable_in_impl",
    "C87_callable_at",
    "C87_trait_message",
    "C87_error_code",
    "C87_extension",
    "C87_test",
    "C87_e2e_test",
    "C87_combine",
    "C87_selector_message",
    "C87_selector_name_refuted",
    "C87_callable_name_refuted",
    "C87_event_name_refuted",
    "C87_function_refuted",
    "C87_combine_refuted",
    "C87_indent_refuted",
    "C87_tuple_topic_refuted"
   ],
   "note": "Lines, indentation, names, ids and snippets are exact for every entity and every file. Refuted: names of the selector message, of version 5 functions (and their ids), of events against enums and of constructors against plain functions; a single combined extension; topics for unnamed fields; doubled indentation."
  },
  {
   "property": "C88",
   "status": "partial",
   "theorems": [
    "C88_callable_alone",
    "C88_callable",
    "C88_callable_elsewhere",
    "C88_new_impl",
    "C88_by_scope",
    "C88_attribute",
    "C88_other_type_refuted",
    "C88_no_list"
   ],
   "note": "Places are exact for lists in braces. Items without such a list get nothing (C88_no_list); lists whose closing brace is missing are not covered. Refuted: callables may go to the impl block of another type."
  },
  {
   "property": "C89",
   "status": "partial",
   "theorems": [
    "C89_functions",
    "C89_trait_functions",
    "C89_wildcards_each",
    "C89_wildcards",
    "C89_only_wildcard",
    "C89_extension_argument",
    "C89_extension_argument_alone",
    "C89_least_refuted",
    "C89_same_id_refuted"
   ],
   "note": "Exact for every list of functions while fewer ids than the maximum are in use. Arguments with the value _ for attributes whose arguments are written `name` or `name = value`. Refuted: least id next to ink! 4 attributes; ids of the fixes of two rules coincide."
  },
  {
   "property": "C90",
   "status": "partial",
   "theorems": [
    "C90_alias",
    "C90_fixed",
    "C90_no_name",
    "C90_superfluous",
    "C90_no_error_code",
    "C90_type_refuted"
   ],
   "note": "Exact for every associated type with `=` or `;`. Refuted: the fix for a type with neither."
  },
  {
   "property": "C91",
   "status": "partial",
   "theorems": [
    "C91_migrated",
    "C91_condition_refuted",
    "C91_places_refuted",
    "C91_arguments_refuted",
    "C91_other_method_refuted",
    "C91_again_refuted",
    "C91_import_refuted",
    "C91_alias_refuted"
   ],
   "note": "The edits are exact for every syntax tree and every resolution of paths. Refuted: expressions that are not looked at, unrelated methods, imports and other names, repeated migration."
  },
  {
   "property": "C92",
   "status": "partial",
   "theorems": [
    "C92_body",
    "C92_imports_once",
    "C92_clear",
    "C92_overlap_refuted",
    "C92_arguments_refuted",
    "C92_other_method_refuted",
    "C92_missed_refuted",
    "C92_signature",
    "C92_signature_bare",
    "C92_signature_again_refuted"
   ],
   "note": "The edits are exact for every body and every resolution of paths; they do not overlap if nothing changes inside of argument lists that may be replaced. Refuted without that, and for arguments of client calls, unrelated methods, macros and conditions, and repeated migration. The places for imports are given; that an import is new is not checked by the code."
  },
  {
   "property": "C93",
   "status": "partial",
   "theorems": [
    "C93_module_partial",
    "C93_file_partial",
    "C93_deprecated",
    "C93_untouched",
    "C93_overlap_refuted",
    "C93_nested_refuted",
    "C93_leading_refuted",
    "C93_outer_refuted"
   ],
   "note": "For declarations in the usual form (lists without a path only at the top), unless the last two trees of a list without a comma at its end both go while others stay, and with no comma right around the declaration. Refuted without these conditions. That nothing is done without a deprecated import needs only the usual form."
  },
  {
   "property": "C94",
   "status": "partial",
   "theorems": [
    "C94_checked",
    "C94_reports",
    "C94_all",
    "C94_hidden_refuted"
   ],
   "note": "Proved for signatures whose local types have no generic arguments; in general for the types a path stands for (its own item, or else those of its arguments). That the types in the arguments of a local type are checked too is refuted. Paths with the same text are taken to be the same path, and items with the same range the same item."
  },
  {
   "property": "C95",
   "status": "partial",
   "theorems": [
    "C95_extracts",
    "C95_only_events",
    "C95_standalone_refuted",
    "C95_derive_refuted"
   ],
   "note": "Proved for structs in a module whose comments and attributes stand before the declaration, whose declaration has no carriage returns and no items, and whose indentation repeats one character. That standalone events outside modules are extracted, and that other ink! attributes are kept, is refuted."
  },
  {
   "property": "C96",
   "status": "partial",
   "theorems": [
    "C96_body",
    "C96_brace_partial",
    "C96_declaration",
    "C96_function",
    "C96_semicolon",
    "C96_field",
    "C96_attribute",
    "C96_root",
    "C96_only",
    "C96_brace_refuted",
    "C96_selection_refuted",
    "C96_topic_refuted"
   ],
   "note": "The cursor theorems are for items with a body in braces, functions (C96_function) and items that end in a semicolon (C96_semicolon), all finished; for selections and unfinished items only C96_only speaks. That new code goes into the body is refuted right before the closing brace, and for selections of several elements; that an added topic is separated from the field before it is refuted."
  },
  {
   "property": "C97",
   "status": "partial",
   "theorems": [
    "C97_checked_partial",
    "C97_reported_partial",
    "C97_covered_partial",
    "C97_checks_entities",
    "C97_reports",
    "C97_quiet",
    "C97_scale_derive_refuted",
    "C97_function_refuted",
    "C97_impl_refuted"
   ],
   "note": "The coverage theorems leave out what is inside a SCALE derive, items with attributes of unknown ink! macros (C48_complete_refuted), attributes that name no entity of the version by themselves, `impl` on something that is no item and version 5 functions that are no `fn` of the trait; the first and the last two are refuted."
  },
  {
   "property": "C98",
   "status": "partial",
   "theorems": [
    "C98_completions_partial",
    "C98_quiet",
    "C98_once",
    "C98_string_refuted",
    "C98_comment_refuted",
    "C98_finished_refuted",
    "C98_apart"
   ],
   "note": "The line and what is offered for it are proved for files in which only white space goes over the end of a line; strings and comments of several lines, and finished items on the line, are refuted. Entities are never offered together with macros or arguments if attributes are closed (C98_apart)."
  },
  {
   "property": "C99",
   "status": "partial",
   "theorems": [
    "C99_contract",
    "C99_block",
    "C99_trait",
    "C99_struct",
    "C99_data",
    "C99_module",
    "C99_file",
    "C99_other_items",
    "C99_once",
    "C99_belongs",
    "C99_belongs_in_file",
    "C99_tests",
    "C99_tests_only_partial",
    "C99_not_test_refuted"
   ],
   "note": "What is offered in every kind of item is proved; that test modules are for tests only is proved for conjunctions of options and refuted in general."
  },
  {
   "property": "C100",
   "status": "partial",
   "theorems": [
    "C100_macro_partial",
    "C100_opened_partial",
    "C100_keyword",
    "C100_keyword_unclosed",
    "C100_keyword_none",
    "C100_field",
    "C100_word",
    "C100_delimiter_partial",
    "C100_options_partial",
    "C100_bracket_refuted",
    "C100_joined_refuted",
    "C100_parenthesis_refuted",
    "C100_brace_refuted",
    "C100_option_refuted",
    "C100_value_refuted",
    "C100_crate_refuted",
    "C100_in_attribute"
   ],
   "note": "Words and delimiters of macro paths and lists of arguments, options, and the keyword of the item are proved; brackets and parentheses at the cursor, joined names, repeated crate names, values and closed options are refuted. In files whose attributes are closed, completions of macros and arguments appear only at attributes (C100_in_attribute)."
  },
  {
   "property": "C101",
   "status": "partial",
   "theorems": [
    "C101_no_contract",
    "C101_callables",
    "C101_self_refuted",
    "C101_trait_impl_refuted",
    "C101_string_refuted"
   ],
   "note": "All cases are proved for items; that the target is an impl block for callables and that the edits never overlap is refuted (impl blocks for traits, an impl block marked as a callable). Strings of several lines in a moved item are changed by the new indentation (C101_string_refuted)."
  },
  {
   "property": "C102",
   "status": "partial",
   "theorems": [
    "C102_macro",
    "C102_new_argument",
    "C102_extended_partial",
    "C102_list_added",
    "C102_unclosed",
    "C102_attribute_partial",
    "C102_attribute_list_added",
    "C102_declaration",
    "C102_cursor",
    "C102_selection",
    "C102_total",
    "C102_target",
    "C102_formatted",
    "C102_insertion_formatted",
    "C102_id_refuted"
   ],
   "note": "As for C42, adding an argument at the end is not claimed for a list which ends in a comma and white space or has only white space in it. That a new id is not in use is refuted for new attributes."
  },
  {
   "property": "C103",
   "status": "partial",
   "theorems": [
    "C103_module_inline",
    "C103_bodiless",
    "C103_not_module",
    "C103_not_module_unmarked",
    "C103_fitting_partial",
    "C103_kind",
    "C103_tuple_topic_refuted",
    "C103_too_many",
    "C103_storage_surplus",
    "C103_no_storage",
    "C103_enough",
    "C103_into_impl",
    "C103_into_new_impl",
    "C103_trait_message",
    "C103_impl_callables",
    "C103_cfg",
    "C103_self_args",
    "C103_namespace_inherent",
    "C103_namespace_partial",
    "C103_namespace_only",
    "C103_unclosed_refuted",
    "C103_trait_name_refuted"
   ],
   "note": "All checks are proved for items as written; the exceptions refuted are modules that are not closed, topics on tuple fields and names of functions of a trait. As for C40, a namespace among several arguments is written `name` or `name = value`."
  },
  {
   "property": "C104",
   "status": "partial",
   "theorems": [
    "C104_tests",
    "C104_test",
    "C104_formatted_partial",
    "C104_apart",
    "C104_done",
    "C104_performed",
    "C104_migration",
    "C104_migrated_partial",
    "C104_hosts",
    "C104_import_refuted",
    "C104_moved_refuted"
   ],
   "note": "For deletions that end where a token ends, unless an edit starts in or right in front of the white space behind a deletion; refuted without that, by the migration of e2e tests whose last import is removed and by the move of a callable with a comment behind it into a new impl block. C104_performed: the two definitions of applying edits together (here and for C101) agree. Migrations of host functions never delete, so they always can be applied."
  },
  {
   "property": "C105",
   "status": "partial",
   "theorems": [
    "C105_features_partial",
    "C105_others",
    "C105_features_refuted",
    "C105_options_refuted",
    "C105_elsewhere_refuted",
    "C105_inline_refuted"
   ],
   "note": "Proved if at most scale/std and scale-info/std of the feature std refer to the removed dependencies; other values, the options of ink_e2e, ink_e2e in other sections and inline tables are refuted."
  },
  {
   "property": "C106",
   "status": "partial",
   "theorems": [
    "C106_past_end",
    "C106_entities",
    "C106_macros",
    "C106_attributes",
    "C106_items_partial",
    "C106_extractions",
    "C106_hover_partial",
    "C106_hover_written",
    "C106_arguments_partial",
    "C106_arguments_refuted",
    "C106_hover_refuted",
    "C106_items_refuted",
    "C106_inside_character_refuted"
   ],
   "note": "Completions of entities and macros, actions for attributes and extractions: proved for every file. Actions for items: proved if documentation and attributes stand in front of items, refuted otherwise. Hover: proved if the arguments have ranges (so if they are written name first), refuted for #[ink((a) selector)], where completions of arguments end the analyzer too. Completions of arguments: proved if attributes are closed and arguments stand in them, refuted for an attribute that is not closed."
  },
  {
   "property": "C107",
   "status": "partial",
   "theorems": [
    "C107_others_stay_partial",
    "C107_list_goes",
    "C107_unchanged",
    "C107_backend_refuted"
   ],
   "note": "Proved for arguments `name` and `name = value` if there is an environment or no additional_contracts, and not both of the last two go (then the edits overlap, C41). Refuted for a list without environment that has another argument: the whole list goes."
  },
  {
   "property": "C108",
   "status": "partial",
   "theorems": [
    "C108_added",
    "C108_untouched",
    "C108_error_code",
    "C108_storage",
    "C108_environment_refuted",
    "C108_same_names_refuted",
    "C108_inner_refuted"
   ],
   "note": "Text, range, snippet and what is typed are proved for all entities, indentations and typed texts. Refuted: the name of an environment is typed at two places that do not change together; names are not compared with those of the file; a contract begins with an inner attribute at any position."
  }
 ]
}