{
 "claims": [
  {
   "property": "C01",
   "status": "proved",
   "theorems": [
    "C01_tokenize_total"
   ],
   "note": ""
  },
  {
   "property": "C02",
   "status": "proved",
   "theorems": [
    "C02_single_final_eof"
   ],
   "note": ""
  },
  {
   "property": "C03",
   "status": "proved",
   "theorems": [
    "C03_lossless",
    "C03_lossless_without_nul"
   ],
   "note": ""
  },
  {
   "property": "C04",
   "status": "proved",
   "theorems": [
    "C04_ranges_tile"
   ],
   "note": ""
  },
  {
   "property": "C05",
   "status": "partial",
   "theorems": [
    "C05_true_positions_partial",
    "C05_exactly",
    "C05_true_positions_refuted",
    "C05_crlf_refuted"
   ],
   "note": "False in general: witnesses '[<LF>]a' (every lawful segmenter) and CRLF. C05_exactly: for every text, the position of a token is the true one exactly if every line feed before it was read as a newline token; C05_true_positions_partial gives a condition on the text (no line feed directly before a closing bracket, no CRLF)."
  },
  {
   "property": "C06",
   "status": "proved",
   "theorems": [
    "C06_lexical_classes"
   ],
   "note": ""
  },
  {
   "property": "C07",
   "status": "proved",
   "theorems": [
    "C07_plain_lines"
   ],
   "note": ""
  },
  {
   "property": "C08",
   "status": "partial",
   "theorems": [
    "C08_escape_neutral_refuted",
    "C08_escape_close_refuted",
    "C08_backslash_transparent_partial"
   ],
   "note": "False: an escaped bracket changes how later text is tokenized. Proved instead: a backslash is transparent, i.e. the rest is tokenized as if it were absent, so escaped brackets count like unescaped ones."
  },
  {
   "property": "C09",
   "status": "proved",
   "theorems": [
    "C09_paragraphs_independent"
   ],
   "note": ""
  },
  {
   "property": "C10",
   "status": "proved",
   "theorems": [
    "C10_parse_text_no_panic",
    "C10_parse_tokens_no_panic",
    "C10_final_backslash_panics"
   ],
   "note": ""
  },
  {
   "property": "C11",
   "status": "proved",
   "theorems": [
    "C11_leaves_are_tokens",
    "C11_leaves_are_tokens_to_eof"
   ],
   "note": ""
  },
  {
   "property": "C12",
   "status": "proved",
   "theorems": [
    "C12_cst_grammar"
   ],
   "note": ""
  },
  {
   "property": "C13",
   "status": "proved",
   "theorems": [
    "C13_accepted_documents",
    "C13_balanced_accepted",
    "C13_leading_newline_rejected",
    "C13_stray_close_rejected"
   ],
   "note": ""
  },
  {
   "property": "C14",
   "status": "proved",
   "theorems": [
    "C14_spans"
   ],
   "note": ""
  },
  {
   "property": "C15",
   "status": "partial",
   "theorems": [
    "C15_merge_start",
    "C15_merge_end_when_partial",
    "C15_merge_end_refuted"
   ],
   "note": "False for the end: line 61 compares a line with a column. The start is proved; for the end the exact condition under which it is the later one is proved, plus a witness."
  },
  {
   "property": "C16",
   "status": "partial",
   "theorems": [
    "C16_start_is_origin_partial",
    "C16_stmt_end_partial",
    "C16_start_refuted",
    "C16_document_end_refuted",
    "C16_document_end_exactly"
   ],
   "note": "False as stated. Proved exactly instead: the start is always (0,0), the end of every Stmt is its last child's end, and the end of a Document is its EOF's end or, in one case that is spelt out, the end of the child before it. Witnesses refute the start of a Stmt and the end of a Document."
  },
  {
   "property": "C17",
   "status": "partial",
   "theorems": [
    "C17_transform_panics_refuted",
    "C17_transform_panics_exactly",
    "C17_no_panic_when_nested_partial"
   ],
   "note": "False in general (two witnesses). Proved: the exact condition over tokens, and absence of panics for texts with properly nested brackets and no escaped opening bracket."
  },
  {
   "property": "C18",
   "status": "proved",
   "theorems": [
    "C18_no_error_iff_well_formed",
    "C18_result_is_the_meaning"
   ],
   "note": ""
  },
  {
   "property": "C19",
   "status": "partial",
   "theorems": [
    "C19_ast_grammar_partial",
    "C19_ident_argument_refuted"
   ],
   "note": "False for the published grammar (witness '[m.f \\[x z]'). Proved for the grammar corrected by curly commands and by module/ident leaves as words."
  },
  {
   "property": "C20",
   "status": "proved",
   "theorems": [
    "C20_words_of_the_tokens",
    "C20_no_text_lost"
   ],
   "note": ""
  },
  {
   "property": "C21",
   "status": "partial",
   "theorems": [
    "C21_never_reported_refuted",
    "C21_lone_close_dropped_refuted"
   ],
   "note": "False: proved that MismatchedBracket, *NotOpened and CommaNotFound never occur for parsed input; witness of a silently dropped closing bracket."
  },
  {
   "property": "C22",
   "status": "proved",
   "theorems": [
    "C22_unclosed_reported"
   ],
   "note": ""
  },
  {
   "property": "C23",
   "status": "partial",
   "theorems": [
    "C23_dot_reported_twice_refuted",
    "C23_dots_exactly"
   ],
   "note": "False: witness, and the exact list: each stray dot of a command with a good head is reported twice."
  },
  {
   "property": "C24",
   "status": "partial",
   "theorems": [
    "C24_words_joined_refuted",
    "C24_spaces_dropped_refuted"
   ],
   "note": "False: every space and newline inside a command is dropped; shown on the AST and on the generated output, for every plugin set."
  },
  {
   "property": "C25",
   "status": "proved",
   "theorems": [
    "C25_ids_unique",
    "C25_get_finds_the_node"
   ],
   "note": ""
  },
  {
   "property": "C26",
   "status": "partial",
   "theorems": [
    "C26_results_discarded_refuted",
    "C26_expander_changes_nothing"
   ],
   "note": "False: expander returns its input whenever it succeeds (proved for all inputs); witness 'x <m.mac y>'."
  },
  {
   "property": "C27",
   "status": "proved",
   "theorems": [
    "C27_macros_called_in_order",
    "C27_every_macro_called_once",
    "C27_run_deterministic"
   ],
   "note": ""
  },
  {
   "property": "C28",
   "status": "partial",
   "theorems": [
    "C28_invalid_escape_panics_refuted",
    "C28_only_invalid_escapes_panic"
   ],
   "note": "False: witness '\\q' panics for every plugin set. Proved: without an InvalidBackslash error the expander never panics, whatever the plugins do."
  },
  {
   "property": "C29",
   "status": "proved",
   "theorems": [
    "C29_plain_lines",
    "C29_text_only"
   ],
   "note": ""
  },
  {
   "property": "C30",
   "status": "proved",
   "theorems": [
    "C30_generates_what_it_renders"
   ],
   "note": ""
  },
  {
   "property": "C31",
   "status": "proved",
   "theorems": [
    "C31_every_call_is_declared"
   ],
   "note": ""
  },
  {
   "property": "C32",
   "status": "partial",
   "theorems": [
    "C32_binding_panics_refuted",
    "C32_command_panics_exactly",
    "C32_safe_signatures"
   ],
   "note": "False: three witnesses through the whole pipeline. Proved: the exact condition under which a command node panics, and the signatures that never panic are exactly those in order."
  },
  {
   "property": "C33",
   "status": "proved",
   "theorems": [
    "C33_no_macro_in_output",
    "C33_macros_never_compile"
   ],
   "note": ""
  },
  {
   "property": "C34",
   "status": "proved",
   "theorems": [
    "C34_at_most_one_hook"
   ],
   "note": ""
  },
  {
   "property": "C35",
   "status": "proved",
   "theorems": [
    "C35_hook_is_there",
    "C35_names_must_differ"
   ],
   "note": ""
  },
  {
   "property": "C36",
   "status": "proved",
   "theorems": [
    "C36_order_irrelevant",
    "C36_names_must_differ"
   ],
   "note": ""
  },
  {
   "property": "C37",
   "status": "partial",
   "theorems": [
    "C37_errors_ignored_refuted",
    "C37_errors_never_matter"
   ],
   "note": "False: witness '[m.f a' compiles like '[m.f a]'. In general the errors never have any influence: two documents with the same AST compile alike whatever their errors (C37_errors_never_matter); C82 shows that unclosed brackets give the AST of the closed document."
  },
  {
   "property": "C38",
   "status": "proved",
   "theorems": [
    "C38_in_order_once"
   ],
   "note": "the number of dispatched messages is existential here; C39 and C40 give it"
  },
  {
   "property": "C39",
   "status": "partial",
   "theorems": [
    "C39_pipelined_refuted",
    "C39_one_per_read",
    "C39_all_dispatched_partial"
   ],
   "note": "refuted: of several messages in one read only one is dispatched, the next ones at later reads; proved: one message per read, and all are dispatched if the cuts respect characters and enough reads follow"
  },
  {
   "property": "C40",
   "status": "partial",
   "theorems": [
    "C40_split_character_stops",
    "C40_split_character_refuted"
   ],
   "note": "refuted: a read that ends inside a character ends the server"
  },
  {
   "property": "C41",
   "status": "partial",
   "theorems": [
    "C41_header_refuted",
    "C41_only_malformed_partial",
    "C41_no_length_blocks"
   ],
   "note": "refuted: a header that is not \"key: value\" with a number panics or ends the server; proved: nothing else panics, and a header without a length blocks the server"
  },
  {
   "property": "C42",
   "status": "proved",
   "theorems": [
    "C42_client_reads",
    "C42_reading_ends",
    "C42_written_is_read",
    "C42_written_is_well_formed"
   ],
   "note": "Proved for every message and environment; a message must be shorter than 2^31 bytes, the length the header parser accepts."
  },
  {
   "property": "C43",
   "status": "proved",
   "theorems": [
    "C43_answer",
    "C43_decodes"
   ],
   "note": ""
  },
  {
   "property": "C44",
   "status": "partial",
   "theorems": [
    "C44_outside_legend_refuted",
    "C44_shown_in_legend",
    "C44_others"
   ],
   "note": "refuted: every answer contains the number 100; proved: the decorated kinds have the right entry"
  },
  {
   "property": "C45",
   "status": "partial",
   "theorems": [
    "C45_at_most_one",
    "C45_only_requests",
    "C45_in_order",
    "C45_answered_exactly",
    "C45_unknown_method",
    "C45_initialize",
    "C45_bytes",
    "C45_any_bytes",
    "C45_string_id_refuted",
    "C45_unreadable_refuted",
    "C45_no_project_refuted"
   ],
   "note": "As stated it is false: C45_string_id_refuted, C45_unreadable_refuted, C45_no_project_refuted. Proved instead: at most one answer per request, none to anything else, in the order of the requests over whole sessions, and the exact condition for an answer."
  },
  {
   "property": "C46",
   "status": "proved",
   "theorems": [
    "C46_capability",
    "C46_remembered"
   ],
   "note": ""
  },
  {
   "property": "C47",
   "status": "proved",
   "theorems": [
    "C47_one_diagnostic_per_error",
    "C47_unreadable"
   ],
   "note": ""
  },
  {
   "property": "C48",
   "status": "partial",
   "theorems": [
    "C48_goes_on_exactly",
    "C48_broken_refuted"
   ],
   "note": "False: C48_broken_refuted. The exact condition for going on is C48_goes_on_exactly."
  },
  {
   "property": "C49",
   "status": "proved",
   "theorems": [
    "C49_round_trip",
    "C49_exact",
    "C49_field_order",
    "C49_other_rejected",
    "C49_config",
    "C49_text",
    "C49_strings"
   ],
   "note": ""
  },
  {
   "property": "C50",
   "status": "partial",
   "theorems": [
    "C50_records",
    "C50_succeeds",
    "C50_crate",
    "C50_records_toml",
    "C50_succeeds_toml",
    "C50_fails",
    "C50_accepted",
    "C50_name_refuted"
   ],
   "note": "Proved for owners, repositories and versions without the separators / : @ that apply to them and a non-empty repository; the _toml theorems are about the model of the toml crate (Toml.v) and assume nothing else, the others are about any codec that reads back what it wrote (toml_law). For an empty repository the plugin is recorded under the name of the owner (_refuted); C50_accepted says exactly which other texts are accepted and what is recorded."
  },
  {
   "property": "C51",
   "status": "partial",
   "theorems": [
    "C51_cache",
    "C51_name",
    "C51_backend_refuted"
   ],
   "note": "Cache paths are equal exactly for equal names and entries, assuming only that the two debug texts have no SHA-256 collision (SHA-256 itself is modelled). The backend is not part of the key: with another backend nothing is downloaded and the old files are registered (_refuted, for every configuration)."
  },
  {
   "property": "C52",
   "status": "partial",
   "theorems": [
    "C52_completion_order",
    "C52_map_order",
    "C52_failure_refuted"
   ],
   "note": "Completion order never matters, success or failure. Hash-map order does not matter for successful runs; what a failing run leaves depends on it (_refuted)."
  },
  {
   "property": "C53",
   "status": "proved",
   "theorems": [
    "C53_available",
    "C53_when",
    "C53_requests",
    "C53_address_and_hooks"
   ],
   "note": ""
  },
  {
   "property": "C54",
   "status": "partial",
   "theorems": [
    "C54_refuted",
    "C54_killed_partial"
   ],
   "note": "False: for every configured plugin that has to be downloaded there is a crash point that leaves an empty file, which every later run registers and never downloads again (_refuted). What is true of every crash point: C54_killed_partial."
  },
  {
   "property": "C55",
   "status": "partial",
   "theorems": [
    "C55_refuted",
    "C55_killed_partial"
   ],
   "note": "False: every successful run of add passes through a state where Brack.toml is empty, after which no command works (_refuted). At every crash point it is the old text or a prefix of the new one (_partial)."
  },
  {
   "property": "C56",
   "status": "proved",
   "theorems": [
    "C56_says",
    "C56_silent",
    "C56_says_but_fails",
    "C56_outputs",
    "C56_stops",
    "C56_succeeds",
    "C56_distinct",
    "C56_hidden"
   ],
   "note": ""
  },
  {
   "property": "C57",
   "status": "partial",
   "theorems": [
    "C57_pattern",
    "C57_name",
    "C57_found",
    "C57_other_names_refuted",
    "C57_stale_refuted",
    "C57_last_letters"
   ],
   "note": "Found under its own name exactly if the name consists of ASCII letters (all names). Other names are never found (_refuted), and of two files of one name the last one in directory order wins, so a stale version can be used (_refuted)."
  },
  {
   "property": "C58",
   "status": "partial",
   "theorems": [
    "C58_stages",
    "C58_fails_exactly",
    "C58_command",
    "C58_level5_is_build",
    "C58_level5_is_build_first",
    "C58_levels_refuted",
    "C58_hooks_refuted"
   ],
   "note": "Levels 1, 2, 4, 5 print the result of their stage and fail exactly if a stage up to theirs fails; level 3 prints the errors in the place of the tree if there are any, and level 5 has no JSON (_refuted). Level 5 is what build writes with the same plugins, but compile always switches the hooks off (_refuted with witness)."
  },
  {
   "property": "C59",
   "status": "partial",
   "theorems": [
    "C59_ast",
    "C59_value",
    "C59_type",
    "C59_metadata",
    "C59_ast_text",
    "C59_arguments_text",
    "C59_metadata_text",
    "C59_macro_text",
    "C59_every_document",
    "C59_macros_see_the_document_partial",
    "C59_document_height",
    "C59_macro_exchange_partial",
    "C59_deep_refuted",
    "C59_any_reply"
   ],
   "note": "JSON round trips hold for every AST, value, type and metadata. As texts, the recursion limit of serde_json (128) stops documents: with brackets nested at most 18 deep every macro reads the document unchanged (_partial); a document with 20 nested brackets cannot be read by the plugin nor read back (_refuted). Positions are assumed to fit a machine word and strings to consist of Unicode scalar values, which is proved of the AST of every text shorter than 2^64."
  },
  {
   "property": "C60",
   "status": "partial",
   "theorems": [
    "C60_expr_covers_tokens_refuted",
    "C60_covers_exactly"
   ],
   "note": "False when the expression ends in an escaped character (witness 'a\\['). C60_covers_exactly: an expression covers its tokens exactly if it does not end in an escaped character, for every text."
  },
  {
   "property": "C61",
   "status": "proved",
   "theorems": [
    "C61_meaning_unique",
    "C61_well_formed_is_understood"
   ],
   "note": ""
  },
  {
   "property": "C62",
   "status": "proved",
   "theorems": [
    "C62_head_errors",
    "C62_comma_errors",
    "C62_escape_errors"
   ],
   "note": ""
  },
  {
   "property": "C63",
   "status": "partial",
   "theorems": [
    "C63_argument_range_refuted",
    "C63_no_argument_range"
   ],
   "note": "False, of every argument: the range starts at 0:0, its first item never does (for all texts, under the segmentation laws); a witness besides."
  },
  {
   "property": "C64",
   "status": "proved",
   "theorems": [
    "C64_plugin_accepted_exactly"
   ],
   "note": ""
  },
  {
   "property": "C65",
   "status": "proved",
   "theorems": [
    "C65_compile_no_panic",
    "C65_every_leaf_has_its_value"
   ],
   "note": ""
  },
  {
   "property": "C66",
   "status": "partial",
   "theorems": [
    "C66_ascii_partial",
    "C66_exactly",
    "C66_utf16_refuted"
   ],
   "note": "refuted for characters outside the basic multilingual plane; C66_exactly: for every text, a position is that of the protocol exactly if every line feed before it was read as a newline token and every cluster before it on its line is one character of the basic multilingual plane; C66_ascii_partial gives a condition on the text."
  },
  {
   "property": "C67",
   "status": "proved",
   "theorems": [
    "C67_token_boundaries",
    "C67_inside_text"
   ],
   "note": ""
  },
  {
   "property": "C68",
   "status": "partial",
   "theorems": [
    "C68_uri_refuted",
    "C68_path_instead",
    "C68_never_the_uri_refuted"
   ],
   "note": "False, and never true of a URI with a scheme: what is sent is always the path of the file (C68_path_instead), which starts with a slash (C68_never_the_uri_refuted, assuming as in C69 that file URLs give absolute paths)."
  },
  {
   "property": "C69",
   "status": "partial",
   "theorems": [
    "C69_ends_exactly",
    "C69_panics_exactly",
    "C69_bad_params_refuted"
   ],
   "note": "The exact conditions are proved; C69_bad_params_refuted records that malformed parameters end the server instead of being answered."
  },
  {
   "property": "C70",
   "status": "partial",
   "theorems": [
    "C70_offers_commands",
    "C70_macros_refuted"
   ],
   "note": "Proved for the triggers '[' and '{'; C70_macros_refuted: nothing is offered after '<'."
  },
  {
   "property": "C71",
   "status": "partial",
   "theorems": [
    "C71_two_directories_up",
    "C71_root_exists",
    "C71_root_unique",
    "C71_only_open",
    "C71_subdirectory_refuted"
   ],
   "note": "Proved; C71_subdirectory_refuted records that documents in subdirectories do not find their project."
  },
  {
   "property": "C72",
   "status": "proved",
   "theorems": [
    "C72_response_ignored",
    "C72_invalid_request",
    "C72_other_notification",
    "C72_initialized_logged",
    "C72_change_ignored"
   ],
   "note": ""
  },
  {
   "property": "C73",
   "status": "proved",
   "theorems": [
    "C73_exists",
    "C73_files",
    "C73_succeeds",
    "C73_killed"
   ],
   "note": ""
  },
  {
   "property": "C74",
   "status": "partial",
   "theorems": [
    "C74_add_not_used_refuted",
    "C74_add_not_used_toml_refuted",
    "C74_other_file"
   ],
   "note": "False as stated, for every plugin (_refuted): the file of add is never the cache file, and the next build requests the plugin again."
  },
  {
   "property": "C75",
   "status": "proved",
   "theorems": [
    "C75_cleared",
    "C75_all_requested"
   ],
   "note": ""
  },
  {
   "property": "C76",
   "status": "partial",
   "theorems": [
    "C76_refuted"
   ],
   "note": "False as stated (_refuted): without the directory every download fails after making its requests."
  },
  {
   "property": "C77",
   "status": "proved",
   "theorems": [
    "C77_built",
    "C77_built_toml"
   ],
   "note": ""
  },
  {
   "property": "C78",
   "status": "proved",
   "theorems": [
    "C78_writes_nothing",
    "C78_no_hooks"
   ],
   "note": ""
  },
  {
   "property": "C79",
   "status": "proved",
   "theorems": [
    "C79_what_is_read",
    "C79_one_reading",
    "C79_same_ids",
    "C79_every_reading"
   ],
   "note": "Relation reads in SpecReads.v, written without the transformer: every AST produced is a reading (C79_what_is_read), readings are unique up to ids (C79_one_reading), and where there is a reading transform succeeds with it (C79_every_reading)."
  },
  {
   "property": "C80",
   "status": "proved",
   "theorems": [
    "C80_the_tree",
    "C80_one_tree",
    "C80_only_kinds_matter"
   ],
   "note": "Equivalence with the relation tree_of in SpecTree.v, which does not use the parser; uniqueness follows. C80_only_kinds_matter: the form of the tree depends on the kinds of the tokens only."
  },
  {
   "property": "C81",
   "status": "proved",
   "theorems": [
    "C81_spaces_never_matter"
   ],
   "note": "Token kinds after strip (SpecStrip.v) determine the AST without ids and locations (bare). Both parses are hypotheses; parsing succeeds exactly for token lists with an EOF (C10)."
  },
  {
   "property": "C82",
   "status": "proved",
   "theorems": [
    "C82_missing_brackets"
   ],
   "note": "close_missing and dangling are in SpecClose.v. The bracket put in has the range of the end of the token before which it stands, which is why the ranges agree."
  },
  {
   "property": "C83",
   "status": "proved",
   "theorems": [
    "C83_json_tokens",
    "C83_json_cst",
    "C83_json_ast",
    "C83_plain",
    "C83_lines"
   ],
   "note": "Proved. The ids of CST nodes are arbitrary (they are random in the program) and are not read back."
  },
  {
   "property": "C84",
   "status": "partial",
   "theorems": [
    "C84_understood",
    "C84_compiled",
    "C84_places_do_not_matter",
    "C84_ends_of_errors_refuted"
   ],
   "note": "The ends of errors for missing closing brackets are not moved down: merge_location compares a line with a column, so the end depends on the line on which the bracket is (C84_ends_of_errors_refuted). Everything else is proved; the first text must not end with a carriage return before the empty line, must not contain U+0000 and must have a token that is not a line feed."
  },
  {
   "property": "C85",
   "status": "partial",
   "theorems": [
    "C85_cst_kinds",
    "C85_invalid_matches_nothing_refuted",
    "C85_ast_kinds",
    "C85_assertion",
    "C85_assertion_panics"
   ],
   "note": "Proved with two exceptions: an Invalid CST node matches no node, not even itself (C85_invalid_matches_nothing_refuted), and assert_ast_eq panics on trees with Invalid or Ignored nodes even if they are equal (part of C85_assertion)."
  },
  {
   "property": "C86",
   "status": "partial",
   "theorems": [
    "C86_error_text",
    "C86_errors",
    "C86_cst",
    "C86_ast_shown",
    "C86_documents_shown",
    "C86_ast_same",
    "C86_ast_one_line",
    "C86_documents_one_line",
    "C86_ast_refuted"
   ],
   "note": "ASTs with a line feed in a text are not determined by their display: two documents without errors are given that have different trees and the same display (C86_ast_refuted). Proved for trees without line feeds in names and texts, such as those of documents whose line feeds are all newline tokens."
  },
  {
   "property": "C87",
   "status": "proved",
   "theorems": [
    "C87_fails_exactly",
    "C87_documents"
   ],
   "note": ""
  },
  {
   "property": "C88",
   "status": "proved",
   "theorems": [
    "C88_children_added",
    "C88_children_added_ast",
    "C88_accessors",
    "C88_accessors_ast"
   ],
   "note": ""
  },
  {
   "property": "C89",
   "status": "proved",
   "theorems": [
    "C89_no_overflow",
    "C89_overflow"
   ],
   "note": ""
  },
  {
   "property": "C90",
   "status": "proved",
   "theorems": [
    "C90_depth"
   ],
   "note": ""
  },
  {
   "property": "C91",
   "status": "proved",
   "theorems": [
    "C91_config",
    "C91_exactly",
    "C91_other_names"
   ],
   "note": ""
  },
  {
   "property": "C92",
   "status": "proved",
   "theorems": [
    "C92_builds"
   ],
   "note": ""
  },
  {
   "property": "C93",
   "status": "proved",
   "theorems": [
    "C93_exactly",
    "C93_any_order",
    "C93_once",
    "C93_required",
    "C93_every_command"
   ],
   "note": ""
  },
  {
   "property": "C94",
   "status": "partial",
   "theorems": [
    "C94_backend_refuted"
   ],
   "note": "False: proved that the backend given to compile never has any influence."
  },
  {
   "property": "C95",
   "status": "proved",
   "theorems": [
    "C95_status",
    "C95_help",
    "C95_no_command",
    "C95_compile",
    "C95_version",
    "C95_new_build"
   ],
   "note": ""
  },
  {
   "property": "C96",
   "status": "proved",
   "theorems": [
    "C96_depth",
    "C96_brackets",
    "C96_reached",
    "C96_rejected"
   ],
   "note": ""
  }
 ]
}