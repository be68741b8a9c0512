{
 "claims": [
  {
   "property": "C01",
   "status": "proved",
   "theorems": [
    "C01_success_output_is_frame_stream",
    "C01_frames_unique",
    "C01_oversized_payload_refuted"
   ],
   "note": "payloads below 4 GiB as the property says; the limit is shown to be real"
  },
  {
   "property": "C02",
   "status": "partial",
   "theorems": [
    "C02_error_frame_intact_refuted",
    "C02_diagnostics_survive_error_refuted",
    "C02_error_frame_present_partial",
    "C02_error_only_partial"
   ],
   "note": "the full claim is false of the code: main does not wait for the writer before writing the error frame; the exact shape of stdout is proved instead"
  },
  {
   "property": "C03",
   "status": "proved",
   "theorems": [
    "C03_nothing_lost_or_duplicated",
    "C03_unserialisable_leaves_no_trace"
   ],
   "note": ""
  },
  {
   "property": "C04",
   "status": "proved",
   "theorems": [
    "C04_no_deadlock",
    "C04_bounded_executions",
    "C04_every_execution_finishes"
   ],
   "note": "queue capacity >= 1 (4096 in the code)"
  },
  {
   "property": "C05",
   "status": "proved",
   "theorems": [
    "C05_every_file_linted_once"
   ],
   "note": ""
  },
  {
   "property": "C06",
   "status": "proved",
   "theorems": [
    "C06_checker_never_shared",
    "C06_checker_kept_for_whole_file"
   ],
   "note": ""
  },
  {
   "property": "C07",
   "status": "proved",
   "theorems": [
    "C07_diagnostics_schedule_independent"
   ],
   "note": ""
  },
  {
   "property": "C08",
   "status": "proved",
   "theorems": [
    "C08_every_schedule_terminates",
    "C08_end_state_queues_empty"
   ],
   "note": ""
  },
  {
   "property": "C09",
   "status": "proved",
   "theorems": [
    "C09_rules_do_not_interfere"
   ],
   "note": ""
  },
  {
   "property": "C10",
   "status": "proved",
   "theorems": [
    "C10_diagnostics_attributed"
   ],
   "note": ""
  },
  {
   "property": "C11",
   "status": "proved",
   "theorems": [
    "C11_dispatch_follows_configuration_order"
   ],
   "note": ""
  },
  {
   "property": "C12",
   "status": "proved",
   "theorems": [
    "C12_timing_does_not_change_diagnostics",
    "C12_call_counts_exact"
   ],
   "note": ""
  },
  {
   "property": "C13",
   "status": "proved",
   "theorems": [
    "C13_collect_is_the_report",
    "C13_report_unique",
    "C13_reported_calls_schedule_independent",
    "C13_payload_faithful"
   ],
   "note": "durations and counters are unbounded integers in the model"
  },
  {
   "property": "C14",
   "status": "proved",
   "theorems": [
    "C14_events_bracketed",
    "C14_no_double_visit"
   ],
   "note": ""
  },
  {
   "property": "C15",
   "status": "partial",
   "theorems": [
    "C15_reaches_every_node_refuted",
    "C15_reaches_all_but_pattern_keys_partial",
    "C15_reaches_every_node_partial"
   ],
   "note": "false of the code for keys inside destructuring assignments; everything else is proved visited"
  },
  {
   "property": "C16",
   "status": "partial",
   "theorems": [
    "C16_targets_announced_refuted",
    "C16_pattern_events_sound_partial",
    "C16_classification_exact_partial"
   ],
   "note": "nested defaults and for-in/of initialisers are announced as plain literals; the exact classification is proved"
  },
  {
   "property": "C17",
   "status": "proved",
   "theorems": [
    "C17_codes_distinct",
    "C17_codes_fit_int16"
   ],
   "note": ""
  },
  {
   "property": "C18",
   "status": "proved",
   "theorems": [
    "C18_output_is_edit_script",
    "C18_edit_script_functional",
    "C18_edit_script_undo"
   ],
   "note": "all texts, all messages with start<=end, any correct unstable sort"
  },
  {
   "property": "C19",
   "status": "proved",
   "theorems": [
    "C19_every_message_accounted",
    "C19_progress",
    "C19_disjoint_reports_all_applied"
   ],
   "note": ""
  },
  {
   "property": "C20",
   "status": "partial",
   "theorems": [
    "C20_no_panic_partial",
    "C20_deterministic_partial",
    "C20_no_panic_refuted",
    "C20_deterministic_refuted"
   ],
   "note": "the full claim is refuted: overlapping edits of one message panic; ties make the output depend on the sort"
  },
  {
   "property": "C21",
   "status": "proved",
   "theorems": [
    "C21_generators_only_on_request",
    "C21_message_contents",
    "C21_otherwise_identical",
    "C21_conversion_safe_iff_ranges_valid",
    "C21_otherwise_identical_unconditional_refuted",
    "C21_fixes_or_suggestions"
   ],
   "note": "for messages that reach the wire; an edit with an invalid range crashes the writer (refuted theorem)"
  },
  {
   "property": "C22",
   "status": "proved",
   "theorems": [
    "C22_parallel_equals_sequential",
    "C22_no_deadlock"
   ],
   "note": "at least one worker (GOMAXPROCS >= 1); a single lookup is a function, i.e. the shared config registry is assumed to answer consistently"
  },
  {
   "property": "C23",
   "status": "proved",
   "theorems": [
    "C23_config_owns_the_file",
    "C23_ties_follow_reference_order",
    "C23_no_config_iff_no_owner",
    "C23_lookup_terminates"
   ],
   "note": "under stated path laws (ToPath idempotent, base names agree) about typescript-go, which is not in the repository"
  },
  {
   "property": "C24",
   "status": "partial",
   "theorems": [
    "C24_disable_solution_searching_refuted",
    "C24_option_has_no_effect"
   ],
   "note": "the claim is false of the code: the option never changes a lookup, because no search leaves a fallback"
  },
  {
   "property": "C25",
   "status": "proved",
   "theorems": [
    "C25_search_terminates",
    "C25_visits_once_in_distance_order",
    "C25_stops_at_a_nearest_node",
    "C25_exhaustive_without_stop",
    "C25_is_the_textbook_search"
   ],
   "note": "callbacks are functions of the node"
  },
  {
   "property": "C26",
   "status": "proved",
   "theorems": [
    "C26_every_requested_file_linted_once",
    "C26_missing_file_aborts",
    "C26_run_completes",
    "C26_aliases_linted_once_refuted"
   ],
   "note": "distinct normalised path = distinct after slash normalisation; two spellings of one path in a program without config are shown to be linted twice"
  },
  {
   "property": "C27",
   "status": "partial",
   "theorems": [
    "C27_rules_of_the_last_group",
    "C27_unknown_rule_aborts",
    "C27_inferred_file_without_rules_refuted"
   ],
   "note": "proved for files the program knows under the requested name (always so with a config); false for files without config that the compiler renames"
  },
  {
   "property": "C28",
   "status": "proved",
   "theorems": [
    "C28_no_crash",
    "C28_v2_exact",
    "C28_v1_is_its_translation",
    "C28_v1_rules_of_a_file",
    "C28_rejections"
   ],
   "note": "Decoder of the request on parsed JSON documents. The JSON library is modelled by its documented rules (see Payload.v); the JSON lexer is not modelled."
  },
  {
   "property": "C29",
   "status": "partial",
   "theorems": [
    "C29_overrides_win_for_reads_only",
    "C29_override_of_requested_path_partial",
    "C29_other_queries_see_override_refuted",
    "C29_overlay_is_one_file_system_refuted",
    "C29_override_of_requested_path_refuted",
    "C29_virtual_files_exact",
    "C29_listing_without_repetition_refuted"
   ],
   "note": "Reads and existence tests are exact for every operation sequence and nothing reaches the disk. False: Stat, DirectoryExists and listings do not see overrides, a write is hidden by the override, and an override keyed with backslashes is not found because only the requested paths are normalised. OverlayVFS answers exactly, except for repeated names in listings."
  },
  {
   "property": "C30",
   "status": "proved",
   "theorems": [
    "C30_literal_evaluates_to_text",
    "C30_literal_is_always_complete",
    "C30_no_raw_control",
    "C30_injective",
    "C30_injective_on_bytes_refuted"
   ],
   "note": "Go strings as bytes, UTF-8 decoding and encoding included; the value of a literal is given by the ECMAScript grammar in JsText.v. Byte strings that are not UTF-8 are read as Go reads them (U+FFFD), so they can collide."
  },
  {
   "property": "C31",
   "status": "proved",
   "theorems": [
    "C31_decode",
    "C31_unknown_source",
    "C31_encode_fails",
    "C31_round_trip",
    "C31_bare_path_refuted",
    "C31_readers_agree",
    "C31_convert_accepts",
    "C31_same_documents_refuted"
   ],
   "note": "A bare specifier with a path loses it; the two readers do not accept the same documents."
  },
  {
   "property": "C32",
   "status": "proved",
   "theorems": [
    "C32_fields",
    "C32_none_is_empty",
    "C32_documented",
    "C32_void_return",
    "C32_wrong_type_refuted",
    "C32_primitives",
    "C32_loop_mode",
    "C32_return_await",
    "C32_return_await_accepts",
    "C32_typed",
    "C32_typed_panics",
    "C32_empty_list_refuted",
    "C32_distinct",
    "C32_unknown_names"
   ],
   "note": "Refuted: a value of the wrong type for checksVoidReturn is accepted and turns the checks off; an empty list given in a struct comes back as the default."
  },
  {
   "property": "C33",
   "status": "proved",
   "theorems": [
    "C33_decides",
    "C33_safe_cases",
    "C33_arity_refuted",
    "C33_infinite_refuted"
   ],
   "note": "Type graph abstract: any, unknown, reference, target and arguments of a type are parameters. The two refutations show that the hypotheses (equal arity, finitely many types) are needed."
  },
  {
   "property": "C34",
   "status": "proved",
   "theorems": [
    "C34_key_is_read_once",
    "C34_order",
    "C34_total_order",
    "C34_round_trip",
    "C34_content_condition_exact",
    "C34_written_deterministic",
    "C34_update_then_pass",
    "C34_without_update",
    "C34_others_kept",
    "C34_separator_in_content_refuted",
    "C34_others_kept_refuted"
   ],
   "note": "The round trip needs contents without a line ending in three dashes; the condition is exact, and the two refutations show what happens without it."
  },
  {
   "property": "C35",
   "status": "proved",
   "theorems": [
    "C35_report_is_exact",
    "C35_reported_iff",
    "C35_internal_diagnostics_of_a_run"
   ],
   "note": "sorting and deduplication is typescript-go: assumed to sort and deduplicate"
  },
  {
   "property": "C36",
   "status": "partial",
   "theorems": [
    "C36_regex_fix_partial",
    "C36_rewritten_flags",
    "C36_regex_fix_refuted",
    "C36_variable_value_refuted",
    "C36_comparison_fix_partial",
    "C36_plain_pattern_rewritten",
    "C36_forms_rewritten",
    "C36_comparison_fix_refuted",
    "C36_assumptions_refuted",
    "C36_other_types_refuted",
    "C36_parentheses_partial",
    "C36_parentheses_refuted"
   ],
   "note": "Regex tests: exact for all subjects and for the u/v flags, except BEL, unprintable characters beyond the BMP and \\01 (refuted). Comparisons: exact for constant variables and faithful texts, except lastIndexOf when both sides are -1, slice(-0) and slices ending at 0 (refuted). Non-string right sides, reassigned variables, white space in string literals and parentheses around the left side or the argument are refuted."
  },
  {
   "property": "C37",
   "status": "partial",
   "theorems": [
    "C37_rewritten_literal",
    "C37_plain_literal_rewritten",
    "C37_literal_fix_partial",
    "C37_literal_fix_refuted",
    "C37_fix_is_an_expression_refuted",
    "C37_constructor_flags_refuted",
    "C37_variable_value_refuted",
    "C37_comparison",
    "C37_comparison_complete",
    "C37_index_fix_partial",
    "C37_index_fix_refuted",
    "C37_optional_call_refuted"
   ],
   "note": "Literal patterns whose escapes are not an escaped backslash or apostrophe and not octal: test and includes agree on every subject. False in general: /\\\\./, /\\'/, line breaks and flags given to new RegExp, variables assigned again. Comparisons of indexOf: exact for every index; on arrays false for NaN, holes and optional calls."
  },
  {
   "property": "C38",
   "status": "partial",
   "theorems": [
    "C38_inlining_partial",
    "C38_value_unique",
    "C38_null_escape_refuted",
    "C38_legacy_escape_refuted",
    "C38_regex_flags_refuted",
    "C38_line_break_refuted",
    "C38_local_name_refuted",
    "C38_reported",
    "C38_single_parentheses_partial",
    "C38_single_parentheses_refuted",
    "C38_single_glued_refuted"
   ],
   "note": "Through the fixer: any chosen subset of the reports is applied in one pass and the template keeps its value. Excluded and refuted: a null escape or carriage return at the end of a chunk or literal, legacy octal escapes in sloppy mode, regular expressions with unordered flags, local variables named undefined/NaN/Infinity. Single interpolation: parentheses exact when the parent is an expression; declarations and glued keywords refuted."
  },
  {
   "property": "C39",
   "status": "proved",
   "theorems": [
    "C39_set_of_members",
    "C39_verdict",
    "C39_allowing_more",
    "C39_checked_once",
    "C39_checked_exactly",
    "C39_walk_order",
    "C39_other_order_refuted",
    "C39_asserted_argument"
   ],
   "note": "The verdict equals a table over the set of members for every iteration order of the Go map; monotone in the options; conditions are checked exactly once when nodes are visited parents first, which the walk does (another order misses conditions: refuted). The type checker is an assumption."
  },
  {
   "property": "C40",
   "status": "partial",
   "theorems": [
    "C40_missing",
    "C40_members_exist",
    "C40_default_comment",
    "C40_no_default_comment",
    "C40_reports",
    "C40_not_both",
    "C40_suggestion_completes",
    "C40_default_completes",
    "C40_exhaustive_partial",
    "C40_superfluous_default_partial",
    "C40_nan_refuted",
    "C40_missing_is_real_partial",
    "C40_enum_refuted",
    "C40_listed_twice_refuted",
    "C40_clauses_appended",
    "C40_clauses_before_default",
    "C40_clauses_into_empty",
    "C40_comment_lost_refuted",
    "C40_clause_text",
    "C40_quoted_member",
    "C40_plain_test",
    "C40_unnamed_refuted"
   ],
   "note": "The missing list and the three reports are exact for every type object; what they mean for values is proved except for NaN enum members and tests that name enum values by number (both refuted); position and text of suggested clauses are exact. Names printed by the type checker are an assumption."
  },
  {
   "property": "C41",
   "status": "proved",
   "theorems": [
    "C41_program_or_reason"
   ],
   "note": ""
  },
  {
   "property": "C42",
   "status": "partial",
   "theorems": [
    "C42_terminates_exactly_without_cycles",
    "C42_answer_unique",
    "C42_terminates_refuted"
   ],
   "note": "Termination holds exactly when the chain of initializers ends; the unrestricted claim is refuted by var a = b; var b = a."
  },
  {
   "property": "C43",
   "status": "partial",
   "theorems": [
    "C43_one_meaning_partial",
    "C43_enum_union_refuted",
    "C43_brand_refuted",
    "C43_always_truthy_refuted"
   ],
   "note": "Proved for member lists in which enum members meet only their own kind and object types hold no primitive; both exceptions are refuted by witnesses, the first one with every option off."
  },
  {
   "property": "C44",
   "status": "partial",
   "theorems": [
    "C44_other_values_partial",
    "C44_missing_values",
    "C44_last_clause_refuted",
    "C44_shared_default_refuted"
   ],
   "note": "Proved when control does not fall out of the clause before the insertion; refuted otherwise, with and without a default clause."
  },
  {
   "property": "C45",
   "status": "proved",
   "theorems": [
    "C45_path_is_read_once",
    "C45_node_modules_segment",
    "C45_package_of_path",
    "C45_source_file_package",
    "C45_types_package",
    "C45_source",
    "C45_type_matches",
    "C45_symbol_matches",
    "C45_value_matches",
    "C45_inner_package_refuted",
    "C45_project_refuted",
    "C45_same_symbol_refuted",
    "C45_value_source_refuted",
    "C45_panic_refuted",
    "C45_nested_module_refuted"
   ],
   "note": "The refutations show where the exact description differs from what one would expect: unnamed inner packages, prefix test for the project, alias name with the source of the symbol, values without source test."
  },
  {
   "property": "C46",
   "status": "proved",
   "theorems": [
    "C46_box",
    "C46_too_big",
    "C46_text",
    "C46_underlined",
    "C46_last_line",
    "C46_blank_box",
    "C46_message",
    "C46_crash_refuted",
    "C46_last_character_refuted",
    "C46_indentation_refuted",
    "C46_carriage_return_refuted"
   ],
   "note": "Boundaries: a box of blank lines crashes (unless the text has one line), and so does a box with the last line if its end is reported as the length of the text. Refuted: a multi-byte character at the end of a line is cut, indentation can cut a multi-byte space, lines ended by a lone \\r show no code."
  },
  {
   "property": "C47",
   "status": "proved",
   "theorems": [
    "C47_reports",
    "C47_fix",
    "C47_fix_negated",
    "C47_truth",
    "C47_value_refuted",
    "C47_other_types_refuted",
    "C47_precedence_refuted",
    "C47_unstable_refuted"
   ],
   "note": "Boundaries, each with a counterexample: a nullable operand compared with true keeps only its truth; a union with further parts counts as a nullable boolean against the comment in the code; a dropped `!` may leave an operand that binds less than its surroundings; the order of insertions at one place relies on a stable sort."
  },
  {
   "property": "C48",
   "status": "proved",
   "theorems": [
    "C48_reports",
    "C48_silent",
    "C48_void",
    "C48_messages"
   ],
   "note": ""
  },
  {
   "property": "C49",
   "status": "proved",
   "theorems": [
    "C49_reports",
    "C49_language",
    "C49_language_refuted",
    "C49_suggestion",
    "C49_generator_refuted",
    "C49_comment_refuted"
   ],
   "note": "In the language the decorators and the name of a method belong to the function around it; the rule counts them for the method (C49_language under a condition, C49_language_refuted). Before a generator method no semicolon is put (C49_generator_refuted), nor after a comment that ends in a colon or the like (C49_comment_refuted)."
  },
  {
   "property": "C50",
   "status": "proved",
   "theorems": [
    "C50_reports",
    "C50_text",
    "C50_remove",
    "C50_statement",
    "C50_satisfies",
    "C50_bits_refuted",
    "C50_nonnull_refuted",
    "C50_typeof_refuted",
    "C50_glued_refuted",
    "C50_if_refuted"
   ],
   "note": "The conditions are needed: ~~4294967296 is reported though it is 0 (C50_bits_refuted); String(x)! becomes x satisfies string! (C50_nonnull_refuted); typeof Number(n) becomes typeof n satisfies number (C50_typeof_refuted); typeof+n becomes typeofn and Number(1).toFixed() becomes 1.toFixed() (C50_glued_refuted); without x += ''; an if before it takes the next statement (C50_if_refuted). Line breaks are not modelled."
  },
  {
   "property": "C51",
   "status": "proved",
   "theorems": [
    "C51_visits",
    "C51_outcome",
    "C51_reports",
    "C51_text",
    "C51_listen",
    "C51_filled",
    "C51_fix",
    "C51_meaning",
    "C51_absorbed_refuted",
    "C51_template_refuted",
    "C51_empty_refuted"
   ],
   "note": "The conditions are needed: number | (string | 'a') becomes number | ('a') (C51_absorbed_refuted); after a template with a substitution the wrong operator is removed or the rule panics (C51_template_refuted); x?: | undefined | undefined loses its whole type (C51_empty_refuted)."
  },
  {
   "property": "C52",
   "status": "proved",
   "theorems": [
    "C52_declaration",
    "C52_allowances",
    "C52_no_allowance",
    "C52_use_dot",
    "C52_use_brackets",
    "C52_settled",
    "C52_pattern",
    "C52_fixes",
    "C52_tokens",
    "C52_let",
    "C52_large_refuted",
    "C52_dotted_refuted",
    "C52_comment_refuted"
   ],
   "note": "The condition on integers is needed: from 10^21 on the text of a number has an exponent and the dot becomes part of the number (C52_large_refuted). Names that must be made of dots, as in JSX tags, are also fixed (C52_dotted_refuted), and comments inside the brackets are deleted (C52_comment_refuted)."
  },
  {
   "property": "C53",
   "status": "proved",
   "theorems": [
    "C53_union_reports",
    "C53_inter_reports",
    "C53_texts",
    "C53_union_left_out",
    "C53_union_overrides",
    "C53_inter_left_out",
    "C53_inter_overrides",
    "C53_inter_unions",
    "C53_any_never_refuted",
    "C53_unknown_any_refuted",
    "C53_swapped_refuted",
    "C53_first_union_refuted",
    "C53_mixed_refuted",
    "C53_alias_refuted"
   ],
   "note": "The messages themselves are wrong in places: for unions in intersections the message is the wrong way round (C53_swapped_refuted), shows the literals of another union (C53_first_union_refuted) and is given where nothing can be left out (C53_mixed_refuted); any and unknown are said to override what overrides them (C53_any_never_refuted, C53_unknown_any_refuted); boolean behind a name is missed in intersections (C53_alias_refuted)."
  },
  {
   "property": "C54",
   "status": "proved",
   "theorems": [
    "C54_type_sound",
    "C54_type_exact",
    "C54_asked",
    "C54_once",
    "C54_loops",
    "C54_loops_allowed",
    "C54_sound",
    "C54_comparisons",
    "C54_elements",
    "C54_tests_complete",
    "C54_nullish_complete",
    "C54_comparisons_complete",
    "C54_texts",
    "C54_callbacks",
    "C54_callbacks_complete",
    "C54_empty_object_refuted",
    "C54_overloads_refuted",
    "C54_chain_refuted",
    "C54_conditional_refuted",
    "C54_hidden_refuted",
    "C54_element_compared_refuted",
    "C54_null_ordered_refuted",
    "C54_both_nullish_refuted"
   ],
   "note": "The exceptions in the statement are real: a missing element behind ?., a conditional or parentheses (C54_chain_refuted, C54_conditional_refuted, C54_hidden_refuted), compared with undefined (C54_element_compared_refuted), null ordered (C54_null_ordered_refuted), {} reported as always truthy (C54_empty_object_refuted), null | undefined not reported as always nullish (C54_both_nullish_refuted), overloaded callbacks (C54_overloads_refuted). Optional chains and calls of type guards are not modelled."
  },
  {
   "property": "C55",
   "status": "proved",
   "theorems": [
    "C55_complete",
    "C55_sound",
    "C55_node",
    "C55_exempt",
    "C55_texts",
    "C55_suggestions",
    "C55_settled",
    "C55_first",
    "C55_parentheses_refuted",
    "C55_stored_refuted",
    "C55_inside_refuted",
    "C55_methods_refuted",
    "C55_await_refuted"
   ],
   "note": "The conditions in the statement are needed: (p.catch(h)).finally(g) is reported although handled (C55_parentheses_refuted), c && (x = p) although stored (C55_stored_refuted); p && 1 and c ? (p, 1) : 1 are silent (C55_inside_refuted), as are o.finally() and o.catch(h) of something else that gives a promise (C55_methods_refuted); the suggested await (p, 1) still drops p and is silent (C55_await_refuted). Optional chains are operands in the model; assignments are to variables."
  },
  {
   "property": "C56",
   "status": "proved",
   "theorems": [
    "C56_exact",
    "C56_sequence",
    "C56_sound",
    "C56_complete",
    "C56_counted",
    "C56_relation",
    "C56_search",
    "C56_writes_refuted",
    "C56_nested_refuted",
    "C56_other_refuted",
    "C56_types_refuted",
    "C56_counts_refuted"
   ],
   "note": "That a reported member is written nowhere else is false: (this.x)++, (this.x) += 1, for (this.x of a), nested object patterns and the like are not seen (C56_writes_refuted), nor are writes in a class inside (C56_nested_refuted) or through typeof B or T extends A (C56_types_refuted), and those of another instance in the constructor are allowed (C56_other_refuted). this.x[0] = 1 counts as a write of x (C56_counts_refuted)."
  },
  {
   "property": "C57",
   "status": "proved",
   "theorems": [
    "C57_exact",
    "C57_ends",
    "C57_endless_refuted",
    "C57_parameters",
    "C57_check_ends",
    "C57_mapped_refuted"
   ],
   "note": "That the recursion always ends is false: elements of arrays are visited although seen, so type A = readonly A[] overflows the stack (C57_endless_refuted). Properties of mapped types without declaration, Record<'a', number>, count as readonly (C57_mapped_refuted)."
  },
  {
   "property": "C58",
   "status": "proved",
   "theorems": [
    "C58_one_verdict",
    "C58_one_join",
    "C58_unique",
    "C58_file",
    "C58_exact",
    "C58_independent",
    "C58_ends",
    "C58_source",
    "C58_fine",
    "C58_will",
    "C58_may",
    "C58_order_refuted",
    "C58_valueof_refuted",
    "C58_empty_refuted",
    "C58_clear_refuted"
   ],
   "note": "For types that contain themselves the reports depend on the order of the file (C58_order_refuted: type A = [B, {}], B = [A]). A valueOf or toLocaleString of its own hides a missing toString (C58_valueof_refuted); will is said of arrays that may be empty (C58_empty_refuted) and of intersections whose parts only may (C58_clear_refuted)."
  },
  {
   "property": "C59",
   "status": "proved",
   "theorems": [
    "C59_ternary",
    "C59_if",
    "C59_or",
    "C59_or_assign",
    "C59_others",
    "C59_similar",
    "C59_usual",
    "C59_reading",
    "C59_ternary_stands",
    "C59_if_stands",
    "C59_ternary_same",
    "C59_if_same",
    "C59_or_same",
    "C59_or_assign_same",
    "C59_types",
    "C59_regroup_refuted",
    "C59_syntax_refuted",
    "C59_honest_refuted",
    "C59_hidden_refuted",
    "C59_compound_refuted",
    "C59_chain_refuted",
    "C59_private_refuted",
    "C59_shape_refuted",
    "C59_falsy_refuted"
   ],
   "note": "Without the premises it fails: a && b || c || d becomes a && (b ?? c) || d (C59_regroup_refuted), a || b && c || d || e becomes a || (b && c ?? d) || e, a syntax error (C59_syntax_refuted), a !== a && a !== null ? a : b becomes a ?? b (C59_honest_refuted), T | null and void | null hide undefined (C59_hidden_refuted), if (a == null) a += b becomes a ??= b (C59_compound_refuted), if (a?.b === null) a.b = c becomes a.b ??= c (C59_chain_refuted), a.#x and a['#x'] are taken for the same (C59_private_refuted), 0 is of type {} (C59_shape_refuted), '' with the default options (C59_falsy_refuted)."
  },
  {
   "property": "C60",
   "status": "proved",
   "theorems": [
    "C60_reading",
    "C60_same",
    "C60_prefix",
    "C60_run",
    "C60_allowed",
    "C60_nullish",
    "C60_reported",
    "C60_offered",
    "C60_tested",
    "C60_right",
    "C60_complementary",
    "C60_falsy_refuted",
    "C60_parens_refuted",
    "C60_side_refuted",
    "C60_comparison_refuted",
    "C60_assignment_refuted",
    "C60_arithmetic_refuted",
    "C60_last_refuted",
    "C60_loose_refuted",
    "C60_order_refuted",
    "C60_equal_refuted",
    "C60_throw_refuted",
    "C60_typeof_refuted",
    "C60_middle_refuted",
    "C60_index_refuted",
    "C60_value_refuted",
    "C60_parameter_refuted",
    "C60_calls"
   ],
   "note": "Without the premises it fails: a && (a.b && a.b.c) && x becomes a?.b?.c) && x (C60_parens_refuted), a != null && (a.b) !== undefined becomes (a?.b (C60_side_refuted), a && (a.b === 'x') and a && (a.b = 1) become a?.b (C60_comparison_refuted, C60_assignment_refuted), a && a.b + 'x' becomes a?.b + 'x' (C60_arithmetic_refuted), a && a.b && a.b !== null becomes a?.b !== null (C60_last_refuted), a && a.b != null && a.b.c !== null && a.b.c.d becomes a?.b?.c !== null && a.b.c.d (C60_loose_refuted), a && a.b !== null && a.b !== undefined (C60_order_refuted, only offered), a.b == null && a.b.c becomes a.b?.c (C60_equal_refuted), a && a.b.c becomes a?.b?.c (C60_throw_refuted), typeof a !== 'undefined' && a.b && a.b.c becomes a.b?.c (C60_typeof_refuted), x && a.b === 1 && a.b.c becomes x && a.b?.c (C60_middle_refuted), a?.[0] != null && a[(0)].b becomes a[(0)]?.b (C60_index_refuted, only offered), values that throw (C60_value_refuted) or have a type parameter as type (C60_parameter_refuted), and 0 (C60_falsy_refuted)."
  },
  {
   "property": "C61",
   "status": "proved",
   "theorems": [
    "C61_run",
    "C61_literal",
    "C61_nullish",
    "C61_reported",
    "C61_right",
    "C61_negated",
    "C61_plain_refuted",
    "C61_start_refuted",
    "C61_opposite_refuted",
    "C61_comparison_refuted",
    "C61_typeof_refuted",
    "C61_side_refuted",
    "C61_last_refuted",
    "C61_arithmetic_refuted",
    "C61_assignment_refuted",
    "C61_marks_refuted",
    "C61_truncated_refuted",
    "C61_null_refuted",
    "C61_cut_refuted",
    "C61_falsy_refuted",
    "C61_throw_refuted"
   ],
   "note": "Without the premises it fails: a || !a.b becomes !a?.b (C61_plain_refuted), a.b || a.b.c == null becomes a.b?.c == null (C61_start_refuted), a.b != null || !a.b.c becomes !a.b?.c (C61_opposite_refuted), !a || (a.b == null) becomes a?.b (C61_comparison_refuted), !a || typeof a.b === 'undefined' becomes a?.b === typeof a.b (C61_typeof_refuted), a == null || (a.b) == null becomes a?.b == (a.b) (C61_side_refuted), !a.b || a.b.c becomes a.b?.c (C61_last_refuted), !a || a.b - 1 becomes a?.b - 1 (C61_arithmetic_refuted), !a || (a.b = 1) becomes a?.b (C61_assignment_refuted), !a?.b || !a.b.c || !a.b.c.d becomes !a.b?.c?.d (C61_marks_refuted), !a || a.b === null || a.b.c becomes a?.b === null || a.b.c (C61_truncated_refuted), a === null || a.b === null becomes a?.b === null, offered only (C61_null_refuted), !(a as X) || !(a as X)!.b becomes !(a as X?.b (C61_cut_refuted); 0 with a property (C61_falsy_refuted); exceptions are lost (C61_throw_refuted)."
  },
  {
   "property": "C62",
   "status": "proved",
   "theorems": [
    "C62_reported",
    "C62_right",
    "C62_index_refuted",
    "C62_cast_refuted",
    "C62_falsy_refuted",
    "C62_property_refuted",
    "C62_throw_refuted",
    "C62_new_refuted"
   ],
   "note": "Without the premises it fails: x[a || {}] becomes a?.[a || {}] (C62_index_refuted), (<T>!a || {}).b becomes <T>!a?.b (C62_cast_refuted), (new a || {}).b becomes new a?.b (C62_new_refuted), '' has a length and {} has none (C62_falsy_refuted), {} has a toString (C62_property_refuted), exceptions are lost (C62_throw_refuted)."
  },
  {
   "property": "C63",
   "status": "proved",
   "theorems": [
    "C63_reported",
    "C63_fix",
    "C63_affected",
    "C63_iterator_refuted",
    "C63_line_refuted",
    "C63_brace_refuted"
   ],
   "note": "Without the premises it fails: in a for-of loop the iterator is closed before or after the promise settles (C63_iterator_refuted), return await with the operand on the next line becomes return and a line break (C63_line_refuted), async () => await {...} becomes a function body (C63_brace_refuted)."
  },
  {
   "property": "C64",
   "status": "proved",
   "theorems": [
    "C64_symbols",
    "C64_reported",
    "C64_message",
    "C64_read",
    "C64_fix",
    "C64_fix_inline",
    "C64_unknown_refuted",
    "C64_attributes_refuted",
    "C64_quote_refuted",
    "C64_star_reported",
    "C64_star",
    "C64_star_loaded_refuted",
    "C64_star_as_refuted"
   ],
   "note": "Without the premises it fails: names that are not known are removed (C64_unknown_refuted), so are import attributes (C64_attributes_refuted), and a modifier type before a quote stays in export type (C64_quote_refuted). For export * the module is no longer loaded (C64_star_loaded_refuted) and the name of export * as is no longer a value (C64_star_as_refuted)."
  },
  {
   "property": "C65",
   "status": "proved",
   "theorems": [
    "C65_number",
    "C65_static",
    "C65_at",
    "C65_overflow_refuted",
    "C65_shadow_refuted",
    "C65_radix_refuted",
    "C65_reported",
    "C65_text",
    "C65_optional_refuted",
    "C65_meaning",
    "C65_holes_refuted",
    "C65_parentheses_refuted",
    "C65_sign_refuted"
   ],
   "note": "Without the premises it fails: numbers too large for ParseFloat count as zero (C65_overflow_refuted), so does a local variable NaN (C65_shadow_refuted) and a signed radix (C65_radix_refuted); an optional at leaves its question mark (C65_optional_refuted); missing elements (C65_holes_refuted) and optional chains in parentheses (C65_parentheses_refuted) change the result."
  },
  {
   "property": "C66",
   "status": "proved",
   "theorems": [
    "C66_reported",
    "C66_functions",
    "C66_arrow",
    "C66_return",
    "C66_return_last",
    "C66_alone",
    "C66_void",
    "C66_settles",
    "C66_value_refuted",
    "C66_alone_refuted",
    "C66_start_refuted",
    "C66_member_refuted",
    "C66_arrow_parentheses"
   ],
   "note": "Without the premises it fails: a return that is not the last one is fixed even if its value may not be undefined (C66_value_refuted); templates, signs and slashes go on with the statement before (C66_alone_refuted); functions, classes and objects do not begin expression statements (C66_start_refuted); the suggestion before a member access marks more than the call (C66_member_refuted)."
  },
  {
   "property": "C67",
   "status": "proved",
   "theorems": [
    "C67_reported",
    "C67_types",
    "C67_parameters",
    "C67_meaning",
    "C67_given",
    "C67_undefined",
    "C67_text",
    "C67_parameter_text",
    "C67_variadic_refuted",
    "C67_array_refuted",
    "C67_rest_refuted",
    "C67_computed_refuted",
    "C67_this_refuted",
    "C67_overload_refuted",
    "C67_order_refuted"
   ],
   "note": "Without the premises it fails: the rest of a tuple (C67_variadic_refuted), elements of arrays (C67_array_refuted), patterns for rest elements (C67_rest_refuted), names taken from variables (C67_computed_refuted), parameters after this (C67_this_refuted), overloads (C67_overload_refuted); a question mark may come before a parameter that must be given (C67_order_refuted)."
  },
  {
   "property": "C68",
   "status": "proved",
   "theorems": [
    "C68_reported",
    "C68_spread",
    "C68_rest",
    "C68_variable",
    "C68_optional_refuted",
    "C68_element_refuted",
    "C68_iterable_refuted",
    "C68_middle_refuted",
    "C68_optional"
   ],
   "note": "Without the premises it fails: optional elements of spread tuples (C68_optional_refuted), their variable elements (C68_element_refuted), other iterables (C68_iterable_refuted), variable elements in the middle of a rest tuple (C68_middle_refuted)."
  },
  {
   "property": "C69",
   "status": "proved",
   "theorems": [
    "C69_sound",
    "C69_complete",
    "C69_full",
    "C69_assignment",
    "C69_skip",
    "C69_members",
    "C69_relation",
    "C69_colon",
    "C69_default_refuted",
    "C69_hole_refuted",
    "C69_variadic_refuted",
    "C69_members_refuted",
    "C69_compound_refuted",
    "C69_relation_refuted"
   ],
   "note": "Not reported: patterns behind default values in assignments (C69_default_refuted), the rest of tuples (C69_variadic_refuted), properties after one whose value is an assignment (C69_members_refuted), compound assignments as values (C69_compound_refuted). Reported though nothing is assigned: holes (C69_hole_refuted). A = in the type takes the diagnostic (C69_relation_refuted)."
  },
  {
   "property": "C70",
   "status": "proved",
   "theorems": [
    "C70_quote",
    "C70_quote_line",
    "C70_reported",
    "C70_symmetric",
    "C70_same",
    "C70_computed_refuted",
    "C70_static",
    "C70_suffix",
    "C70_offered",
    "C70_name",
    "C70_suggestion",
    "C70_effects_refuted",
    "C70_optional_refuted",
    "C70_scope_refuted"
   ],
   "note": "Members with computed values are taken for strings (C70_computed_refuted). Effects of qualifiers are had twice (C70_effects_refuted), optional accesses become accesses that throw (C70_optional_refuted), names with dots are not looked up in the scope (C70_scope_refuted)."
  },
  {
   "property": "C71",
   "status": "proved",
   "theorems": [
    "C71_counts",
    "C71_reported",
    "C71_ends",
    "C71_repeated",
    "C71_default_refuted"
   ],
   "note": "There is one flag for all defaults: of a second default uses are not counted (C71_default_refuted)."
  },
  {
   "property": "C72",
   "status": "proved",
   "theorems": [
    "C72_only",
    "C72_first",
    "C72_later",
    "C72_comment_refuted",
    "C72_substituted",
    "C72_parentheses",
    "C72_primary",
    "C72_unions",
    "C72_parentheses_refuted"
   ],
   "note": "Comments with > or commas are cut in the middle (C72_comment_refuted). No parentheses are written for function types in arrays and for unions after keyof (C72_parentheses_refuted)."
  },
  {
   "property": "C73",
   "status": "proved",
   "theorems": [
    "C73_reported",
    "C73_order",
    "C73_restored",
    "C73_same_meaning",
    "C73_removed",
    "C73_dotted_refuted"
   ],
   "note": "Inside namespace A.B only B counts as around: a qualifier A that can go is not reported (C73_dotted_refuted)."
  },
  {
   "property": "C74",
   "status": "proved",
   "theorems": [
    "C74_reported",
    "C74_sound",
    "C74_complete",
    "C74_panics",
    "C74_panics_refuted",
    "C74_unknown_refuted"
   ],
   "note": "The rule fails for enum E {} enum E { A } and for a namespace before its enum (C74_panics_refuted); members of unknown kind end the check (C74_unknown_refuted)."
  },
  {
   "property": "C75",
   "status": "proved",
   "theorems": [
    "C75_reported",
    "C75_pairs",
    "C75_names",
    "C75_properties",
    "C75_static_refuted",
    "C75_static_pair_refuted",
    "C75_quoted_refuted",
    "C75_escape_refuted"
   ],
   "note": "Static members and those of instances are not told apart (C75_static_refuted, C75_static_pair_refuted); string literals as names are compared by their source (C75_quoted_refuted, C75_escape_refuted)."
  },
  {
   "property": "C76",
   "status": "proved",
   "theorems": [
    "C76_reported",
    "C76_same_types",
    "C76_same_inference",
    "C76_inside_refuted",
    "C76_call_refuted",
    "C76_declarations",
    "C76_no_declaration",
    "C76_calls",
    "C76_places",
    "C76_removed_only",
    "C76_removed_last"
   ],
   "note": "Inside of the declaration itself a default that is a type parameter counts as the same (C76_inside_refuted); calls are reported though inference may then find something else (C76_call_refuted)."
  },
  {
   "property": "C77",
   "status": "proved",
   "theorems": [
    "C77_positions",
    "C77_safe",
    "C77_call_refuted",
    "C77_super_refuted",
    "C77_kept",
    "C77_kept_refuted",
    "C77_methods",
    "C77_others",
    "C77_fails_refuted",
    "C77_void_refuted",
    "C77_access",
    "C77_property",
    "C77_assignment",
    "C77_binding",
    "C77_names_refuted",
    "C77_no_code",
    "C77_no_code_refuted",
    "C77_type_places"
   ],
   "note": "Calls of || and && are taken as safe (C77_call_refuted), so are values of this.x = super.x (C77_super_refuted); do-while, ??, satisfies and statements are reported (C77_kept_refuted); this without type fails (C77_fails_refuted); functions in class properties are reported in spite of this: void and ignoreStatic (C77_void_refuted); quoted names count only in assignments (C77_names_refuted); type literals are not left out (C77_no_code_refuted)."
  },
  {
   "property": "C78",
   "status": "proved",
   "theorems": [
    "C78_explicit",
    "C78_explicit_sound",
    "C78_inferred",
    "C78_reported",
    "C78_fixed",
    "C78_offered",
    "C78_quiet",
    "C78_intersection_refuted",
    "C78_bases_refuted",
    "C78_kinds",
    "C78_kinds_all",
    "C78_inserted",
    "C78_generator_refuted"
   ],
   "note": "Written intersections with a promise are not reported (C78_intersection_refuted); interfaces with a second base that is no promise are not reported without a written type (C78_bases_refuted); generator methods get the keyword at the wrong place (C78_generator_refuted)."
  },
  {
   "property": "C79",
   "status": "proved",
   "theorems": [
    "C79_reported",
    "C79_order",
    "C79_quiet",
    "C79_strict",
    "C79_regexp",
    "C79_regexp_refuted",
    "C79_help_refuted",
    "C79_void_refuted",
    "C79_brand_refuted",
    "C79_help",
    "C79_operators",
    "C79_help_text"
   ],
   "note": "A RegExp beside a union with numbers is not reported (C79_regexp_refuted); the help says that booleans are allowed with strings, but they are allowed with numbers (C79_help_refuted); void is not treated as undefined (C79_void_refuted); branded types go with everything (C79_brand_refuted)."
  },
  {
   "property": "C80",
   "status": "proved",
   "theorems": [
    "C80_await",
    "C80_free_refuted",
    "C80_nested_refuted",
    "C80_elements",
    "C80_input",
    "C80_consistent_refuted",
    "C80_generic_refuted",
    "C80_calls",
    "C80_other_calls",
    "C80_for",
    "C80_for_others",
    "C80_for_param_refuted",
    "C80_for_same",
    "C80_for_refuted",
    "C80_using",
    "C80_removed",
    "C80_removed_refuted"
   ],
   "note": "Unions with a parameter without constraint, or with one whose constraint is a union, are reported though values may be thenable (C80_free_refuted, C80_nested_refuted, C80_for_param_refuted); promises or numbers are judged in two ways (C80_consistent_refuted); the first type argument is not what maps give (C80_generic_refuted); the suggestion for for await changes the values (C80_for_refuted); removing await can join statements (C80_removed_refuted)."
  },
  {
   "property": "C81",
   "status": "proved",
   "theorems": [
    "C81_flags",
    "C81_static",
    "C81_same",
    "C81_global",
    "C81_copied_refuted",
    "C81_spread_refuted",
    "C81_matcher_refuted",
    "C81_literal",
    "C81_empty_refuted",
    "C81_slash_refuted",
    "C81_newline_refuted",
    "C81_text",
    "C81_new_refuted",
    "C81_line_refuted",
    "C81_looked_at",
    "C81_reported",
    "C81_through",
    "C81_cast_refuted"
   ],
   "note": "A RegExp made of a global one or with spread arguments is fixed though the results differ (C81_copied_refuted, C81_spread_refuted); matchers beside strings are (C81_matcher_refuted); the empty string becomes a comment (C81_empty_refuted), an escaped slash ends the literal (C81_slash_refuted), line ends stay in it (C81_newline_refuted); new RegExp without parentheses becomes new RegExp.exec (C81_new_refuted); at the start of a line the literal is a division (C81_line_refuted)."
  },
  {
   "property": "C82",
   "status": "proved",
   "theorems": [
    "C82_first",
    "C82_reported",
    "C82_members",
    "C82_checked",
    "C82_fixed",
    "C82_fits",
    "C82_subclass_refuted",
    "C82_union_refuted"
   ],
   "note": "An instance of a subclass that is returned beside this no longer fits the fixed type (C82_subclass_refuted); this in a conditional expression is not seen (C82_union_refuted)."
  },
  {
   "property": "C83",
   "status": "proved",
   "theorems": [
    "C83_returns",
    "C83_quiet",
    "C83_reported",
    "C83_whole",
    "C83_arguments",
    "C83_members",
    "C83_static_refuted",
    "C83_spread_refuted",
    "C83_overload_refuted"
   ],
   "note": "Static members are compared with members of instances (C83_static_refuted), arguments after a spread with the wrong parameter (C83_spread_refuted); an overload that asks for any does not count (C83_overload_refuted)."
  },
  {
   "property": "C84",
   "status": "proved",
   "theorems": [
    "C84_reported",
    "C84_values",
    "C84_as",
    "C84_angle_refuted",
    "C84_angle_space_refuted"
   ],
   "note": "For assertions in angle brackets the suggestion is wrong under either reading of ast.IsAssertionExpression: the brackets stay (C84_angle_refuted), or the space before is lost (C84_angle_space_refuted)."
  },
  {
   "property": "C85",
   "status": "proved",
   "theorems": [
    "C85_sound",
    "C85_complete",
    "C85_nested_refuted",
    "C85_fix",
    "C85_optional_refuted",
    "C85_comma_refuted"
   ],
   "note": "A union with an intersection in it is not reported (C85_nested_refuted); the suggestion for an optional access is no expression (C85_optional_refuted), that for an index with a comma has three arguments (C85_comma_refuted)."
  },
  {
   "property": "C86",
   "status": "proved",
   "theorems": [
    "C86_reported",
    "C86_array",
    "C86_intersection_refuted",
    "C86_as",
    "C86_angle"
   ],
   "note": "An array that is intersected with another type is not reported (C86_intersection_refuted)."
  },
  {
   "property": "C87",
   "status": "proved",
   "theorems": [
    "C87_once",
    "C87_where",
    "C87_this",
    "C87_index",
    "C87_never_missed",
    "C87_one_report_for_a_chain_refuted",
    "C87_heritage_quiet_refuted"
   ],
   "note": "A chain with parentheses is reported more than once (C87_one_report_for_a_chain_refuted); indexes in heritage clauses are reported (C87_heritage_quiet_refuted)."
  },
  {
   "property": "C88",
   "status": "proved",
   "theorems": [
    "C88_reported",
    "C88_advice",
    "C88_panics",
    "C88_no_panic",
    "C88_no_panic_refuted",
    "C88_error_parameter_refuted",
    "C88_settled",
    "C88_add",
    "C88_wrong",
    "C88_add_rest"
   ],
   "note": "The program panics on a rest parameter of an empty tuple (C88_no_panic_refuted); with a this parameter the wrong parameter is reported (C88_error_parameter_refuted)."
  },
  {
   "property": "C89",
   "status": "proved",
   "theorems": [
    "C89_lists",
    "C89_objects",
    "C89_not_missed",
    "C89_one_message",
    "C89_patterns",
    "C89_new_refuted",
    "C89_map_suggested",
    "C89_await",
    "C89_map"
   ],
   "note": "Strings spread into the arguments of new are not reported (C89_new_refuted)."
  },
  {
   "property": "C90",
   "status": "proved",
   "theorems": [
    "C90_library",
    "C90_builtin_like",
    "C90_any_builtin_like",
    "C90_readonly_error",
    "C90_ends",
    "C90_cycle_refuted",
    "C90_readonly_base_refuted"
   ],
   "note": "Cyclic bases give no answer (C90_cycle_refuted); an interface that extends Readonly of an error is not known as one (C90_readonly_base_refuted)."
  },
  {
   "property": "C91",
   "status": "proved",
   "theorems": [
    "C91_no",
    "C91_yes",
    "C91_exact",
    "C91_ends",
    "C91_cautious_refuted",
    "C91_same_arguments",
    "C91_arguments",
    "C91_same_parts",
    "C91_same_properties"
   ],
   "note": "A yes may be said where there is nothing, by caution (C91_cautious_refuted)."
  },
  {
   "property": "C92",
   "status": "proved",
   "theorems": [
    "C92_as",
    "C92_angle",
    "C92_comment",
    "C92_bang",
    "C92_double",
    "C92_tokens_refuted",
    "C92_half_character_refuted",
    "C92_documented_refuted",
    "C92_parentheses_refuted",
    "C92_block_refuted",
    "C92_misplaced"
   ],
   "note": "Words and signs can stick together (C92_tokens_refuted), a no-break space is cut in two (C92_half_character_refuted), a comment is taken away instead of the assertion (C92_documented_refuted), parentheses are lost (C92_parentheses_refuted), an object becomes a block (C92_block_refuted)."
  },
  {
   "property": "C93",
   "status": "proved",
   "theorems": [
    "C93_unassigned",
    "C93_unnecessary",
    "C93_contextual",
    "C93_sound",
    "C93_check_unchanged",
    "C93_check_contextual",
    "C93_check_double",
    "C93_check_double_exact",
    "C93_constrained",
    "C93_constrained_ends",
    "C93_var_refuted",
    "C93_unknown_context_refuted"
   ],
   "note": "A var used in a block beside its own, or in an async function, counts as assigned (C93_var_refuted); a context of unknown is not taken as one that takes null (C93_unknown_context_refuted)."
  },
  {
   "property": "C94",
   "status": "proved",
   "theorems": [
    "C94_constructor",
    "C94_handler",
    "C94_one",
    "C94_literals",
    "C94_template_refuted",
    "C94_bind_refuted",
    "C94_unknown_constructor_refuted"
   ],
   "note": "A name in a template without substitution is not seen (C94_template_refuted); the result of anything called bind is taken as a function (C94_bind_refuted); a parameter called Function of type any is reported (C94_unknown_constructor_refuted)."
  },
  {
   "property": "C95",
   "status": "proved",
   "theorems": [
    "C95_rethrown",
    "C95_undefined",
    "C95_object",
    "C95_reject",
    "C95_errors",
    "C95_parens",
    "C95_function_parens",
    "C95_executor_refuted",
    "C95_handler_parens_refuted",
    "C95_function_expression_refuted",
    "C95_readonly_refuted"
   ],
   "note": "A function given to new Promise as a second argument is treated as the one that is run (C95_executor_refuted); parentheses around a handler, and function expressions, are not seen through by only-throw-error (C95_handler_parens_refuted, C95_function_expression_refuted); a readonly error may be rejected but not thrown (C95_readonly_refuted)."
  },
  {
   "property": "C96",
   "status": "proved",
   "theorems": [
    "C96_kind",
    "C96_kind_one",
    "C96_kind_sound",
    "C96_signatures",
    "C96_any_silent",
    "C96_any_message",
    "C96_assignment",
    "C96_labels",
    "C96_backticks_refuted",
    "C96_overload_refuted",
    "C96_no_awaited_refuted",
    "C96_visited_refuted"
   ],
   "note": "The message on this has its type in two pairs of backticks (C96_backticks_refuted); signatures after the first do not count for values without any (C96_overload_refuted); a missing awaited type on both sides excuses any (C96_no_awaited_refuted); types visited while awaiting are missed later where awaited types are promises (C96_visited_refuted)."
  },
  {
   "property": "C97",
   "status": "proved",
   "theorems": [
    "C97_call_exactly",
    "C97_call_any",
    "C97_call_function",
    "C97_new_this_refuted",
    "C97_one_line_refuted",
    "C97_assertion_exactly",
    "C97_assertion_any",
    "C97_assertion_narrower",
    "C97_assertion_words",
    "C97_assertion_report",
    "C97_error_name_refuted"
   ],
   "note": "The message on this says call where the code has new (C97_new_this_refuted) and ends in a line break (C97_one_line_refuted); unknown asserted to be an error type is said to be any while the label says error (C97_error_name_refuted)."
  },
  {
   "property": "C98",
   "status": "proved",
   "theorems": [
    "C98_template_exactly",
    "C98_template_ends",
    "C98_template_steady",
    "C98_endless_refuted",
    "C98_sort_exactly",
    "C98_sort_ends",
    "C98_sort_union_refuted",
    "C98_for_in_exactly",
    "C98_for_in_tuple_refuted",
    "C98_minus_exactly"
   ],
   "note": "The template check never ends on a type that is an array of itself, with arrays allowed (C98_endless_refuted); a union of string arrays is reported though strings are ignored (C98_sort_union_refuted); for-in over a tuple with optional elements is missed (C98_for_in_tuple_refuted)."
  },
  {
   "property": "C99",
   "status": "proved",
   "theorems": [
    "C99_says_exactly",
    "C99_search_ends",
    "C99_alias_chain",
    "C99_endless_refuted",
    "C99_identifier_exactly",
    "C99_call_like",
    "C99_exports",
    "C99_element_exactly",
    "C99_property_exactly",
    "C99_private_refuted",
    "C99_values_refuted",
    "C99_default_refuted",
    "C99_renamed_refuted",
    "C99_empty_name_refuted",
    "C99_blank_reason_refuted"
   ],
   "note": "The search never ends on aliases of each other (C99_endless_refuted); private names get a second # (C99_private_refuted, as the snapshot of the tests shows too); default values of parameters and bodies of arrow functions are missed (C99_values_refuted); defaults in patterns are taken for properties (C99_default_refuted); a renamed property is reported twice (C99_renamed_refuted); empty names and blank reasons (C99_empty_name_refuted, C99_blank_reason_refuted)."
  },
  {
   "property": "C100",
   "status": "proved",
   "theorems": [
    "C100_fix",
    "C100_suggestion",
    "C100_report",
    "C100_option",
    "C100_text",
    "C100_all",
    "C100_function_refuted",
    "C100_line_refuted",
    "C100_return_refuted"
   ],
   "note": "The fix can change the program: a function called at once becomes a declaration (C100_function_refuted), a parenthesis first in its line goes on with the line before (C100_line_refuted), an operand on the line below is cut off from its return (C100_return_refuted)."
  },
  {
   "property": "C101",
   "status": "proved",
   "theorems": [
    "C101_way",
    "C101_objects",
    "C101_arrays",
    "C101_unknown",
    "C101_colon",
    "C101_key",
    "C101_contextual",
    "C101_index_refuted",
    "C101_default_refuted",
    "C101_empty_refuted",
    "C101_known"
   ],
   "note": "For an array pattern the first element's type is taken whatever the element (C101_index_refuted), so that default values are reported for a property of the first element (C101_default_refuted); empty names are not found (C101_empty_refuted)."
  },
  {
   "property": "C102",
   "status": "proved",
   "theorems": [
    "C102_promise",
    "C102_exact",
    "C102_option",
    "C102_once",
    "C102_tested",
    "C102_conditions",
    "C102_comma_refuted",
    "C102_twice_refuted",
    "C102_middle_refuted",
    "C102_nullish_refuted",
    "C102_assignment_refuted"
   ],
   "note": "Comma expressions that are promises are reported wherever they are (C102_comma_refuted), in parentheses in a condition twice (C102_twice_refuted); promises tested outside of conditions are missed if they are not first or behind a nullish operator (C102_middle_refuted, C102_nullish_refuted); an assignment is reported only in parentheses of its own (C102_assignment_refuted)."
  },
  {
   "property": "C103",
   "status": "proved",
   "theorems": [
    "C103_types",
    "C103_exact",
    "C103_counts",
    "C103_void",
    "C103_wanted",
    "C103_promise",
    "C103_one",
    "C103_order",
    "C103_predicate",
    "C103_overloads_refuted",
    "C103_generic_refuted",
    "C103_reordered_refuted",
    "C103_access_refuted"
   ],
   "note": "A promise that another overload takes is reported if void was noted more often than it is struck out: three overloads (C103_overloads_refuted), two with type parameters (C103_generic_refuted); the order of overloads matters (C103_reordered_refuted). A callback that is an access itself is reported twice (C103_access_refuted)."
  },
  {
   "property": "C104",
   "status": "proved",
   "theorems": [
    "C104_options",
    "C104_exact",
    "C104_annotated",
    "C104_off",
    "C104_spread",
    "C104_once",
    "C104_parentheses_refuted",
    "C104_returned_refuted",
    "C104_unheard_refuted",
    "C104_hidden_refuted",
    "C104_other_refuted"
   ],
   "note": "Annotations in parentheses hide the mistake (C104_parentheses_refuted, C104_returned_refuted); bodies of arrow functions, properties of classes and defaults are not looked at (C104_unheard_refuted); an entry of the symbol's own table hides an inherited property (C104_hidden_refuted); other values of the option turn the checks off (C104_other_refuted)."
  },
  {
   "property": "C105",
   "status": "proved",
   "theorems": [
    "C105_generic",
    "C105_overloaded",
    "C105_skip",
    "C105_any",
    "C105_not_generic",
    "C105_new_refuted",
    "C105_constructors_refuted",
    "C105_rest_refuted",
    "C105_parentheses_refuted",
    "C105_method_refuted"
   ],
   "note": "For new the call signatures are asked, so generic and overloaded constructors are not seen (C105_new_refuted, C105_constructors_refuted); a second argument of a rest parameter counts as missing (C105_rest_refuted); parentheses around an argument change the answer (C105_parentheses_refuted); methods do not end the search (C105_method_refuted)."
  },
  {
   "property": "C106",
   "status": "proved",
   "theorems": [
    "C106_inferred",
    "C106_argument",
    "C106_spread",
    "C106_ends",
    "C106_no_array",
    "C106_alias_refuted",
    "C106_spread_inside_refuted"
   ],
   "note": "For a rest parameter whose type is an alias the type arguments of the alias are taken for elements (C106_alias_refuted); an array spread into an array counts as a level of its own (C106_spread_inside_refuted)."
  },
  {
   "property": "C107",
   "status": "proved",
   "theorems": [
    "C107_exact",
    "C107_sound",
    "C107_literals",
    "C107_before",
    "C107_exact_optional_refuted",
    "C107_argument_refuted",
    "C107_self_closing_refuted",
    "C107_generic_function_refuted"
   ],
   "note": "Unions with undefined are not seen as such with exactOptionalPropertyTypes (C107_exact_optional_refuted); the argument of an access that is written to counts as its object (C107_argument_refuted); JSX elements that close themselves are no literals (C107_self_closing_refuted); generic functions called at once give their declared type (C107_generic_function_refuted)."
  },
  {
   "property": "C108",
   "status": "proved",
   "theorems": [
    "C108_references",
    "C108_body",
    "C108_reports",
    "C108_label",
    "C108_order",
    "C108_unused_refuted",
    "C108_parenthesized_refuted"
   ],
   "note": "A type parameter that is never used has its name labelled as its only usage (C108_unused_refuted); a function in parentheses as body of an arrow function counts as a body (C108_parenthesized_refuted). The count is C71."
  },
  {
   "property": "C109",
   "status": "proved",
   "theorems": [
    "C109_reported",
    "C109_one",
    "C109_sound",
    "C109_plain",
    "C109_member",
    "C109_calls",
    "C109_pattern_refuted",
    "C109_first_refuted"
   ],
   "note": "A ?. is reported although needed if undefined is read by an index signature of a pattern of strings (C109_pattern_refuted); of several kinds of objects the label names the property of the first alone (C109_first_refuted). Types, properties, signatures are given by the checker; getTypeOfPropertyOfType is taken to be getPropertyOfType and GetTypeOfSymbol."
  },
  {
   "property": "C110",
   "status": "proved",
   "theorems": [
    "C110_guard_calls",
    "C110_asserted",
    "C110_guard_calls_quiet",
    "C110_guard_calls_one",
    "C110_callback_guard",
    "C110_callback_returns",
    "C110_returns",
    "C110_callback_sound",
    "C110_call",
    "C110_stands",
    "C110_resolved",
    "C110_later_refuted",
    "C110_narrower_refuted"
   ],
   "note": "Overloads after a needless guard are not looked at, so that the order of overloads decides what is said (C110_later_refuted); a guard on a narrower type is needless in a callback but not in a call (C110_narrower_refuted). Predicates, signatures, types and assignability are given by the checker; checkNode is that of C54."
  },
  {
   "property": "C111",
   "status": "proved",
   "theorems": [
    "C111_reported",
    "C111_once",
    "C111_order",
    "C111_left_to_right",
    "C111_sound",
    "C111_name",
    "C111_words",
    "C111_default_refuted",
    "C111_computed_refuted"
   ],
   "note": "Default values of parameters are not looked at (C111_default_refuted); a method with a computed name is let off even if the name is a plain string (C111_computed_refuted). Nodes are given in the order the engine visits them; contextual types, members and signatures are the checker's."
  },
  {
   "property": "C112",
   "status": "proved",
   "theorems": [
    "C112_debug",
    "C112_debug_unknown",
    "C112_rules",
    "C112_help",
    "C112_fails",
    "C112_runs",
    "C112_profiles",
    "C112_profiles_span",
    "C112_entrance",
    "C112_summary",
    "C112_threads_refuted",
    "C112_table",
    "C112_widths",
    "C112_table_empty",
    "C112_table_wide_refuted",
    "C112_status_refuted",
    "C112_lost_refuted",
    "C112_inside_refuted"
   ],
   "note": "The status does not tell whether there were diagnostics (C112_status_refuted). If the linter has an error, diagnostics it reported before may be lost, as nothing waits for the printing goroutine (C112_lost_refuted). A project inside a node_modules directory has no files (C112_inside_refuted); one thread is spelled \"1 threads\" (C112_threads_refuted); a rule that takes 1000 seconds moves its line (C112_table_wide_refuted). Go's flag package, %q, the formatting of floats, paths, the program, RunLinterOnProgram and printDiagnostic are given functions."
  },
  {
   "property": "C113",
   "status": "proved",
   "theorems": [
    "C113_valid",
    "C113_invalid",
    "C113_all",
    "C113_unique",
    "C113_code",
    "C113_name",
    "C113_config",
    "C113_settled_refuted",
    "C113_replaced_refuted",
    "C113_nothing_refuted"
   ],
   "note": "A case with ten outputs passes although its last output would be fixed again (C113_settled_refuted); a file of the case of the same name replaces the code (C113_replaced_refuted); a case marked to run alone and to be left out leaves out all (C113_nothing_refuted). The linter, ApplyRuleFixes, positions and the snapshot are given functions; t.Errorf and t.Fatalf both are a failed case."
  },
  {
   "property": "C114",
   "status": "proved",
   "theorems": [
    "C114_render",
    "C114_positions",
    "C114_located",
    "C114_lines",
    "C114_start",
    "C114_columns",
    "C114_bytes_refuted",
    "C114_return_refuted",
    "C114_empty_refuted",
    "C114_number",
    "C114_number_unique"
   ],
   "note": "After a character of more than one byte the marks are wrong, since places count UTF-16 units and lines are read in bytes (C114_bytes_refuted); after a \\r alone the wrong line is marked (C114_return_refuted); an empty range has no mark (C114_empty_refuted). Places are a given function; the case without a source file is left out."
  },
  {
   "property": "C115",
   "status": "proved",
   "theorems": [
    "C115_snapshot",
    "C115_only",
    "C115_none",
    "C115_help_refuted",
    "C115_count_refuted",
    "C115_line_end_refuted"
   ],
   "note": "The help of a diagnostic without a range is not shown (C115_help_refuted); the snapshot of one diagnostic can be that of two, since messages are not escaped (C115_count_refuted); a range up to the start of a line is said to end in the column after the line before (C115_line_end_refuted). Undefined ranges of labels are left out; the underlined source is C114."
  }
 ]
}