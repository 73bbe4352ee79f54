{
 "claims": [
  {
   "property": "C01",
   "status": "proved",
   "theorems": [
    "C01_add_sub_mul_exact_or_error"
   ],
   "note": ""
  },
  {
   "property": "C02",
   "status": "proved",
   "theorems": [
    "C02_division_and_remainder"
   ],
   "note": ""
  },
  {
   "property": "C03",
   "status": "proved",
   "theorems": [
    "C03_variables",
    "C03_literals",
    "C03_expressions",
    "C03_statements"
   ],
   "note": ""
  },
  {
   "property": "C04",
   "status": "partial",
   "theorems": [
    "C04_shifts_partial",
    "C04_left_shift_refuted"
   ],
   "note": "Refuted as stated: `a << n` silently drops the high bits instead of reporting an error. The partial theorem gives the exact result for every a and n (right shift exact; left shift reduced to 128 bits; bad amounts are errors)."
  },
  {
   "property": "C05",
   "status": "partial",
   "theorems": [
    "C05_negation_partial",
    "C05_negate_min_refuted"
   ],
   "note": "Refuted at a = -2^127 only: debug build panics, release build wraps. The partial theorem proves exactness for every other a."
  },
  {
   "property": "C06",
   "status": "proved",
   "theorems": [
    "C06_bitwise_operators"
   ],
   "note": ""
  },
  {
   "property": "C07",
   "status": "proved",
   "theorems": [
    "C07_comparisons"
   ],
   "note": ""
  },
  {
   "property": "C08",
   "status": "proved",
   "theorems": [
    "C08_equality"
   ],
   "note": ""
  },
  {
   "property": "C09",
   "status": "proved",
   "theorems": [
    "C09_short_circuit"
   ],
   "note": ""
  },
  {
   "property": "C10",
   "status": "proved",
   "theorems": [
    "C10_blocks_restore_scopes"
   ],
   "note": ""
  },
  {
   "property": "C11",
   "status": "proved",
   "theorems": [
    "C11_assignment"
   ],
   "note": ""
  },
  {
   "property": "C12",
   "status": "proved",
   "theorems": [
    "C12_partial_assignment_is_exact"
   ],
   "note": ""
  },
  {
   "property": "C13",
   "status": "proved",
   "theorems": [
    "C13_no_unhandled_control_flow",
    "C13_loops_consume_jumps"
   ],
   "note": ""
  },
  {
   "property": "C14",
   "status": "proved",
   "theorems": [
    "C14_for_iterates_over_snapshot",
    "C14_loop_variable_is_assigned"
   ],
   "note": ""
  },
  {
   "property": "C15",
   "status": "proved",
   "theorems": [
    "C15_while_unrolls",
    "C15_results_do_not_depend_on_budget"
   ],
   "note": ""
  },
  {
   "property": "C16",
   "status": "proved",
   "theorems": [
    "C16_quit_stops_everything",
    "C16_command_quits"
   ],
   "note": ""
  },
  {
   "property": "C17",
   "status": "proved",
   "theorems": [
    "C17_rejected_input_has_no_effect",
    "C17_only_accepted_input_has_effects"
   ],
   "note": ""
  },
  {
   "property": "C18",
   "status": "proved",
   "theorems": [
    "C18_analyser_recovers",
    "C18_top_level_jumps_are_rejected"
   ],
   "note": ""
  },
  {
   "property": "C19",
   "status": "proved",
   "theorems": [
    "C19_analyser_never_rejects_a_defined_variable",
    "C19_defined_variables_can_be_used"
   ],
   "note": ""
  },
  {
   "property": "C20",
   "status": "partial",
   "theorems": [
    "C20_use_before_assignment_partial",
    "C20_refuted"
   ],
   "note": "Refuted: `x = x;`, `x += 1;`, `for i in i`, a name assigned only in the other branch or in a rejected command pass the analyser. The partial theorem covers every read of a name not assigned (in text order) before it in any command of the session."
  },
  {
   "property": "C21",
   "status": "partial",
   "theorems": [
    "C21_release_never_panics",
    "C21_debug_panics_are_overflows_partial",
    "C21_refuted"
   ],
   "note": "Release builds never panic, for every session and environment. Debug builds: refuted (negating the minimum, casts near 2^64, very negative histogram values); the partial theorem says the only panics are arithmetic overflow checks. Stack and memory exhaustion are not modelled."
  },
  {
   "property": "C22",
   "status": "proved",
   "theorems": [
    "C22_fixed_type_round_trip",
    "C22_fixed_struct_round_trip",
    "C22_fixed_struct_decodes"
   ],
   "note": ""
  },
  {
   "property": "C23",
   "status": "proved",
   "theorems": [
    "C23_field_offsets"
   ],
   "note": ""
  },
  {
   "property": "C24",
   "status": "proved",
   "theorems": [
    "C24_decoding_is_total",
    "C24_too_short_is_an_error"
   ],
   "note": ""
  },
  {
   "property": "C25",
   "status": "proved",
   "theorems": [
    "C25_trailing_data"
   ],
   "note": ""
  },
  {
   "property": "C26",
   "status": "proved",
   "theorems": [
    "C26_extent_items"
   ],
   "note": ""
  },
  {
   "property": "C27",
   "status": "proved",
   "theorems": [
    "C27_unions_overlay"
   ],
   "note": ""
  },
  {
   "property": "C28",
   "status": "proved",
   "theorems": [
    "C28_string_text",
    "C28_string_text_is_printable",
    "C28_string_text_is_lossless",
    "C28_different_strings_display_differently"
   ],
   "note": ""
  },
  {
   "property": "C29",
   "status": "partial",
   "theorems": [
    "C29_print_is_verbatim_partial",
    "C29_other_characters_are_not_verbatim_refuted"
   ],
   "note": "Refuted for strings with quotes, backslashes or non-ASCII bytes (print escapes them). The partial theorem covers exactly the strings of printable characters and plain whitespace."
  },
  {
   "property": "C30",
   "status": "partial",
   "theorems": [
    "C30_filesystem_opens_the_written_path_partial",
    "C30_failed_open_keeps_the_filesystem",
    "C30_other_paths_are_not_opened_refuted"
   ],
   "note": "Refuted for paths containing characters that get escaped. Otherwise the opened path is the written one; a failed open keeps the previous filesystem."
  },
  {
   "property": "C31",
   "status": "partial",
   "theorems": [
    "C31_histogram_buckets_partial",
    "C31_histogram_counts_every_sample_partial",
    "C31_values_equal_to_the_last_bound_are_lost_refuted"
   ],
   "note": "Refuted: samples equal to the largest value are not counted when that value is 0 or plus or minus a power of two. Partial theorems: buckets are contiguous powers of two, and counting is exact when no sample equals the last bound."
  },
  {
   "property": "C32",
   "status": "partial",
   "theorems": [
    "C32_printing_a_histogram_terminates_partial",
    "C32_printing_large_values_never_ends_refuted"
   ],
   "note": "Refuted: a value above 2^125 makes printing loop forever. Partial: terminates whenever all values are at most 2^125."
  },
  {
   "property": "C33",
   "status": "partial",
   "theorems": [
    "C33_labels_are_exact_partial",
    "C33_labels_have_one_reading",
    "C33_least_bound_has_no_label_refuted"
   ],
   "note": "Refuted for bounds below -2^126. Partial: labels are exact and uniquely readable for all other bounds."
  },
  {
   "property": "C34",
   "status": "proved",
   "theorems": [
    "C34_search_sends_exactly_the_requested_key",
    "C34_bad_request_is_an_error",
    "C34_bad_key_is_an_error"
   ],
   "note": ""
  },
  {
   "property": "C35",
   "status": "partial",
   "theorems": [
    "C35_bounded_search_is_complete",
    "C35_bounded_search_terminates",
    "C35_bounded_search_succeeds_partial",
    "C35_bounded_search_succeeds_refuted"
   ],
   "note": "Completeness and termination are proved for every kernel history (items may change between calls). Success is refuted: an item whose offset is 2^64-1 ending a batch yields an error; the partial theorem proves success when no such item occurs."
  },
  {
   "property": "C36",
   "status": "partial",
   "theorems": [
    "C36_unbounded_search_returns_everything_refuted",
    "C36_unbounded_search_returns_everything_partial"
   ],
   "note": "Refuted: with all maxima at their limit only one ioctl is issued, so results beyond the first buffer are lost. Partial: everything is returned if it fits into the first answer."
  },
  {
   "property": "C37",
   "status": "proved",
   "theorems": [
    "C37_well_formed_buffer",
    "C37_any_buffer",
    "C37_search_reads_inside_the_buffer"
   ],
   "note": ""
  },
  {
   "property": "C38",
   "status": "proved",
   "theorems": [
    "C38_results_are_the_decoded_items",
    "C38_keyof_gives_the_items_key"
   ],
   "note": ""
  },
  {
   "property": "C39",
   "status": "partial",
   "theorems": [
    "C39_cast_reads_the_addressed_bytes_partial",
    "C39_unsized_structs_read_1024_bytes_partial",
    "C39_addresses_wrap_refuted",
    "C39_end_of_address_space_refuted"
   ],
   "note": "Refuted: addresses are taken modulo 2^64 and an end beyond 2^64 panics in debug builds. Partial: for addresses below 2^64 with a representable end."
  },
  {
   "property": "C40",
   "status": "partial",
   "theorems": [
    "C40_no_kernel_access_without_a_mounted_filesystem",
    "C40_search_needs_a_mounted_filesystem",
    "C40_cast_needs_a_filesystem",
    "C40_cast_needs_an_image_partial",
    "C40_cast_on_mounted_can_panic_refuted"
   ],
   "note": "Everything but one case: a cast on a mounted filesystem with an address near 2^64 panics in debug builds before the kind is checked."
  },
  {
   "property": "C41",
   "status": "proved",
   "theorems": [
    "C41_only_btrfs_is_accepted",
    "C41_initial_filesystem"
   ],
   "note": ""
  },
  {
   "property": "C42",
   "status": "partial",
   "theorems": [
    "C42_strip_comments_partial",
    "C42_every_text_has_lines",
    "C42_escaped_quote_starts_comment_refuted",
    "C42_escaped_quote_keeps_comment_refuted",
    "C42_newline_in_string_refuted"
   ],
   "note": "Refuted for escaped quotes and newlines inside string literals. Partial: exact for texts without them."
  },
  {
   "property": "C43",
   "status": "proved",
   "theorems": [
    "C43_fixup_ends_with_semicolon",
    "C43_fixup_changes_nothing_else",
    "C43_complete_input_unchanged",
    "C43_fixup_idempotent",
    "C43_unfolding_exists"
   ],
   "note": ""
  },
  {
   "property": "C44",
   "status": "partial",
   "theorems": [
    "C44_continuation_pieces_partial",
    "C44_continuation_rejected_refuted"
   ],
   "note": "Refuted: the joined command is rejected by the parser. Partial: what is collected and when more input is requested."
  },
  {
   "property": "C45",
   "status": "partial",
   "theorems": [
    "C45_blank_line_changes_nothing_partial",
    "C45_blank_line_is_an_error_refuted"
   ],
   "note": "Refuted: a blank line reports a parse error. Partial: nothing else changes."
  },
  {
   "property": "C46",
   "status": "proved",
   "theorems": [
    "C46_parse_terminates"
   ],
   "note": ""
  },
  {
   "property": "C47",
   "status": "proved",
   "theorems": [
    "C47_parse_is_sound_for_the_grammar"
   ],
   "note": ""
  },
  {
   "property": "C48",
   "status": "proved",
   "theorems": [
    "C48_render_then_parse",
    "C48_every_layout",
    "C48_parse_yields_well_formed",
    "C48_unambiguous"
   ],
   "note": ""
  },
  {
   "property": "C49",
   "status": "partial",
   "theorems": [
    "C49_any_identifier_refuted",
    "C49_reserved_prefixes_refuted",
    "C49_other_identifiers_partial"
   ],
   "note": "Refuted for identifiers beginning with a reserved word (printer, truest, ...). Partial: all others, with exactly which those are."
  },
  {
   "property": "C50",
   "status": "proved",
   "theorems": [
    "C50_compound_assignment_is_its_expansion",
    "C50_compound_assignment_parses"
   ],
   "note": ""
  },
  {
   "property": "C51",
   "status": "proved",
   "theorems": [
    "C51_output_only_grows",
    "C51_statements_only_append",
    "C51_reliable_output",
    "C51_silent_programs",
    "C51_silent_statements",
    "C51_expressions_are_silent",
    "C51_repl_output_only_grows"
   ],
   "note": ""
  },
  {
   "property": "C52",
   "status": "partial",
   "theorems": [
    "C52_all_lines_are_processed",
    "C52_ends_at_eof",
    "C52_ends_at_quit",
    "C52_ends_only_at_eof_or_quit_partial",
    "C52_crash_only_in_evaluation",
    "C52_interrupt_is_ignored",
    "C52_read_error_does_not_end_the_loop_refuted"
   ],
   "note": "Refuted: an unexpected read error does not end the loop. All other parts are proved."
  },
  {
   "property": "C53",
   "status": "proved",
   "theorems": [
    "C53_failure",
    "C53_success",
    "C53_unreadable_script_fails",
    "C53_status_is_unique",
    "C53_release_never_crashes"
   ],
   "note": ""
  },
  {
   "property": "C54",
   "status": "partial",
   "theorems": [
    "C54_constants_have_the_kernel_values_partial",
    "C54_every_constant_is_covered",
    "C54_balance_objectid_refuted",
    "C54_functions_are_predefined",
    "C54_kept_until_assigned",
    "C54_analyser_never_forgets",
    "C54_statements_keep_other_variables"
   ],
   "note": "Refuted for BTRFS_BALANCE_OBJECTID (4 instead of 2^64-4). All other constants proved against the kernel header values."
  },
  {
   "property": "C55",
   "status": "proved",
   "theorems": [
    "C55_values_display_line_by_line",
    "C55_every_value_has_lines",
    "C55_print_writes_the_lines"
   ],
   "note": ""
  },
  {
   "property": "C56",
   "status": "proved",
   "theorems": [
    "C56_display_is_canonical",
    "C56_literal_reads_back",
    "C56_negative_reads_back",
    "C56_large_literal_is_rejected"
   ],
   "note": ""
  },
  {
   "property": "C57",
   "status": "proved",
   "theorems": [
    "C57_key_builds_the_search_key",
    "C57_key_wants_four_arguments",
    "C57_key_wants_integers",
    "C57_keyof_gives_the_key"
   ],
   "note": ""
  },
  {
   "property": "C58",
   "status": "proved",
   "theorems": [
    "C58_typeof",
    "C58_len",
    "C58_str",
    "C58_hist",
    "C58_wrong_number_of_arguments",
    "C58_only_functions_can_be_called",
    "C58_append"
   ],
   "note": ""
  },
  {
   "property": "C59",
   "status": "partial",
   "theorems": [
    "C59_histograms_behave_as_arrays_partial",
    "C59_histograms_in_expressions_partial",
    "C59_equality_sees_histograms_refuted"
   ],
   "note": "Refuted for == and != (they distinguish a histogram from an equal plain array). Partial: every program without equality tests, by a simulation."
  },
  {
   "property": "C60",
   "status": "partial",
   "theorems": [
    "C60_documented_keys_are_recognised_partial",
    "C60_documented_keys_are_recognised_refuted"
   ],
   "note": "Refuted for DIR_LOG_ITEM (60): the shipped definition tests the wrong key type. Partial: all other documented keys."
  },
  {
   "property": "C61",
   "status": "proved",
   "theorems": [
    "C61_file_extent_items"
   ],
   "note": ""
  },
  {
   "property": "C62",
   "status": "proved",
   "theorems": [
    "C62_shipped_sizes",
    "C62_names_are_unique"
   ],
   "note": ""
  },
  {
   "property": "C63",
   "status": "proved",
   "theorems": [
    "C63_members_are_where_the_kernel_keeps_them",
    "C63_variable_parts_are_where_the_kernel_keeps_them",
    "C63_stripes_are_where_the_kernel_keeps_them"
   ],
   "note": ""
  },
  {
   "property": "C64",
   "status": "proved",
   "theorems": [
    "C64_values",
    "C64_errors",
    "C64_deterministic"
   ],
   "note": ""
  },
  {
   "property": "C65",
   "status": "proved",
   "theorems": [
    "C65_statements",
    "C65_sequences",
    "C65_commands",
    "C65_only_by_the_rules",
    "C65_deterministic"
   ],
   "note": ""
  },
  {
   "property": "C66",
   "status": "proved",
   "theorems": [
    "C66_queries_go_to_the_selected_filesystem",
    "C66_the_selected_filesystem_is_unique",
    "C66_startup_opens_the_working_directory",
    "C66_other_commands_open_nothing"
   ],
   "note": ""
  },
  {
   "property": "C67",
   "status": "proved",
   "theorems": [
    "C67_a_literal_is_its_text_in_utf8",
    "C67_the_encoding_is_unique",
    "C67_equality_of_literals",
    "C67_concatenation_of_literals",
    "C67_entering_a_literal"
   ],
   "note": ""
  },
  {
   "property": "C68",
   "status": "proved",
   "theorems": [
    "C68_programs_can_be_concatenated",
    "C68_two_commands_are_one",
    "C68_many_commands_are_one",
    "C68_the_rest_is_not_run",
    "C68_a_rejected_part_stops_everything",
    "C68_rendered_programs_qualify"
   ],
   "note": ""
  },
  {
   "property": "C69",
   "status": "proved",
   "theorems": [
    "C69_no_expression_statements_no_difference",
    "C69_only_the_echo_differs",
    "C69_sessions",
    "C69_output_is_a_subsequence"
   ],
   "note": ""
  },
  {
   "property": "C70",
   "status": "partial",
   "theorems": [
    "C70_what_is_shown_determines_what_was_read_partial",
    "C70_exact_items_are_shown_completely_partial",
    "C70_extent_items_are_shown_completely",
    "C70_extra_bytes_are_ignored_refuted",
    "C70_only_the_first_name_is_shown_refuted"
   ],
   "note": "Refuted: bytes after the part described by the definition are ignored without an error, for every definition but extent items (e.g. every name but the first of an INODE_REF item). Partial: what is shown determines the bytes that were read; fixed-size items of the right length and extent items are shown completely."
  },
  {
   "property": "C71",
   "status": "proved",
   "theorems": [
    "C71_output_is_safe_for_a_terminal",
    "C71_variables_are_textual",
    "C71_values_are_textual",
    "C71_every_value_is_shown_line_by_line"
   ],
   "note": ""
  },
  {
   "property": "C72",
   "status": "proved",
   "theorems": [
    "C72_other_variables_are_unchanged",
    "C72_commands"
   ],
   "note": ""
  },
  {
   "property": "C73",
   "status": "proved",
   "theorems": [
    "C73_results_depend_only_on_mentioned_variables",
    "C73_sessions_agree_on_equal_variables",
    "C73_unrelated_history_is_not_noticed"
   ],
   "note": ""
  },
  {
   "property": "C74",
   "status": "proved",
   "theorems": [
    "C74_a_program_ends_iff_its_loops_do",
    "C74_commands",
    "C74_programs_without_while_end"
   ],
   "note": ""
  },
  {
   "property": "C75",
   "status": "proved",
   "theorems": [
    "C75_search_selects_exactly_the_range",
    "C75_search_is_repeatable",
    "C75_narrower_searches_find_less",
    "C75_split_searches_join"
   ],
   "note": ""
  },
  {
   "property": "C76",
   "status": "proved",
   "theorems": [
    "C76_block_group_dist",
    "C76_example_script"
   ],
   "note": ""
  },
  {
   "property": "C77",
   "status": "proved",
   "theorems": [
    "C77_script",
    "C77_script_status",
    "C77_nothing_started",
    "C77_script_ignores_terminal",
    "C77_waiting",
    "C77_end_of_file",
    "C77_quit",
    "C77_exit_status",
    "C77_errors_are_reported",
    "C77_release_never_aborts",
    "C77_closed_stdout",
    "C77_is_a_session"
   ],
   "note": ""
  },
  {
   "property": "C78",
   "status": "proved",
   "theorems": [
    "C78_process",
    "C78_command",
    "C78_first_interactions",
    "C78_short_runs",
    "C78_commands_do_not_look_back"
   ],
   "note": ""
  },
  {
   "property": "C79",
   "status": "proved",
   "theorems": [
    "C79_longer_runs",
    "C79_shown_stays_shown",
    "C79_one_history",
    "C79_one_end",
    "C79_commands",
    "C79_endless_output"
   ],
   "note": ""
  },
  {
   "property": "C80",
   "status": "proved",
   "theorems": [
    "C80_success_means_no_failure",
    "C80_stops_at_the_first_failure",
    "C80_failure_ends_the_command",
    "C80_kernel_overflow",
    "C80_script_exit_0",
    "C80_quiet_session"
   ],
   "note": ""
  },
  {
   "property": "C81",
   "status": "proved",
   "theorems": [
    "C81_replacing",
    "C81_parentheses",
    "C81_paren_same",
    "C81_not_equals",
    "C81_at_most",
    "C81_at_least",
    "C81_constants",
    "C81_order_matters"
   ],
   "note": ""
  },
  {
   "property": "C82",
   "status": "proved",
   "theorems": [
    "C82_shown_or_reported",
    "C82_undecodable_item",
    "C82_warnings_have_a_cause",
    "C82_results_have_a_source"
   ],
   "note": ""
  },
  {
   "property": "C83",
   "status": "proved",
   "theorems": [
    "C83_requests_are_bounded_by_the_items_in_range",
    "C83_search_ends_in_time",
    "C83_requests_are_bounded_by_the_results",
    "C83_unbounded_search_asks_once"
   ],
   "note": ""
  },
  {
   "property": "C84",
   "status": "proved",
   "theorems": [
    "C84_expressions",
    "C84_statements",
    "C84_sequences",
    "C84_one_report",
    "C84_casts",
    "C84_searches",
    "C84_filesystems",
    "C84_histograms"
   ],
   "note": ""
  },
  {
   "property": "C85",
   "status": "proved",
   "theorems": [
    "C85_checks",
    "C85_one_report",
    "C85_commands"
   ],
   "note": ""
  },
  {
   "property": "C86",
   "status": "partial",
   "theorems": [
    "C86_references_stay_inside_the_buffer",
    "C86_the_result_is_what_the_references_read",
    "C86_references_are_aligned_refuted",
    "C86_references_are_aligned_partial"
   ],
   "note": "Inside the buffer: proved for every answer. Alignment refuted: an item whose length is not a multiple of 8 misaligns the next header. The partial theorem says exactly when all references are aligned."
  },
  {
   "property": "C87",
   "status": "proved",
   "theorems": [
    "C87_names_do_not_matter",
    "C87_fresh_sessions",
    "C87_renaming_can_be_undone"
   ],
   "note": ""
  },
  {
   "property": "C88",
   "status": "partial",
   "theorems": [
    "C88_different_values_look_different_refuted",
    "C88_displayed_alike_partial",
    "C88_values_of_sessions_partial",
    "C88_echo_partial",
    "C88_bare_values_partial"
   ],
   "note": "Refuted as stated: strings are displayed without quotes (5 and the string 5), the histogram mark and the disk position of a structure are not shown. The partial theorems say exactly which values are displayed alike (looks_alike), for every value a session can compute; nothing else is ambiguous."
  },
  {
   "property": "C89",
   "status": "proved",
   "theorems": [
    "C89_the_parser_is_counted",
    "C89_expressions_are_linear",
    "C89_rules_are_quadratic",
    "C89_parsing_is_polynomial"
   ],
   "note": ""
  },
  {
   "property": "C90",
   "status": "proved",
   "theorems": [
    "C90_decoding_errors_say_what_is_missing",
    "C90_one_explanation",
    "C90_no_explanation_means_decoded",
    "C90_casts_report_it",
    "C90_casts_leave_names_out",
    "C90_searches_report_it"
   ],
   "note": ""
  },
  {
   "property": "C91",
   "status": "proved",
   "theorems": [
    "C91_a_script_can_be_typed",
    "C91_without_echo_nothing_differs",
    "C91_typing_has_one_outcome",
    "C91_success_is_the_same",
    "C91_the_processes"
   ],
   "note": ""
  },
  {
   "property": "C92",
   "status": "partial",
   "theorems": [
    "C92_a_search_from_a_key_gives_the_next_items",
    "C92_an_element_is_found_again",
    "C92_the_program_that_finds_an_element_again",
    "C92_the_next_offset_is_behind_the_item",
    "C92_paging_reads_the_rest_of_the_tree_partial",
    "C92_paging_reads_the_rest_of_the_tree_refuted"
   ],
   "note": "Refuted when the tree has an item whose type no shipped struct is for: such items count in an answer but are not shown, so an array without elements is not the end. Partial: if all items from the first key on are of known types. The first four theorems have no such hypothesis."
  },
  {
   "property": "C93",
   "status": "proved",
   "theorems": [
    "C93_interchangeable_parts_make_interchangeable_programs",
    "C93_and_is_a_nested_if",
    "C93_or_is_an_else_if",
    "C93_not_swaps_the_branches",
    "C93_comparisons_are_boolean",
    "C93_nothing_after_a_jump_runs",
    "C93_a_last_continue_is_idle",
    "C93_the_condition_may_move_into_the_loop",
    "C93_braces",
    "C93_rearranged_commands_do_the_same",
    "C93_not_of_an_integer_does_not_swap"
   ],
   "note": ""
  },
  {
   "property": "C94",
   "status": "proved",
   "theorems": [
    "C94_trees_are_no_bigger_than_texts",
    "C94_every_depth_occurs",
    "C94_the_parser_nests_no_deeper_than_the_text_is_long"
   ],
   "note": ""
  },
  {
   "property": "C95",
   "status": "proved",
   "theorems": [
    "C95_boolean_expressions_are_booleans",
    "C95_integer_expressions_are_integers",
    "C95_and_or_associate",
    "C95_de_morgan",
    "C95_double_negation_and_constants",
    "C95_bitwise_operators_associate",
    "C95_bitwise_constants",
    "C95_bitwise_de_morgan",
    "C95_what_may_not_be_rewritten"
   ],
   "note": ""
  },
  {
   "property": "C96",
   "status": "proved",
   "theorems": [
    "C96_layouts",
    "C96_buffer_fits",
    "C96_header",
    "C96_request_code",
    "C96_buffer_sizes",
    "C96_the_kernel_finds_the_request",
    "C96_every_request",
    "C96_every_request_of_a_command",
    "C96_requests_differ"
   ],
   "note": ""
  },
  {
   "property": "C97",
   "status": "proved",
   "theorems": [
    "C97_the_same_or_crashed_on_the_way",
    "C97_the_same_if_nothing_crashes",
    "C97_what_debug_shows_is_right",
    "C97_crashes_are_overflows",
    "C97_commands"
   ],
   "note": ""
  }
 ]
}