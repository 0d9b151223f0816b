{"claims": [
  {"property": "C01", "status": "proved", "theorems": ["eval_sequence", "eval_runs", "eval_stops_at_first_error", "instructions_after_error_do_not_matter"], "note": "runs/errs are the big-step specification in Spec.v"},
  {"property": "C02", "status": "proved", "theorems": ["eval_expr_value", "eval_expr_error", "literals_evaluate_to_themselves", "bare_word_argument_fails", "unknown_function_evaluates_nothing"], "note": "evaluates/errs are the specification; the evaluator is shown equivalent to both"},
  {"property": "C03", "status": "proved", "theorems": ["failing_command_changes_nothing", "failing_call_changes_nothing", "failing_instruction_changes_nothing", "failing_nested_instruction_changes_nothing_refuted"], "note": "failing_nested_instruction_changes_nothing_refuted: effects of nested argument calls remain, as the property (about one command) allows"},
  {"property": "C04", "status": "proved", "theorems": ["queries_change_nothing", "query_expressions_change_nothing"], "note": ""},
  {"property": "C05", "status": "proved", "theorems": ["motions_searches_marks_keep_text", "only_mark_setters_set_mark", "only_searches_set_match", "set_mark_keeps_point", "groups_cover_all_commands"], "note": ""},
  {"property": "C06", "status": "proved", "theorems": ["signatures_are_the_commands", "signatures_unique", "wrong_arguments_are_rejected", "accepted_arguments_are_not_rejected", "accepted_arguments_never_expects"], "note": "signatures is the documented table; expected_error the content errors; concat may run out of memory before reaching a bad argument, hence the fits hypothesis"},
  {"property": "C07", "status": "proved", "theorems": ["insert_splices", "insert_outside", "insert_too_long"], "note": "insert for every buffer whose text fits; insert_outside covers points outside the buffer; insert_too_long the allocation failure"},
  {"property": "C08", "status": "proved", "theorems": ["goto_char_clamps", "forward_char_clamps", "backward_char_clamps", "backward_char_stays_inside_refuted", "forward_char_overflows", "goto_char_huge_goes_to_start"], "note": "backward_char_stays_inside_refuted and goto_char_huge_goes_to_start are the exceptions named in the property"},
  {"property": "C09", "status": "proved", "theorems": ["calls_are_safe", "risky_calls_are_not_safe", "guarded_programs_are_safe", "harmless_programs_are_safe", "no_script_crashes_refuted", "negative_delete_char_crashes_refuted", "stale_mark_crashes_refuted"], "note": "risky (Spec.v) lists the exceptional calls; both directions proved; guarded_programs_are_safe and harmless_programs_are_safe lift it to programs; running out of memory (a text beyond 2^48 bytes) is the only other way to stop"},
  {"property": "C10", "status": "proved", "theorems": ["every_command_terminates", "every_expression_terminates", "every_script_terminates"], "note": "the regexp engine and case tables are oracles, assumed to return"},
  {"property": "C11", "status": "proved", "theorems": ["search_forward_finds_first", "search_forward_fails", "first_occurrence_exists"], "note": ""},
  {"property": "C12", "status": "proved", "theorems": ["search_backward_finds_last", "search_backward_fails", "last_occurrence_exists", "search_backward_stuck", "search_backward_goes_to_match_start_refuted"], "note": "search_backward_goes_to_match_start_refuted is the documented-behaviour witness"},
  {"property": "C13", "status": "proved", "theorems": ["replace_match_replaces", "search_forward_then_replace", "search_backward_then_replace", "replace_match_without_match", "replace_match_out_of_range", "replace_match_checks_text_refuted"], "note": "replace_match_checks_text_refuted is the witness that only positions are remembered"},
  {"property": "C14", "status": "proved", "theorems": ["delete_region_deletes", "replace_region_replaces", "region_bounds_reported", "region_text", "region_symmetric"], "note": ""},
  {"property": "C15", "status": "proved", "theorems": ["delete_char_deletes", "delete_char_negative_duplicates", "delete_char_negative_crashes", "delete_backward_char_deletes", "delete_backward_char_negative", "delete_backward_char_overflows"], "note": "negative and overflowing counts are characterised by separate theorems"},
  {"property": "C16", "status": "proved", "theorems": ["beginning_of_line_moves", "beginning_of_line_on_empty", "beginning_of_line_after_final_newline", "beginning_of_line_stays_on_line_refuted", "end_of_line_moves"], "note": "the two exceptions of the property are theorems of their own"},
  {"property": "C17", "status": "proved", "theorems": ["line_number_counts_newlines", "goto_line_moves", "goto_line_then_line_number"], "note": ""},
  {"property": "C18", "status": "proved", "theorems": ["mark_line_selects", "delete_line_deletes", "kill_line_one", "kill_line_many", "kill_line_at_end", "kill_line_kills_from_point_refuted"], "note": "kill_line_kills_from_point_refuted: kill-line keeps the byte at point"},
  {"property": "C19", "status": "proved", "theorems": ["forward_word_moves", "backward_word_moves", "mark_word_selects", "mark_word_at_end", "passes_words_total", "passes_lines_total"], "note": ""},
  {"property": "C20", "status": "proved", "theorems": ["kill_word_kills", "backward_kill_word_kills", "backward_kill_word_kills_only_word_refuted"], "note": "backward_kill_word_kills_only_word_refuted is the witness against the documentation"},
  {"property": "C21", "status": "proved", "theorems": ["piece_exists", "piece_unique", "substring_takes", "substring_to_end", "buffer_substring_takes", "substring_never_crashes", "buffer_substring_never_crashes", "substring_min_int_wraps", "pieces_concatenate", "piece_whole", "buffer_substring_splits"], "note": "piece is the specification of the clamped extraction (Spec.v), shown to exist and be unique; substring_min_int_wraps covers the one overflow case"},
  {"property": "C22", "status": "proved", "theorems": ["concat_joins", "concat_too_long", "length_counts", "length_of_concat", "buffer_size_and_point_max", "buffer_size_is_length_of_text"], "note": "concat_too_long covers the allocation failure"},
  {"property": "C23", "status": "proved", "theorems": ["upcase_ascii", "downcase_ascii", "case_conversion_idempotent", "capitalize_ascii", "upcase_utf8", "downcase_utf8", "capitalize_maps_runes_refuted"], "note": "case conversion of one rune is the oracle uc_upper/uc_lower restricted by ext_ok; capitalize_maps_runes_refuted is the witness"},
  {"property": "C24", "status": "proved", "theorems": ["column_at_byte", "column_at_newline", "column_at_end", "column_is_zero_based_refuted"], "note": "column_is_zero_based_refuted is the witness against the documentation"},
  {"property": "C25", "status": "proved", "theorems": ["re_search_forward_finds", "re_search_forward_fails", "re_search_backward_finds", "re_search_backward_fails", "re_search_forward_then_replace", "empty_match_cannot_be_replaced", "re_search_backward_finds_last_occurrence_refuted"], "note": "the regexp engine is an oracle record E restricted by ext_ok E; ref_ext is a concrete engine meeting ext_ok used in the examples; re_search_backward_finds_last_occurrence_refuted is the witness"},
  {"property": "C26", "status": "proved", "theorems": ["looking_at_answers", "looking_at_literal", "looking_at_end", "looking_back_answers", "looking_back_literal", "looking_back_start", "looking_back_sees_every_match_refuted", "string_match_answers", "string_match_literal"], "note": "looking_back_sees_every_match_refuted is the witness"},
  {"property": "C27", "status": "proved", "theorems": ["equal_is_same", "equal_nil", "equal_symmetric", "equal_transitive", "equal_reflexive", "equal_reflexive_everywhere_refuted", "equal_values_print_alike_refuted"], "note": ""},
  {"property": "C28", "status": "proved", "theorems": ["literal_reads_back", "literal_injective", "literal_argument"], "note": "every byte string; literal_argument is the script-level form"},
  {"property": "C29", "status": "proved", "theorems": ["letter_names", "value_reads_back", "sexp_round_trip", "sexp_long_instruction_fails", "every_symbol_round_trips_refuted"], "note": "token_symbol (SpecText.v) says which names are read as symbols, letter_names shows that ordinary names are; lines of 65536 bytes or more (sexp_long_instruction_fails) and number-like symbols (every_symbol_round_trips_refuted) are the exceptions"},
  {"property": "C30", "status": "proved", "theorems": ["shell_round_trip", "shell_nested_rejected", "shell_empty_list_refuted"], "note": "shell_empty_list_refuted: the empty list is lost"},
  {"property": "C31", "status": "proved", "theorems": ["json_value_image", "json_value_round_trip", "json_argument_symbol", "json_writable_iff", "json_stream_image", "json_stream_round_trip", "json_array_round_trip", "json_lines_not_an_array", "json_any_string_refuted", "json_accepts_canonical", "json_validated_converts"], "note": "At value level both directions are exact for every value (json_value_image, json_value_round_trip). At text level the round trip is proved for UTF-8 text, finite float64 numbers and nesting within encoding/json's limit of 10000; strings that are not UTF-8 do not survive (json_any_string_refuted). The writer's line-per-value output is not what the edit command's reader accepts (json_lines_not_an_array). Encoding of numbers is modelled by its specification: the shortest text that parses back."},
  {"property": "C32", "status": "proved", "theorems": ["default_format", "unknown_format", "sexp_json_agree", "formats_agree"], "note": "All three formats for flat programs, S-expressions and JSON for nested ones; the JSON script is the array of the written values. Lines must be shorter than 65536 bytes (C47)."},
  {"property": "C33", "status": "proved", "theorems": ["newline_separates", "semicolon_separates", "blanks_ignored", "blank_line_ignored", "crlf_ignored", "bad_line_rejects", "parsing_total", "open_literal_rejected", "parentheses_balanced"], "note": "closed/outside/nested (SpecText.v) describe literals and parentheses on bytes, independently of the tokenizer"},
  {"property": "C34", "status": "proved", "theorems": ["text_after_list_dropped", "every_command_kept_refuted", "command_keeps_all"], "note": "for the printed form of any writable list followed by any text with closed literals and no semicolon outside them"},
  {"property": "C35", "status": "proved", "theorems": ["edit_file_outcome", "edit_file_fmt_outcome", "script_failure_keeps_files", "edit_file_succeeds"], "note": "edit_file_outcome: every run ends in one of three ways; an I/O fault while writing is the only way to leave partial content. edit_file_succeeds gives the positive direction when no operation fails."},
  {"property": "C36", "status": "proved", "theorems": ["edit_files_independent", "edit_files_fmt_independent", "edit_files_results", "edit_files_twice_refuted"], "note": "files must resolve to distinct names (edit_files_twice_refuted shows why); a script that takes the process down ends the run (C09)"},
  {"property": "C37", "status": "proved", "theorems": ["dry_run_writes_nothing", "expressions_write_nothing", "expressions_share_buffer", "expressions_print_values"], "note": "expressions_share_buffer describes the shared buffer independently of the command's loop (SpecFiles.session)"},
  {"property": "C38", "status": "proved", "theorems": ["backup_always_somewhere", "backup_after_success", "backup_clobbers_refuted"], "note": "for every fault schedule and every moment (w_seen lists all durable states); backup_clobbers_refuted for colliding names"},
  {"property": "C39", "status": "proved", "theorems": ["edit_file_moments", "edit_file_not_atomic", "atomic_edit_refuted", "in_place_moments"], "note": "atomic_edit_refuted is the counterexample to atomicity; edit_file_not_atomic shows that every prefix really occurs"},
  {"property": "C40", "status": "proved", "theorems": ["bad_flags_no_io", "no_script_no_io"], "note": ""},
  {"property": "C41", "status": "proved", "theorems": ["not_in_place_writes_output_only", "several_files_need_in_place", "result_on_stdout", "result_in_output_file"], "note": ""},
  {"property": "C42", "status": "proved", "theorems": ["loop_stops_at_first_failure", "loop_runs_forever", "rounds_edit_every_file", "loop_result", "loop_never_returns", "loop_returns_refuted", "loop_finishes_every_file_refuted", "tool_needs_arguments", "tool_report"], "note": "loop_result: each file has been through the script n-1 times, once more if that last time went well. loop_returns_refuted and loop_finishes_every_file_refuted are the two counterexamples. The round counter is modelled without wrap-around."},
  {"property": "C43", "status": "proved", "theorems": ["observing_does_not_change_the_result", "observer_sees_what_is_recorded", "trace_lists_successful_instructions", "modifying_callback_changes_result"], "note": ""},
  {"property": "C44", "status": "proved", "theorems": ["all_docs_is_sorted_registry", "all_docs_unique", "all_docs_order", "category_listing", "categories_listing", "verbose_listing_order_refuted", "tool_answer_determined", "command_answer_determined"], "note": "all_docs_unique makes the listing independent of the sorting algorithm too; verbose_listing_order_refuted is the counterexample"},
  {"property": "C45", "status": "proved", "theorems": ["test_passes", "empty_output_checked_refuted", "parenthesised_error_matches_anything"], "note": "XML decoding is not modelled; equality of values is C27; empty_output_checked_refuted is the counterexample"},
  {"property": "C46", "status": "proved", "theorems": ["environments_differ_only_in_called_names_expr", "environments_differ_only_in_called_names", "extended_environment_calls_the_new_function"], "note": ""},
  {"property": "C47", "status": "proved", "theorems": ["long_line_rejected", "line_limit_exact"], "note": "long_line_rejected for a long line in any position; line_limit_exact gives both sides of the limit"},
  {"property": "C48", "status": "proved", "theorems": ["eval_tool_buffer", "eval_tool_expression", "eval_tool_value_reads_back", "eval_tool_modes_agree", "eval_tool_errors"], "note": "the handler is a function without access to the file system; parsing of requests by the MCP library is not modelled"},
  {"property": "C49", "status": "proved", "theorems": ["reported_numbers_exact", "point_reported", "goto_char_point", "goto_char_ends", "region_substring_is_deleted"], "note": ""},
  {"property": "C50", "status": "proved", "theorems": ["register_and_look_up", "tool_finds_documented", "tool_suggests_similar", "tool_lists_category", "tool_name_or_category", "command_agrees_with_tool"], "note": ""},
  {"property": "C51", "status": "proved", "theorems": ["documentation_complete", "documentation_well_formed", "documented_signatures", "undocumented_arguments_rejected", "documented_arguments_accepted", "concat_documentation_refuted"], "note": "DocsData.v is a transcription of the 50 RegisterDocumentation calls; concat_documentation_refuted is the exception"},
  {"property": "C52", "status": "proved", "theorems": ["flag_value", "flag_value_lines", "every_value_has_lines", "flag_occurrences", "simple_expressions_arrive", "comma_splits", "later_lines_dropped", "literal_expression_refused", "documented_expressions_refuted", "quoted_expression_arrives"], "note": "the flag library (spf13/pflag StringSlice over encoding/csv) is modelled from its documented behaviour, its source is not part of the repository; documented_expressions_refuted is the counterexample to README.md:51"},
  {"property": "C53", "status": "proved", "theorems": ["search_and_replace", "search_and_replace_absent", "whole_text_replaced", "whole_text_replaced_refuted", "header_inserted", "comment_inserted", "lines_deleted", "comment_line_refuted", "semicolon_comment_refuted", "json_example_refuted", "help_example_refuted", "spec_example_refuted"], "note": "the _refuted theorems are documented examples that do not work"},
  {"property": "C54", "status": "proved", "theorems": ["test_name", "tests_exit_status", "tests_counted", "no_tests_succeed", "invalid_pattern_reported", "invalid_pattern_refuted"], "note": "XML decoding is a parameter; a failed read is reported like a failed open; without no_faults one direction remains (status 0 implies that all tests pass)"},
  {"property": "C55", "status": "proved", "theorems": ["tests_reported", "quiet_tests", "verbose_tests_refuted", "trace_printed", "trace_exact_refuted"], "note": "verbose_tests_refuted and trace_exact_refuted are the counterexamples"},
  {"property": "C56", "status": "proved", "theorems": ["parse_rejects_format", "parse_touches_no_file", "parse_bad_input", "script_numbers", "parse_to_sexp", "parse_to_sexp_readable_refuted", "parse_json_to_json", "json_array_reread", "parse_to_json", "sexp_json_sexp_refuted", "json_sexp_refuted", "shell_shell_refuted", "parse_all_or_nothing_refuted"], "note": "the _refuted theorems are conversions that do not keep the program; reading standard input is modelled as one read"},
  {"property": "C57", "status": "proved", "theorems": ["tool_page_complete", "command_page_complete", "tool_page_exact_refuted"], "note": "tool_page_exact_refuted: the page of the tool omits optional markers and example results"},
  {"property": "C58", "status": "proved", "theorems": ["tool_verbose_listing", "command_verbose_listing", "tool_short_listing", "command_short_listing", "all_registered_listed"], "note": "all_registered_listed applies it to the 50 registered functions"},
  {"property": "C59", "status": "proved", "theorems": ["no_foreign_bytes", "case_functions_add_bytes_refuted", "no_foreign_signs", "one_line_stays", "ascii_stays_ascii"], "note": "replaces_with_parts and case_tables are assumptions on the regexp engine and the Unicode tables; ref_parts, rx_parts and ref_cases prove them for the reference engines"},
  {"property": "C60", "status": "proved", "theorems": ["careful_programs_keep_characters", "other_commands_keep_characters_refuted", "stale_positions_keep_characters_refuted"], "note": "matches_characters assumes that matches begin and end between characters; by_characters_matches proves it for a family of engines; menu_ordered is the concrete case"},
  {"property": "C61", "status": "proved", "theorems": ["set_mark_marks_point", "exchange_swaps", "exchange_twice", "exchange_keeps_region", "mark_whole_buffer_selects", "whole_buffer_region", "everything_replaced", "everything_replaced_on_empty_refuted", "insert_undone", "deletions_are_undone", "delete_char_undone", "delete_region_undone", "kill_line_undone_refuted", "replacement_undone"], "note": "insert_undone needs the enlarged text to fit in memory; kill_line_undone_refuted and everything_replaced_on_empty_refuted are the failing cases"},
  {"property": "C62", "status": "proved", "theorems": ["json_script_grammar", "json_values_grammar", "json_script_rejected", "json_values_rejected", "json_script_one_meaning", "json_values_one_meaning", "json_body_one_meaning", "json_script_lists", "json_script_is_no_stream"], "note": "full equivalence with the independent grammar of SpecJson.v for arbitrary byte strings; grammar_script derives a concrete script in the grammar itself"},
  {"property": "C63", "status": "proved", "theorems": ["script_grammar", "script_rejected", "script_one_meaning", "word_one_meaning", "literal_one_meaning", "chars_exist", "chars_one", "script_lists", "sexp_grammar", "sexp_one_meaning"], "note": "full equivalence with the independent grammar of SpecLines.v for arbitrary byte strings; what a numeral denotes is the model of strconv.ParseFloat; script_derived reads a concrete script in the grammar itself; ParseSexp on text that is not well-formed UTF-8 is outside sexp_grammar"},
  {"property": "C64", "status": "proved", "theorems": ["tools_offered", "unknown_tools_refused", "plain_names_not_served", "flag_meaning", "server_edits", "server_evals", "server_documents", "bad_arguments_touch_nothing", "wrong_request_answer", "right_or_wrong", "only_edits_touch_files", "session_frame", "session_answers", "server_survives_refuted", "server_answers_refuted"], "note": "mcp-go v0.31.0 (registry, dispatch, argument helpers) is modelled from knowledge of the library; the JSON transport is not modelled; requests are taken to be answered one after the other; server_survives_refuted and server_answers_refuted show a request that ends the server and one that keeps it busy for ever"},
  {"property": "C65", "status": "proved", "theorems": ["disjoint_processes_independent", "other_files_untouched", "solo_run", "solo_terminates", "nobody_waits", "disjoint_edits", "results_true", "concurrent_results_true", "bytes_stay_good", "lost_update_refuted", "text_survives_refuted", "no_foreign_bytes_refuted"], "note": "how os.ReadFile and os.WriteFile split into system calls is modelled from knowledge of Go and POSIX (Concurrent.v); solo_run ties the small-step machine to the sequential model of Files.v; the three _refuted theorems are complete runs on a shared file"},
  {"property": "C66", "status": "proved", "theorems": ["replace_regexp_replaces", "replace_regexp_no_match", "replace_regexp_invalid", "replace_regexp_pure", "ref_engine_replaces", "dollar_engine_replaces", "replacement_verbatim_refuted"], "note": "The engine is a parameter; replaces_matches is the documented contract of ReplaceAllString for replacements without dollar signs, met by the literal engine (ref_engine_replaces) and by one that expands dollar names (dollar_engine_replaces). replacement_verbatim_refuted shows the effect of the expansion."},
  {"property": "C67", "status": "proved", "theorems": ["error_report", "report_determines_position", "script_error_reported", "buffer_mode_report", "execution_reported_only_when_executed_refuted", "expression_error_reported", "unknown_output_refused"], "note": "int_text is an independent description of decimal integers. execution_reported_only_when_executed_refuted: the buffer mode of the eval tool prefixes parse errors with 'script execution failed'."},
  {"property": "C68", "status": "proved", "theorems": ["numeral_nearest", "numeral_token", "integer_nearest", "rounding_unique", "same_value_same_number", "numeral_nearest_every_exponent_refuted"], "note": "strconv.ParseFloat is modelled in Strconv.v from knowledge of Go's source (exact decimal accumulation, then rounding); numeral, representable, nearest and rounds are stated over the rationals in SpecNumber.v. Hexadecimal numerals, underscores, Inf and NaN are outside [numeral]. numeral_nearest_every_exponent_refuted shows why the exponent is bounded."},
  {"property": "C69", "status": "proved", "theorems": ["integer_text", "fraction_shortest", "two_63_text", "special_text", "number_text_injective", "shortest_unique", "number_text_exact", "number_text_one", "number_text_same_everywhere_refuted"], "note": "The model finds the digits by search (Strconv.fmt_g_finite), not with Go's Ryu; fraction_shortest proves that the search always ends within 17 digits with the shortest and nearest decimal, so the fallback of the model is never used. shortest, g_layout (number_layout) and int_text are stated in SpecNumber.v over the rationals. shortest_unique: there is only one such text (ties go to the even digit, as in strconv's decimal.Round), and number_text_exact says exactly which text each float64 has."},
  {"property": "C70", "status": "proved", "theorems": ["list_methods", "list_made", "lists_never_change", "append_copies", "rest_shares", "rest_of_short_copies", "new_list_shares", "rest_is_new_refuted"], "note": "List objects are pointers to slices of shared arrays (Lists.v); elements are of any type. Nil receivers and failing allocations are not modelled. The refuted claim is that Rest returns storage of its own."},
  {"property": "C71", "status": "proved", "theorems": ["flag_tables", "command_line_grammar", "command_line_refused", "command_line_composes", "after_two_dashes", "value_spellings", "bool_spellings", "separate_off_refuted", "last_setting_counts", "every_edit_can_be_asked_for", "every_test_can_be_asked_for", "other_commands_can_be_asked_for", "default_options", "edit_exit_status", "refused_without_effect", "unknown_command_refused", "help_only_prints", "in_place_from_command_line", "without_in_place", "files_edited_in_place_refuted", "edit_options", "test_options", "parse_options", "doc_options", "mcp_options"], "note": "cobra and pflag are modelled as far as texted uses them; command lines that start with a flag or an empty argument, and cobra's own commands help and completion, are left out (the model says None). The words of refusals are C81. The refuted claims are the help text's 'If files are specified, the script is applied to each file in place', and that a separate word turns a flag off."},
  {"property": "C72", "status": "proved", "theorems": ["value_shown", "whole_number_shown", "failed_test_report", "one_complaint", "every_test_report", "tests_printed"], "note": "XML decoding is a parameter. Writing the relation down revealed a slip in the model (the number of expressions was computed from the wrong list), since corrected."},
  {"property": "C73", "status": "proved", "theorems": ["names_of_numbers", "word_nearest", "only_number_words", "number_words", "number_or_symbol", "symbol_word", "script_numbers"], "note": "strconv.ParseFloat is modelled in Strconv.v (Go standard library, transcribed from its documented algorithm, with exact arithmetic for the rounding); SpecWord.v gives the grammar independently. number_words is an equivalence for words of up to 2000 bytes; longer words with an exponent of six digits or more can be misread (numeral_nearest_every_exponent_refuted, C68)."},
  {"property": "C74", "status": "proved", "theorems": ["script_refused", "script_or_refused", "script_not_refused", "refusal_one", "refusals", "sexp_refused"], "note": "Both directions for every byte string, on top of the grammar of C63: SpecRefuse.v defines the first thing wrong with a text and the message for it; refused_derived derives one refusal inside it. The messages \"unexpected closing parenthesis\" and \"unexpected end of input\" in linebased.go are never reported by ParseString (refusals)."},
  {"property": "C75", "status": "proved", "theorems": ["edit_told", "quiet_prints_results_only", "one_verdict_per_file", "dry_run_promises_refuted", "output_format_noticed_late_refuted", "parse_told"], "note": "SpecEdit.v takes the operations of the operating system and the result of a script as given and describes a run as plans (lists of steps, each with the words put in front of its error); edit_told and parse_told hold in both directions for every set of flags, every fault schedule and every world. Printing progress with fmt.Printf is taken not to fail."},
  {"property": "C76", "status": "proved", "theorems": ["json_text_grammar", "json_text_one_meaning", "instruction_flaw", "instruction_fine", "flaw_or_fine", "json_script_told", "json_script_one_flaw", "json_script_or_flaw", "json_script_not_both", "json_stream_told", "json_stream_one_flaw", "json_stream_or_flaw", "same_arguments"], "note": "The words of encoding/json's own syntax errors are not modelled (one constant text), nor the contents of objects, which the code prints after the type in one message of the stream reader."},
  {"property": "C77", "status": "proved", "theorems": ["tool_answers_told", "command_answers_told"], "note": "strings.Title, used for the category headings of texted doc --verbose, is an arbitrary function. The command prints piecemeal; the model prints the whole text at once."},
  {"property": "C78", "status": "proved", "theorems": ["manual_exact", "manual_one_outcome", "manual_complete", "machine_begins", "machine_kept"], "note": "SpecManual.v is the manual, an inductive relation with one or more constructors per command, written in terms of splittings of the text, exact integers and 64-bit carries. manual_exact: a call has an outcome if and only if the manual gives it. The only hypotheses are that positions are 64-bit integers, that texts are below the allocation limit (both kept by every call, machine_kept) and ext_ok (what is assumed of the regexp library's results)."},
  {"property": "C79", "status": "proved", "theorems": ["quoted_exact", "meaning_exact", "meaning_one", "program_exact", "script_texts", "written_exact", "script_exact", "tool_value_exact", "json_script_texts", "json_script_exact"], "note": "SpecMeaning.v: means (expressions, over the manual of C78), sequence/plays (programs), edited/valued (scripts, over the grammars of C63/C62 and the refusals of C74/C76), quoted (Go's %q) and written (notation of values; numbers by number_shown of C69). meaning_exact, program_exact, script_exact, json_script_exact and tool_value_exact are equivalences. Hypotheses: ext_ok, the input is below the allocation limit, and for JSON scripts three times the script is."},
  {"property": "C80", "status": "proved", "theorems": ["json_string_exact", "json_number_exact", "json_value_text", "write_value_exact", "write_value_one", "write_program_exact", "parse_command_exact"], "note": "SpecWrite.v: writes (one value), prints (a program), converts (texted parse), over json_quoted, json_shown (shortest_in json_layout of SpecNumber.v), json_written/no_json and written of C79; the input side is the grammars of C62/C63 and the refusals of C74/C76. All theorems are equivalences. float64s: every number of the value is a float64, which holds for whatever a script or an evaluation yields (C56 script_numbers, C79). The io.Writer is taken not to fail; parse_command_exact assumes standard input can be read."},
  {"property": "C81", "status": "proved", "theorems": ["list_value_refused", "list_value_decided", "flag_refused", "command_line_complaint", "command_line_decided", "complaint_reported"], "note": "SpecUsage.v: args_flaw (a whole command line), letters_flaw (letters after one dash), unsuited (a value for a flag), unreadable (a value of a list flag, with its place), letter_shown. command_line_complaint and flag_refused are equivalences; command_line_decided says that every command line is either accepted (says of C71) or has exactly one complaint. The words are those of pflag v1.0.6, strconv and encoding/csv, whose sources are not in /repo and were modelled from knowledge of them. What cobra prints besides the error (usage text) is left out."},
  {"property": "C82", "status": "proved", "theorems": ["reported_exact", "test_exact", "trace_exact", "tests_exact"], "note": "SpecTrial.v: tests_run (a run of the command), trials, file_trial, trial (one test), judged and excused (the complaint), trace_of (the trace), reported (values in reports). All four theorems are equivalences. Decoding XML (encoding/xml) is a parameter, assumed only to make texts that fit into memory and are UTF-8 (decodes_texts, demo_sound shows one); the names the shell or filepath.Glob found are a parameter too. Reading files is the model of the operating system with its fault oracle (C51). The rules use the meaning of scripts of C79 and the grammars of C62, C63 and C67."},
  {"property": "C83", "status": "proved", "theorems": ["edit_exact", "parse_exact", "texted_exact"], "note": "SpecProgram.v: texted_does (the program), edit_does and parse_does (two commands), over the relations of C62, C63, C67, C71, C74, C76-C82. All three theorems are equivalences; parse_exact has no hypotheses. ext_ok is the contract of the regular expression library and of quoting, decodes_texts the one of the XML decoder (C82), room_for says that a JSON script fits three times into memory, for_texted leaves out arguments handled by the command line library itself (help, completion, flags before the command). Help texts, the MCP server and title-casing are parameters (outer)."},
  {"property": "C84", "status": "proved", "theorems": ["edit_file_exact", "edit_file_format_exact", "edit_files_exact", "edit_files_format_exact", "call_exact", "call_hangs_exact", "session_exact"], "note": "SpecService.v: file_edited and files_edited (texted.go), edited_all and endless (edit_file with loopUntilError), edit_reported (the report), evaluated (texted_eval), call_does and call_hangs (one request), session_does (a session). All theorems are equivalences. A request is a tool name with decoded JSON arguments; the transport and the dispatch of mcp-go are modelled from knowledge of that library (C64). Requests are served one after the other. sized says that the input argument fits into memory, the premise about JSON that a script fits three times."},
  {"property": "C85", "status": "proved", "theorems": ["call_growth", "only_four_lengthen", "written_is_given", "program_growth", "frugal_growth", "program_has_room", "doubling", "short_scripts_fit_refuted", "script_literals", "script_growth", "script_has_room"], "note": "SpecGrowth.v: bytes_of, amount (literals of an expression), multiplier, factor, limit, frugal. The bounds come from the manual (C78) and the meaning of programs (C79); replace-regexp-in-string is left out because its result is made by the regexp engine. doubling shows that the bound is reached. short_scripts_fit_refuted is the witness that a short program without texts in it can need any amount of memory."},
  {"property": "C86", "status": "proved", "theorems": ["replacement_exact", "loop_replaces", "loop_outcomes", "shorter_ends", "apart_replaces_everywhere", "containing_never_ends", "empty_search_ends", "loop_is_one_pass_refuted"], "note": "SpecEvery.v: absent, first_at, replaced_once, replaced_times (from the beginning each time), replaced_everywhere (one pass, strings.ReplaceAll). The file system has no faults and the request names one file; with several files the loop ends at the first file that fails (C42). loop_is_one_pass_refuted is the witness that looping can do more than one pass."},
  {"property": "C87", "status": "proved", "theorems": ["check_computes", "checked_one", "checked_value", "checked_error", "program_error", "script_error", "certain_never_fails", "certain_script_never_fails", "certain_loop_no_report", "unchecked_never_finishes", "unchecked_program_never_finishes", "unchecked_never_finishes_refuted", "checked_never_crashes_refuted", "examples_in_order", "broken_examples_fail"], "note": "SpecKinds.v: checked (kinds of expressions from the documented signatures), in_order, certain, plain. checked_never_crashes_refuted and unchecked_never_finishes_refuted show what the check does not cover; examples_in_order and broken_examples_fail are about the registered documentation (DocsData.v)."},
  {"property": "C88", "status": "proved", "theorems": ["reliable_program", "reliable_script", "reliable_succeeds", "reliable_frugal_succeeds", "reliable_files", "reliable_tool", "reliable_always_succeeds_refuted"], "note": "SpecSure.v: reliable joins in_order and certain (C87), harmless (C09) and bounded (C85). The file system has no faults in reliable_files and reliable_tool. reliable_always_succeeds_refuted is the witness that memory must be assumed."},
  {"property": "C89", "status": "proved", "theorems": ["replace_anywhere", "same_output", "moving_before_placing", "looking_is_idle", "forward_adds_up", "backward_adds_up", "backward_is_forward", "exchange_exchange", "marking_marking", "marking_either_way", "select_all_forgets", "insert_insert", "insert_nothing", "replacing_is_deleting_inserting", "delete_adds_up", "there_and_back_refuted", "replacing_nothing_refuted", "insert_insert_refuted"], "note": "SpecRewrite.v: alike compares two runs by their ending, buffer and message; the value and the instruction blamed may differ. Steps and deletions add up for counts of at most 2^62 in sum, because larger ones overflow. there_and_back_refuted, replacing_nothing_refuted and insert_insert_refuted are the witnesses that the conditions are needed."},
  {"property": "C90", "status": "proved", "theorems": ["programs_joined", "first_decides", "joined_script_program", "scripts_joined", "scripts_joined_result", "file_edited_once", "just_appending_refuted", "joined_may_do_more_refuted"], "note": "SpecJoin.v: linked states differ at most in the last match; follows compares the two runs. just_appending_refuted and joined_may_do_more_refuted are the witnesses that the line between and the exception are needed."},
  {"property": "C91", "status": "proved", "theorems": ["library_matters", "library_matters_script", "library_free", "regexps_do_not_matter_refuted", "case_does_not_matter_refuted", "numbers_do_not_matter_refuted", "printing_does_not_matter_refuted"], "note": "SpecLibrary.v: patterned, cased and counted list the commands; enough says that two libraries agree on what a program needs. The library is the Ext record of Ext.v. The four _refuted theorems are programs to which one part of the library matters while the others agree."},
  {"property": "C92", "status": "proved", "theorems": ["files_in_any_order", "files_in_any_order_fmt", "files_in_two_calls", "files_in_two_calls_fmt", "any_order_with_faults_refuted", "any_order_with_aliases_refuted"], "note": "Stated with the vocabulary of SpecFiles.v (no_faults, same) and Permutation of the standard library. Different files means different after resolving names (canon). The two _refuted theorems show that a disk that does not fail and different files are both needed. files_in_two_calls needs neither."}
]}
