{
 "claims": [
  {
   "property": "C01",
   "status": "proved",
   "theorems": [
    "C01_lookup_is_last_accepted_store",
    "C01_store_affects_only_its_key",
    "C01_accepted_store_is_found"
   ],
   "note": ""
  },
  {
   "property": "C02",
   "status": "proved",
   "theorems": [
    "C02_when_a_store_is_refused",
    "C02_refused_store_changes_nothing"
   ],
   "note": ""
  },
  {
   "property": "C03",
   "status": "proved",
   "theorems": [
    "C03_resize_preserves",
    "C03_resize_never_alters",
    "C03_keys_exist"
   ],
   "note": ""
  },
  {
   "property": "C04",
   "status": "proved",
   "theorems": [
    "C04_maximum_bounds_texts",
    "C04_maximum_exact_after_resize"
   ],
   "note": ""
  },
  {
   "property": "C05",
   "status": "proved",
   "theorems": [
    "C05_safe_character_by_character",
    "C05_safe_of_concatenation"
   ],
   "note": ""
  },
  {
   "property": "C06",
   "status": "proved",
   "theorems": [
    "C06_builtin_safe",
    "C06_idempotent",
    "C06_what_changes"
   ],
   "note": ""
  },
  {
   "property": "C07",
   "status": "proved",
   "theorems": [
    "C07_inside_the_buffer",
    "C07_exactly_when_it_overruns",
    "C07_builtin_tables_are_roomy",
    "C07_overruns_refuted"
   ],
   "note": ""
  },
  {
   "property": "C08",
   "status": "proved",
   "theorems": [
    "C08_iso8859_1_transcodes"
   ],
   "note": ""
  },
  {
   "property": "C09",
   "status": "proved",
   "theorems": [
    "C09_cp1252_stage",
    "C09_legacy_chain_exactness",
    "C09_which_bytes"
   ],
   "note": ""
  },
  {
   "property": "C10",
   "status": "proved",
   "theorems": [
    "C10_utf8_decoding",
    "C10_reading_is_unique"
   ],
   "note": ""
  },
  {
   "property": "C11",
   "status": "proved",
   "theorems": [
    "C11_utf8_buffer_exact",
    "C11_overlong_nul_sequences",
    "C11_overrun_refuted"
   ],
   "note": ""
  },
  {
   "property": "C12",
   "status": "proved",
   "theorems": [
    "C12_clean_text_unchanged",
    "C12_replacement_list",
    "C12_output_well_formed_and_stable",
    "C12_strict_validity_refuted"
   ],
   "note": ""
  },
  {
   "property": "C13",
   "status": "proved",
   "theorems": [
    "C13_uncgi_inverts",
    "C13_uncgi_reads",
    "C13_every_name_has_a_reading",
    "C13_plain_text_unchanged",
    "C13_never_longer",
    "C13_escaped_nul_cuts"
   ],
   "note": ""
  },
  {
   "property": "C14",
   "status": "proved",
   "theorems": [
    "C14_wipeup",
    "C14_wiped_is_unique"
   ],
   "note": ""
  },
  {
   "property": "C15",
   "status": "proved",
   "theorems": [
    "C15_max_length",
    "C15_kept_extension_is_unique"
   ],
   "note": ""
  },
  {
   "property": "C16",
   "status": "proved",
   "theorems": [
    "C16_lower",
    "C16_lower_in_any_agreeing_locale",
    "C16_lower_idempotent"
   ],
   "note": ""
  },
  {
   "property": "C17",
   "status": "proved",
   "theorems": [
    "C17_sequence_is_composition",
    "C17_concatenation",
    "C17_never_no_result",
    "C17_what_a_filter_does"
   ],
   "note": ""
  },
  {
   "property": "C18",
   "status": "proved",
   "theorems": [
    "C18_portable",
    "C18_total",
    "C18_idempotent",
    "C18_iso8859_1_and_uncgi_idempotent_refuted"
   ],
   "note": ""
  },
  {
   "property": "C19",
   "status": "proved",
   "theorems": [
    "C19_no_slash_introduced",
    "C19_safe_removes_slashes",
    "C19_only_sequences_refuted"
   ],
   "note": ""
  },
  {
   "property": "C20",
   "status": "proved",
   "theorems": [
    "C20_dry_run_issues_no_rename",
    "C20_dry_run_keeps_the_tree"
   ],
   "note": ""
  },
  {
   "property": "C21",
   "status": "proved",
   "theorems": [
    "C21_nothing_lost",
    "C21_rename_only_to_free_name"
   ],
   "note": ""
  },
  {
   "property": "C22",
   "status": "proved",
   "theorems": [
    "C22_check_is_not_atomic"
   ],
   "note": ""
  },
  {
   "property": "C23",
   "status": "proved",
   "theorems": [
    "C23_only_last_component",
    "C23_stays_in_directory",
    "C23_slash_moves_file_refuted"
   ],
   "note": ""
  },
  {
   "property": "C24",
   "status": "proved",
   "theorems": [
    "C24_returned_path",
    "C24_path_through_itself_refuted"
   ],
   "note": ""
  },
  {
   "property": "C25",
   "status": "proved",
   "theorems": [
    "C25_hidden_entries_skipped",
    "C25_file_system_is_honest"
   ],
   "note": ""
  },
  {
   "property": "C26",
   "status": "proved",
   "theorems": [
    "C26_check",
    "C26_ignored_unless_after_ignored",
    "C26_always_ignored_refuted"
   ],
   "note": ""
  },
  {
   "property": "C27",
   "status": "proved",
   "theorems": [
    "C27_kinds",
    "C27_only_directories_entered",
    "C27_no_recursion",
    "C27_within_arguments"
   ],
   "note": ""
  },
  {
   "property": "C28",
   "status": "proved",
   "theorems": [
    "C28_announced",
    "C28_dry_run_announces_what_a_run_attempts",
    "C28_dry_run_of_directory_refuted"
   ],
   "note": ""
  },
  {
   "property": "C29",
   "status": "proved",
   "theorems": [
    "C29_second_time_nothing",
    "C29_shipped"
   ],
   "note": ""
  },
  {
   "property": "C30",
   "status": "proved",
   "theorems": [
    "C30_line_by_line"
   ],
   "note": ""
  },
  {
   "property": "C31",
   "status": "proved",
   "theorems": [
    "C31_no_character_is_split",
    "C31_whole_lines"
   ],
   "note": ""
  },
  {
   "property": "C32",
   "status": "proved",
   "theorems": [
    "C32_reading_a_piece",
    "C32_how_inline_mode_stops",
    "C32_bad_line"
   ],
   "note": ""
  },
  {
   "property": "C33",
   "status": "proved",
   "theorems": [
    "C33_puts",
    "C33_gets",
    "C33_count_and_reset"
   ],
   "note": ""
  },
  {
   "property": "C34",
   "status": "proved",
   "theorems": [
    "C34_last_definition_wins",
    "C34_one_more_file"
   ],
   "note": ""
  },
  {
   "property": "C35",
   "status": "proved",
   "theorems": [
    "C35_layout_is_free",
    "C35_everything_can_be_written",
    "C35_one_meaning"
   ],
   "note": ""
  },
  {
   "property": "C36",
   "status": "proved",
   "theorems": [
    "C36_every_text",
    "C36_syntax_error_exits",
    "C36_error_in_a_series",
    "C36_nothing_happens_before"
   ],
   "note": ""
  },
  {
   "property": "C37",
   "status": "proved",
   "theorems": [
    "C37_builtin_is_detoxrc"
   ],
   "note": ""
  },
  {
   "property": "C38",
   "status": "proved",
   "theorems": [
    "C38_which_files",
    "C38_builtin_without_files",
    "C38_what_is_in_force",
    "C38_explicit_file",
    "C38_explicit_file_missing",
    "C38_explicit_file_read"
   ],
   "note": ""
  },
  {
   "property": "C39",
   "status": "proved",
   "theorems": [
    "C39_sequence_that_cleans",
    "C39_choice_by_name",
    "C39_unknown_name",
    "C39_choice_without_name"
   ],
   "note": ""
  },
  {
   "property": "C40",
   "status": "proved",
   "theorems": [
    "C40_no_table_needed",
    "C40_builtin_wins",
    "C40_explicit_file",
    "C40_search",
    "C40_tables_of_a_sequence",
    "C40_missing_table_exits"
   ],
   "note": ""
  },
  {
   "property": "C41",
   "status": "proved",
   "theorems": [
    "C41_file_means_what_it_says",
    "C41_parsed_tables_are_tables",
    "C41_texts_are_strings"
   ],
   "note": ""
  },
  {
   "property": "C42",
   "status": "proved",
   "theorems": [
    "C42_when_a_file_is_rejected",
    "C42_long_lines_fit",
    "C42_short_lines_refuted"
   ],
   "note": ""
  },
  {
   "property": "C43",
   "status": "proved",
   "theorems": [
    "C43_empty_default",
    "C43_empty_default_refuted"
   ],
   "note": ""
  },
  {
   "property": "C44",
   "status": "proved",
   "theorems": [
    "C44_language_blocks"
   ],
   "note": ""
  },
  {
   "property": "C45",
   "status": "proved",
   "theorems": [
    "C45_shipped_tables",
    "C45_shipped_tables_refuted"
   ],
   "note": ""
  },
  {
   "property": "C46",
   "status": "proved",
   "theorems": [
    "C46_parsing_is_safe"
   ],
   "note": ""
  },
  {
   "property": "C47",
   "status": "proved",
   "theorems": [
    "C47_every_command_line",
    "C47_wishes_are_granted",
    "C47_parting_wishes",
    "C47_mistakes"
   ],
   "note": ""
  },
  {
   "property": "C48",
   "status": "proved",
   "theorems": [
    "C48_what_a_rename_needs",
    "C48_inline_reads_and_prints",
    "C48_mistakes_only_print"
   ],
   "note": ""
  },
  {
   "property": "C49",
   "status": "proved",
   "theorems": [
    "C49_escaping",
    "C49_plain_text",
    "C49_buffer",
    "C49_generated_code",
    "C49_defined",
    "C49_one_meaning",
    "C49_loader_size"
   ],
   "note": ""
  },
  {
   "property": "C50",
   "status": "proved",
   "theorems": [
    "C50_lstat_error_overwrites"
   ],
   "note": ""
  },
  {
   "property": "C51",
   "status": "proved",
   "theorems": [
    "C51_empty_clean_name"
   ],
   "note": ""
  },
  {
   "property": "C52",
   "status": "proved",
   "theorems": [
    "C52_every_byte_is_processed_once",
    "C52_identity_copies"
   ],
   "note": ""
  },
  {
   "property": "C53",
   "status": "proved",
   "theorems": [
    "C53_long_comments_refuted"
   ],
   "note": ""
  },
  {
   "property": "C54",
   "status": "proved",
   "theorems": [
    "C54_nul_in_string_refuted",
    "C54_every_nul_in_a_string",
    "C54_safe_without_nul"
   ],
   "note": ""
  },
  {
   "property": "C55",
   "status": "proved",
   "theorems": [
    "C55_noise_is_skipped",
    "C55_rejection_refuted"
   ],
   "note": ""
  },
  {
   "property": "C56",
   "status": "proved",
   "theorems": [
    "C56_list",
    "C56_nothing_marked_nothing_used"
   ],
   "note": ""
  },
  {
   "property": "C57",
   "status": "proved",
   "theorems": [
    "C57_portable_out_of_the_box"
   ],
   "note": ""
  },
  {
   "property": "C58",
   "status": "proved",
   "theorems": [
    "C58_program_loses_nothing",
    "C58_program_renames_to_free_names",
    "C58_program_announces"
   ],
   "note": ""
  },
  {
   "property": "C59",
   "status": "proved",
   "theorems": [
    "C59_success_at_the_end",
    "C59_failures_are_reported_refuted"
   ],
   "note": ""
  },
  {
   "property": "C60",
   "status": "proved",
   "theorems": [
    "C60_shipped_source"
   ],
   "note": ""
  },
  {
   "property": "C61",
   "status": "proved",
   "theorems": [
    "C61_default_refuted",
    "C61_rejected_file_refuted",
    "C61_largest_code_refuted",
    "C61_newline_refuted",
    "C61_word_replaced_refuted"
   ],
   "note": ""
  },
  {
   "property": "C62",
   "status": "proved",
   "theorems": [
    "C62_longest_match",
    "C62_tokens"
   ],
   "note": ""
  },
  {
   "property": "C63",
   "status": "proved",
   "theorems": [
    "C63_every_text",
    "C63_same_as_model"
   ],
   "note": ""
  },
  {
   "property": "C64",
   "status": "proved",
   "theorems": [
    "C64_arrival",
    "C64_series"
   ],
   "note": ""
  },
  {
   "property": "C65",
   "status": "proved",
   "theorems": [
    "C65_one_file",
    "C65_work",
    "C65_program",
    "C65_bound_is_not_reached",
    "C65_bound_does_not_matter"
   ],
   "note": ""
  },
  {
   "property": "C66",
   "status": "proved",
   "theorems": [
    "C66_innermost_directory",
    "C66_all_closed"
   ],
   "note": ""
  },
  {
   "property": "C67",
   "status": "proved",
   "theorems": [
    "C67_what_is_asked_and_said",
    "C67_silence"
   ],
   "note": ""
  },
  {
   "property": "C68",
   "status": "proved",
   "theorems": [
    "C68_nothing_is_left_out"
   ],
   "note": ""
  },
  {
   "property": "C69",
   "status": "proved",
   "theorems": [
    "C69_what_ends_the_work",
    "C69_out_of_the_box"
   ],
   "note": ""
  },
  {
   "property": "C70",
   "status": "proved",
   "theorems": [
    "C70_lines",
    "C70_one_way",
    "C70_table"
   ],
   "note": ""
  },
  {
   "property": "C71",
   "status": "proved",
   "theorems": [
    "C71_any_input",
    "C71_recoverable"
   ],
   "note": ""
  },
  {
   "property": "C72",
   "status": "proved",
   "theorems": [
    "C72_string_literal",
    "C72_runs_on_refuted",
    "C72_c1_refuted"
   ],
   "note": ""
  },
  {
   "property": "C73",
   "status": "proved",
   "theorems": [
    "C73_embedded_table"
   ],
   "note": ""
  },
  {
   "property": "C74",
   "status": "proved",
   "theorems": [
    "C74_every_stream",
    "C74_one_stream",
    "C74_arguments",
    "C74_program",
    "C74_out_of_the_box"
   ],
   "note": ""
  },
  {
   "property": "C75",
   "status": "proved",
   "theorems": [
    "C75_every_line",
    "C75_documented_lines",
    "C75_every_file"
   ],
   "note": ""
  },
  {
   "property": "C76",
   "status": "proved",
   "theorems": [
    "C76_exactly_this_is_reported"
   ],
   "note": ""
  },
  {
   "property": "C77",
   "status": "proved",
   "theorems": [
    "C77_check_agrees_with_loader",
    "C77_no_warning_no_overrun",
    "C77_second_look"
   ],
   "note": ""
  },
  {
   "property": "C78",
   "status": "proved",
   "theorems": [
    "C78_rejected_files_are_handled_refuted",
    "C78_how_it_ends"
   ],
   "note": ""
  },
  {
   "property": "C79",
   "status": "proved",
   "theorems": [
    "C79_everything_in_order",
    "C79_shipped"
   ],
   "note": ""
  },
  {
   "property": "C80",
   "status": "proved",
   "theorems": [
    "C80_twice_is_once",
    "C80_order_is_kept",
    "C80_with_listed_names_refuted"
   ],
   "note": ""
  },
  {
   "property": "C81",
   "status": "proved",
   "theorems": [
    "C81_messages",
    "C81_last_words",
    "C81_file",
    "C81_line",
    "C81_shipped_silent",
    "C81_valid_silent",
    "C81_silent_afterwards"
   ],
   "note": ""
  },
  {
   "property": "C82",
   "status": "proved",
   "theorems": [
    "C82_every_start",
    "C82_giving_up",
    "C82_setting_to_work",
    "C82_line_number",
    "C82_line_after_earlier_file_refuted",
    "C82_line_after_open_string_refuted"
   ],
   "note": ""
  },
  {
   "property": "C83",
   "status": "proved",
   "theorems": [
    "C83_filters_in_memory",
    "C83_sequences_in_memory"
   ],
   "note": ""
  },
  {
   "property": "C84",
   "status": "proved",
   "theorems": [
    "C84_program_in_memory",
    "C84_program_on_lists",
    "C84_memory_errors"
   ],
   "note": ""
  },
  {
   "property": "C85",
   "status": "proved",
   "theorems": [
    "C85_file",
    "C85_directory",
    "C85_stream",
    "C85_program",
    "C85_nothing_lost_refuted"
   ],
   "note": ""
  },
  {
   "property": "C86",
   "status": "proved",
   "theorems": [
    "C86_messages",
    "C86_line_number",
    "C86_same_as_model"
   ],
   "note": ""
  },
  {
   "property": "C87",
   "status": "proved",
   "theorems": [
    "C87_fall_through",
    "C87_as_one_table",
    "C87_default_ends_chain",
    "C87_fall_through_utf_8"
   ],
   "note": ""
  },
  {
   "property": "C88",
   "status": "proved",
   "theorems": [
    "C88_init",
    "C88_get",
    "C88_put",
    "C88_resize",
    "C88_free",
    "C88_builtin_and_null",
    "C88_life",
    "C88_lost",
    "C88_freed",
    "C88_new_members",
    "C88_everything_returned_refuted",
    "C88_too_many_lookups",
    "C88_any_number_of_lookups_refuted"
   ],
   "note": ""
  },
  {
   "property": "C89",
   "status": "proved",
   "theorems": [
    "C89_init",
    "C89_get",
    "C89_put",
    "C89_free",
    "C89_null",
    "C89_life",
    "C89_freed",
    "C89_too_many_files"
   ],
   "note": ""
  },
  {
   "property": "C90",
   "status": "proved",
   "theorems": [
    "C90_load",
    "C90_enough_memory",
    "C90_every_file",
    "C90_load_and_free",
    "C90_everything_returned_refuted",
    "C90_denied"
   ],
   "note": ""
  },
  {
   "property": "C91",
   "status": "proved",
   "theorems": [
    "C91_parse_config_file",
    "C91_accepted",
    "C91_enough",
    "C91_starved",
    "C91_name_kept_refuted"
   ],
   "note": ""
  },
  {
   "property": "C92",
   "status": "proved",
   "theorems": [
    "C92_config_file_load",
    "C92_named",
    "C92_accepted",
    "C92_built_in",
    "C92_enough",
    "C92_named_enough"
   ],
   "note": ""
  },
  {
   "property": "C93",
   "status": "proved",
   "theorems": [
    "C93_choose",
    "C93_review",
    "C93_prepare",
    "C93_prepare_named",
    "C93_known_kinds",
    "C93_statics"
   ],
   "note": ""
  },
  {
   "property": "C94",
   "status": "proved",
   "theorems": [
    "C94_run",
    "C94_names",
    "C94_null",
    "C94_unknown",
    "C94_null_filter",
    "C94_clean",
    "C94_clean_named"
   ],
   "note": ""
  },
  {
   "property": "C95",
   "status": "proved",
   "theorems": [
    "C95_work",
    "C95_work_on_lists",
    "C95_left",
    "C95_is_main"
   ],
   "note": ""
  },
  {
   "property": "C96",
   "status": "proved",
   "theorems": [
    "C96_options",
    "C96_enough_memory"
   ],
   "note": ""
  },
  {
   "property": "C97",
   "status": "proved",
   "theorems": [
    "C97_listing",
    "C97_defined",
    "C97_mark"
   ],
   "note": ""
  },
  {
   "property": "C98",
   "status": "proved",
   "theorems": [
    "C98_whole",
    "C98_on_lists",
    "C98_left",
    "C98_memory_errors"
   ],
   "note": ""
  },
  {
   "property": "C99",
   "status": "proved",
   "theorems": [
    "C99_check_table_in_memory",
    "C99_memory_errors",
    "C99_enough",
    "C99_all_is_freed_refuted"
   ],
   "note": ""
  },
  {
   "property": "C100",
   "status": "proved",
   "theorems": [
    "C100_generator_in_memory",
    "C100_text",
    "C100_memory_errors",
    "C100_enough",
    "C100_all_is_freed_refuted"
   ],
   "note": ""
  },
  {
   "property": "C101",
   "status": "proved",
   "theorems": [
    "C101_table",
    "C101_runs",
    "C101_on_lists",
    "C101_left",
    "C101_any_input"
   ],
   "note": ""
  },
  {
   "property": "C102",
   "status": "proved",
   "theorems": [
    "C102_in_order",
    "C102_twice_is_once",
    "C102_order_is_kept",
    "C102_any_arguments_refuted"
   ],
   "note": ""
  },
  {
   "property": "C103",
   "status": "proved",
   "theorems": [
    "C103_any_sequence",
    "C103_shipped",
    "C103_attained",
    "C103_renames"
   ],
   "note": ""
  },
  {
   "property": "C104",
   "status": "proved",
   "theorems": [
    "C104_tidies_out_of_the_box",
    "C104_again"
   ],
   "note": ""
  },
  {
   "property": "C105",
   "status": "proved",
   "theorems": [
    "C105_what_is_announced",
    "C105_silent_iff_nothing_to_do",
    "C105_each_comes_true_refuted"
   ],
   "note": ""
  }
 ]
}