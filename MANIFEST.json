{
 "claims": [
  {
   "property": "C01",
   "status": "proved",
   "theorems": [
    "path_int_roundtrip_iff",
    "path_int_readback_exact",
    "path_int_roundtrip_refuted"
   ],
   "note": ""
  },
  {
   "property": "C02",
   "status": "proved",
   "theorems": [
    "put_path_int_shape_all",
    "put_path_int_collision_iff"
   ],
   "note": "exact collision classes"
  },
  {
   "property": "C03",
   "status": "proved",
   "theorems": [
    "put_int_debug_range",
    "put_int_release_range",
    "get_int_put_int"
   ],
   "note": ""
  },
  {
   "property": "C04",
   "status": "proved",
   "theorems": [
    "get_int_big_endian"
   ],
   "note": ""
  },
  {
   "property": "C05",
   "status": "proved",
   "theorems": [
    "text_decrypt_encrypt",
    "text_encrypt_shape",
    "text_decrypt_total"
   ],
   "note": ""
  },
  {
   "property": "C06",
   "status": "proved",
   "theorems": [
    "sortform_roundtrip",
    "sortform_roundtrip_any",
    "sortform_unterminated"
   ],
   "note": ""
  },
  {
   "property": "C07",
   "status": "proved",
   "theorems": [
    "sortform_unsupported",
    "sortform_shape",
    "sortform_collision_iff"
   ],
   "note": ""
  },
  {
   "property": "C08",
   "status": "proved",
   "theorems": [
    "chunk_progress_iff",
    "chunk_progress_refuted"
   ],
   "note": ""
  },
  {
   "property": "C09",
   "status": "proved",
   "theorems": [
    "chunk_payload_inside",
    "chunk_position_outside_refuted"
   ],
   "note": ""
  },
  {
   "property": "C10",
   "status": "proved",
   "theorems": [
    "chunk_path_effect",
    "chunk_single_step_refuted"
   ],
   "note": ""
  },
  {
   "property": "C11",
   "status": "proved",
   "theorems": [
    "chunk_local",
    "chunk_local_refuted"
   ],
   "note": ""
  },
  {
   "property": "C12",
   "status": "proved",
   "theorems": [
    "chunk_reader_table",
    "chunk_unknown_opcode"
   ],
   "note": "needs a buffer of at least two bytes, see C11"
  },
  {
   "property": "C13",
   "status": "proved",
   "theorems": [
    "simple_kv_roundtrip"
   ],
   "note": ""
  },
  {
   "property": "C14",
   "status": "proved",
   "theorems": [
    "wide_kv_roundtrip",
    "long_kv_roundtrip",
    "trailing_data_roundtrip",
    "push_roundtrip",
    "pop_roundtrip",
    "noop_roundtrip"
   ],
   "note": ""
  },
  {
   "property": "C15",
   "status": "proved",
   "theorems": [
    "assembled_image",
    "assembled_size_and_chain"
   ],
   "note": ""
  },
  {
   "property": "C16",
   "status": "proved",
   "theorems": [
    "assembled_directories_balance"
   ],
   "note": ""
  },
  {
   "property": "C17",
   "status": "proved",
   "theorems": [
    "decompiled_assembly_is_empty",
    "decompile_assemble_refuted"
   ],
   "note": ""
  },
  {
   "property": "C18",
   "status": "proved",
   "theorems": [
    "result_needs_chain_end",
    "cyclic_chain_gives_no_result",
    "chain_end_terminates",
    "chain_end_terminates_refuted"
   ],
   "note": ""
  },
  {
   "property": "C19",
   "status": "proved",
   "theorems": [
    "sector_header_decoded",
    "sector_header_short",
    "sector_payload_bounded_refuted"
   ],
   "note": ""
  },
  {
   "property": "C20",
   "status": "proved",
   "theorems": [
    "script_order_irrelevant",
    "segments_independent_of_arrival",
    "script_steps_recovered"
   ],
   "note": ""
  },
  {
   "property": "C21",
   "status": "proved",
   "theorems": [
    "step_decoded",
    "step_number_of_result",
    "opcode_255_aborts"
   ],
   "note": ""
  },
  {
   "property": "C22",
   "status": "proved",
   "theorems": [
    "calculation_rendered",
    "truncated_calculation_aborts",
    "calculation_text_refuted",
    "calculation_exact"
   ],
   "note": ""
  },
  {
   "property": "C23",
   "status": "proved",
   "theorems": [
    "stored_schema_recovered",
    "value_lists_never_recovered",
    "large_table_ids_refuted",
    "fields_before_tables_refuted"
   ],
   "note": ""
  },
  {
   "property": "C24",
   "status": "proved",
   "theorems": [
    "location_exact",
    "location_without_marker"
   ],
   "note": ""
  },
  {
   "property": "C25",
   "status": "proved",
   "theorems": [
    "neighbours_are_insertions",
    "relation_graph_symmetric"
   ],
   "note": ""
  },
  {
   "property": "C26",
   "status": "proved",
   "theorems": [
    "path_is_shortest",
    "path_found_when_it_exists",
    "path_takes_first_neighbours"
   ],
   "note": ""
  },
  {
   "property": "C27",
   "status": "proved",
   "theorems": [
    "path_to_itself"
   ],
   "note": ""
  },
  {
   "property": "C28",
   "status": "proved",
   "theorems": [
    "tables_stay_rectangular"
   ],
   "note": ""
  },
  {
   "property": "C29",
   "status": "proved",
   "theorems": [
    "found_sets_name_records",
    "cleared_found_sets_refuted"
   ],
   "note": ""
  },
  {
   "property": "C30",
   "status": "proved",
   "theorems": [
    "create_record_exact",
    "create_record_aborts"
   ],
   "note": ""
  },
  {
   "property": "C31",
   "status": "proved",
   "theorems": [
    "write_changes_one_cell",
    "write_without_record_fails",
    "read_after_write_refuted"
   ],
   "note": ""
  },
  {
   "property": "C32",
   "status": "proved",
   "theorems": [
    "navigation_exact",
    "current_record_exists"
   ],
   "note": ""
  },
  {
   "property": "C33",
   "status": "proved",
   "theorems": [
    "related_lookup",
    "unrelated_lookup_fails",
    "less_is_strict_refuted",
    "mirrored_relation_refuted",
    "two_relations_refuted"
   ],
   "note": ""
  },
  {
   "property": "C34",
   "status": "proved",
   "theorems": [
    "C34_precedence",
    "C34_unambiguous",
    "C34_rest_ignored",
    "C34_refuses_refuted"
   ],
   "note": ""
  },
  {
   "property": "C35",
   "status": "proved",
   "theorems": [
    "C35_call_swallows",
    "C35_sum_in_argument",
    "C35_product_in_argument",
    "C35_comparison_dropped",
    "C35_second_argument_dropped",
    "C35_call_operand_refuted",
    "C35_argument_escapes_refuted"
   ],
   "note": ""
  },
  {
   "property": "C36",
   "status": "proved",
   "theorems": [
    "C36_no_odd_nodes",
    "C36_get"
   ],
   "note": ""
  },
  {
   "property": "C37",
   "status": "proved",
   "theorems": [
    "C37_bound",
    "C37_ends",
    "C37_dangling",
    "C37_always_ends_refuted"
   ],
   "note": ""
  },
  {
   "property": "C38",
   "status": "proved",
   "theorems": [
    "C38_numbers",
    "C38_operands",
    "C38_calculation"
   ],
   "note": ""
  },
  {
   "property": "C39",
   "status": "proved",
   "theorems": [
    "C39_textual",
    "C39_bytes",
    "C39_numeric_refuted"
   ],
   "note": ""
  },
  {
   "property": "C40",
   "status": "proved",
   "theorems": [
    "C40_join",
    "C40_assoc",
    "C40_quote_lost_refuted"
   ],
   "note": ""
  },
  {
   "property": "C41",
   "status": "proved",
   "theorems": [
    "C41_comparison_vanishes",
    "C41_name_and_empty",
    "C41_empty_test_refuted",
    "C41_empty_join_refuted"
   ],
   "note": ""
  },
  {
   "property": "C42",
   "status": "proved",
   "theorems": [
    "C42_read_back",
    "C42_ends",
    "C42_tab_refuted",
    "C42_equals_refuted"
   ],
   "note": ""
  },
  {
   "property": "C43",
   "status": "proved",
   "theorems": [
    "test_runs_as_meant",
    "test_end_unique",
    "C43_first_true_branch"
   ],
   "note": ""
  },
  {
   "property": "C44",
   "status": "proved",
   "theorems": [
    "test_runs_as_meant",
    "test_end_unique",
    "C44_loop"
   ],
   "note": ""
  },
  {
   "property": "C45",
   "status": "proved",
   "theorems": [
    "C45_nested_loop_refuted",
    "C45_nested_if_refuted",
    "C45_exit_inside_if_refuted",
    "C45_loop_in_called_script_refuted"
   ],
   "note": ""
  },
  {
   "property": "C46",
   "status": "proved",
   "theorems": [
    "test_runs_as_meant",
    "test_end_unique",
    "C46_straight",
    "C46_ends"
   ],
   "note": ""
  },
  {
   "property": "C47",
   "status": "proved",
   "theorems": [
    "C47_after_failure",
    "C47_loading",
    "C47_reports"
   ],
   "note": ""
  },
  {
   "property": "C48",
   "status": "proved",
   "theorems": [
    "C48_assert"
   ],
   "note": ""
  },
  {
   "property": "C49",
   "status": "proved",
   "theorems": [
    "C49_unknown_script",
    "C49_scopes"
   ],
   "note": ""
  },
  {
   "property": "C50",
   "status": "proved",
   "theorems": [
    "C50_find",
    "C50_find_total"
   ],
   "note": ""
  },
  {
   "property": "C51",
   "status": "proved",
   "theorems": [
    "C51_structured",
    "C51_always",
    "C51_no_error",
    "C51_missing_bracket_refuted",
    "C51_unknown_step_refuted"
   ],
   "note": ""
  },
  {
   "property": "C52",
   "status": "proved",
   "theorems": [
    "C52_tokens",
    "C52_ends",
    "C52_compile",
    "C52_comma_in_literal_refuted",
    "C52_paren_in_literal_refuted",
    "C52_spaces_refuted"
   ],
   "note": ""
  },
  {
   "property": "C53",
   "status": "proved",
   "theorems": [
    "C53_compiled",
    "C53_compiles",
    "C53_ends",
    "C53_table"
   ],
   "note": ""
  },
  {
   "property": "C54",
   "status": "proved",
   "theorems": [
    "C54_kept",
    "C54_at_most",
    "C54_all_kept_refuted"
   ],
   "note": ""
  },
  {
   "property": "C55",
   "status": "proved",
   "theorems": [
    "C55_compile",
    "C55_decompile",
    "C55_tables",
    "C55_all_kept_refuted"
   ],
   "note": ""
  },
  {
   "property": "C56",
   "status": "proved",
   "theorems": [
    "C56_lookup",
    "C56_generated",
    "C56_duplicates_refuted"
   ],
   "note": ""
  },
  {
   "property": "C57",
   "status": "proved",
   "theorems": [
    "C57_tokens",
    "C57_ends",
    "C57_written",
    "C57_fields_refuted",
    "C57_digit_word_refuted",
    "C57_quote_refuted",
    "C57_semicolon_refuted",
    "C57_missing_end_refuted",
    "C57_no_assertions"
   ],
   "note": ""
  },
  {
   "property": "C58",
   "status": "proved",
   "theorems": [
    "sortform_order"
   ],
   "note": ""
  },
  {
   "property": "C59",
   "status": "proved",
   "theorems": [
    "generated_database",
    "generation_aborts"
   ],
   "note": ""
  },
  {
   "property": "C60",
   "status": "proved",
   "theorems": [
    "related_places_unavailable"
   ],
   "note": ""
  },
  {
   "property": "C61",
   "status": "proved",
   "theorems": [
    "C61_nothing_invented"
   ],
   "note": ""
  },
  {
   "property": "C62",
   "status": "proved",
   "theorems": [
    "C62_lookup",
    "C62_single_answer",
    "C62_never_ends",
    "C62_bound",
    "C62_answer_refuted"
   ],
   "note": ""
  },
  {
   "property": "C63",
   "status": "proved",
   "theorems": [
    "C63_min",
    "C63_min_refuted"
   ],
   "note": ""
  },
  {
   "property": "C64",
   "status": "proved",
   "theorems": [
    "C64_char"
   ],
   "note": ""
  },
  {
   "property": "C65",
   "status": "proved",
   "theorems": [
    "C65_step_effect"
   ],
   "note": ""
  },
  {
   "property": "C66",
   "status": "proved",
   "theorems": [
    "C66_call",
    "C66_fresh_variables_refuted"
   ],
   "note": ""
  },
  {
   "property": "C67",
   "status": "proved",
   "theorems": [
    "C67_database_of_tests",
    "C67_step"
   ],
   "note": ""
  },
  {
   "property": "C68",
   "status": "proved",
   "theorems": [
    "C68_variables_refuted",
    "C68_records_refuted"
   ],
   "note": ""
  },
  {
   "property": "C69",
   "status": "proved",
   "theorems": [
    "C69_text_to_run"
   ],
   "note": ""
  },
  {
   "property": "C70",
   "status": "proved",
   "theorems": [
    "C70_schema_test"
   ],
   "note": ""
  },
  {
   "property": "C71",
   "status": "proved",
   "theorems": [
    "C71_compile",
    "C71_decompile",
    "C71_any_order",
    "C71_bad_input",
    "C71_bad_test_file",
    "C71_tested_once_refuted",
    "C71_name_clash_refuted"
   ],
   "note": ""
  },
  {
   "property": "C72",
   "status": "proved",
   "theorems": [
    "C72_decompiled",
    "C72_collected"
   ],
   "note": ""
  },
  {
   "property": "C73",
   "status": "proved",
   "theorems": [
    "C73_written_is_empty"
   ],
   "note": ""
  },
  {
   "property": "C74",
   "status": "proved",
   "theorems": [
    "C74_read",
    "C74_no_field",
    "C74_current_value",
    "C74_table_by_name"
   ],
   "note": ""
  },
  {
   "property": "C75",
   "status": "proved",
   "theorems": [
    "C75_removes_field",
    "C75_deletes_refuted",
    "C75_possible_refuted"
   ],
   "note": ""
  },
  {
   "property": "C76",
   "status": "proved",
   "theorems": [
    "C76_lookup",
    "C76_join_refuted"
   ],
   "note": ""
  },
  {
   "property": "C77",
   "status": "proved",
   "theorems": [
    "sortform_codes",
    "sortform_decode"
   ],
   "note": ""
  },
  {
   "property": "C78",
   "status": "proved",
   "theorems": [
    "C78_value",
    "C78_calculation",
    "C78_written",
    "C78_one_value",
    "C78_asin",
    "C78_asin_refuted"
   ],
   "note": ""
  },
  {
   "property": "C79",
   "status": "proved",
   "theorems": [
    "C79_tokens",
    "C79_space",
    "C79_aborts",
    "C79_one",
    "C79_value",
    "C79_digit"
   ],
   "note": ""
  },
  {
   "property": "C80",
   "status": "proved",
   "theorems": [
    "C80_recovered",
    "C80_missing_step",
    "C80_segments_abort",
    "C80_renamed",
    "C80_segment_four",
    "C80_tail_refuted"
   ],
   "note": ""
  },
  {
   "property": "C81",
   "status": "proved",
   "theorems": [
    "C81_text",
    "C81_one",
    "C81_aborts",
    "C81_not_invented",
    "C81_next_script_refuted"
   ],
   "note": ""
  },
  {
   "property": "C82",
   "status": "proved",
   "theorems": [
    "C82_step",
    "C82_run",
    "C82_one_end",
    "C82_loops_pile_up",
    "C82_open_elif_refuted",
    "C82_flag_outlives_refuted"
   ],
   "note": ""
  },
  {
   "property": "C83",
   "status": "proved",
   "theorems": [
    "C83_any_file",
    "C83_own_directories",
    "C83_layout_kept_refuted",
    "C83_source_names_refuted",
    "C83_large_source_refuted"
   ],
   "note": ""
  },
  {
   "property": "C84",
   "status": "proved",
   "theorems": [
    "C84_any_file",
    "C84_own_directories",
    "C84_parameters",
    "C84_left_over",
    "C84_called_name_refuted"
   ],
   "note": ""
  },
  {
   "property": "C85",
   "status": "proved",
   "theorems": [
    "C85_exact",
    "C85_records",
    "C85_unfit",
    "C85_stops",
    "C85_any_order",
    "C85_tables",
    "C85_well_formed_refuted",
    "C85_field_kept_refuted"
   ],
   "note": ""
  },
  {
   "property": "C86",
   "status": "proved",
   "theorems": [
    "C86_tree",
    "C86_endless",
    "C86_stops",
    "C86_one",
    "C86_usual",
    "C86_value",
    "C86_text"
   ],
   "note": ""
  },
  {
   "property": "C87",
   "status": "proved",
   "theorems": [
    "C87_stuck",
    "C87_forever",
    "C87_reports",
    "C87_breaks_off",
    "C87_hangs",
    "C87_cases",
    "C87_hidden_refuted"
   ],
   "note": ""
  },
  {
   "property": "C88",
   "status": "proved",
   "theorems": [
    "C88_compile",
    "C88_decompile",
    "C88_written",
    "C88_failed_test_stops_refuted"
   ],
   "note": ""
  },
  {
   "property": "C89",
   "status": "proved",
   "theorems": [
    "C89_text",
    "C89_one",
    "C89_lossless",
    "C89_names"
   ],
   "note": ""
  },
  {
   "property": "C90",
   "status": "proved",
   "theorems": [
    "C90_compile",
    "C90_compile_others",
    "C90_decompile",
    "C90_header",
    "C90_decompile_others"
   ],
   "note": ""
  },
  {
   "property": "C91",
   "status": "proved",
   "theorems": [
    "C91_lines",
    "C91_cut",
    "C91_step",
    "C91_events",
    "C91_assertion",
    "C91_nested",
    "C91_after_failure",
    "C91_shown_failure_refuted"
   ],
   "note": ""
  },
  {
   "property": "C92",
   "status": "proved",
   "theorems": [
    "C92_pieces",
    "C92_second_table_refuted",
    "C92_compiled_unicode",
    "C92_decompiled_unicode",
    "C92_compiled_json",
    "C92_decompiled_json"
   ],
   "note": ""
  },
  {
   "property": "C93",
   "status": "proved",
   "theorems": [
    "C93_lines",
    "C93_exact",
    "C93_same",
    "C93_value",
    "C93_unread",
    "C93_read",
    "C93_unset_named",
    "C93_quiet",
    "C93_colons",
    "C93_colon",
    "C93_misspelt_refuted",
    "C93_written_refuted"
   ],
   "note": ""
  },
  {
   "property": "C94",
   "status": "proved",
   "theorems": [
    "C94_lines",
    "C94_exact",
    "C94_breaks",
    "C94_runner",
    "C94_complete",
    "C94_every",
    "C94_unset_named",
    "C94_unset_fails_refuted"
   ],
   "note": ""
  },
  {
   "property": "C95",
   "status": "proved",
   "theorems": [
    "C95_head",
    "C95_line",
    "C95_line_exact",
    "C95_name_refuted",
    "C95_closing",
    "C95_template"
   ],
   "note": ""
  },
  {
   "property": "C96",
   "status": "proved",
   "theorems": [
    "C96_lines",
    "C96_same",
    "C96_one",
    "C96_breaks",
    "C96_misspelt",
    "C96_kept",
    "C96_scripts",
    "C96_lost_refuted",
    "C96_bracket_refuted"
   ],
   "note": ""
  },
  {
   "property": "C97",
   "status": "proved",
   "theorems": [
    "C97_lines",
    "C97_told",
    "C97_same",
    "C97_one",
    "C97_begins",
    "C97_breaks",
    "C97_said",
    "C97_none",
    "C97_kept",
    "C97_words_refuted",
    "C97_late_refuted"
   ],
   "note": ""
  },
  {
   "property": "C98",
   "status": "proved",
   "theorems": [
    "C98_lines",
    "C98_begins",
    "C98_breaks",
    "C98_same",
    "C98_only_numbers",
    "C98_tables",
    "C98_every_value_refuted"
   ],
   "note": ""
  },
  {
   "property": "C99",
   "status": "proved",
   "theorems": [
    "C99_same",
    "C99_lines",
    "C99_begins",
    "C99_code",
    "C99_occurrences",
    "C99_quiet",
    "C99_written",
    "C99_quiet_refuted"
   ],
   "note": ""
  },
  {
   "property": "C100",
   "status": "proved",
   "theorems": [
    "C100_same",
    "C100_compile",
    "C100_decompile",
    "C100_written",
    "C100_complaints_stop_refuted"
   ],
   "note": ""
  },
  {
   "property": "C101",
   "status": "proved",
   "theorems": [
    "C101_name",
    "C101_as_given",
    "C101_compile",
    "C101_decompile_as_given",
    "C101_decompile",
    "C101_performed",
    "C101_others",
    "C101_decompile_others",
    "C101_output",
    "C101_stops",
    "C101_decompile_stops",
    "C101_no_directory",
    "C101_decompile_no_directory",
    "C101_inputs_kept_refuted"
   ],
   "note": ""
  },
  {
   "property": "C102",
   "status": "proved",
   "theorems": [
    "C102_encoded",
    "C102_table",
    "C102_outside_ascii",
    "C102_outside_wide",
    "C102_given_back",
    "C102_any_growth",
    "C102_file",
    "C102_file_outside",
    "C102_safe_refuted"
   ],
   "note": ""
  },
  {
   "property": "C103",
   "status": "proved",
   "theorems": [
    "C103_one",
    "C103_lines",
    "C103_tests",
    "C103_compile",
    "C103_decompile",
    "C103_dialog_refuted",
    "C103_assertion_refuted",
    "C103_names"
   ],
   "note": ""
  },
  {
   "property": "C104",
   "status": "proved",
   "theorems": [
    "C104_one",
    "C104_lines",
    "C104_same",
    "C104_compile",
    "C104_decompile",
    "C104_assembler",
    "C104_dialog_refuted"
   ],
   "note": ""
  },
  {
   "property": "C105",
   "status": "proved",
   "theorems": [
    "C105_one",
    "C105_source",
    "C105_compile",
    "C105_decompile",
    "C105_untested",
    "C105_streams",
    "C105_name_refuted"
   ],
   "note": ""
  },
  {
   "property": "C106",
   "status": "proved",
   "theorems": [
    "C106_contents",
    "C106_every",
    "C106_one",
    "C106_reached",
    "C106_same",
    "C106_kept",
    "C106_twice_refuted"
   ],
   "note": ""
  },
  {
   "property": "C107",
   "status": "proved",
   "theorems": [
    "C107_machine",
    "C107_read",
    "C107_show_all_refuted",
    "C107_show_all_again",
    "C107_step",
    "C107_tests",
    "C107_related"
   ],
   "note": ""
  },
  {
   "property": "C108",
   "status": "proved",
   "theorems": [
    "C108_field",
    "C108_names",
    "C108_occurrence_refuted",
    "C108_number",
    "C108_criteria",
    "C108_texts"
   ],
   "note": ""
  },
  {
   "property": "C109",
   "status": "proved",
   "theorems": [
    "C109_laws",
    "C109_reads",
    "C109_same",
    "C109_determined",
    "C109_there_and_back_refuted",
    "C109_find_undone_refuted",
    "C109_occurrences_refuted"
   ],
   "note": ""
  },
  {
   "property": "C110",
   "status": "proved",
   "theorems": [
    "C110_calculation",
    "C110_current_time_refuted",
    "C110_moving",
    "C110_tests",
    "C110_program",
    "C110_printed_compile",
    "C110_printed_decompile"
   ],
   "note": ""
  }
 ]
}
