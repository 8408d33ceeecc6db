{"claims": [
 {"property": "C01", "status": "proved", "theorems": ["C01_round_trip"], "note": ""},
 {"property": "C02", "status": "proved", "theorems": ["C02_frame_boundary", "C02_early_header", "C02_declared_size"], "note": ""},
 {"property": "C03", "status": "proved", "theorems": ["C03_header_errors", "C03_no_data", "C03_resume_after_too_large_refuted"], "note": ""},
 {"property": "C04", "status": "proved", "theorems": ["C04_history", "C04_one_frame", "C04_too_long", "C04_buffer_empty"], "note": ""},
 {"property": "C05", "status": "proved", "theorems": ["C05_failing_stream"], "note": ""},
 {"property": "C06", "status": "proved", "theorems": ["C06_close"], "note": ""},
 {"property": "C07", "status": "proved", "theorems": ["C07_session", "C07_rfc"], "note": ""},
 {"property": "C08", "status": "proved", "theorems": ["C08_session", "C08_stuck", "C08_greedy", "C08_short", "C08_refuted"], "note": ""},
 {"property": "C09", "status": "proved", "theorems": ["C09_calls", "C09_unknown", "C09_meaning", "C09_search"], "note": ""},
 {"property": "C10", "status": "proved", "theorems": ["C10_frames"], "note": ""},
 {"property": "C11", "status": "proved", "theorems": ["C11_answered"], "note": ""},
 {"property": "C12", "status": "proved", "theorems": ["C12_tail_variants", "C12_empty_url", "C12_symmetry_refuted"], "note": ""},
 {"property": "C13", "status": "proved", "theorems": ["C13_scheme_variants", "C13_map_order_irrelevant"], "note": ""},
 {"property": "C14", "status": "proved", "theorems": ["C14_sanitized", "C14_variants_valid", "C14_invalid_lost"], "note": ""},
 {"property": "C15", "status": "proved", "theorems": ["C15_totals_exact"], "note": ""},
 {"property": "C16", "status": "proved", "theorems": ["C16_at_most_limit"], "note": ""},
 {"property": "C17", "status": "proved", "theorems": ["C17_nothing_lost"], "note": ""},
 {"property": "C18", "status": "proved", "theorems": ["C18_fair_share"], "note": ""},
 {"property": "C19", "status": "proved", "theorems": ["C19_pruned_copy"], "note": ""},
 {"property": "C20", "status": "proved", "theorems": ["C20_filtered_truthful"], "note": ""},
 {"property": "C21", "status": "proved", "theorems": ["C21_answer_or_crash", "C21_no_crash", "C21_no_match", "C21_negative_crash", "C21_no_crash_refuted"], "note": ""},
 {"property": "C22", "status": "proved", "theorems": ["C22_document_order"], "note": ""},
 {"property": "C23", "status": "proved", "theorems": ["C23_default", "C23_org", "C23_txt", "C23_any_schemes_refuted"], "note": ""},
 {"property": "C24", "status": "proved", "theorems": ["C24_outline"], "note": ""},
 {"property": "C25", "status": "proved", "theorems": ["C25_placed", "C25_outline_refuted"], "note": ""},
 {"property": "C26", "status": "proved", "theorems": ["C26_org", "C26_org_order", "C26_txt", "C26_txt_order"], "note": ""},
 {"property": "C27", "status": "proved", "theorems": ["C27_crash", "C27_regular", "C27_any_notes_refuted"], "note": ""},
 {"property": "C28", "status": "proved", "theorems": ["C28_file", "C28_exact_text_refuted", "C28_reply"], "note": ""},
 {"property": "C29", "status": "proved", "theorems": ["C29_file", "C29_reply", "C29_ascii_refuted"], "note": ""},
 {"property": "C30", "status": "proved", "theorems": ["C30_union"], "note": ""},
 {"property": "C31", "status": "proved", "theorems": ["C31_kinds", "C31_scheme"], "note": ""},
 {"property": "C32", "status": "proved", "theorems": ["C32_accepted", "C32_scheme_refuted"], "note": ""},
 {"property": "C33", "status": "proved", "theorems": ["C33_distance_optimal", "C33_distance_unique", "C33_panics"], "note": ""},
 {"property": "C34", "status": "proved", "theorems": ["C34_best_first", "C34_best_plain", "C34_best_unique", "C34_query_words", "C34_bad_arguments"], "note": ""},
 {"property": "C35", "status": "proved", "theorems": ["C35_within_tolerance", "C35_plain_text"], "note": ""},
 {"property": "C36", "status": "proved", "theorems": ["C36_prune_safe", "C36_prune_unsafe_refuted"], "note": ""},
 {"property": "C37", "status": "proved", "theorems": ["C37_zero_tolerance", "C37_case_ignored", "C37_monotone_refuted", "C37_order_refuted"], "note": ""},
 {"property": "C38", "status": "proved", "theorems": ["C38_limits_unused", "C38_word_limit_refuted"], "note": ""},
 {"property": "C39", "status": "proved", "theorems": ["C39_values", "C39_rejected"], "note": ""},
 {"property": "C40", "status": "proved", "theorems": ["C40_restored"], "note": ""},
 {"property": "C41", "status": "proved", "theorems": ["C41_wrapper_configuration", "C41_total", "C41_quoting_exists"], "note": ""},
 {"property": "C42", "status": "proved", "theorems": ["C42_atomic", "C42_no_temporary_file", "C42_stdout"], "note": ""},
 {"property": "C43", "status": "proved", "theorems": ["C43_not_modified"], "note": ""},
 {"property": "C44", "status": "proved", "theorems": ["C44_success", "C44_error", "C44_always_complete_refuted"], "note": ""},
 {"property": "C45", "status": "proved", "theorems": ["C45_idempotent", "C45_empty", "C45_page"], "note": ""},
 {"property": "C46", "status": "proved", "theorems": ["C46_mode_kept", "C46_executable_refuted"], "note": ""},
 {"property": "C47", "status": "proved", "theorems": ["C47_contract", "C47_complete", "C47_absolute", "C47_name_and_extension", "C47_any_name_refuted"], "note": ""},
 {"property": "C48", "status": "proved", "theorems": ["C48_exactly_valid"], "note": ""},
 {"property": "C49", "status": "proved", "theorems": ["C49_files"], "note": ""},
 {"property": "C50", "status": "proved", "theorems": ["C50_nothing_requested", "C50_refused", "C50_not_over_itself"], "note": ""},
 {"property": "C51", "status": "proved", "theorems": ["C51_visit", "C51_prohibited"], "note": ""},
 {"property": "C52", "status": "proved", "theorems": ["C52_capture", "C52_not_option"], "note": ""},
 {"property": "C53", "status": "proved", "theorems": ["C53_exact", "C53_lisp"], "note": ""},
 {"property": "C54", "status": "proved", "theorems": ["C54_race_refuted", "C54_no_spare_capacity"], "note": ""},
 {"property": "C55", "status": "proved", "theorems": ["C55_hello"], "note": ""},
 {"property": "C56", "status": "proved", "theorems": ["C56_snapshot", "C56_link_set"], "note": ""},
 {"property": "C57", "status": "proved", "theorems": ["C57_mentions"], "note": ""},
 {"property": "C58", "status": "proved", "theorems": ["C58_requests_independent", "C58_answer_unique", "C58_answer_is_new"], "note": ""},
 {"property": "C59", "status": "proved", "theorems": ["C59_ignored", "C59_all", "C59_refuted"], "note": ""},
 {"property": "C60", "status": "proved", "theorems": ["C60_start", "C60_panic", "C60_refuted"], "note": ""},
 {"property": "C61", "status": "proved", "theorems": ["C61_client", "C61_frame", "C61_json", "C61_refuted", "C61_long", "C61_text"], "note": ""},
 {"property": "C62", "status": "proved", "theorems": ["C62_lines", "C62_org", "C62_txt"], "note": ""},
 {"property": "C63", "status": "proved", "theorems": ["C63_links"], "note": ""},
 {"property": "C64", "status": "proved", "theorems": ["C64_files"], "note": ""},
 {"property": "C65", "status": "proved", "theorems": ["C65_race_bounded"], "note": ""},
 {"property": "C66", "status": "proved", "theorems": ["C66_not_heading"], "note": ""},
 {"property": "C67", "status": "proved", "theorems": ["C67_reported"], "note": ""},
 {"property": "C68", "status": "proved", "theorems": ["C68_bracket"], "note": ""},
 {"property": "C69", "status": "proved", "theorems": ["C69_found"], "note": ""},
 {"property": "C70", "status": "proved", "theorems": ["C70_document", "C70_always"], "note": ""},
 {"property": "C71", "status": "proved", "theorems": ["C71_complete"], "note": ""},
 {"property": "C72", "status": "proved", "theorems": ["C72_terminates", "C72_stuck", "C72_finish"], "note": ""},
 {"property": "C73", "status": "proved", "theorems": ["C73_cause", "C73_refuted"], "note": ""},
 {"property": "C74", "status": "proved", "theorems": ["C74_request", "C74_served"], "note": ""},
 {"property": "C75", "status": "proved", "theorems": ["C75_truncated", "C75_blank"], "note": ""},
 {"property": "C76", "status": "proved", "theorems": ["C76_two"], "note": ""},
 {"property": "C77", "status": "proved", "theorems": ["C77_values", "C77_bytes", "C77_total"], "note": ""},
 {"property": "C78", "status": "proved", "theorems": ["C78_once", "C78_each", "C78_exact", "C78_posted", "C78_same_refuted", "C78_backend"], "note": ""},
 {"property": "C79", "status": "proved", "theorems": ["C79_call", "C79_usable", "C79_disconnect"], "note": ""},
 {"property": "C80", "status": "proved", "theorems": ["C80_falsy", "C80_result_refuted", "C80_kept", "C80_kept_refuted", "C80_sleep"], "note": ""},
 {"property": "C81", "status": "proved", "theorems": ["C81_own", "C81_own_refuted"], "note": ""},
 {"property": "C82", "status": "proved", "theorems": ["C82_sleep", "C82_sqrt"], "note": ""},
 {"property": "C83", "status": "proved", "theorems": ["C83_document", "C83_total"], "note": ""},
 {"property": "C84", "status": "proved", "theorems": ["C84_params", "C84_empty", "C84_named", "C84_refuted"], "note": ""},
 {"property": "C85", "status": "proved", "theorems": ["C85_request", "C85_other", "C85_stream", "C85_meaning", "C85_id"], "note": ""},
 {"property": "C86", "status": "proved", "theorems": ["C86_client"], "note": ""},
 {"property": "C87", "status": "proved", "theorems": ["C87_once", "C87_numbers", "C87_reason", "C87_answered"], "note": ""},
 {"property": "C88", "status": "proved", "theorems": ["C88_whole", "C88_closed", "C88_ended", "C88_close"], "note": ""},
 {"property": "C89", "status": "proved", "theorems": ["C89_progress", "C89_bounded", "C89_finish"], "note": ""},
 {"property": "C90", "status": "proved", "theorems": ["C90_response", "C90_other", "C90_stream", "C90_refuted", "C90_wrapper"], "note": ""},
 {"property": "C91", "status": "proved", "theorems": ["C91_reply", "C91_round", "C91_value"], "note": ""},
 {"property": "C92", "status": "proved", "theorems": ["C92_start", "C92_ok", "C92_usage", "C92_close"], "note": ""},
 {"property": "C93", "status": "proved", "theorems": ["C93_print", "C93_same", "C93_again"], "note": ""},
 {"property": "C94", "status": "proved", "theorems": ["C94_hello", "C94_refused", "C94_range", "C94_default"], "note": ""},
 {"property": "C95", "status": "proved", "theorems": ["C95_order", "C95_start", "C95_request", "C95_print", "C95_exit", "C95_wait", "C95_crash", "C95_refuted", "C95_wait_refuted"], "note": ""},
 {"property": "C96", "status": "proved", "theorems": ["C96_call", "C96_client", "C96_depth"], "note": ""},
 {"property": "C97", "status": "proved", "theorems": ["C97_printed", "C97_query"], "note": ""},
 {"property": "C98", "status": "proved", "theorems": ["C98_all"], "note": ""},
 {"property": "C99", "status": "proved", "theorems": ["C99_tree", "C99_set", "C99_other", "C99_success_refuted", "C99_files_refuted"], "note": ""},
 {"property": "C100", "status": "proved", "theorems": ["C100_manifest", "C100_installed", "C100_path", "C100_path_refuted"], "note": ""},
 {"property": "C101", "status": "proved", "theorems": ["C101_options", "C101_refused", "C101_unique"], "note": ""},
 {"property": "C102", "status": "proved", "theorems": ["C102_usage", "C102_modes", "C102_serves", "C102_codes"], "note": ""},
 {"property": "C103", "status": "proved", "theorems": ["C103_wrapper"], "note": ""},
 {"property": "C104", "status": "proved", "theorems": ["C104_success", "C104_plain", "C104_overwritten_refuted"], "note": ""},
 {"property": "C105", "status": "proved", "theorems": ["C105_params", "C105_packet"], "note": ""},
 {"property": "C106", "status": "proved", "theorems": ["C106_calls", "C106_urls", "C106_links", "C106_stop_refuted"], "note": ""},
 {"property": "C107", "status": "proved", "theorems": ["C107_link", "C107_call", "C107_address_refuted"], "note": ""},
 {"property": "C108", "status": "proved", "theorems": ["C108_found", "C108_short_refuted"], "note": ""},
 {"property": "C109", "status": "proved", "theorems": ["C109_remembered", "C109_forgotten"], "note": ""},
 {"property": "C110", "status": "proved", "theorems": ["C110_run", "C110_exit", "C110_failed", "C110_usage", "C110_options", "C110_dialog", "C110_reply", "C110_numeric", "C110_refuted"], "note": ""},
 {"property": "C111", "status": "proved", "theorems": ["C111_org", "C111_text"], "note": ""},
 {"property": "C112", "status": "proved", "theorems": ["C112_file", "C112_reply", "C112_short_refuted"], "note": ""},
 {"property": "C113", "status": "proved", "theorems": ["C113_items", "C113_click", "C113_silent", "C113_client", "C113_console", "C113_negative", "C113_root", "C113_sleep", "C113_restart_refuted"], "note": ""},
 {"property": "C114", "status": "proved", "theorems": ["C114_response"], "note": ""},
 {"property": "C115", "status": "proved", "theorems": ["C115_line", "C115_file", "C115_none"], "note": ""},
 {"property": "C116", "status": "proved", "theorems": ["C116_file", "C116_reply"], "note": ""},
 {"property": "C117", "status": "proved", "theorems": ["C117_file", "C117_calls"], "note": ""},
 {"property": "C118", "status": "proved", "theorems": ["C118_bad"], "note": ""},
 {"property": "C119", "status": "proved", "theorems": ["C119_swallowed", "C119_links", "C119_refuted"], "note": ""},
 {"property": "C120", "status": "proved", "theorems": ["C120_syntax"], "note": ""},
 {"property": "C121", "status": "proved", "theorems": ["C121_syntax", "C121_exact"], "note": ""},
 {"property": "C122", "status": "proved", "theorems": ["C122_answer", "C122_null", "C122_scalar", "C122_array", "C122_client"], "note": ""}
]}
