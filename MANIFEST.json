{
 "claims": [
  {
   "property": "C01",
   "status": "proved",
   "theorems": [
    "C01_match_is_real",
    "C01_match_is_real_all_graphs"
   ],
   "note": "all graphs (gwalk, EngineSpec2.v); exact coverage for simple field types"
  },
  {
   "property": "C02",
   "status": "proved",
   "theorems": [
    "C02_backtracking_complete",
    "C02_backtracking_complete_all_graphs",
    "C02_match_is_found"
   ],
   "note": "matches through simple field types, in every rulebase graph; C02_match_is_found adds that a definite result exists"
  },
  {
   "property": "C03",
   "status": "proved",
   "theorems": [
    "C03_first_alternative_wins",
    "C03_order_antisymmetric"
   ],
   "note": ""
  },
  {
   "property": "C04",
   "status": "proved",
   "theorems": [
    "C04_no_leak",
    "C04_exactly_the_fields"
   ],
   "note": "all graphs for absence of leakage; exact field list for simple field types"
  },
  {
   "property": "C05",
   "status": "proved",
   "theorems": [
    "C05_failure_report",
    "C05_failure_report_all_graphs",
    "C05_nul_refuted"
   ],
   "note": "C05_nul_refuted: unparsed-data is cut at a NUL byte"
  },
  {
   "property": "C06",
   "status": "proved",
   "theorems": [
    "C06_no_memory"
   ],
   "note": "statistics counters aside, which are not visible in the result"
  },
  {
   "property": "C07",
   "status": "proved",
   "theorems": [
    "C07_terminates",
    "C07_only_field_hazards",
    "C07_returns",
    "C07_left_recursion_refuted",
    "C07_empty_repeat_refuted"
   ],
   "note": "C07_*_refuted: without the conditions ln_normalize does not return (witnesses loaded from rule text, for every fuel)"
  },
  {
   "property": "C08",
   "status": "proved",
   "theorems": [
    "C08_consumed_within_message",
    "C08_cee_refuted"
   ],
   "note": "C08_cee_refuted: cee-syslog violates it"
  },
  {
   "property": "C09",
   "status": "proved",
   "theorems": [
    "C09_hazards_complete",
    "C09_no_read_outside",
    "C09_harmless_messages_are_safe",
    "C09_refuted",
    "C09_divzero_refuted"
   ],
   "note": "C09_refuted shows each hazard with a witness"
  },
  {
   "property": "C10",
   "status": "proved",
   "theorems": [
    "C10_delivered_text_is_consumed_text"
   ],
   "note": ""
  },
  {
   "property": "C11",
   "status": "proved",
   "theorems": [
    "C11_number",
    "C11_number_wraps",
    "C11_number_maxval_refuted"
   ],
   "note": "exact for values below 2^63-48 (any platform) and modulo 2^64 on wrapping platforms; the maxval limit is violated by numbers beyond 2^63 (refuted with a witness)"
  },
  {
   "property": "C12",
   "status": "proved",
   "theorems": [
    "C12_hexnumber",
    "C12_hexnumber_refuted"
   ],
   "note": "exact characterisation of what the code accepts; the documented \"one or more digits\" and the maxval limit beyond 2^64 are refuted"
  },
  {
   "property": "C13",
   "status": "proved",
   "theorems": [
    "C13_float",
    "C13_float_digit_refuted"
   ],
   "note": "exact characterisation; \"at least one digit\" is refuted"
  },
  {
   "property": "C14",
   "status": "proved",
   "theorems": [
    "C14_ipv4"
   ],
   "note": "exact, both directions"
  },
  {
   "property": "C15",
   "status": "proved",
   "theorems": [
    "C15_ipv6",
    "C15_ipv6_rfc4291",
    "C15_accepts_refuted",
    "C15_rejects_refuted"
   ],
   "note": "C15_accepts_refuted: a word of hex digits, \":::\" and 8 blocks + IPv4 are accepted; C15_rejects_refuted: \"::\" for a single leading block is refused"
  },
  {
   "property": "C16",
   "status": "proved",
   "theorems": [
    "C16_mac48"
   ],
   "note": "exact, both directions"
  },
  {
   "property": "C17",
   "status": "proved",
   "theorems": [
    "C17_date_iso",
    "C17_time24",
    "C17_time12",
    "C17_duration"
   ],
   "note": "exact, both directions, four field types"
  },
  {
   "property": "C18",
   "status": "proved",
   "theorems": [
    "C18_kernel_timestamp"
   ],
   "note": "exact, both directions"
  },
  {
   "property": "C19",
   "status": "proved",
   "theorems": [
    "C19_word",
    "C19_alpha",
    "C19_whitespace",
    "C19_rest"
   ],
   "note": "exact, both directions, four field types"
  },
  {
   "property": "C20",
   "status": "proved",
   "theorems": [
    "C20_char_to",
    "C20_char_sep"
   ],
   "note": "exact, both directions"
  },
  {
   "property": "C21",
   "status": "proved",
   "theorems": [
    "C21_string_to",
    "C21_string_to_one_char_refuted"
   ],
   "note": "exact for search strings of two or more bytes; one-byte search strings never match (refuted)"
  },
  {
   "property": "C22",
   "status": "proved",
   "theorems": [
    "C22_quoted_string",
    "C22_op_quoted_string",
    "C22_unnamed_refuted",
    "C22_nul_refuted"
   ],
   "note": "C22_unnamed_refuted: op-quoted-string without a name dereferences NULL; C22_nul_refuted: its value stops at NUL"
  },
  {
   "property": "C23",
   "status": "proved",
   "theorems": [
    "C23_literal",
    "C23_literal_nul_refuted"
   ],
   "note": "exact when neither the literal nor the message contains a NUL byte; with a NUL in the message the comparison leaves the literal (refuted)"
  },
  {
   "property": "C24",
   "status": "proved",
   "theorems": [
    "C24_date_rfc3164",
    "C24_year_ignored_refuted",
    "C24_form_refuted"
   ],
   "note": "C24_year_ignored_refuted: the year of the message is not used; C24_form_refuted: non-existing days and empty components pass"
  },
  {
   "property": "C25",
   "status": "proved",
   "theorems": [
    "C25_date_rfc5424",
    "C25_form_refuted",
    "C25_range_refuted"
   ],
   "note": "C25_form_refuted: RFC 5424 digit counts are not enforced, February 31 passes; C25_range_refuted: with ten digits in a row range checks are modulo 2^32"
  },
  {
   "property": "C26",
   "status": "proved",
   "theorems": [
    "C26_timestamps",
    "C26_timestamps_rfc3164",
    "C26_days_count",
    "C26_other_years"
   ],
   "note": "C26_other_years: 0 outside 1970..2100"
  },
  {
   "property": "C27",
   "status": "proved",
   "theorems": [
    "C27_name_value_list",
    "C27_always_matches_refuted",
    "C27_escape_kept_refuted"
   ],
   "note": "C27_always_matches_refuted: it succeeds on every text, possibly taking nothing; C27_escape_kept_refuted: backslashes stay in the value"
  },
  {
   "property": "C28",
   "status": "proved",
   "theorems": [
    "C28_iptables",
    "C28_one_field_refuted"
   ],
   "note": "C28_one_field_refuted: a single field or trailing text fails"
  },
  {
   "property": "C29",
   "status": "proved",
   "theorems": [
    "C29_cef_header",
    "C29_cef_wellformed",
    "C29_empty_field_refuted",
    "C29_trailing_backslash_refuted",
    "C29_loose_refuted",
    "C29_short_refuted"
   ],
   "note": "C29_empty_field_refuted: assertion failure; C29_trailing_backslash_refuted: uninitialised memory is used; C29_loose_refuted: malformed extensions accepted; C29_short_refuted"
  },
  {
   "property": "C30",
   "status": "proved",
   "theorems": [
    "C30_checkpoint_lea",
    "C30_empty_refuted",
    "C30_trim_refuted"
   ],
   "note": "C30_empty_refuted: no field at all is accepted (null), a name may be empty; C30_trim_refuted"
  },
  {
   "property": "C31",
   "status": "proved",
   "theorems": [
    "C31_cisco",
    "C31_second_slash_refuted",
    "C31_loose_refuted"
   ],
   "note": "C31_second_slash_refuted: the character between ip2 and port2 is not checked; C31_loose_refuted"
  },
  {
   "property": "C32",
   "status": "proved",
   "theorems": [
    "C32_json",
    "C32_cee",
    "C32_array_refuted",
    "C32_cee_offset_refuted"
   ],
   "note": "C32_array_refuted: no array is ever accepted; C32_cee_offset_refuted: behind other text cee-syslog reports a position behind the end"
  },
  {
   "property": "C33",
   "status": "proved",
   "theorems": [
    "C33_string",
    "C33_high_byte_refuted",
    "C33_nul_refuted",
    "C33_doubling_refuted",
    "C33_dangling_refuted"
   ],
   "note": "C33_high_byte_refuted: bytes above 127 read outside the table; C33_nul_refuted: writes outside the value; C33_doubling_refuted; C33_dangling_refuted"
  },
  {
   "property": "C34",
   "status": "proved",
   "theorems": [
    "C34_loaded_rule_matches",
    "C34_second_load_refuted"
   ],
   "note": "C34_second_load_refuted: a second load into an already optimized context violates it"
  },
  {
   "property": "C35",
   "status": "proved",
   "theorems": [
    "C35_adding_keeps_matches"
   ],
   "note": "same scope as C36"
  },
  {
   "property": "C36",
   "status": "proved",
   "theorems": [
    "C36_loaded_text",
    "C36_loaded_file",
    "C36_exactly_the_rules",
    "C36_rule_adds_exactly_its_messages",
    "C36_alternative_refuted"
   ],
   "note": "C36_loaded_text/_file: from the text of the rulebase; C36_alternative_refuted: with alternatives a rule may add other messages"
  },
  {
   "property": "C37",
   "status": "proved",
   "theorems": [
    "C37_no_loss_up_to_255",
    "C37_256_refuted"
   ],
   "note": "C37_256_refuted: the 256th field at one place wipes out the place"
  },
  {
   "property": "C38",
   "status": "proved",
   "theorems": [
    "C38_any_history_safe",
    "C38_loading_never_uses_freed",
    "C38_normalize_never_uses_freed",
    "C38_add_keeps_exact",
    "C38_optimize_keeps_exact"
   ],
   "note": "normalize_never_uses_freed: also normalization never uses freed memory. C39_leak_refuted: with 256 different fields at one place references are lost, so exact counts do not hold unconditionally"
  },
  {
   "property": "C39",
   "status": "proved",
   "theorems": [
    "C39_exit_never_uses_freed",
    "C39_exit_frees_all",
    "C39_leak_refuted"
   ],
   "note": "C39_leak_refuted: 256 different fields at one place leak nodes"
  },
  {
   "property": "C40",
   "status": "proved",
   "theorems": [
    "C40_same_messages_match",
    "C40_fields_of_a_match",
    "C40_same_fields_if_unambiguous",
    "C40_ambiguous_refuted",
    "C40_unparsed_refuted"
   ],
   "note": "C40_ambiguous_refuted, C40_unparsed_refuted: which of several matches is reported, and unparsed-data of a failure, may change"
  },
  {
   "property": "C41",
   "status": "proved",
   "theorems": [
    "C41_priority_is_lexicographic",
    "C41_priority_of_field",
    "C41_sorted_permutation",
    "C41_overflow_refuted"
   ],
   "note": "C41_overflow_refuted: larger assigned priorities overflow"
  },
  {
   "property": "C42",
   "status": "proved",
   "theorems": [
    "C42_alternatives_are_unions",
    "C42_same_as_one_rule_per_choice",
    "C42_tags_of_a_matching_rule",
    "C42_shared_field_refuted",
    "C42_sequence_refuted"
   ],
   "note": "Rules whose steps are single fields, alternatives of single fields, or arrays of them, built-in types; rules that have no field in common where they part; at most 255 fields in one place. Without these conditions the claim is false: C42_shared_field_refuted (continuation lost, or other rule's rest follows the wrong alternative), C42_sequence_refuted (arrays as alternatives). Optimized and unoptimized graphs. C42_same_as_one_rule_per_choice compares with the rulebase that has one plain rule per choice."
  },
  {
   "property": "C43",
   "status": "proved",
   "theorems": [
    "C43_literal_rule"
   ],
   "note": "string input; backslash escapes are libestr code (a parameter of the model)"
  },
  {
   "property": "C44",
   "status": "proved",
   "theorems": [
    "C44_comments_and_blank_lines_string",
    "C44_comments_and_blank_lines_file",
    "C44_last_line_feed_string",
    "C44_last_line_feed_file",
    "C44_same_rules_same_results"
   ],
   "note": "C44_same_rules_same_results: same rules give the same results"
  },
  {
   "property": "C45",
   "status": "proved",
   "theorems": [
    "C45_prefix_string",
    "C45_prefix_file",
    "C45_empty_rule_refuted",
    "C45_extend_first_refuted"
   ],
   "note": "C45_empty_rule_refuted, C45_extend_first_refuted: an empty rule behind a prefix is dropped; extendprefix without prefix dereferences NULL"
  },
  {
   "property": "C46",
   "status": "proved",
   "theorems": [
    "C46_string_line_by_line",
    "C46_file_line_by_line",
    "C46_error_not_reported_refuted",
    "C46_byte_255_refuted",
    "C46_short_rest_refuted"
   ],
   "note": "C46_error_not_reported_refuted: lines in error are skipped and success is returned; C46_byte_255_refuted: byte 255 ends a string; C46_short_rest_refuted: fewer than 5 bytes after an open field are lost"
  },
  {
   "property": "C47",
   "status": "proved",
   "theorems": [
    "C47_tags_of_matched_rule",
    "C47_refuted",
    "C47_tags_as_written",
    "C47_empty_tag_refuted"
   ],
   "note": "C47_refuted for rules ending in an empty field (tags of another rule ending at the same node are possible); C47_empty_tag_refuted"
  },
  {
   "property": "C48",
   "status": "proved",
   "theorems": [
    "C48_last_duplicate_wins"
   ],
   "note": "the code keeps the tags of the last duplicate, not of the first"
  },
  {
   "property": "C49",
   "status": "proved",
   "theorems": [
    "C49_annotated_event",
    "C49_annotations_of_text",
    "C49_older_wins_refuted",
    "C49_empty_value_refuted",
    "C49_trailing_blank_refuted"
   ],
   "note": "C49_older_wins_refuted, C49_empty_value_refuted (NULL dereference), C49_trailing_blank_refuted (endless loop)"
  },
  {
   "property": "C50",
   "status": "proved",
   "theorems": [
    "C50_csv_reads_back",
    "C50_every_list",
    "C50_rfc4180",
    "C50_rfc4180_refuted",
    "C50_arrays_refuted"
   ],
   "note": "Decoding theorem with uniqueness for the JSON-style unescape, RFC 4180 under the plain-value condition; C50_rfc4180_refuted and C50_arrays_refuted show that the conditions are needed."
  },
  {
   "property": "C51",
   "status": "proved",
   "theorems": [
    "C51_structured_data_reads_back",
    "C51_with_tags",
    "C51_rfc5424_refuted",
    "C51_names_tags_refuted",
    "C51_null_refuted"
   ],
   "note": "Existence and uniqueness of the reading; C51_rfc5424_refuted (comma, LF under the plain RFC 5424 reading), C51_names_tags_refuted (names/tags copied unescaped), C51_null_refuted (null member: assertion)."
  },
  {
   "property": "C52",
   "status": "proved",
   "theorems": [
    "C52_xml_reads_back",
    "C52_with_tags",
    "C52_wellformed_refuted"
   ],
   "note": "Existence and uniqueness of the reading; C52_wellformed_refuted: control bytes, names and tags are copied as they are."
  },
  {
   "property": "C53",
   "status": "proved",
   "theorems": [
    "C53_return_codes",
    "C53_success_refuted"
   ],
   "note": "Exact return codes; C53_success_refuted refutes the stronger reading '0 exactly on success'."
  },
  {
   "property": "C54",
   "status": "proved",
   "theorems": [
    "C54_named_field",
    "C54_store"
   ],
   "note": ""
  },
  {
   "property": "C55",
   "status": "proved",
   "theorems": [
    "C55_metadata"
   ],
   "note": ""
  },
  {
   "property": "C56",
   "status": "proved",
   "theorems": [
    "C56_custom_type_value",
    "C56_refuted"
   ],
   "note": "C56_refuted: it does not always continue exactly at the end of the match"
  },
  {
   "property": "C57",
   "status": "proved",
   "theorems": [
    "C57_repeat_value",
    "C57_refuted"
   ],
   "note": "C57_refuted: a part may start behind the end of the one before and skip text"
  },
  {
   "property": "C58",
   "status": "proved",
   "theorems": [
    "C58_loaded_text_works",
    "C58_loaded_file_works",
    "C58_incomplete_refuted"
   ],
   "note": "C58_incomplete_refuted: a field with incomplete configuration loads and makes ln_normalize dereference NULL"
  },
  {
   "property": "C59",
   "status": "proved",
   "theorems": [
    "C59_originalmsg"
   ],
   "note": "every rulebase"
  },
  {
   "property": "C60",
   "status": "proved",
   "theorems": [
    "C60_every_line_once",
    "C60_every_input_has_lines",
    "C60_inputs_add_up",
    "C60_last_line_refuted"
   ],
   "note": "every input (C60_every_input_has_lines); C60_inputs_add_up: outputs of consecutive inputs add up. C60_last_line_refuted: a last line without line feed loses its last character."
  },
  {
   "property": "C61",
   "status": "proved",
   "theorems": [
    "C61_parsed_or_unparsed",
    "C61_verdict_of_the_library",
    "C61_unparsed_data_refuted"
   ],
   "note": "C61_unparsed_data_refuted: a matching message can bring a field unparsed-data with it and is then counted as unparsed."
  },
  {
   "property": "C62",
   "status": "proved",
   "theorems": [
    "C62_raw_is_the_input"
   ],
   "note": ""
  },
  {
   "property": "C63",
   "status": "proved",
   "theorems": [
    "C63_only_tagged_lines",
    "C63_no_unparsed"
   ],
   "note": "option -L aside (it numbers the unparsed lines)"
  },
  {
   "property": "C64",
   "status": "proved",
   "theorems": [
    "C64_counts"
   ],
   "note": "counters as unbounded numbers"
  },
  {
   "property": "C65",
   "status": "proved",
   "theorems": [
    "C65_exit_code",
    "C65_two_rulebases",
    "C65_last_record_option",
    "C65_every_option",
    "C65_three_times_refuted"
   ],
   "note": "C65_three_times_refuted: -R, -r, -R is accepted."
  },
  {
   "property": "C66",
   "status": "proved",
   "theorems": [
    "C66_field_description",
    "C66_literal_text",
    "C66_rule_text",
    "C66_unambiguous",
    "C66_parameters_override",
    "C66_missing_percent_sign_refuted",
    "C66_broken_parameters_refuted"
   ],
   "note": "C66_missing_percent_sign_refuted and C66_broken_parameters_refuted: two errors that are accepted silently."
  },
  {
   "property": "C67",
   "status": "proved",
   "theorems": [
    "C67_field_of_configuration",
    "C67_string_options",
    "C67_unknown_type",
    "C67_priority"
   ],
   "note": "parameters of the type the documentation asks for (texts without NUL, integers); repeat and alternative: C57, C42."
  },
  {
   "property": "C68",
   "status": "proved",
   "theorems": [
    "C68_v1_file_loads",
    "C68_success_reports_a_rule",
    "C68_faulty_rule_refuted",
    "C68_iptables_refuted",
    "C68_rest_refuted",
    "C68_same_name_refuted"
   ],
   "note": "tame rules (iptables and rest last), well-formed rule texts, lines below 10K. Fields of all types but regex. C68_faulty_rule_refuted, C68_iptables_refuted, C68_rest_refuted: without this a message no rule describes is reported; C68_same_name_refuted. matches_closed: fields may be tried at the very end of the message, where only the types of may_be_empty match."
  },
  {
   "property": "C69",
   "status": "proved",
   "theorems": [
    "C69_matching_rule_found",
    "C69_exactly_the_rules",
    "C69_more_rules_no_loss",
    "C69_empty_field_refuted",
    "C69_empty_rest_refuted"
   ],
   "note": "C69_empty_field_refuted: whether an empty char-sep at the end of the message matches depends on other rules; C69_empty_rest_refuted."
  },
  {
   "property": "C70",
   "status": "proved",
   "theorems": [
    "C70_failure_report",
    "C70_longest_refuted"
   ],
   "note": "C70_longest_refuted: the reported position is not the furthest reached."
  },
  {
   "property": "C71",
   "status": "proved",
   "theorems": [
    "C71_always_answers",
    "C71_hazards_complete",
    "C71_refuted"
   ],
   "note": "C71_refuted: each condition is needed (NUL in the message reads outside it, missing extra data, extendprefix without prefix)."
  },
  {
   "property": "C72",
   "status": "proved",
   "theorems": [
    "C72_normalize_keeps_context",
    "C72_second_file_replaces",
    "C72_v2_file_refused",
    "C72_v1_file_refused",
    "C72_string_refuted",
    "C72_first_file_lost_refuted"
   ],
   "note": "C72_string_refuted: loading a string switches to the v2 engine; C72_first_file_lost_refuted: two v1 files do not add up."
  },
  {
   "property": "C73",
   "status": "proved",
   "theorems": [
    "C73_hazards_complete",
    "C73_no_read_outside",
    "C73_ends_inside",
    "C73_not_at_the_end",
    "C73_position_refuted"
   ],
   "note": "C73_position_refuted: checkpoint-lea and cef go back, cee-syslog ends behind the message."
  },
  {
   "property": "C74",
   "status": "proved",
   "theorems": [
    "C74_plain_fields",
    "C74_quoted_string",
    "C74_op_quoted_string",
    "C74_cisco",
    "C74_json",
    "C74_cee",
    "C74_v2_iptables",
    "C74_name_value_list",
    "C74_checkpoint_lea",
    "C74_cef_header",
    "C74_cef_wellformed",
    "C74_high_byte_refuted",
    "C74_cisco_value_refuted",
    "C74_cee_position_refuted",
    "C74_lea_position_refuted",
    "C74_cef_first_byte_refuted"
   ],
   "note": "grammars of FieldSpec, FieldSpec2, DateSpec and V1TextSpec. cef: exact for the header, one direction (well-formed messages) for the extensions. C74_high_byte_refuted, C74_cisco_value_refuted, C74_cee_position_refuted, C74_lea_position_refuted, C74_cef_first_byte_refuted."
  },
  {
   "property": "C75",
   "status": "proved",
   "theorems": [
    "C75_tokenized_list",
    "C75_tokenized_fails",
    "C75_tokenized_at_end",
    "C75_tokenized_objects",
    "C75_tokenized_numbers",
    "C75_trailing_separator_refuted",
    "C75_empty_separator_refuted",
    "C75_missing_file_refuted"
   ],
   "note": "exact (iff) for content types, and for recursive/descent items under the hypothesis that the remaining field is not longer than the text; C75_tokenized_numbers is an instance. Content type iptables excluded. C75_trailing_separator_refuted, C75_empty_separator_refuted (endless loop), C75_missing_file_refuted (NULL)."
  },
  {
   "property": "C76",
   "status": "proved",
   "theorems": [
    "C76_interpret",
    "C76_interpret_no_content",
    "C76_no_match_refuted",
    "C76_int_of_int_refuted",
    "C76_not_a_number_refuted"
   ],
   "note": "for contents whose value is a text; doubles are represented by their text. C76_no_match_refuted (never fails), C76_int_of_int_refuted (use after free), C76_not_a_number_refuted."
  },
  {
   "property": "C77",
   "status": "proved",
   "theorems": [
    "C77_suffixed",
    "C77_no_suffix",
    "C77_nothing_left_refuted",
    "C77_longest_suffix_refuted"
   ],
   "note": "content that leaves something: else the code follows a NULL pointer (C77_nothing_left_refuted). C77_longest_suffix_refuted: the first, not the longest suffix wins."
  },
  {
   "property": "C78",
   "status": "proved",
   "theorems": [
    "C78_rest_by_rules",
    "C78_no_rule",
    "C78_misbehaviour",
    "C78_recursion_refuted",
    "C78_goes_back_refuted"
   ],
   "note": "the fuel bounds the nesting depth. C78_recursion_refuted (endless recursion at every depth), C78_goes_back_refuted (the position can move left, because annotations can set the remaining field)."
  },
  {
   "property": "C79",
   "status": "proved",
   "theorems": [
    "C79_one_rule_text",
    "C79_one_rule_file",
    "C79_unique",
    "C79_outcome_exists",
    "C79_always_answers",
    "C79_two_rules_refuted",
    "C79_named_while_refuted"
   ],
   "note": "the event is exact with the options addRule and addRuleLocation off; on failure the event is the failure report with some remaining text (which: C05). With several rules the claim is false: C79_two_rules_refuted, C56_refuted, C57_refuted; a named field in a while part dereferences NULL (C79_named_while_refuted)."
  },
  {
   "property": "C80",
   "status": "proved",
   "theorems": [
    "C80_many_rules_text",
    "C80_many_rules_file",
    "C80_always_answers_text",
    "C80_always_answers_file",
    "C80_self_first_refuted"
   ],
   "note": "options addRule and addRuleLocation off for the exact event. Stronger readings are false: a type ends where the furthest attempt ended, not where its rule ended, so there may be gaps and a rule with a type may be overlooked (C56_refuted); a type that uses itself first never ends (C80_self_first_refuted)."
  },
  {
   "property": "C81",
   "status": "proved",
   "theorems": [
    "C81_rule_line_reported",
    "C81_type_line_reported",
    "C81_failed_load_reported",
    "C81_failed_file_reported",
    "C81_messages_of_text",
    "C81_messages_of_file",
    "C81_line_numbers",
    "C81_line_numbers_file",
    "C81_no_false_alarm",
    "C81_no_false_alarm_file",
    "C81_every_fault_reported_refuted",
    "C81_no_false_alarm_string_refuted",
    "C81_ends_with_text_refuted",
    "C81_reported_is_harmless_refuted"
   ],
   "note": "Err.v models the calls of ln_errprintf; the text of strerror and the second message for a missing file are left out. Stronger readings are false: C81_every_fault_reported_refuted (five kinds of faulty lines are ignored silently), C81_no_false_alarm_string_refuted (%-:string%), C81_ends_with_text_refuted (messages about field descriptions print from a buffer without end mark), C81_reported_is_harmless_refuted (a literal without text is reported, then loading follows a NULL pointer)."
  },
  {
   "property": "C82",
   "status": "proved",
   "theorems": [
    "C82_only_with_callback",
    "C82_complete_message",
    "C82_complete_with_reason",
    "C82_line_readable",
    "C82_never_too_long",
    "C82_cookie_refuted",
    "C82_debug_cookie_refuted",
    "C82_length_refuted"
   ],
   "note": "C82_cookie_refuted, C82_debug_cookie_refuted: the callback gets the cookie of the debug callback (lognorm.c 134); C82_length_refuted: the length handed over is larger than the text when the text is cut."
  },
  {
   "property": "C83",
   "status": "proved",
   "theorems": [
    "C83_graph",
    "C83_usage_graph",
    "C83_literals_refuted"
   ],
   "note": "C83_literals_refuted: two rulebases that differ in a quote and a backslash have the same picture. Graphs of user-defined types and inside repeat are not part of the picture."
  },
  {
   "property": "C84",
   "status": "proved",
   "theorems": [
    "C84_statistics",
    "C84_twice_refuted",
    "C84_longest_refuted"
   ],
   "note": "C84_twice_refuted: flags are not cleared afterwards, so a second report says there are no nodes. C84_longest_refuted: with shared nodes a path of 5 nodes is reported as 3. Nodes with 100 and more fields are counted but not printed."
  },
  {
   "property": "C85",
   "status": "proved",
   "theorems": [
    "C85_identifiers",
    "C85_usage",
    "C85_unshared",
    "C85_again_refuted"
   ],
   "note": "C85_again_refuted: identifiers are not reset before the next load, which then garbles them (\"[|]\")."
  },
  {
   "property": "C86",
   "status": "proved",
   "theorems": [
    "C86_only_listed_faults",
    "C86_no_traps_safe",
    "C86_listed_faults_occur"
   ],
   "note": "Every listed cause does occur: C86_listed_faults_occur (endless recursion: C07). The memory model is the one of C08-C10 and C38."
  },
  {
   "property": "C87",
   "status": "proved",
   "theorems": [
    "C87_string",
    "C87_file",
    "C87_texts_stay",
    "C87_texts_init",
    "C87_plain_loads",
    "C87_traps_occur",
    "C87_include_ends_refuted",
    "C87_simple_rules",
    "C87_simple_rules_load",
    "C87_simple_rules_meets",
    "C87_good_lines_load",
    "C87_good_file_loads",
    "C87_good_lines_meets",
    "C87_fatal_lines",
    "C87_fatal_lines_file",
    "C87_fatal_meets"
   ],
   "note": "C87_simple_rules, C87_simple_rules_load: rules of literals and of fields %name:type% and %name:type:extra% are never a trap, so such a rulebase is always loaded; C87_good_lines_load, C87_good_file_loads: the same from the lines of the rulebase (comments, prefix, rule and type lines of such fields). The other direction, C87_fatal_lines and C87_fatal_lines_file: behind such lines an extendprefix line where no prefix is set, an include line without a name, an empty tag and white space behind the annotations of a line are fatal whatever follows. Every trap does occur (C87_traps_occur). C87_include_ends_refuted: a file that includes itself. A file of the old format is left to the v1 engine (C68-C78). A trap is described by the lines of the text: comments are no lines, line feeds inside of fields are taken out."
  },
  {
   "property": "C88",
   "status": "proved",
   "theorems": [
    "C88_field_reported",
    "C88_no_other_message",
    "C88_text_reported",
    "C88_file_reported",
    "C88_only_mistakes_refuted"
   ],
   "note": "C88_only_mistakes_refuted: a string field named \"-\" is reported although nothing is wrong with it; alternative_reported: so is an alternative among other fields. When the description makes the library crash (C87) there is no report."
  },
  {
   "property": "C89",
   "status": "proved",
   "theorems": [
    "C89_complete",
    "C89_graph",
    "C89_next_load",
    "C89_messages",
    "C89_success_is_enough_refuted"
   ],
   "note": "C89_success_is_enough_refuted: a load that returns success may have left a field without data (it has reported it), on which the next message crashes."
  },
  {
   "property": "C90",
   "status": "proved",
   "theorems": [
    "C90_rest_unchanged",
    "C90_no_crash",
    "C90_picture",
    "C90_use",
    "C90_exit_code",
    "C90_picture_succeeds_refuted"
   ],
   "note": "C90_picture_succeeds_refuted: -d, which the documentation calls \"print DOT file of the parse graph\", ends with the exit code of a failure."
  },
  {
   "property": "C91",
   "status": "proved",
   "theorems": [
    "C91_pairs",
    "C91_recognised",
    "C91_event",
    "C91_trailing_blank_refuted",
    "C91_better_rule_refuted"
   ],
   "note": "C91_trailing_blank_refuted: blanks at the end of the message bring a member with an empty name. C91_better_rule_refuted: an iptables field takes whatever gets to it, also when another rule describes the message better."
  },
  {
   "property": "C92",
   "status": "proved",
   "theorems": [
    "C92_same_answers",
    "C92_no_new_crash",
    "C92_finishes",
    "C92_counters_atomic",
    "C92_counters_refuted"
   ],
   "note": "C92_counters_refuted: with plain increments (load, then store), as in the code, visits get lost in the counters. Annotations are excluded because ln_annotate writes to (and may reallocate) the strings of the shared annotation set. Memory is sequentially consistent in the model."
  },
  {
   "property": "C93",
   "status": "proved",
   "theorems": [
    "C93_no_misuse",
    "C93_counts",
    "C93_no_leak",
    "C93_start",
    "C93_type_refuted",
    "C93_dots_refuted"
   ],
   "note": "C93_start: the heap of a loaded context meets the hypotheses. C93_type_refuted, C93_dots_refuted: what the two exclusions are about; the value object made for a field of a user-defined type is lost whenever the type does not match (pdag.c 1438-1439, 1572-1574), and one reference is lost when two members \".\" are found (parser.c 3255-3266). Field parsers are taken to deliver one fresh value on success and nothing on failure (audited, not modelled: parser.c 1884-1888, 2320-2324, 2566-2567, 3049-3052, 3137-3140)."
  },
  {
   "property": "C94",
   "status": "proved",
   "theorems": [
    "C94_start_tags",
    "C94_same_event",
    "C94_others",
    "C94_session"
   ],
   "note": "C94_same_event: whenever the engine on values (Engine.v) ends without a fault, so does the engine on objects, with the same answer, and the event then reads as the value of Engine.v (and as no other). C94_others needs that no object contains itself. C94_session is about a heap just loaded and any messages for which the engine ends (C05, C08, C87). The engine of Own.v and that of Engine.v are two models of the same functions; this theorem says that they agree, so what is proved of events elsewhere holds of the objects."
  },
  {
   "property": "C95",
   "status": "proved",
   "theorems": [
    "C95_exactly",
    "C95_else_success",
    "C95_any_file",
    "C95_plain_loads",
    "C95_bad_lines_occur"
   ],
   "note": "C95_exactly is an equivalence, for files that consist of lines in the sense of LineSpec.v (every text whose lines are shorter than 10K, except where a field goes on behind a line feed and the next line looks like a rule: v1_samp.c 809-815 gives such a line up). C95_any_file has no condition on the text and gives one direction, with the lines and prefixes the file can bring about. The misbehaviours are those of the model: a NULL pointer (v1_samp.c 475, 497), a read behind the rule (134), and OutOfFuel for a loop that never ends, whatever the fuel (679-680 with 749-751). C95_bad_lines_occur shows each; C95_ex_good neighbours that do no harm."
  }
 ]
}