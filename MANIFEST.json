{
 "claims": [
  {
   "property": "C01",
   "status": "proved",
   "theorems": [
    "C01_redaction_is_substitution",
    "C01_simple_event"
   ],
   "note": "Any event obeying the event laws (proved for String and SimpleEvent), any sorted-permutation sort, rules meeting the finder contract (proved for regex rules)."
  },
  {
   "property": "C02",
   "status": "proved",
   "theorems": [
    "C02_reported_ranges"
   ],
   "note": ""
  },
  {
   "property": "C03",
   "status": "proved",
   "theorems": [
    "C03_shift_is_accumulated_change"
   ],
   "note": ""
  },
  {
   "property": "C04",
   "status": "proved",
   "theorems": [
    "C04_match_value_is_original_text"
   ],
   "note": ""
  },
  {
   "property": "C05",
   "status": "proved",
   "theorems": [
    "C05_sorted_disjoint_genuine"
   ],
   "note": ""
  },
  {
   "property": "C06",
   "status": "proved",
   "theorems": [
    "C06_greedy_by_priority",
    "C06_mutating_never_lost"
   ],
   "note": ""
  },
  {
   "property": "C07",
   "status": "proved",
   "theorems": [
    "C07_discovery_order_irrelevant",
    "C07_simple_event",
    "C07_overlap_resolution"
   ],
   "note": ""
  },
  {
   "property": "C08",
   "status": "proved",
   "theorems": [
    "C08_unredacted_string_unchanged",
    "C08_detect_only_scanner"
   ],
   "note": ""
  },
  {
   "property": "C09",
   "status": "proved",
   "theorems": [
    "C09_partial_redaction"
   ],
   "note": ""
  },
  {
   "property": "C10",
   "status": "partial",
   "theorems": [
    "C10_exact",
    "C10_result",
    "C10_ascii",
    "C10_built",
    "C10_scan_returns_partial"
   ],
   "note": "Refuted as stated: a reversed excluded-keyword window panics (C22_excluded_window_panics_refuted). The exact condition is proved: C10_exact says the scan of a SimpleEvent panics iff the search of some unblocked rule in scope comes to a candidate with a reversed window, and returns in all other cases; C10_built says so of every scanner that can be built; C10_result gives the full result whenever the scan returns; C10_ascii: never for one-byte characters. C10_scan_returns_partial is the earlier, weaker form (no candidate at all has a reversed window)."
  },
  {
   "property": "C11",
   "status": "partial",
   "theorems": [
    "C11_accepted_pattern_loops_refuted",
    "C11_terminates_iff_nonempty_matches"
   ],
   "note": "Refuted: \\b is accepted and makes the scan of \"a\" loop. Proved instead: a rule without keywords and validator terminates on a string iff its repeated search never comes to an empty match."
  },
  {
   "property": "C12",
   "status": "proved",
   "theorems": [
    "C12_rules_by_include_path"
   ],
   "note": ""
  },
  {
   "property": "C13",
   "status": "proved",
   "theorems": [
    "C13_each_rule_once"
   ],
   "note": ""
  },
  {
   "property": "C14",
   "status": "proved",
   "theorems": [
    "C14_excluded_by_prefix"
   ],
   "note": ""
  },
  {
   "property": "C15",
   "status": "proved",
   "theorems": [
    "C15_implicit_wildcards"
   ],
   "note": ""
  },
  {
   "property": "C16",
   "status": "proved",
   "theorems": [
    "C16_balanced_restores_state",
    "C16_only_the_path_matters"
   ],
   "note": ""
  },
  {
   "property": "C17",
   "status": "proved",
   "theorems": [
    "C17_excluded_paths",
    "C17_excluded_texts_of_regex_rules"
   ],
   "note": ""
  },
  {
   "property": "C18",
   "status": "proved",
   "theorems": [
    "C18_blocked_rules_find_nothing",
    "C18_simple_event"
   ],
   "note": ""
  },
  {
   "property": "C19",
   "status": "proved",
   "theorems": [
    "C19_plain_search",
    "C19_reported_matches"
   ],
   "note": ""
  },
  {
   "property": "C20",
   "status": "proved",
   "theorems": [
    "C20_no_true_positive_is_skipped"
   ],
   "note": ""
  },
  {
   "property": "C21",
   "status": "partial",
   "theorems": [
    "C21_ignored_with_included_keywords_refuted",
    "C21_without_included_keywords"
   ],
   "note": "Refuted when the rule also has included keywords (excluded keywords are then never checked). Proved for rules without included keywords."
  },
  {
   "property": "C22",
   "status": "partial",
   "theorems": [
    "C22_panics_iff_span_reversed",
    "C22_excluded_window_panics_refuted"
   ],
   "note": "Refuted: L+1 dashes before a match starting with a multi-byte character panic. Proved: the exact condition for the panic."
  },
  {
   "property": "C23",
   "status": "partial",
   "theorems": [
    "C23_window",
    "C23_window_shifted_refuted"
   ],
   "note": "Refuted when the character before the window or the first character of the match is '-' or '_'. Proved to hold in all other cases, for the keyword patterns built by the library."
  },
  {
   "property": "C24",
   "status": "proved",
   "theorems": [
    "C24_only_after_a_keyword",
    "C24_reported_after_a_keyword"
   ],
   "note": ""
  },
  {
   "property": "C25",
   "status": "partial",
   "theorems": [
    "C25_missed_near_a_keyword_refuted",
    "C25_near_a_keyword"
   ],
   "note": "Refuted: a true positive near a second keyword is missed when an earlier match was attributed to the first keyword. Proved: it is covered by an emitted match, or another match between keyword and it is emitted."
  },
  {
   "property": "C26",
   "status": "proved",
   "theorems": [
    "C26_keyword_in_path"
   ],
   "note": ""
  },
  {
   "property": "C27",
   "status": "proved",
   "theorems": [
    "C27_proximity_in_characters"
   ],
   "note": ""
  },
  {
   "property": "C28",
   "status": "proved",
   "theorems": [
    "C28_accepted_configurations",
    "C28_meaning_of_keywords"
   ],
   "note": ""
  },
  {
   "property": "C29",
   "status": "proved",
   "theorems": [
    "C29_standardization",
    "C29_bypass_changes_nothing"
   ],
   "note": ""
  },
  {
   "property": "C30",
   "status": "partial",
   "theorems": [
    "C30_field_named_like_keyword",
    "C30_untrimmed_name_refuted"
   ],
   "note": "Refuted as first stated: a field whose name is the keyword written with trailing white space (\"aB \") is standardized differently from the keyword (C30_untrimmed_name_refuted). Proved for fields named like the trimmed keyword, at any position in the path."
  },
  {
   "property": "C31",
   "status": "partial",
   "theorems": [
    "C31_sanitized_path",
    "C31_leading_index_refuted"
   ],
   "note": "Refuted as first stated: a path that starts with an index gets a leading '.' (C31_leading_index_refuted, with the exact text in that case). Proved for all paths that do not start with an index."
  },
  {
   "property": "C32",
   "status": "proved",
   "theorems": [
    "C32_luhn_formula",
    "C32_single_digit_errors",
    "C32_transpositions"
   ],
   "note": "For matches short enough that the u32 sum cannot overflow (fewer than 477 million characters)."
  },
  {
   "property": "C33",
   "status": "proved",
   "theorems": [
    "C33_iso7064",
    "C33_single_errors",
    "C33_transpositions"
   ],
   "note": ""
  },
  {
   "property": "C34",
   "status": "partial",
   "theorems": [
    "C34_ten_digits",
    "C34_other_lengths_refuted"
   ],
   "note": "Refuted as first stated: fewer than ten digits (even none) and eleven digits can be accepted (C34_other_lengths_refuted gives the exact condition for every length). Proved for exactly ten digits."
  },
  {
   "property": "C35",
   "status": "proved",
   "theorems": [
    "C35_insee_key"
   ],
   "note": "Corsican numbers (2A/2B) have fewer than 15 digits once letters are ignored, hence are rejected."
  },
  {
   "property": "C36",
   "status": "partial",
   "theorems": [
    "C36_six_digit_checksums",
    "C36_crc32_is_32_bits",
    "C36_padded_checksum_refuted"
   ],
   "note": "Refuted as first stated: base62 is not padded, so genuine tokens whose CRC-32 is below 62^5 are rejected (C36_padded_checksum_refuted). Proved: accepted iff a correct token whose checksum needs six digits. crc32fast and base62 are external; both are modelled concretely."
  },
  {
   "property": "C37",
   "status": "partial",
   "theorems": [
    "C37_accepted_tokens",
    "C37_non_object_refuted"
   ],
   "note": "Refuted as first stated: header and payload may be any JSON value (C37_non_object_refuted). Proved: the exact set of accepted texts. Base64 and JSON decoding are parameters here and concrete in C84."
  },
  {
   "property": "C38",
   "status": "partial",
   "theorems": [
    "C38_round_trip",
    "C38_any_bytes",
    "C38_utf8",
    "C38_lossy",
    "C38_rejected_events",
    "C38_ill_formed_keys_refuted"
   ],
   "note": "Refuted for Go strings that are not UTF-8: two keys can be shown under one path (C38_ill_formed_keys_refuted). Proved: exact round trip for every UTF-8 event and every map order; for arbitrary bytes the strings and keys shown are those after replacement of the ill-formed parts; the encoder refuses exactly events with other types."
  },
  {
   "property": "C39",
   "status": "proved",
   "theorems": [
    "C39_response",
    "C39_format",
    "C39_wrapping",
    "C39_nothing_matched"
   ],
   "note": "Matches and the mutated string round-trip when they fit 32 bits; beyond that indices are reduced modulo 2^32 and shifts wrap to signed 32 bits (C39_wrapping). Mutations of map events are covered by C40_map_events."
  },
  {
   "property": "C40",
   "status": "partial",
   "theorems": [
    "C40_map_events",
    "C40_whole",
    "C40_string_events",
    "C40_whole_string",
    "C40_ill_formed_key_refuted",
    "C40_nested_ill_formed_key_refuted",
    "C40_error",
    "C40_string_error",
    "C40_equal",
    "C40_string_equal"
   ],
   "note": "Refuted for Go keys that are not UTF-8: the original entry keeps its secret, or Go panics for nested maps. Proved for every UTF-8 map event with distinct keys in any map order and for string events, when texts and indices fit 32 bits and the response is shorter than 2 GiB (C89); matches arrive as a permutation grouped by string. C40_whole and C40_whole_string assume nothing about results: that a response exists, is text and fits follows from the input and from the size of the response. C40_equal and C40_string_equal cover every scan by regex rules: if the direct scan returns, Go gets the same event and matches; if it panics, Go gets an error and keeps its event."
  },
  {
   "property": "C41",
   "status": "partial",
   "theorems": [
    "C41_lost_redaction_refuted",
    "C41_panic_refuted",
    "C41_distinct_paths"
   ],
   "note": "Refuted: strings under equal paths share one storage entry, which loses a redaction (C41_lost_redaction_refuted) or panics (C41_panic_refuted). Proved: with distinct paths the entries are independent."
  },
  {
   "property": "C42",
   "status": "partial",
   "theorems": [
    "C42_simple_event",
    "C42_json_strings",
    "C42_json_laws",
    "C42_json_scalars_refuted",
    "C42_json_panics",
    "C42_json_reported",
    "C42_json_cause",
    "C42_map_object",
    "C42_map_fields"
   ],
   "note": "Refuted for JSON numbers and booleans (C42_json_scalars_refuted). Proved for simple events, for JSON strings, and for hash maps, which are scanned exactly as JSON objects (C42_map_object, C42_map_fields); binary events by C41_distinct_paths. How far the failure reaches: a scan of a JSON value does exactly what it does with numbers and booleans written as strings, or panics (C42_json_panics); it panics whenever something is to be reported about one, also if nothing is redacted (C42_json_reported), and only if an unblocked rule finds something in the text of one (C42_json_cause)."
  },
  {
   "property": "C43",
   "status": "proved",
   "theorems": [
    "C43_no_panic",
    "C43_bijection",
    "C43_one_live_regex",
    "C43_lookup",
    "C43_insertion",
    "C43_collection"
   ],
   "note": "Proved for every interleaving of atomic actions (lookup, compile, lock, single collection step, insert, drop, use) of any number of threads, including drops in the middle of a collection. The slot maps of the slotmap crate are modelled from memory. The count after a collection equals the number of live regexes if no regex is dropped while it runs; otherwise every entry was live when it began."
  },
  {
   "property": "C44",
   "status": "partial",
   "theorems": [
    "C44_caches",
    "C44_uses",
    "C44_panic_refuted",
    "C44_wrong_cache_refuted"
   ],
   "note": "Refuted for unbounded histories: after 2^30 reuses of a slot the lookup of a cache panics, and after 2^31 a cache of another regex is used (both proved by induction on a concrete history). Proved for all histories in which at most 2^30 regexes were stored."
  },
  {
   "property": "C45",
   "status": "partial",
   "theorems": [
    "C45_provenance",
    "C45_transparent",
    "C45_refuted",
    "C45_acceptance_refuted"
   ],
   "note": "Refuted: rules and keywords share the store, so a rule with the pattern \u00e9 becomes case insensitive while a keyword \u00e9 is alive, and an invalid rule is accepted. Proved: every regex handed out was compiled for the same pattern text, and the store is invisible in every history whose requests agree on what a pattern compiles to (for example only rules)."
  },
  {
   "property": "C46",
   "status": "partial",
   "theorems": [
    "C46_refuted",
    "C46_exact",
    "C46_regex_count"
   ],
   "note": "Refuted: the statistic is only ever decreased and becomes negative. Proved: its exact value, and that the statistic of the number of regexes is right whenever no collection runs."
  },
  {
   "property": "C47",
   "status": "partial",
   "theorems": [
    "C47_refuted",
    "C47_counter",
    "C47_in_order",
    "C47_some_count"
   ],
   "note": "Refuted: the counter and the gauge are updated in two steps, so two creations can leave the gauge at one. Proved: the counter is always right, the gauge is right once all calls completed if the gauge is set in the order of the counter updates, and it always is a number that was right at some time."
  },
  {
   "property": "C48",
   "status": "proved",
   "theorems": [
    "C48_combination",
    "C48_http",
    "C48_aws",
    "C48_scanner",
    "C48_list_refuted"
   ],
   "note": "The set of returned matches and statuses is independent of all iteration orders; the position of matches of different validators with equal start index is not (C48_list_refuted)."
  },
  {
   "property": "C49",
   "status": "partial",
   "theorems": [
    "C49_refuted",
    "C49_order",
    "C49_documented"
   ],
   "note": "Refuted: an error wins over Invalid although the comment says Valid > Invalid > Error. Proved: the exact order, and agreement with the comment for all other pairs."
  },
  {
   "property": "C50",
   "status": "partial",
   "theorems": [
    "C50_refuted",
    "C50_kept",
    "C50_same_kind",
    "C50_returns",
    "C50_value_refuted"
   ],
   "note": "Refuted: matches of rules without a validation type are dropped. Proved: exactly the others are kept, once each, only the status changed, sorted, and in their order within a validator; a missing match value panics in the HTTP validator (C50_value_refuted)."
  },
  {
   "property": "C51",
   "status": "partial",
   "theorems": [
    "C51_refuted",
    "C51_validators",
    "C51_own",
    "C51_aws"
   ],
   "note": "Refuted: two rules with the same endpoints share the configuration of the first. Proved: the validator comes from the first rule of each kind, and each match is validated by its own configuration when rules with equal endpoints have equal configurations."
  },
  {
   "property": "C52",
   "status": "partial",
   "theorems": [
    "C52_http",
    "C52_aws",
    "C52_aws_valid",
    "C52_definite_refuted",
    "C52_definite",
    "C52_signature_refuted"
   ],
   "note": "Refuted for AWS answers 1xx/3xx (left unchecked) and for signatures that are not header values (panic). Proved: the exact status for both validators, definite in all other cases."
  },
  {
   "property": "C53",
   "status": "proved",
   "theorems": [
    "C53_accepted",
    "C53_endpoints",
    "C53_builder",
    "C53_defaults",
    "C53_errors"
   ],
   "note": "Acceptance, endpoints, messages, builder."
  },
  {
   "property": "C54",
   "status": "proved",
   "theorems": [
    "C54_total",
    "C54_nesting",
    "C54_limit",
    "C54_depth_error",
    "C54_grammar"
   ],
   "note": "Total, recursion at most 51 deep, trees nested less than 50 deep, the limit exact, and every tree is one the grammar gives for the text."
  },
  {
   "property": "C55",
   "status": "partial",
   "theorems": [
    "C55_converted",
    "C55_pattern",
    "C55_text_refuted"
   ],
   "note": "Refuted at the level of the written text: a bound that does not fit 32 bits is read as literal text (C55_text_refuted). Proved exactly for the parsed pattern (C55_converted, C55_pattern)."
  },
  {
   "property": "C56",
   "status": "proved",
   "theorems": [
    "C56_printed",
    "C56_meaning",
    "C56_cleared"
   ],
   "note": "For all flag lists, on the printed text and on the converted items."
  },
  {
   "property": "C57",
   "status": "partial",
   "theorems": [
    "C57_faithful",
    "C57_pcre",
    "C57_preferred",
    "C57_depth",
    "C57_end_refuted",
    "C57_repeated_end_refuted",
    "C57_word_refuted",
    "C57_space_refuted",
    "C57_group_refuted",
    "C57_read_refuted"
   ],
   "note": "Refuted in six ways: $ and \\Z match the newline; a quantifier after $ is kept inside, so it is not about the newline (a$?b matches a, newline, b); with the flag i, \\w matches letters that are not ASCII; with the flag x, white space outside ASCII is dropped and repeated blanks change how the rest is read; some converted patterns are not read at all. Proved for all patterns outside these cases (the predicate faithful, with distinct group names): the converted text is read back by the regex crate with the same matches and the same preferences, with the meaning of $ given in the adapter, and with that of PCRE when there is no $ or \\Z; the nesting stays below the limit of the crate. A quantifier after quoted text (\\Qab\\E*) is about its last character, as in PCRE; empty quoted text with a quantifier is not covered. The parser of regex-syntax is written from memory."
  },
  {
   "property": "C58",
   "status": "proved",
   "theorems": [
    "C58_least",
    "C58_outcome"
   ],
   "note": "For every compile oracle that is monotone in the limit; a pattern that never compiles is reported as ten million (C58_outcome)."
  },
  {
   "property": "C59",
   "status": "partial",
   "theorems": [
    "C59_refuted",
    "C59_codes",
    "C59_go"
   ],
   "note": "Refuted: InvalidMatchValidator has the code of a panic (-5), and Go reports it as a panic. Proved: building never gives that error and never panics, so for every list of rules the code and the Go error tell the kind of the first error."
  },
  {
   "property": "C60",
   "status": "proved",
   "theorems": [
    "C60_result",
    "C60_one_error",
    "C60_scanner",
    "C60_behaves",
    "C60_matches_returned"
   ],
   "note": "For RegexRuleConfig, with arbitrary regex engines; the memoizing store is covered by C43-C45."
  },
  {
   "property": "C61",
   "status": "proved",
   "theorems": [
    "C61_order",
    "C61_strings_are_independent"
   ],
   "note": ""
  },
  {
   "property": "C62",
   "status": "proved",
   "theorems": [
    "C62_no_mutating_candidate_survives"
   ],
   "note": ""
  },
  {
   "property": "C63",
   "status": "proved",
   "theorems": [
    "C63_combined",
    "C63_rule_labels",
    "C63_serialized"
   ],
   "note": "On JSON values."
  },
  {
   "property": "C64",
   "status": "proved",
   "theorems": [
    "C64_reported_metadata"
   ],
   "note": ""
  },
  {
   "property": "C65",
   "status": "proved",
   "theorems": [
    "C65_iban_ignores_separators"
   ],
   "note": "The iban crate's parser and char::is_alphanumeric are parameters (see C98 for the parser)."
  },
  {
   "property": "C66",
   "status": "partial",
   "theorems": [
    "C66_first",
    "C66_refuted",
    "C66_found"
   ],
   "note": "Refuted: a key ending in + or / is not extracted. Proved: exactly what is extracted, and that a delimited key ending in a letter or digit is found."
  },
  {
   "property": "C67",
   "status": "proved",
   "theorems": [
    "C67_round_trip",
    "C67_injective",
    "C67_fields",
    "C67_defaults"
   ],
   "note": "On JSON values; durations are whole seconds and forced_datetime_utc is absent."
  },
  {
   "property": "C68",
   "status": "proved",
   "theorems": [
    "C68_go_rule",
    "C68_nil_slices"
   ],
   "note": "For strings that are valid UTF-8, without the feature utf16_hash_match_action (the build of the binding)."
  },
  {
   "property": "C69",
   "status": "proved",
   "theorems": [
    "C69_checks",
    "C69_scan",
    "C69_returns",
    "C69_included",
    "C69_alone",
    "C69_multipass"
   ],
   "note": "Engines are parameters that must behave (leftmost non-empty matches, earliest keywords). The converse says: replaced, or taken back by multi-pass because the same text was passed over at an excluded path, and C69_multipass that such texts are not reported. For rules with included keywords the converse is C69_included: the match found covers the start of the justified one or begins after the keyword (C25). For every scan that returns; C69_returns gives a condition for that, C10_built the exact one. NHS numbers and tokens are checked as C34 and C37 say."
  },
  {
   "property": "C70",
   "status": "proved",
   "theorems": [
    "C70_prefix"
   ],
   "note": ""
  },
  {
   "property": "C71",
   "status": "proved",
   "theorems": [
    "C71_safe",
    "C71_handles",
    "C71_library",
    "C71_scanner_is_independent"
   ],
   "note": "The allocator is a parameter that returns free addresses below 2^63 or aborts. Calls are atomic, except that a scan is in progress between its start and its end; building a scanner while another thread frees its list is outside the model."
  },
  {
   "property": "C72",
   "status": "proved",
   "theorems": [
    "C72_all_freed",
    "C72_create",
    "C72_same_result",
    "C72_scan",
    "C72_scan_events"
   ],
   "note": "The C string of the JSON text and the Go heap are not modelled. Scan is stated for a scan that other threads do not interrupt; interleavings are covered by C71 and C72_all_freed. C72_scan_events states ScanEventsMap and Scan with the event encoded, passed and decoded."
  },
  {
   "property": "C73",
   "status": "partial",
   "theorems": [
    "C73_deleted_refuted",
    "C73_busy_refuted",
    "C73_stale_refuted"
   ],
   "note": "Refuted: after every deletion a second Delete and every Scan are undefined behaviour (the identifier is 0, a null pointer); so is Delete during a scan; freeing a rule handle twice frees the rule of somebody else when the address has been used again. The correct uses are C71 and C72."
  },
  {
   "property": "C74",
   "status": "proved",
   "theorems": [
    "C74_pool_stacks"
   ],
   "note": "The pool itself (regex_automata_fork) is external."
  },
  {
   "property": "C75",
   "status": "proved",
   "theorems": [
    "C75_same_result",
    "C75_counts",
    "C75_values"
   ],
   "note": "The recorder is outside: increments are listed and summed per name and labels. The duration counter is left out. The searches counted are those of regex rules; the tallies assume strings on which the excluded keyword check does not panic (C22)."
  },
  {
   "property": "C76",
   "status": "partial",
   "theorems": [
    "C76_once_refuted",
    "C76_at_least"
   ],
   "note": "Refuted: the search resumes one character after a dropped match, so one suppressed match can be counted several times. Proved instead: the exact set of offsets that is counted (C75_counts), and that the counter is never below the number of missing matches."
  },
  {
   "property": "C77",
   "status": "proved",
   "theorems": [
    "C77_keyword_text",
    "C77_distinct"
   ],
   "note": "The syntax and meaning of the regex crate are those written in Model/RegexSyntax and Spec/RegexMeaning. Which letters differ in case only is a parameter. Memory limits are not modelled; the keywords are built without a size limit."
  },
  {
   "property": "C78",
   "status": "proved",
   "theorems": [
    "C78_rule_regex"
   ],
   "note": "Composition of C45_transparent and C57_faithful. With keywords and rules in the same store the property is false (C45)."
  },
  {
   "property": "C79",
   "status": "proved",
   "theorems": [
    "C79_scan",
    "C79_returns",
    "C79_included",
    "C79_alone",
    "C79_multipass"
   ],
   "note": "The regex crate is assumed to read texts as its syntax says (Model/RegexSyntax.v, Spec/RegexMeaning.v) and to find leftmost matches, the preferred one where it exists; an executable engine that meets this is proved correct and run in the Example. Patterns are those of which the conversion is faithful (C57) and that do not match the empty text. The converse says: replaced, or taken back by multi-pass (C79_multipass); with a secondary validator it is for the preferred match at a position; with included keywords it is C79_included. For every scan that returns; C79_returns gives a condition for that in terms of the patterns, C10_built the exact one."
  },
  {
   "property": "C80",
   "status": "proved",
   "theorems": [
    "C80_read",
    "C80_unique",
    "C80_refused"
   ],
   "note": "The rules are in Spec/Reading.v. Fuel of 51 or more is enough for every text (C54_total). Patterns are lists of characters; nom itself is represented by the parser combinators of Model/RegexParser.v."
  },
  {
   "property": "C81",
   "status": "partial",
   "theorems": [
    "C81_refuted",
    "C81_class"
   ],
   "note": "Refuted: a class at the end of a range is read as its letter, so [+-\\d] is the range from + to d, which contains the capital letters; before an ASCII class the range ends at the bracket. Proved instead: \\d in brackets is the class if the text before it does not end with a dash and has no brackets and backslashes."
  },
  {
   "property": "C82",
   "status": "proved",
   "theorems": [
    "C82_reader",
    "C82_unique",
    "C82_serde",
    "C82_cstring",
    "C82_go",
    "C82_valid"
   ],
   "note": "encoding/json, serde_json and CStr are external and written from memory in Model/JsonText.v; numbers outside the range of f64, which serde_json refuses, are kept as texts (no rule contains one). serde reads into the configuration directly, the model through a value; both refuse a field that occurs twice."
  },
  {
   "property": "C83",
   "status": "partial",
   "theorems": [
    "C83_refuted",
    "C83_valid"
   ],
   "note": "Refuted: json.Marshal writes each invalid byte as U+FFFD, so patterns that differ only in such bytes become the same rule, silently. Proved instead: rules whose strings are valid UTF-8 and that give the same configuration have the same pattern."
  },
  {
   "property": "C84",
   "status": "proved",
   "theorems": [
    "C84_tokens",
    "C84_base64",
    "C84_environment"
   ],
   "note": "The base64 crate and serde_json are external and written from memory (Model/Jwt.v, Model/JsonText.v). Which numbers are refused as too large for f64 is a parameter. Payloads that are not objects are accepted, see C37."
  },
  {
   "property": "C85",
   "status": "partial",
   "theorems": [
    "C85_fraction_refuted",
    "C85_integer"
   ],
   "note": "Refuted: as_i64 of a number with a fraction is None, so a token whose exp is 2000000000.5 is rejected as if it had expired (likewise 1e10 and integers from 2^63 on, in the Examples). Proved instead: if exp is an integer of 64 bits, a token is accepted exactly if it expires in the future."
  },
  {
   "property": "C86",
   "status": "proved",
   "theorems": [
    "C86_text",
    "C86_utf16",
    "C86_same",
    "C86_range",
    "C86_expected"
   ],
   "note": "farmhash is an external crate, written from memory after the published algorithm; all nine values in the unit tests of /repo agree (C86_expected, lengths 4, 8, 52, 104 and 128 bytes), and three published ones of 5, 8 and 11 bytes. The branches for 1-3 and for 17-32 bytes are reached by no test of /repo; values remembered from the table with which other farmhash libraries test themselves agree there (C86_expected_table), but that table could not be looked up offline."
  },
  {
   "property": "C87",
   "status": "partial",
   "theorems": [
    "C87_collision_refuted",
    "C87_width_refuted"
   ],
   "note": "Refuted: two tokens of 64 letters and digits with the same hash leave the scan as the same event (C87_collision_refuted), and hashes have 15 digits or fewer for one match in sixteen (C87_width_refuted). Proved instead (C86_same): two matches get the same text exactly if their fingerprints agree."
  },
  {
   "property": "C88",
   "status": "partial",
   "theorems": [
    "C88_refuted",
    "C88_sent",
    "C88_signed",
    "C88_date",
    "C88_abstraction"
   ],
   "note": "Refuted: the Host header and the region are constants, so even the default configuration sends Host: sts.us-east-1.amazonaws.com to sts.amazonaws.com. Proved instead: the exact request, that everything sent but the signature itself is signed, the format of the time, and that the model used for C50 to C52 is the projection of this one."
  },
  {
   "property": "C89",
   "status": "partial",
   "theorems": [
    "C89_lost_refuted",
    "C89_panics_refuted",
    "C89_received"
   ],
   "note": "Refuted: the size passes through a C int. A response of exactly 4 GiB arrives as an empty one, so Go keeps the secret and reports no match although the library redacted it (C89_lost_refuted); every response from 2 GiB to below 4 GiB makes Go panic (C89_panics_refuted). Proved instead: exactly which bytes arrive for every length; all of them iff there are fewer than 2^31."
  },
  {
   "property": "C90",
   "status": "partial",
   "theorems": [
    "C90_shared_refuted",
    "C90_cycle_refuted",
    "C90_unshared",
    "C90_encoding"
   ],
   "note": "Refuted: if a map occurs at two places, redacting the string at one of them changes the other as well, although its path is excluded and no match is reported there (C90_shared_refuted); a map that contains itself is encoded until the stack overflows (C90_cycle_refuted). Proved instead: without sharing, scanning in memory is scanning the tree and touches nothing else; with sharing, what is sent is the encoding of the tree, and something is sent iff the tree is finite. Slices that overlap partly are not modelled."
  },
  {
   "property": "C91",
   "status": "proved",
   "theorems": [
    "C91_shared",
    "C91_ignored",
    "C91_regex"
   ],
   "note": "For any rule types, all of whose values are elements of one Coq type. C91_ignored assumes that the sort looks at its order only by comparing."
  },
  {
   "property": "C92",
   "status": "partial",
   "theorems": [
    "C92_format",
    "C92_rejected",
    "C92_trusted",
    "C92_setting",
    "C92_extra_pop_refuted",
    "C92_extra_pop_panics"
   ],
   "note": "Refuted for one pop too many: it is accepted, and all strings after it are left unscanned without an error (C92_extra_pop_refuted, for all scanners and events); if a push or a pop follows, the scan panics. Proved: the decoder accepts exactly its format and panics on all other bytes, for both settings; where strings_are_valid_utf8 is defined it changes nothing."
  },
  {
   "property": "C93",
   "status": "partial",
   "theorems": [
    "C93_kept",
    "C93_again",
    "C93_alphabets",
    "C93_remainder_refuted",
    "C93_joined_refuted",
    "C93_partial_refuted",
    "C93_assertion_refuted"
   ],
   "note": "Refuted in general, in four ways: the rest of a match that was dropped because another match overlaps it stays in the result (C93_remainder_refuted: \"x12345\" becomes \"[A]2345\"); an empty replacement joins its surroundings (C93_joined_refuted); partial redaction leaves text that matches again (C93_partial_refuted); a replacement creates a word boundary (C93_assertion_refuted). Proved instead: for patterns without assertions, keywords and checks, without multi-pass or with no excluded paths, if matches of different rules do not overlap, no part that was left alone holds a secret, and with inert replacements the second scan changes and reports nothing; disjoint alphabets of the patterns suffice."
  },
  {
   "property": "C94",
   "status": "partial",
   "theorems": [
    "C94_reported",
    "C94_scanner",
    "C94_oracle",
    "C94_agree",
    "C94_dot_refuted",
    "C94_end_refuted"
   ],
   "note": "Refuted for the harness: it has Hyperscan read \".\" with dot_all, so its assertion fails for \"a.b\" on \"a\\nb\" (C94_dot_refuted), and for \"a$\\n\" on \"a\\n\" because the scanner lets \"$\" match the newline (C94_end_refuted). Proved: something is reported exactly if the pattern of a rule in scope matches somewhere (C94_reported, patterns with a faithful conversion that never match the empty text, no excluded scopes or no multi-pass); the assertion fails exactly if the two readings differ on the input (C94_oracle), hence never for patterns without \".\", \"$\" and \\Z (C94_agree). That Hyperscan reads patterns as PCRE with dot_all is assumed."
  },
  {
   "property": "C95",
   "status": "partial",
   "theorems": [
    "C95_parts",
    "C95_reached",
    "C95_actions",
    "C95_refuted"
   ],
   "note": "Refuted: patterns (and inputs) with a comma, such as a{2,3}, can never be reached (C95_refuted). Proved: pattern, input and seed are reached exactly if the texts have no comma and the seed is below 2^64; what bytes are read as; the actions that can be drawn, all of which are accepted."
  },
  {
   "property": "C96",
   "status": "proved",
   "theorems": [
    "C96_created",
    "C96_map",
    "C96_string"
   ],
   "note": "Conditions: the regex crate does what its syntax says (crate_ok), the allocator returns free addresses, strings are UTF-8 and shorter than 2^32/9 bytes, patterns convert faithfully (C57) and do not match the empty text, the response is shorter than 2 GiB (C89). The other outcomes are running out of memory and an error that leaves the event as it was; the error only comes if a window of excluded keywords is reversed (C22). Keys of Go maps are distinct."
  },
  {
   "property": "C97",
   "status": "partial",
   "theorems": [
    "C97_refuted",
    "C97_panics",
    "C97_apart",
    "C97_scanner_assertions",
    "C97_refines",
    "C97_cause"
   ],
   "note": "Refuted: the assertion target > prefix_start fails whenever a match begins where the included keyword begins (keyword key, text key123), so a debug build panics where the release build reports the match (C97_refuted; C97_panics: always, for the first keyword). Proved: otherwise both builds give the same matches and strings (C97_apart); the assertions of scanner/mod.rs never make a difference (C97_scanner_assertions). C97_refines: for all engines, rules and events a debug build does exactly what the release build does or panics; C97_cause: it differs only if a match begins where one of its included keywords begins."
  },
  {
   "property": "C98",
   "status": "proved",
   "theorems": [
    "C98_exact",
    "C98_single_errors",
    "C98_exchanges",
    "C98_check_digits"
   ],
   "note": "The parser of the crate iban_validate is written from memory; the six numbers in the unit tests of /repo get the expected answers (C98_exact_nonvacuous). The table of countries and char::is_alphanumeric are parameters; the theorems about errors assume that letters and digits of ASCII are alphanumeric. Replacing a letter by a digit is not covered: it changes the length of the number, and only the structure of the country can rule it out."
  },
  {
   "property": "C99",
   "status": "proved",
   "theorems": [
    "C99_same_result",
    "C99_scope",
    "C99_plain",
    "C99_keywords",
    "C99_again_refuted",
    "C99_scan",
    "C99_built"
   ],
   "note": "The time inside one search of an engine is not modelled (it belongs to regex_automata). The stronger statement that no search is repeated is refuted (C99_again_refuted). Calls are counted in scans that end; C10 shows when they do."
  },
  {
   "property": "C100",
   "status": "partial",
   "theorems": [
    "C100_detect_only",
    "C100_simple_event",
    "C100_multipass_refuted"
   ],
   "note": "Refuted with multi-pass V0 switched on (C100_multipass_refuted: a reporting rule that excludes one path makes another rule redact nothing in any path). Proved in all other cases: without multi-pass (C100_simple_event), and with it if the reporting rules add no text to those found in excluded paths (C100_detect_only)."
  },
  {
   "property": "C101",
   "status": "partial",
   "theorems": [
    "C101_more_rules_refuted",
    "C101_still_touched",
    "C101_apart"
   ],
   "note": "Refuted (C101_more_rules_refuted: 12345678 becomes 123[A] with one rule, [B]5678 with two). Proved instead, without multi-pass: every piece redacted with fewer rules shares a byte with one redacted with more (C101_still_touched); if the matches of the additional rules share no byte with the others, the pieces and replacements for the others are exactly the same (C101_apart)."
  },
  {
   "property": "C102",
   "status": "proved",
   "theorems": [
    "C102_order_of_rules",
    "C102_built"
   ],
   "note": "For arbitrary rules C102_order_of_rules, for built scanners and SimpleEvent C102_built, which also says that the scan of one panics iff that of the other does. Which of two rules wins a tie is C06."
  },
  {
   "property": "C103",
   "status": "partial",
   "theorems": [
    "C103_truthful",
    "C103_limits",
    "C103_distinct",
    "C103_empty_refuted"
   ],
   "note": "Refuted in one case: \"Empty keywords are not allowed\" is also said of excluded keywords made of dashes and underscores (C103_empty_refuted). Proved with \"empty\" meaning that nothing is left after trimming and dropping these (C103_truthful), with the limits exact (C103_limits) and texts distinct (C103_distinct)."
  },
  {
   "property": "C104",
   "status": "partial",
   "theorems": [
    "C104_nhs",
    "C104_nir",
    "C104_github",
    "C104_nhs_eleven_refuted"
   ],
   "note": "Refuted for NHS numbers with eleven digits, which are accepted and whose second digit is ignored (C104_nhs_eleven_refuted). Proved for at most ten digits, for NIRs and for GitHub tokens."
  },
  {
   "property": "C105",
   "status": "partial",
   "theorems": [
    "C105_refuted",
    "C105_exact",
    "C105_fits",
    "C105_go"
   ],
   "note": "Refuted: character_count is a usize and any number but zero is accepted; above isize::MAX the asterisks are too large for a string, and every scan with a match panics with a capacity overflow (C105_refuted). Proved: exactly that goes wrong (C105_exact), never if all counts are below 2^63 (C105_fits), and never for scanners built from Go rules, whose counts are 32-bit numbers (C105_go). Below the limit allocation is assumed to succeed."
  }
 ]
}