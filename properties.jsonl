{"id": "C01", "title": "Redaction is a simultaneous substitution", "statement": "After Scanner::scan, every scanned string equals the original string in which, for each reported match of a mutating rule, exactly the byte range chosen by that rule's action is replaced by the action's replacement text; every byte outside those ranges is unchanged and in its original order, although the code performs the edits one at a time on the already edited string with running byte deltas.", "quantifier": "all strings (any Unicode text), all finite sets of rules and actions, all hash functions, all sets of non-overlapping matches on char boundaries", "why_tests_cant": "Tests fix a few strings and rule lists; the claim is about every number of edits, every mix of growing and shrinking replacements and multi-byte characters, where a single wrong delta only shows up for some combinations.", "anchors": ["sds/src/scanner/mod.rs: apply_match_actions, apply_match_actions_for_string", "sds/src/match_action.rs: get_replacement"]}
{"id": "C02", "title": "Reported ranges point at the text that stands for the match", "statement": "For every RuleMatch returned by scan, start_index..end_index_exclusive, read in the encoding's units on the final string of that path, delimits exactly the text that the match became (the matched text itself for non-mutating rules, its redacted form otherwise), even though later matches of the same string continue to edit it.", "quantifier": "all strings, all rule lists, all encodings whose index is a sum of per-character weights (UTF-8 bytes, UTF-16 units, scalar values)", "why_tests_cant": "The index arithmetic mixes two running deltas and signed/unsigned casts; only a proof covers all combinations of previous edits and of encodings supplied by callers.", "anchors": ["sds/src/scanner/mod.rs: apply_match_actions_for_string", "sds/src/encoding.rs: Encoding, Utf8Encoding"]}
{"id": "C03", "title": "shift_offset is the accumulated length change", "statement": "For every returned RuleMatch, shift_offset equals the sum over this and all earlier matches of the same string of (length of replacement - length of replaced text), in encoding units; hence the original position of any text after the match is its position in the final string (before later edits) minus shift_offset.", "quantifier": "all strings, rules, and additive encodings", "why_tests_cant": "An inductive statement over an unbounded number of matches.", "anchors": ["sds/src/scanner/mod.rs: apply_match_actions_for_string", "sds/src/rule_match.rs: RuleMatch"]}
{"id": "C04", "title": "match_value is the original text", "statement": "When the scanner returns match values, each returned match_value is exactly the substring of the original, unmodified string that the rule matched, although it is read out of the string after earlier matches have already been edited; when the scanner does not return matches it is always None.", "quantifier": "all strings, rules, match sets", "why_tests_cant": "The copy is taken from the mutated string through shifted offsets; a test can only sample offsets.", "anchors": ["sds/src/scanner/mod.rs: apply_match_actions_for_string"]}
{"id": "C05", "title": "Retained matches are sorted, disjoint and genuine", "statement": "For each string the list of reported matches is sorted by start, no two (non-empty) reported matches overlap, and every one of them is a match that some rule produced on this string.", "quantifier": "all finite multisets of candidate matches from all rules", "why_tests_cant": "Quantifies over every multiset of overlapping candidates; the pop/continue loop only compares with the last retained mutating match.", "anchors": ["sds/src/scanner/mod.rs: sort_and_remove_overlapping_rules"]}
{"id": "C06", "title": "Overlap resolution is the greedy choice by documented priority", "statement": "A candidate is dropped if and only if it overlaps a retained candidate of higher priority, where priority is: mutating before non-mutating, then earlier start, then longer, then lower rule index. In particular no match of a mutating rule is ever lost to a non-mutating one, and the retained set is maximal.", "quantifier": "all finite multisets of candidate matches", "why_tests_cant": "Exactness (iff) over all candidate sets; the code uses a cheaper test (only the last retained) whose equivalence with the pairwise definition needs an invariant.", "anchors": ["sds/src/scanner/mod.rs: sort_and_remove_overlapping_rules"]}
{"id": "C07", "title": "Overlap resolution is independent of discovery order and of the unstable sort", "statement": "The reported matches of a string do not depend on the order in which rules were visited or matches found, nor on how the unstable sorts break ties.", "quantifier": "all permutations of the candidate matches and all sort implementations that return a sorted permutation", "why_tests_cant": "Tests run with one sort implementation and one visiting order.", "anchors": ["sds/src/scanner/mod.rs: sort_and_remove_overlapping_rules, visit_content"]}
{"id": "C08", "title": "Detect-only scanning never changes data", "statement": "If a string has no reported match of a mutating rule then scan leaves that string unchanged, reports shift_offset 0 and original indices; if no rule of the scanner is mutating then scan returns the event unchanged.", "quantifier": "all events, all rule sets", "why_tests_cant": "Universally quantified over events and rule sets.", "anchors": ["sds/src/scanner/mod.rs: scan, apply_match_actions_for_string", "sds/src/match_action.rs: is_mutating"]}
{"id": "C09", "title": "Partial redaction keeps exactly the unredacted characters", "statement": "For a partial redaction of n >= 1 characters applied to a non-empty match of c characters: the replaced range lies on char boundaries; the replacement is n '*'; if c > n the first (resp. last) n characters are replaced and the remaining c-n characters are preserved verbatim; if c <= n nothing of the match survives.", "quantifier": "all Unicode strings, all n >= 1, both directions", "why_tests_cant": "The code mixes byte indices from char_indices().nth / nth_back with character counts; multi-byte characters make the space of cases unbounded.", "anchors": ["sds/src/match_action.rs: get_replacement, partial_redaction_first, partial_redaction_last"]}
{"id": "C10", "title": "Scanning terminates and never panics", "statement": "For every SimpleEvent and every compiled rule set whose regexes only produce non-empty matches on char boundaries (the contract stated by the library), scan terminates without panicking: no slice is out of range or off a char boundary, no unwrap fails.", "quantifier": "all events, rule sets, scopes, keyword configurations, engines obeying the contract", "why_tests_cant": "Absence of panics and termination over an infinite input space.", "anchors": ["sds/src/scanner/mod.rs: scan", "sds/src/scanner/regex_rule/compiled.rs: TruePositiveSearch::next", "sds/src/proximity_keywords/mod.rs"]}
{"id": "C11", "title": "Patterns accepted at build time cannot make a scan loop", "statement": "Every pattern accepted by rule validation makes the scan of every string terminate. (Validation only rejects patterns that match the empty string; a pattern such as \\b is accepted yet produces empty matches on other inputs.)", "quantifier": "all patterns accepted by validation, all strings", "why_tests_cant": "Non-termination cannot be asserted by a unit test, and the validation check is performed on one input while the claim is about all inputs.", "anchors": ["sds/src/validation.rs: validate_and_create_regex", "sds/src/scanner/regex_rule/compiled.rs: TruePositiveSearch::next"]}
{"id": "C12", "title": "A rule is tried on a string iff its scope includes the path", "statement": "Without implicit wildcards: while scanning an event, a rule is run on a string iff its scope is an exclude-scope, or it is an include-scope and one of the include paths is a prefix of the path of the string.", "quantifier": "all rule sets, all scopes (any number of nested or duplicate paths), all events", "why_tests_cant": "The tree deduplicates inserted paths and removes redundant children, so the claim is about all interleavings of insertions of all rules.", "anchors": ["sds/src/scoped_ruleset/mod.rs: ScopedRuleSet::new, RuleTree, push_segment, RuleIndexVisitor"]}
{"id": "C13", "title": "A rule is run at most once per string", "statement": "For every string of an event each rule is visited at most once, with and without implicit index wildcards, even when several include paths of its scope (nested, duplicated, or reached through different wildcard expansions) cover the string.", "quantifier": "all rule sets, scopes, events", "why_tests_cant": "Duplicates are avoided by two different mechanisms depending on the flag (pruning at insertion, or a bit set at visit); both need invariants over all insertion orders.", "anchors": ["sds/src/scoped_ruleset/mod.rs: RuleTree::insert_rule_inner, RuleIndexVisitor", "sds/src/scoped_ruleset/bool_set.rs"]}
{"id": "C14", "title": "A path is excluded for a rule iff an exclude path covers it", "statement": "The exclusion test given to a rule on a string is true iff one of the exclude paths of that rule's scope is a prefix of the path of the string (for both include- and exclude-scopes).", "quantifier": "all rule sets, scopes, events", "why_tests_cant": "Same as C12: unbounded tree shapes and insertion orders.", "anchors": ["sds/src/scoped_ruleset/mod.rs: ExclusionCheck::is_excluded"]}
{"id": "C15", "title": "Implicit index wildcards", "statement": "With implicit index wildcards enabled, an include or exclude path covers a string iff it can be obtained from a prefix of the string's path by deleting some index segments such that no kept index immediately follows a deleted one.", "quantifier": "all rule sets, scopes, events with arbitrarily nested lists", "why_tests_cant": "The visitor keeps a dynamic set of active trees; the claim is that this set represents exactly all legal deletions for paths of any depth.", "anchors": ["sds/src/scoped_ruleset/mod.rs: push_segment, pop_segment"]}
{"id": "C16", "title": "Traversal state is restored by pops", "statement": "After any balanced sequence of push/pop/visit operations the visitor is in exactly the state it was in before, so what is reported for a string depends only on its own path and never on strings visited earlier.", "quantifier": "all balanced visit sequences", "why_tests_cant": "Invariant over unbounded operation sequences.", "anchors": ["sds/src/scoped_ruleset/mod.rs: push_segment, pop_segment, visit_string", "sds/src/event.rs: EventVisitor"]}
{"id": "C17", "title": "Excluded paths are never reported and suppress equal text (multi-pass V0)", "statement": "No match is reported (or redacted) at a path excluded for its rule, and with multi-pass enabled no match is reported whose text equals the text of a true-positive match of any rule found in a path excluded for that rule; with multi-pass disabled the reported matches are independent of what excluded paths contain.", "quantifier": "all events, rule sets, scopes", "why_tests_cant": "A cross-string (hyper)property: it relates matches in different strings, in every visiting order.", "anchors": ["sds/src/scanner/mod.rs: scan", "sds/src/scanner/regex_rule/compiled.rs: TruePositiveSearch::next"]}
{"id": "C18", "title": "Blocked rules have no effect", "statement": "A scan with a list of blocked rule indices returns exactly the matches and event that a scan returns in a scanner in which those rules find nothing: blocked rules report nothing, mutate nothing and do not contribute to multi-pass suppression.", "quantifier": "all events, rule sets, block lists", "why_tests_cant": "Relational property over two scans for all inputs.", "anchors": ["sds/src/scanner/mod.rs: visit_content"]}
{"id": "C19", "title": "Every reported match is a validated regex match", "statement": "For a regex rule, every match reported is a match of its regex on the string, passes its checksum validator (if any), and - for rules without included keywords - has no excluded keyword in its look-behind window; the matches emitted by one search are strictly increasing and pairwise disjoint.", "quantifier": "all regexes (arbitrary leftmost engine), validators, strings, start offsets", "why_tests_cant": "Universally quantified over regex engines' behaviours.", "anchors": ["sds/src/scanner/regex_rule/compiled.rs: TruePositiveSearch::next", "sds/src/scanner/mod.rs: is_false_positive_match, get_next_regex_start"]}
{"id": "C20", "title": "False positives do not hide true positives", "statement": "For a rule without included keywords, every position at which the regex matches and the match is not a false positive is either the start of a reported candidate or lies inside a previously reported candidate: rejecting a false positive never skips a true positive that starts later.", "quantifier": "all regexes, validators, strings", "why_tests_cant": "Completeness of a search over all strings; overlapping false positives make it easy to skip one.", "anchors": ["sds/src/scanner/regex_rule/compiled.rs: TruePositiveSearch::next", "sds/src/scanner/mod.rs: get_next_regex_start"]}
{"id": "C21", "title": "Excluded keywords always suppress", "statement": "A match preceded within the look-ahead window by an excluded keyword of its rule is not reported, whether or not the rule also has included keywords.", "quantifier": "all rules with both keyword lists, all strings", "why_tests_cant": "Two features interact only in rules using both; statement over all contents.", "anchors": ["sds/src/scanner/regex_rule/compiled.rs: get_string_matches_with_included_keywords", "sds/src/scanner/mod.rs: is_false_positive_match"]}
{"id": "C22", "title": "The excluded-keyword window is computed without panicking", "statement": "For every string and every match start the excluded keyword check terminates normally (its search span is within the stripped window).", "quantifier": "all strings, match starts, look-ahead sizes 1..50", "why_tests_cant": "Needs rare combinations (all preceding characters stripped and a multi-byte first character) that tests do not contain.", "anchors": ["sds/src/proximity_keywords/excluded_keywords.rs: contains_excluded_keyword_match"]}
{"id": "C23", "title": "The excluded-keyword window has the configured size", "statement": "An occurrence of an excluded keyword counts iff it lies within the look_ahead_character_count characters preceding the match (after removing '-' and '_').", "quantifier": "all strings, keywords, look-ahead sizes", "why_tests_cant": "Off-by-one and stripping interactions over all strings.", "anchors": ["sds/src/proximity_keywords/excluded_keywords.rs: contains_excluded_keyword_match"]}
{"id": "C24", "title": "Included keywords: nothing is reported without a keyword", "statement": "For a rule with included keywords (and path matching disabled), every reported match starts at or after the start of an occurrence of an included keyword and at most look_ahead_character_count characters after it.", "quantifier": "all regexes, keyword sets, strings", "why_tests_cant": "Soundness over all contents; the loop moves two cursors with skips.", "anchors": ["sds/src/scanner/regex_rule/compiled.rs: get_string_matches_with_included_keywords", "sds/src/proximity_keywords/included_keywords.rs"]}
{"id": "C25", "title": "Included keywords: nothing near a keyword is missed", "statement": "For a rule with included keywords, every true-positive match that starts within look_ahead_character_count characters after the start of a keyword occurrence is reported, unless it overlaps another reported match of the rule.", "quantifier": "all regexes, keyword sets, strings", "why_tests_cant": "Completeness of an optimised search with cursor skipping; needs a search over all layouts of keywords and matches.", "anchors": ["sds/src/scanner/regex_rule/compiled.rs: get_string_matches_with_included_keywords", "sds/src/proximity_keywords/included_keywords.rs: skip_to, next"]}
{"id": "C26", "title": "Keywords in the path enable every true positive", "statement": "With keyword matching on event paths enabled, if the sanitized path of a string contains an included keyword then every true positive of the rule's regex in that string is reported (up to overlap), independent of keywords in the content; if not, the result is the same as with the feature disabled.", "quantifier": "all strings, paths, rules", "why_tests_cant": "Two-run comparison over all inputs.", "anchors": ["sds/src/scanner/regex_rule/compiled.rs: get_string_matches_with_included_keywords", "sds/src/path.rs: sanitize"]}
{"id": "C27", "title": "Proximity is measured in characters", "statement": "The proximity test between a keyword start and a match start is true iff the number of characters between the two is at most the configured size, although the implementation first tries a byte comparison.", "quantifier": "all Unicode strings and char-boundary offsets", "why_tests_cant": "Byte fast path versus character slow path: equality over all strings.", "anchors": ["sds/src/proximity_keywords/mod.rs: is_index_within_prefix, get_prefix_start"]}
{"id": "C28", "title": "Keyword configurations are accepted exactly when documented", "statement": "Compilation of proximity keywords succeeds iff 1 <= look-ahead <= 50, at most 50 keywords per list, each keyword has at most look-ahead characters and is not empty after trimming (and removal of '-' and '_' for excluded keywords); otherwise the reported error is the first violated condition.", "quantifier": "all configurations", "why_tests_cant": "Decision procedure correctness over all inputs.", "anchors": ["sds/src/proximity_keywords/mod.rs: compile_keywords_proximity_config, compile_keywords_to_ast"]}
{"id": "C29", "title": "Lower/upper-case bypass does not change sanitized paths", "statement": "Sanitizing a path segment through the fast path (all lower case or all upper case) gives the same text as the general standardisation, for every segment.", "quantifier": "all segment strings", "why_tests_cant": "Equality of two code paths on all inputs.", "anchors": ["sds/src/path.rs: sanitize", "sds/src/proximity_keywords/mod.rs: should_bypass_standardize_path, standardize_path_chars"]}
{"id": "C30", "title": "A field named like a keyword satisfies the keyword", "statement": "For every accepted included keyword, a string stored under a field whose name is that keyword (anywhere in the path after another field) is recognised by the path search.", "quantifier": "all accepted keywords, all paths", "why_tests_cant": "Relates two independent normalisations (keyword to regex, path to text) for all Unicode keywords.", "anchors": ["sds/src/path.rs: sanitize", "sds/src/proximity_keywords/mod.rs: calculate_keyword_path_pattern"]}
{"id": "C31", "title": "Sanitized path is the dot-join of the sanitized fields", "statement": "The text searched for path keywords is the '.'-join of the sanitized field names of the path, index segments contributing nothing.", "quantifier": "all paths", "why_tests_cant": "All mixes of index and field segments.", "anchors": ["sds/src/path.rs: Path::sanitize"]}
{"id": "C32", "title": "Luhn validator is the Luhn algorithm", "statement": "The Luhn validator accepts a match iff the digits of the match satisfy the Luhn formula (ISO/IEC 7812: doubling every second digit from the right), ignoring all non-digit characters, and the match has a digit; it rejects every single-digit change of an accepted number and every swap of adjacent distinct digits other than 0 and 9.", "quantifier": "all strings", "why_tests_cant": "Error-detection is a statement about all numbers of all lengths.", "anchors": ["sds/src/secondary_validation/luhn_checksum.rs"]}
{"id": "C33", "title": "Chinese ID validator is ISO 7064 MOD 11-2", "statement": "The Chinese ID validator accepts an 18-character ASCII match iff its ISO 7064 MOD 11-2 checksum is correct; any single digit substitution or adjacent transposition in an accepted identifier is rejected.", "quantifier": "all strings", "why_tests_cant": "10^17 identifiers.", "anchors": ["sds/src/secondary_validation/chinese_id_checksum.rs"]}
{"id": "C34", "title": "NHS validator is the NHS modulus-11 check on 10-digit numbers", "statement": "The NHS validator accepts a match iff it consists of ten digits (separators ignored) satisfying the NHS modulus-11 check.", "quantifier": "all strings", "why_tests_cant": "The weights are applied from the right with a modulus difference; equality on all inputs and all lengths.", "anchors": ["sds/src/secondary_validation/nhs_check_digit.rs"]}
{"id": "C35", "title": "NIR validator is the INSEE key check", "statement": "The NIR validator accepts a match iff it contains exactly 15 digits (13-digit number, 2-digit key, Corsican departments handled as documented) with key = 97 - (number mod 97).", "quantifier": "all strings", "why_tests_cant": "All inputs.", "anchors": ["sds/src/secondary_validation/nir_checksum.rs"]}
{"id": "C36", "title": "GitHub token validator accepts every genuine token", "statement": "A token prefix_payload+checksum where checksum is the six-character (zero padded) base62 encoding of the CRC32 of the payload is accepted, and no other alphanumeric payload/checksum combination is.", "quantifier": "all payloads", "why_tests_cant": "Only payloads with a small CRC32 expose the missing padding.", "anchors": ["sds/src/secondary_validation/github_token_checksum.rs"]}
{"id": "C37", "title": "JWT validator rejects expired tokens", "statement": "The JWT validator accepts a match iff it has three dot separated segments, the first two base64url-decode to JSON objects and the exp claim, if present as required, is later than the current time.", "quantifier": "all strings, all clock values", "why_tests_cant": "Depends on the clock; all decoded payloads.", "anchors": ["sds/src/secondary_validation/jwt_expiration_checker.rs"]}
{"id": "C38", "title": "Event encoding round-trips between Go and Rust", "statement": "Decoding in Rust what the Go binding encodes for a string, list or map event yields a visit sequence that presents exactly the strings of the event, each once, with its path, for every map iteration order.", "quantifier": "all Go events, all map iteration orders", "why_tests_cant": "Round-trip law over all trees and byte strings; Go map order is random.", "anchors": ["sds-bindings-utils/src/binary_encoding.rs: BinaryEvent", "sds-go/go/scanner.go: encodeStringEvent, encodeListEvent, encodeMapEvent"]}
{"id": "C39", "title": "Scan response encoding round-trips between Rust and Go", "statement": "Decoding in Go what Rust encodes as scan response yields the same rule matches (rule index, path text, replacement type, indices, shift offset) and mutations, whenever all lengths and indices fit 32 bits; truncation beyond that is characterised.", "quantifier": "all responses", "why_tests_cant": "Round-trip law over all responses including negative shift offsets.", "anchors": ["sds-bindings-utils/src/binary_encoding.rs: encode_response", "sds-go/go/scanner.go: decodeResponse, decodeMatch, decodeMutation"]}
{"id": "C40", "title": "A scan through the binding equals a direct scan", "statement": "Scanning an event through the binary encoding and applying the returned mutations yields the same event as scanning the event directly, provided no two strings share a path.", "quantifier": "all events", "why_tests_cant": "Composition of encoder, decoder, scanner and mutation applier.", "anchors": ["sds-bindings-utils/src/binary_encoding.rs: BinaryEvent::visit_string_mut", "sds-go/go/scanner.go: ScanEventsMap"]}
{"id": "C41", "title": "Two strings with the same path are handled independently", "statement": "In the binary event, strings visited under equal paths are scanned and redacted independently of each other.", "quantifier": "all binary events (including ones with repeated paths)", "why_tests_cant": "Needs adversarial encodings.", "anchors": ["sds-bindings-utils/src/binary_encoding.rs: BinaryEvent::visit_event, visit_string_mut"]}
{"id": "C42", "title": "Every visited string can be mutated", "statement": "For every event type, for each path handed to the visitor, visit_string_mut with that path reaches exactly the string that was visited, without panicking.", "quantifier": "all events", "why_tests_cant": "All trees and key sets.", "anchors": ["sds/src/simple_event.rs", "sds/src/event_json.rs", "sds/src/event.rs"]}
{"id": "C43", "title": "The regex store is consistent under any interleaving", "statement": "For every interleaving of lookups, compilations, insertions, drops and garbage collections by any number of threads: the store's two maps stay in bijection, no internal unwrap fails, at most one live compiled regex exists per pattern, a dropped regex is never handed out, and the number of entries right after a collection equals the number of live regexes.", "quantifier": "all interleavings of operations of any number of threads", "why_tests_cant": "Concurrency and reference counts: interleavings cannot be enumerated by tests.", "anchors": ["sds/src/scanner/regex_rule/regex_store.rs: RegexStore, get_memoized_regex_with_custom_store"]}
{"id": "C44", "title": "Per-thread caches are never used with the wrong regex", "statement": "The cache a thread uses for a regex was created for that same compiled regex, and cache lookup never fails, for every history of creations, drops and collections.", "quantifier": "all histories", "why_tests_cant": "Depends on key reuse across garbage collections.", "anchors": ["sds/src/scanner/regex_rule/regex_cache_store.rs: RegexCaches", "sds/src/scanner/regex_rule/regex_store.rs: RegexCacheKey"]}
{"id": "C45", "title": "Memoization is transparent", "statement": "The behaviour of a rule depends only on its own configuration, not on which other rules, keywords or scanners exist or existed in the process.", "quantifier": "all pairs of histories", "why_tests_cant": "Hyperproperty over process histories; needs two rules that share a memo key with different compile options.", "anchors": ["sds/src/scanner/regex_rule/regex_store.rs: get_memoized_regex", "sds/src/proximity_keywords/mod.rs: compile_keywords"]}
{"id": "C46", "title": "Cache-size statistic is the size of the stored caches", "statement": "The reported total regex cache size equals the sum of the cache sizes of the entries in the store, in particular it is never negative.", "quantifier": "all histories", "why_tests_cant": "Invariant over histories.", "anchors": ["sds/src/scanner/regex_rule/regex_store.rs: insert, gc", "sds/src/stats.rs: add_total_regex_cache"]}
{"id": "C47", "title": "Scanner-count gauge is right when the system is quiescent", "statement": "After all concurrent scanner creations and deletions have completed, the exported number-of-scanners gauge equals creations minus deletions.", "quantifier": "all interleavings of creations and deletions", "why_tests_cant": "A race between an atomic counter update and the gauge update.", "anchors": ["sds/src/stats.rs: increment_total_scanners, decrement_total_scanners"]}
{"id": "C48", "title": "Combining validation results is schedule independent", "statement": "The final status of each match does not depend on the order in which validation requests complete: combination is associative, commutative, idempotent and never lowers a status.", "quantifier": "all multisets and orders of results", "why_tests_cant": "All schedules of a parallel validator.", "anchors": ["sds/src/match_validation/match_status.rs: merge", "sds/src/match_validation/http_validator.rs: validate", "sds/src/match_validation/aws_validator.rs: validate"]}
{"id": "C49", "title": "Documented status priority", "statement": "Combining statuses keeps the highest in the documented order Valid > Invalid > Error > NotAvailable > NotChecked.", "quantifier": "all pairs of statuses", "why_tests_cant": "Documentation versus derived ordering.", "anchors": ["sds/src/match_validation/match_status.rs: MatchStatus"]}
{"id": "C50", "title": "Validation preserves the reported matches", "statement": "validate_matches returns the same matches it was given (same rule, path, indices, value), only with updated status: none lost, none duplicated.", "quantifier": "all match lists and rule sets", "why_tests_cant": "Only mixed rule sets show the loss.", "anchors": ["sds/src/scanner/mod.rs: validate_matches"]}
{"id": "C51", "title": "Each match is validated with its own rule's configuration", "statement": "A match is validated with the HTTP configuration (method, headers, status ranges) of the rule that produced it.", "quantifier": "all rule sets", "why_tests_cant": "Needs rules sharing endpoints with different settings.", "anchors": ["sds/src/scanner/mod.rs: build, validate_matches", "sds/src/match_validation/config.rs: get_internal_match_validation_type"]}
{"id": "C52", "title": "HTTP status classification", "statement": "A response status in a valid range gives Valid; otherwise in an invalid range Invalid; otherwise Error; and with several hosts the best result wins. AWS: a pair of credentials is Valid iff some response is a 2xx, and every checked match ends with a definite status.", "quantifier": "all statuses, ranges, hosts, match sets", "why_tests_cant": "All combinations.", "anchors": ["sds/src/match_validation/http_validator.rs", "sds/src/match_validation/aws_validator.rs"]}
{"id": "C53", "title": "Endpoint expansion", "statement": "HttpValidatorConfig accepts an endpoint iff it contains $HOST exactly when hosts are given, and then yields one endpoint per host with every occurrence of $HOST replaced.", "quantifier": "all endpoint strings and host lists", "why_tests_cant": "String replacement over all inputs.", "anchors": ["sds/src/match_validation/config.rs: HttpValidatorConfig::new"]}
{"id": "C54", "title": "The pattern parser is total and depth bounded", "statement": "Parsing terminates on every pattern text with an AST or an error; an AST is only produced if groups are nested less than 50 deep, and parsing succeeds or fails without unbounded recursion.", "quantifier": "all pattern strings", "why_tests_cant": "Adversarial nesting and lengths.", "anchors": ["sds/src/parser/regex_parser.rs: parse_regex_pattern, group, RECURSION_LIMIT"]}
{"id": "C55", "title": "Quantifier bounds are enforced everywhere", "statement": "A pattern is rejected for its quantifiers iff somewhere in it a counted repetition exceeds 3000 (min or max), at any nesting.", "quantifier": "all patterns", "why_tests_cant": "All nestings.", "anchors": ["sds/src/normalization/rust_regex_adapter.rs: convert_quantifier, QUANTIFIER_LIMIT"]}
{"id": "C56", "title": "Flag normalisation preserves meaning", "statement": "Removing duplicate flags keeps the meaning of the flag group: a flag ends up set iff it is listed before '-' and not after it, unset iff listed after it; the printed group has no repeated flags.", "quantifier": "all flag lists", "why_tests_cant": "All lists.", "anchors": ["sds/src/normalization/rust_regex_adapter.rs: convert_flags"]}
{"id": "C57", "title": "Conversion preserves the matched language", "statement": "The converted pattern (as reparsed from its printed text by the regex engine) matches the same strings as the source pattern under its documented meaning.", "quantifier": "all patterns accepted by the parser", "why_tests_cant": "Semantic equivalence over all patterns and inputs.", "anchors": ["sds/src/normalization/rust_regex_adapter.rs: convert_ast"]}
{"id": "C58", "title": "Complexity estimate is the least sufficient limit", "statement": "The complexity estimate of an accepted pattern is the smallest size limit under which it compiles (when at most 10,000,000).", "quantifier": "all monotone compile oracles", "why_tests_cant": "Binary search correctness over all thresholds.", "anchors": ["sds/src/validation.rs: get_regex_complexity_estimate_very_slow"]}
{"id": "C59", "title": "Error codes are unambiguous", "statement": "Distinct failures of scanner creation have distinct negative codes at the binding interface.", "quantifier": "all error values", "why_tests_cant": "Cross-crate convention.", "anchors": ["sds/src/scanner/error.rs", "sds-go/rust/src/native/mod.rs", "sds-go/rust/src/native/create_scanner.rs"]}
{"id": "C60", "title": "Building a scanner reports the first invalid rule", "statement": "build succeeds iff all rules are valid, and otherwise returns the error of the lowest-index invalid rule (regex errors before action errors before keyword errors within a rule); match values are returned iff some rule has a validation type that can validate.", "quantifier": "all rule lists", "why_tests_cant": "All lists.", "anchors": ["sds/src/scanner/mod.rs: ScannerBuilder::build", "sds/src/scanner/regex_rule/config.rs: convert_to_compiled_rule"]}
{"id": "C61", "title": "Strings are processed independently", "statement": "With multi-pass disabled, the matches reported for a string and its redacted value depend only on its path and content, not on the other strings of the event nor on their order.", "quantifier": "all events", "why_tests_cant": "Relational property over all events.", "anchors": ["sds/src/scanner/mod.rs: scan"]}
{"id": "C62", "title": "Redaction leaves no mutating candidate in place", "statement": "After a scan, every candidate match of a mutating rule (after multi-pass filtering) overlaps text that was redacted: for full redaction and hashing actions each of its overlapping retained matches was replaced.", "quantifier": "all events and rule sets", "why_tests_cant": "Combination of overlap resolution and editing.", "anchors": ["sds/src/scanner/mod.rs: sort_and_remove_overlapping_rules, apply_match_actions"]}
{"id": "C63", "title": "Labels keep order and all entries", "statement": "Combining labels keeps all scanner labels followed by all rule labels, and serialisation of labels round-trips.", "quantifier": "all label lists", "why_tests_cant": "All lists.", "anchors": ["sds/src/observability/labels.rs"]}
{"id": "C64", "title": "Reports carry the metadata of their rule", "statement": "Every reported match carries the index of the rule that found it, the path of the string it was found in, the replacement type documented for the rule's action, and the initial match status NotChecked exactly when the rule has a third-party validator and NotAvailable otherwise.", "quantifier": "all events and rule sets", "why_tests_cant": "All combinations of actions, validators and overlaps.", "anchors": ["sds/src/scanner/mod.rs: apply_match_actions", "sds/src/match_action.rs: replacement_type"]}
{"id": "C65", "title": "IBAN validation ignores separators", "statement": "Inserting or removing characters that are not alphanumeric anywhere in a match does not change the answer of the IBAN validator.", "quantifier": "all strings", "why_tests_cant": "All positions and separators.", "anchors": ["sds/src/secondary_validation/iban_checker.rs"]}
{"id": "C66", "title": "AWS secret keys are extracted from the match", "statement": "The AWS validator signs with the first 40-character key (letters, digits, / and +) of the secret match: a key that is delimited by other characters is found and nothing else is sent.", "quantifier": "all match values", "why_tests_cant": "All strings around and inside the key; the boundary rule of the pattern interacts with the alphabet of keys.", "anchors": ["sds/src/match_validation/aws_validator.rs: extract_aws_secret_from_match"]}
{"id": "C67", "title": "Rule configurations survive serialization", "statement": "A rule configuration written as JSON is read back unchanged; different configurations are written differently; the order of fields does not matter, unknown fields are ignored, and only the pattern and the action are needed.", "quantifier": "all rule configurations whose numbers fit their types, and all JSON objects", "why_tests_cant": "The space of configurations is infinite; the tests check a handful of JSON texts.", "anchors": ["sds/src/scanner/regex_rule/config.rs: RegexRuleConfig", "sds/src/match_action.rs", "sds/src/scanner/scope.rs", "sds/src/path.rs", "sds/src/match_validation/config.rs", "sds/src/observability/labels.rs"]}
{"id": "C68", "title": "Go rules become the rules they describe", "statement": "The configuration that the Rust side reads from the JSON written by the Go binding is the one the Go rule describes, and rules with unknown actions, directions or validators are refused.", "quantifier": "all Go rules", "why_tests_cant": "The two sides are separate programs in different languages that meet only in hand-written JSON; tests cover a few rules.", "anchors": ["sds-go/go/regex_rule.go: MarshalJSON, CreateRule", "sds-go/rust/src/native/rule.rs: create_regex_rule", "sds/src/scanner/regex_rule/config.rs"]}
{"id": "C69", "title": "From configuration to result", "statement": "If a scanner can be built from rule configurations and a scan of an event returns, every replaced piece is a match that the configuration of its rule justifies: found by the pattern, in scope, passing the configured secondary validator, shortly after an included keyword (or with one in the path) if there are any, and replaced as the configured action says. Conversely a justified match of a redacting rule without included keywords does not survive unless multi-pass takes it back, which it does exactly for texts passed over at excluded paths; with included keywords, the rule finds a justified match that covers its start or begins between the keyword and it, and that does not survive.", "quantifier": "all rule configurations, events, blocked rules and behaving engines", "why_tests_cant": "The path from a configuration to a redacted text crosses pattern conversion, compilation, scoping, search, validation, overlap resolution and rewriting; tests exercise single points of it.", "anchors": ["sds/src/scanner/mod.rs: ScannerBuilder::build, scan", "sds/src/scanner/regex_rule/config.rs: convert_to_compiled_rule", "sds/src/secondary_validation/mod.rs", "sds/src/scanner/regex_rule/compiled.rs"]}
{"id": "C70", "title": "Path prefixes", "statement": "Path::starts_with holds exactly if the path is the prefix followed by further segments.", "quantifier": "all paths", "why_tests_cant": "Lengths and contents of both paths are unbounded.", "anchors": ["sds/src/path.rs: starts_with"]}
{"id": "C71", "title": "Handles of the native library are memory safe", "statement": "For a client that uses each handle as the kind of object it is, frees it once and deletes no scanner during a scan, no call of the native library reads freed memory or memory of another kind, whatever the order of calls, the reuse of addresses, shared rules, concurrent scans and panics; each call returns what it would if handles were plain values, and a scanner does not depend on the rules and lists it was made from.", "quantifier": "all histories of calls, all allocators that return free addresses", "why_tests_cant": "Use after free shows only for particular orders of frees, reference counts and address reuse; tests create and delete in one order.", "anchors": ["sds-go/rust/src/native/rule.rs", "sds-go/rust/src/native/create_scanner.rs", "sds-go/rust/src/native/delete_scanner.rs", "sds-go/rust/src/native/scan.rs"]}
{"id": "C72", "title": "The Go binding leaks nothing", "statement": "When a client has freed what it holds nothing is left in native memory. CreateScanner and Scan of the Go binding, on every path including refused rules, errors and panics, leave nothing behind but the scanner that is returned, and return what the library computes.", "quantifier": "all rules, events and histories of calls", "why_tests_cant": "Each early return has its own cleanup; tests do not observe native memory.", "anchors": ["sds-go/go/scanner.go: CreateScanner, lowLevelScan", "sds-go/go/rule.go", "sds-go/go/regex_rule.go: CreateRule", "sds-go/rust/src/native/scan.rs: free_vec, free_string"]}
{"id": "C73", "title": "Misuse of handles is noticed", "statement": "Deleting a scanner twice, scanning with a deleted scanner, deleting a scanner during a scan and freeing a handle twice are harmless or reported as errors.", "quantifier": "all histories of calls", "why_tests_cant": "Undefined behaviour may look like success in a test.", "anchors": ["sds-go/go/scanner.go: Delete", "sds-go/rust/src/native/delete_scanner.rs", "sds-go/rust/src/native/rule.rs: free_any_rule"]}
{"id": "C74", "title": "The shared pool gets the documented number of stacks", "statement": "The pool gets the least power of two, from 4 to 64, that is not below the count it is made for, and 64 for larger counts.", "quantifier": "all counts", "why_tests_cant": "Only a few counts are tried.", "anchors": ["sds/src/scanner/shared_pool.rs: SharedPool::new"]}
{"id": "C75", "title": "The metrics say what happened and change nothing", "statement": "Counting changes neither the event nor the reports. Each scan adds one to scanned_events and the number of reported matches to match_count; excluded_match counts the matches in scope whose text was also found in an excluded path; proximity_keywords counts the offsets at which a match stands behind an excluded keyword; rule counters carry the labels of the scanner followed by those of the rule.", "quantifier": "all scanners, events and sequences of scans", "why_tests_cant": "The tests count to one, with one rule and no labels.", "anchors": ["sds/src/scanner/metrics.rs", "sds/src/scanner/mod.rs: scan, process_string, metrics_test", "sds/src/proximity_keywords/excluded_keywords.rs", "sds/src/scanner/regex_rule/compiled.rs: on_excluded_match_multipass_v0"]}
{"id": "C76", "title": "The counter of excluded keywords counts each suppressed match once", "statement": "The counter false_positive.proximity_keywords grows by the number of matches that are not reported because of an excluded keyword.", "quantifier": "all rules with excluded keywords and all strings", "why_tests_cant": "The test has one literal match.", "anchors": ["sds/src/proximity_keywords/excluded_keywords.rs: is_false_positive_match", "sds/src/scanner/mod.rs: get_next_regex_start"]}
{"id": "C77", "title": "The regex text of keywords is readable and means the keywords", "statement": "For keywords that are accepted, the texts printed for their content and path patterns are read by the regex crate, below its limit on nesting, so that the unwrap of the built regexes does not panic for a syntax error; compiled to ignore case they match exactly where one of the keywords stands as documented (literally, between ASCII word boundaries at its alphanumeric ends).", "quantifier": "all accepted lists of keywords, all characters, all texts and positions", "why_tests_cant": "The tests compare the printed text of a handful of keywords, mostly without characters special to regexes.", "anchors": ["sds/src/proximity_keywords/mod.rs: compile_keywords, compile_keywords_to_ast, calculate_keyword_content_pattern, calculate_keyword_path_pattern"]}
{"id": "C78", "title": "The shared regex of a rule means its pattern", "statement": "As long as only rules use the store, the regex that a rule is given, new or shared, means what the pattern of the rule means, for every pattern whose conversion is faithful.", "quantifier": "all histories of requests, collections and drops, all faithful patterns, all texts", "why_tests_cant": "The tests of the store never match a text with a shared regex.", "anchors": ["sds/src/scanner/regex_rule/regex_store.rs: get_memoized_regex", "sds/src/validation.rs: validate_and_create_regex", "sds/src/parser/regex_parser.rs", "sds/src/normalization/rust_regex_adapter.rs"]}
{"id": "C79", "title": "From the texts of patterns and keywords to the result", "statement": "If a scanner can be built and the regex crate implements its documented syntax, in every scan that returns every replaced piece of the event is a match of the pattern of its rule as the pattern is written in the SDS syntax, the preferred match at its start, in scope, passing the check, with keywords as configured, and replaced as the action says. Conversely a match as written of a redacting rule does not survive, unless multi-pass takes it back because the same text was passed over at an excluded path.", "quantifier": "all rule configurations with faithfully converted, non-empty patterns, all events, all engines that implement the regex syntax", "why_tests_cant": "This joins the meaning of the SDS syntax, its conversion, the reading of the converted text, keyword texts and the whole scan; tests see single patterns on single strings.", "anchors": ["sds/src/scanner/mod.rs: ScannerBuilder::build, scan", "sds/src/normalization/rust_regex_adapter.rs", "sds/src/proximity_keywords/mod.rs", "sds/src/scanner/regex_rule/compiled.rs"]}
{"id": "C80", "title": "How a pattern is read, exactly", "statement": "The parser accepts a pattern exactly if the written-down reading rules (longest quantifier, complete hexadecimal escapes, ranges before literals, the first alternative that applies) give a tree for the whole text, returns that tree, which is unique and one the grammar allows, and refuses every other pattern with a syntax error or because of its nesting.", "quantifier": "all pattern texts of any length, all trees", "why_tests_cant": "The language is infinite, and what a combinator parser takes depends on the order of alternatives and on text far ahead; tests list some fifty patterns.", "anchors": ["sds/src/parser/regex_parser.rs: all parsers"]}
{"id": "C81", "title": "A class named inside brackets is read as the class", "statement": "Inside brackets, \\d (and likewise the other named classes) stands for the class of digits, whatever stands before it.", "quantifier": "all texts before the class", "why_tests_cant": "The tests have no class after a dash.", "anchors": ["sds/src/parser/regex_parser.rs: bracket_character_class_item, bracket_character_class_item_range"]}
{"id": "C82", "title": "JSON texts of rules survive the boundary", "statement": "A text is read as a JSON value exactly when it is a document for that value by the grammar of RFC 8259 and is nested at most 127 deep, and a text is a document for at most one value. The text serde writes for a configuration reads back as the configuration. For every rule of Go, whatever bytes its strings hold, the C string handed to Rust is the UTF-8 of a JSON document without a NUL, and Rust gets the configuration the rule stands for with its strings read as text (a byte that begins no character as U+FFFD).", "quantifier": "all texts and values; all configurations whose numbers fit; all rules of Go over arbitrary bytes; both string escapings of encoding/json (before and since Go 1.22)", "why_tests_cant": "Escapes, control characters, surrogates, invalid UTF-8 and NUL bytes combine freely in patterns and keywords; tests check a few ASCII rules.", "anchors": ["sds-go/go/regex_rule.go: CreateRule, MarshalJSON", "sds-go/rust/src/native/rule.rs: create_regex_rule", "sds/src/scanner/regex_rule/config.rs: RegexRuleConfig"]}
{"id": "C83", "title": "Different patterns of Go are different rules", "statement": "Two rules of Go that give the same configuration have the same pattern.", "quantifier": "all rules of Go, with patterns of arbitrary bytes", "why_tests_cant": "Needs two patterns that differ only in invalid UTF-8; no error is returned.", "anchors": ["sds-go/go/regex_rule.go: CreateRule", "sds-go/rust/src/native/mod.rs: read_json"]}
{"id": "C84", "title": "JWT validator accepts exactly the unexpired tokens, by characters", "statement": "The JWT validator accepts a text iff it has three segments of which the first two are base64url (RFC 4648, unpadded, without stray bits) of the UTF-8 of JSON documents nested at most 127 deep, and the exp claim of the payload, if there is one, is an integer of 64 bits later than the clock; of several exp claims the last one counts. No two texts decode to the same bytes.", "quantifier": "all texts, all clock values, every choice of which numbers are too large for f64", "why_tests_cant": "Left over bits, lengths, escapes in names, repeated names and limits of numbers combine; the tests decode four tokens.", "anchors": ["sds/src/secondary_validation/jwt_expiration_checker.rs: decode_segments, decode_segment, is_valid_match"]}
{"id": "C85", "title": "Tokens that have not expired are accepted", "statement": "A token with two JSON segments whose exp claim lies in the future by RFC 7519 (NumericDate is any JSON number) is accepted.", "quantifier": "all tokens and clock values", "why_tests_cant": "Needs a time with a fraction or an exponent, which RFC 7519 allows and the tests never use.", "anchors": ["sds/src/secondary_validation/jwt_expiration_checker.rs: is_valid_match"]}
{"id": "C86", "title": "Hashed matches are replaced by the fingerprint in hexadecimal", "statement": "A match hashed by Hash (Utf16Hash) is replaced by the 64-bit fingerprint of its UTF-8 bytes (UTF-16 bytes, little-endian), in lower-case hexadecimal without leading zeros, 1 to 16 digits. Two matches get the same text iff their fingerprints are the same. The fingerprints are the values the unit tests of the repository expect.", "quantifier": "all matched texts; for the shape, every fingerprint function of 64 bits", "why_tests_cant": "Numbers with leading zeros and characters outside the first plane are rare among random inputs; the tests hash a handful of texts.", "anchors": ["sds/src/match_action.rs: hash, utf16_hash"]}
{"id": "C87", "title": "Hashing keeps different secrets apart", "statement": "Different matches are replaced by different hashes, all of the same length, so that secrets can be told apart after the scan.", "quantifier": "all pairs of matched texts", "why_tests_cant": "No random test meets a collision of 64 bits; the witness was constructed from the structure of the hash.", "anchors": ["sds/src/match_action.rs: hash"]}
{"id": "C88", "title": "Requests that validate AWS keys name the host they are sent to", "statement": "Every request of the AWS validator is a POST to the configured endpoint whose Host header names the host of that endpoint, and whose signature covers the method, the URL, the time, the body and all other headers that are sent.", "quantifier": "all configurations, times, ids and secrets, every signing function", "why_tests_cant": "The tests use one mock server, which looks at the path and the signature only.", "anchors": ["sds/src/match_validation/validator_utils.rs: generate_aws_headers_and_body", "sds/src/match_validation/aws_validator.rs: validate", "sds/src/match_validation/config.rs: AwsConfig::default"]}
{"id": "C89", "title": "Responses of every size arrive", "statement": "Whatever the number of bytes of the response of the native library, the Go binding decodes exactly the bytes the library wrote, so that the event Go ends with is the one the library produced.", "quantifier": "for all scanners, events and lengths of the response", "why_tests_cant": "No test makes a response of 2 GiB; the conversion C.int(retsize) changes no smaller size.", "anchors": ["sds-go/go/scanner.go: lowLevelScan", "sds-go/rust/src/native/scan.rs: scan"]}
{"id": "C90", "title": "Go events may share their parts", "statement": "Scanning a Go event in memory changes exactly the strings that the library redacted, also when a map or a slice occurs at several places of the event, and it terminates for every event that Go can build.", "quantifier": "for all heaps of maps and slices, all events in them and all scanners", "why_tests_cant": "The tests of the binding scan events written as literals, in which no map or slice occurs twice; the set of sharing patterns and cycles is infinite.", "anchors": ["sds-go/go/scanner.go: ScanEventsMap, encodeMapEvent, encodeListEvent, applyStringMutation"]}
{"id": "C91", "title": "Rules share data exactly by type", "statement": "In a scanner of rules of any kinds, each rule is given the group data that the last rule with the same GroupData type left in the same string (or its own new data), the config processed by all rules with the same GroupConfig type in the order of the rules, and the cache that the last rule with the same RuleScanCache type left in the same event; the look-ups and downcasts never panic; rules without data, such as the regex rules, behave as if there were none.", "quantifier": "for all lists of rules, all types of their data, all events, blocked rules and features", "why_tests_cant": "The only rules with data are in tests of one rule type each; which rule creates the data depends on the order of the rules, the blocked rules and the scopes.", "anchors": ["sds/src/scanner/mod.rs: impl CompiledRuleDyn for T, ScannerBuilder::build, ScannerContentVisitor::visit_content", "sds/src/scanner/regex_rule/compiled.rs: impl CompiledRule for RegexCompiledRule"]}
{"id": "C92", "title": "Malformed binary events are rejected", "statement": "The decoder of binary events accepts exactly the bytes of its format and shows the visitor the operations they stand for; any other bytes, including bytes in which pushes and pops do not match, are an error and never silently skip strings. The setting strings_are_valid_utf8 changes nothing for events whose strings are UTF-8.", "quantifier": "for all byte sequences, both settings, all scanners", "why_tests_cant": "The tests decode a handful of well-formed events; malformed ones are an infinite set, and the loss of strings after an extra pop raises no error.", "anchors": ["sds-bindings-utils/src/binary_encoding.rs: BinaryEvent::visit_event", "sds/src/scoped_ruleset/mod.rs: push_segment, pop_segment"]}
{"id": "C93", "title": "A scanned event holds no secret any more", "statement": "If the rules redact what they look for, scanning the result of a scan finds nothing: no text that a rule in scope looks for occurs in the result, the second scan changes no string and reports nothing.", "quantifier": "for all rules given by the texts of their patterns and actions, all events and all regex engines that search as the syntax says", "why_tests_cant": "Every test scans once; whether a second scan finds something depends on patterns, replacements and overlaps together, and the number of combinations is infinite.", "anchors": ["sds/src/scanner/mod.rs: scan, sort_and_remove_overlapping_rules, apply_match_actions", "sds/src/match_action.rs: get_replacement", "sds/src/scanner/regex_rule/compiled.rs: get_string_matches"]}
{"id": "C94", "title": "Something is reported exactly if a pattern matches, as the fuzz harness asserts", "statement": "For rules without keywords and checks something is reported for a string exactly if the pattern of a rule in scope matches somewhere in it. The fuzz harness, which compares this with Hyperscan, therefore never fails its assertion if both engines work.", "quantifier": "for all rules given by the texts of their patterns, all actions, events and inputs, all regex engines and all implementations of Hyperscan that search as the syntax says", "why_tests_cant": "The harness tries random inputs and needs Hyperscan; that its assertion holds for all patterns and inputs, or for which it cannot hold, is a statement about all of them.", "anchors": ["sds/tools/fuzz/src/main.rs: run_fuzz, compile_hyperscan", "sds/src/scanner/mod.rs: scan, sort_and_remove_overlapping_rules", "sds/src/scanner/regex_rule/config.rs: RegexRuleConfig::new"]}
{"id": "C95", "title": "Every pattern and every input can be fuzzed", "statement": "The bytes given to the fuzz harness are split into pattern, input and seed such that each combination of a pattern, an input and a 64-bit seed can be reached, and the actions drawn are accepted by the scanner.", "quantifier": "for all byte sequences, all texts and all seeds", "why_tests_cant": "A fuzzer cannot notice what it never reaches.", "anchors": ["sds/tools/fuzz/src/main.rs: split_bytes_once, run_raw_fuzz, gen_match_action"]}
{"id": "C96", "title": "From the rules of a Go program to its events", "statement": "A Go program that creates a scanner from its rules, makes any other careful calls from any threads and then scans an event gets back its event in which exactly pieces that its rules, as written, account for are replaced as the rules say, with the matches of these pieces; no rule that redacts is passed over and nothing else that it holds changes.", "quantifier": "all rules with strings in UTF-8 and faithful patterns, all histories of calls that do not delete the scanner, all events", "why_tests_cant": "Composes the Go encoder, JSON, the C interface, native memory, the pattern parser, the regex engine, scanning, redaction, the binary response and the Go decoder; no test runs through all of it for more than a few events.", "anchors": ["sds-go/go/scanner.go: CreateScanner, Scan, ScanEventsMap", "sds-go/go/regex_rule.go: CreateRule", "sds-go/rust/src/native/scan.rs", "sds/src/scanner/mod.rs: Scanner::scan"]}
{"id": "C97", "title": "Debug builds scan as release builds do", "statement": "In a build with debug assertions a scan returns exactly when the release build returns, with the same event and the same matches: no debug assertion of the scanner or of the keyword search fails.", "quantifier": "all regex rules with and without included keywords, all events, all encodings", "why_tests_cant": "Tests run in debug builds only on the texts they contain; that an assertion holds for all texts, or fails for a simple one, does not follow.", "anchors": ["sds/src/proximity_keywords/mod.rs: is_index_within_prefix (131-133)", "sds/src/scanner/mod.rs: apply_match_actions_for_string (482-496)", "sds/src/scanner/regex_rule/compiled.rs: get_string_matches_with_included_keywords"]}
{"id": "C98", "title": "IBAN validator is the check of ISO 13616", "statement": "The IBAN validator accepts exactly the matches whose letters and digits are two capital letters, two check digits and an account with the structure of its country whose number is 1 modulo 97. An accepted number with one digit or letter replaced by another, or with two different digits (or two different letters) exchanged wherever they stand, is rejected; for each account the check digits are determined up to 97.", "quantifier": "all texts with any separators, all tables of countries", "why_tests_cant": "Six numbers are tested. That every replacement and every exchange is noticed rests on 97 being prime and on 10 being a primitive root modulo 97, for all numbers of up to 34 characters.", "anchors": ["sds/src/secondary_validation/iban_checker.rs: IbanChecker::is_valid_match"]}
{"id": "C99", "title": "A scan calls regex engines linearly often", "statement": "A scan of S strings with N characters in all by R rules calls the search functions of regexes (of rules, included keywords and excluded keywords) at most 5 R (N + S) times. A rule without included keywords searches each offset of a string at most once, in ascending order. With included keywords the searches for one string of n characters are at most 4 n + 3 of the rule and n + 2 of the keywords, whatever the look-ahead; some offsets are searched twice.", "quantifier": "all rules, keywords, look-aheads, validators, strings and events, all engines that return leftmost matches", "why_tests_cant": "Nested loops restart the search for every keyword and step one character after each match a validator rejects. Whether that is quadratic on adversarial input is a question about all inputs; benchmarks take a few.", "anchors": ["sds/src/scanner/regex_rule/compiled.rs: get_string_matches_with_included_keywords, TruePositiveSearch::next", "sds/src/proximity_keywords/included_keywords.rs: IncludedKeywordSearch"]}
{"id": "C100", "title": "Rules that only report never change what is redacted", "statement": "Adding rules without an action (MatchAction::None) to a scanner, or blocking them, changes neither the resulting event nor the reports of the rules that have one.", "quantifier": "all events, rule sets, scopes, actions, blocked rules and encodings", "why_tests_cant": "Overlap resolution, offsets and the exclusion pass mix the matches of all rules; a test compares one pair of rule sets on one event.", "anchors": ["sds/src/scanner/mod.rs: sort_and_remove_overlapping_rules, apply_match_actions, process_rules"]}
{"id": "C101", "title": "More rules redact at least as much", "statement": "Every character that is redacted by a set of rules is also redacted if rules are added to the set.", "quantifier": "all rule sets, events and additional rules", "why_tests_cant": "Whether an additional rule can uncover text depends on how its matches lie relative to those of others; unit tests do not compare rule sets.", "anchors": ["sds/src/scanner/mod.rs: sort_and_remove_overlapping_rules"]}
{"id": "C102", "title": "The order of rules only decides ties", "statement": "Building a scanner from the same rules in another order changes nothing but the rule numbers in the reports, unless two rules that both redact, or both only report, find exactly the same range.", "quantifier": "all rule sets, permutations, events and blocked rules", "why_tests_cant": "There are n! orders; indices are used in the scope tree, the exclusion check, the keyword cache and the tie break, and any of them could leak into the result.", "anchors": ["sds/src/scanner/mod.rs: sort_and_remove_overlapping_rules, ScannerBuilder::build", "sds/src/scanner/scope.rs", "sds/src/scoped_ruleset/mod.rs"]}
{"id": "C103", "title": "The texts of errors are true", "statement": "If a scanner cannot be built, the text of the error says something true about one of the rules, the numbers in it are the limits that are enforced and no others, and different errors have different texts.", "quantifier": "all lists of rule configurations and engines", "why_tests_cant": "Each text is one claim about all configurations that lead to it; the tests compare the texts of nine errors with constants, not with the configurations.", "anchors": ["sds/src/scanner/error.rs", "sds/src/validation.rs: RegexValidationError", "sds/src/proximity_keywords/mod.rs: ProximityKeywordsValidationError", "sds/src/match_action.rs: MatchActionValidationError"]}
{"id": "C104", "title": "Checksums catch typing errors", "statement": "If one digit of an accepted NHS number or NIR is changed, or two different neighbouring digits are exchanged, the number is rejected; a GitHub token is rejected if up to four characters in a row of its payload, or its checksum, are changed.", "quantifier": "all texts with accepted numbers and all such changes of them", "why_tests_cant": "There are 10^15 numbers, and 36^n tokens with 36^4 changes at each place; tests try a handful of wrong numbers.", "anchors": ["sds/src/secondary_validation/nhs_check_digit.rs", "sds/src/secondary_validation/nir_checksum.rs", "sds/src/secondary_validation/github_token_checksum.rs"]}
{"id": "C105", "title": "Accepted actions can be carried out", "statement": "If a scanner was built, the action of each of its rules can be carried out on every match: no scan panics because of a replacement.", "quantifier": "all rules that are accepted, all counts of partial redaction up to usize::MAX, and all events", "why_tests_cant": "The counts are 64-bit numbers and the failure needs one above isize::MAX; tests use counts below ten.", "anchors": ["sds/src/match_action.rs: validate, partial_redaction_first, partial_redaction_last", "sds/src/scanner/mod.rs: apply_match_actions_for_string"]}
