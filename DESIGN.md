# Design of the Rocq model of dd-sensitive-data-scanner

The code under study is the Rust crate `sds` (the scanner library), the crate
`sds-bindings-utils` (binary event encoding), and the Go binding (`sds-go/rust`, `sds-go/go`).
Everything is modelled by hand in Coq 8.16.1; /repo is only read as text.

## Layout

Below `rocq/theories`:

* `Model/`: definitions only; each cites the file and lines it transcribes and says what it
  simplifies.
* `Spec/`: the vocabulary of the theorems (relations, inductive definitions), written without
  the helper functions of the model.
* `Proofs/`: lemmas.  `Proofs/<Area>Claims.v` ends with one lemma per theorem.
* `Examples/`: concrete engines, rules and events used by the non-vacuity examples.  Nothing
  there models code.  `Examples/ScannerTests.v`, `Examples/UnitTests.v`,
  `Examples/RegexTests.v` and `Examples/OtherTests.v` replay the unit tests of the repository
  on the model, and `Examples/GoTests.v` the tests of the Go package, through native memory
  (same rules, same inputs, same expected outputs), to check the transcription itself.
  Not replayed: tests of threads, of durations, of metrics, of regex complexity
  estimates, and of rules that are no regex rules.
* `Thm/`: the theorems named in MANIFEST.json and nothing else but examples; each is closed by
  `exact`, with `Print Assumptions` beneath and an `Example` that meets its hypotheses.

`seeded/LOG.jsonl` records mutations of the model (wrong programs) and the theorems that fail
for them.

## How the model is written

* Rust `&str` / `String` is a list of Unicode scalar values (`list N`).  A byte offset is a
  `nat`; the number of UTF-8 bytes of a character is computed from the code point.  Slicing at
  a byte offset that is out of range or not on a char boundary is a panic, as in Rust.
* Functions that can panic or fail to terminate return `outcome A` (`Ret a | Panic | Diverge`).
  Unbounded loops take fuel and return `Diverge` when it runs out; theorems either show that a
  bound computed from the input is enough or, for refuted termination claims, that no fuel is.
* Signed casts are computed in `Z`; a negative result is the panic value (in Rust it would wrap
  and then panic in the slice).  Overflow of `usize`/`isize` itself is not modelled (a `String`
  is at most `isize::MAX` bytes; the panic above that is added in C105 only).  Fixed-width integers that can overflow in practice (`u32`
  sums of checksums, 32-bit fields of the binary encoding, versions of slots, quantifier
  bounds) are modelled with their width.
* External code is a parameter: the regex engine, `farmhash` (except in C86, C87), HTTP, the clock, the IBAN
  crate, Unicode case folding.  Theorems quantify over all of them; what is
  assumed of a parameter is visible as a hypothesis of the theorem.
* Unstable sorts and hash-map iteration orders are parameters as well (any sorted permutation /
  any permutation), so the theorems hold for every implementation and every random seed.
* Concurrency (regex store, statistics) is a transition system of atomic actions; theorems hold
  for every reachable state of every interleaving.
* Native memory is a heap of objects with reference counts; using an address that holds nothing or
  another kind of object is `Undefined`.  The allocator is a parameter and may reuse addresses.

## Which code is modelled

| Code | Model | Left out |
|------|-------|----------|
| sds/src/match_action.rs, encoding.rs, rule_match.rs | MatchAction, Hash, Encoding, Scanner | nothing of it (the hash function is a parameter of the scan theorems; the crate `farmhash` is modelled concretely for C86 and C87) |
| sds/src/scanner/mod.rs (scan, overlaps, visitor, builder) | Scanner, GroupData, MatchValidation, Builder | timing; rules other than regex rules enter through a contract (C91 for the data they share) |
| sds/src/scanner/regex_rule/compiled.rs | RegexRule, Calls (the calls of engines) | the regex engine (parameter) |
| sds/src/scanner/regex_rule/{regex_store,regex_cache_store}.rs, stats.rs | RegexStore, RegexFactories, Stats | memory ordering below sequential consistency; the slot maps of the slotmap crate are written from memory |
| sds/src/scanner/regex_rule/config.rs, scanner/{scope,error}.rs, observability/labels.rs | Config, Builder, JsonText, Messages | the range of f64; struct-as-array forms of serde |
| sds/src/proximity_keywords/*.rs, path.rs | Keywords, Path | |
| sds/src/scoped_ruleset/*.rs | ScopedRuleset | |
| sds/src/secondary_validation/*.rs | Checksums, Jwt, Iban | the table of countries of the iban crate, `char::is_alphanumeric` and the range of f64 (parameters); crc32fast, base62, base64 and JSON texts are modelled concretely |
| sds/src/{event,simple_event,event_json}.rs | Event, MapEvents | |
| sds/src/match_validation/*.rs | MatchStatus, MatchValidation, AwsRequest | the network and SigV4 signing (parameters), rayon (any order) |
| sds/src/parser/*.rs, normalization/rust_regex_adapter.rs | Ast, RegexParser, RegexAdapter, RegexSyntax | error messages of nom; regex-syntax's AST, printer and parser are external and written from memory |
| sds/src/validation.rs | Validation | `regex_automata` (parameter) |
| sds-bindings-utils/src/binary_encoding.rs, sds-go/rust/src/native/*.rs | Binary, TrustedBinary, Builder, Native, JsonText | what happens after undefined behaviour; calls that overlap, except scans |
| sds-go/go/{scanner,regex_rule,rule}.go | GoBinding, GoHeap, Config, Builder, Native | slices that overlap partly |
| sds/src/scanner/{metrics,shared_pool}.rs | Metrics | the recorder of the metrics crate, the duration counter, the pool of regex_automata_fork |
| sds/tools/fuzz/src/main.rs | Fuzz | StdRng (numbers drawn are a parameter), Hyperscan (a parameter, assumed to read patterns as PCRE with dot_all), the entry points and output for manual tests |
| benches, other tools | not modelled | |

## Trusted base

The Coq kernel (coqc 8.16.1, including `vm_compute`), and the reading of the Rust and Go text
into Gallina.  No axioms are used; see the last section.  Modules of the standard library that
are loaded for `lia` and `ssreflect`-style tactics declare parameters in
`Coq.ssr.ssrunder.Under_rel`; no theorem depends on them, as `Print Assumptions` shows.

## Per property

Status `proved`: the property as stated in properties.jsonl.  Status `partial`: the
property as first stated is false or wider than what is proved; the note says what holds.

### C01 Redaction is a simultaneous substitution

*Modelled:* `get_replacement`, `apply_match_actions(_for_string)` for an arbitrary additive encoding, `scan`  
*Proof:* invariant: edited string = rendered done part ++ untouched rest; induction over the sorted disjoint matches against a declarative one-pass substitution  
*Status:* proved — Any event obeying the event laws (proved for String and SimpleEvent), any sorted-permutation sort, rules meeting the finder contract (proved for regex rules).  
*Theorems:* `C01_redaction_is_substitution`, `C01_simple_event`

### C02 Reported ranges point at the text that stands for the match

*Modelled:* `get_replacement`, `apply_match_actions(_for_string)` for an arbitrary additive encoding, `scan`  
*Proof:* invariant: edited string = rendered done part ++ untouched rest; induction over the sorted disjoint matches against a declarative one-pass substitution  
*Status:* proved  
*Theorems:* `C02_reported_ranges`

### C03 shift_offset is the accumulated length change

*Modelled:* `get_replacement`, `apply_match_actions(_for_string)` for an arbitrary additive encoding, `scan`  
*Proof:* invariant: edited string = rendered done part ++ untouched rest; induction over the sorted disjoint matches against a declarative one-pass substitution  
*Status:* proved  
*Theorems:* `C03_shift_is_accumulated_change`

### C04 match_value is the original text

*Modelled:* `get_replacement`, `apply_match_actions(_for_string)` for an arbitrary additive encoding, `scan`  
*Proof:* invariant: edited string = rendered done part ++ untouched rest; induction over the sorted disjoint matches against a declarative one-pass substitution  
*Status:* proved  
*Theorems:* `C04_match_value_is_original_text`

### C05 Retained matches are sorted, disjoint and genuine

*Modelled:* `sort_and_remove_overlapping_rules` with arbitrary sort functions  
*Proof:* greedy loop invariant; iff characterisation by priority; uniqueness of sorted permutations  
*Status:* proved  
*Theorems:* `C05_sorted_disjoint_genuine`

### C06 Overlap resolution is the greedy choice by documented priority

*Modelled:* `sort_and_remove_overlapping_rules` with arbitrary sort functions  
*Proof:* greedy loop invariant; iff characterisation by priority; uniqueness of sorted permutations  
*Status:* proved  
*Theorems:* `C06_greedy_by_priority`, `C06_mutating_never_lost`

### C07 Overlap resolution is independent of discovery order and of the unstable sort

*Modelled:* `sort_and_remove_overlapping_rules` with arbitrary sort functions  
*Proof:* greedy loop invariant; iff characterisation by priority; uniqueness of sorted permutations  
*Status:* proved  
*Theorems:* `C07_discovery_order_irrelevant`, `C07_simple_event`, `C07_overlap_resolution`

### C08 Detect-only scanning never changes data

*Modelled:* `scan`  
*Proof:* corollary of C01 and of the event laws  
*Status:* proved  
*Theorems:* `C08_unredacted_string_unchanged`, `C08_detect_only_scanner`

### C09 Partial redaction keeps exactly the unredacted characters

*Modelled:* partial redaction  
*Proof:* char/byte index lemmas  
*Status:* proved  
*Theorems:* `C09_partial_redaction`

### C10 Scanning terminates and never panics

*Modelled:* the whole `scan`  
*Proof:* fuel bound and slice preconditions through all layers; exactly: every search either comes to a reversed window and panics or returns the same as in a scanner whose rules return nothing instead of a panic, for which the scan theorems hold  
*Status:* partial — Refuted as stated: a reversed excluded-keyword window panics (C22_excluded_window_panics_refuted). The exact condition is proved: C10_exact says the scan of a SimpleEvent panics iff the search of some unblocked rule in scope comes to a candidate with a reversed window, and returns in all other cases; C10_built says so of every scanner that can be built; C10_result gives the full result whenever the scan returns; C10_ascii: never for one-byte characters. C10_scan_returns_partial is the earlier, weaker form (no candidate at all has a reversed window).  
*Theorems:* `C10_exact`, `C10_result`, `C10_ascii`, `C10_built`, `C10_scan_returns_partial`

### C11 Patterns accepted at build time cannot make a scan loop

*Modelled:* pattern validation and search loop  
*Proof:* refuted by a word boundary engine; exact condition by loop invariant  
*Status:* partial — Refuted: \b is accepted and makes the scan of "a" loop. Proved instead: a rule without keywords and validator terminates on a string iff its repeated search never comes to an empty match.  
*Theorems:* `C11_accepted_pattern_loops_refuted`, `C11_terminates_iff_nonempty_matches`

### C12 A rule is tried on a string iff its scope includes the path

*Modelled:* `RuleTree`, visitor stack machine, `BoolSet`  
*Proof:* tree semantics as a relation, invariants over all insertions; stack invariant by induction over the visit sequence  
*Status:* proved  
*Theorems:* `C12_rules_by_include_path`

### C13 A rule is run at most once per string

*Modelled:* `RuleTree`, visitor stack machine, `BoolSet`  
*Proof:* tree semantics as a relation, invariants over all insertions; stack invariant by induction over the visit sequence  
*Status:* proved  
*Theorems:* `C13_each_rule_once`

### C14 A path is excluded for a rule iff an exclude path covers it

*Modelled:* `RuleTree`, visitor stack machine, `BoolSet`  
*Proof:* tree semantics as a relation, invariants over all insertions; stack invariant by induction over the visit sequence  
*Status:* proved  
*Theorems:* `C14_excluded_by_prefix`

### C15 Implicit index wildcards

*Modelled:* `RuleTree`, visitor stack machine, `BoolSet`  
*Proof:* tree semantics as a relation, invariants over all insertions; stack invariant by induction over the visit sequence  
*Status:* proved  
*Theorems:* `C15_implicit_wildcards`

### C16 Traversal state is restored by pops

*Modelled:* `RuleTree`, visitor stack machine, `BoolSet`  
*Proof:* tree semantics as a relation, invariants over all insertions; stack invariant by induction over the visit sequence  
*Status:* proved  
*Theorems:* `C16_balanced_restores_state`, `C16_only_the_path_matters`

### C17 Excluded paths are never reported and suppress equal text (multi-pass V0)

*Modelled:* scan with the excluded-match set and the block list  
*Proof:* composition of the above  
*Status:* proved  
*Theorems:* `C17_excluded_paths`, `C17_excluded_texts_of_regex_rules`

### C18 Blocked rules have no effect

*Modelled:* scan with the excluded-match set and the block list  
*Proof:* composition of the above  
*Status:* proved  
*Theorems:* `C18_blocked_rules_find_nothing`, `C18_simple_event`

### C19 Every reported match is a validated regex match

*Modelled:* `TruePositiveSearch` with an arbitrary leftmost engine  
*Proof:* loop invariant and measure  
*Status:* proved  
*Theorems:* `C19_plain_search`, `C19_reported_matches`

### C20 False positives do not hide true positives

*Modelled:* `TruePositiveSearch` with an arbitrary leftmost engine  
*Proof:* loop invariant and measure  
*Status:* proved  
*Theorems:* `C20_no_true_positive_is_skipped`

### C21 Excluded keywords always suppress

*Modelled:* excluded keyword window  
*Proof:* witnesses by computation; exact window theorem  
*Status:* partial — Refuted when the rule also has included keywords (excluded keywords are then never checked). Proved for rules without included keywords.  
*Theorems:* `C21_ignored_with_included_keywords_refuted`, `C21_without_included_keywords`

### C22 The excluded-keyword window is computed without panicking

*Modelled:* excluded keyword window  
*Proof:* witnesses by computation; exact window theorem  
*Status:* partial — Refuted: L+1 dashes before a match starting with a multi-byte character panic. Proved: the exact condition for the panic.  
*Theorems:* `C22_panics_iff_span_reversed`, `C22_excluded_window_panics_refuted`

### C23 The excluded-keyword window has the configured size

*Modelled:* excluded keyword window  
*Proof:* witnesses by computation; exact window theorem  
*Status:* partial — Refuted when the character before the window or the first character of the match is '-' or '_'. Proved to hold in all other cases, for the keyword patterns built by the library.  
*Theorems:* `C23_window`, `C23_window_shifted_refuted`

### C24 Included keywords: nothing is reported without a keyword

*Modelled:* included keyword loop  
*Proof:* loop invariant; witness against full completeness; exact positive result  
*Status:* proved  
*Theorems:* `C24_only_after_a_keyword`, `C24_reported_after_a_keyword`

### C25 Included keywords: nothing near a keyword is missed

*Modelled:* included keyword loop  
*Proof:* loop invariant; witness against full completeness; exact positive result  
*Status:* partial — Refuted: a true positive near a second keyword is missed when an earlier match was attributed to the first keyword. Proved: it is covered by an emitted match, or another match between keyword and it is emitted.  
*Theorems:* `C25_missed_near_a_keyword_refuted`, `C25_near_a_keyword`

### C26 Keywords in the path enable every true positive

*Modelled:* included keyword loop  
*Proof:* loop invariant; witness against full completeness; exact positive result  
*Status:* proved  
*Theorems:* `C26_keyword_in_path`

### C27 Proximity is measured in characters

*Modelled:* `is_index_within_prefix`, `get_prefix_start`  
*Proof:* char counting lemmas  
*Status:* proved  
*Theorems:* `C27_proximity_in_characters`

### C28 Keyword configurations are accepted exactly when documented

*Modelled:* keyword compilation, path sanitising  
*Proof:* case analysis, induction over characters  
*Status:* proved  
*Theorems:* `C28_accepted_configurations`, `C28_meaning_of_keywords`

### C29 Lower/upper-case bypass does not change sanitized paths

*Modelled:* keyword compilation, path sanitising  
*Proof:* case analysis, induction over characters  
*Status:* proved  
*Theorems:* `C29_standardization`, `C29_bypass_changes_nothing`

### C30 A field named like a keyword satisfies the keyword

*Modelled:* keyword compilation, path sanitising  
*Proof:* case analysis, induction over characters  
*Status:* partial — Refuted as first stated: a field whose name is the keyword written with trailing white space ("aB ") is standardized differently from the keyword (C30_untrimmed_name_refuted). Proved for fields named like the trimmed keyword, at any position in the path.  
*Theorems:* `C30_field_named_like_keyword`, `C30_untrimmed_name_refuted`

### C31 Sanitized path is the dot-join of the sanitized fields

*Modelled:* keyword compilation, path sanitising  
*Proof:* case analysis, induction over characters  
*Status:* partial — Refuted as first stated: a path that starts with an index gets a leading '.' (C31_leading_index_refuted, with the exact text in that case). Proved for all paths that do not start with an index.  
*Theorems:* `C31_sanitized_path`, `C31_leading_index_refuted`

### C32 Luhn validator is the Luhn algorithm

*Modelled:* checksum validators, CRC32, base62  
*Proof:* algebra modulo 10/11/97, witnesses by computation  
*Status:* proved — For matches short enough that the u32 sum cannot overflow (fewer than 477 million characters).  
*Theorems:* `C32_luhn_formula`, `C32_single_digit_errors`, `C32_transpositions`

### C33 Chinese ID validator is ISO 7064 MOD 11-2

*Modelled:* checksum validators, CRC32, base62  
*Proof:* algebra modulo 10/11/97, witnesses by computation  
*Status:* proved  
*Theorems:* `C33_iso7064`, `C33_single_errors`, `C33_transpositions`

### C34 NHS validator is the NHS modulus-11 check on 10-digit numbers

*Modelled:* checksum validators, CRC32, base62  
*Proof:* algebra modulo 10/11/97, witnesses by computation  
*Status:* partial — Refuted as first stated: fewer than ten digits (even none) and eleven digits can be accepted (C34_other_lengths_refuted gives the exact condition for every length). Proved for exactly ten digits.  
*Theorems:* `C34_ten_digits`, `C34_other_lengths_refuted`

### C35 NIR validator is the INSEE key check

*Modelled:* checksum validators, CRC32, base62  
*Proof:* algebra modulo 10/11/97, witnesses by computation  
*Status:* proved — Corsican numbers (2A/2B) have fewer than 15 digits once letters are ignored, hence are rejected.  
*Theorems:* `C35_insee_key`

### C36 GitHub token validator accepts every genuine token

*Modelled:* checksum validators, CRC32, base62  
*Proof:* algebra modulo 10/11/97, witnesses by computation  
*Status:* partial — Refuted as first stated: base62 is not padded, so genuine tokens whose CRC-32 is below 62^5 are rejected (C36_padded_checksum_refuted). Proved: accepted iff a correct token whose checksum needs six digits. crc32fast and base62 are external; both are modelled concretely.  
*Theorems:* `C36_six_digit_checksums`, `C36_crc32_is_32_bits`, `C36_padded_checksum_refuted`

### C37 JWT validator rejects expired tokens

*Modelled:* JWT checker over a decode oracle  
*Proof:* case analysis  
*Status:* partial — Refuted as first stated: header and payload may be any JSON value (C37_non_object_refuted). Proved: the exact set of accepted texts. Base64 and JSON decoding are parameters here and concrete in C84.  
*Theorems:* `C37_accepted_tokens`, `C37_non_object_refuted`

### C38 Event encoding round-trips between Go and Rust

*Modelled:* Go encoder/decoder, Rust decoder/encoder, events  
*Proof:* round-trip laws by induction; scan through the binding  
*Status:* partial — Refuted for Go strings that are not UTF-8: two keys can be shown under one path (C38_ill_formed_keys_refuted). Proved: exact round trip for every UTF-8 event and every map order; for arbitrary bytes the strings and keys shown are those after replacement of the ill-formed parts; the encoder refuses exactly events with other types.  
*Theorems:* `C38_round_trip`, `C38_any_bytes`, `C38_utf8`, `C38_lossy`, `C38_rejected_events`, `C38_ill_formed_keys_refuted`

### C39 Scan response encoding round-trips between Rust and Go

*Modelled:* Go encoder/decoder, Rust decoder/encoder, events  
*Proof:* round-trip laws by induction; scan through the binding  
*Status:* proved — Matches and the mutated string round-trip when they fit 32 bits; beyond that indices are reduced modulo 2^32 and shifts wrap to signed 32 bits (C39_wrapping). Mutations of map events are covered by C40_map_events.  
*Theorems:* `C39_response`, `C39_format`, `C39_wrapping`, `C39_nothing_matched`

### C40 A scan through the binding equals a direct scan

*Modelled:* Go encoder/decoder, Rust decoder/encoder, events  
*Proof:* round-trip laws by induction; scan through the binding  
*Status:* partial — Refuted for Go keys that are not UTF-8: the original entry keeps its secret, or Go panics for nested maps. Proved for every UTF-8 map event with distinct keys in any map order and for string events, when texts and indices fit 32 bits and the response is shorter than 2 GiB (C89); matches arrive as a permutation grouped by string. C40_whole and C40_whole_string assume nothing about results: that a response exists, is text and fits follows from the input and from the size of the response. C40_equal and C40_string_equal cover every scan by regex rules: if the direct scan returns, Go gets the same event and matches; if it panics, Go gets an error and keeps its event.  
*Theorems:* `C40_map_events`, `C40_whole`, `C40_string_events`, `C40_whole_string`, `C40_ill_formed_key_refuted`, `C40_nested_ill_formed_key_refuted`, `C40_error`, `C40_string_error`, `C40_equal`, `C40_string_equal`

### C41 Two strings with the same path are handled independently

*Modelled:* Go encoder/decoder, Rust decoder/encoder, events  
*Proof:* round-trip laws by induction; scan through the binding  
*Status:* partial — Refuted: strings under equal paths share one storage entry, which loses a redaction (C41_lost_redaction_refuted) or panics (C41_panic_refuted). Proved: with distinct paths the entries are independent.  
*Theorems:* `C41_lost_redaction_refuted`, `C41_panic_refuted`, `C41_distinct_paths`

### C42 Every visited string can be mutated

*Modelled:* events of simple_event.rs and event_json.rs (Model/Event.v), hash maps of JSON values (Model/MapEvents.v)  
*Proof:* laws of reading and writing by induction on paths; the JSON value is related to the one with strings for numbers and booleans (Spec/JsonScalars.v) and the two scans are compared string by string  
*Status:* partial — Refuted for JSON numbers and booleans (C42_json_scalars_refuted). Proved for simple events, for JSON strings, and for hash maps, which are scanned exactly as JSON objects (C42_map_object, C42_map_fields); binary events by C41_distinct_paths. How far the failure reaches: a scan of a JSON value does exactly what it does with numbers and booleans written as strings, or panics (C42_json_panics); it panics whenever something is to be reported about one, also if nothing is redacted (C42_json_reported), and only if an unblocked rule finds something in the text of one (C42_json_cause).  
*Theorems:* `C42_simple_event`, `C42_json_strings`, `C42_json_laws`, `C42_json_scalars_refuted`, `C42_json_panics`, `C42_json_reported`, `C42_json_cause`, `C42_map_object`, `C42_map_fields`

### C43 The regex store is consistent under any interleaving

*Modelled:* regex store as a transition system, slot maps with versions, weak references, caches  
*Proof:* inductive invariant over all action sequences; histories of 2^30 steps built by induction for the refutations  
*Status:* proved — Proved for every interleaving of atomic actions (lookup, compile, lock, single collection step, insert, drop, use) of any number of threads, including drops in the middle of a collection. The slot maps of the slotmap crate are modelled from memory. The count after a collection equals the number of live regexes if no regex is dropped while it runs; otherwise every entry was live when it began.  
*Theorems:* `C43_no_panic`, `C43_bijection`, `C43_one_live_regex`, `C43_lookup`, `C43_insertion`, `C43_collection`

### C44 Per-thread caches are never used with the wrong regex

*Modelled:* regex store as a transition system, slot maps with versions, weak references, caches  
*Proof:* inductive invariant over all action sequences; histories of 2^30 steps built by induction for the refutations  
*Status:* partial — Refuted for unbounded histories: after 2^30 reuses of a slot the lookup of a cache panics, and after 2^31 a cache of another regex is used (both proved by induction on a concrete history). Proved for all histories in which at most 2^30 regexes were stored.  
*Theorems:* `C44_caches`, `C44_uses`, `C44_panic_refuted`, `C44_wrong_cache_refuted`

### C45 Memoization is transparent

*Modelled:* regex store as a transition system, slot maps with versions, weak references, caches  
*Proof:* inductive invariant over all action sequences; histories of 2^30 steps built by induction for the refutations  
*Status:* partial — Refuted: rules and keywords share the store, so a rule with the pattern é becomes case insensitive while a keyword é is alive, and an invalid rule is accepted. Proved: every regex handed out was compiled for the same pattern text, and the store is invisible in every history whose requests agree on what a pattern compiles to (for example only rules).  
*Theorems:* `C45_provenance`, `C45_transparent`, `C45_refuted`, `C45_acceptance_refuted`

### C46 Cache-size statistic is the size of the stored caches

*Modelled:* regex store as a transition system, slot maps with versions, weak references, caches  
*Proof:* inductive invariant over all action sequences; histories of 2^30 steps built by induction for the refutations  
*Status:* partial — Refuted: the statistic is only ever decreased and becomes negative. Proved: its exact value, and that the statistic of the number of regexes is right whenever no collection runs.  
*Theorems:* `C46_refuted`, `C46_exact`, `C46_regex_count`

### C47 Scanner-count gauge is right when the system is quiescent

*Modelled:* counter and gauge as separate atomic actions  
*Proof:* small interleaving semantics  
*Status:* partial — Refuted: the counter and the gauge are updated in two steps, so two creations can leave the gauge at one. Proved: the counter is always right, the gauge is right once all calls completed if the gauge is set in the order of the counter updates, and it always is a number that was right at some time.  
*Theorems:* `C47_refuted`, `C47_counter`, `C47_in_order`, `C47_some_count`

### C48 Combining validation results is schedule independent

*Modelled:* match status, validators, configuration  
*Proof:* order laws, permutation invariance, witnesses  
*Status:* proved — The set of returned matches and statuses is independent of all iteration orders; the position of matches of different validators with equal start index is not (C48_list_refuted).  
*Theorems:* `C48_combination`, `C48_http`, `C48_aws`, `C48_scanner`, `C48_list_refuted`

### C49 Documented status priority

*Modelled:* match status, validators, configuration  
*Proof:* order laws, permutation invariance, witnesses  
*Status:* partial — Refuted: an error wins over Invalid although the comment says Valid > Invalid > Error. Proved: the exact order, and agreement with the comment for all other pairs.  
*Theorems:* `C49_refuted`, `C49_order`, `C49_documented`

### C50 Validation preserves the reported matches

*Modelled:* match status, validators, configuration  
*Proof:* order laws, permutation invariance, witnesses  
*Status:* partial — Refuted: matches of rules without a validation type are dropped. Proved: exactly the others are kept, once each, only the status changed, sorted, and in their order within a validator; a missing match value panics in the HTTP validator (C50_value_refuted).  
*Theorems:* `C50_refuted`, `C50_kept`, `C50_same_kind`, `C50_returns`, `C50_value_refuted`

### C51 Each match is validated with its own rule's configuration

*Modelled:* match status, validators, configuration  
*Proof:* order laws, permutation invariance, witnesses  
*Status:* partial — Refuted: two rules with the same endpoints share the configuration of the first. Proved: the validator comes from the first rule of each kind, and each match is validated by its own configuration when rules with equal endpoints have equal configurations.  
*Theorems:* `C51_refuted`, `C51_validators`, `C51_own`, `C51_aws`

### C52 HTTP status classification

*Modelled:* match status, validators, configuration  
*Proof:* order laws, permutation invariance, witnesses  
*Status:* partial — Refuted for AWS answers 1xx/3xx (left unchecked) and for signatures that are not header values (panic). Proved: the exact status for both validators, definite in all other cases.  
*Theorems:* `C52_http`, `C52_aws`, `C52_aws_valid`, `C52_definite_refuted`, `C52_definite`, `C52_signature_refuted`

### C53 Endpoint expansion

*Modelled:* match status, validators, configuration  
*Proof:* order laws, permutation invariance, witnesses  
*Status:* proved — Acceptance, endpoints, messages, builder.  
*Theorems:* `C53_accepted`, `C53_endpoints`, `C53_builder`, `C53_defaults`, `C53_errors`

### C54 The pattern parser is total and depth bounded

*Modelled:* pattern parser, converter, printer  
*Proof:* fuel sufficiency; structural induction; grammar as an inductive relation  
*Status:* proved — Total, recursion at most 51 deep, trees nested less than 50 deep, the limit exact, and every tree is one the grammar gives for the text.  
*Theorems:* `C54_total`, `C54_nesting`, `C54_limit`, `C54_depth_error`, `C54_grammar`

### C55 Quantifier bounds are enforced everywhere

*Modelled:* pattern parser, converter, printer  
*Proof:* fuel sufficiency; structural induction; grammar as an inductive relation  
*Status:* partial — Refuted at the level of the written text: a bound that does not fit 32 bits is read as literal text (C55_text_refuted). Proved exactly for the parsed pattern (C55_converted, C55_pattern).  
*Theorems:* `C55_converted`, `C55_pattern`, `C55_text_refuted`

### C56 Flag normalisation preserves meaning

*Modelled:* pattern parser, converter, printer  
*Proof:* fuel sufficiency; structural induction; grammar as an inductive relation  
*Status:* proved — For all flag lists, on the printed text and on the converted items.  
*Theorems:* `C56_printed`, `C56_meaning`, `C56_cleared`

### C57 Conversion preserves the matched language

*Modelled:* the parser of regex-syntax (RegexSyntax) on what the printer writes; the meaning of both pattern languages (Spec/RegexMeaning) as sets of matches with the choices that lead to them; Unicode tables are a parameter  
*Proof:* mutual induction over the grammar of patterns: printing then reading gives a tree with the same meaning; witnesses for the refutations  
*Status:* partial — Refuted in six ways: $ and \Z match the newline; a quantifier after $ is kept inside, so it is not about the newline (a$?b matches a, newline, b); with the flag i, \w matches letters that are not ASCII; with the flag x, white space outside ASCII is dropped and repeated blanks change how the rest is read; some converted patterns are not read at all. Proved for all patterns outside these cases (the predicate faithful, with distinct group names): the converted text is read back by the regex crate with the same matches and the same preferences, with the meaning of $ given in the adapter, and with that of PCRE when there is no $ or \Z; the nesting stays below the limit of the crate. A quantifier after quoted text (\Qab\E*) is about its last character, as in PCRE; empty quoted text with a quantifier is not covered. The parser of regex-syntax is written from memory.  
*Theorems:* `C57_faithful`, `C57_pcre`, `C57_preferred`, `C57_depth`, `C57_end_refuted`, `C57_repeated_end_refuted`, `C57_word_refuted`, `C57_space_refuted`, `C57_group_refuted`, `C57_read_refuted`

### C58 Complexity estimate is the least sufficient limit

*Modelled:* complexity binary search  
*Proof:* loop invariant  
*Status:* proved — For every compile oracle that is monotone in the limit; a pattern that never compiles is reported as ten million (C58_outcome).  
*Theorems:* `C58_least`, `C58_outcome`

### C59 Error codes are unambiguous

*Modelled:* error codes, builder, labels  
*Proof:* first-error characterisation by induction over the rules  
*Status:* partial — Refuted: InvalidMatchValidator has the code of a panic (-5), and Go reports it as a panic. Proved: building never gives that error and never panics, so for every list of rules the code and the Go error tell the kind of the first error.  
*Theorems:* `C59_refuted`, `C59_codes`, `C59_go`

### C60 Building a scanner reports the first invalid rule

*Modelled:* error codes, builder, labels  
*Proof:* first-error characterisation by induction over the rules  
*Status:* proved — For RegexRuleConfig, with arbitrary regex engines; the memoizing store is covered by C43-C45.  
*Theorems:* `C60_result`, `C60_one_error`, `C60_scanner`, `C60_behaves`, `C60_matches_returned`

### C61 Strings are processed independently

*Modelled:* scan with the excluded-match set and the block list  
*Proof:* composition of the above  
*Status:* proved  
*Theorems:* `C61_order`, `C61_strings_are_independent`

### C62 Redaction leaves no mutating candidate in place

*Modelled:* scan with the excluded-match set and the block list  
*Proof:* composition of the above  
*Status:* proved  
*Theorems:* `C62_no_mutating_candidate_survives`

### C63 Labels keep order and all entries

*Modelled:* error codes, builder, labels  
*Proof:* first-error characterisation by induction over the rules  
*Status:* proved — On JSON values.  
*Theorems:* `C63_combined`, `C63_rule_labels`, `C63_serialized`

### C64 Reports carry the metadata of their rule

*Modelled:* scan with the excluded-match set and the block list  
*Proof:* composition of the above  
*Status:* proved  
*Theorems:* `C64_reported_metadata`

### C65 IBAN validation ignores separators

*Modelled:* checksum validators, CRC32, base62  
*Proof:* algebra modulo 10/11/97, witnesses by computation  
*Status:* proved — The iban crate's parser and char::is_alphanumeric are parameters (see C98 for the parser).  
*Theorems:* `C65_iban_ignores_separators`

### C66 AWS secret keys are extracted from the match

*Modelled:* match status, validators, configuration  
*Proof:* order laws, permutation invariance, witnesses  
*Status:* partial — Refuted: a key ending in + or / is not extracted. Proved: exactly what is extracted, and that a delimited key ending in a letter or digit is found.  
*Theorems:* `C66_first`, `C66_refuted`, `C66_found`

### C67 Rule configurations survive serialization

*Modelled:* JSON form of configurations on both sides  
*Proof:* round trip by structural lemmas; the Go rule against an independent meaning  
*Status:* proved — On JSON values; durations are whole seconds and forced_datetime_utc is absent.  
*Theorems:* `C67_round_trip`, `C67_injective`, `C67_fields`, `C67_defaults`

### C68 Go rules become the rules they describe

*Modelled:* JSON form of configurations on both sides  
*Proof:* round trip by structural lemmas; the Go rule against an independent meaning  
*Status:* proved — For strings that are valid UTF-8, without the feature utf16_hash_match_action (the build of the binding).  
*Theorems:* `C68_go_rule`, `C68_nil_slices`

### C69 From configuration to result

*Modelled:* the chain Builder, RegexRule, Scanner on SimpleEvent, with the checks of Checksums  
*Proof:* composition of C60, C19, C20, C24, C28, C32-C37 and C62  
*Status:* proved — Engines are parameters that must behave (leftmost non-empty matches, earliest keywords). The converse says: replaced, or taken back by multi-pass because the same text was passed over at an excluded path, and C69_multipass that such texts are not reported. For rules with included keywords the converse is C69_included: the match found covers the start of the justified one or begins after the keyword (C25). For every scan that returns; C69_returns gives a condition for that, C10_built the exact one. NHS numbers and tokens are checked as C34 and C37 say.  
*Theorems:* `C69_checks`, `C69_scan`, `C69_returns`, `C69_included`, `C69_alone`, `C69_multipass`

### C70 Path prefixes

*Modelled:* `Path::starts_with`  
*Proof:* induction over the prefix  
*Status:* proved  
*Theorems:* `C70_prefix`

### C71 Handles of the native library are memory safe

*Modelled:* native handles: a heap of objects with reference counts, every native call as a step that may be undefined  
*Proof:* simulation of an ideal client without reference counts; invariant: the count of a rule is the number of references to it  
*Status:* proved — The allocator is a parameter that returns free addresses below 2^63 or aborts. Calls are atomic, except that a scan is in progress between its start and its end; building a scanner while another thread frees its list is outside the model.  
*Theorems:* `C71_safe`, `C71_handles`, `C71_library`, `C71_scanner_is_independent`

### C72 The Go binding leaks nothing

*Modelled:* as C71, with CreateScanner and lowLevelScan of the Go binding as programs over these steps  
*Proof:* C71 applied along the program; a heap without visible handles is empty by the invariant  
*Status:* proved — The C string of the JSON text and the Go heap are not modelled. Scan is stated for a scan that other threads do not interrupt; interleavings are covered by C71 and C72_all_freed. C72_scan_events states ScanEventsMap and Scan with the event encoded, passed and decoded.  
*Theorems:* `C72_all_freed`, `C72_create`, `C72_same_result`, `C72_scan`, `C72_scan_events`

### C73 Misuse of handles is noticed

*Modelled:* as C71  
*Proof:* from the definitions, for every history; a computed history for reused addresses  
*Status:* partial — Refuted: after every deletion a second Delete and every Scan are undefined behaviour (the identifier is 0, a null pointer); so is Delete during a scan; freeing a rule handle twice frees the rule of somebody else when the address has been used again. The correct uses are C71 and C72.  
*Theorems:* `C73_deleted_refuted`, `C73_busy_refuted`, `C73_stale_refuted`

### C74 The shared pool gets the documented number of stacks

*Modelled:* the choice of the pool by size  
*Proof:* case analysis  
*Status:* proved — The pool itself (regex_automata_fork) is external.  
*Theorems:* `C74_pool_stacks`

### C75 The metrics say what happened and change nothing

*Modelled:* the scan with each increment of a counter listed; names and labels of the counters  
*Proof:* erasing the list gives back the scan; tallies of increments by induction along the search, the visit and the processing of each string  
*Status:* proved — The recorder is outside: increments are listed and summed per name and labels. The duration counter is left out. The searches counted are those of regex rules; the tallies assume strings on which the excluded keyword check does not panic (C22).  
*Theorems:* `C75_same_result`, `C75_counts`, `C75_values`

### C76 The counter of excluded keywords counts each suppressed match once

*Modelled:* as C75  
*Proof:* computed witness; the lower bound from the characterisation in C75  
*Status:* partial — Refuted: the search resumes one character after a dropped match, so one suppressed match can be counted several times. Proved instead: the exact set of offsets that is counted (C75_counts), and that the counter is never below the number of missing matches.  
*Theorems:* `C76_once_refuted`, `C76_at_least`

### C77 The regex text of keywords is readable and means the keywords

*Modelled:* the printed text of keyword patterns, the reader of regex syntax, the meaning of what was read  
*Proof:* the printed text is read back as the same tree, by the reader lemmas of C56/C57; the matches by induction over the items  
*Status:* proved — The syntax and meaning of the regex crate are those written in Model/RegexSyntax and Spec/RegexMeaning. Which letters differ in case only is a parameter. Memory limits are not modelled; the keywords are built without a size limit.  
*Theorems:* `C77_keyword_text`, `C77_distinct`

### C78 The shared regex of a rule means its pattern

*Modelled:* the regex store with the factory of rules  
*Proof:* composition of C45 and C57  
*Status:* proved — Composition of C45_transparent and C57_faithful. With keywords and rules in the same store the property is false (C45).  
*Theorems:* `C78_rule_regex`

### C79 From the texts of patterns and keywords to the result

*Modelled:* the chain of C69 with the SDS parser, the adapter, the texts given to the regex crate and its reading of them  
*Proof:* C69 with the hypotheses on engines discharged by C57, C77 and the meaning of regexes; the Example runs an engine proved correct in Examples/RegexEngine.v  
*Status:* proved — The regex crate is assumed to read texts as its syntax says (Model/RegexSyntax.v, Spec/RegexMeaning.v) and to find leftmost matches, the preferred one where it exists; an executable engine that meets this is proved correct and run in the Example. Patterns are those of which the conversion is faithful (C57) and that do not match the empty text. The converse says: replaced, or taken back by multi-pass (C79_multipass); with a secondary validator it is for the preferred match at a position; with included keywords it is C79_included. For every scan that returns; C79_returns gives a condition for that in terms of the patterns, C10_built the exact one.  
*Theorems:* `C79_scan`, `C79_returns`, `C79_included`, `C79_alone`, `C79_multipass`

### C80 How a pattern is read, exactly

*Modelled:* the pattern parser with its alternatives in order  
*Proof:* reading relations with lookahead, written apart from the combinators (Spec/Reading.v); both directions by induction over the fuel and over the derivations; computed witnesses  
*Status:* proved — The rules are in Spec/Reading.v. Fuel of 51 or more is enough for every text (C54_total). Patterns are lists of characters; nom itself is represented by the parser combinators of Model/RegexParser.v.  
*Theorems:* `C80_read`, `C80_unique`, `C80_refused`

### C81 A class named inside brackets is read as the class

*Modelled:* the pattern parser with its alternatives in order  
*Proof:* reading relations with lookahead, written apart from the combinators (Spec/Reading.v); both directions by induction over the fuel and over the derivations; computed witnesses  
*Status:* partial — Refuted: a class at the end of a range is read as its letter, so [+-\d] is the range from + to d, which contains the capital letters; before an ASCII class the range ends at the bracket. Proved instead: \d in brackets is the class if the text before it does not end with a dash and has no brackets and backslashes.  
*Theorems:* `C81_refuted`, `C81_class`

### C82 JSON texts of rules survive the boundary

*Modelled:* reading and writing of JSON texts, the C string, strings of Go as bytes  
*Proof:* the grammar of RFC 8259 as a relation (Spec/JsonText.v) and the reading of bytes as text (Spec/JsonRule.v); the reader is sound and complete by induction over fuel and derivations, the writers produce texts of the grammar; composed with C67 and C68; computed witness  
*Status:* proved — encoding/json, serde_json and CStr are external and written from memory in Model/JsonText.v; numbers outside the range of f64, which serde_json refuses, are kept as texts (no rule contains one). serde reads into the configuration directly, the model through a value; both refuse a field that occurs twice.  
*Theorems:* `C82_reader`, `C82_unique`, `C82_serde`, `C82_cstring`, `C82_go`, `C82_valid`

### C83 Different patterns of Go are different rules

*Modelled:* reading and writing of JSON texts, the C string, strings of Go as bytes  
*Proof:* the grammar of RFC 8259 as a relation (Spec/JsonText.v) and the reading of bytes as text (Spec/JsonRule.v); the reader is sound and complete by induction over fuel and derivations, the writers produce texts of the grammar; composed with C67 and C68; computed witness  
*Status:* partial — Refuted: json.Marshal writes each invalid byte as U+FFFD, so patterns that differ only in such bytes become the same rule, silently. Proved instead: rules whose strings are valid UTF-8 and that give the same configuration have the same pattern.  
*Theorems:* `C83_refuted`, `C83_valid`

### C84 JWT validator accepts exactly the unexpired tokens, by characters

*Modelled:* base64url decoding, strict UTF-8, JSON texts into values with distinct names, as_i64 by number text, the validator  
*Proof:* base64 by bits and the grammar of JSON as relations (Spec/Jwt.v, Spec/JsonText.v); decoder sound and complete by induction; numbers compared through their bits; computed witness  
*Status:* proved — The base64 crate and serde_json are external and written from memory (Model/Jwt.v, Model/JsonText.v). Which numbers are refused as too large for f64 is a parameter. Payloads that are not objects are accepted, see C37.  
*Theorems:* `C84_tokens`, `C84_base64`, `C84_environment`

### C85 Tokens that have not expired are accepted

*Modelled:* base64url decoding, strict UTF-8, JSON texts into values with distinct names, as_i64 by number text, the validator  
*Proof:* base64 by bits and the grammar of JSON as relations (Spec/Jwt.v, Spec/JsonText.v); decoder sound and complete by induction; numbers compared through their bits; computed witness  
*Status:* partial — Refuted: as_i64 of a number with a fraction is None, so a token whose exp is 2000000000.5 is rejected as if it had expired (likewise 1e10 and integers from 2^63 on, in the Examples). Proved instead: if exp is an integer of 64 bits, a token is accepted exactly if it expires in the future.  
*Theorems:* `C85_fraction_refuted`, `C85_integer`

### C86 Hashed matches are replaced by the fingerprint in hexadecimal

*Modelled:* farmhash::fingerprint64 (Model/Hash.v, external crate), hexadecimal formatting, encode_utf16  
*Proof:* hexadecimal numerals and UTF-16 as relations (Spec/Hash.v); the digits by induction; the expected values and the collision computed, the latter through a whole scan  
*Status:* proved — farmhash is an external crate, written from memory after the published algorithm; all nine values in the unit tests of /repo agree (C86_expected, lengths 4, 8, 52, 104 and 128 bytes), and three published ones of 5, 8 and 11 bytes. The branches for 1-3 and for 17-32 bytes are reached by no test of /repo; values remembered from the table with which other farmhash libraries test themselves agree there (C86_expected_table), but that table could not be looked up offline.  
*Theorems:* `C86_text`, `C86_utf16`, `C86_same`, `C86_range`, `C86_expected`

### C87 Hashing keeps different secrets apart

*Modelled:* farmhash::fingerprint64 (Model/Hash.v, external crate), hexadecimal formatting, encode_utf16  
*Proof:* hexadecimal numerals and UTF-16 as relations (Spec/Hash.v); the digits by induction; the expected values and the collision computed, the latter through a whole scan  
*Status:* partial — Refuted: two tokens of 64 letters and digits with the same hash leave the scan as the same event (C87_collision_refuted), and hashes have 15 digits or fewer for one match in sixteen (C87_width_refuted). Proved instead (C86_same): two matches get the same text exactly if their fingerprints agree.  
*Theorems:* `C87_collision_refuted`, `C87_width_refuted`

### C88 Requests that validate AWS keys name the host they are sent to

*Modelled:* validator_utils.rs with all headers, the format of the time, the request of the AWS validator; aws_sign_v4 is a parameter  
*Proof:* hosts of URLs and ISO 8601 as relations (Spec/AwsRequest.v); computed witness; numerals by induction; the smaller model of C50 to C52 is shown to be a projection  
*Status:* partial — Refuted: the Host header and the region are constants, so even the default configuration sends Host: sts.us-east-1.amazonaws.com to sts.amazonaws.com. Proved instead: the exact request, that everything sent but the signature itself is signed, the format of the time, and that the model used for C50 to C52 is the projection of this one.  
*Theorems:* `C88_refuted`, `C88_sent`, `C88_signed`, `C88_date`, `C88_abstraction`

### C89 Responses of every size arrive

*Modelled:* lowLevelScan with the conversion of the size to C.int and C.GoBytes (which panics for negative sizes)  
*Proof:* what is received, as a relation on lengths (Spec/Codec.v: received); the responses of 2 and 4 GiB are built symbolically (Examples/LongResponse.v), their scans are computed with an unknown replacement; C72_scan shows that nothing leaks when Go panics  
*Status:* partial — Refuted: the size passes through a C int. A response of exactly 4 GiB arrives as an empty one, so Go keeps the secret and reports no match although the library redacted it (C89_lost_refuted); every response from 2 GiB to below 4 GiB makes Go panic (C89_panics_refuted). Proved instead: exactly which bytes arrive for every length; all of them iff there are fewer than 2^31.  
*Theorems:* `C89_lost_refuted`, `C89_panics_refuted`, `C89_received`

### C90 Go events may share their parts

*Modelled:* ScanEventsMap with the event as references into the memory of Go; mutations are written to the memory  
*Proof:* the tree an event stands for and ownership without sharing are inductive relations (Spec/GoHeap.v: unfolds, owns); the binding on trees of C38 to C41 is shown to be this one whenever nothing is shared; sharing and cycles are the witnesses of the refutations  
*Status:* partial — Refuted: if a map occurs at two places, redacting the string at one of them changes the other as well, although its path is excluded and no match is reported there (C90_shared_refuted); a map that contains itself is encoded until the stack overflows (C90_cycle_refuted). Proved instead: without sharing, scanning in memory is scanning the tree and touches nothing else; with sharing, what is sent is the encoding of the tree, and something is sent iff the tree is finite. Slices that overlap partly are not modelled.  
*Theorems:* `C90_shared_refuted`, `C90_cycle_refuted`, `C90_unshared`, `C90_encoding`

### C91 Rules share data exactly by type

*Modelled:* the maps keyed by TypeId, entry().or_insert_with, the downcasts and their unwraps, process_scanner_config in build; a value of any type is an element of one Coq type with its TypeId beside it  
*Proof:* the specification keeps the list of calls and looks up the last one with the same type (Spec/GroupData.v: told_scan); equality of the outcomes by a simulation over the whole visit; C91_ignored links to the scan of Model/Scanner.v, so that the theorems on scans hold for the code with the maps  
*Status:* proved — For any rule types, all of whose values are elements of one Coq type. C91_ignored assumes that the sort looks at its order only by comparing.  
*Theorems:* `C91_shared`, `C91_ignored`, `C91_regex`

### C92 Malformed binary events are rejected

*Modelled:* the decoder with both settings; from_utf8_unchecked is undefined (None) on bytes that are not UTF-8; the scan of events in which a pop has no push  
*Proof:* the format is an inductive grammar on bytes (Spec/TrustedBinary.v: written) with the reading of text as a parameter; both directions by induction; the extra pop by following the state of the visitor  
*Status:* partial — Refuted for one pop too many: it is accepted, and all strings after it are left unscanned without an error (C92_extra_pop_refuted, for all scanners and events); if a push or a pop follows, the scan panics. Proved: the decoder accepts exactly its format and panics on all other bytes, for both settings; where strings_are_valid_utf8 is defined it changes nothing.  
*Theorems:* `C92_format`, `C92_rejected`, `C92_trusted`, `C92_setting`, `C92_extra_pop_refuted`, `C92_extra_pop_panics`

### C93 A scanned event holds no secret any more

*Modelled:* the whole chain of C79: pattern text, conversion, search, overlaps, replacement; two scans in a row  
*Proof:* a pattern without assertions matches by its text alone (induction over the tree, Proofs/Rescan.v: means_local), so a secret in a part that was left alone would be a match that starts outside all pieces; a secret across pieces shares a character with a replacement; the refutations run two scans on the reference regex engine  
*Status:* partial — Refuted in general, in four ways: the rest of a match that was dropped because another match overlaps it stays in the result (C93_remainder_refuted: "x12345" becomes "[A]2345"); an empty replacement joins its surroundings (C93_joined_refuted); partial redaction leaves text that matches again (C93_partial_refuted); a replacement creates a word boundary (C93_assertion_refuted). Proved instead: for patterns without assertions, keywords and checks, without multi-pass or with no excluded paths, if matches of different rules do not overlap, no part that was left alone holds a secret, and with inert replacements the second scan changes and reports nothing; disjoint alphabets of the patterns suffice.  
*Theorems:* `C93_kept`, `C93_again`, `C93_alphabets`, `C93_remainder_refuted`, `C93_joined_refuted`, `C93_partial_refuted`, `C93_assertion_refuted`

### C94 Something is reported exactly if a pattern matches, as the fuzz harness asserts

*Modelled:* the run of the harness: the builder with its defaults, the scan of a String, the comparison with Hyperscan (a parameter)  
*Proof:* the documented and the PCRE reading of a pattern (Spec/RegexMeaning.v) side by side; overlap resolution keeps something if there is something; without "." and "$" both readings are equal by induction over the tree; the refutations run the harness on the reference regex engine and a Hyperscan for two patterns  
*Status:* partial — Refuted for the harness: it has Hyperscan read "." with dot_all, so its assertion fails for "a.b" on "a\nb" (C94_dot_refuted), and for "a$\n" on "a\n" because the scanner lets "$" match the newline (C94_end_refuted). Proved: something is reported exactly if the pattern of a rule in scope matches somewhere (C94_reported, patterns with a faithful conversion that never match the empty text, no excluded scopes or no multi-pass); the assertion fails exactly if the two readings differ on the input (C94_oracle), hence never for patterns without ".", "$" and \Z (C94_agree). That Hyperscan reads patterns as PCRE with dot_all is assumed.  
*Theorems:* `C94_reported`, `C94_scanner`, `C94_oracle`, `C94_agree`, `C94_dot_refuted`, `C94_end_refuted`

### C95 Every pattern and every input can be fuzzed

*Modelled:* the splitting of bytes, the seed, the actions; the numbers drawn by StdRng are a parameter  
*Proof:* UTF-8 as a relation and big-endian numbers (Spec/Fuzz.v); the splitting by induction; a comma is never part of another character  
*Status:* partial — Refuted: patterns (and inputs) with a comma, such as a{2,3}, can never be reached (C95_refuted). Proved: pattern, input and seed are reached exactly if the texts have no comma and the seed is below 2^64; what bytes are read as; the actions that can be drawn, all of which are accepted.  
*Theorems:* `C95_parts`, `C95_reached`, `C95_actions`, `C95_refuted`

### C96 From the rules of a Go program to its events

*Modelled:* everything between a rule of Go as bytes and the event that comes back, with native memory and other threads; the regex crate and the allocator are assumptions  
*Proof:* a specification in terms of Go rules only (Spec/GoToGo.v); composition of C40, C71, C72, C79 and C82, with hashes from C86; the Example runs the whole chain  
*Status:* proved — Conditions: the regex crate does what its syntax says (crate_ok), the allocator returns free addresses, strings are UTF-8 and shorter than 2^32/9 bytes, patterns convert faithfully (C57) and do not match the empty text, the response is shorter than 2 GiB (C89). The other outcomes are running out of memory and an error that leaves the event as it was; the error only comes if a window of excluded keywords is reversed (C22). Keys of Go maps are distinct.  
*Theorems:* `C96_created`, `C96_map`, `C96_string`

### C97 Debug builds scan as release builds do

*Modelled:* the functions with debug assertions and the loops around them, once more with the assertions (Model/Debug.v); overflow checks are not added, the release model already panics where a number could overflow  
*Proof:* equality of the two models by induction on the loops where no match begins at a keyword, and for the assertions of scanner/mod.rs without any condition; C07 for the events; a witness for the assertion target > prefix_start, which fails for every match that begins with the first keyword; for arbitrary scans a simulation that allows additional panics, with the reason for the panic carried along  
*Status:* partial — Refuted: the assertion target > prefix_start fails whenever a match begins where the included keyword begins (keyword key, text key123), so a debug build panics where the release build reports the match (C97_refuted; C97_panics: always, for the first keyword). Proved: otherwise both builds give the same matches and strings (C97_apart); the assertions of scanner/mod.rs never make a difference (C97_scanner_assertions). C97_refines: for all engines, rules and events a debug build does exactly what the release build does or panics; C97_cause: it differs only if a match begins where one of its included keywords begins.  
*Theorems:* `C97_refuted`, `C97_panics`, `C97_apart`, `C97_scanner_assertions`, `C97_refines`, `C97_cause`

### C98 IBAN validator is the check of ISO 13616

*Modelled:* iban_validate::Iban::from_str (Model/Iban.v, external crate, from memory); the table of countries and char::is_alphanumeric are parameters  
*Proof:* ISO 13616 as a specification (Spec/Iban.v): the structure of accounts and the spelled number as relations; the checksum by induction; errors by arithmetic modulo the prime 97, and 10^k <> 1 for 0 < k < 96 by computation  
*Status:* proved — The parser of the crate iban_validate is written from memory; the six numbers in the unit tests of /repo get the expected answers (C98_exact_nonvacuous). The table of countries and char::is_alphanumeric are parameters; the theorems about errors assume that letters and digits of ASCII are alphanumeric. Replacing a letter by a digit is not covered: it changes the length of the number, and only the structure of the country can rule it out.  
*Theorems:* `C98_exact`, `C98_single_errors`, `C98_exchanges`, `C98_check_digits`

### C99 A scan calls regex engines linearly often

*Modelled:* compiled.rs with the list of its calls of search_with and is_match (Model/Calls.v); erasing the list gives the model of C01 (C99_same_result), so the lists are those of the scans of all other claims  
*Proof:* starts of searches as strictly ascending lists of character boundaries; for keywords a potential of 3 per character: the searches up to the last match near a keyword are never repeated, those on to the next match, too far away, are repeated at most once  
*Status:* proved — The time inside one search of an engine is not modelled (it belongs to regex_automata). The stronger statement that no search is repeated is refuted (C99_again_refuted). Calls are counted in scans that end; C10 shows when they do.  
*Theorems:* `C99_same_result`, `C99_scope`, `C99_plain`, `C99_keywords`, `C99_again_refuted`, `C99_scan`, `C99_built`

### C100 Rules that only report never change what is redacted

*Modelled:* `scan` with two lists of blocked rules  
*Proof:* a mutating match is outranked by mutating ones only, so resolution commutes with dropping the others (resolved_alters); pieces whose replacement is themselves are merged into the gaps (merge_ok); uniqueness of the cutting (cut_so_unique)  
*Status:* partial — Refuted with multi-pass V0 switched on (C100_multipass_refuted: a reporting rule that excludes one path makes another rule redact nothing in any path). Proved in all other cases: without multi-pass (C100_simple_event), and with it if the reporting rules add no text to those found in excluded paths (C100_detect_only).  
*Theorems:* `C100_detect_only`, `C100_simple_event`, `C100_multipass_refuted`

### C101 More rules redact at least as much

*Modelled:* `scan` with two lists of blocked rules  
*Proof:* refuted by computation; positive parts from C62 and from resolution restricted to a set of candidates no other candidate overlaps (resolved_apart, induction on the number of outranking candidates)  
*Status:* partial — Refuted (C101_more_rules_refuted: 12345678 becomes 123[A] with one rule, [B]5678 with two). Proved instead, without multi-pass: every piece redacted with fewer rules shares a byte with one redacted with more (C101_still_touched); if the matches of the additional rules share no byte with the others, the pieces and replacements for the others are exactly the same (C101_apart).  
*Theorems:* `C101_more_rules_refuted`, `C101_still_touched`, `C101_apart`

### C102 The order of rules only decides ties

*Modelled:* `scan` and `build` of two rule lists  
*Proof:* candidates, suppression and resolution carried along a renaming of rule indices (ro_candidate, ro_suppressed, moved_resolved); regex rules do not depend on their own number (regex_index)  
*Status:* proved — For arbitrary rules C102_order_of_rules, for built scanners and SimpleEvent C102_built, which also says that the scan of one panics iff that of the other does. Which of two rules wins a tie is C06.  
*Theorems:* `C102_order_of_rules`, `C102_built`

### C103 The texts of errors are true

*Modelled:* the texts of #[error] of thiserror (Model/Messages.v)  
*Proof:* texts read as English in Spec/Messages.v, numbers read from the text; C60, C28, C55, C54 and C80 give the fact behind each error; computed witness  
*Status:* partial — Refuted in one case: "Empty keywords are not allowed" is also said of excluded keywords made of dashes and underscores (C103_empty_refuted). Proved with "empty" meaning that nothing is left after trimming and dropping these (C103_truthful), with the limits exact (C103_limits) and texts distinct (C103_distinct).  
*Theorems:* `C103_truthful`, `C103_limits`, `C103_distinct`, `C103_empty_refuted`

### C104 Checksums catch typing errors

*Modelled:* the validators of C34, C35 and C36  
*Proof:* accepted numbers have a weighted sum divisible by 11 or 97, and the weights differ; one step of CRC-32 is injective on 32 bits and linear, so four bytes act like one word added to the register  
*Status:* partial — Refuted for NHS numbers with eleven digits, which are accepted and whose second digit is ignored (C104_nhs_eleven_refuted). Proved for at most ten digits, for NIRs and for GitHub tokens.  
*Theorems:* `C104_nhs`, `C104_nir`, `C104_github`, `C104_nhs_eleven_refuted`

### C105 Accepted actions can be carried out

*Modelled:* match_action.rs with the limit of str::repeat (Model/Sized.v), and the functions of scanner/mod.rs around it repeated; strings that are not too large are assumed to be allocated  
*Proof:* the two scans compared step by step, by induction on the matches and strings; witness built with an abstract large number, so that nothing is computed with it  
*Status:* partial — Refuted: character_count is a usize and any number but zero is accepted; above isize::MAX the asterisks are too large for a string, and every scan with a match panics with a capacity overflow (C105_refuted). Proved: exactly that goes wrong (C105_exact), never if all counts are below 2^63 (C105_fits), and never for scanners built from Go rules, whose counts are 32-bit numbers (C105_go). Below the limit allocation is assumed to succeed.  
*Theorems:* `C105_refuted`, `C105_exact`, `C105_fits`, `C105_go`

## Refuted statements

Each is a theorem with a concrete witness, computed by the kernel or built by induction.

* `C100_multipass_refuted`: C100 is false with multi-pass: adding a rule that only reports, and excludes one path, makes another rule redact nothing, in any path.
* `C101_more_rules_refuted`: C101 is false: of "12345678" a rule leaves "123[A]"; with a second rule that redacts, "[B]5678" is left, which shows digits that the first rule alone does not.
* `C103_empty_refuted`: "Empty keywords are not allowed" is also said of keywords that are neither empty nor blank: excluded keywords that consist of '-' and '_'.
* `C104_nhs_eleven_refuted`: With eleven digits, which the validator also accepts, it is not noticed.
* `C105_refuted`: "Every action that is accepted can be carried out" is false: character_count is a usize, and any number but zero is accepted. More than isize::MAX asterisks fit in no string: the scanner is built, and every scan with a match panics.
* `C11_accepted_pattern_loops_refuted`: C11 is refuted: the pattern \b is found, by a leftmost search, to match nothing in the empty text, so it is accepted; the scan of "a" never ends.
* `C21_ignored_with_included_keywords_refuted`: C21 is refuted: with included keywords the excluded ones are never looked at.
* `C22_excluded_window_panics_refuted`: C22 (and with it C10) is refuted: dashes before a match that starts with a non-ASCII letter make the scan panic.
* `C23_window_shifted_refuted`: C23 is refuted in general: (1) a '-' just before the window moves the window, (2) a match that starts with '-' cuts the last character off the window; in both cases a keyword in the window is missed.
* `C25_missed_near_a_keyword_refuted`: C25 is refuted: "22" starts 7 characters after the second "kw" (look-ahead 10), is a true positive and overlaps nothing, but is not emitted, since the matches after the first keyword end the search for later keywords.
* `C30_untrimmed_name_refuted`: C30 is refuted for a field named like a keyword written with trailing white space: the keyword "aB " and the field "aB " are standardized differently.
* `C31_leading_index_refuted`: C31 is refuted for paths that start with an index: the text starts with a '.' (when there is a field at all).
* `C34_other_lengths_refuted`: C34 is refuted for other numbers of digits: fewer digits are filled up with zeros on the left, of eleven digits the second is ignored; only more than eleven are rejected. Even the empty text is accepted.
* `C36_padded_checksum_refuted`: C36 is refuted for tokens whose CRC-32 needs fewer than six base 62 digits: the genuine token, with its checksum padded with zeros, is rejected.
* `C37_non_object_refuted`: C37 is refuted: a payload that is not a JSON object is accepted whatever the clock says.
* `C38_ill_formed_keys_refuted`: Without well-formed keys the paths are not distinct: two entries of a Go map can be shown under the same path.
* `C40_ill_formed_key_refuted`: A key that is not UTF-8 breaks this: the redacted text comes back under another key and the original entry keeps its secret.
* `C40_nested_ill_formed_key_refuted`: When the key is that of an inner map, applying the response panics in Go.
* `C41_lost_redaction_refuted`: Two strings with the same path share one storage entry. Here each string alone is reported, and the first one is redacted. Scanned together, the flag left by the second string hides the redaction of the first: the response holds the match of the redacting rule but no mutation.
* `C41_panic_refuted`: The matches of the second string are applied to the text of the first: the scan panics when they do not fit.
* `C42_json_scalars_refuted`: Numbers and booleans are shown to the scanner but cannot be mutated: a rule that matches the text of one makes the scan panic.
* `C44_panic_refuted`: Without the bound the lookup of a cache can fail: after 2^30 uses of a slot its key is taken for an older one than the cached one, and the unwrap panics.
* `C44_wrong_cache_refuted`: After 2^31 uses of a slot its version begins again, and a cache made for another regex is used.
* `C45_acceptance_refuted`: Whether a rule is accepted depends on the other rules as well: the text of the keyword "a" is not a valid pattern of a rule, but it is accepted while the keyword is alive.
* `C45_refuted`: Rules and keywords share the store but compile the same text differently. A rule with the pattern "é" is not case insensitive, but it is if a keyword "é" is alive (and the other way round for the keyword).
* `C46_refuted`: The statistic is only ever decreased, so it becomes negative.
* `C47_refuted`: Two creations whose updates of the counter and the gauge interleave leave the gauge at one for good.
* `C48_list_refuted`: The order of the returned list does depend on the iteration order of the map of groups: matches of different validators with the same start index can be exchanged.
* `C49_refuted`: The result is not the highest status in the documented order Valid, Invalid, Error: an error wins over Invalid.
* `C50_refuted`: Matches are lost: the matches of rules without validation are dropped.
* `C50_value_refuted`: Without a match value the HTTP validator panics instead of reporting an error, unlike the AWS validator.
* `C51_refuted`: The HTTP configuration used for a match need not be that of its rule: with equal endpoints the first rule decides for all.
* `C52_definite_refuted`: A match that was checked need not end with a definite status: an answer that is not 2xx, 4xx or 5xx leaves it unchecked.
* `C52_signature_refuted`: The AWS validator panics when the signature, which contains the id found in the text, is not a legal header value.
* `C55_text_refuted`: What is written as a counted repetition with a bound above 3000 is not always refused: a bound that does not fit 32 bits makes the parser read the braces as literal text.
* `C57_end_refuted`: The meaning of $ is not that of PCRE: a$ matches the newline after the a as well.
* `C57_group_refuted`: With the flag x, white space that is repeated is printed as it is, and what follows is read in another way: here as a group that does not capture.
* `C57_read_refuted`: Some patterns are parsed and converted, but the regex crate does not read the result: groups of flags without flags, repeated flags, repeated names, ranges and bounds that are not ordered.
* `C57_repeated_end_refuted`: A $ with a quantifier is converted as if the quantifier were not about the newline: a$?b matches a, a newline and b, which it does with neither meaning of $.
* `C57_space_refuted`: With the flag x, white space that is not ASCII is a literal of the pattern, but the regex crate ignores it.
* `C57_word_refuted`: \w is written as an ASCII class so that it does not stand for the words of Unicode, but when case is ignored the regex crate adds the letters of the same case class: with the flag i, \w matches the long s.
* `C59_refuted`: The code of an error in the creation of validators is the code of a panic, and the Go binding reports it as one.
* `C66_refuted`: A key delimited by other characters is not always found: a key that ends with a slash or a plus sign is not followed by a word boundary.
* `C73_busy_refuted`: Deleting a scanner while another thread scans with it is undefined behaviour.
* `C73_deleted_refuted`: A scanner that has been deleted is not safe to use: deleting it again and scanning with it are undefined behaviour, not errors. This is so after every deletion.
* `C73_stale_refuted`: A handle freed twice is not noticed when its address is used again: the second call frees the rule of somebody else, whose next call is undefined.
* `C76_once_refuted`: The counter of excluded keywords does not count matches: one match of the same rule without excluded keywords, twice in the counter, since the search goes on one character after each match it drops.
* `C81_refuted`: A class named in brackets is not always taken as the class: at the end of a range \d is read as the letter d.
* `C83_refuted`: Rules of Go with different patterns can give the same configuration without an error.
* `C85_fraction_refuted`: A token that expires in the future by RFC 7519, where the time may be any JSON number, is rejected: the time has a fraction.
* `C87_collision_refuted`: Hashing does not keep different secrets apart: here are two tokens of 64 letters and digits with the same hash. Events that hold them come out of the scan as the same event, with the same reports, so nothing after the scan can tell the secrets apart.
* `C87_width_refuted`: Hashes do not all have 16 digits.
* `C88_refuted`: The Host header does not name the host that the request is sent to, not even in the default configuration: the request to sts.amazonaws.com says sts.us-east-1.amazonaws.com.
* `C89_lost_refuted`: The size of the response passes through a C int. A response of exactly 4 GiB arrives as an empty one: the library redacts the secret, and Go keeps it and reports no match.
* `C89_panics_refuted`: A response of 2 GiB or more, but less than 4, makes Go panic, whatever the event.
* `C90_cycle_refuted`: A map that contains itself is encoded without end, whatever the size of the stack.
* `C90_shared_refuted`: The same map at two places of an event: the library redacts the string at one of them, as its rule does not include the other path, and Go changes both. The response names only the string at the first place.
* `C92_extra_pop_refuted`: Malformed events are not all rejected. After one pop too many nothing is scanned any more: the answer is that of the event without the strings that follow, whatever they hold.
* `C93_assertion_refuted`: ... or if the pattern looks at the text around its matches: a word boundary that was not there appears with the replacement. All other conditions are met.
* `C93_joined_refuted`: ... or if a replacement is empty: the parts around it may join to such a text.
* `C93_partial_refuted`: ... or if a part of the text is kept: what remains may be such a text again.
* `C93_remainder_refuted`: That a second scan finds nothing fails if matches of two rules overlap: the rule "x\d" wins over "\d+", of which the match is dropped as a whole; its digits that "x\d" does not cover stay in the result. The replacements are inert.
* `C94_dot_refuted`: The assertion can fail although scanner and Hyperscan do what is expected of them: the harness has Hyperscan read "." with dot_all, and the scanner does not.
* `C94_end_refuted`: It can also fail because the scanner lets "$" match the newline at the end of the text, and Hyperscan does not.
* `C95_refuted`: Not every pattern that the scanner accepts can be reached: those with a comma, as in a repetition with two bounds, cannot, whatever the bytes.
* `C97_refuted`: C97, refuted. A scan that succeeds in a release build can panic in a build with debug assertions: target > prefix_start fails for a match that begins with its keyword.
* `C99_again_refuted`: "A rule never searches a string twice from the same offset" is false with included keywords: the text up to a match too far from one keyword is searched again for the next.

## Assumptions printed for each theorem

`Print Assumptions` stands beneath every theorem.  It prints "Closed under the global context" (no axiom at all) for these 333 theorems:

C01_redaction_is_substitution, C01_simple_event, C02_reported_ranges,
C03_shift_is_accumulated_change, C04_match_value_is_original_text, C05_sorted_disjoint_genuine,
C06_greedy_by_priority, C06_mutating_never_lost, C07_discovery_order_irrelevant,
C07_simple_event, C07_overlap_resolution, C08_unredacted_string_unchanged,
C08_detect_only_scanner, C09_partial_redaction, C10_exact, C10_result, C10_ascii, C10_built,
C10_scan_returns_partial, C11_accepted_pattern_loops_refuted,
C11_terminates_iff_nonempty_matches, C12_rules_by_include_path, C13_each_rule_once,
C14_excluded_by_prefix, C15_implicit_wildcards, C16_balanced_restores_state,
C16_only_the_path_matters, C17_excluded_paths, C17_excluded_texts_of_regex_rules,
C18_blocked_rules_find_nothing, C18_simple_event, C19_plain_search, C19_reported_matches,
C20_no_true_positive_is_skipped, C21_ignored_with_included_keywords_refuted,
C21_without_included_keywords, C22_panics_iff_span_reversed, C22_excluded_window_panics_refuted,
C23_window, C23_window_shifted_refuted, C24_only_after_a_keyword, C24_reported_after_a_keyword,
C25_missed_near_a_keyword_refuted, C25_near_a_keyword, C26_keyword_in_path,
C27_proximity_in_characters, C28_accepted_configurations, C28_meaning_of_keywords,
C29_standardization, C29_bypass_changes_nothing, C30_field_named_like_keyword,
C30_untrimmed_name_refuted, C31_sanitized_path, C31_leading_index_refuted, C32_luhn_formula,
C32_single_digit_errors, C32_transpositions, C33_iso7064, C33_single_errors, C33_transpositions,
C34_ten_digits, C34_other_lengths_refuted, C35_insee_key, C36_six_digit_checksums,
C36_crc32_is_32_bits, C36_padded_checksum_refuted, C37_accepted_tokens, C37_non_object_refuted,
C38_round_trip, C38_any_bytes, C38_utf8, C38_lossy, C38_rejected_events,
C38_ill_formed_keys_refuted, C39_response, C39_format, C39_wrapping, C39_nothing_matched,
C40_map_events, C40_whole, C40_string_events, C40_whole_string, C40_ill_formed_key_refuted,
C40_nested_ill_formed_key_refuted, C40_error, C40_string_error, C40_equal, C40_string_equal,
C41_lost_redaction_refuted, C41_panic_refuted, C41_distinct_paths, C42_simple_event,
C42_json_strings, C42_json_laws, C42_json_scalars_refuted, C42_json_panics, C42_json_reported,
C42_json_cause, C42_map_object, C42_map_fields, C43_no_panic, C43_bijection, C43_one_live_regex,
C43_lookup, C43_insertion, C43_collection, C44_caches, C44_uses, C44_panic_refuted,
C44_wrong_cache_refuted, C45_provenance, C45_transparent, C45_refuted, C45_acceptance_refuted,
C46_refuted, C46_exact, C46_regex_count, C47_refuted, C47_counter, C47_in_order, C47_some_count,
C48_combination, C48_http, C48_aws, C48_scanner, C48_list_refuted, C49_refuted, C49_order,
C49_documented, C50_refuted, C50_kept, C50_same_kind, C50_returns, C50_value_refuted,
C51_refuted, C51_validators, C51_own, C51_aws, C52_http, C52_aws, C52_aws_valid,
C52_definite_refuted, C52_definite, C52_signature_refuted, C53_accepted, C53_endpoints,
C53_builder, C53_defaults, C53_errors, C54_total, C54_nesting, C54_limit, C54_depth_error,
C54_grammar, C55_converted, C55_pattern, C55_text_refuted, C56_printed, C56_meaning,
C56_cleared, C57_faithful, C57_pcre, C57_preferred, C57_depth, C57_end_refuted,
C57_repeated_end_refuted, C57_word_refuted, C57_space_refuted, C57_group_refuted,
C57_read_refuted, C58_least, C58_outcome, C59_refuted, C59_codes, C59_go, C60_result,
C60_one_error, C60_scanner, C60_behaves, C60_matches_returned, C61_order,
C61_strings_are_independent, C62_no_mutating_candidate_survives, C63_combined, C63_rule_labels,
C63_serialized, C64_reported_metadata, C65_iban_ignores_separators, C66_first, C66_refuted,
C66_found, C67_round_trip, C67_injective, C67_fields, C67_defaults, C68_go_rule, C68_nil_slices,
C69_checks, C69_scan, C69_returns, C69_included, C69_alone, C69_multipass, C70_prefix, C71_safe,
C71_handles, C71_library, C71_scanner_is_independent, C72_all_freed, C72_create,
C72_same_result, C72_scan, C72_scan_events, C73_deleted_refuted, C73_busy_refuted,
C73_stale_refuted, C74_pool_stacks, C75_same_result, C75_counts, C75_values, C76_once_refuted,
C76_at_least, C77_keyword_text, C77_distinct, C78_rule_regex, C79_scan, C79_returns,
C79_included, C79_alone, C79_multipass, C80_read, C80_unique, C80_refused, C81_refuted,
C81_class, C82_reader, C82_unique, C82_serde, C82_cstring, C82_go, C82_valid, C83_refuted,
C83_valid, C84_tokens, C84_base64, C84_environment, C85_fraction_refuted, C85_integer, C86_text,
C86_utf16, C86_same, C86_range, C86_expected, C87_collision_refuted, C87_width_refuted,
C88_refuted, C88_sent, C88_signed, C88_date, C88_abstraction, C89_lost_refuted,
C89_panics_refuted, C89_received, C90_shared_refuted, C90_cycle_refuted, C90_unshared,
C90_encoding, C91_shared, C91_ignored, C91_regex, C92_format, C92_rejected, C92_trusted,
C92_setting, C92_extra_pop_refuted, C92_extra_pop_panics, C93_kept, C93_again, C93_alphabets,
C93_remainder_refuted, C93_joined_refuted, C93_partial_refuted, C93_assertion_refuted,
C94_reported, C94_scanner, C94_oracle, C94_agree, C94_dot_refuted, C94_end_refuted, C95_parts,
C95_reached, C95_actions, C95_refuted, C96_created, C96_map, C96_string, C97_refuted,
C97_panics, C97_apart, C97_scanner_assertions, C97_refines, C97_cause, C98_exact,
C98_single_errors, C98_exchanges, C98_check_digits, C99_same_result, C99_scope, C99_plain,
C99_keywords, C99_again_refuted, C99_scan, C99_built, C100_detect_only, C100_simple_event,
C100_multipass_refuted, C101_more_rules_refuted, C101_still_touched, C101_apart,
C102_order_of_rules, C102_built, C103_truthful, C103_limits, C103_distinct, C103_empty_refuted,
C104_nhs, C104_nir, C104_github, C104_nhs_eleven_refuted, C105_refuted, C105_exact, C105_fits,
C105_go

There are no others: no theorem depends on an axiom.
