{
 "claims": [
  {
   "property": "C01",
   "status": "proved",
   "theorems": [
    "C01_flash_string_lossless"
   ],
   "note": "All byte strings that are valid UTF-8, any buffer."
  },
  {
   "property": "C02",
   "status": "proved",
   "theorems": [
    "C02_quote_injection",
    "C02_raw_newline",
    "C02_truncated_repeats",
    "C02_no_lead_byte_safe"
   ],
   "note": "Failures proved for all valid prefixes and all continuations, with the safe case."
  },
  {
   "property": "C03",
   "status": "proved",
   "theorems": [
    "C03_flash_record_json",
    "C03_flash_total"
   ],
   "note": "All options without ReplaceAttr, all Extras, all derivations, all records on which the meaning is defined; every call terminates. Standard library contracts are the hypothesis stdlib_ok, met by Samples.std0."
  },
  {
   "property": "C04",
   "status": "proved",
   "theorems": [
    "C04_flash_replaced_json",
    "C04_vanished_group_not_json",
    "C04_vanished_group_no_comma"
   ],
   "note": "All ReplaceAttr functions; the domain is the relation logged/dens. Necessity: a concrete line that is not JSON, and the missing comma for every function and group."
  },
  {
   "property": "C05",
   "status": "proved",
   "theorems": [
    "C05_one_line",
    "C05_split_recovers",
    "C05_group_newline"
   ],
   "note": "On the domain of C04; failure for every group name containing a newline."
  },
  {
   "property": "C06",
   "status": "proved",
   "theorems": [
    "C06_all_or_nothing",
    "C06_at_most_one_write"
   ],
   "note": "All handlers, records, contexts; 'fails to marshal' is the inductive predicate broken."
  },
  {
   "property": "C07",
   "status": "proved",
   "theorems": [
    "C07_flash_independent",
    "C07_flash_later",
    "C07_flash_overwritten",
    "C07_flash_siblings_fail"
   ],
   "note": "Independence for all histories where handlers with a non-empty prefix are derived from at most once, for every growth policy; the failure otherwise is proved in general (siblings in one array) and by a witness for every policy."
  },
  {
   "property": "C08",
   "status": "proved",
   "theorems": [
    "C08_flash_chain",
    "C08_sloggy_chain",
    "C08_flash_tree",
    "C08_sloggy_tree",
    "C08_sloggy_overwritten"
   ],
   "note": "flash and sloggy: Handle (and, along chains, WithAttrs) depends on ReplaceAttr only through its answers at (no groups, basic key) and (names of open groups, other key); overwriting otherwise proved for sloggy in general and by witnesses for both."
  },
  {
   "property": "C09",
   "status": "proved",
   "theorems": [
    "C09_lines_whole",
    "C09_failing_writer",
    "C09_completes"
   ],
   "note": "Small-step machine with pools, composers, mutexes and byte-wise writers; calls are those of the sequential model (call_hdl_handle). WithAttrs/WithGroup concurrent with logging are not in the machine."
  },
  {
   "property": "C10",
   "status": "proved",
   "theorems": [
    "C10_exclusive",
    "C10_untouched",
    "C10_written"
   ],
   "note": "Invariant over all schedules, arbitrary growth policy and pool evictions."
  },
  {
   "property": "C11",
   "status": "proved",
   "theorems": [
    "C11_flash_attrs_twice",
    "C11_flash_attrs_nothing",
    "C11_flash_attrs_precede",
    "C11_flash_domain",
    "C11_sloggy_attrs_twice",
    "C11_sloggy_attrs_nothing",
    "C11_sloggy_attrs_precede",
    "C11_sloggy_domain"
   ],
   "note": "Flash and sloggy: two WithAttrs calls, WithAttrs of nothing, WithGroup of the empty name, and attributes preceding the record's. For sloggy the last equates bytes, not the division into writes."
  },
  {
   "property": "C12",
   "status": "proved",
   "theorems": [
    "C12_flash_empty_groups_elided",
    "C12_flash_not_elided",
    "C12_sloggy_empty_groups_elided",
    "C12_sloggy_not_elided"
   ],
   "note": "Any chain of named groups on any derivation, both handlers; limits by witness."
  },
  {
   "property": "C13",
   "status": "proved",
   "theorems": [
    "C13_flash_context",
    "C13_flash_other_dead",
    "C13_flash_dead_moves",
    "C13_flash_dead_panics",
    "C13_sloggy_context",
    "C13_sloggy_other_dead",
    "C13_sloggy_dead_moves",
    "C13_sloggy_dead_panics"
   ],
   "note": "Handle as a function of the chosen handler; dead group names other than the first key have no effect; limits by witness and, for the panic, in general."
  },
  {
   "property": "C14",
   "status": "proved",
   "theorems": [
    "C14_log_valuers_transparent",
    "C14_replace_sees_resolved",
    "C14_other_kinds_differ",
    "C14_group_valuer_marshalled"
   ],
   "note": "Transparency for trees differing in LogValuers; ReplaceAttr never sees a LogValuer; failures by witness and, for groups, in general."
  },
  {
   "property": "C15",
   "status": "proved",
   "theorems": [
    "C15_threshold",
    "C15_monotone",
    "C15_default_info",
    "C15_leveler",
    "C15_level_var",
    "C15_derived",
    "C15_options_completed"
   ],
   "note": "All programs of actions on options, LevelVars, handlers; the flash and sloggy code is the same."
  },
  {
   "property": "C16",
   "status": "proved",
   "theorems": [
    "C16_flash_logged",
    "C16_flash_standard",
    "C16_flash_unknown_empty",
    "C16_sloggy_level_logged",
    "C16_sloggy_levels_distinct"
   ],
   "note": "All integer levels and LevelNames maps; sloggy: the level field of every line is the standard text, which is injective."
  },
  {
   "property": "C17",
   "status": "proved",
   "theorems": [
    "C17_idempotent",
    "C17_keeps",
    "C17_complete",
    "C17_defaults",
    "C17_in_place",
    "C17_shared",
    "C17_derived",
    "C17_private"
   ],
   "note": "All Extras values; store model of pointers for the in-place part."
  },
  {
   "property": "C18",
   "status": "proved",
   "theorems": [
    "C18_sloggy_record_json",
    "C18_sloggy_replaced_json",
    "C18_no_basics_not_json"
   ],
   "note": "All derivations and records on the domain, with and without ReplaceAttr; necessity of a kept built-in field for all functions that remove them. Standard library contracts: stdlib_ok."
  },
  {
   "property": "C19",
   "status": "proved",
   "theorems": [
    "C19_sloggy_string_one_line",
    "C19_sloggy_string_json",
    "C19_sloggy_string_rejected"
   ],
   "note": "All byte strings and every notion of printable character; the exact set of strings whose quoted form is JSON."
  },
  {
   "property": "C20",
   "status": "proved",
   "theorems": [
    "C20_sequential",
    "C20_single",
    "C20_interleaves"
   ],
   "note": "Each Write is atomic in the machine, which only strengthens the bad schedule."
  },
  {
   "property": "C21",
   "status": "proved",
   "theorems": [
    "C21_sloggy_writer",
    "C21_sloggy_prefix",
    "C21_sloggy_errors"
   ],
   "note": "All writers (any state type, any refusal behaviour), derivations and records; marshalling errors characterised by the inductive predicate sbroken."
  },
  {
   "property": "C22",
   "status": "proved",
   "theorems": [
    "C22_sloggy_independent",
    "C22_sloggy_replaced",
    "C22_sloggy_handlers"
   ],
   "note": "All histories, all growth policies; extension to ReplaceAttr under the condition of C08."
  },
  {
   "property": "C23",
   "status": "proved",
   "theorems": [
    "C23_flash_sloggy_agree",
    "C23_differ"
   ],
   "note": "Attributes satisfying the predicate alike; four kinds of difference by witness."
  },
  {
   "property": "C24",
   "status": "proved",
   "theorems": [
    "C24_sloggy_log_valuers",
    "C24_exceptions",
    "C24_identity_logs_object"
   ],
   "note": "All trees related by slv_unfold / lv_object, all derivations; exceptions by witness."
  },
  {
   "property": "C25",
   "status": "proved",
   "theorems": [
    "C25_in_turn",
    "C25_append",
    "C25_unit",
    "C25_stops",
    "C25_flatten",
    "C25_pure"
   ],
   "note": "Functions may have effects on any state and may panic. C25_ex_empty: the law without the not-empty-list condition is false."
  },
  {
   "property": "C26",
   "status": "proved",
   "theorems": [
    "C26_others",
    "C26_target",
    "C26_top",
    "C26_current",
    "C26_insensitive",
    "C26_case_twice",
    "C26_case_ascii"
   ],
   "note": "Unicode tables and Value.String are parameters with the contract casing_ok (PropReplace.v), needed only for C26_insensitive, C26_case_twice, C26_case_ascii."
  },
  {
   "property": "C27",
   "status": "proved",
   "theorems": [
    "C27_parse",
    "C27_round_trip",
    "C27_bars",
    "C27_code"
   ],
   "note": "PropGin.v; regular expressions as syntax with Go's leftmost-first matching, on bytes"
  },
  {
   "property": "C28",
   "status": "proved",
   "theorems": [
    "C28_reports",
    "C28_unknown_tag",
    "C28_odd_default"
   ],
   "note": "PropGin.v; regular expressions as syntax with Go's leftmost-first matching, on bytes"
  },
  {
   "property": "C29",
   "status": "proved",
   "theorems": [
    "C29_tags",
    "C29_readings",
    "C29_last",
    "C29_traffic",
    "C29_traffic_level",
    "C29_defaults"
   ],
   "note": "PropGin.v; regular expressions as syntax with Go's leftmost-first matching, on bytes"
  },
  {
   "property": "C30",
   "status": "proved",
   "theorems": [
    "C30_counts",
    "C30_sorted",
    "C30_json"
   ],
   "note": "Stated over texts of the RFC 8259 grammar with keys as written; C30_json connects them to JSON values. Unicode classes are a parameter fixed on ASCII only (classes_ok)."
  },
  {
   "property": "C31",
   "status": "proved",
   "theorems": [
    "C31_terminates",
    "C31_prefix",
    "C31_fields"
   ],
   "note": "Termination is the fuel bound; the original claim that every prefix is accepted is false for cut keywords (C31_ex_cut) and was corrected."
  },
  {
   "property": "C32",
   "status": "proved",
   "theorems": [
    "C32_vacuous",
    "C32_missed"
   ],
   "note": "C32_missed gives, for every object text with a repeated key, the duplicates the counter would have reported."
  },
  {
   "property": "C33",
   "status": "proved",
   "theorems": [
    "C33_ledger",
    "C33_has",
    "C33_skip"
   ],
   "note": "Function names found on the stack are arguments of the calls; uint overflow of the count is left out."
  },
  {
   "property": "C34",
   "status": "proved",
   "theorems": [
    "C34_report",
    "C34_exists"
   ],
   "note": "get_warnings is a relation: any iteration order of the map and any algorithm meeting the contract of sort.Slice."
  },
  {
   "property": "C35",
   "status": "proved",
   "theorems": [
    "C35_unused"
   ],
   "note": "Holds for histories with any number of reports in between."
  },
  {
   "property": "C36",
   "status": "proved",
   "theorems": [
    "C36_prefixes",
    "C36_manager",
    "C36_round_trip"
   ],
   "note": "Any number of reports, both prefixes, any earlier data; the line syntax is readable_report. C36_manager: the report of a manager after any calls. C36_prefixes specifies the test tags. The printed count is not read back; the collection of '# ' lines by the benchmark parser is not part of it."
  },
  {
   "property": "C37",
   "status": "proved",
   "theorems": [
    "C37_grows",
    "C37_keeps",
    "C37_others",
    "C37_none"
   ],
   "note": "All texts and all earlier data; the erasing 'None' is C37_none."
  },
  {
   "property": "C38",
   "status": "proved",
   "theorems": [
    "C38_panics",
    "C38_error",
    "C38_no_log"
   ],
   "note": "All texts; exact characterisation of the panic through the items of the text. Text-scanner limits are modelled; memory reuse of the unterminated summary line is not."
  },
  {
   "property": "C39",
   "status": "proved",
   "theorems": [
    "C39_by_name",
    "C39_again",
    "C39_level"
   ],
   "note": "The mutex serialises the calls, so histories are sequences. The stale list is part of the statement."
  },
  {
   "property": "C40",
   "status": "proved",
   "theorems": [
    "C40_text",
    "C40_views",
    "C40_known",
    "C40_items",
    "C40_no_hyphen"
   ],
   "note": "The views agree in every reachable state (C40_views, C40_items); for output built from result lines and other lines the values are those of the last line of the pair (C40_text). Floats are rationals given by a ParseFloat parameter; lines under the scanner limit."
  },
  {
   "property": "C41",
   "status": "proved",
   "theorems": [
    "C41_bench_handlers",
    "C41_bench_tests",
    "C41_warning_handlers",
    "C41_warning_tests",
    "C41_for_source"
   ],
   "note": "Benchmark and warning tag lists over all histories; the sort is any permutation that sort.Slice may give and range order is any permutation."
  },
  {
   "property": "C42",
   "status": "proved",
   "theorems": [
    "C42_float",
    "C42_uint"
   ],
   "note": "Exact rational arithmetic with infinities and NaN."
  },
  {
   "property": "C43",
   "status": "proved",
   "theorems": [
    "C43_mean",
    "C43_times",
    "C43_order",
    "C43_nan"
   ],
   "note": "Exact rational arithmetic with infinities and NaN."
  },
  {
   "property": "C44",
   "status": "proved",
   "theorems": [
    "C44_scores",
    "C44_percent",
    "C44_best",
    "C44_worst",
    "C44_nan",
    "C44_original",
    "C44_order",
    "C44_panic"
   ],
   "note": "Exact rational arithmetic; ParseFloat results assumed non-negative and at most the largest float64 (pf_ok)."
  },
  {
   "property": "C45",
   "status": "proved",
   "theorems": [
    "C45_levels",
    "C45_bound",
    "C45_scores",
    "C45_percent",
    "C45_clean",
    "C45_setup",
    "C45_fair",
    "C45_monotone",
    "C45_report"
   ],
   "note": "Exact numbers with NaN and infinities; the level lists are computed afresh (their caches are not modelled); counters below 2^64."
  },
  {
   "property": "C46",
   "status": "proved",
   "theorems": [
    "C46_selection",
    "C46_partition",
    "C46_has_test"
   ],
   "note": "Model of testTagMap, HasTest and the two option lists."
  },
  {
   "property": "C47",
   "status": "proved",
   "theorems": [
    "C47_group",
    "C47_made",
    "C47_complement",
    "C47_keeper",
    "C47_filters",
    "C47_tests"
   ],
   "note": "All item lists (names, groups built the same way, other values), any handler names. The three filters of filter/filter.go are instances."
  },
  {
   "property": "C48",
   "status": "proved",
   "theorems": [
    "C48_refused",
    "C48_get",
    "C48_list",
    "C48_order",
    "C48_panics"
   ],
   "note": "All sequences of AddKeeper and Keepers calls; the panic for an empty tag is part of the theorem. Aliasing of the returned slice is not modelled."
  },
  {
   "property": "C49",
   "status": "proved",
   "theorems": [
    "C49_reverse",
    "C49_bars",
    "C49_all_bars",
    "C49_size",
    "C49_shown",
    "C49_smallest",
    "C49_found",
    "C49_shows_all",
    "C49_markers",
    "C49_labels",
    "C49_ticks",
    "C49_cache"
   ],
   "note": "Scores are exact rationals with infinities and NaN; drawing by the chart libraries is a parameter. sort.Slice with >= is taken to give any order."
  },
  {
   "property": "C50",
   "status": "proved",
   "theorems": [
    "C50_round",
    "C50_parse",
    "C50_ascii",
    "C50_others",
    "C50_injective",
    "C50_list",
    "C50_levels",
    "C50_names",
    "C50_all"
   ],
   "note": "All texts, all numbers, all three generated enumerations and the warning levels; casing_ok states the contract of strings.ToLower. fmt of numbers is dec_of_N."
  },
  {
   "property": "C51",
   "status": "proved",
   "theorems": [
    "C51_order",
    "C51_standard",
    "C51_floor",
    "C51_agree"
   ],
   "note": "All integer levels. The comparison made by zap and logrus themselves is stated in the specification (not in the repository)."
  },
  {
   "property": "C52",
   "status": "proved",
   "theorems": [
    "C52_counter",
    "C52_flash",
    "C52_sloggy",
    "C52_bench"
   ],
   "note": "All write sequences, goroutine numbers and interleavings; flash through the pool/mutex machine of FlashConc.v, sloggy through SloggyConc.v with any derivation history. The proviso for sloggy is shown necessary by an example."
  },
  {
   "property": "C53",
   "status": "proved",
   "theorems": [
    "C53_ranged",
    "C53_ranged_uint",
    "C53_average",
    "C53_exceeds",
    "C53_misses",
    "C53_uint_double",
    "C53_overflow"
   ],
   "note": "float64 is Flocq's binary64 with ties to even, one NaN, no fused operations. These theorems use the axioms of Coq's real numbers (listed by Print Assumptions); the hypotheses exclude overflow, which is C53_overflow."
  },
  {
   "property": "C54",
   "status": "proved",
   "theorems": [
    "C54_invisible",
    "C54_plain",
    "C54_renames",
    "C54_visible",
    "C54_msg_groups"
   ],
   "note": "Equality with the flash handler on the stated domain, the general renaming, and witnesses that each exclusion is needed."
  },
  {
   "property": "C55",
   "status": "proved",
   "theorems": [
    "C55_listed",
    "C55_contained",
    "C55_order",
    "C55_fixed",
    "C55_finder",
    "C55_finder_unmarked",
    "C55_skip",
    "C55_blind",
    "C55_unqualified",
    "C55_matcher"
   ],
   "note": "For expected values made of JSON types."
  },
  {
   "property": "C56",
   "status": "proved",
   "theorems": [
    "C56_check",
    "C56_order",
    "C56_checker",
    "C56_built",
    "C56_flash"
   ],
   "note": ""
  },
  {
   "property": "C57",
   "status": "proved",
   "theorems": [
    "C57_fields",
    "C57_fields_decide",
    "C57_sourcerer",
    "C57_sourcerer_decide",
    "C57_finder_decide",
    "C57_duplicates_decide",
    "C57_big_decide",
    "C57_verify",
    "C57_lines",
    "C57_first",
    "C57_unparsable",
    "C57_disabled"
   ],
   "note": "For managers without marks where the theorem says so; with marks see C55."
  },
  {
   "property": "C58",
   "status": "proved",
   "theorems": [
    "C58_flash",
    "C58_traffic",
    "C58_trim"
   ],
   "note": "KeyValues benchmarks log the attributes slog makes of the arguments; the level filter before the handler is slog with C15."
  },
  {
   "property": "C59",
   "status": "proved",
   "theorems": [
    "C59_oracle",
    "C59_test",
    "C59_not_json",
    "C59_flash",
    "C59_flash_test",
    "C59_clash",
    "C59_sloggy",
    "C59_sloggy_test",
    "C59_programs",
    "C59_suite"
   ],
   "note": "Oracle exactness for all spelled programs (C59_oracle, C59_test, C59_not_json); both handlers pass for all of them (C59_flash, C59_flash_test, C59_sloggy, C59_sloggy_test), the 35 programs meet the hypotheses (C59_programs, C59_suite); the exception is C59_clash. GroupEmpty is not among the marks assumed absent."
  },
  {
   "property": "C60",
   "status": "proved",
   "theorems": [
    "C60_text",
    "C60_setup",
    "C60_setup_total"
   ],
   "note": "Lines as the suites print them; regular expressions evaluated with the leftmost-first meaning; a comment that looks like a definition is excluded, empty comments before any text are dropped (part of the statement)."
  },
  {
   "property": "C61",
   "status": "proved",
   "theorems": [
    "C61_count",
    "C61_count_marked",
    "C61_marks",
    "C61_level",
    "C61_source",
    "C61_source_marked",
    "C61_skipped"
   ],
   "note": "captured says the buffer is one spelled line in which no member is called fields (C31); C61_marks covers all seven checks."
  },
  {
   "property": "C62",
   "status": "proved",
   "theorems": [
    "C62_suite_marked",
    "C62_suite_unmarked",
    "C62_flash",
    "C62_sloggy"
   ],
   "note": "Subjects are functions of options, derivation, context and record; TestSlogTest is C64, TestComplexCases is C59. right_handler is the specification, met by flash0 and sloggy0 (examples), which C62_flash and C62_sloggy show for any flash and sloggy."
  },
  {
   "property": "C63",
   "status": "proved",
   "theorems": [
    "C63_remove_time",
    "C63_derived_group",
    "C63_change_key",
    "C63_remove_empty_key",
    "C63_group_duration"
   ],
   "note": "Each part a theorem with a concrete run beside it."
  },
  {
   "property": "C64",
   "status": "proved",
   "theorems": [
    "C64_decides",
    "C64_decides_marked",
    "C64_pass",
    "C64_flash",
    "C64_sloggy",
    "C64_cases",
    "C64_demands",
    "C64_records"
   ],
   "note": "testing/slogtest is the standard library's: its checks and 16 cases are transcribed from Go 1.22. C64_decides and C64_decides_marked are the verdict for any table; C64_pass for any handler; C64_flash, C64_sloggy with C64_cases for both handlers."
  },
  {
   "property": "C65",
   "status": "proved",
   "theorems": [
    "C65_output",
    "C65_exists",
    "C65_exits",
    "C65_disciplined",
    "C65_registered",
    "C65_read_back"
   ],
   "note": "C65_output and C65_exits are about every output the map orders allow; C65_own is the panic, C65_twins shows that the condition on names is needed."
  },
  {
   "property": "C66",
   "status": "proved",
   "theorems": [
    "C66_published",
    "C66_logged",
    "C66_calls",
    "C66_stable",
    "C66_finishes",
    "C66_log_finishes",
    "C66_torn"
   ],
   "note": "C66_published, C66_logged, C66_stable, C66_finishes: handlers derived in parallel under the discipline; C66_calls: the calls are those of the machine of C09; C66_torn: without the discipline a line can mix two handlers."
  },
  {
   "property": "C67",
   "status": "proved",
   "theorems": [
    "C67_published",
    "C67_logged",
    "C67_stable",
    "C67_text",
    "C67_finishes",
    "C67_log_finishes",
    "C67_told"
   ],
   "note": "Published handlers log as if derived alone (C67_published), log calls under way read the right handler (C67_logged), nothing published changes (C67_stable, C67_text), nobody waits (C67_finishes, C67_log_finishes); with ReplaceAttr and groups opened twice a witness (C67_told)."
  },
  {
   "property": "C68",
   "status": "proved",
   "theorems": [
    "C68_record",
    "C68_verify",
    "C68_slogtest",
    "C68_cases",
    "C68_bench"
   ],
   "note": "Every call of the verification suite and of TestSlogTest, and every benchmark, on top of C54, C58, C62 and C64; the general record theorem leaves out groups behind LogValuers (flash does too, C11)."
  },
  {
   "property": "C69",
   "status": "proved",
   "theorems": [
    "C69_any",
    "C69_tabular",
    "C69_total",
    "C69_unique",
    "C69_ambiguous"
   ],
   "note": "C69_tabular: the whole output, from the texts of the runs; C69_any: the listing for arbitrary texts; C69_total; C69_unique and C69_ambiguous: when there is one output. Table borders and number formatting are parameters."
  },
  {
   "property": "C70",
   "status": "proved",
   "theorems": [
    "C70_introductions",
    "C70_shown",
    "C70_late_block"
   ],
   "note": "C70_introductions: what is known after a text of introductions, other lines and reports; C70_late_block: witness that an introduction after a report adds an instance named by its closing line. HandlerSummaryHTML's markdown rendering is not modelled."
  },
  {
   "property": "C71",
   "status": "proved",
   "theorems": [
    "C71_output",
    "C71_reads",
    "C71_ambiguous"
   ],
   "note": "C71_output: output of any program over derived loggers; C71_reads: calls readable from the output if nothing contains a newline; C71_ambiguous: witness that arguments are not. Value.String is a parameter; concurrent calls are not modelled."
  },
  {
   "property": "C72",
   "status": "proved",
   "theorems": [
    "C72_placed",
    "C72_oracle",
    "C72_strict"
   ],
   "note": "C72_oracle for any marks; C72_placed: the placements exist for all attributes that can be logged; C72_strict: with GroupWithTop marked the right record is a mismatch. Values of kinds the tables do not use (times, any) are outside."
  },
  {
   "property": "C73",
   "status": "proved",
   "theorems": [
    "C73_name",
    "C73_each",
    "C73_filed",
    "C73_manager",
    "C73_recorded",
    "C73_flash",
    "C73_count"
   ],
   "note": "Also closed: the loop in general for any creator and benchmark list; what is recorded for creators that write what flash does."
  },
  {
   "property": "C74",
   "status": "proved",
   "theorems": [
    "C74_text",
    "C74_unknown",
    "C74_only",
    "C74_listed",
    "C74_whole",
    "C74_errors",
    "C74_tag",
    "C74_keeper",
    "C74_reflected",
    "C74_no_tag",
    "C74_error_shown",
    "C74_dict"
   ],
   "note": "Server.v models the text cache and pageFunction; running a template is a function with a contract (template_ok) on what it prints of the title, the item and the errors."
  },
  {
   "property": "C75",
   "status": "proved",
   "theorems": [
    "C75_shown",
    "C75_large",
    "C75_again",
    "C75_tells",
    "C75_tells_levels",
    "C75_unlisted",
    "C75_alike",
    "C75_keepers"
   ],
   "note": "exhibits and registrations as data; equal tables give equal scores for any arithmetic; influence of unlisted quantities with exact numbers"
  }
 ]
}
