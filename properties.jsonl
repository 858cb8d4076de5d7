{"id": "C01", "title": "Flash string escaping is lossless", "statement": "For every byte string that is valid UTF-8, the text flash puts between quotes for a message, key or string value is a legal JSON string body: a strict RFC 8259 decoder accepts it and returns exactly the original bytes; it contains no raw quote, control byte or newline.", "quantifier": "all valid UTF-8 byte strings of any length", "why_tests_cant": "The escaper is a byte-by-byte state machine with pending-segment indices; a test covers finitely many strings, while index bugs show only for particular adjacency of escapes and multi-byte sequences.", "anchors": ["handlers/flash/composer.go: addEscaped", "handlers/flash/composer.go: addString"]}
{"id": "C02", "title": "Flash escaping outside valid UTF-8 is unsafe", "statement": "The UTF-8 hypothesis of C01 is necessary. There are byte strings (a multi-byte lead byte followed by a quote, by a newline, or by the end of the string) for which flash emits a raw unescaped quote, a raw newline, or repeats earlier text, so the emitted string literal does not denote the input; every byte string without any lead byte >= 0xC0 is nevertheless escaped without a raw quote, backslash ambiguity or control byte.", "quantifier": "all byte strings, including invalid UTF-8", "why_tests_cant": "Tests use well-formed text; whether a malformed input can break out of the string literal is a statement over all byte strings.", "anchors": ["handlers/flash/composer.go: addEscaped"]}
{"id": "C03", "title": "Flash records are well-formed JSON with the right content (no ReplaceAttr)", "statement": "For every handler obtained from NewHandler without ReplaceAttr by any sequence of WithAttrs and WithGroup calls, and every record, the line written parses (strict RFC 8259) to one JSON object whose ordered fields are: time (unless zero), level, message, source (if requested and known), then the accumulated attributes and the record attributes nested under the open groups in order, with empty attributes dropped, empty groups dropped, groups with an empty key inlined, and nothing lost, duplicated or reordered. Domain: strings valid UTF-8, group names given to WithGroup free of characters that need escaping, finite floats, marshallable Any values, no LogValuer that resolves to a group, time or duration, and no opened group left without fields.", "quantifier": "all option/extras settings, all derivation sequences, all records with attribute trees of any depth", "why_tests_cant": "Separators, group braces and the started flag interact across arbitrarily nested groups and arbitrarily long derivation chains; tests check a few shapes.", "anchors": ["handlers/flash/composer.go: addAttribute", "handlers/flash/composer.go: addAttributes", "handlers/flash/composer.go: addGroup", "handlers/flash/composer.go: addSeparator", "handlers/flash/composer.go: emptyGroup", "handlers/flash/handler.go: Handle", "handlers/flash/handler.go: WithAttrs", "handlers/flash/handler.go: WithGroup"]}
{"id": "C04", "title": "Flash records with an arbitrary ReplaceAttr function", "statement": "With any ReplaceAttr function the flash line still parses to the JSON object obtained by replacing each attribute and then nesting as in C03, provided no named group loses all of its members to replacement. The proviso is necessary: when ReplaceAttr removes every member of a group, flash omits the comma before the following attribute and the line is not JSON.", "quantifier": "all ReplaceAttr functions, derivation sequences and records", "why_tests_cant": "ReplaceAttr is an arbitrary user function; no finite set of functions covers the interaction with separators.", "anchors": ["handlers/flash/composer.go: addAttribute", "handlers/flash/composer.go: addGroup", "handlers/flash/composer.go: reset", "handlers/flash/handler.go: Handle"]}
{"id": "C05", "title": "One flash record is one physical line", "statement": "On the domain of C03 every line flash writes contains exactly one newline byte, the last one, so splitting the stream on newlines recovers the records. For unescaped group names the guarantee fails: a newline in a WithGroup name is copied raw.", "quantifier": "all handlers and records in the domain; all group names for the failure", "why_tests_cant": "Log injection is a statement about all attacker-chosen strings.", "anchors": ["handlers/flash/composer.go: addEscaped", "handlers/flash/handler.go: Handle", "handlers/flash/handler.go: WithGroup"]}
{"id": "C06", "title": "Flash Handle is all-or-nothing", "statement": "Every call to flash Handle performs at most one Write to the underlying writer; it performs none exactly when some attribute fails to marshal (and then returns an error), and otherwise one Write of the complete line.", "quantifier": "all handlers, records and marshalling outcomes", "why_tests_cant": "Requires every error path through an arbitrarily nested attribute tree to avoid output.", "anchors": ["handlers/flash/handler.go: Handle", "handlers/flash/composer.go: addAny", "handlers/flash/composer.go: addJSONMarshaler", "handlers/flash/composer.go: addTextMarshaler"]}
{"id": "C07", "title": "Deriving a flash handler does not change existing handlers", "statement": "A handler's output is a function of its own derivation only: deriving further handlers from it or from its relatives never changes what it logs. This holds for every history in which each handler whose stored prefix is non-empty is derived from at most once; it fails in general, because two handlers derived from the same non-empty handler share one backing array and the later derivation overwrites the earlier handler's attributes.", "quantifier": "all histories of derivations over a tree of handlers, all slice-growth policies", "why_tests_cant": "Aliasing depends on the derivation history and on slice capacities; tests derive one child at a time.", "anchors": ["handlers/flash/handler.go: WithAttrs", "handlers/flash/handler.go: WithGroup", "handlers/flash/composer.go: newComposer"]}
{"id": "C08", "title": "ReplaceAttr sees the right open groups", "statement": "In a chain of WithGroup and WithAttrs calls the groups argument passed to ReplaceAttr is exactly the list of the names of the groups open at that time, in order, for a non-basic attribute, and empty for a basic field. In a tree of handlers this holds when, except for handlers with no open group, each handler together with the handlers made from it by WithAttrs (or WithGroup with an empty name) is extended by WithGroup at most once; otherwise (flash and sloggy) siblings share the groups slice and the earlier sibling is told the later sibling's group name.", "quantifier": "all histories of WithGroup over a handler tree", "why_tests_cant": "The overwrite appears only at particular depths (slice capacity 4, 8, ...) and sibling orders.", "anchors": ["handlers/flash/handler.go: WithGroup", "handlers/sloggy/handler.go: WithGroup", "handlers/flash/composer.go: addAttribute", "handlers/sloggy/composer.go: addAttribute"]}
{"id": "C09", "title": "Flash log lines never interleave", "statement": "For any number of goroutines logging through handlers that share a mutex and writer (other handlers use the same pools), under every schedule and for a writer that consumes bytes one at a time, the stream is at every moment a concatenation of complete lines followed by a prefix of one line; when all goroutines finish, the lines are a merge of the goroutines' line sequences with each goroutine's order preserved and none lost or repeated. No schedule deadlocks: from every state all calls can complete. If Writes fail part way, the stream is still a sequence of pieces each of which begins one line.", "quantifier": "all schedules, all numbers of goroutines and records", "why_tests_cant": "Schedules are unbounded; a race test samples a few.", "anchors": ["handlers/flash/handler.go: Handle", "handlers/flash/pools.go: arrayPool"]}
{"id": "C10", "title": "Pooled flash buffers are never shared", "statement": "Under every schedule, including arbitrary buffer growth and arbitrary draining of the pool, a buffer taken from the pool is owned by exactly one in-flight Handle call until that call has finished writing, so no call's bytes are overwritten by another call.", "quantifier": "all schedules of get/append/grow/write/put and pool evictions", "why_tests_cant": "Premature return of a buffer only shows under rare interleavings.", "anchors": ["handlers/flash/handler.go: Handle", "handlers/flash/pools.go: arrayPool.get", "handlers/flash/pools.go: arrayPool.put", "handlers/flash/composer.go: reuseComposer"]}
{"id": "C11", "title": "WithAttrs composes", "statement": "For flash and sloggy, adding attributes in two WithAttrs calls gives the same output as adding the concatenation in one call; WithAttrs of no attributes and (on an ungrouped handler) WithGroup of the empty name change nothing; and attributes added by WithAttrs appear exactly as if they had preceded the record's own attributes in the same open group.", "quantifier": "all handlers, attribute lists and records (attributes within the domain of C03/C04 and C18; for sloggy, the last claim needs a built-in field that ReplaceAttr keeps)", "why_tests_cant": "An algebraic law over all splits of all lists.", "anchors": ["handlers/flash/handler.go: WithAttrs", "handlers/sloggy/handler.go: WithAttrs", "handlers/flash/handler.go: Handle", "handlers/sloggy/handler.go: Handle"]}
{"id": "C12", "title": "Empty groups are elided", "statement": "For every chain of WithGroup calls on top of any handler, a record all of whose attributes are empty is logged exactly as the handler below the chain would log it (flash and sloggy). The guarantee does not extend to records whose attributes are only empty group attributes, to WithAttrs of empty attributes inside a group, or to groups followed by WithGroup of the empty name: each of those produces an empty JSON object.", "quantifier": "all chain lengths, names, base handlers and records", "why_tests_cant": "The elision is implemented by recursive delegation through parents with a context variable; depth is unbounded.", "anchors": ["handlers/flash/group.go: Handle", "handlers/flash/group.go: WithGroup", "handlers/sloggy/group.go: Handle", "handlers/sloggy/group.go: WithGroup"]}
{"id": "C13", "title": "The context does not influence the output", "statement": "For every context that carries no value under the string key \"deadGroup\", Handle's output is independent of the context. With such a value the output can change: attributes are moved out of their group, and a value that is not a string makes Handle panic.", "quantifier": "all contexts, handlers and records", "why_tests_cant": "A test passes one context; independence quantifies over all.", "anchors": ["handlers/flash/group.go: Handle", "handlers/sloggy/group.go: Handle"]}
{"id": "C14", "title": "LogValuers are transparent in flash", "statement": "Without ReplaceAttr, an attribute whose value is a LogValuer resolving (within 100 steps) to a string, integer, unsigned integer, boolean or Any value is logged with the same JSON value as the resolved value itself. This fails for LogValuers resolving to a group, a time or a duration: the group is not logged as a JSON object and an empty one is not dropped. With ReplaceAttr set, LogValuers are always resolved before the function sees them.", "quantifier": "all LogValuer chains and resolved values", "why_tests_cant": "The kind is captured before resolution; only certain resolved kinds expose it.", "anchors": ["handlers/flash/composer.go: addAttribute", "handlers/flash/composer.go: addAny"]}
{"id": "C15", "title": "Level filtering is exact and monotone", "statement": "Enabled(l) is true exactly when l is at least the handler's current level; the current level is Info if no options or no Leveler were given, follows later changes of a dynamic Leveler, is shared by all derived handlers and so Enabled is monotone in l. (flash and sloggy)", "quantifier": "all levels, options, derivations and changes of a LevelVar", "why_tests_cant": "Levels are unbounded integers and the threshold changes over time.", "anchors": ["handlers/flash/handler.go: Enabled", "handlers/flash/handler.go: fixOptions", "handlers/sloggy/handler.go: Enabled", "handlers/sloggy/handler.go: fixOptions"]}
{"id": "C16", "title": "Level names", "statement": "For the four standard levels the level text flash logs is the configured name, or the standard name if none (or an empty one) is configured; it is non-empty. For any other level that is not configured, flash logs the empty string, whereas sloggy logs a text from which the level can be recovered: distinct levels have distinct texts.", "quantifier": "all integer levels and all Extras.LevelNames maps", "why_tests_cant": "Levels and maps are unbounded.", "anchors": ["handlers/flash/extras.go: fixExtras", "handlers/flash/handler.go: Handle", "handlers/sloggy/handler.go: Handle"]}
{"id": "C17", "title": "Extras defaults", "statement": "Completing an Extras value is idempotent, keeps every non-empty user setting, leaves all keys, the time format and the four standard level names non-empty, and equals the defaults when nothing was set. It modifies the caller's structure in place, so two handlers built from one Extras share it.", "quantifier": "all Extras values (including nil)", "why_tests_cant": "All combinations of set and unset fields and arbitrary maps.", "anchors": ["handlers/flash/extras.go: fixExtras", "handlers/flash/handler.go: NewHandler"]}
{"id": "C18", "title": "Sloggy records are well-formed JSON with the right content", "statement": "For every sloggy handler obtained by any derivation sequence, with or without ReplaceAttr, and every record on the stated domain the bytes written parse to the JSON object with the same structure as in C03/C04, followed by CR LF; here groups emptied by ReplaceAttr do not break the syntax. Domain: strings made of printable characters and the escapes JSON shares with Go, group names free of characters that need escaping, finite floats, marshallable values, at least one basic field kept when attributes were added by WithAttrs or WithGroup.", "quantifier": "all derivation sequences, records and ReplaceAttr functions", "why_tests_cant": "As C03.", "anchors": ["handlers/sloggy/composer.go: addAttribute", "handlers/sloggy/composer.go: addGroup", "handlers/sloggy/composer.go: addString", "handlers/sloggy/handler.go: Handle", "handlers/sloggy/handler.go: WithAttrs", "handlers/sloggy/handler.go: WithGroup"]}
{"id": "C19", "title": "Sloggy string quoting outside JSON", "statement": "Sloggy quotes strings with Go syntax. For every byte string the quoted text contains no raw control byte and no raw quote, so a record stays on one line; but it is a legal JSON string only for some strings: BEL, VT, other control bytes, DEL, invalid UTF-8 and non-printable characters above the BMP give Go-only escapes that a JSON parser rejects.", "quantifier": "all byte strings, all notions of printable character", "why_tests_cant": "Universal over strings; the JSON failure needs particular bytes.", "anchors": ["handlers/sloggy/composer.go: addString"]}
{"id": "C20", "title": "Sloggy output interleaves under concurrency", "statement": "Records logged by non-overlapping calls through sloggy appear whole and in order. Concurrent calls are not protected: for any two records whose own lines are JSON there is a schedule of the two Handle calls after which the stream is neither concatenation of the two lines, and consists of two lines neither of which is JSON.", "quantifier": "all sequential histories; existence of a bad schedule", "why_tests_cant": "A race detector or a test sees only the schedules that happen.", "anchors": ["handlers/sloggy/handler.go: Handle", "handlers/sloggy/composer.go: begin", "handlers/sloggy/composer.go: end"]}
{"id": "C21", "title": "Sloggy under writer failure", "statement": "If the writer fails at any point, sloggy Handle returns an error, stops writing, and what was written is a prefix of the complete line; if no write fails the whole line is written and marshalling errors are the only possible errors.", "quantifier": "all failure points of the writer, all handlers and records", "why_tests_cant": "Every write of every record is a possible crash point.", "anchors": ["handlers/sloggy/composer.go: addAttribute", "handlers/sloggy/composer.go: addGroup", "handlers/sloggy/handler.go: Handle"]}
{"id": "C22", "title": "Deriving a sloggy handler does not change existing handlers", "statement": "In any history of derivations over a tree of sloggy handlers, what each handler without ReplaceAttr logs for a record depends only on its own derivation path; with ReplaceAttr this holds when no group list is extended twice (C08).", "quantifier": "all derivation histories", "why_tests_cant": "Aliasing bugs depend on history.", "anchors": ["handlers/sloggy/handler.go: WithAttrs", "handlers/sloggy/handler.go: WithGroup"]}
{"id": "C23", "title": "Flash and sloggy agree", "statement": "On the common domain of C03 and C18, with default Extras, standard levels and no source, flash and sloggy log the same JSON object for the same derivation sequence and record, provided errors that are Stringers have one text and LogValuers resolve to strings, integers, booleans or objects. Otherwise the two can differ.", "quantifier": "all derivation sequences and records in the common domain", "why_tests_cant": "Equality of two programs over all inputs.", "anchors": ["handlers/flash/handler.go: Handle", "handlers/sloggy/handler.go: Handle", "handlers/flash/composer.go: addAttribute", "handlers/sloggy/composer.go: addAttribute"]}
{"id": "C24", "title": "Sloggy ReplaceAttr and LogValuers", "statement": "Without ReplaceAttr sloggy logs a LogValuer exactly as its resolved value, for every kind including groups, except that nil under an empty key and an empty group inside a group are then shown. With the identity as ReplaceAttr, sloggy passes the unresolved LogValuer and logs the Go object instead of its log value.", "quantifier": "all LogValuers and attribute trees", "why_tests_cant": "Needs all resolved kinds and arbitrary replacement functions.", "anchors": ["handlers/sloggy/composer.go: addAttribute"]}
{"id": "C25", "title": "ReplaceAttr combinators compose", "statement": "Running a list of replacement functions in sequence equals running its first part and then the rest unless the first part, not the empty list, removed the attribute; the empty list changes nothing; once a function removes the attribute no later function is called, whatever its effects and even if it is nil; a list of lists behaves as their concatenation on an attribute that is not empty.", "quantifier": "all lists of replacement functions, groups and attributes", "why_tests_cant": "Law over all functions.", "anchors": ["replace/multiple.go: Multiple"]}
{"id": "C26", "title": "ReplaceAttr builders touch only their target", "statement": "Change-key, change-value, change-case and remove-key functions return every attribute whose key does not match, or that is excluded by the group check, unchanged; on a match they change exactly the advertised part; key renaming preserves the value, case changing of a string is idempotent, removal yields the empty attribute.", "quantifier": "all keys, attributes, group lists and settings", "why_tests_cant": "All keys and attributes.", "anchors": ["replace/change.go: ChangeCase", "replace/change.go: ChangeKey", "replace/change.go: ChangeValue", "replace/change.go: RemoveKey", "replace/group.go: TopCheck"]}
{"id": "C27", "title": "Gin traffic lines parse back", "statement": "The traffic parser accepts exactly the lines of four bar-separated parts whose first part is a decimal number below 2^63 with blanks around it, and yields that number, the second and third part without surrounding spaces and, when the last part is two words, the first word and the second without surrounding quotes; so for every status code, elapsed text, client, method and URL without bars, blanks (method, URL) or surrounding spaces and quotes, with any padding, the line gin prints gives exactly those five fields. A line with a number of bars other than three, or a non-numeric code, is rejected.", "quantifier": "all field values and all paddings", "why_tests_cant": "Round trip over all strings.", "anchors": ["gin/parser.go: Parse"]}
{"id": "C28", "title": "Gin writer reports or logs every write", "statement": "Every Write either emits exactly one record at one of the four standard levels and returns the full length, or returns zero and an error without emitting it; in both cases nothing else is emitted except, with traffic parsing on, at most one debugging record about a line that is not traffic. A message whose leading tags (fewer than ten) are followed by a bracketed word that is not a known tag always takes the error path and nothing is emitted; so does, when the default level is not one of the four standard constants, every message that selects no level itself and is not parsed as traffic.", "quantifier": "all byte slices and writer options", "why_tests_cant": "All inputs and options.", "anchors": ["gin/writer.go: Write", "gin/writer.go: NewWriter"]}
{"id": "C29", "title": "Gin prefix stripping and levels", "statement": "A line with any sequence of up to ten [GIN], [GIN-debug] and known level tags is logged at the level of the last of them that selects one ([GIN-debug] selects debug, [GIN] none), at the default level if none does, with all tags, a time stamp and the newlines at the end removed. The configured traffic level is not honoured: parsed traffic lines are always logged at Info, with the configured message and group.", "quantifier": "all tag sequences and messages", "why_tests_cant": "All tag sequences.", "anchors": ["gin/writer.go: Write"]}
{"id": "C30", "title": "The field counter counts top-level keys", "statement": "For every valid UTF-8 JSON object text (any legal white space, nesting and values, with any text behind it) without a member named \"fields\" holding an object at any depth, the field counter succeeds, stops right behind the object and reports for every key, as written, the number of its top-level occurrences; its duplicates are exactly the keys occurring more than once with their counts, its number of fields is the number of distinct keys and its list of fields is these in order. In a text without escapes the keys as written are the keys of the JSON value.", "quantifier": "all RFC 8259 object texts", "why_tests_cant": "A hand-written rune-level parser; correctness is over all texts.", "anchors": ["internal/json/field.go: FieldCounter", "internal/json/field.go: Parse", "internal/json/field.go: parseObject"]}
{"id": "C31", "title": "The field counter on arbitrary input", "statement": "On every byte string the field counter terminates with success or an error, in a number of steps linear in its length. It is not a validator: every prefix of a valid object text that ends between characters is accepted, unless it ends inside true, false or null. Members of an object named \"fields\" are counted as top-level, and the count of \"fields\" itself starts anew there.", "quantifier": "all byte strings", "why_tests_cant": "Termination and acceptance over all inputs.", "anchors": ["internal/json/field.go: Parse", "internal/json/field.go: readLoop", "internal/json/field.go: parseField"]}
{"id": "C32", "title": "The benchmark duplicate check is vacuous", "statement": "The no-duplicates check used by the benchmark suite accepts every log line, including lines with duplicate keys, because the counter is consulted without having parsed the text.", "quantifier": "all log lines", "why_tests_cant": "A check that never fails passes every test.", "anchors": ["bench/tests/checks.go: noDuplicates", "internal/json/field.go: Duplicates"]}
{"id": "C33", "title": "Warning ledger", "statement": "After any sequence of manager calls (predefining, marking, adding, skipping, reporting) the manager holds for each warning name other than \"Unused\" exactly the instances recorded under that name, in order, with matching count and with level and summary of the first; additions under other names and reports never change them. Marking a warning that is not predefined records an Undefined warning. HasWarning tells exactly the marked warnings, predefined or not, and none if warnings are switched off, while SkipTestIf ignores that switch.", "quantifier": "all sequences of manager calls", "why_tests_cant": "Invariant over all call histories.", "anchors": ["infra/warning/manager.go: AddWarningFnText", "infra/warning/manager.go: HasWarning"]}
{"id": "C34", "title": "Warning report order", "statement": "The list of recorded warnings is ordered by decreasing level and then by name, lists each recorded warning once, loses none except obsolete unused-notices, does not depend on map iteration order, and asking again gives the same list.", "quantifier": "all manager states and all map iteration orders", "why_tests_cant": "Map iteration order is random.", "anchors": ["infra/warning/manager.go: GetWarnings"]}
{"id": "C35", "title": "Unused notices are retracted", "statement": "A notice that a warning is unused survives in a report exactly when nothing has been recorded under that name by the time of the report, whatever reports were made in between; the unused warning itself disappears when it has no instance left.", "quantifier": "all manager histories", "why_tests_cant": "Depends on the order-independent combination of all recorded warnings.", "anchors": ["infra/warning/manager.go: GetWarnings", "infra/warning/manager.go: AddUnused"]}
{"id": "C36", "title": "Warning reports survive the text round trip", "statement": "The text the verification and benchmark suites print for a handler's warnings, parsed by the server's warning parser, yields the same levels, warnings, counts of instances, instance names and log lines, for every list of warnings whose texts obey the report's line syntax.", "quantifier": "all warning lists in the line syntax", "why_tests_cant": "Printer and parser live in different programs connected only by text.", "anchors": ["infra/warning/manager.go: ShowWarnings", "internal/data/warnings_parser.go: ParseWarningData"]}
{"id": "C37", "title": "Merging warning data", "statement": "Parsing further warning text never removes anything from the by-test and by-warning views, nor from a handler the text does not name, nor from a handler for which no \"None\" line follows the line naming it. A report of \"None\" erases all of that handler's earlier warnings, including those of the other suite, while the by-test and by-warning views keep every instance of them and so disagree with the by-handler view.", "quantifier": "all pairs of parsed texts", "why_tests_cant": "Depends on the sequence of sources.", "anchors": ["internal/data/warnings_parser.go: ParseWarningData", "internal/data/setup.go: Setup"]}
{"id": "C38", "title": "The warning parser on arbitrary text", "statement": "On every input text the warning parser returns normally unless, within the report of a handler, a log line (starting with a brace) comes while no instance is open, that is with no instance line since the last line naming a handler, level or warning; in that case, and only then, it panics. If it returns, it returns an error exactly if some line has more than 65535 bytes and no line announcing the handlers by warning comes before it.", "quantifier": "all input texts", "why_tests_cant": "All inputs.", "anchors": ["internal/data/warnings_parser.go: ParseWarningData"]}
{"id": "C39", "title": "Warning registry", "statement": "Looking up a warning by name returns the first one created with that name, and creating it again returns that one; the per-level lists contain, in name order, exactly the warnings of that level created before the first request for a list made when any warning existed, and never those created later.", "quantifier": "all interleavings of creation and listing", "why_tests_cant": "Depends on call order.", "anchors": ["infra/warning/warning.go: NewWarning", "infra/warning/warning.go: ByName", "infra/warning/warning.go: WarningsForLevel"]}
{"id": "C40", "title": "Benchmark views agree", "statement": "After parsing any benchmark output, the by-test and by-handler views contain the same (test, handler) pairs with the same iterations, nanoseconds, bytes, allocations and MB/s, and each pair has the values of the last line printed for it. HasTest and HasHandler know exactly the tests and handlers with a result. The GB/s and TB/s items are only filled in the by-test view, so handler charts show zero for them. A line without a hyphen, as go test prints with one CPU, is never data.", "quantifier": "all benchmark texts", "why_tests_cant": "Two maps maintained in parallel over arbitrary input.", "anchors": ["internal/data/bench_parser.go: ParseBenchmarkData", "internal/data/bench.go: ItemValue"]}
{"id": "C41", "title": "Tag lists", "statement": "In any history of parsing and list requests, the first request for the handler (or test) tags of benchmark or warning data whose answer is not empty returns exactly the tags with data at that moment, each once, in the order of their display names; every later request returns that same list whatever was parsed since. The tests of one warning source are the listed tests whose tag starts with the source and a dot.", "quantifier": "all parse/request histories", "why_tests_cant": "Cache staleness depends on call order.", "anchors": ["internal/data/bench.go: HandlerTags", "internal/data/bench.go: TestTags"]}
{"id": "C42", "title": "Ranged score", "statement": "Over exact numbers: for every list of values that are not all equal the range built from it gives every value in it a score between 0 and 100, 100 exactly at the lowest and 0 exactly at the highest value, strictly decreasing and evenly spaced in between; if the values are all equal the range has length zero.", "quantifier": "all unsigned and non-negative rational value lists", "why_tests_cant": "All value lists.", "anchors": ["internal/scoring/axis/common/range.go: RangeUint64", "internal/scoring/axis/common/range.go: RangeFloat64"]}
{"id": "C43", "title": "Weighted average", "statement": "The average lies between the least and greatest value added with positive multiplicity, adding a value with multiplicity n equals adding it n times, the result does not depend on the order of additions, and it is not a number exactly when the total multiplicity is zero (or a non-number was added).", "quantifier": "all sequences of additions", "why_tests_cant": "All sequences and orders.", "anchors": ["internal/scoring/score/average.go: Average"]}
{"id": "C44", "title": "Benchmark scores are percentages", "statement": "Over exact numbers, for any order of the loops over maps: a handler's result in a test is the weighted mean of its percentages in the quantities in which the handlers differ, and the scores by test, by data and by default are the means of those over the tests, over the quantities and of both. Every score that is a number lies between 0 and 100; a handler with the lowest value in every quantity of every included test has 100 and one with the highest has 0. The score by test is not a number exactly when there is no test or some included test has the same results for all handlers in every weighted quantity; the score by data exactly when some quantity, whatever its weight, is the same for all handlers in each included test of the handler (or no quantity has a weight). The original score differs from the score by test only by rounding. The setup panics exactly when a handler has a result for an included test missing from an outdated list of tests.", "quantifier": "all benchmark data sets, weights and test selections", "why_tests_cant": "All data sets and map orders.", "anchors": ["internal/scoring/axis/benchmarks.go: Setup", "internal/scoring/axis/bench/original.go: Original", "internal/scoring/axis/bench/weight.go: weight"]}
{"id": "C45", "title": "Warning scores are percentages", "statement": "Over exact numbers. The level score of a listed handler is 100 without warnings at the level, 100*(known-own)/known otherwise (minus infinity if no warning of the level is known), and a percentage exactly when the handler has not more warnings at the level than are registered and in use there. If all its warnings are known at their level (registered there, with an instance), all its scores are percentages, 100 without warnings, and do not increase when a further report records warnings of it. Unregistered warnings, and warnings without instances, break the lower bound. Scores of handlers that Setup did not list panic.", "quantifier": "all warning data sets", "why_tests_cant": "All data sets.", "anchors": ["internal/scoring/axis/warnings.go: Setup", "internal/scoring/axis/warnings.go: ScoreForLevel"]}
{"id": "C46", "title": "Test selection", "statement": "A test is scored exactly when it is included (or there is no include list and it is a known test) and not excluded; including and excluding the same set of tests select complementary sets, so that the large and small selections partition the benchmark tests; after the setup the axis reports a test exactly when it is selected, was run by a scored handler, and its results differ in some weighted quantity.", "quantifier": "all tag lists and selections", "why_tests_cant": "All sets.", "anchors": ["internal/scoring/axis/benchmarks.go: testTagMap", "internal/scoring/keeper/size.go"]}
{"id": "C47", "title": "Handler filters", "statement": "A handler group made from names, other groups and values of other types (nested to any depth, with repetitions, in any order) accepts exactly the handlers mentioned somewhere in it; making one fails only for a nil group. Include and exclude filters over groups mentioning the same names accept complementary sets, so the handlers of the two keepers are the handlers of the unfiltered one, each once. The three filters used by the keepers (basic, dedup, replattr) cover every handler and overlap only in slog/JSONHandler and madkins/flash. Test tags go through the same handler-name filter.", "quantifier": "all handler lists and handlers", "why_tests_cant": "All lists.", "anchors": ["internal/scoring/filter/filter.go", "internal/scoring/group/group.go"]}
{"id": "C48", "title": "Keeper registry", "statement": "After any sequence of registrations: a registration is refused exactly if the tag was registered before, and then changes nothing; lookup returns the first registration; the list has every registered tag once, ordinary tags alphabetically before those starting with '+', whatever the order of the registrations and of earlier listings. This holds unless an empty tag is registered beside another: then the first listing panics and the next returns the tags in an unspecified order.", "quantifier": "all registration sequences", "why_tests_cant": "All sequences.", "anchors": ["internal/scoring/score/keeper.go: AddKeeper", "internal/scoring/score/keeper.go: Keepers"]}
{"id": "C49", "title": "Chart data", "statement": "A bar chart shows, for the tags in listed order from last to first, exactly one bar per record, each label in the place of its own value. The size parameter of a score chart is clamped to the four sizes; any text that is not an int64 (over-range numbers included) gives the full size. A chart of a size holds exactly the keeper's handlers whose y is at least the size's low and whose x is too, unless the warnings do not list the handler (then x is 0). The size chosen by SmallestChartSize is the largest at which no handler is below the low, and at it exactly the handlers are shown whose scores are numbers and not negative (a NaN or negative score is shown at no size). Every handler shown with y above 1/100000 gets one marker with its name; labels go down from at most 100 in equal steps; axis ticks are the low and all multiples of the tick distance up to 100. Whatever requests are served and however they interleave, an answer from the cache is one the request could get with an empty cache.", "quantifier": "all records, tags, items, handler sets, scores (NaN and infinities included), request sequences and interleavings", "why_tests_cant": "All data.", "anchors": ["cmd/server/chart/bar.go: reverse", "cmd/server/chart/score.go: SmallestChartSize", "cmd/server/chart/score.go: scoreChartSize"]}
{"id": "C50", "title": "Enumerations and level names round trip", "statement": "For score types, benchmark items and dedup modes: printing a member gives its declared name and reading the name gives the member back; reading accepts exactly the texts whose runes have the same lower case as those of a member name (for ASCII texts: the same letters but for case), and rejects every other text; every other number prints as Type(n), differently from all others, and is not read back. The same holds for the four warning levels, with the extra name Admin. The list of score types keeps the readable names in order. Headings and display names of members are distinct. The lists of all constants and of all names are in the order of declaration.", "quantifier": "all texts and all members", "why_tests_cant": "Rejection quantifies over all texts.", "anchors": ["internal/scoring/score/type_enumer.go", "infra/warning/level.go: ParseLevel", "internal/data/bench_items.go"]}
{"id": "C51", "title": "Level conversion preserves order", "statement": "Converting slog levels to zap or logrus levels never reverses the order of two levels and keeps the standard levels distinct. A logger with a converted threshold logs exactly the records that are not below a standard level (info, warn, error) reached by the threshold; so it logs everything slog would, and filters like slog for all records exactly if the threshold is info, warn or error.", "quantifier": "all integer levels", "why_tests_cant": "All integers.", "anchors": ["creator/utilzap", "creator/utillogrus"]}
{"id": "C52", "title": "Counting writer", "statement": "Whatever the interleaving of goroutines calling Write, the counting writer's count is the number (modulo 2^64) of writes whose last byte is a newline. With flash it is the number of records whose Handle has written, and after all calls the number of records logged without an error; so the check after a benchmark passes exactly if no record failed. With sloggy, which makes many writes per record, it is the same number after all calls, provided json.Marshal and strconv give no text ending in a newline (group names with newlines do no harm).", "quantifier": "all write sequences and interleavings", "why_tests_cant": "All sequences.", "anchors": ["internal/test/writer.go: CountWriter"]}
{"id": "C53", "title": "Scores under float64 rounding", "statement": "Computed in float64 with rounding at every step, the ranged score of any finite non-negative measurement is finite, at least 0, exactly 0 at the highest value, within one unit in the last place (2^-46) of 100 at the lowest value and never more than that above 100, never increases with the measurement, and differs from the exact percentage by at most 2^-44, provided a hundred times the length of the range does not overflow; for counts the same holds up to 2^53. The weighted average differs from the exact mean of the values added by a relative error of at most 2^-52 per rounding step. None of this can be improved to exact percentages: the best measurement can be rated above 100 or below 100, counts above 2^53 can be rated 200, and an overflowing range rates infinity.", "quantifier": "all lists of float64 and uint64 measurements, all sequences of weighted values", "why_tests_cant": "The bounds concern all float64 values; the rounding failures show on few of them.", "anchors": ["internal/scoring/axis/common/range.go: RangedValue", "internal/scoring/score/average.go: Average"]}
{"id": "C54", "title": "The replattr handler writes what the flash handler writes", "statement": "The madkins/replattr handler, which renames the built-in fields and capitalises the level names with flash.Extras and undoes that with ReplaceAttr functions, logs byte for byte what the flash handler logs with the user's ReplaceAttr function, including errors and lines that are not written, for attributes that nowhere use the names message, lvl, level or msg, if the user's function leaves the empty attribute empty and does not put such names into groups; without a user function the same holds against the flash handler without ReplaceAttr if there are no LogValuers. In general, user attributes named message are logged as msg and user attributes named lvl as level in upper case at every depth, and user attributes named level are turned into upper-case strings unless WithGroup was called. Each exclusion is needed.", "quantifier": "all derivations, contexts, records, levels, user functions and Unicode tables", "why_tests_cant": "Equality of two handlers for all derivations and functions; the tests check fixed field names of single records.", "anchors": ["creator/madkinsreplattr/creator.go: handlerFn", "replace/change.go: ChangeKey, ChangeCase", "replace/group.go: TopCheck", "handlers/flash/composer.go: addAttribute"]}
{"id": "C55", "title": "What the benchmark checks finder and matcher accept, list and record", "statement": "finder accepts a record exactly if the record holds, at every path of the expected map, the same value (a missing value counts as null); finderDeep lists, sorted and in every order of the maps, the last component of exactly the paths at which it does not, those logged as a string of the JSON text apart; its error, its Mismatch and StringAny warnings and the Unused warnings follow from that and the marks alone, and no other warning is recorded. matcher accepts exactly a record that is the same as the expected map once time is removed, the level is in upper case and message is renamed msg. The listed names do not say at which level a field is, and SkipDedup switches four checks off.", "quantifier": "all expected and actual maps of JSON values of any depth, map orders, marks and outputs", "why_tests_cant": "Completeness and soundness of a recursive comparison over unbounded nested maps and all range orders; the suite runs it on a dozen fixed maps.", "anchors": ["bench/tests/checks.go: finder, finderDeep, matcher", "bench/tests/benchmarks.go: getLogMap", "bench/tests/utility.go: fixLogMap, parseLogMap"]}
{"id": "C56", "title": "The big group is built, logged and checked to its full depth", "statement": "bigGroupCheck returns, for every order of the maps, the starting depth plus the depth of nesting exactly if every nested group is named after its parent and every other field is count, depth or limit, and an error otherwise; bigGroupChecker passes silently exactly if there is no group field or one that is well named and nested 5 deep, and records one Mismatch warning otherwise. Whatever the random numbers, bigGroupBuilder builds a group that flash logs as such an object of exactly the limit's depth, so that flash's line for it always passes, also after other attributes.", "quantifier": "all decoded values, depths, stems, random choices, limits below 2^53, attributes before the group, flash options and extras", "why_tests_cant": "The tree is random and deep; one run sees one tree, and the checker itself is never run on a wrong one.", "anchors": ["bench/tests/data.go: bigGroupBuilder, bigGroupCheck", "bench/tests/checks.go: bigGroupChecker", "handlers/flash/composer.go: addGroup"]}
{"id": "C57", "title": "Benchmark checks put together accept exactly the records their parts accept", "statement": "fields accepts exactly the records that hold all the named fields and lists the others in order; sourcerer accepts exactly the records whose source is an object with file, function and line, and otherwise records SourceCaller if there is a caller and no source, else SourceMissing; the check of the disabled logger accepts exactly empty output and otherwise records NotDisabled; verify accepts exactly the records that every one of its checks accepts; verifyLines accepts output exactly if every line, also an unfinished last one, is accepted by every check, and fails with what the first line that is not accepted gives. A passing check records nothing. Output that is not JSON is recorded as one TestError per check and one more.", "quantifier": "all lists of checks that decide a property of records, all records, outputs with any number of lines, line ends and marks where stated", "why_tests_cant": "The checks are themselves the tests; nothing tests that they reject exactly what they should, for every record and any number of lines.", "anchors": ["bench/tests/checks.go: fields, sourcerer, verify, verifyLines", "bench/tests/benchmarks.go: getLogMap"]}
{"id": "C58", "title": "flash passes every benchmark of the suite without a warning", "statement": "For each of the twelve benchmarks, whenever and from wherever its calls are made and whatever the random big group is, the flash handler derived and called as the benchmark does has exactly one output, and the benchmark's VerifyFn accepts it without an error and without recording a warning. All 51 lines of the traffic log are used, each with code, elapsed, client, method and url. Of a line that starts with a time of day and a level, everything from the first digit after them is parsed.", "quantifier": "all times, source locations, random big groups, map orders, decodings of numbers that meet the contract of encoding/json", "why_tests_cant": "A run sees one time, one place and one random tree; the claim joins the handler's output for all of them with the checks' decision.", "anchors": ["bench/tests/benchmarks.go: Benchmark*", "bench/tests/data.go", "bench/tests/logging.go", "bench/tests/checks.go", "handlers/flash/handler.go: Handle"]}
{"id": "C59", "title": "The programs of the verification suite: the expected record is the record slog should give, and flash and sloggy give it", "statement": "Running a program (groups opened, attributes attached, one message) with no relevant warning marked, TestComplexCases makes exactly the calls the program spells and takes a record as right exactly if, up to groups without content and leaving out the time, it agrees with the members a correct handler writes for those calls; all mismatches of a run are reported in one warning, right-aligned and sorted. flash and sloggy have exactly one output for every such program at any time and pass, in particular with the 35 programs there are. Two limits: output that is not JSON ends the test and loses the mismatches found before, and an attribute named like a group that is opened after it and stays empty makes flash's right record a mismatch. The mark GroupEmpty makes no difference.", "quantifier": "all programs and attribute tables, all captured outputs, times, standard-library behaviours meeting their contracts", "why_tests_cant": "The test compares the handler with a record built by the same interpreter that drives the handler, so a mistake shared by both passes; the claim compares it with an independent meaning of the calls for every program.", "anchors": ["verify/tests/complex.go: TestComplexCases, parse, execute, addAttrToMap, removeEmptyGroups, fixActual", "handlers/flash/handler.go: Handle", "handlers/sloggy/handler.go: Handle"]}
{"id": "C60", "title": "Benchmark output carries the handlers' names and warnings into the server", "statement": "After parsing the output of any benchmark run, the stored warning text is exactly the comment lines (text after \"# \") one below the other, each handler bears the name of the last line that defines it (\"# Handler[tag]=\\\"name\\\"\"), else the name it had, else one made from its tag if it has results, and each tested test has a name and the CPU count of its last result. If the comments are the warning reports of the handlers, wherever they stand among the results, and the verification text consists of reports, Setup returns without error, files the warnings of each report under a tag bearing the reported name (or the name itself if none does) as coming from \"Bench\" or \"Verify\" respectively, and nothing else.", "quantifier": "all outputs of result, definition, comment and other lines with lines within the scanner's limit; all lists of reports in the report's line syntax; every map iteration order", "why_tests_cant": "The text passes through three programs (suite, parser, warning parser) connected by line patterns; all interleavings of lines and all names.", "anchors": ["bench/tests/suite.go: Run", "internal/data/bench_parser.go: ParseBenchmarkData", "internal/data/setup.go: Setup", "internal/data/bench.go: HandlerLookup, WarningText"]}
{"id": "C61", "title": "The checks of the verification suite accept exactly right records, and marking a warning never makes them stricter", "statement": "For any captured line: checkFieldCount without the Duplicates mark accepts exactly if the line has that many members, all with different names; with the mark, it does the same while names differ, and otherwise accepts any number of members and records one warning that lists each repeated name with its count in order. checkLevelKey accepts exactly the upper-case name, with LevelCase marked anything, reporting a wrong text but taking a missing level as the mark being unused. checkSourceKey accepts exactly a right number of different members with a source of exactly file, function (texts) and line (number); with SourceKey marked it reports even such a source. For each of the seven checks: with nothing marked no warning is recorded, and a record accepted with nothing marked is accepted under any marks. With SkipDedup marked the two tests of repeated names accept whatever can be decoded and record SkipDedup and SkippingTest.", "quantifier": "all captured lines, spellings, maps, test states, sets of marked warnings, handlers", "why_tests_cant": "The checks are the oracle of all handler tests; nothing tests them, and each handler only shows them a few records under one set of marks.", "anchors": ["verify/tests/checks.go: checkFieldCount, checkLevelKey, checkLevelMath, checkMessageKey, checkNoEmptyAttribute, checkResolution, checkSourceKey, fieldCounter", "verify/tests/utility.go: logMap", "infra/warning/manager.go: HasWarning, AddWarning, AddUnused"]}
{"id": "C62", "title": "flash and sloggy pass all 52 tests of the verification suite with only Duplicates marked", "statement": "Any handler that writes, for each call the tests make, one line with the members slog asks for (repeated names kept) passes all 52 modelled tests in a row if only Duplicates is marked, and leaves exactly two warnings, one for each test that logs names twice, each saying alpha:2 charlie:3; with nothing marked it fails exactly these two tests and records nothing. flash and sloggy are such handlers.", "quantifier": "all times of a day and source places, standard-library behaviours meeting their contracts, warning managers with any contents, handlers meeting the specification, numbers of records logged before", "why_tests_cant": "A run shows one time, one place and one library; the claim is about every run, and about any handler meeting the specification.", "anchors": ["verify/tests/documented.go, duplicate.go, other.go, replace.go, utility.go, checks.go: all Test methods", "verify/slog_madkins_flash_test.go, slog_madkins_sloggy_test.go", "handlers/flash/handler.go: Handle", "handlers/sloggy/handler.go: Handle"]}
{"id": "C63", "title": "What tests of the verification suite cannot see or can never accept", "statement": "With EmptyAttributes marked and the ReplaceAttr warnings not, TestReplaceAttrFnRemoveTime fails for every handler. TestDerivedInvariantWithGroup gives the same result for any two handlers that agree where WithGroup is not called. A right handler changed to ignore ReplaceAttr still passes TestReplaceAttrFnChangeKey and, if it leaves out attributes without key and value, TestReplaceAttrFnRemoveEmptyKey. With DurationString marked and the outer duration written as text, TestGroupDuration passes whatever but a number is written in the group.", "quantifier": "all handlers, outputs, warning managers, numbers of records logged before", "why_tests_cant": "These are statements about the tests themselves, over all handlers.", "anchors": ["verify/tests/replace.go: TestReplaceAttrFnRemoveTime, TestReplaceAttrFnChangeKey, TestReplaceAttrFnRemoveEmptyKey", "verify/tests/other.go: TestGroupDuration", "verify/tests/documented.go: TestDerivedInvariantWithGroup"]}
{"id": "C64", "title": "What running testing/slogtest decides, and that flash and sloggy pass it", "statement": "For any table of cases, TestSlogTest without the SlogTest mark passes exactly if the non-empty lines the handler wrote are as many as the cases, each is JSON, and each satisfies its case's checks (a key is there, a key has a text, a key is missing, a check holds in a group); nothing is recorded. With the mark, JSON lines are enough: one warning is recorded if something is wrong, else the mark is recorded as unused. If the creator cannot make handlers nothing happens. A handler that writes one JSON line with the right members per case passes, with LF or CRLF line ends. flash and sloggy pass, at any time and place, every table whose attributes mean what the checks ask for, and so the 16 cases of Go 1.22. What these cases demand of the sixteen results is listed separately, as is what their records contain: all at level Info, the fourth without a time, the last without a place in the source.", "quantifier": "all tables of cases, handlers, outputs, warning managers, clocks, numbers of records logged before", "why_tests_cant": "The test runs one table against one handler at one time; the claim is about every table, every output and both directions of the verdict.", "anchors": ["verify/tests/slogtest.go: TestSlogTest", "infra/warning/required.go: SlogTest", "handlers/flash/composer.go", "handlers/sloggy/composer.go"]}
{"id": "C65", "title": "The end of a test program: every report once, the handlers by warning, the exit", "statement": "WithWarnings prints the report of the last manager created under each name, by increasing name, then the list of handlers by warning: levels decreasing, names increasing, every predefined warning that some report shows once, with exactly the handlers reporting it, and no list if there is nothing to show; the prefix is the first one that is not empty. The exit is reached exactly if every warning shown is predefined by its manager, otherwise the program panics and the list is missing; programs that only add predefined warnings reach it. Warnings taken from the registry satisfy the condition that names are unique, which is needed. The data parser reads the whole output as the reports alone.", "quantifier": "all sequences of managers and of calls on them, all warnings and names, all orders of map iteration", "why_tests_cant": "The code runs after all tests, prints in map order and ends the process; the claim is about every set of handlers and warnings.", "anchors": ["infra/warning/manager.go: WithWarnings, ShowHandlersByWarning, ShowWarnings, NewWarningManager", "internal/data/warnings_parser.go: ParseWarningData"]}
{"id": "C66", "title": "Deriving flash handlers in parallel, while others log", "statement": "If a flash handler that has stored attributes or groups is derived from at most once, by whichever goroutine, and handlers that have stored nothing as often as one likes, then whatever goroutines derive and log at the same time: every handler returned so far logs at every moment what a handler derived alone the same way logs, a log call that reads its handler byte by byte meanwhile writes that line, nothing returned ever changes, and a derivation waits for nobody. If two goroutines derive from one handler that has stored something, a log call can write a line with bytes of both: a group that nobody opened.", "quantifier": "all programs of derivations and log calls, all numbers of goroutines, all interleavings of single appends and reads of single bytes, all growth policies of append", "why_tests_cant": "The number of interleavings has no bound and slices only share an array when the capacity suffices; the race detector sees only the runs it is shown.", "anchors": ["handlers/flash/handler.go: NewHandler, WithAttrs, WithGroup, Handle", "handlers/flash/group.go: Handle, WithGroup"]}
{"id": "C67", "title": "Deriving sloggy handlers in parallel, while others log", "statement": "Whatever goroutines derive sloggy handlers and log at the same time, from whichever handlers and however often: every handler without ReplaceAttr that has been returned logs at every moment what a handler derived alone the same way logs, a log call that reads its handler byte by byte meanwhile makes exactly those writes, and the text stored in a handler that has been returned never changes. With ReplaceAttr the same holds if, except for handlers with no open group, each handler together with those made from it by WithAttrs (or WithGroup with an empty name) is extended by WithGroup at most once; otherwise a log call can tell ReplaceAttr of a group that the handler is not in and that was opened while the call was under way. Neither a derivation nor a log call's reading waits for anybody.", "quantifier": "all programs of derivations and log calls, all numbers of goroutines, all interleavings of single writes, appends and reads of single bytes and names, all growth policies of buffers and slices", "why_tests_cant": "The number of interleavings has no bound and groups only share an array when the capacity suffices; the race detector sees only the runs it is shown.", "anchors": ["handlers/sloggy/handler.go: NewHandler, WithAttrs, WithGroup, Handle", "handlers/sloggy/group.go: Handle, WithGroup"]}
{"id": "C68", "title": "madkins/replattr passes the suites that flash passes", "statement": "The handler of creator/madkinsreplattr, which has flash write other keys and level names and puts them right with ReplaceAttr functions, is indistinguishable from a correct handler for the module's own suites: for every call the verification suite makes it writes one line with the expected members, with the tests' own ReplaceAttr functions too, so that with WarnOnly(Duplicates) it passes every test and warns of nothing else; TestSlogTest passes, for testing/slogtest's cases and any others whose attributes avoid its four names; every benchmark's output is accepted without a warning. In general, without a ReplaceAttr function of the user, a record is one line of JSON that spells the built-in fields of flash and then the attributes as they come out: message as msg, lvl as level, upper-cased, and a LogValuer as the value it resolves to.", "quantifier": "all times, places and casings, all records and derivations whose attributes have a meaning, all cases of slogtest, all results of the random numbers of BigGroup, all managers", "why_tests_cant": "The test program runs the suites once, with the clock, the place and the random group of that run, and does not say for which attributes the detour through ReplaceAttr shows.", "anchors": ["creator/madkinsreplattr/creator.go: handlerFn", "verify/slog_madkins_replattr_test.go", "verify/tests", "bench/tests"]}
{"id": "C69", "title": "What tabular prints", "statement": "For the output of a benchmark run whose comments are warning reports, and the reports of a verification run, cmd/tabular prints one table for each test with a result, by the names of the tests; in it one row for each handler whose last result for the test has at least one run, by the names of the handlers and in the same order in every table, with the numbers of that result; then for each handler with a report, by name, the levels in their order that have warnings, in them each warning reported once, by name, with its summary, the number of its instances, and all of them, from the benchmarks and the verification, by the names of the tests: kind of run and test, the additional text line by line, the log record. A report without warnings makes the warnings of an earlier report for the same handler disappear. For arbitrary texts the program ends, and lists what data.Setup has kept, except what is kept under no known level. The listing is determined if the names of handlers are distinct and no warning has two different instances with the same name of a test; if a benchmark and a verification test have the same name it is not: either may come first.", "quantifier": "all benchmark texts and reports in the line syntax, all handler names, all orders of map iteration and results of sort.Slice; for totality and the general listing all texts", "why_tests_cant": "cmd/tabular has no tests. Its order depends on map iteration and on an unstable sort, of which a run shows one outcome, and its input on what the suites happened to report.", "anchors": ["cmd/tabular/tabular.go: main", "internal/data/warnings.go: Levels, Warnings, Instances, HandlerTags", "internal/data/bench.go: TestTags, HandlerTags, HandlerRecordsFor", "internal/data/setup.go: Setup"]}
{"id": "C70", "title": "Summaries and links of handlers reach the server", "statement": "When the text of a verification run begins with the introductions that SetupSuite prints for creators (name, summary line by line, links in any order), mixed with other lines that do not look like the start or end of a report or of an introduction, and goes on with warning reports, then parsing it ends without error; afterwards the handler data for the tag of each introduced creator (the last one, if several names have the same tag) hold as summary the lines of the creator's summary, each without surrounding whitespace, up to the first line without text, and as links exactly the creator's links if there is no such line and none otherwise; the handler data of all other tags are unchanged, the introductions change no warning, and the reports are read as if there were no introductions and change no summary and no links. A creator without summary, or whose name is not in the lookup, leaves no trace, whatever links it has. If an introduction comes after a report instead, its closing line is filed as an instance of the last warning.", "quantifier": "all creators whose name, link names and link targets are non-empty single lines without surrounding whitespace, link names without the arrow; all summaries; all orders of map iteration; all other lines without the markers; all readable reports; all lookups and all previous states of the data", "why_tests_cant": "There is no test of SetupSuite's output, nor of reading it back; the order of the links changes between runs and the summaries are whatever the creators of the day say, so a run shows the texts of those creators only. A blank line in a summary, which loses the links, occurs in none of them.", "anchors": ["verify/tests/suite.go: SetupSuite", "infra/creator.go: HasSummary, Summary, Links", "internal/data/warnings_parser.go: ParseWarningData, ptnSummaryStart, ptnSummaryLine, ptnSummaryLink, ptnSummaryEnd", "internal/data/warnings.go: HandlerSummaryHTML, HandlerLinks"]}
{"id": "C71", "title": "What programs that log through a trace handler print", "statement": "A program that derives loggers from one over trace.NewHandler(indent), in any order and alternating between them, prints one piece of output per call that reaches a handler, in the order of the calls: indent, two spaces for each derivation between the first handler and the one called, the method and its argument. With() without arguments and WithGroup(\"\") reach no handler and do not indent; every Log reaches Enabled and then Handle, whatever the level; empty groups are not in the record. If no argument contains a newline there is one line per call, and from the output alone one can read which methods were called at which depth. The arguments cannot be read: records with different numbers of attributes can print the same.", "quantifier": "all programs over any number of derived loggers, all levels, messages, attributes, indents and renderings of values", "why_tests_cant": "There is no test of the handler's output; the claim is about all call trees and about which facts the output determines.", "anchors": ["handlers/trace/handler.go: NewHandler, Enabled, Handle, WithAttrs, WithGroup, show, recordImage"]}
{"id": "C72", "title": "The record the verification suite's programs expect under marked warnings", "statement": "Whatever warnings are marked for a handler, TestComplexCases makes the calls a program spells and takes a record as right exactly if, up to groups without content and leaving out the time, it agrees with one determined record: every attribute in the innermost group open when it is given, except that GroupWithTop moves the attributes a group is opened with outside of all groups and GroupAttrMsgTop those of the message, unless the last opened group has no attributes of its own; durations as text, seconds, milliseconds or nanoseconds as marked, but always nanoseconds inside of groups if GroupDuration is marked; LogValuers left out if Resolver is marked; later values of the same name at the same place win. The marks ask for the deviation, they do not merely allow it: with GroupWithTop marked, a record that keeps such a string attribute in its group, as slog says, is a mismatch.", "quantifier": "all programs, attribute tables, sets of marked warnings and captured outputs", "why_tests_cant": "Each handler's test file marks one fixed set of warnings and runs 35 programs; the claim covers all sets, programs and outputs, including records the tested handlers do not write.", "anchors": ["verify/tests/complex.go: execute, addAttrToMap, expected, fixActual, TestComplexCases"]}
{"id": "C73", "title": "The loop of the benchmark suite", "statement": "Run prints one line that ties the creator's name to the handler named by the calling Benchmark function, then gives every benchmark exactly one turn, in the order of the method names: one that derives its handler is left out if the creator makes no handlers; every other one is run once with the handler it asks for (or the creator's logger where it asks for nothing and there is one), exactly this output is verified once, and unless -justTests is given the benchmark is then timed. The function a warning is filed under is the innermost of the ten nearest whose name after the last dot starts with Benchmark, which for the checks is the Go benchmark function of the handler, whatever benchmark they are at; else Unknown. With flash as handler the suite's manager ends without any warning; if the creator only makes loggers that write what flash does, with NoHandlerCreation for exactly the five benchmarks With..., under their own names, and nothing else. The suite's manager starts without warnings, with NoHandlerCreation marked, and knows exactly the six administrative warnings and those of the other levels. Lines are counted for exactly the benchmarks that log one line.", "quantifier": "all creators, benchmarks, call stacks, managers without SkipDedup, StringAny or Mismatch marked, times and places, outputs allowed by the handlers", "why_tests_cant": "The suite is the test harness itself: it only runs with the creators of the repository, all of which make handlers, so that leaving benchmarks out and the creator's logger are never exercised; a failed verification does not fail the run.", "anchors": ["bench/tests/suite.go: NewSlogBenchmarkSuite, logger, Run", "internal/misc/function.go: CurrentFunctionName", "infra/creator.go: NewCreator, NewLogger, NewHandler, CanMakeHandler", "infra/warning/manager.go: WarnOnly, AddWarningFn"]}
{"id": "C74", "title": "The pages of the web server", "statement": "A text page shows exactly the contents that the file of the last listed item of that name had when the server started (files missing or empty then do not count), and no request shows any other file; the lists of texts name each item with a file once per item, in order, and each entry is what a request for its name shows. Any other tag gives an item that shows the tag itself. Only whole pages are sent (or, if the connection fails, a beginning of one): the page asked for or, if its template fails, the page of the errors with all errors so far; what a failing template printed is never sent; if no error was added to the request, the page asked for was sent as a whole. The status is never changed, so failures are answered with 200. One .html is taken off the end of a tag, and the tag counts only for its page; the page of the scores falls back on the keeper Default, other pages on none. Failing part: a tag that is in no data comes back unescaped in the page of a handler, of a test and of a text, while errors are escaped; a request for a text without a tag fails. dict binds each name to the value after its last mention as a key with a value.", "quantifier": "all lists of text items, file contents, tags and keepers, data, templates that print the title, item data and errors as html/template does, writers, earlier errors", "why_tests_cant": "There are no tests of the server; the claims range over all tags in requests and all failures of templates and connections.", "anchors": ["cmd/server/text.go: NewTextCache, TextItem, TextItems, HasText, SafeName", "cmd/server/server.go: pageFunction, functions", "cmd/server/pages/*.gohtml", "cmd/server/parts/header.gohtml"]}
{"id": "C75", "title": "The weights shown are the weights used, and the five keepers", "statement": "The first exhibit of a benchmark axis is the table of the weights that its map has, in the order Nanoseconds, Alloc Bytes, Allocations, that of a warning axis in the order of the levels from Required to Administrative; the names of the included and excluded tests follow where the options have them. The numbers shown determine the weights: two axes with the same options and the same table score alike, whatever the data and the arithmetic, so no weight that is not shown counts. A quantity that the table does not show cannot change the score of any test nor the score by test; it can change the score by data, and the mean of both, only from or to not-a-number (which it does when the quantity is the same throughout). Setup on an empty registry registers exactly five keepers, listed as Default, Simple, Size, +Dedup, +ReplAttr; +Dedup and +ReplAttr have the weights of Default and differ from it by their filters; Size compares the two large tests with all the others. A second Setup is an error and changes no keeper. Failing part: a weight of 2^63 or more is shown as a negative number; setting up a warning axis again adds its table again, a benchmark axis replaces its own.", "quantifier": "all maps of weights, options, benchmark and warning data reached by parsing, arithmetics (for equal tables), orders of map iteration", "why_tests_cant": "The scoring packages have no tests of the exhibits or keepers; that nothing unseen influences a score is a statement about all pairs of inputs.", "anchors": ["internal/scoring/axis/benchmarks.go: Setup, Name", "internal/scoring/axis/warnings.go: Setup", "internal/scoring/score/axis.go: AddExhibit, Exhibits", "internal/scoring/score/keeper.go: NewKeeper, AddKeeper, Keepers", "internal/scoring/keeper: Setup, setupDefault, setupSimple, setupReplAttr, setupDedup, setupSize"]}
