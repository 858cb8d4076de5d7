# Formal model of go-slog: design

The subject is the Go source in `/repo` (madkins23/go-slog at the pinned
commit).  The model is written in Rocq/Coq 8.16.1 under `/verif/rocq/theories`.
The property list is `/verif/properties.jsonl`; the status of each property and
the exact theorem names are in `/verif/MANIFEST.json`; deliberate mistakes made
to test the theorems are in `/verif/seeded/LOG.jsonl`.

Build: `cd rocq && coq_makefile -f _CoqProject -o Makefile && make -j4`
(about four minutes on four cores).

## Method

* Each Go function in scope is transcribed to a total, computable Gallina
  function (a relation where Go leaves the result open: map iteration order,
  `sort.Slice` on equal keys, scheduling, slice growth, pool evictions).  A
  comment above each definition cites the file and lines and says where the
  transcription simplifies.
* Model files contain no proofs.  Specification files (`Spec*.v`, `Json.v`,
  `History.v`) contain the independent vocabulary the theorems are stated in (an
  RFC 8259 parser, the documented meaning of attribute trees, derivation
  histories, means of percentages, ...).  Proof files contain lemmas.
* `Prop*.v` files contain the property theorems `Cnn_name`, each followed by
  `Print Assumptions`, with `Example`s beside them showing that concrete,
  non-trivial cases meet the hypotheses.
* Where an English claim one would expect is false of the code, the property says
  where it holds and where it does not; both halves are theorems.  The failing
  half is proved for a whole class of inputs where possible, else by a witness.

## Trusted base

1. Coq's kernel.  No kernel check is switched off, there are no axioms, no
   `Admitted`, no plugins, no functors or module types in the sources.
2. `Print Assumptions`:
   * every theorem except those of C53 prints "Closed under the global context";
   * the theorems of C53 (`PropFloat.v`, rounding of float64) speak about real
     numbers and print the axioms of Coq's standard real numbers:
     `ClassicalDedekindReals.sig_not_dec`, `ClassicalDedekindReals.sig_forall_dec`,
     `FunctionalExtensionality.functional_extensionality_dep` and
     `Classical_Prop.classic`.  (`C53_uint_double` and the witnesses use
     them only because `Flocq` does.)
   * Libraries loaded: the standard library everywhere, Flocq in `Float.v`,
     `FloatProofs.v`, `PropFloat.v`.
3. The faithfulness of the transcription (each definition cites its lines).
4. The contracts of the standard library that appear as hypotheses or are built
   into definitions; listed in the next section.

## Standard library and other assumptions

Values carry the observations the Go standard library would make of them instead
of being computed: a `time.Time` carries its zero test and its format function, a
float carries the text `strconv` prints for it, an `any` carries what its
`String`, `Error`, `MarshalJSON`, `MarshalText` methods and `json.Marshal`
return, a LogValuer carries its value.  Theorems quantify over all observations.
Where a theorem needs a contract of the library it is an explicit hypothesis:

| Hypothesis | Says | Met by |
|------------|------|--------|
| `stdlib_ok std` (SpecLog.v) | what `json.Marshal` returns for booleans, integers, valid UTF-8 strings and the two forms of the source | `Samples.std0` |
| `casing_ok cs` (PropReplace.v) | `strings.ToLower/ToUpper/EqualFold` on ASCII, their agreement, and that mapping twice is mapping once | `casing0`, `casing1` |
| `classes_ok u` (FieldGrammar.v) | `unicode.IsSpace/IsLetter/IsDigit` are right on ASCII | `classes0` |
| `pf_ok pf` (PropScore.v) | `strconv.ParseFloat` gives numbers from 0 to the largest float64 on the texts accepted | `pf1` |
| `marshal_ok E` (SpecChecks.v) | `json.Marshal` does not depend on the order of maps | `ChecksSamples.env0` |
| `unmarshal_ok num E` (SpecChecks.v) | `json.Unmarshal` decodes the text of an object member by member, the last of equal names counting | `ChecksSamples.env0` |
| `num_ok num` (SpecChecks.v) | `strconv.ParseFloat` is exact on integers up to 2^53 and accepts those below 2^64 | `ChecksSamples.num0` |
| `reads_ints num X`, `unmarshals_maps E` (SpecComplex.v) | `json.Unmarshal` reads an integer as its float64 conversion, and gives maps without repeated keys | `tools0`, `env0` |
| `surroundings_ok W num` (SpecVerify.v) | the clock shows a time of today in the characters of RFC3339, sources are valid UTF-8 with lines up to 2^53, ParseFloat reads the floats logged, and the contracts above | `PropVerifyTests.W0` |
| `flash_answers`, `sloggy_answers`, `levels_answer` (VerifyHandlers.v) | the handler tested is flash or sloggy | `flash0`, `sloggy0` |
| `replattr_answers`, `replattr_levels` (PropReplSuites.v) | the handler tested is replattr | C68_verify_ex |
| `sort_slice less l l'` (GoSort.v) | `sort.Slice` permutes and, for a strict weak order, sorts | relation |

Built into definitions: `strconv.Quote` is transcribed (GoQuote.v; which runes
above 127 are printable is a parameter); regular expressions are syntax with a
leftmost-first matcher on bytes (Regex.v), proved against a declarative meaning;
`bufio.Scanner` with its line limit; `append` on slices of a heap of arrays, with
an arbitrary growth policy; `sync.Pool` as a bag that may lose elements;
`sync.Mutex` as a lock; atomics as single steps; float64 as exact rationals with
NaN and infinities (`exact`, C42-C45, C49) and as IEEE binary64 (`float64`, C53).

## Files

Model files, with the Go code each transcribes:

| File | Go code | Left out or simplified |
|------|---------|------------------------|
| Bytes.v, GoSort.v, Slices.v, Regex.v, GoQuote.v, Num.v, Float.v | pieces of the Go runtime and standard library | see above |
| Slog.v | the parts of log/slog the handlers use: values, Resolve, records, levels, Source | Resolve's panic recovery |
| Flash.v | handlers/flash composer.go, group.go, handler.go, extras.go, source.go | pools (FlashConc.v), sharing (FlashHeap.v); recursion through ReplaceAttr is by fuel, theorems show when it suffices |
| FlashConfig.v | option and Extras defaulting in the caller's structures, Enabled; also sloggy's | |
| FlashHeap.v | WithAttrs/WithGroup of flash with slices in a heap | the three kinds of slices live in three heaps |
| FlashDerive.v | NewHandler, WithAttrs and WithGroup of flash run by goroutines at once, and what Handle reads of a handler | one append is one step; appends to the three fields in any order; the composer of WithAttrs is local (it is nobody else's, C10); pools, buffer and mutex of Handle are in FlashConc.v |
| FlashConc.v | concurrent Handle of flash: pools.go, composer, mutex, writer byte by byte | WithAttrs/WithGroup running at the same time; a Write is not interrupted by a panic |
| Sloggy.v | handlers/sloggy composer.go, group.go, handler.go over any writer | as for flash |
| SloggyHeap.v, SloggyConc.v | the same with shared slices; concurrent Handle | each Write atomic |
| SloggyDerive.v | NewHandler, WithAttrs and WithGroup of sloggy run by goroutines at once, and what Handle reads of a handler | one Write to a buffer, or one append to groups, is one step; steps for different fields in any order; what WithAttrs is going to write is settled when it starts; the writes and the mutex of Handle are in SloggyConc.v |
| Replace.v | replace/change.go, group.go, multiple.go | Unicode tables are parameters |
| ReplAttr.v | creator/madkinsreplattr/creator.go handlerFn | the description and links of the Creator |
| Gin.v | gin/parser.go, writer.go | time taken from the clock is a parameter |
| FieldCounter.v | internal/json/field.go | error texts, charLoc, recent |
| Warnings.v | infra/warning: manager.go, warning.go, level.go, the predefined warnings | the function name found on the stack is an argument |
| WarningsMain.v | infra/warning/manager.go: the managers, the handlers by warning, WithWarnings | pointers to warnings are the warnings; flag.Parse and m.Run come before |
| WarnParser.v | internal/data/warnings.go, warnings_parser.go, tags.go | caches of level lists; reuse of the scanner's buffer for an unended summary |
| Bench.v | internal/data/bench.go, bench_parser.go, bench_items.go, setup.go | files and flags; ParseFloat is a parameter |
| Scoring.v | internal/scoring/axis (benchmarks.go, warnings.go, common, bench, warn), score/average.go, axis.go | checks that only log, exhibits (Exhibits.v); uint sums do not wrap |
| Keepers.v | internal/scoring/score/filter.go, keeper.go, internal/scoring/filter, group | documents of a keeper, titles (Exhibits.v); writes to the returned slice |
| Enums.v | the three generated enumerations, score/type.go, data/bench_items.go, creator/utilzap, creator/utillogrus | |
| CountWriter.v | internal/test/writer.go, and the count check of bench/tests/suite.go | |
| BenchChecks.v | bench/tests: checks.go, data.go, utility.go fixLogMap/parseLogMap, benchmarks.go getLogMap | Debugf; expected values of Go types JSON does not decode to; a last line without newline whose length is a multiple of 4096 |
| BenchSuite.v, LoggingData.v | bench/tests: benchmarks.go, data.go, logging.go, logging.txt | math.Pi, the start time and the random group are parameters; slog turns keys and values into attributes |
| Complex.v | verify/tests/complex.go | DebugLevel output; programs that are not spelled right stop the test; maps are an explicit heap |
| VerifyChecks.v, VerifyTests.v | verify/tests: checks.go, documented.go, duplicate.go, other.go, replace.go, utility.go, valuer.go, the warnings of warnings.go | TestSlogTest (SlogTest.v) and TestComplexCases (Complex.v); DebugLevel output and failure texts; a handler is a function of its options, derivation, context and record, so that writing changes nothing (the tests of invariance compare outputs of equal calls); TestReplaceAttrGroup's own failures inside the replace function; the clock, ParseFloat and the date of a text are parameters |
| SlogTest.v | verify/tests/slogtest.go 22-46 (TestSlogTest) | testing/slogtest.TestHandler and its 16 cases are transcribed from the standard library of Go 1.22, which is not in /repo; the theorems on what the test decides hold for any table of cases; the texts of slogtest's errors |
| Tabular.v | cmd/tabular/tabular.go | borders, header, number formatting are parameters; flags, language, error messages |
| Summary.v | infra/creator.go 29-35, 98-100; verify/tests/suite.go 40-51 (SetupSuite); internal/data/warnings.go 70-102 | the functions of a creator (Creator's handlers are modelled elsewhere); markdown rendering |
| Trace.v | handlers/trace/handler.go; from log/slog: Logger.With, WithGroup, Enabled, Log, Attr.String | Value.String is a parameter; the handler prints to standard output without locking, calls are taken one at a time; the error of fmt.Printf |
| BenchRun.v | bench/tests/suite.go NewSlogBenchmarkSuite, logger, Run; bench/tests/warnings.go; infra/creator.go NewCreator, NewLogger, NewHandler, CanMakeHandler; internal/misc/function.go | the functions of a creator are given by what can be written through what they make; the call stack is a list of names (runtime.Callers); timing (testing.B), debug output, panics and the messages Run logs itself are left out, as are Benchmark methods without a BenchmarkFn, of which there are none |
| Server.v | cmd/server/text.go; cmd/server/server.go pageFunction, dict, unescape; the titles of cmd/server/pages/*.gohtml | a request is a page and its parameters (the router is left out); running a template is a function of the page and of the data that depend on the request, with a contract on what it prints of the title, the item and the errors; os.ReadFile and markdown rendering are functions; log messages and the language printer are left out |
| Exhibits.v | the exhibits of both axes (axis/benchmarks.go, warnings.go Setup; score/axis.go), score/keeper.go NewKeeper, internal/scoring/keeper | documents and summaries; how an exhibit is printed as HTML; the second part of keeper.Setup (the axes' Setup is in Scoring.v) |
| Chart.v | cmd/server/chart/bar.go, score.go, cache.go | drawing, colours, sizeMarkers, axis ranges |

Specification: Json.v, SpecLog.v, SpecFlash.v, SpecSloggy.v, SpecText.v,
SpecFields.v, SpecReport.v, SpecBench.v, SpecBenchText.v, SpecTabular.v, SpecSummary.v, SpecScore.v, SpecChecks.v, SpecComplex.v, SpecVerify.v,
History.v.
Samples.v and ChecksSamples.v hold concrete data for the examples.  All other files are proofs.

| Properties | Theorems in |
|------------|-------------|
| C01, C02 | PropFlashEscape.v |
| C03-C06, C11-C14 | PropFlashRecord.v (and PropSloggyRecord.v for sloggy) |
| C07, C08, C22 | PropDerive.v |
| C09, C10, C20 | PropConcurrent.v |
| C15-C17 | PropFlashConfig.v |
| C18, C21, C23, C24 | PropSloggyRecord.v |
| C19 | PropSloggyQuote.v |
| C25, C26 | PropReplace.v |
| C27-C29 | PropGin.v |
| C30-C32 | PropFields.v |
| C33-C35, C39 | PropWarnings.v |
| C36-C38 | PropReport.v, PropMerge.v, PropText.v |
| C40, C41 | PropBench.v, PropTags.v |
| C42, C43 | PropRange.v, PropAverage.v |
| C44, C46 | PropScore.v |
| C45 | PropWarnScore.v |
| C47, C48 | PropKeepers.v |
| C49 | PropChart.v |
| C50, C51 | PropEnums.v |
| C52 | PropCount.v |
| C53 | PropFloat.v |
| C54 | PropReplAttr.v (simulation in FlashSim.v) |
| C55 | PropFinder.v |
| C56 | PropBigGroup.v |
| C57 | PropVerify.v |
| C58 | PropSuite.v |
| C59 | PropComplex.v |
| C60 | PropBenchText.v |
| C61, C62 | PropVerifyTests.v (tests in VerifyProofs.v, handlers in VerifyHandlers.v) |
| C63 | PropVerifyBlind.v |
| C64 | PropSlogTest.v |
| C65 | PropWarningsMain.v |
| C66 | PropFlashDerive.v |
| C67 | PropSloggyDerive.v (groups and bytes in SloggyDeriveProofs.v) |
| C68 | PropReplSuites.v |
| C69 | PropTabular.v |
| C70 | PropSummary.v |
| C71 | PropTrace.v |
| C72 | PropMarks.v |
| C73 | PropBenchRun.v |
| C74 | PropServer.v |
| C75 | PropExhibits.v |

## How the main proofs go

* Escaping (C01, C02): loop invariant relating the pending segment and the text
  emitted so far; a decoder of JSON string bodies is the specification.
* Records (C03-C06, C18, C24): the grammar relation `jtext` and the executable
  parser agree; composers are shown to append the text of the denotation, by
  induction over attribute trees and over derivations; ReplaceAttr is arbitrary.
* Derivation (C07, C08, C22): a simulation between slices as values and slices in
  a heap under an ownership invariant; siblings that share an array break it.
* Concurrency (C09, C10, C52): an inductive invariant of a small-step machine over
  all schedules; C20 exhibits a schedule for every number of goroutines.
* Field counter (C30-C32): the rune loops follow a grammar over runes; fuel is
  bounded by the length.
* Reports (C36-C38): the patterns are computed on lines of the printed shape; the
  parser's state after each line is related to what a reader should know.
* Scores (C42-C46): exact order arguments; permutations for map order.
* Two flash handlers (C54): a simulation for any relation of attributes that is
  kept by what ReplaceAttr makes of them.
* Benchmark checks (C55, C56): what is listed is characterised by paths, so that the
  order of the maps drops out; the random big group is an inductive relation.
* The suite (C57, C58): checks are combined as deciders of a property of records;
  the text flash writes is decoded field by field and shown to have the property.
* Benchmark output (C60): each kind of line is read by exactly one pattern, so the
  parser is a fold over the lines; the comments of a report, put together, are the
  report without its first empty line, which the warning parser reads as in C36.
* Programs (C59): the heap of maps the interpreter builds is a chain that unfolds to a
  map by recursion over the steps; records are compared after pruning empty groups.
* Tests (C61-C63): a test is a function of a state with the output, the warnings and the
  verdict.  The specification lists, for every call the tests make, the members of the
  line; each test is run symbolically against it, the handlers are shown to meet it
  through the record theorems.
* Rounding (C53): monotonicity of rounding, relative error on the grid of
  multiples of the least float64, and Bernoulli's inequality for sums.

## Behaviour found while modelling (all are part of theorems or examples)

Handlers
* flash: an invalid UTF-8 byte can swallow the closing quote (C02); a group whose
  members all vanish under ReplaceAttr loses the comma before the next field
  (C04); group names passed to WithGroup are not escaped in either handler (C05);
  NaN and infinities are printed raw; a level that is not configured and not one of the
  four standard ones is logged as "" (C16).
* flash prefixes and both handlers' group lists are shared between siblings, which
  can overwrite each other (C07, C08); sloggy's prefix is copied (C22).
* flash writes nothing when marshalling fails, sloggy leaves part of a line (C06,
  C21); an attribute that fails in WithAttrs leaves a partial prefix.
* sloggy writes `{, ` when ReplaceAttr removes all built-in fields and the prefix
  is not empty (C18); its mutex guards only the newline, so lines interleave (C20).
* Two goroutines that derive from one flash handler with stored attributes write to the
  same array; a log call in between writes bytes of both (C66).  With sloggy this only
  concerns the groups that ReplaceAttr is told (C67).
* NewHandler stores defaults in the caller's structures (C17).
* A context value under the key "deadGroup" moves attributes out of their group; if
  it is not a string Handle panics (C13).
* replattr: TopCheck does not confine the replacements to the top level, since
  groups that are attributes are not passed to ReplaceAttr and names of built-in
  fields are always passed without groups; user attributes named message, lvl and
  level are changed too (C54).

Helpers
* Multiple panics on a nil function when it is reached (C25).
* Gin: the level of Traffic is ignored; an unknown `[...]` tag is an error; text
  with fewer fields in the fourth part yields three attributes (C27-C29).
* FieldCounter treats a key `fields` specially at every depth, accepts truncated
  input outside keywords, ignores text after the object (C31); the duplicate check
  of the benchmarks never parses and so never finds anything (C32).
* finder lists bare field names whatever their depth, takes a missing field for an
  expected null, and wraps a nil error (C55); bigGroupChecker passes when there is
  no group at all (C56).
* Output that is not JSON is parsed, and warned about, again by every check;
  verifyLines accepts empty output (C57).  The WithAttrs benchmarks log some keys
  twice; the check for duplicates finds nothing (C32) and the last value, which
  is the same, counts (C58).
* A failed verification of a benchmark is logged but fails nothing; its warnings are filed
  under the Go benchmark function of the handler, not the benchmark, except where a check
  gives a name of its own (C73).  The theorems on the benchmark checks used to ask for a
  manager without marks, which the suite never has: NoHandlerCreation is always marked.

* In TestComplexCases output that is not JSON ends the test and the mismatches before
  it are not reported; an attribute named like a group that is opened later and stays
  empty makes a right record a mismatch; the mark GroupEmpty has no effect (C59).

* With EmptyAttributes marked TestReplaceAttrFnRemoveTime asks for a time that is both
  text and nil; TestDerivedInvariantWithGroup derives with With, not WithGroup;
  TestReplaceAttrFnChangeKey and TestReplaceAttrFnRemoveEmptyKey are passed by handlers
  that ignore ReplaceAttr; with DurationString marked TestGroupDuration compares the
  outer text with itself (C63).  A marked LevelCase accepts a missing level as unused; a
  marked SourceKey reports a right source, whose line is a number; with Duplicates marked
  and a repeated name the number of fields is not checked (C61).

Warnings and data
* A handler name with white space is no definition, but becomes warning text; empty
  comments before any text are lost; a result line is no result with GOMAXPROCS=1
  (C40, C60).
* The server prints a tag that is in no data without escaping it, in the title of the page
  of a handler or test (through unescape) and in the data of a text that is not found
  (through template.HTML); a page that fails is answered with status 200 (C74).
* Warnings at levels outside 1..4 are kept but never shown; the registry's list is
  stale after later additions (C34, C39).
* The parser panics on an instance line before any warning; a `None` line erases
  what was known; the printed count is not read back (C36-C38).
* A warning that is added but not predefined makes WithWarnings panic instead of exiting with
  the result of the tests; different warnings of one name are listed twice with the
  summary and handlers of one of them (C65).
* One parse error ends a benchmark file; output without `-N` suffix (GOMAXPROCS=1)
  is not recognised (C40).
* A stale list of tests makes Setup panic, a benchmark handler without warning
  data makes the warning axis panic (C44, C45).
* Warnings that are not registered can push a level score below zero or to minus
  infinity (C45); the empty uint range has length 1.
* Keepers panics on an empty tag next to others and afterwards serves an unsorted
  list (C48).
* A zap/logrus threshold at Debug lets records below Debug pass (C51).
* SmallestChartSize ignores NaN while the chart hides it; dataMarkers sorts with a
  relation that is not a strict order; an Atoi range error gives a full-size
  chart (C49).
* Rounded scores can be above 100 (C53).
* A weight of 2^63 or more is shown negative; setting up a warning axis again shows its
  table twice; a quantity without weight that is the same for all handlers makes the score
  by data no number, also for the keeper Simple, whose table does not have it (C75).
* tabular lists the instances of a benchmark and of a verification test of the same
  name in an order sort.Slice does not promise, and does not list warnings read
  before any level (C69).
* A blank line in a creator's summary ends its introduction for the parser: the rest
  of the summary and all links are lost.  The line that ends an introduction is also
  read as a line of a report: after a report it becomes an instance named ":]" of the
  last warning (C70).
* A trace handler does not quote: a message, key or value with a newline breaks a line,
  and calls with different attributes can print the same line (C71).
* In TestComplexCases a marked GroupWithTop is not a tolerance: the right record becomes
  a mismatch (C72).

## Not modelled

The router of the HTTP server, its templates (except for what Server.v names), markdown
rendering, chart drawing, third-party
handlers under `creator/` (except replattr and the level conversions),
the testify suites as such, command-line flags, files, memory exhaustion, the
clock, out-of-range uint counters
(except CountWriter and range lengths).
