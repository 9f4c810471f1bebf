# Design: a Rocq model of sysflow-telemetry/sf-processor

## Layout

All Coq sources are in `rocq/theories/` (logical name `Verif`), standard library only.

| kind | files |
|---|---|
| models (definitions only, each citing file:lines) | `GoBase`, `Predicates`, `FlatRecord`, `FieldTables`, and one `*Model` file per further package |
| specifications (independent of the model's helpers) | `Spec*` |
| proofs | `*Facts*` |
| theorems `Cnn_...` of `properties.jsonl`, closed by `exact`, with a concrete `Example` beside each and `Print Assumptions` | `Props_*` |
| concrete records used in examples | `Samples` |

Conventions: `_partial` marks a theorem that proves a part of its property, `_refuted` a theorem
proving that the code does *not* satisfy the property (the surrounding comment says which part
does hold). `res` (`Ok | Panic | Fatal | NoFuel`) makes panics, process exits and exhausted
recursion fuel visible. Concurrency is modelled by small-step transition systems whose
theorems quantify over all reachable states, i.e. over all schedules.

## Trusted base

* Coq 8.16.1's kernel (and `vm_compute`, used for closed table facts).
* Axioms: none. Every theorem prints `Closed under the global context`. (`vcheck` lists a few
  parameters of the standard library's `ssr` support files, which are loaded with the prelude of
  the build and on which no theorem depends.)
* ANTLR: the generated lexer takes the longest match and the first rule of the grammar file
  among equals; a parse tree returned without error is a derivation of the grammar. String
  literals that are empty or begin with a quote or backslash are outside the model (the lexical
  rule is recursive and non-greedy there), and lexing is by bytes.
* The correspondence between model and Go source (below), established by reading.
* External code enters as universally quantified functions (records such as `sfgo_fns`), so
  theorems hold for every behaviour of: sfgo (sf-apis) parsers, xxhash, gjson, regexp engines,
  file system, transports, clocks.

## Simplifications that apply throughout

* Strings are byte strings; case folding is ASCII (Go's `EqualFold`/`ToLower` are Unicode).
  Trimming and splitting at white space (`TrimSpace`, `Fields`) are exact: the white space of
  Unicode in UTF-8, also for texts that are not UTF-8 (`SpecWhite.v`). Go `int64`/`int32` arithmetic is `Z` with explicit wrap where the code adds.
* A Go map is an association list with functional update; where iteration order matters the
  theorem quantifies over the order.
* Logging, metrics, perf counters, profiling and benchmarking output are not modelled.
* The sfgo attribute index constants are assumed pairwise distinct where the code needs it.

## Which parts of the code are modelled

| Go code | model | notes |
|---|---|---|
| `policy/predicates.go`, `source/operators.go` | `Predicates`; with panics: `EvalModel`, `EvalOtel` | all functions |
| `source/flatrecord/{operations,record,prefilter,contextualizer,utils}.go`, `fieldmapper.go`, `constants.go` | `FlatRecord`, `FieldTables` | the tables are transcribed entry by entry |
| `policy/falco/compiler.go` | `FalcoModel` | from the parse tree of the ANTLR grammar on |
| `policy/falco/lang/Sfpl.g4` | `GrammarModel`, `LexerModel` | the grammar as derivation relations, the lexical rules as regular expressions; `GrammarParser` is a reference parser used in proofs |
| `policy/sigma/{compiler,modifiers,transformer}.go` | `SigmaModel` | from the rules parsed by sigma-go on |
| `path.Match` as used in `policy/sigma/compiler.go:180,197` | `GlobModel` | Go 1.19's path/match.go, one byte per character |
| `engine/{interpreter,actionhandler,config}.go`, `policyengine.go` | `EngineModel`, `EngineFlat`, `PoolModel` | worker pool and policy swap as transition systems |
| `monitor/localpolicymonitor.go` | `MonitorModel`; `WatchModel` (the directory changing between and during its reads); `StopModel` (emptying the event channel, stopping) | inotify events are arbitrary histories; in `WatchModel` every change is reported |
| tags of a record shared by the receivers of several outputs (`policyengine.go:208-210`, `record.go:248-263`, `ecs.go:141-149`, `json.go:321-340`) | `ShareModel` | an append is one step; torn writes of strings are not modelled |
| `policyengine.go` Init and createPolicyInterpreter, composition with the monitor | `InitModel` | directory listings and front ends are given by a `host` |
| the shipped pipeline as a whole (`pipeline.distribution.json`) | `AppModel` | one output channel per stage; attributes the reader does not inspect are numbered (`payloads`); the worker pool enters as the function C86 shows it computes |
| caches of processors, handlers and typed channels while pipelines load (`pipeline.go:119-204`, `plugincache.go`, `handlercache.go`, `processor.go:47-95`) | `StartModel` | plugin libraries are what they register; Init of engines, exporters and plugins is a given predicate; reloading a library by `plugin.Open` returns the same object |
| all goroutines of the shipped pipeline (`pipeline.go:119-204, 286-294` and the stages' loops) | `ChainModel` | the atomic steps of the stages' own models joined by bounded channels; one output channel per stage; the flat records of one input are sent after it has been handled |
| the shipped OpenTelemetry pipeline (`pipeline.otel.json`, `kafkadriver.go:86-120` and the stages' loops) | `OtelPipe` | as `ChainModel`; logs are values although passed by pointer (a log is in one place at a time); a panicking test yields false |
| killing and restarting it (`kafkadriver.go:63-119`, `driver/otel/config.go:44-75`) | `CrashModel` | librdkafka's consumer: offsets are stored when a message is handed over and committed at arbitrary later times; one partition, one consumer |
| killing and restarting the trace-file pipeline | `RerunModel` | the same configuration and policy files in every life |
| the Kafka target with its producer (`transports/kafka.go:48-83`) | `KafkaModel` | confluent-kafka-go's producer as documented: bounded queue, delivery reports into a bounded channel nobody reads, Flush, Close; reports taken one by one; no reconnection |
| `driver/pipeline/{plugincache,pipeline}.go` | `PluginModel`, `NetModel`, `DriverModel` | plugin loading (`plugin.Open`) is a parameter |
| `driver/pipeline/config.go:69-103` (manifest and cluster identifier) | `ManifestModel` | reading the file (viper) left out |
| `driver/sysflow/*.go`, `driver/otel/*.go`, `driver/main.go` | `DriverModel` | profiling and flag parsing left out |
| `source/otel/*.go` | `OtelModel` | doubles abstract |
| `policyengine_otel.go`, `source/common/types_otel.go` | `OtelEngine` | the engine's models at OpenTelemetry logs; a test that panics answers false (C94) |
| `core/cache/tables.go`, `core/processor/{reader,processor}.go` | `ReaderModel` | pointers to processes are indices into a heap |
| `core/flattener/*.go` | `FlattenModel` | hash function a parameter |
| `core/exporter/{exporter,commons/*,transports/*,utils/*}.go` | `ExportModel` | network clients are write results given per record |
| `core/exporter/encoders/json.go` | `JsonModel`, `JsonFlat` | byte by byte |
| `core/exporter/encoders/ecs.go` | `EcsModel` | time formatting (modelled in `TimeModel`), community ids, operation bits are parameters (`ecs_fns`) |
| `json.Marshal` of ECS documents (`encoders/ecs.go:64-98` tags; `transports/file.go:58`, `terminal.go:49`, `syslog.go:73`, `elastic.go:99`) | `EcsText` | encoding/json as documented, from its source: struct fields in order, `omitempty`, sorted map keys, HTML escaping, invalid UTF-8 replaced |
| `core/exporter/utils/utils.go:58-64` ToIsoTimeStr | `TimeModel` | package time (Unix, absDate, Format of RFC3339Nano in UTC) from its source, in Z; years in four digits |
| `plugins/handlers/printer/printer.go`, `plugins/processors/example/example.go`, `plugins/actions/example/now.go` | `ExampleModel` | the lines logged are modelled as text; the body of the example processor's loop is not |
| `driver/pipeline/pipeline.go:296-328`, `core/exporter/exporter.go:104-110` | `HealthModel` | times in nanoseconds; Test of a stage returns, fails or hangs |
| `driver/main.go:38-55`, `driver/pipeline/pipeline.go:207-245`, loops of the drivers | `SignalModel` | only the flag, the sends and the ends; one atomic step at a time; file drivers may skip records |
| the package-level buffers of `encoders/ecs.go:163-201` and `flattener/filter.go:32, 99-126` shared by goroutines | `RaceModel` | PutUint64 and h.Write are atomic steps |
| `policy/falco/compiler.go` on the trees error recovery leaves; `sfpl_parser.go` at the end of a truncated file | `RecoverModel` | missing parts as `None`; of ANTLR's recovery only: a failing `Match` at the end of the input ends the rule function with the children so far |
| `transports/elastic.go` with the ECS encoder, batch after batch | `ElasticModel` | a bulk indexer delivers any part of a batch in any order; `create` refuses identifiers in use |

## Not modelled

The code generated by ANTLR (see the trusted base), Avro decoding, the internals of network
clients (Kafka beyond `KafkaModel`, syslog, Elastic bulk indexer beyond `ElasticModel`), `plugin.Open`, command-line parsing, profiling,
logging, and the marshaller called by `encoders/otel.go` (the loop around it,
which skips records that fail to marshal, is modelled as `encode_skip`).

## Testing the theorems against wrong programs

`seeded/LOG.jsonl` records edits of the model that mimic realistic bugs. The harness works in a
copy outside `/verif`: it applies one edit, rebuilds, replaces every proof that no longer goes
through by an axiom, and then reads off `Print Assumptions` which theorems of the `Props_*` files
depend on that axiom. A line lists the definition, the edit, the claim it breaks, the theorems
that failed, and the theorems tightened or added because of it.

## Per property

| id | what is modelled | how it is proved |
|---|---|---|
| C01 | `predicates.go` criteria as functions | case analysis, induction on the list |
| C02 | `operators.go` StrOps/SliceOps | induction on strings against `SpecStrings.str_rel` |
| C03 | `operators.go` IntOps | linear arithmetic |
| C04 | `operations.go` Compare, `compareStr`, `MapStr` | split/join lemmas, `component` spec |
| C05 | FoldAny/FoldAll | induction on the list |
| C06 | Exists, RegExp | case analysis on mapped value |
| C07 | `record.go` GetInt/GetStr/GetCachedValue | induction on slots |
| C08 | `Context` | induction on histories of operations |
| C09 | `prefilter.go` | list membership |
| C10-C16 | Falco compiler over parse trees with fuel; two passes, environments | structural/well-founded induction against an inductive truth relation |
| C17-C19 | Sigma compiler over parsed rules; transformations incl. base64 | structural induction; bit arithmetic for base64 |
| C20, C21 | engine worker and action handler as functions returning effects | induction on rules/actions |
| C22, C39 | configuration constructors over string maps | case analysis per key |
| C23, C24 | pool transition system: senders, bounded channel, N workers, WaitGroup, close | inductive invariants over all schedules |
| C25 | policy engine loop with swap, composed with the pool | invariant on (accepted, processed-by) |
| C26, C27 | monitor loop and checksum comparison | invariants, induction on histories |
| C28, C29 | cache tables, ancestry recursion with fuel | induction on operation sequences / on an acyclicity measure |
| C30 | reader `Process` as a step function emitting handler calls | simulation against a history-based spec |
| C31 | rate filter queue/map with clock | invariant linking queue and map |
| C32, C33 | exporter loop as a step function | invariant on (exported ++ buffer) |
| C34-C36 | JSON encoder byte by byte; a JSON parser as spec | induction; round trip through the parser |
| C37, C38 | ECS encoder | induction on rules; case analysis on flags |
| C40, C42 | `plugincache.go`, `getEnv` | induction on operation sequences |
| C41 | pipeline of stages as a transition system | inductive invariant over all schedules |
| C43-C45 | OTel operations and contextualizer | mutual induction on attribute trees |
| C46 | `utils` Set | induction on operation sequences |
| C47, C48 | `MapInt`, `MapStr` over the real attribute table | computation on the table, string lemmas |

| C49, C50 | Sigma `re` modifier, lists of maps | counterexample records / equivalence with the disjunction |
| C51 | pool with zero workers | invariant over all schedules |
| C52, C53 | monitored files, bounded queue of policy sets | exact characterisation of the trigger; executions that drop the newest set |
| C54 | `Load` | induction on the stages |
| C55 | OTel operations | witnesses of crashes |
| C56, C57 | reader `Process`, processor relay | invariant on streams; per handler call |
| C58-C60 | flattener, semantic hash, attribute names | computation on the whole table; injectivity up to the hash |
| C61-C63 | configuration of the filter, exporter ticks, text transports | case analysis; invariants over histories |
| C64, C65 | JSON encoder totality | exact characterisation of the encodable records |
| C66-C69 | ECS ids, totality, documents, alert flag | field by field specification `SpecEcs` |
| C70, C71 | file driver as a function of file system and flag readings; composition with `NetModel` | induction on files; schedule constructed |
| C72, C73 | socket driver as a step machine over environment events | induction on histories, byte-wise buffer invariant |
| C74 | Kafka driver loop and configuration | induction on messages; case analysis |
| C75, C76 | choice, configuration and start of drivers, exit status | induction on the configuration |
| C77 | OTel file driver over a memory of shared messages | induction on files, receiver looking at any moment |
| C78-C82 | grammar and lexical rules | reference parser and derivative-based lexer proved sound and complete; mutual induction on derivations |
| C83, C84 | text, reading and compiler composed | composition with C14; rewriting |
| C85 | Init over a host (listings, file contents, watcher) | case analysis per option; equivalence with `SpecInit.compiles` |
| C86 | Init, compiler, worker and pool composed | composition of C20, C23, C83 |
| C87 | pool and monitor sharing the queue | projection to a run of the pool; grouping of accepted records by policy set |
| C88 | reader, flattener, engine and exporter as the stages of a `NetModel` network (`AppModel`) | composition of C28, C31, C32, C35, C41, C63 and C86; permutation between the stages |
| C89 | the handler cache and its libraries, over sequences of requests (`StartModel`) | induction on the requests with the invariant that the cache holds what was registered; counterexamples for sharing and for replacing the built-in |
| C90 | loading with typed channels (`StartModel.load_all`) | a loading step either fits, meets a channel that can never be made, or one of the wrong type; the first-mention semantics of channels is the specification |
| C91 | four stages as transition systems joined by Go channels (`ChainModel`) | generic invariant: what a stage received is a prefix of what the one before sent; each stage's own run lemma (C28, C31, C87, C32) gives its output; a lexicographic measure for termination |
| C92 | Sigma compiler, worker, pool, monitor and pipeline composed | C17's correspondence between conditions and rules transported through C20; generic forms of C86 and C87 (`static_gen`, `eras_gen`) |
| C93 | `OtelEngine`: engine, pool and monitor at OpenTelemetry logs | C43/C45 give `models`/`smodels` and the annotation step; induction over the rules (`work_in_turn`); `static_gen`, `eras_gen`; congruence of condition truth in the attributes named (`ev_away`) |
| C94 | tests of `OtelModel` on annotated logs | C43's exact crash conditions, invariant over annotations; refuted for the tags attribute |
| C95 | goroutines hashing through one shared buffer, step by step | invariants over all schedules; explicit schedules for the refutations |
| C96 | compiler on partial trees; parser calls on truncated declarations | agreement with `FalcoModel` on whole trees by induction on terms; calls evaluated on every prefix of a header |
| C97 | `ChainModel` with the ECS encoder and the bulk indexer | C91 for the records, C67/C68 for their documents, contents of an index after creates in any order |
| C98 | `ChainModel`, at any reachable state; `SpecRest` defines rest as: no goroutine can take a step | the invariants of C51 and C91 at that state; a state where nothing can move has empty channels, pools and hands; the measure of C91 gives existence |
| C99 | `ManifestModel` after `PluginModel.update_config`; `SpecManifest` says what each attribute must be | C40's environment theorem, then the five assignments one by one; the refuted part by the bytes lower-casing can produce |
| C100 | nothing new; `SpecWrite` writes an abstract policy as words with any layout, independently of `LexerModel`/`GrammarModel` | `WriteFacts`: each word lexes to one token of its kind, the token list derives in the grammar, uniqueness by C78; compilation by C83's `text_to_policy` |
| C101 | driver, engine and exporter of the OpenTelemetry pipeline as transition systems joined by Go channels (`OtelPipe`, on `ChainModel`) | C98's invariants (`RestFacts`) for the engine's projection, C93 for what becomes of a log, C32/C39 for batches and messages; `SpecOtelPipe.heard` says what the driver hears |
| C102 | nothing new: the compiler, engine and plugin of C86; `SpecEdit` defines the edits (insert, swap, replace at any place of any file) and what a record is told | environments that agree on the names a condition can reach give it the same value (`EditFacts.ev_agree`, by induction on evaluation); occurrences before and after the edit correspond one to one; lifted to texts and runs by C86 |
| C103 | `WatchModel`: the directory over time, inotify's queue, the monitor's goroutine with its separate listings and reads (each file read in any state the directory had during the look), the engine's takes | invariant over all interleavings (`WatchFacts.step_inv`: what the last check recorded, what is due), a measure for settling, a simulation into `MonitorModel`; the three `_refuted` theorems give schedules, for all directories where possible |
| C104 | `CrashModel`: lives of the OpenTelemetry pipeline of `OtelPipe`, each ending in any reachable state; between lives only the topic and the committed offset survive; the client library commits any offset handed over, at any time | induction over histories of lives (`CrashFacts`), C101's account at every moment; the four `_refuted` theorems construct lives, for every topic and history where possible |
| C105 | `RerunModel`: lives of the trace-file pipeline of `ChainModel`, each in any reachable state, exporting to the same index or file; a killed export loses documents, or cuts the text at a byte | the reader is a function of the records and so monotone in them, the engine's output at any moment is part of what it makes of the records taken (`RerunFacts.life_exact`, from C91/C98's snapshot), creation by identifier is idempotent |
| C106 | `KafkaModel`: Produce takes or refuses, messages arrive or fail, reports are put into the events channel, Cleanup | counting invariant (queue + reports = taken), permutation invariant for what arrived, a fair run built by induction that reaches the bound |
| C107 | `ChainModel`, `PoolModel`, `AppModel`, `OtelPipe`, `ReaderModel` (no new model); `SpecBound` counts records and goroutines | invariants of the pool at every moment (buffer and busy workers at most the concurrency each), channel capacities from the chain's steps, table contents from the reader's invariant; a family of streams by induction for the refutation |
| C108 | `EcsText` on the documents of `EcsModel`; `SpecEcsText` gives the value of a document, paths, and equality up to the order of members | an RFC 8259 relation (`SpecJson`) between texts and values; induction on the document for the text, insertion sort of keys is a permutation and canonical; the pipeline from C91 |
| C109 | `TimeModel`; `SpecTime` defines the Gregorian calendar day by day (leap years, month lengths, tomorrow) and what an RFC 3339 text says | Euclidean division for years, going through the days of a year for months, uniqueness of day numbers, induction on days; digit strings by induction |
| C110 | `ExampleModel` (the three example plugins) on `ReaderModel`; `SpecExample` pairs each event with the stream before it | positions of deliveries from C30, entities in force from C30_event |
| C111 | `HealthModel` | induction on the stages; case analysis of the select |
| C112 | nothing new: the compiler, engine and plugin of C92; `SpecSigmaEdit` defines the edits and their effects | verdicts are determined by the selected conditions (`SigmaEditFacts`); insertion and permutation by induction on the selection, rewriting by induction on conditions |
| C113 | `SignalModel`: main, the goroutine of initSigTerm and the drivers as a transition system over the shared flag | invariants over all runs (`SignalFacts`): once cleared in the running state the flag is never set again; concrete runs, by induction on the input, for the refutations |
| C114 | nothing new: two lives of `RerunModel` (the pipeline of `ChainModel`) compared; `SpecTune` says which configurations differ in tuning only | a complete life exports a permutation of what the engine of Init makes of the input (`RerunFacts`, C105); with one worker in order (`PoolFacts3.pool_order`); that function is the same for tuned configurations (`TuneFacts`). `C114_filter_matters` shows that the rate filter must be off |
| C115 | nothing new: the helpers of `GoBase` (strconv, strings, maps, `TrimBoundingQuotes`) | each is shown equal to a relation of `SpecWords`, which does not use them (`WordFacts`: induction on the text). The other specifications use these helpers, so this closes a hole that mutation of `GoBase` had shown |
| C116 | nothing new: `FlattenModel`, `JsonModel`, `AppModel`; `SpecLine.event_value` is the JSON value in terms of the event and its entities only | section by section, `SpecJson.record_value` of a flattened event equals `event_value` (`LineFacts`, from `FlattenFacts2.fields` and the last writes to the slots); then C35, C64 and, for the exported file, C88 |
| C117 | `GlobModel`: path.Match with its chunk scanner, class parser and star search; instantiates the parameter `pmatch` of `SigmaModel` | the grammar and matching relation of `SpecGlob`; chunks consume as many bytes as items; the first place after a star suffices because two places of a class-free chunk have equally many slashes (`GlobFacts`); then C17 |
| C118 | nothing new: the compiler, engine and plugin of C93; `SpecOtelEdit` says what a log is told and what each edit of `SpecEdit` changes | C93's `o_told_once` makes the verdict a function of the selected rules; the occurrences before and after the edit correspond as in C102 (`OtelEditFacts`); refuted by a concrete policy that reads `sf.processor.rules` |
| C119 | nothing new: `AppModel` for the run, the targets of `ExportModel` after its batches | C88's `app_run` gives the records exported; induction over the batches for each target (`TargetFacts`) |
| C120 | `EvalModel`: criteria that yield a Boolean or a panic (`predicates.go`'s short-circuit combinators), the Sigma compiler over them, the worker loop that a panic ends; `SpecEval`: left-to-right runs | `EvalFacts`: induction over conditions gives a run for every compiled condition, agreement with `SigmaModel` where nothing panics, the worker by induction over the rules; `OperandFacts`: no token that is an operand ends in `[`, from the characters a lexical rule can end in; refuted by a rule with the value `sf.proc.exe[` |
| C121 | `EvalOtel`: the Falco and Sigma compilers and the worker loop over criteria that yield a Boolean or a panic, on OpenTelemetry logs; `SpecEvalOtel`: left-to-right runs of conditions, filters and rules on a log, and what becomes of the log | `EvalOtelFacts`..`4`: a run for every compiled condition by induction on the fuel, the worker by induction over the rules; acceptance by simulating the compiler's state; agreement with the truth values of C10/C17 by induction over runs; no panic on calm logs as an invariant of the rules' turns; acceptance of every policy without circular definitions; refuted for logs without a resource |
| C122 | the monitor's goroutine between its events (`StopModel.m_run`), StopMonitor | induction on executions; a measure that every own step decreases; the starving execution by induction |
| C123 | Go slices in a heap, ECS exporters and an engine sharing a record's tags (`ShareModel`), the two readings of the JSON exporter | invariant of all executions: every array agrees with the tags to be exported where in use; without room, ownership of arrays; the losing schedules run symbolically for all tags |

No property of the list is left out for being inexpressible.
